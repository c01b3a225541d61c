(** Properties of derived containers on streams, C29, C31, C38, C39.

    Vocabulary: [Stream.v] (sources, sinks, [NoSeek]), [Session.v], [WSession.v]
    (sequences of calls), [Derive.v] (types, attributes, the API), [DeriveSpec.v]
    ([writes_in_order], [reads_in_order], [in_step], [source_from], [no_seek]).
    The example types are those of [P_Derive.v]. *)
From Coq Require Import Lia.
From Verif Require Import Base Spec Stream Reader Session Writer WSession Prims CodecSpec Containers ContainerSpec Derive DeriveSpec StreamProps ReadStreams Place P_Derive.

(** ** C29: what [from_bytes] returns *)

(** Every type, input and offset: the rest is the end of the input, and the bytes in
    front of it together with the offset are what [from_reader] counts. *)
Theorem C29_rest : forall cu fuel t input bit rest off v, from_bytes cu fuel t input bit = Ok ((rest, off), v) ->
  exists used s, input = used ++ rest /\ off < 8 /\ from_reader cu fuel t (cursor input) bit = (Ok (8 * length used + off, v), s).
Proof. exact from_bytes_rest. Qed.
Print Assumptions C29_rest.
(** Two calls, the second with what the first returned, do what one reader does for
    both.  Missing: first types with Lsb0 parts of less than a byte, counted [Vec<u8>] inside
    a byte or hand-written readers that ask [end()], second types that look at the offset
    or seek (all false, below). *)
Theorem C29_chain_partial : forall cu fuel whole t1 t2 input bit rest off v1,
  in_step whole cu t1 -> (whole = true -> bit mod 8 = 0) -> reads_in_order False True True cu t2 ->
  from_bytes cu fuel t1 input bit = Ok ((rest, off), v1) ->
  from_bytes cu fuel (TPair t1 t2) input bit =
    match from_bytes cu fuel t2 rest off with
    | Ok (p, v2) => Ok (p, VPair v1 v2)
    | Err e => Err e
    | Panic => Panic
    | Diverge => Diverge
    end.
Proof. exact from_bytes_chain. Qed.
Print Assumptions C29_chain_partial.
(** struct Head { #[deku(bits = 3)] a: u8, #[deku(bits = 10)] b: u16 } in front of
    struct Tail { #[deku(bits = 3)] a: u8, c: u16 }. *)
Definition Head : ty := TStruct big (field (bits 3 plain) u8 (field (bits 10 plain) u16 FNil)).
Definition Tail : ty := TStruct big (field (bits 3 plain) u8 (field plain u16 FNil)).
(** Checks the conditions on the attributes of a type. *)
Ltac conditions :=
  cbn; repeat match goal with
  | H : _ \/ _ |- _ => destruct H
  | |- _ /\ _ => split
  | |- forall _, _ => intro
  | |- Forall _ _ => constructor
  | |- False \/ _ => right
  | |- false = true \/ _ => right
  | |- True \/ _ => left
  | |- offset_free _ => constructor
  | H : Some _ = Some _ |- _ => injection H as <-
  | |- (_ < _)%Z => cbn; lia
  | |- _ => discriminate
  | |- _ => now auto
  end.
Example C29_case : in_step false no_customs Head /\ reads_in_order False True True no_customs Tail /\
  from_bytes no_customs 9 Head [x12; x34; x56; x78; x9a] 2 = Ok (([x34; x56; x78; x9a], 7), VRec [VNum 2; VNum 282]) /\
  from_bytes no_customs 9 Tail [x34; x56; x78; x9a] 7 = Ok (([x9a], 2), VRec [VNum 1; VNum 23010]) /\
  from_bytes no_customs 9 (TPair Head Tail) [x12; x34; x56; x78; x9a] 2 =
    Ok (([x9a], 2), VPair (VRec [VNum 2; VNum 282]) (VRec [VNum 1; VNum 23010])).
Proof. split; [conditions|]. split; [conditions|]. repeat split; vm_compute; reflexivity. Qed.
Example C29_case_packet : in_step false no_customs Packet /\ reads_in_order False True True no_customs Packet.
Proof. split; conditions. Qed.
(** #[deku(seek_from_start = 2)] struct Elsewhere { #[deku(reader = "f(deku::reader)")] x: u8 },
    where f reads three bits, goes one byte back and reads a nibble. *)
Definition sought_by_hand : RM value :=
  let* a := prim_read PU8 (CB 3) in let* _ := lift_io (r_seek (SeekCurrent (-2))) in let* b := prim_read PU8 (CB 4) in ret (VNum (16 * a + b)%N).
Definition Elsewhere : ty := TStruct (mkC None None [] (Some (fun _ => Some (SeekStart 2))) None)
  (field (by_hand (fun _ _ _ => sought_by_hand) plain) u8 FNil).
Example C29_case_seek : in_step false no_customs Elsewhere /\
  from_bytes no_customs 9 Elsewhere [x12; x34; x56; x78] 0 = Ok (([x34; x56; x78], 4), VRec [VNum 35]) /\
  from_bytes no_customs 9 Tail [x34; x56; x78] 4 = Ok (([x78], 7), VRec [VNum 2; VNum 11068]) /\
  from_bytes no_customs 9 (TPair Elsewhere Tail) [x12; x34; x56; x78] 0 = Ok (([x78], 7), VPair (VRec [VNum 35]) (VRec [VNum 2; VNum 11068])).
Proof.
  split; [|repeat split; vm_compute; reflexivity]. split; [exact I|]. split; [|repeat split]. split.
  - intros f H ctx fs off. injection H as <-. apply sp_bind; [apply (sp_prim false PU8 [VBits 3]); [repeat constructor|reflexivity]|]. intros a.
    apply sp_bind; [apply sp_seek|]. intros _. apply sp_bind; [apply (sp_prim false PU8 [VBits 4]); [repeat constructor|reflexivity]|]. intros b. exact (sp_lift false _ (Ok _)).
  - split; [intros; constructor|]. split; [discriminate|]. now right; left.
Qed.
(** A first type that asks [end()] last: the byte it has read ahead is not counted, but a
    padding of one byte behind it starts after that byte. *)
Definition Asks : ty := TStruct cplain (field plain u8 (field (by_hand (fun _ _ _ r => let '(b, r') := r_end r in (Ok (VBool b), r')) plain) TBool FNil)).
Theorem C29_end_refuted : exists t2 input rest off v1 v2 w2 p q, reads_in_order False True True no_customs t2 /\
  from_bytes no_customs 9 Asks input 0 = Ok ((rest, off), v1) /\
  from_bytes no_customs 9 t2 rest off = Ok (p, v2) /\
  from_bytes no_customs 9 (TPair Asks t2) input 0 = Ok (q, VPair v1 w2) /\ v2 <> w2.
Proof.
  exists (TStruct cplain (field (padded 8 0 plain) u8 FNil)), [x01; x02; x03; x04; x05]. do 7 eexists. split; [conditions|].
  split; [vm_compute; reflexivity|]. split; [vm_compute; reflexivity|]. split; [vm_compute; reflexivity|]. discriminate.
Qed.
Print Assumptions C29_end_refuted.
(** struct Nibble { #[deku(bits = 4, bit_order = "lsb")] x: u8 } twice. *)
Definition Nibble : ty := TStruct little_lsb (field (bits 4 plain) u8 FNil).
Theorem C29_lsb_refuted : exists input rest off v1 v2 w2 p q,
  from_bytes no_customs 9 Nibble input 0 = Ok ((rest, off), v1) /\
  from_bytes no_customs 9 Nibble rest off = Ok (p, v2) /\
  from_bytes no_customs 9 (TPair Nibble Nibble) input 0 = Ok (q, VPair v1 w2) /\ v2 <> w2.
Proof.
  exists [xa5]. do 7 eexists. split; [vm_compute; reflexivity|]. split; [vm_compute; reflexivity|]. split; [vm_compute; reflexivity|]. discriminate.
Qed.
Print Assumptions C29_lsb_refuted.
(** A counted Vec<u8> that starts inside a byte is read in Lsb0 order and leaves the other
    half of its last byte: struct { #[deku(bits = 4)] a: u8, #[deku(count = "1")] l: Vec<u8> } and four bits. *)
Definition Inside : ty := TStruct cplain (field (bits 4 plain) u8 (field (limited (FCount (fun _ _ _ => 1%Z)) plain) (TVec KVec 1 u8) FNil)).
Definition Four : ty := TStruct cplain (field (bits 4 plain) u8 FNil).
Theorem C29_vec_inside_refuted : exists input rest off v1 v2 w2 p q,
  from_bytes no_customs 99 Inside input 0 = Ok ((rest, off), v1) /\
  from_bytes no_customs 99 Four rest off = Ok (p, v2) /\
  from_bytes no_customs 99 (TPair Inside Four) input 0 = Ok (q, VPair v1 w2) /\ v2 <> w2.
Proof.
  exists [x12; x34]. do 7 eexists. split; [vm_compute; reflexivity|]. split; [vm_compute; reflexivity|]. split; [vm_compute; reflexivity|]. discriminate.
Qed.
Print Assumptions C29_vec_inside_refuted.
(** A second type that seeks, #[deku(seek_rewind)] struct { x: u8 }: the start is that of
    the rest for the second call, and that of the whole for one reader. *)
Definition Rewound : ty := TStruct (mkC None None [] (Some (fun _ => Some (SeekStart 0))) None) (field plain u8 FNil).
Theorem C29_seek_refuted : exists input rest off v1 v2 w2 p q,
  from_bytes no_customs 9 u8 input 0 = Ok ((rest, off), v1) /\
  from_bytes no_customs 9 Rewound rest off = Ok (p, v2) /\
  from_bytes no_customs 9 (TPair u8 Rewound) input 0 = Ok (q, VPair v1 w2) /\ v2 <> w2.
Proof.
  exists [x01; x02]. do 7 eexists. split; [vm_compute; reflexivity|]. split; [vm_compute; reflexivity|]. split; [vm_compute; reflexivity|]. discriminate.
Qed.
Print Assumptions C29_seek_refuted.

(** ** C31: to_bytes, to_slice, to_bits *)

(** Missing: types with seek attributes (false, below) and hand-written writers that
    seek. *)
Theorem C31_to_slice_partial : forall cu t v buf, writes_in_order cu t ->
  match to_bytes cu t v with
  | Ok bytes =>
      to_slice cu t v buf =
        if length bytes <=? length buf then (Ok (length bytes), bytes ++ skipn (length bytes) buf)
        else (Err (Io WriteZero), firstn (length buf) bytes)
  | x => fst (to_slice cu t v buf) = res_map x (fun bytes => length bytes) \/ fst (to_slice cu t v buf) = Err (Io WriteZero)
  end.
Proof. exact derived_to_slice. Qed.
Print Assumptions C31_to_slice_partial.
(** The padding stands behind the last bits, or in front of them if they are Lsb0. *)
Theorem C31_to_bits_partial : forall cu t v, writes_in_order cu t ->
  match to_bits cu t v with
  | Ok bits => exists whole rest,
      bits = bits_of_bytes whole ++ rest /\ length rest < 8 /\
      exists bytes, to_bytes cu t v = Ok bytes /\
        match rest with
        | [] => bytes = whole
        | _ => exists last, bytes = whole ++ [last] /\
            (byte_bits last = rest ++ repeat false (8 - length rest) \/ byte_bits last = repeat false (8 - length rest) ++ rest)
        end
  | x => to_bytes cu t v = res_map x (fun _ => [])
  end.
Proof. exact derived_to_bits. Qed.
Print Assumptions C31_to_bits_partial.
Example C31_case : writes_in_order no_customs Packet /\
  to_slice no_customs Packet packet (repeat xff 16) = (Ok 14, packet_bytes ++ [xff; xff]) /\
  to_slice no_customs Packet packet (repeat xff 13) = (Err (Io WriteZero), firstn 13 packet_bytes) /\
  to_bytes no_customs Head (VRec [VNum 2; VNum 282]) = Ok [x48; xd0] /\
  to_bits no_customs Head (VRec [VNum 2; VNum 282]) = Ok (firstn 13 (bits_of_bytes [x48; xd0])).
Proof. split; [conditions|]. repeat split; vm_compute; reflexivity. Qed.
(** #[deku(seek_from_start = "4")] struct { x: u8 }: to_slice returns 1 for 5 bytes. *)
Definition seeking (t : seekfrom) (c : cattrs) : cattrs := mkC (c_endian c) (c_order c) (c_magic c) (Some (fun _ => Some t)) (c_ctx_default c).
Definition AtFour : ty := TStruct (seeking (SeekStart 4) cplain) (field plain u8 FNil).
Theorem C31_seek_refuted : exists v bytes n buf', to_bytes no_customs AtFour v = Ok bytes /\
  to_slice no_customs AtFour v (repeat x00 8) = (Ok n, buf') /\ n < length bytes.
Proof. exists (VRec [VNum 7]). do 3 eexists. split; [vm_compute; reflexivity|]. split; [vm_compute; reflexivity|]. cbn. lia. Qed.
Print Assumptions C31_seek_refuted.

(** ** C38: NoSeek *)

(** Reading a type through [NoSeek] gives the results of the wrapped source and leaves
    it in the same state; the virtual position moves with the real one unless a
    transfer failed at the end of the input or after some bytes.  Missing: pads of a byte and more and
    counted [Vec<u8>], where it is false (below). *)
Theorem C38_from_reader_partial : forall cu fuel t s p bit, reads_in_order True False False cu t -> s_noseek s = None -> bit < 8 ->
  exists x s1 q, from_reader cu fuel t s bit = (x, s1) /\ from_reader cu fuel t (s_virt s (Some p)) bit = (x, s_virt s1 (Some q)) /\
    (loses_nothing s -> s_eat s = false \/ s_pos s1 < length (s_data s1) -> s_pos s1 + p = q + s_pos s).
Proof. exact noseek_from_reader. Qed.
Print Assumptions C38_from_reader_partial.
(** Every sequence of reader calls, also after errors. *)
Theorem C38_calls : forall ops s p, s_noseek s = None ->
  let '(xs, r1) := run_all ops (reader_new s) in
  let '(ys, r2) := run_all ops (reader_new (s_virt s (Some p))) in
  ys = xs /\ r_rest r2 = r_rest r1 /\ r_bits r2 = r_bits r1 /\
  exists q, r_s r2 = s_virt (r_s r1) (Some q) /\
    (loses_nothing s -> s_eat s = false \/ s_pos (r_s r1) < length (s_data (r_s r1)) -> s_pos (r_s r1) + p = q + s_pos s).
Proof. exact noseek_calls. Qed.
Print Assumptions C38_calls.
(** Writing a type, and every sequence of writer calls. *)
Theorem C38_to_writer : forall cu t args v k p, writes_in_order cu t -> k_noseek k = None ->
  exists x w1 w2 q, (let* _ := write_ty cu t args v in finalize) (writer_new k) = (x, w1) /\
    (let* _ := write_ty cu t args v in finalize) (writer_new (k_virt k (Some p))) = (x, w2) /\
    w_rest w2 = w_rest w1 /\ w_bits w2 = w_bits w1 /\ w_k w2 = k_virt (w_k w1) (Some q) /\
    (k_fixed k = false -> (forall j, k_fault k j = None) -> k_pos (w_k w1) + p = q + k_pos k).
Proof. exact noseek_to_writer. Qed.
Print Assumptions C38_to_writer.
Theorem C38_writes : forall ops k p, k_noseek k = None ->
  exists x w1 w2 q, run_wsession ops (writer_new k) = (x, w1) /\ run_wsession ops (writer_new (k_virt k (Some p))) = (x, w2) /\
    w_rest w2 = w_rest w1 /\ w_bits w2 = w_bits w1 /\ w_k w2 = k_virt (w_k w1) (Some q) /\
    (k_fixed k = false -> (forall j, k_fault k j = None) -> k_pos (w_k w1) + p = q + k_pos k).
Proof. exact noseek_writes. Qed.
Print Assumptions C38_writes.
(** A seek succeeds if it goes where the stream is; nothing is moved. *)
Theorem C38_seek_source : forall w s v, s_noseek s = Some v -> s_fault s (s_calls s) = None ->
  s_seek w s = (match w with
                | SeekStart n => if n =? v then IoOk v else IoErr (OtherKind 0)
                | SeekCurrent d => if (d =? 0)%Z then IoOk v else IoErr (OtherKind 0)
                | SeekEnd _ => IoErr (OtherKind 0)
                end, s_tick s).
Proof. exact noseek_seek. Qed.
Print Assumptions C38_seek_source.
Theorem C38_seek_sink : forall t k v, k_noseek k = Some v -> k_fault k (k_calls k) = None ->
  k_seek t k = (match t with
                | SeekStart n => if n =? v then IoOk v else IoErr (OtherKind 0)
                | SeekCurrent d => if (d =? 0)%Z then IoOk v else IoErr (OtherKind 0)
                | SeekEnd _ => IoErr (OtherKind 0)
                end, k_tick k).
Proof. exact noseek_kseek. Qed.
Print Assumptions C38_seek_sink.
Example C38_case : reads_in_order True False False no_customs (TPair Head Tail) /\ writes_in_order no_customs Packet /\
  fst (from_reader no_customs 9 (TPair Head Tail) (s_virt (cursor [x12; x34; x56; x78; x9a]) (Some 0)) 2) =
    Ok (34, VPair (VRec [VNum 2; VNum 282]) (VRec [VNum 1; VNum 23010])) /\
  s_noseek (snd (from_reader no_customs 9 (TPair Head Tail) (s_virt (cursor [x12; x34; x56; x78; x9a]) (Some 0)) 2)) = Some 5 /\
  k_data (w_k (snd ((let* _ := write_ty no_customs Packet [] packet in finalize) (writer_new (k_virt vec_sink (Some 0)))))) = packet_bytes /\
  k_noseek (w_k (snd ((let* _ := write_ty no_customs Packet [] packet in finalize) (writer_new (k_virt vec_sink (Some 0)))))) = Some 14.
Proof. split; [conditions|]. split; [conditions|]. repeat split; vm_compute; reflexivity. Qed.
(** struct { #[deku(pad_bytes_before = "2")] x: u8 } and struct { #[deku(count = "2")] x: Vec<u8> }
    cannot be read through [NoSeek]. *)
Definition Gap : ty := TStruct cplain (field (padded 16 0 plain) u8 FNil).
Definition Two : ty := TStruct cplain (field (limited (FCount (fun _ _ _ => 2%Z)) plain) (TVec KVec 1 u8) FNil).
Theorem C38_pads_refuted : exists s v, fst (from_reader no_customs 9 Gap s 0) = Ok (24, v) /\
  fst (from_reader no_customs 9 Gap (s_virt s (Some 0)) 0) = Err (Io (OtherKind 0)).
Proof. exists (cursor [x01; x02; x03]). eexists. split; vm_compute; reflexivity. Qed.
Print Assumptions C38_pads_refuted.
Theorem C38_counted_bytes_refuted : exists s v, fst (from_reader no_customs 9 Two s 0) = Ok (16, v) /\
  fst (from_reader no_customs 9 Two (s_virt s (Some 0)) 0) = Err (Io (OtherKind 0)).
Proof. exists (cursor [x01; x02; x03]). eexists. split; vm_compute; reflexivity. Qed.
Print Assumptions C38_counted_bytes_refuted.
(** A failed transfer may move the wrapped stream, but never the position that
    [NoSeek] reports. *)
Theorem C38_position_refuted : exists k k', k_write_all [x01; x02] (k_virt k (Some 0)) = (IoErr WriteZero, k') /\
  k_pos k' = k_pos k + 1 /\ k_data k' = [x01] /\ k_noseek k' = Some 0.
Proof. exists (slice_sink [x00]). eexists. split; [vm_compute; reflexivity|]. repeat split. Qed.
Print Assumptions C38_position_refuted.
(** So does a failed transfer of a source, which is then a byte further than the position
    of [NoSeek] says: a seek back to the start of a field goes to a wrong place.
      struct Pairs { a: u16, b: u16 } *)
Definition Pairs : ty := TStruct cplain (field plain u16 (field plain u16 FNil)).
Theorem C38_lost_bytes_refuted : exists s s', s_noseek s = None /\ from_reader no_customs 9 Pairs (s_virt s (Some 0)) 0 = (Err (Io NotFound), s') /\
  s_pos s' = 3 /\ s_pos s' < length (s_data s') /\ s_noseek s' = Some 2.
Proof.
  exists (mkStream [x01; x02; x03; x04] 0 true None (fun j => if j =? 1 then Some (NotFound, 1) else None) 0). eexists.
  split; [reflexivity|]. split; [vm_compute; reflexivity|]. cbn. repeat split; try reflexivity; lia.
Qed.
Print Assumptions C38_lost_bytes_refuted.

(** ** C39: seeking *)

(** After a seek every sequence of reads gives what a new reader at the target gives,
    nothing buffered remains, and the offset is the target. *)
Theorem C39_reader : forall w r t, (forall j, s_fault (r_s r) j = None) -> s_noseek (r_s r) = None ->
  seek_target (s_pos (r_s r)) (length (s_data (r_s r))) w = Some t ->
  exists r', r_seek w r = (IoOk t, r') /\ r_rest r' = [] /\ r_bits r' = 8 * t /\
    forall ops, fst (run_all ops r') = fst (run_all ops (reader_new (source_from (r_s r) t))).
Proof. exact seek_fresh. Qed.
Print Assumptions C39_reader.
(** A struct with a seek attribute reads what it reads without it from the target on.
    Missing: targets behind the end of the input, fields that seek or look at the
    offset. *)
Theorem C39_struct_read_partial : forall cu fuel c fs lim args f w r t,
  c_seek c = Some f -> f (ctx_args c args) = Some w ->
  (forall j, s_fault (r_s r) j = None) -> s_noseek (r_s r) = None ->
  seek_target (s_pos (r_s r)) (length (s_data (r_s r))) w = Some t -> t <= length (s_data (r_s r)) ->
  reads_in_order False True True cu (TStruct (no_seek c) fs) ->
  fst (read_ty cu fuel (TStruct c fs) lim args r) =
  fst (read_ty cu fuel (TStruct (no_seek c) fs) lim args (reader_new (source_from (r_s r) t))).
Proof. exact seek_struct. Qed.
Print Assumptions C39_struct_read_partial.
(** After a seek every sequence of writes stores at the target what a new writer
    stores; what was stored before is kept.  Missing: the bits pending before the seek
    are emitted or reported (false, below). *)
Theorem C39_writer_partial : forall t w p, k_fixed (w_k w) = false -> (forall j, k_fault (w_k w) j = None) -> k_noseek (w_k w) = None ->
  seek_target (k_pos (w_k w)) (length (k_data (w_k w))) t = Some p ->
  exists w', w_seek t w = (IoOk p, w') /\ w_rest w' = [] /\ w_bits w' = w_bits w /\ k_data (w_k w') = k_data (w_k w) /\
    forall ops, let '(x1, w1) := run_wsession ops w' in
                let '(x2, w2) := run_wsession ops (mkWriter vec_sink [] Msb0 (w_bits w)) in
                x1 = x2 /\ k_data (w_k w1) = overlay (k_data (w_k w)) p (k_data (w_k w2)) /\ w_rest w1 = w_rest w2.
Proof. exact w_seek_fresh. Qed.
Print Assumptions C39_writer_partial.
Theorem C39_struct_written : forall cu c fs l f n, c_seek c = Some f -> f (ctx_args c []) = Some (SeekStart n) ->
  writes_in_order cu (TStruct (no_seek c) fs) ->
  to_bytes cu (TStruct c fs) (VRec l) = res_map (to_bytes cu (TStruct (no_seek c) fs) (VRec l)) (fun bs => overlay [] n bs).
Proof. exact seek_struct_written. Qed.
Print Assumptions C39_struct_written.
(** A reader in the middle of a byte goes back to the second byte; [AtFour] above. *)
Example C39_case :
  (let r := snd (run_all [RBits 11 Msb0] (reader_new (cursor [x12; x34; x56; x78; x9a; xbc]))) in
   seek_target (s_pos (r_s r)) (length (s_data (r_s r))) (SeekCurrent (-1)) = Some 1 /\
   fst (run_all [RBytes 2 Msb0] (snd (r_seek (SeekCurrent (-1)) r))) = [Ok (OBytes [x34; x56])]) /\
  reads_in_order False True True no_customs (TStruct (no_seek (seeking (SeekStart 4) cplain)) (field plain u8 FNil)) /\
  writes_in_order no_customs (TStruct (no_seek (seeking (SeekStart 4) cplain)) (field plain u8 FNil)) /\
  fst (read_ty no_customs 9 AtFour None [] (reader_new (cursor [x12; x34; x56; x78; x9a; xbc]))) = Ok (VRec [VNum 0x9a]) /\
  to_bytes no_customs AtFour (VRec [VNum 7]) = Ok [x00; x00; x00; x00; x07].
Proof. split; [split; vm_compute; reflexivity|]. split; [conditions|]. split; [conditions|]. split; vm_compute; reflexivity. Qed.
(** A seek of a reader that fails drops the buffered bits: the next read continues
    behind them. *)
Theorem C39_failed_refuted : exists s r r' e, run_all [RBits 4 Msb0] (reader_new s) = ([Ok (OBits [false; false; false; true])], r) /\
  r_seek (SeekCurrent (-2)) r = (IoErr e, r') /\ r_bits r' = r_bits r /\ s_pos (r_s r') = s_pos (r_s r) /\
  fst (run_all [RBits 4 Msb0] r) = [Ok (OBits [false; false; true; false])] /\
  fst (run_all [RBits 4 Msb0] r') = [Ok (OBits [false; false; true; true])].
Proof. exists (cursor [x12; x34]). do 3 eexists. split; [vm_compute; reflexivity|]. split; [vm_compute; reflexivity|]. vm_compute. repeat split. Qed.
Print Assumptions C39_failed_refuted.
(** Bits pending before a seek disappear: no error, no byte. *)
Theorem C39_pending_refuted : exists bits w, run_wsession [WBits bits Msb0] (writer_new vec_sink) = (Ok tt, w) /\ w_rest w = bits /\ bits <> [] /\
  exists w' w'', w_seek (SeekStart 0) w = (IoOk 0, w') /\ finalize w' = (Ok tt, w'') /\ k_data (w_k w'') = [].
Proof.
  exists [true; false; true; true]. eexists. split; [vm_compute; reflexivity|]. split; [reflexivity|]. split; [discriminate|].
  do 2 eexists. split; [vm_compute; reflexivity|]. split; [vm_compute; reflexivity|]. reflexivity.
Qed.
Print Assumptions C39_pending_refuted.
(** struct { #[deku(bits = 4)] a: u8, #[deku(seek_from_start = "1")] b: u8 }: a is lost. *)
Definition sought (t : seekfrom) (a : fattrs) : fattrs :=
  mkF (a_endian a) (a_order a) (a_bits a) (a_bytes a) (a_ctx a) (a_limit a) (a_map a) (a_reader a) (a_writer a) (a_skip a) (a_cond a) (a_default a)
      (a_assert a) (a_assert_eq a) (Some (fun _ _ => Some t)) (a_magic a) (a_pad_before a) (a_pad_after a) (a_temp a) (a_temp_value a) (a_update a).
Definition Lost : ty := TStruct cplain (field (bits 4 plain) u8 (field (sought (SeekStart 1) plain) u8 FNil)).
Theorem C39_field_lost_refuted : exists v bytes v', to_bytes no_customs Lost v = Ok bytes /\ from_bytes no_customs 9 Lost bytes 0 = Ok (([], 0), v') /\ v' <> v.
Proof. exists (VRec [VNum 5; VNum 7]). do 2 eexists. split; [vm_compute; reflexivity|]. split; [vm_compute; reflexivity|]. discriminate. Qed.
Print Assumptions C39_field_lost_refuted.
