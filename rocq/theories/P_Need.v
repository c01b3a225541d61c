(** The size in [DekuError::Incomplete], C55.

    Vocabulary: [NeedSpec.v] ([asking], [asks], [true_end], [inside], [receive]), [AwaitSpec.v]
    ([awaits]: hand-written readers that return at the first error). *)
From Coq Require Import Lia.
From Verif Require Import Base Spec Stream Reader Session Prims Containers Derive DeriveSpec MoreSpec SafeSpec DeriveSafe FlowSpec FlowFacts NeedSpec NeedFacts AwaitSpec AwaitFacts P_Derive P_Size P_Safe.

(** [Incomplete] always asks for something: in the middle of a read ... *)
Theorem C55_positive : forall cu fuel t lim args r n r', asking cu t -> true_end (r_s r) ->
  read_ty cu fuel t lim args r = (Err (Incomplete n), r') -> 0 < n.
Proof. intros cu fuel t lim args r n r' H T E. exact (proj2 (read_asks cu fuel t lim args H r _ r' T E) n eq_refl). Qed.
Print Assumptions C55_positive.
(** ... and from the functions on slices, whose own checks of the end report it too. *)
Theorem C55_positive_bytes : forall cu fuel t input bit n, asking cu t -> from_bytes cu fuel t input bit = Err (Incomplete n) -> 0 < n.
Proof. exact from_bytes_asks. Qed.
Print Assumptions C55_positive_bytes.
Theorem C55_positive_try : forall cu fuel t input n, asking cu t -> try_from cu fuel t input = Err (Incomplete n) -> 0 < n.
Proof. exact try_from_asks. Qed.
Print Assumptions C55_positive_try.
Theorem C55_positive_reader : forall cu fuel t s bit n, asking cu t -> true_end s ->
  fst (from_reader cu fuel t s bit) = Err (Incomplete n) -> 0 < n.
Proof. exact from_reader_asks. Qed.
Print Assumptions C55_positive_reader.
(** Hand-written readers that return at the first error keep to that, as [asking] wants them. *)
Theorem C55_by_hand : forall A m, awaits A m -> asks m.
Proof. exact awaits_asks. Qed.
Print Assumptions C55_by_hand.
(** A nibble, the rest of the byte, then a [Packet]. *)
Example C55_case_by_hand : let m := (let* l := read_bits_into 4 Msb0 in let* _ := skip_bits 4 Msb0 in let* v := read_ty no_customs 50 Packet None [] in ret (VPair (VNum (bits2N l)) v)) in
  awaits value m /\ (exists n r, m (reader_new (cursor (x70 :: firstn 13 packet_bytes))) = (Err (Incomplete n), r) /\ 0 < n) /\
  (exists r, m (reader_new (cursor (x70 :: packet_bytes))) = (Ok (VPair (VNum 7) packet), r)).
Proof.
  split; [|split; [do 2 eexists; split; [vm_compute; reflexivity|lia]|eexists; vm_compute; reflexivity]].
  apply aw_bind; [apply aw_bits|intros l]. apply aw_bind; [apply aw_skip|intros _]. apply aw_bind; [|intros v; now apply (aw_end value (Ok _))].
  apply aw_derived; [intros more; unfold blind_to_end; cbn; repeat split; auto; discriminate|unfold asking; cbn; repeat split; discriminate].
Qed.
Lemma asking_packet cu : asking cu Packet.
Proof. unfold asking. cbn. repeat split; discriminate. Qed.
Example C55_case : asking no_customs Packet /\
  from_bytes no_customs 50 Packet (firstn 3 packet_bytes) 0 = Err (Incomplete 12) /\
  from_bytes no_customs 50 (TStruct cplain (field (padded 0 16 plain) u8 FNil)) [x01] 0 = Err (Incomplete 16) /\
  try_from no_customs 50 (TStruct cplain (field (padded 0 17 plain) u8 FNil)) [x01; x02; x03] = Err (Incomplete 1).
Proof. split; [apply asking_packet|]. repeat split; vm_compute; reflexivity. Qed.

(** As many bits as asked for let the read that failed succeed. *)
Theorem C55_enough : forall op r more n r', reachable r -> inside r -> rop_ok op ->
  run_rop op r = (Err (Incomplete n), r') -> n <= 8 * length more -> exists x r2, run_rop op (r_more more r) = (Ok x, r2).
Proof. exact enough. Qed.
Print Assumptions C55_enough.
(** After [end()] a byte read asks for what is missing beyond the peeked byte. *)
Example C55_enough_case : let r := snd (run_rop REnd (reader_new (cursor [x01; x02]))) in
  reachable r /\ inside r /\ (exists r', run_rop (RBytes 4 Msb0) r = (Err (Incomplete 24), r')) /\
  exists r', run_rop (RBytes 4 Msb0) (r_more [x03; x04; x05] r) = (Ok (OBytes [x01; x02; x03; x04]), r').
Proof.
  split; [apply reach_rop, reach_new|]. split; [split; [reflexivity|vm_compute; lia]|].
  split; eexists; vm_compute; reflexivity.
Qed.

(** A program that starts with any part of the input, waits for what [Incomplete] asks for
    and tries again comes to an end, after at most as many tries as there are bytes, and
    with what it would have got from the whole input at once.  Types: those whose readers
    do not panic (C49) and do not depend on the end of the input (C48). *)
Theorem C55_receive : forall cu fuel t all have, flow_type cu t -> (forall m, blind_to_end m cu t) -> asking cu t ->
  8 * length all + 8 < fuel ->
  receive (length all) cu fuel t all have = res_map (from_bytes cu fuel t all 0) snd.
Proof. exact receive_all. Qed.
Print Assumptions C55_receive.
Example C55_receive_case : flow_type no_customs Packet /\ (forall m, blind_to_end m no_customs Packet) /\ asking no_customs Packet /\
  receive (length packet_bytes) no_customs 500 Packet packet_bytes 0 = Ok packet /\
  receive 3 no_customs 500 Packet packet_bytes 0 = Diverge /\
  receive 16 no_customs 500 Packet (firstn 12 packet_bytes) 2 = Err (Incomplete 8).
Proof.
  split; [apply safe_flow, C49_case|]. split; [intros more; unfold blind_to_end; cbn; repeat split; auto; discriminate|]. split; [apply asking_packet|].
  repeat split; vm_compute; reflexivity.
Qed.

(** The size is the size of the read that failed, not of what is missing: a program that
    waits for all of it before it tries again waits for bytes beyond the message.
      struct S { a: u32 } with three of its four bytes: 32 bits are asked for. *)
Theorem C55_missing_refuted : exists t all have n v, asking no_customs t /\ from_bytes no_customs 9 t all 0 = Ok (([], 0), v) /\
  from_bytes no_customs 9 t (firstn have all) 0 = Err (Incomplete n) /\ length all < have + byte_size n.
Proof.
  exists (TStruct cplain (field plain u32 FNil)), [x01; x02; x03; x04], 3, 32, (VRec [VNum 0x04030201]).
  split; [unfold asking; cbn; repeat split; discriminate|]. repeat split; vm_compute; reflexivity || lia.
Qed.
Print Assumptions C55_missing_refuted.
(** After padding that ends beyond the input the size does not count the padding: with as
    much as was asked for, the same is asked for again.
      struct S { #[deku(pad_bytes_after = "2")] a: u8, b: u8 } *)
Theorem C55_padding_refuted : exists t input more n, asking no_customs t /\ n <= 8 * length more /\
  from_bytes no_customs 9 t input 0 = Err (Incomplete n) /\ from_bytes no_customs 9 t (input ++ more) 0 = Err (Incomplete n).
Proof.
  exists (TStruct cplain (field (padded 0 16 plain) u8 (field plain u8 FNil))), [x01], [x00], 8.
  split; [unfold asking; cbn; repeat split; discriminate|]. split; [cbn; lia|]. split; vm_compute; reflexivity.
Qed.
Print Assumptions C55_padding_refuted.
(** A source that reports the end of its data although nothing was to be read makes the
    size 0: [#[deku(bytes = 0)]] on such a source. *)
Theorem C55_false_end_refuted : exists t s r', asking no_customs t /\
  read_ty no_customs 9 t None [] (reader_new s) = (Err (Incomplete 0), r').
Proof.
  exists (TStruct cplain (field (bytes 0 plain) u32 FNil)), (mkStream [x01] 0 false None (fun _ => Some (UnexpectedEof, 0)) 0).
  eexists. split; [unfold asking; cbn; repeat split; discriminate|]. vm_compute. reflexivity.
Qed.
Print Assumptions C55_false_end_refuted.
