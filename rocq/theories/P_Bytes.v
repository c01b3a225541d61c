(** Properties of the build without the cargo feature [bits], C54.

    Vocabulary: [ByteBuild.v] (the other build: [b_from_bytes], [b_try_from],
    [b_from_reader], [b_to_bytes], [b_to_slice]), [Derive.v] (this build), [ByteSpec.v]
    ([written_in_bytes], [read_in_bytes], [read_without_padding]: the types both builds
    accept). *)
From Verif Require Import Base Spec Stream Reader Writer Prims Containers Derive DeriveSpec P_Derive P_Safe ByteBuild ByteSpec ByteWrite ByteRead.

(** Writing gives the same bytes, or the same error, in both builds. *)
Theorem C54_to_bytes : forall cu t v, written_in_bytes cu t -> b_to_bytes cu t v = to_bytes cu t v.
Proof. exact to_bytes_builds. Qed.
Print Assumptions C54_to_bytes.
Theorem C54_to_slice : forall cu t v buf, written_in_bytes cu t -> b_to_slice cu t v buf = to_slice cu t v buf.
Proof. exact to_slice_builds. Qed.
Print Assumptions C54_to_slice.
(** The same inputs are accepted, with the same value and rest. *)
Theorem C54_from_bytes_partial : forall cu fuel t input x, read_in_bytes cu true t ->
  b_from_bytes cu fuel t input 0 = Ok x <-> from_bytes cu fuel t input 0 = Ok x.
Proof. intros cu fuel t input x. exact (from_bytes_builds input cu fuel t x). Qed.
Print Assumptions C54_from_bytes_partial.
Theorem C54_try_from_partial : forall cu fuel t input x, read_in_bytes cu true t ->
  b_try_from cu fuel t input = Ok x <-> try_from cu fuel t input = Ok x.
Proof. intros cu fuel t input x. exact (try_from_builds input cu fuel t x). Qed.
Print Assumptions C54_try_from_partial.
(** Without padding the builds do not differ, whatever the source, errors included. *)
Theorem C54_from_reader_partial : forall cu fuel t s, read_without_padding t -> b_from_reader cu fuel t s 0 = from_reader cu fuel t s 0.
Proof. exact from_reader_builds. Qed.
Print Assumptions C54_from_reader_partial.

(** #[deku(endian = "big", magic = b"DK")]
    struct Frame { #[deku(pad_bytes_after = "2")] n: u8, #[deku(bytes = 3)] x: u32,
      #[deku(pad_bytes_before = "n")] k: Kind2, #[deku(count = "n")] v: Vec<u16>, #[deku(read_all)] tail: Vec<u8> } *)
Definition in_bytes (n : nat) (a : fattrs) : fattrs :=
  mkF (a_endian a) (a_order a) None (Some (fun _ _ => n)) (a_ctx a) (a_limit a) (a_map a) (a_reader a) (a_writer a) (a_skip a) (a_cond a)
    (a_default a) (a_assert a) (a_assert_eq a) (a_seek a) (a_magic a) (a_pad_before a) (a_pad_after a) (a_temp a) (a_temp_value a) (a_update a).
Definition pad_n (a : fattrs) : fattrs :=
  mkF (a_endian a) (a_order a) (a_bits a) (a_bytes a) (a_ctx a) (a_limit a) (a_map a) (a_reader a) (a_writer a) (a_skip a) (a_cond a)
    (a_default a) (a_assert a) (a_assert_eq a) (a_seek a) (a_magic a) (Some (fun _ fs => 8 * Z.of_N (nth_num fs 0 mod 256))%Z) (a_pad_after a) (a_temp a) (a_temp_value a) (a_update a).
Definition Kind2 : ty := TEnum (mkE big None None None None) u8
  (VCons (mkV (SId (VNum 1)) false) (field plain u8 FNil) (VCons (mkV (SId (VNum 2)) true) FNil VNil)).
Definition Frame : ty := TStruct big_dk
  (field (padded 0 16 plain) u8 (field (in_bytes 3 plain) u32 (field (pad_n plain) Kind2
  (field (limited (count_of 0) plain) (TVec KVec 2 u16) (field (limited FAll plain) (TVec KVec 1 u8) FNil))))).
Definition frame : value := VRec [VNum 2; VNum 258; VVar 0 [VNum 9]; VList [VNum 5; VNum 6]; VList [VNum 7]].
Definition frame_bytes : list byte := [x44; x4b; x02; x00; x00; x00; x01; x02; x00; x00; x01; x09; x00; x05; x00; x06; x07].
Lemma whole_const z : (z mod 8 = 0)%Z -> (z <= Z.of_N usize_max)%Z -> whole_bytes (Some (fun _ _ => z)).
Proof. intros H1 H2 ctx fs. now split. Qed.
Lemma whole_n : whole_bytes (a_pad_before (pad_n plain)).
Proof.
  intros ctx fs. split; [now rewrite Z.mul_comm, Z.mod_mul|]. assert (B := N.mod_lt (nth_num fs 0) 256 ltac:(discriminate)).
  apply Z.le_trans with (8 * 256)%Z; [|discriminate]. apply Z.mul_le_mono_nonneg_l; [discriminate|]. apply N2Z.inj_lt in B. now apply Z.lt_le_incl.
Qed.
Ltac in_bytes_tac := cbn; repeat match goal with
  | |- _ /\ _ => split
  | |- field_in_bytes _ => constructor
  | |- reader_in_bytes _ => intros ? [=]
  | |- writer_in_bytes _ => intros ? [=]
  | |- container_in_bytes _ => exact I
  | |- no_bit_size _ => intros ? []
  | |- padded_field true _ => now left
  | |- padded_field false _ => right
  | |- whole_bytes (a_pad_before (pad_n plain)) => exact whole_n
  | |- whole_bytes (Some (fun _ _ => _)) => apply whole_const; [reflexivity|discriminate]
  | |- whole_bytes ?x => let y := eval hnf in x in progress change (whole_bytes y)
  | |- forall _ : list value, _ => intros
  | |- _ => first [exact I|reflexivity]
  end.
Example C54_case : written_in_bytes no_customs Frame /\ read_in_bytes no_customs true Frame /\
  b_to_bytes no_customs Frame frame = Ok frame_bytes /\ b_from_bytes no_customs 9 Frame frame_bytes 0 = Ok (([], 0), frame) /\
  b_try_from no_customs 9 Frame (firstn 14 frame_bytes) = Err (Incomplete 16).
Proof.
  split; [in_bytes_tac|]. split; [in_bytes_tac|]. repeat split; vm_compute; reflexivity.
Qed.
(** Hand-written code in both builds:
      struct Word(Vec<u8>)   with impls of its own: a length byte and that many bytes
      struct Note { #[deku(reader = "u24(deku::reader)", writer = "put24(deku::writer, x)", pad_bytes_after = "2")] x: u32, w: Word } *)
Definition read_word : RM value := let* n := prim_read PU8 C0 in let* bs := read_bytes (N.to_nat n) (N.to_nat n) Msb0 in ret (vec_of_bytes bs).
Definition write_word (v : value) : WM unit :=
  match v with
  | VList l => let* _ := prim_write PU8 C0 (N.of_nat (length l)) in write_list (fun x => match x with VNum n => prim_write PU8 C0 n | _ => panic end) l
  | _ => panic
  end.
Definition word : nat -> custom := fun _ => mkCustom (fun _ => read_word) (fun _ v => write_word v).
Definition read24 : RM value := let* bs := read_bytes 3 3 Msb0 in ret (VNum (from_be bs)).
Definition put24 (v : value) : WM unit := match v with VNum n => write_bytes (be_bytes 3 n) | _ => panic end.
Definition by_hands : fattrs :=
  mkF None None None None (fun _ _ _ => []) None None (Some (fun _ _ _ => read24)) (Some (fun _ _ _ _ v => put24 v)) None None
    (fun _ _ _ => VUnit) None None None [] None (Some (fun _ _ => 16%Z)) false None None.
Definition Note : ty := TStruct cplain (field by_hands u32 (field plain (TCustom 0) FNil)).
Lemma word_read : reads_bytes value read_word.
Proof. apply rb_bind; [now apply rb_prim|intros n]. apply rb_bind; [apply rb_bytes|intros bs]. exact (rb_end value (Ok _)). Qed.
Lemma word_written v : writes_bytes unit (write_word v).
Proof.
  destruct v; try exact (wb_end unit Panic). apply wb_bind; [now apply wb_prim|intros _]. match goal with |- writes_bytes unit (write_list _ ?l) => induction l as [|x l IH] end; [exact (wb_end unit (Ok tt))|].
  apply (wb_bind unit unit); [|intros _; exact IH]. destruct x; try exact (wb_end unit Panic). now apply wb_prim.
Qed.
Lemma read24_bytes : reads_bytes value read24.
Proof. apply rb_bind; [apply rb_bytes|intros bs]. exact (rb_end value (Ok _)). Qed.
Lemma put24_bytes v : writes_bytes unit (put24 v).
Proof. destruct v; try exact (wb_end unit Panic). apply wb_bytes. Qed.
Example C54_case_by_hand : written_in_bytes word Note /\ read_in_bytes word true Note /\
  b_to_bytes word Note (VRec [VNum 258; VList [VNum 5; VNum 6]]) = Ok [x00; x01; x02; x00; x00; x02; x05; x06] /\
  b_from_bytes word 9 Note [x00; x01; x02; x00; x00; x02; x05; x06; x07] 0 = Ok (([x07], 0), VRec [VNum 258; VList [VNum 5; VNum 6]]) /\
  b_from_bytes word 9 Note [x00; x01; x02; x00; x00; x02; x05] 0 = Err (Incomplete 16).
Proof.
  assert (HB : field_in_bytes by_hands) by (constructor; cbn; [reflexivity|intros ? ? ? ? []|exact I|exact I|intros ? ?; split; [reflexivity|discriminate]]).
  assert (HP : field_in_bytes plain) by (constructor; cbn; try exact I; [reflexivity|intros ? ? ? ? []]).
  split; [|split; [|repeat split; vm_compute; reflexivity]].
  - repeat (split; try exact HB; try exact HP; try exact I); [intros f [= <-] ? ? ? ? ?; apply put24_bytes|intros f [=]|intros ? ? _; apply word_written..].
  - repeat (split; try exact HB; try exact HP; try exact I); try (now left); [intros f [= <-] ? ? ?; exact read24_bytes|intros f [=]|intros ? _; exact word_read].
Qed.
(** struct Twice { x: u8, #[deku(seek_rewind)] y: u16, #[deku(read_all)] l: Vec<u8> } *)
Definition Twice : ty := TStruct big (field plain u8 (field (rewinding plain) u16 (field (limited FAll plain) (TVec KVec 1 u8) FNil))).
Example C54_case_padless : read_without_padding Twice /\
  fst (b_from_reader no_customs 9 Twice (cursor [x01; x02; x03]) 0) = Ok (24, VRec [VNum 1; VNum 258; VList [VNum 3]]).
Proof. split; [in_bytes_tac|]. vm_compute. reflexivity. Qed.

(** struct Tail { #[deku(pad_bytes_after = "2")] x: u8 }: padding that is cut off is
    noticed by [from_reader] in the other build only. *)
Definition Tail : ty := TStruct cplain (field (padded 0 16 plain) u8 FNil).
Theorem C54_truncated_padding_refuted : exists data n v e s1 s2, read_in_bytes no_customs true Tail /\
  from_reader no_customs 9 Tail (cursor data) 0 = (Ok (n, v), s1) /\ b_from_reader no_customs 9 Tail (cursor data) 0 = (Err e, s2).
Proof. exists [x07; x00], 24, (VRec [VNum 7]), (Incomplete 16). do 2 eexists. split; [in_bytes_tac|]. split; vm_compute; reflexivity. Qed.
Print Assumptions C54_truncated_padding_refuted.
(** The error for it differs, too: one byte is missing, the other build asks for two. *)
Theorem C54_error_refuted : exists data e1 e2, read_in_bytes no_customs true Tail /\
  from_bytes no_customs 9 Tail data 0 = Err e1 /\ b_from_bytes no_customs 9 Tail data 0 = Err e2 /\ e1 <> e2.
Proof. exists [x07; x00], (Incomplete 8), (Incomplete 16). split; [in_bytes_tac|]. repeat split; try (vm_compute; reflexivity). discriminate. Qed.
Print Assumptions C54_error_refuted.
(** struct Slots { #[deku(read_all)] l: Vec<Slot> }, struct Slot { #[deku(pad_bytes_before = "1")]
    x: u8 }: with [bits] each element after the first is read from the wrong place. *)
Definition Slots : ty := TStruct cplain (field (limited FAll plain) (TVec KVec 1 (TStruct cplain (field (padded 8 0 plain) u8 FNil))) FNil).
Theorem C54_read_all_padding_refuted : exists v b x1, written_in_bytes no_customs Slots /\
  b_to_bytes no_customs Slots v = Ok b /\ b_from_bytes no_customs 9 Slots b 0 = Ok (([], 0), v) /\
  to_bytes no_customs Slots v = Ok b /\ from_bytes no_customs 9 Slots b 0 = x1 /\ x1 <> Ok (([], 0), v).
Proof.
  exists (VRec [VList [VRec [VNum 5]; VRec [VNum 6]]]), [x00; x05; x00; x06]. eexists. split; [in_bytes_tac|]. repeat split; try (vm_compute; reflexivity).
  vm_compute. discriminate.
Qed.
Print Assumptions C54_read_all_padding_refuted.
(** struct Back { #[deku(pad_bytes_after = "2")] x: u8, #[deku(seek_rewind)] y: u8 }: after a
    seek back the padding that was missing is forgotten, and the input accepted. *)
Definition Back : ty := TStruct cplain (field (padded 0 16 plain) u8 (field (rewinding plain) u8 FNil)).
Theorem C54_seek_refuted : exists data v e, written_in_bytes no_customs Back /\ from_bytes no_customs 9 Back data 0 = Ok (([], 0), v) /\ b_from_bytes no_customs 9 Back data 0 = Err e.
Proof. exists [x07], (VRec [VNum 7; VNum 7]), (Incomplete 16). split; [in_bytes_tac|]. split; vm_compute; reflexivity. Qed.
Print Assumptions C54_seek_refuted.
(** Padding on a source without seek: only the other build can skip it. *)
Definition Lead : ty := TStruct cplain (field (padded 16 0 plain) u8 FNil).
Theorem C54_noseek_refuted : exists data k n v s1 s2, read_in_bytes no_customs true Lead /\
  from_reader no_customs 9 Lead (s_virt (cursor data) (Some 0)) 0 = (Err (Io k), s1) /\
  b_from_reader no_customs 9 Lead (s_virt (cursor data) (Some 0)) 0 = (Ok (n, v), s2).
Proof. exists [x00; x00; x07]. do 5 eexists. split; [in_bytes_tac|]. split; vm_compute; reflexivity. Qed.
Print Assumptions C54_noseek_refuted.
(** A bit offset is refused with a panic, for every type and source. *)
Theorem C54_offset : forall cu fuel t s bit, bit <> 0 -> b_from_reader cu fuel t s bit = (Panic, s).
Proof. exact offset_panics. Qed.
Print Assumptions C54_offset.
Theorem C54_offset_refuted : exists t data bit x, read_in_bytes no_customs true t /\ bit mod 8 = 0 /\
  from_bytes no_customs 9 t data bit = Ok x /\ b_from_bytes no_customs 9 t data bit = Panic.
Proof. exists (TStruct cplain (field plain u8 FNil)), [x01; x02], 8. eexists. split; [in_bytes_tac|]. repeat split; vm_compute; reflexivity. Qed.
Print Assumptions C54_offset_refuted.
