(** Writing without panics, C52.

    Vocabulary: [WSafeSpec.v] ([wsafe_type], [wsafe_ty], [sink_is], [writes_safely]),
    [SafeSpec.v] ([typed]), [FlowSpec.v] ([flow_type]), [PostSpec.v] ([posts]:
    hand-written writers that return at the first error). *)
From Coq Require Import Lia.
From Verif Require Import Base Stream Reader Writer Prims MonadFacts Containers Derive DeriveSpec SafeSpec DeriveSafe FlowSpec FlowFacts WSafeSpec WSafeDerive PostSpec PostFacts P_Derive P_Safe.

(** Whatever the value of the type.  Missing: types that are not safe; see the refutations
    below. *)
Theorem C52_to_bytes_partial : forall cu t v, wsafe_type cu t -> typed t v -> to_bytes cu t v <> Panic /\ to_bytes cu t v <> Diverge.
Proof. exact wsafe_bytes. Qed.
Print Assumptions C52_to_bytes_partial.
Theorem C52_to_slice_partial : forall cu t v buf, wsafe_type cu t -> typed t v ->
  fst (to_slice cu t v buf) <> Panic /\ fst (to_slice cu t v buf) <> Diverge.
Proof. exact wsafe_to_slice. Qed.
Print Assumptions C52_to_slice_partial.
Theorem C52_to_bits_partial : forall cu t v, wsafe_type cu t -> typed t v -> to_bits cu t v <> Panic /\ to_bits cu t v <> Diverge.
Proof. exact wsafe_bits. Qed.
Print Assumptions C52_to_bits_partial.
(** Into any sink, seekable or not, full or failing at any call, with any context, at any
    point between two writes. *)
Theorem C52_writer_partial : forall cu t args v, wsafe_ty cu false t args -> typed t v ->
  writes_safely false (write_ty cu t args v) /\
  forall k, let x := fst ((let* _ := write_ty cu t args v in finalize) (writer_new k)) in x <> Panic /\ x <> Diverge.
Proof. exact wsafe_any. Qed.
Print Assumptions C52_writer_partial.
(** Without seeks, and into a growing sink, there are two errors: a value does not fit its
    field, or an assertion of the type does not hold. *)
Theorem C52_errors_partial : forall cu t v, wsafe_ty cu true t [] -> typed t v ->
  (exists b, to_bytes cu t v = Ok b) \/ to_bytes cu t v = Err InvalidParam \/ to_bytes cu t v = Err Assertion.
Proof. exact wsafe_errors. Qed.
Print Assumptions C52_errors_partial.
(** What was read from untrusted input can be written. *)
Theorem C52_read_partial : forall cu fuel t input bit rest v, flow_type cu t -> wsafe_type cu t -> bit < 8 -> 8 * length input + 8 < fuel ->
  from_bytes cu fuel t input bit = Ok (rest, v) -> to_bytes cu t v <> Panic /\ to_bytes cu t v <> Diverge.
Proof. exact wsafe_read. Qed.
Print Assumptions C52_read_partial.

Ltac wsafe_step :=
  match goal with
  | |- _ /\ _ => split
  | |- True => exact I
  | |- field_wsafe_in _ _ _ _ _ _ _ _ _ _ => unfold field_wsafe_in; cbn
  | |- exists c, Some _ = Some c /\ _ => eexists; split; [reflexivity|]; cbn
  | |- ?x = ?x => reflexivity
  | |- _ => progress intros
  | |- _ => discriminate
  | |- _ => assumption
  | |- (_ < _)%nat => lia
  | H : match ?l with _ => _ end |- _ => is_var l; destruct l; try contradiction
  | H : _ /\ _ |- _ => destruct H
  end.
(** Types with counts, temporary fields, bit fields, conditions, padding, enums and
    assertions are safe ... *)
Example C52_case : wsafe_type no_customs Packet /\ wsafe_ty no_customs true Packet [] /\ typed Packet packet /\
  to_bytes no_customs Packet packet = Ok packet_bytes.
Proof.
  assert (H : forall growing, wsafe_ty no_customs growing Packet []).
  { intros growing. unfold Packet, Kind. cbn. repeat wsafe_step.
    all: first [lia|apply N.mod_lt; discriminate]. }
  split; [exact (H false)|]. split; [exact (H true)|]. split; [cbn; repeat split; repeat constructor; lia|vm_compute; reflexivity].
Qed.
(** ... and so are seeks; here the errors are a full buffer and a seek in front of it. *)
Example C52_case_seek : wsafe_type no_customs Record_ /\
  to_slice no_customs Record_ (VRec [VNum 2; VList [VNum 0x61; VNum 0x62]; VList [VVar 0 []]; VNum 3]) (repeat xff 5) =
    (Ok 5, [x03; x61; x62; x01; xff]) /\
  fst (to_slice no_customs Record_ (VRec [VNum 2; VList [VNum 0x61; VNum 0x62]; VList [VVar 0 []]; VNum 3]) (repeat xff 3)) = Err (Io WriteZero).
Proof. split; [unfold wsafe_type, Record_, Kind; cbn; repeat wsafe_step; lia|]. split; vm_compute; reflexivity. Qed.

(** Hand-written writers that return at the first error are safe, as [wsafe_ty] wants them. *)
Theorem C52_by_hand : forall growing m, posts growing unit m -> writes_safely growing m.
Proof. exact posts_safely. Qed.
Print Assumptions C52_by_hand.
Definition sized_by (f : expr0 nat) (a : fattrs) : fattrs :=
  mkF (a_endian a) (a_order a) (Some f) (a_bytes a) (a_ctx a) (a_limit a) (a_map a) (a_reader a) (a_writer a) (a_skip a) (a_cond a) (a_default a)
      (a_assert a) (a_assert_eq a) (a_seek a) (a_magic a) (a_pad_before a) (a_pad_after a) (a_temp a) (a_temp_value a) (a_update a).
(** struct Tagged { #[deku(bits = 4)] tag: u8, stamp: Stamp }, where Stamp writes by hand: nothing above 9999;
    four zeros if the writer is inside a byte, then the number as a u16 and a mark of 3 bits. *)
Definition stamp_write (v : value) : WM unit :=
  if (9999 <? nth_num [v] 0)%N then fail Assertion else
  let* _ := (fun w => (if length (w_rest w) =? 4 then write_bits_order (repeat false 4) Msb0 else ret tt) w) in
  let* _ := prim_write (PU 2) (CE Big) (nth_num [v] 0) in write_bits_order [true; false; true] Msb0.
Definition stamps (k : nat) : custom := mkCustom (fun _ => fail Parse) (fun _ => stamp_write).
Definition Tagged : ty := TStruct cplain (field (sized_by (fun _ _ => 4) plain) u8 (field plain (TCustom 0) FNil)).
Lemma stamp_posts growing v : posts growing unit (stamp_write v).
Proof.
  unfold stamp_write. destruct (_ <? _)%N; [apply po_fail; intros _; now right|].
  apply po_bind; [|intros _; apply po_bind; [now apply po_prim|intros _; apply po_bits]].
  apply (po_see growing unit (fun l _ => if length l =? 4 then _ else _)). intros l n. destruct (_ =? _); [apply po_bits|apply po_ret].
Qed.
Example C52_case_by_hand : wsafe_type stamps Tagged /\ wsafe_ty stamps true Tagged [] /\
  to_bytes stamps Tagged (VRec [VNum 6; VNum 513]) = Ok [x60; x02; x01; xa0] /\
  to_bytes stamps Tagged (VRec [VNum 6; VNum 10000]) = Err Assertion /\
  to_bytes stamps Tagged (VRec [VNum 16; VNum 513]) = Err InvalidParam.
Proof.
  assert (H : forall growing, wsafe_ty stamps growing Tagged []).
  { intros growing. cbn. repeat wsafe_step. apply C52_by_hand, stamp_posts. }
  split; [exact (H false)|]. split; [exact (H true)|]. repeat split; vm_compute; reflexivity.
Qed.

(** A size of 0 bits.
      #[deku(endian = "big")] struct Sized { n: u8, #[deku(bits = "*n as usize")] x: u8 } *)
Definition Sized : ty := TStruct big (field plain u8 (field (sized_by (fun _ fs => N.to_nat (nth_num fs 0)) plain) u8 FNil)).
Theorem C52_zero_bits_refuted : exists v, typed Sized v /\ to_bytes no_customs Sized v = Panic.
Proof. exists (VRec [VNum 0; VNum 0]). split; [cbn; repeat split; lia|vm_compute; reflexivity]. Qed.
Print Assumptions C52_zero_bits_refuted.
(** A seek to a negative place.
      struct Jump { to: i8, #[deku(seek_from_start = "*to")] x: u8 } *)
Definition seek_to (f : expr0 (option seekfrom)) (a : fattrs) : fattrs :=
  mkF (a_endian a) (a_order a) (a_bits a) (a_bytes a) (a_ctx a) (a_limit a) (a_map a) (a_reader a) (a_writer a) (a_skip a) (a_cond a) (a_default a)
      (a_assert a) (a_assert_eq a) (Some f) (a_magic a) (a_pad_before a) (a_pad_after a) (a_temp a) (a_temp_value a) (a_update a).
Definition Jump : ty :=
  TStruct cplain (field plain (TPrim (PI 1))
    (field (seek_to (fun _ fs => if (nth_num fs 0 <? 128)%N then Some (SeekStart (N.to_nat (nth_num fs 0))) else None) plain) u8 FNil)).
Theorem C52_seek_refuted : exists v, typed Jump v /\ to_bytes no_customs Jump v = Panic.
Proof. exists (VRec [VNum 0xff; VNum 7]). split; [cbn; repeat split; lia|vm_compute; reflexivity]. Qed.
Print Assumptions C52_seek_refuted.
(** The same panic when reading, on input a sender can choose. *)
Theorem C52_seek_read_refuted : exists input, forall fuel, from_bytes no_customs fuel Jump input 0 = Panic.
Proof. exists [xff; x07]. intros fuel. reflexivity. Qed.
Print Assumptions C52_seek_read_refuted.
(** A hand-written writer that tries again after an error, into a buffer that is full: the byte that could not be
    stored is still waiting.
      struct Again { #[deku(bits = 4)] a: u8, b: Retry } *)
Definition retries (k : nat) : custom :=
  mkCustom (fun _ => fail Parse) (fun _ _ w => match write_bits_order (repeat true 4) Msb0 w with (Err _, w') => write_bits_order (repeat true 4) Msb0 w' | y => y end).
Definition Again : ty := TStruct cplain (field (sized_by (fun _ _ => 4) plain) u8 (field plain (TCustom 0) FNil)).
Theorem C52_after_error_refuted : exists v, typed Again v /\ to_bytes retries Again v = Ok [x5f] /\ fst (to_slice retries Again v []) = Panic.
Proof. exists (VRec [VNum 5; VNum 0]). repeat split; vm_compute; reflexivity. Qed.
Print Assumptions C52_after_error_refuted.
