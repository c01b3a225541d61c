(** Hand-written readers of untrusted input, C49.

    Vocabulary: [StrideSpec.v] ([strides]: hand-written readers that return at the first
    error), [FlowSpec.v] ([leads], [flow_type]) and [SafeSpec.v] ([typed]); [CatchSpec.v]
    ([catches]: ones that do what they like with an error), [ContainerSpec.v] ([safe], [valid]). *)
From Coq Require Import Lia.
From Verif Require Import Base Stream Reader Writer Prims MonadFacts Containers ContainerSpec Derive DeriveSpec SafeSpec FlowSpec FaultSpec StrideSpec StrideFacts CatchSpec CatchFacts P_Derive P_Safe.

(** They return a value that is [good] or an error, do not panic, and lead from where [flows]
    wants them to where it relies on them. *)
Theorem C49_by_hand : forall seeks A (good : A -> Prop) m i j, strides seeks A good m i j -> leads seeks good m i j.
Proof. exact strides_lead. Qed.
Print Assumptions C49_by_hand.

(** struct Linked { kind: u8, target: Target, last: u8 }, where Target reads by hand: a place in the input, and
    what is there, a u16; then it skips a byte. *)
Definition target_read : RM value :=
  let* at_ := prim_read PU8 C0 in
  let* _ := lift_io (r_seek (SeekStart (N.to_nat at_))) in
  let* v := prim_read (PU 2) (CE Big) in
  let* _ := skip_bits 8 Msb0 in ret (VNum v).
Definition targets (k : nat) : custom := mkCustom (fun _ => target_read) (fun _ _ => ret tt).
Definition Linked : ty := TStruct cplain (field plain u8 (field plain (TCustom 0) (field plain u8 FNil))).
Lemma target_strides : strides true value (any_value 0) target_read true false.
Proof.
  eapply st_bind; [apply (st_prim true PU8 C0 true true); [apply Nat.lt_0_1|exact I]|]. intros a _.
  eapply st_bind; [now apply st_seek|]. intros p _.
  eapply st_bind; [apply (st_prim true (PU 2) (CE Big) _ true); [cbn; lia|exact I]|]. intros v _.
  eapply st_bind; [apply st_skip; vm_compute; discriminate|]. intros u _.
  apply (st_steady true value). now apply en_ret.
Qed.
Example C49_case_by_hand : flow_type targets Linked /\
  from_bytes targets 100 Linked [x01; x03; xff; x02; x04; x07; x09] 0 = Ok (([], 0), VRec [VNum 1; VNum 0x204; VNum 9]) /\
  (exists n, from_bytes targets 100 Linked [x01; xf0; xff; x02; x04; x07; x09] 0 = Err (Incomplete n)) /\
  (exists n, from_bytes targets 100 Linked [x01; x03; xff; x02; x04] 0 = Err (Incomplete n)).
Proof.
  split; [|split; [vm_compute; reflexivity|split; eexists; vm_compute; reflexivity]].
  exists true. unfold Linked. cbn. split; [exact I|]. split; [exact I|]. exists true. split.
  { split; [discriminate|]. intros o _. split; [|auto]. split; [reflexivity|]. split; [apply Nat.lt_0_1|]. eexists. split; [reflexivity|exact I]. }
  intros v Hv _. split; [exact I|]. exists false. split.
  { split; [discriminate|]. intros o _. split; [|auto]. split; [reflexivity|]. apply C49_by_hand, target_strides. }
  intros v' Hv' _. split; [exact I|]. exists true. split; [|intros; intro; reflexivity].
  split; [discriminate|]. intros o _. split; [|auto]. split; [reflexivity|]. split; [apply Nat.lt_0_1|]. eexists. split; [reflexivity|exact I].
Qed.

(** A [Reader] may be used after an error: hand-written readers that catch errors and go on do
    not panic and leave a valid reader, whatever the source and whichever of its calls fail. *)
Theorem C49_catching : forall A m, catches A m -> safe m.
Proof. exact catches_safe. Qed.
Print Assumptions C49_catching.
Theorem C49_catching_from_reader : forall cu fuel k s bit, catches value (cu_read (cu k) []) -> bit < 8 ->
  fst (from_reader cu fuel (TCustom k) s bit) <> Panic /\ fst (from_reader cu fuel (TCustom k) s bit) <> Diverge.
Proof. exact catches_from_reader. Qed.
Print Assumptions C49_catching_from_reader.
(** Either, hand-written: a u32 if there is one, otherwise what is there after four bits, as a u8. *)
Definition either_read : RM value := fun r =>
  let '(x, r1) := prim_read (PU 4) (CE Big) r in
  match x with
  | Ok n => lift (Ok (VNum n))
  | Err (Incomplete _) => fun r1 => let '(_, r2) := lift_io (r_seek (SeekStart 0)) r1 in
      (fun r2 => let '(_, r3) := skip_bits 4 Msb0 r2 in (fun r3 => let '(y, r4) := prim_read PU8 C0 r3 in lift (res_map y VNum) r4) r3) r2
  | Err e => lift (Err e)
  | Panic => lift Panic
  | Diverge => lift Diverge
  end r1.
Definition eithers (k : nat) : custom := mkCustom (fun _ => either_read) (fun _ _ => ret tt).
Lemma either_catches : catches value either_read.
Proof.
  apply (ca_then N value (prim_read (PU 4) (CE Big))); [apply ca_prim; [cbn; lia|exact I]|]. intros x P D.
  destruct x as [n|[]| |]; try congruence; try (now apply ca_end).
  apply (ca_then nat value (lift_io (r_seek (SeekStart 0))) (fun _ r2 => _)); [apply ca_seek|]. intros _ _ _.
  apply (ca_then unit value (skip_bits 4 Msb0) (fun _ r3 => _)); [apply ca_skip; lia|]. intros _ _ _.
  apply (ca_then N value (prim_read PU8 C0) (fun y => lift (res_map y VNum))); [apply ca_prim; [apply Nat.lt_0_1|exact I]|].
  intros y P' D'. apply ca_end; destruct y; cbn; congruence.
Qed.
Example C49_case_catching : catches value (cu_read (eithers 0) []) /\
  from_bytes eithers 9 (TCustom 0) [x01; x02; x03; x04] 0 = Ok (([], 0), VNum 0x1020304) /\
  from_bytes eithers 9 (TCustom 0) [x01; x23; x45] 0 = Ok (([x23; x45], 4), VNum 0x12) /\
  (exists n, from_bytes eithers 9 (TCustom 0) [x01] 0 = Err (Incomplete n)).
Proof. split; [exact either_catches|]. split; [vm_compute; reflexivity|]. split; [vm_compute; reflexivity|]. eexists. vm_compute. reflexivity. Qed.
(** Skips of a byte or more are another matter: after four bits, and a seek that fails, the buffered bits are gone but
    still counted. *)
Definition lost_bits : RM value := fun r =>
  let '(_, r1) := read_bits_into 4 Msb0 r in let '(_, r2) := lift_io (r_seek (SeekCurrent (-9))) r1 in (let* _ := skip_bits 8 Msb0 in ret VNone) r2.
Theorem C49_skip_after_error_refuted : exists input, forall fuel,
  from_bytes (fun _ => mkCustom (fun _ => lost_bits) (fun _ _ => ret tt)) fuel (TCustom 0) input 0 = Panic.
Proof. exists [x01; x02; x03]. intros fuel. reflexivity. Qed.
Print Assumptions C49_skip_after_error_refuted.
