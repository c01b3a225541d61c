(** Recursive types, C53.

    Vocabulary: [Rec.v] (the model: [rec_from_bytes], [rec_try_from], [rec_to_bytes] of
    the type named [k] with room for [depth] nested calls), [RecSpec.v] ([rec_format],
    [rec_safe], [rec_rewritable]). *)
From Coq Require Import Lia.
From Verif Require Import Base Spec Stream Reader Session Writer WSession Prims CodecSpec Containers ContainerSpec Derive DeriveSpec SafeSpec WSafeSpec CanonSpec DeriveSafe WSafeFacts Rec RecSpec RecProps RecCases P_Derive P_Canon P_WSafe.

(** Round trip: a value that is nested [d] deep needs room for [d] calls, to write and to
    read.  Missing: formats outside [encode], as in C28. *)
Theorem C53_round_trip_partial : forall defs o fuel d depth k v enc,
  rec_format defs SeekSource o d k [] 0 v = Some enc -> length enc <= fuel -> d <= depth ->
  exists bytes pad, rec_to_bytes defs fuel depth k v = Ok bytes /\ bitstring o bytes = enc ++ repeat false pad /\ pad < 8 /\
    forall tail, rec_from_bytes defs fuel depth k (bytes ++ tail) 0 = Ok ((skipn (length enc / 8) (bytes ++ tail), length enc mod 8), v).
Proof. exact rec_round_trip. Qed.
Print Assumptions C53_round_trip_partial.
(** Written back as read.  Missing: as in C50. *)
Theorem C53_read_write_partial : forall defs o fuel ok depth k q input v,
  rec_rewritable defs o ok -> ok k [] (SeekSource, Some 0) q ->
  rec_try_from defs fuel depth k input = Ok v -> rec_to_bytes defs fuel depth k v = Ok input.
Proof. exact rec_read_write. Qed.
Print Assumptions C53_read_write_partial.
(** Whatever the input: if a bit is consumed before each inner value, reading returns a
    value or an error, with room for one call per bit of input. *)
Theorem C53_from_bytes_partial : forall defs inside ok fuel depth k input bit,
  rec_safe defs inside ok -> ok k [] -> bit < 8 -> 8 * length input + 8 < fuel -> 8 * length input < depth ->
  let x := rec_from_bytes defs fuel depth k input bit in x <> Panic /\ x <> Diverge /\ forall rest v, x = Ok (rest, v) -> nested defs depth k v.
Proof. exact rec_safe_from_bytes. Qed.
Print Assumptions C53_from_bytes_partial.
Theorem C53_try_from_partial : forall defs inside ok fuel depth k input,
  rec_safe defs inside ok -> ok k [] -> 8 * length input + 8 < fuel -> 8 * length input < depth ->
  let x := rec_try_from defs fuel depth k input in x <> Panic /\ x <> Diverge /\ forall v, x = Ok v -> nested defs depth k v.
Proof. exact rec_safe_try_from. Qed.
Print Assumptions C53_try_from_partial.
(** On a stack of any size: no panic, and a value of the type at every level, nested no
    deeper than the stack has room for, nor than the input has bits. *)
Theorem C53_values_partial : forall defs inside ok fuel depth k input bit, rec_safe defs inside ok -> ok k [] -> bit < 8 ->
  let x := rec_from_bytes defs fuel depth k input bit in x <> Panic /\ forall rest v, x = Ok (rest, v) -> nested defs depth k v.
Proof. exact values_from_bytes. Qed.
Print Assumptions C53_values_partial.
Theorem C53_nesting_partial : forall defs inside ok fuel depth k input bit rest v, rec_safe defs inside ok -> ok k [] -> bit < 8 ->
  rec_from_bytes defs fuel depth k input bit = Ok (rest, v) -> nested defs (8 * length input + 1) k v.
Proof. exact shallow_from_bytes. Qed.
Print Assumptions C53_nesting_partial.
(** Writing: a value nested [d] deep is written, or refused with an error, on a stack with
    room for [d] calls.  Missing: as in C52. *)
Theorem C53_to_bytes_partial : forall defs ok fuel d depth k v, rec_wsafe defs false ok -> ok k [] -> nested defs d k v -> d <= depth ->
  rec_to_bytes defs fuel depth k v <> Panic /\ rec_to_bytes defs fuel depth k v <> Diverge.
Proof. exact rec_writes. Qed.
Print Assumptions C53_to_bytes_partial.
(** Without seeks, only for the two reasons of C52. *)
Theorem C53_to_bytes_errors_partial : forall defs ok fuel d depth k v, rec_wsafe defs true ok -> ok k [] -> nested defs d k v -> d <= depth ->
  (exists b, rec_to_bytes defs fuel depth k v = Ok b) \/ rec_to_bytes defs fuel depth k v = Err InvalidParam \/ rec_to_bytes defs fuel depth k v = Err Assertion.
Proof. exact rec_write_errors. Qed.
Print Assumptions C53_to_bytes_errors_partial.
(** What was read can be written on the same stack. *)
Theorem C53_read_then_write_partial : forall defs inside ok wok fuel depth k input bit rest v,
  rec_safe defs inside ok -> ok k [] -> rec_wsafe defs false wok -> wok k [] -> bit < 8 ->
  rec_from_bytes defs fuel depth k input bit = Ok (rest, v) ->
  rec_to_bytes defs fuel depth k v <> Panic /\ rec_to_bytes defs fuel depth k v <> Diverge.
Proof. exact rec_read_then_write. Qed.
Print Assumptions C53_read_then_write_partial.
(** A larger stack never changes a result; nor does more fuel, so that the bound on the
    loops in this model has no part in any result. *)
Theorem C53_more_from_bytes : forall defs fuel fuel' depth depth' k input bit, fuel <= fuel' -> depth <= depth' ->
  rec_from_bytes defs fuel depth k input bit <> Diverge ->
  rec_from_bytes defs fuel' depth' k input bit = rec_from_bytes defs fuel depth k input bit.
Proof. exact rec_more_from_bytes. Qed.
Print Assumptions C53_more_from_bytes.
Theorem C53_more_try_from : forall defs fuel fuel' depth depth' k input, fuel <= fuel' -> depth <= depth' ->
  rec_try_from defs fuel depth k input <> Diverge ->
  rec_try_from defs fuel' depth' k input = rec_try_from defs fuel depth k input.
Proof. exact rec_more_try_from. Qed.
Print Assumptions C53_more_try_from.
Theorem C53_more_to_bytes : forall defs fuel fuel' depth depth' k v, depth <= depth' ->
  rec_to_bytes defs fuel depth k v <> Diverge ->
  rec_to_bytes defs fuel' depth' k v = rec_to_bytes defs fuel depth k v.
Proof. exact rec_more_to_bytes. Qed.
Print Assumptions C53_more_to_bytes.
(** The same for types that are not recursive, with any hand-written impls. *)
Theorem C53_more_fuel : forall cu fuel fuel' t input bit, fuel <= fuel' ->
  from_bytes cu fuel t input bit <> Diverge -> from_bytes cu fuel' t input bit = from_bytes cu fuel t input bit.
Proof. exact more_fuel. Qed.
Print Assumptions C53_more_fuel.

(** The types of the examples ([RecCases.v]):
    0: struct Tree { value: u8, #[deku(temp, temp_value = "children.len() as u8")] n: u8, #[deku(count = "n")] children: Vec<Tree> }
    1: #[deku(id_type = "u8")] enum List { #[deku(id = 0)] Nil, #[deku(id = 1)] Cons(u8, Box<List>) }
    2: struct Chain { value: u8, next: Option<Box<Chain>> }
    3: struct Endless { next: Option<Box<Endless>> } *)
Definition leaf (n : N) : value := VRec [VNum n; VList []].
Definition tree : value := VRec [VNum 1; VList [leaf 2; VRec [VNum 3; VList [leaf 4; leaf 5]]; leaf 6]].
Definition tree_bytes : list byte := [x01; x03; x02; x00; x03; x02; x04; x00; x05; x00; x06; x00].
Example C53_case_round_trip : rec_format types SeekSource Msb0 3 0 [] 0 tree = Some (bitstring Msb0 tree_bytes) /\
  rec_to_bytes types 99 3 0 tree = Ok tree_bytes /\ rec_from_bytes types 99 3 0 (tree_bytes ++ [xff]) 0 = Ok (([xff], 0), tree) /\
  rec_to_bytes types 99 2 0 tree = Diverge /\ rec_from_bytes types 99 2 0 tree_bytes 0 = Diverge.
Proof. repeat split; vm_compute; reflexivity. Qed.
Definition named (k : nat) (args : list value) : Prop := k <= 1 /\ args = [].
Example C53_case_safe : rec_safe types true named.
Proof.
  intros k args [Hk ->]. destruct k as [|[|k]]; [| |lia]; (split; [reflexivity|]); intros nv cu Hcu; cbn [types].
  - unfold Tree. cbn. repeat safe_step. destruct v0; try contradiction. cbn in H1 |- *. unfold nth_num. cbn. rewrite to_usize_small by lia. rewrite N2Z.id.
    eexists. split; [reflexivity|]. split; [|split; [reflexivity|now apply Hcu]]. split; [cbn; unfold isize_max; lia|]. split; [cbn; tauto|discriminate].
  - unfold List_. cbn. repeat safe_step. apply Hcu. now split.
Qed.
Example C53_case_wsafe : forall growing, rec_wsafe types growing named.
Proof.
  intros growing k args [Hk ->] nv cu Hcu. destruct k as [|[|k]]; [| |lia]; cbn [types].
  - unfold Tree. cbn. repeat wsafe_step; try (apply N.mod_lt; discriminate). now apply Hcu.
  - unfold List_. cbn. repeat wsafe_step; try lia. apply Hcu; [now split|assumption].
Qed.
Example C53_case_nested : nested types 3 0 tree /\ ~ nested types 2 0 tree.
Proof. split; [cbn; repeat split; repeat constructor; cbn; lia|]. cbn. intros (_ & (H & _) & _). inversion_clear H as [|? ? _ H']. inversion_clear H' as [|? ? H _]. cbn in H. destruct H as (_ & (H & _) & _). now inversion H. Qed.
Definition aligned (k : nat) (args : list value) (p q : spot) : Prop := k <= 1 /\ args = [] /\ p = (SeekSource, Some 0) /\ q = (SeekSource, Some 0).
Example C53_case_rewritable : rec_rewritable types Msb0 aligned.
Proof.
  intros cu Hcu k args p q (Hk & -> & -> & ->). destruct k as [|[|k]]; [| |lia]; cbn [types].
  - unfold Tree, field. cbn [rewritable fields_rewritable]. split; [reflexivity|]. split; [now left|].
    exists (SeekSource, Some 0). split; [field_tac; read_tac; bytes_tac|]. next_tac.
    exists (SeekSource, Some 0). split; [field_tac; read_tac; bytes_tac|]. next_tac.
    exists (SeekSource, Some 0). split.
    { field_tac. read_tac. unfold nth_num. cbn [nth]. destruct v0; try contradiction. cbn [num]. unfold to_usize.
      destruct (_ || _)%bool; [exact I|]. split; [reflexivity|]. eexists. exists (SeekSource, Some 0). split; [reflexivity|].
      split; [ends_tac|]. split; [split; [reflexivity|]; apply Hcu; repeat split; lia|]. split; [ends_tac|]. discriminate. }
    next_tac. split; [ends_tac|]. destruct K1 as (off1 & _ & K1).
    destruct (K1 _ _ _ _ eq_refl eq_refl eq_refl eq_refl eq_refl) as (xs & -> & L1); [discriminate|].
    destruct v0; try contradiction. unfold nth_num in L1. cbn [nth num] in L1. cbn in T0. repeat split; intros _; cbn [nth list_len]; f_equal; rewrite N.mod_small; lia.
  - unfold List_, field. cbn [rewritable variants_rewritable]. split; [now left|]. cbn [en_id].
    exists (SeekSource, Some 0). split; [bytes_tac|]. intros id Hid. destruct id; try contradiction. split; [|split; [|exact I]].
    + intros M. cbn in M. split; [f_equal; lia|]. split; [ends_tac|exact I].
    + intros M. cbn in M. split; [f_equal; lia|]. cbn [fields_rewritable].
      exists (SeekSource, Some 0). split; [field_tac; read_tac; bytes_tac|]. next_tac.
      exists (SeekSource, Some 0). split; [field_tac; read_tac; split; [reflexivity|]; apply Hcu; repeat split; lia|]. next_tac.
      split; [ends_tac|]. repeat split.
Qed.

(** No stack is large enough: an input of [2 * depth] bytes exhausts a stack with room for
    [depth] calls, and the process aborts. *)
Theorem C53_stack_refuted : forall depth, exists input, length input = 2 * depth /\
  forall fuel, rec_from_bytes types fuel depth 1 input 0 = Diverge.
Proof. exact no_stack_suffices. Qed.
Print Assumptions C53_stack_refuted.
(** If nothing is consumed before the inner value, every input exhausts the stack. *)
Theorem C53_unguarded_refuted : forall fuel depth input, rec_from_bytes types fuel depth 3 input 0 = Diverge.
Proof. exact endless. Qed.
Print Assumptions C53_unguarded_refuted.
(** [Option] does not end a recursion: no input is a [Chain]. *)
Theorem C53_option_refuted : forall fuel depth input bit x, rec_from_bytes types fuel depth 2 input bit <> Ok x.
Proof. exact no_chain. Qed.
Print Assumptions C53_option_refuted.
