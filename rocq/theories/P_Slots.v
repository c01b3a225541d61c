(** The memory of arrays, C66.

    Vocabulary: [Slots.v] (the model: [slots_read], [Done] with what is dropped and what is
    lost, [Undefined]), [SlotSpec.v] ([produced]). *)
From Verif Require Import Base Stream Reader Prims Containers Slots SlotSpec SlotProps.

(** Whatever the reader of the elements does, reading [[T; N]] is defined.  If N elements
    can be read, they are returned, in order, and nothing is dropped.  If one fails, with an
    error, those read before it are dropped once each, in order.  If one panics, those
    are lost, but not dropped. *)
Theorem C66_array_memory : forall A (N : nat) (elem : RM A) r,
  exists res r' l, produced elem r l r' /\
  match res with
  | Ok x => x = l /\ length l = N /\ slots_read N elem r = (Done (Ok x) [] [], r')
  | Err e => exists r2, elem r' = (Err e, r2) /\ length l < N /\ slots_read N elem r = (Done (Err e) l [], r2)
  | Panic => exists r2, elem r' = (Panic, r2) /\ length l < N /\ slots_read N elem r = (Done Panic [] l, r2)
  | Diverge => exists r2, elem r' = (Diverge, r2) /\ length l < N /\ slots_read N elem r = (Done Diverge [] l, r2)
  end.
Proof. intros A. exact slots_sound. Qed.
Print Assumptions C66_array_memory.
(** The result and the state of the reader are those the theorems about arrays as lists are
    about (C26, C28). *)
Theorem C66_array_refines : forall A (N : nat) (elem : RM A) r,
  exists drops lost, slots_read N elem r = (Done (fst (read_array N elem r)) drops lost, snd (read_array N elem r)).
Proof. intros A. exact slots_refine. Qed.
Print Assumptions C66_array_refines.

(** [[u16; 3]] of 7, 5 and no bytes, [[u16; 0]]; and with a reader of elements that panics
    at 0. *)
Definition le16 : RM N := prim_read (PU 2) (CE Little).
Definition picky : RM N := let* n := le16 in if (n =? 0)%N then panic else ret n.
Example C66_case :
  fst (slots_read 3 le16 (reader_new (cursor [x01; x00; x02; x00; x03; x00; x04]))) = Done (Ok [1; 2; 3]%N) [] [] /\
  fst (slots_read 3 le16 (reader_new (cursor [x01; x00; x02; x00; x03]))) = Done (Err (Incomplete 16)) [1; 2]%N [] /\
  fst (slots_read 3 le16 (reader_new (cursor []))) = Done (Err (Incomplete 16)) [] [] /\
  fst (slots_read 0 le16 (reader_new (cursor []))) = Done (Ok []) [] [] /\
  fst (slots_read 3 picky (reader_new (cursor [x01; x00; x02; x00; x00; x00]))) = Done Panic [] [1; 2]%N.
Proof. repeat split; vm_compute; reflexivity. Qed.
(** Dropping one too many, or returning one too few, is undefined: the model can tell. *)
Example C66_case_undefined : drop_init 2 [Init 1%N; Uninit] = None /\ assume_init [Init 1%N; Uninit] = None /\
  drop_init 2 [Init 1%N; Dropped] = None.
Proof. repeat split. Qed.
