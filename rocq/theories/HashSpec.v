(** HashMap and HashSet fields; vocabulary of the theorems, no proofs here. *)
From Coq Require Import Permutation.
From Verif Require Import Base Spec Stream Reader Writer Prims CodecSpec Containers Derive DeriveSpec.

(** [kept] is what a HashMap or HashSet holds after [items] have been inserted one after
    the other, in some order: each key once, with the entry inserted last. *)
Definition holds_last (k : store) (items kept : list value) : Prop :=
  NoDup (map (entry_key k) kept) /\
  forall x, In x kept <-> exists before after, items = before ++ x :: after /\ ~ In (entry_key k x) (map (entry_key k) after).

(** A value of type [t] takes the same bits, a multiple of [g], wherever they begin at a
    multiple of [g]: with 8 whole bytes, with 1 any bits. *)
Definition movable (g : nat) (o : order) (t : ty) (args : list value) (x : value) : Prop :=
  exists e, length e mod g = 0 /\ forall pos, pos mod g = 0 -> encode SeekSource o no_format t None args pos x = Some e.
