(** Vocabulary of the theorems about the memory of arrays; no proofs here. *)
From Verif Require Import Base Stream Reader.

(** Reading elements one after the other, from [r] to [r'], gives these values. *)
Inductive produced {A} (elem : RM A) : reader -> list A -> reader -> Prop :=
| produced_none r : produced elem r [] r
| produced_one r a r1 l r2 : elem r = (Ok a, r1) -> produced elem r1 l r2 -> produced elem r (a :: l) r2.
