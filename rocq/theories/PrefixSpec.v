(** Vocabulary of the theorems about messages put one behind another; no proofs here. *)
From Verif Require Import Base Stream Reader Writer CodecSpec Containers ContainerSpec Derive DeriveSpec.

(** [bytes] is the message of [v], a value that the format of [t] has a place for. *)
Definition message (cu : nat -> custom) (ce : nat -> list value -> nat -> value -> option (list bool)) (o : order) (t : ty) (v : value) (bytes : list byte) : Prop :=
  (exists enc, encode SeekSource o ce t None [] 0 v = Some enc) /\ to_bytes cu t v = Ok bytes.
