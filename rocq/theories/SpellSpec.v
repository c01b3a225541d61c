(** Hand-written readers and writers of a format, step by step: at position [pos] of a
    stream, the reader [m] and the writer [w] that stand for the value [v] with the bits [enc].
    No proofs here. *)
From Verif Require Import Base Spec Stream Reader Session Writer WSession Prims CodecSpec Containers ContainerSpec Derive DeriveSpec.

Inductive spells (src : source) (o : order) : forall A : Type, RM A -> WM unit -> nat -> list bool -> A -> Prop :=
| sp_prim cu fuel p args pos v enc : encode src o no_format (TPrim p) None args pos v = Some enc ->
    spells src o value (read_ty cu fuel (TPrim p) None args) (write_ty cu (TPrim p) args v) pos enc v
| sp_derived cu ce fuel t lim args pos v enc : customs_lawful src o cu ce -> encode src o ce t lim args pos v = Some enc -> length enc <= fuel ->
    spells src o value (read_ty cu fuel t lim args) (write_ty cu t args v) pos enc v
| sp_ret A (a : A) pos : spells src o A (ret a) (ret tt) pos [] a
| sp_bind A B (m : RM A) (f : A -> RM B) w1 w2 pos e1 e2 a b :
    spells src o A m w1 pos e1 a -> spells src o B (f a) w2 (pos + length e1) e2 b ->
    spells src o B (bind m f) (let* _ := w1 in w2) pos (e1 ++ e2) b
(** A check or a change of representation. *)
| sp_check A B (m : RM A) (f : A -> res B) w pos e a b : spells src o A m w pos e a -> f a = Ok b ->
    spells src o B (let* x := m in lift (f x)) w pos e b
| sp_ext A (m1 m2 : RM A) w1 w2 pos e a : (forall r, m1 r = m2 r) -> (forall w, w1 w = w2 w) ->
    spells src o A m1 w1 pos e a -> spells src o A m2 w2 pos e a.
(** The hand-written types spell their formats. *)
Definition customs_spell (src : source) (o : order) (cu : nat -> custom) (ce : nat -> list value -> nat -> value -> option (list bool)) : Prop :=
  forall k args pos v enc, ce k args pos v = Some enc -> spells src o value (cu_read (cu k) args) (cu_write (cu k) args v) pos enc v.
