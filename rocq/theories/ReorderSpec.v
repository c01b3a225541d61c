(** Enums with the variants in another order, C86.  No proofs here. *)
From Verif Require Import Base Prims Containers Derive.

(** [vs'] has the variants of [vs]; the one with index [k] has index [s k] there, and [r]
    leads back. *)
Definition reordered (s r : nat -> nat) (vs vs' : variants) : Prop :=
  (forall k v, nth_variant vs k = Some v -> nth_variant vs' (s k) = Some v /\ r (s k) = k) /\
  (forall k v, nth_variant vs' k = Some v -> nth_variant vs (r k) = Some v /\ s (r k) = k).
(** No id belongs to two variants, and at most one is the [default]. *)
Definition apart (vs : variants) : Prop := forall i j v fs w gs, i <> j -> nth_variant vs i = Some (v, fs) -> nth_variant vs j = Some (w, gs) ->
  (forall id, matches (v_sel v) id = true -> matches (v_sel w) id = false) /\ (v_default v = true -> v_default w = false).
(** The same value of the other enum. *)
Definition renamed (s : nat -> nat) (v : value) : value := match v with VVar k l => VVar (s k) l | _ => v end.
