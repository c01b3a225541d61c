(** Sinks that fail: vocabulary of the theorems, no proofs here. *)
From Verif Require Import Base Stream.

(** Between the states [k] and [k'] of a sink no call failed. *)
Definition all_calls_succeeded (k k' : sink) : Prop := forall j, k_calls k <= j < k_calls k' -> k_fault k j = None.
(** ... only the last call failed, with [e]. *)
Definition last_call_failed (k k' : sink) (e : iokind) : Prop :=
  exists m n, k_calls k <= m /\ k_calls k' = S m /\ k_fault k m = Some (e, n) /\ forall j, k_calls k <= j < m -> k_fault k j = None.
