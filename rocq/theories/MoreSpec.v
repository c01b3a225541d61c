(** Vocabulary of the theorems about input that arrives in pieces; no proofs here. *)
From Verif Require Import Base Stream Reader Session Prims Containers Derive DeriveSpec.

(** The same reader over a source with more bytes behind it. *)
Definition r_more (more : list byte) (r : reader) : reader := mkReader (with_more (r_s r) more) (r_left r) (r_bits r).
(** With more input, success is the same success and leaves the same unread input with
    more behind it, and an error other than [Incomplete] is the same error. *)
Definition unaffected (more : list byte) {A} (m : RM A) : Prop :=
  forall r, match m r with
            | (Err (Incomplete _), _) | (Panic, _) => True
            | (Ok a, r') => m (r_more more r) = (Ok a, r_more more r')
            | (x, _) => fst (m (r_more more r)) = x
            end.
Definition not_from_end (w : option seekfrom) : Prop := match w with Some (SeekEnd _) => False | _ => True end.
(** Nothing in [t] depends on where the input ends: no [read_all], no [seek_from_end],
    and hand-written readers that are unaffected. *)
Definition blind_to_end (more : list byte) (cu : nat -> custom) (t : ty) : Prop :=
  every (fun c => forall f, c_seek c = Some f -> forall ctx, not_from_end (f ctx)) (fun _ => True)
    (fun _ a _ => (forall f, a_seek a = Some f -> forall ctx fs, not_from_end (f ctx fs)) /\ a_limit a <> Some FAll /\
       (forall f, a_reader a = Some f -> forall ctx fs off, unaffected more (f ctx fs off)))
    (fun k => forall args, unaffected more (cu_read (cu k) args)) t.
