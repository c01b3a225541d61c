(** Hand-written readers that use the methods of [Reader] (src/reader.rs:152-633) and do what
    they like with an error, go on reading included.  No proofs here. *)
From Verif Require Import Base Stream Reader Prims ContainerSpec Derive.

Inductive catches : forall A : Type, RM A -> Prop :=
| ca_end A (x : res A) : x <> Panic -> x <> Diverge -> catches A (lift x)
| ca_then A B (m : RM A) (f : res A -> RM B) : catches A m -> (forall x, x <> Panic -> x <> Diverge -> catches B (f x)) ->
    catches B (fun r => let '(x, r') := m r in f x r')
| ca_bits n o : catches (list bool) (read_bits_into n o)
| ca_bytes n size o : 0 < n <= size -> catches (list byte) (read_bytes n size o)
| ca_prim p c : 0 < prim_bytes p -> sized c -> catches N (prim_read p c)
| ca_skip n o : n < 8 -> catches unit (skip_bits n o)
| ca_seek w : catches nat (lift_io (r_seek w))
| ca_at_end : catches bool (fun r => let '(b, r') := r_end r in (Ok b, r'))
| ca_offset A (f : nat -> RM A) : (forall n, catches A (f n)) -> catches A (fun r => f (r_bits r) r)
| ca_ext A (m1 m2 : RM A) : (forall r, m1 r = m2 r) -> catches A m1 -> catches A m2.
