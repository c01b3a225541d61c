(** Hand-written readers that also skip whole bytes and seek, return at the first error as
    [?] does, and from where to where they lead ([FlowSpec.v]): known to be inside before and
    after.  No proofs here. *)
From Verif Require Import Base Stream Reader Prims Containers ContainerSpec Derive DeriveSpec SafeSpec FlowSpec FaultSpec.

Inductive strides (seeks : bool) : forall A : Type, (A -> Prop) -> RM A -> bool -> bool -> Prop :=
| st_steady A good m i : enduring A good m -> strides seeks A good m i i
| st_prim p c i j : 0 < prim_bytes p -> sized c -> strides seeks N (fun n => (n < 2 ^ N.of_nat (prim_width p))%N) (prim_read p c) i j
| st_skip n o i : (N.of_nat n <= usize_max)%N -> strides seeks unit (fun _ => True) (skip_bits n o) i (i && (n <? 8))
| st_seek w i : seeks = true -> strides seeks nat (fun _ => True) (lift_io (r_seek w)) i (i && seek_in (Some (Some w)))
| st_bind A B (mid : A -> Prop) (good : B -> Prop) m f i k j :
    strides seeks A mid m i k -> (forall a, mid a -> strides seeks B good (f a) k j) -> strides seeks B good (bind m f) i j
| st_offset A good (f : nat -> RM A) i j : (forall n, strides seeks A good (f n) i j) -> strides seeks A good (fun r => f (r_bits r) r) i j
| st_forget A (good good' : A -> Prop) m i j i' j' : strides seeks A good m i j -> (forall a, good a -> good' a) ->
    only_if_known i i' -> only_if_known j' j -> strides seeks A good' m i' j'
| st_ext A good (m1 m2 : RM A) i j : (forall r, m1 r = m2 r) -> strides seeks A good m1 i j -> strides seeks A good m2 i j.
