(** Hand-written readers that use the methods of [Reader] (src/reader.rs:152-633), return at
    the first error as [?] does, changed by [map_err] or not, do not call [end()] or [SeekFrom::End], and do not make up an
    [Incomplete] of size 0.  No proofs here. *)
From Verif Require Import Base Stream Reader Prims Derive DeriveSpec MoreSpec NeedSpec.

Inductive awaits : forall A : Type, RM A -> Prop :=
| aw_end A (x : res A) : x <> Err (Incomplete 0) -> awaits A (lift x)
| aw_bind A B (m : RM A) (f : A -> RM B) : awaits A m -> (forall a, awaits B (f a)) -> awaits B (bind m f)
| aw_bits n o : awaits (list bool) (read_bits_into n o)
| aw_bytes n size o : awaits (list byte) (read_bytes n size o)
| aw_prim p c : awaits N (prim_read p c)
| aw_skip n o : awaits unit (skip_bits n o)
| aw_seek w : not_from_end (Some w) -> awaits nat (lift_io (r_seek w))
| aw_offset A (f : nat -> RM A) : (forall n, awaits A (f n)) -> awaits A (fun r => f (r_bits r) r)
| aw_derived cu fuel t args : (forall more, blind_to_end more cu t) -> asking cu t -> awaits value (read_ty cu fuel t None args)
(** [map_err]: what is [Incomplete] stays so. *)
| aw_map_err A (m : RM A) (h : derr -> derr) : awaits A m -> (forall n, h (Incomplete n) = Incomplete n) -> (forall e, h e = Incomplete 0 -> e = Incomplete 0) ->
    awaits A (fun r => match m r with (Err e, r') => (Err (h e), r') | y => y end)
| aw_ext A (m1 m2 : RM A) : (forall r, m1 r = m2 r) -> awaits A m1 -> awaits A m2.
