(** Hand-written writers that use the methods of [Writer] (src/writer.rs:61-413) and return at
    the first error as [?] does; [growing] as in [WSafeSpec.v].  No proofs here. *)
From Verif Require Import Base Stream Reader Writer Prims Derive SafeSpec WSafeSpec.

Inductive posts (growing : bool) : forall A : Type, WM A -> Prop :=
| po_ret A (a : A) : posts growing A (ret a)
| po_fail A e : error_is growing e -> posts growing A (fail e)
| po_bind A B (m : WM A) (f : A -> WM B) : posts growing A m -> (forall a, posts growing B (f a)) -> posts growing B (bind m f)
| po_bits l o : posts growing unit (write_bits_order l o)
| po_bytes bs : posts growing unit (write_bytes bs)
| po_prim p c v : some_bits c -> posts growing unit (prim_write p c v)
| po_finalize : posts growing unit finalize
| po_seek w : growing = false -> posts growing nat (lift_io (w_seek w))
| po_see A (f : list bool -> nat -> WM A) : (forall l n, posts growing A (f l n)) -> posts growing A (fun w => f (w_rest w) (w_bits w) w)
| po_derived named cu t args v : wsafe_ty_in named cu growing t args -> typed_in named t v -> posts growing unit (write_ty cu t args v)
| po_ext A (m1 m2 : WM A) : (forall w, m1 w = m2 w) -> posts growing A m1 -> posts growing A m2.
