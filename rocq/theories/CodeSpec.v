(** Hand-written readers and writers that use a [Reader] and a [Writer] through their
    methods (src/reader.rs:152-633, src/writer.rs:344-413, the seeks of both), step by step; what is done with an
    error is up to them.  No proofs here. *)
From Verif Require Import Base Stream Reader Writer Prims Derive DeriveSpec ChunkSpec.

Inductive read_code : forall A : Type, RM A -> Type :=
| rc_end A (x : res A) : read_code A (lift x)
| rc_then A B (m : RM A) (f : res A -> RM B) : read_code A m -> (forall x, read_code B (f x)) -> read_code B (fun r => let '(x, r') := m r in f x r')
| rc_bits n o : read_code (list bool) (read_bits_into n o)
| rc_bytes n size o : read_code (list byte) (read_bytes n size o)
| rc_prim p c : read_code N (prim_read p c)
| rc_skip n o : read_code unit (skip_bits n o)
| rc_seek w : read_code nat (lift_io (r_seek w))
| rc_at_end : read_code bool (fun r => let '(b, r') := r_end r in (Ok b, r'))
| rc_offset A (f : nat -> RM A) : (forall n, read_code A (f n)) -> read_code A (fun r => f (r_bits r) r)
| rc_derived cu fuel t lim args : reader_derived t -> read_code value (read_ty cu fuel t lim args)
| rc_ext A (m1 m2 : RM A) : (forall r, m1 r = m2 r) -> read_code A m1 -> read_code A m2.

Inductive write_code : forall A : Type, WM A -> Type :=
| wc_end A (x : res A) : write_code A (lift x)
| wc_then A B (m : WM A) (f : res A -> WM B) : write_code A m -> (forall x, write_code B (f x)) -> write_code B (fun w => let '(x, w') := m w in f x w')
| wc_bits l o : write_code unit (write_bits_order l o)
| wc_bytes bs : write_code unit (write_bytes bs)
| wc_prim p c v : write_code unit (prim_write p c v)
| wc_seek w : write_code nat (lift_io (w_seek w))
| wc_offset A (f : nat -> WM A) : (forall n, write_code A (f n)) -> write_code A (fun w => f (w_bits w) w)
| wc_derived cu t args v : writer_derived t -> write_code unit (write_ty cu t args v)
| wc_ext A (m1 m2 : WM A) : (forall w, m1 w = m2 w) -> write_code A m1 -> write_code A m2.

(** Types whose hand-written parts are types of their own ([impl DekuReader], [impl
    DekuWriter]), not attributes. *)
Definition reader_by_types (t : ty) : Prop :=
  every (fun _ => True) (fun _ => True) (fun _ a _ => a_reader a = None) (fun _ => True) t.
Definition writer_by_types (t : ty) : Prop :=
  every (fun _ => True) (fun _ => True) (fun _ a _ => a_writer a = None) (fun _ => True) t.
