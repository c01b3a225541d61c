(** Recursive types: types that contain themselves through [Box], [Arc] or [Vec]
    (tests/test_box.rs; src/impls/boxed.rs:8-25, vec.rs:112-191).  No proofs here.

    The impl generated for a type calls the impl of every field's type
    (deku_read.rs:868-916, deku_write.rs:740-765), which may be the type itself.
    [defs k] is the type with the name [k], in which [TCustom j] stands for the type
    named [j].  The Rust call stack is finite: [depth] bounds the nesting of calls to
    named types, and a call that exceeds it does not return ([Diverge]; the process is
    aborted).  [fuel] is as in [Derive.v]. *)
From Verif Require Import Base Stream Reader Writer Prims Containers Derive.

Section Rec.
Variables (defs : nat -> ty) (fuel : nat).
Fixpoint unroll (depth : nat) (k : nat) : custom :=
  match depth with
  | O => mkCustom (fun _ => diverge) (fun _ _ => diverge)
  | S d => mkCustom (fun args => read_ty (unroll d) fuel (defs k) None args)
                    (fun args v => write_ty (unroll d) (defs k) args v)
  end.
(** The container API of the type named [k] on a stack with room for [depth] calls. *)
Definition rec_from_bytes (depth k : nat) (input : list byte) (bit : nat) : res ((list byte * nat) * value) :=
  from_bytes (unroll depth) fuel (TCustom k) input bit.
Definition rec_try_from (depth k : nat) (input : list byte) : res value := try_from (unroll depth) fuel (TCustom k) input.
Definition rec_to_bytes (depth k : nat) (v : value) : res (list byte) := to_bytes (unroll depth) (TCustom k) v.
End Rec.
