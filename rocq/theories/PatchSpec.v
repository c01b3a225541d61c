(** Declarations whose fields can be changed in place, C85.  No proofs here. *)
From Verif Require Import Base Prims Containers Derive SizeSpec GrowSpec.

(** The lists are equal, except perhaps for the value at index [i]. *)
Definition same_but (i : nat) (l l' : list value) : Prop :=
  exists a x y b, length a = i /\ l = a ++ x :: b /\ l' = a ++ y :: b.
(** The attributes do not use the field that has index [i] among all fields and index [j]
    among those kept in the value ([temp] fields are not).  ([reader], [writer], [seek] and
    [update] are not part of the formats of C28.) *)
Definition ignores (i j : nat) (a : fattrs) : Prop :=
  forall fs fs', same_but i fs fs' -> forall ctx off,
  eval0 (a_endian a) ctx fs = eval0 (a_endian a) ctx fs' /\
  eval0 (a_order a) ctx fs = eval0 (a_order a) ctx fs' /\
  eval0 (a_bits a) ctx fs = eval0 (a_bits a) ctx fs' /\
  eval0 (a_bytes a) ctx fs = eval0 (a_bytes a) ctx fs' /\
  a_ctx a ctx fs off = a_ctx a ctx fs' off /\
  option_map (fun l => eval_limit l ctx fs off) (a_limit a) = option_map (fun l => eval_limit l ctx fs' off) (a_limit a) /\
  (forall v, option_map (fun f => f ctx fs off v) (a_map a) = option_map (fun f => f ctx fs' off v) (a_map a)) /\
  option_map (fun f => f ctx fs off) (a_cond a) = option_map (fun f => f ctx fs' off) (a_cond a) /\
  a_default a ctx fs off = a_default a ctx fs' off /\
  option_map (fun f => f ctx fs off) (a_assert a) = option_map (fun f => f ctx fs' off) (a_assert a) /\
  option_map (fun f => f ctx fs off) (a_assert_eq a) = option_map (fun f => f ctx fs' off) (a_assert_eq a) /\
  eval0 (a_pad_before a) ctx fs = eval0 (a_pad_before a) ctx fs' /\
  eval0 (a_pad_after a) ctx fs = eval0 (a_pad_after a) ctx fs' /\
  forall st st', same_but j st st' -> option_map (fun f => f st ctx fs) (a_temp_value a) = option_map (fun f => f st' ctx fs') (a_temp_value a).
Fixpoint ignored_by (i j : nat) (fs : fields) : Prop :=
  match fs with FNil => True | FCons a _ _ tl => ignores i j a /\ ignored_by i j tl end.
(** The byte order and bit order of the container do not use the field. *)
Definition ignored_above (i : nat) (c : cattrs) : Prop :=
  forall fs fs', same_but i fs fs' -> forall ctx,
  eval0 (c_endian c) ctx fs = eval0 (c_endian c) ctx fs' /\ eval0 (c_order c) ctx fs = eval0 (c_order c) ctx fs'.

(** How many fields there are. *)
Fixpoint count (fs : fields) : nat := match fs with FNil => 0 | FCons _ _ _ tl => S (count tl) end.
(** The struct with a field somewhere in it. *)
Definition with_field (c : cattrs) (before : fields) (a : fattrs) (t wire : ty) (after : fields) : ty :=
  TStruct c (append before (FCons a t wire after)).
(** The byte with index [i] lies outside the [n] bits from [off] on. *)
Definition outside (off n i : nat) : Prop := 8 * i + 8 <= off \/ off + n <= 8 * i.
