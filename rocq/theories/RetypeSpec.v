(** Declarations that differ in the unsigned types that hold sized fields; vocabulary of the
    theorems, no proofs here. *)
From Verif Require Import Base Stream Reader Writer Prims CodecSpec Containers ContainerSpec Derive DeriveSpec.

(** Both types are unsigned, and the arguments give a size in bits or bytes that both have
    room for. *)
Definition room (p q : prim) (args : list value) : Prop :=
  is_unsigned p /\ is_unsigned q /\ exists c, pctx_of args = Some c /\
  match bits_of_ctx c, bytes_of_ctx 0 c with
  | Some (_, n, _), _ => 1 <= n /\ n <= prim_width p /\ n <= prim_width q
  | None, Some (_, n, _) => 1 <= n /\ n <= prim_bytes p /\ n <= prim_bytes q
  | None, None => False
  end.
(** Bits that are also written the same: see C82_big_lsb_refuted. *)
Definition room_to_write (p q : prim) (args : list value) : Prop :=
  room p q args /\ forall c n, pctx_of args = Some c -> bits_of_ctx c = Some (Big, n, Lsb0) -> n <= 8.
(** What a type can be given: a limit and arguments. *)
Definition given : Type := option (limit value) -> list value -> Prop.
Definition by_field (c : cattrs) (a : fattrs) : given := fun lim args =>
  (exists ctx fs off, args = field_args c a ctx fs off) /\
  match a_limit a, lim with
  | None, None => True
  | Some l, Some x => exists ctx fs off, eval_limit l ctx fs off = Ok x
  | _, _ => False
  end.
Definition is_count (l : option (limit value)) : bool := match l with Some (LCount _) => true | _ => false end.

Section Retyped.
Variable fits : prim -> prim -> list value -> Prop.
(** [t'] is [t] with other integer types, that fit; [G]: what it is given.
    The size of the elements of a vector in memory may change unless it has a count. *)
Fixpoint retyped (G : given) (t t' : ty) {struct t} : Prop :=
  match t, t' with
  | TPrim p, TPrim q | TNonZero p, TNonZero q => p = q \/ forall lim args, G lim args -> fits p q args
  | TBool, TBool | TUnit, TUnit | TCString, TCString => True
  | TOption t, TOption t' => retyped G t t'
  | TPair a b, TPair a' b' => retyped G a a' /\ retyped G b b'
  | TArray n t, TArray m t' => n = m /\ retyped G t t'
  | TVec k s t, TVec k' s' t' =>
      k = k' /\
      (s = s' \/ (slot_size k s <> 0%N /\ slot_size k s' <> 0%N /\ forall lim args, G lim args -> is_count lim = false)) /\
      retyped (fun l args => l = None /\ exists lim, G lim args) t t'
  | TStruct c fs, TStruct c' fs' => c = c' /\ retyped_fields c fs fs'
  | TEnum e idt vs, TEnum e' idt' vs' =>
      e = e' /\ retyped (fun lim args => lim = None /\ exists ctx, args = id_args e ctx) idt idt' /\ retyped_variants e vs vs'
  | TCustom k, TCustom k' => k = k'
  | _, _ => False
  end
with retyped_fields (c : cattrs) (fs fs' : fields) {struct fs} : Prop :=
  match fs, fs' with
  | FNil, FNil => True
  | FCons a t w tl, FCons a' t' w' tl' =>
      a = a' /\ is_vec_u8 t = is_vec_u8 t' /\ retyped (by_field c a) t t' /\ retyped (by_field c a) w w' /\ retyped_fields c tl tl'
  | _, _ => False
  end
(** Patterns, whose fields may store the id, stay as they are. *)
with retyped_variants (e : eattrs) (vs vs' : variants) {struct vs} : Prop :=
  match vs, vs' with
  | VNil, VNil => True
  | VCons v fs tl, VCons v' fs' tl' =>
      v = v' /\ match v_sel v with SPat _ _ => fs = fs' | _ => retyped_fields (en_c e) fs fs' end /\ retyped_variants e tl tl'
  | _, _ => False
  end.
End Retyped.
(** For the API, which gives nothing. *)
Definition nothing : given := fun lim args => lim = None /\ args = [].

(** Two readers of signed integers of [w] and [w'] bits give the same number, or fail alike. *)
Definition same_number (w w' : nat) (x x' : res N) : Prop :=
  match x, x' with
  | Ok v, Ok v' => signed w' v' = signed w v
  | Err e, Err e' => e' = e
  | Panic, Panic | Diverge, Diverge => True
  | _, _ => False
  end.
(** [bits = n], and [endian] too if [n] is a number of whole bytes. *)
Definition signed_bits (c : pctx) (n : nat) : Prop :=
  match c with
  | CEB _ m | CEBO _ m _ => m = n
  | CB m | CBO m _ => m = n /\ m mod 8 <> 0
  | _ => False
  end.
