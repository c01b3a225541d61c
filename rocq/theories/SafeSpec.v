(** Which derived types can be read without a panic or an endless loop, whatever the
    input; vocabulary of the theorems, no proofs here. *)
From Verif Require Import Base Spec Stream Reader Session Prims Containers ContainerSpec Derive DeriveSpec.

(** ** Values of a Rust type

    [named]: the values of the named types ([TCustom]). *)
Section Typed.
Variable named : nat -> value -> Prop.

Fixpoint typed_in (t : ty) (v : value) {struct t} : Prop :=
  match t, v with
  | TPrim p, VNum n => (n < 2 ^ N.of_nat (prim_width p))%N
  | TBool, VBool _ => True
  | TNonZero p, VNum n => (0 < n < 2 ^ N.of_nat (prim_width p))%N
  | TUnit, VList [] => True
  | TCString, VList l => Forall (fun x => match x with VNum n => (0 < n < 256)%N | _ => False end) l
  | TOption t, VSome x => typed_in t x
  | TOption _, VNone => True
  | TPair a b, VPair x y => typed_in a x /\ typed_in b y
  | TArray n t, VList l => length l = n /\ Forall (typed_in t) l
  | TVec k _ t, VList l => Forall (typed_in t) l /\ distinct k l = true
  | TStruct _ fs, VRec l => fields_typed_in fs l
  | TEnum _ _ vs, VVar k l => variant_typed_in vs k l
  | TCustom k, x => named k x
  | _, _ => False
  end
with fields_typed_in (fs : fields) (l : list value) {struct fs} : Prop :=
  match fs with
  | FNil => l = []
  | FCons a t _ tl =>
      if a_temp a then fields_typed_in tl l
      else match l with v :: l' => typed_in t v /\ fields_typed_in tl l' | [] => False end
  end
with variant_typed_in (vs : variants) (k : nat) (l : list value) {struct vs} : Prop :=
  match vs, k with
  | VNil, _ => False
  | VCons _ fs _, O => fields_typed_in fs l
  | VCons _ _ tl, S k' => variant_typed_in tl k' l
  end.
End Typed.
(** Named types are Rust types too; nothing is asked of their values. *)
Definition any_value (k : nat) (v : value) : Prop := True.
Notation typed := (typed_in any_value).
Notation fields_typed := (fields_typed_in any_value).
Notation variant_typed := (variant_typed_in any_value).

(** ** Types whose reading consumes input *)

Definition nonempty {A} (l : list A) : bool := match l with [] => false | _ => true end.
(** Always read: not skipped, not conditional, no hand-written reader. *)
Definition always_read (a : fattrs) : bool :=
  match a_reader a, a_skip a, a_cond a with
  | None, None, None | None, Some SkipWrite, _ => true
  | _, _, _ => false
  end.
(** A successful read takes at least one bit.  (A [Vec] may be empty.) *)
Fixpoint consumes (t : ty) : bool :=
  match t with
  | TPrim _ | TBool | TNonZero _ | TCString => true
  | TUnit | TVec _ _ _ | TCustom _ => false
  | TOption t => consumes t
  | TPair a b => consumes a || consumes b
  | TArray n t => (0 <? n) && consumes t
  | TStruct c fs => nonempty (c_magic c) || fields_consume fs
  | TEnum e idt _ => nonempty (c_magic (en_c e)) || match en_id e with None => consumes idt | Some _ => false end
  end
with fields_consume (fs : fields) : bool :=
  match fs with
  | FNil => false
  | FCons a t wire tl =>
      nonempty (a_magic a) || (always_read a && negb (is_vec_u8 t) && consumes wire) || fields_consume tl
  end.

(** ** Readers between two calls

    The source does not fail; a partly consumed byte has 1 to 7 bits left; [bits_read]
    is at a bit the source has passed; bits that are left are from the source.  [inside]:
    the source is not past its end and no byte is peeked. *)
Definition place (inside : bool) (r : reader) : Prop :=
  (forall j, s_fault (r_s r) j = None) /\ valid r /\
  (r_bits r + length (r_rest r)) mod 8 = 0 /\
  (s_noseek (r_s r) = None -> r_bits r + length (r_rest r) <= 8 * s_pos (r_s r)) /\
  (r_left r <> None -> s_pos (r_s r) <= length (s_data (r_s r))) /\
  (inside = true -> s_pos (r_s r) <= length (s_data (r_s r)) /\ forall b, r_left r <> Some (LByte b)).

(** A hand-written reader that returns and does not panic; if it does not seek, it does
    not go back. *)
Definition behaves {A} (inside seeks : bool) (good : A -> Prop) (m : RM A) : Prop :=
  forall r x r', place inside r -> m r = (x, r') ->
    x <> Panic /\ x <> Diverge /\
    forall v, x = Ok v -> good v /\ place inside r' /\ s_data (r_s r') = s_data (r_s r) /\
      (seeks = false -> unread_len (seen r') <= unread_len (seen r) /\ r_bits r <= r_bits r').

(** ** Safe types *)

Section Safe.
(** [inside]: padding is less than a byte, nothing is read to the end, and seeks stay
    within the input; then byte vectors with a [count] are allowed. *)
Variables (named : nat -> value -> Prop) (cu : nat -> custom) (inside : bool).

Definition seek_safe (seeks : bool) (s : option (option seekfrom)) : Prop :=
  match s with
  | None => True
  | Some None => False
  | Some (Some w) => seeks = true /\
      (inside = true -> match w with SeekStart n => n = 0 | SeekCurrent d | SeekEnd d => (d <= 0)%Z end)
  end.
Definition pad_safe (p : option Z) : Prop := inside = true -> match p with Some z => (z < 8)%Z | None => True end.
Definition takes_default (a : fattrs) (ctx acc : list value) (off : nat) : bool :=
  match a_skip a, a_cond a with
  | Some SkipAll, Some f | Some SkipRead, Some f => f ctx acc off
  | Some SkipAll, None | Some SkipRead, None => true
  | None, Some f => negb (f ctx acc off)
  | Some SkipWrite, _ | None, None => false
  end.
(** The loop ends only if elements take input. *)
Definition loops {A} (l : limit A) : Prop := match l with LCount _ => False | _ => True end.
(** [element]: is the element type safe; [eats]: does it take input. *)
Definition vec_safe (size : N) (eats : bool) (l : limit value) : Prop :=
  limit_fits size l /\ (loops l -> size <> 0%N -> eats = true) /\ (inside = true -> l <> LEnd).
Definition asserted (a : fattrs) (ctx acc : list value) (v : value) : Prop :=
  forall f, a_assert a = Some f -> exists off, f ctx (acc ++ [v]) off = true.
(** A field, its attributes evaluated with the fields before it; [ok]: is the type that is
    read safe with this limit and these arguments. *)
Definition field_safe_in (seeks : bool) (c : cattrs) (a : fattrs) (t wire : ty) (ctx acc : list value)
    (ok : option (limit value) -> list value -> Prop) : Prop :=
  seek_safe seeks (option_map (fun f => f ctx acc) (a_seek a)) /\
  pad_safe (eval0 (a_pad_before a) ctx acc) /\
  (forall v, typed_in named t v -> pad_safe (eval0 (a_pad_after a) ctx (acc ++ [v]))) /\
  (forall off, takes_default a ctx acc off = true -> typed_in named t (a_default a ctx acc off)) /\
  (forall off, takes_default a ctx acc off = false ->
     match a_reader a, a_limit a with
     | Some f, _ => behaves inside seeks (typed_in named wire) (f ctx acc off)
     | None, None => ok None (field_args c a ctx acc off)
     | None, Some l =>
         match eval_limit l ctx acc off with
         | Ok (LCount n) =>
             if is_vec_u8 t then inside = true /\ (8 * n <= usize_max)%N /\ forall bs, typed_in named wire (vec_of_bytes bs)
             else ok (Some (LCount n)) (field_args c a ctx acc off)
         | Ok lim => ok (Some lim) (field_args c a ctx acc off)
         | _ => True
         end
     end /\
     forall v, typed_in named wire v ->
       match a_map a with
       | None => typed_in named t v
       | Some f => match f ctx acc off v with Ok v' => typed_in named t v' | Err _ => True | Panic | Diverge => False end
       end).

Fixpoint safe_ty_in (seeks : bool) (t : ty) (lim : option (limit value)) (args : list value) {struct t} : Prop :=
  match t with
  | TPrim p | TNonZero p => lim = None /\ 0 < prim_bytes p /\ exists c, pctx_of args = Some c /\ sized c
  | TBool => lim = None /\ exists c, pctx_of args = Some c /\ sized c
  | TUnit => True
  | TCString => lim = None /\ (args = [] \/ exists n, args = [VBytes n] /\ (N.of_nat n <= isize_max)%N)
  | TOption t | TArray _ t => safe_ty_in seeks t lim args
  | TPair a b => safe_ty_in seeks a lim args /\ safe_ty_in seeks b lim args
  | TVec k size t => exists l, lim = Some l /\ vec_safe (slot_size k size) (consumes t) l /\ safe_ty_in false t None args
  | TStruct c fs =>
      let ctx := ctx_args c args in
      seek_safe seeks (option_map (fun f => f ctx) (c_seek c)) /\ fields_safe_in seeks c ctx fs None []
  | TEnum e idt vs =>
      let ctx := ctx_args (en_c e) args in
      match en_id e with
      | Some f => variants_safe_in seeks e ctx (f ctx) vs
      | None => safe_ty_in seeks idt None (id_args e ctx) /\ forall id, typed_in named idt id -> variants_safe_in seeks e ctx id vs
      end
  | TCustom k => lim = None /\ behaves inside seeks (named k) (cu_read (cu k) args)
  end
(** [id]: the value of the first field if it stores the id. *)
with fields_safe_in (seeks : bool) (c : cattrs) (ctx : list value) (fs : fields) (id : option value) (acc : list value) {struct fs} : Prop :=
  match fs with
  | FNil => True
  | FCons a t wire tl =>
      match id, a_reader a with
      | Some x, None => typed_in named t x /\ fields_safe_in seeks c ctx tl None (acc ++ [x])
      | _, _ =>
          field_safe_in seeks c a t wire ctx acc (fun lim args => safe_ty_in seeks wire lim args) /\
          forall v, typed_in named t v -> asserted a ctx acc v -> fields_safe_in seeks c ctx tl None (acc ++ [v])
      end
  end
(** The variants the id can select. *)
with variants_safe_in (seeks : bool) (e : eattrs) (ctx : list value) (id : value) (vs : variants) {struct vs} : Prop :=
  match vs with
  | VNil => True
  | VCons v fs tl =>
      (matches (v_sel v) id || v_default v = true ->
       fields_safe_in seeks (en_c e) ctx fs (if stores_id e v then Some id else None) []) /\
      variants_safe_in seeks e ctx id tl
  end.
End Safe.
Notation field_safe := (field_safe_in any_value).
Notation safe_ty := (safe_ty_in any_value).
Notation fields_safe := (fields_safe_in any_value).
Notation variants_safe := (variants_safe_in any_value).
(** Types for [from_bytes]. *)
Definition safe_type (cu : nat -> custom) (t : ty) : Prop := exists inside, safe_ty cu inside true t None [].
