(** Memory asked for while reading: vocabulary of the theorems, no proofs here. *)
From Verif Require Import Base Stream Reader Prims Containers Derive SafeSpec Alloc.

(** ** How much memory

    [most]: no count is larger. *)
Section Amounts.
Variable most : N.

(** Bytes asked for whatever the input: by collections with a [count] and a [CString] with
    [bytes]. *)
Fixpoint upfront (t : ty) : N :=
  match t with
  | TPrim _ | TBool | TNonZero _ | TUnit | TCustom _ => 0
  | TCString => most
  | TOption t => upfront t
  | TPair a b => upfront a + upfront b
  | TArray n t => N.of_nat n * upfront t
  | TVec k size t => most * slot_size k size + N.max 1 most * upfront t
  | TStruct _ fs => fields_upfront fs
  | TEnum _ idt vs => upfront idt + variants_upfront vs
  end%N
with fields_upfront (fs : fields) : N :=
  match fs with
  | FNil => 0
  | FCons _ _ wire tl => upfront wire + fields_upfront tl
  end%N
with variants_upfront (vs : variants) : N :=
  match vs with
  | VNil => 0
  | VCons _ fs tl => N.max (fields_upfront fs) (variants_upfront tl)
  end%N.
(** Bytes per byte of input: an element of a collection takes at least a bit (a byte in a
    [CString] and in a [Vec<u8>] with a [count]), and collections can be nested. *)
Fixpoint per_byte (t : ty) : N :=
  match t with
  | TPrim _ | TBool | TNonZero _ | TUnit | TCustom _ => 0
  | TCString => 1
  | TOption t | TArray _ t => per_byte t
  | TPair a b => N.max (per_byte a) (per_byte b)
  | TVec k size t => 8 * (slot_size k size + upfront t) + per_byte t
  | TStruct _ fs => fields_per_byte fs
  | TEnum _ idt vs => N.max (per_byte idt) (variants_per_byte vs)
  end%N
with fields_per_byte (fs : fields) : N :=
  match fs with
  | FNil => 0
  | FCons _ t wire tl => N.max (N.max (if is_vec_u8 t then 1 else 0) (per_byte wire)) (fields_per_byte tl)
  end%N
with variants_per_byte (vs : variants) : N :=
  match vs with
  | VNil => 0
  | VCons _ fs tl => N.max (fields_per_byte fs) (variants_per_byte tl)
  end%N.

(** ** Which counts occur

    The [count] of a field that is not literally a [Vec<u8>], the [bytes] of a [CString];
    evaluated with any values of the fields before. *)
Definition count_small (lim : option (limit value)) : Prop := match lim with Some (LCount n) => (n <= most)%N | _ => True end.
Section Counts.
Variable named : nat -> value -> Prop.
Fixpoint counts_in (t : ty) (lim : option (limit value)) (args : list value) {struct t} : Prop :=
  match t with
  | TCString => forall n, args = [VBytes n] -> (N.of_nat n <= most)%N
  | TOption t | TArray _ t => counts_in t lim args
  | TPair a b => counts_in a lim args /\ counts_in b lim args
  | TVec _ _ t => count_small lim /\ counts_in t None args
  | TStruct c fs => fields_counts_in c (ctx_args c args) fs None []
  | TEnum e idt vs =>
      let ctx := ctx_args (en_c e) args in
      match en_id e with
      | Some f => variants_counts_in e ctx (f ctx) vs
      | None => counts_in idt None (id_args e ctx) /\ forall id, typed_in named idt id -> variants_counts_in e ctx id vs
      end
  | _ => True
  end
with fields_counts_in (c : cattrs) (ctx : list value) (fs : fields) (id : option value) (acc : list value) {struct fs} : Prop :=
  match fs with
  | FNil => True
  | FCons a t wire tl =>
      match id, a_reader a with
      | Some x, None => fields_counts_in c ctx tl None (acc ++ [x])
      | _, _ =>
          (forall off,
             match option_map (fun l => eval_limit l ctx acc off) (a_limit a) with
             | None => counts_in wire None (field_args c a ctx acc off)
             | Some (Ok (LCount n)) => is_vec_u8 t = true \/ counts_in wire (Some (LCount n)) (field_args c a ctx acc off)
             | Some (Ok lim) => counts_in wire (Some lim) (field_args c a ctx acc off)
             | Some _ => True
             end) /\
          forall v, typed_in named t v -> asserted a ctx acc v -> fields_counts_in c ctx tl None (acc ++ [v])
      end
  end
with variants_counts_in (e : eattrs) (ctx : list value) (id : value) (vs : variants) {struct vs} : Prop :=
  match vs with
  | VNil => True
  | VCons v fs tl =>
      (matches (v_sel v) id || v_default v = true ->
       fields_counts_in (en_c e) ctx fs (if stores_id e v then Some id else None) []) /\
      variants_counts_in e ctx id tl
  end.
End Counts.
End Amounts.
(** Types for [from_bytes]: no count is larger than [most]. *)
Definition counts_up_to (most : N) (t : ty) : Prop := counts_in most any_value t None [].
