(** Declarations with more fields at the end, C78.  No proofs here. *)
From Verif Require Import Base Stream Reader Writer Prims Containers Derive.

(** The fields of [fs], then those of [gs]. *)
Fixpoint append (fs gs : fields) : fields := match fs with FNil => gs | FCons a t wire tl => FCons a t wire (append tl gs) end.
(** How many of the fields are kept in the value ([temp] fields are not). *)
Fixpoint kept (fs : fields) : nat := match fs with FNil => 0 | FCons a _ _ tl => (if a_temp a then 0 else 1) + kept tl end.
(** [writer] and [temp_value] can name all fields that are kept; the ones of the old version
    name none of the new fields.  (The other attributes name earlier fields only.) *)
Definition names_first (n : nat) (a : fattrs) : Prop :=
  (forall f, a_writer a = Some f -> forall l more ctx fs off v, length l = n -> f (l ++ more) ctx fs off v = f l ctx fs off v) /\
  (forall f, a_temp_value a = Some f -> forall l more ctx fs, length l = n -> f (l ++ more) ctx fs = f l ctx fs).
Fixpoint names_old (n : nat) (fs : fields) : Prop := match fs with FNil => True | FCons a _ _ tl => names_first n a /\ names_old n tl end.

(** [longer t t']: [t'] is the struct or enum [t] with more fields at the end, of the struct
    or of any variants.  (A variant with [id_pat] must have its first field already, because
    that one stores the id.) *)
Inductive longer_variants : variants -> variants -> Prop :=
| longer_nil : longer_variants VNil VNil
| longer_cons v fs gs vs vs' : (match v_sel v with SPat _ _ => fs <> FNil | _ => True end) -> names_old (kept fs) fs ->
    longer_variants vs vs' -> longer_variants (VCons v fs vs) (VCons v (append fs gs) vs').
Inductive longer : ty -> ty -> Prop :=
| longer_struct c fs gs : names_old (kept fs) fs -> longer (TStruct c fs) (TStruct c (append fs gs))
| longer_enum e idt vs vs' : longer_variants vs vs' -> longer (TEnum e idt vs) (TEnum e idt vs').

(** The value with more fields, and of the right number of old fields. *)
Definition grown_value (v v' : value) : Prop :=
  match v, v' with
  | VRec l, VRec l' => exists more, l' = l ++ more
  | VVar k l, VVar k' l' => k' = k /\ exists more, l' = l ++ more
  | _, _ => False
  end.
Fixpoint variant_kept (vs : variants) (k : nat) : nat :=
  match vs, k with VNil, _ => 0 | VCons _ fs _, O => kept fs | VCons _ _ tl, S k' => variant_kept tl k' end.
Definition right_number (t : ty) (v : value) : Prop :=
  match t, v with
  | TStruct _ fs, VRec l => length l = kept fs
  | TEnum _ _ vs, VVar k l => length l = variant_kept vs k
  | _, _ => False
  end.
