(** A declaration without its assertions.  Vocabulary of the theorems, no proofs here. *)
From Verif Require Import Base Stream Reader Prims Containers Derive DeriveSpec.

(** Without [assert] and [assert_eq]. *)
Definition unasserted (a : fattrs) : fattrs :=
  mkF (a_endian a) (a_order a) (a_bits a) (a_bytes a) (a_ctx a) (a_limit a) (a_map a) (a_reader a) (a_writer a) (a_skip a) (a_cond a) (a_default a)
      None None (a_seek a) (a_magic a) (a_pad_before a) (a_pad_after a) (a_temp a) (a_temp_value a) (a_update a).
(** ... of any field, at any depth. *)
Fixpoint unchecked (t : ty) : ty :=
  match t with
  | TPrim p => TPrim p
  | TBool => TBool
  | TNonZero p => TNonZero p
  | TUnit => TUnit
  | TCString => TCString
  | TOption a => TOption (unchecked a)
  | TPair a b => TPair (unchecked a) (unchecked b)
  | TArray n a => TArray n (unchecked a)
  | TVec k size a => TVec k size (unchecked a)
  | TStruct c fs => TStruct c (fields_unchecked fs)
  | TEnum e idt vs => TEnum e (unchecked idt) (variants_unchecked vs)
  | TCustom k => TCustom k
  end
with fields_unchecked (fs : fields) : fields :=
  match fs with
  | FNil => FNil
  | FCons a t wire tl => FCons (unasserted a) (unchecked t) (unchecked wire) (fields_unchecked tl)
  end
with variants_unchecked (vs : variants) : variants :=
  match vs with
  | VNil => VNil
  | VCons v fs tl => VCons v (fields_unchecked fs) (variants_unchecked tl)
  end.
(** ... of the fields themselves, not of the fields inside their types. *)
Fixpoint own_unchecked (fs : fields) : fields :=
  match fs with FNil => FNil | FCons a t wire tl => FCons (unasserted a) t wire (own_unchecked tl) end.
(** The assertions of the fields [fs] hold of the stored values [l], wherever the fields
    are in the input or output; [acc] are the values of the fields before.  Those of a temporary
    field hold of any value. *)
Fixpoint passes (ctx : list value) (fs : fields) (acc l : list value) : Prop :=
  match fs with
  | FNil => True
  | FCons a _ _ tl =>
      if a_temp a then forall v, (forall off, assertions a ctx acc off v = true) /\ passes ctx tl (acc ++ [v]) l
      else match l with
           | v :: l' => (forall off, assertions a ctx acc off v = true) /\ passes ctx tl (acc ++ [v]) l'
           | [] => False
           end
  end.
