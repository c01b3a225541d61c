(** Words for C70: machines of different byte orders. *)
From Verif Require Import Base Stream Reader Writer Prims Containers Derive DeriveSpec PlainSpec.

(** The arguments for a number contain its byte order. *)
Definition gives_order (args : list value) : Prop := exists e, In (VEnd e) args.

(** Every number in [t], with the arguments it is read or written with, is [good].
    Structs and enums have fields with arguments of their own. *)
Section Numbers.
Variable good : prim -> list value -> Prop.
Fixpoint numbers (t : ty) (args : list value) : Prop :=
  match t with
  | TPrim p | TNonZero p => good p args
  | TOption t | TArray _ t | TVec _ _ t => numbers t args
  | TPair a b => numbers a args /\ numbers b args
  | TStruct c fs => field_numbers c fs
  | TEnum e idt vs => (en_id e = None -> forall ctx, numbers idt (id_args e ctx)) /\ variant_numbers e vs
  | _ => True
  end
with field_numbers (c : cattrs) (fs : fields) : Prop :=
  match fs with
  | FNil => True
  | FCons a t wire tl =>
      (forall ctx l off, numbers t (field_args c a ctx l off) /\ numbers wire (field_args c a ctx l off)) /\ field_numbers c tl
  end
with variant_numbers (e : eattrs) (vs : variants) : Prop :=
  match vs with
  | VNil => True
  | VCons v fs tl =>
      field_numbers (en_c e) fs /\
      match v_sel v, fs with
      | SPat _ _, FCons _ t _ _ => forall ctx, numbers t (stored_id_args e ctx)      (* the field that stores the id *)
      | _, _ => True
      end /\
      variant_numbers e tl
  end.
End Numbers.
(** A single byte: [u8], or [i8] without a bit order. *)
Definition single_byte (p : prim) (args : list value) : Prop := p = PU8 \/ prim_bytes p = 1 /\ forall o, ~ In (VOrd o) args.
(** Every number is a single byte or has its byte order given, at the field or at the
    struct or enum. *)
Definition portable (t : ty) : Prop := numbers (fun p args => single_byte p args \/ gives_order args) t [].

(** The hand-written readers use the public API of the reader and do not seek. *)
Definition api_readers (cu : nat -> custom) (t : ty) : Prop :=
  every (fun _ => True) (fun _ => True)
    (fun _ a _ => forall f, a_reader a = Some f -> forall ctx fs off, reader_program True (f ctx fs off))
    (fun k => forall args, reader_program True (cu_read (cu k) args)) t.

(** Plain declarations with the byte order [e0] filled in wherever there is none. *)
Fixpoint only_numbers (t : pty) : bool :=
  match t with
  | PInt _ | PBool | PNonZero _ => true
  | PArray _ t => only_numbers t
  | PPair s t => only_numbers s && only_numbers t
  | PStruct _ _ | PEnum _ _ _ _ _ | PText => false
  end.
Definition fill {A} (e0 : A) (e : option A) : option A := match e with Some e => Some e | None => Some e0 end.
Definition fill_field (e0 : endian) (t : pty) (a : pattrs) : pattrs :=
  mkP (if only_numbers t then fill e0 (p_endian a) else p_endian a) (p_bits a) (p_kind a) (p_magic a) (p_before a) (p_after a).
Fixpoint spelled (e0 : endian) (t : pty) : pty :=
  match t with
  | PInt _ | PBool | PNonZero _ | PText => t
  | PArray n t => PArray n (spelled e0 t)
  | PPair s t => PPair (spelled e0 s) (spelled e0 t)
  | PStruct m fs => PStruct m (spelled_fields e0 fs)
  | PEnum m p e b vs => PEnum m p (fill e0 e) b (spelled_variants e0 vs)
  end
with spelled_fields (e0 : endian) (fs : pfields) : pfields :=
  match fs with PNil => PNil | PCons a t tl => PCons (fill_field e0 t a) (spelled e0 t) (spelled_fields e0 tl) end
with spelled_variants (e0 : endian) (vs : pvariants) : pvariants :=
  match vs with PVNil => PVNil | PVCons id fs tl => PVCons id (spelled_fields e0 fs) (spelled_variants e0 tl) end.
(** A byte order can be given to every number: no pair of a number and something else,
    and the type itself is a struct or an enum, or contains no number outside of one. *)
Fixpoint apart (t : pty) : bool :=
  match t with
  | PInt _ | PBool | PNonZero _ => false
  | PText => true
  | PArray _ t => apart t
  | PPair s t => apart s && apart t
  | PStruct _ fs => fields_apart fs
  | PEnum _ _ _ _ vs => variants_apart vs
  end
with fields_apart (fs : pfields) : bool :=
  match fs with PNil => true | PCons _ t tl => (only_numbers t || apart t) && fields_apart tl end
with variants_apart (vs : pvariants) : bool :=
  match vs with PVNil => true | PVCons _ fs tl => fields_apart fs && variants_apart tl end.
