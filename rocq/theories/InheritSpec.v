(** Declarations of PlainSpec.v as they are usually written: a byte order for the whole
    struct or enum, also one that is handed on by [ctx], padding in bytes, and
    discriminants instead of ids.  No proofs here. *)
From Verif Require Import Base Spec Stream Reader Writer Prims CodecSpec Containers Derive Decl PlainSpec.

(** [endian = ".."] on the container; [ctx = "endian: Endian", endian = "endian"], with
    [ctx_default = "Endian::.."] or without. *)
Inductive order_decl : Type := NoOrder | Order (e : endian) | FromCtx (default : option endian).
(** The attributes of PlainSpec.v, and [pad_bytes_before], [pad_bytes_after]. *)
Record uattrs : Type := mkU { u_plain : pattrs; u_bytes_before : nat; u_bytes_after : nat }.
(** [#\[deku(id = n)\]], or [Variant = n] in an enum with a [repr] of the id type. *)
Inductive id_decl : Type := ById | ByDiscriminant.
Inductive uty : Type :=
| UInt (p : prim)
| UBool
| UArray (n : nat) (t : uty)
| UStruct (o : order_decl) (m : list byte) (fs : ufields)
| UEnum (o : order_decl) (m : list byte) (p : prim) (e : option endian) (b : option nat) (vs : uvariants)
| UNonZero (p : prim)
| UPair (s t : uty)
| UText
with ufields : Type := UNil | UCons (a : uattrs) (t : uty) (tl : ufields)
with uvariants : Type := UVNil | UVCons (how : id_decl) (id : N) (fs : ufields) (tl : uvariants).

(** *** As declarations of Decl.v *)

Definition ctx_endian (ctx : list value) : endian := match ctx with VEnd e :: _ => e | _ => Little end.
Definition order_attr (o : order_decl) : option endian_lit :=
  match o with NoOrder => None | Order e => Some (lit e) | FromCtx _ => Some (EVar (fun ctx _ => ctx_endian ctx)) end.
Definition default_ctx (o : order_decl) : option (list value) := match o with FromCtx (Some e) => Some [VEnd e] | _ => None end.
Definition has_ctx (o : order_decl) : bool := match o with FromCtx _ => true | _ => false end.
Definition ufield_decl (d : uattrs) : fdecl :=
  let a := u_plain d in {|
  d_endian := option_map lit (p_endian a); d_order := None; d_bits := option_map const (p_bits a); d_bytes := None;
  d_count := match p_kind a with Many k _ => Some (fun _ fs _ => Z.of_N (count_at fs k)) | _ => None end;
  d_bits_read := None; d_bytes_read := None; 
  d_until := match p_kind a with Until n _ => Some (fun _ _ _ l => is_num n (last l VUnit)) | _ => None end; d_read_all := false; d_map := None; d_ctx := None; d_update := None;
  d_reader := None; d_writer := None; d_skip := None;
  d_pad_bits_before := pad (p_before a); d_pad_bytes_before := pad (u_bytes_before d);
  d_pad_bits_after := pad (p_after a); d_pad_bytes_after := pad (u_bytes_after d);
  d_temp := false; d_temp_value := None; d_default := None;
  d_cond := match p_kind a with When k => Some (fun _ fs _ => flag_at fs k) | _ => None end;
  d_assert := None; d_assert_eq := None; d_seek_rewind := false; d_seek_current := None; d_seek_end := None; d_seek_start := None;
  d_magic := magic_attr (p_magic a) |}.
Definition ustruct_decl (o : order_decl) (m : list byte) : cdecl :=
  {| k_endian := order_attr o; k_order := None; k_ctx := has_ctx o; k_ctx_default := default_ctx o; k_magic := magic_attr m; k_seek_rewind := false;
     k_seek_current := None; k_seek_end := None; k_seek_start := None; k_id := None; k_id_type := None; k_id_endian := None; k_bits := None;
     k_bytes := None; k_repr := None |}.
Definition uenum_decl (o : order_decl) (m : list byte) (p : prim) (e : option endian) (b : option nat) : cdecl :=
  {| k_endian := order_attr o; k_order := None; k_ctx := has_ctx o; k_ctx_default := default_ctx o; k_magic := magic_attr m; k_seek_rewind := false;
     k_seek_current := None; k_seek_end := None; k_seek_start := None; k_id := None; k_id_type := Some (TPrim p); k_id_endian := option_map lit e;
     k_bits := option_map const b; k_bytes := None; k_repr := Some p |}.
Definition uvariant_decl (how : id_decl) (id : N) : vdecl :=
  match how with
  | ById => {| v_id := Some (IdVal (VNum id)); v_pat := None; v_explicit := false; v_disc := VUnit; v_is_default := None |}
  | ByDiscriminant => {| v_id := None; v_pat := None; v_explicit := true; v_disc := VNum id; v_is_default := None |}
  end.
Definition selector_for (how : id_decl) (id : N) : selector := match how with ById => SId (VNum id) | ByDiscriminant => SDisc (VNum id) end.

Fixpoint utype (t : uty) : ty :=
  match t with
  | UInt p => TPrim p
  | UBool => TBool
  | UArray n t => TArray n (utype t)
  | UStruct o m fs => TStruct (cattrs_of (ustruct_decl o m)) (utypes fs)
  | UEnum o m p e b vs => TEnum (eattrs_of (uenum_decl o m p e b)) (TPrim p) (uvtypes vs)
  | UNonZero p => TNonZero p
  | UPair s t => TPair (utype s) (utype t)
  | UText => TCString
  end
with utypes (fs : ufields) : fields :=
  match fs with
  | UNil => FNil
  | UCons a t tl => FCons (fattrs_of (ufield_decl a) VNone) (holding (p_kind (u_plain a)) (utype t)) (holding (p_kind (u_plain a)) (utype t)) (utypes tl)
  end
with uvtypes (vs : uvariants) : variants :=
  match vs with
  | UVNil => VNil
  | UVCons how id fs tl => VCons (mkV (selector_for how id) false) (utypes fs) (uvtypes tl)
  end.
Fixpoint umembers (fs : ufields) : list member :=
  match fs with
  | UNil => []
  | UCons a t tl => mkM (ufield_decl a) (holding (p_kind (u_plain a)) (utype t)) (holding (p_kind (u_plain a)) (utype t)) VNone :: umembers tl
  end.
Fixpoint uvmembers (vs : uvariants) : list (vdecl * list member) :=
  match vs with UVNil => [] | UVCons how id fs tl => (uvariant_decl how id, umembers fs) :: uvmembers tl end.
Definition written (t : uty) : option decl :=
  match t with
  | UStruct o m fs => Some (DStruct (ustruct_decl o m) (umembers fs))
  | UEnum o m p e b vs => Some (DEnum (uenum_decl o m p e b) (uvmembers vs))
  | _ => None
  end.

(** ** What they mean: every field has its own byte order, all padding is in bits, every
    variant has an id

    [e] is the byte order given by the field around the type. *)
Definition resolved (o : order_decl) (e : option endian) : option endian :=
  match o with NoOrder => None | Order x => Some x | FromCtx d => or_else e d end.
Fixpoint is_number (t : uty) : bool :=
  match t with UInt _ | UBool | UNonZero _ => true | UArray _ t => is_number t | UPair s t => is_number s && is_number t | _ => false end.
Definition own_order (t : uty) (e : option endian) : option endian := if is_number t then e else None.
Fixpoint resolve (e : option endian) (t : uty) : pty :=
  match t with
  | UInt p => PInt p
  | UBool => PBool
  | UArray n t => PArray n (resolve e t)
  | UStruct o m fs => PStruct m (resolve_fields (resolved o e) fs)
  | UEnum o m p e' b vs => PEnum m p (or_else e' (resolved o e)) b (resolve_variants (resolved o e) vs)
  | UNonZero p => PNonZero p
  | UPair s t => PPair (resolve e s) (resolve e t)
  | UText => PText
  end
with resolve_fields (e : option endian) (fs : ufields) : pfields :=
  match fs with
  | UNil => PNil
  | UCons d t tl =>
      let a := u_plain d in
      let e' := or_else (p_endian a) e in
      PCons (mkP (own_order t e') (p_bits a) (p_kind a) (p_magic a) (p_before a + 8 * u_bytes_before d) (p_after a + 8 * u_bytes_after d))
        (resolve e' t) (resolve_fields e tl)
  end
with resolve_variants (e : option endian) (vs : uvariants) : pvariants :=
  match vs with
  | UVNil => PVNil
  | UVCons _ id fs tl => PVCons id (resolve_fields e fs) (resolve_variants e tl)
  end.
(** Rust's types: a byte order is handed to exactly the structs and enums that take one,
    or it is left to their [ctx_default]; a [CString] takes none.  (Left out: a byte order
    handed to a pair of a number and a struct or enum, which have different arguments when
    spelled out.) *)
Definition takes (o : order_decl) (e : option endian) : bool :=
  match o, e with FromCtx None, None => false | FromCtx _, _ => true | _, None => true | _, Some _ => false end.
Fixpoint handed (e : option endian) (b : option nat) (t : uty) : bool :=
  match t with
  | UInt _ | UBool => true
  | UArray _ t => handed e b t
  | UStruct o _ fs => none b && takes o e && fields_handed (resolved o e) fs
  | UEnum o _ _ _ _ vs => none b && takes o e && variants_handed (resolved o e) vs
  | UNonZero _ => true
  | UPair s t => handed e b s && handed e b t && (none e || Bool.eqb (is_number s) (is_number t))
  | UText => none e && none b
  end
with fields_handed (e : option endian) (fs : ufields) : bool :=
  match fs with UNil => true | UCons d t tl => handed (or_else (p_endian (u_plain d)) e) (p_bits (u_plain d)) t && fields_handed e tl end
with variants_handed (e : option endian) (vs : uvariants) : bool :=
  match vs with UVNil => true | UVCons _ _ fs tl => fields_handed e fs && variants_handed e tl end.
(** The conditions of C57. *)
Definition usual_type (t : uty) : bool := handed None None t && plain_type (resolve None t).
