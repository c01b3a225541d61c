(** [endian], [bits], [bytes] and [bit_order] written out as [ctx] (src/attributes.rs:1814-1848).
    Vocabulary of the theorems, no proofs here. *)
From Verif Require Import Base Stream Reader Writer Prims Containers Derive Decl.

(** The arguments of a field in a struct or enum: the byte order (its own or else that of
    the struct or enum), the bits, the bytes, the bit order (likewise), and its [ctx]. *)
Definition spelled_args (c : cattrs) (a : fattrs) : expr (list value) := fun ctx fs off =>
  match a_endian a, c_endian c with Some f, _ | None, Some f => [VEnd (f ctx fs)] | None, None => [] end ++
  match a_bits a with Some f => [VBits (f ctx fs)] | None => [] end ++
  match a_bytes a with Some f => [VBytes (f ctx fs)] | None => [] end ++
  match a_order a, c_order c with Some f, _ | None, Some f => [VOrd (f ctx fs)] | None, None => [] end ++
  a_ctx a ctx fs off.
(** The field without these attributes and with the arguments as its [ctx]. *)
Definition spelled_field (c : cattrs) (a : fattrs) : fattrs :=
  mkF None None None None (spelled_args c a) (a_limit a) (a_map a) (a_reader a) (a_writer a) (a_skip a) (a_cond a) (a_default a)
    (a_assert a) (a_assert_eq a) (a_seek a) (a_magic a) (a_pad_before a) (a_pad_after a) (a_temp a) (a_temp_value a) (a_update a).
Definition bare (c : cattrs) : cattrs := mkC None None (c_magic c) (c_seek c) (c_ctx_default c).
Definition first_some {A} (x y : option A) : option A := match x with Some _ => x | None => y end.
(** The first field of a variant with [id_pat] stores the id and can have no attributes
    (src/attributes.rs:2097). *)
Definition is_pat (v : vattrs) : bool := match v_sel v with SPat _ _ => true | _ => false end.
Definition has_id (e : eattrs) : bool := match en_id e with Some _ => true | None => false end.

(** The type with all of them written out, down to the types of its fields.  The byte
    order of an enum becomes the [id_endian] of its id. *)
Fixpoint spelled (t : ty) : ty :=
  match t with
  | TOption t => TOption (spelled t)
  | TPair a b => TPair (spelled a) (spelled b)
  | TArray n t => TArray n (spelled t)
  | TVec k size t => TVec k size (spelled t)
  | TStruct c fs => TStruct (bare c) (spelled_fields c false fs)
  | TEnum e idt vs =>
      TEnum (mkE (bare (en_c e)) (en_id e) (first_some (en_id_endian e) (c_endian (en_c e))) (en_bits e) (en_bytes e)) (spelled idt)
        (spelled_variants e vs)
  | _ => t
  end
with spelled_fields (c : cattrs) (keep_first : bool) (fs : fields) : fields :=
  match fs with
  | FNil => FNil
  | FCons a t wire tl => FCons (if keep_first then a else spelled_field c a) (spelled t) (spelled wire) (spelled_fields c false tl)
  end
with spelled_variants (e : eattrs) (vs : variants) : variants :=
  match vs with
  | VNil => VNil
  | VCons v fs tl => VCons v (spelled_fields (en_c e) (is_pat v && negb (has_id e)) fs) (spelled_variants e tl)
  end.

(** Nothing of the kind is left, except on the first field of a variant with [id_pat]. *)
Definition unset {A} (x : option A) : bool := match x with None => true | Some _ => false end.
Definition ctx_field (a : fattrs) : bool := unset (a_endian a) && unset (a_order a) && unset (a_bits a) && unset (a_bytes a).
Fixpoint only_ctx (t : ty) : bool :=
  match t with
  | TOption t | TArray _ t | TVec _ _ t => only_ctx t
  | TPair a b => only_ctx a && only_ctx b
  | TStruct c fs => unset (c_endian c) && unset (c_order c) && fields_only_ctx false fs
  | TEnum e idt vs => unset (c_endian (en_c e)) && unset (c_order (en_c e)) && only_ctx idt && variants_only_ctx (has_id e) vs
  | _ => true
  end
with fields_only_ctx (stored : bool) (fs : fields) : bool :=
  match fs with
  | FNil => true
  | FCons a t wire tl => (stored || ctx_field a) && only_ctx t && only_ctx wire && fields_only_ctx false tl
  end
with variants_only_ctx (no_storing : bool) (vs : variants) : bool :=
  match vs with
  | VNil => true
  | VCons v fs tl => fields_only_ctx (is_pat v && negb no_storing) fs && variants_only_ctx no_storing tl
  end.

(** What cannot be written out: the bit order of padding and of the id of an enum, and
    (finding 25) the byte order of an enum for an id that is stored. *)
Definition field_spellable (c : cattrs) (a : fattrs) : bool :=
  (unset (a_order a) && unset (c_order c)) || (unset (a_pad_before a) && unset (a_pad_after a)).
Definition endian_spellable (e : eattrs) (v : vattrs) (fs : fields) : bool :=
  negb (is_pat v) || no_fields fs || unset (c_endian (en_c e)) || negb (unset (en_id_endian e)).
Fixpoint spellable (t : ty) : bool :=
  match t with
  | TOption t | TArray _ t | TVec _ _ t => spellable t
  | TPair a b => spellable a && spellable b
  | TStruct c fs => fields_spellable c fs
  | TEnum e idt vs => unset (c_order (en_c e)) && spellable idt && variants_spellable e vs
  | _ => true
  end
with fields_spellable (c : cattrs) (fs : fields) : bool :=
  match fs with
  | FNil => true
  | FCons a t wire tl => field_spellable c a && spellable t && spellable wire && fields_spellable c tl
  end
with variants_spellable (e : eattrs) (vs : variants) : bool :=
  match vs with
  | VNil => true
  | VCons v fs tl => endian_spellable e v fs && fields_spellable (en_c e) fs && variants_spellable e tl
  end.

(** The same for a declaration. *)
Definition spelled_fdecl (c : cdecl) (f : fdecl) : fdecl := {|
  d_endian := None; d_order := None; d_bits := None; d_bytes := None;
  d_count := d_count f; d_bits_read := d_bits_read f; d_bytes_read := d_bytes_read f; d_until := d_until f; d_read_all := d_read_all f; d_map := d_map f;
  d_ctx := Some (fun ctx fs off =>
    match d_endian f, k_endian c with Some ELittle, _ | None, Some ELittle => [VEnd Little] | Some EBig, _ | None, Some EBig => [VEnd Big]
                                   | Some (EVar g), _ | None, Some (EVar g) => [VEnd (g ctx fs)] | None, None => [] end ++
    match d_bits f with Some g => [VBits (g ctx fs)] | None => [] end ++
    match d_bytes f with Some g => [VBytes (g ctx fs)] | None => [] end ++
    match d_order f, k_order c with Some OLsb, _ | None, Some OLsb => [VOrd Lsb0] | Some OMsb, _ | None, Some OMsb => [VOrd Msb0]
                                 | Some (OVar g), _ | None, Some (OVar g) => [VOrd (g ctx fs)] | None, None => [] end ++
    match d_ctx f with Some g => g ctx fs off | None => [] end);
  d_update := d_update f; d_reader := d_reader f; d_writer := d_writer f; d_skip := d_skip f;
  d_pad_bits_before := d_pad_bits_before f; d_pad_bytes_before := d_pad_bytes_before f; d_pad_bits_after := d_pad_bits_after f;
  d_pad_bytes_after := d_pad_bytes_after f; d_temp := d_temp f; d_temp_value := d_temp_value f; d_default := d_default f; d_cond := d_cond f;
  d_assert := d_assert f; d_assert_eq := d_assert_eq f; d_seek_rewind := d_seek_rewind f; d_seek_current := d_seek_current f; d_seek_end := d_seek_end f;
  d_seek_start := d_seek_start f; d_magic := d_magic f |}.
Definition spelled_struct (c : cdecl) (ms : list member) : decl :=
  DStruct (mkCd None None (k_ctx c) (k_ctx_default c) (k_magic c) (k_seek_rewind c) (k_seek_current c) (k_seek_end c) (k_seek_start c) (k_id c) (k_id_type c)
             (k_id_endian c) (k_bits c) (k_bytes c) (k_repr c))
    (map (fun m => mkM (spelled_fdecl c (m_attrs m)) (m_ty m) (m_wire m) (m_default m)) ms).
(** No field has both padding and a bit order. *)
Definition padding_spellable (c : cdecl) (m : member) : bool :=
  (unset (d_order (m_attrs m)) && unset (k_order c)) ||
  (unset (d_pad_bits_before (m_attrs m)) && unset (d_pad_bytes_before (m_attrs m)) && unset (d_pad_bits_after (m_attrs m)) && unset (d_pad_bytes_after (m_attrs m))).
