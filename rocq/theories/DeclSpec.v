(** Which declarations the derive macros should accept, and what an attribute stands
    for: rules in the words of the documentation, without the macros' order of checks.
    No proofs here. *)
From Verif Require Import Base Stream Reader Writer Prims Containers Derive Decl.

Definition given {A} (x : option A) : Prop := x <> None.
Definition absent {A} (x : option A) : Prop := x = None.
(** At most one of the attributes is given. *)
Inductive at_most_one : list Prop -> Prop :=
| AmoNil : at_most_one []
| AmoSkip (p : Prop) (l : list Prop) : ~ p -> at_most_one l -> at_most_one (p :: l)
| AmoTake (p : Prop) (l : list Prop) : p -> Forall (fun q => ~ q) l -> at_most_one (p :: l).

(** A field with the feature `bits`. *)
Record field_rules (f : fdecl) : Prop := {
  fr_limit : at_most_one [given (d_count f); given (d_bits_read f); given (d_bytes_read f); d_read_all f = true];
  fr_until : given (d_until f) -> d_read_all f = false;
  fr_size : at_most_one [given (d_bits f); given (d_bytes f)];
  fr_default : given (d_default f) -> given (d_skip f) \/ given (d_cond f);
  fr_seek : at_most_one [given (d_seek_current f); given (d_seek_end f); given (d_seek_start f); d_seek_rewind f = true]
}.
(** A field without it: [read_all] is not checked against the others. *)
Record field_rules_nobits (f : fdecl) : Prop := {
  fn_bits : absent (d_bits f) /\ absent (d_bits_read f) /\ absent (d_pad_bits_before f) /\ absent (d_pad_bits_after f);
  fn_limit : at_most_one [given (d_count f); given (d_bytes_read f)];
  fn_default : given (d_default f) -> given (d_skip f) \/ given (d_cond f);
  fn_seek : at_most_one [given (d_seek_current f); given (d_seek_end f); given (d_seek_start f); d_seek_rewind f = true]
}.
Definition field_ok (feat : bool) (f : fdecl) : Prop := if feat then field_rules f else field_rules_nobits f.
Definition fields_ok (feat : bool) (ms : list member) : Prop := Forall (fun m => field_ok feat (m_attrs m)) ms.

(** The attributes of a struct. *)
Record struct_rules (c : cdecl) : Prop := {
  sr_ctx : given (k_ctx_default c) -> k_ctx c = true;
  sr_id : absent (k_id c) /\ absent (k_id_type c) /\ absent (k_id_endian c);
  sr_size : absent (k_bits c) /\ absent (k_bytes c)
}.
(** The attributes of an enum: [id] or [id_type], the size of the id only with
    [id_type]. *)
Record enum_rules (feat : bool) (c : cdecl) : Prop := {
  er_ctx : given (k_ctx_default c) -> k_ctx c = true;
  er_id : given (k_id c) \/ given (k_id_type c);
  er_one : at_most_one [given (k_id c); given (k_id_type c)];
  er_size : at_most_one [given (k_id c); given (k_bits c); given (k_bytes c)];
  er_bits : feat = false -> absent (k_bits c)
}.
(** Some variant has an explicit discriminant and the representation of the enum is the
    type of its id. *)
Definition discriminants_usable (c : cdecl) (vs : list (vdecl * list member)) : Prop :=
  (exists v ms, In (v, ms) vs /\ v_explicit v = true) /\
  exists r, k_repr c = Some r /\ forall t, k_id_type c = Some t -> t = TPrim r.
Definition is_value (i : option id_lit) : Prop := i <> Some IdWild.
Definition variants_ok (vs : list (vdecl * list member)) : Prop :=
  forall v ms, In (v, ms) vs -> at_most_one [given (v_id v); given (v_pat v)] /\ is_value (v_id v).
(** No attribute but [default]. *)
Definition bare (f : fdecl) : Prop :=
  f = mkFd None None None None None None None None false None None None None None None None None None None
           false None (d_default f) None None None false None None None None.

Record read_rules (c : cdecl) (vs : list (vdecl * list member)) : Prop := {
  rr_id : forall v ms, In (v, ms) vs -> given (v_id v) \/ given (v_pat v) \/ discriminants_usable c vs;
  (** the field that takes the id has no attributes, unless it has its own reader *)
  rr_storage : forall v m ms, In (v, m :: ms) vs -> given (v_pat v) -> absent (k_id c) -> absent (d_reader (m_attrs m)) -> bare (m_attrs m);
  (** at most one variant is the default *)
  rr_default : forall l1 v1 ms1 l2 v2 ms2 l3, vs = l1 ++ (v1, ms1) :: l2 ++ (v2, ms2) :: l3 ->
      ~ (v_is_default v1 = Some true /\ v_is_default v2 = Some true)
}.
Definition write_rules (c : cdecl) (vs : list (vdecl * list member)) : Prop :=
  absent (k_id c) -> forall v ms, In (v, ms) vs -> given (v_id v) \/ (given (v_pat v) /\ ms <> []) \/ discriminants_usable c vs.

Definition decl_ok (tr : trait) (feat : bool) (d : decl) : Prop :=
  match d with
  | DStruct c ms => fields_ok feat ms /\ struct_rules c
  | DEnum c vs =>
      (forall v ms, In (v, ms) vs -> fields_ok feat ms) /\ variants_ok vs /\ enum_rules feat c /\
      match tr with DekuRead => read_rules c vs | DekuWrite => write_rules c vs end
  end.

(** What is written as limit or seek of a field. *)
Definition limit_written (f : fdecl) (l : flimit) : Prop :=
  match l with
  | FCount n => d_count f = Some n
  | FBits n => d_bits_read f = Some n
  | FBytes n => d_bytes_read f = Some n
  | FUntil p => d_until f = Some p
  | FAll => d_read_all f = true
  end.
(** A number converted to an integer type with the range from [low] to below [high]; the
    conversion of any other number panics ([None]). *)
Definition converted (low high z : Z) (to : Z -> seekfrom) (s : option seekfrom) : Prop :=
  (low <= z < high /\ s = Some (to z) \/ ~ (low <= z < high) /\ s = None)%Z.
Definition seek_written (f : fdecl) (ctx fs : list value) (s : option seekfrom) : Prop :=
  (exists e, d_seek_current f = Some e /\ converted (- 2 ^ 63) (2 ^ 63) (e ctx fs) SeekCurrent s) \/
  (exists e, d_seek_end f = Some e /\ converted (- 2 ^ 63) (2 ^ 63) (e ctx fs) SeekEnd s) \/
  (exists e, d_seek_start f = Some e /\ converted 0 (2 ^ 64) (e ctx fs) (fun z => SeekStart (Z.to_nat z)) s) \/
  (d_seek_rewind f = true /\ s = Some (SeekStart 0)).

(** Member [m] of the declaration [d] has got the attributes [a] in the type [t]. *)
Fixpoint attrs_list (fs : fields) : list fattrs := match fs with FNil => [] | FCons a _ _ tl => a :: attrs_list tl end.
Fixpoint variant_list (vs : variants) : list (vattrs * fields) := match vs with VNil => [] | VCons v fs tl => (v, fs) :: variant_list tl end.
Definition becomes (d : decl) (t : ty) (m : member) (a : fattrs) : Prop :=
  match d, t with
  | DStruct _ ms, TStruct _ fs => exists i, nth_error ms i = Some m /\ nth_error (attrs_list fs) i = Some a
  | DEnum _ vs, TEnum _ _ vs' =>
      exists k i v ms v' fs, nth_error vs k = Some (v, ms) /\ nth_error (variant_list vs') k = Some (v', fs) /\
                             nth_error ms i = Some m /\ nth_error (attrs_list fs) i = Some a
  | _, _ => False
  end.
Definition members (d : decl) : list member :=
  match d with DStruct _ ms => ms | DEnum _ vs => flat_map snd vs end.
(** [until] is the only limit. *)
Definition until_alone (f : fdecl) : Prop :=
  given (d_until f) -> absent (d_count f) /\ absent (d_bits_read f) /\ absent (d_bytes_read f).
(** [read_all] is the only limit. *)
Definition read_all_alone (f : fdecl) : Prop :=
  d_read_all f = true -> absent (d_until f) /\ absent (d_count f) /\ absent (d_bits_read f) /\ absent (d_bytes_read f).
(** None of the attributes that need the feature `bits`. *)
Definition no_bits (f : fdecl) : Prop :=
  absent (d_bits f) /\ absent (d_bits_read f) /\ absent (d_pad_bits_before f) /\ absent (d_pad_bits_after f).
Definition container (d : decl) : cdecl := match d with DStruct c _ | DEnum c _ => c end.
(** The padding written, in bits. *)
Definition padding_written (bits bytes : option (expr0 Z)) (ctx fs : list value) : option Z :=
  match bits, bytes with
  | None, None => None
  | _, _ => Some (match bits with Some f => f ctx fs | None => 0 end + 8 * match bytes with Some f => f ctx fs | None => 0 end)%Z
  end.

(** What [endian] and [bit_order] stand for. *)
Definition endian_meant (l : endian_lit) (ctx fs : list value) : endian :=
  match l with ELittle => Little | EBig => Big | EVar f => f ctx fs end.
Definition order_meant (l : order_lit) (ctx fs : list value) : order :=
  match l with OLsb => Lsb0 | OMsb => Msb0 | OVar f => f ctx fs end.
(** The arguments a field is read and written with: byte order (its own or else that of
    the struct or enum), size, bit order (likewise), [ctx]. *)
Definition args_written (c : cdecl) (f : fdecl) (ctx fs : list value) (off : nat) : list value :=
  match d_endian f, k_endian c with Some e, _ | None, Some e => [VEnd (endian_meant e ctx fs)] | None, None => [] end ++
  match d_bits f with Some n => [VBits (n ctx fs)] | None => [] end ++
  match d_bytes f with Some n => [VBytes (n ctx fs)] | None => [] end ++
  match d_order f, k_order c with Some o, _ | None, Some o => [VOrd (order_meant o ctx fs)] | None, None => [] end ++
  match d_ctx f with Some g => g ctx fs off | None => [] end.
(** The fields of the Rust type: those without [temp]. *)
Definition rust_fields (ms : list member) : list member := filter (fun m => negb (d_temp (m_attrs m))) ms.
(** A value has a value for each of them. *)
Definition value_shape (d : decl) (v : value) : Prop :=
  match d, v with
  | DStruct _ ms, VRec vs => length vs = length (rust_fields ms)
  | DEnum _ vs, VVar k l => exists x ms, nth_error vs k = Some (x, ms) /\ length l = length (rust_fields ms)
  | _, _ => False
  end.
(** The arguments for the id of an enum. *)
Definition id_args_written (c : cdecl) (ctx : list value) : list value :=
  match k_id_endian c, k_endian c with Some e, _ | None, Some e => [VEnd (endian_meant e ctx [])] | None, None => [] end ++
  match k_bits c with Some n => [VBits (n ctx [])] | None => [] end ++
  match k_bytes c with Some n => [VBytes (n ctx [])] | None => [] end ++
  match k_order c with Some o => [VOrd (order_meant o ctx [])] | None => [] end.
(** The attributes of the struct or enum in the type. *)
Definition container_of (t : ty) (c : cattrs) : Prop :=
  match t with TStruct c' _ => c = c' | TEnum e _ _ => c = en_c e | _ => False end.
