(** Model of the attribute handling of the derive macros: deku-derive/src/lib.rs (the
    checks) and the parts of deku-derive/src/macros/{mod,deku_read,deku_write}.rs that
    choose between attributes or reject them.  No proofs here.

    A declaration, with its attributes as they are written, becomes a [ty] of Derive.v or
    a compile error ([None]).  Attribute expressions are already Coq functions; the Rust
    compiler's own errors about the generated code, [reader] and [writer] on variants (see Variants.v),
    generics and lifetimes are not modelled. *)
From Verif Require Import Base Stream Reader Writer Prims Containers Derive.

(** mod.rs:338-349 [gen_endian_from_str], 324-335 [gen_bit_order_from_str]: a keyword or
    a variable. *)
Inductive endian_lit : Type := ELittle | EBig | EVar (f : expr0 endian).
Inductive order_lit : Type := OLsb | OMsb | OVar (f : expr0 order).
Definition endian_of (l : endian_lit) : expr0 endian :=
  match l with ELittle => fun _ _ => Little | EBig => fun _ _ => Big | EVar f => f end.
Definition order_of (l : order_lit) : expr0 order :=
  match l with OLsb => fun _ _ => Lsb0 | OMsb => fun _ _ => Msb0 | OVar f => f end.

(** lib.rs:1127-1258 [DekuFieldReceiver], 611-709 [FieldData]. *)
Record fdecl : Type := mkFd {
  d_endian : option endian_lit;
  d_order : option order_lit;
  d_bits : option (expr0 nat);
  d_bytes : option (expr0 nat);
  d_count : option (expr Z);
  d_bits_read : option (expr Z);
  d_bytes_read : option (expr Z);
  d_until : option (expr (list value -> bool));
  d_read_all : bool;
  d_map : option (expr (value -> res value));
  d_ctx : option (expr (list value));
  d_update : option (list value -> res value);
  d_reader : option (expr (RM value));
  d_writer : option (list value -> expr (value -> WM unit));
  d_skip : option skipmode;
  d_pad_bits_before : option (expr0 Z);
  d_pad_bytes_before : option (expr0 Z);
  d_pad_bits_after : option (expr0 Z);
  d_pad_bytes_after : option (expr0 Z);
  d_temp : bool;
  d_temp_value : option (list value -> expr0 value);
  d_default : option (expr value);
  d_cond : option (expr bool);
  d_assert : option (expr bool);
  d_assert_eq : option (expr value);
  d_seek_rewind : bool;
  d_seek_current : option (expr0 Z);
  d_seek_end : option (expr0 Z);
  d_seek_start : option (expr0 Z);
  d_magic : option (list byte)
}.
Definition some {A} (x : option A) : bool := match x with Some _ => true | None => false end.
Definition b2n (b : bool) : nat := if b then 1 else 0.

(** Attributes that exist only with the feature `bits` (lib.rs:620-668). *)
Definition known (feat : bool) (f : fdecl) : bool :=
  feat || negb (some (d_bits f) || some (d_bits_read f) || some (d_pad_bits_before f) || some (d_pad_bits_after f)).
(** lib.rs:821-901 [FieldData::validate]; [feat] is the feature `bits`. *)
Definition field_valid (feat : bool) (f : fdecl) : bool :=
  if feat && (some (d_bits_read f) && some (d_bytes_read f)) then false
  else if (if feat then some (d_count f) && (some (d_bits_read f) || some (d_bytes_read f)) else some (d_count f) && some (d_bytes_read f)) then false
  else if feat && (some (d_bits f) && some (d_bytes f)) then false
  else if some (d_default f) && (negb (some (d_skip f)) && negb (some (d_cond f))) then false
  else if feat && (d_read_all f && (some (d_until f) || some (d_count f) || (some (d_bits_read f) || some (d_bytes_read f)))) then false
  else if 1 <? b2n (some (d_seek_current f)) + b2n (some (d_seek_end f)) + b2n (some (d_seek_start f)) + b2n (d_seek_rewind f) then false
  else true.
(** lib.rs:713-766 [any_field_set]. *)
Definition any_field_set (f : fdecl) : bool :=
  some (d_endian f) || some (d_bits f) || some (d_bytes f) || some (d_count f) || some (d_bits_read f) || some (d_bytes_read f) ||
  some (d_until f) || some (d_map f) || some (d_ctx f) || some (d_update f) || some (d_reader f) || some (d_writer f) ||
  some (d_pad_bits_before f) || some (d_pad_bytes_before f) || some (d_pad_bits_after f) || some (d_pad_bytes_after f) ||
  some (d_temp_value f) || some (d_cond f) || some (d_assert f) || some (d_assert_eq f) ||
  some (d_seek_current f) || some (d_seek_end f) || some (d_seek_start f) || some (d_order f) || some (d_magic f) ||
  (d_read_all f || some (d_skip f) || d_temp f || d_seek_rewind f).

(** deku_read.rs:817-918: which limit is used. *)
Definition limit_of (f : fdecl) : option flimit :=
  match d_count f with
  | Some n => Some (FCount n)
  | None =>
      match d_bytes_read f with
      | Some n => Some (FBytes n)
      | None =>
          match d_until f with
          | Some p => Some (FUntil p)
          | None => if d_read_all f then Some FAll else option_map FBits (d_bits_read f)
          end
      end
  end.
(** [i64::try_from(..).unwrap()], [u64::try_from(..).unwrap()]. *)
Definition to_i64 (z : Z) : option Z := if (- 2 ^ 63 <=? z)%Z && (z <? 2 ^ 63)%Z then Some z else None.
Definition to_u64 (z : Z) : option nat := if (0 <=? z)%Z && (z <? 2 ^ 64)%Z then Some (Z.to_nat z) else None.
(** deku_read.rs:46-90 and 683-724, deku_write.rs:36-80 and 651-692: which seek is used. *)
Definition seek_of {A} (current end_ start : option (A -> Z)) (rewind : bool) : option (A -> option seekfrom) :=
  match current with
  | Some f => Some (fun x => option_map SeekCurrent (to_i64 (f x)))
  | None =>
      match end_ with
      | Some f => Some (fun x => option_map SeekEnd (to_i64 (f x)))
      | None =>
          match start with
          | Some f => Some (fun x => option_map SeekStart (to_u64 (f x)))
          | None => if rewind then Some (fun _ => Some (SeekStart 0)) else None
          end
      end
  end.
Definition uncurry0 {A} (f : expr0 A) : list value * list value -> A := fun p => f (fst p) (snd p).
Definition curry0 {A} (f : list value * list value -> A) : expr0 A := fun ctx fs => f (ctx, fs).
(** mod.rs:380-395 [pad_bits]. *)
Definition pad_of (bits bytes : option (expr0 Z)) : option (expr0 Z) :=
  match bits, bytes with
  | Some f, Some g => Some (fun ctx fs => f ctx fs + g ctx fs * 8)%Z
  | Some f, None => Some f
  | None, Some g => Some (fun ctx fs => g ctx fs * 8)%Z
  | None, None => None
  end.

(** [dv] is [Default::default()] (lib.rs:816). *)
Definition fattrs_of (f : fdecl) (dv : value) : fattrs :=
  {| a_endian := option_map endian_of (d_endian f); a_order := option_map order_of (d_order f);
     a_bits := d_bits f; a_bytes := d_bytes f;
     a_ctx := match d_ctx f with Some g => g | None => fun _ _ _ => [] end;
     a_limit := limit_of f; a_map := d_map f; a_reader := d_reader f; a_writer := d_writer f; a_skip := d_skip f; a_cond := d_cond f;
     a_default := match d_default f with Some g => g | None => fun _ _ _ => dv end;
     a_assert := d_assert f; a_assert_eq := d_assert_eq f;
     a_seek := option_map curry0 (seek_of (option_map uncurry0 (d_seek_current f)) (option_map uncurry0 (d_seek_end f))
                                          (option_map uncurry0 (d_seek_start f)) (d_seek_rewind f));
     a_magic := match d_magic f with Some m => m | None => [] end;
     a_pad_before := pad_of (d_pad_bits_before f) (d_pad_bytes_before f);
     a_pad_after := pad_of (d_pad_bits_after f) (d_pad_bytes_after f);
     a_temp := d_temp f; a_temp_value := d_temp_value f; a_update := d_update f |}.

(** lib.rs:985-1048 [DekuReceiver], 216-265 [DekuData]: the struct or enum itself.
    [k_ctx]: whether [ctx] is given. *)
Record cdecl : Type := mkCd {
  k_endian : option endian_lit;
  k_order : option order_lit;
  k_ctx : bool;
  k_ctx_default : option (list value);
  k_magic : option (list byte);
  k_seek_rewind : bool;
  k_seek_current : option (list value -> Z);
  k_seek_end : option (list value -> Z);
  k_seek_start : option (list value -> Z);
  k_id : option (list value -> value);
  k_id_type : option ty;
  k_id_endian : option endian_lit;
  k_bits : option (expr0 nat);
  k_bytes : option (expr0 nat);
  k_repr : option prim
}.
(** lib.rs:414-493 [DekuData::validate]; without the feature `bits` there is no attribute
    [bits] (245). *)
Definition container_valid (feat enum : bool) (c : cdecl) : bool :=
  if negb feat && some (k_bits c) then false
  else if some (k_ctx_default c) && negb (k_ctx c) then false
  else if enum then
    if negb (some (k_id_type c)) && negb (some (k_id c)) then false
    else if some (k_id_type c) && some (k_id c) then false
    else if feat && (some (k_id c) && some (k_bits c)) then false
    else if some (k_id c) && some (k_bytes c) then false
    else if feat && (some (k_bits c) && some (k_bytes c)) then false
    else true
  else
    if some (k_id_type c) || some (k_id c) || some (k_id_endian c) || some (k_bytes c) then false
    else if feat && some (k_bits c) then false
    else true.
Definition cattrs_of (c : cdecl) : cattrs :=
  mkC (option_map endian_of (k_endian c)) (option_map order_of (k_order c)) (match k_magic c with Some m => m | None => [] end)
      (seek_of (k_seek_current c) (k_seek_end c) (k_seek_start c) (k_seek_rewind c)) (k_ctx_default c).
Definition eattrs_of (c : cdecl) : eattrs :=
  mkE (cattrs_of c) (k_id c) (option_map endian_of (k_id_endian c)) (k_bits c) (k_bytes c).

(** lib.rs:914-984 [VariantData].  [v_disc] is the Rust discriminant, [v_explicit] whether
    it is written down. *)
Inductive id_lit : Type := IdVal (v : value) | IdWild.
Record vdecl : Type := mkVd {
  v_id : option id_lit;
  v_pat : option (value -> bool);
  v_explicit : bool;
  v_disc : value;
  v_is_default : option bool
}.
(** lib.rs:963-983 [VariantData::validate]. *)
Definition variant_valid (v : vdecl) : bool :=
  if some (v_id v) && some (v_pat v) then false
  else match v_id v with Some IdWild => false | _ => true end.

(** A field: its attributes, type, the type that is read, and the default of the type. *)
Record member : Type := mkM { m_attrs : fdecl; m_ty : ty; m_wire : ty; m_default : value }.
Inductive decl : Type := DStruct (c : cdecl) (ms : list member) | DEnum (c : cdecl) (vs : list (vdecl * list member)).
Inductive trait : Type := DekuRead | DekuWrite.

Fixpoint fields_of (ms : list member) : fields :=
  match ms with
  | [] => FNil
  | m :: tl => FCons (fattrs_of (m_attrs m) (m_default m)) (m_ty m) (m_wire m) (fields_of tl)
  end.
Definition members_valid (feat : bool) (ms : list member) : bool :=
  forallb (fun m => known feat (m_attrs m) && field_valid feat (m_attrs m)) ms.

(** lib.rs:267-320 [ReprType], [from_token].  Like Prims.v, [PU] and [PI] do not tell
    usize and isize (which are no representation here) from the type of their width. *)
Definition prim_eqb (p q : prim) : bool :=
  match p, q with PU8, PU8 => true | PU a, PU b | PI a, PI b => a =? b | _, _ => false end.
Definition repr_of (t : ty) : option prim := match t with TPrim p => Some p | _ => None end.
(** deku_read.rs:263-283, deku_write.rs:276-299. *)
Definition repr_valid (c : cdecl) : bool :=
  match k_repr c with
  | None => false
  | Some r =>
      match k_id_type c with
      | None => true
      | Some t => match repr_of t with Some q => prim_eqb q r | None => false end
      end
  end.
(** deku_read.rs:247-297: the id of a variant; [hd]: whether some variant has a
    discriminant. *)
Definition selector_of (c : cdecl) (hd : bool) (v : vdecl) : option selector :=
  match v_id v with
  | Some (IdVal x) => Some (SId x)
  | Some IdWild => None
  | None =>
      match v_pat v with
      | Some p => Some (SPat p (if hd then Some (v_disc v) else None))
      | None => if hd && repr_valid c then Some (SDisc (v_disc v)) else None
      end
  end.
(** deku_read.rs:254-262 and 806-813, reached if the first field has no [reader] (775). *)
Definition storage_valid (c : cdecl) (v : vdecl) (ms : list member) : bool :=
  match v_pat v, ms with
  | Some _, m :: _ => some (k_id c) || some (d_reader (m_attrs m)) || negb (any_field_set (m_attrs m))
  | _, _ => true
  end.
(** deku_write.rs:239-320. *)
Definition writable_id (c : cdecl) (hd : bool) (v : vdecl) (ms : list member) : bool :=
  some (k_id c) || some (v_id v) || (some (v_pat v) && match ms with [] => false | _ => true end) || (hd && repr_valid c).
Definition default_of (v : vdecl) : bool := match v_is_default v with Some b => b | None => false end.
Fixpoint variants_of (c : cdecl) (hd : bool) (vs : list (vdecl * list member)) : option variants :=
  match vs with
  | [] => Some VNil
  | (v, ms) :: tl =>
      match selector_of c hd v, variants_of c hd tl with
      | Some s, Some r => Some (VCons (mkV s (default_of v)) (fields_of ms) r)
      | _, _ => None
      end
  end.

(** [#[derive(DekuRead)]] or [#[derive(DekuWrite)]].  In the enum case of [DekuWrite] the
    macro does not look at the way a variant is selected; a declaration for which there is
    no way (not even an id to be written) is rejected by [writable_id] unless the enum has
    an [id].  Then the variant gets the pattern that nothing matches. *)
Definition no_selector : selector := SPat (fun _ => false) None.
Fixpoint write_variants_of (c : cdecl) (hd : bool) (vs : list (vdecl * list member)) : variants :=
  match vs with
  | [] => VNil
  | (v, ms) :: tl =>
      VCons (mkV (match selector_of c hd v with Some s => s | None => no_selector end) (default_of v)) (fields_of ms) (write_variants_of c hd tl)
  end.
Definition derive (tr : trait) (feat : bool) (d : decl) : option ty :=
  match d with
  | DStruct c ms =>
      if members_valid feat ms && container_valid feat false c then Some (TStruct (cattrs_of c) (fields_of ms)) else None
  | DEnum c vs =>
      let hd := existsb (fun p => v_explicit (fst p)) vs in
      let idt := match k_id_type c with Some t => t | None => TUnit end in
      if forallb (fun p => members_valid feat (snd p) && variant_valid (fst p)) vs && container_valid feat true c then
        match tr with
        | DekuRead =>
            if forallb (fun p => storage_valid c (fst p) (snd p)) vs &&
               (list_sum (map (fun p => b2n (default_of (fst p))) vs) <=? 1)
            then option_map (TEnum (eattrs_of c) idt) (variants_of c hd vs) else None
        | DekuWrite =>
            if forallb (fun p => writable_id c hd (fst p) (snd p)) vs
            then Some (TEnum (eattrs_of c) idt (write_variants_of c hd vs)) else None
        end
      else None
  end.
