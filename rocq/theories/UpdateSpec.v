(** Plain declarations (PlainSpec.v) in which every count has an [update] with the length
    of what it counts.  Vocabulary of C68, no proofs here. *)
From Verif Require Import Base Spec Prims CodecSpec Containers Derive Decl PlainSpec.

(** The field that is counted by the [k]-th one: the first [Vec] with [count = "x"] where x
    is the name of the [k]-th field; [i] is the place of the first of [fs]. *)
Fixpoint counted_by (fs : pfields) (i k : nat) : option nat :=
  match fs with
  | PNil => None
  | PCons a _ tl =>
      match p_kind a with
      | Many j _ => if j =? k then Some i else counted_by tl (S i) k
      | _ => counted_by tl (S i) k
      end
  end.
Definition len_at (l : list value) (i : nat) : N := match nth i l VUnit with VList xs => N.of_nat (length xs) | _ => 0%N end.

(** *** The declarations *)

(** [update = "self.x.len()"] at an integer of type [p], where x is the [i]-th field: the
    length is converted with [try_into]. *)
Definition len_into (p : prim) (i : nat) (self : list value) : res value :=
  if (len_at self i <? 2 ^ N.of_nat (prim_width p))%N then Ok (VNum (len_at self i)) else Err Parse.
Definition update_at (all : pfields) (k : nat) (t : pty) : option (list value -> res value) :=
  match t, counted_by all 0 k with PInt p, Some i => Some (len_into p i) | _, _ => None end.
Definition set_update (u : option (list value -> res value)) (d : fdecl) : fdecl := {|
  d_endian := d_endian d; d_order := d_order d; d_bits := d_bits d; d_bytes := d_bytes d; d_count := d_count d; d_bits_read := d_bits_read d;
  d_bytes_read := d_bytes_read d; d_until := d_until d; d_read_all := d_read_all d; d_map := d_map d; d_ctx := d_ctx d; d_update := u;
  d_reader := d_reader d; d_writer := d_writer d; d_skip := d_skip d; d_pad_bits_before := d_pad_bits_before d; d_pad_bytes_before := d_pad_bytes_before d;
  d_pad_bits_after := d_pad_bits_after d; d_pad_bytes_after := d_pad_bytes_after d; d_temp := d_temp d; d_temp_value := d_temp_value d;
  d_default := d_default d; d_cond := d_cond d; d_assert := d_assert d; d_assert_eq := d_assert_eq d; d_seek_rewind := d_seek_rewind d;
  d_seek_current := d_seek_current d; d_seek_end := d_seek_end d; d_seek_start := d_seek_start d; d_magic := d_magic d |}.
(** The outermost struct or enum has the [update]s; what is nested has none. *)
Fixpoint members_upd (all : pfields) (k : nat) (fs : pfields) : list member :=
  match fs with
  | PNil => []
  | PCons a t tl => mkM (set_update (update_at all k t) (field_decl a)) (holding (p_kind a) (ctype t)) (holding (p_kind a) (ctype t)) VNone :: members_upd all (S k) tl
  end.
Fixpoint vmembers_upd (vs : pvariants) : list (vdecl * list member) :=
  match vs with PVNil => [] | PVCons id fs tl => (variant_decl id, members_upd fs 0 fs) :: vmembers_upd tl end.
Definition updating_decl (t : pty) : option decl :=
  match t with
  | PStruct m fs => Some (DStruct (struct_decl m) (members_upd fs 0 fs))
  | PEnum m p e b vs => Some (DEnum (enum_decl m p e b) (vmembers_upd vs))
  | _ => None
  end.
(** A struct or enum: what [update] is derived for. *)
Definition container (t : pty) : bool := match t with PStruct _ _ | PEnum _ _ _ _ _ => true | _ => false end.
(** The type that is derived. *)
Fixpoint fields_upd (all : pfields) (k : nat) (fs : pfields) : fields :=
  match fs with
  | PNil => FNil
  | PCons a t tl =>
      FCons (fattrs_of (set_update (update_at all k t) (field_decl a)) VNone) (holding (p_kind a) (ctype t)) (holding (p_kind a) (ctype t)) (fields_upd all (S k) tl)
  end.
Fixpoint variants_upd (vs : pvariants) : variants :=
  match vs with PVNil => VNil | PVCons id fs tl => VCons (mkV (SId (VNum id)) false) (fields_upd fs 0 fs) (variants_upd tl) end.
Definition updating_type (t : pty) : ty :=
  match t with
  | PStruct m fs => TStruct (cattrs_of (struct_decl m)) (fields_upd fs 0 fs)
  | PEnum m p e b vs => TEnum (eattrs_of (enum_decl m p e b)) (TPrim p) (variants_upd vs)
  | t => ctype t
  end.

(** *** Values *)

(** The fields of the struct, or of the variant at hand. *)
Fixpoint nth_fields (vs : pvariants) (k : nat) : pfields :=
  match vs, k with PVNil, _ => PNil | PVCons _ fs _, O => fs | PVCons _ _ tl, S k' => nth_fields tl k' end.
Definition parts (t : pty) (v : value) : pfields * list value :=
  match t, v with PStruct _ fs, VRec l => (fs, l) | PEnum _ _ _ _ vs, VVar k l => (nth_fields vs k, l) | _, _ => (PNil, []) end.
Definition is_count (fs : pfields) (k : nat) : bool := negb (none (counted_by fs 0 k)).
(** The values are of the same variant and differ at most in the counts. *)
Definition but_counts (t : pty) (v v' : value) : Prop :=
  match v, v' with VVar k _, VVar k' _ => k = k' | _, _ => True end /\
  length (snd (parts t v)) = length (snd (parts t v')) /\
  forall k, is_count (fst (parts t v)) k = false -> nth k (snd (parts t v)) VUnit = nth k (snd (parts t v')) VUnit.
(** Every count is the length of what it counts. *)
Definition counts_right (t : pty) (v : value) : Prop :=
  forall k i, counted_by (fst (parts t v)) 0 k = Some i -> nth k (snd (parts t v)) VUnit = VNum (len_at (snd (parts t v)) i).
(** The integer type of the [k]-th field. *)
Fixpoint int_at (fs : pfields) (k : nat) : option prim :=
  match fs, k with
  | PCons _ (PInt p) _, O => Some p
  | PCons _ _ tl, S k' => int_at tl k'
  | _, _ => None
  end.
(** Every length fits the type of its count. *)
Definition lengths_fit (t : pty) (v : value) : Prop :=
  forall k i p, counted_by (fst (parts t v)) 0 k = Some i -> int_at (fst (parts t v)) k = Some p ->
    (len_at (snd (parts t v)) i < 2 ^ N.of_nat (prim_width p))%N.
