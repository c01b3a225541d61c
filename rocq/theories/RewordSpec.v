(** Declarations that say the same in other words, C88.  No proofs here. *)
From Verif Require Import Base Prims Containers Derive.

(** The field attributes [a] with these ... *)
Definition asserting (x : option (expr bool)) (y : option (expr value)) (a : fattrs) : fattrs :=
  mkF (a_endian a) (a_order a) (a_bits a) (a_bytes a) (a_ctx a) (a_limit a) (a_map a) (a_reader a) (a_writer a) (a_skip a) (a_cond a) (a_default a)
      x y (a_seek a) (a_magic a) (a_pad_before a) (a_pad_after a) (a_temp a) (a_temp_value a) (a_update a).
Definition skipping (s : option skipmode) (f : option (expr bool)) (d : expr value) (a : fattrs) : fattrs :=
  mkF (a_endian a) (a_order a) (a_bits a) (a_bytes a) (a_ctx a) (a_limit a) (a_map a) (a_reader a) (a_writer a) s f d
      (a_assert a) (a_assert_eq a) (a_seek a) (a_magic a) (a_pad_before a) (a_pad_after a) (a_temp a) (a_temp_value a) (a_update a).
Definition mapping (m : option (expr (value -> res value))) (a : fattrs) : fattrs :=
  mkF (a_endian a) (a_order a) (a_bits a) (a_bytes a) (a_ctx a) (a_limit a) m (a_reader a) (a_writer a) (a_skip a) (a_cond a) (a_default a)
      (a_assert a) (a_assert_eq a) (a_seek a) (a_magic a) (a_pad_before a) (a_pad_after a) (a_temp a) (a_temp_value a) (a_update a).
Definition led_by (m : list byte) (before : option (expr0 Z)) (a : fattrs) : fattrs :=
  mkF (a_endian a) (a_order a) (a_bits a) (a_bytes a) (a_ctx a) (a_limit a) (a_map a) (a_reader a) (a_writer a) (a_skip a) (a_cond a) (a_default a)
      (a_assert a) (a_assert_eq a) (a_seek a) m before (a_pad_after a) (a_temp a) (a_temp_value a) (a_update a).
Definition padding_after (after : option (expr0 Z)) (a : fattrs) : fattrs :=
  mkF (a_endian a) (a_order a) (a_bits a) (a_bytes a) (a_ctx a) (a_limit a) (a_map a) (a_reader a) (a_writer a) (a_skip a) (a_cond a) (a_default a)
      (a_assert a) (a_assert_eq a) (a_seek a) (a_magic a) (a_pad_before a) after (a_temp a) (a_temp_value a) (a_update a).
Definition starting (m : list byte) (c : cattrs) : cattrs := mkC (c_endian c) (c_order c) m (c_seek c) (c_ctx_default c).

(** [assert = "g && *self == f"] *)
Definition and_equal (g : option (expr bool)) (f : expr value) : expr bool :=
  fun ctx fs off => match g with Some g => g ctx fs off | None => true end && value_eqb (last fs VUnit) (f ctx (removelast fs) off).
Definition always {A} (x : A) (f : expr A) : Prop := forall ctx fs off, f ctx fs off = x.

(** [t'] says the same as [t], [fs'] in the container [c] the same as [fs].  [free]: the
    first of the fields does not stand for an id. *)
Inductive reworded : ty -> ty -> Prop :=
| rw_refl t : reworded t t
| rw_sym t t' : reworded t t' -> reworded t' t
| rw_trans t t' t'' : reworded t t' -> reworded t' t'' -> reworded t t''
(* parts *)
| rw_option t t' : reworded t t' -> reworded (TOption t) (TOption t')
| rw_pair t t' u u' : reworded t t' -> reworded u u' -> reworded (TPair t u) (TPair t' u')
| rw_array n t t' : reworded t t' -> reworded (TArray n t) (TArray n t')
| rw_vec k size t t' : reworded t t' -> reworded (TVec k size t) (TVec k size t')
| rw_struct c fs fs' : reworded_fields true c fs fs' -> reworded (TStruct c fs) (TStruct c fs')
| rw_enum e idt idt' vs vs' : reworded idt idt' -> reworded_variants e vs vs' -> reworded (TEnum e idt vs) (TEnum e idt' vs')
(* [magic] of a struct is [magic] of its first field *)
| rw_magic c m p a t wire tl : a_seek a = None ->
    reworded (TStruct (starting m c) (FCons (led_by [] p a) t wire tl)) (TStruct (starting [] c) (FCons (led_by m p a) t wire tl))
with reworded_fields : bool -> cattrs -> fields -> fields -> Prop :=
| rf_refl free c fs : reworded_fields free c fs fs
| rf_sym free c fs fs' : reworded_fields free c fs fs' -> reworded_fields free c fs' fs
| rf_trans free c fs fs' fs'' : reworded_fields free c fs fs' -> reworded_fields free c fs' fs'' -> reworded_fields free c fs fs''
| rf_parts free c a t t' wire wire' tl tl' : reworded t t' -> reworded wire wire' -> reworded_fields true c tl tl' ->
    reworded_fields free c (FCons a t wire tl) (FCons a t' wire' tl')
(* [assert_eq] is an [assert] *)
| rf_assert_eq free c g f a t wire tl :
    reworded_fields free c (FCons (asserting g (Some f) a) t wire tl) (FCons (asserting (Some (and_equal g f)) None a) t wire tl)
(* [cond = "true"], and [skip] that never happens, are nothing; the default is not used *)
| rf_cond_true free c f d d' a t wire tl : always true f ->
    reworded_fields free c (FCons (skipping None (Some f) d a) t wire tl) (FCons (skipping None None d' a) t wire tl)
| rf_skip_never free c f d d' a t wire tl : always false f ->
    reworded_fields free c (FCons (skipping (Some SkipAll) (Some f) d a) t wire tl) (FCons (skipping None None d' a) t wire tl)
(* [cond = "true"] beside [skip] is nothing *)
| rf_skip_always free c s f d a t wire tl : always true f ->
    reworded_fields free c (FCons (skipping (Some s) (Some f) d a) t wire tl) (FCons (skipping (Some s) None d a) t wire tl)
(* skipped on reading if [f]: read if not [f] *)
| rf_skip_read free c f d a t wire tl :
    reworded_fields free c (FCons (skipping (Some SkipRead) (Some f) d a) t wire tl)
                           (FCons (skipping None (Some (fun ctx fs off => negb (f ctx fs off))) d a) t wire tl)
(* a [map] that changes nothing *)
| rf_map free c f a t wire tl : (forall ctx fs off v, f ctx fs off v = Ok v) ->
    reworded_fields free c (FCons (mapping (Some f) a) t wire tl) (FCons (mapping None a) t wire tl)
(* padding after a field is padding before the next, in the same bit order *)
| rf_pad c p a t wire b t' wire' tl : a_seek b = None -> (forall ctx fs v, field_order c a ctx fs = field_order c b ctx (fs ++ [v])) ->
    reworded_fields true c (FCons (padding_after p a) t wire (FCons (led_by [] None b) t' wire' tl))
                           (FCons (padding_after None a) t wire (FCons (led_by [] p b) t' wire' tl))
with reworded_variants : eattrs -> variants -> variants -> Prop :=
| rv_nil e : reworded_variants e VNil VNil
| rv_cons e v fs fs' vs vs' : reworded_fields (match v_sel v with SPat _ _ => false | _ => true end) (en_c e) fs fs' -> reworded_variants e vs vs' ->
    reworded_variants e (VCons v fs vs) (VCons v fs' vs').

(** No field is [temp]. *)
Fixpoint lasting (t : ty) : bool :=
  match t with
  | TOption t | TArray _ t | TVec _ _ t => lasting t
  | TPair a b => lasting a && lasting b
  | TStruct _ fs => fields_lasting fs
  | TEnum _ idt vs => lasting idt && variants_lasting vs
  | _ => true
  end
with fields_lasting (fs : fields) : bool :=
  match fs with FNil => true | FCons a t _ tl => negb (a_temp a) && lasting t && fields_lasting tl end
with variants_lasting (vs : variants) : bool :=
  match vs with VNil => true | VCons _ fs tl => fields_lasting fs && variants_lasting tl end.
