(** A field made of parts (a struct, a tuple, an array) and its parts written as fields.
    Vocabulary of C73, no proofs here. *)
From Verif Require Import Base Stream Reader Writer Prims Containers Derive AttrSpec.

(** A field that only hands arguments to its type: [endian], [bit_order], [bits], [bytes]
    and [ctx]. *)
Definition passing (e : option (expr0 endian)) (o : option (expr0 order)) (bits bytes : option (expr0 nat)) (x : expr0 (list value)) : fattrs :=
  {| a_endian := e; a_order := o; a_bits := bits; a_bytes := bytes; a_ctx := fun ctx fs _ => x ctx fs;
     a_limit := None; a_map := None; a_reader := None; a_writer := None; a_skip := None; a_cond := None;
     a_default := fun _ _ _ => VUnit; a_assert := None; a_assert_eq := None; a_seek := None; a_magic := [];
     a_pad_before := None; a_pad_after := None; a_temp := false; a_temp_value := None; a_update := None |}.

(** ** Names

    Fields have other names when they move to another struct.  A [scope] tells what the
    variables of an expression stand for: the [ctx] arguments, the earlier fields and (for
    [writer] and [temp_value]) all stored fields. *)
Record scope : Type := mkScope {
  sc_ctx : list value -> list value -> list value;
  sc_fields : list value -> list value;
  sc_stored : list value -> list value
}.
Definition see0 {A} (s : scope) (f : expr0 A) : expr0 A := fun ctx fs => f (sc_ctx s ctx fs) (sc_fields s fs).
Definition see {A} (s : scope) (f : expr A) : expr A := fun ctx fs off => f (sc_ctx s ctx fs) (sc_fields s fs) off.
Definition see_limit (s : scope) (l : flimit) : flimit :=
  match l with FCount f => FCount (see s f) | FBytes f => FBytes (see s f) | FUntil f => FUntil (see s f) | FAll => FAll | FBits f => FBits (see s f) end.
(** The attributes with their expressions in another scope, and with the byte order and
    bit order of the struct [c] the field comes from. *)
Definition moved (s : scope) (c : cattrs) (a : fattrs) : fattrs := {|
  a_endian := option_map (see0 s) (or_else (a_endian a) (c_endian c));
  a_order := option_map (see0 s) (or_else (a_order a) (c_order c));
  a_bits := option_map (see0 s) (a_bits a);
  a_bytes := option_map (see0 s) (a_bytes a);
  a_ctx := see s (a_ctx a);
  a_limit := option_map (see_limit s) (a_limit a);
  a_map := option_map (see s) (a_map a);
  a_reader := option_map (see s) (a_reader a);
  a_writer := option_map (fun f stored => see s (f (sc_stored s stored))) (a_writer a);
  a_skip := a_skip a;
  a_cond := option_map (see s) (a_cond a);
  a_default := see s (a_default a);
  a_assert := option_map (see s) (a_assert a);
  a_assert_eq := option_map (see s) (a_assert_eq a);
  a_seek := option_map (see0 s) (a_seek a);
  a_magic := a_magic a;
  a_pad_before := option_map (see0 s) (a_pad_before a);
  a_pad_after := option_map (see0 s) (a_pad_after a);
  a_temp := a_temp a;
  a_temp_value := option_map (fun f stored => see0 s (f (sc_stored s stored))) (a_temp_value a);
  a_update := option_map (fun f stored => f (sc_stored s stored)) (a_update a) |}.
Fixpoint moved_fields (s : scope) (c : cattrs) (fs : fields) : fields :=
  match fs with FNil => FNil | FCons a t wire tl => FCons (moved s c a) t wire (moved_fields s c tl) end.
Fixpoint field_count (fs : fields) : nat := match fs with FNil => 0 | FCons _ _ _ tl => S (field_count tl) end.
Definition no_temps (fs : fields) : Prop := all_fields (fun a => a_temp a = false) fs.

(** ** Values

    The [n] values from the [k]-th on as one value. *)
Definition group (k n : nat) (g : list value -> value) (l : list value) : list value :=
  firstn k l ++ g (firstn n (skipn k l)) :: skipn (k + n) l.
Definition group_rec (k n : nat) (g : list value -> value) (v : value) : value :=
  match v with VRec l => VRec (group k n g l) | _ => v end.
Definition as_pair (l : list value) : value := VPair (nth 0 l VUnit) (nth 1 l VUnit).

(** ** Inlining

    For the fields after the parts: the parts are one field.  For the fields before them:
    likewise among all stored fields.  For the fields of a nested struct: the fields before
    it are not there, and the [ctx] is what it is given.  For the components of a tuple:
    the fields up to the tuple. *)
Definition later (k n : nat) (g : list value -> value) : scope := mkScope (fun ctx _ => ctx) (group k n g) (group k n g).
Definition earlier (k n : nat) (g : list value -> value) : scope := mkScope (fun ctx _ => ctx) (fun fs => fs) (group k n g).
Definition inside (c : cattrs) (a : fattrs) (k n : nat) (ci : cattrs) : scope :=
  mkScope (fun ctx fs => ctx_args ci (field_args c a ctx (firstn k fs) 0)) (skipn k) (fun stored => firstn n (skipn k stored)).
Definition before (k : nat) : scope := mkScope (fun ctx _ => ctx) (firstn k) (fun stored => stored).

(** The struct with its field after [pre] replaced by the fields [parts]. *)
Definition with_parts (c : cattrs) (pre parts post : fields) (g : list value -> value) : ty :=
  let k := field_count pre in
  let n := field_count parts in
  TStruct c (fapp (moved_fields (earlier k n g) cplain pre) (fapp parts (moved_fields (later k n g) cplain post))).
Definition with_field (c : cattrs) (pre : fields) (a : fattrs) (t : ty) (post : fields) : ty := TStruct c (fapp pre (FCons a t t post)).
(** The parts: the fields of the nested struct, the two components of a tuple, the
    elements of an array. *)
Definition struct_parts (c : cattrs) (pre : fields) (a : fattrs) (ci : cattrs) (fs : fields) : fields :=
  moved_fields (inside c a (field_count pre) (field_count fs) ci) ci fs.
Definition pair_parts (pre : fields) (a : fattrs) (t1 t2 : ty) : fields :=
  let a' := moved (before (field_count pre)) cplain a in FCons a' t1 t1 (FCons a' t2 t2 FNil).
Fixpoint same_fields (a : fattrs) (t : ty) (n : nat) : fields := match n with O => FNil | S n' => FCons a t t (same_fields a t n') end.
Definition array_parts (pre : fields) (a : fattrs) (n : nat) (t : ty) : fields := same_fields (moved (before (field_count pre)) cplain a) t n.

(** A field with attributes [a] after the fields [pre] of a struct with attributes [c]: its
    type, its parts and how their values make up its value. *)
Inductive made_of (c : cattrs) (pre : fields) (a : fattrs) : ty -> fields -> (list value -> value) -> Prop :=
| of_fields ci fs : c_magic ci = [] -> c_seek ci = None -> no_temps fs -> made_of c pre a (TStruct ci fs) (struct_parts c pre a ci fs) VRec
| of_components t1 t2 : made_of c pre a (TPair t1 t2) (pair_parts pre a t1 t2) as_pair
| of_elements n t : made_of c pre a (TArray n t) (array_parts pre a n t) VList.
(** The field hands on arguments and does nothing else. *)
Definition only_passes (a : fattrs) : Prop := exists e o bits bytes x, a = passing e o bits bytes x.
(** A struct with one field. *)
Definition newtype (c : cattrs) (a : fattrs) (t : ty) : ty := TStruct c (FCons a t t FNil).
Definition wrap (v : value) : value := VRec [v].
(** Sizes and paddings are constants, as a type deriving [DekuSize] must have them. *)
Definition constant {A} (x : option (expr0 A)) : Prop := forall f, x = Some f -> forall ctx fs, f ctx fs = f [] [].
Definition constant_sizes (fs : fields) : Prop :=
  all_fields (fun a => constant (a_bits a) /\ constant (a_bytes a) /\ constant (a_pad_before a) /\ constant (a_pad_after a)) fs.
