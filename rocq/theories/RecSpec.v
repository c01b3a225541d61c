(** Recursive types: formats and conditions; vocabulary of the theorems, no proofs here. *)
From Verif Require Import Base Spec Stream Reader Session Writer WSession Prims CodecSpec Containers ContainerSpec Derive DeriveSpec SafeSpec WSafeSpec CanonSpec FlowSpec Rec.

(** The format of the type named [k], with at most [depth] values of named types inside
    each other. *)
Fixpoint rec_format (defs : nat -> ty) (src : source) (o : order) (depth : nat)
    (k : nat) (args : list value) (pos : nat) (v : value) : option (list bool) :=
  match depth with
  | O => None
  | S d => encode src o (rec_format defs src o d) (defs k) None args pos v
  end.

(** The values of the type named [k], with at most [depth] values of named types inside
    each other. *)
Fixpoint nested (defs : nat -> ty) (depth : nat) (k : nat) (v : value) : Prop :=
  match depth with
  | O => False
  | S d => typed_in (nested defs d) (defs k) v
  end.

(** [guarded ate t]: the named types in [t] are reached only after a bit has been
    consumed; [ate]: one has been consumed before [t]. *)
Fixpoint guarded (ate : bool) (t : ty) {struct t} : bool :=
  match t with
  | TPrim _ | TBool | TNonZero _ | TUnit | TCString => true
  | TOption t | TArray _ t | TVec _ _ t => guarded ate t
  | TPair a b => guarded ate a && guarded (ate || consumes a) b
  | TStruct c fs => guarded_fields (ate || nonempty (c_magic c)) fs
  | TEnum e idt vs =>
      let ate := ate || nonempty (c_magic (en_c e)) in
      match en_id e with
      | Some _ => guarded_variants ate e vs
      | None => guarded ate idt && guarded_variants (ate || consumes idt) e vs
      end
  | TCustom _ => ate
  end
with guarded_fields (ate : bool) (fs : fields) {struct fs} : bool :=
  match fs with
  | FNil => true
  | FCons a t wire tl =>
      let ate := ate || nonempty (a_magic a) in
      guarded ate wire && guarded_fields (ate || (always_read a && negb (is_vec_u8 t) && consumes wire)) tl
  end
with guarded_variants (ate : bool) (e : eattrs) (vs : variants) {struct vs} : bool :=
  match vs with
  | VNil => true
  | VCons v fs tl =>
      (if stores_id e v then match fs with FNil => true | FCons _ _ _ rest => guarded_fields ate rest end
       else guarded_fields ate fs) &&
      guarded_variants ate e tl
  end.

(** Recursive types that can be read from untrusted input: safe as soon as the inner
    values are, and a bit is consumed before each of them.  [ok]: with which context
    arguments the named types are used; [named]: their values. *)
Definition rec_safe (defs : nat -> ty) (inside : bool) (ok : nat -> list value -> Prop) : Prop :=
  forall k args, ok k args ->
    guarded false (defs k) = true /\
    forall (named : nat -> value -> Prop) cu, (forall k args, ok k args -> behaves inside false (named k) (cu_read (cu k) args)) ->
      safe_ty_in named cu inside false (defs k) None args.

(** The same with the places of C49: padding of a byte or more may lead past the end.
    [ok k args i j]: the named type [k] is used with the arguments [args] where it is known
    ([i]) or not known to be inside, and known ([j]) or not afterwards. *)
Definition rec_flows (defs : nat -> ty) (ok : nat -> list value -> bool -> bool -> Prop) : Prop :=
  forall k args i j, ok k args i j ->
    guarded false (defs k) = true /\
    forall (named : nat -> value -> Prop) cu, (forall k args i j, ok k args i j -> leads false (named k) (cu_read (cu k) args) i j) ->
      flows_in named cu false (defs k) None args i j.

(** Recursive types that can be written: as soon as the inner values can. *)
Definition rec_wsafe (defs : nat -> ty) (growing : bool) (ok : nat -> list value -> Prop) : Prop :=
  forall k args, ok k args ->
    forall (named : nat -> value -> Prop) cu, (forall k args v, ok k args -> named k v -> writes_safely growing (cu_write (cu k) args v)) ->
      wsafe_ty_in named cu growing (defs k) args.

(** Recursive types that are written back as they were read: they are as soon as the
    inner values are.  [ok]: where and with which arguments they are used. *)
Definition rec_rewritable (defs : nat -> ty) (o : order) (ok : nat -> list value -> spot -> spot -> Prop) : Prop :=
  forall cu, (forall k args p q, ok k args p q -> faithful o p q (fun _ => True) (cu_read (cu k) args) (cu_write (cu k) args)) ->
    forall k args p q, ok k args p q -> rewritable cu o p q (defs k) None args.
