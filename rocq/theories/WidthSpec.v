(** Targets narrower than 64 bits; vocabulary of the theorems, no proofs here. *)
From Verif Require Import Base Prims Containers Derive DeriveSpec SafeSpec Width.

(** No wider than 64 bits; types are no larger than on a 64-bit target, only types of
    size 0 have size 0, and they shrink no more than pointers do, with room to spare. *)
Definition sensible (m : target) : Prop :=
  (tg_bits m <= 64)%N /\ forall n, (tg_size m n <= n /\ n <= tg_size m n * 2 ^ (64 - tg_bits m))%N.
(** A 64-bit target, and a 32-bit target, for element types without pointers. *)
Definition bits64 : target := mkTarget 64 (fun n => n).
Definition bits32 : target := mkTarget 32 (fun n => n).

(** How reading may end on the narrow target if it does not end as on a 64-bit one. *)
Definition refused {A} (x : res A) : Prop := x = Panic \/ x = Err Parse \/ x = Err InvalidParam.

(** ** Types whose numbers fit

    All counts, lengths and paddings that values of the fields before them can give are
    within the [usize] of the target, and so are the sizes in bits and in memory that are
    computed from them.  Attributes are evaluated as in [FlowSpec.v]. *)
Definition number_within (m : target) (l : limit value) : Prop :=
  match l with LCount n | LBytes n | LBits n => (n <= n_usize_max m)%N | LUntil _ | LEnd => True end.
Definition vec_within (m : target) (size : N) (l : limit value) : Prop :=
  match l with LCount n => (n * tg_size m size <= n_isize_max m)%N | LBytes n => (8 * n <= n_usize_max m)%N | _ => True end.
Definition pad_within (m : target) (p : option Z) : Prop := match p with Some z => (z <= Z.of_N (n_usize_max m))%Z | None => True end.

Fixpoint within (m : target) (t : ty) (lim : option (limit value)) (args : list value) {struct t} : Prop :=
  match t with
  | TPrim _ | TNonZero _ | TBool | TUnit | TCustom _ => True
  | TCString => match args with [VBytes n] => (N.of_nat n <= n_isize_max m)%N | _ => True end
  | TOption t | TArray _ t => within m t lim args
  | TPair a b => within m a lim args /\ within m b lim args
  | TVec k size t => match lim with Some l => vec_within m (slot_size k size) l | None => True end /\ within m t None args
  | TStruct c fs => fields_within m c (ctx_args c args) fs None []
  | TEnum e idt vs =>
      let ctx := ctx_args (en_c e) args in
      match en_id e with
      | Some f => variants_within m e ctx (f ctx) vs
      | None => within m idt None (id_args e ctx) /\ forall id, typed idt id -> variants_within m e ctx id vs
      end
  end
with fields_within (m : target) (c : cattrs) (ctx : list value) (fs : fields) (id : option value) (acc : list value) {struct fs} : Prop :=
  match fs with
  | FNil => True
  | FCons a t wire tl =>
      match id, a_reader a with
      | Some x, None => fields_within m c ctx tl None (acc ++ [x])
      | _, _ =>
          pad_within m (eval0 (a_pad_before a) ctx acc) /\
          (forall off, takes_default a ctx acc off = false -> a_reader a = None ->
             match a_limit a with
             | None => within m wire None (field_args c a ctx acc off)
             | Some l =>
                 match eval_limit l ctx acc off with
                 | Ok lim => number_within m lim /\
                     (if is_vec_u8 t && match lim with LCount _ => true | _ => false end
                      then match lim with LCount n => (8 * n <= n_usize_max m)%N | _ => True end
                      else within m wire (Some lim) (field_args c a ctx acc off))
                 | _ => True
                 end
             end) /\
          forall v, typed t v -> asserted a ctx acc v ->
            pad_within m (eval0 (a_pad_after a) ctx (acc ++ [v])) /\ fields_within m c ctx tl None (acc ++ [v])
      end
  end
with variants_within (m : target) (e : eattrs) (ctx : list value) (id : value) (vs : variants) {struct vs} : Prop :=
  match vs with
  | VNil => True
  | VCons v fs tl =>
      (matches (v_sel v) id || v_default v = true ->
       fields_within m (en_c e) ctx fs (if stores_id e v then Some id else None) []) /\
      variants_within m e ctx id tl
  end.

(** ** Values whose paddings fit, when they are written *)
Fixpoint pads_fit (m : target) (t : ty) (args : list value) (v : value) {struct t} : Prop :=
  match t, v with
  | TOption t, VSome x => pads_fit m t args x
  | TPair a b, VPair x y => pads_fit m a args x /\ pads_fit m b args y
  | TArray _ t, VList l | TVec _ _ t, VList l => forall x, In x l -> pads_fit m t args x
  | TStruct c fs, VRec l => fields_pads_fit m c (ctx_args c args) fs None l l []
  | TEnum e idt vs, VVar k l => (forall args x, pads_fit m idt args x) /\ variant_pads_fit m e (ctx_args (en_c e) args) vs k l
  | _, _ => True
  end
with fields_pads_fit (m : target) (c : cattrs) (ctx : list value) (fs : fields) (id : option (list value)) (stored todo acc : list value) {struct fs} : Prop :=
  match fs with
  | FNil => True
  | FCons a t _ tl =>
      let v := field_value a stored todo ctx acc in
      match id with
      | Some args => pads_fit m t args v
      | None => pad_within m (eval0 (a_pad_before a) ctx acc) /\ (forall off, pads_fit m t (field_args c a ctx acc off) v) /\
          pad_within m (eval0 (a_pad_after a) ctx (acc ++ [v]))
      end /\ fields_pads_fit m c ctx tl None stored (field_rest a todo) (acc ++ [v])
  end
with variant_pads_fit (m : target) (e : eattrs) (ctx : list value) (vs : variants) (k : nat) (l : list value) {struct vs} : Prop :=
  match vs, k with
  | VNil, _ => True
  | VCons v fs _, O => fields_pads_fit m (en_c e) ctx fs (match v_sel v with SPat _ _ => Some (stored_id_args e ctx) | _ => None end) l l []
  | VCons _ _ tl, S k' => variant_pads_fit m e ctx tl k' l
  end.
