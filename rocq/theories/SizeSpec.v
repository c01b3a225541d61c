(** Vocabulary for [DekuSize]: the types whose size the derive computes from what is
    written.  No proofs here. *)
From Verif Require Import Base Writer Prims Containers Derive.

(** An argument that sets a size. *)
Definition sets_size (x : value) : bool := match x with VBits _ | VBytes _ => true | _ => false end.
Definition no_sizes (args : list value) : Prop := Forall (fun x => sets_size x = false) args.
(** Integers in [t] get the arguments of [t] itself. *)
Fixpoint passes_args (t : ty) : bool :=
  match t with
  | TPrim _ | TBool => true
  | TPair a b => passes_args a || passes_args b
  | TArray _ t => passes_args t
  | _ => false
  end.
(** [bits] and [bytes] stand on integers only; [u8] and [bool] always take one byte. *)
Definition size_on (t : ty) (bits bytes : option nat) : Prop :=
  (bits = None /\ bytes = None) \/
  match t with
  | TPrim PU8 | TBool => bytes = None \/ bytes = Some 1
  | TPrim _ => True
  | _ => False
  end.
Definition constant_pad (p : option (expr0 Z)) : Prop := forall f, p = Some f -> forall ctx fs, f ctx fs = f [] [].
Definition constant_size (p : option (expr0 nat)) : Prop := forall f, p = Some f -> forall ctx fs, f ctx fs = f [] [].

(** The value has the number of elements and fields the type says. *)
Fixpoint complete (t : ty) (v : value) : Prop :=
  match t, v with
  | TPair a b, VPair x y => complete a x /\ complete b y
  | TArray n t, VList l => length l = n /\ forall x, In x l -> complete t x
  | TStruct _ fs, VRec l => complete_fields fs l
  | TEnum _ _ vs, VVar k l => complete_variant vs k l
  | _, _ => True
  end
with complete_fields (fs : fields) (l : list value) : Prop :=
  match fs with
  | FNil => True
  | FCons _ t _ tl => complete t (hd VUnit l) /\ complete_fields tl (List.tl l)
  end
with complete_variant (vs : variants) (k : nat) (l : list value) : Prop :=
  match vs, k with
  | VNil, _ => True
  | VCons _ fs _, O => complete_fields fs l
  | VCons _ _ tl, S k' => complete_variant tl k' l
  end.

(** The bits that count as those of the field. *)
Definition field_bits (a : fattrs) (t : ty) : option nat :=
  match const_size (a_bits a), const_size (a_bytes a) with
  | Some n, _ => Some n
  | None, Some n => Some (n * 8)
  | None, None => size_bits t
  end.
(** Hand-written code that writes [n] bits ([exact]) or at most [n], step by step. *)
Inductive gives (exact : bool) : nat -> WM unit -> Prop :=
| gv_done : gives exact 0 (ret tt)
| gv_fail n e : gives exact n (fail e)
| gv_panic n : gives exact n panic
| gv_seq a b m1 m2 : gives exact a m1 -> gives exact b m2 -> gives exact (a + b) (let* _ := m1 in m2)
| gv_bits l o : gives exact (length l) (write_bits_order l o)
| gv_bytes bs : gives exact (8 * length bs) (write_bytes bs)
| gv_num p c v : c = C0 \/ (exists e, c = CE e) -> gives exact (prim_width p) (prim_write p c v)
| gv_part p e n v : gives exact n (prim_write p (CEB e n) v)
| gv_less n k m : exact = false -> n <= k -> gives exact n m -> gives exact k m
| gv_see n (f : nat -> WM unit) : (forall k, gives exact n (f k)) -> gives exact n (fun w => f (w_bits w) w)
| gv_ext n m1 m2 : (forall w, m1 w = m2 w) -> gives exact n m1 -> gives exact n m2.
(** Every field has no [temp], a [writer] only if that gives the bits of the field, constant pads and sizes, and sizes on integers only.
    [exact]: no [skip] on writing and no enums inside. *)
Record regular_field (exact : bool) (a : fattrs) (t : ty) : Prop := {
  rf_temp : a_temp a = false;
  rf_writer : forall f, a_writer a = Some f -> forall n, field_bits a t = Some n -> forall stored ctx fs off v, gives exact n (f stored ctx fs off v);
  rf_skip : exact = true -> a_skip a <> Some SkipAll /\ a_skip a <> Some SkipWrite;
  rf_before : constant_pad (a_pad_before a);
  rf_after : constant_pad (a_pad_after a);
  rf_bits : constant_size (a_bits a);
  rf_bytes : constant_size (a_bytes a);
  rf_size : size_on t (const_size (a_bits a)) (const_size (a_bytes a));
  rf_ctx : passes_args t = true -> forall ctx fs off, no_sizes (a_ctx a ctx fs off)
}.
(** A variant with a pattern stores the id in its first field, which has the type of
    the id; if the id comes from the context, the first field has no attributes that
    change its layout. *)
Definition regular_variant (exact : bool) (e : eattrs) (idt : ty) (v : vattrs) (fs : fields) : Prop :=
  match v_sel v, fs with
  | SId x, _ | SDisc x, _ => complete idt x
  | SPat _ d, FNil => forall x, d = Some x -> complete idt x
  | SPat _ _, FCons a t _ _ =>
      match en_id e with
      | None => t = idt
      | Some _ => a_bits a = None /\ a_bytes a = None /\
                  (exact = true -> a_magic a = [] /\ a_pad_before a = None /\ a_pad_after a = None)
      end
  end.
Definition regular_id (e : eattrs) (idt : ty) : Prop :=
  match en_id e with
  | Some _ => en_bits e = None /\ en_bytes e = None
  | None => constant_size (en_bits e) /\ constant_size (en_bytes e) /\ size_on idt (const_size (en_bits e)) (const_size (en_bytes e))
  end.
Section Regular.
Variable exact : bool.
Fixpoint regular (t : ty) : Prop :=
  match t with
  | TPair a b => regular a /\ regular b
  | TArray _ t => regular t
  | TStruct _ fs => regular_fields fs
  | TEnum e idt vs => exact = false /\ regular_id e idt /\ regular idt /\ regular_variants e idt vs
  | _ => True
  end
with regular_fields (fs : fields) : Prop :=
  match fs with
  | FNil => True
  | FCons a t _ tl => regular_field exact a t /\ regular t /\ regular_fields tl
  end
with regular_variants (e : eattrs) (idt : ty) (vs : variants) : Prop :=
  match vs with
  | VNil => True
  | VCons v fs tl => regular_variant exact e idt v fs /\ regular_fields fs /\ regular_variants e idt tl
  end.
End Regular.
(** The size of the id of an enum, and the rest of what a variant writes besides the
    magic. *)
Definition id_size (e : eattrs) (idt : ty) : option nat :=
  match en_id e, const_size (en_bits e), const_size (en_bytes e) with
  | Some _, _, _ => Some 0
  | None, Some n, _ => Some n
  | None, None, Some n => Some (8 * n)
  | None, None, None => size_bits idt
  end.
Definition variant_size (e : eattrs) (v : vattrs) (fs : fields) : option nat :=
  fields_size fs (stores_id e v && negb (no_fields fs)).
