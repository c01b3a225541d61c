(** Vocabulary for [DekuSize] on reading: the types that take as much from their source as
    the derive computes.  No proofs here. *)
From Verif Require Import Base Reader Prims Containers Derive SizeSpec.

(** A [u8] or [bool] has 1 to 8 bits. *)
Definition size_on_read (t : ty) (bits bytes : option nat) : Prop :=
  size_on t bits bytes /\ match t with TPrim PU8 | TBool => forall n, bits = Some n -> 1 <= n <= 8 | _ => True end.
(** Hand-written code that takes [n] bits ([exact]) or at most [n], step by step; it does not
    make up an [Incomplete] of its own. *)
Inductive asks (exact : bool) : forall A : Type, nat -> RM A -> Prop :=
| as_end A (x : res A) : (forall k, x <> Err (Incomplete k)) -> asks exact A 0 (lift x)
| as_fail A n e : (forall k, e <> Incomplete k) -> asks exact A n (fail e)
| as_bind A B a b m f : asks exact A a m -> (forall x, asks exact B b (f x)) -> asks exact B (a + b) (bind m f)
| as_bits n o : asks exact (list bool) n (read_bits_into n o)
| as_bytes n size o : n <= size -> asks exact (list byte) (8 * n) (read_bytes n size o)
| as_num p c : c = C0 \/ (exists e, c = CE e) -> asks exact N (prim_width p) (prim_read p c)
| as_part p e n : asks exact N n (prim_read p (CEB e n))
| as_skip n o : asks exact unit n (skip_bits n o)
| as_less A n k m : exact = false -> n <= k -> asks exact A n m -> asks exact A k m
| as_see A n (f : nat -> RM A) : (forall k, asks exact A n (f k)) -> asks exact A n (fun r => f (r_bits r) r)
| as_ext A n (m1 m2 : RM A) : (forall r, m1 r = m2 r) -> asks exact A n m1 -> asks exact A n m2.
(** A field has no [temp] and no limit, constant pads and sizes, and sizes on
    integers only; a [reader] takes the bits of the field; a [map] does not ask for more input, and starts from a type of the same
    size.  [exact]: the field is always read. *)
Record sized_field (exact : bool) (a : fattrs) (t wire : ty) : Prop := {
  sf_temp : a_temp a = false;
  sf_reader : forall f, a_reader a = Some f -> forall n, field_bits a t = Some n -> forall ctx fs off, asks exact value n (f ctx fs off);
  sf_limit : a_limit a = None;
  sf_read : exact = true -> match a_skip a, a_cond a with Some SkipWrite, _ | None, None => True | _, _ => False end;
  sf_map : forall f ctx fs off v n, a_map a = Some f -> f ctx fs off v <> Err (Incomplete n);
  sf_before : constant_pad (a_pad_before a);
  sf_after : constant_pad (a_pad_after a);
  sf_bits : constant_size (a_bits a);
  sf_bytes : constant_size (a_bytes a);
  sf_size : size_on_read wire (const_size (a_bits a)) (const_size (a_bytes a));
  sf_wire : a_bits a = None -> a_bytes a = None -> size_bits wire = size_bits t;
  sf_ctx : passes_args wire = true -> forall ctx fs off, no_sizes (a_ctx a ctx fs off)
}.
Definition sized_id (e : eattrs) (idt : ty) : Prop :=
  en_id e = None -> constant_size (en_bits e) /\ constant_size (en_bytes e) /\ size_on_read idt (const_size (en_bits e)) (const_size (en_bytes e)).
(** The first field of an [id_pat] variant, which is the id, has no [reader]. *)
Definition keeps_id (v : vattrs) (fs : fields) : Prop :=
  match v_sel v, fs with SPat _ _, FCons a _ _ _ => a_reader a = None | _, _ => True end.
Section Sized.
Variable exact : bool.
(** [exact]: no enums inside. *)
Fixpoint sized (t : ty) : Prop :=
  match t with
  | TPair a b => sized a /\ sized b
  | TArray _ t => sized t
  | TStruct _ fs => sized_fields fs
  | TEnum e idt vs => exact = false /\ sized_id e idt /\ sized idt /\ sized_variants vs
  | _ => True
  end
with sized_fields (fs : fields) : Prop :=
  match fs with
  | FNil => True
  | FCons a t wire tl => sized_field exact a t wire /\ sized wire /\ sized_fields tl
  end
with sized_variants (vs : variants) : Prop :=
  match vs with
  | VNil => True
  | VCons v fs tl => keeps_id v fs /\ sized_fields fs /\ sized_variants tl
  end.
End Sized.
