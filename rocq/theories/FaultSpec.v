(** Reading from sources that fail; vocabulary of the theorems, no proofs here. *)
From Verif Require Import Base Stream Reader Prims ContainerSpec Derive DeriveSpec SafeSpec.

(** Padding of less than a byte is read, not seeked over. *)
Definition below_a_byte (p : option Z) : Prop := match p with Some z => (z < 8)%Z | None => True end.
(** Hand-written code that reads and stops at the first error, [good v] for every value [v]
    it returns: bits, bytes and integers, skips within a byte; it may look at what is
    buffered and at [bits_read], but does not seek or call [end()]. *)
Inductive enduring : forall A : Type, (A -> Prop) -> RM A -> Prop :=
| en_ret A (good : A -> Prop) a : good a -> enduring A good (ret a)
| en_fail A (good : A -> Prop) e : enduring A good (fail e)
| en_bind A B (mid : A -> Prop) (good : B -> Prop) m f : enduring A mid m -> (forall a, mid a -> enduring B good (f a)) -> enduring B good (bind m f)
| en_bits n o : enduring (list bool) (fun _ => True) (read_bits_into n o)
| en_bytes n size o : 0 < n <= size -> enduring (list byte) (fun bs => length bs = n) (read_bytes n size o)
| en_prim p c : 0 < prim_bytes p -> sized c -> enduring N (fun n => (n < 2 ^ N.of_nat (prim_width p))%N) (prim_read p c)
| en_skip n o : n < 8 -> enduring unit (fun _ => True) (skip_bits n o)
| en_see A (good : A -> Prop) (f : list bool -> nat -> RM A) : (forall l n, enduring A good (f l n)) -> enduring A good (fun r => f (r_rest r) (r_bits r) r)
| en_ext A (good : A -> Prop) (m1 m2 : RM A) : (forall r, m1 r = m2 r) -> enduring A good m1 -> enduring A good m2.
(** The hand-written readers are such code, and there is no padding of a byte or more within
    the elements of a vector. *)
Section Steady.
Variable cu : nat -> custom.
Fixpoint steady (in_vec : bool) (t : ty) : Prop :=
  match t with
  | TOption t | TArray _ t => steady in_vec t
  | TVec _ _ t => steady true t
  | TPair a b => steady in_vec a /\ steady in_vec b
  | TStruct _ fs => steady_fields in_vec fs
  | TEnum _ idt vs => steady in_vec idt /\ steady_variants in_vec vs
  | TCustom k => forall args, enduring value (fun _ => True) (cu_read (cu k) args)
  | TPrim _ | TBool | TNonZero _ | TUnit | TCString => True
  end
with steady_fields (in_vec : bool) (fs : fields) : Prop :=
  match fs with
  | FNil => True
  | FCons a _ wire tl =>
      (forall f, a_reader a = Some f -> forall ctx fs off, enduring value (typed wire) (f ctx fs off)) /\
      (in_vec = true -> forall ctx fs, below_a_byte (eval0 (a_pad_before a) ctx fs) /\ below_a_byte (eval0 (a_pad_after a) ctx fs)) /\
      steady in_vec wire /\ steady_fields in_vec tl
  end
with steady_variants (in_vec : bool) (vs : variants) : Prop :=
  match vs with
  | VNil => True
  | VCons _ fs tl => steady_fields in_vec fs /\ steady_variants in_vec tl
  end.
End Steady.
(** From the [n]-th call on, no call fails. *)
Definition calm (n : nat) (s : stream) : Prop := forall j, n <= j -> s_fault s j = None.
