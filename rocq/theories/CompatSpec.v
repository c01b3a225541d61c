(** Two versions of a declaration: the new one has more enum variants.  Vocabulary of the
    theorems, no proofs here. *)
From Verif Require Import Base Spec Stream Reader Prims Containers Derive.

(** The size in memory of the elements of a vector: the same or, with [grown], perhaps more
    (an enum with more variants may need more room), but not some for none. *)
Definition same_room (grown : bool) (size size' : N) : Prop :=
  if grown then (size <= size' /\ (size = 0 -> size' = 0))%N else size = size'.

(** [t'] is [t] with variants added at the end of some enums, at any depth.  An enum with a
    [default] variant gets none. *)
Section Extends.
Variable grown : bool.
Fixpoint extends (t t' : ty) {struct t} : Prop :=
  match t, t' with
  | TPrim p, TPrim p' | TNonZero p, TNonZero p' => p = p'
  | TBool, TBool | TUnit, TUnit | TCString, TCString => True
  | TCustom k, TCustom k' => k = k'
  | TOption a, TOption a' => extends a a'
  | TPair a b, TPair a' b' => extends a a' /\ extends b b'
  | TArray n a, TArray n' a' => n = n' /\ extends a a'
  | TVec k size a, TVec k' size' a' => k = k' /\ same_room grown size size' /\ extends a a'
  | TStruct c fs, TStruct c' fs' => c = c' /\ fields_extend fs fs'
  | TEnum e idt vs, TEnum e' idt' vs' => e = e' /\ idt = idt' /\ variants_extend false vs vs'
  | _, _ => False
  end
with fields_extend (fs fs' : fields) {struct fs} : Prop :=
  match fs, fs' with
  | FNil, FNil => True
  | FCons a t wire tl, FCons a' t' wire' tl' => a = a' /\ extends t t' /\ extends wire wire' /\ fields_extend tl tl'
  | _, _ => False
  end
with variants_extend (default : bool) (vs vs' : variants) {struct vs} : Prop :=
  match vs, vs' with
  | VNil, more => if default then more = VNil else True
  | VCons v fs tl, VCons v' fs' tl' => v = v' /\ fields_extend fs fs' /\ variants_extend (default || v_default v) tl tl'
  | _, _ => False
  end.
End Extends.
