(** Structs of bit fields as arithmetic on one number; vocabulary of C69.  No proofs here. *)
From Verif Require Import Base Spec Stream Reader Writer Prims CodecSpec Containers Derive AttrSpec.

(** The bytes as one number, the first byte being the least or the most significant. *)
Fixpoint number_le (bs : list byte) : N :=
  match bs with [] => 0 | b :: tl => Byte.to_N b + 256 * number_le tl end%N.
Definition number_be (bs : list byte) : N := fold_left (fun x b => (256 * x + Byte.to_N b)%N) bs 0%N.

(** A field: its integer type, and [bits] if it is given. *)
Record bfield : Type := mkB { b_type : prim; b_bits : option nat }.
Definition b_size (f : bfield) : nat := match b_bits f with Some n => n | None => prim_width (b_type f) end.
Definition b_total (fs : list bfield) : nat := list_sum (map b_size fs).
Definition b_isize (f : bfield) : isize := match b_bits f with Some n => InBits n | None => Whole end.
Fixpoint b_fields (fs : list bfield) : fields :=
  match fs with [] => FNil | f :: tl => FCons (i_attrs (mkI (b_type f) None None (b_isize f) 0)) (TPrim (b_type f)) (TPrim (b_type f)) (b_fields tl) end.

(** #[deku(bit_order = "lsb")], with or without endian = "little". *)
Definition LowFirst (e : option endian) (fs : list bfield) : ty := TStruct (i_container e (Some Lsb0)) (b_fields fs).
(** #[deku(endian = "big")], with or without bit_order = "msb". *)
Definition HighFirst (o : option order) (fs : list bfield) : ty := TStruct (i_container (Some Big) o) (b_fields fs).

(** 1 bit to the size of the type; [bits] on unsigned types only. *)
Definition b_ok (f : bfield) : Prop :=
  1 <= b_size f <= prim_width (b_type f) /\ (b_bits f = None \/ is_unsigned (b_type f)).
(** Fields without [bits] begin at a byte boundary. *)
Fixpoint whole_aligned (off : nat) (fs : list bfield) : Prop :=
  match fs with [] => True | f :: tl => (b_bits f = None -> off mod 8 = 0) /\ whole_aligned (off + b_size f) tl end.

(** Where the lowest bit of a field of [n] bits is that begins after [off] bits: counted
    from the least significant bit up, or from bit [w] down. *)
Definition up (off n : nat) : nat := off.
Definition down (w off n : nat) : nat := w - off - n.
(** The fields cut out of the number [x], and the number with the given fields. *)
Fixpoint cut (place : nat -> nat -> nat) (off : nat) (fs : list bfield) (x : N) : list value :=
  match fs with
  | [] => []
  | f :: tl => VNum ((x / 2 ^ N.of_nat (place off (b_size f))) mod 2 ^ N.of_nat (b_size f)) :: cut place (off + b_size f) tl x
  end.
Fixpoint join (place : nat -> nat -> nat) (off : nat) (fs : list bfield) (vs : list N) : N :=
  match fs, vs with
  | f :: tl, v :: vs' => v * 2 ^ N.of_nat (place off (b_size f)) + join place (off + b_size f) tl vs'
  | _, _ => 0
  end%N.

(** The values are of the types, and fit the bits. *)
Definition of_types (fs : list bfield) (vs : list N) : Prop := Forall2 (fun f v => (v < 2 ^ N.of_nat (prim_width (b_type f)))%N) fs vs.
Definition all_in_bits (fs : list bfield) (vs : list N) : Prop := Forall2 (fun f v => (v < 2 ^ N.of_nat (b_size f))%N) fs vs.
