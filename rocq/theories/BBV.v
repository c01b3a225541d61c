(** Array-level model of [BoundedBitVec], src/lib.rs:837-1024, the buffer of the
    leftover bits of readers and writers and of the integer conversions.  No proofs
    here.

    [Reader.v], [Writer.v] and [Prims.v] represent such a buffer by the list of its
    bits; here it is what it is in Rust: an array of fixed size and a length, whose
    bits beyond the length are whatever earlier operations left there. *)
From Verif Require Import Base.

(** src/lib.rs:837-847: the [BitArray<A, Msb0>], of [length v_arr] bits, and [size]. *)
Record bbv : Type := mkBBV { v_arr : list bool; v_size : nat }.

(** 929-934 [new]; [cap] is the number of bits of the array. *)
Definition v_new (cap : nat) : bbv := mkBBV (repeat false cap) 0.
(** 936-939 [as_bitslice] (also [as_mut_bitslice], 941-944); the assertion holds of
    every buffer ([bbv_ok] in [BBVSpec.v]). *)
Definition v_slice (v : bbv) : res (list bool) :=
  if v_size v <=? length (v_arr v) then Ok (firstn (v_size v) (v_arr v)) else Panic.
(** 946-948 [as_raw_slice]: all bytes of the array, used or not. *)
Definition v_raw (v : bbv) : list byte := bytes_of_bits (v_arr v).
(** 950-952 [capacity], 975-977 [len], 967-969 [is_empty], 971-973 [is_full]. *)
Definition v_capacity (v : bbv) : nat := length (v_arr v).
Definition v_len (v : bbv) : nat := v_size v.
Definition v_empty (v : bbv) : bool := v_size v =? 0.
Definition v_full (v : bbv) : bool := v_size v =? length (v_arr v).
(** 954-956 [clear]: the array keeps its contents. *)
Definition v_clear (v : bbv) : bbv := mkBBV (v_arr v) 0.
(** Overwrite the bits of [arr] from [i] on ([copy_from_bitslice]). *)
Definition arr_copy (arr : list bool) (i : nat) (l : list bool) : list bool :=
  firstn i arr ++ l ++ skipn (i + length l) arr.
(** 958-965 [extend_from_bitslice]. *)
Definition v_extend (v : bbv) (l : list bool) : res bbv :=
  if v_size v + length l <=? length (v_arr v)
  then Ok (mkBBV (arr_copy (v_arr v) (v_size v) l) (v_size v + length l)) else Panic.
(** 979-986 [insert]: [shift_end(1)] drops the last bit of the array. *)
Definition v_insert (v : bbv) (i : nat) (b : bool) : res bbv :=
  if (v_size v <? length (v_arr v)) && (i <? v_size v)
  then Ok (mkBBV (firstn i (v_arr v) ++ b :: removelast (skipn i (v_arr v))) (S (v_size v))) else Panic.
(** 988-992 [push]. *)
Definition v_push (v : bbv) (b : bool) : res bbv :=
  if v_size v <? length (v_arr v)
  then Ok (mkBBV (arr_copy (v_arr v) (v_size v) [b]) (S (v_size v))) else Panic.
(** 863-874 [From<&BitSlice>], 876-893 [From<&mut BitSlice>], 895-906 [From<BitVec>];
    [cap] is the size of the array of the result. *)
Definition v_from (cap : nat) (l : list bool) : res bbv := v_extend (v_new cap) l.
(** 908-921 [From<&[bool]>]: one [push] per bit. *)
Fixpoint v_pushes (v : bbv) (l : list bool) : res bbv :=
  match l with
  | [] => Ok v
  | b :: tl => match v_push v b with Ok v' => v_pushes v' tl | x => x end
  end.
(** 849-861 [From<BitArray>]: a full buffer. *)
Definition v_of_array (l : list bool) : bbv := mkBBV l (length l).
(** 994-1000 [split_off]: the rest of [self], whose array keeps the bits split off, and
    the new buffer. *)
Definition v_split_off (v : bbv) (i : nat) : res (bbv * bbv) :=
  if i <? v_size v then
    match v_from (length (v_arr v)) (skipn i (firstn (v_size v) (v_arr v))) with
    | Ok r => Ok (mkBBV (v_arr v) i, r)
    | Err e => Err e | Panic => Panic | Diverge => Diverge
    end
  else Panic.
(** 1011-1017 [from_msb0_byte] and 1019-1023 [as_msb0_byte], for an array of one
    byte. *)
Definition v_of_msb0_byte (b : byte) (size : nat) : res bbv :=
  if size <=? 8 then Ok (mkBBV (byte_bits b) size) else Panic.
Definition v_msb0_byte (v : bbv) : N * nat := (bits2N (firstn 8 (v_arr v)), v_size v).

(** ** Histories *)

(** What the crate does with a buffer. *)
Inductive bop : Type :=
| BExtend (l : list bool) | BInsert (i : nat) (b : bool) | BPush (b : bool)
| BSplitLeft (i : nat) | BSplitRight (i : nat)           (* go on with [self] / with the result *)
| BClear | BByte (b : byte) (size : nat).                (* replace by [from_msb0_byte]; one-byte arrays only *)
Definition v_step (v : bbv) (o : bop) : res bbv :=
  match o with
  | BExtend l => v_extend v l
  | BInsert i b => v_insert v i b
  | BPush b => v_push v b
  | BSplitLeft i => match v_split_off v i with Ok (l, _) => Ok l | Err e => Err e | Panic => Panic | Diverge => Diverge end
  | BSplitRight i => match v_split_off v i with Ok (_, r) => Ok r | Err e => Err e | Panic => Panic | Diverge => Diverge end
  | BClear => Ok (v_clear v)
  | BByte b size => if length (v_arr v) =? 8 then v_of_msb0_byte b size else Panic
  end.
Fixpoint v_run (v : bbv) (ops : list bop) : res bbv :=
  match ops with
  | [] => Ok v
  | o :: tl => match v_step v o with Ok v' => v_run v' tl | x => x end
  end.
