(** Specification of a bounded bit buffer: a list of at most [cap] bits.  [None] is a
    panic.  No proofs here. *)
From Verif Require Import Base BBV.

Definition l_step (cap : nat) (l : list bool) (o : bop) : option (list bool) :=
  match o with
  | BExtend m => if length l + length m <=? cap then Some (l ++ m) else None
  | BInsert i b => if (length l <? cap) && (i <? length l) then Some (firstn i l ++ b :: skipn i l) else None
  | BPush b => if length l <? cap then Some (l ++ [b]) else None
  | BSplitLeft i => if i <? length l then Some (firstn i l) else None
  | BSplitRight i => if i <? length l then Some (skipn i l) else None
  | BClear => Some []
  | BByte b n => if (cap =? 8) && (n <=? 8) then Some (firstn n (byte_bits b)) else None
  end.
Fixpoint l_run (cap : nat) (l : list bool) (ops : list bop) : option (list bool) :=
  match ops with
  | [] => Some l
  | o :: tl => match l_step cap l o with Some l' => l_run cap l' tl | None => None end
  end.

(** Everything the crate asks of a buffer [v] is answered as for the list [l]: its
    bits, length and capacity, whether it is empty or full, the bytes of the array
    when it is full, and for one-byte arrays the raw byte shifted right. *)
Definition answers (cap : nat) (v : bbv) (l : list bool) : Prop :=
  v_slice v = Ok l /\ v_len v = length l /\ v_capacity v = cap /\
  v_empty v = (length l =? 0) /\ v_full v = (length l =? cap) /\
  (v_full v = true -> v_raw v = bytes_of_bits l) /\
  (cap = 8 -> N.shiftr (fst (v_msb0_byte v)) (N.of_nat (8 - snd (v_msb0_byte v))) = bits2N l).
