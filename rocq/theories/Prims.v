(** Model of src/impls/primitive.rs: integers and floats.  No proofs here.

    A value is represented by its bit pattern, an [N] below [2 ^ (8 * wb)] where
    [wb] is [size_of] the type.  Floats are read and written through
    [to_*_bytes]/[from_*_bytes] only (instantiations 1352-1355), so a float is its
    bit pattern and [PU 4], [PU 8] also stand for f32 and f64.  The target is
    little-endian: [Endian::default()] is [Little] (src/ctx.rs:63-70). *)
From Verif Require Import Base Stream Reader Writer.

(** src/impls/primitive.rs:1333-1355: [u8] has its own impls, the other unsigned
    types and floats share one macro, the signed types another. *)
Inductive prim : Type := PU8 | PU (wb : nat) | PI (wb : nat).
Definition prim_bytes (p : prim) : nat := match p with PU8 => 1 | PU wb => wb | PI wb => wb end.
Definition prim_width (p : prim) : nat := 8 * prim_bytes p.

(** [to_be_bytes], [to_le_bytes], [from_be_bytes], [from_le_bytes]. *)
Definition be_bytes (wb : nat) (v : N) : list byte := bytes_of_bits (N2bits (8 * wb) v).
Definition le_bytes (wb : nat) (v : N) : list byte := rev (be_bytes wb v).
Definition from_be (bs : list byte) : N := bits2N (bits_of_bytes bs).
Definition from_le (bs : list byte) : N := from_be (rev bs).
Definition to_bytes_e (e : endian) (wb : nat) (v : N) : list byte :=
  match e with Little => le_bytes wb v | Big => be_bytes wb v end.
Definition from_e (e : endian) (bs : list byte) : N :=
  match e with Little => from_le bs | Big => from_be bs end.

(** The contexts for which the impls exist (there is none for
    [(ByteSize, Order)]). *)
Inductive pctx : Type :=
| C0 | CE (e : endian) | CB (n : nat) | CY (n : nat) | CO (o : order)
| CEB (e : endian) (n : nat) | CEY (e : endian) (n : nat) | CEO (e : endian) (o : order)
| CBO (n : nat) (o : order)
| CEBO (e : endian) (n : nat) (o : order) | CEYO (e : endian) (n : nat) (o : order).

(** ** Converting a bit slice to a value *)

(** src/lib.rs:979-986 [BoundedBitVec::insert], [k] times at the same index, with
    capacity [cap]. *)
Fixpoint bbv_inserts (cap k i : nat) (l : list bool) : res (list bool) :=
  match k with
  | O => Ok l
  | S k' =>
      if (length l <? cap) && (i <? length l)
      then bbv_inserts cap k' i (firstn i l ++ false :: skipn i l)
      else Panic
  end.
(** src/lib.rs:988-992 [BoundedBitVec::push] of [false], [k] times. *)
Definition bbv_pushes (cap k : nat) (l : list bool) : res (list bool) :=
  if length l + k <=? cap then Ok (l ++ repeat false k) else Panic.

Definition res_bind {A B} (x : res A) (f : A -> res B) : res B :=
  match x with Ok a => f a | Err e => Err e | Panic => Panic | Diverge => Diverge end.

(** src/impls/primitive.rs:168-298, [DekuRead<(Endian, BitSize, Order)>] on a slice
    of [n] bits starting at bit 0 of a byte array; also 301-381,
    [DekuRead<(Endian, BitSize)>], which is the [Msb0] instance without the debug
    assertions (they hold for [n <= 8 * wb], the only case in which it is called). *)
Definition u_of_bits (wb : nat) (e : endian) (n : nat) (o : order) (bits : list bool) : res N :=
  let len := length bits in
  let pad := 8 * ceil8 len - len in
  if 8 * wb <? len + pad then Panic else
  if (pad =? 0) && (len =? 8 * wb) && negb (order_eqb o Lsb0) then
    Ok (from_e e (bytes_of_bits bits))
  else
  match e, o with
  | Big, Msb0 =>
      if 0 <? n then Ok (bits2N bits)
      else
        (* index 0; insert(0, false) up to the size of the type *)
        res_bind (bbv_inserts (8 * wb) pad 0 bits) (fun b1 =>
        res_bind (bbv_inserts (8 * wb) (8 * wb - length b1) 0 b1) (fun b2 =>
        Ok (from_be (bytes_of_bits b2))))
  | _, Lsb0 =>
      if negb (n =? len) then Panic else
      res_bind (bbv_inserts (8 * wb) pad 0 bits) (fun b1 =>
      let chunks := map byte_of_bits (rchunks8 b1) in
      let skip := match e with Little => 0 | Big => wb - ceil8 len end in
      let taken := firstn (wb - skip) chunks in
      let buf := repeat x00 skip ++ taken ++ repeat x00 (wb - skip - length taken) in
      Ok (from_e e buf))
  | Little, Msb0 =>
      if len <? 8 - pad then Panic else            (* bits.len() - (8 - pad) *)
      res_bind (bbv_inserts (8 * wb) pad (len - (8 - pad)) bits) (fun b1 =>
      res_bind (bbv_pushes (8 * wb) (8 * wb - length b1) b1) (fun b2 =>
      Ok (from_le (bytes_of_bits b2))))
  end.

(** ** Reads *)

(** [v as $inner]; [v << shift >> shift] on the signed type of width [w]; shifting
    by the whole width panics in a debug build. *)
Definition sign_extend (w n : nat) (v : N) : res N :=
  let shift := w - n in
  if w <=? shift then Panic
  else
    let x := wrap (N.of_nat w) (N.shiftl v (N.of_nat shift)) in
    let y := N.shiftr x (N.of_nat shift) in
    (* arithmetic shift: copy the sign bit *)
    Ok (if N.testbit x (N.of_nat w - 1)
        then (y + (2 ^ N.of_nat w - 2 ^ N.of_nat (w - shift)))%N else y).

Definition lift {S A} (x : res A) : ST S A := fun s => (x, s).

(** src/impls/primitive.rs:384-413 and 416-444: [(Endian, BitSize)] (with [Msb0])
    and [(Endian, BitSize, Order)], unsigned. *)
Definition read_u_bits (wb : nat) (e : endian) (n : nat) (o : order) : RM N :=
  if 8 * wb <? n then fail Parse
  else
    let slow :=
      let* bits := read_bits_into n o in
      lift (u_of_bits wb e n o bits) in
    match e, o with
    | Big, Msb0 =>
        if (0 <? n) && (n <=? 64) then
          let* v := read_bits_uint_msb0 n in ret (wrap (N.of_nat (8 * wb)) v)
        else slow
    | _, _ => slow
    end.

(** src/impls/primitive.rs:610-634: [(Endian, BitSize, Order)], signed; 599-607
    forwards [(Endian, BitSize)] to it with [Msb0]; the conversion is 543-560. *)
Definition read_i_bits (wb : nat) (e : endian) (n : nat) (o : order) : RM N :=
  if 8 * wb <? n then fail Parse
  else
    let* bits := read_bits_into n o in
    lift (res_bind (u_of_bits wb e n o bits) (fun v => sign_extend (8 * wb) n v)).

(** src/impls/primitive.rs:478-521 (unsigned) and 636-679 (signed):
    [(Endian, ByteSize, Order)].  [read_bytes] always returns [ReaderRet::Bytes]
    (src/reader.rs:475-524), so the [Bits] arms are dead code and the signed
    version zero-extends. *)
Definition read_bytes_sized (wb : nat) (e : endian) (n : nat) (o : order) : RM N :=
  if wb <? n then fail Parse
  else
    let* bs := read_bytes n wb o in
    ret (match e with
         | Little => from_le (bs ++ repeat x00 (wb - n))
         | Big => from_be (repeat x00 (wb - n) ++ bs)
         end).

(** src/impls/primitive.rs:49-61: [u8], [(Endian, ByteSize, Order)]. *)
Definition read_u8_bytes (o : order) : RM N :=
  let* bs := read_bytes_const 1 o in ret (from_be bs).

Definition read_eyo (p : prim) (e : endian) (n : nat) (o : order) : RM N :=
  match p with PU8 => read_u8_bytes o | PU wb | PI wb => read_bytes_sized wb e n o end.
Definition read_ebo (p : prim) (e : endian) (n : nat) (o : order) : RM N :=
  match p with PU8 => read_u_bits 1 e n o | PU wb => read_u_bits wb e n o | PI wb => read_i_bits wb e n o end.

(** src/impls/primitive.rs:708-723: [Endian] alone. *)
Definition read_e (p : prim) (e : endian) : RM N :=
  let* bs := read_bytes_const (prim_bytes p) Msb0 in ret (from_e e bs).

(** src/impls/primitive.rs:683-794 [ForwardDekuRead] and the impls above. *)
Definition prim_read (p : prim) (c : pctx) : RM N :=
  match c with
  | C0 => read_e p Little
  | CE e => read_e p e
  | CB n => if n mod 8 =? 0 then read_eyo p Little (n / 8) Msb0 else read_ebo p Little n Msb0
  | CY n => read_eyo p Little n Msb0
  | CO o => read_eyo p Little (prim_bytes p) o
  | CEB e n => read_ebo p e n Msb0
  | CEY e n => read_eyo p e n Msb0
  | CEO e o => read_eyo p e (prim_bytes p) o
  | CBO n o => if n mod 8 =? 0 then read_eyo p Little (n / 8) o else read_ebo p Little n o
  | CEBO e n o => read_ebo p e n o
  | CEYO e n o => read_eyo p e n o
  end.

(** ** Writes *)

(** [first_one], [first_zero] of a bit slice. *)
Fixpoint first_bit (b : bool) (l : list bool) : option nat :=
  match l with
  | [] => None
  | x :: tl => if Bool.eqb x b then Some 0 else option_map S (first_bit b tl)
  end.
(** [last_one], [last_zero] of the [Lsb0] view of little-endian bytes: the index is
    the position of the bit in the value. *)
Definition last_bit (b : bool) (w : nat) (v : N) : option nat :=
  option_map (fun i => w - 1 - i) (first_bit b (N2bits w v)).

(** src/impls/primitive.rs:843-854, 878-889, 1054-1062, 1152-1160:
    [for chunk in input_bits.chunks(8)]; writes the low bits of the last chunk and
    stops there. *)
Fixpoint write_chunks (chunks : list byte) (remaining : nat) (o : order) : WM unit :=
  match chunks with
  | [] => ret tt
  | c :: tl =>
      if remaining <? 8
      then write_bits_order (skipn (8 - remaining) (byte_bits c)) o
      else let* _ := write_bits_order (byte_bits c) o in write_chunks tl (remaining - 8) o
  end.

(** The unsigned range checks: 828-841, 1037-1050 (little), 859-870, 928-939, 1067-1078 (big). *)
Definition too_big_le (w n : nat) (v : N) : bool :=
  match last_bit true w v with Some last => n <? last + 1 | None => false end.
Definition too_big_be (w n : nat) (v : N) : bool :=
  match first_bit true (N2bits w v) with Some first => first <? w - n | None => false end.

(** src/impls/primitive.rs:903-908: the number of significant bits of big-endian
    bytes: the first non-zero byte and its [leading_zeros]. *)
Definition leading_zeros (b : byte) : nat :=
  match first_bit true (byte_bits b) with Some i => i | None => 8 end.
Fixpoint significant (input : list byte) : nat :=
  match input with
  | [] => 0
  | b :: tl => if Byte.eqb b x00 then significant tl else length input * 8 - leading_zeros b
  end.

(** src/impls/primitive.rs:800-951 (fast path 902-926): [(Endian, BitSize, Order)], every type but [u8]. *)
Definition write_ebo_generic (wb : nat) (e : endian) (n : nat) (o : order) (v : N) : WM unit :=
  let w := 8 * wb in
  let input := to_bytes_e e wb v in
  let input_bits := bits_of_bytes input in
  if w <? n then fail InvalidParam
  else
    match e, o with
    | Little, _ =>
        if too_big_le w n v then fail InvalidParam
        else write_chunks input n o
    | Big, Lsb0 =>
        if too_big_be w n v then fail InvalidParam
        else if n <=? 8 then write_bits_order (skipn (w - n) input_bits) o
        else write_chunks input n o
    | Big, Msb0 =>
        fun wr =>
          if (n <=? 64) && order_eqb (w_ord wr) Msb0 then
            if n <? significant input then (Err InvalidParam, wr)
            (* the low eight bytes, 919-924 *)
            else write_bits_uint_msb0 (from_be (skipn (length input - 8) input)) n wr
          else if too_big_be w n v then (Err InvalidParam, wr)
          else write_bits_order (skipn (w - n) input_bits) Msb0 wr
    end.

(** src/impls/primitive.rs:78-134: [u8], [(Endian, BitSize, Order)]. *)
Definition write_u8_bits (n : nat) (o : order) (v : N) : WM unit :=
  fun wr =>
    if order_eqb o Msb0 && order_eqb (w_ord wr) Msb0 && (n <=? 8) then
      if (n <? 8) && negb (N.shiftr v (N.of_nat n) =? 0)%N then (Err InvalidParam, wr)
      else write_bits_uint_msb0 v n wr
    else if 8 <? n then (Err InvalidParam, wr)
    else if too_big_be 8 n v then (Err InvalidParam, wr)
    else write_bits_order (skipn (8 - n) (N2bits 8 v)) o wr.

(** src/impls/primitive.rs:1008-1085: [(Endian, BitSize)], unsigned. *)
Definition write_u_eb (wb : nat) (e : endian) (n : nat) (v : N) : WM unit :=
  let w := 8 * wb in
  if w <? n then fail InvalidParam
  else
    match e with
    | Little => if too_big_le w n v then fail InvalidParam else write_chunks (le_bytes wb v) n Msb0
    | Big => if too_big_be w n v then fail InvalidParam else write_bits (skipn (w - n) (N2bits w v))
    end.

(** src/impls/primitive.rs:1089-1198: [(Endian, BitSize)], signed. *)
Definition write_i_eb (wb : nat) (e : endian) (n : nat) (v : N) : WM unit :=
  let w := 8 * wb in
  let negative := N.testbit v (N.of_nat w - 1) in
  if w <? n then fail InvalidParam
  else
    match e with
    | Little =>
        if match last_bit (negb negative) w v with Some last => n <? last + 2 | None => false end
        then fail InvalidParam
        else write_chunks (le_bytes wb v) n Msb0
    | Big =>
        if match first_bit (negb negative) (N2bits w v) with Some first => first <? w - n + 1 | None => false end
        then fail InvalidParam
        else write_bits (skipn (w - n) (N2bits w v))
    end.

(** src/impls/primitive.rs:957-1001 (order ignored) and 137-163 ([u8], size ignored). *)
Definition write_bytes_sized (wb : nat) (e : endian) (n : nat) (v : N) : WM unit :=
  if wb <? n then fail InvalidParam
  else write_bytes (match e with
                    | Big => skipn (wb - n) (be_bytes wb v)
                    | Little => firstn n (le_bytes wb v)
                    end).
Definition write_eyo (p : prim) (e : endian) (n : nat) (v : N) : WM unit :=
  match p with PU8 => write_bytes (be_bytes 1 v) | PU wb | PI wb => write_bytes_sized wb e n v end.

Definition write_ebo (p : prim) (e : endian) (n : nat) (o : order) (v : N) : WM unit :=
  match p with PU8 => write_u8_bits n o v | PU wb | PI wb => write_ebo_generic wb e n o v end.
Definition write_eb (p : prim) (e : endian) (n : nat) (v : N) : WM unit :=
  match p with
  | PU8 => write_u8_bits n Msb0 v                   (* 64-75 *)
  | PU wb => write_u_eb wb e n v
  | PI wb => write_i_eb wb e n v
  end.
(** src/impls/primitive.rs:1204-1218: [Endian] alone. *)
Definition write_e (p : prim) (e : endian) (v : N) : WM unit := write_bytes (to_bytes_e e (prim_bytes p) v).

(** src/impls/primitive.rs:1222-1292 [ForwardDekuWrite] and the impls above. *)
Definition prim_write (p : prim) (c : pctx) (v : N) : WM unit :=
  match c with
  | C0 => write_e p Little v
  | CE e => write_e p e v
  | CB n => write_eb p Little n v
  | CY n => write_eyo p Little n v
  | CO _ => write_eyo p Little (prim_bytes p) v
  | CEB e n => write_eb p e n v
  | CEY e n => write_eyo p e n v
  | CEO e _ => write_eyo p e (prim_bytes p) v
  | CBO n o => write_ebo p Little n o v
  | CEBO e n o => write_ebo p e n o v
  | CEYO e n _ => write_eyo p e n v
  end.
