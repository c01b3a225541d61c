(** Model of an optimised build of deku (`cargo build --release`).  No proofs here.

    The other files model the debug build.  With the default profile an optimised build
    leaves out [debug_assert!], arithmetic on fixed-width integers wraps around and a shift
    amount is taken modulo the width.  The definitions below are those of Reader.v, Writer.v, Prims.v,
    Containers.v and Derive.v where this makes a difference.  [assert!], indexing and
    [with_capacity] still panic.

    The debug assertions on the reader's leftover (src/reader.rs:266-355, 394) and in
    [BoundedBitVec] (src/lib.rs:987, 1012) are not in the other files either: the reader holds
    at most 8 bits.  As in the other files, counters of bits are unbounded.
    Hand-written impls and expressions in attributes are taken to do the same in both
    builds. *)
From Verif Require Import Base Stream Reader Writer Prims Containers Derive.

(** Arithmetic on [usize]. *)
Definition usize (n : N) : N := (n mod 2 ^ 64)%N.
Definition usize_sub (a b : N) : N := if (b <=? a)%N then (a - b)%N else (a + 2 ^ 64 - b)%N.

(** ** Reader *)

(** src/reader.rs:181-219 [Reader::skip_bits], without the assertion of 199. *)
Definition o_skip_bits (amt : nat) (o : order) : RM unit :=
  fun r =>
    let first : RM nat :=
      match r_left r with
      | Some (Reader.LBits bits) =>
          let needed := Nat.min amt (length bits) in
          let* _ := read_bits_into needed o in
          ret (amt - needed)
      | _ => ret amt
      end in
    (let* amt := first in
     let bytes_amt := amt / 8 in
     let bits_amt := amt mod 8 in
     let* _ :=
       if bytes_amt =? 0 then ret tt
       else let* _ := lift_io (r_seek (SeekCurrent (Z.of_nat bytes_amt))) in ret tt
     in
     let* _ := read_bits_into bits_amt o in
     ret tt) r.
(** src/reader.rs:526-565 [read_bytes_leftover], 665-706 [read_bytes_const_leftover]:
    [amt - 1] wraps around, and the size in the error with it. *)
Definition o_read_bytes_leftover (amt buf_len : nat) (b : byte) : RM (list byte) :=
  if negb (buf_len =? 0) && (amt =? 0)
  then let* _ := modify (fun r => r_set_left r None) in fun r => (Err (Incomplete (N.to_nat (usize (usize_sub 0 1 * 8)))), r)
  else read_bytes_leftover amt buf_len b.
(** src/reader.rs:475-524 [read_bytes], 574-663 [read_bytes_const], [read_bytes_const_into]. *)
Definition o_read_bytes (amt buf_len : nat) (o : order) : RM (list byte) :=
  fun r => match r_left r with Some (LByte b) => o_read_bytes_leftover amt buf_len b r | _ => read_bytes amt buf_len o r end.

(** ** Writer *)

(** src/writer.rs:112-162 [write_bits_order_msb_msb]. *)
Definition o_write_msb_msb (bits : list bool) : WM unit :=
  let* w0 := get in
  let* _ := assert_ (order_eqb (w_ord w0) Msb0) in
  let* left := take_left in
  let* rest :=
    if length left =? 0 then ret bits
    else
      let complement := Nat.min (8 - length left) (length bits) in
      let rest := skipn complement bits in
      let* _ := left_extend left in
      let* _ := left_extend (firstn complement bits) in
      let* _ := flush_full in
      ret rest in
  let remainder := chunks8_rem rest in
  let* _ := w_write_each (map byte_of_bits (chunks8 rest)) in
  let* _ := wmod (fun w => w_add_bits w (length rest - length remainder)) in
  let* _ := left_extend remainder in
  wmod (fun w => w_set_ord w Msb0).

(** src/writer.rs:165-234 [write_bits_order_msb_lsb]. *)
Definition o_write_msb_lsb (bits : list bool) : WM unit :=
  let* w0 := get in
  let* _ := assert_ (order_eqb (w_ord w0) Msb0) in
  let* left := take_left in
  let '(first, complement, bulk, last) :=
    if length left =? 0 then ([], [], bits, [])
    else
      let remainder := length bits mod 8 in
      let c := Nat.min (8 - remainder) (length left) in
      let front := Nat.min (length bits) (8 - c) in
      (firstn c left, firstn front bits, skipn front bits, skipn c left) in
  let* _ := left_extend first in
  let* _ := left_extend complement in
  let* _ := flush_full in
  let remainder := chunks8_rem bulk in
  let* _ := w_write_each (map byte_of_bits (chunks8 bulk)) in
  let* _ := wmod (fun w => w_add_bits w (length bulk - length remainder)) in
  let c := Nat.min (8 - length remainder) (length last) in
  let rest := skipn c last in
  let* _ := left_extend remainder in
  let* _ := left_extend (firstn c last) in
  let* _ := flush_full in
  let* _ := left_extend rest in
  wmod (fun w => w_set_ord w Lsb0).

(** src/writer.rs:237-287 [write_bits_order_lsb_msb]. *)
Definition o_write_lsb_msb (bits : list bool) : WM unit :=
  let* w0 := get in
  let* _ := assert_ (order_eqb (w_ord w0) Lsb0) in
  let* left := take_left in
  let '(complement, rest) :=
    if length left =? 0 then ([], [])
    else
      let c := Nat.min (8 - length bits mod 8) (length left) in
      (firstn c left, skipn c left) in
  let remainder := rchunks8_rem bits in
  let* _ := w_write_each (map byte_of_bits (rchunks8 bits)) in
  let* _ := wmod (fun w => w_add_bits w (length bits - length remainder)) in
  let* _ := left_extend remainder in
  let* _ := left_extend complement in
  let* _ := wmod (fun w => w_set_ord w Msb0) in
  let* _ := flush_full in
  left_extend rest.

(** src/writer.rs:290-339 [write_bits_order_lsb_lsb]. *)
Definition o_write_lsb_lsb (bits : list bool) : WM unit :=
  let* w0 := get in
  let* _ := assert_ (order_eqb (w_ord w0) Lsb0) in
  let* left := take_left in
  let* rest :=
    if length left =? 0 then ret bits
    else
      let c := Nat.min (8 - length left) (length bits) in
      let rest := firstn (length bits - c) bits in
      let* _ := left_extend (skipn (length bits - c) bits) in
      let* _ := left_extend left in
      let* _ := flush_full in
      ret rest in
  let remainder := rchunks8_rem rest in
  let* _ := w_write_each (map byte_of_bits (rchunks8 rest)) in
  let* _ := wmod (fun w => w_add_bits w (length rest - length remainder)) in
  let* _ := left_extend remainder in
  wmod (fun w => w_set_ord w Lsb0).

(** src/writer.rs:344-359 [write_bits_order]. *)
Definition o_write_bits_order (bits : list bool) (o : order) : WM unit :=
  fun w =>
    match w_ord w, o with
    | Msb0, Msb0 => o_write_msb_msb bits w
    | Msb0, Lsb0 => o_write_msb_lsb bits w
    | Lsb0, Msb0 => o_write_lsb_msb bits w
    | Lsb0, Lsb0 => o_write_lsb_lsb bits w
    end.

(** src/writer.rs:364-366 [write_bits], 371-399 [write_bytes], 404-413 [finalize]. *)
Definition o_write_bits (bits : list bool) : WM unit := o_write_bits_order bits Msb0.
Definition o_write_bytes (buf : list byte) : WM unit :=
  fun w =>
    if negb (length (w_left w) =? 0) then o_write_bits (bits_of_bytes buf) w
    else (let* _ := w_write_all buf in
          wmod (fun w => w_add_bits w (length buf * 8))) w.
Definition o_finalize : WM unit :=
  fun w => o_write_bits_order (repeat false ((8 - length (w_left w)) mod 8)) (w_ord w) w.
(** src/writer.rs:75-109 [write_bits_uint_msb0]: [u64::MAX >> (64 - amt)] is [u64::MAX] for
    [amt = 0]. *)
Definition o_write_bits_uint_msb0 (value : N) (amt : nat) : WM unit :=
  let* w0 := get in
  let lead_len := length (w_left w0) in
  let lead := bits2N (w_left w0 ++ repeat false (8 - lead_len)) in
  let acc0 := if lead_len =? 0 then 0%N else N.shiftr lead (N.of_nat (8 - lead_len)) in
  let acc := N.lor (wrapN 128 (N.shiftl acc0 (N.of_nat amt)))
                   (N.land value (N.shiftr (2 ^ 64 - 1) (N.of_nat ((64 - amt) mod 64)))) in
  let have := lead_len + amt in
  let whole := have / 8 in
  let rest := have mod 8 in
  let* _ :=
    if whole =? 0 then ret tt
    else
      (* let mut buf = [0u8; 9]; buf[..whole] *)
      if 9 <? whole then panic else
      let aligned := N.shiftr acc (N.of_nat rest) in
      let buf := map (fun i => byte_of_N (wrapN 8 (N.shiftr aligned (N.of_nat ((whole - 1 - i) * 8)))))
                     (seq 0 whole) in
      let* _ := w_write_all buf in
      wmod (fun w => w_add_bits w (whole * 8)) in
  let* _ :=
    if rest =? 0 then wmod (fun w => w_set_left w [])
    else
      let tail := wrapN 8 (N.land acc (N.shiftl 1 (N.of_nat rest) - 1)) in
      let b := wrapN 8 (N.shiftl tail (N.of_nat (8 - rest))) in
      wmod (fun w => w_set_left w (firstn rest (N2bits 8 b))) in
  wmod (fun w => w_set_ord w Msb0).

(** ** Integers *)

(** src/impls/primitive.rs:168-298 and 301-381.  Without the assertion of 184 a slice
    that is too long fails in [extend_from_bitslice] (src/lib.rs:961-968) or [load_be], or
    in the slice of 310; that of 221 is left out.  [bits.len() - (8 - pad)] wraps
    around to an index beyond the slice, for which [insert] panics, if it is called; that it
    is not called for an empty slice makes a difference. *)
Definition o_u_of_bits (wb : nat) (e : endian) (n : nat) (o : order) (bits : list bool) : res N :=
  let len := length bits in
  let pad := 8 * ceil8 len - len in
  if 8 * wb <? len then Panic else
  if (pad =? 0) && (len =? 8 * wb) && negb (order_eqb o Lsb0) then
    Ok (from_e e (bytes_of_bits bits))
  else
  match e, o with
  | Big, Msb0 =>
      if 0 <? n then Ok (bits2N bits)
      else
        res_bind (bbv_inserts (8 * wb) pad 0 bits) (fun b1 =>
        res_bind (bbv_inserts (8 * wb) (8 * wb - length b1) 0 b1) (fun b2 =>
        Ok (from_be (bytes_of_bits b2))))
  | _, Lsb0 =>
      res_bind (bbv_inserts (8 * wb) pad 0 bits) (fun b1 =>
      let chunks := map byte_of_bits (rchunks8 b1) in
      let skip := match e with Little => 0 | Big => wb - ceil8 len end in
      let taken := firstn (wb - skip) chunks in
      let buf := repeat x00 skip ++ taken ++ repeat x00 (wb - skip - length taken) in
      Ok (from_e e buf))
  | Little, Msb0 =>
      let index := if len <? 8 - pad then 8 * wb else len - (8 - pad) in
      res_bind (bbv_inserts (8 * wb) pad index bits) (fun b1 =>
      res_bind (bbv_pushes (8 * wb) (8 * wb - length b1) b1) (fun b2 =>
      Ok (from_le (bytes_of_bits b2))))
  end.
(** src/impls/primitive.rs:543-560: [v << shift >> shift] with the shift amount modulo the
    width. *)
Definition o_sign_extend (w n : nat) (v : N) : N :=
  let shift := (w - n) mod w in
  let x := wrap (N.of_nat w) (N.shiftl v (N.of_nat shift)) in
  let y := N.shiftr x (N.of_nat shift) in
  if N.testbit x (N.of_nat w - 1) then (y + (2 ^ N.of_nat w - 2 ^ N.of_nat (w - shift)))%N else y.
(** src/impls/primitive.rs:384-413, 416-444, and 599-634. *)
Definition o_read_u_bits (wb : nat) (e : endian) (n : nat) (o : order) : RM N :=
  if 8 * wb <? n then fail Parse
  else
    let slow :=
      let* bits := read_bits_into n o in
      lift (o_u_of_bits wb e n o bits) in
    match e, o with
    | Big, Msb0 =>
        if (0 <? n) && (n <=? 64) then
          let* v := read_bits_uint_msb0 n in ret (wrap (N.of_nat (8 * wb)) v)
        else slow
    | _, _ => slow
    end.
Definition o_read_i_bits (wb : nat) (e : endian) (n : nat) (o : order) : RM N :=
  if 8 * wb <? n then fail Parse
  else
    let* bits := read_bits_into n o in
    lift (res_map (o_u_of_bits wb e n o bits) (fun v => o_sign_extend (8 * wb) n v)).
(** src/impls/primitive.rs:478-521, 636-679, 49-61, 708-723. *)
Definition o_read_bytes_sized (wb : nat) (e : endian) (n : nat) (o : order) : RM N :=
  if wb <? n then fail Parse
  else
    let* bs := o_read_bytes n wb o in
    ret (match e with
         | Little => from_le (bs ++ repeat x00 (wb - n))
         | Big => from_be (repeat x00 (wb - n) ++ bs)
         end).
Definition o_read_eyo (p : prim) (e : endian) (n : nat) (o : order) : RM N :=
  match p with PU8 => read_u8_bytes o | PU wb | PI wb => o_read_bytes_sized wb e n o end.
Definition o_read_ebo (p : prim) (e : endian) (n : nat) (o : order) : RM N :=
  match p with PU8 => o_read_u_bits 1 e n o | PU wb => o_read_u_bits wb e n o | PI wb => o_read_i_bits wb e n o end.
(** src/impls/primitive.rs:683-794 [ForwardDekuRead] and the impls above. *)
Definition o_prim_read (p : prim) (c : pctx) : RM N :=
  match c with
  | C0 => read_e p Little
  | CE e => read_e p e
  | CB n => if n mod 8 =? 0 then o_read_eyo p Little (n / 8) Msb0 else o_read_ebo p Little n Msb0
  | CY n => o_read_eyo p Little n Msb0
  | CO o => o_read_eyo p Little (prim_bytes p) o
  | CEB e n => o_read_ebo p e n Msb0
  | CEY e n => o_read_eyo p e n Msb0
  | CEO e o => o_read_eyo p e (prim_bytes p) o
  | CBO n o => if n mod 8 =? 0 then o_read_eyo p Little (n / 8) o else o_read_ebo p Little n o
  | CEBO e n o => o_read_ebo p e n o
  | CEYO e n o => o_read_eyo p e n o
  end.
(** src/impls/bool.rs:7-31, src/impls/nonzero.rs:9-30. *)
Definition o_read_bool (c : pctx) : RM bool :=
  let* v := o_prim_read PU8 c in
  if (v =? 1)%N then ret true else if (v =? 0)%N then ret false else fail Parse.
Definition o_read_nonzero (p : prim) (c : pctx) : RM N :=
  let* v := o_prim_read p c in
  if (v =? 0)%N then fail Parse else ret v.

(** src/impls/primitive.rs:843-854, 878-889, 1054-1062, 1152-1160:
    [for chunk in input_bits.chunks(8)]; writes the low bits of the last chunk and
    stops there. *)
Fixpoint o_write_chunks (chunks : list byte) (remaining : nat) (o : order) : WM unit :=
  match chunks with
  | [] => ret tt
  | c :: tl =>
      if remaining <? 8
      then o_write_bits_order (skipn (8 - remaining) (byte_bits c)) o
      else let* _ := o_write_bits_order (byte_bits c) o in o_write_chunks tl (remaining - 8) o
  end.

(** src/impls/primitive.rs:800-951 (fast path 902-926): [(Endian, BitSize, Order)], every type but [u8]. *)
Definition o_write_ebo_generic (wb : nat) (e : endian) (n : nat) (o : order) (v : N) : WM unit :=
  let w := 8 * wb in
  let input := to_bytes_e e wb v in
  let input_bits := bits_of_bytes input in
  if w <? n then fail InvalidParam
  else
    match e, o with
    | Little, _ =>
        if too_big_le w n v then fail InvalidParam
        else o_write_chunks input n o
    | Big, Lsb0 =>
        if too_big_be w n v then fail InvalidParam
        else if n <=? 8 then o_write_bits_order (skipn (w - n) input_bits) o
        else o_write_chunks input n o
    | Big, Msb0 =>
        fun wr =>
          if (n <=? 64) && order_eqb (w_ord wr) Msb0 then
            if n <? significant input then (Err InvalidParam, wr)
            (* the low eight bytes, 919-924 *)
            else o_write_bits_uint_msb0 (from_be (skipn (length input - 8) input)) n wr
          else if too_big_be w n v then (Err InvalidParam, wr)
          else o_write_bits_order (skipn (w - n) input_bits) Msb0 wr
    end.

(** src/impls/primitive.rs:78-134: [u8], [(Endian, BitSize, Order)]. *)
Definition o_write_u8_bits (n : nat) (o : order) (v : N) : WM unit :=
  fun wr =>
    if order_eqb o Msb0 && order_eqb (w_ord wr) Msb0 && (n <=? 8) then
      if (n <? 8) && negb (N.shiftr v (N.of_nat n) =? 0)%N then (Err InvalidParam, wr)
      else o_write_bits_uint_msb0 v n wr
    else if 8 <? n then (Err InvalidParam, wr)
    else if too_big_be 8 n v then (Err InvalidParam, wr)
    else o_write_bits_order (skipn (8 - n) (N2bits 8 v)) o wr.

(** src/impls/primitive.rs:1008-1085: [(Endian, BitSize)], unsigned. *)
Definition o_write_u_eb (wb : nat) (e : endian) (n : nat) (v : N) : WM unit :=
  let w := 8 * wb in
  if w <? n then fail InvalidParam
  else
    match e with
    | Little => if too_big_le w n v then fail InvalidParam else o_write_chunks (le_bytes wb v) n Msb0
    | Big => if too_big_be w n v then fail InvalidParam else o_write_bits (skipn (w - n) (N2bits w v))
    end.

(** src/impls/primitive.rs:1089-1198: [(Endian, BitSize)], signed. *)
Definition o_write_i_eb (wb : nat) (e : endian) (n : nat) (v : N) : WM unit :=
  let w := 8 * wb in
  let negative := N.testbit v (N.of_nat w - 1) in
  if w <? n then fail InvalidParam
  else
    match e with
    | Little =>
        if match last_bit (negb negative) w v with Some last => n <? last + 2 | None => false end
        then fail InvalidParam
        else o_write_chunks (le_bytes wb v) n Msb0
    | Big =>
        if match first_bit (negb negative) (N2bits w v) with Some first => first <? w - n + 1 | None => false end
        then fail InvalidParam
        else o_write_bits (skipn (w - n) (N2bits w v))
    end.

(** src/impls/primitive.rs:957-1001 (order ignored) and 137-163 ([u8], size ignored). *)
Definition o_write_bytes_sized (wb : nat) (e : endian) (n : nat) (v : N) : WM unit :=
  if wb <? n then fail InvalidParam
  else o_write_bytes (match e with
                    | Big => skipn (wb - n) (be_bytes wb v)
                    | Little => firstn n (le_bytes wb v)
                    end).
Definition o_write_eyo (p : prim) (e : endian) (n : nat) (v : N) : WM unit :=
  match p with PU8 => o_write_bytes (be_bytes 1 v) | PU wb | PI wb => o_write_bytes_sized wb e n v end.

Definition o_write_ebo (p : prim) (e : endian) (n : nat) (o : order) (v : N) : WM unit :=
  match p with PU8 => o_write_u8_bits n o v | PU wb | PI wb => o_write_ebo_generic wb e n o v end.
Definition o_write_eb (p : prim) (e : endian) (n : nat) (v : N) : WM unit :=
  match p with
  | PU8 => o_write_u8_bits n Msb0 v                   (* 64-75 *)
  | PU wb => o_write_u_eb wb e n v
  | PI wb => o_write_i_eb wb e n v
  end.
(** src/impls/primitive.rs:1204-1218: [Endian] alone. *)
Definition o_write_e (p : prim) (e : endian) (v : N) : WM unit := o_write_bytes (to_bytes_e e (prim_bytes p) v).

(** src/impls/primitive.rs:1222-1292 [ForwardDekuWrite] and the impls above. *)
Definition o_prim_write (p : prim) (c : pctx) (v : N) : WM unit :=
  match c with
  | C0 => o_write_e p Little v
  | CE e => o_write_e p e v
  | CB n => o_write_eb p Little n v
  | CY n => o_write_eyo p Little n v
  | CO _ => o_write_eyo p Little (prim_bytes p) v
  | CEB e n => o_write_eb p e n v
  | CEY e n => o_write_eyo p e n v
  | CEO e _ => o_write_eyo p e (prim_bytes p) v
  | CBO n o => o_write_ebo p Little n o v
  | CEBO e n o => o_write_ebo p e n o v
  | CEYO e n _ => o_write_eyo p e n v
  end.
(** src/impls/bool.rs:33-48, src/impls/cstring.rs:11-23. *)
Definition o_write_bool (c : pctx) (b : bool) : WM unit := o_prim_write PU8 c (if b then 1%N else 0%N).
Definition o_write_cstring (c : pctx) (s : list N) : WM unit := write_list (o_prim_write PU8 c) (s ++ [0%N]).

(** ** Vec *)

(** src/impls/vec.rs:70-83: [reader.bits_read - start_read] wraps around. *)
Fixpoint o_vec_loop {A} (fuel : nat) (elem : RM A) (stop : N -> list A -> bool) (start : nat) (acc : list A) : RM (list A) :=
  match fuel with
  | O => diverge
  | S f =>
      let* v := elem in
      fun r =>
        if stop (usize_sub (N.of_nat (r_bits r)) (N.of_nat start)) (acc ++ [v]) then (Ok (acc ++ [v]), r)
        else o_vec_loop f elem stop start (acc ++ [v]) r
  end.
(** src/impls/vec.rs:45-84 [reader_vec_with_predicate]. *)
Definition o_vec_with_predicate {A} (fuel : nat) (size : N) (capacity : option N) (elem : RM A)
    (stop : N -> list A -> bool) : RM (list A) :=
  if (size =? 0)%N then ret []
  else if match capacity with Some c => (isize_max <? c * size)%N | None => false end then panic
  else fun r => o_vec_loop fuel elem stop (r_bits r) [] r.
(** src/impls/vec.rs:112-191, and hashmap.rs, hashset.rs through [slot_size] and [collect]
    like in Derive.v: [size.0 * 8] wraps around. *)
Definition o_vec_read {A} (fuel : nat) (size : N) (elem : RM A) (lim : limit A) : RM (list A) :=
  match lim with
  | LCount n =>
      if (n =? 0)%N then ret []
      else fun r => o_vec_with_predicate (N.to_nat n) size (Some n) elem (fun _ acc => (N.of_nat (length acc) =? n)%N) r
  | LUntil p => o_vec_with_predicate fuel size None elem (fun _ acc => p acc)
  | LBits n =>
      if (n =? 0)%N then ret []
      else o_vec_with_predicate fuel size None elem (fun bits _ => (bits =? n)%N)
  | LBytes n =>
      if (usize (n * 8) =? 0)%N then ret []
      else o_vec_with_predicate fuel size None elem (fun bits _ => (bits =? usize (n * 8))%N)
  | LEnd => vec_to_end fuel size elem
  end.
(** src/impls/vec.rs:13-43: [end - pos] and [exact.0 * 8] wrap around.  If [end - pos] does,
    [vec![0x00; exact.0]] is reached with any count (36). *)
Definition o_read_exact_vec (count : N) : RM (list byte) :=
  let* pos := inner_seek (SeekCurrent 0) in
  let* end_ := inner_seek (SeekEnd 0) in
  let* _ := inner_seek (SeekStart pos) in
  if (usize_sub (N.of_nat end_) (N.of_nat pos) <? count)%N then
    fun r => (Err (Incomplete (N.to_nat (usize (count * 8)))), r)
  else if (end_ <? pos) && (isize_max <? count)%N then panic
  else fun r => o_read_bytes (N.to_nat count) (N.to_nat count) Lsb0 r.
(** src/impls/cstring.rs:25-67. *)
Definition o_read_cstring (fuel : nat) : RM (list N) :=
  let* l := o_vec_read fuel 1 (prim_read PU8 C0) (LUntil (fun l => (last l 1 =? 0)%N)) in to_cstring l.
Definition o_read_cstring_bytes (n : N) : RM (list N) :=
  let* l := o_vec_read 0 1 (prim_read PU8 C0) (LCount n) in to_cstring l.

(** ** Derived code *)

(** deku_read.rs:603-628 [emit_padding]. *)
Definition o_read_pad (p : option Z) (o : option order) : RM unit :=
  match p with
  | None => ret tt
  | Some z =>
      match to_usize z with
      | None => fail InvalidParam
      | Some n => fun r => o_skip_bits (N.to_nat n) (match o with Some x => x | None => Msb0 end) r
      end
  end.
(** deku_read.rs:775-918. *)
Definition o_field_read_func (c : cattrs) (a : fattrs) (vec_u8 : bool) (ctx fs : list value) (off : nat)
    (rd : option (limit value) -> list value -> RM value) : RM value :=
  match a_reader a with
  | Some f => f ctx fs off
  | None =>
      let args := field_args c a ctx fs off in
      match a_limit a with
      | None => rd None args
      | Some l =>
          let* lim := lift (eval_limit l ctx fs off) in
          match vec_u8, lim with
          | true, LCount n => let* bs := o_read_exact_vec n in ret (vec_of_bytes bs)
          | _, _ => rd (Some lim) args
          end
      end
  end.
(** deku_read.rs:990-1008. *)
Definition o_read_field (c : cattrs) (a : fattrs) (vec_u8 : bool) (ctx fs : list value)
    (rd : option (limit value) -> list value -> RM value) : RM value :=
  let* _ := read_seek (option_map (fun f => f ctx fs) (a_seek a)) in
  let* _ := read_magic (a_magic a) in
  let* _ := o_read_pad (eval0 (a_pad_before a) ctx fs) (field_order c a ctx fs) in
  fun r =>
    let off := r_bits r in
    (let* v := field_read_tokens a ctx fs off
                 (field_read_normal a ctx fs off (o_field_read_func c a vec_u8 ctx fs off rd)) in
     let* _ := asserts a ctx fs off v in
     let* _ := o_read_pad (eval0 (a_pad_after a) ctx (fs ++ [v])) (field_order c a ctx fs) in
     ret v) r.

(** deku_write.rs:455-464 and 643-649: the bytes as an array of u8 with context (). *)
Definition o_write_magic (m : list byte) : WM unit := write_list (o_prim_write PU8 C0) (map Byte.to_N m).

(** deku_write.rs:544-580 [emit_padding]; [PAD] is 512 (deku-derive/src/lib.rs:51).
    [write_bits] is [write_bits_order] with [Msb0].  [fuel] bounds the iterations;
    each one writes at least a bit. *)
Fixpoint o_pad_loop (fuel n : nat) (o : order) : WM unit :=
  match n with
  | O => ret tt
  | _ =>
      match fuel with
      | O => diverge
      | S f =>
          let chunk := Nat.min 512 n in
          let* _ := o_write_bits_order (repeat false chunk) o in
          o_pad_loop f (n - chunk) o
      end
  end.
Definition o_write_pad (p : option Z) (o : option order) : WM unit :=
  match p with
  | None => ret tt
  | Some z =>
      match to_usize z with
      | None => fail InvalidParam
      | Some n => fun w => o_pad_loop (N.to_nat n) (N.to_nat n) (match o with Some x => x | None => Msb0 end) w
      end
  end.
(** deku_write.rs:844-859. *)
Definition o_write_field (c : cattrs) (a : fattrs) (stored ctx fs : list value) (v : value)
    (wr : list value -> value -> WM unit) : WM unit :=
  let* _ := write_seek (option_map (fun f => f ctx fs) (a_seek a)) in
  let* _ := o_write_magic (a_magic a) in
  let* _ := o_write_pad (eval0 (a_pad_before a) ctx fs) (field_order c a ctx fs) in
  fun w =>
    let off := w_bits w in
    (let* _ := asserts a ctx fs off v in
     let* _ := field_write_tokens a ctx fs off (field_write_func c a stored ctx fs off v wr) in
     o_write_pad (eval0 (a_pad_after a) ctx (fs ++ [v])) (field_order c a ctx fs)) w.


Section Impls.
Variable cu : nat -> custom.

(** deku_read.rs:164-175, 237-400, 452-461, 549-571, as in Derive.v. *)
Fixpoint o_read_ty (fuel : nat) (t : ty) (lim : option (limit value)) (args : list value) {struct t} : RM value :=
  match t with
  | TPrim p => with_pctx lim args (fun c => let* n := o_prim_read p c in ret (VNum n))
  | TBool => with_pctx lim args (fun c => let* b := o_read_bool c in ret (VBool b))
  | TNonZero p => with_pctx lim args (fun c => let* n := o_read_nonzero p c in ret (VNum n))
  | TUnit => ret VUnit
  | TCString =>
      match lim, args with
      | None, [] => let* s := o_read_cstring fuel in ret (VList (map VNum s))
      | None, [VBytes n] => let* s := o_read_cstring_bytes (N.of_nat n) in ret (VList (map VNum s))
      | _, _ => panic
      end
  | TOption t => let* v := o_read_ty fuel t lim args in ret (VSome v)
  | TPair a b => let* x := o_read_ty fuel a lim args in let* y := o_read_ty fuel b lim args in ret (VPair x y)
  | TArray n t => let* vs := read_array n (o_read_ty fuel t lim args) in ret (VList vs)
  | TVec k size t =>
      match lim with
      | Some l => let* vs := o_vec_read fuel (slot_size k size) (o_read_ty fuel t None args) l in ret (VList (collect k vs))
      | None => panic
      end
  | TStruct c fs =>
      let ctx := ctx_args c args in
      let* _ := read_seek (option_map (fun f => f ctx) (c_seek c)) in
      let* _ := read_magic (c_magic c) in
      let* vs := o_fields_read fuel c ctx fs None [] in
      ret (VRec vs)
  | TEnum e idt vs =>
      let ctx := ctx_args (en_c e) args in
      let* _ := read_magic (c_magic (en_c e)) in
      let* id := match en_id e with
                 | Some f => ret (f ctx)
                 | None => o_read_ty fuel idt None (id_args e ctx)
                 end in
      o_variants_read fuel e ctx id vs 0 None
  | TCustom k => match lim with None => cu_read (cu k) args | Some _ => panic end
  end
with o_fields_read (fuel : nat) (c : cattrs) (ctx : list value) (fs : fields) (id : option value) (acc : list value)
    {struct fs} : RM (list value) :=
  match fs with
  | FNil => ret []
  | FCons a t wire tl =>
      let* v := match id, a_reader a with
                | Some x, None => ret x
                | _, _ => o_read_field c a (is_vec_u8 t) ctx acc (fun lim args => o_read_ty fuel wire lim args)
                end in
      let* vs := o_fields_read fuel c ctx tl None (acc ++ [v]) in
      ret (if a_temp a then vs else v :: vs)
  end
with o_variants_read (fuel : nat) (e : eattrs) (ctx : list value) (id : value) (vs : variants) (k : nat)
    (default : option (RM value)) {struct vs} : RM value :=
  match vs with
  | VNil => match default with Some m => m | None => fail Parse end
  | VCons v fs tl =>
      let body := let* l := o_fields_read fuel (en_c e) ctx fs (if stores_id e v then Some id else None) [] in
                  ret (VVar k l) in
      if matches (v_sel v) id then body
      else o_variants_read fuel e ctx id tl (S k)
             (match default with Some _ => default | None => if v_default v then Some body else None end)
  end.

(** deku_write.rs:142-152, 219-356, 398-406, 466-479, as in Derive.v. *)
Fixpoint o_write_ty (t : ty) (args : list value) (v : value) {struct t} : WM unit :=
  match t with
  | TPrim p | TNonZero p => match v with VNum n => with_pctx None args (fun c => o_prim_write p c n) | _ => panic end
  | TBool => match v with VBool b => with_pctx None args (fun c => o_write_bool c b) | _ => panic end
  | TUnit => ret tt
  | TCString =>
      match v with
      | VList l => with_pctx None args (fun c => o_write_cstring c (map (fun x => match x with VNum n => n | _ => 0%N end) l))
      | _ => panic
      end
  | TOption t => match v with VSome x => o_write_ty t args x | VNone => ret tt | _ => panic end
  | TPair a b => match v with VPair x y => let* _ := o_write_ty a args x in o_write_ty b args y | _ => panic end
  | TArray _ t | TVec _ _ t => match v with VList l => write_list (o_write_ty t args) l | _ => panic end
  | TStruct c fs =>
      match v with
      | VRec l =>
          let ctx := ctx_args c args in
          let* _ := write_seek (option_map (fun f => f ctx) (c_seek c)) in
          let* _ := o_write_magic (c_magic c) in
          o_fields_write c ctx fs None l l []
      | _ => panic
      end
  | TEnum e idt vs =>
      match v with
      | VVar k l =>
          let* _ := o_write_magic (c_magic (en_c e)) in
          o_variant_write e (ctx_args (en_c e) args) (fun args x => o_write_ty idt args x) vs k l
      | _ => panic
      end
  | TCustom k => cu_write (cu k) args v
  end
with o_fields_write (c : cattrs) (ctx : list value) (fs : fields) (id : option (list value)) (stored todo acc : list value)
    {struct fs} : WM unit :=
  match fs with
  | FNil => ret tt
  | FCons a t _ tl =>
      let v := field_value a stored todo ctx acc in
      let* _ := match id with
                | Some args => o_write_ty t args v
                | None => o_write_field c a stored ctx acc v (fun args x => o_write_ty t args x)
                end in
      o_fields_write c ctx tl None stored (field_rest a todo) (acc ++ [v])
  end
with o_variant_write (e : eattrs) (ctx : list value) (wid : list value -> value -> WM unit) (vs : variants) (k : nat)
    (l : list value) {struct vs} : WM unit :=
  match vs with
  | VNil => panic
  | VCons v fs tl =>
      match k with
      | O =>
          let* _ := write_id e v fs ctx wid in
          o_fields_write (en_c e) ctx fs (match v_sel v with SPat _ _ => Some (stored_id_args e ctx) | _ => None end) l l []
      | S k' => o_variant_write e ctx wid tl k' l
      end
  end.

(** deku_read.rs:115-126 and 404-415: [from_reader]. *)
Definition o_from_reader (fuel : nat) (t : ty) (s : stream) (bit : nat) : res (nat * value) * stream :=
  let '(x, r) :=
    (let* _ := if bit =? 0 then ret tt else o_skip_bits bit Msb0 in
     let* v := o_read_ty fuel t None [] in
     fun r => (Ok (r_bits r, v), r)) (reader_new s) in
  (x, r_s r).
(** deku_read.rs:128-148 and 417-437: [from_bytes]. *)
Definition o_from_bytes (fuel : nat) (t : ty) (input : list byte) (bit : nat) : res ((list byte * nat) * value) :=
  match o_from_reader fuel t (cursor input) bit with
  | (Ok (bits_read, v), _) =>
      let idx := bits_read / 8 in
      if idx <=? length input then Ok ((skipn idx input, bits_read mod 8), v)
      else Err (Incomplete (8 * (idx - length input)))
  | (Err e, _) => Err e
  | (Panic, _) => Panic
  | (Diverge, _) => Diverge
  end.
(** deku_read.rs:1041-1071 [emit_try_from]. *)
Definition o_try_from (fuel : nat) (t : ty) (input : list byte) : res value :=
  match o_from_reader fuel t (cursor input) 0 with
  | (Ok (bits_read, v), _) =>
      let bytes_read := bits_read / 8 in
      if bytes_read <? length input then Err Parse
      else if length input <? bytes_read then Err (Incomplete (bits_read - length input * 8))
      else Ok v
  | (Err e, _) => Err e
  | (Panic, _) => Panic
  | (Diverge, _) => Diverge
  end.

(** src/lib.rs:708-715, 736-743, 768-777. *)
Definition o_to_bytes (t : ty) (v : value) : res (list byte) :=
  let '(x, w) := (let* _ := o_write_ty t [] v in o_finalize) (writer_new vec_sink) in
  res_map x (fun _ => k_data (w_k w)).
Definition o_to_slice (t : ty) (v : value) (buf : list byte) : res nat * list byte :=
  let '(x, w) := (let* _ := o_write_ty t [] v in o_finalize) (writer_new (slice_sink buf)) in
  (res_map x (fun _ => w_bits w / 8), k_data (w_k w)).
Definition o_to_bits (t : ty) (v : value) : res (list bool) := to_bits_with (o_write_ty t [] v).
End Impls.
