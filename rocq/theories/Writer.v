(** Model of src/writer.rs.  No proofs here. *)
From Verif Require Import Base Stream.

(** src/writer.rs:21-28 [Writer].  [w_left] is the list of the first [size] bits
    of the [BoundedBitVec<[u8;1], Msb0>] leftover, [w_ord] its order tag. *)
Record writer : Type := mkWriter {
  w_k : sink;
  w_left : list bool;
  w_ord : order;
  w_bits : nat
}.

Definition w_set_k (w : writer) (k : sink) : writer := mkWriter k (w_left w) (w_ord w) (w_bits w).
Definition w_set_left (w : writer) (l : list bool) : writer := mkWriter (w_k w) l (w_ord w) (w_bits w).
Definition w_set_ord (w : writer) (o : order) : writer := mkWriter (w_k w) (w_left w) o (w_bits w).
Definition w_add_bits (w : writer) (n : nat) : writer := mkWriter (w_k w) (w_left w) (w_ord w) (w_bits w + n).

Definition WM (A : Type) : Type := ST writer A.

Definition wmod (f : writer -> writer) : WM unit := fun w => (Ok tt, f w).
Definition wleft : WM (list bool) := fun w => (Ok (w_left w), w).

(** src/writer.rs:48-56 [Writer::new]. *)
Definition writer_new (k : sink) : writer := mkWriter k [] Msb0 0.

(** [self.inner.write_all(buf)?]; src/error.rs [From<io::Error>] gives [Io(kind)]. *)
Definition w_write_all (buf : list byte) : WM unit :=
  fun w => match k_write_all buf (w_k w) with
           | (IoOk _, k) => (Ok tt, w_set_k w k)
           | (IoErr e, k) => (Err (Io e), w_set_k w k)
           end.

(** One [write_all] call per byte. *)
Fixpoint w_write_each (bs : list byte) : WM unit :=
  match bs with
  | [] => ret tt
  | b :: tl => let* _ := w_write_all [b] in w_write_each tl
  end.

(** src/writer.rs:30-44 [<Writer as Seek>::seek]. *)
Definition w_seek (t : seekfrom) : writer -> iores nat * writer :=
  fun w =>
    let w1 := w_set_ord (w_set_left w []) Msb0 in
    let '(x, k) := k_seek t (w_k w1) in (x, w_set_k w1 k).

(** src/writer.rs:61-63 [Writer::rest]. *)
Definition w_rest (w : writer) : list bool := w_left w.

(** src/lib.rs:958-965 [extend_from_bitslice] on [self.leftover.0]; the
    assertion is the capacity of 8 bits. *)
Definition left_extend (bs : list bool) : WM unit :=
  fun w => if length (w_left w) + length bs <=? 8
           then (Ok tt, w_set_left w (w_left w ++ bs)) else (Panic, w).

(** src/writer.rs:143-147, 203-207, 225-229, 279-283, 320-324: emit the leftover
    byte when it is full and reset the leftover (order tag back to [Msb0]). *)
Definition flush_full : WM unit :=
  fun w =>
    if length (w_left w) =? 8 then
      (let* _ := w_write_all [byte_of_bits (w_left w)] in
       let* _ := wmod (fun w => w_add_bits w 8) in
       wmod (fun w => w_set_ord (w_set_left w []) Msb0)) w
    else (Ok tt, w).

(** Swap the leftover out: src/writer.rs:122-123, 175-176, 247-248, 300-301;
    returns the previous leftover bits. *)
Definition take_left : WM (list bool) :=
  fun w => (Ok (w_left w), w_set_ord (w_set_left w []) Msb0).

(** src/writer.rs:112-162 [write_bits_order_msb_msb]. *)
Definition write_msb_msb (bits : list bool) : WM unit :=
  let* w0 := get in
  let* _ := assert_ (order_eqb (w_ord w0) Msb0) in
  let* _ := assert_ (length (w_left w0) <? 8) in
  let* left := take_left in
  let* rest :=
    if length left =? 0 then ret bits
    else
      let complement := Nat.min (8 - length left) (length bits) in
      let rest := skipn complement bits in
      let* _ := left_extend left in
      let* _ := left_extend (firstn complement bits) in
      let* l := wleft in
      let* _ := assert_ ((length l =? 8) || (length rest =? 0)) in
      let* _ := flush_full in
      ret rest in
  let remainder := chunks8_rem rest in
  let* _ := w_write_each (map byte_of_bits (chunks8 rest)) in
  let* _ := wmod (fun w => w_add_bits w (length rest - length remainder)) in
  let* l := wleft in
  let* _ := assert_ (length l + length remainder <=? 8) in
  let* _ := left_extend remainder in
  wmod (fun w => w_set_ord w Msb0).

(** src/writer.rs:165-234 [write_bits_order_msb_lsb]. *)
Definition write_msb_lsb (bits : list bool) : WM unit :=
  let* w0 := get in
  let* _ := assert_ (order_eqb (w_ord w0) Msb0) in
  let* _ := assert_ (length (w_left w0) <? 8) in
  let* left := take_left in
  let '(first, complement, bulk, last) :=
    if length left =? 0 then ([], [], bits, [])
    else
      let remainder := length bits mod 8 in
      let c := Nat.min (8 - remainder) (length left) in
      let front := Nat.min (length bits) (8 - c) in
      (firstn c left, firstn front bits, skipn front bits, skipn c left) in
  let* _ := left_extend first in
  let* _ := left_extend complement in
  let* _ := flush_full in
  let remainder := chunks8_rem bulk in
  let* _ := w_write_each (map byte_of_bits (chunks8 bulk)) in
  let* _ := wmod (fun w => w_add_bits w (length bulk - length remainder)) in
  let* l := wleft in
  let* _ := assert_ (length l + length remainder <=? 8) in
  let c := Nat.min (8 - length remainder) (length last) in
  let rest := skipn c last in
  let* _ := left_extend remainder in
  let* _ := left_extend (firstn c last) in
  let* l := wleft in
  let* _ := assert_ ((length l =? 8) || (length rest =? 0)) in
  let* _ := flush_full in
  let* _ := left_extend rest in
  wmod (fun w => w_set_ord w Lsb0).

(** src/writer.rs:237-287 [write_bits_order_lsb_msb]. *)
Definition write_lsb_msb (bits : list bool) : WM unit :=
  let* w0 := get in
  let* _ := assert_ (order_eqb (w_ord w0) Lsb0) in
  let* _ := assert_ (length (w_left w0) <? 8) in
  let* left := take_left in
  let '(complement, rest) :=
    if length left =? 0 then ([], [])
    else
      let c := Nat.min (8 - length bits mod 8) (length left) in
      (firstn c left, skipn c left) in
  let remainder := rchunks8_rem bits in
  let* _ := w_write_each (map byte_of_bits (rchunks8 bits)) in
  let* _ := wmod (fun w => w_add_bits w (length bits - length remainder)) in
  let* l := wleft in
  let* _ := assert_ (length l + length remainder <=? 8) in
  let* _ := left_extend remainder in
  let* _ := left_extend complement in
  let* _ := wmod (fun w => w_set_ord w Msb0) in
  let* l := wleft in
  let* _ := assert_ ((length l =? 8) || (length rest =? 0)) in
  let* _ := flush_full in
  left_extend rest.

(** src/writer.rs:290-339 [write_bits_order_lsb_lsb]. *)
Definition write_lsb_lsb (bits : list bool) : WM unit :=
  let* w0 := get in
  let* _ := assert_ (order_eqb (w_ord w0) Lsb0) in
  let* _ := assert_ (length (w_left w0) <? 8) in
  let* left := take_left in
  let* rest :=
    if length left =? 0 then ret bits
    else
      let c := Nat.min (8 - length left) (length bits) in
      let rest := firstn (length bits - c) bits in
      let* _ := left_extend (skipn (length bits - c) bits) in
      let* _ := left_extend left in
      let* l := wleft in
      let* _ := assert_ ((length l =? 8) || (length rest =? 0)) in
      let* _ := flush_full in
      ret rest in
  let remainder := rchunks8_rem rest in
  let* _ := w_write_each (map byte_of_bits (rchunks8 rest)) in
  let* _ := wmod (fun w => w_add_bits w (length rest - length remainder)) in
  let* l := wleft in
  let* _ := assert_ (length l + length remainder <=? 8) in
  let* _ := left_extend remainder in
  wmod (fun w => w_set_ord w Lsb0).

(** src/writer.rs:344-359 [write_bits_order]. *)
Definition write_bits_order (bits : list bool) (o : order) : WM unit :=
  fun w =>
    match w_ord w, o with
    | Msb0, Msb0 => write_msb_msb bits w
    | Msb0, Lsb0 => write_msb_lsb bits w
    | Lsb0, Msb0 => write_lsb_msb bits w
    | Lsb0, Lsb0 => write_lsb_lsb bits w
    end.

(** src/writer.rs:364-366 [write_bits]. *)
Definition write_bits (bits : list bool) : WM unit := write_bits_order bits Msb0.

(** src/writer.rs:371-399 [write_bytes]. *)
Definition write_bytes (buf : list byte) : WM unit :=
  fun w =>
    if negb (length (w_left w) =? 0) then write_bits (bits_of_bytes buf) w
    else (let* _ := w_write_all buf in
          wmod (fun w => w_add_bits w (length buf * 8))) w.

(** src/writer.rs:404-413 [finalize]. *)
Definition finalize : WM unit :=
  fun w =>
    if length (w_left w) <? 8 then
      let len := (8 - length (w_left w)) mod 8 in
      write_bits_order (repeat false len) (w_ord w) w
    else (Panic, w).

(** Fixed-width truncation. *)
Definition wrapN (w : N) (x : N) : N := (x mod 2 ^ w)%N.

(** src/writer.rs:75-109 [write_bits_uint_msb0].  [lead] is the leftover byte
    (src/lib.rs:1021-1023); the stale low bits of the Rust byte are shifted out
    by [lead >> (8 - lead_len)]. *)
Definition write_bits_uint_msb0 (value : N) (amt : nat) : WM unit :=
  let* _ := assert_ ((1 <=? amt) && (amt <=? 64)) in
  let* w0 := get in
  let* _ := assert_ (order_eqb (w_ord w0) Msb0) in
  let lead_len := length (w_left w0) in
  let lead := bits2N (w_left w0 ++ repeat false (8 - lead_len)) in
  let acc0 := if lead_len =? 0 then 0%N else N.shiftr lead (N.of_nat (8 - lead_len)) in
  let acc := N.lor (wrapN 128 (N.shiftl acc0 (N.of_nat amt)))
                   (N.land value (N.shiftr (2 ^ 64 - 1) (N.of_nat (64 - amt)))) in
  let have := lead_len + amt in
  let whole := have / 8 in
  let rest := have mod 8 in
  let* _ :=
    if whole =? 0 then ret tt
    else
      (* let mut buf = [0u8; 9]; buf[..whole] *)
      if 9 <? whole then panic else
      let aligned := N.shiftr acc (N.of_nat rest) in
      let buf := map (fun i => byte_of_N (wrapN 8 (N.shiftr aligned (N.of_nat ((whole - 1 - i) * 8)))))
                     (seq 0 whole) in
      let* _ := w_write_all buf in
      wmod (fun w => w_add_bits w (whole * 8)) in
  let* _ :=
    if rest =? 0 then wmod (fun w => w_set_left w [])
    else
      let tail := wrapN 8 (N.land acc (N.shiftl 1 (N.of_nat rest) - 1)) in
      let b := wrapN 8 (N.shiftl tail (N.of_nat (8 - rest))) in
      wmod (fun w => w_set_left w (firstn rest (N2bits 8 b))) in
  wmod (fun w => w_set_ord w Msb0).
