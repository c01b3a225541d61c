(** Model of src/reader.rs.  No proofs here. *)
From Verif Require Import Base Stream.

(** src/reader.rs:28-34 [Leftover].  The [BoundedBitVec<[u8;1], Msb0>] (an array
    and a length, src/lib.rs:840-847) is represented by the list of its first
    [size] bits; the bits of the array beyond [size] are not represented (see
    [BBV.v] for the array-level model and the proof that this is sound). *)
Inductive leftover : Type := LByte (b : byte) | LBits (l : list bool).

(** src/reader.rs:37-43 [Reader]. *)
Record reader : Type := mkReader {
  r_s : stream;
  r_left : option leftover;
  r_bits : nat
}.

Definition r_set_s (r : reader) (s : stream) : reader := mkReader s (r_left r) (r_bits r).
Definition r_set_left (r : reader) (l : option leftover) : reader := mkReader (r_s r) l (r_bits r).
Definition r_set_bits (r : reader) (n : nat) : reader := mkReader (r_s r) (r_left r) n.
Definition r_add_bits (r : reader) (n : nat) : reader := mkReader (r_s r) (r_left r) (r_bits r + n).

Definition RM (A : Type) : Type := ST reader A.

(** src/reader.rs:72-78 [Reader::new]. *)
Definition reader_new (s : stream) : reader := mkReader s None 0.

(** [self.inner.read_exact(&mut buf)] with [buf.len() = n]. *)
Definition r_io (n : nat) : reader -> iores (list byte) * reader :=
  fun r => let '(x, s) := s_read_exact n (r_s r) in (x, r_set_s r s).

Definition modify (f : reader -> reader) : RM unit := fun r => (Ok tt, f r).

(** src/reader.rs:45-60 [<Reader as Seek>::seek].  The buffered bits are dropped
    before the inner seek, also when that fails.  The saturation of
    [bits_read] at [usize::MAX] is not modelled. *)
Definition r_seek (w : seekfrom) : reader -> iores nat * reader :=
  fun r =>
    let r1 := r_set_left r None in
    match s_seek w (r_s r1) with
    | (IoOk p, s) => (IoOk p, r_set_bits (r_set_s r1 s) (8 * p))
    | (IoErr k, s) => (IoErr k, r_set_s r1 s)
    end.

(** [.map_err(|e| DekuError::Io(e.kind()))?] *)
Definition lift_io {A S} (m : S -> iores A * S) : ST S A :=
  fun r => match m r with
           | (IoOk a, r') => (Ok a, r')
           | (IoErr k, r') => (Err (Io k), r')
           end.

(** src/reader.rs:129-145 [Reader::rest]. *)
Definition r_rest (r : reader) : list bool :=
  match r_left r with
  | Some (LBits l) => l
  | Some (LByte b) => byte_bits b
  | None => []
  end.

(** src/reader.rs:152-173 [Reader::end].  On an I/O error other than
    [UnexpectedEof] the zero-initialised buffer is stored as a peeked byte. *)
Definition r_end : reader -> bool * reader :=
  fun r =>
    match r_left r with
    | Some _ => (false, r)
    | None =>
        match r_io 1 r with
        | (IoErr k, r') =>
            if is_eof k then (true, r') else (false, r_set_left r' (Some (LByte x00)))
        | (IoOk bs, r') => (false, r_set_left r' (Some (LByte (hd x00 bs))))
        end
    end.

(** src/reader.rs:310-318 and 323-331: fill [k] whole-byte slots.  An
    [UnexpectedEof] error becomes [Incomplete(dst.len())]; any other I/O error is
    ignored and the zero-initialised buffer is stored.  Returns the bytes in the
    order they were read. *)
Fixpoint fill_slots (dst_len k : nat) : RM (list byte) :=
  match k with
  | O => ret []
  | S k' =>
      fun r =>
        match r_io 1 r with
        | (IoErr e, r') =>
            if is_eof e then (Err (Incomplete dst_len), r')
            else (let* bs := fill_slots dst_len k' in ret (x00 :: bs)) r'
        | (IoOk bs0, r') =>
            (let* bs := fill_slots dst_len k' in ret (hd x00 bs0 :: bs)) r'
        end
  end.

(** src/reader.rs:337-343 and 356-362: read the byte that supplies the
    remainder; here every I/O error is reported. *)
Definition read_rem_byte (dst_len : nat) : RM byte :=
  fun r => match r_io 1 r with
           | (IoErr e, r') =>
               (Err (if is_eof e then Incomplete dst_len else Io e), r')
           | (IoOk bs, r') => (Ok (hd x00 bs), r')
           end.

(** src/reader.rs:251-259: the buffered bits as a bit list. *)
Definition left_bits (l : option leftover) : list bool :=
  match l with
  | Some (LByte b) => byte_bits b
  | Some (LBits bs) => bs
  | None => []
  end.

(** src/reader.rs:292-372, case [Ordering::Greater], [Order::Lsb0]: slots are
    filled from the back of [dst[..need]], the remainder is the front of [dst]
    and takes the low bits of one more byte, the previous leftover goes last. *)
Definition read_greater_lsb (n : nat) (prev : list bool) : RM (list bool) :=
  let need := n - length prev in
  let* bs := fill_slots n (need / 8) in
  let rem := need mod 8 in
  if rem =? 0 then
    ret (concat (rev (map byte_bits bs)) ++ prev)
  else
    let* b := read_rem_byte n in
    let* _ := modify (fun r => r_set_left r (Some (LBits (firstn (8 - rem) (byte_bits b))))) in
    ret (skipn (8 - rem) (byte_bits b) ++ concat (rev (map byte_bits bs)) ++ prev).

(** src/reader.rs:292-372, case [Ordering::Greater], [Order::Msb0]. *)
Definition read_greater_msb (n : nat) (prev : list bool) : RM (list bool) :=
  let need := n - length prev in
  let* bs := fill_slots n (need / 8) in
  let rem := need mod 8 in
  if rem =? 0 then
    ret (prev ++ concat (map byte_bits bs))
  else
    let* b := read_rem_byte n in
    let* _ := modify (fun r => r_set_left r (Some (LBits (skipn rem (byte_bits b))))) in
    ret (prev ++ concat (map byte_bits bs) ++ firstn rem (byte_bits b)).

(** src/reader.rs:236-377 [Reader::read_bits_into] with [dst.len() = n]; returns
    the contents of [dst].  The [split_off] assertions (src/lib.rs:994-1000,
    index < size) hold in the [Less] case because [0 < n < previous_len]. *)
Definition read_bits_into (n : nat) (o : order) : RM (list bool) :=
  if n =? 0 then ret [] else
  fun r =>
    let prev := left_bits (r_left r) in
    let r1 := r_set_left r None in
    (let* dst :=
       match n ?= length prev with
       | Lt =>
           let* _ := assert_ (length prev <=? 8) in
           match o with
           | Lsb0 =>
               let at_ := length prev - n in
               let* _ := modify (fun r => r_set_left r (Some (LBits (firstn at_ prev)))) in
               ret (skipn at_ prev)
           | Msb0 =>
               let* _ := modify (fun r => r_set_left r (Some (LBits (skipn n prev)))) in
               ret (firstn n prev)
           end
       | Eq => let* _ := assert_ (length prev <=? 8) in ret prev
       | Gt => match o with
               | Lsb0 => read_greater_lsb n prev
               | Msb0 => read_greater_msb n prev
               end
       end in
     let* _ := modify (fun r => r_add_bits r n) in
     ret dst) r1.

(** ** The integer fast path *)

(** Fixed-width integer operations; [shl]/[shr] panic when the shift amount
    reaches the width (debug build). *)
Definition wrap (w : N) (x : N) : N := (x mod 2 ^ w)%N.

(** src/reader.rs:419-429: the [while have < amt] loop.  [fuel] bounds the
    number of iterations; each one adds 8 bits, so [amt] of them suffice. *)
Fixpoint uint_loop (fuel amt : nat) (acc : N) (have : nat) : RM (N * nat) :=
  if amt <=? have then ret (acc, have) else
  match fuel with
  | O => diverge
  | S fuel' =>
      fun r =>
        match r_io 1 r with
        | (IoErr e, r') => (Err (if is_eof e then Incomplete amt else Io e), r')
        | (IoOk bs, r') =>
            uint_loop fuel' amt
              (N.lor (wrap 128 (N.shiftl acc 8)) (Byte.to_N (hd x00 bs))) (have + 8) r'
        end
  end.

(** src/lib.rs:1011-1023 [as_msb0_byte]: the leftover bits at the top of a byte.
    The bits below are stale in the Rust value; they are shifted out at the only
    use, [byte >> (8 - size)]. *)
Definition as_msb0_byte (l : list bool) : N :=
  bits2N (l ++ repeat false (8 - length l)).

(** src/reader.rs:393-443 [Reader::read_bits_uint_msb0]. *)
Definition read_bits_uint_msb0 (amt : nat) : RM N :=
  let* _ := assert_ ((1 <=? amt) && (amt <=? 64)) in
  fun r =>
    let '(acc, have) :=
      match r_left r with
      | Some (LByte b) => (Byte.to_N b, 8)
      | Some (LBits bits) =>
          if length bits =? 0 then (0%N, 0)
          else (N.shiftr (as_msb0_byte bits) (N.of_nat (8 - length bits)), length bits)
      | None => (0%N, 0)
      end in
    (let* p := uint_loop amt amt acc have in
     let '(acc, have) := p in
     let rest := have - amt in
     let value := N.land (wrap 64 (N.shiftr acc (N.of_nat rest)))
                         (N.shiftr (2 ^ 64 - 1) (N.of_nat (64 - amt))) in
     let* _ :=
       if rest =? 0 then ret tt
       else
         let tail := wrap 8 (N.land acc (N.shiftl 1 (N.of_nat rest) - 1)) in
         let b := wrap 8 (N.shiftl tail (N.of_nat (8 - rest))) in
         modify (fun r => r_set_left r (Some (LBits (firstn rest (N2bits 8 b)))))
     in
     let* _ := modify (fun r => r_add_bits r amt) in
     ret value) (r_set_left r None).

(** src/reader.rs:457-465 [Reader::read_bits]. *)
Definition read_bits (amt : nat) (o : order) : RM (list bool) := read_bits_into amt o.

(** ** Byte reads *)

(** src/reader.rs:526-565 [read_bytes_leftover] and 665-706
    [read_bytes_const_leftover] ([buf_len = amt = N]): [buf[0] = byte], then the
    remaining bytes. *)
Definition read_bytes_leftover (amt buf_len : nat) (b : byte) : RM (list byte) :=
  if buf_len =? 0 then panic else                      (* buf[0] *)
  let* _ := modify (fun r => r_set_left r None) in
  if amt =? 0 then panic else                          (* amt - 1 *)
  let remaining := amt - 1 in
  if remaining =? 0 then
    let* _ := modify (fun r => r_add_bits r (amt * 8)) in
    ret [b]
  else if buf_len <? remaining then fail (Incomplete (remaining * 8))
  else if buf_len <? amt then panic                    (* buf[1..][..remaining] *)
  else
    fun r =>
      match r_io remaining r with
      | (IoErr e, r') => (Err (if is_eof e then Incomplete (remaining * 8) else Io e), r')
      | (IoOk bs, r') => (Ok (b :: bs), r_add_bits r' (amt * 8))
      end.

(** src/reader.rs:511-523, 612-620, 653-660: unaligned byte read through
    [read_bits_into]; for [Lsb0] the resulting bytes are reversed. *)
Definition read_bytes_bits (amt : nat) (o : order) : RM (list byte) :=
  let* bits := read_bits_into (8 * amt) o in
  let bytes := bytes_of_bits bits in
  ret (match o with Lsb0 => rev bytes | Msb0 => bytes end).

(** src/reader.rs:475-524 [read_bytes]/[read_bytes_other]: read [amt] bytes into
    a buffer of [buf_len] bytes; returns [buf[..amt]]. *)
Definition read_bytes (amt buf_len : nat) (o : order) : RM (list byte) :=
  fun r =>
    match r_left r with
    | None =>
        if buf_len <? amt then (Panic, r) else
        match r_io amt r with
        | (IoErr e, r') => (Err (if is_eof e then Incomplete (amt * 8) else Io e), r')
        | (IoOk bs, r') => (Ok bs, r_add_bits r' (amt * 8))
        end
    | Some (LByte b) => read_bytes_leftover amt buf_len b r
    | Some (LBits _) =>
        if buf_len <? amt then (Panic, r) else read_bytes_bits amt o r
    end.

(** src/reader.rs:574-623 [read_bytes_const], 633-663 [read_bytes_const_into]:
    the same with [buf.len() = N]. *)
Definition read_bytes_const (n : nat) (o : order) : RM (list byte) := read_bytes n n o.

(** ** Skipping *)

(** src/reader.rs:181-219 [Reader::skip_bits]. *)
Definition skip_bits (amt : nat) (o : order) : RM unit :=
  fun r =>
    let first : RM nat :=
      match r_left r with
      | Some (LBits bits) =>
          let needed := Nat.min amt (length bits) in
          let* _ := read_bits_into needed o in
          ret (amt - needed)
      | _ => ret amt
      end in
    (let* amt := first in
     let bytes_amt := amt / 8 in
     let bits_amt := amt mod 8 in
     let* _ :=
       if bytes_amt =? 0 then ret tt
       else fun r =>
         if negb (r_bits r mod 8 =? 0) then (Panic, r)
         else (let* _ := lift_io (r_seek (SeekCurrent (Z.of_nat bytes_amt))) in ret tt) r
     in
     let* _ := read_bits_into bits_amt o in
     ret tt) r.
