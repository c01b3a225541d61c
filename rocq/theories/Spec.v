(** The independent vocabulary the property theorems are stated in. *)
From Verif Require Import Base.

(** A bit string seen from its first or from its last bit. *)
Definition orient (o : order) (l : list bool) : list bool :=
  match o with Msb0 => l | Lsb0 => rev l end.

(** Bytes as one bit string: every byte starting from its most ([Msb0]) or least
    ([Lsb0]) significant bit, bytes in stream order. *)
Definition bitstring (o : order) (data : list byte) : list bool :=
  flat_map (fun b => orient o (byte_bits b)) data.

(** ** What a sequence of bit reads must return

    The unread input: the bits left of a partly consumed byte (most significant
    first) and the bytes behind it. *)
Definition unread_t : Type := list bool * list byte.

(** Take one bit.  A partly consumed byte is a double-ended queue: [Msb0] takes
    its most significant bit, [Lsb0] its least significant bit.  When it is used
    up the next byte is opened. *)
Definition pop (o : order) (u : unread_t) : option (bool * unread_t) :=
  let take part bytes :=
    match o, part with
    | _, [] => None
    | Msb0, b :: tl => Some (b, (tl, bytes))
    | Lsb0, _ => Some (last part false, (removelast part, bytes))
    end in
  match fst u, snd u with
  | [], [] => None
  | [], b :: bs => take (byte_bits b) bs
  | part, bs => take part bs
  end.

(** Take [n] bits, in the order they are taken. *)
Fixpoint take_bits (o : order) (n : nat) (u : unread_t) : option (list bool * unread_t) :=
  match n with
  | O => Some ([], u)
  | S n' =>
      match pop o u with
      | None => None
      | Some (b, u1) =>
          match take_bits o n' u1 with
          | None => None
          | Some (l, u2) => Some (b :: l, u2)
          end
      end
  end.

(** All unread bits in the order [o] delivers them. *)
Definition unread_string (o : order) (u : unread_t) : list bool :=
  orient o (fst u) ++ bitstring o (snd u).
Definition unread_len (u : unread_t) : nat := length (fst u) + 8 * length (snd u).

(** Cut a bit string taken in order [o] back into bytes. *)
Definition bytes_of_string (o : order) (l : list bool) : list byte :=
  map (fun c => byte_of_bits (orient o c)) (chunks8 l).

(** ** Sessions: sequences of public reader calls *)

Inductive rop : Type :=
| RBits (n : nat) (o : order)     (* read_bits(n, o) *)
| RBytes (n : nat) (o : order)    (* read_bytes(n, buf, o) with buf.len() = n; read_bytes_const::<n> *)
| RUint (n : nat)                 (* an unsigned integer of n bits, big-endian, Msb0 *)
| REnd.                           (* end() *)

Inductive rout : Type := OBits (l : list bool) | OBytes (bs : list byte) | ONum (v : N) | OFlag (b : bool).

(** Bits requested. *)
Definition rop_size (op : rop) : nat :=
  match op with RBits n _ => n | RBytes n _ => 8 * n | RUint n => n | REnd => 0 end.

(** What each call must return on the unread input [u]; [None]: not enough input. *)
Definition spec_rop (op : rop) (u : unread_t) : option (rout * unread_t) :=
  match op with
  | RBits n o => option_map (fun p => (OBits (orient o (fst p)), snd p)) (take_bits o n u)
  | RBytes n o => option_map (fun p => (OBytes (bytes_of_string o (fst p)), snd p)) (take_bits o (8 * n) u)
  | RUint n => option_map (fun p => (ONum (bits2N (fst p)), snd p)) (take_bits Msb0 n u)
  | REnd => Some (OFlag (unread_len u =? 0), u)
  end.
Fixpoint spec_session (ops : list rop) (u : unread_t) : option (list rout * unread_t) :=
  match ops with
  | [] => Some ([], u)
  | op :: tl =>
      match spec_rop op u with
      | None => None
      | Some (x, u1) => option_map (fun p => (x :: fst p, snd p)) (spec_session tl u1)
      end
  end.

(** Sizes the API supports: integers have 1 to 64 bits on this path; a byte read
    has at least one byte (see [C06_zero_byte_read_refuted] for zero). *)
Definition rop_ok (op : rop) : Prop :=
  match op with RBits _ _ => True | RBytes n _ => 0 < n | RUint n => 1 <= n <= 64 | REnd => True end.

(** The bits a call delivered, as a segment of the [o]-ordered bit string. *)
Definition out_string (o : order) (op : rop) (x : rout) : list bool :=
  match op, x with
  | _, OBits l => orient o l
  | _, OBytes bs => bitstring o bs
  | RUint n, ONum v => N2bits n v
  | _, _ => []
  end.
Definition rop_in_order (o : order) (op : rop) : Prop :=
  match op with
  | RBits _ o' => o' = o | RBytes _ o' => o' = o | RUint _ => o = Msb0 | REnd => True
  end.

(** Total number of bits requested by a session. *)
Definition total (ops : list rop) : nat := list_sum (map rop_size ops).

(** The segments delivered by a session, call by call. *)
Fixpoint out_strings (o : order) (ops : list rop) (xs : list rout) : list (list bool) :=
  match ops, xs with
  | op :: ops', x :: xs' => out_string o op x :: out_strings o ops' xs'
  | _, _ => []
  end.

(** All bits delivered by a session of mixed orders, each call in its own order. *)
Definition op_order (op : rop) : order := match op with RBits _ o | RBytes _ o => o | _ => Msb0 end.
Definition delivered (op : rop) (x : rout) : list bool := out_string (op_order op) op x.
Fixpoint all_delivered (ops : list rop) (xs : list rout) : list bool :=
  match ops, xs with
  | op :: ops', x :: xs' => delivered op x ++ all_delivered ops' xs'
  | _, _ => []
  end.
Definition unread_bits (u : unread_t) : list bool := fst u ++ bits_of_bytes (snd u).

Definition is_read (op : rop) : Prop := match op with REnd => False | _ => True end.

(** A session and its results without the end-of-input checks. *)
Definition drop_ends (ops : list rop) : list rop :=
  filter (fun op => match op with REnd => false | _ => true end) ops.
Definition drop_flags (xs : list rout) : list rout :=
  filter (fun x => match x with OFlag _ => false | _ => true end) xs.

(** ** Sequences of public writer calls *)

Inductive wop : Type :=
| WBits (l : list bool) (o : order)   (* write_bits_order(l, o); write_bits(l) for Msb0 *)
| WBytes (bs : list byte)             (* write_bytes(bs) *)
| WUint (v : N) (n : nat).            (* the low n bits of an integer, big-endian, Msb0 *)

(** The bits a call writes, most significant first. *)
Definition wop_bits (op : wop) : list bool :=
  match op with WBits l _ => l | WBytes bs => bits_of_bytes bs | WUint v n => N2bits n v end.
Definition written (ops : list wop) : list bool := concat (map wop_bits ops).

(** Sizes the API supports. *)
Definition wop_ok (op : wop) : Prop :=
  match op with WUint _ n => 1 <= n <= 64 | _ => True end.
Definition wop_in_msb0 (op : wop) : Prop :=
  match op with WBits _ o => o = Msb0 | WBytes _ | WUint _ _ => True end.

(** The same, for writes that are read back: an empty byte string is excluded
    because the read of zero bytes can fail ([C06_zero_byte_read_refuted]). *)
Definition wop_readable (op : wop) : Prop :=
  match op with WBits _ _ => True | WBytes bs => bs <> [] | WUint _ n => 1 <= n <= 64 end.

(** The call that reads back what [op] wrote, and what it must return. *)
Definition read_of (op : wop) : rop :=
  match op with WBits l o => RBits (length l) o | WBytes bs => RBytes (length bs) Msb0 | WUint _ n => RUint n end.
Definition value_of (op : wop) : rout :=
  match op with WBits l _ => OBits l | WBytes bs => OBytes bs | WUint v n => ONum (v mod 2 ^ N.of_nat n)%N end.

(** Schedules of orders and lengths: [m] bits of an unfinished byte are pending in
    order [t].  A call in the same order always fits.  A call in the other order
    fits when nothing is pending and it has at most 8 bits, or when it completes
    the byte exactly. *)
Definition fits1 (t : order) (m : nat) (op : wop) : option (order * nat) :=
  let bits n o :=
    if order_eqb o t then Some (o, (m + n) mod 8)
    else if (m =? 0) && (n <=? 8) then Some (o, n mod 8)
    else if (0 <? n) && (m + n =? 8) then Some (o, 0)
    else None in
  match op with
  | WBits l o => bits (length l) o
  | WBytes bs => if m =? 0 then Some (t, 0) else bits (8 * length bs) Msb0
  | WUint _ n => bits n Msb0
  end.
Fixpoint fits (t : order) (m : nat) (ops : list wop) : bool :=
  match ops with
  | [] => true
  | op :: tl => match fits1 t m op with Some (t', m') => fits t' m' tl | None => false end
  end.
