(** Common data: results, bits, bytes.  No proofs here. *)
From Coq Require Export List Arith NArith ZArith Bool.
From Coq Require Export Strings.Byte.
Export ListNotations.
Open Scope nat_scope.
Open Scope list_scope.

(** ** Errors and results *)

(** I/O error kinds (std::io::ErrorKind).  Only the kinds deku produces or
    inspects are named; [OtherKind n] stands for every remaining kind. *)
Inductive iokind : Type :=
| UnexpectedEof | WriteZero | InvalidInput | InvalidData | NotFound
| OtherKind (n : nat).

Definition is_eof (k : iokind) : bool :=
  match k with UnexpectedEof => true | _ => false end.

(** src/error.rs:40-60 [DekuError].  Messages are dropped, [NeedSize] is the
    number of bits (src/error.rs:11-31). *)
Inductive derr : Type :=
| Incomplete (bits : nat)
| Parse | InvalidParam | Assertion | IdVariantNotFound
| Io (k : iokind).

(** Outcome of a call.  [Panic]: a Rust panic of the debug build (failed
    [assert!]/[debug_assert!], index out of range, arithmetic underflow, shift
    overflow).  [Diverge]: the fuel of an unbounded Rust loop ran out. *)
Inductive res (A : Type) : Type :=
| Ok (a : A) | Err (e : derr) | Panic | Diverge.
Arguments Ok {A} a.
Arguments Err {A} e.
Arguments Panic {A}.
Arguments Diverge {A}.

(** A method taking [&mut self]: result and new state, also on failure. *)
Definition ST (S A : Type) : Type := S -> res A * S.

Definition ret {S A} (a : A) : ST S A := fun s => (Ok a, s).
Definition fail {S A} (e : derr) : ST S A := fun s => (Err e, s).
Definition panic {S A} : ST S A := fun s => (Panic, s).
Definition diverge {S A} : ST S A := fun s => (Diverge, s).
Definition get {S} : ST S S := fun s => (Ok s, s).
Definition put {S} (s : S) : ST S unit := fun _ => (Ok tt, s).

(** The [?] operator. *)
Definition bind {S A B} (m : ST S A) (f : A -> ST S B) : ST S B :=
  fun s => match m s with
           | (Ok a, s') => f a s'
           | (Err e, s') => (Err e, s')
           | (Panic, s') => (Panic, s')
           | (Diverge, s') => (Diverge, s')
           end.

Notation "'let*' x ':=' m 'in' k" := (bind m (fun x => k))
  (at level 200, x name, right associativity).
Notation "m ';;;' k" := (bind m (fun _ => k)) (at level 200, right associativity).

(** [assert!] and [debug_assert!]. *)
Definition assert_ {S} (b : bool) : ST S unit := if b then ret tt else panic.

(** src/ctx.rs [Order], [Endian]. *)
Inductive order : Type := Msb0 | Lsb0.
Inductive endian : Type := Little | Big.
Definition order_eqb (a b : order) : bool :=
  match a, b with Msb0, Msb0 | Lsb0, Lsb0 => true | _, _ => false end.

(** ** Bits and bytes *)

(** The bits of a byte as [BitSlice<u8, Msb0>] iterates them. *)
Definition byte_bits (b : byte) : list bool :=
  let '(b0, (b1, (b2, (b3, (b4, (b5, (b6, b7))))))) := Byte.to_bits b in
  [b7; b6; b5; b4; b3; b2; b1; b0].

(** bitvec [load_be::<u8>] of an 8-bit [Msb0] slice.  Only used on slices of
    length 8; other lengths give 0 here and are never produced. *)
Definition byte_of_bits (l : list bool) : byte :=
  match l with
  | [b7; b6; b5; b4; b3; b2; b1; b0] =>
      Byte.of_bits (b0, (b1, (b2, (b3, (b4, (b5, (b6, b7)))))))
  | _ => x00
  end.

(** [BitSlice::from_slice]. *)
Definition bits_of_bytes (l : list byte) : list bool := flat_map byte_bits l.

(** bitvec [chunks_exact(8)]: whole chunks from the front, and the remainder. *)
Fixpoint chunks8 (l : list bool) : list (list bool) :=
  match l with
  | a :: b :: c :: d :: e :: f :: g :: h :: tl => [a; b; c; d; e; f; g; h] :: chunks8 tl
  | _ => []
  end.
Definition chunks8_rem (l : list bool) : list bool :=
  skipn (8 * (length l / 8)) l.

(** bitvec [rchunks_exact(8)]: whole chunks taken from the back, last chunk
    first; the remainder is at the front. *)
Definition rchunks8_rem (l : list bool) : list bool := firstn (length l mod 8) l.
Definition rchunks8 (l : list bool) : list (list bool) :=
  rev (chunks8 (skipn (length l mod 8) l)).

(** Whole bytes of a bit string, front first. *)
Definition bytes_of_bits (l : list bool) : list byte := map byte_of_bits (chunks8 l).

(** Unsigned value of a bit string, most significant bit first
    ([load_be], [from_be_bytes]). *)
Fixpoint bits2N_acc (l : list bool) (acc : N) : N :=
  match l with
  | [] => acc
  | b :: tl => bits2N_acc tl (2 * acc + (if b then 1 else 0))%N
  end.
Definition bits2N (l : list bool) : N := bits2N_acc l 0%N.

(** The low [n] bits of [v], most significant first. *)
Fixpoint N2bits (n : nat) (v : N) : list bool :=
  match n with
  | O => []
  | S m => N2bits m (N.div2 v) ++ [N.odd v]
  end.

Definition byte_of_N (v : N) : byte := byte_of_bits (N2bits 8 v).

(** src/error.rs:29-31 [NeedSize::byte_size]. *)
Definition need_bytes (bits : nat) : nat := (bits + 7) / 8.

(** [usize::div_ceil(8)]. *)
Definition ceil8 (n : nat) : nat := (n + 7) / 8.
