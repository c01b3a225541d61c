(** What it means that a write produces a bit string and that a read consumes one.
    Vocabulary of the property theorems about values; no proofs here. *)
From Verif Require Import Base Spec Stream Reader Session Writer WSession Prims.

(** ** Writers *)

(** A writer whose sink accepts everything, between two calls. *)
Definition writable (w : writer) : Prop :=
  k_fixed (w_k w) = false /\ (forall j, k_fault (w_k w) j = None) /\ length (w_rest w) < 8.
(** The writer is in the middle of a stream of bit order [o].  A stream in [Lsb0]
    order may also be started at a byte boundary. *)
Definition in_order (o : order) (w : writer) : Prop :=
  match o with Msb0 => w_ord w = Msb0 | Lsb0 => w_ord w = Lsb0 \/ w_rest w = [] end.

(** In every stream of order [o], [a] bits into a byte, [m] succeeds and appends
    exactly the bit string [enc]: complete bytes are stored, the rest is pending. *)
Definition emits (o : order) (a : nat) (m : WM unit) (enc : list bool) : Prop :=
  forall w, writable w -> in_order o w -> length (w_rest w) = a ->
  exists w' bs, m w = (Ok tt, w') /\ stored w w' bs /\ writable w' /\ in_order o w' /\
    bitstring o bs ++ orient o (w_rest w') = orient o (w_rest w) ++ enc.

(** ** Readers *)

(** [AnySource]: every source that does not fail.  [SeekSource]: it can also seek,
    is not past its end, [bits_read] agrees with its position, and no byte is
    peeked (no [end()] just before). *)
Inductive source : Type := AnySource | SeekSource.
Definition readable (src : source) (r : reader) : Prop :=
  (forall j, s_fault (r_s r) j = None) /\
  match r_left r with Some (LBits l) => 0 < length l < 8 | _ => True end /\
  match src with
  | AnySource => True
  | SeekSource =>
      s_noseek (r_s r) = None /\ s_pos (r_s r) <= length (s_data (r_s r)) /\
      r_bits r + length (r_rest r) = 8 * s_pos (r_s r) /\
      match r_left r with Some (LByte _) => False | _ => True end
  end.

(** Whenever the unread bits, taken in order [o], start with [enc], [m] returns [v]
    and consumes exactly [enc]. *)
Definition reads {A} (src : source) (o : order) (m : RM A) (enc : list bool) (v : A) : Prop :=
  forall r rest, readable src r -> unread_string o (seen r) = enc ++ rest ->
  exists r', m r = (Ok v, r') /\ readable src r' /\ unread_string o (seen r') = rest /\
    r_bits r' = r_bits r + length enc /\
    s_data (r_s r') = s_data (r_s r) /\ s_pos (r_s r) <= s_pos (r_s r').

(** Whenever fewer than [n] bits are unread, [m] reports [Incomplete]. *)
Definition runs_short {A} (src : source) (m : RM A) (n : nat) : Prop :=
  forall r, readable src r -> unread_len (seen r) < n ->
  exists e r', m r = (Err (Incomplete e), r').

(** ** Layout of integers

    [n] bits of [v]: whole bytes by byte order; the odd bits are the most
    significant ones and sit next to the most significant byte. *)
Definition layout (e : endian) (o : order) (n : nat) (v : N) : list bool :=
  let whole := n / 8 in
  let odd := N2bits (n mod 8) (v / 2 ^ N.of_nat (8 * whole))%N in
  match e with
  | Little => bitstring o (le_bytes whole v) ++ orient o odd
  | Big => orient o odd ++ bitstring o (be_bytes whole v)
  end.

(** The value of a bit pattern of [w] bits read as two's complement. *)
Definition signed (w : nat) (v : N) : Z :=
  if (2 * v <? 2 ^ N.of_nat w)%N then Z.of_N v else (Z.of_N v - 2 ^ Z.of_nat w)%Z.

(** Contexts with a size in bits: byte order, size, bit order. *)
Definition bits_of_ctx (c : pctx) : option (endian * nat * order) :=
  match c with
  | CB n => Some (Little, n, Msb0)
  | CEB e n => Some (e, n, Msb0)
  | CBO n o => Some (Little, n, o)
  | CEBO e n o => Some (e, n, o)
  | _ => None
  end.
(** The other contexts: a size in bytes, or the whole type of [wb] bytes. *)
Definition bytes_of_ctx (wb : nat) (c : pctx) : option (endian * nat * order) :=
  match c with
  | C0 => Some (Little, wb, Msb0)
  | CE e => Some (e, wb, Msb0)
  | CO o => Some (Little, wb, o)
  | CEO e o => Some (e, wb, o)
  | CY n => Some (Little, n, Msb0)
  | CEY e n => Some (e, n, Msb0)
  | CEYO e n o => Some (e, n, o)
  | _ => None
  end.
Definition is_unsigned (p : prim) : Prop := match p with PI _ => False | _ => True end.

(** ** Sequences of integer fields *)

Definition field : Type := (prim * pctx) * N.
Fixpoint write_fields (fs : list field) : WM unit :=
  match fs with
  | [] => ret tt
  | (p, c, v) :: tl => let* _ := prim_write p c v in write_fields tl
  end.
Fixpoint read_fields (ks : list (prim * pctx)) : RM (list N) :=
  match ks with
  | [] => ret []
  | (p, c) :: tl => let* v := prim_read p c in let* vs := read_fields tl in ret (v :: vs)
  end.
(** An unsigned field with a bit size in order [o] that holds its value; sizes that
    big-endian Lsb0 does not support are left out. *)
Definition supported (p : prim) (e : endian) (n : nat) (o : order) : Prop :=
  1 <= n <= prim_width p /\ (e = Big -> o = Lsb0 -> n <= 8 \/ n = prim_width p).
Definition field_fits (o : order) (f : field) : Prop :=
  let '(p, c, v) := f in
  is_unsigned p /\ exists e n, bits_of_ctx c = Some (e, n, o) /\ supported p e n o /\ (v < 2 ^ N.of_nat n)%N.
Definition ctx_bits (c : pctx) : nat := match bits_of_ctx c with Some (_, n, _) => n | None => 0 end.
Definition fields_bits (fs : list field) : nat := list_sum (map (fun f : field => ctx_bits (snd (fst f))) fs).
