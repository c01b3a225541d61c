(** Vocabulary of the property theorems about containers; no proofs here. *)
From Verif Require Import Base Spec Stream Reader Session Writer WSession Prims CodecSpec Containers.

(** [elem] called again and again from [r] returns [vs] and ends in [r']. *)
Inductive back_to_back {A} (elem : RM A) : reader -> list A -> reader -> Prop :=
| bb_nil r : back_to_back elem r [] r
| bb_cons r v r1 vs r' : elem r = (Ok v, r1) -> back_to_back elem r1 vs r' -> back_to_back elem r (v :: vs) r'.
(** The same with a check for the end of input before each element. *)
Inductive until_end {A} (elem : RM A) : reader -> list A -> reader -> Prop :=
| ue_end r r' : r_end r = (true, r') -> until_end elem r [] r'
| ue_more r r0 v r1 vs r' : r_end r = (false, r0) -> elem r0 = (Ok v, r1) -> until_end elem r1 vs r' ->
    until_end elem r (v :: vs) r'.

(** A condition on the bits consumed and the elements read since [r] holds for the
    first time after [vs]. *)
Definition first_stop {A} (elem : RM A) (stop : nat -> list A -> bool) (r : reader) (vs : list A) (r' : reader) : Prop :=
  vs <> [] /\ back_to_back elem r vs r' /\ stop (r_bits r' - r_bits r) vs = true /\
  forall vs1 vs2 r1, vs = vs1 ++ vs2 -> vs1 <> [] -> vs2 <> [] -> back_to_back elem r vs1 r1 ->
    stop (r_bits r1 - r_bits r) vs1 = false.
(** It never held before, and the next element fails. *)
Definition fails_first {A} (elem : RM A) (stop : nat -> list A -> bool) (r : reader) (e : derr) (r' : reader) : Prop :=
  exists vs r1, back_to_back elem r vs r1 /\ elem r1 = (Err e, r') /\
  forall vs1 vs2 r2, vs = vs1 ++ vs2 -> vs1 <> [] -> back_to_back elem r vs1 r2 -> stop (r_bits r2 - r_bits r) vs1 = false.

(** What each limit waits for. *)
Definition stop_of {A} (lim : limit A) : nat -> list A -> bool :=
  fun bits vs =>
    match lim with
    | LCount n => (N.of_nat (length vs) =? n)%N
    | LUntil p => p vs
    | LBits n => (N.of_nat bits =? n)%N
    | LBytes n => (N.of_nat bits =? 8 * n)%N
    | LEnd => false
    end.
(** The limits that read at least one element and whose numbers fit the machine. *)
Definition proper_limit {A} (size : N) (lim : limit A) : Prop :=
  match lim with
  | LCount n => n <> 0%N /\ (n * size <= isize_max)%N
  | LUntil _ => True
  | LBits n => n <> 0%N
  | LBytes n => n <> 0%N /\ (8 * n <= usize_max)%N
  | LEnd => False
  end.

(** The numbers fit the machine. *)
Definition limit_fits {A} (size : N) (lim : limit A) : Prop :=
  match lim with
  | LCount n => (n * size <= isize_max)%N
  | LBytes n => (8 * n <= usize_max)%N
  | _ => True
  end.

(** An element never moves [bits_read] back. *)
Definition forward {A} (elem : RM A) : Prop :=
  forall r v r', elem r = (Ok v, r') -> r_bits r <= r_bits r'.
(** On sources that do not fail, an element consumes at least one of the unread bits. *)
Definition consuming {A} (elem : RM A) : Prop :=
  forall r v r', readable AnySource r -> elem r = (Ok v, r') ->
    readable AnySource r' /\ unread_len (seen r') < unread_len (seen r).
Definition returns {A} (elem : RM A) : Prop := forall r r', readable AnySource r -> elem r <> (Diverge, r').

(** ** Panics

    A reader between two calls: a partly consumed byte has 1 to 7 bits left. *)
Definition valid (r : reader) : Prop :=
  match r_left r with Some (Reader.LBits l) => 0 < length l < 8 | _ => True end.
(** On every input, whatever I/O calls fail: no panic, and it returns. *)
Definition safe {A} (m : RM A) : Prop :=
  forall r x r', valid r -> m r = (x, r') -> x <> Panic /\ x <> Diverge /\ valid r'.
(** Sizes of at least one bit or byte. *)
Definition sized (c : pctx) : Prop :=
  match c with
  | CB n | CEB _ n | CBO n _ | CEBO _ n _ | CY n | CEY _ n | CEYO _ n _ => 1 <= n
  | _ => True
  end.

(** How many bits a successful read of an integer consumes.  [u8] ignores a size
    given in whole bytes. *)
Definition prim_size (p : prim) (c : pctx) : nat :=
  match c with
  | C0 | CE _ | CO _ | CEO _ _ => prim_width p
  | CY n | CEY _ n | CEYO _ n _ => 8 * match p with PU8 => 1 | _ => n end
  | CB n | CBO n _ => if n mod 8 =? 0 then match p with PU8 => 8 | _ => n end else n
  | CEB _ n | CEBO _ n _ => n
  end.

(** ** Lawful codecs

    At every alignment, or only at byte boundaries ([aligned]): writing [v] appends
    [enc], and reading [enc] gives [v]. *)
Record lawful {A} (aligned : bool) (src : source) (o : order) (rd : RM A) (wr : A -> WM unit) (v : A) (enc : list bool) : Prop := {
  lw_len : aligned = true -> length enc mod 8 = 0;
  lw_write : forall a, (aligned = true -> a = 0) -> emits o a (wr v) enc;
  lw_read : reads src o rd enc v
}.
Definition lawful_list {A} (aligned : bool) (src : source) (o : order) (rd : RM A) (wr : A -> WM unit) (l : list A) (encs : list (list bool)) : Prop :=
  Forall2 (lawful aligned src o rd wr) l encs.

(** Whenever the unread bits start with [enc], [m] fails with [e]. *)
Definition rejects {A} (src : source) (o : order) (m : RM A) (enc : list bool) (e : derr) : Prop :=
  forall r rest, readable src r -> unread_string o (seen r) = enc ++ rest -> exists r', m r = (Err e, r').

(** ** Finite maps *)

Fixpoint find {K V} (eqb : K -> K -> bool) (k : K) (l : list (K * V)) : option V :=
  match l with
  | [] => None
  | (k', v) :: tl => if eqb k k' then Some v else find eqb k tl
  end.
(** The value of the last pair with key [k]. *)
Definition find_last {K V} (eqb : K -> K -> bool) (k : K) (l : list (K * V)) : option V := find eqb k (rev l).
