(** Sequences of public calls on one reader.  No proofs here. *)
From Verif Require Import Base Spec Stream Reader.

Definition run_rop (op : rop) : RM rout :=
  match op with
  | RBits n o => let* l := read_bits n o in ret (OBits l)
  | RBytes n o => let* bs := read_bytes n n o in ret (OBytes bs)
  | RUint n => let* v := read_bits_uint_msb0 n in ret (ONum v)
  | REnd => fun r => let '(b, r') := r_end r in (Ok (OFlag b), r')
  end.

(** Stop at the first failing call, as the [?] operator does. *)
Fixpoint run_session (ops : list rop) : RM (list rout) :=
  match ops with
  | [] => ret []
  | op :: tl =>
      let* x := run_rop op in
      let* xs := run_session tl in
      ret (x :: xs)
  end.

(** A caller that carries on after errors. *)
Fixpoint run_all (ops : list rop) (r : reader) : list (res rout) * reader :=
  match ops with
  | [] => ([], r)
  | op :: tl =>
      let '(x, r1) := run_rop op r in
      let '(xs, r2) := run_all tl r1 in
      (x :: xs, r2)
  end.

(** All states a caller can bring a reader into: any stream, any calls, including
    seeks and skips, whatever they return. *)
Inductive reachable : reader -> Prop :=
| reach_new s : reachable (reader_new s)
| reach_rop op r : reachable r -> reachable (snd (run_rop op r))
| reach_skip n o r : reachable r -> reachable (snd (skip_bits n o r))
| reach_seek w r : reachable r -> reachable (snd (r_seek w r)).

(** The unread input as a caller sees it: [rest()] and the bytes still in the
    source. *)
Definition seen (r : reader) : unread_t := (r_rest r, s_avail (r_s r)).

(** The same source without faults. *)
Definition without_faults (s : stream) : stream :=
  {| s_data := s_data s; s_pos := s_pos s; s_eat := s_eat s; s_noseek := s_noseek s;
     s_fault := fun _ => None; s_calls := s_calls s |}.
Definition r_without_faults (r : reader) : reader :=
  mkReader (without_faults (r_s r)) (r_left r) (r_bits r).

(** No failing call takes bytes from the source. *)
Definition loses_nothing (s : stream) : Prop := forall k e m, s_fault s k = Some (e, m) -> m = 0.

(** The operations and states in which every transfer error is reported: integer
    reads, byte reads without a partly consumed byte, and bit reads that need less
    than one whole byte beyond the buffered bits. *)
Definition reports_faults (op : rop) (r : reader) : Prop :=
  match op with
  | RBits n _ => n < 8 + length (r_rest r)
  | RBytes _ _ => forall bits, r_left r <> Some (LBits bits)
  | RUint _ => True
  | REnd => False
  end.

(** Bits delivered by the successful calls of a run. *)
Definition ok_bits (op : rop) (x : res rout) : nat := match x with Ok _ => rop_size op | _ => 0 end.
Fixpoint sum_ok (ops : list rop) (xs : list (res rout)) : nat :=
  match ops, xs with
  | op :: ops', x :: xs' => ok_bits op x + sum_ok ops' xs'
  | _, _ => 0
  end.

(** The same source with more bytes behind it. *)
Definition with_more (s : stream) (more : list byte) : stream :=
  {| s_data := s_data s ++ more; s_pos := s_pos s; s_eat := s_eat s; s_noseek := s_noseek s;
     s_fault := s_fault s; s_calls := s_calls s |}.
