(** Vocabulary of the theorems about the size that [DekuError::Incomplete] reports; no
    proofs here. *)
From Verif Require Import Base Stream Reader Session Prims Containers Derive DeriveSpec MoreSpec.

(** src/error.rs:27-30 [NeedSize::byte_size]. *)
Definition byte_size (bits : nat) : nat := (bits + 7) / 8.

(** A source that reports the end of its data only there. *)
Definition true_end (s : stream) : Prop := forall k n, s_fault s k <> Some (UnexpectedEof, n).
(** Never [Incomplete] with size 0. *)
Definition asks {A} (m : RM A) : Prop :=
  forall r x r', true_end (r_s r) -> m r = (x, r') -> true_end (r_s r') /\ forall n, x = Err (Incomplete n) -> 0 < n.
(** What is hand-written in [t] keeps to that. *)
Definition asking (cu : nat -> custom) (t : ty) : Prop :=
  every (fun _ => True) (fun _ => True)
    (fun _ a _ => (forall f, a_reader a = Some f -> forall ctx fs off, asks (f ctx fs off)) /\
                  (forall f, a_map a = Some f -> forall ctx fs off v, f ctx fs off v <> Err (Incomplete 0)))
    (fun k => forall args, asks (cu_read (cu k) args)) t.

(** A reader over a source without faults that is not past its end. *)
Definition inside (r : reader) : Prop := (forall k, s_fault (r_s r) k = None) /\ s_pos (r_s r) <= length (s_data (r_s r)).
(** The loop of a program that receives [all] in pieces: it has the first [have] bytes; on
    [Incomplete] it asks for as many more as [byte_size] says, gets those that are there,
    and tries again from the start.  [Diverge] if this takes more than [tries] tries. *)
Fixpoint receive (tries : nat) (cu : nat -> custom) (fuel : nat) (t : ty) (all : list byte) (have : nat) : res value :=
  match from_bytes cu fuel t (firstn have all) 0 with
  | Err (Incomplete n) =>
      if length all <=? have then Err (Incomplete n)
      else match tries with O => Diverge | S k => receive k cu fuel t all (have + byte_size n) end
  | x => res_map x snd
  end.
