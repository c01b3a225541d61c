(** Vocabulary of the theorems about sources and sinks that take their bytes in pieces; no
    proofs here. *)
From Verif Require Import Base Stream Reader Writer Chunks Derive DeriveSpec.

(** Among [b + 1] answers in a row one is no interruption. *)
Definition patient (b : nat) (answers : nat -> answer) : Prop := forall j, exists i, i <= b /\ answers (j + i) <> Interrupts.
(** No errors but interruptions. *)
Definition reliable (answers : nat -> answer) (seeks : nat -> option iokind) : Prop :=
  (forall j k, answers j <> Fails k) /\ forall j, seeks j = None.

(** The same input at the same place, given all at once; [f]: the errors of its calls. *)
Definition at_once (d : raw) (f : nat -> option (iokind * nat)) (calls : nat) : stream :=
  mkStream (d_data d) (d_pos d) true (d_noseek d) f calls.
(** The same memory at the same place, which takes all at once. *)
Definition all_at_once (e : dest) (f : nat -> option (iokind * nat)) (calls : nat) : sink :=
  mkSink (e_data e) (e_pos e) (e_fixed e) (e_noseek e) f calls.

(** No hand-written readers; no hand-written writers. *)
Definition reader_derived (t : ty) : Prop :=
  every (fun _ => True) (fun _ => True) (fun _ a _ => a_reader a = None) (fun _ => False) t.
Definition writer_derived (t : ty) : Prop :=
  every (fun _ => True) (fun _ => True) (fun _ a _ => a_writer a = None) (fun _ => False) t.
