(** Hand-written code that reads and stops at the first error is safe in the sense of C49. *)
From Coq Require Import Lia.
From Verif Require Import Base Spec Stream Reader Session Prims MonadFacts ReaderFacts ReaderOps SessionFacts CodecSpec CodecFacts Containers ContainerSpec ContainerFacts Safety PrimFacts ContainerProps Derive DeriveSound SafeSpec SafeFacts DeriveSafe FaultSpec.

Lemma enduring_safe A (good : A -> Prop) m : enduring A good m -> forall fuel inside sk, runs fuel inside sk false good m.
Proof.
  induction 1 as [A good a Ha|A good e|A B mid good m f Hm IHm Hf IHf|n o|n size o Hn|p c Hp Hs|n o Hn|A good f Hf IH|A good m1 m2 He Hm IH]; intros fuel inside sk.
  - now apply runs_ret.
  - apply runs_fail.
  - eapply runs_bindl; [apply IHm|]. intros a Ha. now apply IHf.
  - apply runs_bits.
  - eapply runs_weak; [apply (runs_walks fuel inside sk (8 * n) (fun bs => length bs = n)); [now apply safe_bytes|now apply walks_bytes|now apply ranged_bytes]|discriminate|auto].
  - eapply runs_weak; [now apply runs_prim|discriminate|auto].
  - now apply runs_skip.
  - intros r x r' Hp Hfu E. exact (IH _ _ fuel inside sk r x r' Hp Hfu E).
  - eapply runs_ext; [intros r; symmetry; apply He|apply IH].
Qed.
Theorem enduring_behaves A (good : A -> Prop) m inside sk : enduring A good m -> behaves inside sk good m.
Proof.
  intros H r x r' Hp E. destruct (enduring_safe A good m H (8 * length (s_data (r_s r)) + 9) inside sk r x r' Hp ltac:(lia) E) as (P & D & K).
  split; [exact P|]. split; [exact D|]. intros v Ev. destruct (K v Ev) as (G & Pl & S & M). split; [exact G|]. split; [exact Pl|]. split; [exact S|]. intros Hs. specialize (M Hs). lia.
Qed.
