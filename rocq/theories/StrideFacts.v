From Coq Require Import Lia ZifyBool ZifyNat ZifyN.
From Verif Require Import Base Spec Stream Reader Session Prims MonadFacts Containers ContainerSpec Derive SafeSpec DeriveSafe FlowSpec FlowFacts FaultSpec Endure StrideSpec.

Lemma stride_moves seeks A good m i j : strides seeks A good m i j -> forall fuel, moves fuel seeks false good m i j.
Proof.
  induction 1; intros fuel.
  - apply m_leads. exact (enduring_behaves A good m i seeks H).
  - eapply m_weak; [now apply (m_prim fuel i j)|apply known_refl|apply known_refl|discriminate|auto].
  - assert (E : to_usize (Z.of_nat n) = Some (N.of_nat n)) by (rewrite to_usize_small; [f_equal|unfold usize_max in H]; lia).
    pose proof (m_pad fuel i seeks (Some (Z.of_nat n)) (Some o)) as M. unfold read_pad in M. rewrite E, Nat2N.id in M.
    cbn [pad_in] in M. replace (Z.of_nat n <? 8)%Z with (n <? 8) in M by lia. exact M.
  - intros r x r' Hp Hf E. pose proof (m_seek fuel i seeks (Some (Some w)) H r) as M. cbn [read_seek] in M. unfold bind in M. rewrite E in M.
    destruct x as [n|e| |]; (edestruct M as (P & D & K); [exact Hp|exact Hf|reflexivity|]).
    + split; [discriminate|]. split; [discriminate|]. intros v Ev. exact (K tt eq_refl).
    + split; [discriminate|]. split; [discriminate|]. discriminate.
    + now contradiction P.
    + now contradiction D.
  - eapply m_bindl; [exact (IHstrides fuel)|]. intros a Ha. now apply H1.
  - apply m_off. intros n. now apply H0.
  - eapply m_weak; eauto.
  - eapply m_ext; [intros r; symmetry; apply H|auto].
Qed.
Theorem strides_lead seeks A (good : A -> Prop) m i j : strides seeks A good m i j -> leads seeks good m i j.
Proof.
  intros H r x r' Hp E. destruct (stride_moves _ _ _ _ _ _ H (8 * length (s_data (r_s r)) + 9) r x r' Hp ltac:(lia) E) as (P & D & K).
  split; [exact P|]. split; [exact D|]. intros v Ev. destruct (K v Ev) as (G & Pl & S & M). split; [exact G|]. split; [exact Pl|]. split; [exact S|].
  intros Hs. specialize (M Hs). lia.
Qed.
