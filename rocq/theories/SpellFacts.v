From Verif Require Import Base Spec Stream Reader Session Writer WSession Prims MonadFacts CodecSpec Containers ContainerSpec Derive DeriveSpec DeriveFacts DeriveSound SpellSpec.

Lemma spells_sound src o A m w pos e v : spells src o A m w pos e v -> emits_at o pos w e /\ reads_at src o pos m e v.
Proof.
  induction 1.
  - assert (L : customs_upto src o (length enc) cu no_format) by (intros k a p' x y E; discriminate).
    destruct (encode_sound src o cu no_format (length enc) L _ _ _ _ _ _ H) as [W R]. split; [exact W|]. exact (R (le_n _)).
  - destruct (encode_sound src o cu ce fuel (lawful_upto _ _ _ _ _ H) _ _ _ _ _ _ H0) as [W R]. split; [exact W|auto].
  - split; [apply emits_at_ret|apply reads_at_ret].
  - destruct IHspells1 as [W1 R1], IHspells2 as [W2 R2]. split; [now apply emits_at_bind|]. eapply reads_at_bind; eassumption.
  - destruct IHspells as [W R]. split; [exact W|]. eapply reads_at_bind_nil; [exact R|]. rewrite H0. apply (reads_at_ret src o _ b).
  - destruct IHspells as [W R]. split; [eapply emits_at_ext; eauto|eapply reads_at_ext; eauto].
Qed.
Theorem customs_spell_lawful src o cu ce : customs_spell src o cu ce -> customs_lawful src o cu ce.
Proof. intros H k args pos v enc E. exact (spells_sound _ _ _ _ _ _ _ _ (H k args pos v enc E)). Qed.
