From Verif Require Import Base MonadFacts Stream Reader Prims Derive DeriveSpec MoreSpec MoreFacts NeedSpec NeedFacts AwaitSpec.

Theorem awaits_unaffected A m : awaits A m -> forall more, unaffected more m.
Proof.
  induction 1; intros more.
  - apply a_lift.
  - apply a_bind; auto.
  - apply a_bits_into.
  - apply a_bytes.
  - apply a_prim.
  - apply a_skip.
  - now apply a_seek.
  - apply a_off; auto.
  - apply derived_more; [auto|discriminate].
  - intros r. specialize (IHawaits more r). destruct (m r) as [[a|e| |] r'] eqn:E; [now rewrite IHawaits| |exact I|].
    + destruct (m (r_more more r)) as [x r2]. destruct e; try (rewrite H0; exact I); cbn [fst] in IHawaits; subst x; destruct (h _); cbn; auto.
    + destruct (m (r_more more r)) as [x r2]. cbn [fst] in IHawaits. now subst x.
  - eapply a_ext; eauto.
Qed.
Theorem awaits_asks A m : awaits A m -> asks m.
Proof.
  induction 1.
  - now apply k_lift.
  - now apply k_bind.
  - apply k_bits.
  - apply k_bytes.
  - apply k_prim.
  - apply k_skip.
  - apply k_seek.
  - now apply (k_st (fun r => f (r_bits r))).
  - now apply read_asks.
  - intros r x r' T E. destruct (m r) as [y r1] eqn:Em. destruct (IHawaits r y r1 T Em) as [T1 K].
    destruct y as [a|e| |]; injection E as <- <-; (split; [exact T1|]); intros n En; try discriminate En.
    destruct n as [|n]; [|apply Nat.lt_0_succ]. injection En as En. apply H1 in En. subst e. exact (K 0 eq_refl).
  - eapply k_ext; eauto.
Qed.
