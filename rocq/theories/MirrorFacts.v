From Coq Require Import Lia.
From Verif Require Import Base Spec Stream Reader Session Writer WSession Prims MonadFacts CodecSpec Containers ContainerSpec Derive DeriveSpec DeriveFacts SafeSpec CanonSpec CanonFacts CanonDerive MirrorSpec.

Theorem mirrors_faithful o A good m wr p q : mirrors o A good m wr p q -> faithful o p q good m wr.
Proof.
  induction 1.
  - now apply prim_faithful.
  - exact (proj1 (types_ok cu o fuel) t p q lim args H).
  - apply faithful_ret; [apply ends_refl|assumption|intros pos; apply emits_at_ret].
  - apply faithful_fail.
  - intros r v r' Hh E. apply bind_inv in E. destruct E as (a & r1 & E1 & E2).
    destruct (IHmirrors r a r1 Hh E1) as (G1 & Hh1 & e1 & U1 & B1 & W1). destruct (H1 a G1 r1 v r' Hh1 E2) as (G2 & Hh2 & e2 & U2 & B2 & W2).
    destruct (H2 a v G1 G2) as [G Hw].
    split; [exact G|]. split; [exact Hh2|]. exists (e1 ++ e2). split; [now rewrite U1, U2, app_assoc|]. split; [rewrite app_length; lia|].
    eapply emits_at_ext; [intros w; symmetry; apply Hw|]. apply emits_at_bind; [exact W1|]. now rewrite <- B1.
  - eapply faithful_filter; [exact IHmirrors|]. intros a b r r' Ha E. destruct (f a) eqn:Ef; try discriminate E.
    apply pair_inj in E. destruct E as [E <-]. apply ok_inj in E. subst. split; [reflexivity|]. now apply H0.
  - eapply faithful_ends; [|eassumption]. eapply faithful_starts; eassumption.
  - eapply faithful_ext; [intros r; symmetry; apply H|intros v w; symmetry; apply H0|exact IHmirrors].
Qed.
