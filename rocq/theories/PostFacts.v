From Coq Require Import Lia.
From Verif Require Import Base Stream Reader Writer Prims MonadFacts Containers Derive SafeSpec WSafeSpec WSafeFacts WSafeDerive PostSpec.

Lemma posts_calm growing A m : posts growing A m -> calm growing m.
Proof.
  induction 1.
  - apply calm_ret.
  - now apply calm_fail.
  - now apply calm_bind.
  - apply calm_write_bits_order.
  - apply calm_write_bytes.
  - now apply calm_prim.
  - apply calm_finalize.
  - intros s [Hl Hs]. unfold wp, lift_io, w_seek. destruct (k_seek w _) as [[]]; cbn.
    + split; [cbn; lia|]. unfold sink_is. rewrite H. discriminate.
    + unfold error_is. rewrite H. discriminate.
  - intros s Hs. exact (H0 _ _ s Hs).
  - apply calm_safely. eapply wsafe_writer; eauto.
  - intros s Hs. unfold wp. rewrite <- H. now apply IHposts.
Qed.
Theorem posts_safely growing m : posts growing unit m -> writes_safely growing m.
Proof. intros H. now apply calm_safely, posts_calm. Qed.
