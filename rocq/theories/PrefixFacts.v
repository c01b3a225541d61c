From Coq Require Import Lia.
From Verif Require Import Base Stream Reader Writer CodecSpec Containers ContainerSpec Derive DeriveSpec DeriveProps PrefixSpec.

Theorem prefix_free_messages cu ce o t v w a b s s' : customs_lawful SeekSource o cu ce -> message cu ce o t v a -> message cu ce o t w b ->
  a ++ s = b ++ s' -> v = w /\ a = b /\ s = s'.
Proof.
  intros Hc [[e Ev] Ea] [[f Ew] Eb] E. set (fuel := length e + length f).
  destruct (round_trip cu fuel o ce t v e Hc Ev ltac:(lia)) as (a1 & p & H1 & _ & _ & R1). rewrite Ea in H1. injection H1 as <-.
  destruct (round_trip cu fuel o ce t w f Hc Ew ltac:(lia)) as (b1 & q & H2 & _ & _ & R2). rewrite Eb in H2. injection H2 as <-.
  specialize (R1 s). specialize (R2 s'). rewrite E in R1. rewrite R1 in R2. injection R2 as _ _ <-.
  rewrite Ea in Eb. injection Eb as <-. split; [reflexivity|]. split; [reflexivity|]. now apply app_inv_head in E.
Qed.
Theorem one_reading cu ce o t : customs_lawful SeekSource o cu ce -> forall vs ws as_ bs,
  Forall2 (message cu ce o t) vs as_ -> Forall2 (message cu ce o t) ws bs -> ~ In [] as_ -> ~ In [] bs ->
  concat as_ = concat bs -> vs = ws /\ as_ = bs.
Proof.
  intros Hc vs ws as_ bs Hv. revert ws bs. induction Hv as [|v a vs as_ Ha Hv IH]; intros ws bs Hw Na Nb E.
  - inversion Hw as [|w b ws' bs' Hb Hw']; subst; [auto|]. cbn in E. symmetry in E. apply app_eq_nil in E. destruct E as [-> _]. exfalso. apply Nb. now left.
  - inversion Hw as [|w b ws' bs' Hb Hw']; subst.
    + cbn in E. apply app_eq_nil in E. destruct E as [-> _]. exfalso. apply Na. now left.
    + cbn in E. destruct (prefix_free_messages cu ce o t v w a b _ _ Hc Ha Hb E) as (-> & -> & E').
      destruct (IH ws' bs' Hw' ltac:(intros H; apply Na; now right) ltac:(intros H; apply Nb; now right) E') as [-> ->]. auto.
Qed.
