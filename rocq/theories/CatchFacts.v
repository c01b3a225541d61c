From Coq Require Import Lia.
From Verif Require Import Base Stream Reader Prims MonadFacts Containers ContainerSpec ContainerFacts Safety Derive CatchSpec.

Lemma safe_skip_short n o : n < 8 -> safe (skip_bits n o).
Proof.
  intros Hn r x r' Hv E. unfold skip_bits in E.
  match type of E with bind ?m ?f r = _ => assert (S : safe (bind m f)) end; [|exact (S r x r' Hv E)]. clear x r' E.
  apply safe_bind_at.
  - destruct (r_left r) as [[b|l]|]; try apply safe_ret. apply safe_bind; [apply safe_bits|]. intros _. apply safe_ret.
  - intros r0 a r1 E0 _. assert (Ha : a < 8).
    { destruct (r_left r) as [[b|l]|].
      2: (apply bind_inv in E0; destruct E0 as (y & r2 & _ & E0)).
      all: apply pair_inj in E0; destruct E0 as [E0 _]; apply ok_inj in E0; lia. }
    rewrite (Nat.div_small a 8 Ha), Nat.eqb_refl. apply safe_bind; [apply safe_ret|]. intros _. apply safe_bind; [apply safe_bits|]. intros _. apply safe_ret.
Qed.
Theorem catches_safe A m : catches A m -> safe m.
Proof.
  induction 1.
  - now apply safe_lift.
  - intros r x r' Hv E. destruct (m r) as [y r1] eqn:E1. destruct (IHcatches r y r1 Hv E1) as (P & D & V). exact (H1 y P D r1 x r' V E).
  - apply safe_bits.
  - now apply safe_bytes.
  - now apply safe_prim.
  - now apply safe_skip_short.
  - intros r x r' Hv E. unfold lift_io, r_seek in E. destruct (s_seek w _) as [[p|k] s]; injection E as <- <-; repeat split; discriminate.
  - intros r x r' Hv E. unfold r_end in E. destruct (r_left r) eqn:El.
    + injection E as <- <-. repeat split; try discriminate. exact Hv.
    + destruct (r_io 1 r) as [[bs|k] r2] eqn:Ei.
      * injection E as <- <-. repeat split; discriminate.
      * destruct (is_eof k); injection E as <- <-; repeat split; try discriminate.
        unfold r_io in Ei. destruct (s_read_exact 1 (r_s r)) as [y s]. injection Ei as _ <-. unfold valid, r_set_s. cbn. now rewrite El.
  - intros r x r' Hv E. exact (H0 _ r x r' Hv E).
  - intros r x r' Hv E. rewrite <- H in E. exact (IHcatches r x r' Hv E).
Qed.
(** A hand-written type by itself. *)
Theorem catches_from_reader cu fuel k s bit : catches value (cu_read (cu k) []) -> bit < 8 ->
  fst (from_reader cu fuel (TCustom k) s bit) <> Panic /\ fst (from_reader cu fuel (TCustom k) s bit) <> Diverge.
Proof.
  intros H Hb. unfold from_reader.
  match goal with |- context [bind ?m ?f (reader_new s)] => assert (S : safe (bind m f)) end.
  { apply safe_bind; [destruct (bit =? 0); [apply safe_ret|now apply safe_skip_short]|]. intros _.
    apply safe_bind; [exact (catches_safe _ _ H)|]. intros v r x r' Hv E. injection E as <- <-. repeat split; try discriminate. exact Hv. }
  match goal with |- context [bind ?m ?f (reader_new s)] => destruct (bind m f (reader_new s)) as [x r] eqn:E end.
  destruct (S (reader_new s) x r I E) as (P & D & _). split; [exact P|exact D].
Qed.
