(** Shifts and masks on [N] as arithmetic. *)
From Coq Require Import Lia ZifyBool ZifyNat ZifyN.
From Verif Require Import Base Spec BitsFacts.
Ltac Zify.zify_post_hook ::= Z.div_mod_to_equations.

Lemma pow2_nz n : (2 ^ n <> 0)%N.
Proof. apply N.pow_nonzero. discriminate. Qed.
Lemma lor_shiftl_add a b n : (b < 2 ^ n)%N -> N.lor (N.shiftl a n) b = (a * 2 ^ n + b)%N.
Proof.
  intros H. rewrite <- N.lxor_lor.
  - rewrite <- N.add_nocarry_lxor; [now rewrite N.shiftl_mul_pow2|].
    apply N.bits_inj. intros i. rewrite N.land_spec, N.bits_0.
    destruct (N.lt_ge_cases i n) as [Hi|Hi].
    + now rewrite N.shiftl_spec_low.
    + rewrite <- (N.mod_small b (2 ^ n)) by exact H. rewrite (N.mod_pow2_bits_high b n i) by exact Hi.
      apply andb_false_r.
  - apply N.bits_inj. intros i. rewrite N.land_spec, N.bits_0.
    destruct (N.lt_ge_cases i n) as [Hi|Hi].
    + now rewrite N.shiftl_spec_low.
    + rewrite <- (N.mod_small b (2 ^ n)) by exact H. rewrite (N.mod_pow2_bits_high b n i) by exact Hi.
      apply andb_false_r.
Qed.
Lemma land_pow2_mask a n : N.land a (2 ^ n - 1) = (a mod 2 ^ n)%N.
Proof. rewrite <- N.land_ones, N.ones_equiv. f_equal. lia. Qed.
Lemma mask64 amt : (amt <= 64)%N -> N.shiftr (2 ^ 64 - 1) (64 - amt) = (2 ^ amt - 1)%N.
Proof.
  intros H. rewrite N.shiftr_div_pow2. replace (2 ^ 64 - 1)%N with (N.ones 64) by reflexivity.
  rewrite N.ones_div_pow2 by lia. rewrite N.ones_equiv. replace (64 - (64 - amt))%N with amt by lia. lia.
Qed.
Lemma pow2_le a b : (a <= b)%N -> (2 ^ a <= 2 ^ b)%N.
Proof. intros H. apply N.pow_le_mono_r; [discriminate|exact H]. Qed.

Lemma bits2N_firstn k l : k <= length l ->
  bits2N (firstn k l) = (bits2N l / 2 ^ N.of_nat (length l - k))%N.
Proof.
  intros H. rewrite <- (firstn_skipn k l) at 2. rewrite bits2N_app, skipn_length.
  pose proof (bits2N_lt (skipn k l)) as Hb. rewrite skipn_length in Hb.
  rewrite N.add_comm, N.div_add by apply pow2_nz. rewrite N.div_small by exact Hb. lia.
Qed.
Lemma bits2N_skipn k l : k <= length l ->
  bits2N (skipn k l) = (bits2N l mod 2 ^ N.of_nat (length l - k))%N.
Proof.
  intros H. rewrite <- (firstn_skipn k l) at 2. rewrite bits2N_app, skipn_length.
  pose proof (bits2N_lt (skipn k l)) as Hb. rewrite skipn_length in Hb.
  rewrite N.add_comm, N.mod_add by apply pow2_nz. now rewrite N.mod_small by exact Hb.
Qed.
Lemma bits2N_shift_zeros l n : bits2N (l ++ repeat false n) = (bits2N l * 2 ^ N.of_nat n)%N.
Proof. rewrite bits2N_app, repeat_length, bits2N_false. lia. Qed.
Lemma firstn_N2bits_high r t : r <= 8 -> (t < 2 ^ N.of_nat r)%N ->
  firstn r (N2bits 8 ((N.shiftl t (N.of_nat (8 - r))) mod 2 ^ 8)) = N2bits r t.
Proof.
  intros Hr Ht. apply bits2N_inj.
  - rewrite firstn_length, !N2bits_length. lia.
  - rewrite bits2N_firstn by (rewrite N2bits_length; lia). rewrite !bits2N_N2bits, N2bits_length.
    rewrite (N.mod_small t) by exact Ht. rewrite N.shiftl_mul_pow2.
    assert (Hb : (t * 2 ^ N.of_nat (8 - r) < 2 ^ 8)%N).
    { replace (2 ^ 8)%N with (2 ^ N.of_nat r * 2 ^ N.of_nat (8 - r))%N.
      - apply N.mul_lt_mono_pos_r; [apply pow2_pos|exact Ht].
      - rewrite <- N.pow_add_r. f_equal. lia. }
    change (N.of_nat 8) with 8%N. rewrite !(N.mod_small (t * _)) by exact Hb.
    apply N.div_mul, pow2_nz.
Qed.
