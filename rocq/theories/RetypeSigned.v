(** C82 for signed integers with a size in bits. *)
From Coq Require Import Lia ZifyBool ZifyNat ZifyN.
From Verif Require Import Base MonadFacts Spec Stream Reader Session Writer WSession Prims CodecSpec
  BitsFacts NFacts ReaderFacts ReaderOps SessionFacts WriterFacts WriterProps CodecFacts PrimFacts PrimProps RetypeFacts RetypeSpec SafeFacts.

(** Sign extension gives the number that the low [n] bits stand for, whatever the width. *)
Lemma sign_extend_value w n u : 1 <= n <= w -> exists v, sign_extend w n u = Ok v /\ signed w v = signed n (u mod 2 ^ N.of_nat n).
Proof.
  intros Hn. unfold sign_extend. replace (w <=? w - n) with false by lia.
  set (m := (u mod 2 ^ N.of_nat n)%N). assert (Hm : (m < 2 ^ N.of_nat n)%N) by (apply N.mod_lt, pow2_nz).
  assert (Hpw : (2 ^ N.of_nat w = 2 ^ N.of_nat n * 2 ^ N.of_nat (w - n))%N) by (rewrite <- N.pow_add_r; f_equal; lia).
  rewrite N.shiftl_mul_pow2. unfold wrap. rewrite Hpw, N.mul_mod_distr_r by apply pow2_nz. fold m.
  rewrite N.shiftr_div_pow2, N.div_mul by apply pow2_nz. replace (w - (w - n)) with n by lia.
  replace (N.of_nat w - 1)%N with ((N.of_nat n - 1) + N.of_nat (w - n))%N by lia.
  rewrite N.mul_pow2_bits_add, top_bit by (assumption || lia). rewrite <- Hpw.
  eexists. split; [reflexivity|]. assert (HM : (2 ^ N.of_nat n <= 2 ^ N.of_nat w)%N) by (apply pow2_mono; lia).
  unfold signed. rewrite !pow2_Z. revert Hm HM. generalize (2 ^ N.of_nat n)%N (2 ^ N.of_nat w)%N. clear. intros A W Hm HM.
  destruct (N.leb_spec A (2 * m)) as [H|H].
  - replace (2 * (m + (W - A)) <? W)%N with false by lia. replace (2 * m <? A)%N with false by lia. lia.
  - replace (2 * m <? W)%N with true by lia. replace (2 * m <? A)%N with true by lia. reflexivity.
Qed.

Lemma signed_ebo_same wb wb' e n o r : 1 <= n -> n <= 8 * wb -> n <= 8 * wb' ->
  snd (read_i_bits wb' e n o r) = snd (read_i_bits wb e n o r) /\ same_number (8 * wb) (8 * wb') (fst (read_i_bits wb e n o r)) (fst (read_i_bits wb' e n o r)).
Proof.
  intros H1 H2 H3. unfold read_i_bits. replace (8 * wb <? n) with false by lia. replace (8 * wb' <? n) with false by lia. unfold bind.
  destruct (read_bits_into n o r) as [[bits|k| |] r1] eqn:E; try (split; [reflexivity|]; easy).
  apply bits_length in E. cbv beta in E. unfold lift. rewrite !u_of_value by (try exact E; lia). cbn [res_bind].
  destruct (sign_extend_value (8 * wb) n (u_value e o bits)) as (v & -> & Ev); [lia|].
  destruct (sign_extend_value (8 * wb') n (u_value e o bits)) as (v' & -> & Ev'); [lia|]. split; [reflexivity|cbn [fst same_number]; congruence].
Qed.
Theorem signed_same_read wb wb' c n r : signed_bits c n -> 1 <= n <= 8 * wb -> n <= 8 * wb' ->
  snd (prim_read (PI wb') c r) = snd (prim_read (PI wb) c r) /\
  same_number (8 * wb) (8 * wb') (fst (prim_read (PI wb) c r)) (fst (prim_read (PI wb') c r)).
Proof.
  intros Hc [H1 H2] H3. destruct c; cbn [signed_bits] in Hc; try contradiction; cbn [prim_read read_ebo].
  - destruct Hc as [-> Hm]. replace (n mod 8 =? 0) with false by lia. now apply signed_ebo_same.
  - subst. now apply signed_ebo_same.
  - destruct Hc as [-> Hm]. replace (n mod 8 =? 0) with false by lia. now apply signed_ebo_same.
  - subst. now apply signed_ebo_same.
Qed.

Lemma signed_mod w n v : n <= w -> (Z.of_N (v mod 2 ^ N.of_nat n) = signed w v mod 2 ^ Z.of_nat n)%Z.
Proof.
  intros Hn. rewrite N2Z.inj_mod, <- pow2_Z. unfold signed. destruct (2 * v <? 2 ^ N.of_nat w)%N; [reflexivity|].
  replace (Z.of_nat w) with (Z.of_nat (w - n) + Z.of_nat n)%Z by lia. rewrite Z.pow_add_r by lia.
  rewrite <- (Z.add_opp_r (Z.of_N v)), <- Z.mul_opp_l. symmetry. apply Z.mod_add. apply Z.pow_nonzero; lia.
Qed.

Theorem signed_same_write wb wb' e n v v' : 1 <= n <= 8 * wb -> n <= 8 * wb' -> (v < 2 ^ N.of_nat (8 * wb))%N -> (v' < 2 ^ N.of_nat (8 * wb'))%N ->
  signed (8 * wb') v' = signed (8 * wb) v ->
  (exists bits, forall a, emits Msb0 a (prim_write (PI wb) (CEB e n) v) bits /\ emits Msb0 a (prim_write (PI wb') (CEB e n) v') bits) \/
  (forall w, writable w -> prim_write (PI wb) (CEB e n) v w = (Err InvalidParam, w) /\ prim_write (PI wb') (CEB e n) v' w = (Err InvalidParam, w)).
Proof.
  intros Hn Hn' Hv Hv' Hs.
  assert (HL : layout e Msb0 n v' = layout e Msb0 n v).
  { rewrite <- (layout_mod e Msb0 n v'), <- (layout_mod e Msb0 n v). f_equal. apply N2Z.inj. rewrite (signed_mod (8 * wb')), (signed_mod (8 * wb)) by lia. now rewrite Hs. }
  assert (D : (- 2 ^ (Z.of_nat n - 1) <= signed (8 * wb) v < 2 ^ (Z.of_nat n - 1))%Z \/ ~ (- 2 ^ (Z.of_nat n - 1) <= signed (8 * wb) v < 2 ^ (Z.of_nat n - 1))%Z) by lia.
  destruct D as [D|D].
  - left. exists (layout e Msb0 n v). intros a. split.
    + now apply (proj1 (prim_i_codec wb e n v Hn Hv D)).
    + rewrite <- HL. apply (proj1 (prim_i_codec wb' e n v' ltac:(lia) Hv' ltac:(now rewrite Hs))).
  - right. intros w Hw. split.
    + apply (proj2 (prim_i_exact wb e n v w ltac:(lia) ltac:(lia) Hv Hw)). tauto.
    + apply (proj2 (prim_i_exact wb' e n v' w ltac:(lia) ltac:(lia) Hv' Hw)). rewrite Hs. tauto.
Qed.
