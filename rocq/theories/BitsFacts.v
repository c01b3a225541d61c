(** Lemmas about bits, bytes and chunking. *)
From Coq Require Import Lia ZifyBool ZifyNat ZifyN.
From Verif Require Import Base Spec.
Ltac Zify.zify_post_hook ::= Z.div_mod_to_equations.

(** ** Bytes *)

Lemma byte_bits_length b : length (byte_bits b) = 8.
Proof. unfold byte_bits; destruct (Byte.to_bits b) as [? [? [? [? [? [? [? ?]]]]]]]; reflexivity. Qed.

Lemma byte_of_byte_bits b : byte_of_bits (byte_bits b) = b.
Proof. destruct b; reflexivity. Qed.

Lemma list8 {A} (l : list A) : length l = 8 ->
  exists a b c d e f g h, l = [a; b; c; d; e; f; g; h].
Proof.
  intros H. do 8 (destruct l as [|? l]; [discriminate H|]).
  destruct l; [|discriminate H]. repeat eexists.
Qed.

Lemma byte_bits_of_bits l : length l = 8 -> byte_bits (byte_of_bits l) = l.
Proof.
  intros H. destruct (list8 l H) as (a & b & c & d & e & f & g & h & ->).
  unfold byte_bits; cbn [byte_of_bits]. rewrite Byte.to_bits_of_bits. reflexivity.
Qed.

Lemma byte_bits_inj b1 b2 : byte_bits b1 = byte_bits b2 -> b1 = b2.
Proof. intros H. rewrite <- (byte_of_byte_bits b1), <- (byte_of_byte_bits b2), H. reflexivity. Qed.

(** ** Lists *)

Lemma firstn_app_le {A} n (l1 l2 : list A) : n <= length l1 -> firstn n (l1 ++ l2) = firstn n l1.
Proof. intros H. rewrite firstn_app. replace (n - length l1) with 0 by lia. cbn. apply app_nil_r. Qed.
Lemma firstn_app_ge {A} n (l1 l2 : list A) : length l1 <= n ->
  firstn n (l1 ++ l2) = l1 ++ firstn (n - length l1) l2.
Proof. intros H. rewrite firstn_app, firstn_all2 by lia. reflexivity. Qed.
Lemma skipn_app_le {A} n (l1 l2 : list A) : n <= length l1 -> skipn n (l1 ++ l2) = skipn n l1 ++ l2.
Proof. intros H. rewrite skipn_app. replace (n - length l1) with 0 by lia. reflexivity. Qed.
Lemma skipn_app_ge {A} n (l1 l2 : list A) : length l1 <= n ->
  skipn n (l1 ++ l2) = skipn (n - length l1) l2.
Proof. intros H. rewrite skipn_app, skipn_all2 by lia. reflexivity. Qed.
Lemma firstn_length_app {A} (l1 l2 : list A) : firstn (length l1) (l1 ++ l2) = l1.
Proof. rewrite firstn_app_le by lia. apply firstn_all. Qed.
Lemma skipn_length_app {A} (l1 l2 : list A) : skipn (length l1) (l1 ++ l2) = l2.
Proof. rewrite skipn_app_ge by lia. rewrite Nat.sub_diag. reflexivity. Qed.
Lemma skipn_skipn {A} a b (l : list A) : skipn a (skipn b l) = skipn (b + a) l.
Proof. revert l; induction b as [|b IH]; intros l; [reflexivity|]. destruct l; [apply skipn_nil|]. cbn. apply IH. Qed.
Lemma firstn_skipn_add {A} a b (l : list A) : firstn (a + b) l = firstn a l ++ firstn b (skipn a l).
Proof. revert l; induction a as [|a IH]; intros l; [reflexivity|]. destruct l; [cbn; now rewrite firstn_nil|]. cbn. now rewrite IH. Qed.
Lemma rev_firstn {A} n (l : list A) : n <= length l -> rev (firstn n l) = skipn (length l - n) (rev l).
Proof.
  intros H. rewrite <- (firstn_skipn n l) at 2 3. rewrite rev_app_distr, app_length, !firstn_length, skipn_length.
  rewrite skipn_app_ge; rewrite rev_length, skipn_length; [|lia].
  replace (Nat.min n (length l) + (length l - n) - n - (length l - n)) with 0 by lia. reflexivity.
Qed.
Lemma rev_skipn {A} n (l : list A) : n <= length l -> rev (skipn n l) = firstn (length l - n) (rev l).
Proof.
  intros H. rewrite <- (firstn_skipn n l) at 2 3. rewrite rev_app_distr, app_length, !firstn_length, skipn_length.
  rewrite firstn_app_le; rewrite ?rev_length, ?skipn_length; [|lia].
  symmetry; apply firstn_all2. rewrite rev_length, skipn_length. lia.
Qed.
Lemma firstn_1_hd {A} (d : A) l : 0 < length l -> firstn 1 l = [hd d l].
Proof. destruct l; cbn; [lia|reflexivity]. Qed.
Lemma skipn_hd {A} (d : A) n l : n < length l -> skipn n l = nth n l d :: skipn (S n) l.
Proof. revert l; induction n as [|n IH]; intros l H; destruct l; cbn in *; try lia; [reflexivity|]. apply IH; lia. Qed.
Lemma firstn_S_nth {A} (d : A) n l : n < length l -> firstn (S n) l = firstn n l ++ [nth n l d].
Proof. revert l; induction n as [|n IH]; intros l H; destruct l; cbn in *; try lia; [reflexivity|]. f_equal. apply IH; lia. Qed.

(** ** Orientation *)

Lemma orient_length o l : length (orient o l) = length l.
Proof. destruct o; cbn; [reflexivity|apply rev_length]. Qed.
Lemma orient_invol o l : orient o (orient o l) = l.
Proof. destruct o; cbn; [reflexivity|apply rev_involutive]. Qed.
Lemma orient_nil o : orient o [] = [].
Proof. destruct o; reflexivity. Qed.
Lemma orient_inj o l1 l2 : orient o l1 = orient o l2 -> l1 = l2.
Proof. intros H. rewrite <- (orient_invol o l1), H. apply orient_invol. Qed.

Lemma bitstring_app o a b : bitstring o (a ++ b) = bitstring o a ++ bitstring o b.
Proof. apply flat_map_app. Qed.
Lemma bitstring_length o l : length (bitstring o l) = 8 * length l.
Proof.
  induction l as [|b l IH]; [reflexivity|]. cbn [bitstring flat_map length].
  rewrite app_length, orient_length, byte_bits_length. unfold bitstring in IH. rewrite IH. lia.
Qed.
Lemma bitstring_cons o b l : bitstring o (b :: l) = orient o (byte_bits b) ++ bitstring o l.
Proof. reflexivity. Qed.
Lemma bitstring_msb l : bitstring Msb0 l = bits_of_bytes l.
Proof. reflexivity. Qed.
Lemma bitstring_firstn o k l : firstn (8 * k) (bitstring o l) = bitstring o (firstn k l).
Proof.
  revert l; induction k as [|k IH]; intros l; [now rewrite Nat.mul_0_r|].
  destruct l as [|b l]; [now rewrite !firstn_nil|].
  cbn [firstn]. rewrite !bitstring_cons. rewrite firstn_app_ge; rewrite orient_length, byte_bits_length; [|lia].
  replace (8 * S k - 8) with (8 * k) by lia. now rewrite IH.
Qed.
Lemma bitstring_skipn o k l : skipn (8 * k) (bitstring o l) = bitstring o (skipn k l).
Proof.
  revert l; induction k as [|k IH]; intros l; [now rewrite Nat.mul_0_r|].
  destruct l as [|b l]; [now rewrite !skipn_nil|].
  cbn [skipn]. rewrite !bitstring_cons. rewrite skipn_app_ge; rewrite orient_length, byte_bits_length; [|lia].
  replace (8 * S k - 8) with (8 * k) by lia. now rewrite IH.
Qed.
Lemma bitstring_inj o a b : bitstring o a = bitstring o b -> a = b.
Proof.
  revert b; induction a as [|x a IH]; intros b H.
  - destruct b; [reflexivity|]. apply (f_equal (@length bool)) in H. rewrite !bitstring_length in H. cbn in H. lia.
  - destruct b as [|y b]; [apply (f_equal (@length bool)) in H; rewrite !bitstring_length in H; cbn in H; lia|].
    rewrite !bitstring_cons in H.
    apply (f_equal (firstn 8)) in H as H1. apply (f_equal (skipn 8)) in H as H2.
    rewrite !firstn_app_le in H1 by (rewrite orient_length, byte_bits_length; lia).
    rewrite !firstn_all2 in H1 by (rewrite orient_length, byte_bits_length; lia).
    rewrite !skipn_app_ge in H2 by (rewrite orient_length, byte_bits_length; lia).
    rewrite !orient_length, !byte_bits_length, !Nat.sub_diag in H2. cbn [skipn] in H2.
    f_equal; [apply byte_bits_inj, (orient_inj o); exact H1 | apply IH; exact H2].
Qed.

(** ** Chunks *)

Lemma chunks8_step l : 8 <= length l -> chunks8 l = firstn 8 l :: chunks8 (skipn 8 l).
Proof. intros H. do 8 (destruct l as [|? l]; [cbn in H; lia|]). reflexivity. Qed.
Lemma chunks8_short l : length l < 8 -> chunks8 l = [].
Proof. intros H. do 8 (destruct l as [|? l]; [reflexivity|]). cbn in H. lia. Qed.

Lemma len8_ind (P : list bool -> Prop) :
  (forall l, length l < 8 -> P l) ->
  (forall c l, length c = 8 -> P l -> P (c ++ l)) -> forall l, P l.
Proof.
  intros H0 H1 l. remember (length l) as n eqn:Hn. revert l Hn.
  induction n as [n IH] using lt_wf_ind; intros l ->.
  destruct (le_lt_dec 8 (length l)) as [Hl|Hl]; [|now apply H0].
  rewrite <- (firstn_skipn 8 l). apply H1; [rewrite firstn_length; lia|].
  eapply IH; [|reflexivity]. rewrite skipn_length. lia.
Qed.

Lemma chunks8_cons c l : length c = 8 -> chunks8 (c ++ l) = c :: chunks8 l.
Proof.
  intros H. rewrite chunks8_step by (rewrite app_length; lia).
  rewrite firstn_app_le, firstn_all2, skipn_app_ge by lia. rewrite H, Nat.sub_diag. reflexivity.
Qed.
Lemma chunks8_rem_cons c l : length c = 8 -> chunks8_rem (c ++ l) = chunks8_rem l.
Proof.
  intros H. unfold chunks8_rem. rewrite app_length, H.
  rewrite skipn_app_ge by (rewrite H; lia).
  f_equal. rewrite H. lia.
Qed.
Lemma chunks8_rem_short l : length l < 8 -> chunks8_rem l = l.
Proof. intros H. unfold chunks8_rem. rewrite Nat.div_small by lia. reflexivity. Qed.
Lemma chunks8_rem_length l : length (chunks8_rem l) = length l mod 8.
Proof. unfold chunks8_rem. rewrite skipn_length. lia. Qed.
Lemma chunks8_concat l : concat (chunks8 l) ++ chunks8_rem l = l.
Proof.
  induction l as [l Hl|c l Hc IH] using len8_ind.
  - rewrite chunks8_short, chunks8_rem_short by assumption. reflexivity.
  - rewrite chunks8_cons, chunks8_rem_cons by assumption. cbn [concat]. now rewrite <- app_assoc, IH.
Qed.
Lemma chunks8_Forall l : Forall (fun c => length c = 8) (chunks8 l).
Proof.
  induction l as [l Hl|c l Hc IH] using len8_ind.
  - rewrite chunks8_short by assumption. constructor.
  - rewrite chunks8_cons by assumption. now constructor.
Qed.
Lemma chunks8_length l : length (chunks8 l) = length l / 8.
Proof.
  induction l as [l Hl|c l Hc IH] using len8_ind.
  - rewrite chunks8_short by assumption. cbn [length]. lia.
  - rewrite chunks8_cons by assumption. rewrite app_length. cbn [length]. lia.
Qed.
Lemma bytes_of_chunks cs : Forall (fun c => length c = 8) cs ->
  bits_of_bytes (map byte_of_bits cs) = concat cs.
Proof.
  induction 1 as [|c cs Hc Hcs IH]; [reflexivity|].
  cbn [map bits_of_bytes flat_map concat]. rewrite byte_bits_of_bits by assumption. f_equal. exact IH.
Qed.
Lemma bits_bytes_of_bits l : length l mod 8 = 0 -> bits_of_bytes (bytes_of_bits l) = l.
Proof.
  intros H. unfold bytes_of_bits. rewrite bytes_of_chunks by apply chunks8_Forall.
  rewrite <- (chunks8_concat l) at 2.
  assert (Hr : chunks8_rem l = []) by (apply length_zero_iff_nil; now rewrite chunks8_rem_length).
  rewrite Hr. symmetry; apply app_nil_r.
Qed.
Lemma bits_of_bytes_app a b : bits_of_bytes (a ++ b) = bits_of_bytes a ++ bits_of_bytes b.
Proof. apply flat_map_app. Qed.
Lemma bits_of_bytes_length l : length (bits_of_bytes l) = 8 * length l.
Proof. apply (bitstring_length Msb0). Qed.
Lemma bytes_of_bits_of_bytes l : bytes_of_bits (bits_of_bytes l) = l.
Proof.
  apply (bitstring_inj Msb0). rewrite !bitstring_msb. apply bits_bytes_of_bits.
  rewrite bits_of_bytes_length. lia.
Qed.
Lemma bytes_of_bits_length l : length (bytes_of_bits l) = length l / 8.
Proof. unfold bytes_of_bits. rewrite map_length. apply chunks8_length. Qed.
Lemma bytes_of_bits_cons c l : length c = 8 -> bytes_of_bits (c ++ l) = byte_of_bits c :: bytes_of_bits l.
Proof. intros H. unfold bytes_of_bits. now rewrite chunks8_cons. Qed.

Lemma bytes_of_bits_app a b : length a mod 8 = 0 -> bytes_of_bits (a ++ b) = bytes_of_bits a ++ bytes_of_bits b.
Proof.
  induction a as [a Ha|c a Hc IH] using len8_ind; intros H.
  - destruct a; [reflexivity|]. cbn [length] in *. lia.
  - rewrite <- app_assoc, !(bytes_of_bits_cons c) by assumption. cbn [app]. rewrite IH; [reflexivity|].
    rewrite app_length in H. lia.
Qed.

(** Chunks from the back, seen in [Lsb0] orientation. *)
Lemma rchunks8_rem_length l : length (rchunks8_rem l) = length l mod 8.
Proof. unfold rchunks8_rem. rewrite firstn_length. lia. Qed.
Lemma rev_concat {A} (ls : list (list A)) : rev (concat ls) = concat (map (@rev A) (rev ls)).
Proof.
  induction ls as [|l ls IH]; [reflexivity|]. cbn [concat rev]. rewrite rev_app_distr, IH, map_app, concat_app.
  cbn. now rewrite app_nil_r.
Qed.
Lemma rchunks8_Forall l : Forall (fun c => length c = 8) (rchunks8 l).
Proof. unfold rchunks8. apply Forall_rev, chunks8_Forall. Qed.
Lemma rchunks8_concat l : rchunks8_rem l ++ concat (rev (rchunks8 l)) = l.
Proof.
  unfold rchunks8, rchunks8_rem. rewrite rev_involutive.
  assert (Hr : chunks8_rem (skipn (length l mod 8) l) = []).
  { apply length_zero_iff_nil. rewrite chunks8_rem_length, skipn_length. lia. }
  pose proof (chunks8_concat (skipn (length l mod 8) l)) as H. rewrite Hr, app_nil_r in H.
  rewrite H. apply firstn_skipn.
Qed.
Lemma lsb_bytes_of_chunks cs : Forall (fun c => length c = 8) cs ->
  bitstring Lsb0 (map byte_of_bits cs) = concat (map (@rev bool) cs).
Proof.
  induction 1 as [|c cs Hc Hcs IH]; [reflexivity|].
  cbn [map bitstring flat_map concat orient]. rewrite byte_bits_of_bits by assumption. f_equal. exact IH.
Qed.
(** Writing chunks from the back and then the remainder is the bit string read
    from its last bit. *)
Lemma rchunks8_lsb l :
  bitstring Lsb0 (map byte_of_bits (rchunks8 l)) ++ rev (rchunks8_rem l) = rev l.
Proof.
  rewrite lsb_bytes_of_chunks by apply rchunks8_Forall.
  rewrite <- (rchunks8_concat l) at 3. rewrite rev_app_distr, rev_concat, rev_involutive. reflexivity.
Qed.
Lemma chunks8_msb l :
  bitstring Msb0 (map byte_of_bits (chunks8 l)) ++ chunks8_rem l = l.
Proof.
  rewrite bitstring_msb, bytes_of_chunks by apply chunks8_Forall. apply chunks8_concat.
Qed.
Lemma rchunks8_length l : length (rchunks8 l) = length l / 8.
Proof. unfold rchunks8. rewrite rev_length, chunks8_length, skipn_length. lia. Qed.

(** ** Numbers *)

Lemma bits2N_acc_eq l a : bits2N_acc l a = (a * 2 ^ N.of_nat (length l) + bits2N l)%N.
Proof.
  unfold bits2N. revert a. induction l as [|b l IH]; intros a.
  - cbn [bits2N_acc length]. lia.
  - cbn [bits2N_acc length]. rewrite IH. rewrite (IH (2 * 0 + _)%N).
    rewrite Nat2N.inj_succ, N.pow_succ_r'. destruct b; ring.
Qed.
Lemma bits2N_nil : bits2N [] = 0%N.
Proof. reflexivity. Qed.
Lemma bits2N_cons b l : bits2N (b :: l) = ((if b then 1 else 0) * 2 ^ N.of_nat (length l) + bits2N l)%N.
Proof. unfold bits2N at 1. cbn [bits2N_acc]. rewrite bits2N_acc_eq. destruct b; ring. Qed.
Lemma bits2N_acc_app l1 l2 a : bits2N_acc (l1 ++ l2) a = bits2N_acc l2 (bits2N_acc l1 a).
Proof. revert a; induction l1 as [|b l1 IH]; intros a; [reflexivity|]. cbn. apply IH. Qed.
Lemma bits2N_app l1 l2 : bits2N (l1 ++ l2) = (bits2N l1 * 2 ^ N.of_nat (length l2) + bits2N l2)%N.
Proof. unfold bits2N at 1. rewrite bits2N_acc_app, bits2N_acc_eq. reflexivity. Qed.
Lemma pow2_pos n : (0 < 2 ^ n)%N.
Proof. apply N.neq_0_lt_0, N.pow_nonzero. discriminate. Qed.
Lemma bits2N_lt l : (bits2N l < 2 ^ N.of_nat (length l))%N.
Proof.
  induction l as [|b l IH]; [cbn; lia|].
  rewrite bits2N_cons. cbn [length]. rewrite Nat2N.inj_succ, N.pow_succ_r'. destruct b; lia.
Qed.
Lemma bits2N_snoc l b : bits2N (l ++ [b]) = (2 * bits2N l + (if b then 1 else 0))%N.
Proof. rewrite bits2N_app. cbn [length]. rewrite bits2N_cons, bits2N_nil. change (N.of_nat 1) with 1%N.
  cbn [length]. change (N.of_nat 0) with 0%N. rewrite N.pow_0_r, N.pow_1_r. destruct b; ring. Qed.
Lemma bits2N_false n : bits2N (repeat false n) = 0%N.
Proof. induction n as [|n IH]; [reflexivity|]. cbn [repeat]. rewrite bits2N_cons, IH. lia. Qed.

Lemma N2bits_length n v : length (N2bits n v) = n.
Proof. revert v; induction n as [|n IH]; intros v; [reflexivity|]. cbn. rewrite app_length, IH. cbn. lia. Qed.
Lemma bits2N_N2bits n v : bits2N (N2bits n v) = (v mod 2 ^ N.of_nat n)%N.
Proof.
  revert v; induction n as [|n IH]; intros v.
  - cbn. now rewrite N.mod_1_r.
  - cbn [N2bits]. rewrite bits2N_snoc, IH, Nat2N.inj_succ, N.pow_succ_r'.
    rewrite N.div2_div. rewrite (N.mod_mul_r v 2) by (discriminate || apply N.pow_nonzero; discriminate). rewrite <- N.bit0_mod, N.bit0_odd.
    destruct (N.odd v); cbn [N.b2n]; lia.
Qed.
Lemma N2bits_bits2N l : N2bits (length l) (bits2N l) = l.
Proof.
  induction l as [|b l IH] using rev_ind; [reflexivity|].
  rewrite app_length. cbn [length]. rewrite Nat.add_1_r. cbn [N2bits].
  rewrite bits2N_snoc. f_equal.
  - replace (N.div2 (2 * bits2N l + (if b then 1 else 0))) with (bits2N l); [exact IH|].
    rewrite N.div2_div. destruct b; lia.
  - f_equal. destruct b.
    + rewrite N.add_comm, N.odd_add_mul_2. reflexivity.
    + rewrite N.add_comm, N.odd_add_mul_2. reflexivity.
Qed.
Lemma bits2N_inj l1 l2 : length l1 = length l2 -> bits2N l1 = bits2N l2 -> l1 = l2.
Proof. intros H1 H2. rewrite <- (N2bits_bits2N l1), H1, H2. apply N2bits_bits2N. Qed.
Lemma N2bits_mod n v : N2bits n (v mod 2 ^ N.of_nat n) = N2bits n v.
Proof. apply bits2N_inj; rewrite ?N2bits_length, ?bits2N_N2bits; [reflexivity|]. apply N.mod_mod, N.pow_nonzero. discriminate. Qed.
Lemma N2bits_eq n v l : length l = n -> bits2N l = (v mod 2 ^ N.of_nat n)%N -> N2bits n v = l.
Proof. intros H1 H2. apply bits2N_inj; [now rewrite N2bits_length|]. now rewrite bits2N_N2bits. Qed.
Lemma byte_bits_N b : byte_bits b = N2bits 8 (Byte.to_N b).
Proof. destruct b; reflexivity. Qed.
Lemma byte_to_N_bits b : Byte.to_N b = bits2N (byte_bits b).
Proof. destruct b; reflexivity. Qed.
Lemma byte_to_N_lt b : (Byte.to_N b < 256)%N.
Proof. destruct b; reflexivity. Qed.
