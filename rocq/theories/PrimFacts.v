(** Lemmas about the primitives. *)
From Coq Require Import Lia ZifyBool ZifyNat ZifyN Permutation.
From Verif Require Import Base MonadFacts Spec Stream Reader Session Writer WSession Prims CodecSpec
  BitsFacts NFacts ReaderFacts ReaderOps FastRead SessionFacts WriterFacts WriterProps CodecFacts.
Ltac Zify.zify_post_hook ::= Z.div_mod_to_equations.

(** ** Bytes of integers *)

Lemma N2bits_add a b v : N2bits (a + b) v = N2bits a (v / 2 ^ N.of_nat b)%N ++ N2bits b v.
Proof.
  revert v. induction b as [|b IH]; intros v.
  - rewrite Nat.add_0_r, app_nil_r. cbn [N.of_nat]. now rewrite N.div_1_r.
  - replace (a + S b) with (S (a + b)) by lia. cbn [N2bits]. rewrite IH, app_assoc. do 2 f_equal. f_equal.
    rewrite Nnat.Nat2N.inj_succ, N.pow_succ_r', N.div2_div, N.div_div by (try apply pow2_nz; lia). f_equal. 
Qed.
Lemma N2bits_0 n : N2bits n 0 = repeat false n.
Proof. apply N2bits_eq; [apply repeat_length|]. rewrite bits2N_false. now rewrite N.mod_0_l by apply pow2_nz. Qed.
Lemma N2bits_pad a n v : (v < 2 ^ N.of_nat n)%N -> N2bits (a + n) v = repeat false a ++ N2bits n v.
Proof. intros H. rewrite N2bits_add, N.div_small by exact H. now rewrite N2bits_0. Qed.

Lemma be_bits k v : bits_of_bytes (be_bytes k v) = N2bits (8 * k) v.
Proof. unfold be_bytes. apply bits_bytes_of_bits. rewrite N2bits_length. lia. Qed.
Lemma be_length k v : length (be_bytes k v) = k.
Proof. unfold be_bytes. rewrite bytes_of_bits_length, N2bits_length. lia. Qed.
Lemma le_length k v : length (le_bytes k v) = k.
Proof. unfold le_bytes. now rewrite rev_length, be_length. Qed.
Lemma bits_of_bytes_inj a b : bits_of_bytes a = bits_of_bytes b -> a = b.
Proof. rewrite <- !bitstring_msb. apply WriterProps.bitstring_inj. Qed.
Lemma be_app k m v : be_bytes (k + m) v = be_bytes k (v / 2 ^ N.of_nat (8 * m)) ++ be_bytes m v.
Proof.
  apply bits_of_bytes_inj. rewrite bits_of_bytes_app, !be_bits. replace (8 * (k + m)) with (8 * k + 8 * m) by lia.
  apply N2bits_add.
Qed.
Lemma le_app k m v : le_bytes (k + m) v = le_bytes k v ++ le_bytes m (v / 2 ^ N.of_nat (8 * k)).
Proof. unfold le_bytes. rewrite Nat.add_comm, be_app, rev_app_distr. reflexivity. Qed.
Lemma be_0 k : be_bytes k 0 = repeat x00 k.
Proof.
  induction k as [|k IH]; [reflexivity|]. change (S k) with (1 + k). rewrite be_app, IH.
  rewrite N.div_0_l by apply pow2_nz. reflexivity.
Qed.
Lemma rev_repeat {A} (x : A) n : rev (repeat x n) = repeat x n.
Proof.
  induction n as [|n IH]; [reflexivity|]. cbn [repeat rev]. rewrite IH. clear.
  induction n as [|n IH]; [reflexivity|]. cbn [repeat app]. now rewrite IH.
Qed.
Lemma le_0 k : le_bytes k 0 = repeat x00 k.
Proof. unfold le_bytes. now rewrite be_0, rev_repeat. Qed.
Lemma from_be_be k v : (v < 2 ^ N.of_nat (8 * k))%N -> from_be (be_bytes k v) = v.
Proof. intros H. unfold from_be. now rewrite be_bits, bits2N_N2bits, N.mod_small. Qed.
Lemma from_le_le k v : (v < 2 ^ N.of_nat (8 * k))%N -> from_le (le_bytes k v) = v.
Proof. intros H. unfold from_le, le_bytes. rewrite rev_involutive. now apply from_be_be. Qed.
Lemma pow2_mono a b : a <= b -> (2 ^ N.of_nat a <= 2 ^ N.of_nat b)%N.
Proof. intros H. apply pow2_le. lia. Qed.
Lemma from_be_pad k m v : (v < 2 ^ N.of_nat (8 * k))%N -> from_be (repeat x00 m ++ be_bytes k v) = v.
Proof.
  intros H. replace (repeat x00 m) with (be_bytes m (v / 2 ^ N.of_nat (8 * k))).
  - rewrite <- be_app. apply from_be_be. eapply N.lt_le_trans; [exact H|]. apply pow2_mono. lia.
  - rewrite N.div_small by exact H. apply be_0.
Qed.
Lemma from_le_pad k m v : (v < 2 ^ N.of_nat (8 * k))%N -> from_le (le_bytes k v ++ repeat x00 m) = v.
Proof. intros H. unfold from_le, le_bytes. rewrite rev_app_distr, rev_repeat, rev_involutive. now apply from_be_pad. Qed.
Lemma be_mod k v : be_bytes k (v mod 2 ^ N.of_nat (8 * k)) = be_bytes k v.
Proof. unfold be_bytes. now rewrite N2bits_mod. Qed.
Lemma le_mod k v : le_bytes k (v mod 2 ^ N.of_nat (8 * k)) = le_bytes k v.
Proof. unfold le_bytes. now rewrite be_mod. Qed.

(** ** Layout *)

Lemma split_n n : n = 8 * (n / 8) + n mod 8. Proof. lia. Qed.
Lemma layout_length e o n v : length (layout e o n v) = n.
Proof.
  unfold layout. destruct e; rewrite app_length, orient_length, bitstring_length, ?le_length, ?be_length, N2bits_length; lia.
Qed.
Lemma N2bits_split n v : N2bits n v = N2bits (n mod 8) (v / 2 ^ N.of_nat (8 * (n / 8))) ++ N2bits (8 * (n / 8)) v.
Proof. rewrite <- N2bits_add. f_equal. lia. Qed.
Lemma layout_be_msb n v : layout Big Msb0 n v = N2bits n v.
Proof. unfold layout. cbn [orient]. rewrite bitstring_msb, be_bits. symmetry. apply N2bits_split. Qed.
Lemma layout_le_lsb n v : layout Little Lsb0 n v = rev (N2bits n v).
Proof.
  unfold layout. rewrite (N2bits_split n v), rev_app_distr. cbn [orient]. f_equal. unfold le_bytes, be_bytes.
  apply rev_bitstring_bytes. rewrite N2bits_length. lia.
Qed.
Lemma layout_mod e o n v : layout e o n (v mod 2 ^ N.of_nat n) = layout e o n v.
Proof.
  unfold layout.
  assert (H1 : N2bits (n mod 8) (v mod 2 ^ N.of_nat n / 2 ^ N.of_nat (8 * (n / 8))) = N2bits (n mod 8) (v / 2 ^ N.of_nat (8 * (n / 8)))
            /\ N2bits (8 * (n / 8)) (v mod 2 ^ N.of_nat n) = N2bits (8 * (n / 8)) v).
  { pose proof (N2bits_mod n v) as H. rewrite (N2bits_split n), (N2bits_split n v) in H.
    apply app_len_inj in H; [exact H|]. now rewrite !N2bits_length. }
  destruct H1 as [-> H2]. unfold le_bytes, be_bytes. now rewrite H2.
Qed.

(** ** Conversion of a slice *)

Lemma inserts_front cap k l : length l + k <= cap -> l <> [] \/ k = 0 ->
  bbv_inserts cap k 0 l = Ok (repeat false k ++ l).
Proof.
  revert l. induction k as [|k IH]; intros l Hc Hn; [reflexivity|].
  cbn [bbv_inserts]. destruct Hn as [Hn|]; [|lia]. assert (0 < length l) by (destruct l; [congruence|cbn; lia]).
  replace ((length l <? cap) && (0 <? length l)) with true by lia.
  cbn [firstn skipn app]. rewrite IH; [|cbn [length]; lia|left; discriminate].
  f_equal. clear. induction k as [|k IH]; [reflexivity|]. cbn [repeat app]. now rewrite IH.
Qed.
Lemma inserts_at cap k a l : length (a ++ l) + k <= cap -> l <> [] ->
  bbv_inserts cap k (length a) (a ++ l) = Ok (a ++ repeat false k ++ l).
Proof.
  revert l. induction k as [|k IH]; intros l Hc Hn; [reflexivity|].
  cbn [bbv_inserts]. assert (0 < length l) by (destruct l; [congruence|cbn; lia]).
  rewrite app_length in Hc. rewrite !app_length.
  replace ((length a + length l <? cap) && (length a <? length a + length l)) with true by lia.
  rewrite firstn_length_app, skipn_length_app, IH; [|rewrite app_length; cbn [length]; lia|discriminate].
  f_equal. f_equal. clear. induction k as [|k IH]; [reflexivity|]. cbn [repeat app]. now rewrite IH.
Qed.
Lemma pow2_small v n m : n <= m -> (v < 2 ^ N.of_nat n)%N -> (v < 2 ^ N.of_nat m)%N.
Proof. intros H1 H2. eapply N.lt_le_trans; [exact H2|]. now apply pow2_mono. Qed.
Lemma rchunks8_whole l : length l mod 8 = 0 -> map byte_of_bits (rchunks8 l) = rev (bytes_of_bits l).
Proof. intros H. unfold rchunks8, bytes_of_bits. rewrite H. cbn [skipn]. apply map_rev. Qed.

Lemma nat_in n w : n <= 8 * w -> ceil8 n <= w.
Proof. unfold ceil8. lia. Qed.

Lemma layout_le_msb_bits n v : (v < 2 ^ N.of_nat n)%N -> n mod 8 <> 0 ->
  bits_of_bytes (le_bytes (n / 8) v) ++ repeat false (8 - n mod 8) ++ N2bits (n mod 8) (v / 2 ^ N.of_nat (8 * (n / 8)))
  = bits_of_bytes (le_bytes (ceil8 n) v).
Proof.
  intros Hv Hr. replace (ceil8 n) with (n / 8 + 1) by (unfold ceil8; lia). rewrite le_app, bits_of_bytes_app. f_equal.
  rewrite <- N2bits_pad.
  - replace (8 - n mod 8 + n mod 8) with 8 by lia. unfold le_bytes.
    assert (H : forall x, rev (be_bytes 1 x) = be_bytes 1 x).
    { intros x. pose proof (be_length 1 x) as L. destruct (be_bytes 1 x) as [|b [|]]; cbn in L; try lia. reflexivity. }
    rewrite H, be_bits. reflexivity.
  - apply N.div_lt_upper_bound; [apply pow2_nz|]. rewrite <- N.pow_add_r.
    replace (N.of_nat (8 * (n / 8)) + N.of_nat (n mod 8))%N with (N.of_nat n) by lia. exact Hv.
Qed.

Lemma u_of_layout wb e n o v : 1 <= n <= 8 * wb -> (v < 2 ^ N.of_nat n)%N ->
  (e = Big -> o = Lsb0 -> n <= 8 \/ n mod 8 = 0) ->
  u_of_bits wb e n o (orient o (layout e o n v)) = Ok v.
Proof.
  intros Hn Hv Hbl. unfold u_of_bits. rewrite orient_length, layout_length.
  pose proof (nat_in n wb (proj2 Hn)) as Hc.
  replace (8 * wb <? n + (8 * ceil8 n - n)) with false by lia.
  assert (Hpad : 8 * ceil8 n - n = (8 - n mod 8) mod 8) by (unfold ceil8; lia).
  destruct ((8 * ceil8 n - n =? 0) && (n =? 8 * wb) && negb (order_eqb o Lsb0)) eqn:Efull.
  - destruct o; [|cbn [order_eqb negb] in Efull; lia]. assert (n = 8 * wb) by lia. subst n. cbn [orient].
    unfold from_e. destruct e.
    + unfold layout. replace (8 * wb / 8) with wb by lia. replace ((8 * wb) mod 8) with 0 by lia. cbn [N2bits orient].
      rewrite app_nil_r, bitstring_msb, bytes_of_bits_of_bytes. now rewrite from_le_le.
    + rewrite layout_be_msb. fold (be_bytes wb v). now rewrite from_be_be.
  - destruct e, o; cbn [order_eqb negb andb] in Efull; cbn [orient].
    + (* Little Msb0 *)
      clear Hbl. replace (n <? 8 - (8 * ceil8 n - n)) with false by lia.
      destruct (Nat.eq_dec (n mod 8) 0) as [Hz|Hz].
      * replace (8 * ceil8 n - n) with 0 by (unfold ceil8; lia). cbn [bbv_inserts res_bind]. rewrite layout_length.
        unfold bbv_pushes. rewrite layout_length. replace (n + (8 * wb - n) <=? 8 * wb) with true by lia. cbn [res_bind].
        unfold layout. rewrite Hz. cbn [N2bits orient]. rewrite app_nil_r, bitstring_msb.
        replace (8 * wb - n) with (8 * (wb - n / 8)) by lia.
        rewrite bytes_of_bits_app by (rewrite bits_of_bytes_length; lia). rewrite bytes_of_bits_of_bytes.
        rewrite <- N2bits_0. fold (be_bytes (wb - n / 8) 0). rewrite be_0.
        rewrite from_le_pad; [reflexivity|]. replace (8 * (n / 8)) with n by lia. exact Hv.
      * unfold layout. cbn [orient]. rewrite bitstring_msb.
        replace (n - (8 - (8 * ceil8 n - n))) with (length (bits_of_bytes (le_bytes (n / 8) v)))
          by (rewrite bits_of_bytes_length, le_length; unfold ceil8; lia).
        rewrite inserts_at; [|rewrite app_length, bits_of_bytes_length, le_length, N2bits_length; lia|].
        2:{ intros H. apply (f_equal (@length bool)) in H. rewrite N2bits_length in H. cbn [length] in H. lia. }
        cbn [res_bind]. replace (8 * ceil8 n - n) with (8 - n mod 8) by (unfold ceil8; lia).
        rewrite (layout_le_msb_bits n v Hv Hz). unfold bbv_pushes. rewrite bits_of_bytes_length, le_length.
        replace (8 * ceil8 n + (8 * wb - 8 * ceil8 n) <=? 8 * wb) with true by lia. cbn [res_bind].
        rewrite bytes_of_bits_app by (rewrite bits_of_bytes_length; lia). rewrite bytes_of_bits_of_bytes.
        replace (8 * wb - 8 * ceil8 n) with (8 * (wb - ceil8 n)) by lia. rewrite <- N2bits_0. fold (be_bytes (wb - ceil8 n) 0).
        rewrite be_0, from_le_pad; [reflexivity|]. apply (pow2_small v n); [unfold ceil8; lia|exact Hv].
    + (* Little Lsb0 *)
      rewrite Nat.eqb_refl. cbn [negb]. rewrite layout_le_lsb, rev_involutive.
      rewrite inserts_front; [|rewrite N2bits_length; lia|].
      2:{ left. intros H. apply (f_equal (@length bool)) in H. rewrite N2bits_length in H. cbn [length] in H. lia. }
      cbn [res_bind]. rewrite <- (N2bits_pad (8 * ceil8 n - n) n v Hv).
      replace (8 * ceil8 n - n + n) with (8 * ceil8 n) by (unfold ceil8; lia).
      rewrite rchunks8_whole by (rewrite N2bits_length; lia). fold (be_bytes (ceil8 n) v). fold (le_bytes (ceil8 n) v).
      cbn [repeat app from_e]. rewrite Nat.sub_0_r. rewrite firstn_all2 by (rewrite le_length; lia). rewrite le_length.
      rewrite from_le_pad; [reflexivity|]. apply (pow2_small v n); [unfold ceil8; lia|exact Hv].
    + (* Big Msb0 *)
      replace (0 <? n) with true by lia. rewrite layout_be_msb, bits2N_N2bits, N.mod_small by exact Hv. reflexivity.
    + (* Big Lsb0 *)
      rewrite Nat.eqb_refl. cbn [negb]. specialize (Hbl eq_refl eq_refl).
      assert (HB : rev (layout Big Lsb0 n v) <> []).
      { intros H. apply (f_equal (@length bool)) in H. rewrite rev_length, layout_length in H. cbn [length] in H. lia. }
      rewrite inserts_front; [|rewrite rev_length, layout_length; lia|left; exact HB]. cbn [res_bind from_e].
      assert (Hch : map byte_of_bits (rchunks8 (repeat false (8 * ceil8 n - n) ++ rev (layout Big Lsb0 n v))) = be_bytes (ceil8 n) v).
      { rewrite rchunks8_whole by (rewrite app_length, repeat_length, rev_length, layout_length; unfold ceil8; lia).
        destruct (Nat.eq_dec (n mod 8) 0) as [Hz|Hz].
        - replace (8 * ceil8 n - n) with 0 by (unfold ceil8; lia). cbn [repeat app].
          apply (WriterProps.bitstring_inj Lsb0). rewrite rev_bitstring_bytes by (rewrite rev_length, layout_length; lia).
          rewrite rev_involutive. unfold layout. rewrite Hz. cbn [N2bits orient rev app].
          replace (ceil8 n) with (n / 8) by (unfold ceil8; lia). reflexivity.
        - assert (Hc1 : ceil8 n = 1) by (unfold ceil8; lia). rewrite Hc1.
          replace (8 * 1 - n) with (8 - n) by lia. unfold layout. replace (n / 8) with 0 by lia. replace (n mod 8) with n by lia.
          cbn [Nat.mul N.of_nat orient]. change (bitstring Lsb0 (be_bytes 0 v)) with (@nil bool).
          rewrite app_nil_r, rev_involutive. change (2 ^ 0)%N with 1%N. rewrite N.div_1_r.
          rewrite <- N2bits_pad by exact Hv. replace (8 - n + n) with (8 * 1) by lia. fold (be_bytes 1 v).
          pose proof (be_length 1 v) as L. destruct (be_bytes 1 v) as [|b [|]]; cbn in L; try lia. reflexivity. }
      rewrite Hch. rewrite firstn_all2 by (rewrite be_length; lia). rewrite be_length.
      replace (wb - (wb - ceil8 n) - ceil8 n) with 0 by lia. cbn [repeat]. rewrite app_nil_r.
      rewrite from_be_pad; [reflexivity|]. apply (pow2_small v n); [unfold ceil8; lia|exact Hv].
Qed.

(** ** Reading *)

Lemma reads_slice src wb e n o v : 1 <= n <= 8 * wb -> (v < 2 ^ N.of_nat n)%N ->
  (e = Big -> o = Lsb0 -> n <= 8 \/ n mod 8 = 0) ->
  reads src o (let* bits := read_bits_into n o in lift (u_of_bits wb e n o bits)) (layout e o n v) v.
Proof.
  intros Hn Hv Hb. eapply reads_lift; [|now apply u_of_layout].
  rewrite <- (layout_length e o n v) at 1. apply reads_bits.
Qed.
Lemma reads_u src wb e n o v : 1 <= n <= 8 * wb -> (v < 2 ^ N.of_nat n)%N ->
  (e = Big -> o = Lsb0 -> n <= 8 \/ n mod 8 = 0) -> reads src o (read_u_bits wb e n o) (layout e o n v) v.
Proof.
  intros Hn Hv Hb. unfold read_u_bits. replace (8 * wb <? n) with false by lia.
  pose proof (reads_slice src wb e n o v Hn Hv Hb) as HS. destruct e; [exact HS|]. destruct o; [|exact HS].
  destruct ((0 <? n) && (n <=? 64)) eqn:E; [|exact HS].
  replace v with (wrap (N.of_nat (8 * wb)) v) at 2 by (unfold wrap; apply N.mod_small; eapply pow2_small; [|exact Hv]; lia).
  apply reads_map with (f := fun x => wrap (N.of_nat (8 * wb)) x).
  rewrite layout_be_msb. rewrite <- (N2bits_length n v) at 1.
  replace v with (bits2N (N2bits n v)) at 3 by (rewrite bits2N_N2bits; now apply N.mod_small).
  apply reads_uint. rewrite N2bits_length. lia.
Qed.
Lemma reads_sized src wb e n o v : 0 < n <= wb -> (v < 2 ^ N.of_nat (8 * n))%N ->
  reads src o (read_bytes_sized wb e n o) (bitstring o (to_bytes_e e n v)) v.
Proof.
  intros Hn Hv. unfold read_bytes_sized. replace (wb <? n) with false by lia.
  assert (HL : length (to_bytes_e e n v) = n) by (destruct e; [apply le_length|apply be_length]).
  pose proof (reads_bytes src o n wb (to_bytes_e e n v) HL Hn) as HR.
  apply reads_map with (f := fun bs => match e with Little => from_le (bs ++ repeat x00 (wb - n))
                                                  | Big => from_be (repeat x00 (wb - n) ++ bs) end) in HR.
  replace v with (match e with Little => from_le (to_bytes_e e n v ++ repeat x00 (wb - n))
                             | Big => from_be (repeat x00 (wb - n) ++ to_bytes_e e n v) end) at 2; [exact HR|].
  destruct e; cbn [to_bytes_e]; [now apply from_le_pad|now apply from_be_pad].
Qed.
Lemma layout_whole e o n v : n mod 8 = 0 -> layout e o n v = bitstring o (to_bytes_e e (n / 8) v).
Proof. intros H. unfold layout. rewrite H. cbn [N2bits]. rewrite orient_nil. destruct e; cbn [to_bytes_e app]; [apply app_nil_r|reflexivity]. Qed.
Lemma reads_u8_bytes src o v : (v < 256)%N -> reads src o (read_u8_bytes o) (bitstring o (be_bytes 1 v)) v.
Proof.
  intros Hv. unfold read_u8_bytes. assert (HL : length (be_bytes 1 v) = 1) by apply be_length.
  pose proof (reads_bytes src o 1 1 (be_bytes 1 v) HL ltac:(lia)) as HR. apply reads_map with (f := from_be) in HR.
  rewrite from_be_be in HR by exact Hv. exact HR.
Qed.
Lemma le_be_1 v : le_bytes 1 v = be_bytes 1 v.
Proof. unfold le_bytes. pose proof (be_length 1 v) as L. destruct (be_bytes 1 v) as [|b [|]]; cbn in L; try lia. reflexivity. Qed.
Lemma to_bytes_1 e v : to_bytes_e e 1 v = be_bytes 1 v.
Proof. destruct e; [apply le_be_1|reflexivity]. Qed.
Lemma reads_eyo src p e n o v : 0 < n <= prim_bytes p -> (v < 2 ^ N.of_nat (8 * n))%N ->
  reads src o (read_eyo p e n o) (bitstring o (to_bytes_e e n v)) v.
Proof.
  intros Hn Hv. destruct p as [|wb|wb]; cbn [read_eyo prim_bytes] in *; try now apply reads_sized.
  assert (n = 1) by lia. subst n. rewrite to_bytes_1. apply reads_u8_bytes. exact Hv.
Qed.

Lemma reads_prim_u src p c e n o v : is_unsigned p -> bits_of_ctx c = Some (e, n, o) ->
  1 <= n <= prim_width p -> (v < 2 ^ N.of_nat n)%N ->
  (e = Big -> o = Lsb0 -> n <= 8 \/ n mod 8 = 0) ->
  reads src o (prim_read p c) (layout e o n v) v.
Proof.
  intros Hu Hc Hn Hv Hb.
  assert (HE : reads src o (read_ebo p e n o) (layout e o n v) v).
  { destruct p as [|wb|wb]; cbn [read_ebo]; [now apply reads_u|now apply reads_u|destruct Hu]. }
  assert (HY : n mod 8 = 0 -> reads src o (read_eyo p e (n / 8) o) (layout e o n v) v).
  { intros Hz. rewrite layout_whole by exact Hz. apply reads_eyo; [unfold prim_width in Hn; lia|].
    replace (8 * (n / 8)) with n by lia. exact Hv. }
  destruct c; cbn in Hc; try discriminate; injection Hc as <- <- <-; cbn [prim_read]; try exact HE;
  (destruct (Nat.eqb_spec (n0 mod 8) 0); [now apply HY|exact HE]).
Qed.

(** Whole-byte contexts. *)
Lemma reads_const src e n o v : 0 < n -> (v < 2 ^ N.of_nat (8 * n))%N ->
  reads src o (let* bs := read_bytes_const n o in ret (from_e e bs)) (bitstring o (to_bytes_e e n v)) v.
Proof.
  intros Hn Hv. assert (HL : length (to_bytes_e e n v) = n) by (destruct e; [apply le_length|apply be_length]).
  pose proof (reads_bytes src o n n (to_bytes_e e n v) HL ltac:(lia)) as HR. apply reads_map with (f := from_e e) in HR.
  replace v with (from_e e (to_bytes_e e n v)) at 2; [exact HR|].
  destruct e; cbn; [now apply from_le_le|now apply from_be_be].
Qed.
Lemma reads_prim_bytes src p c e n o v : bytes_of_ctx (prim_bytes p) c = Some (e, n, o) ->
  0 < n <= prim_bytes p -> (v < 2 ^ N.of_nat (8 * n))%N ->
  reads src o (prim_read p c) (bitstring o (to_bytes_e e n v)) v.
Proof.
  intros Hc Hn Hv. pose proof (reads_eyo src p e n o v Hn Hv) as HY.
  destruct c; cbn in Hc; try discriminate; injection Hc as <- <- <-; cbn [prim_read]; try exact HY;
  unfold read_e; apply reads_const; try assumption; lia.
Qed.

(** ** Range checks *)

Lemma first_true_spec l :
  match first_bit true l with
  | Some i => i < length l /\ (2 ^ N.of_nat (length l - 1 - i) <= bits2N l < 2 ^ N.of_nat (length l - i))%N
  | None => bits2N l = 0%N
  end.
Proof.
  induction l as [|b l IH]; [reflexivity|]. cbn [first_bit]. destruct b; cbn [Bool.eqb].
  - rewrite bits2N_cons. cbn [length]. split; [lia|]. replace (S (length l) - 1 - 0) with (length l) by lia.
    replace (S (length l) - 0) with (S (length l)) by lia. rewrite Nnat.Nat2N.inj_succ, N.pow_succ_r'.
    pose proof (bits2N_lt l). lia.
  - destruct (first_bit true l) as [i|]; cbn [option_map]; rewrite bits2N_cons.
    + destruct IH as [Hi Hb]. cbn [length]. split; [lia|]. replace (S (length l) - 1 - S i) with (length l - 1 - i) by lia.
      replace (S (length l) - S i) with (length l - i) by lia. lia.
    + lia.
Qed.
Lemma pow2_lt_inv a b x : (2 ^ N.of_nat a <= x)%N -> (x < 2 ^ N.of_nat b)%N -> a < b.
Proof.
  intros H1 H2. destruct (Nat.lt_ge_cases a b) as [|H]; [assumption|]. pose proof (pow2_mono b a H). lia.
Qed.
Lemma too_big_be_spec w n v : (v < 2 ^ N.of_nat w)%N -> n <= w ->
  too_big_be w n v = (2 ^ N.of_nat n <=? v)%N.
Proof.
  intros Hv Hn. unfold too_big_be. pose proof (first_true_spec (N2bits w v)) as H. rewrite N2bits_length, bits2N_N2bits, N.mod_small in H by exact Hv.
  destruct (first_bit true (N2bits w v)) as [i|].
  - destruct H as [Hi [H1 H2]]. destruct (N.leb_spec (2 ^ N.of_nat n) v) as [Hle|Hlt].
    + pose proof (pow2_lt_inv _ _ _ Hle H2). lia.
    + pose proof (pow2_lt_inv _ _ _ H1 Hlt). lia.
  - subst v. symmetry. apply N.leb_gt. apply pow2_pos.
Qed.
Lemma too_big_le_spec w n v : (v < 2 ^ N.of_nat w)%N -> n <= w ->
  too_big_le w n v = (2 ^ N.of_nat n <=? v)%N.
Proof.
  intros Hv Hn. rewrite <- (too_big_be_spec w n v Hv Hn). unfold too_big_le, too_big_be, last_bit.
  pose proof (first_true_spec (N2bits w v)) as H. destruct (first_bit true (N2bits w v)) as [i|]; cbn [option_map]; [|reflexivity].
  destruct H as [Hi _]. rewrite N2bits_length in Hi. lia.
Qed.
Lemma first_bit_app b l1 l2 : first_bit b (l1 ++ l2) =
  match first_bit b l1 with Some i => Some i | None => option_map (fun i => length l1 + i) (first_bit b l2) end.
Proof.
  induction l1 as [|x l1 IH]; cbn [app first_bit length].
  - destruct (first_bit b l2); reflexivity.
  - destruct (Bool.eqb x b); [reflexivity|]. rewrite IH. destruct (first_bit b l1); [reflexivity|].
    destruct (first_bit b l2); reflexivity.
Qed.
Lemma zero_byte_bits b : Byte.eqb b x00 = match first_bit true (byte_bits b) with None => true | Some _ => false end.
Proof. destruct b; reflexivity. Qed.
Lemma significant_bits bs : significant bs =
  match first_bit true (bits_of_bytes bs) with Some i => 8 * length bs - i | None => 0 end.
Proof.
  induction bs as [|b bs IH]; [reflexivity|]. cbn [significant]. unfold bits_of_bytes. cbn [flat_map].
  fold (bits_of_bytes bs). rewrite first_bit_app, zero_byte_bits. unfold leading_zeros.
  destruct (first_bit true (byte_bits b)) as [i|]; [lia|]. rewrite IH, byte_bits_length.
  destruct (first_bit true (bits_of_bytes bs)); cbn [option_map length]; lia.
Qed.
Lemma significant_spec wb n v : (v < 2 ^ N.of_nat (8 * wb))%N -> n <= 8 * wb ->
  (n <? significant (be_bytes wb v)) = (2 ^ N.of_nat n <=? v)%N.
Proof.
  intros Hv Hn. rewrite significant_bits, be_bits, be_length. rewrite <- (too_big_be_spec _ _ _ Hv Hn). unfold too_big_be.
  pose proof (first_true_spec (N2bits (8 * wb) v)) as H. destruct (first_bit true _) as [i|]; [|reflexivity].
  destruct H as [Hi _]. rewrite N2bits_length in Hi. lia.
Qed.

(** ** Writing *)

Lemma skipn_N2bits w n v : n <= w -> skipn (w - n) (N2bits w v) = N2bits n v.
Proof.
  intros H. replace w with ((w - n) + n) at 2 by lia. rewrite N2bits_add.
  rewrite skipn_app_ge by (rewrite N2bits_length; lia). rewrite N2bits_length, Nat.sub_diag. reflexivity.
Qed.
Lemma N2bits_mod8 v : N2bits 8 (v mod 2 ^ 8) = N2bits 8 v.
Proof. exact (N2bits_mod 8 v). Qed.
Lemma le_cons k v : le_bytes (S k) v = byte_of_N (v mod 2 ^ 8) :: le_bytes k (v / 2 ^ 8).
Proof.
  change (S k) with (1 + k). rewrite le_app. change (N.of_nat (8 * 1)) with 8%N. unfold le_bytes at 1.
  assert (H : be_bytes 1 v = [byte_of_N (v mod 2 ^ 8)]).
  { apply bits_of_bytes_inj. rewrite be_bits. cbn [bits_of_bytes flat_map]. rewrite app_nil_r. unfold byte_of_N.
    rewrite byte_bits_of_bits by apply N2bits_length. symmetry. apply (N2bits_mod 8). }
  rewrite H. reflexivity.
Qed.
Lemma byte_of_N_byte_bits v : byte_bits (byte_of_N v) = N2bits 8 v.
Proof. unfold byte_of_N. apply byte_bits_of_bits. apply N2bits_length. Qed.
Lemma layout_le_step o n v : 8 <= n -> layout Little o n v = orient o (N2bits 8 v) ++ layout Little o (n - 8) (v / 2 ^ 8).
Proof.
  intros H. unfold layout. replace (n / 8) with (S ((n - 8) / 8)) by lia. replace (n mod 8) with ((n - 8) mod 8) by lia.
  rewrite le_cons, bitstring_cons, <- app_assoc, byte_of_N_byte_bits. f_equal; [f_equal; apply (N2bits_mod 8)|]. f_equal. f_equal. f_equal.
  rewrite N.div_div by apply pow2_nz. f_equal. rewrite <- N.pow_add_r. f_equal. lia.
Qed.
Lemma layout_le_small o n v : n < 8 -> layout Little o n v = orient o (N2bits n v).
Proof.
  intros H. unfold layout. replace (n / 8) with 0 by lia. replace (n mod 8) with n by lia.
  cbn [Nat.mul N.of_nat]. change (2 ^ 0)%N with 1%N. now rewrite N.div_1_r.
Qed.
Lemma emits_chunks o a wb n v : n <= 8 * wb ->
  emits o a (write_chunks (le_bytes wb v) n o) (layout Little o n v).
Proof.
  revert a n v. induction wb as [|wb IH]; intros a n v Hn.
  - assert (n = 0) by lia. subst n. rewrite layout_le_small by lia. cbn [N2bits]. rewrite orient_nil. apply emits_ret.
  - rewrite le_cons. cbn [write_chunks]. rewrite byte_of_N_byte_bits. destruct (Nat.ltb_spec n 8) as [H8|H8].
    + rewrite layout_le_small by exact H8. rewrite (skipn_N2bits 8 n) by lia.
      replace (N2bits n v) with (N2bits n (v mod 2 ^ 8)).
      * apply emits_bits_short. rewrite N2bits_length. lia.
      * rewrite <- (skipn_N2bits 8 n v) by lia. rewrite <- (skipn_N2bits 8 n (v mod 2 ^ 8)) by lia. f_equal. apply (N2bits_mod 8).
    + rewrite layout_le_step by exact H8. rewrite N2bits_mod8.
      apply emits_bind; [apply emits_bits_short; rewrite N2bits_length; lia|]. apply IH. lia.
Qed.
(** Chunks of whole bytes, as the big-endian [Lsb0] write issues them. *)
Lemma emits_chunks_bytes o a bs : emits o a (write_chunks bs (8 * length bs) o) (bitstring o bs).
Proof.
  revert a. induction bs as [|b bs IH]; intros a; [apply emits_ret|]. cbn [write_chunks].
  replace (8 * length (b :: bs) <? 8) with false by (cbn [length]; lia). rewrite bitstring_cons.
  apply emits_bind; [apply emits_bits_short; rewrite byte_bits_length; lia|].
  replace (8 * length (b :: bs) - 8) with (8 * length bs) by (cbn [length]; lia). apply IH.
Qed.

Lemma layout_u8 e o n v : 1 <= n <= 8 -> layout e o n v = orient o (N2bits n v).
Proof.
  intros Hn. destruct (Nat.eq_dec n 8) as [->|Hn8].
  - rewrite layout_whole by reflexivity. change (8 / 8) with 1. rewrite to_bytes_1. destruct o.
    + rewrite bitstring_msb, be_bits. reflexivity.
    + unfold be_bytes. cbn [orient]. rewrite <- rev_bitstring_bytes by (rewrite N2bits_length; reflexivity).
      pose proof (be_length 1 v) as L. unfold be_bytes in L. change (8 * 1) with 8 in *.
      destruct (bytes_of_bits (N2bits 8 v)) as [|b [|]]; cbn in L; try lia. reflexivity.
  - unfold layout. replace (n / 8) with 0 by lia. replace (n mod 8) with n by lia. cbn [Nat.mul N.of_nat].
    change (bitstring o (be_bytes 0 v)) with (@nil bool). change (bitstring o (le_bytes 0 v)) with (@nil bool). change (2 ^ 0)%N with 1%N.
    rewrite N.div_1_r. destruct e; [reflexivity|apply app_nil_r].
Qed.
Lemma emits_ebo_generic a wb e n o v : 1 <= n <= 8 * wb -> (v < 2 ^ N.of_nat n)%N ->
  (e = Big -> o = Lsb0 -> n <= 8 \/ n = 8 * wb) ->
  emits o a (write_ebo_generic wb e n o v) (layout e o n v).
Proof.
  intros Hn Hv Hb. assert (Hw : (v < 2 ^ N.of_nat (8 * wb))%N) by (eapply pow2_small; [|exact Hv]; lia).
  assert (Hin : (2 ^ N.of_nat n <=? v)%N = false) by now apply N.leb_gt.
  unfold write_ebo_generic. replace (8 * wb <? n) with false by lia. destruct e; cbn [to_bytes_e].
  - rewrite too_big_le_spec, Hin by (assumption || lia). destruct o; apply emits_chunks; lia.
  - destruct o.
    + intros w Hwr Ho Ha. cbv beta. cbn [in_order] in Ho. rewrite Ho. cbn [order_eqb]. rewrite layout_be_msb.
      destruct ((n <=? 64) && true) eqn:E64.
      * rewrite significant_spec, Hin by (assumption || lia). rewrite be_length.
        replace (N2bits n v) with (N2bits n (from_be (skipn (wb - 8) (be_bytes wb v)))).
        { apply (emits_uint a); [lia|exact Hwr|exact Ho|exact Ha]. }
        destruct (Nat.le_gt_cases wb 8) as [H8|H8].
        -- replace (wb - 8) with 0 by lia. cbn [skipn]. now rewrite from_be_be.
        -- replace wb with ((wb - 8) + 8) at 2 by lia. rewrite be_app, skipn_app_ge, be_length, Nat.sub_diag by (rewrite be_length; lia).
           cbn [skipn]. f_equal. apply from_be_be. eapply pow2_small; [|exact Hv]. lia.
      * rewrite too_big_be_spec, Hin by (assumption || lia). rewrite be_bits, skipn_N2bits by lia.
        apply (emits_bits_msb a); assumption.
    + rewrite too_big_be_spec, Hin by (assumption || lia). specialize (Hb eq_refl eq_refl).
      destruct (Nat.leb_spec n 8) as [H8|H8].
      * rewrite be_bits, skipn_N2bits by lia. rewrite layout_u8 by lia. apply emits_bits_short. rewrite N2bits_length. lia.
      * assert (n = 8 * wb) by lia. subst n. rewrite layout_whole by lia. replace (8 * wb / 8) with wb by lia. cbn [to_bytes_e].
        rewrite <- (be_length wb v) at 2. apply emits_chunks_bytes.
Qed.
Lemma emits_u8 a n o v : 1 <= n <= 8 -> (v < 2 ^ N.of_nat n)%N ->
  emits o a (write_u8_bits n o v) (orient o (N2bits n v)).
Proof.
  intros Hn Hv w Hw Ho Ha. unfold write_u8_bits. assert (Hv8 : (v < 2 ^ N.of_nat 8)%N) by (eapply pow2_small; [|exact Hv]; lia).
  assert (Hin : (2 ^ N.of_nat n <=? v)%N = false) by now apply N.leb_gt.
  assert (HG : exists w' bs, write_bits_order (skipn (8 - n) (N2bits 8 v)) o w = (Ok tt, w') /\ stored w w' bs /\ writable w' /\
     in_order o w' /\ bitstring o bs ++ orient o (w_rest w') = orient o (w_rest w) ++ orient o (N2bits n v)).
  { rewrite skipn_N2bits by lia. apply (emits_bits_short o a); try assumption. rewrite N2bits_length. lia. }
  replace (8 <? n) with false by lia. rewrite too_big_be_spec, Hin by (assumption || lia).
  destruct (order_eqb o Msb0 && order_eqb (w_ord w) Msb0 && (n <=? 8)) eqn:E; [|exact HG].
  destruct o; [|discriminate]. rewrite N.shiftr_div_pow2, N.div_small by exact Hv. rewrite andb_false_r.
  apply (emits_uint a); [lia|assumption..].
Qed.
Lemma emits_u_eb a wb e n v : n <= 8 * wb -> (v < 2 ^ N.of_nat n)%N ->
  emits Msb0 a (write_u_eb wb e n v) (layout e Msb0 n v).
Proof.
  intros Hn Hv. assert (Hw : (v < 2 ^ N.of_nat (8 * wb))%N) by (eapply pow2_small; [|exact Hv]; lia).
  assert (Hin : (2 ^ N.of_nat n <=? v)%N = false) by now apply N.leb_gt.
  unfold write_u_eb. replace (8 * wb <? n) with false by lia. destruct e.
  - rewrite too_big_le_spec, Hin by (assumption || lia). apply emits_chunks. exact Hn.
  - rewrite too_big_be_spec, Hin by (assumption || lia). rewrite skipn_N2bits, layout_be_msb by lia. apply emits_bits_msb.
Qed.
Lemma emits_prim_u a p c e n o v : is_unsigned p -> bits_of_ctx c = Some (e, n, o) ->
  1 <= n <= prim_width p -> (v < 2 ^ N.of_nat n)%N ->
  (e = Big -> o = Lsb0 -> n <= 8 \/ n = prim_width p) ->
  emits o a (prim_write p c v) (layout e o n v).
Proof.
  intros Hu Hc Hn Hv Hb.
  assert (HE : emits o a (write_ebo p e n o v) (layout e o n v)).
  { destruct p as [|wb|wb]; cbn [write_ebo].
    - change (prim_width PU8) with 8 in Hn. rewrite layout_u8 by exact Hn. now apply emits_u8.
    - now apply emits_ebo_generic.
    - destruct Hu. }
  assert (HB : o = Msb0 -> emits o a (write_eb p e n v) (layout e o n v)).
  { intros ->. destruct p as [|wb|wb]; cbn [write_eb].
    - change (prim_width PU8) with 8 in Hn. rewrite layout_u8 by exact Hn. now apply emits_u8.
    - apply emits_u_eb; [apply Hn|exact Hv].
    - destruct Hu. }
  destruct c; cbn in Hc; try discriminate; injection Hc as <- <- <-; cbn [prim_write]; try exact HE; now apply HB.
Qed.
Lemma low_bytes e wb n v : n <= wb ->
  match e with Little => firstn n (le_bytes wb v) | Big => skipn (wb - n) (be_bytes wb v) end = to_bytes_e e n v.
Proof.
  intros Hn. destruct e; cbn [to_bytes_e].
  - replace (le_bytes wb v) with (le_bytes (n + (wb - n)) v) by (f_equal; lia). rewrite le_app.
    rewrite firstn_app_le by (rewrite le_length; lia). apply firstn_all2. rewrite le_length. lia.
  - replace (be_bytes wb v) with (be_bytes ((wb - n) + n) v) by (f_equal; lia). rewrite be_app.
    rewrite skipn_app_ge by (rewrite be_length; lia). rewrite be_length, Nat.sub_diag. reflexivity.
Qed.
Lemma emits_prim_bytes a p c e n o v : bytes_of_ctx (prim_bytes p) c = Some (e, n, o) ->
  0 < n <= prim_bytes p -> (v < 2 ^ N.of_nat (8 * prim_bytes p))%N -> o = Msb0 \/ a = 0 ->
  emits o a (prim_write p c v) (bitstring o (to_bytes_e e n v)).
Proof.
  intros Hc Hn Hv Ho.
  assert (HY : emits o a (write_eyo p e n v) (bitstring o (to_bytes_e e n v))).
  { destruct p as [|wb|wb]; cbn [write_eyo prim_bytes] in *.
    - assert (n = 1) by lia. subst n. rewrite to_bytes_1. now apply emits_bytes.
    - unfold write_bytes_sized. replace (wb <? n) with false by lia.
      replace (match e with Little => firstn n (le_bytes wb v) | Big => skipn (wb - n) (be_bytes wb v) end) with (to_bytes_e e n v)
        by (symmetry; apply low_bytes; lia). now apply emits_bytes.
    - unfold write_bytes_sized. replace (wb <? n) with false by lia.
      replace (match e with Little => firstn n (le_bytes wb v) | Big => skipn (wb - n) (be_bytes wb v) end) with (to_bytes_e e n v)
        by (symmetry; apply low_bytes; lia). now apply emits_bytes. }
  assert (HF : n = prim_bytes p -> emits o a (write_e p e v) (bitstring o (to_bytes_e e n v))).
  { intros ->. unfold write_e. now apply emits_bytes. }
  destruct c; cbn in Hc; try discriminate; injection Hc as <- <- <-; cbn [prim_write]; try exact HY; now apply HF.
Qed.

(** ** Exact range checks *)

Definition ok_from (m : WM unit) (w : writer) : Prop := exists w', m w = (Ok tt, w').
Lemma ok_bits_order l o w : writable w -> exists w', write_bits_order l o w = (Ok tt, w') /\ writable w'.
Proof.
  intros Hw. apply writable_good in Hw. destruct (write_bits_order_ok l o w Hw) as (w' & bs & E & _ & G & _).
  exists w'. split; [exact E|now apply writable_good].
Qed.
Lemma ok_chunks cs n o w : writable w -> ok_from (write_chunks cs n o) w.
Proof.
  revert n w. induction cs as [|c cs IH]; intros n w Hw; [now exists w|]. cbn [write_chunks]. destruct (n <? 8).
  - destruct (ok_bits_order (skipn (8 - n) (byte_bits c)) o w Hw) as (w' & E & _). now exists w'.
  - destruct (ok_bits_order (byte_bits c) o w Hw) as (w1 & E & Hw1). destruct (IH (n - 8) w1 Hw1) as (w2 & E2).
    exists w2. now rewrite (bind_ok _ _ _ _ _ E).
Qed.
Lemma ok_uint v n w : writable w -> w_ord w = Msb0 -> 1 <= n <= 64 -> ok_from (write_bits_uint_msb0 v n) w.
Proof.
  intros Hw Ho Hn. apply writable_good in Hw. destruct (fast_write_ok v n w Hw Ho Hn) as (w' & bs & E & _). now exists w'.
Qed.
Lemma ok_generic l o w : writable w -> ok_from (write_bits_order l o) w.
Proof. intros Hw. destruct (ok_bits_order l o w Hw) as (w' & E & _). now exists w'. Qed.

Definition exact_write (m : WM unit) (w : writer) (ok : Prop) : Prop :=
  (ok -> exists w', m w = (Ok tt, w')) /\ (~ ok -> m w = (Err InvalidParam, w)).

Lemma exact_if (b : bool) (m : WM unit) w (ok : Prop) : (b = true <-> ~ ok) -> (b = false -> ok_from m w) ->
  exact_write (if b then fail InvalidParam else m) w ok.
Proof. intros H1 H2. split; intros H; destruct b; try reflexivity; [tauto|now apply H2|exfalso; intuition congruence]. Qed.

Lemma exact_if_at (b : bool) (m : WM unit) w (ok : Prop) : (b = true <-> ~ ok) -> (b = false -> ok_from m w) ->
  (ok -> exists w', (if b then (Err InvalidParam, w) else m w) = (Ok tt, w')) /\
  (~ ok -> (if b then (Err InvalidParam, w) else m w) = (Err InvalidParam, w)).
Proof. intros H1 H2. split; intros H; destruct b; try reflexivity; [tauto|now apply H2|exfalso; intuition congruence]. Qed.

Lemma range_iff n v : (2 ^ N.of_nat n <=? v)%N = true <-> ~ (v < 2 ^ N.of_nat n)%N.
Proof. rewrite N.leb_le. lia. Qed.

Lemma exact_ebo_generic wb e n o v w : 1 <= n -> (v < 2 ^ N.of_nat (8 * wb))%N -> writable w ->
  exact_write (write_ebo_generic wb e n o v) w (n <= 8 * wb /\ (v < 2 ^ N.of_nat n)%N).
Proof.
  intros Hn Hv Hw. unfold write_ebo_generic. destruct (Nat.ltb_spec (8 * wb) n) as [Hb|Hb].
  { split; [lia|reflexivity]. }
  assert (HR : (2 ^ N.of_nat n <=? v)%N = true <-> ~ (n <= 8 * wb /\ (v < 2 ^ N.of_nat n)%N)) by (rewrite range_iff; tauto).
  destruct e.
  - rewrite too_big_le_spec by assumption. destruct o; (apply exact_if; [exact HR|intros _; now apply ok_chunks]).
  - destruct o.
    + rewrite too_big_be_spec by assumption.
      assert (HS : (n <? significant (to_bytes_e Big wb v)) = (2 ^ N.of_nat n <=? v)%N) by now apply significant_spec.
      unfold exact_write. cbv beta. rewrite HS. destruct ((n <=? 64) && order_eqb (w_ord w) Msb0) eqn:E64.
      * assert (w_ord w = Msb0) by (destruct (w_ord w); [reflexivity|cbn [order_eqb] in E64; lia]).
        apply (exact_if_at _ (write_bits_uint_msb0 _ n) w _ HR). intros _. apply ok_uint; [assumption..|lia].
      * apply (exact_if_at _ (write_bits_order _ Msb0) w _ HR). intros _. now apply ok_generic.
    + rewrite too_big_be_spec by assumption. destruct (n <=? 8);
      (apply exact_if; [exact HR|intros _]); [now apply ok_generic|now apply ok_chunks].
Qed.
Lemma exact_u8 n o v w : 1 <= n -> (v < 2 ^ N.of_nat 8)%N -> writable w ->
  exact_write (write_u8_bits n o v) w (n <= 8 /\ (v < 2 ^ N.of_nat n)%N).
Proof.
  intros Hn Hv Hw. unfold write_u8_bits. destruct (Nat.leb_spec n 8) as [Hb|Hb].
  - rewrite too_big_be_spec by assumption. replace (8 <? n) with false by lia.
    assert (HR : (2 ^ N.of_nat n <=? v)%N = true <-> ~ (n <= 8 /\ (v < 2 ^ N.of_nat n)%N)) by (rewrite range_iff; tauto).
    unfold exact_write. cbv beta. rewrite andb_true_r. destruct (order_eqb o Msb0 && order_eqb (w_ord w) Msb0) eqn:E.
    + assert (Ho : w_ord w = Msb0) by (destruct (w_ord w); [reflexivity|cbn [order_eqb] in E; lia]).
      assert (HS : (n <? 8) && negb (N.shiftr v (N.of_nat n) =? 0)%N = (2 ^ N.of_nat n <=? v)%N).
      { rewrite N.shiftr_div_pow2. destruct (N.leb_spec (2 ^ N.of_nat n) v) as [H|H].
        - assert (v / 2 ^ N.of_nat n <> 0)%N by (intros H0; apply N.div_small_iff in H0; [lia|apply pow2_nz]).
          assert (n < 8) by (eapply pow2_lt_inv; eassumption).
          destruct (N.eqb_spec (v / 2 ^ N.of_nat n) 0); [contradiction|]. cbn [negb]. lia.
        - rewrite N.div_small by exact H. cbn. apply andb_false_r. }
      rewrite HS. apply (exact_if_at _ (write_bits_uint_msb0 v n) w _ HR). intros _. apply ok_uint; [assumption..|lia].
    + apply (exact_if_at _ (write_bits_order _ o) w _ HR). intros _. now apply ok_generic.
  - unfold exact_write. cbv beta. rewrite andb_false_r. replace (8 <? n) with true by lia. split; [lia|reflexivity].
Qed.
Lemma exact_u_eb wb e n v w : (v < 2 ^ N.of_nat (8 * wb))%N -> writable w ->
  exact_write (write_u_eb wb e n v) w (n <= 8 * wb /\ (v < 2 ^ N.of_nat n)%N).
Proof.
  intros Hv Hw. unfold write_u_eb. destruct (Nat.ltb_spec (8 * wb) n) as [Hb|Hb].
  { split; [lia|reflexivity]. }
  assert (HR : (2 ^ N.of_nat n <=? v)%N = true <-> ~ (n <= 8 * wb /\ (v < 2 ^ N.of_nat n)%N)) by (rewrite range_iff; tauto).
  destruct e; [rewrite too_big_le_spec by assumption|rewrite too_big_be_spec by assumption];
  (apply exact_if; [exact HR|intros _]); [now apply ok_chunks|now apply ok_generic].
Qed.
Lemma exact_prim_u p c e n o v w : is_unsigned p -> bits_of_ctx c = Some (e, n, o) -> 1 <= n ->
  (v < 2 ^ N.of_nat (prim_width p))%N -> writable w ->
  exact_write (prim_write p c v) w (n <= prim_width p /\ (v < 2 ^ N.of_nat n)%N).
Proof.
  intros Hu Hc Hn Hv Hw.
  assert (HE : exact_write (write_ebo p e n o v) w (n <= prim_width p /\ (v < 2 ^ N.of_nat n)%N)).
  { destruct p as [|wb|wb]; cbn [write_ebo]; [now apply exact_u8|now apply exact_ebo_generic|destruct Hu]. }
  assert (HB : exact_write (write_eb p e n v) w (n <= prim_width p /\ (v < 2 ^ N.of_nat n)%N)).
  { destruct p as [|wb|wb]; cbn [write_eb]; [now apply exact_u8|now apply exact_u_eb|destruct Hu]. }
  destruct c; cbn in Hc; try discriminate; injection Hc as <- <- <-; cbn [prim_write]; first [exact HE|exact HB].
Qed.

(** ** Signed *)

Lemma pow2_Z n : (2 ^ Z.of_nat n = Z.of_N (2 ^ N.of_nat n))%Z.
Proof. rewrite N2Z.inj_pow, nat_N_Z. reflexivity. Qed.
Lemma pow2_pred n : 1 <= n -> (2 ^ N.of_nat n = 2 * 2 ^ N.of_nat (n - 1))%N.
Proof. intros H. replace n with (S (n - 1)) at 1 by lia. rewrite Nnat.Nat2N.inj_succ. apply N.pow_succ_r'. Qed.
Lemma top_bit w v : 1 <= w -> (v < 2 ^ N.of_nat w)%N -> N.testbit v (N.of_nat w - 1) = (2 ^ N.of_nat w <=? 2 * v)%N.
Proof.
  intros Hw Hv. rewrite N.testbit_eqb. replace (N.of_nat w - 1)%N with (N.of_nat (w - 1)) by lia.
  rewrite (pow2_pred w Hw) in *. destruct (N.leb_spec (2 * 2 ^ N.of_nat (w - 1)) (2 * v)) as [H|H].
  - assert (Hq : (v / 2 ^ N.of_nat (w - 1) = 1)%N).
    { symmetry. apply (N.div_unique _ _ _ (v - 2 ^ N.of_nat (w - 1))); lia. }
    rewrite Hq. reflexivity.
  - rewrite N.div_small by lia. reflexivity.
Qed.

Lemma bits2N_negb l : (bits2N (map negb l) + bits2N l + 1 = 2 ^ N.of_nat (length l))%N.
Proof.
  induction l as [|b l IH]; [reflexivity|]. cbn [map length]. rewrite !bits2N_cons, map_length, Nnat.Nat2N.inj_succ, N.pow_succ_r'.
  destruct b; cbn [negb]; lia.
Qed.
Lemma first_false l : first_bit false l = first_bit true (map negb l).
Proof. induction l as [|b l IH]; [reflexivity|]. cbn [map first_bit]. rewrite IH. now destruct b. Qed.

(** How far a value reaches: [x] is the value itself or its complement. *)
Definition reach (w : nat) (v : N) : N := if (2 ^ N.of_nat w <=? 2 * v)%N then (2 ^ N.of_nat w - 1 - v)%N else v.
Lemma sig_first w v : (v < 2 ^ N.of_nat w)%N ->
  match first_bit (negb (2 ^ N.of_nat w <=? 2 * v)%N) (N2bits w v) with
  | Some i => i < w /\ (2 ^ N.of_nat (w - 1 - i) <= reach w v < 2 ^ N.of_nat (w - i))%N
  | None => reach w v = 0%N
  end.
Proof.
  intros Hv. unfold reach. destruct (2 ^ N.of_nat w <=? 2 * v)%N eqn:E; cbn [negb].
  - rewrite first_false. pose proof (first_true_spec (map negb (N2bits w v))) as H.
    pose proof (bits2N_negb (N2bits w v)) as HN. rewrite map_length, N2bits_length in H. rewrite N2bits_length, bits2N_N2bits, N.mod_small in HN by exact Hv.
    replace (bits2N (map negb (N2bits w v))) with (2 ^ N.of_nat w - 1 - v)%N in H by lia. exact H.
  - pose proof (first_true_spec (N2bits w v)) as H. rewrite N2bits_length, bits2N_N2bits, N.mod_small in H by exact Hv. exact H.
Qed.
Lemma in_range_reach w n v : 1 <= n <= w -> (v < 2 ^ N.of_nat w)%N ->
  ((- 2 ^ (Z.of_nat n - 1) <= signed w v < 2 ^ (Z.of_nat n - 1))%Z <-> (reach w v < 2 ^ N.of_nat (n - 1))%N).
Proof.
  intros Hn Hv. replace (Z.of_nat n - 1)%Z with (Z.of_nat (n - 1)) by lia. unfold signed, reach. rewrite !pow2_Z.
  pose proof (pow2_mono (n - 1) (w - 1) ltac:(lia)) as Hm. pose proof (pow2_pred w ltac:(lia)) as Hp.
  generalize dependent (2 ^ N.of_nat (n - 1))%N. generalize dependent (2 ^ N.of_nat (w - 1))%N. generalize dependent (2 ^ N.of_nat w)%N.
  clear. intros W HvW K HK M HM. destruct (N.ltb_spec (2 * v) W); destruct (N.leb_spec W (2 * v)); split; lia.
Qed.

Lemma exact_i_eb wb e n v w : 1 <= wb -> 1 <= n -> (v < 2 ^ N.of_nat (8 * wb))%N -> writable w ->
  exact_write (write_i_eb wb e n v) w
    (n <= 8 * wb /\ (- 2 ^ (Z.of_nat n - 1) <= signed (8 * wb) v < 2 ^ (Z.of_nat n - 1))%Z).
Proof.
  intros Hwb Hn Hv Hw. unfold write_i_eb. destruct (Nat.ltb_spec (8 * wb) n) as [Hb|Hb].
  { split; [lia|reflexivity]. }
  rewrite top_bit by (assumption || lia). pose proof (sig_first (8 * wb) v Hv) as HF.
  pose proof (in_range_reach (8 * wb) n v ltac:(lia) Hv) as HI.
  destruct e; (apply exact_if; [|intros _; first [now apply ok_chunks|now apply ok_generic]]).
  - unfold last_bit. destruct (first_bit _ (N2bits (8 * wb) v)) as [i|]; cbn [option_map].
    + destruct HF as [Hi [H1 H2]]. split.
      * intros Hlt [_ H]. apply HI in H. pose proof (pow2_lt_inv _ _ _ H1 H). lia.
      * intros H. apply Nat.ltb_lt. destruct (Nat.le_gt_cases (8 * wb - 1 - i + 2) n) as [Hle|]; [|assumption]. exfalso. apply H.
        split; [assumption|]. apply HI. eapply pow2_small; [|exact H2]. lia.
    + split; [discriminate|]. intros H. exfalso. apply H. split; [assumption|]. apply HI. rewrite HF. apply pow2_pos.
  - destruct (first_bit _ (N2bits (8 * wb) v)) as [i|].
    + destruct HF as [Hi [H1 H2]]. split.
      * intros Hlt [_ H]. apply HI in H. pose proof (pow2_lt_inv _ _ _ H1 H). lia.
      * intros H. apply Nat.ltb_lt. destruct (Nat.le_gt_cases (8 * wb - n + 1) i) as [Hle|]; [|assumption]. exfalso. apply H.
        split; [assumption|]. apply HI. eapply pow2_small; [|exact H2]. lia.
    + split; [discriminate|]. intros H. exfalso. apply H. split; [assumption|]. apply HI. rewrite HF. apply pow2_pos.
Qed.

Lemma emits_i_eb a wb e n v : 1 <= wb -> 1 <= n <= 8 * wb -> (v < 2 ^ N.of_nat (8 * wb))%N ->
  (- 2 ^ (Z.of_nat n - 1) <= signed (8 * wb) v < 2 ^ (Z.of_nat n - 1))%Z ->
  emits Msb0 a (write_i_eb wb e n v) (layout e Msb0 n v).
Proof.
  intros Hwb Hn Hv Hr w Hw Ho Ha.
  assert (HX := exact_i_eb wb e n v w Hwb (proj1 Hn) Hv Hw). destruct HX as [HX _].
  destruct HX as [w0 HX]; [split; [apply Hn|exact Hr]|].
  unfold write_i_eb in *. replace (8 * wb <? n) with false in * by lia. destruct e.
  - destruct (match last_bit _ _ _ with Some _ => _ | None => _ end); [discriminate HX|]. apply (emits_chunks Msb0 a); try assumption. lia.
  - destruct (match first_bit _ _ with Some _ => _ | None => _ end); [discriminate HX|].
    rewrite skipn_N2bits, layout_be_msb by lia. now apply (emits_bits_msb a).
Qed.

Lemma sign_extend_ok w n v : 1 <= n <= w -> (v < 2 ^ N.of_nat w)%N -> (reach w v < 2 ^ N.of_nat (n - 1))%N ->
  sign_extend w n (v mod 2 ^ N.of_nat n) = Ok v.
Proof.
  intros Hn Hv Hr. unfold sign_extend. replace (w <=? w - n) with false by lia.
  set (v' := (v mod 2 ^ N.of_nat n)%N).
  assert (Hv' : (v' < 2 ^ N.of_nat n)%N) by (apply N.mod_lt, pow2_nz).
  assert (Hpw : (2 ^ N.of_nat w = 2 ^ N.of_nat n * 2 ^ N.of_nat (w - n))%N) by (rewrite <- N.pow_add_r; f_equal; lia).
  rewrite N.shiftl_mul_pow2. unfold wrap. rewrite N.mod_small.
  2:{ rewrite Hpw. apply N.mul_lt_mono_pos_r; [apply pow2_pos|exact Hv']. }
  rewrite N.shiftr_div_pow2, N.div_mul by apply pow2_nz.
  replace (w - (w - n)) with n by lia.
  replace (N.of_nat w - 1)%N with ((N.of_nat n - 1) + N.of_nat (w - n))%N by lia.
  rewrite N.mul_pow2_bits_add, top_bit by (assumption || lia). f_equal.
  pose proof (pow2_pred n ltac:(lia)) as Hpn. unfold reach in Hr. pose proof (pow2_pos (N.of_nat (w - n))) as Hk.
  destruct (N.leb_spec (2 ^ N.of_nat w) (2 * v)) as [Hneg|Hpos].
  - assert (E : v' = (2 ^ N.of_nat n - (2 ^ N.of_nat w - v))%N).
    { symmetry. apply (N.mod_unique v _ (2 ^ N.of_nat (w - n) - 1)); [clear - Hv Hr Hpn Hneg; lia|]. rewrite N.mul_sub_distr_l, N.mul_1_r, <- Hpw.
      assert (M : (2 ^ N.of_nat n <= 2 ^ N.of_nat w)%N) by (apply pow2_mono; lia). clear - Hv Hr Hpn Hneg M. lia. }
    rewrite E. assert (2 ^ N.of_nat n <= 2 ^ N.of_nat w)%N by (apply pow2_mono; lia).
    revert Hv Hr Hpn Hneg H. clear. generalize (2 ^ N.of_nat n)%N (2 ^ N.of_nat w)%N (2 ^ N.of_nat (n - 1))%N. intros A W P Hv Hr Hpn Hneg H.
    destruct (N.leb_spec A (2 * (A - (W - v)))); lia.
  - assert (E : v' = v) by (apply N.mod_small; clear - Hr Hpn; lia). rewrite E.
    revert Hr Hpn. clear. intros Hr Hpn. destruct (N.leb_spec (2 ^ N.of_nat n) (2 * v)); lia.
Qed.
Lemma reads_i_bits src wb e n o v : 1 <= n <= 8 * wb -> (v < 2 ^ N.of_nat (8 * wb))%N ->
  (e = Big -> o = Lsb0 -> n <= 8 \/ n mod 8 = 0) ->
  (- 2 ^ (Z.of_nat n - 1) <= signed (8 * wb) v < 2 ^ (Z.of_nat n - 1))%Z ->
  reads src o (read_i_bits wb e n o) (layout e o n v) v.
Proof.
  intros Hn Hv Hb Hr. unfold read_i_bits. replace (8 * wb <? n) with false by lia.
  eapply reads_lift.
  - rewrite <- (layout_length e o n v) at 1. apply reads_bits.
  - rewrite <- layout_mod. rewrite u_of_layout; [|exact Hn|apply N.mod_lt, pow2_nz|exact Hb]. cbn [res_bind].
    apply sign_extend_ok; [lia|exact Hv|]. apply in_range_reach; assumption || lia.
Qed.
