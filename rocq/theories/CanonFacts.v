(** Derived writers give back the bits that were read. *)
From Coq Require Import Lia ZifyBool ZifyNat ZifyN.
From Verif Require Import Base Spec Stream Reader Session Writer WSession Prims BitsFacts NFacts MonadFacts ReaderFacts ReaderOps SessionFacts FastRead WriterFacts WriterProps CodecSpec CodecFacts Containers ContainerSpec ContainerFacts Safety PrimFacts PrimProps ContainerProps Derive DeriveSpec DeriveFacts DeriveSound SafeSpec SafeFacts CanonSpec.
Ltac Zify.zify_post_hook ::= Z.div_mod_to_equations.

Lemma here_at p r : here p r -> r_at (r_bits r) r.
Proof. intros (_ & H & _). now split. Qed.
Lemma readable_any src r : readable src r -> readable AnySource r.
Proof. intros (H1 & H2 & _). now split; [|split]. Qed.
Lemma ends_readable p q w r : ends p q w -> readable (fst p) r -> readable (fst q) r.
Proof. intros [H _] Hr. destruct (fst q); [now apply (readable_any (fst p))|]. now rewrite <- H. Qed.
Lemma here_weak p q r : ends p q 0 -> here p r -> here q r.
Proof. intros E (H1 & H2 & H3). split; [exact (ends_readable _ _ _ _ E H1)|]. split; [exact H2|]. intros j Hq. destruct (proj2 E j Hq) as (k & Hp & ->). specialize (H3 k Hp). lia. Qed.
Lemma ends_refl p : ends p p 0.
Proof. split; [auto|]. intros j Hj. exists j. split; [exact Hj|lia]. Qed.

Lemma ends_mod p q n m : ends p q n -> n mod 8 = m mod 8 -> ends p q m.
Proof. intros [H1 H2] E. split; [exact H1|]. intros j Hj. destruct (H2 j Hj) as (k & Hk & ->). exists k. split; [exact Hk|lia]. Qed.

(** What is consumed decides where the reader is. *)
Lemma here_next o p q w r r' enc : here p r -> ends p q w -> length enc mod 8 = w mod 8 -> readable (fst p) r' ->
  unread_string o (seen r) = enc ++ unread_string o (seen r') -> r_bits r' = r_bits r + length enc -> here q r'.
Proof.
  intros Hh He Hw Hr Hu Hb. split; [exact (ends_readable _ _ _ _ He Hr)|].
  destruct (r_at_next o _ _ _ enc _ (here_at _ _ Hh) Hu eq_refl Hb) as [_ H2]. split; [rewrite Hb; exact H2|].
  intros j Hq. destruct (proj2 He j Hq) as (k & Hp & ->). destruct Hh as (_ & _ & H3). specialize (H3 k Hp). lia.
Qed.
(** A read with a known encoding. *)
Lemma known_read {A} src o (m : RM A) r v r' enc rest v0 : readable src r -> r_at (r_bits r) r -> unread_string o (seen r) = enc ++ rest ->
  reads_at src o (r_bits r) m enc v0 -> m r = (Ok v, r') ->
  v = v0 /\ readable src r' /\ unread_string o (seen r) = enc ++ unread_string o (seen r') /\ r_bits r' = r_bits r + length enc.
Proof.
  intros Hr Ha Hu H E. destruct (H r rest Hr Ha Hu) as (r1 & E1 & R1 & U1 & B1 & _). rewrite E in E1. apply pair_inj in E1. destruct E1 as [E1 <-].
  apply ok_inj in E1. split; [exact E1|]. split; [exact R1|]. split; [now rewrite U1|exact B1].
Qed.

(** ** Composition *)

Section Compose.
Variable o : order.

Lemma faithful_good {A} p q (g g' : A -> Prop) m wr : faithful o p q g m wr -> (forall v, g v -> g' v) -> faithful o p q g' m wr.
Proof. intros H Hg r v r' Hh E. destruct (H r v r' Hh E) as (G & H' & X). auto. Qed.
Lemma faithful_ends {A} p q q' (g : A -> Prop) m wr : faithful o p q g m wr -> ends q q' 0 -> faithful o p q' g m wr.
Proof. intros H He r v r' Hh E. destruct (H r v r' Hh E) as (G & H' & X). split; [exact G|]. split; [exact (here_weak _ _ _ He H')|exact X]. Qed.
Lemma faithful_ret {A} p q (g : A -> Prop) a wr : ends p q 0 -> g a -> (forall pos, emits_at o pos (wr a) []) -> faithful o p q g (ret a) wr.
Proof.
  intros He Hg Hw r v r' Hh E. apply pair_inj in E. destruct E as [E <-]. apply ok_inj in E. subst v. split; [exact Hg|].
  split; [exact (here_weak _ _ _ He Hh)|]. exists []. split; [reflexivity|]. split; [cbn; lia|apply Hw].
Qed.
Lemma faithful_fail {A} p q (g : A -> Prop) e wr : faithful o p q g (fail e) wr.
Proof. intros r v r' _ E. discriminate. Qed.
Lemma faithful_ext {A} p q (g : A -> Prop) m m' wr wr' : (forall r, m r = m' r) -> (forall v w, wr v w = wr' v w) ->
  faithful o p q g m' wr' -> faithful o p q g m wr.
Proof.
  intros H1 H2 H r v r' Hh E. rewrite H1 in E. destruct (H r v r' Hh E) as (G & H' & enc & U & B & W). split; [exact G|]. split; [exact H'|].
  exists enc. split; [exact U|]. split; [exact B|]. eapply emits_at_ext; [|exact W]. intros w. symmetry. apply H2.
Qed.
Lemma faithful_map {A B} p q (g : A -> Prop) (g' : B -> Prop) m wr wr' (f : A -> B) : faithful o p q g m wr -> (forall a, g a -> g' (f a)) ->
  (forall a, g a -> forall w, wr' (f a) w = wr a w) -> faithful o p q g' (let* a := m in ret (f a)) wr'.
Proof.
  intros H Hg Hw r v r' Hh E. apply bind_inv in E. destruct E as (a & r1 & E1 & E2). apply pair_inj in E2. destruct E2 as [E2 <-].
  apply ok_inj in E2. subst v. destruct (H r a r1 Hh E1) as (G & H' & enc & U & B0 & W). split; [auto|]. split; [exact H'|]. exists enc.
  split; [exact U|]. split; [exact B0|]. eapply emits_at_ext; [|exact W]. intros w. symmetry. now apply Hw.
Qed.
(** One read after the other. *)
Lemma faithful_bind {A B} p m0 q (g : A -> Prop) (g' : B -> Prop) (m : RM A) (f : A -> RM B) (w1 : A -> WM unit) (w2 : A -> B -> WM unit) (wr : B -> WM unit) :
  faithful o p m0 g m w1 -> (forall a, g a -> faithful o m0 q g' (f a) (w2 a)) ->
  (forall a b, g a -> g' b -> (exists r r', f a r = (Ok b, r')) -> forall w, wr b w = (let* _ := w1 a in w2 a b) w) -> faithful o p q g' (bind m f) wr.
Proof.
  intros H1 H2 Hw r v r' Hh E. apply bind_inv in E. destruct E as (a & r1 & E1 & E2).
  destruct (H1 r a r1 Hh E1) as (G1 & Hh1 & e1 & U1 & B1 & W1). destruct (H2 a G1 r1 v r' Hh1 E2) as (G2 & Hh2 & e2 & U2 & B2 & W2).
  split; [exact G2|]. split; [exact Hh2|]. exists (e1 ++ e2). split; [now rewrite U1, U2, app_assoc|]. split; [rewrite app_length; lia|].
  eapply emits_at_ext; [intros w; symmetry; apply (Hw a v G1 G2); eauto|]. apply emits_at_bind; [exact W1|]. now rewrite <- B1.
Qed.
End Compose.

(** ** Integers *)

Section Prim.
Variable o : order.

Lemma pow_split w n : n <= w -> (2 ^ N.of_nat w = 2 ^ N.of_nat (w - n) * 2 ^ N.of_nat n)%N.
Proof. intros H. rewrite <- N.pow_add_r. f_equal. lia. Qed.

(** Every bit pattern of the size encodes a value. *)
Lemma prim_onto p q pr c pos bits : prim_ok o p q pr c -> (snd p = Some 0 -> pos mod 8 = 0) -> length bits = prim_size pr c ->
  exists v, (v < 2 ^ N.of_nat (prim_width pr))%N /\ encode_prim o pos pr c v = Some bits.
Proof.
  unfold prim_ok, encode_prim. intros H Hp Hl. destruct (bits_of_ctx c) as [[[e n] o']|] eqn:Hc.
  - destruct H as (-> & Hn & He & Hs & _).
    assert (Hsz : prim_size pr c = n).
    { unfold prim_width in Hn. destruct c; cbn in Hc; try discriminate; injection Hc as <- <- <-; cbn [prim_size]; try reflexivity;
      (destruct (n0 mod 8 =? 0) eqn:E; [|reflexivity]; destruct pr; cbn [prim_bytes] in Hn; lia). }
    rewrite Hsz in Hl. destruct (layout_surj e o n bits Hl) as (u & Hu & <-).
    assert (Hw : (2 ^ N.of_nat n <= 2 ^ N.of_nat (prim_width pr))%N) by (apply pow2_mono; lia).
    assert (Hlay : forall v, holds pr c n v = true -> layout e o n v = layout e o n u -> 
      guard (order_eqb o o && (1 <=? n) && (n <=? prim_width pr) && (endian_eqb e Little || order_eqb o Msb0 || (n <=? 8) || (n =? prim_width pr)) && holds pr c n v)
        (Some (layout e o n v)) = Some (layout e o n u)).
    { intros v Hv ->. assert (Hg : order_eqb o o && (1 <=? n) && (n <=? prim_width pr) && (endian_eqb e Little || order_eqb o Msb0 || (n <=? 8) || (n =? prim_width pr)) && holds pr c n v = true); [|now rewrite Hg].
      rewrite Hv. replace (order_eqb o o) with true by (now destruct o). replace (1 <=? n) with true by lia. replace (n <=? prim_width pr) with true by lia.
      destruct He as [-> |[-> |[He|He]]]; cbn [endian_eqb order_eqb andb orb]; [reflexivity| |replace (n <=? 8) with true by lia|replace (n =? prim_width pr) with true by lia];
      now rewrite ?Bool.orb_true_r. }
    destruct pr as [|wb|wb].
    + exists u. split; [lia|]. apply Hlay; [|reflexivity]. cbn [holds]. lia.
    + exists u. split; [lia|]. apply Hlay; [|reflexivity]. cbn [holds]. lia.
    + assert (Hpw : prim_width (PI wb) = 8 * wb) by reflexivity. rewrite Hpw in *.
      destruct (Nat.eq_dec n (8 * wb)) as [Hf|Hf].
      { exists u. split; [lia|]. apply Hlay; [|reflexivity]. cbn [holds]. replace (n =? 8 * wb) with true by lia. rewrite Bool.orb_true_r. lia. }
      destruct (N.ltb_spec u (2 ^ N.of_nat (n - 1))) as [Hsm|Hbig].
      { exists u. split; [lia|]. apply Hlay; [|reflexivity]. cbn [holds]. lia. }
      pose proof (pow_split (8 * wb) n ltac:(lia)) as HS. pose proof (pow2_pred n ltac:(lia)) as HP.
      assert (HM : (2 ^ N.of_nat n <= 2 ^ N.of_nat (8 * wb - 1))%N) by (apply pow2_mono; lia).
      pose proof (pow2_pred (8 * wb) ltac:(lia)) as HP2.
      exists (u + (2 ^ N.of_nat (8 * wb - n) - 1) * 2 ^ N.of_nat n)%N.
      assert (HX : ((2 ^ N.of_nat (8 * wb - n) - 1) * 2 ^ N.of_nat n = 2 ^ N.of_nat (8 * wb) - 2 ^ N.of_nat n)%N) by (rewrite N.mul_sub_distr_r, <- HS; lia).
      split; [rewrite HX; lia|]. apply Hlay.
      2:{ rewrite <- layout_mod. rewrite N.mod_add by apply pow2_nz. now rewrite N.mod_small by exact Hu. }
      assert (Hr : (- 2 ^ (Z.of_nat n - 1) <= signed (8 * wb) (u + (2 ^ N.of_nat (8 * wb - n) - 1) * 2 ^ N.of_nat n) < 2 ^ (Z.of_nat n - 1))%Z).
      { unfold signed. replace (2 * _ <? _)%N with false by (rewrite HX; lia). rewrite HX.
        assert (Z.of_N (2 ^ N.of_nat (8 * wb)) = 2 ^ Z.of_nat (8 * wb))%Z by (rewrite N2Z.inj_pow; f_equal; lia).
        assert (Z.of_N (2 ^ N.of_nat (n - 1)) = 2 ^ (Z.of_nat n - 1))%Z by (rewrite N2Z.inj_pow; f_equal; lia). lia. }
      destruct Hs as [Hs|[Hs|[(e' & ->)|(-> & Hm)]]]; [destruct Hs|lia| |].
      * cbn [holds]. rewrite HX in *. lia.
      * cbn [holds]. rewrite HX in *. replace (n mod 8 =? 0) with false by lia. cbn [negb]. lia.
  - destruct (bytes_of_ctx (prim_bytes pr) c) as [[[e n] o']|] eqn:Hb; [|contradiction]. destruct H as (Hn & Ho & _).
    assert (Hsz : prim_size pr c = 8 * n).
    { destruct c; cbn in Hc, Hb; try discriminate; injection Hb as <- <- <-; cbn [prim_size]; try reflexivity; destruct pr; cbn [prim_bytes] in Hn; lia. }
    rewrite Hsz in Hl.
    assert (HB : exists v, (v < 2 ^ N.of_nat (8 * n))%N /\ bitstring o (to_bytes_e e n v) = bits).
    { destruct (layout_surj e o (8 * n) bits Hl) as (v & Hv & El). exists v. split; [exact Hv|]. rewrite <- El. rewrite layout_whole by lia.
      now replace (8 * n / 8) with n by lia. }
    destruct HB as (v & Hv & <-). exists v. split.
    { eapply N.lt_le_trans; [exact Hv|]. apply pow2_mono. unfold prim_width. lia. }
    unfold encode_bytes, aligned. replace (1 <=? n) with true by lia. replace (n <=? prim_bytes pr) with true by lia.
    replace (v <? 2 ^ N.of_nat (8 * n))%N with true by lia. cbn [andb].
    destruct Ho as [[-> ->]|Ho]; [reflexivity|]. specialize (Hp Ho). replace (pos mod 8 =? 0) with true by lia. now rewrite !Bool.orb_true_r.
Qed.
Lemma prim_ok_sized p q pr c : prim_ok o p q pr c -> 0 < prim_bytes pr /\ sized c.
Proof.
  unfold prim_ok. intros H. destruct c; cbn in H |- *; unfold prim_width in H; first [destruct H as (_ & H & _ & _ & _); lia|destruct H as (H & _ & _); lia].
Qed.
Lemma prim_ok_ends p q pr c : prim_ok o p q pr c -> ends p q (prim_size pr c).
Proof.
  unfold prim_ok. intros H.
  destruct c; cbn [bits_of_ctx bytes_of_ctx prim_size] in *; unfold prim_width in *.
  all: try match goal with H : _ /\ _ /\ _ /\ _ /\ _ |- _ => destruct H as (_ & Hn & _ & _ & H) end.
  all: try match goal with H : _ /\ _ /\ ends _ _ _ |- _ => destruct H as (Hn & _ & H) end.
  all: try exact H.
  all: apply (ends_mod _ _ _ _ H); try (destruct (Nat.eqb_spec (n mod 8) 0)); destruct pr; cbn [prim_bytes] in *; lia.
Qed.
Lemma prim_faithful p q pr c : prim_ok o p q pr c ->
  faithful o p q (fun n => (n < 2 ^ N.of_nat (prim_width pr))%N) (prim_read pr c) (prim_write pr c).
Proof.
  intros Hok r v r' Hh E. destruct (prim_ok_sized _ _ _ _ Hok) as [Hpb Hs].
  pose proof Hh as (Hr & _ & Hal0). assert (Hal : snd p = Some 0 -> r_bits r mod 8 = 0) by exact (Hal0 0). destruct (takes_prim pr c Hpb Hs r v r' (readable_any _ _ Hr) E) as [_ HT].
  set (bits := firstn (prim_size pr c) (unread_string o (seen r))).
  assert (Hl : length bits = prim_size pr c) by (unfold bits; rewrite firstn_length, unread_string_length; lia).
  destruct (prim_onto p q pr c (r_bits r) bits Hok Hal Hl) as (v0 & Hv0 & Ev).
  destruct (encode_prim_sound (fst p) o (r_bits r) pr c v0 bits Ev) as [HW HR].
  destruct (known_read (fst p) o (prim_read pr c) r v r' bits (skipn (prim_size pr c) (unread_string o (seen r))) v0 Hr (here_at _ _ Hh)) as (-> & R' & U' & B');
    [unfold bits; now rewrite firstn_skipn|exact HR|exact E|].
  split; [exact Hv0|]. split.
  - apply (here_next o p q _ r r' bits Hh (prim_ok_ends _ _ _ _ Hok)); try assumption. rewrite Hl. lia.
  - exists bits. auto.
Qed.
End Prim.

(** ** Magic, bool, NonZero, strings *)

Section Parts.
Variable o : order.

(** A conversion of the value that was read. *)
Lemma faithful_filter {A B} p q (g : A -> Prop) (g' : B -> Prop) (m : RM A) (f : A -> RM B) wr wr' : faithful o p q g m wr ->
  (forall a b r r', g a -> f a r = (Ok b, r') -> r' = r /\ g' b /\ forall w, wr' b w = wr a w) -> faithful o p q g' (bind m f) wr'.
Proof.
  intros H Hf r v r' Hh E. apply bind_inv in E. destruct E as (a & r1 & E1 & E2).
  destruct (H r a r1 Hh E1) as (G & H' & enc & U & B0 & W). destruct (Hf a v r1 r' G E2) as (-> & Gb & Hw).
  split; [exact Gb|]. split; [exact H'|]. exists enc. split; [exact U|]. split; [exact B0|]. eapply emits_at_ext; [|exact W]. intros w. symmetry. apply Hw.
Qed.
Lemma byte_ok p : bytes_ok o p -> prim_ok o p p PU8 C0.
Proof. unfold prim_ok, bytes_ok. cbn. intros H. split; [lia|]. split; [destruct H; auto|apply ends_refl]. Qed.
Lemma magic_faithful p m : m = [] \/ bytes_ok o p -> faithful o p p (fun _ => True) (read_magic m) (fun _ => write_magic m).
Proof.
  intros [->|H]; [apply faithful_ret; [apply ends_refl|exact I|intros pos; apply emits_at_ret]|].
  unfold write_magic. induction m as [|b m IH]; [apply faithful_ret; [apply ends_refl|exact I|intros pos; apply emits_at_ret]|].
  cbn [read_magic map write_list]. eapply faithful_bind with (w2 := fun _ _ => write_list (prim_write PU8 C0) (map to_N m)); [apply prim_faithful; now apply byte_ok| |].
  - intros a _. destruct (a =? to_N b)%N; [exact IH|apply faithful_fail].
  - intros a [] _ _ (r & r' & E) w. destruct (N.eqb_spec a (to_N b)) as [->|]; [reflexivity|discriminate].
Qed.
Lemma bool_faithful p q c : prim_ok o p q PU8 c -> faithful o p q (fun _ => True) (read_bool c) (write_bool c).
Proof.
  intros H. unfold read_bool. eapply faithful_filter; [apply prim_faithful; exact H|]. intros a b r r' _ E. unfold write_bool.
  destruct (N.eqb_spec a 1) as [->|]; [|destruct (N.eqb_spec a 0) as [->|]; [|discriminate]];
  apply pair_inj in E; destruct E as [E <-]; apply ok_inj in E; subst b; auto.
Qed.
Lemma nonzero_faithful p q pr c : prim_ok o p q pr c ->
  faithful o p q (fun n => (0 < n < 2 ^ N.of_nat (prim_width pr))%N) (read_nonzero pr c) (prim_write pr c).
Proof.
  intros H. unfold read_nonzero. eapply faithful_filter; [apply prim_faithful; exact H|]. intros a b r r' Ha E. cbv beta in Ha.
  destruct (N.eqb_spec a 0); [discriminate|]. apply pair_inj in E. destruct E as [E <-]. apply ok_inj in E. subst b. split; [reflexivity|]. split; [lia|reflexivity].
Qed.

(** ** Sequences *)

Lemma bb_faithful {A} p (g : A -> Prop) elem wr : faithful o p p g elem wr -> forall r vs r', here p r -> back_to_back elem r vs r' ->
  Forall g vs /\ here p r' /\ exists enc, unread_string o (seen r) = enc ++ unread_string o (seen r') /\ r_bits r' = r_bits r + length enc /\
    emits_at o (r_bits r) (write_list wr vs) enc.
Proof.
  intros H r vs r' Hh Hb. induction Hb as [r|r v r1 vs r' E _ IH].
  - split; [constructor|]. split; [exact Hh|]. exists []. split; [reflexivity|]. split; [cbn; lia|apply emits_at_ret].
  - destruct (H r v r1 Hh E) as (G & Hh1 & e1 & U1 & B1 & W1). destruct (IH Hh1) as (Gs & Hh2 & e2 & U2 & B2 & W2).
    split; [now constructor|]. split; [exact Hh2|]. exists (e1 ++ e2). split; [now rewrite U1, U2, app_assoc|]. split; [rewrite app_length; lia|].
    cbn [write_list]. apply emits_at_bind; [exact W1|]. now rewrite <- B1.
Qed.
Lemma loop_bb {A} (elem : RM A) stop start : forall fuel acc r vs r', vec_loop fuel elem stop start acc r = (Ok vs, r') ->
  exists l, vs = acc ++ l /\ back_to_back elem r l r' /\ exists k, stop k vs = true.
Proof.
  induction fuel as [|fuel IH]; intros acc r vs r' E; [discriminate|]. cbn [vec_loop] in E. apply bind_inv in E.
  destruct E as (v & r1 & E1 & E2). cbv beta in E2. destruct (r_bits r1 <? start); [discriminate|].
  destruct (stop (r_bits r1 - start) (acc ++ [v])) eqn:Es.
  - apply pair_inj in E2. destruct E2 as [E2 <-]. apply ok_inj in E2. subst vs. exists [v]. split; [reflexivity|].
    split; [econstructor; [exact E1|constructor]|eauto].
  - destruct (IH _ _ _ _ E2) as (l & -> & Hb & Hs). exists (v :: l). rewrite <- app_assoc in Hs |- *. split; [reflexivity|].
    split; [econstructor; eassumption|exact Hs].
Qed.
Lemma array_bb {A} (elem : RM A) n : forall r vs r', read_array n elem r = (Ok vs, r') -> back_to_back elem r vs r' /\ length vs = n.
Proof.
  induction n as [|n IH]; intros r vs r' E; cbn [read_array] in E.
  - apply pair_inj in E. destruct E as [E <-]. apply ok_inj in E. subst vs. split; [constructor|reflexivity].
  - apply bind_inv in E. destruct E as (v & r1 & E1 & E2). apply bind_inv in E2. destruct E2 as (l & r2 & E2 & E3).
    apply pair_inj in E3. destruct E3 as [E3 <-]. apply ok_inj in E3. subst vs. destruct (IH _ _ _ E2) as [Hb <-].
    split; [econstructor; eassumption|reflexivity].
Qed.
Lemma here_end p r e r' : fst p = AnySource -> here p r -> r_end r = (e, r') -> here p r' /\ unread_string o (seen r') = unread_string o (seen r) /\ r_bits r' = r_bits r.
Proof.
  intros Hp Hh E. pose proof Hh as (Hr & _). rewrite Hp in Hr. destruct (readable_base _ _ Hr) as [Hw Hq].
  destruct (r_end_spec r Hw Hq) as (r1 & E1 & Ad & Hu). rewrite E in E1. apply pair_inj in E1. destruct E1 as [_ <-].
  assert (Hs : unread_string o (seen r') = unread_string o (seen r)) by (now rewrite !seen_unread, Hu). pose proof Ad as [_ Aw Ab _ _ _].
  assert (Hb : r_bits r' = r_bits r) by lia. split; [|split; assumption].
  apply (here_next o p p 0 r r' [] Hh (ends_refl p)); [reflexivity| |now rewrite Hs|cbn; lia].
  rewrite Hp. split; [exact (adv_quiet _ _ _ Ad Hq)|split; [exact Aw|exact I]].
Qed.
Lemma ue_faithful {A} p (g : A -> Prop) elem wr : fst p = AnySource -> faithful o p p g elem wr -> forall r vs r', here p r -> until_end elem r vs r' ->
  Forall g vs /\ here p r' /\ exists enc, unread_string o (seen r) = enc ++ unread_string o (seen r') /\ r_bits r' = r_bits r + length enc /\
    emits_at o (r_bits r) (write_list wr vs) enc.
Proof.
  intros Hp H r vs r' Hh Hb. induction Hb as [r r' E|r r0 v r1 vs r' E0 E _ IH].
  - destruct (here_end p r _ r' Hp Hh E) as (Hh' & Hs & Hb). split; [constructor|]. split; [exact Hh'|]. exists [].
    split; [now rewrite Hs|]. split; [cbn; lia|apply emits_at_ret].
  - destruct (here_end p r _ r0 Hp Hh E0) as (Hh0 & Hs0 & Hb0).
    destruct (H r0 v r1 Hh0 E) as (G & Hh1 & e1 & U1 & B1 & W1). destruct (IH Hh1) as (Gs & Hh2 & e2 & U2 & B2 & W2).
    split; [now constructor|]. split; [exact Hh2|]. exists (e1 ++ e2). split; [now rewrite <- Hs0, U1, U2, app_assoc|]. split; [rewrite app_length; lia|].
    cbn [write_list]. rewrite Hb0 in *. apply emits_at_bind; [exact W1|]. now rewrite <- B1.
Qed.
Lemma array_faithful {A} p (g : A -> Prop) n elem wr : faithful o p p g elem wr ->
  faithful o p p (fun l => length l = n /\ Forall g l) (read_array n elem) (write_list wr).
Proof.
  intros H r vs r' Hh E. destruct (array_bb elem n r vs r' E) as [Hb Hl]. destruct (bb_faithful p g elem wr H r vs r' Hh Hb) as (G & X). auto.
Qed.
Lemma vec_faithful {A} p (g : A -> Prop) fuel size elem wr lim : faithful o p p g elem wr -> (lim = LEnd -> fst p = AnySource) ->
  faithful o p p (fun l => Forall g l /\ forall n, lim = LCount n -> size <> 0%N -> N.of_nat (length l) = n) (vec_read fuel size elem lim) (write_list wr).
Proof.
  intros H He.
  assert (HN : faithful o p p (fun l => l = []) (ret []) (write_list wr)).
  { apply faithful_ret; [apply ends_refl|reflexivity|intros pos; apply emits_at_ret]. }
  assert (HP : forall f cap stop, faithful o p p (fun l => Forall g l /\ (size <> 0%N -> exists k : nat, stop k l = true)) (vec_with_predicate f size cap elem stop) (write_list wr)).
  { intros f cap stop. unfold vec_with_predicate. destruct (N.eqb_spec size 0) as [Hz|Hz].
    - apply faithful_ret; [apply ends_refl| |intros pos; apply emits_at_ret]. split; [constructor|contradiction].
    - intros r vs r' Hh E. destruct (match cap with Some c => (isize_max <? c * size)%N | None => false end); [discriminate|].
      destruct (loop_bb elem stop _ _ _ _ _ _ E) as (l & -> & Hb & Hs). cbn [app] in *.
      destruct (bb_faithful p g elem wr H r l r' Hh Hb) as (G & X). split; [split; [exact G|auto]|exact X]. }
  destruct lim as [n|u|n|n|]; cbn [vec_read].
  - destruct (N.eqb_spec n 0) as [->|Hn].
    + eapply faithful_good; [exact HN|]. intros v ->. split; [constructor|]. intros n [= <-] _. reflexivity.
    + eapply faithful_good; [apply HP|]. intros v [G Hs]. split; [exact G|]. intros n' [= <-] Hz. destruct (Hs Hz) as [_ E]. lia.
  - eapply faithful_good; [apply HP|]. intros v [G _]. split; [exact G|discriminate].
  - destruct (usize_max <? n * 8)%N; [intros r v r' _ E; discriminate|]. destruct (n * 8 =? 0)%N.
    + eapply faithful_good; [exact HN|]. intros v ->. split; [constructor|discriminate].
    + eapply faithful_good; [apply HP|]. intros v [G _]. split; [exact G|discriminate].
  - destruct (n =? 0)%N.
    + eapply faithful_good; [exact HN|]. intros v ->. split; [constructor|discriminate].
    + eapply faithful_good; [apply HP|]. intros v [G _]. split; [exact G|discriminate].
  - unfold vec_to_end. destruct (size =? 0)%N.
    + eapply faithful_good; [exact HN|]. intros v ->. split; [constructor|discriminate].
    + intros r vs r' Hh E. destruct (end_loop_ok elem _ _ _ _ _ E) as (l & -> & Hu). cbn [app].
      destruct (ue_faithful p g elem wr (He eq_refl) H r l r' Hh Hu) as (G & X). split; [split; [exact G|discriminate]|exact X].
Qed.

(** ** Strings and byte vectors *)

Lemma u8_write c e o' v w : bytes_of_ctx 1 c = Some (e, 1, o') -> prim_write PU8 c v w = prim_write PU8 C0 v w.
Proof.
  intros H. rewrite (prim_write_bytes PU8 c e 1 o' v H) by (cbn; lia). rewrite (prim_write_bytes PU8 C0 Little 1 Msb0 v eq_refl) by (cbn; lia).
  now rewrite !to_bytes_1.
Qed.
Lemma write_list_ext {A} (f g : A -> WM unit) l : (forall x w, f x w = g x w) -> forall w, write_list f l w = write_list g l w.
Proof.
  intros H. induction l as [|x l IH]; intros w; [reflexivity|]. cbn [write_list]. unfold bind. rewrite H.
  destruct (g x w) as [[]]; auto.
Qed.
Lemma cstring_faithful p lim fuel c : bytes_ok o p -> (forall v w, prim_write PU8 c v w = prim_write PU8 C0 v w) ->
  (lim <> LEnd) ->
  faithful o p p (fun s => Forall (fun x => match x with VNum n => (0 < n < 256)%N | _ => False end) (map VNum s))
    (let* l := vec_read fuel 1 (prim_read PU8 C0) lim in to_cstring l) (write_cstring c).
Proof.
  intros H Hc He. eapply faithful_filter; [apply vec_faithful; [apply prim_faithful; now apply byte_ok|contradiction]|].
  intros l s r r' [G _] E. unfold to_cstring in E. destruct (from_vec_with_nul l) as [s'|] eqn:En; [|discriminate].
  apply pair_inj in E. destruct E as [E <-]. apply ok_inj in E. subst s'. apply from_nul_inv in En. destruct En as [-> Hn].
  split; [reflexivity|]. split.
  - apply Forall_app in G. destruct G as [G _]. change (2 ^ N.of_nat (prim_width PU8))%N with 256%N in G.
    apply Forall_forall. intros x Hx. apply in_map_iff in Hx. destruct Hx as (n & <- & Hi).
    rewrite Forall_forall in G, Hn. specialize (G n Hi). specialize (Hn n Hi). cbv beta in G, Hn. lia.
  - intros w. unfold write_cstring. now apply write_list_ext.
Qed.
Lemma magic_list bs c e o' w : bytes_of_ctx 1 c = Some (e, 1, o') -> write_list (prim_write PU8 c) (map to_N bs) w = write_magic bs w.
Proof. intros H. unfold write_magic. apply write_list_ext. intros x w'. exact (u8_write c e o' x w' H). Qed.
Lemma exact_faithful q n : ends (SeekSource, Some 0) q 0 ->
  faithful o (SeekSource, Some 0) q (fun bs => N.of_nat (length bs) = n) (read_exact_vec n) write_magic.
Proof.
  intros Hq r bs r' Hh E. pose proof Hh as (Hr & _ & Hal). specialize (Hal 0 eq_refl). change (0 mod 8) with 0 in Hal. cbn [fst] in Hr.
  assert (HL : (8 * n <= N.of_nat (unread_len (seen r)))%N).
  { pose proof Hr as (Hqu & Hw & Hns & Hp & Hb & Hk). rewrite unread_len_avail by exact Hp.
    destruct (read_exact_unfold n r Hqu Hns) as (r1 & _ & E1). rewrite E1 in E. cbv zeta in E. destruct (length (s_data (r_s r)) <? s_pos (r_s r)); [discriminate|].
    destruct (N.ltb_spec (N.of_nat (length (s_data (r_s r)) - s_pos (r_s r))) n) as [Hlt|Hge]; [destruct (usize_max <? n * 8)%N; discriminate|lia]. }
  destruct (aligned_bytes (r_bits r) r Hal (here_at _ _ Hh) (readable_valid _ _ Hr)) as [X HX].
  assert (HXl : N.to_nat n <= length X) by (pose proof (unread_string_length o (seen r)) as H; rewrite HX, bitstring_length in H; lia).
  set (b0 := firstn (N.to_nat n) X). assert (Hb0 : length b0 = N.to_nat n) by (unfold b0; rewrite firstn_length; lia).
  assert (HU : unread_string o (seen r) = bitstring o b0 ++ bitstring o (skipn (N.to_nat n) X)) by (rewrite HX, <- bitstring_app; unfold b0; now rewrite firstn_skipn).
  pose proof (exact_reads b0) as HR. replace (N.of_nat (length b0)) with n in HR by lia.
  pose proof (reads_at_aligned SeekSource Lsb0 o (r_bits r) _ b0 b0 Hal HR) as HR'.
  destruct (known_read SeekSource o _ r bs r' _ _ b0 Hr (here_at _ _ Hh) HU HR' E) as (-> & R' & U' & B').
  split; [lia|]. split.
  - apply (here_next o (SeekSource, Some 0) q 0 r r' (bitstring o b0) Hh Hq); try assumption. rewrite bitstring_length. lia.
  - exists (bitstring o b0). split; [exact U'|]. split; [exact B'|]. apply write_magic_bytes. unfold encode_magic, encode_bytes, aligned.
    destruct b0; [destruct o; reflexivity|]. replace (r_bits r mod 8 =? 0) with true by lia. now rewrite Bool.orb_true_r.
Qed.
End Parts.
