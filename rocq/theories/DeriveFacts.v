(** Facts about positions, and the pieces of the wire format. *)
From Coq Require Import Lia ZifyBool ZifyNat ZifyN Permutation.
From Verif Require Import Base Spec Stream Reader Writer BitsFacts NFacts ReaderFacts FastRead MonadFacts ReaderOps Session SessionFacts ReaderProps WSession WriterFacts WriterProps.
From Verif Require Import Prims CodecSpec CodecFacts PrimFacts PrimProps Containers ContainerSpec ContainerFacts ContainerProps Derive DeriveSpec.
Ltac Zify.zify_post_hook ::= Z.div_mod_to_equations.

(** ** Positions *)

Lemma w_at_next o pos w w' bs enc : w_at pos w -> stored w w' bs -> writable w' ->
  bitstring o bs ++ orient o (w_rest w') = orient o (w_rest w) ++ enc -> w_at (pos + length enc) w'.
Proof.
  intros [Hb Hl] (_ & _ & Hs) (_ & _ & Hw) E. apply (f_equal (@length bool)) in E.
  rewrite !app_length, !orient_length, bitstring_length in E. unfold w_at. split; lia.
Qed.
Lemma r_at_next o pos r r' enc rest : r_at pos r -> unread_string o (seen r) = enc ++ rest ->
  unread_string o (seen r') = rest -> r_bits r' = r_bits r + length enc -> r_at (pos + length enc) r'.
Proof.
  intros [Hb Hl] E E' Hb'. apply (f_equal (@length bool)) in E, E'.
  unfold unread_string, seen in *. cbn [fst snd] in *.
  rewrite !app_length, !orient_length, !bitstring_length in *. unfold r_at. split; lia.
Qed.

Lemma emits_at_of o pos m enc : emits o (pos mod 8) m enc -> emits_at o pos m enc.
Proof. intros H w Hw Ho [_ Ha]. now apply H. Qed.
Lemma emits_at_all o pos m enc : (forall a, emits o a m enc) -> emits_at o pos m enc.
Proof. intros H. apply emits_at_of, H. Qed.
Lemma emits_at_ret o pos : emits_at o pos (ret tt) [].
Proof. apply emits_at_of, emits_ret. Qed.
Lemma emits_at_ext o pos m1 m2 e : (forall w, m1 w = m2 w) -> emits_at o pos m1 e -> emits_at o pos m2 e.
Proof. intros H H1 w Hw Ho Ha. rewrite <- H. now apply H1. Qed.
Lemma emits_at_bind o pos m1 (f : unit -> WM unit) e1 e2 :
  emits_at o pos m1 e1 -> emits_at o (pos + length e1) (f tt) e2 -> emits_at o pos (bind m1 f) (e1 ++ e2).
Proof.
  intros H1 H2 w Hw Ho Ha. destruct (H1 w Hw Ho Ha) as (w1 & b1 & E1 & S1 & W1 & O1 & Q1).
  destruct (H2 w1 W1 O1 (w_at_next _ _ _ _ _ _ Ha S1 W1 Q1)) as (w2 & b2 & E2 & S2 & W2 & O2 & Q2).
  exists w2, (b1 ++ b2). split; [rewrite (bind_ok _ _ _ _ _ E1); exact E2|]. split; [eapply stored_app; eassumption|].
  split; [exact W2|]. split; [exact O2|]. rewrite bitstring_app, <- app_assoc, Q2, !app_assoc, Q1. reflexivity.
Qed.
Lemma emits_at_nil_bind o pos m1 (f : unit -> WM unit) e :
  emits_at o pos m1 [] -> emits_at o pos (f tt) e -> emits_at o pos (bind m1 f) e.
Proof. intros H1 H2. change e with ([] ++ e). apply emits_at_bind; [exact H1|]. cbn. now rewrite Nat.add_0_r. Qed.
Lemma emits_at_bind_nil o pos m1 (f : unit -> WM unit) e :
  emits_at o pos m1 e -> emits_at o (pos + length e) (f tt) [] -> emits_at o pos (bind m1 f) e.
Proof. intros H1 H2. rewrite <- (app_nil_r e). now apply emits_at_bind. Qed.
(** A step that looks at [bits_written]. *)
Lemma emits_at_off o pos (f : nat -> WM unit) e : emits_at o pos (f (8 * (pos / 8))) e -> emits_at o pos (fun w => f (w_bits w) w) e.
Proof. intros H w Hw Ho Ha. destruct Ha as [Hb Hl]. rewrite Hb. apply H; try assumption. now split. Qed.

Lemma reads_at_of {A} src o pos (m : RM A) enc v : reads src o m enc v -> reads_at src o pos m enc v.
Proof. intros H r rest Hr _ Hu. now apply H. Qed.
Lemma reads_at_ret {A} src o pos (v : A) : reads_at src o pos (ret v) [] v.
Proof. apply reads_at_of, reads_ret. Qed.
Lemma reads_at_ext {A} src o pos (m1 m2 : RM A) e v : (forall r, m1 r = m2 r) -> reads_at src o pos m1 e v -> reads_at src o pos m2 e v.
Proof. intros H H1 r rest Hr Ha Hu. rewrite <- H. now apply H1. Qed.
Lemma reads_at_bind {A B} src o pos (m : RM A) (f : A -> RM B) e1 e2 a b :
  reads_at src o pos m e1 a -> reads_at src o (pos + length e1) (f a) e2 b -> reads_at src o pos (bind m f) (e1 ++ e2) b.
Proof.
  intros H1 H2 r rest Hr Ha Hu. rewrite <- app_assoc in Hu.
  destruct (H1 r _ Hr Ha Hu) as (r1 & E1 & R1 & U1 & B1 & D1 & P1).
  destruct (H2 r1 _ R1 (r_at_next _ _ _ _ _ _ Ha Hu U1 B1) U1) as (r2 & E2 & R2 & U2 & B2 & D2 & P2).
  exists r2. split; [rewrite (bind_ok _ _ _ _ _ E1); exact E2|]. split; [exact R2|]. split; [exact U2|].
  rewrite app_length. repeat split; try congruence; lia.
Qed.
Lemma reads_at_bind_nil {A B} src o pos (m : RM A) (f : A -> RM B) e a b :
  reads_at src o pos m e a -> reads_at src o (pos + length e) (f a) [] b -> reads_at src o pos (bind m f) e b.
Proof. intros H1 H2. rewrite <- (app_nil_r e). eapply reads_at_bind; eassumption. Qed.
Lemma reads_at_nil_bind {A B} src o pos (m : RM A) (f : A -> RM B) e a b :
  reads_at src o pos m [] a -> reads_at src o pos (f a) e b -> reads_at src o pos (bind m f) e b.
Proof. intros H1 H2. change e with ([] ++ e). eapply reads_at_bind; [exact H1|]. cbn. now rewrite Nat.add_0_r. Qed.
Lemma reads_at_map {A B} src o pos (m : RM A) (f : A -> B) e a :
  reads_at src o pos m e a -> reads_at src o pos (let* x := m in ret (f x)) e (f a).
Proof. intros H. eapply reads_at_bind_nil; [exact H|apply reads_at_ret]. Qed.
Lemma reads_at_off {A} src o pos (f : nat -> RM A) e v : reads_at src o pos (f pos) e v -> reads_at src o pos (fun r => f (r_bits r) r) e v.
Proof. intros H r rest Hr Ha Hu. destruct (H r rest Hr Ha Hu) as (r' & X). exists r'. destruct Ha as [<- _]. exact X. Qed.

(** ** Whole bytes at a byte boundary *)

Lemma aligned_bytes pos r : pos mod 8 = 0 -> r_at pos r -> valid r -> exists bs, forall o, unread_string o (seen r) = bitstring o bs.
Proof.
  intros Hp [_ Hl] Hv. unfold seen, r_rest, valid in *. destruct (r_left r) as [[b|l]|].
  - exists (b :: s_avail (r_s r)). intros o. unfold unread_string. cbn [fst snd]. now rewrite bitstring_cons.
  - exfalso. lia.
  - exists (s_avail (r_s r)). intros o. unfold unread_string. cbn [fst snd]. now destruct o.
Qed.
Lemma readable_valid src r : readable src r -> valid r.
Proof. intros (_ & H & _). exact H. Qed.
Lemma bitstring_prefix o bs X rest : bitstring o X = bitstring o bs ++ rest -> exists tl, X = bs ++ tl /\ rest = bitstring o tl.
Proof.
  intros E. exists (skipn (length bs) X). rewrite <- (firstn_skipn (length bs) X) in E. rewrite bitstring_app in E.
  assert (HL : length bs <= length X).
  { apply (f_equal (@length bool)) in E. rewrite <- bitstring_app, firstn_skipn, app_length, !bitstring_length in E. lia. }
  apply app_len_inj in E; [|rewrite !bitstring_length, firstn_length; lia]. destruct E as [E1 E2].
  apply bitstring_inj in E1. split; [|now symmetry]. rewrite <- E1 at 1. now rewrite firstn_skipn.
Qed.
(** Bytes read at a byte boundary do not depend on the bit order. *)
Lemma reads_at_aligned {A} src o1 o2 pos (m : RM A) bs v : pos mod 8 = 0 -> reads src o1 m (bitstring o1 bs) v ->
  reads_at src o2 pos m (bitstring o2 bs) v.
Proof.
  intros Hp H r rest Hr Ha Hu. destruct (aligned_bytes pos r Hp Ha (readable_valid _ _ Hr)) as [X HX].
  rewrite HX in Hu. destruct (bitstring_prefix _ _ _ _ Hu) as (tl & -> & ->).
  assert (Hu1 : unread_string o1 (seen r) = bitstring o1 bs ++ bitstring o1 tl) by now rewrite HX, bitstring_app.
  destruct (H r _ Hr Hu1) as (r' & E & R & U & B & D & P). exists r'. split; [exact E|]. split; [exact R|].
  split; [|rewrite bitstring_length in *; auto].
  pose proof (r_at_next _ _ _ _ _ _ Ha Hu1 U B) as Ha'. rewrite bitstring_length in Ha'.
  destruct (aligned_bytes (pos + 8 * length bs) r' ltac:(lia) Ha' (readable_valid _ _ R)) as [X' HX'].
  rewrite HX' in U |- *. apply bitstring_inj in U. now subst.
Qed.

Lemma guard_inv {A} b (x : option A) y : guard b x = Some y -> b = true /\ x = Some y.
Proof. destruct b; [auto|discriminate]. Qed.
Lemma order_eqb_ok a b : order_eqb a b = true -> a = b.
Proof. destruct a, b; easy. Qed.
Lemma endian_eqb_ok a b : endian_eqb a b = true -> a = b.
Proof. destruct a, b; easy. Qed.

(** ** Integers *)

Lemma prim_write_bytes p c e n o v : bytes_of_ctx (prim_bytes p) c = Some (e, n, o) -> 0 < n <= prim_bytes p ->
  prim_write p c v = write_bytes (to_bytes_e e n v).
Proof.
  intros Hc Hn.
  assert (HY : write_eyo p e n v = write_bytes (to_bytes_e e n v)).
  { destruct p as [|wb|wb]; cbn [write_eyo prim_bytes] in *.
    - assert (n = 1) by lia. subst n. now rewrite to_bytes_1.
    - unfold write_bytes_sized. replace (wb <? n) with false by lia. rewrite <- (low_bytes e wb n v) by lia. now destruct e.
    - unfold write_bytes_sized. replace (wb <? n) with false by lia. rewrite <- (low_bytes e wb n v) by lia. now destruct e. }
  destruct c; cbn in Hc; try discriminate; injection Hc as <- <- <-; cbn [prim_write]; try exact HY; reflexivity.
Qed.
Lemma encode_bytes_inv o pos bs enc : encode_bytes o pos bs = Some enc -> enc = bitstring o bs /\ (o = Msb0 \/ pos mod 8 = 0).
Proof.
  unfold encode_bytes, aligned. intros H. apply guard_inv in H. destruct H as [H E]. injection E as <-. split; [reflexivity|].
  destruct o; [now left|]. right. apply Nat.eqb_eq. exact H.
Qed.
Lemma emits_at_bytes o pos bs enc : encode_bytes o pos bs = Some enc -> emits_at o pos (write_bytes bs) enc.
Proof. intros H. apply encode_bytes_inv in H. destruct H as [-> H]. apply emits_at_of. now apply emits_bytes. Qed.

Lemma holds_small p c n v : holds p c n v = true -> 1 <= n <= prim_width p -> is_unsigned p -> (v < 2 ^ N.of_nat n)%N.
Proof. unfold holds. destruct p; intros H Hn Hu; try destruct Hu; lia. Qed.

Lemma encode_prim_sound src o pos p c v enc : encode_prim o pos p c v = Some enc ->
  emits_at o pos (prim_write p c v) enc /\ reads_at src o pos (prim_read p c) enc v.
Proof.
  unfold encode_prim. destruct (bits_of_ctx c) as [[[e n] o']|] eqn:Hc.
  - intros H. apply guard_inv in H. destruct H as [H E]. injection E as <-.
    repeat (apply andb_true_iff in H; destruct H as [H ?]).
    match goal with H : order_eqb o o' = true |- _ => apply order_eqb_ok in H; subst o' end.
    assert (Hn : 1 <= n <= prim_width p) by lia.
    assert (He : e = Big -> o = Lsb0 -> n <= 8 \/ n = prim_width p) by (intros -> ->; cbn in *; lia).
    clear H1 H2 H3.
    assert (HP : (forall a, emits o a (prim_write p c v) (layout e o n v)) /\ reads src o (prim_read p c) (layout e o n v) v).
    { destruct p as [|wb|wb].
      - apply holds_small in H0; [|exact Hn|exact I]. destruct (prim_u_codec PU8 c e n o v I Hc (conj Hn He) H0). now split.
      - apply holds_small in H0; [|exact Hn|exact I]. destruct (prim_u_codec (PU wb) c e n o v I Hc (conj Hn He) H0). now split.
      - unfold prim_width in Hn, He. cbn [prim_bytes] in Hn, He. unfold holds in H0.
        apply andb_true_iff in H0. destruct H0 as [Hv H0]. apply N.ltb_lt in Hv.
        assert (He' : e = Big -> o = Lsb0 -> n <= 8 \/ n mod 8 = 0) by (intros A B; specialize (He A B); lia).
        assert (HS : (v < 2 ^ N.of_nat (n - 1))%N \/ n = 8 * wb ->
          (v < 2 ^ N.of_nat n)%N /\ (- 2 ^ (Z.of_nat n - 1) <= signed (8 * wb) v < 2 ^ (Z.of_nat n - 1))%Z).
        { intros [Hs| ->].
          - split; [eapply pow2_small; [|exact Hs]; lia|now apply signed_small].
          - split; [exact Hv|]. apply signed_full; [lia|exact Hv]. }
        assert (HB : n mod 8 = 0 -> (v < 2 ^ N.of_nat n)%N -> reads src o (read_eyo (PI wb) e (n / 8) o) (layout e o n v) v).
        { intros Hz Hv'. rewrite layout_whole by exact Hz. apply reads_eyo; cbn [prim_bytes]; [lia|].
          replace (8 * (n / 8)) with n by lia. exact Hv'. }
        destruct c; cbn in Hc; try discriminate; injection Hc as <- -> <-; cbn [prim_write prim_read write_eb write_ebo read_ebo].
        + assert (HR : (- 2 ^ (Z.of_nat n - 1) <= signed (8 * wb) v < 2 ^ (Z.of_nat n - 1))%Z).
          { apply orb_true_iff in H0. destruct H0 as [H0|H0]; [apply HS|]; lia. }
          split; [intros a; apply emits_i_eb; assumption || lia|].
          destruct (Nat.eqb_spec (n mod 8) 0) as [Hz|Hz]; [|now apply reads_i_bits].
          apply HB; [exact Hz|]. apply HS. cbn in H0. lia.
        + assert (HR : (- 2 ^ (Z.of_nat n - 1) <= signed (8 * wb) v < 2 ^ (Z.of_nat n - 1))%Z).
          { apply orb_true_iff in H0. destruct H0 as [H0|H0]; [apply HS|]; lia. }
          split; [intros a; apply emits_i_eb; assumption || lia|]. now apply reads_i_bits.
        + destruct HS as [HS1 HS2]; [lia|]. split; [intros a; now apply emits_ebo_generic|].
          destruct (Nat.eqb_spec (n mod 8) 0) as [Hz|Hz]; [now apply HB|now apply reads_i_bits].
        + destruct HS as [HS1 HS2]; [lia|]. split; [intros a; now apply emits_ebo_generic|now apply reads_i_bits]. }
    destruct HP as [HW HR]. split; [now apply emits_at_all|now apply reads_at_of].
  - destruct (bytes_of_ctx (prim_bytes p) c) as [[[e n] o']|] eqn:Hb; [|discriminate].
    intros H. apply guard_inv in H. destruct H as [H E].
    repeat (apply andb_true_iff in H; destruct H as [H ?]). unfold aligned in H0.
    assert (Hn : 0 < n <= prim_bytes p) by lia. assert (Hv : (v < 2 ^ N.of_nat (8 * n))%N) by lia.
    rewrite (prim_write_bytes p c e n o' v Hb Hn). split; [now apply emits_at_bytes|].
    apply encode_bytes_inv in E. destruct E as [-> _].
    pose proof (reads_prim_bytes src p c e n o' v Hb Hn Hv) as HR.
    destruct (order_eqb o o') eqn:Ho; [apply order_eqb_ok in Ho; subst o'; now apply reads_at_of|].
    apply reads_at_aligned with (o1 := o'); [apply Nat.eqb_eq; exact H0|exact HR].
Qed.

(** ** Magic *)

Lemma write_magic_bytes o pos m enc : encode_magic o pos m = Some enc -> emits_at o pos (write_magic m) enc.
Proof.
  destruct m as [|b0 m0] eqn:Em; cbn [encode_magic].
  { intros H. injection H as <-. apply emits_at_ret. }
  rewrite <- Em. clear. intros H. apply encode_bytes_inv in H. destruct H as [-> H]. revert pos H.
  unfold write_magic. induction m as [|b m IH]; intros pos H.
  - destruct o; apply emits_at_ret.
  - cbn [map write_list]. rewrite bitstring_cons. apply emits_at_bind.
    + change (prim_write PU8 C0 (to_N b)) with (write_bytes (le_bytes 1 (to_N b))).
      assert (E : le_bytes 1 (to_N b) = [b]).
      { rewrite le_be_1. apply be_1_byte. }
      rewrite E. replace (orient o (byte_bits b)) with (bitstring o [b]) by (rewrite bitstring_cons; destruct o; apply app_nil_r).
      apply emits_at_of. apply emits_bytes. exact H.
    + apply IH. rewrite orient_length, byte_bits_length. destruct H; [now left|right; lia].
Qed.
Lemma read_magic_bytes src o pos m enc : encode_magic o pos m = Some enc ->
  reads_at src o pos (read_magic m) enc tt.
Proof.
  destruct m as [|b0 m0] eqn:Em; cbn [encode_magic].
  { intros H. injection H as <-. apply reads_at_ret. }
  rewrite <- Em. clear. intros H. apply encode_bytes_inv in H. destruct H as [-> H]. revert pos H.
  induction m as [|b m IH]; intros pos H.
  - destruct o; apply reads_at_ret.
  - cbn [read_magic]. rewrite bitstring_cons. apply reads_at_bind with (a := to_N b).
    + replace (orient o (byte_bits b)) with (bitstring o [b]) by (rewrite bitstring_cons; destruct o; apply app_nil_r).
      pose proof (reads_byte src C0 Little Msb0 b eq_refl) as HR.
      destruct H as [->|H]; [now apply reads_at_of|]. now apply reads_at_aligned with (o1 := Msb0).
    + rewrite N.eqb_refl. apply IH. rewrite orient_length, byte_bits_length. destruct H; [now left|right; lia].
Qed.

(** ** Padding *)

Lemma bitstring_perm o bs : Permutation (bitstring o bs) (bits_of_bytes bs).
Proof.
  induction bs as [|b bs IH]; [destruct o; reflexivity|]. rewrite bitstring_cons. cbn [bits_of_bytes flat_map].
  apply Permutation_app; [|exact IH]. destruct o; [reflexivity|]. cbn. symmetry. apply Permutation_rev.
Qed.
Lemma orient_perm o l : Permutation (orient o l) l.
Proof. destruct o; [reflexivity|]. symmetry. apply Permutation_rev. Qed.
Lemma emits_zeros o a n : emits o a (write_bits_order (repeat false n) o) (repeat false n).
Proof.
  destruct o; [apply emits_bits_msb|]. intros w Hw Ho Ha. cbn in Ho. destruct Ho as [Ho|Ho].
  - apply writable_good in Hw. destruct (lsb0_step (repeat false n) w Hw (or_introl Ho)) as (w' & bs & E & A & G & O & S).
    exists w', bs. split; [exact E|]. split; [now apply stored_wadv|]. split; [now apply writable_good|]. split; [now left|].
    cbn [orient] in *. unfold w_rest. rewrite S. f_equal. apply Permutation_repeat. symmetry. apply Permutation_rev.
  - apply writable_good in Hw. destruct (write_bits_order_ok (repeat false n) Lsb0 w Hw) as (w' & bs & E & A & G & O & P & _).
    exists w', bs. split; [exact E|]. split; [now apply stored_wadv|]. split; [now apply writable_good|]. split; [now left|].
    unfold w_rest in Ho. rewrite Ho in P. change (w_rest w) with (w_left w). rewrite Ho. cbn [orient rev app] in *. apply Permutation_repeat.
    etransitivity; [|exact P]. apply Permutation_app; [apply bitstring_perm|symmetry; apply Permutation_rev].
Qed.
Lemma emits_pad_loop o fuel n pos : n <= fuel -> emits_at o pos (pad_loop fuel n o) (repeat false n).
Proof.
  revert n pos. induction fuel as [|fuel IH]; intros n pos Hn.
  - assert (n = 0) by lia. subst. apply emits_at_ret.
  - destruct n as [|n]; [apply emits_at_ret|]. remember (S n) as N eqn:EN.
    assert (EP : pad_loop (S fuel) N o = (let* _ := write_bits_order (repeat false (Nat.min 512 N)) o in pad_loop fuel (N - Nat.min 512 N) o))
      by (rewrite EN; reflexivity).
    rewrite EP. replace (repeat false N) with (repeat false (Nat.min 512 N) ++ repeat false (N - Nat.min 512 N)).
    + apply emits_at_bind; [apply emits_at_of, emits_zeros|]. apply IH. lia.
    + rewrite <- repeat_app. f_equal. lia.
Qed.

(** A seek forward by whole bytes from a byte boundary. *)
Lemma reads_at_seek o pos k enc : pos mod 8 = 0 -> length enc = 8 * k ->
  reads_at SeekSource o pos (let* _ := lift_io (r_seek (SeekCurrent (Z.of_nat k))) in ret tt) enc tt.
Proof.
  intros Hp Hl r rest Hr [Hb Hal] Hu. destruct Hr as (Hf & Hv & Hn & Hpos & Hs & Hk).
  assert (HL : r_left r = None).
  { unfold r_rest in *. destruct (r_left r) as [[b|l]|]; [destruct Hk| |reflexivity]. exfalso. lia. }
  unfold bind, lift_io, r_seek, s_seek. cbn [r_set_left r_s]. rewrite Hf, Hn. cbn [seek_target].
  replace (Z.of_nat (s_pos (r_s r)) + Z.of_nat k <? 0)%Z with false by lia.
  unfold seen, r_rest, unread_string in Hu. rewrite HL in Hu. cbn [fst snd] in Hu. rewrite orient_nil in Hu. cbn [app] in Hu.
  assert (HK : k <= length (s_avail (r_s r))).
  { apply (f_equal (@length bool)) in Hu. rewrite app_length, bitstring_length in Hu. lia. }
  replace (Z.to_nat (Z.of_nat (s_pos (r_s r)) + Z.of_nat k)) with (s_pos (r_s r) + k) by lia.
  eexists. split; [reflexivity|]. rewrite s_avail_length in HK. unfold r_rest in Hs. rewrite HL in Hs. cbn [length] in Hs.
  assert (HA : s_avail (s_goto (s_tick (r_s r)) (s_pos (r_s r) + k)) = skipn k (s_avail (r_s r))).
  { unfold s_avail. cbn [s_goto s_tick s_data s_pos]. rewrite skipn_skipn. f_equal; lia. }
  cbn [r_set_bits r_set_s r_s r_left r_bits r_set_left]. unfold readable, seen, r_rest. cbn [r_s r_left r_bits length].
  split.
  - repeat split; cbn; try assumption; lia.
  - split.
    + unfold unread_string. cbn [fst snd r_set_bits r_set_s r_set_left r_left r_s]. rewrite orient_nil. cbn [app]. rewrite HA.
      rewrite <- (firstn_skipn k (s_avail (r_s r))), bitstring_app in Hu.
      apply app_len_inj in Hu; [apply Hu|]. rewrite bitstring_length, firstn_length, s_avail_length. lia.
    + repeat split; cbn; lia.
Qed.

Lemma reads_at_bits src o pos enc : reads_at src o pos (let* _ := read_bits_into (length enc) o in ret tt) enc tt.
Proof. apply reads_at_of. apply reads_map with (f := fun _ => tt) (a := orient o enc). apply reads_bits. Qed.
Lemma reads_at_skip src o pos enc : src = SeekSource \/ length enc < 8 -> reads_at src o pos (skip_bits (length enc) o) enc tt.
Proof.
  intros Hsrc r rest Hr Ha Hu.
  set (rst := fun amt => let* _ :=
       if amt / 8 =? 0 then ret tt
       else fun r => if negb (r_bits r mod 8 =? 0) then (Panic, r)
                     else (let* _ := lift_io (r_seek (SeekCurrent (Z.of_nat (amt / 8)))) in ret tt) r
     in let* _ := read_bits_into (amt mod 8) o in ret tt).
  (* what follows the buffered bits *)
  assert (HR : forall p e, p mod 8 = 0 /\ src = SeekSource \/ length e < 8 -> reads_at src o p (rst (length e)) e tt).
  { intros p e Hc. unfold rst.
    assert (HF : length (firstn (8 * (length e / 8)) e) = 8 * (length e / 8)) by (rewrite firstn_length; lia).
    pose proof (firstn_skipn (8 * (length e / 8)) e) as HE.
    match goal with |- reads_at _ _ _ ?m _ _ => enough (HG : reads_at src o p m (firstn (8 * (length e / 8)) e ++ skipn (8 * (length e / 8)) e) tt)
      by (now rewrite HE in HG) end. clear HE.
    apply reads_at_bind with (a := tt).
    - destruct (Nat.eqb_spec (length e / 8) 0) as [E|E].
      + rewrite E. cbn [Nat.mul firstn]. apply reads_at_ret.
      + destruct Hc as [[Hp ->]|Hc]; [|lia].
        apply (reads_at_off SeekSource o p (fun b => fun r0 => if negb (b mod 8 =? 0) then (Panic, r0)
                 else (let* _ := lift_io (r_seek (SeekCurrent (Z.of_nat (length e / 8)))) in ret tt) r0)).
        replace (negb (p mod 8 =? 0)) with false by lia. now apply reads_at_seek.
    - replace (length e mod 8) with (length (skipn (8 * (length e / 8)) e)) by (rewrite skipn_length; lia). apply reads_at_bits. }
  assert (HB : skip_bits (length enc) o r =
    bind (match r_left r with
          | Some (Reader.LBits bits) => let* _ := read_bits_into (Nat.min (length enc) (length bits)) o in ret (length enc - Nat.min (length enc) (length bits))
          | _ => ret (length enc)
          end) rst r) by reflexivity.
  rewrite HB. clear HB.
  destruct (r_left r) as [[b|l]|] eqn:EL.
  - assert (HE : length enc < 8). { destruct Hsrc as [->|Hs]; [|exact Hs]. destruct Hr as (_ & _ & _ & _ & _ & Hk). rewrite EL in Hk. destruct Hk. }
    refine (reads_at_nil_bind src o pos (ret (length enc)) rst enc (length enc) tt _ _ r rest Hr Ha Hu); [apply reads_at_ret|].
    apply HR. now right.
  - set (k := Nat.min (length enc) (length l)).
    assert (HE : enc = firstn k enc ++ skipn k enc) by (symmetry; apply firstn_skipn).
    assert (HF : length (firstn k enc) = k) by (rewrite firstn_length; unfold k; lia).
    assert (HS : length (skipn k enc) = length enc - k) by (rewrite skipn_length; unfold k; lia).
    pose proof Ha as [Hb Hal]. unfold r_rest in Hal. rewrite EL in Hal.
    assert (HM : reads_at src o pos (bind (let* _ := read_bits_into k o in ret (length enc - k)) rst) (firstn k enc ++ skipn k enc) tt).
    { apply reads_at_bind with (a := length enc - k).
      - apply reads_at_of. apply reads_map with (f := fun _ => length enc - k) (a := orient o (firstn k enc)). rewrite <- HF at 1. apply reads_bits.
      - rewrite <- HS. apply HR. rewrite HF, HS. destruct Hsrc as [->|Hs]; [|right; lia].
        unfold k in *. destruct (Nat.le_gt_cases (length enc) (length l)); [right; lia|left; split; [|reflexivity]].
        replace (Nat.min (length enc) (length l)) with (length l) by lia. exact Hal. }
    rewrite HE in Hu. specialize (HM r rest Hr Ha Hu). rewrite <- HE in HM. exact HM.
  - pose proof Ha as [Hb Hal]. unfold r_rest in Hal. rewrite EL in Hal. cbn [length] in Hal.
    refine (reads_at_nil_bind src o pos (ret (length enc)) rst enc (length enc) tt _ _ r rest Hr Ha Hu); [apply reads_at_ret|].
    apply HR. destruct Hsrc as [->|Hs]; [left; split; [lia|reflexivity]|now right].
Qed.

Lemma encode_pad_sound src o pos p o' enc : encode_pad src o p o' = Some enc ->
  emits_at o pos (write_pad p o') enc /\
  forall bits, length bits = length enc -> reads_at src o pos (read_pad p o') bits tt.
Proof.
  unfold encode_pad, write_pad, read_pad. destruct p as [z|].
  - intros H. apply guard_inv in H. destruct H as [H E]. injection E as <-.
    repeat (apply andb_true_iff in H; destruct H as [H ?]). apply order_eqb_ok in H1. rewrite <- H1.
    unfold to_usize. replace ((z <? 0)%Z || (Z.of_N usize_max <? z)%Z) with false by lia.
    rewrite Z_N_nat. split.
    + apply (emits_at_ext o pos (pad_loop (Z.to_nat z) (Z.to_nat z) o)); [reflexivity|]. now apply emits_pad_loop.
    + intros bits Hl. rewrite repeat_length in Hl.
      apply (reads_at_ext src o pos (skip_bits (length bits) o)); [now rewrite Hl|]. apply reads_at_skip.
      unfold seekable in H0. destruct src; [right; rewrite Hl; lia|now left].
  - intros H. injection H as <-. split; [apply emits_at_ret|]. intros bits Hl. destruct bits; [|discriminate]. apply reads_at_ret.
Qed.
