(** [emits] and [reads] compose; what the basic calls emit and read. *)
From Coq Require Import Lia ZifyBool ZifyNat ZifyN Permutation.
From Verif Require Import Base MonadFacts Spec Stream Reader Session Writer WSession Prims CodecSpec
  BitsFacts NFacts ReaderFacts ReaderOps FastRead SessionFacts ReaderProps WriterFacts WriterProps.
Ltac Zify.zify_post_hook ::= Z.div_mod_to_equations.

(** ** Writers *)

Lemma writable_good w : writable w <-> w_good w.
Proof. unfold writable, w_good, accepting, w_rest. tauto. Qed.
Lemma stored_app w1 w2 w3 a b : stored w1 w2 a -> stored w2 w3 b -> stored w1 w3 (a ++ b).
Proof.
  intros (d1 & p1 & b1) (d2 & p2 & b2). split; [|split].
  - rewrite d2, d1, p1. apply overlay_app.
  - rewrite p2, p1, app_length. lia.
  - rewrite b2, b1, app_length. lia.
Qed.
Lemma stored_nil w : stored w w [].
Proof. split; [now rewrite overlay_nil|]. cbn. split; lia. Qed.

(** Where the next write starts. *)
Lemma align_next o (bs : list byte) (l' l enc : list bool) : length l' < 8 ->
  bitstring o bs ++ orient o l' = orient o l ++ enc -> length l' = (length l + length enc) mod 8.
Proof.
  intros H E. apply (f_equal (@length bool)) in E. rewrite !app_length, !orient_length, bitstring_length in E. lia.
Qed.

Lemma emits_ret o a : emits o a (ret tt) [].
Proof.
  intros w Hw Ho _. exists w, []. split; [reflexivity|]. split; [apply stored_nil|]. split; [exact Hw|]. split; [exact Ho|].
  cbn. now rewrite app_nil_r.
Qed.
Lemma emits_bind o a m1 (f : unit -> WM unit) e1 e2 :
  emits o a m1 e1 -> emits o ((a + length e1) mod 8) (f tt) e2 -> emits o a (bind m1 f) (e1 ++ e2).
Proof.
  intros H1 H2 w Hw Ho Ha. destruct (H1 w Hw Ho Ha) as (w1 & b1 & E1 & S1 & W1 & O1 & Q1).
  assert (Ha1 : length (w_rest w1) = (a + length e1) mod 8).
  { destruct W1 as (_ & _ & Hl). rewrite (align_next _ _ _ _ _ Hl Q1). now rewrite Ha. }
  destruct (H2 w1 W1 O1 Ha1) as (w2 & b2 & E2 & S2 & W2 & O2 & Q2).
  exists w2, (b1 ++ b2). split; [rewrite (bind_ok _ _ _ _ _ E1); exact E2|].
  split; [eapply stored_app; eassumption|]. split; [exact W2|]. split; [exact O2|].
  rewrite bitstring_app, <- app_assoc, Q2, app_assoc, Q1, app_assoc. reflexivity.
Qed.
Lemma emits_ext o a m1 m2 e : (forall w, m1 w = m2 w) -> emits o a m1 e -> emits o a m2 e.
Proof. intros H H1 w Hw Ho Ha. destruct (H1 w Hw Ho Ha) as (w' & bs & E & R). exists w', bs. rewrite <- H. auto. Qed.

Lemma emits_bits_msb a l : emits Msb0 a (write_bits_order l Msb0) l.
Proof.
  intros w Hw Ho _. apply writable_good in Hw. cbn in Ho.
  destruct (write_bits_order_ok l Msb0 w Hw) as (w' & bs & E & A & G & O & _ & S & _).
  exists w', bs. split; [exact E|]. split; [now apply stored_wadv|]. split; [now apply writable_good|]. split; [exact O|].
  apply S. exact Ho.
Qed.
Lemma emits_bits_short o a l : length l <= 8 -> emits o a (write_bits_order l o) (orient o l).
Proof.
  destruct o; [intros _; apply emits_bits_msb|]. intros Hl w Hw Ho _. apply writable_good in Hw. cbn in Ho.
  destruct (lsb0_step l w Hw) as (w' & bs & E & A & G & O & S).
  { destruct Ho as [Ho|Ho]; [now left|right; split; assumption]. }
  exists w', bs. split; [exact E|]. split; [now apply stored_wadv|]. split; [now apply writable_good|]. split; [now left|]. exact S.
Qed.
Lemma emits_bytes o a bs : o = Msb0 \/ a = 0 -> emits o a (write_bytes bs) (bitstring o bs).
Proof.
  intros Hoa w Hw Ho Ha. pose proof Hw as Hw0. apply writable_good in Hw.
  destruct (write_bytes_ok bs w Hw) as (w' & bs' & E & A & G & O & Hnil & _ & S).
  exists w', bs'. split; [exact E|]. split; [now apply stored_wadv|]. split; [now apply writable_good|].
  destruct o.
  - cbn in Ho. split; [cbn; rewrite O; now destruct (_ =? _)|]. cbn [orient]. rewrite bitstring_msb. now apply S.
  - destruct Hoa as [Hoa| ->]; [discriminate|]. unfold w_rest in *. assert (Hl : w_left w = []) by now apply length_zero_iff_nil.
    destruct (Hnil Hl) as [-> Hl']. split; [right; exact Hl'|]. rewrite Hl, Hl'. cbn. now rewrite app_nil_r.
Qed.
Lemma emits_uint a n v : 1 <= n <= 64 -> emits Msb0 a (write_bits_uint_msb0 v n) (N2bits n v).
Proof.
  intros Hn w Hw Ho _. apply writable_good in Hw. cbn in Ho.
  destruct (fast_write_ok v n w Hw Ho Hn) as (w' & bs & E & A & G & O & S).
  exists w', bs. split; [exact E|]. split; [now apply stored_wadv|]. split; [now apply writable_good|]. split; [exact O|exact S].
Qed.

(** From a fresh writer: the produced bytes, padding included. *)
Lemma fresh_out o m enc w1 bs : m (writer_new vec_sink) = (Ok tt, w1) -> stored (writer_new vec_sink) w1 bs -> writable w1 -> in_order o w1 ->
  bitstring o bs ++ orient o (w_rest w1) = enc ->
  exists w pad, (let* _ := m in finalize) (writer_new vec_sink) = (Ok tt, w) /\
    bitstring o (k_data (w_k w)) = enc ++ repeat false pad /\ pad < 8.
Proof.
  intros E St W O Q'.
    pose proof W as G. apply writable_good in G. destruct (w_left w1) as [|b p] eqn:El.
    + exists w1, 0. split; [rewrite (bind_ok _ _ _ _ _ E); now apply finalize_nil|]. split; [|lia].
      destruct St as (Hd & _). cbn [writer_new w_k vec_sink k_data k_pos] in Hd. rewrite Hd, overlay_empty.
      unfold w_rest in Q'. rewrite El, orient_nil in Q'. cbn [repeat]. rewrite app_nil_r in Q' |- *. exact Q'.
    + destruct (finalize_pad w1 G) as (w2 & E2 & A2 & _ & _ & _); [rewrite El; discriminate|].
      exists w2, (8 - length (w_left w1)). split; [rewrite (bind_ok _ _ _ _ _ E); exact E2|].
      apply stored_wadv in A2. pose proof (stored_app _ _ _ _ _ St A2) as (Hd & _).
      cbn [writer_new w_k vec_sink k_data k_pos] in Hd. rewrite Hd, overlay_empty, bitstring_app.
      split; [|rewrite El; cbn [length]; lia]. rewrite <- Q', <- app_assoc. f_equal.
      unfold w_rest in *. rewrite bitstring_cons. change (bitstring o []) with (@nil bool). rewrite app_nil_r. unfold pad_byte.
      assert (Hord : w_ord w1 = o).
      { destruct o; [exact O|]. destruct O as [O|O]; [exact O|]. unfold w_rest in O. rewrite El in O. discriminate. }
      rewrite Hord. destruct G as [_ Hl]. destruct o; rewrite byte_bits_of_bits;
        rewrite ?app_length, ?repeat_length; try lia; cbn [orient]; [reflexivity|].
      rewrite rev_app_distr. f_equal. clear. induction (8 - _) as [|k IH]; [reflexivity|]. cbn [repeat rev].
      rewrite IH. clear. induction k as [|k IH]; [reflexivity|]. cbn [repeat app]. now rewrite IH.
Qed.
Lemma fresh_writer o : writable (writer_new vec_sink) /\ in_order o (writer_new vec_sink).
Proof. split; [split; [reflexivity|]; split; [reflexivity|cbn; lia]|]. destruct o; [reflexivity|right; reflexivity]. Qed.
Lemma emits_out o m enc : emits o 0 m enc ->
  exists w pad, (let* _ := m in finalize) (writer_new vec_sink) = (Ok tt, w) /\
    bitstring o (k_data (w_k w)) = enc ++ repeat false pad /\ pad < 8.
Proof.
  intros H. destruct (fresh_writer o) as [Hw Ho]. destruct (H _ Hw Ho eq_refl) as (w1 & bs & E & St & W & O & Q).
  eapply fresh_out; try eassumption. destruct o; exact Q.
Qed.

(** ** Readers *)

Lemma readable_base src r : readable src r -> r_wf r /\ quiet (r_s r).
Proof. intros (H1 & H2 & _). split; assumption. Qed.
Lemma seen_unread o r : unread_string o (seen r) = unread_string o (unread r).
Proof.
  unfold seen, unread, r_rest. destruct (r_left r) as [[b|l]|]; try reflexivity.
  unfold unread_string. cbn [fst snd]. rewrite bitstring_cons, orient_nil. reflexivity.
Qed.
Lemma seen_unread_len r : unread_len (seen r) = unread_len (unread r).
Proof.
  unfold seen, unread, r_rest, unread_len. destruct (r_left r) as [[b|l]|]; try reflexivity.
  cbn [fst snd length]. rewrite byte_bits_length. lia.
Qed.
Lemma rest_left r : r_rest r = left_bits (r_left r).
Proof. unfold r_rest, left_bits. now destruct (r_left r) as [[]|]. Qed.

Lemma adv_readable src r r' n : readable src r -> adv r r' n -> (~ peeked r -> ~ peeked r') ->
  unread_len (seen r) = n + unread_len (seen r') -> readable src r'.
Proof.
  intros (Hq & Hw & Hs) A Hp Hu. destruct A as [(Sd & Se & Sf) Aw Ab Ap Al Av].
  split; [intros j; rewrite Sf; apply Hq|]. split; [exact Aw|]. destruct src; [exact I|].
  destruct Hs as (Hn & Hpos & Hsync & Hpk). unfold virt_moved in Av. rewrite Hn in Av. cbn in Av.
  unfold seen, unread_len in Hu. cbn [fst snd] in Hu. rewrite !s_avail_length, Sd in Hu. rewrite !rest_left in *.
  split; [exact Av|]. rewrite Sd. split; [lia|]. split; [lia|].
  destruct (r_left r') as [[b|l]|] eqn:El; try exact I. apply Hp; [|now exists b].
  intros [b' Eb]. rewrite Eb in Hpk. exact Hpk.
Qed.

Lemma reads_intro {A} src o (m : RM A) enc v :
  (forall r, r_wf r -> quiet (r_s r) -> (src = SeekSource -> ~ peeked r) ->
     unread_len (unread r) >= length enc ->
     firstn (length enc) (unread_string o (unread r)) = enc ->
     exists r', m r = (Ok v, r') /\ adv r r' (length enc) /\ (~ peeked r -> ~ peeked r') /\
       unread_string o (unread r') = skipn (length enc) (unread_string o (unread r))) ->
  reads src o m enc v.
Proof.
  intros H r rest Hr Hu. destruct (readable_base _ _ Hr) as [Hw Hq].
  assert (HL : unread_len (unread r) = length enc + length rest).
  { rewrite <- seen_unread_len, <- (ReaderFacts.unread_string_length o), Hu, app_length. reflexivity. }
  rewrite seen_unread in Hu.
  destruct (H r Hw Hq) as (r' & E & Ad & Hp & Hs).
  - intros ->. destruct Hr as (_ & _ & _ & _ & _ & Hp). intros [b Eb]. now rewrite Eb in Hp.
  - lia.
  - rewrite Hu. apply firstn_length_app.
  - rewrite Hu, skipn_length_app in Hs. exists r'. split; [exact E|].
    assert (Hs' : unread_string o (seen r') = rest) by now rewrite seen_unread.
    assert (HL' : unread_len (seen r') = length rest) by now rewrite <- (ReaderFacts.unread_string_length o), Hs'.
    split; [|split; [exact Hs'|split; [apply Ad|split; [apply Ad|apply Ad]]]].
    eapply adv_readable; [exact Hr|exact Ad|exact Hp|]. rewrite seen_unread_len. lia.
Qed.

Lemma reads_ret {A} src o (v : A) : reads src o (ret v) [] v.
Proof.
  intros r rest Hr Hu. exists r. split; [reflexivity|]. split; [exact Hr|]. split; [exact Hu|]. cbn. repeat split; lia.
Qed.
Lemma reads_bind {A B} src o (m : RM A) (f : A -> RM B) e1 e2 a b :
  reads src o m e1 a -> reads src o (f a) e2 b -> reads src o (bind m f) (e1 ++ e2) b.
Proof.
  intros H1 H2 r rest Hr Hu. rewrite <- app_assoc in Hu.
  destruct (H1 r _ Hr Hu) as (r1 & E1 & R1 & U1 & B1 & D1 & P1).
  destruct (H2 r1 _ R1 U1) as (r2 & E2 & R2 & U2 & B2 & D2 & P2).
  exists r2. split; [rewrite (bind_ok _ _ _ _ _ E1); exact E2|]. split; [exact R2|]. split; [exact U2|].
  rewrite app_length. repeat split; [lia|congruence|lia].
Qed.
Lemma reads_map {A B} src o (m : RM A) (f : A -> B) e a :
  reads src o m e a -> reads src o (let* x := m in ret (f x)) e (f a).
Proof. intros H. rewrite <- (app_nil_r e). eapply reads_bind; [exact H|apply reads_ret]. Qed.
Lemma reads_lift {A B} src o (m : RM A) (f : A -> res B) e a b :
  reads src o m e a -> f a = Ok b -> reads src o (let* x := m in lift (f x)) e b.
Proof.
  intros H E. rewrite <- (app_nil_r e). eapply reads_bind; [exact H|]. unfold lift. rewrite E. apply reads_ret.
Qed.
Lemma reads_ext {A} src o (m1 m2 : RM A) e v : (forall r, m1 r = m2 r) -> reads src o m1 e v -> reads src o m2 e v.
Proof. intros H H1 r rest Hr Hu. destruct (H1 r rest Hr Hu) as (r' & E & R). exists r'. rewrite <- H. auto. Qed.

(** No read leaves a peeked byte behind. *)
Lemma fill_slots_left d k r x r' : fill_slots d k r = (x, r') -> r_left r' = r_left r.
Proof. intros H. now destruct (fill_slots_frame _ _ _ _ _ H). Qed.
Lemma read_greater_unpeeked o n prev r x r' : ~ peeked r ->
  (match o with Lsb0 => read_greater_lsb n prev | Msb0 => read_greater_msb n prev end) r = (x, r') -> ~ peeked r'.
Proof.
  intros Hp H. unfold peeked in *. destruct o; unfold read_greater_lsb, read_greater_msb in H; unfold bind in H;
  destruct (fill_slots n _ r) as [[l| | |] r1] eqn:E1; pose proof (fill_slots_left _ _ _ _ _ E1) as L1;
  try (apply pair_inj in H; destruct H as [_ <-]; rewrite L1; exact Hp);
  destruct (_ =? 0); try (apply pair_inj in H; destruct H as [_ <-]; rewrite L1; exact Hp);
  destruct (read_rem_byte n r1) as [[b| | |] r2] eqn:E2; destruct (read_rem_byte_frame _ _ _ _ E2) as [L2 _];
  try (apply pair_inj in H; destruct H as [_ <-]; rewrite L2, L1; exact Hp);
  cbn in H; apply pair_inj in H; destruct H as [_ <-]; cbn; intros [b' ?]; discriminate.
Qed.
Lemma read_bits_into_unpeeked n o r x r' : read_bits_into n o r = (x, r') -> ~ peeked r -> ~ peeked r'.
Proof.
  intros H Hp. unfold read_bits_into in H. destruct (n =? 0); [cbn in H; apply pair_inj in H; now destruct H as [_ <-]|].
  assert (Hn : ~ peeked (r_set_left r None)) by (intros [b ?]; discriminate). unfold bind at 1 in H.
  destruct (n ?= _).
  - unfold assert_ in H. destruct (_ <=? _); cbn in H; apply pair_inj in H; destruct H as [_ <-]; intros [b ?]; discriminate.
  - unfold assert_ in H. destruct (_ <=? _); destruct o; cbn in H; apply pair_inj in H; destruct H as [_ <-]; intros [b ?]; discriminate.
  - destruct o.
    + destruct (read_greater_msb n (left_bits (r_left r)) (r_set_left r None)) as [y r1] eqn:E.
      pose proof (read_greater_unpeeked Msb0 _ _ _ _ _ Hn E) as H1.
      destruct y; cbn in H; apply pair_inj in H; destruct H as [_ <-]; exact H1.
    + destruct (read_greater_lsb n (left_bits (r_left r)) (r_set_left r None)) as [y r1] eqn:E.
      pose proof (read_greater_unpeeked Lsb0 _ _ _ _ _ Hn E) as H1.
      destruct y; cbn in H; apply pair_inj in H; destruct H as [_ <-]; exact H1.
Qed.
Lemma uint_unpeeked n r x r' : r_wf r -> quiet (r_s r) -> 1 <= n <= 64 -> read_bits_uint_msb0 n r = (x, r') -> ~ peeked r -> ~ peeked r'.
Proof.
  intros Hw Hq Hn H Hp. rewrite (fast_read_generic _ _ Hw Hq Hn) in H. unfold bind in H.
  destruct (read_bits_into n Msb0 r) as [y r1] eqn:E. pose proof (read_bits_into_unpeeked _ _ _ _ _ E Hp) as H1.
  destruct y; cbn in H; apply pair_inj in H; destruct H as [_ <-]; exact H1.
Qed.
Lemma read_bytes_unpeeked n b o r x r' : read_bytes n b o r = (x, r') -> ~ peeked r -> ~ peeked r'.
Proof.
  intros H Hp. unfold read_bytes in H. destruct (r_left r) as [[c|l]|] eqn:El.
  - exfalso. apply Hp. now exists c.
  - destruct (_ <? _); [apply pair_inj in H; now destruct H as [_ <-]|]. unfold read_bytes_bits, bind in H.
    destruct (read_bits_into _ o r) as [y r1] eqn:E. pose proof (read_bits_into_unpeeked _ _ _ _ _ E Hp) as H1.
    destruct y; cbn in H; apply pair_inj in H; destruct H as [_ <-]; exact H1.
  - destruct (_ <? _); [apply pair_inj in H; now destruct H as [_ <-]|].
    destruct (r_io n r) as [[bs|k] r1] eqn:E; destruct (r_io_frame _ _ _ _ E) as [L _];
    apply pair_inj in H; destruct H as [_ <-]; unfold peeked; cbn; rewrite L, El; intros [? ?]; discriminate.
Qed.
(** A read of something leaves no peeked byte even if there was one. *)
Lemma bits_unpeeked n o r x r' : n <> 0 -> read_bits_into n o r = (x, r') -> ~ peeked r'.
Proof.
  intros Hn H. unfold read_bits_into in H. replace (n =? 0) with false in H by lia.
  assert (HN : ~ peeked (r_set_left r None)) by (intros [b ?]; discriminate). unfold bind at 1 in H.
  destruct (n ?= _).
  - unfold assert_ in H. destruct (_ <=? _); cbn in H; apply pair_inj in H; destruct H as [_ <-]; intros [b ?]; discriminate.
  - unfold assert_ in H. destruct (_ <=? _); destruct o; cbn in H; apply pair_inj in H; destruct H as [_ <-]; intros [b ?]; discriminate.
  - destruct o.
    + destruct (read_greater_msb n (left_bits (r_left r)) (r_set_left r None)) as [y r1] eqn:E.
      pose proof (read_greater_unpeeked Msb0 _ _ _ _ _ HN E) as H1.
      destruct y; cbn in H; apply pair_inj in H; destruct H as [_ <-]; exact H1.
    + destruct (read_greater_lsb n (left_bits (r_left r)) (r_set_left r None)) as [y r1] eqn:E.
      pose proof (read_greater_unpeeked Lsb0 _ _ _ _ _ HN E) as H1.
      destruct y; cbn in H; apply pair_inj in H; destruct H as [_ <-]; exact H1.
Qed.
Lemma bytes_unpeeked n b o r bs r' : n <> 0 -> read_bytes n b o r = (Ok bs, r') -> ~ peeked r'.
Proof.
  intros Hn H. destruct (r_left r) as [[c|l]|] eqn:El.
  - unfold read_bytes in H. rewrite El in H. unfold read_bytes_leftover in H. destruct (b =? 0); [discriminate H|]. unfold bind, modify in H. replace (n =? 0) with false in H by lia.
    destruct (n - 1 =? 0); [apply pair_inj in H; destruct H as [_ <-]; intros [? ?]; discriminate|].
    destruct (b <? n - 1); [discriminate H|]. destruct (b <? n); [discriminate H|].
    destruct (r_io (n - 1) (r_set_left r None)) as [[x|k] r1] eqn:E; [|discriminate H]. destruct (r_io_frame _ _ _ _ E) as [L _].
    apply pair_inj in H. destruct H as [_ <-]. unfold peeked. cbn. rewrite L. intros [? ?]. discriminate.
  - apply (read_bytes_unpeeked _ _ _ _ _ _ H). intros [? ?]. congruence.
  - apply (read_bytes_unpeeked _ _ _ _ _ _ H). intros [? ?]. congruence.
Qed.

Lemma take_some o n u : n <= unread_len u -> exists u', take_bits o n u = Some (firstn n (unread_string o u), u') /\
  unread_string o u' = skipn n (unread_string o u).
Proof.
  intros H. destruct (take_bits o n u) as [[l u']|] eqn:E.
  - destruct (take_bits_firstn _ _ _ _ _ E) as [-> ?]. now exists u'.
  - apply take_bits_none in E. lia.
Qed.

Lemma reads_bits src o enc : reads src o (read_bits_into (length enc) o) enc (orient o enc).
Proof.
  apply reads_intro. intros r Hw Hq _ Hl Hf.
  destruct (take_some o (length enc) (unread r)) as (u' & T & S); [lia|].
  pose proof (read_bits_into_spec (length enc) o r Hw Hq) as H. rewrite T, Hf in H.
  destruct H as (r' & E & A & U). exists r'. split; [exact E|]. split; [exact A|].
  split; [intros Hp; eapply read_bits_into_unpeeked; [exact E|exact Hp]|]. now rewrite U.
Qed.
Lemma reads_uint src enc : 1 <= length enc <= 64 -> reads src Msb0 (read_bits_uint_msb0 (length enc)) enc (bits2N enc).
Proof.
  intros Hn. apply reads_intro. intros r Hw Hq _ Hl Hf.
  destruct (take_some Msb0 (length enc) (unread r)) as (u' & T & S); [lia|].
  pose proof (read_bits_into_spec (length enc) Msb0 r Hw Hq) as H. rewrite T, Hf in H.
  destruct H as (r' & E & A & U). exists r'.
  assert (E' : read_bits_uint_msb0 (length enc) r = (Ok (bits2N enc), r')).
  { rewrite (fast_read_generic _ _ Hw Hq Hn), (bind_ok _ _ _ _ _ E). reflexivity. }
  split; [exact E'|]. split; [exact A|].
  split; [intros Hp; eapply uint_unpeeked; eassumption|]. now rewrite U.
Qed.
Lemma reads_bytes src o n b bs : length bs = n -> 0 < n <= b -> reads src o (read_bytes n b o) (bitstring o bs) bs.
Proof.
  intros Hn Hb. apply reads_intro. intros r Hw Hq _ Hl Hf. rewrite bitstring_length, Hn in *.
  destruct (take_some o (8 * n) (unread r)) as (u' & T & S); [lia|].
  assert (Hz : n = 0 -> ~ peeked r) by lia.
  pose proof (read_bytes_spec n b o r Hw Hq (proj2 Hb) Hz) as H. rewrite T, Hf in H.
  destruct H as (bs' & r' & E & B & A & U). apply bitstring_inj in B. subst bs'. exists r'. split; [exact E|].
  split; [exact A|]. split; [intros Hp; eapply read_bytes_unpeeked; [exact E|exact Hp]|]. now rewrite U.
Qed.

Lemma readable_new src data : readable src (reader_new (cursor data)).
Proof. split; [reflexivity|]. split; [exact I|]. destruct src; cbn; repeat split; lia. Qed.
