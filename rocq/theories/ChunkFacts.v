(** Programs do not see how a source cuts its input. *)
From Coq Require Import Lia ZifyBool ZifyNat.
From Verif Require Import Base MonadFacts Stream Writer WriterFacts MsgsOut Chunks ChunkSpec.

(** ** [read_exact] *)

Lemma skipn_more {A} p l (data : list A) : skipn (p + l) data = skipn l (skipn p data).
Proof. revert data; induction p as [|p IH]; intros data; [reflexivity|]. destruct data as [|a data]; [cbn; now destruct l|apply IH]. Qed.
Definition fails_within (d : raw) (k : iokind) (m n : nat) : Prop :=
  m < n /\ m <= length (skipn (d_pos d) (d_data d)) /\ exists j, d_read d j = Fails k.
Lemma loop_spec fuel : forall n got d x d', exact_loop fuel n got d = (Some x, d') ->
  let avail := skipn (d_pos d) (d_data d) in
  match x with
  | IoOk l => n <= length avail /\ l = got ++ firstn n avail /\ exists j, d' = d_step d (d_pos d + n) j
  | IoErr k => (k = UnexpectedEof /\ length avail < n /\ exists j, d' = d_step d (Nat.max (d_pos d) (length (d_data d))) j) \/
      exists m, fails_within d k m n /\ exists j, d' = d_step d (d_pos d + m) j
  end.
Proof.
  induction fuel as [|f IH]; intros n got d x d' E; cbv zeta; destruct n as [|n]; cbn [exact_loop] in E; try discriminate.
  1,2: injection E as <- <-; split; [lia|]; split; [cbn; now rewrite app_nil_r|]; exists (d_reads d); rewrite Nat.add_0_r; now destruct d.
  destruct (d_read d (d_reads d)) as [m| |k] eqn:Er; cbv zeta in E.
  - pose proof (skipn_length (d_pos d) (d_data d)) as HL. set (av := skipn (d_pos d) (d_data d)) in *. set (l := Nat.min (Nat.min (S m) (S n)) (length av)) in *.
    destruct (l =? 0) eqn:El.
    + injection E as <- <-. left. split; [reflexivity|]. split; [lia|]. exists (S (d_reads d)). f_equal.
      assert (length av = 0) by lia. lia.
    + apply IH in E. cbv zeta in E. cbn [d_step d_pos d_data] in E. rewrite skipn_more in E. fold av in E.
      assert (Hl : length (skipn l av) = length av - l) by apply skipn_length.
      destruct x as [bs|k].
      * destruct E as (H1 & -> & j & ->). split; [lia|]. split; [|exists j; unfold d_step; cbn [d_data d_noseek d_read d_reads d_seek d_seeks]; f_equal; lia].
        rewrite <- app_assoc. f_equal. replace (S n) with (l + (S n - l)) at 2 by lia. rewrite <- (firstn_skipn l av) at 3.
        rewrite firstn_app, firstn_firstn, firstn_length. replace (Nat.min _ l) with l by lia. f_equal. f_equal. lia.
      * destruct E as [(-> & H1 & j & ->)|(m' & (H1 & H2 & i & H3) & j & ->)].
        -- left. split; [reflexivity|]. split; [lia|]. exists j. unfold d_step. cbn [d_data d_noseek d_read d_reads d_seek d_seeks]. f_equal. assert (0 < length av) by lia. lia.
        -- right. exists (l + m'). cbn [d_step d_pos d_data d_read] in *. rewrite skipn_more in H2. fold av in H2. split.
           ++ split; [lia|]. fold av. split; [lia|]. now exists i.
           ++ exists j. unfold d_step. cbn [d_data d_noseek d_read d_reads d_seek d_seeks]. f_equal. lia.
  - apply IH in E. cbv zeta in E. cbn [d_step d_pos d_data] in E. destruct x as [bs|k].
    + destruct E as (H1 & H2 & j & ->). split; [exact H1|]. split; [exact H2|]. exists j. reflexivity.
    + destruct E as [(-> & H1 & j & ->)|(m' & (H1 & H2 & i & H3) & j & ->)].
      * left. split; [reflexivity|]. split; [exact H1|]. exists j. reflexivity.
      * right. exists m'. split; [split; [exact H1|]; split; [exact H2|]; now exists i|]. exists j. reflexivity.
  - injection E as <- <-. right. exists 0. split.
    + split; [lia|]. split; [lia|]. now exists (d_reads d).
    + exists (S (d_reads d)). now rewrite Nat.add_0_r.
Qed.
(** It ends if the interruptions do. *)
Lemma loop_ends b fuel : forall i n got d, patient b (d_read d) -> i <= b -> d_read d (d_reads d + i) <> Interrupts -> n * S b + i < fuel ->
  fst (exact_loop fuel n got d) <> None.
Proof.
  induction fuel as [|f IH]; intros i n got d Hp Hi Hn Hf; [lia|]. destruct n as [|n]; cbn [exact_loop]; [discriminate|].
  destruct (d_read d (d_reads d)) as [m| |k] eqn:Er; [| |discriminate].
  - cbv zeta. destruct (_ =? 0) eqn:El; [discriminate|]. set (l := Nat.min _ (length _)) in *. set (d1 := d_step _ _ _).
    destruct (Hp (S (d_reads d))) as (i' & H1 & H2). apply (IH i'); [exact Hp|exact H1|exact H2|]. assert ((S n - l) * S b <= n * S b) by (apply Nat.mul_le_mono_r; lia). lia.
  - destruct i as [|i]; [rewrite Nat.add_0_r in Hn; congruence|]. apply (IH i); [exact Hp|lia| |lia]. cbn. now rewrite Nat.add_succ_r in Hn.
Qed.

Lemma exact_ends b n d : patient b (d_read d) -> fst (raw_exact b n d) <> None.
Proof.
  intros Hp. unfold raw_exact. destruct (Hp (d_reads d)) as (i & H1 & H2).
  pose proof (loop_ends b (S n * S b) i n [] d Hp H1 H2 ltac:(lia)) as H. destruct (exact_loop _ _ _ _) as [[[l|k]|] d']; [discriminate|discriminate|]. now elim H.
Qed.

(** ** The calls *)

(** What the program sees of a source stays. *)
Record same_raw (d d' : raw) : Prop := { sr_read : d_read d' = d_read d; sr_seek : d_seek d' = d_seek d }.
Lemma same_raw_refl d : same_raw d d.
Proof. split; reflexivity. Qed.
Lemma exact_at_once b n d x d' : raw_exact b n d = (Some x, d') ->
  same_raw d d' /\ exists o, (reliable (d_read d) (d_seek d) -> o = None) /\ forall f c, f c = o -> s_read_exact n (at_once d f c) = (x, at_once d' f (S c)).
Proof.
  unfold raw_exact. destruct (exact_loop (S n * S b) n [] d) as [[y|] d1] eqn:E; [|discriminate]. apply loop_spec in E. cbv zeta in E. cbn [app] in E. destruct y as [l|k].
  - intros H. injection H as <- <-. destruct E as (H1 & -> & j & ->). split; [split; reflexivity|]. exists None. split; [reflexivity|]. intros f c Hf.
    unfold s_read_exact, s_avail. cbn [at_once s_fault s_calls s_data s_pos s_noseek s_eat]. rewrite Hf.
    replace (n <=? _) with true by lia. reflexivity.
  - intros H. injection H as <- <-. destruct E as [(-> & H1 & j & ->)|(m & (H1 & H2 & i & H3) & j & ->)]; (split; [split; reflexivity|]).
    + exists None. split; [reflexivity|]. intros f c Hf. unfold s_read_exact, s_avail. cbn [at_once s_fault s_calls s_data s_pos s_noseek s_eat]. rewrite Hf.
      replace (n <=? _) with false by lia. reflexivity.
    + exists (Some (k, m)). split; [intros [Hr _]; now elim (Hr i k)|]. intros f c Hf. unfold s_read_exact, s_avail.
      cbn [at_once s_fault s_calls s_data s_pos s_noseek s_eat]. rewrite Hf.
      replace (Nat.min (Nat.min m (n - 1)) _) with m by lia. reflexivity.
Qed.
Lemma seek_at_once w d x d' : raw_seek w d = (x, d') ->
  same_raw d d' /\ exists o, (reliable (d_read d) (d_seek d) -> o = None) /\ forall f c, f c = o -> s_seek w (at_once d f c) = (x, at_once d' f (S c)).
Proof.
  unfold raw_seek. destruct (d_noseek d) as [v|] eqn:En.
  - intros E. assert (d' = d) as -> by (destruct (noseek_target v w); congruence). split; [apply same_raw_refl|]. exists None. split; [reflexivity|]. intros f c Hf.
    unfold s_seek, at_once. cbn [s_fault s_calls s_noseek]. rewrite Hf, En. destruct (noseek_target v w); apply pair_inj in E; destruct E as [<- _]; unfold s_tick; cbn; reflexivity.
  - destruct (d_seek d (d_seeks d)) as [k|] eqn:Ek.
    + intros E. apply pair_inj in E. destruct E as [<- <-]. split; [split; reflexivity|]. exists (Some (k, 0)). split; [intros [_ Hr]; rewrite Hr in Ek; discriminate|].
      intros f c Hf. unfold s_seek, at_once. cbn [s_fault s_calls s_noseek]. rewrite Hf. unfold s_tick. cbn. now rewrite En.
    + intros E. assert (same_raw d d') as Hs by (destruct (seek_target _ _ _); apply pair_inj in E; destruct E as [_ <-]; split; reflexivity). split; [exact Hs|]. exists None. split; [reflexivity|].
      intros f c Hf. unfold s_seek, at_once. cbn [s_fault s_calls s_noseek s_pos s_data]. rewrite Hf, En.
      destruct (seek_target _ _ _); apply pair_inj in E; destruct E as [<- <-]; unfold s_tick, s_goto; cbn; now rewrite ?En.
Qed.

(** ** Programs *)

(** The errors of later calls do not matter. *)
Definition same_from (c : nat) (f g : nat -> option (iokind * nat)) : Prop := forall j, c <= j -> f j = g j.
Theorem run_at_once {A} b (p : prog A) : forall d c x d', run_raw b p d = (Some x, d') ->
  exists h n, (reliable (d_read d) (d_seek d) -> forall j, h j = None) /\ forall f, same_from c f h -> run p (at_once d f c) = (x, at_once d' f n).
Proof.
  induction p as [a|m k IH|w k IH]; intros d c x d' E; cbn [run_raw run] in *.
  - injection E as <- <-. exists (fun _ => None), c. split; [reflexivity|]. intros f _. reflexivity.
  - destruct (raw_exact b m d) as [[y|] d1] eqn:Ee; [|discriminate]. destruct (exact_at_once _ _ _ _ _ Ee) as ([S1 S2] & o & Ho & Hx).
    destruct (IH y d1 (S c) x d' E) as (h & n & Hh & Hr). exists (fun j => if j =? c then o else h j), n. split.
    + intros R j. destruct (j =? c); [now apply Ho|]. apply Hh. now rewrite S1, S2.
    + intros f Hf. rewrite (Hx f c); [|rewrite (Hf c (le_n c)), Nat.eqb_refl; reflexivity]. apply Hr. intros j Hj. rewrite Hf by lia. replace (j =? c) with false by lia. reflexivity.
  - destruct (raw_seek w d) as [y d1] eqn:Ee. destruct (seek_at_once _ _ _ _ Ee) as ([S1 S2] & o & Ho & Hx).
    destruct (IH y d1 (S c) x d' E) as (h & n & Hh & Hr). exists (fun j => if j =? c then o else h j), n. split.
    + intros R j. destruct (j =? c); [now apply Ho|]. apply Hh. now rewrite S1, S2.
    + intros f Hf. rewrite (Hx f c); [|rewrite (Hf c (le_n c)), Nat.eqb_refl; reflexivity]. apply Hr. intros j Hj. rewrite Hf by lia. replace (j =? c) with false by lia. reflexivity.
Qed.
Theorem run_ends {A} b (p : prog A) : forall d, patient b (d_read d) -> exists x d', run_raw b p d = (Some x, d').
Proof.
  induction p as [a|m k IH|w k IH]; intros d Hp; cbn [run_raw].
  - do 2 eexists. reflexivity.
  - pose proof (exact_ends b m d Hp) as H. destruct (raw_exact b m d) as [[y|] d1] eqn:Ee; [|now elim H]. apply IH. destruct (exact_at_once _ _ _ _ _ Ee) as ([S1 _] & _). now rewrite S1.
  - destruct (raw_seek w d) as [y d1] eqn:Ee. apply IH. destruct (seek_at_once _ _ _ _ Ee) as ([S1 _] & _). now rewrite S1.
Qed.

(** ** Sinks *)

Lemma overlay_more d p a b : overlay (overlay d p a) (p + length a) b = overlay d p (a ++ b).
Proof. apply overlay_app. Qed.
Lemma firstn_split {A} l m (buf : list A) : l <= length buf -> firstn (l + m) buf = firstn l buf ++ firstn m (skipn l buf).
Proof.
  revert buf; induction l as [|l IH]; intros [|a buf] H; cbn in *; try reflexivity; [lia|]. f_equal. apply IH. lia.
Qed.
Definition room (e : dest) : nat := length (e_data e) - e_pos e.
Definition takes (e : dest) (m : nat) (buf : list byte) : Prop := m <= length buf /\ (e_fixed e = true -> m <= room e).
Definition taken (e : dest) (m : nat) (buf : list byte) (e' : dest) : Prop :=
  exists j, e' = e_step e (overlay (e_data e) (e_pos e) (firstn m buf)) (e_pos e + m) j.
Lemma taken_0 e buf j : taken e 0 buf (e_step e (e_data e) (e_pos e) j).
Proof. exists j. cbn. now rewrite Nat.add_0_r. Qed.
Lemma taken_more e l m buf e1 e' : takes e l buf -> e1 = e_step e (overlay (e_data e) (e_pos e) (firstn l buf)) (e_pos e + l) (S (e_writes e)) ->
  taken e1 m (skipn l buf) e' -> taken e (l + m) buf e'.
Proof.
  intros [Hl Hr] -> (j & ->). exists j. unfold e_step. cbn [e_data e_pos e_fixed e_noseek e_write e_writes e_seek e_seeks]. f_equal; [|lia].
  rewrite (firstn_split l m) by lia. rewrite <- overlay_more. do 2 f_equal. rewrite firstn_length. lia.
Qed.
Lemma room_more e l buf j : takes e l buf -> e_fixed e = true -> room (e_step e (overlay (e_data e) (e_pos e) (firstn l buf)) (e_pos e + l) j) = room e - l.
Proof.
  intros [Hl Hr] Hf. specialize (Hr Hf). unfold room in *. cbn [e_step e_data e_pos].
  destruct l as [|l]; [cbn [firstn overlay]; lia|]. rewrite overlay_length; [lia|]. rewrite firstn_length. lia.
Qed.
Lemma all_spec fuel : forall buf e x e', all_loop fuel buf e = (Some x, e') ->
  match x with
  | IoOk _ => takes e (length buf) buf /\ taken e (length buf) buf e'
  | IoErr k => (k = WriteZero /\ e_fixed e = true /\ room e < length buf /\ taken e (room e) buf e') \/
      exists m, m < length buf /\ takes e m buf /\ taken e m buf e' /\ exists j, e_write e j = Fails k
  end.
Proof.
  induction fuel as [|f IH]; intros buf e x e' E; destruct buf as [|b0 buf0]; cbn [all_loop] in E; try discriminate.
  1,2: injection E as <- <-; split; [split; cbn; [lia|intros; lia]|]; exists (e_writes e); cbn; rewrite Nat.add_0_r; now destruct e.
  set (buf := b0 :: buf0) in *. assert (Hb : 0 < length buf) by (cbn; lia).
  destruct (e_write e (e_writes e)) as [m| |k] eqn:Er; cbv zeta in E.
  - set (l := if e_fixed e then Nat.min (Nat.min (S m) (length buf)) (length (e_data e) - e_pos e) else Nat.min (S m) (length buf)) in *.
    assert (HT : takes e l buf) by (unfold takes, room, l; destruct (e_fixed e); split; intros; try discriminate; lia).
    destruct (l =? 0) eqn:El.
    + injection E as <- <-. left. assert (Hf : e_fixed e = true) by (destruct (e_fixed e); [reflexivity|]; subst l; lia).
      assert (R0 : room e = 0) by (unfold room; subst l; rewrite Hf in El; lia). split; [reflexivity|]. split; [exact Hf|]. rewrite R0. split; [exact Hb|]. apply taken_0.
    + assert (Hs : length (skipn l buf) = length buf - l) by apply skipn_length. destruct HT as [HT1 HT2]. assert (HT : takes e l buf) by (split; assumption).
      apply IH in E. destruct x as [u|k].
      * destruct E as [[E1 E2] E3]. split.
        -- split; [lia|]. intros Hf. specialize (E2 Hf). rewrite (room_more e l buf _ HT Hf) in E2. specialize (HT2 Hf). lia.
        -- replace (length buf) with (l + length (skipn l buf)) by lia. eapply taken_more; [exact HT|reflexivity|exact E3].
      * destruct E as [(-> & Hf & E1 & E2)|(m' & E1 & [E2 E3] & E4 & i & E5)].
        -- left. cbn [e_step e_fixed] in Hf. rewrite (room_more e l buf _ HT Hf) in E1, E2. specialize (HT2 Hf).
           split; [reflexivity|]. split; [exact Hf|]. split; [lia|]. replace (room e) with (l + (room e - l)) by lia. eapply taken_more; [exact HT|reflexivity|exact E2].
        -- right. exists (l + m'). split; [lia|]. split; [|split].
           ++ split; [lia|]. intros Hf. specialize (E3 Hf). rewrite (room_more e l buf _ HT Hf) in E3. specialize (HT2 Hf). lia.
           ++ eapply taken_more; [exact HT|reflexivity|exact E4].
           ++ now exists i.
  - apply IH in E. exact E.
  - injection E as <- <-. right. exists 0. split; [exact Hb|]. split; [split; intros; lia|]. split; [apply taken_0|]. now exists (e_writes e).
Qed.
Lemma all_ends b fuel : forall i buf e, patient b (e_write e) -> i <= b -> e_write e (e_writes e + i) <> Interrupts -> length buf * S b + i < fuel ->
  fst (all_loop fuel buf e) <> None.
Proof.
  induction fuel as [|f IH]; intros i buf e Hp Hi Hn Hf; [lia|]. destruct buf as [|b0 buf0]; cbn [all_loop]; [discriminate|]. set (buf := b0 :: buf0) in *.
  destruct (e_write e (e_writes e)) as [m| |k] eqn:Er; [| |discriminate].
  - cbv zeta. match goal with |- context [if ?c =? 0 then _ else _] => set (l := c) end. destruct (l =? 0) eqn:El; [discriminate|].
    destruct (Hp (S (e_writes e))) as (i' & H1 & H2). apply (IH i'); [exact Hp|exact H1|exact H2|].
    rewrite skipn_length. assert ((length buf - l) * S b <= (length buf - 1) * S b) by (apply Nat.mul_le_mono_r; lia). assert (length buf = S (length buf0)) by reflexivity. lia.
  - destruct i as [|i]; [rewrite Nat.add_0_r in Hn; congruence|]. apply (IH i); [exact Hp|lia| |lia]. cbn. now rewrite Nat.add_succ_r in Hn.
Qed.
Lemma dest_ends b buf e : patient b (e_write e) -> fst (dest_all b buf e) <> None.
Proof.
  intros Hp. unfold dest_all. destruct (Hp (e_writes e)) as (i & H1 & H2).
  pose proof (all_ends b (S (length buf) * S b) i buf e Hp H1 H2 ltac:(lia)) as H. destruct (all_loop _ _ _) as [[[l|k]|] d']; [discriminate|discriminate|]. now elim H.
Qed.
Record same_dest (d d' : dest) : Prop := { sd_write : e_write d' = e_write d; sd_seek : e_seek d' = e_seek d }.
Lemma dest_at_once b buf e x e' : dest_all b buf e = (Some x, e') ->
  same_dest e e' /\ exists o, (reliable (e_write e) (e_seek e) -> o = None) /\ forall f c, f c = o -> k_write_all buf (all_at_once e f c) = (x, all_at_once e' f (S c)).
Proof.
  assert (HA : forall m, firstn m buf = firstn (Nat.min m (length buf)) buf) by (intros m; destruct (Nat.le_gt_cases m (length buf)); [f_equal; lia|rewrite !firstn_all2 by lia; reflexivity]).
  unfold dest_all. destruct (all_loop _ buf e) as [[y|] e1] eqn:E; [|discriminate]. apply all_spec in E. destruct y as [u|k].
  - intros H. injection H as <- <-. destruct E as ([_ H1] & j & ->). split; [split; reflexivity|]. exists None. split; [reflexivity|]. intros f c Hf.
    unfold k_write_all. cbn [all_at_once k_fault k_calls k_data k_pos k_noseek k_fixed]. rewrite Hf. rewrite firstn_all.
    replace (e_fixed e && _) with false by (unfold room in H1; destruct (e_fixed e); [specialize (H1 eq_refl); cbn [andb]; lia|reflexivity]). destruct u. reflexivity.
  - intros H. injection H as <- <-. destruct E as [(-> & Hf & H1 & j & ->)|(m & H1 & [H2 H3] & (j & ->) & i & H4)]; (split; [split; reflexivity|]).
    + exists None. split; [reflexivity|]. intros f c Hc. unfold k_write_all. cbn [all_at_once k_fault k_calls k_data k_pos k_noseek k_fixed]. rewrite Hc, Hf.
      unfold room in *. replace (_ <? length buf) with true by lia. cbn [andb]. unfold k_store. cbn [k_tick k_set k_data k_pos all_at_once]. rewrite firstn_length.
      unfold all_at_once, e_step, k_set. cbn. rewrite Hf. do 2 f_equal. lia.
    + exists (Some (k, m)). split; [intros [Hr _]; now elim (Hr i k)|]. intros f c Hc. unfold k_write_all.
      cbn [all_at_once k_fault k_calls k_data k_pos k_noseek k_fixed]. rewrite Hc.
      replace (if e_fixed e then _ else m) with m by (unfold room in H3; destruct (e_fixed e); [specialize (H3 eq_refl); lia|reflexivity]).
      unfold k_store. cbn [k_tick k_set k_data k_pos all_at_once]. rewrite firstn_length. unfold all_at_once, e_step, k_set. cbn. do 2 f_equal. lia.
Qed.
Lemma kseek_at_once w e x e' : dest_seek w e = (x, e') ->
  same_dest e e' /\ exists o, (reliable (e_write e) (e_seek e) -> o = None) /\ forall f c, f c = o -> k_seek w (all_at_once e f c) = (x, all_at_once e' f (S c)).
Proof.
  unfold dest_seek. destruct (e_noseek e) as [v|] eqn:En.
  - intros E. assert (e' = e) as -> by (destruct (noseek_target v w); congruence). split; [split; reflexivity|]. exists None. split; [reflexivity|]. intros f c Hf.
    unfold k_seek, all_at_once. cbn [k_fault k_calls k_noseek]. rewrite Hf, En. destruct (noseek_target v w); apply pair_inj in E; destruct E as [<- _]; unfold k_tick; cbn; reflexivity.
  - destruct (e_seek e (e_seeks e)) as [k|] eqn:Ek.
    + intros E. apply pair_inj in E. destruct E as [<- <-]. split; [split; reflexivity|]. exists (Some (k, 0)). split; [intros [_ Hr]; rewrite Hr in Ek; discriminate|].
      intros f c Hf. unfold k_seek, all_at_once. cbn [k_fault k_calls k_noseek]. rewrite Hf. unfold k_tick. cbn. now rewrite En.
    + intros E. assert (same_dest e e') as Hs by (destruct (seek_target _ _ _); apply pair_inj in E; destruct E as [_ <-]; split; reflexivity). split; [exact Hs|]. exists None. split; [reflexivity|].
      intros f c Hf. unfold k_seek, all_at_once. cbn [k_fault k_calls k_noseek k_pos k_data]. rewrite Hf, En.
      destruct (seek_target _ _ _); apply pair_inj in E; destruct E as [<- <-]; unfold k_tick, k_set; cbn; now rewrite ?En.
Qed.
Theorem wrun_at_once {A} b (p : wprog A) : forall d c x d', wrun_raw b p d = (Some x, d') ->
  exists h n, (reliable (e_write d) (e_seek d) -> forall j, h j = None) /\ forall f, same_from c f h -> wrun p (all_at_once d f c) = (x, all_at_once d' f n).
Proof.
  induction p as [a|m k IH|w k IH]; intros d c x d' E; cbn [wrun_raw wrun] in *.
  - injection E as <- <-. exists (fun _ => None), c. split; [reflexivity|]. intros f _. reflexivity.
  - destruct (dest_all b m d) as [[y|] d1] eqn:Ee; [|discriminate]. destruct (dest_at_once _ _ _ _ _ Ee) as ([S1 S2] & o & Ho & Hx).
    destruct (IH y d1 (S c) x d' E) as (h & n & Hh & Hr). exists (fun j => if j =? c then o else h j), n. split.
    + intros R j. destruct (j =? c); [now apply Ho|]. apply Hh. now rewrite S1, S2.
    + intros f Hf. rewrite (Hx f c); [|rewrite (Hf c (le_n c)), Nat.eqb_refl; reflexivity]. apply Hr. intros j Hj. rewrite Hf by lia. replace (j =? c) with false by lia. reflexivity.
  - destruct (dest_seek w d) as [y d1] eqn:Ee. destruct (kseek_at_once _ _ _ _ Ee) as ([S1 S2] & o & Ho & Hx).
    destruct (IH y d1 (S c) x d' E) as (h & n & Hh & Hr). exists (fun j => if j =? c then o else h j), n. split.
    + intros R j. destruct (j =? c); [now apply Ho|]. apply Hh. now rewrite S1, S2.
    + intros f Hf. rewrite (Hx f c); [|rewrite (Hf c (le_n c)), Nat.eqb_refl; reflexivity]. apply Hr. intros j Hj. rewrite Hf by lia. replace (j =? c) with false by lia. reflexivity.
Qed.
Theorem wrun_ends {A} b (p : wprog A) : forall d, patient b (e_write d) -> exists x d', wrun_raw b p d = (Some x, d').
Proof.
  induction p as [a|m k IH|w k IH]; intros d Hp; cbn [wrun_raw].
  - do 2 eexists. reflexivity.
  - pose proof (dest_ends b m d Hp) as H. destruct (dest_all b m d) as [[y|] d1] eqn:Ee; [|now elim H]. apply IH. destruct (dest_at_once _ _ _ _ _ Ee) as ([S1 _] & _). now rewrite S1.
  - destruct (dest_seek w d) as [y d1] eqn:Ee. apply IH. destruct (kseek_at_once _ _ _ _ Ee) as ([S1 _] & _). now rewrite S1.
Qed.
