(** Facts about the container impls. *)
From Coq Require Import Lia ZifyBool ZifyNat ZifyN Permutation.
From Verif Require Import Base Spec Stream Reader Session Writer WSession Prims BitsFacts NFacts MonadFacts ReaderFacts ReaderOps CodecSpec CodecFacts PrimFacts PrimProps Containers ContainerSpec.
Ltac Zify.zify_post_hook ::= Z.div_mod_to_equations.

(** ** The element loop *)

Section Loop.
Context {A : Type} (elem : RM A).

Lemma bb_app r v1 r1 v2 r2 : back_to_back elem r v1 r1 -> back_to_back elem r1 v2 r2 -> back_to_back elem r (v1 ++ v2) r2.
Proof. induction 1; [auto|]. intros H2. cbn [app]. econstructor; [eassumption|auto]. Qed.
Lemma bb_snoc r vs r1 v r2 : back_to_back elem r vs r1 -> elem r1 = (Ok v, r2) -> back_to_back elem r (vs ++ [v]) r2.
Proof. intros H1 H2. eapply bb_app; [exact H1|]. econstructor; [exact H2|constructor]. Qed.
Lemma bb_split r v1 v2 r2 : back_to_back elem r (v1 ++ v2) r2 -> exists r1, back_to_back elem r v1 r1 /\ back_to_back elem r1 v2 r2.
Proof.
  revert r. induction v1 as [|v v1 IH]; intros r H; [exists r; split; [constructor|exact H]|].
  cbn [app] in H. inversion H as [|? ? r1 ? ? E H1]; subst. destruct (IH _ H1) as (r3 & H3 & H4). exists r3. split; [econstructor; eassumption|exact H4].
Qed.
Lemma bb_fun r vs r1 r2 : back_to_back elem r vs r1 -> back_to_back elem r vs r2 -> r1 = r2.
Proof.
  intros H. revert r2. induction H as [r|r v r1 vs r' E H IH]; intros r2 H2.
  - now inversion H2.
  - inversion H2 as [|? ? r3 ? ? E2 H3]; subst. rewrite E in E2. inversion E2; subst. now apply IH.
Qed.
(** Conversely; here [bits_read] must not move back on the way. *)
Lemma vec_loop_run stop r0 : forall more fuel acc r r',
  (forall vs1 vs2 r1, acc ++ more = vs1 ++ vs2 -> back_to_back elem r0 vs1 r1 -> r_bits r0 <= r_bits r1) ->
  back_to_back elem r0 acc r -> back_to_back elem r more r' -> more <> [] -> length more <= fuel ->
  stop (r_bits r' - r_bits r0) (acc ++ more) = true ->
  (forall vs1 vs2 r1, acc ++ more = vs1 ++ vs2 -> vs1 <> [] -> vs2 <> [] -> back_to_back elem r0 vs1 r1 -> stop (r_bits r1 - r_bits r0) vs1 = false) ->
  vec_loop fuel elem stop (r_bits r0) acc r = (Ok (acc ++ more), r').
Proof.
  induction more as [|v more IH]; intros fuel acc r r' Hm0 Hb Hm Hn Hl Hst Hsi; [contradiction|].
  destruct fuel as [|fuel]; [cbn [length] in Hl; lia|]. cbn [vec_loop]. inversion Hm as [|? ? r1 ? ? Er Hm1]; subst.
  rewrite (bind_ok _ _ _ _ _ Er). assert (Hb1 := bb_snoc _ _ _ _ _ Hb Er).
  replace (acc ++ v :: more) with ((acc ++ [v]) ++ more) in * by now rewrite <- app_assoc.
  pose proof (Hm0 (acc ++ [v]) more r1 eq_refl Hb1).
  replace (r_bits r1 <? r_bits r0) with false by lia. destruct more as [|v2 more].
  - inversion Hm1; subst. rewrite app_nil_r in *. rewrite Hst. reflexivity.
  - rewrite (Hsi (acc ++ [v]) (v2 :: more) r1); [|reflexivity|destruct acc; discriminate|discriminate|exact Hb1].
    apply IH; try assumption; [discriminate|cbn [length] in *; lia].
Qed.
Hypothesis Hf : forward elem.
Lemma bb_forward r vs r' : back_to_back elem r vs r' -> r_bits r <= r_bits r'.
Proof. induction 1 as [|r v r1 vs r' E _ IH]; [lia|]. apply Hf in E. lia. Qed.

(** All non-empty prefixes up to and including [acc] did not stop. *)
Definition silent (stop : nat -> list A -> bool) (r0 : reader) (acc : list A) : Prop :=
  forall vs1 vs2 r1, acc = vs1 ++ vs2 -> vs1 <> [] -> back_to_back elem r0 vs1 r1 -> stop (r_bits r1 - r_bits r0) vs1 = false.

Lemma silent_snoc stop r0 acc v r2 : silent stop r0 acc -> back_to_back elem r0 (acc ++ [v]) r2 ->
  stop (r_bits r2 - r_bits r0) (acc ++ [v]) = false -> silent stop r0 (acc ++ [v]).
Proof.
  intros Hs Hb Hn vs1 vs2 r1 E Hne Hb1. destruct vs2 as [|x vs2] using rev_ind.
  - rewrite app_nil_r in E. subst vs1. now rewrite (bb_fun _ _ _ _ Hb1 Hb).
  - rewrite app_assoc in E. apply app_inj_tail in E. destruct E as [E _]. eapply Hs; eassumption.
Qed.

Lemma vec_loop_spec stop r0 : forall fuel acc r x r',
  back_to_back elem r0 acc r -> silent stop r0 acc ->
  vec_loop fuel elem stop (r_bits r0) acc r = (x, r') ->
  match x with
  | Ok vs => exists more, vs = acc ++ more /\ more <> [] /\ back_to_back elem r0 vs r' /\
      stop (r_bits r' - r_bits r0) vs = true /\
      (forall vs1 vs2 r1, vs = vs1 ++ vs2 -> vs1 <> [] -> vs2 <> [] -> back_to_back elem r0 vs1 r1 -> stop (r_bits r1 - r_bits r0) vs1 = false)
  | Err e => exists vs r1, back_to_back elem r0 vs r1 /\ elem r1 = (Err e, r') /\ silent stop r0 vs
  | Panic => exists vs r1, back_to_back elem r0 vs r1 /\ elem r1 = (Panic, r') /\ silent stop r0 vs
  | Diverge => (exists vs r1, back_to_back elem r0 vs r1 /\ elem r1 = (Diverge, r')) \/
      exists more, length more = fuel /\ back_to_back elem r0 (acc ++ more) r' /\ silent stop r0 (acc ++ more)
  end.
Proof.
  induction fuel as [|fuel IH]; intros acc r x r' Hb Hs E.
  - cbn in E. injection E as <- <-. right. exists []. rewrite app_nil_r. auto.
  - cbn [vec_loop] in E. unfold bind in E. destruct (elem r) as [[v|e| |] r1] eqn:Er.
    + assert (Hb1 := bb_snoc _ _ _ _ _ Hb Er). pose proof (bb_forward _ _ _ Hb1) as Hl.
      replace (r_bits r1 <? r_bits r0) with false in E by lia.
      destruct (stop (r_bits r1 - r_bits r0) (acc ++ [v])) eqn:Est.
      * injection E as <- <-. exists [v]. split; [reflexivity|]. split; [discriminate|]. split; [exact Hb1|]. split; [exact Est|].
        intros vs1 vs2 r2 Ev Hn1 Hn2 Hb2. destruct vs2 as [|y vs2 _] using rev_ind; [contradiction|].
        rewrite app_assoc in Ev. apply app_inj_tail in Ev. destruct Ev as [Ev _]. eapply Hs; eassumption.
      * specialize (IH _ _ _ _ Hb1 (silent_snoc _ _ _ _ _ Hs Hb1 Est) E). destruct x as [vs|e| |].
        -- destruct IH as (more & -> & Hn & R). exists (v :: more). rewrite <- app_assoc in *. cbn [app] in *.
           split; [reflexivity|]. split; [discriminate|exact R].
        -- exact IH.
        -- exact IH.
        -- destruct IH as [IH|(more & HL & R)]; [now left|]. right. exists (v :: more). rewrite <- app_assoc in R. split; [cbn [length]; lia|exact R].
    + injection E as <- <-. exists acc, r. auto.
    + injection E as <- <-. exists acc, r. auto.
    + injection E as <- <-. left. exists acc, r. auto.
Qed.

Lemma vec_loop_ok stop r0 more fuel r' :
  back_to_back elem r0 more r' -> more <> [] -> length more <= fuel ->
  stop (r_bits r' - r_bits r0) more = true ->
  (forall vs1 vs2 r1, more = vs1 ++ vs2 -> vs1 <> [] -> vs2 <> [] -> back_to_back elem r0 vs1 r1 -> stop (r_bits r1 - r_bits r0) vs1 = false) ->
  vec_loop fuel elem stop (r_bits r0) [] r0 = (Ok more, r').
Proof. intros H1 H2 H3 H4 H5. apply (vec_loop_run stop r0 more fuel [] r0 r'); try assumption; [|constructor]. intros vs1 vs2 r1 _ Hb. eapply bb_forward; eassumption. Qed.
Lemma vec_loop_err stop r0 e r' : forall more fuel acc r r1,
  back_to_back elem r0 acc r -> back_to_back elem r more r1 -> elem r1 = (Err e, r') -> length more < fuel ->
  silent stop r0 (acc ++ more) ->
  vec_loop fuel elem stop (r_bits r0) acc r = (Err e, r').
Proof.
  induction more as [|v more IH]; intros fuel acc r r1 Hb Hm He Hl Hsi; (destruct fuel as [|fuel]; [lia|]); cbn [vec_loop].
  - inversion Hm; subst. now rewrite (bind_err _ _ _ _ _ He).
  - inversion Hm as [|? ? r2 ? ? Er Hm1]; subst. rewrite (bind_ok _ _ _ _ _ Er). assert (Hb1 := bb_snoc _ _ _ _ _ Hb Er). pose proof (bb_forward _ _ _ Hb1).
    replace (r_bits r2 <? r_bits r0) with false by lia.
    replace (acc ++ v :: more) with ((acc ++ [v]) ++ more) in Hsi by now rewrite <- app_assoc.
    rewrite (Hsi (acc ++ [v]) more r2); [|reflexivity|destruct acc; discriminate|exact Hb1].
    eapply IH; try eassumption. cbn [length] in Hl. lia.
Qed.
End Loop.

(** ** Vec with a limit *)

Lemma vec_loop_ext {A} (elem : RM A) s1 s2 : (forall b l, s1 b l = s2 b l) -> forall fuel start acc r,
  vec_loop fuel elem s1 start acc r = vec_loop fuel elem s2 start acc r.
Proof.
  intros H. induction fuel as [|f IH]; intros start acc r; [reflexivity|]. cbn [vec_loop]. unfold bind.
  destruct (elem r) as [[v|e| |] r1]; try reflexivity. rewrite H. destruct (_ <? _); [reflexivity|]. destruct (s2 _ _); [reflexivity|apply IH].
Qed.
Definition fuel_of {A} (lim : limit A) (fuel : nat) : nat := match lim with LCount n => N.to_nat n | _ => fuel end.
Lemma vec_read_loop {A} fuel size (elem : RM A) lim r : size <> 0%N -> proper_limit size lim ->
  vec_read fuel size elem lim r = vec_loop (fuel_of lim fuel) elem (stop_of lim) (r_bits r) [] r.
Proof.
  intros Hz Hp. destruct lim as [n|p|n|n|]; cbn [proper_limit] in Hp; unfold vec_read, vec_with_predicate, fuel_of;
    (replace (size =? 0)%N with false by lia).
  - replace (n =? 0)%N with false by lia. replace (isize_max <? n * size)%N with false by lia.
    apply vec_loop_ext. reflexivity.
  - apply vec_loop_ext. reflexivity.
  - replace (usize_max <? n * 8)%N with false by lia. replace (n * 8 =? 0)%N with false by lia.
    apply vec_loop_ext. intros b l. cbn [stop_of]. now replace (n * 8)%N with (8 * n)%N by lia.
  - replace (n =? 0)%N with false by lia. apply vec_loop_ext. reflexivity.
  - destruct Hp.
Qed.

Section VecFacts.
Context {A : Type} (elem : RM A) (size : N) (lim : limit A).
Hypotheses (Hf : forward elem) (Hz : size <> 0%N) (Hp : proper_limit size lim).

Theorem vec_ok fuel r vs r' : vec_read fuel size elem lim r = (Ok vs, r') -> first_stop elem (stop_of lim) r vs r'.
Proof.
  rewrite vec_read_loop by assumption. intros E.
  destruct (vec_loop_spec elem Hf (stop_of lim) r _ [] r _ _ (bb_nil _ _) ltac:(intros [|] ? ? E0 Hn; [now destruct Hn|discriminate]) E)
    as (more & -> & Hn & Hb & Hs & Hi). split; [exact Hn|]. split; [exact Hb|]. split; [exact Hs|exact Hi].
Qed.
Lemma count_fuel n r vs r' : first_stop elem (stop_of (LCount n)) r vs r' -> length vs = N.to_nat n.
Proof. intros (_ & _ & H & _). cbn in H. lia. Qed.
Theorem vec_ok_rev fuel r vs r' : length vs <= fuel -> first_stop elem (stop_of lim) r vs r' -> vec_read fuel size elem lim r = (Ok vs, r').
Proof.
  rewrite vec_read_loop by assumption. intros Hl Hs. pose proof Hs as (Hn & Hb & Hst & Hi).
  apply (vec_loop_ok elem Hf); try assumption.
  destruct lim; cbn [fuel_of]; try exact Hl. apply count_fuel in Hs. lia.
Qed.
Theorem vec_err fuel r e r' : vec_read fuel size elem lim r = (Err e, r') -> fails_first elem (stop_of lim) r e r'.
Proof.
  rewrite vec_read_loop by assumption. intros E.
  exact (vec_loop_spec elem Hf (stop_of lim) r _ [] r _ _ (bb_nil _ _) ltac:(intros [|] ? ? E0 Hn; [now destruct Hn|discriminate]) E).
Qed.
Theorem vec_err_rev r e r' : fails_first elem (stop_of lim) r e r' -> exists f0, forall fuel, f0 <= fuel -> vec_read fuel size elem lim r = (Err e, r').
Proof.
  intros (vs & r1 & Hb & He & Hs). exists (S (length vs)). intros fuel Hl. rewrite vec_read_loop by assumption.
  eapply (vec_loop_err elem Hf (stop_of lim) r e r' vs _ [] r r1); try assumption; [constructor|].
  destruct lim as [n|p|n|n|] eqn:El; cbn [fuel_of]; try lia.
  destruct (le_lt_dec (N.to_nat n) (length vs)) as [Hc|Hc]; [exfalso|exact Hc].
  (* the prefix of n elements would have stopped *)
  destruct Hp as [Hn0 _]. pose proof (firstn_skipn (N.to_nat n) vs) as Hv. rewrite <- Hv in Hb.
  destruct (bb_split elem _ _ _ _ Hb) as (r2 & Hb2 & _).
  assert (Hfl : length (firstn (N.to_nat n) vs) = N.to_nat n) by (rewrite firstn_length; lia).
  assert (X := Hs _ _ r2 (eq_sym Hv)). cbn [stop_of] in X. rewrite Hfl in X.
  assert (firstn (N.to_nat n) vs <> []) by (intros E0; rewrite E0 in Hfl; cbn in Hfl; lia). specialize (X H Hb2). lia.
Qed.
Theorem vec_panic fuel r r' : vec_read fuel size elem lim r = (Panic, r') -> exists vs r1, back_to_back elem r vs r1 /\ elem r1 = (Panic, r').
Proof.
  rewrite vec_read_loop by assumption. intros E.
  destruct (vec_loop_spec elem Hf (stop_of lim) r _ [] r _ _ (bb_nil _ _) ltac:(intros [|] ? ? E0 Hn; [now destruct Hn|discriminate]) E) as (vs & r1 & Hb & He & _).
  now exists vs, r1.
Qed.
Lemma bb_consuming r vs r' : consuming elem -> readable AnySource r -> back_to_back elem r vs r' ->
  readable AnySource r' /\ length vs + unread_len (seen r') <= unread_len (seen r).
Proof.
  intros Hc Hr. induction 1 as [|r v r1 vs r' E _ IH]; [split; [exact Hr|cbn; lia]|]. destruct (Hc _ _ _ Hr E) as [Hr1 ?].
  specialize (IH Hr1). destruct IH. split; [assumption|]. cbn [length]. lia.
Qed.
Theorem vec_terminates fuel r : consuming elem -> returns elem -> readable AnySource r -> unread_len (seen r) < fuel -> forall r', vec_read fuel size elem lim r <> (Diverge, r').
Proof.
  intros Hc Hr Ha Hl r'. rewrite vec_read_loop by assumption. intros E.
  destruct (vec_loop_spec elem Hf (stop_of lim) r _ [] r _ _ (bb_nil _ _) ltac:(intros [|] ? ? E0 Hn; [now destruct Hn|discriminate]) E)
    as [(vs & r1 & Hb1 & He)|(more & Hm & Hb & Hs)]; [exact (Hr _ _ (proj1 (bb_consuming _ _ _ Hc Ha Hb1)) He)|]. cbn [app] in *.
  destruct lim as [n|p|n|n|]; cbn [fuel_of] in Hm; try (pose proof (bb_consuming _ _ _ Hc Ha Hb); lia).
  destruct Hp as [Hn0 _]. assert (X := Hs more [] r' (eq_sym (app_nil_r _))). cbn [stop_of] in X.
  assert (more <> []) by (intros ->; cbn in Hm; lia). specialize (X H Hb). lia.
Qed.
End VecFacts.

(** Count, in simple terms. *)
Theorem count_ok {A} (elem : RM A) size n fuel r vs r' : forward elem -> size <> 0%N -> (n * size <= isize_max)%N ->
  vec_read fuel size elem (LCount n) r = (Ok vs, r') <-> back_to_back elem r vs r' /\ N.of_nat (length vs) = n.
Proof.
  intros Hf Hz Hc. destruct (N.eq_dec n 0) as [->|Hn].
  - cbn. unfold ret. split.
    + intros E. injection E as <- <-. split; [constructor|reflexivity].
    + intros [H Hl]. destruct vs; [|cbn in Hl; lia]. now inversion H.
  - assert (Hp : proper_limit size (@LCount A n)) by (split; assumption). split.
    + intros E. destruct (vec_ok elem size (LCount n) Hf Hz Hp _ _ _ _ E) as (_ & Hb & Hs & _). cbn in Hs. split; [exact Hb|lia].
    + intros [Hb Hl].
      assert (HF : vec_read (length vs) size elem (LCount n) r = (Ok vs, r')).
      { apply vec_ok_rev; try assumption; [lia|]. split; [intros ->; cbn in Hl; lia|]. split; [exact Hb|]. split; [cbn; lia|].
        intros vs1 vs2 r1 -> _ Hn2 _. cbn. rewrite app_length in Hl. destruct vs2; [contradiction|]. cbn [length] in Hl. lia. }
      rewrite vec_read_loop in HF |- * by assumption. exact HF.
Qed.
Theorem count_err {A} (elem : RM A) size n fuel r e r' : forward elem -> size <> 0%N -> (n * size <= isize_max)%N ->
  vec_read fuel size elem (LCount n) r = (Err e, r') <->
  exists vs r1, back_to_back elem r vs r1 /\ (N.of_nat (length vs) < n)%N /\ elem r1 = (Err e, r').
Proof.
  intros Hf Hz Hc. destruct (N.eq_dec n 0) as [->|Hn].
  - cbn. split; [discriminate|]. intros (vs & r1 & _ & Hl & _). lia.
  - assert (Hp : proper_limit size (@LCount A n)) by (split; assumption). split.
    + intros E. destruct (vec_err elem size (LCount n) Hf Hz Hp _ _ _ _ E) as (vs & r1 & Hb & He & Hs). exists vs, r1.
      split; [exact Hb|]. split; [|exact He].
      destruct (N.lt_ge_cases (N.of_nat (length vs)) n) as [|Hge]; [assumption|exfalso].
      pose proof (firstn_skipn (N.to_nat n) vs) as Hv. rewrite <- Hv in Hb.
      destruct (bb_split elem _ _ _ _ Hb) as (r2 & Hb2 & _).
      assert (Hfl : length (firstn (N.to_nat n) vs) = N.to_nat n) by (rewrite firstn_length; lia).
      assert (X := Hs _ _ r2 (eq_sym Hv)). cbn [stop_of] in X. rewrite Hfl in X.
      assert (firstn (N.to_nat n) vs <> []) by (intros E0; rewrite E0 in Hfl; cbn in Hfl; lia). specialize (X H Hb2). lia.
    + intros (vs & r1 & Hb & Hl & He).
      assert (HF : fails_first elem (stop_of (LCount n)) r e r').
      { exists vs, r1. split; [exact Hb|]. split; [exact He|]. intros vs1 vs2 r2 -> _ _. cbn. rewrite app_length in Hl. lia. }
      destruct (vec_err_rev elem size (LCount n) Hf Hz Hp r e r' HF) as (f0 & H0). specialize (H0 f0 (le_n _)).
      rewrite vec_read_loop in H0 |- * by assumption. exact H0.
Qed.

(** ** To the end of input *)

Lemma end_loop_ok {A} (elem : RM A) : forall fuel acc r vs r',
  end_loop fuel elem acc r = (Ok vs, r') -> exists more, vs = acc ++ more /\ until_end elem r more r'.
Proof.
  induction fuel as [|fuel IH]; intros acc r vs r' E; [discriminate|]. cbn [end_loop] in E. destruct (r_end r) as [e r1] eqn:Ee. destruct e.
  - injection E as <- <-. exists []. rewrite app_nil_r. split; [reflexivity|now constructor].
  - unfold bind in E. destruct (elem r1) as [[v|e| |] r2] eqn:Er; try discriminate.
    destruct (IH _ _ _ _ E) as (more & -> & H). exists (v :: more). rewrite <- app_assoc. split; [reflexivity|]. econstructor; eassumption.
Qed.
Lemma end_loop_ok_rev {A} (elem : RM A) r more r' : until_end elem r more r' -> forall fuel acc, length more < fuel ->
  end_loop fuel elem acc r = (Ok (acc ++ more), r').
Proof.
  induction 1 as [r r' E|r r0 v r1 vs r' E Er _ IH]; intros fuel acc Hl; (destruct fuel; [lia|]); cbn [end_loop]; rewrite E.
  - now rewrite app_nil_r.
  - rewrite (bind_ok _ _ _ _ _ Er), IH by (cbn [length] in Hl; lia). now rewrite <- app_assoc.
Qed.
Theorem vec_end_ok {A} (elem : RM A) size fuel r vs r' : size <> 0%N -> vec_read fuel size elem LEnd r = (Ok vs, r') -> until_end elem r vs r'.
Proof.
  intros Hz. unfold vec_read, vec_to_end. replace (size =? 0)%N with false by lia. intros E.
  destruct (end_loop_ok elem _ _ _ _ _ E) as (more & -> & H). exact H.
Qed.
Theorem vec_end_ok_rev {A} (elem : RM A) size fuel r vs r' : size <> 0%N -> until_end elem r vs r' -> length vs < fuel ->
  vec_read fuel size elem LEnd r = (Ok vs, r').
Proof.
  intros Hz H Hl. unfold vec_read, vec_to_end. replace (size =? 0)%N with false by lia.
  now rewrite (end_loop_ok_rev elem _ _ _ H fuel []).
Qed.
Lemma end_readable r : readable AnySource r -> exists r', r_end r = (unread_len (seen r) =? 0, r') /\ readable AnySource r' /\
  (forall o, unread_string o (seen r') = unread_string o (seen r)) /\ r_bits r' = r_bits r.
Proof.
  intros Hr. destruct (readable_base _ _ Hr) as [Hw Hq]. destruct (r_end_spec r Hw Hq) as (r' & E & Ad & Hu).
  exists r'. rewrite seen_unread_len. split; [exact E|]. split.
  - split; [|split; [apply (adv_wf _ _ _ Ad)|exact I]]. exact (adv_quiet _ _ _ Ad Hq).
  - split; [intros o; now rewrite !seen_unread, Hu|]. rewrite (adv_bits _ _ _ Ad). lia.
Qed.

(** ** Lists of lawful elements *)

Section Lists.
Context {A : Type} (src : source) (o : order) (rd : RM A).
Definition reads_all (l : list A) (encs : list (list bool)) : Prop := Forall2 (fun v e => reads src o rd e v) l encs.

Lemma reads_bb l encs : reads_all l encs -> forall r rest, readable src r -> unread_string o (seen r) = concat encs ++ rest ->
  exists r', back_to_back rd r l r' /\ readable src r' /\ unread_string o (seen r') = rest /\
    r_bits r' = r_bits r + length (concat encs) /\ s_data (r_s r') = s_data (r_s r) /\ s_pos (r_s r) <= s_pos (r_s r').
Proof.
  induction 1 as [|v e l encs Hv _ IH]; intros r rest Hr Hu.
  - exists r. cbn in *. repeat split; try assumption; try constructor; lia || (destruct Hr as (?&?&?); assumption).
  - cbn [concat] in Hu. rewrite <- app_assoc in Hu. destruct (Hv r _ Hr Hu) as (r1 & E1 & R1 & U1 & B1 & D1 & P1).
    destruct (IH r1 rest R1 U1) as (r' & Hb & R' & U' & B' & D' & P').
    exists r'. split; [econstructor; eassumption|]. split; [exact R'|]. split; [exact U'|]. cbn [concat]. rewrite app_length. repeat split; try congruence; lia.
Qed.
Lemma reads_array l encs : reads_all l encs -> reads src o (read_array (length l) rd) (concat encs) l.
Proof.
  induction 1 as [|v e l encs Hv _ IH]; [apply reads_ret|]. cbn [length read_array concat].
  eapply reads_bind; [exact Hv|]. rewrite <- (app_nil_r (concat encs)). eapply reads_bind; [exact IH|apply reads_ret].
Qed.
(** When a limit is reached exactly at the end of [l]. *)
Definition stops_at (lim : limit A) (l : list A) (encs : list (list bool)) : Prop :=
  l <> [] /\ stop_of lim (length (concat encs)) l = true /\
  forall k, 0 < k < length l -> stop_of lim (length (concat (firstn k encs))) (firstn k l) = false.
Lemma reads_all_length l encs : reads_all l encs -> length l = length encs.
Proof. induction 1; cbn [length]; congruence. Qed.
Lemma reads_all_firstn k l encs : reads_all l encs -> reads_all (firstn k l) (firstn k encs).
Proof. intros H. revert k. induction H; intros [|k]; constructor; auto. apply IHForall2. Qed.
Lemma concat_firstn_skipn k (encs : list (list bool)) : concat encs = concat (firstn k encs) ++ concat (skipn k encs).
Proof. rewrite <- concat_app, firstn_skipn. reflexivity. Qed.
Lemma reads_vec size lim l encs fuel : size <> 0%N -> proper_limit size lim -> length l <= fuel ->
  reads_all l encs -> stops_at lim l encs ->
  reads src o (vec_read fuel size rd lim) (concat encs) l.
Proof.
  intros Hz Hp Hl HR (Hn & Hs & Hi) r rest Hr Hu.
  destruct (reads_bb l encs HR r rest Hr Hu) as (r' & Hb & R' & U' & B' & D' & P').
  exists r'. split; [|repeat split; try assumption; apply R'].
  assert (Hpre : forall vs1 vs2 r1, l = vs1 ++ vs2 -> back_to_back rd r vs1 r1 ->
    r_bits r1 = r_bits r + length (concat (firstn (length vs1) encs)) /\ vs1 = firstn (length vs1) l).
  { intros vs1 vs2 r1 El Hb1.
    assert (E1 : vs1 = firstn (length vs1) l) by (rewrite El; symmetry; apply firstn_length_app).
    pose proof (reads_all_firstn (length vs1) l encs HR) as HR1. rewrite <- E1 in HR1.
    destruct (reads_bb _ _ HR1 r (concat (skipn (length vs1) encs) ++ rest) Hr) as (r2 & Hb2 & _ & _ & B2 & _).
    { rewrite app_assoc, <- concat_firstn_skipn. exact Hu. }
    rewrite (bb_fun rd _ _ _ _ Hb1 Hb2). split; [exact B2|exact E1]. }
  rewrite vec_read_loop by assumption.
  apply (vec_loop_run rd (stop_of lim) r l _ [] r r'); try assumption; cbn [app].
  - intros vs1 vs2 r1 El Hb1. destruct (Hpre _ _ _ El Hb1) as [Hx _]. lia.
  - constructor.
  - destruct lim; cbn [fuel_of]; try exact Hl. cbn in Hs. lia.
  - rewrite B'. replace (r_bits r + length (concat encs) - r_bits r) with (length (concat encs)) by lia. exact Hs.
  - intros vs1 vs2 r1 El Hn1 Hn2 Hb1. destruct (Hpre _ _ _ El Hb1) as [Hx Hy]. rewrite Hx, Hy.
    replace (length (firstn (length vs1) l)) with (length vs1) by now rewrite <- Hy.
    replace (r_bits r + _ - r_bits r) with (length (concat (firstn (length vs1) encs))) by lia. apply Hi.
    rewrite El, app_length. destruct vs1; [contradiction|]. destruct vs2; [contradiction|]. cbn [length]. lia.
Qed.
Lemma reads_count size n l encs fuel : size <> 0%N -> (n * size <= isize_max)%N -> N.of_nat (length l) = n ->
  reads_all l encs -> reads src o (vec_read fuel size rd (LCount n)) (concat encs) l.
Proof.
  intros Hz Hc Hl HR. destruct l as [|v l].
  - inversion HR; subst. cbn. apply reads_ret.
  - assert (HX : reads src o (vec_read (length (v :: l)) size rd (LCount n)) (concat encs) (v :: l)).
    { apply reads_vec; try assumption.
      - split; [cbn [length] in Hl; lia|exact Hc].
      - lia.
      - split; [discriminate|]. split; [cbn [stop_of]; lia|]. intros k Hk. cbn [stop_of]. rewrite firstn_length. lia. }
    intros r rest Hr Hu. destruct (HX r rest Hr Hu) as (r' & E & R). exists r'. split; [|exact R]. exact E.
Qed.
End Lists.

Theorem reads_to_end {A} o (rd : RM A) size l encs fuel : size <> 0%N -> length l < fuel ->
  reads_all AnySource o rd l encs -> Forall (fun e => e <> []) encs ->
  forall r, readable AnySource r -> unread_string o (seen r) = concat encs ->
  exists r', vec_read fuel size rd LEnd r = (Ok l, r') /\ readable AnySource r' /\ unread_len (seen r') = 0 /\
    r_bits r' = r_bits r + length (concat encs).
Proof.
  intros Hz Hl HR Hne r Hr Hu.
  assert (HX : exists r', until_end rd r l r' /\ readable AnySource r' /\ unread_len (seen r') = 0 /\ r_bits r' = r_bits r + length (concat encs)).
  { clear Hl Hz. revert r Hr Hu. induction HR as [|v e l encs Hv _ IH]; intros r Hr Hu; destruct (end_readable r Hr) as (r1 & E & R1 & U1 & B1).
    - assert (HL : unread_len (seen r) = 0) by (rewrite <- (ReaderFacts.unread_string_length o), Hu; reflexivity).
      exists r1. rewrite HL in E. split; [now constructor|]. split; [exact R1|].
      split; [rewrite <- (ReaderFacts.unread_string_length o), U1, Hu; reflexivity|cbn; lia].
    - inversion Hne as [|? ? He Hne1]; subst. cbn [concat] in *.
      assert (HL : (unread_len (seen r) =? 0) = false).
      { rewrite <- (ReaderFacts.unread_string_length o), Hu, app_length. destruct e; [contradiction|]. reflexivity. }
      rewrite HL in E. rewrite <- (U1 o) in Hu. destruct (Hv r1 _ R1 Hu) as (r2 & E2 & R2 & U2 & B2 & _).
      destruct (IH Hne1 r2 R2 U2) as (r' & H & R' & U' & B'). exists r'. split; [econstructor; eassumption|].
      split; [exact R'|]. split; [exact U'|]. rewrite app_length. lia. }
  destruct HX as (r' & H & R). exists r'. split; [now apply vec_end_ok_rev|exact R].
Qed.

Lemma emits_list {A} (aligned : bool) o (wr : A -> WM unit) l encs :
  Forall2 (fun v e => (aligned = true -> length e mod 8 = 0) /\ forall a, (aligned = true -> a = 0) -> emits o a (wr v) e) l encs ->
  forall a, (aligned = true -> a = 0) -> emits o a (write_list wr l) (concat encs).
Proof.
  induction 1 as [|v e l encs [Hm Hv] _ IH]; intros a Ha; [apply emits_ret|]. cbn [write_list concat].
  apply emits_bind; [now apply Hv|]. apply IH. intros ->. rewrite Ha by reflexivity. now apply Hm.
Qed.
Lemma concat_aligned (aligned : bool) (encs : list (list bool)) : Forall (fun e => aligned = true -> length e mod 8 = 0) encs ->
  aligned = true -> length (concat encs) mod 8 = 0.
Proof.
  intros H ->. induction H as [|e encs He _ IH]; [reflexivity|]. cbn [concat]. rewrite app_length. specialize (He eq_refl). lia.
Qed.
Lemma lawful_parts {A} al src o (rd : RM A) wr l encs : lawful_list al src o rd wr l encs ->
  reads_all src o rd l encs /\
  Forall2 (fun v e => (al = true -> length e mod 8 = 0) /\ forall a, (al = true -> a = 0) -> emits o a (wr v) e) l encs /\
  Forall (fun e => al = true -> length e mod 8 = 0) encs.
Proof.
  intros H. induction H as [|v e l encs [H1 H2 H3] _ (I1 & I2 & I3)]; [repeat constructor|].
  split; [constructor; assumption|]. split; constructor; auto.
Qed.
Theorem lawful_vec {A} al src o (rd : RM A) wr size n l encs fuel : size <> 0%N -> (n * size <= isize_max)%N -> N.of_nat (length l) = n ->
  lawful_list al src o rd wr l encs -> lawful al src o (vec_read fuel size rd (LCount n)) (write_list wr) l (concat encs).
Proof.
  intros Hz Hc Hl H. destruct (lawful_parts _ _ _ _ _ _ _ H) as (H1 & H2 & H3). split.
  - now apply concat_aligned.
  - now apply emits_list.
  - now apply reads_count.
Qed.
Theorem lawful_vec_limit {A} al src o (rd : RM A) wr size lim l encs fuel : size <> 0%N -> proper_limit size lim -> length l <= fuel ->
  stops_at lim l encs ->
  lawful_list al src o rd wr l encs -> lawful al src o (vec_read fuel size rd lim) (write_list wr) l (concat encs).
Proof.
  intros Hz Hc Hl Hs H. destruct (lawful_parts _ _ _ _ _ _ _ H) as (H1 & H2 & H3). split.
  - now apply concat_aligned.
  - now apply emits_list.
  - now apply reads_vec.
Qed.
Theorem lawful_array {A} al src o (rd : RM A) wr l encs :
  lawful_list al src o rd wr l encs -> lawful al src o (read_array (length l) rd) (write_list wr) l (concat encs).
Proof.
  intros H. destruct (lawful_parts _ _ _ _ _ _ _ H) as (H1 & H2 & H3). split.
  - now apply concat_aligned.
  - now apply emits_list.
  - now apply reads_array.
Qed.
Theorem lawful_pair {A B} al src o (r1 : RM A) (w1 : A -> WM unit) (r2 : RM B) w2 a b e1 e2 :
  lawful al src o r1 w1 a e1 -> lawful al src o r2 w2 b e2 ->
  lawful al src o (read_pair r1 r2) (write_pair w1 w2) (a, b) (e1 ++ e2).
Proof.
  intros [L1 W1 R1] [L2 W2 R2]. split.
  - intros ->. rewrite app_length. specialize (L1 eq_refl). specialize (L2 eq_refl). lia.
  - intros x Hx. unfold write_pair. cbn [fst snd]. apply emits_bind; [now apply W1|]. apply W2. intros ->. rewrite Hx by reflexivity. now apply L1.
  - unfold read_pair. eapply reads_bind; [exact R1|]. rewrite <- (app_nil_r e2). eapply reads_bind; [exact R2|apply reads_ret].
Qed.
Theorem lawful_unit al src o : lawful al src o read_unit write_unit tt [].
Proof. split; intros; [reflexivity|apply emits_ret|apply reads_ret]. Qed.
Theorem lawful_option {A} al src o (rd : RM A) wr v e : lawful al src o rd wr v e ->
  lawful al src o (read_option rd) (write_option wr) (Some v) e.
Proof. intros [L W R]. split; [exact L|exact W|]. exact (reads_map src o rd Some e v R). Qed.

Theorem end_terminates {A} (elem : RM A) size fuel r : consuming elem -> returns elem -> readable AnySource r -> unread_len (seen r) < fuel ->
  forall r', vec_read fuel size elem LEnd r <> (Diverge, r').
Proof.
  intros Hc Hr. unfold vec_read, vec_to_end. destruct (size =? 0)%N; [discriminate|]. generalize (@nil A) as acc. revert r.
  induction fuel as [|fuel IH]; intros r acc Ha Hl r' E; [lia|]. cbn [end_loop] in E.
  destruct (end_readable r Ha) as (r1 & Ee & Ha1 & Hu & _). rewrite Ee in E. destruct (unread_len (seen r) =? 0); [discriminate|].
  unfold bind in E. destruct (elem r1) as [[v|e| |] r2] eqn:Er; try discriminate; [|exact (Hr _ _ Ha1 Er)].
  destruct (Hc _ _ _ Ha1 Er) as [Ha2 Hlt]. refine (IH r2 _ Ha2 _ _ E).
  rewrite <- (ReaderFacts.unread_string_length Msb0 (seen r)), <- Hu, ReaderFacts.unread_string_length in Hl. lia.
Qed.
