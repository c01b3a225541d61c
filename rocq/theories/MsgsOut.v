(** Values written one after another: C60. *)
From Coq Require Import Lia ZifyBool ZifyNat ZifyN.
From Verif Require Import Base Spec Stream Reader Writer BitsFacts NFacts ReaderFacts MonadFacts WSession WriterFacts WriterProps SinkSim
  Prims CodecSpec CodecFacts Containers Derive DeriveSpec DeriveFacts DeriveSound DeriveClosed DeriveProps StreamProps MsgSpec Msgs.
Ltac Zify.zify_post_hook ::= Z.div_mod_to_equations.

Lemma overlay_length d p a : p + length a <= length d -> length (overlay d p a) = length d.
Proof.
  intros H. destruct a as [|x a]; [now rewrite overlay_nil|]. rewrite overlay_cons by discriminate.
  rewrite !app_length, firstn_length, repeat_length, skipn_length. lia.
Qed.
(** The second sink has the contents of the first over [base] at [p]; if it is fixed,
    there was room. *)
Definition at_rel (fixed : bool) (base : list byte) (p : nat) (k1 k2 : sink) : Prop :=
  accepting k1 /\ k_pos k1 = length (k_data k1) /\ k_fixed k2 = fixed /\ (forall j, k_fault k2 j = None) /\
  k_data k2 = overlay base p (k_data k1) /\ k_pos k2 = p + length (k_data k1) /\ (fixed = true -> p + length (k_data k1) <= length base).
Definition at_gone (fixed : bool) (base : list byte) (p : nat) (k1 k2 : sink) : Prop :=
  accepting k1 /\ k_pos k1 = length (k_data k1) /\ fixed = true /\ k_data k2 = overlay base p (firstn (length base - p) (k_data k1)) /\ length base < p + length (k_data k1).
Lemma at_write fixed base p bs k1 k2 : at_rel fixed base p k1 k2 ->
  (fst (k_write_all bs k1) = fst (k_write_all bs k2) /\ at_rel fixed base p (snd (k_write_all bs k1)) (snd (k_write_all bs k2))) \/
  (fst (k_write_all bs k2) = IoErr WriteZero /\ at_gone fixed base p (snd (k_write_all bs k1)) (snd (k_write_all bs k2))).
Proof.
  intros (Ha & Hp & Hf2 & Hq2 & Hd2 & Hp2 & Hl). destruct (k_write_all_ok bs k1 Ha) as (k1' & E1 & Em). rewrite E1. cbn [fst snd].
  pose proof (emitted_accepting _ _ _ Em Ha) as Ha'. destruct Em as [Ed Ep _ _ _]. rewrite Hp, overlay_end in Ed. rewrite Hp in Ep.
  assert (Hpe : k_pos k1' = length (k_data k1')) by (rewrite Ed, app_length; exact Ep).
  unfold k_write_all. rewrite Hq2, Hf2. destruct fixed; cbn [andb].
  - specialize (Hl eq_refl). assert (L2 : length (k_data k2) = length base) by (rewrite Hd2; now apply overlay_length). rewrite L2, Hp2.
    destruct (Nat.ltb_spec (length base - (p + length (k_data k1))) (length bs)) as [Hlt|Hge]; cbn [fst snd].
    + right. split; [reflexivity|]. split; [exact Ha'|]. split; [exact Hpe|]. split; [reflexivity|]. cbn [k_store k_tick k_set k_data k_pos k_fixed].
      rewrite Hp2, Hd2, Ed, overlay_app, app_length. split; [|lia]. f_equal. rewrite firstn_app. rewrite (firstn_all2 (k_data k1)) by lia. do 2 f_equal. lia.
    + left. split; [reflexivity|]. split; [exact Ha'|]. split; [exact Hpe|]. cbn [k_store k_tick k_set k_virt k_data k_pos k_fixed k_fault].
      split; [exact Hf2|]. split; [exact Hq2|]. rewrite Hp2, Hd2, Ed, overlay_app, app_length. split; [reflexivity|]. split; lia.
  - left. split; [reflexivity|]. split; [exact Ha'|]. split; [exact Hpe|]. cbn [fst snd k_store k_tick k_set k_virt k_data k_pos k_fixed k_fault].
    split; [exact Hf2|]. split; [exact Hq2|]. rewrite Hp2, Hd2, Ed, overlay_app, app_length. split; [reflexivity|]. split; [lia|discriminate].
Qed.
Lemma at_gone_write fixed base p bs k1 k2 : at_gone fixed base p k1 k2 -> at_gone fixed base p (snd (k_write_all bs k1)) k2.
Proof.
  intros (Ha & Hp & Hf & Hd2 & Hl). destruct (k_write_all_ok bs k1 Ha) as (k1' & E1 & Em). rewrite E1. cbn [snd].
  pose proof (emitted_accepting _ _ _ Em Ha) as Ha'. destruct Em as [Ed Ep _ _ _]. rewrite Hp, overlay_end in Ed. rewrite Hp in Ep.
  split; [exact Ha'|]. rewrite Ed, app_length. split; [exact Ep|]. split; [exact Hf|]. split; [|lia]. rewrite firstn_app.
  replace (length base - p - length (k_data k1)) with 0 by lia. cbn [firstn]. now rewrite app_nil_r.
Qed.
Theorem send_at cu t v k : writes_in_order cu t -> (forall j, k_fault k j = None) -> (k_fixed k = true -> k_pos k <= length (k_data k)) ->
  match to_bytes cu t v with
  | Ok bytes =>
      if k_fixed k && (length (k_data k) - k_pos k <? length bytes)
      then exists k', send cu t v k = (Err (Io WriteZero), k') /\ k_data k' = overlay (k_data k) (k_pos k) (firstn (length (k_data k) - k_pos k) bytes)
      else exists k', send cu t v k = (Ok tt, k') /\ stored_at (k_pos k) bytes k k'
  | x => fst (send cu t v k) = res_map x (fun _ => tt) \/ k_fixed k = true /\ fst (send cu t v k) = Err (Io WriteZero)
  end.
Proof.
  intros H Hq Hr. unfold to_bytes, to_bytes_with, send.
  set (fx := k_fixed k) in *. set (base := k_data k) in *. set (p := k_pos k) in *.
  assert (HS : sim (at_rel fx base p) (at_gone fx base p) (fun _ => WriteZero) (let* _ := write_ty cu t [] v in finalize)).
  { apply sim_bind; [apply derived_sim; [intros; now apply at_write|intros; now apply at_gone_write|exact H]|]. intros _. apply sim_finalize; [intros; now apply at_write|intros; now apply at_gone_write]. }
  destruct HS as [HS _]. specialize (HS (writer_new vec_sink) (writer_new k)).
  destruct ((let* _ := write_ty cu t [] v in finalize) (writer_new vec_sink)) as [x1 w1], ((let* _ := write_ty cu t [] v in finalize) (writer_new k)) as [x2 w2].
  cbn [fst snd] in *. destruct HS as [[<- (HR & _ & _ & _)]|[-> HG]].
  { repeat split; auto; cbn; rewrite ?overlay_nil; try lia. }
  - destruct HR as (_ & _ & Hf2 & Hq2 & Hd2 & Hp2 & Hl). destruct x1 as [[]| | |]; cbn [res_map fst]; auto.
    replace (fx && _) with false; [|destruct fx; [specialize (Hl eq_refl)|reflexivity]; cbn [andb]; lia].
    exists (w_k w2). split; [reflexivity|]. repeat split; auto.
  - destruct HG as (_ & _ & Hf & Hd2 & Hl). destruct x1 as [[]| | |]; cbn [res_map fst]; auto.
    rewrite Hf. cbn [andb]. replace (_ <? _) with true by lia. exists (w_k w2). auto.
Qed.
Theorem sends_at cu t : writes_in_order cu t -> forall vs bs, Forall2 (fun v b => to_bytes cu t v = Ok b) vs bs ->
  forall k, (forall j, k_fault k j = None) -> k_fixed k = false \/ k_pos k + length (concat bs) <= length (k_data k) ->
  exists k', sends cu t k vs k' /\ stored_at (k_pos k) (concat bs) k k'.
Proof.
  intros H vs bs F. induction F as [|v b vs bs E F IH]; intros k Hq Hr.
  - exists k. split; [constructor|]. repeat split; auto; cbn [concat length]; rewrite ?overlay_nil; auto; lia.
  - cbn [concat] in *. rewrite app_length in Hr. pose proof (send_at cu t v k H Hq ltac:(intros X; destruct Hr; [congruence|lia])) as K. rewrite E in K.
    replace (k_fixed k && _) with false in K by (destruct Hr as [->|Hr]; [reflexivity|]; destruct (k_fixed k); cbn [andb]; lia).
    destruct K as (k1 & E1 & (D1 & P1 & F1 & Q1)).
    assert (R1 : k_fixed k1 = false \/ k_pos k1 + length (concat bs) <= length (k_data k1)).
    { destruct Hr as [Hr|Hr]; [left; congruence|right]. rewrite D1, P1, overlay_length by lia. lia. }
    destruct (IH k1 Q1 R1) as (k' & M & (D2 & P2 & F2 & Q2)). exists k'. split; [econstructor; eassumption|].
    rewrite D1, P1, overlay_app in D2. repeat split; try congruence; try assumption. rewrite P2, P1, app_length. lia.
Qed.
(** Written to a sink, read from a source with its bytes. *)
Theorem file_round_trip cu ce fuel o t : customs_lawful SeekSource o cu ce -> writes_in_order cu t -> in_place False cu t -> reads_in_order True False True cu t ->
  forall vs, Forall (fun v => exists enc, encode SeekSource o ce t None [] 0 v = Some enc /\ length enc <= fuel) vs ->
  forall k, k_fixed k = false -> (forall j, k_fault k j = None) -> k_pos k <= length (k_data k) ->
  exists k', sends cu t k vs k' /\
  forall s, s_data s = k_data k' -> s_pos s = k_pos k -> (forall j, s_fault s j = None) -> s_noseek s = None ->
  exists l s', messages cu fuel t s l s' /\ map snd l = vs /\ s_pos s' = k_pos k'.
Proof.
  intros Hcu Hw H1 H2 vs F k Hf Hq Hp.
  assert (B : exists bs, Forall2 (fun v b => to_bytes cu t v = Ok b /\ exists enc, encode SeekSource o ce t None [] 0 v = Some enc /\ length enc <= fuel) vs bs).
  { induction F as [|v vs (enc & He & Hl) F IH]; [now exists []|]. destruct IH as (bs & IH).
    destruct (round_trip cu fuel o ce t v enc Hcu He Hl) as (b & pad & E & _). exists (b :: bs). constructor; [eauto|exact IH]. }
  destruct B as (bs & B). destruct (sends_at cu t Hw vs bs) with (k := k) as (k' & M & (D & P & _ & _)); [|exact Hq|now left|].
  { clear - B. induction B; constructor; tauto. }
  exists k'. split; [exact M|]. intros s Hd Hs Hsq Hsn.
  destruct (sent_received cu ce fuel o t Hcu H1 H2 vs bs B s (firstn (k_pos k) (k_data k)) (skipn (k_pos k + length (concat bs)) (k_data k))) as (l & s' & M' & E' & (_ & P' & _)); auto.
  - rewrite Hd, D. destruct (concat bs) as [|b0 tl] eqn:C.
    + rewrite overlay_nil. cbn [length app]. rewrite Nat.add_0_r. now rewrite firstn_skipn.
    + rewrite overlay_cons by discriminate. replace (k_pos k - length (k_data k)) with 0 by lia. reflexivity.
  - rewrite firstn_length. lia.
  - exists l, s'. split; [exact M'|]. split; [exact E'|]. rewrite P', P, firstn_length. lia.
Qed.
