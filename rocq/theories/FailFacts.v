(** Writing to a sink that fails: C77. *)
From Coq Require Import Lia ZifyBool ZifyNat ZifyN.
From Verif Require Import Base Spec Stream Reader Writer BitsFacts NFacts ReaderFacts MonadFacts WSession WriterFacts WriterProps SinkSim
  Prims CodecSpec CodecFacts Containers Derive DeriveSpec DeriveFacts DeriveSound DeriveClosed DeriveProps StreamProps MsgSpec Msgs MsgsOut FailSpec.
Ltac Zify.zify_post_hook ::= Z.div_mod_to_equations.

Section Sink.
Variable k : sink.
Let fixed := k_fixed k. Let base := k_data k. Let p := k_pos k.
Definition shown (k2 : sink) : iokind := match k_fault k2 (pred (k_calls k2)) with Some (e, _) => e | None => WriteZero end.
Definition fs_rel (k1 k2 : sink) : Prop :=
  accepting k1 /\ k_pos k1 = length (k_data k1) /\ k_fixed k2 = fixed /\ k_fault k2 = k_fault k /\ k_calls k <= k_calls k2 /\ all_calls_succeeded k k2 /\
  k_data k2 = overlay base p (k_data k1) /\ k_pos k2 = p + length (k_data k1) /\ (fixed = true -> p + length (k_data k1) <= length base).
Definition fs_gone (k1 k2 : sink) : Prop :=
  accepting k1 /\ k_pos k1 = length (k_data k1) /\ k_fault k2 = k_fault k /\
  (exists n, n <= length (k_data k1) /\ k_data k2 = overlay base p (firstn n (k_data k1)) /\
     (last_call_failed k k2 (shown k2) \/ (fixed = true /\ all_calls_succeeded k k2 /\ shown k2 = WriteZero /\ n = length base - p /\ length base < p + length (k_data k1)))).
Lemma fs_write bs k1 k2 : fs_rel k1 k2 ->
  (fst (k_write_all bs k1) = fst (k_write_all bs k2) /\ fs_rel (snd (k_write_all bs k1)) (snd (k_write_all bs k2))) \/
  (fst (k_write_all bs k2) = IoErr (shown (snd (k_write_all bs k2))) /\ fs_gone (snd (k_write_all bs k1)) (snd (k_write_all bs k2))).
Proof.
  intros (Ha & Hp & Hf2 & Hq2 & Hc & Hs & Hd2 & Hp2 & Hl). destruct (k_write_all_ok bs k1 Ha) as (k1' & E1 & Em). rewrite E1. cbn [fst snd].
  pose proof (emitted_accepting _ _ _ Em Ha) as Ha'. destruct Em as [Ed Ep _ _ _]. rewrite Hp, overlay_end in Ed. rewrite Hp in Ep.
  assert (Hpe : k_pos k1' = length (k_data k1')) by (rewrite Ed, app_length; exact Ep).
  assert (L2 : fixed = true -> length (k_data k2) = length base) by (intros F; rewrite Hd2; apply overlay_length; auto).
  unfold k_write_all. rewrite Hf2. destruct (k_fault k2 (k_calls k2)) as [[e n]|] eqn:Ff.
  - right. unfold shown. cbn [fst snd k_store k_tick k_set k_data k_pos k_fixed k_fault k_calls pred]. rewrite Ff. split; [reflexivity|].
    split; [exact Ha'|]. split; [exact Hpe|]. cbn [k_store k_tick k_set k_data k_pos k_fixed k_fault k_calls]. split; [exact Hq2|].
    set (n' := if fixed then Nat.min n (length (k_data k2) - k_pos k2) else n).
    exists (length (k_data k1) + Nat.min n' (length bs)). rewrite Ed, app_length. split; [lia|]. split.
    + rewrite Hd2, Hp2, overlay_app. f_equal. rewrite firstn_app, (firstn_all2 (k_data k1)) by lia.
      replace (length (k_data k1) + Nat.min n' (length bs) - length (k_data k1)) with (Nat.min n' (length bs)) by lia. f_equal.
      destruct (Nat.le_ge_cases n' (length bs)); [now rewrite Nat.min_l|]. rewrite Nat.min_r by assumption. now rewrite !firstn_all2 by lia.
    + left. unfold shown. cbn [k_store k_tick k_set k_data k_pos k_fixed k_fault k_calls pred]. rewrite Ff. exists (k_calls k2), n.
      split; [exact Hc|]. split; [reflexivity|]. split; [rewrite <- Hq2; exact Ff|]. exact Hs.
  - assert (Hs' : forall k', k_calls k' = S (k_calls k2) -> all_calls_succeeded k k').
    { intros k' E j Hj. destruct (Nat.eq_dec j (k_calls k2)) as [->|N]; [rewrite <- Hq2; exact Ff|]. apply Hs. lia. }
    destruct (fixed && (length (k_data k2) - k_pos k2 <? length bs)) eqn:X.
    + apply andb_true_iff in X. destruct X as [Hfx X]. specialize (Hl Hfx). specialize (L2 Hfx). rewrite L2, Hp2 in X.
      right. unfold shown. cbn [fst snd k_store k_tick k_set k_data k_pos k_fixed k_fault k_calls pred]. rewrite Ff. split; [reflexivity|].
      split; [exact Ha'|]. split; [exact Hpe|]. cbn [k_store k_tick k_set k_data k_pos k_fixed k_fault k_calls]. split; [exact Hq2|].
      exists (length base - p). rewrite Ed, app_length. split; [lia|]. rewrite L2, Hp2, Hd2, overlay_app. split.
      * f_equal. rewrite firstn_app. rewrite (firstn_all2 (k_data k1)) by lia. do 2 f_equal. lia.
      * right. split; [exact Hfx|]. split; [now apply Hs'|]. unfold shown. cbn [k_store k_set k_tick k_fault k_calls pred]. rewrite Ff. repeat split; lia.
    + left. split; [reflexivity|]. split; [exact Ha'|]. split; [exact Hpe|]. cbn [fst snd k_store k_tick k_set k_virt k_data k_pos k_fixed k_fault k_calls].
      split; [exact Hf2|]. split; [exact Hq2|]. split; [lia|]. split; [now apply Hs'|]. rewrite Hp2, Hd2, Ed, overlay_app, app_length. split; [reflexivity|].
      split; [lia|]. intros Hfx. specialize (Hl Hfx). specialize (L2 Hfx). rewrite Hfx, L2, Hp2 in X. cbn [andb] in X. lia.
Qed.
Lemma fs_gone_write bs k1 k2 : fs_gone k1 k2 -> fs_gone (snd (k_write_all bs k1)) k2.
Proof.
  intros (Ha & Hp & Hq & n & Hn & Hd & Hc). destruct (k_write_all_ok bs k1 Ha) as (k1' & E1 & Em). rewrite E1. cbn [snd].
  pose proof (emitted_accepting _ _ _ Em Ha) as Ha'. destruct Em as [Ed Ep _ _ _]. rewrite Hp, overlay_end in Ed. rewrite Hp in Ep.
  split; [exact Ha'|]. rewrite Ed, app_length. split; [exact Ep|]. split; [exact Hq|]. exists n. split; [lia|]. split.
  - rewrite firstn_app. replace (n - length (k_data k1)) with 0 by lia. cbn [firstn]. now rewrite app_nil_r.
  - destruct Hc as [Hc|(A & B & C & D & E)]; [now left|right]. repeat split; auto. lia.
Qed.
Theorem send_any cu t v : writes_in_order cu t -> (k_fixed k = true -> k_pos k <= length (k_data k)) ->
  let '(x, k') := send cu t v k in
  let stopped := fun n => exists e, x = Err (Io e) /\
    (last_call_failed k k' e \/ (k_fixed k = true /\ all_calls_succeeded k k' /\ e = WriteZero /\ n = length (k_data k) - k_pos k)) in
  match to_bytes cu t v with
  | Ok bytes => exists n, k_data k' = overlay (k_data k) (k_pos k) (firstn n bytes) /\
      ((x = Ok tt /\ n = length bytes /\ k_pos k' = k_pos k + n /\ all_calls_succeeded k k') \/ (n <= length bytes /\ stopped n))
  | y => x = res_map y (fun _ => tt) \/ stopped (length (k_data k) - k_pos k)
  end.
Proof.
  intros H Hr. unfold to_bytes, to_bytes_with, send.
  assert (HS : sim fs_rel fs_gone shown (let* _ := write_ty cu t [] v in finalize)).
  { apply sim_bind; [apply derived_sim; [intros; now apply fs_write|intros; now apply fs_gone_write|exact H]|]. intros _. apply sim_finalize; [intros; now apply fs_write|intros; now apply fs_gone_write]. }
  destruct HS as [HS _]. specialize (HS (writer_new vec_sink) (writer_new k)).
  destruct ((let* _ := write_ty cu t [] v in finalize) (writer_new vec_sink)) as [x1 w1], ((let* _ := write_ty cu t [] v in finalize) (writer_new k)) as [x2 w2].
  cbn [fst snd] in *. destruct HS as [[<- (HR & _ & _ & _)]|[-> HG]].
  { split; [|repeat split; reflexivity]. cbn [writer_new w_k]. split; [split; reflexivity|]. split; [reflexivity|]. split; [reflexivity|]. split; [reflexivity|].
    split; [apply le_n|]. split; [intros j Hj; lia|]. cbn [vec_sink k_data length]. rewrite overlay_nil, Nat.add_0_r. split; [reflexivity|]. split; [reflexivity|exact Hr]. }
  - destruct HR as (_ & _ & _ & _ & _ & Hs & Hd & Hp & _). destruct x1 as [[]| | |]; cbn [res_map]; auto.
    exists (length (k_data (w_k w1))). rewrite firstn_all. split; [exact Hd|]. left. repeat split; auto.
  - destruct HG as (_ & _ & Hq & n & Hn & Hd & Hc).
    assert (ST : forall m, (k_fixed k = true -> m = length (k_data k) - k_pos k) \/ m = n -> exists e, @Err unit (Io (shown (w_k w2))) = Err (Io e) /\
      (last_call_failed k (w_k w2) e \/ (k_fixed k = true /\ all_calls_succeeded k (w_k w2) /\ e = WriteZero /\ m = length (k_data k) - k_pos k))).
    { intros m Hm. exists (shown (w_k w2)). split; [reflexivity|]. destruct Hc as [Hc|(A & B & C & D & E)]; [now left|right].
      split; [exact A|]. split; [exact B|]. split; [exact C|]. destruct Hm as [Hm| ->]; [now apply Hm|exact D]. }
    destruct x1 as [[]| | |]; cbn [res_map]; try (right; apply ST; now left).
    exists n. split; [exact Hd|]. right. split; [exact Hn|]. apply ST. now right.
Qed.
End Sink.
