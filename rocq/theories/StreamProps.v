(** Derived code on different kinds of streams: C31. *)
From Coq Require Import Lia ZifyBool ZifyNat ZifyN Permutation.
From Verif Require Import Base MonadFacts Spec Stream Reader Writer BitsFacts NFacts Prims Containers WSession WriterFacts WriterProps
  SinkSim Derive DeriveSpec DeriveSound DeriveClosed.
Ltac Zify.zify_post_hook ::= Z.div_mod_to_equations.

(** ** Writing appends *)

Definition appends {A} (m : WM A) : Prop :=
  forall w, w_good w -> w_good (snd (m w)) /\ exists bs, wadv w (snd (m w)) bs.
Lemma appends_ext {A} (m1 m2 : WM A) : (forall w, m1 w = m2 w) -> appends m1 -> appends m2.
Proof. intros E H w. rewrite <- E. apply H. Qed.
Lemma appends_lift {A} (x : res A) : appends (lift x).
Proof. intros w H. split; [exact H|]. exists []. apply wadv_refl. Qed.
Lemma appends_bind {A B} (m : WM A) (f : A -> WM B) : appends m -> (forall a, appends (f a)) -> appends (bind m f).
Proof.
  intros M F w H. destruct (M w H) as [G1 (b1 & A1)]. unfold bind. destruct (m w) as [x w1]. cbn [snd] in *.
  destruct x as [a| | |]; cbn [snd]; eauto. destruct (F a w1 G1) as [G2 (b2 & A2)]. split; [exact G2|]. exists (b1 ++ b2). eapply wadv_app; eassumption.
Qed.
Lemma appends_see {A} (f : writer -> WM A) : (forall w, appends (f w)) -> appends (fun w => f w w).
Proof. intros F w. exact (F w w). Qed.
Lemma appends_bits l o : appends (write_bits_order l o).
Proof. intros w H. destruct (write_bits_order_ok l o w H) as (w' & bs & -> & A & G & _). eauto. Qed.
Lemma appends_bytes bs : appends (write_bytes bs).
Proof. intros w H. destruct (write_bytes_ok bs w H) as (w' & b & -> & A & G & _). eauto. Qed.
Lemma uint_bad v n w : ~ (1 <= n <= 64) -> write_bits_uint_msb0 v n w = (Panic, w).
Proof. intros H. unfold write_bits_uint_msb0. replace ((1 <=? n) && (n <=? 64)) with false by lia. reflexivity. Qed.
Lemma appends_uint v n : appends (write_bits_uint_msb0 v n).
Proof.
  intros w H. destruct (w_ord w) eqn:O.
  - assert (D : 1 <= n <= 64 \/ ~ (1 <= n <= 64)) by lia. destruct D as [D|D].
    + destruct (fast_write_ok v n w H O D) as (w' & bs & -> & A & G & _). eauto.
    + rewrite uint_bad by exact D. split; [exact H|]. exists []. apply wadv_refl.
  - destruct (write_uint_lsb v n w O) as [_ ->]. split; [exact H|]. exists []. apply wadv_refl.
Qed.
Lemma appends_fail {A} e : appends (fail (A := A) e).
Proof. exact (appends_lift (Err e)). Qed.
Lemma appends_chunks cs : forall n o, appends (write_chunks cs n o).
Proof.
  induction cs as [|c cs IH]; intros n o; cbn [write_chunks]; [exact (appends_lift (Ok tt))|]. destruct (_ <? 8); [apply appends_bits|].
  apply appends_bind; [apply appends_bits|auto].
Qed.
Lemma appends_ebo wb en n o v : appends (write_ebo_generic wb en n o v).
Proof.
  unfold write_ebo_generic. cbv zeta. destruct (_ <? n); [apply appends_fail|].
  destruct en, o; try (destruct (too_big_le _ _ _); [apply appends_fail|apply appends_chunks]).
  - intros w. destruct (_ && _); [destruct (n <? _)|destruct (too_big_be _ _ _)];
      [apply (appends_fail InvalidParam w)|apply appends_uint|apply (appends_fail InvalidParam w)|apply appends_bits].
  - destruct (too_big_be _ _ _); [apply appends_fail|]. destruct (_ <=? 8); [apply appends_bits|apply appends_chunks].
Qed.
Lemma appends_u8 n o v : appends (write_u8_bits n o v).
Proof.
  intros w. unfold write_u8_bits. destruct (_ && _ && _); [destruct (_ && _)|destruct (8 <? n); [|destruct (too_big_be _ _ _)]];
    [apply (appends_fail InvalidParam w)|apply appends_uint|apply (appends_fail InvalidParam w)|apply (appends_fail InvalidParam w)|apply appends_bits].
Qed.
Lemma appends_prim p c v : appends (prim_write p c v).
Proof.
  assert (HS : forall wb en n, appends (write_bytes_sized wb en n v)) by (intros; unfold write_bytes_sized; destruct (_ <? n); [apply appends_fail|apply appends_bytes]).
  assert (HY : forall en n, appends (write_eyo p en n v)) by (intros; unfold write_eyo; destruct p; auto using appends_bytes).
  assert (HE : forall en, appends (write_e p en v)) by (intros; apply appends_bytes).
  assert (HO : forall en n o, appends (write_ebo p en n o v)) by (intros; unfold write_ebo; destruct p; auto using appends_u8, appends_ebo).
  assert (HB : forall en n, appends (write_eb p en n v)).
  { intros. unfold write_eb. destruct p; [apply appends_u8| |].
    - unfold write_u_eb. cbv zeta. destruct (_ <? n); [apply appends_fail|]. destruct en; [destruct (too_big_le _ _ _)|destruct (too_big_be _ _ _)];
        auto using appends_fail, appends_chunks; apply appends_bits.
    - unfold write_i_eb. cbv zeta. destruct (_ <? n); [apply appends_fail|].
      destruct en; (match goal with |- appends (if ?b then _ else _) => destruct b end); auto using appends_fail, appends_chunks; apply appends_bits. }
  destruct c; cbn [prim_write]; auto.
Qed.
Lemma appends_wop op : appends (run_wop op).
Proof.
  destruct op; cbn [run_wop]; auto using appends_bits, appends_bytes. intros w. destruct (w_ord w); [apply appends_uint|apply appends_bits].
Qed.

Theorem program_appends m : writer_program m -> appends m.
Proof.
  induction 1 as [x|op m _ IH|f _ IH|m1 m2 E _ IH]; [apply appends_lift|apply appends_bind; [apply appends_wop|auto]| |exact (appends_ext _ _ E IH)].
  exact (appends_see (fun w => f (w_rest w) (w_ord w) (w_bits w)) (fun w => IH _ _ _)).
Qed.
Theorem derived_appends cu t args v : writes_in_order cu t -> appends (write_ty cu t args v).
Proof.
  intros H. eapply (closed_write cu) with (G := fun _ => True) (P := appends) (offs := True); [..|exact H|exact I]; intros; auto.
  - eapply appends_ext; eassumption.
  - apply appends_lift.
  - apply appends_bind; auto.
  - intros w Hw. now apply H1.
  - apply appends_prim.
  - apply appends_prim.
  - apply appends_bits.
  - destruct H0 as [H0 _]. congruence.
  - congruence.
  - destruct H0 as [_ H0]. now apply program_appends, H0.
  - now apply program_appends.
Qed.

Section SimDerived.
Variables (Rel Gone : sink -> sink -> Prop) (e : sink -> iokind).
Hypothesis Rel_write : forall buf k1 k2, Rel k1 k2 ->
  (fst (k_write_all buf k1) = fst (k_write_all buf k2) /\ Rel (snd (k_write_all buf k1)) (snd (k_write_all buf k2))) \/
  (fst (k_write_all buf k2) = IoErr (e (snd (k_write_all buf k2))) /\ Gone (snd (k_write_all buf k1)) (snd (k_write_all buf k2))).
Hypothesis Gone_write : forall buf k1 k2, Gone k1 k2 -> Gone (snd (k_write_all buf k1)) k2.
Theorem program_sim m : writer_program m -> sim Rel Gone e m.
Proof.
  induction 1 as [x|op m _ IH|f _ IH|m1 m2 E _ IH].
  - apply sim_lift.
  - apply sim_bind; [now apply sim_wop|auto].
  - apply (sim_see Rel Gone e (fun w => f (w_rest w) (w_ord w) (w_bits w))); [auto|]. unfold w_rest. intros w1 w2 -> -> ->. reflexivity.
  - exact (sim_ext _ _ _ _ _ E IH).
Qed.
Theorem derived_sim cu t args v : writes_in_order cu t -> sim Rel Gone e (write_ty cu t args v).
Proof.
  intros H. eapply (closed_write cu) with (G := fun _ => True) (P := sim Rel Gone e) (offs := True); [..|exact H|exact I]; intros; auto.
  - eapply sim_ext; eassumption.
  - apply sim_lift.
  - apply sim_bind; auto.
  - apply (sim_see Rel Gone e (fun w => f (w_bits w))); [auto|]. intros w1 w2 _ _ ->. reflexivity.
  - now apply sim_prim.
  - now apply sim_prim.
  - now apply sim_bits.
  - destruct H0 as [H0 _]. congruence.
  - congruence.
  - destruct H0 as [_ H0]. now apply program_sim, H0.
  - now apply program_sim.
Qed.
End SimDerived.

(** ** Vec and slice *)

Definition vs_rel (buf : list byte) (k1 k2 : sink) : Prop :=
  accepting k1 /\ k_pos k1 = length (k_data k1) /\ k_fixed k2 = true /\ (forall j, k_fault k2 j = None) /\
  k_data k2 = k_data k1 ++ skipn (length (k_data k1)) buf /\ k_pos k2 = length (k_data k1) /\ length (k_data k1) <= length buf.
Definition vs_gone (buf : list byte) (k1 k2 : sink) : Prop :=
  accepting k1 /\ k_pos k1 = length (k_data k1) /\ k_data k2 = firstn (length buf) (k_data k1) /\ length buf < length (k_data k1).
Lemma overlay_slice (d buf b : list byte) : length d + length b <= length buf ->
  overlay (d ++ skipn (length d) buf) (length d) b = (d ++ b) ++ skipn (length (d ++ b)) buf.
Proof.
  intros H. destruct b as [|x b]; [now rewrite overlay_nil, app_nil_r|]. rewrite overlay_cons by discriminate.
  rewrite firstn_app, firstn_all, Nat.sub_diag. cbn [firstn]. rewrite app_nil_r. rewrite app_length.
  replace (length d - (length d + length (skipn (length d) buf))) with 0 by lia. cbn [repeat app]. rewrite <- app_assoc. f_equal. f_equal.
  rewrite skipn_app, skipn_all2 by lia. cbn [app]. replace (length d + length (x :: b) - length d) with (length (x :: b)) by lia.
  rewrite skipn_skipn, app_length. reflexivity.
Qed.
Lemma vs_write buf bs k1 k2 : vs_rel buf k1 k2 ->
  (fst (k_write_all bs k1) = fst (k_write_all bs k2) /\ vs_rel buf (snd (k_write_all bs k1)) (snd (k_write_all bs k2))) \/
  (fst (k_write_all bs k2) = IoErr WriteZero /\ vs_gone buf (snd (k_write_all bs k1)) (snd (k_write_all bs k2))).
Proof.
  intros (Ha & Hp & Hf2 & Hq2 & Hd2 & Hp2 & Hl). destruct (k_write_all_ok bs k1 Ha) as (k1' & E1 & Em). rewrite E1. cbn [fst snd].
  pose proof (emitted_accepting _ _ _ Em Ha) as Ha'. destruct Em as [Ed Ep _ _ _]. rewrite Hp, overlay_end in Ed. rewrite Hp in Ep.
  assert (Hpe : k_pos k1' = length (k_data k1')) by (rewrite Ed, app_length; exact Ep).
  assert (L2 : length (k_data k2) = length buf) by (rewrite Hd2, app_length, skipn_length; lia).
  unfold k_write_all. rewrite Hq2, Hf2, Hp2, L2. cbn [andb].
  destruct (Nat.ltb_spec (length buf - length (k_data k1)) (length bs)) as [Hlt|Hge]; cbn [fst snd].
  - right. split; [reflexivity|]. split; [exact Ha'|]. split; [exact Hpe|]. cbn [k_store k_tick k_set k_data k_pos k_fixed].
    rewrite Hp2, Hd2, Ed, overlay_slice by (rewrite firstn_length; lia). rewrite app_length, firstn_length.
    rewrite skipn_all2 by lia. rewrite app_nil_r. rewrite app_length. split; [|lia].
    rewrite firstn_app. rewrite (firstn_all2 (k_data k1)) by lia. reflexivity.
  - left. split; [reflexivity|]. split; [exact Ha'|]. split; [exact Hpe|]. cbn [k_store k_tick k_set k_virt k_data k_pos k_fixed k_fault].
    split; [exact Hf2|]. split; [exact Hq2|]. rewrite Hp2, Hd2, Ed, overlay_slice by lia. split; [reflexivity|].
    rewrite app_length. lia.
Qed.
Lemma vs_gone_write buf bs k1 k2 : vs_gone buf k1 k2 -> vs_gone buf (snd (k_write_all bs k1)) k2.
Proof.
  intros (Ha & Hp & Hd2 & Hl). destruct (k_write_all_ok bs k1 Ha) as (k1' & E1 & Em). rewrite E1. cbn [snd].
  pose proof (emitted_accepting _ _ _ Em Ha) as Ha'. destruct Em as [Ed Ep _ _ _]. rewrite Hp, overlay_end in Ed. rewrite Hp in Ep.
  split; [exact Ha'|]. rewrite Ed, app_length. split; [exact Ep|]. split; [|lia]. rewrite firstn_app.
  replace (length buf - length (k_data k1)) with 0 by lia. cbn [firstn]. now rewrite app_nil_r.
Qed.
Lemma vs_start buf : vs_rel buf vec_sink (slice_sink buf).
Proof. repeat split; auto. cbn. lia. Qed.

Section ToSlice.
Variable m : WM unit.
Hypothesis m_appends : appends m.
Hypothesis m_sim : forall buf, sim (vs_rel buf) (vs_gone buf) (fun _ => WriteZero) m.
Lemma appends_finalize w : w_good w -> exists w', finalize w = (Ok tt, w') /\ w_good w' /\ w_left w' = [] /\
    wadv w w' (match w_left w with [] => [] | p => [pad_byte (w_ord w) p] end).
Proof.
  intros H. destruct (w_left w) as [|b p] eqn:E.
  - exists w. rewrite finalize_nil by exact E. repeat split; auto; apply H || apply wadv_refl.
  - destruct (finalize_pad w H) as (w' & E1 & A1 & G1 & L1 & _); [congruence|]. rewrite E in A1. eauto.
Qed.
Lemma fresh_good : w_good (writer_new vec_sink).
Proof. split; [split; reflexivity|cbn; lia]. Qed.
Lemma out_appends : appends (let* _ := m in finalize).
Proof.
  apply appends_bind; [exact m_appends|]. intros _ w H. destruct (appends_finalize w H) as (w' & -> & G & _ & A). eauto.
Qed.
Theorem to_slice_to_bytes buf :
  match to_bytes_with m with
  | Ok bytes =>
      to_slice_with m buf =
        if length bytes <=? length buf then (Ok (length bytes), bytes ++ skipn (length bytes) buf)
        else (Err (Io WriteZero), firstn (length buf) bytes)
  | x => fst (to_slice_with m buf) = res_map x (fun bytes => length bytes) \/ fst (to_slice_with m buf) = Err (Io WriteZero)
  end.
Proof.
  unfold to_bytes_with, to_slice_with.
  assert (HS : sim (vs_rel buf) (vs_gone buf) (fun _ => WriteZero) (let* _ := m in finalize)).
  { apply sim_bind; [apply m_sim|]. intros _. apply sim_finalize; [apply vs_write|apply vs_gone_write]. }
  destruct HS as [HS _]. specialize (HS (writer_new vec_sink) (writer_new (slice_sink buf))).
  destruct (out_appends (writer_new vec_sink) fresh_good) as [_ (bs & [[Ed _ _ _ _] Eb])].
  destruct ((let* _ := m in finalize) (writer_new vec_sink)) as [x1 w1], ((let* _ := m in finalize) (writer_new (slice_sink buf))) as [x2 w2].
  cbn [fst snd] in *. destruct HS as [[<- (HR & _ & _ & HB)]|[-> HG]].
  { repeat split; auto. cbn. lia. }
  - destruct HR as (_ & _ & _ & _ & Hd2 & _ & Hl). destruct x1; cbn [res_map fst]; auto.
    cbn [writer_new w_k vec_sink k_data k_pos w_bits] in Ed, Eb. rewrite overlay_empty in Ed. replace (length (k_data (w_k w1)) <=? length buf) with true by lia.
    rewrite Hd2. do 2 f_equal. rewrite <- HB, Eb, Ed. lia.
  - destruct HG as (_ & _ & Hd2 & Hl). destruct x1; cbn [res_map fst]; auto.
    replace (length (k_data (w_k w1)) <=? length buf) with false by lia. now rewrite Hd2.
Qed.
Theorem to_bits_to_bytes :
  match to_bits_with m with
  | Ok bits => exists whole rest,
      bits = bits_of_bytes whole ++ rest /\ length rest < 8 /\
      exists bytes, to_bytes_with m = Ok bytes /\
        match rest with
        | [] => bytes = whole
        | _ => exists last, bytes = whole ++ [last] /\
            (byte_bits last = rest ++ repeat false (8 - length rest) \/ byte_bits last = repeat false (8 - length rest) ++ rest)
        end
  | x => to_bytes_with m = res_map x (fun _ => [])
  end.
Proof.
  unfold to_bits_with, to_bytes_with. destruct (m_appends (writer_new vec_sink) fresh_good) as [Hg (bs & [[Ed Ep _ _ _] Eb])].
  destruct (m (writer_new vec_sink)) as [x w] eqn:Em. cbn [fst snd] in *.
  destruct x as [[]|e| |]; cbn [res_map];
    [rewrite (bind_ok _ _ _ _ _ Em)|now rewrite (bind_err _ _ _ _ _ Em)|now rewrite (bind_panic _ _ _ _ Em)|now rewrite (bind_diverge _ _ _ _ Em)].
  cbn [writer_new w_k vec_sink k_data k_pos w_bits] in Ed, Ep, Eb. rewrite overlay_empty in Ed.
  destruct (appends_finalize w Hg) as (w' & Ef & _ & _ & [[Fd _ _ _ _] _]). rewrite Ef.
  exists (k_data (w_k w)), (w_left w). split; [reflexivity|]. destruct Hg as [_ Hl]. split; [exact Hl|]. eexists. split; [reflexivity|].
  rewrite Ep, Nat.add_0_l, <- Ed, overlay_end in Fd. destruct (w_left w) as [|b p] eqn:E; [now rewrite Fd, app_nil_r|].
  eexists. split; [exact Fd|]. unfold pad_byte.
  destruct (w_ord w); [left|right]; rewrite byte_bits_of_bits; auto; rewrite app_length, repeat_length; lia.
Qed.
End ToSlice.

Theorem derived_to_slice cu t v buf : writes_in_order cu t ->
  match to_bytes cu t v with
  | Ok bytes =>
      to_slice cu t v buf =
        if length bytes <=? length buf then (Ok (length bytes), bytes ++ skipn (length bytes) buf)
        else (Err (Io WriteZero), firstn (length buf) bytes)
  | x => fst (to_slice cu t v buf) = res_map x (fun bytes => length bytes) \/ fst (to_slice cu t v buf) = Err (Io WriteZero)
  end.
Proof.
  intros H. apply to_slice_to_bytes; [now apply derived_appends|]. intros b. apply derived_sim; [apply vs_write|apply vs_gone_write|exact H].
Qed.
Theorem derived_to_bits cu t v : writes_in_order cu t ->
  match to_bits cu t v with
  | Ok bits => exists whole rest,
      bits = bits_of_bytes whole ++ rest /\ length rest < 8 /\
      exists bytes, to_bytes cu t v = Ok bytes /\
        match rest with
        | [] => bytes = whole
        | _ => exists last, bytes = whole ++ [last] /\
            (byte_bits last = rest ++ repeat false (8 - length rest) \/ byte_bits last = repeat false (8 - length rest) ++ rest)
        end
  | x => to_bytes cu t v = res_map x (fun _ => [])
  end.
Proof.
  intros H. apply to_bits_to_bytes; [now apply derived_appends|]. intros b. apply derived_sim; [apply vs_write|apply vs_gone_write|exact H].
Qed.

(** ** NoSeek *)

(** The second sink is the first behind [NoSeek]; as long as the sink takes every
    byte, they moved equally far from positions [b] and [p] on. *)
Definition nk_rel (takes : Prop) (b p : nat) (k1 k2 : sink) : Prop :=
  k_noseek k1 = None /\ (takes -> k_fixed k1 = false /\ forall j, k_fault k1 j = None) /\
  exists q, k2 = k_virt k1 (Some q) /\ (takes -> k_pos k1 + p = q + b).
Lemma nk_write takes b p buf k1 k2 : nk_rel takes b p k1 k2 ->
  (fst (k_write_all buf k1) = fst (k_write_all buf k2) /\ nk_rel takes b p (snd (k_write_all buf k1)) (snd (k_write_all buf k2))) \/
  (fst (k_write_all buf k2) = IoErr WriteZero /\ False).
Proof.
  intros (Hn & Ht & q & -> & Hq). left. unfold k_write_all. cbn [k_virt k_fault k_calls k_pos k_data k_fixed k_noseek].
  destruct (k_fault k1 (k_calls k1)) as [[e n]|] eqn:F; cbn [fst snd].
  - split; [reflexivity|]. split; [exact Hn|]. split; [exact Ht|]. exists q. split; [reflexivity|]. intros T. destruct (Ht T) as [_ X]. congruence.
  - destruct (k_fixed k1 && _) eqn:X; cbn [fst snd option_map].
    + split; [reflexivity|]. split; [exact Hn|]. split; [exact Ht|]. exists q. split; [reflexivity|]. intros T. destruct (Ht T) as [Y _]. rewrite Y in X. discriminate.
    + split; [reflexivity|]. rewrite Hn. cbn [option_map]. split; [reflexivity|]. split; [exact Ht|]. exists (q + length buf). split; [reflexivity|].
      intros T. specialize (Hq T). cbn. lia.
Qed.
Lemma nk_start (takes : Prop) p k : k_noseek k = None -> (takes -> k_fixed k = false /\ forall j, k_fault k j = None) -> nk_rel takes (k_pos k) p k (k_virt k (Some p)).
Proof. intros H T. split; [exact H|]. split; [exact T|]. exists p. split; [reflexivity|lia]. Qed.
Lemma noseek_sim {A} (m : WM A) k p : (forall takes b p, sim (nk_rel takes b p) (fun _ _ => False) (fun _ => WriteZero) m) -> k_noseek k = None ->
  exists x w1 w2 q, m (writer_new k) = (x, w1) /\ m (writer_new (k_virt k (Some p))) = (x, w2) /\
    w_rest w2 = w_rest w1 /\ w_bits w2 = w_bits w1 /\ w_k w2 = k_virt (w_k w1) (Some q) /\
    (k_fixed k = false -> (forall j, k_fault k j = None) -> k_pos (w_k w1) + p = q + k_pos k).
Proof.
  intros HS Hn. destruct (HS (k_fixed k = false /\ forall j, k_fault k j = None) (k_pos k) p) as [H _].
  destruct (H (writer_new k) (writer_new (k_virt k (Some p)))) as [[E (R & L & _ & B)]|[_ []]]; [split; [apply nk_start; tauto|repeat split; reflexivity]|].
  destruct (m (writer_new k)) as [x1 w1], (m (writer_new (k_virt k (Some p)))) as [x2 w2]. cbn [fst snd] in *. subst x2.
  destruct R as (_ & _ & q & Eq & Hq). exists x1, w1, w2, q. unfold w_rest. repeat split; auto.
Qed.
(** [to_writer] and the [finalize] behind [NoSeek]. *)
Theorem noseek_to_writer cu t args v k p : writes_in_order cu t -> k_noseek k = None ->
  exists x w1 w2 q, (let* _ := write_ty cu t args v in finalize) (writer_new k) = (x, w1) /\
    (let* _ := write_ty cu t args v in finalize) (writer_new (k_virt k (Some p))) = (x, w2) /\
    w_rest w2 = w_rest w1 /\ w_bits w2 = w_bits w1 /\ w_k w2 = k_virt (w_k w1) (Some q) /\
    (k_fixed k = false -> (forall j, k_fault k j = None) -> k_pos (w_k w1) + p = q + k_pos k).
Proof.
  intros H. apply noseek_sim. intros. apply sim_bind; [|intros _; apply sim_finalize]; try (intros; now apply nk_write); try tauto.
  apply derived_sim; [intros; now apply nk_write|tauto|exact H].
Qed.
Theorem noseek_writes ops k p : k_noseek k = None ->
  exists x w1 w2 q, run_wsession ops (writer_new k) = (x, w1) /\ run_wsession ops (writer_new (k_virt k (Some p))) = (x, w2) /\
    w_rest w2 = w_rest w1 /\ w_bits w2 = w_bits w1 /\ w_k w2 = k_virt (w_k w1) (Some q) /\
    (k_fixed k = false -> (forall j, k_fault k j = None) -> k_pos (w_k w1) + p = q + k_pos k).
Proof. apply noseek_sim. intros. apply sim_wsession; [intros; now apply nk_write|tauto]. Qed.
Theorem noseek_kseek t k v : k_noseek k = Some v -> k_fault k (k_calls k) = None ->
  k_seek t k = (match t with
                | SeekStart n => if n =? v then IoOk v else IoErr (OtherKind 0)
                | SeekCurrent d => if (d =? 0)%Z then IoOk v else IoErr (OtherKind 0)
                | SeekEnd _ => IoErr (OtherKind 0)
                end, k_tick k).
Proof.
  intros H F. unfold k_seek. rewrite F, H. destruct t as [n|d|d]; cbn [noseek_target]; [destruct (Nat.eqb_spec n v); congruence|now destruct (_ =? _)%Z|reflexivity].
Qed.

(** ** Seeking *)

(** The first sink has the contents of the second over [base] at [p]. *)
Definition ov_rel (base : list byte) (p : nat) (k1 k2 : sink) : Prop :=
  accepting k1 /\ accepting k2 /\ k_pos k2 = length (k_data k2) /\ k_pos k1 = p + length (k_data k2) /\ k_data k1 = overlay base p (k_data k2).
Lemma ov_write base p buf k1 k2 : ov_rel base p k1 k2 ->
  (fst (k_write_all buf k1) = fst (k_write_all buf k2) /\ ov_rel base p (snd (k_write_all buf k1)) (snd (k_write_all buf k2))) \/
  (fst (k_write_all buf k2) = IoErr WriteZero /\ False).
Proof.
  intros (A1 & A2 & P2 & P1 & D). left. destruct (k_write_all_ok buf k1 A1) as (k1' & -> & M1). destruct (k_write_all_ok buf k2 A2) as (k2' & -> & M2).
  cbn [fst snd]. split; [reflexivity|]. split; [eapply emitted_accepting; eassumption|]. split; [eapply emitted_accepting; eassumption|].
  destruct M1 as [D1 Q1 _ _ _], M2 as [D2 Q2 _ _ _]. rewrite P2, overlay_end in D2. rewrite D1, D2, Q1, Q2, P1, P2, D, overlay_app, app_length.
  repeat split; lia.
Qed.
Lemma w_seek_state t w p : accepting (w_k w) -> k_noseek (w_k w) = None -> seek_target (k_pos (w_k w)) (length (k_data (w_k w))) t = Some p ->
  exists w', w_seek t w = (IoOk p, w') /\ w_left w' = [] /\ k_data (w_k w') = k_data (w_k w) /\ w_bits w' = w_bits w /\
    wrel (ov_rel (k_data (w_k w)) p) w' (mkWriter vec_sink [] Msb0 (w_bits w)).
Proof.
  intros [F Q] N T. unfold w_seek, k_seek. cbn [w_set_ord w_set_left w_k]. rewrite (Q _), N, T. eexists. split; [reflexivity|].
  split; [reflexivity|]. split; [reflexivity|]. split; [reflexivity|]. repeat split; auto; cbn; lia.
Qed.
Lemma sim_at {A} (m : WM A) base p w1 w2 : sim (ov_rel base p) (fun _ _ => False) (fun _ => WriteZero) m -> wrel (ov_rel base p) w1 w2 ->
  fst (m w1) = fst (m w2) /\ k_data (w_k (snd (m w1))) = overlay base p (k_data (w_k (snd (m w2)))) /\ w_rest (snd (m w1)) = w_rest (snd (m w2)).
Proof. intros [S _] R. destruct (S _ _ R) as [[E (X & L & _)]|[_ []]]. split; [exact E|]. split; [apply X|exact L]. Qed.
(** After a seek, writing goes to the target. *)
Theorem w_seek_fresh t w p : k_fixed (w_k w) = false -> (forall j, k_fault (w_k w) j = None) -> k_noseek (w_k w) = None ->
  seek_target (k_pos (w_k w)) (length (k_data (w_k w))) t = Some p ->
  exists w', w_seek t w = (IoOk p, w') /\ w_rest w' = [] /\ w_bits w' = w_bits w /\ k_data (w_k w') = k_data (w_k w) /\
    forall ops, let '(x1, w1) := run_wsession ops w' in
                let '(x2, w2) := run_wsession ops (mkWriter vec_sink [] Msb0 (w_bits w)) in
                x1 = x2 /\ k_data (w_k w1) = overlay (k_data (w_k w)) p (k_data (w_k w2)) /\ w_rest w1 = w_rest w2.
Proof.
  intros F Q N T. destruct (w_seek_state t w p (conj F Q) N T) as (w' & E & L & D & B & R). exists w'. repeat split; auto.
  intros ops. pose proof (sim_at (run_wsession ops) _ _ _ _ ltac:(apply sim_wsession; [intros; now apply ov_write|tauto]) R) as H.
  destruct (run_wsession ops w'), (run_wsession ops (mkWriter _ _ _ _)). exact H.
Qed.
Lemma write_no_seek cu c ctx fs : forall id stored todo acc w,
  fields_write cu c ctx fs id stored todo acc w = fields_write cu (no_seek c) ctx fs id stored todo acc w.
Proof.
  induction fs as [|a t wire tl IH]; intros id stored todo acc w; [reflexivity|]. rewrite !write_cons. change (write_field (no_seek c)) with (write_field c).
  apply bind_ext. intros _ w1 _. apply IH.
Qed.
Theorem seek_struct_written cu c fs l f n : c_seek c = Some f -> f (ctx_args c []) = Some (SeekStart n) ->
  writes_in_order cu (TStruct (no_seek c) fs) ->
  to_bytes cu (TStruct c fs) (VRec l) = res_map (to_bytes cu (TStruct (no_seek c) fs) (VRec l)) (fun bs => overlay [] n bs).
Proof.
  intros Hc Hf H. unfold to_bytes, to_bytes_with.
  destruct (w_seek_state (SeekStart n) (writer_new vec_sink) n) as (w' & E & _ & _ & _ & R); [split; reflexivity|reflexivity|reflexivity|].
  assert (X : (let* _ := write_ty cu (TStruct c fs) [] (VRec l) in finalize) (writer_new vec_sink) =
              (let* _ := write_ty cu (TStruct (no_seek c) fs) [] (VRec l) in finalize) w').
  { rewrite !write_struct, Hc. change (ctx_args (no_seek c) []) with (ctx_args c []). cbn [option_map no_seek c_seek c_magic]. fold (no_seek c). rewrite Hf. cbn [write_seek].
    rewrite !bind_assoc, bind_ret_l. rewrite (bind_ok _ _ _ n w') by (unfold lift_io; rewrite E; reflexivity). rewrite ?bind_assoc, ?bind_ret_l.
    rewrite !bind_assoc. apply bind_ext. intros _ w1 _. apply bind_cong, write_no_seek. }
  rewrite X. pose proof (sim_at (let* _ := write_ty cu (TStruct (no_seek c) fs) [] (VRec l) in finalize) _ _ w' (writer_new vec_sink)
    ltac:(apply sim_bind; [apply derived_sim; [intros; now apply ov_write|tauto|exact H]|intros _; apply sim_finalize; [intros; now apply ov_write|tauto]]) R) as (E1 & E2 & _).
  destruct ((let* _ := write_ty cu (TStruct (no_seek c) fs) [] (VRec l) in finalize) w') as [x1 w1],
    ((let* _ := write_ty cu (TStruct (no_seek c) fs) [] (VRec l) in finalize) (writer_new vec_sink)) as [x2 w2].
  cbn [fst snd writer_new w_k vec_sink k_data] in *. subst x2. destruct x1; cbn [res_map]; congruence.
Qed.
