(** Writing values of safe types does not panic. *)
From Coq Require Import Lia.
From Verif Require Import Base Stream Reader Writer Prims MonadFacts Containers Derive DeriveSound SafeSpec DeriveSafe FlowSpec FlowFacts WSafeSpec WSafeFacts.

Section G.
Variables (named : nat -> value -> Prop) (cu : nat -> custom) (growing : bool).
Local Notation typed := (typed_in named).
Local Notation fields_typed := (fields_typed_in named).
Local Notation variant_typed := (variant_typed_in named).
Local Notation field_wsafe := (field_wsafe_in named).
Local Notation wsafe_ty := (wsafe_ty_in named).
Local Notation fields_wsafe := (fields_wsafe_in named).
Local Notation variants_wsafe := (variants_wsafe_in named).
Notation calm := (calm growing).
Notation wp := (wp growing).

Lemma asserts_calm a ctx acc off v w : between growing w -> wp (asserts a ctx acc off v) (fun _ w' => w' = w /\ asserted a ctx acc v) w.
Proof.
  intros _. unfold asserts, asserted, check. apply wp_bind.
  assert (HE : error_is growing Assertion) by (intros _; now right).
  destruct (a_assert a) as [f|].
  - destruct (f ctx (acc ++ [v]) off) eqn:E; [|exact HE]. apply wp_ret.
    assert (HA : forall g, Some f = Some g -> exists off, g ctx (acc ++ [v]) off = true) by (intros g Hg; injection Hg as <-; now exists off).
    destruct (a_assert_eq a); [|now split]. destruct (value_eqb _ _); [now split|exact HE].
  - apply wp_ret. destruct (a_assert_eq a); [|now split]. destruct (value_eqb _ _); [now split|exact HE].
Qed.
Lemma field_calm c a t stored ctx acc v (ok : list value -> Prop) wr : field_wsafe growing c a t stored ctx acc v ok ->
  (a_temp a = false -> typed t v) -> (forall args, typed t v -> ok args -> calm (wr args v)) ->
  forall w, between growing w -> wp (write_field c a stored ctx acc v wr) (fun _ w' => between growing w' /\ asserted a ctx acc v) w.
Proof.
  intros [Hs Hf] Ht Hwr w Hw. unfold write_field.
  apply wp_bind. eapply wp_mono; [|exact (calm_seek growing _ Hs w Hw)]. intros [] w1 H1. cbv beta in H1.
  apply wp_bind. eapply wp_mono; [|exact (calm_magic growing _ w1 H1)]. intros [] w2 H2. cbv beta in H2.
  apply wp_bind. eapply wp_mono; [|exact (calm_pad growing _ _ w2 H2)]. intros [] w3 H3. cbv beta in H3.
  change (wp (let* _ := asserts a ctx acc (w_bits w3) v in
     let* _ := field_write_tokens a ctx acc (w_bits w3) (field_write_func c a stored ctx acc (w_bits w3) v wr) in
     write_pad (eval0 (a_pad_after a) ctx (acc ++ [v])) (field_order c a ctx acc)) (fun _ w' => between growing w' /\ asserted a ctx acc v) w3).
  set (off := w_bits w3). apply wp_bind. eapply wp_mono; [|exact (asserts_calm a ctx acc off v w3 H3)]. intros [] w4 [-> HA].
  assert (HT : calm (field_write_tokens a ctx acc off (field_write_func c a stored ctx acc off v wr))).
  { specialize (Hf off). unfold is_left_out in Hf. unfold field_write_tokens.
    assert (HN : match a_writer a with
      | Some f => writes_safely growing (f stored ctx acc off v)
      | None => match a_temp a, a_temp_value a with
        | true, None => True
        | true, Some _ => typed t v /\ ok (field_args c a ctx acc off)
        | false, _ => ok (field_args c a ctx acc off)
        end end -> calm (field_write_func c a stored ctx acc off v wr)).
    { unfold field_write_func. destruct (a_writer a) as [f|]; [apply calm_safely|]. destruct (a_temp a); [destruct (a_temp_value a)|].
      - intros [H4 H5]. now apply Hwr.
      - intros _. apply calm_ret.
      - intros H5. apply Hwr; auto. }
    destruct (a_skip a) as [[]|]; destruct (a_cond a) as [f|]; try destruct (f ctx acc off); first [now apply HN, Hf|apply calm_ret]. }
  apply wp_bind. eapply wp_mono; [|exact (HT w3 H3)]. intros [] w5 H5. cbv beta in H5.
  eapply wp_mono; [|exact (calm_pad growing _ _ w5 H5)]. auto.
Qed.

Definition ty_calm (t : ty) : Prop := forall args v, wsafe_ty cu growing t args -> typed t v -> calm (write_ty cu t args v).
Definition fields_calm (fs : fields) : Prop := forall c ctx id stored todo acc, fields_wsafe cu growing c ctx fs id stored todo acc ->
  fields_typed fs todo -> calm (fields_write cu c ctx fs id stored todo acc).
Definition variants_calm (vs : variants) : Prop := forall e ctx idok wid k l, variants_wsafe cu growing e ctx idok vs -> variant_typed vs k l ->
  (forall x, idok x -> calm (wid (id_args e ctx) x)) -> calm (variant_write cu e ctx wid vs k l).

Lemma pctx_calm {A} args (k : pctx -> WM A) : (exists c, pctx_of args = Some c /\ some_bits c) -> (forall c, some_bits c -> calm (k c)) ->
  calm (with_pctx None args k).
Proof. intros (c & Hc & Hb) Hk. unfold with_pctx. rewrite Hc. now apply Hk. Qed.

Theorem types_calm : (forall t, ty_calm t) /\ (forall fs, fields_calm fs) /\ (forall vs, variants_calm vs).
Proof.
  apply types_ind.
  - intros p args v H Ht. cbn [write_ty typed_in wsafe_ty_in] in *. destruct v; try contradiction. apply pctx_calm; [exact H|]. intros c Hc. now apply calm_prim.
  - intros args v H Ht. cbn [write_ty typed_in wsafe_ty_in] in *. destruct v; try contradiction. apply pctx_calm; [exact H|]. intros c Hc.
    unfold write_bool. now apply calm_prim.
  - intros p args v H Ht. cbn [write_ty typed_in wsafe_ty_in] in *. destruct v; try contradiction. apply pctx_calm; [exact H|]. intros c Hc. now apply calm_prim.
  - intros args v _ _. apply calm_ret.
  - intros args v H Ht. cbn [write_ty typed_in wsafe_ty_in] in *. destruct v; try contradiction. apply pctx_calm; [exact H|]. intros c Hc.
    unfold write_cstring. apply calm_list, Forall_forall. intros x _. now apply calm_prim.
  - intros t IH args v H Ht. cbn [write_ty typed_in wsafe_ty_in] in *. destruct v; try contradiction; [now apply IH|apply calm_ret].
  - intros a IHa b IHb args v [Ha Hb] Ht. cbn [write_ty typed_in] in *. destruct v; try contradiction. destruct Ht as [Ta Tb].
    apply calm_bind; [now apply IHa|]. intros _. now apply IHb.
  - intros n t IH args v H Ht. cbn [write_ty typed_in wsafe_ty_in] in *. destruct v; try contradiction. destruct Ht as [_ Ht].
    apply calm_list. eapply Forall_impl; [|exact Ht]. intros x Hx. now apply IH.
  - intros pl n t IH args v H Ht. cbn [write_ty typed_in wsafe_ty_in] in *. destruct v; try contradiction.
    apply calm_list. eapply Forall_impl; [|exact (proj1 Ht)]. intros x Hx. now apply IH.
  - intros c fs IH args v [Hs H] Ht. cbn [typed_in] in Ht. destruct v; try contradiction. rewrite write_struct.
    apply calm_bind; [now apply calm_seek|]. intros _. apply calm_bind; [apply calm_magic|]. intros _. apply IH; [now apply H|exact Ht].
  - intros e idt IHi vs IHv args v H Ht. cbn [typed_in] in Ht. destruct v; try contradiction. rewrite write_enum.
    apply calm_bind; [apply calm_magic|]. intros _. eapply IHv; [exact H|exact Ht|]. intros x [Tx Sx]. now apply IHi.
  - intros k args v H Ht. cbn [write_ty wsafe_ty_in] in *. apply calm_safely, H. now destruct v.
  - intros c ctx id stored todo acc _ _. apply calm_ret.
  - intros a t IHt wire _ tl IHf c ctx id stored todo acc H Ht. cbn [fields_wsafe_in] in H. set (v := field_value a stored todo ctx acc) in *.
    assert (Hv : a_temp a = false -> typed t v).
    { intros Et. subst v. unfold field_value. cbn [fields_typed_in] in Ht. rewrite Et in *. destruct todo as [|v todo]; [contradiction|]. apply Ht. }
    assert (Hr : fields_typed tl (field_rest a todo)).
    { unfold field_rest. cbn [fields_typed_in] in Ht. destruct (a_temp a); [exact Ht|]. destruct todo as [|v0 todo]; [contradiction|]. apply Ht. }
    destruct id as [args|].
    + destruct H as (Et & Hw & H). cbn [fields_write]. fold v. apply calm_bind; [apply IHt; auto|]. intros _. now apply IHf.
    + destruct H as [Hw H]. cbn [fields_write]. fold v. intros w Hb. apply wp_bind.
      eapply wp_mono; [|eapply (field_calm c a t stored ctx acc v _ (fun args x => write_ty cu t args x) Hw Hv); [|exact Hb]].
      * intros [] w' [Hb' HA]. cbv beta. apply IHf; auto.
      * intros args Tv Sv. now apply IHt.
  - intros e ctx idok wid k l _ H. now destruct k.
  - intros v fs IHf tl IHv e ctx idok wid k l (Hi & Hf & Hv) Ht Hw. destruct k as [|k]; cbn [variant_typed_in] in Ht.
    + cbn [variant_write]. apply calm_bind; [|intros _; apply IHf; [now apply Hf|exact Ht]]. unfold write_id.
      destruct (en_id e); [apply calm_ret|]. destruct (v_sel v) as [x|p d|x]; [now apply Hw| |now apply Hw].
      destruct fs; cbn [no_fields]; [|apply calm_ret]. destruct (Hi eq_refl) as (x & -> & Hx). now apply Hw.
    + eapply IHv; [exact Hv|exact Ht|exact Hw].
Qed.
End G.

(** The API. *)
Theorem wsafe_writer {named} cu growing t args v : wsafe_ty_in named cu growing t args -> typed_in named t v -> writes_safely growing (write_ty cu t args v).
Proof. intros H Ht. apply calm_safely. now apply (types_calm named). Qed.
Theorem wsafe_sink {named} cu growing t args v k : wsafe_ty_in named cu growing t args -> typed_in named t v -> sink_is growing k ->
  match fst ((let* _ := write_ty cu t args v in finalize) (writer_new k)) with Ok _ => True | Err e => error_is growing e | Panic | Diverge => False end.
Proof.
  intros H Ht Hk. assert (HB : between growing (writer_new k)) by (split; [cbn; lia|exact Hk]).
  assert (HC : calm growing (let* _ := write_ty cu t args v in finalize)).
  { apply calm_bind; [now apply (types_calm named)|]. intros _. apply calm_finalize. }
  specialize (HC _ HB). unfold wp in HC. destruct (bind _ _ _) as [[]]; cbn; auto.
Qed.
Theorem wsafe_to_bytes {named} cu growing t v : wsafe_ty_in named cu growing t [] -> typed_in named t v ->
  match to_bytes cu t v with Ok _ => True | Err e => error_is growing e | Panic | Diverge => False end.
Proof.
  intros H Ht. assert (Hk : sink_is growing vec_sink) by (intros _; split; reflexivity).
  generalize (wsafe_sink cu growing t [] v vec_sink H Ht Hk). unfold to_bytes, to_bytes_with. destruct (bind _ _ _) as [[]]; cbn; auto.
Qed.

Theorem wsafe_to_slice {named} cu t v buf : wsafe_ty_in named cu false t [] -> typed_in named t v -> fst (to_slice cu t v buf) <> Panic /\ fst (to_slice cu t v buf) <> Diverge.
Proof.
  intros H Ht. assert (Hk : sink_is false (slice_sink buf)) by discriminate.
  generalize (wsafe_sink cu false t [] v (slice_sink buf) H Ht Hk). unfold to_slice, to_slice_with. destruct (bind _ _ _) as [[]]; cbn; try contradiction; now split.
Qed.
Theorem wsafe_to_bits {named} cu growing t v : wsafe_ty_in named cu growing t [] -> typed_in named t v ->
  match to_bits cu t v with Ok _ => True | Err e => error_is growing e | Panic | Diverge => False end.
Proof.
  intros H Ht. assert (HB : between growing (writer_new vec_sink)) by (split; [cbn; lia|intros _; split; reflexivity]).
  generalize (proj1 (types_calm named cu growing) t [] v H Ht _ HB). unfold wp, to_bits, to_bits_with. destruct (write_ty cu t [] v _) as [[]]; cbn; auto.
Qed.
Theorem wsafe_bytes cu t v : wsafe_type cu t -> typed t v -> to_bytes cu t v <> Panic /\ to_bytes cu t v <> Diverge.
Proof. intros H Ht. generalize (wsafe_to_bytes cu false t v H Ht). destruct (to_bytes cu t v); try contradiction; now split. Qed.
Theorem wsafe_bits cu t v : wsafe_type cu t -> typed t v -> to_bits cu t v <> Panic /\ to_bits cu t v <> Diverge.
Proof. intros H Ht. generalize (wsafe_to_bits cu false t v H Ht). destruct (to_bits cu t v); try contradiction; now split. Qed.
Theorem wsafe_any cu t args v : wsafe_ty cu false t args -> typed t v ->
  writes_safely false (write_ty cu t args v) /\
  forall k, let x := fst ((let* _ := write_ty cu t args v in finalize) (writer_new k)) in x <> Panic /\ x <> Diverge.
Proof.
  intros H Ht. split; [now apply (wsafe_writer (named := any_value))|]. intros k x. assert (Hk : sink_is false k) by discriminate.
  generalize (wsafe_sink cu false t args v k H Ht Hk). subst x. destruct (fst _); try contradiction; now split.
Qed.
Theorem wsafe_errors cu t v : wsafe_ty cu true t [] -> typed t v ->
  (exists b, to_bytes cu t v = Ok b) \/ to_bytes cu t v = Err InvalidParam \/ to_bytes cu t v = Err Assertion.
Proof.
  intros H Ht. generalize (wsafe_to_bytes cu true t v H Ht). destruct (to_bytes cu t v) as [b|e| |]; try contradiction; [eauto|].
  intros He. destruct (He eq_refl) as [-> | ->]; auto.
Qed.
Theorem wsafe_read cu fuel t input bit rest v : flow_type cu t -> wsafe_type cu t -> bit < 8 -> 8 * length input + 8 < fuel ->
  from_bytes cu fuel t input bit = Ok (rest, v) -> to_bytes cu t v <> Panic /\ to_bytes cu t v <> Diverge.
Proof. intros Hs Hw Hb Hf E. apply wsafe_bytes; [exact Hw|]. exact (proj2 (proj2 (flow_from_bytes cu fuel t input bit Hs Hb Hf)) rest v E). Qed.
