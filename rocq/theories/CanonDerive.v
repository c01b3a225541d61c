(** Derived writers give back the bits that were read: types. *)
From Coq Require Import Lia ZifyBool ZifyNat ZifyN.
From Verif Require Import Base Spec Stream Reader Session Writer WSession Prims BitsFacts NFacts MonadFacts ReaderFacts ReaderOps SessionFacts FastRead WriterFacts WriterProps CodecSpec CodecFacts Containers ContainerSpec ContainerFacts Safety PrimFacts PrimProps ContainerProps Derive DeriveSpec DeriveFacts DeriveSound DeriveProps SafeSpec SafeFacts CanonSpec CanonFacts.
Ltac Zify.zify_post_hook ::= Z.div_mod_to_equations.

Section Derive.
Variables (cu : nat -> custom) (o : order) (fuel : nat).

Lemma faithful_and {A} p q (g P : A -> Prop) m wr : faithful o p q g m wr -> (forall r v r', m r = (Ok v, r') -> P v) -> faithful o p q (fun v => g v /\ P v) m wr.
Proof. intros H HP r v r' Hh E. destruct (H r v r' Hh E) as (G & X). split; [split; [exact G|exact (HP _ _ _ E)]|exact X]. Qed.
Lemma faithful_starts {A} p p' q (g : A -> Prop) m wr : ends p p' 0 -> faithful o p' q g m wr -> faithful o p q g m wr.
Proof. intros H HF r v r' Hh E. exact (HF r v r' (here_weak _ _ _ H Hh) E). Qed.
Lemma faithful_at {A} p q (g : A -> Prop) (m : nat -> RM A) (wr : nat -> A -> WM unit) :
  (forall off off', faithful o p q g (m off) (wr off')) -> faithful o p q g (fun r => m (r_bits r) r) (fun v w => wr (w_bits w) v w).
Proof.
  intros H r v r' Hh E. destruct (H (r_bits r) (8 * (r_bits r / 8)) r v r' Hh E) as (G & Hh' & enc & U & B & W).
  split; [exact G|]. split; [exact Hh'|]. exists enc. split; [exact U|]. split; [exact B|]. exact (emits_at_off o (r_bits r) (fun off => wr off v) enc W).
Qed.
Lemma bind_ret_unit {S} (m : ST S unit) s : (let* _ := m in ret tt) s = m s.
Proof. unfold bind. destruct (m s) as [[[]|e| |] s']; reflexivity. Qed.
Lemma bind_ret_any {S A} (m : ST S A) s : (let* v := m in ret v) s = m s.
Proof. unfold bind. destruct (m s) as [[v|e| |] s']; reflexivity. Qed.
Lemma asserts_inv {S} a ctx fs off v (s s' : S) : asserts a ctx fs off v s = (Ok tt, s') -> s' = s /\ assertions a ctx fs off v = true.
Proof.
  unfold asserts, assertions, bind, check. destruct (a_assert a) as [f|]; [destruct (f ctx (fs ++ [v]) off)|]; cbn; try discriminate;
  (destruct (a_assert_eq a) as [h|]; [destruct (value_eqb v (h ctx fs off))|]; cbn; try discriminate); intros E; apply pair_inj in E; destruct E as [_ <-]; auto.
Qed.
Lemma count_len {A} (elem : RM A) f size n r vs r' : vec_read f size elem (LCount n) r = (Ok vs, r') -> size <> 0%N -> N.of_nat (length vs) = n.
Proof.
  cbn [vec_read]. intros E Hz. destruct (N.eqb_spec n 0) as [->|Hn].
  - apply pair_inj in E. destruct E as [E _]. apply ok_inj in E. now subst vs.
  - unfold vec_with_predicate in E. destruct (N.eqb_spec size 0); [contradiction|]. destruct (isize_max <? n * size)%N; [discriminate|].
    destruct (loop_bb elem _ _ _ _ _ _ _ E) as (l & _ & _ & _ & Hs). lia.
Qed.

Definition ty_ok (t : ty) : Prop := forall p q lim args, rewritable cu o p q t lim args ->
  faithful o p q (typed t) (read_ty cu fuel t lim args) (fun v => write_ty cu t args v).
Definition fields_okk (fs : fields) : Prop := forall p q c ctx st acc due, fields_rewritable cu o p q c ctx fs st acc due ->
  forall r vs r', here p r -> fields_read cu fuel c ctx fs None acc r = (Ok vs, r') ->
  fields_typed fs vs /\ due (st ++ vs) /\ here q r' /\
  exists enc, unread_string o (seen r) = enc ++ unread_string o (seen r') /\ r_bits r' = r_bits r + length enc /\
    emits_at o (r_bits r) (fields_write cu c ctx fs None (st ++ vs) vs acc) enc.
Definition fields_ok' (fs : fields) : Prop :=
  fields_okk fs /\ match fs with FNil => True | FCons _ t wire tl => ty_ok t /\ ty_ok wire /\ fields_okk tl end.
Definition variants_ok (vs : variants) : Prop := forall k v fs, nth_variant vs k = Some (v, fs) -> fields_ok' fs.

Lemma write_u8_list args c e o' bs w : pctx_of args = Some c -> bytes_of_ctx 1 c = Some (e, 1, o') ->
  write_list (write_ty cu (TPrim PU8) args) (map (fun b => VNum (to_N b)) bs) w = write_magic bs w.
Proof.
  intros Hc Hb. rewrite <- (magic_list bs c e o' w Hb).
  enough (HG : forall l w, write_list (write_ty cu (TPrim PU8) args) (map VNum l) w = write_list (prim_write PU8 c) l w).
  { rewrite <- HG. now rewrite map_map. }
  clear w. induction l as [|x l IH]; intros w; [reflexivity|]. cbn [map write_list].
  replace (write_ty cu (TPrim PU8) args (VNum x)) with (prim_write PU8 c x) by (cbn [write_ty]; unfold with_pctx; now rewrite Hc).
  unfold bind. destruct (prim_write PU8 c x w) as [[[]|e1| |] w1]; auto.
Qed.

Lemma field_faithful p q c a t wire ctx acc stored :
  ty_ok wire -> field_ok o p q c a t wire ctx acc (fun lim args => rewritable cu o p q wire lim args) ->
  faithful o p q (fun v => typed t v /\ known a t ctx acc v)
    (read_field c a (is_vec_u8 t) ctx acc (fun lim args => read_ty cu fuel wire lim args))
    (fun v => write_field c a stored ctx acc v (fun args x => write_ty cu t args x)).
Proof.
  intros IH (Hseek & Hmag & Hpb & Hpa & Htmp & Hst & Hf). unfold read_field, write_field. rewrite Hseek, Hpb.
  cbn [option_map read_seek write_seek read_pad write_pad].
  set (cr := fun off => let* v := field_read_tokens a ctx acc off (field_read_normal a ctx acc off (field_read_func c a (is_vec_u8 t) ctx acc off (fun lim args => read_ty cu fuel wire lim args))) in
     let* _ := asserts a ctx acc off v in
     let* _ := read_pad (eval0 (a_pad_after a) ctx (acc ++ [v])) (field_order c a ctx acc) in ret v).
  set (cw := fun off v => let* _ := asserts a ctx acc off v in
       let* _ := field_write_tokens a ctx acc off (field_write_func c a stored ctx acc off v (fun args x => write_ty cu t args x)) in
       write_pad (eval0 (a_pad_after a) ctx (acc ++ [v])) (field_order c a ctx acc)).
  change (faithful o p q (fun v => typed t v /\ known a t ctx acc v) (let* _ := read_magic (a_magic a) in fun r => cr (r_bits r) r)
    (fun v => let* _ := write_magic (a_magic a) in fun w => cw (w_bits w) v w)).
  eapply faithful_bind with (m0 := p) (g := fun _ => True) (w1 := fun _ => write_magic (a_magic a))
    (w2 := fun _ v w => cw (w_bits w) v w); [now apply magic_faithful| |intros; reflexivity].
  intros [] _. apply (faithful_at p q _ cr cw). unfold cr, cw. clear cr cw.
  intros off off'.
  set (counted := fun v => forall f plain size elem, always_read a = true -> a_map a = None -> a_limit a = Some (FCount f) -> t = TVec plain size elem -> hashed plain = false -> size <> 0%N ->
      exists xs, v = VList xs /\ Z.of_nat (length xs) = f ctx acc off).
  eapply faithful_filter with (g := fun v => typed t v /\ counted v)
    (wr := fun v => field_write_tokens a ctx acc off' (field_write_func c a stored ctx acc off' v (fun args x => write_ty cu t args x))).
  2:{ intros v b r r' [Gt Gc] E. apply bind_inv in E. destruct E as ([] & r1 & E1 & E2). apply asserts_inv in E1. destruct E1 as [-> Ha].
      rewrite (Hpa v Gt) in E2. cbn [read_pad] in E2. rewrite bind_ret_l in E2. apply pair_inj in E2. destruct E2 as [E2 <-]. apply ok_inj in E2. subst b.
      split; [reflexivity|]. split; [split; [exact Gt|exists off; split; [exact Ha|exact Gc]]|]. intros w.
      destruct (Hst off off') as (Hs1 & _ & _). rewrite Hs1 in Ha. rewrite (bind_ok _ _ _ _ _ (asserts_ok a ctx acc off' v w Ha)).
      rewrite (Hpa v Gt). cbn [write_pad]. apply bind_ret_unit. }
  destruct (Hst off off') as (_ & Hcd & Har). rewrite read_tokens_eq. specialize (Hf off). cbv zeta in Hf.
  change (option_map (fun f : expr bool => f ctx acc off) (a_cond a)) with (cond_at a ctx acc off).
  eapply faithful_ext with (wr' := fun v => if is_written (a_skip a) (cond_at a ctx acc off) then field_write_func c a stored ctx acc off' v (fun args x => write_ty cu t args x) else ret tt);
    [intros r; reflexivity|intros v w; rewrite write_tokens_eq; change (option_map (fun f : expr bool => f ctx acc off') (a_cond a)) with (cond_at a ctx acc off'); now rewrite Hcd|].
  destruct (is_read (a_skip a) (cond_at a ctx acc off)) eqn:Hrd.
  2:{ destruct Hf as (Ht & He & Hw). apply faithful_ret; [exact He| |].
      - split; [exact Ht|]. intros f plain size elem Hal. exfalso. unfold always_read, is_read, cond_at in *.
        destruct (a_reader a), (a_skip a) as [[]|], (a_cond a); cbn in *; discriminate.
      - intros pos. destruct (is_written (a_skip a) (cond_at a ctx acc off)); [|apply emits_at_ret]. destruct (Hw eq_refl) as [Hwr Hn].
        unfold field_write_func. rewrite Hwr. pose proof (writes_nothing_ok o cu t _ Hn) as HW. destruct (a_temp a); [|apply HW].
        destruct (a_temp_value a); [apply HW|apply emits_at_ret]. }
  destruct (is_written (a_skip a) (cond_at a ctx acc off)) eqn:Hwt; [|contradiction]. destruct Hf as (Hmap & Hwire & Hf). subst wire.
  unfold field_read_normal. rewrite Hmap. eapply faithful_ext; [intros r; apply bind_ret_any|reflexivity|].
  unfold field_read_func, field_write_func. destruct (a_reader a) as [fr|] eqn:Erd, (a_writer a) as [fw|] eqn:Ewr; try contradiction.
  { eapply faithful_good; [apply Hf|]. intros v Hv. split; [exact Hv|]. intros f plain size elem Hal. unfold always_read in Hal. rewrite Erd in Hal. discriminate. }
  eapply faithful_ext with (wr' := fun v => write_ty cu t (field_args c a ctx acc off) v); [reflexivity| |].
  { intros v w. rewrite <- Har. destruct (a_temp a) eqn:Et; [|reflexivity]. destruct (a_temp_value a) eqn:Ev; [reflexivity|]. now destruct (Htmp eq_refl). }
  destruct (a_limit a) as [l|] eqn:El.
  2:{ eapply faithful_good; [now apply IH|]. intros v Hv. split; [exact Hv|]. intros f plain size elem _ _ Hl. congruence. }
  destruct (eval_limit l ctx acc off) as [lim|e| |] eqn:Ee; [|intros r v r' _ E; discriminate|intros r v r' _ E; discriminate|intros r v r' _ E; discriminate].
  eapply faithful_ext; [intros r; apply bind_ret_l|reflexivity|].
  assert (HC : forall f n, Some l = Some (FCount f) -> lim = LCount n -> Z.of_N n = f ctx acc off).
  { intros f n [= ->] ->. cbn [eval_limit] in Ee. unfold to_usize in Ee. destruct ((f ctx acc off <? 0)%Z || (Z.of_N usize_max <? f ctx acc off)%Z) eqn:Eu; [discriminate|].
    injection Ee as <-. lia. }
  assert (HGen : rewritable cu o p q t (Some lim) (field_args c a ctx acc off) ->
    faithful o p q (fun v => typed t v /\ counted v) (read_ty cu fuel t (Some lim) (field_args c a ctx acc off)) (fun v => write_ty cu t (field_args c a ctx acc off) v)).
  { intros Hrw. apply faithful_and; [now apply IH|]. intros r v r' E f plain size elem _ _ Hl -> Hk Hz. cbn [read_ty] in E. unfold slot_size in E. rewrite Hk in E. apply bind_inv in E.
    destruct E as (xs & r1 & E1 & E2). apply pair_inj in E2. destruct E2 as [E2 _]. apply ok_inj in E2. rewrite collect_vec in E2 by exact Hk. subst v. exists xs. split; [reflexivity|].
    assert (Hn : exists n, lim = LCount n).
    { injection Hl as ->. cbn [eval_limit] in Ee. destruct (to_usize (f ctx acc off)); [|discriminate]. injection Ee as <-. eauto. }
    destruct Hn as [n ->]. rewrite <- (HC f n Hl eq_refl). rewrite <- (count_len _ _ _ _ _ _ _ E1 Hz). lia. }
  destruct (is_vec_u8 t) eqn:Eu; [|destruct lim; now apply HGen].
  destruct lim as [n| | | |]; try (now apply HGen). destruct Hf as (-> & He & c0 & e0 & o0 & Hc0 & Hb0).
  unfold is_vec_u8 in Eu. destruct t as [| | | | | | | |pl size t| | |]; try discriminate. destruct pl; [|discriminate..]. destruct t as [pr| | | | | | | | | | |]; try discriminate.
  destruct pr; try discriminate.
  eapply faithful_map; [apply exact_faithful; exact He| |].
  - intros bs Hbs. cbv beta in Hbs. split.
    + cbn [typed_in vec_of_bytes]. split; [|now apply distinct_vec]. apply Forall_forall. intros x Hx. apply in_map_iff in Hx. destruct Hx as (b & <- & _). exact (to_N_lt b).
    + intros f plain sz elem _ _ Hl _ _ _. exists (map (fun b => VNum (to_N b)) bs). split; [reflexivity|]. rewrite map_length, <- (HC f n Hl eq_refl). lia.
  - intros bs _ w. cbn [vec_of_bytes]. change (write_ty cu (TVec KVec size (TPrim PU8)) (field_args c a ctx acc off) (VList (map (fun b => VNum (to_N b)) bs)) w)
      with (write_list (write_ty cu (TPrim PU8) (field_args c a ctx acc off)) (map (fun b => VNum (to_N b)) bs) w).
    exact (write_u8_list _ c0 e0 o0 bs w Hc0 Hb0).
Qed.

(** ** Fields *)

Lemma fields_cons a t wire tl : ty_ok wire -> fields_okk tl -> fields_okk (FCons a t wire tl).
Proof.
  intros IHw IHtl p q c ctx st acc due (m & Hf & Hrest) r vs r' Hh E. rewrite read_cons in E. apply bind_inv in E.
  destruct E as (v & r1 & E1 & E). apply bind_inv in E. destruct E as (vs' & r2 & E2 & E3).
  apply pair_inj in E3. destruct E3 as [E3 <-]. apply ok_inj in E3.
  set (st' := if a_temp a then st else st ++ [v]) in *.
  assert (Hst : st ++ vs = st' ++ vs') by (unfold st'; subst vs; destruct (a_temp a); [reflexivity|now rewrite <- app_assoc]).
  pose proof (field_faithful p m c a t wire ctx acc (st ++ vs) IHw Hf) as HF.
  destruct (HF r v r1 Hh E1) as ([Ht Hk] & H1 & enc1 & U1 & B1 & W1).
  destruct (IHtl m q c ctx st' (acc ++ [v]) _ (Hrest v Ht Hk) r1 vs' r2 H1 E2) as (Ht2 & [Hd Htv] & H2 & enc2 & U2 & B2 & W2).
  rewrite <- Hst in Hd, Htv, W2. split.
  { cbn [fields_typed_in]. subst vs. destruct (a_temp a); [exact Ht2|split; assumption]. }
  split; [exact Hd|]. split; [exact H2|]. exists (enc1 ++ enc2). split; [rewrite U1, U2; now rewrite app_assoc|]. split; [rewrite app_length; lia|].
  rewrite write_cons.
  assert (Hv : field_value a (st ++ vs) vs ctx acc = v).
  { unfold field_value. destruct (a_temp a) eqn:Et.
    - destruct (a_temp_value a) as [f|] eqn:Ev; [now apply Htv|]. destruct Hf as (_ & _ & _ & _ & Htmp & _). now destruct (Htmp Et).
    - now subst vs. }
  assert (Hr : field_rest a vs = vs') by (unfold field_rest; subst vs; destruct (a_temp a); reflexivity).
  rewrite Hv, Hr. apply emits_at_bind; [exact W1|]. rewrite <- B1. exact W2.
Qed.
Lemma fields_nil : fields_okk FNil.
Proof.
  intros p q c ctx st acc due [He Hd] r vs r' Hh E. cbn [fields_read] in E. apply pair_inj in E. destruct E as [E <-]. apply ok_inj in E. subst vs.
  rewrite app_nil_r. split; [reflexivity|]. split; [exact Hd|]. split; [exact (here_weak _ _ _ He Hh)|]. exists []. split; [reflexivity|].
  split; [cbn; lia|apply emits_at_ret].
Qed.
Lemma fields_faithful fs p q c ctx : fields_okk fs -> fields_rewritable cu o p q c ctx fs [] [] (fun _ => True) ->
  faithful o p q (fields_typed fs) (fields_read cu fuel c ctx fs None []) (fun l => fields_write cu c ctx fs None l l []).
Proof.
  intros H Hf r l r' Hh E. destruct (H p q c ctx [] [] _ Hf r l r' Hh E) as (Ht & _ & H' & X). split; [exact Ht|]. split; [exact H'|exact X].
Qed.
Lemma bare_read c a t wire ctx args r v r' : bare c a ctx args ->
  read_field c a (is_vec_u8 t) ctx [] (fun lim args => read_ty cu fuel wire lim args) r = (Ok v, r') ->
  read_ty cu fuel wire None args r = (Ok v, r') /\ known a t ctx [] v.
Proof.
  intros (Hs & Hm & Hb & Ha & Hl & Hmap & Hrd & Hsk & Hc & Ht & Harg) E. unfold read_field in E. rewrite Hs, Hm, Hb in E.
  cbn [option_map read_seek read_magic read_pad] in E. unfold bind at 1, ret at 1 in E. unfold bind at 1, ret at 1 in E. unfold bind at 1, ret at 1 in E.
  apply bind_inv in E. destruct E as (x & r1 & E1 & E). apply bind_inv in E. destruct E as ([] & r2 & E2 & E).
  apply asserts_inv in E2. destruct E2 as [-> HA]. cbn [app] in E. rewrite Ha in E. cbn [read_pad] in E. rewrite bind_ret_l in E.
  apply pair_inj in E. destruct E as [E <-]. apply ok_inj in E. subst x.
  unfold field_read_tokens, field_read_normal, field_read_func in E1. rewrite Hsk, Hc, Hmap, Hrd, Hl, Harg in E1. rewrite bind_ret_any in E1.
  split; [exact E1|]. exists (r_bits r). split; [exact HA|]. intros f plain size elem _ _ Hl'. congruence.
Qed.

(** ** Variants *)

Definition variant_cond p q e ctx id idt v fs : Prop :=
  match en_id e, v_sel v, fs with
  | Some _, SPat _ _, FCons a t wire rest =>
      wire = t /\ bare (en_c e) a ctx (stored_id_args e ctx) /\
      exists m, rewritable cu o p m wire None (stored_id_args e ctx) /\
      forall x, typed t x -> known a t ctx [] x -> fields_rewritable cu o m q (en_c e) ctx rest [x] [x] (fun _ => True)
  | Some _, _, _ => fields_rewritable cu o p q (en_c e) ctx fs [] [] (fun _ => True)
  | None, SPat _ d, FNil => d = Some id /\ ends p q 0
  | None, SPat _ _, FCons a t _ rest =>
      a_reader a = None /\ a_temp a = false /\ t = idt /\
      (forall w, write_ty cu t (stored_id_args e ctx) id w = write_ty cu t (id_args e ctx) id w) /\
      fields_rewritable cu o p q (en_c e) ctx rest [id] [id] (fun _ => True)
  | None, SId x, _ | None, SDisc x, _ => x = id /\ fields_rewritable cu o p q (en_c e) ctx fs [] [] (fun _ => True)
  end.
Lemma nth_cond p q e ctx id idt vs : variants_rewritable cu o p q e ctx id idt vs -> forall k v fs, nth_variant vs k = Some (v, fs) ->
  matches (v_sel v) id || v_default v = true -> variant_cond p q e ctx id idt v fs.
Proof.
  induction vs as [|v0 fs0 tl IH]; intros [H1 H2] || intros _; intros k v fs Hn; [destruct k; discriminate|].
  destruct k as [|k]; [|exact (IH H2 k v fs Hn)]. cbn in Hn. injection Hn as <- <-. exact H1.
Qed.
Lemma selected_nth vs id k : selected vs id = Some k -> exists v fs, nth_variant vs k = Some (v, fs) /\ matches (v_sel v) id || v_default v = true.
Proof.
  intros H. apply selected_chosen in H. destruct H as [[(v & fs & Hn & Hm) _]|(_ & (v & fs & Hn & Hm) & _)]; exists v, fs; (split; [exact Hn|]); rewrite Hm; [reflexivity|apply orb_true_r].
Qed.
Lemma variant_typed_nth vs : forall k v fs l, nth_variant vs k = Some (v, fs) -> fields_typed fs l -> variant_typed vs k l.
Proof.
  induction vs as [|v0 fs0 tl IH]; intros [|k] v fs l Hn Hl; try discriminate; cbn in Hn |- *; [injection Hn as <- <-; exact Hl|exact (IH k v fs l Hn Hl)].
Qed.

Section Variant.
Variables (e : eattrs) (idt : ty) (ctx : list value) (v : vattrs) (fs : fields).
Hypothesis Hfs : fields_ok' fs.
Let wfs l := fields_write cu (en_c e) ctx fs (match v_sel v with SPat _ _ => Some (stored_id_args e ctx) | _ => None end) l l [].
Let wid := fun args x => write_ty cu idt args x.

(** Without an id of its own. *)
Lemma variant_given f p q id : en_id e = Some f -> variant_cond p q e ctx id idt v fs ->
  faithful o p q (fields_typed fs) (fields_read cu fuel (en_c e) ctx fs (if stores_id e v then Some id else None) [])
    (fun l => let* _ := write_id e v fs ctx wid in wfs l).
Proof.
  intros He Hc. unfold stores_id, write_id, variant_cond in *. rewrite He in *. destruct Hfs as [HF HC].
  eapply faithful_ext with (wr' := wfs); [reflexivity|intros l w; apply (bind_ret_l tt (fun _ => wfs l) w)|]. unfold wfs.
  destruct (v_sel v) as [x|pt d|x]; [apply fields_faithful; assumption| |apply fields_faithful; assumption].
  destruct fs as [|a t wire tl].
  { eapply faithful_ext; [reflexivity| |apply fields_faithful; eassumption]. reflexivity. }
  destruct Hc as (-> & Hbare & m & Hrw & Hrest). destruct HC as (_ & IHt & IHtl). pose proof Hbare as (_ & _ & _ & _ & _ & _ & Hrd & _ & _ & Htmp & _).
  intros r l r' Hh E. rewrite read_cons in E. apply bind_inv in E. destruct E as (x & r1 & E1 & E). apply bind_inv in E. destruct E as (l' & r2 & E2 & E3).
  apply pair_inj in E3. destruct E3 as [E3 <-]. apply ok_inj in E3. rewrite Htmp in E3. subst l.
  destruct (bare_read _ _ t _ _ _ _ _ _ Hbare E1) as [E1' Hk]. destruct (IHt _ _ _ _ Hrw r x r1 Hh E1') as (Ht & H1 & enc1 & U1 & B1 & W1).
  cbn [app] in E2. destruct (IHtl m q (en_c e) ctx [x] [x] _ (Hrest x Ht Hk) r1 l' r2 H1 E2) as (Ht2 & _ & H2 & enc2 & U2 & B2 & W2).
  split; [cbn [fields_typed_in]; rewrite Htmp; split; assumption|]. split; [exact H2|]. exists (enc1 ++ enc2). split; [rewrite U1, U2; now rewrite app_assoc|].
  split; [rewrite app_length; lia|]. rewrite write_cons. unfold field_value, field_rest. rewrite Htmp. cbn [hd List.tl app].
  apply emits_at_bind; [exact W1|]. rewrite <- B1. exact W2.
Qed.
(** After its id. *)
Lemma variant_read p q id : en_id e = None -> variant_cond p q e ctx id idt v fs -> forall r l r', here p r ->
  fields_read cu fuel (en_c e) ctx fs (if stores_id e v then Some id else None) [] r = (Ok l, r') -> typed idt id ->
  fields_typed fs l /\ here q r' /\
  exists enc, unread_string o (seen r) = enc ++ unread_string o (seen r') /\ r_bits r' = r_bits r + length enc /\
    forall pos i, emits_at o pos (write_ty cu idt (id_args e ctx) id) i -> r_bits r = pos + length i ->
      emits_at o pos (let* _ := write_id e v fs ctx wid in wfs l) (i ++ enc).
Proof.
  intros He Hc r l r' Hh E Hid. unfold stores_id, write_id, variant_cond in *. rewrite He in *. destruct Hfs as [HF HC]. unfold wfs, wid.
  assert (HS : forall x, x = id /\ fields_rewritable cu o p q (en_c e) ctx fs [] [] (fun _ => True) ->
    fields_read cu fuel (en_c e) ctx fs None [] r = (Ok l, r') ->
    fields_typed fs l /\ here q r' /\
    exists enc, unread_string o (seen r) = enc ++ unread_string o (seen r') /\ r_bits r' = r_bits r + length enc /\
      forall pos i, emits_at o pos (write_ty cu idt (id_args e ctx) id) i -> r_bits r = pos + length i ->
        emits_at o pos (let* _ := write_ty cu idt (id_args e ctx) x in fields_write cu (en_c e) ctx fs None l l []) (i ++ enc)).
  { intros x [-> Hx] E0. destruct (fields_faithful _ _ _ _ _ HF Hx r l r' Hh E0) as (Ht & H1 & enc & U & B & W). split; [exact Ht|]. split; [exact H1|].
    exists enc. split; [exact U|]. split; [exact B|]. intros pos i Wi Hp. apply emits_at_bind; [exact Wi|]. rewrite <- Hp. exact W. }
  destruct (v_sel v) as [x|pt d|x]; [exact (HS x Hc E)| |exact (HS x Hc E)]. clear HS.
  destruct fs as [|a t wire tl].
  - destruct Hc as [-> Hq]. cbn [fields_read] in E. apply pair_inj in E. destruct E as [E <-]. apply ok_inj in E. subst l.
    split; [reflexivity|]. split; [exact (here_weak _ _ _ Hq Hh)|]. exists []. split; [reflexivity|]. split; [cbn; lia|]. intros pos i Wi _.
    cbn [no_fields fields_write]. rewrite app_nil_r. apply (emits_at_ext o pos _ _ _ (fun w => eq_sym (bind_ret_unit _ w))). exact Wi.
  - destruct Hc as (Hrd & Htmp & -> & Hargs & Hrest). destruct HC as (_ & _ & IHtl). rewrite read_cons, Hrd, bind_ret_l in E.
    apply bind_inv in E. destruct E as (l' & r2 & E2 & E3). apply pair_inj in E3. destruct E3 as [E3 <-]. apply ok_inj in E3. rewrite Htmp in E3. subst l.
    cbn [app] in E2. destruct (IHtl p q (en_c e) ctx [id] [id] _ Hrest r l' r2 Hh E2) as (Ht2 & _ & H2 & enc2 & U2 & B2 & W2).
    split; [cbn [fields_typed_in]; rewrite Htmp; split; assumption|]. split; [exact H2|]. exists enc2. split; [exact U2|]. split; [exact B2|].
    intros pos i Wi Hp. cbn [no_fields]. apply emits_at_nil_bind; [apply emits_at_ret|]. rewrite write_cons. unfold field_value, field_rest. rewrite Htmp. cbn [hd List.tl app].
    apply emits_at_bind; [exact (emits_at_ext o pos _ _ _ (fun w => eq_sym (Hargs w)) Wi)|]. rewrite <- Hp. exact W2.
Qed.
End Variant.

Lemma enum_ok e idt vs : ty_ok idt -> variants_ok vs -> ty_ok (TEnum e idt vs).
Proof.
  intros IHid IHvs p q lim args [Hm H]. set (ctx := ctx_args (en_c e) args) in *. rewrite read_enum.
  set (rest := let* id := match en_id e with Some f => ret (f ctx) | None => read_ty cu fuel idt None (id_args e ctx) end in variants_read cu fuel e ctx id vs 0 None).
  eapply faithful_bind with (m0 := p) (g := fun _ => True) (w1 := fun _ => write_magic (c_magic (en_c e)))
    (w2 := fun _ v => match v with VVar k l => variant_write cu e ctx (fun args x => write_ty cu idt args x) vs k l | _ => panic end);
    [now apply magic_faithful| |].
  2:{ intros [] v _ Hv _ w. destruct v; try contradiction. reflexivity. }
  intros [] _. fold rest. intros r v r' Hh E. unfold rest in E. clear rest. apply bind_inv in E. destruct E as (id & r1 & E1 & E2).
  rewrite variants_read_selected in E2. destruct (selected vs id) as [k|] eqn:Ek; [|discriminate].
  destruct (selected_nth _ _ _ Ek) as (va & fs & Hn & Hsel). unfold nth_body in E2. rewrite Hn in E2. unfold variant_body in E2.
  apply bind_inv in E2. destruct E2 as (l & r2 & E2 & E3). apply pair_inj in E3. destruct E3 as [E3 <-]. apply ok_inj in E3. subst v.
  destruct (en_id e) as [f|] eqn:Ee.
  - apply pair_inj in E1. destruct E1 as [E1 <-]. apply ok_inj in E1. subst id.
    pose proof (nth_cond _ _ _ _ _ _ _ H _ _ _ Hn Hsel) as Hc.
    destruct (variant_given e idt ctx va fs (IHvs _ _ _ Hn) f p q _ Ee Hc r l r2 Hh E2) as (Ht & H2 & enc & U & B & W).
    split; [exact (variant_typed_nth vs k va fs l Hn Ht)|]. split; [exact H2|]. exists enc. split; [exact U|]. split; [exact B|].
    eapply emits_at_ext; [|exact W]. intros w. symmetry. exact (variant_write_nth cu e ctx _ vs k l w va fs Hn).
  - destruct H as (m & Hid & H). destruct (IHid _ _ _ _ Hid r id r1 Hh E1) as (Hit & H1 & i & U1 & B1 & W1).
    pose proof (nth_cond _ _ _ _ _ _ _ (H id Hit) _ _ _ Hn Hsel) as Hc.
    destruct (variant_read e idt ctx va fs (IHvs _ _ _ Hn) m q id Ee Hc r1 l r2 H1 E2 Hit) as (Ht & H2 & enc & U & B & W).
    split; [exact (variant_typed_nth vs k va fs l Hn Ht)|]. split; [exact H2|]. exists (i ++ enc). split; [rewrite U1, U; now rewrite app_assoc|].
    split; [rewrite app_length; lia|]. eapply emits_at_ext; [|exact (W _ _ W1 B1)]. intros w. symmetry. exact (variant_write_nth cu e ctx _ vs k l w va fs Hn).
Qed.

(** ** Types *)

Lemma cstring_ok : ty_ok TCString.
Proof.
  intros p q lim args (-> & Ha & Hb & He). eapply faithful_ends; [|exact He].
  assert (HW : forall c, pctx_of args = Some c -> forall s w, Forall (fun x => match x with VNum n => (0 < n < 256)%N | _ => False end) (map VNum s) ->
    write_ty cu TCString args (VList (map VNum s)) w = write_cstring c s w).
  { intros c Hc s w _. cbn [write_ty]. unfold with_pctx. rewrite Hc, map_map, map_id. reflexivity. }
  destruct Ha as [->|[n ->]]; cbn [read_ty].
  - eapply faithful_map; [apply cstring_faithful with (c := C0); [exact Hb|reflexivity|discriminate]| |].
    + intros s Hs. exact Hs.
    + intros s Hs w. now apply HW.
  - eapply faithful_map; [apply cstring_faithful with (c := CY n); [exact Hb| |discriminate]| |].
    + intros v w. cbn [prim_write write_eyo]. unfold write_e. cbn [prim_bytes]. now rewrite ?to_bytes_1.
    + intros s Hs. exact Hs.
    + intros s Hs w. now apply HW.
Qed.

Theorem types_ok : (forall t, ty_ok t) /\ (forall fs, fields_ok' fs) /\ (forall vs, variants_ok vs).
Proof.
  apply types_ind.
  - intros pr p q lim args (-> & c & Hc & Hok). cbn [read_ty]. unfold with_pctx. rewrite Hc. eapply faithful_map; [apply prim_faithful; exact Hok|intros n Hn; exact Hn|].
    intros n Hn w. cbn [write_ty]. unfold with_pctx. now rewrite Hc.
  - intros p q lim args (-> & c & Hc & Hok). cbn [read_ty]. unfold with_pctx. rewrite Hc. eapply faithful_map; [apply bool_faithful; exact Hok|intros n Hn; exact Hn|].
    intros n Hn w. cbn [write_ty]. unfold with_pctx. now rewrite Hc.
  - intros pr p q lim args (-> & c & Hc & Hok). cbn [read_ty]. unfold with_pctx. rewrite Hc. eapply faithful_map; [apply nonzero_faithful; exact Hok|intros n Hn; exact Hn|].
    intros n Hn w. cbn [write_ty]. unfold with_pctx. now rewrite Hc.
  - intros p q lim args H. cbn [read_ty]. apply faithful_ret; [exact H|exact I|intros pos; apply emits_at_ret].
  - apply cstring_ok.
  - (* Option *) intros t IH p q lim args H. cbn [read_ty]. eapply faithful_map; [apply IH; exact H|intros v Hv; exact Hv|reflexivity].
  - (* pair *) intros a IHa b IHb p q lim args (m & H1 & H2) r v r' Hh E. cbn [read_ty] in E. apply bind_inv in E. destruct E as (x & r1 & E1 & E).
    apply bind_inv in E. destruct E as (y & r2 & E2 & E3). apply pair_inj in E3. destruct E3 as [E3 <-]. apply ok_inj in E3. subst v.
    destruct (IHa _ _ _ _ H1 r x r1 Hh E1) as (Tx & Hh1 & e1 & U1 & B1 & W1). destruct (IHb _ _ _ _ H2 r1 y r2 Hh1 E2) as (Ty & Hh2 & e2 & U2 & B2 & W2).
    split; [split; assumption|]. split; [exact Hh2|]. exists (e1 ++ e2). split; [rewrite U1, U2; now rewrite app_assoc|]. split; [rewrite app_length; lia|].
    cbn [write_ty]. apply emits_at_bind; [exact W1|]. rewrite <- B1. exact W2.
  - (* array *) intros n t IH p q lim args (m & Hp & H & Hq). cbn [read_ty]. eapply faithful_ends; [|exact Hq]. apply faithful_starts with (1 := Hp).
    eapply faithful_map; [apply array_faithful; apply IH; exact H|intros l Hl; exact Hl|reflexivity].
  - (* Vec *) intros pl size t IH p q lim args (Hk & l & m & -> & Hp & H & Hq & He). cbn [read_ty]. eapply faithful_ends; [|exact Hq]. apply faithful_starts with (1 := Hp).
    eapply faithful_map; [apply vec_faithful; [apply IH; exact H|exact He]|intros vs Hl; rewrite collect_vec by exact Hk; exact (conj (proj1 Hl) (distinct_vec pl vs Hk))|intros vs _ w; now rewrite collect_vec by exact Hk].
  - (* struct *) intros c fs [IH _] p q lim args (Hs & Hm & H). rewrite read_struct, Hs. set (ctx := ctx_args c args) in *. cbn [option_map read_seek].
    eapply faithful_ext with (wr' := fun v => write_ty cu (TStruct c fs) args v); [intros r; apply bind_ret_l|reflexivity|].
    eapply faithful_bind with (m0 := p) (g := fun _ => True) (w1 := fun _ => write_magic (c_magic c))
      (w2 := fun _ v => match v with VRec l => fields_write cu c ctx fs None l l [] | _ => panic end); [now apply magic_faithful| |].
    + intros [] _. eapply faithful_map; [apply fields_faithful; [exact IH|exact H]|intros l Hl; exact Hl|reflexivity].
    + intros [] v _ Hv _ w. destruct v; try contradiction. rewrite write_struct, Hs. cbn [option_map write_seek]. now rewrite bind_ret_l.
  - intros e idt IHid vs IH. now apply enum_ok.
  - (* hand-written *) intros k p q lim args [-> H]. exact H.
  - split; [apply fields_nil|exact I].
  - intros a t IHt wire IHw tl [IHtl _]. split; [now apply fields_cons|]. auto.
  - intros k v fs Hn. destruct k; discriminate.
  - intros v fs IHfs tl IH k v0 fs0 Hn. destruct k as [|k]; cbn in Hn; [injection Hn as <- <-; exact IHfs|exact (IH k v0 fs0 Hn)].
Qed.
End Derive.
