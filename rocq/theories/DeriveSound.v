(** Writing produces the wire format of DeriveSpec.v and reading it gives the value back. *)
From Coq Require Import Lia ZifyBool ZifyNat ZifyN.
From Verif Require Import Base Spec Stream Reader Writer BitsFacts NFacts ReaderFacts MonadFacts ReaderOps Session SessionFacts WSession WriterFacts WriterProps.
From Verif Require Import Prims CodecSpec CodecFacts PrimFacts PrimProps Containers ContainerSpec ContainerFacts ContainerProps Derive DeriveSpec DeriveFacts.
Ltac Zify.zify_post_hook ::= Z.div_mod_to_equations.

(** ** Equality *)

Lemma list_eqb_ok {A} (eqb : A -> A -> bool) l m : (forall x y, eqb x y = true -> x = y) -> list_eqb eqb l m = true -> l = m.
Proof.
  intros H. revert m. induction l as [|x l IH]; intros [|y m] E; try discriminate; [reflexivity|].
  cbn in E. apply andb_true_iff in E. destruct E as [E1 E2]. apply H in E1. apply IH in E2. now subst.
Qed.
Section ValueInd.
Variable P : value -> Prop.
Hypotheses (H1 : forall n, P (VNum n)) (H2 : forall b, P (VBool b)) (H3 : forall l, Forall P l -> P (VList l))
  (H4 : forall a b, P a -> P b -> P (VPair a b)) (H5 : forall v, P v -> P (VSome v)) (H6 : P VNone)
  (H7 : forall l, Forall P l -> P (VRec l)) (H8 : forall k l, Forall P l -> P (VVar k l))
  (H9 : forall e, P (VEnd e)) (H10 : forall n, P (VBits n)) (H11 : forall n, P (VBytes n)) (H12 : forall o, P (VOrd o)).
Fixpoint value_ind_list (v : value) : P v :=
  let all := fix all (l : list value) : Forall P l :=
    match l with [] => Forall_nil P | x :: tl => Forall_cons x (value_ind_list x) (all tl) end in
  match v with
  | VNum n => H1 n | VBool b => H2 b | VList l => H3 l (all l) | VPair a b => H4 a b (value_ind_list a) (value_ind_list b)
  | VSome v => H5 v (value_ind_list v) | VNone => H6 | VRec l => H7 l (all l) | VVar k l => H8 k l (all l)
  | VEnd e => H9 e | VBits n => H10 n | VBytes n => H11 n | VOrd o => H12 o
  end.
End ValueInd.
Lemma value_eqb_ok a : forall b, value_eqb a b = true -> a = b.
Proof.
  induction a using value_ind_list; intros b' E; destruct b'; cbn [value_eqb] in E; try discriminate; try reflexivity.
  all: try (apply andb_true_iff in E; destruct E as [E1 E2]).
  all: f_equal; try lia; auto using Bool.eqb_prop, endian_eqb_ok, order_eqb_ok.
  all: match goal with
       | |- ?x = ?y => rename x into L; rename y into M
       end.
  all: first [clear E1; rename E2 into E|idtac]; revert M E; induction H as [|x L Hx _ IHL]; intros [|y M] E; try discriminate; [reflexivity|].
  all: apply andb_true_iff in E; destruct E as [E1 E2]; f_equal; auto.
Qed.
Lemma value_eqb_refl a : value_eqb a a = true.
Proof.
  induction a using value_ind_list; cbn [value_eqb]; try reflexivity; try (now rewrite ?N.eqb_refl, ?Nat.eqb_refl).
  - now destruct b.
  - induction H as [|x l Hx _ IH]; [reflexivity|]. now rewrite Hx, IH.
  - now rewrite IHa1, IHa2.
  - induction H as [|x l Hx _ IH]; [reflexivity|]. now rewrite Hx, IH.
  - rewrite Nat.eqb_refl. cbn [andb]. induction H as [|x l Hx _ IH]; [reflexivity|]. now rewrite Hx, IH.
  - now destruct e.
  - now destruct o.
Qed.
Lemma agree_inv x y e : agree x y = Some e -> x = Some e /\ y = Some e.
Proof.
  unfold agree. destruct x as [a|]; [|discriminate]. destruct y as [b|]; [|discriminate]. intros H. apply guard_inv in H.
  destruct H as [H E]. injection E as <-. apply list_eqb_ok in H; [now subst|]. intros p q. apply Bool.eqb_prop.
Qed.

(** ** Sequences *)

Section Seq.
Variables (src : source) (o : order) (enc : nat -> value -> option (list bool)).
Lemma encode_list_length pos l es : encode_list enc pos l = Some es -> length es = length l.
Proof.
  revert pos es. induction l as [|v l IH]; intros pos es E; cbn [encode_list] in E; [injection E as <-; reflexivity|].
  destruct (enc pos v) as [e|]; [|discriminate]. destruct (encode_list enc _ l) as [es'|] eqn:El; [|discriminate].
  injection E as <-. cbn [length]. f_equal. eapply IH. exact El.
Qed.
Lemma encode_list_firstn k pos l es : encode_list enc pos l = Some es -> encode_list enc pos (firstn k l) = Some (firstn k es).
Proof.
  revert k pos es. induction l as [|v l IH]; intros k pos es E; cbn [encode_list] in E.
  - injection E as <-. destruct k; reflexivity.
  - destruct (enc pos v) as [e|] eqn:Ev; [|discriminate]. destruct (encode_list enc _ l) as [es'|] eqn:El; [|discriminate].
    injection E as <-. destruct k; [reflexivity|]. cbn [firstn encode_list]. rewrite Ev. now rewrite (IH _ _ _ El).
Qed.
Lemma emits_at_list wr pos l es : (forall p v e, enc p v = Some e -> emits_at o p (wr v) e) ->
  encode_list enc pos l = Some es -> emits_at o pos (write_list wr l) (concat es).
Proof.
  intros H. revert pos es. induction l as [|v l IH]; intros pos es E; cbn [encode_list] in E; [injection E as <-; apply emits_at_ret|].
  destruct (enc pos v) as [e|] eqn:Ev; [|discriminate]. destruct (encode_list enc _ l) as [es'|] eqn:El; [|discriminate].
  injection E as <-. cbn [write_list concat]. apply emits_at_bind; [now apply H|now apply IH].
Qed.
Variables (fuel : nat) (rd : RM value).
Hypothesis Hrd : forall p v e, enc p v = Some e -> length e <= fuel -> reads_at src o p rd e v.
Lemma reads_at_bb pos l es : encode_list enc pos l = Some es -> length (concat es) <= fuel ->
  forall r rest, readable src r -> r_at pos r -> unread_string o (seen r) = concat es ++ rest ->
  exists r', back_to_back rd r l r' /\ readable src r' /\ unread_string o (seen r') = rest /\
    r_bits r' = r_bits r + length (concat es) /\ s_data (r_s r') = s_data (r_s r) /\ s_pos (r_s r) <= s_pos (r_s r').
Proof.
  revert pos es. induction l as [|v l IH]; intros pos es E Hl r rest Hr Ha Hu; cbn [encode_list] in E.
  - injection E as <-. exists r. cbn in *. split; [constructor|]. repeat split; try assumption; try lia; apply Hr.
  - destruct (enc pos v) as [e|] eqn:Ev; [|discriminate]. destruct (encode_list enc _ l) as [es'|] eqn:El; [|discriminate].
    injection E as <-. cbn [concat] in *. rewrite app_length in Hl. rewrite <- app_assoc in Hu.
    destruct (Hrd _ _ _ Ev ltac:(lia) r _ Hr Ha Hu) as (r1 & E1 & R1 & U1 & B1 & D1 & P1).
    destruct (IH _ _ El ltac:(lia) r1 rest R1 (r_at_next _ _ _ _ _ _ Ha Hu U1 B1) U1) as (r' & Hb & R' & U' & B' & D' & P').
    exists r'. split; [econstructor; eassumption|]. split; [exact R'|]. split; [exact U'|]. rewrite app_length. repeat split; try congruence; lia.
Qed.
Lemma reads_at_array pos l es : encode_list enc pos l = Some es -> length (concat es) <= fuel ->
  reads_at src o pos (read_array (length l) rd) (concat es) l.
Proof.
  revert pos es. induction l as [|v l IH]; intros pos es E Hl; cbn [encode_list] in E; [injection E as <-; apply reads_at_ret|].
  destruct (enc pos v) as [e|] eqn:Ev; [|discriminate]. destruct (encode_list enc _ l) as [es'|] eqn:El; [|discriminate].
  injection E as <-. cbn [length read_array concat] in *. rewrite app_length in Hl. apply reads_at_bind with (a := v); [apply Hrd; [exact Ev|lia]|].
  apply reads_at_bind_nil with (a := l); [apply IH; [exact El|lia]|apply reads_at_ret].
Qed.

Lemma no_empty_length es : no_empty es = true -> length es <= length (concat es).
Proof.
  induction es as [|e es IH]; intros H; [cbn; lia|]. cbn in H. apply andb_true_iff in H. destruct H as [H1 H2].
  cbn [concat length]. rewrite app_length. specialize (IH H2). lia.
Qed.
Lemma no_empty_prefix k es : no_empty es = true -> k < length es -> length (concat (firstn k es)) < length (concat es).
Proof.
  intros H Hk. rewrite (concat_firstn_skipn k es), app_length.
  assert (Hs : no_empty (skipn k es) = true).
  { unfold no_empty in *. rewrite <- (firstn_skipn k es), forallb_app in H. apply andb_true_iff in H. apply H. }
  apply no_empty_length in Hs. rewrite skipn_length in Hs. lia.
Qed.

Lemma stops_spec size lim l es : l <> [] -> length es = length l -> stops size lim l es = true ->
  proper_limit size lim /\ stop_of lim (length (concat es)) l = true /\
  (forall k, 0 < k < length l -> stop_of lim (length (concat (firstn k es))) (firstn k l) = false) /\
  (match lim with LCount _ => True | _ => length l <= length (concat es) end).
Proof.
  intros Hn HL H. assert (H0 : 0 < length l) by (destruct l; [contradiction|cbn; lia]).
  destruct lim as [n|p|n|n|]; cbn [stops] in H.
  - apply andb_true_iff in H. destruct H. split; [split; lia|]. split; [cbn [stop_of proper_limit]; lia|]. split; [|exact I].
    intros k Hk. cbn [stop_of]. rewrite firstn_length. lia.
  - rewrite !andb_true_iff in H. destruct H as [[[_ H] Hp] Hf]. split; [exact I|]. split; [exact Hp|]. split.
    + intros k Hk. cbn [stop_of]. rewrite forallb_forall in Hf. specialize (Hf k).
      rewrite in_seq in Hf. specialize (Hf ltac:(lia)). destruct (p (firstn k l)); [discriminate|reflexivity].
    + rewrite <- HL. now apply no_empty_length.
  - repeat (apply andb_true_iff in H; destruct H as [H ?]). pose proof (no_empty_length _ H).
    split; [split; lia|]. split; [cbn [stop_of proper_limit]; lia|]. split; [|lia].
    intros k Hk. cbn [stop_of]. pose proof (no_empty_prefix k es H ltac:(lia)). lia.
  - repeat (apply andb_true_iff in H; destruct H as [H ?]). pose proof (no_empty_length _ H).
    split; [cbn [stop_of proper_limit]; lia|]. split; [cbn [stop_of proper_limit]; lia|]. split; [|lia].
    intros k Hk. cbn [stop_of]. pose proof (no_empty_prefix k es H ltac:(lia)). lia.
  - discriminate.
Qed.
Lemma reads_at_vec size lim pos l es : size <> 0%N -> encode_list enc pos l = Some es -> stops size lim l es = true ->
  length (concat es) <= fuel -> reads_at src o pos (vec_read fuel size rd lim) (concat es) l.
Proof.
  intros Hz E Hs Hl. pose proof (encode_list_length _ _ _ E) as HL.
  destruct l as [|v0 l0] eqn:El.
  { cbn in E. injection E as <-. cbn [concat]. destruct lim as [n|p|n|n|]; cbn [stops no_empty forallb concat length Nat.eqb negb andb] in Hs; try discriminate.
    - replace n with 0%N by lia. apply reads_at_ret.
    - replace n with 0%N by lia. apply reads_at_ret.
    - replace n with 0%N by lia. apply reads_at_ret. }
  rewrite <- El in *. assert (Hn : l <> []) by (rewrite El; discriminate). clear El.
  destruct (stops_spec size lim l es Hn HL Hs) as (Hp & Hst & Hi & Hf).
  intros r rest Hr Ha Hu. destruct (reads_at_bb _ _ _ E Hl r rest Hr Ha Hu) as (r' & Hb & R' & U' & B' & D' & P').
  exists r'. split; [|repeat split; try assumption; apply R'].
  assert (Hpre : forall vs1 vs2 r1, l = vs1 ++ vs2 -> back_to_back rd r vs1 r1 ->
    r_bits r1 = r_bits r + length (concat (firstn (length vs1) es)) /\ vs1 = firstn (length vs1) l).
  { intros vs1 vs2 r1 El Hb1.
    assert (E1 : vs1 = firstn (length vs1) l) by (rewrite El; symmetry; apply firstn_length_app).
    pose proof (encode_list_firstn (length vs1) _ _ _ E) as E2. rewrite <- E1 in E2.
    destruct (reads_at_bb _ _ _ E2) with (r := r) (rest := concat (skipn (length vs1) es) ++ rest) as (r2 & Hb2 & _ & _ & B2 & _); try assumption.
    { rewrite (concat_firstn_skipn (length vs1) es), app_length in Hl. lia. }
    { rewrite app_assoc, <- concat_firstn_skipn. exact Hu. }
    rewrite (bb_fun rd _ _ _ _ Hb1 Hb2). split; [exact B2|exact E1]. }
  rewrite vec_read_loop by assumption.
  apply (vec_loop_run rd (stop_of lim) r l _ [] r r'); try assumption; cbn [app].
  - intros vs1 vs2 r1 El Hb1. destruct (Hpre _ _ _ El Hb1) as [Hx _]. lia.
  - constructor.
  - destruct lim; cbn [fuel_of]; try lia. cbn in Hst. lia.
  - rewrite B'. replace (r_bits r + length (concat es) - r_bits r) with (length (concat es)) by lia. exact Hst.
  - intros vs1 vs2 r1 El Hn1 Hn2 Hb1. destruct (Hpre _ _ _ El Hb1) as [Hx Hy]. rewrite Hx, Hy.
    replace (length (firstn (length vs1) l)) with (length vs1) by now rewrite <- Hy.
    replace (r_bits r + _ - r_bits r) with (length (concat (firstn (length vs1) es))) by lia. apply Hi.
    rewrite El, app_length. destruct vs1; [contradiction|]. destruct vs2; [contradiction|]. cbn [length]. lia.
Qed.
End Seq.

(** ** Fields *)

Lemma write_tokens_eq a ctx fs off normal :
  field_write_tokens a ctx fs off normal =
  if is_written (a_skip a) (option_map (fun f : expr bool => f ctx fs off) (a_cond a)) then normal else ret tt.
Proof. unfold field_write_tokens. destruct (a_skip a) as [[]|], (a_cond a) as [f|]; cbn; try reflexivity; destruct (f ctx fs off); reflexivity. Qed.
Lemma read_tokens_eq a ctx fs off normal :
  field_read_tokens a ctx fs off normal =
  if is_read (a_skip a) (option_map (fun f : expr bool => f ctx fs off) (a_cond a)) then normal else ret (a_default a ctx fs off).
Proof. unfold field_read_tokens. destruct (a_skip a) as [[]|], (a_cond a) as [f|]; cbn; try reflexivity; destruct (f ctx fs off); reflexivity. Qed.
Lemma asserts_ok {S} a ctx fs off v (s : S) : assertions a ctx fs off v = true -> asserts a ctx fs off v s = (Ok tt, s).
Proof.
  unfold assertions, asserts. intros H. apply andb_true_iff in H. destruct H as [H1 H2]. unfold bind, check.
  destruct (a_assert a) as [f|]; [rewrite H1|]; cbn; (destruct (a_assert_eq a) as [g|]; [rewrite H2|]; reflexivity).
Qed.

Section Field.
Variables (src : source) (o : order) (fuel : nat) (v : value).
Variables (enc_t enc_w : option (limit value) -> list value -> nat -> option (list bool)).
Variables (wr : list value -> value -> WM unit) (rd : option (limit value) -> list value -> RM value).
Variables (vec_u8 nothing : bool).
Hypothesis Hw : forall lim args p e, enc_t lim args p = Some e -> emits_at o p (wr args v) e.
Hypothesis Hr : forall lim args p e, enc_w lim args p = Some e -> length e <= fuel -> reads_at src o p (rd lim args) e v.
Hypothesis Hnothing : nothing = true -> forall args p, emits_at o p (wr args v) [].
Hypothesis Hbytes : vec_u8 = true -> forall n args p e bs, enc_t (Some (LCount n)) args p = Some e -> byte_values v = Some bs ->
  v = vec_of_bytes bs /\ n = N.of_nat (length bs).

Lemma encode_field_sound c a stored ctx fs pos enc :
  (a_temp a = true -> a_temp_value a <> None) ->
  encode_field src o c a vec_u8 nothing ctx fs pos v enc_t enc_w = Some enc ->
  emits_at o pos (write_field c a stored ctx fs v wr) enc /\
  (length enc <= fuel -> reads_at src o pos (read_field c a vec_u8 ctx fs rd) enc v).
Proof.
  intros Htemp E. unfold encode_field in E.
  destruct (a_seek a) eqn:Es; [discriminate|]. destruct (a_reader a) eqn:Er; [discriminate|]. destruct (a_writer a) eqn:Ew; [discriminate|].
  destruct (encode_magic o pos (a_magic a)) as [m|] eqn:Em; [|discriminate].
  destruct (encode_pad src o (eval0 (a_pad_before a) ctx fs) (field_order c a ctx fs)) as [b|] eqn:Eb; [|discriminate].
  set (p2 := pos + length m + length b) in *. cbv zeta in E.
  match type of E with match guard ?c ?x with _ => _ end = _ => destruct (guard c x) as [body|] eqn:Ebody; [|discriminate] end.
  apply guard_inv in Ebody. destruct Ebody as [Has Ebody]. apply andb_true_iff in Has. destruct Has as [Has1 Has2].
  destruct (encode_pad src o (eval0 (a_pad_after a) ctx (fs ++ [v])) (field_order c a ctx fs)) as [aft|] eqn:Ea; [|discriminate].
  injection E as <-.
  pose proof (write_magic_bytes _ _ _ _ Em) as HM1. pose proof (read_magic_bytes src _ _ _ _ Em) as HM2.
  destruct (encode_pad_sound src o (pos + length m) _ _ _ Eb) as [HB1 HB2]. specialize (HB2 b eq_refl).
  destruct (encode_pad_sound src o (p2 + length body) _ _ _ Ea) as [HA1 HA2]. specialize (HA2 aft eq_refl).
  (* the value itself *)
  assert (HV : emits_at o p2 (field_write_tokens a ctx fs (8 * (p2 / 8)) (field_write_func c a stored ctx fs (8 * (p2 / 8)) v wr)) body /\
    (length body <= fuel -> reads_at src o p2 (field_read_tokens a ctx fs p2 (field_read_normal a ctx fs p2 (field_read_func c a vec_u8 ctx fs p2 rd))) body v)).
  { rewrite write_tokens_eq, read_tokens_eq. clear HM1 HM2 HB1 HB2 HA1 HA2 Ea Eb Em.
    assert (HWF : forall off, field_write_func c a stored ctx fs off v wr = wr (field_args c a ctx fs off) v).
    { intros off. unfold field_write_func. rewrite Ew. destruct (a_temp a); [|reflexivity].
      destruct (a_temp_value a); [reflexivity|]. now specialize (Htemp eq_refl). }
    rewrite HWF.
    destruct (is_read (a_skip a) (option_map (fun f : expr bool => f ctx fs p2) (a_cond a))).
    - destruct (is_written (a_skip a) _); [|discriminate]. apply guard_inv in Ebody. destruct Ebody as [G Ebody].
      apply andb_true_iff in G. destruct G as [G1 G2]. apply list_eqb_ok in G1; [|intros x y; apply value_eqb_ok]. rewrite <- G1.
      assert (HN : forall m0 e, reads_at src o p2 m0 e v -> reads_at src o p2 (field_read_normal a ctx fs p2 m0) e v).
      { intros m0 e H0. unfold field_read_normal. eapply reads_at_bind_nil; [exact H0|]. destruct (a_map a) as [f|].
        - destruct (f ctx fs p2 v) as [v'|x| |]; try discriminate. apply value_eqb_ok in G2. subst v'. apply reads_at_ret.
        - apply reads_at_ret. }
      unfold field_read_func. rewrite Er. destruct (a_limit a) as [l|].
      + destruct (eval_limit l ctx fs p2) as [lim|x| |]; try discriminate.
        assert (HL : forall (f : limit value -> RM value) e, reads_at src o p2 (f lim) e v -> reads_at src o p2 (let* x := lift (Ok lim) in f x) e v).
        { intros f e H0. exact H0. }
        destruct lim as [n|p|n|n|].
        * destruct vec_u8.
          -- destruct (byte_values v) as [bs|] eqn:Ebs; [|discriminate]. apply guard_inv in Ebody. destruct Ebody as [G3 Ebody].
             apply andb_true_iff in G3. destruct G3 as [G3 G4]. apply agree_inv in Ebody. destruct Ebody as [E1 E2]. injection E2 as <-.
             destruct (Hbytes eq_refl _ _ _ _ _ E1 eq_refl) as [Hv Hn]. split; [eapply Hw; exact E1|]. intros Hlen. apply HN, HL.
             rewrite Hv, Hn. eapply reads_at_bind_nil; [|apply reads_at_ret].
             unfold seekable in G3. destruct src; [discriminate|]. pose proof (exact_reads bs) as HX.
             destruct o; [|now apply reads_at_of]. apply reads_at_aligned with (o1 := Lsb0); [|exact HX].
             unfold aligned in G4. apply Nat.eqb_eq. exact G4.
          -- apply agree_inv in Ebody. destruct Ebody as [E1 E2]. split; [eapply Hw; exact E1|]. intros Hlen. apply HN, HL. now apply Hr.
        * apply agree_inv in Ebody. destruct Ebody as [E1 E2]. split; [eapply Hw; exact E1|]. intros Hlen. apply HN, HL. destruct vec_u8; now apply Hr.
        * apply agree_inv in Ebody. destruct Ebody as [E1 E2]. split; [eapply Hw; exact E1|]. intros Hlen. apply HN, HL. destruct vec_u8; now apply Hr.
        * apply agree_inv in Ebody. destruct Ebody as [E1 E2]. split; [eapply Hw; exact E1|]. intros Hlen. apply HN, HL. destruct vec_u8; now apply Hr.
        * apply agree_inv in Ebody. destruct Ebody as [E1 E2]. split; [eapply Hw; exact E1|]. intros Hlen. apply HN, HL. destruct vec_u8; now apply Hr.
      + apply agree_inv in Ebody. destruct Ebody as [E1 E2]. split; [eapply Hw; exact E1|]. intros Hlen. apply HN. now apply Hr.
    - apply guard_inv in Ebody. destruct Ebody as [G Ebody]. apply andb_true_iff in G. destruct G as [G1 G2].
      injection Ebody as <-. apply value_eqb_ok in G1. rewrite <- G1. split; [|intros _; apply reads_at_ret].
      destruct (is_written (a_skip a) _); [|apply emits_at_ret]. now apply Hnothing. }
  destruct HV as [HV1 HV2]. split.
  - unfold write_field. rewrite Es. cbn [option_map write_seek]. apply emits_at_nil_bind; [apply emits_at_ret|].
    apply emits_at_bind; [exact HM1|]. apply emits_at_bind; [exact HB1|]. fold p2.
    apply (emits_at_off o p2 (fun off => let* _ := asserts a ctx fs off v in
       let* _ := field_write_tokens a ctx fs off (field_write_func c a stored ctx fs off v wr) in
       write_pad (eval0 (a_pad_after a) ctx (fs ++ [v])) (field_order c a ctx fs))).
    apply emits_at_nil_bind.
    { apply (emits_at_ext o p2 (ret tt)); [|apply emits_at_ret]. intros w. symmetry. now apply asserts_ok. }
    apply emits_at_bind; [exact HV1|exact HA1].
  - rewrite !app_length. intros Hlen. unfold read_field. rewrite Es. cbn [option_map read_seek].
    apply reads_at_nil_bind with (a := tt); [apply reads_at_ret|].
    apply reads_at_bind with (a := tt); [exact HM2|]. apply reads_at_bind with (a := tt); [exact HB2|]. fold p2.
    apply (reads_at_off src o p2 (fun off => let* v := field_read_tokens a ctx fs off
                 (field_read_normal a ctx fs off (field_read_func c a vec_u8 ctx fs off rd)) in
     let* _ := asserts a ctx fs off v in
     let* _ := read_pad (eval0 (a_pad_after a) ctx (fs ++ [v])) (field_order c a ctx fs) in
     ret v)).
    apply reads_at_bind with (a := v); [apply HV2; lia|].
    apply reads_at_nil_bind with (a := tt).
    { apply (reads_at_ext src o _ (ret tt)); [|apply reads_at_ret]. intros w. symmetry. now apply asserts_ok. }
    apply reads_at_bind_nil with (a := tt); [exact HA2|apply reads_at_ret].
Qed.
End Field.

(** ** Unfolding equations *)

Section Unfold.
Variables (cu : nat -> custom) (fuel : nat) (src : source) (o : order) (ce : nat -> list value -> nat -> value -> option (list bool)).
Lemma read_struct c fs lim args : read_ty cu fuel (TStruct c fs) lim args =
  (let* _ := read_seek (option_map (fun f => f (ctx_args c args)) (c_seek c)) in
   let* _ := read_magic (c_magic c) in
   let* vs := fields_read cu fuel c (ctx_args c args) fs None [] in
   ret (VRec vs)).
Proof. reflexivity. Qed.
Lemma read_enum e idt vs lim args : read_ty cu fuel (TEnum e idt vs) lim args =
  (let* _ := read_magic (c_magic (en_c e)) in
   let* id := match en_id e with
              | Some f => ret (f (ctx_args (en_c e) args))
              | None => read_ty cu fuel idt None (id_args e (ctx_args (en_c e) args))
              end in
   variants_read cu fuel e (ctx_args (en_c e) args) id vs 0 None).
Proof. reflexivity. Qed.
Lemma read_cons c ctx a t wire tl id acc : fields_read cu fuel c ctx (FCons a t wire tl) id acc =
  (let* v := match id, a_reader a with
             | Some x, None => ret x
             | _, _ => read_field c a (is_vec_u8 t) ctx acc (fun lim args => read_ty cu fuel wire lim args)
             end in
   let* vs := fields_read cu fuel c ctx tl None (acc ++ [v]) in
   ret (if a_temp a then vs else v :: vs)).
Proof. reflexivity. Qed.
Lemma read_variant e ctx id v fs tl k default : variants_read cu fuel e ctx id (VCons v fs tl) k default =
  (let body := let* l := fields_read cu fuel (en_c e) ctx fs (if stores_id e v then Some id else None) [] in
               ret (VVar k l) in
   if matches (v_sel v) id then body
   else variants_read cu fuel e ctx id tl (S k)
          (match default with Some _ => default | None => if v_default v then Some body else None end)).
Proof. reflexivity. Qed.
Lemma write_struct c fs args l : write_ty cu (TStruct c fs) args (VRec l) =
  (let* _ := write_seek (option_map (fun f => f (ctx_args c args)) (c_seek c)) in
   let* _ := write_magic (c_magic c) in
   fields_write cu c (ctx_args c args) fs None l l []).
Proof. reflexivity. Qed.
Lemma write_enum e idt vs args k l : write_ty cu (TEnum e idt vs) args (VVar k l) =
  (let* _ := write_magic (c_magic (en_c e)) in
   variant_write cu e (ctx_args (en_c e) args) (fun args x => write_ty cu idt args x) vs k l).
Proof. reflexivity. Qed.
Lemma write_cons c ctx a t wire tl id stored todo acc : fields_write cu c ctx (FCons a t wire tl) id stored todo acc =
  (let* _ := match id with
             | Some args => write_ty cu t args (field_value a stored todo ctx acc)
             | None => write_field c a stored ctx acc (field_value a stored todo ctx acc) (fun args x => write_ty cu t args x)
             end in
   fields_write cu c ctx tl None stored (field_rest a todo) (acc ++ [field_value a stored todo ctx acc])).
Proof. reflexivity. Qed.
Lemma write_variant_0 e ctx wid v fs tl l : variant_write cu e ctx wid (VCons v fs tl) 0 l =
  (let* _ := write_id e v fs ctx wid in
   fields_write cu (en_c e) ctx fs (match v_sel v with SPat _ _ => Some (stored_id_args e ctx) | _ => None end) l l []).
Proof. reflexivity. Qed.
Lemma encode_struct c fs lim args pos l : encode src o ce (TStruct c fs) lim args pos (VRec l) =
  match lim, c_seek c with
  | None, None =>
      let? m := encode_magic o pos (c_magic c) in
      let? e := encode_fields src o ce c (ctx_args c args) fs None l l [] (pos + length m) in
      Some (m ++ e)
  | _, _ => None
  end.
Proof. reflexivity. Qed.
Lemma encode_enum e idt vs lim args pos k l : encode src o ce (TEnum e idt vs) lim args pos (VVar k l) =
  match lim with
  | Some _ => None
  | None =>
      let? m := encode_magic o pos (c_magic (en_c e)) in
      let? x := encode_variant src o ce e (ctx_args (en_c e) args) (fun args p x => encode src o ce idt None args p x)
                  (fun id => selects vs id k) vs k l (pos + length m) in
      Some (m ++ x)
  end.
Proof. reflexivity. Qed.
Lemma encode_cons c ctx a t wire tl id stored todo acc pos :
  encode_fields src o ce c ctx (FCons a t wire tl) id stored todo acc pos =
  guard (if a_temp a then match a_temp_value a with Some _ => true | None => false end else negb (length todo =? 0))
    (let v := field_value a stored todo ctx acc in
     let as_field :=
       encode_field src o c a (is_vec_u8 t) (writes_nothing t v) ctx acc pos v
         (fun lim args p => encode src o ce t lim args p v) (fun lim args p => encode src o ce wire lim args p v) in
     let? e := match id with None => as_field | Some args => agree (encode src o ce t None args pos v) as_field end in
     let? es := encode_fields src o ce c ctx tl None stored (field_rest a todo) (acc ++ [v]) (pos + length e) in
     Some (e ++ es)).
Proof. reflexivity. Qed.
Lemma encode_variant_0 e ctx enc_id sel v fs tl l pos :
  encode_variant src o ce e ctx enc_id sel (VCons v fs tl) 0 l pos =
  (let with_id (x : value) :=
     guard (sel x)
       (let? i := enc_id (id_args e ctx) pos x in
        let? f := encode_fields src o ce (en_c e) ctx fs None l l [] (pos + length i) in
        Some (i ++ f)) in
   match en_id e, v_sel v with
   | Some f, s =>
       guard (sel (f ctx))
         (encode_fields src o ce (en_c e) ctx fs (match s with SPat _ _ => Some (stored_id_args e ctx) | _ => None end) l l [] pos)
   | None, SId x | None, SDisc x => with_id x
   | None, SPat _ d =>
       match fs, l with
       | FNil, _ => let? x := d in with_id x
       | FCons a t _ tl, x :: rest =>
           match a_reader a with
           | None =>
               guard (negb (a_temp a) && sel x)
                 (let? i := agree (encode src o ce t None (stored_id_args e ctx) pos x) (enc_id (id_args e ctx) pos x) in
                  let? f := encode_fields src o ce (en_c e) ctx tl None l rest [x] (pos + length i) in
                  Some (i ++ f))
           | Some _ => None
           end
       | FCons _ _ _ _, [] => None
       end
   end).
Proof. reflexivity. Qed.
End Unfold.

(** ** Variants *)

Section Dispatch.
Variables (cu : nat -> custom) (fuel : nat) (e : eattrs) (ctx : list value) (id : value).
Definition variant_body (k : nat) (v : vattrs) (fs : fields) : RM value :=
  let* l := fields_read cu fuel (en_c e) ctx fs (if stores_id e v then Some id else None) [] in ret (VVar k l).
Definition nth_body (vs : variants) (k i : nat) : RM value :=
  match nth_variant vs i with Some (v, fs) => variant_body k v fs | None => fail Parse end.
Lemma first_match_ge vs k j : first_match vs id k = Some j -> k <= j.
Proof. revert k. induction vs as [|v fs tl IH]; intros k H; [discriminate|]. cbn in H. destruct (matches _ _); [injection H as <-; lia|]. apply IH in H. lia. Qed.
Lemma first_default_ge vs k j : first_default vs k = Some j -> k <= j.
Proof. revert k. induction vs as [|v fs tl IH]; intros k H; [discriminate|]. cbn in H. destruct (v_default v); [injection H as <-; lia|]. apply IH in H. lia. Qed.
Lemma variants_read_eq vs : forall k default,
  variants_read cu fuel e ctx id vs k default =
  match first_match vs id k with
  | Some j => nth_body vs j (j - k)
  | None => match default with
            | Some m => m
            | None => match first_default vs k with Some j => nth_body vs j (j - k) | None => fail Parse end
            end
  end.
Proof.
  induction vs as [|v fs tl IH]; intros k default.
  - reflexivity.
  - rewrite read_variant. cbv zeta. cbn [first_match first_default]. destruct (matches (v_sel v) id).
    { rewrite Nat.sub_diag. reflexivity. }
    rewrite IH. destruct (first_match tl id (S k)) as [j|] eqn:Ej.
    + apply first_match_ge in Ej. replace (j - k) with (S (j - S k)) by lia. reflexivity.
    + destruct default as [m|]; [reflexivity|]. destruct (v_default v).
      * rewrite Nat.sub_diag. reflexivity.
      * destruct (first_default tl (S k)) as [j|] eqn:Ed; [|reflexivity].
        apply first_default_ge in Ed. replace (j - k) with (S (j - S k)) by lia. reflexivity.
Qed.
(** The selected variant is read; without one, the id is rejected. *)
Lemma variants_read_selected vs :
  variants_read cu fuel e ctx id vs 0 None =
  match selected vs id with Some j => nth_body vs j j | None => fail Parse end.
Proof.
  rewrite variants_read_eq. unfold selected. destruct (first_match vs id 0) as [j|]; [now rewrite Nat.sub_0_r|].
  destruct (first_default vs 0) as [j|]; [now rewrite Nat.sub_0_r|reflexivity].
Qed.
End Dispatch.

(** ** Types *)

Scheme ty_mut := Induction for ty Sort Prop
  with fields_mut := Induction for fields Sort Prop
  with variants_mut := Induction for variants Sort Prop.
Combined Scheme types_ind from ty_mut, fields_mut, variants_mut.
Scheme ty_mutt := Induction for ty Sort Type
  with fields_mutt := Induction for fields Sort Type
  with variants_mutt := Induction for variants Sort Type.
Combined Scheme types_rect from ty_mutt, fields_mutt, variants_mutt.

Lemma byte_of_N_num n : (n < 256)%N -> to_N (byte_of_N n) = n.
Proof.
  intros H. destruct (be_1_surj n H) as (b & E & ->). f_equal. unfold byte_of_N. apply byte_bits_inj.
  rewrite byte_bits_of_bits by apply N2bits_length. destruct b; reflexivity.
Qed.

(** The hand-written impls follow their format as far as [fuel] goes. *)
Definition customs_upto (src : source) (o : order) (fuel : nat) (cu : nat -> custom)
    (ce : nat -> list value -> nat -> value -> option (list bool)) : Prop :=
  forall k args pos v enc, ce k args pos v = Some enc ->
    emits_at o pos (cu_write (cu k) args v) enc /\ (length enc <= fuel -> reads_at src o pos (cu_read (cu k) args) enc v).
Lemma lawful_upto src o fuel cu ce : customs_lawful src o cu ce -> customs_upto src o fuel cu ce.
Proof. intros H k args pos v enc E. destruct (H k args pos v enc E) as [HW HR]. split; [exact HW|intros _; exact HR]. Qed.

(** Distinct keys are kept in order. *)
Lemma key_of_entry k x : key_of k x = entry_key k x.
Proof. destruct k, x; reflexivity. Qed.
Lemma insert_new k x m : existsb (fun y => value_eqb (entry_key k y) (entry_key k x)) m = false -> insert k m x = m ++ [x].
Proof.
  induction m as [|y m IH]; [reflexivity|]. cbn [existsb insert app]. rewrite !key_of_entry. intros H. apply orb_false_iff in H. destruct H as [H1 H2].
  rewrite H1. f_equal. now apply IH.
Qed.
Lemma collect_distinct k l : distinct k l = true -> collect k l = l.
Proof.
  unfold collect. destruct (hashed k) eqn:Hk; [|reflexivity]. intros H.
  assert (G : forall m, (forall x y, In x m -> In y l -> value_eqb (entry_key k x) (entry_key k y) = false) -> fold_left (insert k) l m = m ++ l).
  { induction l as [|x l IH]; intros m Hm; [now rewrite app_nil_r|]. cbn [distinct] in H. rewrite Hk in H. cbn [andb] in H.
    apply andb_true_iff in H. destruct H as [H1 H2]. apply negb_true_iff in H1. cbn [fold_left]. rewrite insert_new.
    - rewrite IH; [now rewrite <- app_assoc|exact H2|]. intros a b Ha Hb. apply in_app_iff in Ha. destruct Ha as [Ha|[<-|[]]].
      + apply Hm; [exact Ha|now right].
      + apply not_true_is_false. intros E. apply not_true_iff_false in H1. apply H1. apply existsb_exists. now exists b.
    - apply not_true_is_false. intros E. apply existsb_exists in E. destruct E as (y & Hy & E). rewrite Hm in E; [discriminate|exact Hy|now left]. }
  apply (G []). intros x y [].
Qed.

Lemma distinct_vec k l : hashed k = false -> distinct k l = true.
Proof. intros H. induction l as [|x l IH]; [reflexivity|]. cbn [distinct]. now rewrite H, IH. Qed.
Lemma value_eqb_sym a b : value_eqb a b = value_eqb b a.
Proof.
  destruct (value_eqb a b) eqn:E, (value_eqb b a) eqn:F; try reflexivity.
  - pose proof (value_eqb_ok a b E). subst. congruence.
  - pose proof (value_eqb_ok b a F). subst. congruence.
Qed.
Lemma insert_in k m x y : In y (insert k m x) -> y = x \/ In y m.
Proof.
  induction m as [|z m IH]; cbn [insert].
  - intros [<-|[]]. now left.
  - destruct (value_eqb _ _); intros [<-|H]; [now left|right; now right|right; now left|]. destruct (IH H); [now left|right; now right].
Qed.
Lemma insert_distinct k m x : hashed k = true -> distinct k m = true -> distinct k (insert k m x) = true.
Proof.
  intros Hk. induction m as [|y m IH]; intros H; cbn [insert].
  - cbn [distinct existsb]. now rewrite andb_false_r.
  - cbn [distinct] in H. rewrite Hk in H. cbn [andb] in H. apply andb_true_iff in H. destruct H as [H1 H2].
    rewrite !key_of_entry. destruct (value_eqb (entry_key k y) (entry_key k x)) eqn:E; cbn [distinct]; rewrite Hk; cbn [andb].
    + rewrite <- (value_eqb_ok _ _ E), H1. exact H2.
    + rewrite IH by exact H2. rewrite andb_true_r. rewrite negb_true_iff in H1 |- *. apply not_true_is_false. intros Hx.
      apply existsb_exists in Hx. destruct Hx as (z & Hz & Ez). apply insert_in in Hz. destruct Hz as [->|Hz]; [congruence|].
      apply not_true_iff_false in H1. apply H1. apply existsb_exists. now exists z.
Qed.
Lemma collect_in k l x : In x (collect k l) -> In x l.
Proof.
  unfold collect. destruct (hashed k); [|auto]. assert (G : forall m, In x (fold_left (insert k) l m) -> In x m \/ In x l).
  { induction l as [|y l IH]; intros m H; [now left|]. cbn [fold_left] in H. apply IH in H. destruct H as [H|H]; [|right; now right].
    apply insert_in in H. destruct H as [->|H]; [right; now left|now left]. }
  intros H. apply G in H. destruct H as [[]|H]; exact H.
Qed.
Lemma collect_is_distinct k l : distinct k (collect k l) = true.
Proof.
  unfold collect. destruct (hashed k) eqn:Hk; [|now apply distinct_vec].
  assert (G : forall m, distinct k m = true -> distinct k (fold_left (insert k) l m) = true).
  { induction l as [|y l IH]; intros m H; [exact H|]. cbn [fold_left]. apply IH. now apply insert_distinct. }
  now apply G.
Qed.
Lemma collect_forall k (P : value -> Prop) l : Forall P l -> Forall P (collect k l).
Proof. rewrite !Forall_forall; intros H x Hx; apply H; eapply collect_in. exact Hx. Qed.
Lemma collect_vec k l : hashed k = false -> collect k l = l.
Proof. intros H. unfold collect. now rewrite H. Qed.

Section Sound.
Variables (src : source) (o : order) (cu : nat -> custom) (ce : nat -> list value -> nat -> value -> option (list bool)) (fuel : nat).
Hypothesis Hcu : customs_upto src o fuel cu ce.

Definition ty_sound (t : ty) : Prop := forall lim args pos v enc, encode src o ce t lim args pos v = Some enc ->
  emits_at o pos (write_ty cu t args v) enc /\
  (length enc <= fuel -> reads_at src o pos (read_ty cu fuel t lim args) enc v).
Definition fields_sound (fs : fields) : Prop := forall c ctx id stored todo acc pos enc,
  encode_fields src o ce c ctx fs id stored todo acc pos = Some enc ->
  emits_at o pos (fields_write cu c ctx fs id stored todo acc) enc /\
  (length enc <= fuel -> reads_at src o pos (fields_read cu fuel c ctx fs None acc) enc todo).
Definition fields_sound' (fs : fields) : Prop :=
  fields_sound fs /\ match fs with FNil => True | FCons _ t _ tl => ty_sound t /\ fields_sound tl end.
Definition variants_sound (vs : variants) : Prop := forall e ctx enc_id wid rid sel k l pos enc,
  (forall args p x i, enc_id args p x = Some i -> emits_at o p (wid args x) i /\ (length i <= fuel -> reads_at src o p (rid args) i x)) ->
  encode_variant src o ce e ctx enc_id sel vs k l pos = Some enc ->
  emits_at o pos (variant_write cu e ctx wid vs k l) enc /\
  (length enc <= fuel -> exists id i1 i2 v fs, enc = i1 ++ i2 /\ sel id = true /\ nth_variant vs k = Some (v, fs) /\
     reads_at src o pos (match en_id e with Some f => ret (f ctx) | None => rid (id_args e ctx) end) i1 id /\
     reads_at src o (pos + length i1) (fields_read cu fuel (en_c e) ctx fs (if stores_id e v then Some id else None) []) i2 l).

Lemma encode_num_sound pos p lim args n enc : encode_num o pos p lim args n = Some enc ->
  exists c, lim = None /\ pctx_of args = Some c /\ emits_at o pos (prim_write p c n) enc /\ reads_at src o pos (prim_read p c) enc n.
Proof.
  unfold encode_num. destruct lim; [discriminate|]. destruct (pctx_of args) as [c|]; [|discriminate]. intros H. exists c.
  split; [reflexivity|]. split; [reflexivity|]. now apply encode_prim_sound.
Qed.
Lemma prim_sound p : ty_sound (TPrim p).
Proof.
  intros lim args pos v enc E. cbn [encode] in E. destruct v; try discriminate. destruct (encode_num_sound _ _ _ _ _ _ E) as (c & -> & Hc & HW & HR).
  cbn [write_ty read_ty]. unfold with_pctx. rewrite Hc. split; [exact HW|]. intros _. now apply reads_at_map with (f := VNum).
Qed.
Lemma bool_sound : ty_sound TBool.
Proof.
  intros lim args pos v enc E. cbn [encode] in E. destruct v; try discriminate. destruct (encode_num_sound _ _ _ _ _ _ E) as (c & -> & Hc & HW & HR).
  cbn [write_ty read_ty]. unfold with_pctx. rewrite Hc. split; [exact HW|]. intros _. apply reads_at_map with (f := VBool).
  unfold read_bool. eapply reads_at_bind_nil; [exact HR|]. destruct b; apply reads_at_ret.
Qed.
Lemma nonzero_sound p : ty_sound (TNonZero p).
Proof.
  intros lim args pos v enc E. cbn [encode] in E. destruct v; try discriminate. apply guard_inv in E. destruct E as [Hn E].
  destruct (encode_num_sound _ _ _ _ _ _ E) as (c & -> & Hc & HW & HR).
  cbn [write_ty read_ty]. unfold with_pctx. rewrite Hc. split; [exact HW|]. intros _. apply reads_at_map with (f := VNum).
  unfold read_nonzero. eapply reads_at_bind_nil; [exact HR|]. replace (n =? 0)%N with false by lia. apply reads_at_ret.
Qed.

Lemma cstring_values l : forallb (fun x => match x with VNum n => (0 <? n)%N && (n <? 256)%N | _ => false end) l = true ->
  exists s, byte_values (VList l) = Some s /\ no_nul s /\ length s = length l /\
    map (fun x => match x with VNum n => n | _ => 0%N end) l = nums s /\ l = map VNum (nums s).
Proof.
  intros H. exists (map (fun x => match x with VNum n => byte_of_N n | _ => x00 end) l). split; [reflexivity|].
  induction l as [|x l IH]; [repeat split; constructor|]. cbn in H. apply andb_true_iff in H. destruct H as [H1 H2]. destruct (IH H2) as (I1 & I2 & I3 & I4).
  destruct x as [n| | | | | | | | | | |]; try discriminate. apply andb_true_iff in H1. destruct H1 as [H1 H3]. apply N.ltb_lt in H1, H3.
  pose proof (byte_of_N_num n H3) as HB. cbn [map nums]. repeat split.
  - constructor; [|exact I1]. intros E. rewrite E in HB. cbn in HB. lia.
  - cbn [length]. now f_equal.
  - rewrite I3 at 1. unfold nums. cbn [map]. now rewrite HB.
  - rewrite I4 at 1. unfold nums. cbn [map]. now rewrite HB.
Qed.
Lemma cstring_sound : ty_sound TCString.
Proof.
  intros lim args pos v enc E. cbn [encode] in E. destruct v as [| |l| | | | | | | | |]; try discriminate.
  destruct (byte_values (VList l)) as [bs|] eqn:Ebs; [|discriminate]. apply guard_inv in E. destruct E as [G E].
  apply andb_true_iff in G. destruct G as [G1 G2]. destruct (cstring_values l G1) as (s & E1 & Hs & HL & Hm & Hl).
  rewrite E1 in Ebs. injection Ebs as <-. apply encode_bytes_inv in E. destruct E as [-> Ho].
  destruct lim; [discriminate|]. rewrite bitstring_length, app_length. cbn [length].
  assert (HP : exists c, pctx_of args = Some c /\ forall x, prim_write PU8 c x = write_bytes (be_bytes 1 x)).
  { destruct args as [|[| | | | | | | | | |n|] [|]]; try discriminate; [exists C0|exists (CY n)]; split; try reflexivity; intros x; cbn [prim_write write_eyo];
    unfold write_e; cbn [prim_bytes]; now rewrite ?to_bytes_1. }
  destruct HP as (c & Hc & Hwr). cbn [write_ty read_ty]. split.
  - unfold with_pctx. rewrite Hc, Hm. unfold write_cstring.
    replace (nums s ++ [0%N]) with (nums (s ++ [x00])) by (unfold nums; now rewrite map_app).
    rewrite <- concat_bytes. generalize (s ++ [x00]). intros t. clear - Ho Hwr.
    revert pos Ho. induction t as [|b t IH]; intros pos Ho; [apply emits_at_ret|]. cbn [nums map write_list concat]. apply emits_at_bind.
    + rewrite Hwr, be_1_byte. apply emits_at_of, emits_bytes. exact Ho.
    + apply IH. rewrite bitstring_length. cbn [length]. destruct Ho; [now left|right; lia].
  - intros Hf. rewrite Hl at 1. assert (HR : reads src Msb0 (read_ty cu fuel TCString None args) (bitstring Msb0 (s ++ [x00])) (VList (map VNum (nums s)))).
    { destruct args as [|[| | | | | | | | | |n|] [|]]; try discriminate; cbn [read_ty]; apply reads_map with (f := fun s => VList (map VNum s)).
      - apply (lawful_cstring src C0 Little s fuel eq_refl Hs). lia.
      - apply (lawful_cstring_bytes src C0 Little s (N.of_nat n) eq_refl Hs); lia. }
    change (read_ty cu fuel TCString None args) with (read_ty cu fuel TCString None args) in HR. cbn [read_ty] in HR.
    destruct Ho as [->|Ho]; [now apply reads_at_of|]. now apply reads_at_aligned with (o1 := Msb0).
Qed.

Lemma writes_nothing_ok t v : writes_nothing t v = true -> forall args p, emits_at o p (write_ty cu t args v) [].
Proof.
  intros H args p. destruct t; cbn in H; try discriminate; cbn [write_ty].
  - apply emits_at_ret.
  - destruct v; try discriminate. apply emits_at_ret.
  - destruct v as [| |[|]| | | | | | | | |]; try discriminate. apply emits_at_ret.
  - destruct v as [| |[|]| | | | | | | | |]; try discriminate. apply emits_at_ret.
Qed.
Lemma encode_u8_range pos lim args v enc : encode src o ce (TPrim PU8) lim args pos v = Some enc -> exists n, v = VNum n /\ (n < 256)%N.
Proof.
  cbn [encode]. destruct v as [n| | | | | | | | | | |]; try discriminate. unfold encode_num. destruct lim; [discriminate|].
  destruct (pctx_of args) as [c|]; [|discriminate]. unfold encode_prim. destruct (bits_of_ctx c) as [[[e k] o']|].
  - intros H. apply guard_inv in H. destruct H as [H _]. repeat (apply andb_true_iff in H; destruct H as [H ?]).
    exists n. split; [reflexivity|]. cbn [holds] in H0. change (prim_width PU8) with 8 in H2.
    change 256%N with (2 ^ N.of_nat 8)%N. apply N.ltb_lt in H0. apply N.lt_le_trans with (1 := H0). apply N.pow_le_mono_r; lia.
  - destruct (bytes_of_ctx (prim_bytes PU8) c) as [[[e k] o']|]; [|discriminate].
    intros H. apply guard_inv in H. destruct H as [H _]. repeat (apply andb_true_iff in H; destruct H as [H ?]).
    exists n. split; [reflexivity|]. cbn [prim_bytes] in *. change 256%N with (2 ^ N.of_nat 8)%N. match goal with HH : (n <? _)%N = true |- _ => apply N.ltb_lt in HH; apply N.lt_le_trans with (1 := HH); apply N.pow_le_mono_r; lia end.
Qed.
Lemma encode_list_u8 args pos l es : encode_list (fun p x => encode src o ce (TPrim PU8) None args p x) pos l = Some es ->
  VList l = vec_of_bytes (map (fun x => match x with VNum n => byte_of_N n | _ => x00 end) l).
Proof.
  unfold vec_of_bytes. intros H. f_equal. revert pos es H. induction l as [|v l IH]; intros pos es H; [reflexivity|]. cbn [encode_list] in H.
  destruct (encode src o ce (TPrim PU8) None args pos v) as [e|] eqn:Ev; [|discriminate].
  destruct (encode_list _ _ l) as [es'|] eqn:El; [|discriminate].
  destruct (encode_u8_range _ _ _ _ _ Ev) as (n & -> & Hn). cbn [map]. rewrite byte_of_N_num by exact Hn. f_equal. eapply IH. exact El.
Qed.
Lemma vec_u8_values t v : is_vec_u8 t = true -> forall n args p e bs, encode src o ce t (Some (LCount n)) args p v = Some e ->
  byte_values v = Some bs -> v = vec_of_bytes bs /\ n = N.of_nat (length bs).
Proof.
  unfold is_vec_u8. destruct t as [| | | | | | | |pl size t| | |]; try discriminate. destruct pl; [|discriminate..].
  destruct t as [p| | | | | | | | | | |]; try discriminate. destruct p; try discriminate. intros _ n args p e bs E Hb.
  cbn [encode] in E. destruct v as [| |l| | | | | | | | |]; try discriminate.
  match type of E with match ?x with _ => _ end = _ => destruct x as [es|] eqn:El; [|discriminate] end.
  apply guard_inv in E. destruct E as [G _]. cbn [stops] in G. cbn [byte_values] in Hb. injection Hb as <-.
  split; [|rewrite map_length; lia]. change (encode_list (fun p0 x => encode src o ce (TPrim PU8) None args p0 x) p l = Some es) in El.
  eapply encode_list_u8. exact El.
Qed.

Theorem types_sound : (forall t, ty_sound t) /\ (forall fs, fields_sound' fs) /\ (forall vs, variants_sound vs).
Proof.
  apply types_ind.
  - apply prim_sound.
  - apply bool_sound.
  - apply nonzero_sound.
  - intros lim args pos v enc E. cbn [encode] in E. destruct v as [| |[|]| | | | | | | | |]; try discriminate. injection E as <-.
    split; [apply emits_at_ret|intros _; apply reads_at_ret].
  - apply cstring_sound.
  - (* Option *) intros t IH lim args pos v enc E. cbn [encode] in E. destruct v; try discriminate. destruct (IH _ _ _ _ _ E) as [HW HR].
    split; [exact HW|]. intros Hf. cbn [read_ty]. apply reads_at_map with (f := VSome). now apply HR.
  - (* pair *) intros a IHa b IHb lim args pos v enc E. cbn [encode] in E. destruct v; try discriminate.
    destruct (encode src o ce a lim args pos v1) as [e1|] eqn:E1; [|discriminate].
    destruct (encode src o ce b lim args (pos + length e1) v2) as [e2|] eqn:E2; [|discriminate]. injection E as <-.
    destruct (IHa _ _ _ _ _ E1) as [W1 R1]. destruct (IHb _ _ _ _ _ E2) as [W2 R2]. rewrite app_length. split.
    + cbn [write_ty]. now apply emits_at_bind.
    + intros Hf. cbn [read_ty]. apply reads_at_bind with (a := v1); [apply R1; lia|].
      apply reads_at_map with (f := VPair v1). apply R2; lia.
  - (* array *) intros n t IH lim args pos v enc E. cbn [encode] in E. destruct v as [| |l| | | | | | | | |]; try discriminate.
    apply guard_inv in E. destruct E as [G E].
    match type of E with match ?x with _ => _ end = _ => destruct x as [es|] eqn:El; [|discriminate] end. injection E as <-. split.
    + cbn [write_ty]. eapply emits_at_list; [|exact El]. intros p x e He. exact (proj1 (IH _ _ _ _ _ He)).
    + intros Hf. cbn [read_ty]. apply reads_at_map with (f := VList). replace n with (length l) by lia.
      eapply reads_at_array; [|exact El|exact Hf]. intros p x e He Hx. exact (proj2 (IH _ _ _ _ _ He) Hx).
  - (* Vec *) intros pl size t IH lim args pos v enc E. cbn [encode] in E. destruct v as [| |l| | | | | | | | |]; try discriminate.
    destruct lim as [lm|]; [|discriminate].
    match type of E with match ?x with _ => _ end = _ => destruct x as [es|] eqn:El; [|discriminate] end.
    apply guard_inv in E. destruct E as [G E]. injection E as <-. apply andb_true_iff in G. destruct G as [G G3].
    apply andb_true_iff in G. destruct G as [G1 G2]. split.
    + cbn [write_ty]. eapply emits_at_list; [|exact El]. intros p x e He. exact (proj1 (IH _ _ _ _ _ He)).
    + intros Hf. cbn [read_ty]. rewrite <- (collect_distinct pl l G3). apply reads_at_map with (f := fun l => VList (collect pl l)).
      eapply reads_at_vec; [|lia|exact El|exact G2|exact Hf]. intros p x e He Hx. exact (proj2 (IH _ _ _ _ _ He) Hx).
  - (* struct *) intros c fs [IH _] lim args pos v enc E. destruct v as [| | | | | |l| | | | |]; try discriminate. rewrite encode_struct in E.
    destruct lim; [discriminate|]. destruct (c_seek c) eqn:Es; [discriminate|].
    destruct (encode_magic o pos (c_magic c)) as [m|] eqn:Em; [|discriminate].
    destruct (encode_fields src o ce c (ctx_args c args) fs None l l [] (pos + length m)) as [e|] eqn:Ef; [|discriminate]. injection E as <-.
    destruct (IH _ _ _ _ _ _ _ _ Ef) as [HW HR]. rewrite app_length. rewrite write_struct, read_struct, Es. cbn [option_map write_seek read_seek]. split.
    + apply emits_at_nil_bind; [apply emits_at_ret|]. apply emits_at_bind; [now apply write_magic_bytes|exact HW].
    + intros Hf. apply reads_at_nil_bind with (a := tt); [apply reads_at_ret|].
      apply reads_at_bind with (a := tt); [now apply read_magic_bytes|]. apply reads_at_map with (f := VRec). apply HR; lia.
  - (* enum *) intros e idt IHid vs IH lim args pos v enc E. destruct v as [| | | | | | |k l| | | |]; try discriminate. rewrite encode_enum in E.
    destruct lim; [discriminate|]. destruct (encode_magic o pos (c_magic (en_c e))) as [m|] eqn:Em; [|discriminate].
    match type of E with match ?x with _ => _ end = _ => destruct x as [x1|] eqn:Ev; [|discriminate] end. injection E as <-.
    destruct (IH e (ctx_args (en_c e) args) _ (fun args x => write_ty cu idt args x) (fun args => read_ty cu fuel idt None args) _ _ _ _ _
               (fun args p x i Hi => IHid None args p x i Hi) Ev) as [HW HR].
    rewrite app_length, write_enum, read_enum. split.
    + apply emits_at_bind; [now apply write_magic_bytes|exact HW].
    + intros Hf. destruct HR as (id & i1 & i2 & v & fs & -> & Hsel & Hnth & H1 & H2); [lia|].
      apply reads_at_bind with (a := tt); [now apply read_magic_bytes|]. apply reads_at_bind with (a := id); [exact H1|].
      rewrite variants_read_selected. unfold selects in Hsel. destruct (selected vs id) as [j|]; [|discriminate].
      apply Nat.eqb_eq in Hsel. subst j. unfold nth_body. rewrite Hnth. unfold variant_body.
      apply reads_at_map with (f := VVar k). exact H2.
  - (* hand-written *) intros k lim args pos v enc E. cbn [encode] in E. destruct lim; [destruct v; discriminate|].
    assert (E' : ce k args pos v = Some enc) by (destruct v; exact E). destruct (Hcu _ _ _ _ _ E') as [HW HR].
    cbn [write_ty read_ty]. split; [exact HW|exact HR].
  - (* no fields *) split; [|exact I]. intros c ctx id stored todo acc pos enc E. cbn [encode_fields] in E. apply guard_inv in E.
    destruct E as [G E]. injection E as <-. destruct todo; [|discriminate]. cbn [fields_write fields_read].
    split; [apply emits_at_ret|intros _; apply reads_at_ret].
  - (* a field *) intros a t IHt wire IHw tl [IHtl _]. split; [|split; assumption].
    intros c ctx id stored todo acc pos enc E. rewrite encode_cons in E. apply guard_inv in E. destruct E as [G E]. cbv zeta in E.
    set (v := field_value a stored todo ctx acc) in *.
    match type of E with context [encode_field ?a1 ?a2 ?a3 ?a4 ?a5 ?a6 ?a7 ?a8 ?a9 ?a10 ?a11 ?a12] =>
      set (AF := encode_field a1 a2 a3 a4 a5 a6 a7 a8 a9 a10 a11 a12) in * end.
    assert (HAF : forall e, AF = Some e ->
      emits_at o pos (write_field c a stored ctx acc v (fun args x => write_ty cu t args x)) e /\
      (length e <= fuel -> reads_at src o pos (read_field c a (is_vec_u8 t) ctx acc (fun lim args => read_ty cu fuel wire lim args)) e v)).
    { intros e He. eapply encode_field_sound; [| | | | |exact He].
      - intros lim args p x Hx. exact (proj1 (IHt _ _ _ _ _ Hx)).
      - intros lim args p x Hx. exact (proj2 (IHw _ _ _ _ _ Hx)).
      - apply writes_nothing_ok.
      - apply vec_u8_values.
      - intros Ht Hn. rewrite Ht, Hn in G. discriminate. }
    match type of E with match ?x with _ => _ end = _ => destruct x as [e|] eqn:Ee; [|discriminate] end.
    destruct (encode_fields src o ce c ctx tl None stored (field_rest a todo) (acc ++ [v]) (pos + length e)) as [es|] eqn:Es; [|discriminate].
    injection E as <-. destruct (IHtl _ _ _ _ _ _ _ _ Es) as [W2 R2]. rewrite app_length.
    assert (H1 : emits_at o pos (match id with
                                 | Some args => write_ty cu t args v
                                 | None => write_field c a stored ctx acc v (fun args x => write_ty cu t args x)
                                 end) e /\
       (length e <= fuel -> reads_at src o pos (read_field c a (is_vec_u8 t) ctx acc (fun lim args => read_ty cu fuel wire lim args)) e v)).
    { destruct id as [args|]; [|now apply HAF]. apply agree_inv in Ee. destruct Ee as [E1 E2].
      split; [exact (proj1 (IHt _ _ _ _ _ E1))|now apply HAF]. }
    destruct H1 as [W1 R1]. rewrite write_cons, read_cons. split.
    + apply emits_at_bind; [exact W1|exact W2].
    + intros Hf. apply reads_at_bind with (a := v); [apply R1; lia|].
      replace todo with (if a_temp a then field_rest a todo else v :: field_rest a todo).
      * apply reads_at_bind_nil with (a := field_rest a todo); [apply R2; lia|apply reads_at_ret].
      * unfold v, field_value, field_rest. destruct (a_temp a); [reflexivity|]. destruct todo; [discriminate|reflexivity].
  - (* no variants *) intros e ctx enc_id wid rid sel k l pos enc _ E. discriminate.
  - (* a variant *) intros v fs [IHfs IHst] vs IH e ctx enc_id wid rid sel k l pos enc Hid E.
    destruct k as [|k]; [|exact (IH e ctx enc_id wid rid sel k l pos enc Hid E)]. clear IH.
    rewrite encode_variant_0 in E. cbv zeta in E. rewrite write_variant_0. cbn [nth_variant].
    (* id, then all fields *)
    assert (HWI : forall x, guard (sel x)
          (let? i := enc_id (id_args e ctx) pos x in
           let? f := encode_fields src o ce (en_c e) ctx fs None l l [] (pos + length i) in
           Some (i ++ f)) = Some enc ->
      emits_at o pos (let* _ := wid (id_args e ctx) x in fields_write cu (en_c e) ctx fs None l l []) enc /\
      (length enc <= fuel -> exists i1 i2, enc = i1 ++ i2 /\ sel x = true /\
         reads_at src o pos (rid (id_args e ctx)) i1 x /\
         reads_at src o (pos + length i1) (fields_read cu fuel (en_c e) ctx fs None []) i2 l)).
    { intros x Hx. apply guard_inv in Hx. destruct Hx as [G Hx]. destruct (enc_id (id_args e ctx) pos x) as [i|] eqn:Ei; [|discriminate].
      destruct (encode_fields src o ce (en_c e) ctx fs None l l [] (pos + length i)) as [f|] eqn:Ef; [|discriminate]. injection Hx as <-.
      destruct (Hid _ _ _ _ Ei) as [W1 R1]. destruct (IHfs _ _ _ _ _ _ _ _ Ef) as [W2 R2]. rewrite app_length. split; [now apply emits_at_bind|].
      intros Hf. exists i, f. split; [reflexivity|]. split; [exact G|]. split; [apply R1; lia|apply R2; lia]. }
    unfold write_id, stores_id. destruct (en_id e) as [f|] eqn:Een.
    + apply guard_inv in E. destruct E as [G E]. destruct (IHfs _ _ _ _ _ _ _ _ E) as [W2 R2]. split.
      * apply emits_at_nil_bind; [apply emits_at_ret|exact W2].
      * intros Hf. exists (f ctx), [], enc, v, fs. split; [reflexivity|]. split; [exact G|]. split; [reflexivity|]. split; [apply reads_at_ret|].
        cbn [length]. rewrite Nat.add_0_r. now apply R2.
    + assert (HS : forall x, stores_id e v = false ->
        guard (sel x)
          (let? i := enc_id (id_args e ctx) pos x in
           let? f := encode_fields src o ce (en_c e) ctx fs None l l [] (pos + length i) in
           Some (i ++ f)) = Some enc ->
        emits_at o pos (let* _ := wid (id_args e ctx) x in fields_write cu (en_c e) ctx fs None l l []) enc /\
        (length enc <= fuel -> exists id i1 i2 v0 fs0, enc = i1 ++ i2 /\ sel id = true /\ Some (v, fs) = Some (v0, fs0) /\
          reads_at src o pos (rid (id_args e ctx)) i1 id /\
          reads_at src o (pos + length i1) (fields_read cu fuel (en_c e) ctx fs0 (if stores_id e v0 then Some id else None) []) i2 l)).
      { intros x Hst Hx. destruct (HWI x Hx) as [HW HR]. split; [exact HW|]. intros Hf. destruct (HR Hf) as (i1 & i2 & -> & Hsel & H1 & H2).
        exists x, i1, i2, v, fs. rewrite Hst. repeat split; try assumption. }
      unfold stores_id in HS. rewrite Een in HS.
      destruct (v_sel v) as [x|p d|x] eqn:Ev; rewrite ?Ev in HS.
      * exact (HS x eq_refl E).
      * destruct fs as [|a t wire tl].
        -- cbn [no_fields]. destruct d as [x|]; [|discriminate]. destruct (HWI x E) as [HW HR]. split; [exact HW|].
           intros Hf. destruct (HR Hf) as (i1 & i2 & -> & Hsel & H1 & H2). exists x, i1, i2, v, FNil. rewrite Ev. repeat split; try assumption.
        -- cbn [no_fields]. destruct l as [|x rest]; [discriminate|]. destruct (a_reader a) eqn:Er; [discriminate|].
           apply guard_inv in E. destruct E as [G E]. apply andb_true_iff in G. destruct G as [Gt Gs].
           match type of E with match ?y with _ => _ end = _ => destruct y as [i|] eqn:Ei; [|discriminate] end.
           destruct (encode_fields src o ce (en_c e) ctx tl None (x :: rest) rest [x] (pos + length i)) as [f|] eqn:Ef; [|discriminate].
           injection E as <-. apply agree_inv in Ei. destruct Ei as [E1 E2]. destruct IHst as [IHt IHtl].
           destruct (IHt _ _ _ _ _ E1) as [W1 _]. destruct (Hid _ _ _ _ E2) as [_ R1]. destruct (IHtl _ _ _ _ _ _ _ _ Ef) as [W2 R2].
           assert (Hat : a_temp a = false) by (destruct (a_temp a); [discriminate|reflexivity]). rewrite app_length. split.
           ++ apply emits_at_nil_bind; [apply emits_at_ret|]. rewrite write_cons.
              unfold field_value, field_rest. rewrite Hat. cbn [hd List.tl app]. now apply emits_at_bind.
           ++ intros Hf. exists x, i, f, v, (FCons a t wire tl). rewrite Ev. split; [reflexivity|]. split; [exact Gs|]. split; [reflexivity|].
              split; [apply R1; lia|]. rewrite read_cons, Er, Hat. apply reads_at_nil_bind with (a := x); [apply reads_at_ret|].
              cbn [app]. apply reads_at_map with (f := fun l => x :: l). apply R2. lia.
      * exact (HS x eq_refl E).
Qed.
Theorem encode_sound t lim args pos v enc : encode src o ce t lim args pos v = Some enc ->
  emits_at o pos (write_ty cu t args v) enc /\ (length enc <= fuel -> reads_at src o pos (read_ty cu fuel t lim args) enc v).
Proof. intros H. exact (proj1 types_sound t _ _ _ _ _ H). Qed.
End Sound.
