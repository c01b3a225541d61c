(** Proofs about plain declarations: what is read fits. *)
From Coq Require Import Lia ZifyBool ZifyNat ZifyN.
From Verif Require Import Base Spec Stream Reader Session Writer WSession Prims BitsFacts NFacts MonadFacts ReaderFacts ReaderOps SessionFacts CodecSpec CodecFacts Containers ContainerSpec ContainerFacts ContainerProps Safety PrimFacts Derive DeriveSpec DeriveFacts DeriveSound SafeSpec SafeFacts DeriveSafe CanonSpec CanonFacts CanonDerive Decl PlainSpec PlainFacts PlainSafe.
Ltac Zify.zify_post_hook ::= Z.div_mod_to_equations.

Lemma pow2_half n : 0 < n -> (2 ^ Z.of_nat n = 2 * 2 ^ (Z.of_nat n - 1))%Z.
Proof. intros H. rewrite <- Z.pow_succ_r by lia. f_equal. lia. Qed.
Lemma pow2_NZ n : Z.of_N (2 ^ N.of_nat n) = (2 ^ Z.of_nat n)%Z.
Proof. now rewrite N2Z.inj_pow, nat_N_Z. Qed.
Lemma signed_all w v : 0 < w -> (v < 2 ^ N.of_nat w)%N -> (- 2 ^ (Z.of_nat w - 1) <= signed w v < 2 ^ (Z.of_nat w - 1))%Z.
Proof.
  intros Hw Hv. unfold signed. pose proof (pow2_half w Hw) as H. pose proof (pow2_NZ w) as H2.
  generalize dependent (2 ^ N.of_nat w)%N. intros x Hv H2. generalize dependent (2 ^ (Z.of_nat w - 1))%Z. intros y H.
  rewrite <- H2 in *. destruct (N.ltb_spec (2 * v) x); lia.
Qed.
Lemma signed_small w n v : 1 <= n <= w -> (v < 2 ^ N.of_nat (n - 1))%N -> (- 2 ^ (Z.of_nat n - 1) <= signed w v < 2 ^ (Z.of_nat n - 1))%Z.
Proof.
  intros Hn Hv. unfold signed.
  assert (H1 : (2 * 2 ^ N.of_nat (n - 1) <= 2 ^ N.of_nat w)%N).
  { rewrite <- N.pow_succ_r'. apply N.pow_le_mono_r; lia. }
  pose proof (pow2_NZ (n - 1)) as H2. replace (Z.of_nat (n - 1)) with (Z.of_nat n - 1)%Z in H2 by lia.
  generalize dependent (2 ^ N.of_nat (n - 1))%N. intros x Hv H1 H2. generalize dependent (2 ^ N.of_nat w)%N. intros y H1.
  rewrite <- H2. destruct (N.ltb_spec (2 * v) y); lia.
Qed.
Lemma holds_fits p e k n : 1 <= k <= prim_width p -> (n < 2 ^ N.of_nat (prim_width p))%N -> holds p (pcontext e (Some k)) k n = true -> num_fits p (Some k) n = true.
Proof.
  intros Hk Hn H. unfold num_fits. apply andb_true_iff. split; [lia|]. unfold holds in H. destruct p as [|wb|wb]; cbn [unsigned]; try exact H.
  change (prim_width (PI wb)) with (8 * wb) in *. apply andb_true_iff in H. destruct H as [_ H].
  assert (G : (- 2 ^ (Z.of_nat k - 1) <= signed (8 * wb) n < 2 ^ (Z.of_nat k - 1))%Z).
  { apply orb_prop in H. destruct H as [H|H]; [apply orb_prop in H; destruct H as [H|H]|].
    - apply signed_small; lia.
    - apply Nat.eqb_eq in H. subst k. apply signed_all; lia.
    - destruct e; cbn [pcontext] in H; bsplit; lia. }
  destruct (Z.leb_spec (- 2 ^ (Z.of_nat k - 1)) (signed (8 * wb) n)); [|lia]. destruct (Z.ltb_spec (signed (8 * wb) n) (2 ^ (Z.of_nat k - 1))); [reflexivity|lia].
Qed.
Lemma num_plain_weak whole p e b : num_plain whole p e b = true -> num_plain false p e b = true.
Proof.
  unfold num_plain. intros H. apply andb_true_iff in H. destruct H as [-> H]. destruct b; [|reflexivity].
  apply andb_true_iff in H. destruct H as [-> _]. reflexivity.
Qed.
Lemma num_read_fits inside whole p e b r n r' : num_plain whole p e b = true -> place inside r -> prim_read p (pcontext e b) r = (Ok n, r') -> num_fits p b n = true.
Proof.
  intros P Hp E. destruct (num_sized _ _ _ _ P) as (Hs & _ & Hpb).
  destruct (num_rewritable false p e b (sp false) (num_plain_weak _ _ _ _ P) (starts_sp false)) as (_ & c & Hc & Hok).
  rewrite pargs_pctx in Hc. injection Hc as <-.
  assert (Hr : readable AnySource r) by (destruct Hp as (H1 & H2 & _); split; [exact H1|split; [|exact I]]; exact H2).
  assert (Ha : r_at (r_bits r) r) by (destruct Hp as (_ & _ & H & _); split; [reflexivity|exact H]).
  destruct (takes_prim p _ Hpb Hs r n r' Hr E) as [_ HT].
  set (bits := firstn (prim_size p (pcontext e b)) (unread_string Msb0 (seen r))).
  assert (Hl : length bits = prim_size p (pcontext e b)) by (unfold bits; rewrite firstn_length, unread_string_length; lia).
  destruct (prim_onto Msb0 (sp false) (sp false) p _ (r_bits r) bits Hok ltac:(discriminate) Hl) as (v0 & Hv0 & Ev).
  destruct (encode_prim_sound AnySource Msb0 (r_bits r) p _ v0 bits Ev) as [_ HR].
  destruct (known_read AnySource Msb0 (prim_read p (pcontext e b)) r n r' bits (skipn (prim_size p (pcontext e b)) (unread_string Msb0 (seen r))) v0 Hr Ha) as (-> & _);
    [unfold bits; now rewrite firstn_skipn|exact HR|exact E|].
  destruct b as [k|]; [|unfold num_fits; destruct (N.ltb_spec v0 (2 ^ N.of_nat (prim_width p))); [reflexivity|lia]].
  unfold encode_prim in Ev. rewrite pcontext_bits in Ev. unfold guard in Ev. destruct (_ && holds p _ k v0) eqn:G in Ev; [|discriminate].
  apply andb_true_iff in G. destruct G as [G H]. apply andb_true_iff in G. destruct G as [G _]. apply andb_true_iff in G. destruct G as [G G2].
  apply andb_true_iff in G. destruct G as [_ G1]. apply (holds_fits p e k v0); [lia|exact Hv0|exact H].
Qed.

Section Reads.
Variables (cu : nat -> custom) (fuel : nat) (whole : bool).
Notation runs := (runs fuel whole false).

Lemma runs_and {A} c (g g' : A -> Prop) m : runs c g m -> (forall r v r', place whole r -> m r = (Ok v, r') -> g' v) -> runs c (fun v => g v /\ g' v) m.
Proof.
  intros H H' r x r' Hp Hf E. destruct (H r x r' Hp Hf E) as (P & D & K). split; [exact P|]. split; [exact D|]. intros v Ev.
  destruct (K v Ev) as (G & Pl & R). split; [|split; [exact Pl|exact R]]. split; [exact G|]. subst x. exact (H' r v r' Hp E).
Qed.
Lemma runs_num_eats p e b : num_plain whole p e b = true -> runs true (fun n => num_fits p b n = true) (prim_read p (pcontext e b)).
Proof.
  intros P. destruct (num_sized _ _ _ _ P) as (H1 & _ & H2). eapply runs_weak; [apply (runs_and true (fun _ => True) (fun n => num_fits p b n = true))|auto|].
  - eapply runs_good; [apply runs_prim; assumption|auto].
  - intros r v r' Hp E. exact (num_read_fits whole whole p e b r v r' P Hp E).
  - intros v [_ H]. exact H.
Qed.
Lemma runs_num p e b : num_plain whole p e b = true -> runs false (fun n => num_fits p b n = true) (prim_read p (pcontext e b)).
Proof.
  intros P. destruct (num_sized _ _ _ _ P) as (H1 & _ & H2). eapply runs_weak; [apply (runs_and true (fun _ => True) (fun n => num_fits p b n = true))|discriminate|].
  - eapply runs_good; [apply runs_prim; assumption|auto].
  - intros r v r' Hp E. exact (num_read_fits whole whole p e b r v r' P Hp E).
  - intros v [_ H]. exact H.
Qed.
Lemma bytes_len n r bs r' : place whole r -> whole = true -> read_bytes n n Lsb0 r = (Ok bs, r') -> length bs = n.
Proof.
  intros Hp Hi E. pose proof (place_wf _ _ Hp) as Hw. pose proof (place_quiet _ _ Hp) as Hq.
  assert (Hk : ~ peeked r) by (apply peeked_left; apply Hp; exact Hi).
  pose proof (read_bytes_spec n n Lsb0 r Hw Hq (le_n n) (fun _ => Hk)) as H.
  destruct (take_bits Lsb0 (8 * n) (unread r)) as [[l u']|] eqn:T.
  - destruct H as (bs1 & r1 & E1 & B & _). rewrite E1 in E. apply pair_inj in E. destruct E as [E _]. apply ok_inj in E. subst bs1.
    destruct (take_bits_some_len _ _ _ _ _ T) as [L _]. rewrite <- B, bitstring_length in L. lia.
  - destruct H as (e & r1 & E1 & _). rewrite E1 in E. discriminate.
Qed.
Lemma exact_len n r bs r' : place whole r -> whole = true -> read_exact_vec n r = (Ok bs, r') -> N.of_nat (length bs) = n.
Proof.
  intros Hp Hi E. pose proof Hp as (Hq & Hw & Hm & Hb & Hk).
  destruct (s_noseek (r_s r)) as [v|] eqn:En.
  - unfold read_exact_vec, bind, inner_seek, lift_io, s_seek in E. rewrite Hq, En in E. cbn [noseek_target Z.eqb r_set_s r_s s_tick s_noseek s_fault s_calls] in E.
    rewrite Hq, En in E. discriminate.
  - destruct (read_exact_unfold n r Hq En) as (r1 & (Q1 & N1 & D1 & P1 & L1 & B1 & E1) & EE). rewrite EE in E. cbv zeta in E.
    destruct (_ <? _) in E; [discriminate|]. destruct (_ <? n)%N in E; [destruct (_ <? _)%N in E; discriminate|].
    assert (Pl : place whole r1).
    { split; [exact Q1|]. unfold valid, r_rest in *. rewrite L1, B1, P1, D1, N1. split; [exact Hw|]. split; [exact Hm|]. split; [exact Hb|exact Hk]. }
    pose proof (bytes_len _ _ _ _ Pl Hi E). lia.
Qed.
Lemma fits_bytes bs : forallb (value_fits None (PInt PU8)) (map (fun b => VNum (Byte.to_N b)) bs) = true.
Proof.
  apply forallb_forall. intros x Hx. apply in_map_iff in Hx. destruct Hx as (b & <- & _). cbn [value_fits]. unfold num_fits.
  change (2 ^ N.of_nat (prim_width PU8))%N with 256%N. pose proof (Byte.to_N_bounded b). rewrite Bool.andb_true_r. apply N.ltb_lt. lia.
Qed.

Lemma loop_up_to (elem : RM value) n start f : forall acc r vs r', vec_loop f elem (fun _ acc => is_num n (last acc VUnit)) start acc r = (Ok vs, r') ->
  exists l, vs = acc ++ l /\ up_to n l = true.
Proof.
  induction f as [|f IH]; intros acc r vs r' E; [discriminate|]. cbn [vec_loop] in E. apply bind_inv in E. destruct E as (v & r1 & E1 & E2). cbv beta in E2.
  destruct (r_bits r1 <? start); [discriminate|]. rewrite last_last in E2. destruct (is_num n v) eqn:Ev.
  - apply pair_inj in E2. destruct E2 as [E2 _]. apply ok_inj in E2. subst vs. exists [v]. split; [reflexivity|]. cbn [up_to]. now rewrite Ev.
  - destruct (IH _ _ _ _ E2) as (l & -> & H). exists (v :: l). split; [now rewrite <- app_assoc|]. cbn [up_to]. rewrite Ev. exact H.
Qed.
Lemma until_up_to (elem : RM value) n size f r vs r' : size <> 0%N -> vec_read f size elem (LUntil (fun l => is_num n (last l VUnit))) r = (Ok vs, r') -> up_to n vs = true.
Proof.
  intros Hz E. cbn [vec_read] in E. unfold vec_with_predicate in E. destruct (N.eqb_spec size 0); [contradiction|].
  destruct (loop_up_to _ _ _ _ _ _ _ _ E) as (l & -> & H). exact H.
Qed.
Lemma text_fits l : Forall string_char (map VNum l) -> value_fits None PText (VList (map VNum l)) = true.
Proof.
  intros H. change (forallb is_char (map VNum l) = true). apply forallb_forall. intros x Hx. rewrite Forall_forall in H. specialize (H x Hx).
  apply in_map_iff in Hx. destruct Hx as (n & <- & _). cbn in H |- *. lia.
Qed.

Lemma fields_typed_fit fs acc l : fields_fit fs acc l = true -> fields_typed (cfields fs) l.
Proof. apply (proj1 (proj2 plain_typed)). Qed.
Lemma body_typed a t acc v : body_fits a t acc v = true -> typed (holding (p_kind a) (ctype t)) v.
Proof.
  intros H. assert (F : fields_fit (PCons a t PNil) acc [v] = true) by (rewrite fields_fit_cons; fold (body_fits a t acc v); now rewrite H).
  apply fields_typed_fit in F. cbn [cfields] in F. rewrite fields_typed_cons in F. exact (proj1 F).
Qed.

Lemma runs_field m a t done ctx acc : (forall e b, plain_in whole t e b = true -> runs false (fun v => value_fits b t v = true) (read_ty cu fuel (ctype t) None (pargs e b))) ->
  plain_in whole t (p_endian a) (p_bits a) = true -> kind_plain whole done a t = true -> pad_plain whole (p_before a) = true -> pad_plain whole (p_after a) = true ->
  before done acc ->
  runs false (fun v => body_fits a t acc v = true)
    (read_field (pc m) (attrs a) (is_vec_u8 (holding (p_kind a) (ctype t))) ctx acc (fun lim args => read_ty cu fuel (holding (p_kind a) (ctype t)) lim args)).
Proof.
  intros IH P1 P2 P3 P4 B. unfold read_field. rewrite at_seek, at_magic, at_before, at_after.
  eapply runs_bindr; [apply runs_seek; exact I|]. intros _ _.
  eapply runs_bindr; [eapply runs_weak; [apply runs_magic|discriminate|intros ? H; exact H]|]. intros _ _.
  eapply runs_bindr; [apply runs_pad; intros ->; now rewrite (pad_whole _ _ _ P3)|]. intros _ _.
  apply (runs_at _ _ false _ _ (fun off =>
    let* v := field_read_tokens (attrs a) ctx acc off
      (field_read_normal (attrs a) ctx acc off (field_read_func (pc m) (attrs a) (is_vec_u8 (holding (p_kind a) (ctype t))) ctx acc off
         (fun lim args => read_ty cu fuel (holding (p_kind a) (ctype t)) lim args))) in
    let* _ := asserts (attrs a) ctx acc off v in
    let* _ := read_pad (eval0 (pad_of (pad (p_after a)) None) ctx (acc ++ [v])) (field_order (pc m) (attrs a) ctx acc) in
    ret v)). intros off.
  eapply runs_bindr with (g1 := fun v => body_fits a t acc v = true).
  2:{ intros v Hv. eapply runs_bindr; [apply runs_asserts|]. intros _ _. eapply runs_bindr; [apply runs_pad; intros ->; now rewrite (pad_whole _ _ _ P4)|].
      intros _ _. now apply runs_ret. }
  unfold field_read_tokens, field_read_normal, field_read_func. rewrite at_skip, at_cond, at_map, at_reader, at_limit, at_args, at_default.
  assert (BR : forall (mm : RM value) (g : value -> Prop), runs false g mm -> runs false g (let* v := mm in ret v)).
  { intros mm g H. eapply runs_map; [exact H|]. auto. }
  unfold body_fits. destruct (p_kind a) as [|k size|k|i size] eqn:EK; cbn [holding].
  - apply BR. now apply IH.
  - apply BR. destruct (eval_count k size done acc ctx whole a t EK P2 B off) as (-> & E1 & E2 & E3).
    eapply runs_ext; [intros r; unfold lift; apply (bind_ret_l (LCount (count_at acc k)) _ r)|].
    destruct (is_vec_u8 (TVec KVec size (ctype t))) eqn:EV.
    + unfold kind_plain in P2. rewrite EK in P2. destruct t as [[| |]| | | | | | |]; try discriminate. apply andb_true_iff in P2. destruct P2 as [_ P2].
      apply andb_true_iff in P2. destruct P2 as [W P2]. destruct (p_bits a); [discriminate|].
      eapply runs_map; [apply (runs_and false (fun _ => True) (fun bs => N.of_nat (length bs) = count_at acc k)); [now apply runs_exact|]|].
      * intros r v r' Hp E. exact (exact_len _ _ _ _ Hp W E).
      * intros bs [_ L]. unfold vec_of_bytes. rewrite map_length, L, N.eqb_refl, fits_bytes. reflexivity.
    + change (runs false (fun v => match v with VList xs => (N.of_nat (length xs) =? count_at acc k)%N && forallb (value_fits (p_bits a) t) xs | _ => false end = true)
        (let* vs := vec_read fuel size (read_ty cu fuel (ctype t) None (pargs (p_endian a) (p_bits a))) (LCount (count_at acc k)) in ret (VList vs))).
      eapply runs_map; [apply (runs_and false (Forall (fun v => value_fits (p_bits a) t v = true)) (fun xs => N.of_nat (length xs) = count_at acc k))|].
      * eapply runs_vec; [exact (IH _ _ P1)|exact E1|intros []|discriminate].
      * intros r v r' _ E. eapply count_len; eassumption.
      * intros xs [F L]. rewrite L, N.eqb_refl. apply forallb_forall. now apply Forall_forall.
  - destruct (flag_at acc k).
    + apply BR. change (runs false (fun v => match v with VSome x => true && value_fits (p_bits a) t x | VNone => negb true | _ => false end = true)
        (let* v := read_ty cu fuel (ctype t) None (pargs (p_endian a) (p_bits a)) in ret (VSome v))).
      eapply runs_map; [exact (IH _ _ P1)|]. intros v H. exact H.
    + apply runs_ret. reflexivity.
  - apply BR. cbn [eval_limit]. set (p := fun l => is_num i (last l VUnit)).
    eapply runs_ext; [intros r; unfold lift; apply (bind_ret_l (LUntil p) _ r)|].
    apply (runs_ext _ _ _ _ _ _ (let* vs := vec_read fuel size (read_ty cu fuel (ctype t) None (pargs (p_endian a) (p_bits a))) (LUntil p) in ret (VList vs))).
    { intros r. now destruct (is_vec_u8 (TVec KVec size (ctype t))). }
    unfold kind_plain in P2. rewrite EK in P2. destruct t as [pr| | | | | | |]; try discriminate.
    eapply runs_map; [apply (runs_and false (Forall (fun v => value_fits (p_bits a) (PInt pr) v = true)) (fun xs => up_to i xs = true))|].
    + eapply runs_vec with (eats := true); [|exact I|reflexivity|discriminate]. cbn [ctype read_ty]. unfold with_pctx. rewrite pargs_pctx.
      eapply runs_map; [exact (runs_num_eats _ _ _ P1)|]. intros n H. exact H.
    + intros r v r' _ E. eapply until_up_to; [|exact E]. lia.
    + intros xs [F U]. rewrite U. apply forallb_forall. now apply Forall_forall.
Qed.

Lemma plain_reads :
  (forall t e b, plain_in whole t e b = true -> runs false (fun v => value_fits b t v = true) (read_ty cu fuel (ctype t) None (pargs e b))) /\
  (forall fs done acc m ctx, fields_plain whole done fs = true -> before done acc ->
     runs false (fun l => fields_fit fs acc l = true) (fields_read cu fuel (pc m) ctx (cfields fs) None acc)) /\
  (forall vs m p e b ctx id k, variants_plain whole vs = true ->
     runs false (fun v => exists j l, v = VVar (k + j) l /\ variant_fits vs j l = true)
       (variants_read cu fuel (eattrs_of (enum_decl m p e b)) ctx id (cvariants vs) k None)).
Proof.
  apply plain_ind.
  - intros p e b P. cbn [ctype read_ty]. unfold with_pctx. rewrite pargs_pctx. eapply runs_map; [now apply runs_num|]. intros n H. exact H.
  - intros e b P. cbn [ctype read_ty]. unfold with_pctx. rewrite pargs_pctx. unfold read_bool.
    eapply runs_map with (g1 := fun _ => True); [|reflexivity]. eapply runs_bindr; [exact (runs_num _ _ _ P)|]. intros n _.
    destruct (n =? 1)%N; [now apply runs_ret|]. destruct (n =? 0)%N; [now apply runs_ret|apply runs_fail].
  - intros n t IH e b P. cbn [ctype read_ty]. eapply runs_map; [eapply runs_weak; [apply runs_array; exact (IH e b P)|discriminate|intros v H; exact H]|].
    intros l [L F]. cbn [value_fits]. rewrite L, Nat.eqb_refl. apply forallb_forall. now apply Forall_forall.
  - intros m fs IH e b P. cbn [plain_in] in P. apply andb_true_iff in P. destruct P as [_ P]. cbn [ctype]. rewrite read_struct.
    eapply runs_bindr; [apply runs_seek; exact I|]. intros _ _. eapply runs_bindr; [eapply runs_weak; [apply runs_magic|discriminate|intros ? H; exact H]|]. intros _ _.
    eapply runs_map; [exact (IH [] [] m _ P before_nil)|]. intros l H. exact H.
  - intros m p e' b' vs IH e b P. cbn [plain_in] in P.
    apply andb_true_iff in P. destruct P as [P P7]. apply andb_true_iff in P. destruct P as [P P6]. apply andb_true_iff in P. destruct P as [P P5].
    apply andb_true_iff in P. destruct P as [P P4]. apply andb_true_iff in P. destruct P as [P P3].
    cbn [ctype]. rewrite read_enum. eapply runs_bindr; [eapply runs_weak; [apply runs_magic|discriminate|intros ? H; exact H]|]. intros _ _.
    change (runs false (fun v => value_fits b (PEnum m p e' b' vs) v = true)
      (let* id := read_ty cu fuel (TPrim p) None (id_args (eattrs_of (enum_decl m p e' b')) (ctx_args (pc m) (pargs e b))) in
       variants_read cu fuel (eattrs_of (enum_decl m p e' b')) (ctx_args (pc m) (pargs e b)) id (cvariants vs) 0 None)).
    rewrite id_pargs. eapply runs_bindr with (g1 := fun _ => True).
    + cbn [read_ty]. unfold with_pctx. rewrite pargs_pctx. eapply runs_map; [exact (runs_num _ _ _ P3)|]. auto.
    + intros id _. eapply runs_good; [exact (IH m p e' b' _ id 0 P7)|]. intros v (j & l & -> & F). exact F.
  - intros p e b P. cbn [ctype read_ty]. unfold with_pctx. rewrite pargs_pctx. unfold read_nonzero.
    eapply runs_map with (g1 := fun n => negb (n =? 0)%N && num_fits p b n = true); [|intros n H; exact H].
    eapply runs_bindr; [exact (runs_num _ _ _ P)|]. intros n Hn. cbv beta. destruct (n =? 0)%N eqn:E0; [apply runs_fail|]. apply runs_ret. now rewrite E0.
  - intros s IHs t IHt e b P. cbn [plain_in] in P. apply andb_true_iff in P. destruct P as [P1 P2]. cbn [ctype read_ty].
    eapply runs_bindr; [exact (IHs e b P1)|]. intros x Hx. eapply runs_map; [exact (IHt e b P2)|]. intros y Hy. cbn [value_fits]. now rewrite Hx.
  - intros e b P. cbn [plain_in] in P. apply andb_true_iff in P. destruct P as [P1 P2]. destruct (pargs_none e b P1 P2) as (-> & -> & ->). cbn [ctype read_ty].
    eapply runs_map; [eapply runs_weak; [apply runs_cstring|discriminate|intros l H; exact H]|]. apply text_fits.
  - intros. now apply runs_ret.
  - intros a t IHt tl IHtl done acc m ctx P B. rewrite fields_plain_cons in P.
    apply andb_true_iff in P. destruct P as [P P5]. apply andb_true_iff in P. destruct P as [P P4]. apply andb_true_iff in P. destruct P as [P P3].
    apply andb_true_iff in P. destruct P as [P1 P2]. cbn [cfields]. rewrite read_cons.
    eapply runs_bindr; [exact (runs_field m a t done ctx acc IHt P1 P2 P3 P4 B)|]. intros v Hv.
    eapply runs_map; [exact (IHtl _ (acc ++ [v]) m ctx P5 (before_snoc _ _ _ _ _ B (body_typed _ _ _ _ Hv)))|].
    intros l Hl. rewrite at_temp, fields_fit_cons. fold (body_fits a t acc v). now rewrite Hv.
  - intros. apply runs_fail.
  - intros id fs IHfs tl IHtl m p e b ctx x k P. cbn [variants_plain] in P. apply andb_true_iff in P. destruct P as [P1 P2].
    cbn [cvariants]. rewrite read_variant. cbv zeta. destruct (matches _ x).
    + eapply runs_map; [exact (IHfs [] [] m ctx P1 before_nil)|]. intros l H. exists 0, l. rewrite Nat.add_0_r. split; [reflexivity|exact H].
    + eapply runs_good; [exact (IHtl m p e b ctx x (S k) P2)|]. intros v (j & l & -> & F). exists (S j), l. split; [f_equal; lia|exact F].
Qed.
End Reads.
