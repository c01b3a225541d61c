(** Writing out [endian], [bits], [bytes] and [bit_order] changes nothing. *)
From Verif Require Import Base MonadFacts Stream Reader Writer Prims Containers Derive DeriveSpec DeriveSound DeriveFacts CanonFacts Decl SugarSpec.

Definition eqv {S A} (m m' : ST S A) : Prop := forall s, m s = m' s.
Lemma q_refl {S A} (m : ST S A) : eqv m m.
Proof. intros s. reflexivity. Qed.
Lemma q_bind {S A B} (m m' : ST S A) (f f' : A -> ST S B) : eqv m m' -> (forall a, eqv (f a) (f' a)) -> eqv (bind m f) (bind m' f').
Proof. intros H F s. unfold bind. rewrite H. destruct (m' s) as [[a|e| |] s']; auto. apply F. Qed.
Lemma q_array {A} n (m m' : RM A) : eqv m m' -> eqv (read_array n m) (read_array n m').
Proof. intros H. induction n as [|n IH]; cbn [read_array]; [apply q_refl|]. apply q_bind; [exact H|]. intros v. apply q_bind; [exact IH|]. intros vs. apply q_refl. Qed.
Lemma q_loop {A} (m m' : RM A) stop start : eqv m m' -> forall f acc, eqv (vec_loop f m stop start acc) (vec_loop f m' stop start acc).
Proof.
  intros H. induction f as [|f IH]; intros acc; cbn [vec_loop]; [apply q_refl|]. apply q_bind; [exact H|]. intros v r. cbv beta.
  destruct (_ <? _); [reflexivity|]. destruct (stop _ _); [reflexivity|]. apply IH.
Qed.
Lemma q_end_loop {A} (m m' : RM A) : eqv m m' -> forall f acc, eqv (end_loop f m acc) (end_loop f m' acc).
Proof.
  intros H. induction f as [|f IH]; intros acc; cbn [end_loop]; [apply q_refl|]. intros r. destruct (r_end r) as [[] r']; [reflexivity|].
  revert r'. apply q_bind; [exact H|]. intros v. apply IH.
Qed.
Lemma q_pred {A} f size cap (m m' : RM A) stop : eqv m m' -> eqv (vec_with_predicate f size cap m stop) (vec_with_predicate f size cap m' stop).
Proof.
  intros H. unfold vec_with_predicate. destruct (size =? 0)%N; [apply q_refl|]. match goal with |- eqv (if ?b then _ else _) _ => destruct b end; [apply q_refl|].
  intros r. now apply q_loop.
Qed.
Lemma q_vec {A} f size (m m' : RM A) lim : eqv m m' -> eqv (vec_read f size m lim) (vec_read f size m' lim).
Proof.
  intros H. destruct lim as [n|p|n|n|]; cbn [vec_read].
  - destruct (n =? 0)%N; [apply q_refl|]. intros r. now apply q_pred.
  - now apply q_pred.
  - destruct (_ <? _)%N; [apply q_refl|]. destruct (_ =? 0)%N; [apply q_refl|]. now apply q_pred.
  - destruct (n =? 0)%N; [apply q_refl|]. now apply q_pred.
  - unfold vec_to_end. destruct (size =? 0)%N; [apply q_refl|]. now apply q_end_loop.
Qed.

(** ** A field *)

Definition readdressed (a : fattrs) e o b y x : fattrs :=
  mkF e o b y x (a_limit a) (a_map a) (a_reader a) (a_writer a) (a_skip a) (a_cond a) (a_default a)
    (a_assert a) (a_assert_eq a) (a_seek a) (a_magic a) (a_pad_before a) (a_pad_after a) (a_temp a) (a_temp_value a) (a_update a).
Section Field.
Variables (c c' : cattrs) (a : fattrs) (e : option (expr0 endian)) (o : option (expr0 order)) (b y : option (expr0 nat)) (x : expr (list value)).
Let a' := readdressed a e o b y x.
Hypothesis Args : forall ctx fs off, field_args c' a' ctx fs off = field_args c a ctx fs off.
Hypothesis Pads : (forall ctx fs, field_order c' a' ctx fs = field_order c a ctx fs) \/ (a_pad_before a = None /\ a_pad_after a = None).
Lemma pad_read_same ctx fs fs' : eqv (read_pad (eval0 (a_pad_before a') ctx fs) (field_order c' a' ctx fs')) (read_pad (eval0 (a_pad_before a) ctx fs) (field_order c a ctx fs')) /\
  eqv (read_pad (eval0 (a_pad_after a') ctx fs) (field_order c' a' ctx fs')) (read_pad (eval0 (a_pad_after a) ctx fs) (field_order c a ctx fs')).
Proof.
  change (a_pad_before a') with (a_pad_before a). change (a_pad_after a') with (a_pad_after a).
  destruct Pads as [-> | [-> ->]]; split; apply q_refl.
Qed.
Lemma pad_write_same ctx fs fs' : eqv (write_pad (eval0 (a_pad_before a') ctx fs) (field_order c' a' ctx fs')) (write_pad (eval0 (a_pad_before a) ctx fs) (field_order c a ctx fs')) /\
  eqv (write_pad (eval0 (a_pad_after a') ctx fs) (field_order c' a' ctx fs')) (write_pad (eval0 (a_pad_after a) ctx fs) (field_order c a ctx fs')).
Proof.
  change (a_pad_before a') with (a_pad_before a). change (a_pad_after a') with (a_pad_after a).
  destruct Pads as [-> | [-> ->]]; split; apply q_refl.
Qed.
Lemma field_read_same u ctx fs rd rd' : (forall lim args, eqv (rd' lim args) (rd lim args)) -> eqv (read_field c' a' u ctx fs rd') (read_field c a u ctx fs rd).
Proof.
  intros H. unfold read_field. apply q_bind; [exact (q_refl _)|intros _]. apply q_bind; [exact (q_refl _)|intros _]. apply q_bind; [apply pad_read_same|intros _].
  intros r. cbv zeta. generalize (r_bits r). intros off. revert r. apply q_bind.
  - assert (HF : eqv (field_read_func c' a' u ctx fs off rd') (field_read_func c a u ctx fs off rd)).
    { unfold field_read_func. change (a_reader a') with (a_reader a). change (a_limit a') with (a_limit a). rewrite Args. destruct (a_reader a); [apply q_refl|].
      destruct (a_limit a) as [l|]; [|apply H]. cbv zeta. apply q_bind; [apply q_refl|]. intros lim. destruct u; [|apply H]. destruct lim; try apply H. apply q_refl. }
    assert (HN : eqv (field_read_normal a' ctx fs off (field_read_func c' a' u ctx fs off rd')) (field_read_normal a ctx fs off (field_read_func c a u ctx fs off rd))).
    { unfold field_read_normal. apply q_bind; [exact HF|]. intros v. apply q_refl. }
    unfold field_read_tokens. change (a_skip a') with (a_skip a). change (a_cond a') with (a_cond a). change (a_default a') with (a_default a).
    destruct (a_skip a) as [[]|], (a_cond a) as [f|]; try destruct (f _ _ _); auto using @q_refl.
  - intros v. apply q_bind; [exact (q_refl _)|intros _]. apply q_bind; [apply pad_read_same|]. intros _. apply q_refl.
Qed.
Lemma field_write_same stored ctx fs v wr wr' : (forall args, eqv (wr' args v) (wr args v)) -> eqv (write_field c' a' stored ctx fs v wr') (write_field c a stored ctx fs v wr).
Proof.
  intros H. unfold write_field. apply q_bind; [exact (q_refl _)|intros _]. apply q_bind; [exact (q_refl _)|intros _]. apply q_bind; [apply pad_write_same|intros _].
  intros w. cbv zeta. generalize (w_bits w). intros off. revert w. apply q_bind; [exact (q_refl _)|intros _]. apply q_bind; [|intros _; apply pad_write_same].
  assert (HF : eqv (field_write_func c' a' stored ctx fs off v wr') (field_write_func c a stored ctx fs off v wr)).
  { unfold field_write_func. change (a_writer a') with (a_writer a). change (a_temp a') with (a_temp a). change (a_temp_value a') with (a_temp_value a). rewrite Args.
    destruct (a_writer a); [apply q_refl|]. cbv zeta. destruct (a_temp a); [|apply H]. destruct (a_temp_value a); [apply H|apply q_refl]. }
  unfold field_write_tokens. change (a_skip a') with (a_skip a). change (a_cond a') with (a_cond a).
  destruct (a_skip a) as [[]|], (a_cond a) as [f|]; try destruct (f _ _ _); auto using @q_refl.
Qed.
End Field.
Lemma bare_args c a ctx fs off : field_args (bare c) (spelled_field c a) ctx fs off = field_args c a ctx fs off.
Proof.
  unfold field_args, field_order, args_of, eval0. cbn [spelled_field a_endian a_order a_bits a_bytes a_ctx bare c_endian c_order or_else option_map opt_list app].
  unfold spelled_args. destruct (a_endian a), (c_endian c), (a_bits a), (a_bytes a), (a_order a), (c_order c); reflexivity.
Qed.
Lemma bare_pads c a : field_spellable c a = true ->
  (forall ctx fs, field_order (bare c) (spelled_field c a) ctx fs = field_order c a ctx fs) \/ (a_pad_before a = None /\ a_pad_after a = None).
Proof.
  unfold field_spellable, field_order. cbn [spelled_field a_order bare c_order]. intros H.
  destruct (a_order a), (c_order c), (a_pad_before a), (a_pad_after a); try discriminate H; auto.
Qed.
Lemma vec_u8_spelled t : is_vec_u8 (spelled t) = is_vec_u8 t.
Proof. destruct t; try reflexivity. destruct t; destruct k; reflexivity. Qed.
Lemma spelled_no_fields c b fs : no_fields (spelled_fields c b fs) = no_fields fs.
Proof. now destruct fs. Qed.

(** ** Types *)

Definition spelled_enum (e : eattrs) : eattrs :=
  mkE (bare (en_c e)) (en_id e) (first_some (en_id_endian e) (c_endian (en_c e))) (en_bits e) (en_bytes e).
Lemma enum_id_args e ctx : unset (c_order (en_c e)) = true -> id_args (spelled_enum e) ctx = id_args e ctx.
Proof.
  unfold id_args, spelled_enum. cbn [en_id_endian en_c bare c_endian c_order en_bits en_bytes]. intros H. destruct (c_order (en_c e)); [discriminate H|].
  destruct (en_id_endian e), (c_endian (en_c e)); reflexivity.
Qed.

Section Same.
Variables (cu : nat -> custom) (fuel : nat).
Theorem spelled_read :
  (forall t, spellable t = true -> forall lim args, eqv (read_ty cu fuel (spelled t) lim args) (read_ty cu fuel t lim args)) /\
  (forall fs c, fields_spellable c fs = true -> forall ctx id acc,
     eqv (fields_read cu fuel (bare c) ctx (spelled_fields c false fs) id acc) (fields_read cu fuel c ctx fs id acc) /\
     (forall v, id = Some v -> eqv (fields_read cu fuel (bare c) ctx (spelled_fields c true fs) id acc) (fields_read cu fuel c ctx fs id acc))) /\
  (forall vs e, unset (c_order (en_c e)) = true -> variants_spellable e vs = true -> forall ctx id k d d',
     match d, d' with Some m, Some m' => eqv m m' | None, None => True | _, _ => False end ->
     eqv (variants_read cu fuel (spelled_enum e) ctx id (spelled_variants e vs) k d) (variants_read cu fuel e ctx id vs k d')).
Proof.
  apply types_ind.
  - intros p _ lim args. apply q_refl.
  - intros _ lim args. apply q_refl.
  - intros p _ lim args. apply q_refl.
  - intros _ lim args. apply q_refl.
  - intros _ lim args. apply q_refl.
  - intros t IH H lim args. cbn [spelled read_ty]. apply q_bind; [now apply IH|]. intros v. apply q_refl.
  - intros a IHa b IHb H lim args. cbn [spellable] in H. apply andb_prop in H. destruct H as [Ha Hb]. cbn [spelled read_ty].
    apply q_bind; [now apply IHa|]. intros v. apply q_bind; [now apply IHb|]. intros w. apply q_refl.
  - intros n t IH H lim args. cbn [spelled read_ty]. apply q_bind; [apply q_array; now apply IH|]. intros v. apply q_refl.
  - intros k s t IH H lim args. cbn [spelled read_ty]. destruct lim as [l|]; [|apply q_refl]. apply q_bind; [apply q_vec; now apply IH|]. intros v. apply q_refl.
  - intros c fs IH H lim args. cbn [spelled]. rewrite !read_struct. apply q_bind; [apply q_refl|intros _]. apply q_bind; [apply q_refl|intros _].
    apply q_bind; [apply (IH c H)|]. intros v. apply q_refl.
  - intros e idt IHi vs IHv H lim args. cbn [spellable] in H. apply andb_prop in H. destruct H as [H Hv]. apply andb_prop in H. destruct H as [Ho Hi].
    cbn [spelled]. fold (spelled_enum e). rewrite !read_enum. apply q_bind; [apply q_refl|intros _]. apply q_bind.
    + change (en_id (spelled_enum e)) with (en_id e). destruct (en_id e); [apply q_refl|].
      change (ctx_args (en_c (spelled_enum e)) args) with (ctx_args (en_c e) args). rewrite (enum_id_args e _ Ho). now apply IHi.
    + intros id. apply IHv; auto.
  - intros k _ lim args. apply q_refl.
  - intros c _ ctx id acc. split; [|intros v Hv]; apply q_refl.
  - intros a t IHt wire IHw tl IHtl c H ctx id acc. cbn [fields_spellable] in H. apply andb_prop in H. destruct H as [H Htl]. apply andb_prop in H. destruct H as [H Hw]. apply andb_prop in H. destruct H as [Ha Ht].
    assert (Tail : forall v, eqv (let* vs := fields_read cu fuel (bare c) ctx (spelled_fields c false tl) None (acc ++ [v]) in ret (if a_temp a then vs else v :: vs))
       (let* vs := fields_read cu fuel c ctx tl None (acc ++ [v]) in ret (if a_temp a then vs else v :: vs))).
    { intros v. apply q_bind; [apply (IHtl c Htl)|]. intros vs. apply q_refl. }
    split; [|intros x Hx; subst id]; cbn [spelled_fields]; rewrite !read_cons.
    + apply q_bind; [|exact Tail]. change (a_reader (spelled_field c a)) with (a_reader a). rewrite vec_u8_spelled.
      assert (X : eqv (read_field (bare c) (spelled_field c a) (is_vec_u8 t) ctx acc (fun lim args => read_ty cu fuel (spelled wire) lim args))
        (read_field c a (is_vec_u8 t) ctx acc (fun lim args => read_ty cu fuel wire lim args))).
      { apply (field_read_same c (bare c) a None None None None (spelled_args c a)); [exact (bare_args c a)|exact (bare_pads c a Ha)|]. intros lim args. now apply IHw. }
      destruct id as [v|]; [|exact X]. destruct (a_reader a); [exact X|apply q_refl].
    + apply q_bind; [|exact Tail]. destruct (a_reader a) as [f|] eqn:Er; [|apply q_refl]. rewrite vec_u8_spelled.
      assert (Own : readdressed a (a_endian a) (a_order a) (a_bits a) (a_bytes a) (a_ctx a) = a) by now destruct a.
      unfold read_field. apply q_bind; [apply q_refl|intros _]. apply q_bind; [apply q_refl|intros _].
      assert (P : forall p o o', p = None \/ o = o' -> eqv (read_pad p o) (read_pad p o')) by (intros p o o' [-> | ->]; apply q_refl).
      assert (PO : (forall ctx fs, field_order (bare c) a ctx fs = field_order c a ctx fs) \/ (a_pad_before a = None /\ a_pad_after a = None)).
      { unfold field_spellable in Ha. unfold field_order. cbn [bare c_order]. destruct (a_order a), (c_order c), (a_pad_before a), (a_pad_after a); try discriminate Ha; auto. }
      assert (PB : forall ctx fs fs', eval0 (a_pad_before a) ctx fs = None \/ field_order (bare c) a ctx fs' = field_order c a ctx fs') by (intros; destruct PO as [-> | [-> _]]; auto).
      assert (PA : forall ctx fs fs', eval0 (a_pad_after a) ctx fs = None \/ field_order (bare c) a ctx fs' = field_order c a ctx fs') by (intros; destruct PO as [-> | [_ ->]]; auto).
      apply q_bind; [apply P, PB|intros _]. intros r. cbv zeta. generalize (r_bits r). intros off. revert r. apply q_bind.
      * unfold field_read_func. rewrite Er. apply q_refl.
      * intros v. apply q_bind; [apply q_refl|intros _]. apply q_bind; [apply P, PA|]. intros _. apply q_refl.
  - intros e _ _ ctx id k d d' Hd. cbn [spelled_variants variants_read]. destruct d, d'; try contradiction; [exact Hd|apply q_refl].
  - intros v fs IHf vs IHv e Ho H ctx id k d d' Hd. cbn [variants_spellable] in H. apply andb_prop in H. destruct H as [H Hv]. apply andb_prop in H. destruct H as [He Hf].
    cbn [spelled_variants]. rewrite !read_variant. cbv zeta.
    assert (B : eqv (let* l := fields_read cu fuel (en_c (spelled_enum e)) ctx (spelled_fields (en_c e) (is_pat v && negb (has_id e)) fs) (if stores_id (spelled_enum e) v then Some id else None) [] in ret (VVar k l))
      (let* l := fields_read cu fuel (en_c e) ctx fs (if stores_id e v then Some id else None) [] in ret (VVar k l))).
    { apply q_bind; [|intros l; apply q_refl]. change (stores_id (spelled_enum e) v) with (stores_id e v). change (en_c (spelled_enum e)) with (bare (en_c e)).
      replace (is_pat v && negb (has_id e)) with (stores_id e v) by (unfold is_pat, has_id, stores_id; destruct (en_id e), (v_sel v); reflexivity).
      destruct (stores_id e v); [|apply (IHf (en_c e) Hf)]. destruct (IHf (en_c e) Hf ctx (Some id) []) as [_ X]. now apply (X id). }
    destruct (matches (v_sel v) id); [exact B|]. apply IHv; [exact Ho|exact Hv|].
    destruct d, d'; try contradiction; [exact Hd|]. destruct (v_default v); [exact B|exact I].
Qed.
Theorem spelled_write :
  (forall t, spellable t = true -> forall args v, eqv (write_ty cu (spelled t) args v) (write_ty cu t args v)) /\
  (forall fs c, fields_spellable c fs = true -> forall b ctx id stored todo acc, (b = true -> id <> None) ->
     eqv (fields_write cu (bare c) ctx (spelled_fields c b fs) id stored todo acc) (fields_write cu c ctx fs id stored todo acc)) /\
  (forall vs e, unset (c_order (en_c e)) = true -> variants_spellable e vs = true -> forall ctx wid wid' k l,
     (forall args x, eqv (wid args x) (wid' args x)) ->
     eqv (variant_write cu (spelled_enum e) ctx wid (spelled_variants e vs) k l) (variant_write cu e ctx wid' vs k l)).
Proof.
  apply types_ind.
  - intros p _ args v. apply q_refl.
  - intros _ args v. apply q_refl.
  - intros p _ args v. apply q_refl.
  - intros _ args v. apply q_refl.
  - intros _ args v. apply q_refl.
  - intros t IH H args v. cbn [spelled]. destruct v; try apply q_refl. now apply IH.
  - intros a IHa b IHb H args v. cbn [spellable] in H. apply andb_prop in H. destruct H as [Ha Hb]. cbn [spelled]. destruct v; try apply q_refl. cbn [write_ty].
    apply q_bind; [now apply IHa|]. intros _. now apply IHb.
  - intros n t IH H args v. cbn [spelled]. destruct v; try apply q_refl. intros w. apply write_list_ext. intros x w'. now apply IH.
  - intros k s t IH H args v. cbn [spelled]. destruct v; try apply q_refl. intros w. apply write_list_ext. intros x w'. now apply IH.
  - intros c fs IH H args v. cbn [spelled]. destruct v; try apply q_refl. rewrite !write_struct. apply q_bind; [apply q_refl|intros _]. apply q_bind; [apply q_refl|intros _].
    apply (IH c H). discriminate.
  - intros e idt IHi vs IHv H args v. cbn [spellable] in H. apply andb_prop in H. destruct H as [H Hv]. apply andb_prop in H. destruct H as [Ho Hi].
    cbn [spelled]. fold (spelled_enum e). destruct v; try apply q_refl. rewrite !write_enum. apply q_bind; [apply q_refl|intros _].
    apply IHv; [exact Ho|exact Hv|]. intros args' x. now apply IHi.
  - intros k _ args v. apply q_refl.
  - intros c _ b ctx id stored todo acc _. apply q_refl.
  - intros a t IHt wire IHw tl IHtl c H b ctx id stored todo acc Hb. cbn [fields_spellable] in H. apply andb_prop in H. destruct H as [H Htl]. apply andb_prop in H. destruct H as [H Hw]. apply andb_prop in H. destruct H as [Ha Ht].
    cbn [spelled_fields]. rewrite !write_cons.
    assert (FV : field_value (if b then a else spelled_field c a) stored todo ctx acc = field_value a stored todo ctx acc) by now destruct b.
    assert (FR : field_rest (if b then a else spelled_field c a) todo = field_rest a todo) by now destruct b.
    rewrite FV, FR. apply q_bind; [|intros _; apply (IHtl c Htl); discriminate].
    destruct id as [args|]; [now apply IHt|]. destruct b; [now destruct (Hb eq_refl)|].
    apply (field_write_same c (bare c) a None None None None (spelled_args c a)); [exact (bare_args c a)|exact (bare_pads c a Ha)|]. intros args. now apply IHt.
  - intros e _ _ ctx wid wid' k l _. apply q_refl.
  - intros v fs IHf vs IHv e Ho H ctx wid wid' k l Hw. cbn [variants_spellable] in H. apply andb_prop in H. destruct H as [H Hv]. apply andb_prop in H. destruct H as [He Hf].
    cbn [spelled_variants]. destruct k as [|k]; [|exact (IHv e Ho Hv ctx wid wid' k l Hw)]. rewrite !write_variant_0. apply q_bind.
    + unfold write_id. rewrite spelled_no_fields, (enum_id_args e ctx Ho). cbn [spelled_enum en_id]. destruct (en_id e); [apply q_refl|].
      destruct (v_sel v) as [x|p [d|]|x]; auto using @q_refl. destruct (no_fields fs); auto using @q_refl.
    + intros _. change (en_c (spelled_enum e)) with (bare (en_c e)). unfold is_pat. destruct (v_sel v) as [x|p d|x] eqn:Es.
      * apply (IHf (en_c e) Hf). discriminate.
      * destruct fs as [|a t wire tl]; [apply q_refl|].
        assert (SA : stored_id_args (spelled_enum e) ctx = stored_id_args e ctx).
        { unfold endian_spellable, is_pat in He. rewrite Es in He. cbn [negb no_fields orb] in He. unfold stored_id_args, spelled_enum. cbn [en_id_endian en_bits en_bytes en_c bare c_order].
          destruct (c_order (en_c e)); [discriminate Ho|]. destruct (en_id_endian e), (c_endian (en_c e)); try discriminate He; reflexivity. }
        rewrite SA. apply (IHf (en_c e) Hf). discriminate.
      * apply (IHf (en_c e) Hf). discriminate.
Qed.
End Same.

Theorem spelled_only_ctx :
  (forall t, only_ctx (spelled t) = true) /\
  (forall fs c b, fields_only_ctx b (spelled_fields c b fs) = true) /\
  (forall vs e, variants_only_ctx (has_id e) (spelled_variants e vs) = true).
Proof.
  apply types_ind; try reflexivity; auto.
  - intros a Ha b Hb. cbn [spelled only_ctx]. now rewrite Ha, Hb.
  - intros c fs IH. exact (IH c false).
  - intros e idt IHi vs IHv. cbn [spelled only_ctx en_c bare c_endian c_order unset andb]. rewrite IHi. exact (IHv e).
  - intros a t IHt w IHw tl IHtl c b. cbn [spelled_fields fields_only_ctx]. rewrite IHt, IHw, (IHtl c false), !andb_true_r. now destruct b.
  - intros v fs IHf vs IHv e. cbn [spelled_variants variants_only_ctx]. rewrite (IHf (en_c e)). exact (IHv e).
Qed.

(** ** The API *)

Lemma same_reader cu fuel t t' : (forall lim args, eqv (read_ty cu fuel t' lim args) (read_ty cu fuel t lim args)) -> forall s bit,
  from_reader cu fuel t' s bit = from_reader cu fuel t s bit.
Proof.
  intros H s bit. unfold from_reader.
  assert (E : eqv (let* _ := if bit =? 0 then ret tt else skip_bits bit Msb0 in let* v := read_ty cu fuel t' None [] in fun r => (Ok (r_bits r, v), r))
    (let* _ := if bit =? 0 then ret tt else skip_bits bit Msb0 in let* v := read_ty cu fuel t None [] in fun r => (Ok (r_bits r, v), r))).
  { apply q_bind; [apply q_refl|intros _]. apply q_bind; [apply H|]. intros v. apply q_refl. }
  now rewrite (E (reader_new s)).
Qed.
Lemma same_bytes cu fuel t t' : (forall lim args, eqv (read_ty cu fuel t' lim args) (read_ty cu fuel t lim args)) -> forall input bit,
  from_bytes cu fuel t' input bit = from_bytes cu fuel t input bit /\ try_from cu fuel t' input = try_from cu fuel t input.
Proof. intros H input bit. unfold from_bytes, try_from. now rewrite !(same_reader _ _ _ _ H). Qed.
Lemma same_written cu t t' v : eqv (write_ty cu t' [] v) (write_ty cu t [] v) -> 
  to_bytes cu t' v = to_bytes cu t v /\ (forall buf, to_slice cu t' v buf = to_slice cu t v buf) /\ to_bits cu t' v = to_bits cu t v.
Proof.
  intros H. unfold to_bytes, to_slice, to_bits, to_bytes_with, to_slice_with, to_bits_with, bind. rewrite H. repeat split. intros buf. now rewrite H.
Qed.
Theorem spelled_reads cu fuel t : spellable t = true ->
  (forall lim args r, read_ty cu fuel (spelled t) lim args r = read_ty cu fuel t lim args r) /\
  (forall s bit, from_reader cu fuel (spelled t) s bit = from_reader cu fuel t s bit) /\
  (forall input bit, from_bytes cu fuel (spelled t) input bit = from_bytes cu fuel t input bit) /\
  (forall input, try_from cu fuel (spelled t) input = try_from cu fuel t input).
Proof.
  intros H. pose proof (proj1 (spelled_read cu fuel) t H) as R. repeat split.
  - exact R.
  - intros s bit. now apply same_reader.
  - intros input bit. now apply same_bytes.
  - intros input. now apply same_bytes.
Qed.
Theorem spelled_writes cu t v : spellable t = true ->
  (forall args w, write_ty cu (spelled t) args v w = write_ty cu t args v w) /\
  to_bytes cu (spelled t) v = to_bytes cu t v /\
  (forall buf, to_slice cu (spelled t) v buf = to_slice cu t v buf) /\
  to_bits cu (spelled t) v = to_bits cu t v.
Proof.
  intros H. pose proof (proj1 (spelled_write cu) t H) as W. split; [intros args w; apply W|]. now apply same_written.
Qed.
Lemma spelled_update_fields fs : forall c b pre todo, update_fields (spelled_fields c b fs) pre todo = update_fields fs pre todo.
Proof.
  induction fs as [|a t w tl IH]; intros c b pre todo; cbn [spelled_fields]; [reflexivity|]. cbn [update_fields].
  replace (a_temp (if b then a else spelled_field c a)) with (a_temp a) by now destruct b.
  replace (a_update (if b then a else spelled_field c a)) with (a_update a) by now destruct b.
  destruct (a_temp a); [apply IH|]. destruct todo; [reflexivity|]. destruct (a_update a) as [f|]; [|apply IH].
  destruct (f _); cbn [res_bind]; auto.
Qed.
Lemma spelled_nth e vs : forall k, nth_variant (spelled_variants e vs) k = option_map (fun p => (fst p, spelled_fields (en_c e) (is_pat (fst p) && negb (has_id e)) (snd p))) (nth_variant vs k).
Proof. induction vs as [|v fs tl IH]; intros k; [reflexivity|]. destruct k; [reflexivity|apply IH]. Qed.
Theorem spelled_update t v : update (spelled t) v = update t v.
Proof.
  destruct t; try reflexivity; destruct v; try reflexivity; unfold update; cbn [spelled]; [now rewrite spelled_update_fields|].
  rewrite spelled_nth. destruct (nth_variant _ _) as [[]|]; [|reflexivity]. cbn [option_map fst snd]. now rewrite spelled_update_fields.
Qed.
Theorem spelled_deku_id e vs : forall k, deku_id (spelled_variants e vs) k = deku_id vs k.
Proof. induction vs as [|v fs tl IH]; intros k; [reflexivity|]. destruct k; [reflexivity|apply IH]. Qed.

(** ** Declarations *)

Section Struct.
Variable c : cdecl.
Let c' := mkCd None None (k_ctx c) (k_ctx_default c) (k_magic c) (k_seek_rewind c) (k_seek_current c) (k_seek_end c) (k_seek_start c) (k_id c) (k_id_type c)
             (k_id_endian c) (k_bits c) (k_bytes c) (k_repr c).
Let sp m := mkM (spelled_fdecl c (m_attrs m)) (m_ty m) (m_wire m) (m_default m).
Definition decl_args (f : fdecl) : expr (list value) := match d_ctx (spelled_fdecl c f) with Some g => g | None => fun _ _ _ => [] end.
Lemma spelled_attrs f dv : fattrs_of (spelled_fdecl c f) dv = readdressed (fattrs_of f dv) None None None None (decl_args f).
Proof. reflexivity. Qed.
Lemma decl_args_same f dv ctx fs off : field_args (cattrs_of c') (fattrs_of (spelled_fdecl c f) dv) ctx fs off = field_args (cattrs_of c) (fattrs_of f dv) ctx fs off.
Proof.
  unfold field_args, field_order, args_of, eval0. cbn [fattrs_of spelled_fdecl c' cattrs_of a_endian a_order a_bits a_bytes a_ctx c_endian c_order d_endian d_order d_bits d_bytes d_ctx k_endian k_order option_map or_else opt_list app].
  destruct (d_endian f) as [[| |]|], (k_endian c) as [[| |]|], (d_bits f), (d_bytes f), (d_order f) as [[| |]|], (k_order c) as [[| |]|], (d_ctx f); reflexivity.
Qed.
Lemma decl_pads_same m dv : padding_spellable c m = true ->
  (forall ctx fs, field_order (cattrs_of c') (fattrs_of (spelled_fdecl c (m_attrs m)) dv) ctx fs = field_order (cattrs_of c) (fattrs_of (m_attrs m) dv) ctx fs) \/
  (a_pad_before (fattrs_of (m_attrs m) dv) = None /\ a_pad_after (fattrs_of (m_attrs m) dv) = None).
Proof.
  unfold padding_spellable, field_order. cbn [fattrs_of spelled_fdecl c' cattrs_of a_order c_order d_order k_order option_map a_pad_before a_pad_after]. intros H.
  destruct (d_order (m_attrs m)), (k_order c); auto; right;
  destruct (d_pad_bits_before (m_attrs m)), (d_pad_bytes_before (m_attrs m)), (d_pad_bits_after (m_attrs m)), (d_pad_bytes_after (m_attrs m)); try discriminate H; auto.
Qed.
Lemma decl_fields_read cu fuel ms : forallb (padding_spellable c) ms = true -> forall ctx acc,
  eqv (fields_read cu fuel (cattrs_of c') ctx (fields_of (map sp ms)) None acc) (fields_read cu fuel (cattrs_of c) ctx (fields_of ms) None acc).
Proof.
  induction ms as [|m tl IH]; intros H ctx acc; cbn [map fields_of]; [apply q_refl|]. cbn [forallb] in H. apply andb_prop in H. destruct H as [Hm H]. rewrite !read_cons.
  cbn [sp m_attrs m_ty m_wire m_default]. apply q_bind.
  - apply (field_read_same (cattrs_of c) (cattrs_of c') (fattrs_of (m_attrs m) (m_default m)) None None None None (decl_args (m_attrs m))).
    + intros. apply decl_args_same.
    + now apply decl_pads_same.
    + intros. apply q_refl.
  - intros v. apply q_bind; [now apply IH|]. intros vs. apply q_refl.
Qed.
Lemma decl_fields_write cu ms : forallb (padding_spellable c) ms = true -> forall ctx stored todo acc,
  eqv (fields_write cu (cattrs_of c') ctx (fields_of (map sp ms)) None stored todo acc) (fields_write cu (cattrs_of c) ctx (fields_of ms) None stored todo acc).
Proof.
  induction ms as [|m tl IH]; intros H ctx stored todo acc; cbn [map fields_of]; [apply q_refl|]. cbn [forallb] in H. apply andb_prop in H. destruct H as [Hm H]. rewrite !write_cons.
  cbn [sp m_attrs m_ty m_wire m_default]. apply q_bind; [|intros _; now apply IH].
  apply (field_write_same (cattrs_of c) (cattrs_of c') (fattrs_of (m_attrs m) (m_default m)) None None None None (decl_args (m_attrs m))).
  - intros. apply decl_args_same.
  - now apply decl_pads_same.
  - intros. apply q_refl.
Qed.
Lemma spelled_valid feat f : known feat f && field_valid feat f = true -> known feat (spelled_fdecl c f) && field_valid feat (spelled_fdecl c f) = true.
Proof.
  intros H. apply andb_prop in H. destruct H as [K V]. apply andb_true_intro. split.
  - unfold known in *. destruct feat; [reflexivity|]. rewrite orb_false_l, negb_true_iff in *. change (d_bits (spelled_fdecl c f)) with (@None (expr0 nat)).
    rewrite !orb_false_iff in K. destruct K as [[[_ K1] K2] K3]. cbn [some orb].
    change (d_bits_read (spelled_fdecl c f)) with (d_bits_read f). change (d_pad_bits_before (spelled_fdecl c f)) with (d_pad_bits_before f).
    change (d_pad_bits_after (spelled_fdecl c f)) with (d_pad_bits_after f). now rewrite K1, K2, K3.
  - unfold field_valid in V |- *. change (d_bits (spelled_fdecl c f)) with (@None (expr0 nat)). cbn [some andb]. rewrite andb_false_r.
    destruct (feat && (some (d_bits f) && some (d_bytes f))).
    + exfalso. destruct (feat && _); [discriminate V|]. destruct (if feat then _ else _); discriminate V.
    + exact V.
Qed.
Lemma spelled_members feat ms : members_valid feat ms = true -> members_valid feat (map sp ms) = true.
Proof.
  unfold members_valid. induction ms as [|m tl IH]; [reflexivity|]. cbn [forallb map]. intros H. apply andb_prop in H. destruct H as [H T].
  rewrite (IH T), andb_true_r. exact (spelled_valid feat (m_attrs m) H).
Qed.
Lemma spelled_updates ms : forall pre todo, update_fields (fields_of (map sp ms)) pre todo = update_fields (fields_of ms) pre todo.
Proof.
  induction ms as [|m tl IH]; intros pre todo; [reflexivity|]. cbn [map fields_of update_fields]. cbn [sp fattrs_of m_attrs spelled_fdecl a_temp a_update d_temp d_update].
  destruct (d_temp _); [apply IH|]. destruct todo; [reflexivity|]. destruct (d_update _) as [f|]; [|apply IH].
  destruct (f _); cbn [res_bind]; auto.
Qed.
Theorem spelled_derive tr feat ms t : derive tr feat (DStruct c ms) = Some t -> forallb (padding_spellable c) ms = true ->
  exists t', derive tr feat (spelled_struct c ms) = Some t' /\
    (forall cu fuel lim args, eqv (read_ty cu fuel t' lim args) (read_ty cu fuel t lim args)) /\
    (forall cu args v, eqv (write_ty cu t' args v) (write_ty cu t args v)) /\
    (forall v, update t' v = update t v).
Proof.
  cbn [derive]. intros D P. destruct (members_valid feat ms && container_valid feat false c) eqn:V; [|discriminate D]. injection D as <-. apply andb_prop in V. destruct V as [V1 V2].
  exists (TStruct (cattrs_of c') (fields_of (map sp ms))). split; [|split; [|split]].
  - unfold spelled_struct. cbn [derive]. fold c' sp. rewrite (spelled_members feat ms V1). change (container_valid feat false c') with (container_valid feat false c). now rewrite V2.
  - intros cu fuel lim args. rewrite !read_struct. apply q_bind; [apply q_refl|intros _]. apply q_bind; [apply q_refl|intros _].
    apply q_bind; [now apply decl_fields_read|]. intros v. apply q_refl.
  - intros cu args v. destruct v; try apply q_refl. rewrite !write_struct. apply q_bind; [apply q_refl|intros _]. apply q_bind; [apply q_refl|intros _]. now apply decl_fields_write.
  - intros v. unfold update. destruct v; try reflexivity. now rewrite spelled_updates.
Qed.
End Struct.
