(** Recursive types: round trip, canonical form, safety. *)
From Coq Require Import Lia ZifyBool ZifyNat ZifyN.
From Verif Require Import Base Spec Stream Reader Session Writer WSession Prims BitsFacts NFacts MonadFacts ReaderFacts ReaderOps FastRead SessionFacts CodecSpec CodecFacts Safety PrimFacts Containers ContainerProps ContainerSpec ContainerFacts Derive DeriveSpec DeriveFacts DeriveSound DeriveProps SafeSpec SafeFacts DeriveSafe WSafeSpec WSafeFacts WSafeDerive CanonSpec CanonFacts CanonDerive CanonProps Rec RecFacts RecSpec.
Ltac Zify.zify_post_hook ::= Z.div_mod_to_equations.

(** ** Fuel and stack *)

Lemma unroll_refines defs f f' : f <= f' -> forall d d', d <= d' -> forall k,
  (forall args, refines (cu_read (unroll defs f d k) args) (cu_read (unroll defs f' d' k) args)) /\
  (forall args v, refines (cu_write (unroll defs f d k) args v) (cu_write (unroll defs f' d' k) args v)).
Proof.
  intros Hf. induction d as [|d IH]; intros d' Hd k.
  - split; intros; apply refines_diverge.
  - destruct d' as [|d']; [lia|]. cbn [unroll cu_read cu_write].
    assert (H : forall k, (forall args, refines (cu_read (unroll defs f d k) args) (cu_read (unroll defs f' d' k) args)) /\
      (forall args v, refines (cu_write (unroll defs f d k) args v) (cu_write (unroll defs f' d' k) args v))) by (intros; apply IH; lia).
    split; intros.
    + apply (types_refine (unroll defs f d) (unroll defs f' d') f f' Hf (fun k => proj1 (H k))).
    + apply (writes_refine (unroll defs f d) (unroll defs f' d') (fun k => proj2 (H k))).
Qed.
Lemma from_reader_refines cu cu' f f' t s bit : (forall lim args, refines (read_ty cu f t lim args) (read_ty cu' f' t lim args)) ->
  fst (from_reader cu f t s bit) <> Diverge -> from_reader cu' f' t s bit = from_reader cu f t s bit.
Proof.
  intros H. unfold from_reader. intros Hd.
  match goal with |- (let '(_, _) := ?m' ?r in _) = (let '(_, _) := ?m ?r in _) => assert (E : refines m m') end.
  { apply refines_bind; [apply refines_refl|]. intros _. apply refines_bind; [apply H|]. intros; apply refines_refl. }
  rewrite E; [reflexivity|]. destruct (bind _ _ _) as [x r]. exact Hd.
Qed.
Lemma from_bytes_refines cu cu' f f' t input bit : (forall lim args, refines (read_ty cu f t lim args) (read_ty cu' f' t lim args)) ->
  from_bytes cu f t input bit <> Diverge -> from_bytes cu' f' t input bit = from_bytes cu f t input bit.
Proof.
  intros H. unfold from_bytes. pose proof (from_reader_refines cu cu' f f' t (cursor input) bit H) as E.
  destruct (from_reader cu f t (cursor input) bit) as [x s]. cbn [fst] in E. intros Hd. rewrite E; [reflexivity|]. intros ->. now apply Hd.
Qed.
Lemma try_from_refines cu cu' f f' t input : (forall lim args, refines (read_ty cu f t lim args) (read_ty cu' f' t lim args)) ->
  try_from cu f t input <> Diverge -> try_from cu' f' t input = try_from cu f t input.
Proof.
  intros H. unfold try_from. pose proof (from_reader_refines cu cu' f f' t (cursor input) 0 H) as E.
  destruct (from_reader cu f t (cursor input) 0) as [x s]. cbn [fst] in E. intros Hd. rewrite E; [reflexivity|]. intros ->. now apply Hd.
Qed.
Lemma more_fuel cu fuel fuel' t input bit : fuel <= fuel' -> from_bytes cu fuel t input bit <> Diverge ->
  from_bytes cu fuel' t input bit = from_bytes cu fuel t input bit.
Proof. intros Hf. apply from_bytes_refines. intros lim args. apply types_refine; [exact Hf|]. intros; apply refines_refl. Qed.
Section Rec.
Variable defs : nat -> ty.
Lemma named_refines f f' d d' k : f <= f' -> d <= d' -> forall lim args,
  refines (read_ty (unroll defs f d) f (TCustom k) lim args) (read_ty (unroll defs f' d') f' (TCustom k) lim args).
Proof. intros Hf Hd lim args. apply types_refine; [exact Hf|]. intros j a. now apply unroll_refines. Qed.
Theorem rec_more_from_bytes fuel fuel' depth depth' k input bit : fuel <= fuel' -> depth <= depth' ->
  rec_from_bytes defs fuel depth k input bit <> Diverge ->
  rec_from_bytes defs fuel' depth' k input bit = rec_from_bytes defs fuel depth k input bit.
Proof. intros Hf Hd. apply from_bytes_refines. now apply named_refines. Qed.
Theorem rec_more_try_from fuel fuel' depth depth' k input : fuel <= fuel' -> depth <= depth' ->
  rec_try_from defs fuel depth k input <> Diverge ->
  rec_try_from defs fuel' depth' k input = rec_try_from defs fuel depth k input.
Proof. intros Hf Hd. apply try_from_refines. now apply named_refines. Qed.
Theorem rec_more_to_bytes fuel fuel' depth depth' k v : depth <= depth' ->
  rec_to_bytes defs fuel depth k v <> Diverge ->
  rec_to_bytes defs fuel' depth' k v = rec_to_bytes defs fuel depth k v.
Proof.
  intros Hd. unfold rec_to_bytes, to_bytes, to_bytes_with. cbn [write_ty].
  assert (HW : forall d d', d <= d' -> forall k v, refines (cu_write (unroll defs fuel d k) [] v) (cu_write (unroll defs fuel' d' k) [] v)).
  { clear. assert (G : forall d d', d <= d' -> forall k args v, refines (cu_write (unroll defs fuel d k) args v) (cu_write (unroll defs fuel' d' k) args v)).
    { induction d as [|d IH]; intros d' Hd k args v; [apply refines_diverge|]. destruct d' as [|d']; [lia|]. cbn [unroll cu_write].
      apply writes_refine. intros. apply IH. lia. }
    intros. now apply G. }
  match goal with |- (let '(_, _) := ?m ?w in _) <> _ -> (let '(_, _) := ?m' ?w in _) = _ => assert (E : refines m m') end.
  { apply refines_bind; [now apply HW|]. intros; apply refines_refl. }
  intros H. rewrite E; [reflexivity|]. destruct (bind _ _ _) as [x w]. cbn [fst] in *. intros ->. now apply H.
Qed.

(** ** Round trip *)

Lemma format_upto src o fuel d : customs_upto src o fuel (unroll defs fuel d) (rec_format defs src o d).
Proof.
  induction d as [|d IH]; intros k args pos v enc E; [discriminate|]. cbn [rec_format unroll cu_read cu_write] in *.
  exact (encode_sound src o _ _ fuel IH _ _ _ _ _ _ E).
Qed.
Theorem rec_round_trip o fuel d depth k v enc : rec_format defs SeekSource o d k [] 0 v = Some enc -> length enc <= fuel -> d <= depth ->
  exists bytes pad, rec_to_bytes defs fuel depth k v = Ok bytes /\ bitstring o bytes = enc ++ repeat false pad /\ pad < 8 /\
    forall tail, rec_from_bytes defs fuel depth k (bytes ++ tail) 0 = Ok ((skipn (length enc / 8) (bytes ++ tail), length enc mod 8), v).
Proof.
  intros E Hf Hd. destruct (round_trip_upto (unroll defs fuel d) fuel o (rec_format defs SeekSource o d) (TCustom k) v enc) as (bytes & pad & E1 & E2 & E3 & E4).
  - apply format_upto.
  - cbn [encode]. destruct v; exact E.
  - exact Hf.
  - exists bytes, pad. split; [|split; [exact E2|split; [exact E3|]]].
    + rewrite <- E1. apply (rec_more_to_bytes fuel fuel d depth k v Hd). unfold rec_to_bytes. rewrite E1. discriminate.
    + intros tail. rewrite <- E4. apply (rec_more_from_bytes fuel fuel d depth k _ 0 (le_n _) Hd). unfold rec_from_bytes. rewrite E4. discriminate.
Qed.

(** ** Written back as read *)

Lemma unroll_faithful o fuel ok : rec_rewritable defs o ok -> forall d k args p q, ok k args p q ->
  faithful o p q (fun _ => True) (cu_read (unroll defs fuel d k) args) (cu_write (unroll defs fuel d k) args).
Proof.
  intros H. induction d as [|d IH]; intros k args p q Hk; [intros r v r' _ E; discriminate|].
  cbn [unroll cu_read cu_write]. intros r v r' Hh E.
  destruct (reread_middle (unroll defs fuel d) o fuel p q (defs k) None args r v r') as (_ & H1 & H2); [|exact Hh|exact E|].
  - now apply H.
  - split; [exact I|]. split; [exact H1|exact H2].
Qed.
Lemma rec_rewritable_type o fuel ok d k q : rec_rewritable defs o ok -> ok k [] (SeekSource, Some 0) q ->
  rewritable_type (unroll defs fuel d) o (TCustom k).
Proof. intros H Hk. exists q. split; [reflexivity|]. now apply (unroll_faithful o fuel ok H). Qed.
Theorem rec_read_write o fuel ok depth k q input v : rec_rewritable defs o ok -> ok k [] (SeekSource, Some 0) q ->
  rec_try_from defs fuel depth k input = Ok v -> rec_to_bytes defs fuel depth k v = Ok input.
Proof. intros H Hk. apply (try_from_write _ o fuel). exact (rec_rewritable_type o fuel ok depth k q H Hk). Qed.

(** ** Untrusted input *)

Section Safe.
Variables (fuel : nat) (inside : bool) (N : nat) (named : nat -> value -> Prop) (cu cu' : nat -> custom).
Local Notation typed := (typed_in named).
Local Notation fields_typed := (fields_typed_in named).
Local Notation variant_typed := (variant_typed_in named).
Local Notation field_safe := (field_safe_in named).
Local Notation safe_ty := (safe_ty_in named).
Local Notation fields_safe := (fields_safe_in named).
Local Notation variants_safe := (variants_safe_in named).
Definition small (r : reader) : Prop := 8 * length (s_data (r_s r)) + 8 < fuel.
Hypothesis Hc : forall k args r, small r -> unread_len (seen r) < N -> cu_read (cu k) args r = cu_read (cu' k) args r.
Notation runs := (runs fuel inside false).
Notation place := (place inside).
Definition same (ate : bool) {A} (m m' : RM A) : Prop :=
  forall r, place r -> small r -> unread_len (seen r) + (if ate then 1 else 0) <= N -> m r = m' r.
Lemma same_refl {A} ate (m : RM A) : same ate m m.
Proof. intros r _ _ _. reflexivity. Qed.
Lemma same_weak {A} ate ate' (m m' : RM A) : same ate m m' -> (ate = true -> ate' = true) -> same ate' m m'.
Proof. intros H Ha r Hp Hs Hu. apply H; [exact Hp|exact Hs|]. destruct ate; [rewrite Ha in Hu by reflexivity; exact Hu|]. destruct ate'; lia. Qed.
Lemma same_bind {A B} ate c (g : A -> Prop) (m m' : RM A) (f f' : A -> RM B) : same ate m m' -> runs c g m' ->
  (forall a, g a -> same (ate || c) (f a) (f' a)) -> same ate (bind m f) (bind m' f').
Proof.
  intros Hm Hr Hf r Hp Hs Hu. unfold bind. rewrite (Hm r Hp Hs Hu). destruct (m' r) as [x r1] eqn:E.
  destruct (Hr r x r1 Hp Hs E) as (_ & _ & K). destruct x as [a|e| |]; try reflexivity.
  destruct (K a eq_refl) as (G & P & S & M). specialize (M eq_refl). apply (Hf a G r1 P); [unfold small in *; now rewrite S|].
  destruct ate, c; cbn [orb]; lia.
Qed.
Lemma same_map {A B} ate (m m' : RM A) (f : A -> B) : same ate m m' -> same ate (let* a := m in ret (f a)) (let* a := m' in ret (f a)).
Proof. intros H r Hp Hs Hu. unfold bind. now rewrite (H r Hp Hs Hu). Qed.
Lemma same_array {A} ate c (g : A -> Prop) n (m m' : RM A) : same ate m m' -> runs c g m' -> same ate (read_array n m) (read_array n m').
Proof.
  intros Hm Hr. induction n as [|n IH]; cbn [read_array]; [apply same_refl|]. eapply same_bind; [exact Hm|exact Hr|]. intros a _.
  apply same_map. eapply same_weak; [exact IH|]. intros ->. reflexivity.
Qed.
Lemma same_loop {A} ate c (g : A -> Prop) (m m' : RM A) stop start : same ate m m' -> runs c g m' ->
  forall f acc, same ate (vec_loop f m stop start acc) (vec_loop f m' stop start acc).
Proof.
  intros Hm Hr. induction f as [|f IH]; intros acc; cbn [vec_loop]; [apply same_refl|].
  eapply same_bind; [exact Hm|exact Hr|]. intros v _ r Hp Hs Hu. destruct (_ <? _); [reflexivity|]. destruct (stop _ _); [reflexivity|].
  apply IH; [exact Hp|exact Hs|]. destruct ate, c; cbn [orb] in Hu; lia.
Qed.
Lemma same_end {A} ate c (g : A -> Prop) (m m' : RM A) : inside = false -> same ate m m' -> runs c g m' ->
  forall f acc, same ate (end_loop f m acc) (end_loop f m' acc).
Proof.
  intros Hi Hm Hr. induction f as [|f IH]; intros acc; cbn [end_loop]; [apply same_refl|]. intros r Hp Hs Hu.
  destruct (r_end_spec r (place_wf _ _ Hp) (place_quiet _ _ Hp)) as (r0 & E0 & A0 & U0).
  destruct (place_adv inside r r0 0 Hp A0) as (P0 & S0 & Us0 & B0); [now rewrite U0|rewrite Hi; discriminate|].
  rewrite E0. destruct (_ =? 0); [reflexivity|].
  assert (HB : same ate (let* v := m in end_loop f m (acc ++ [v])) (let* v := m' in end_loop f m' (acc ++ [v]))).
  { eapply same_bind; [exact Hm|exact Hr|]. intros v _. eapply same_weak; [apply IH|]. intros ->. reflexivity. }
  apply HB; [exact P0|unfold small in *; now rewrite S0|lia].
Qed.
Lemma same_pred {A} ate c (g : A -> Prop) (m m' : RM A) f size cap stop : same ate m m' -> runs c g m' ->
  same ate (vec_with_predicate f size cap m stop) (vec_with_predicate f size cap m' stop).
Proof.
  intros Hm Hr. unfold vec_with_predicate. destruct (_ =? _)%N; [apply same_refl|]. destruct (match cap with Some _ => _ | None => _ end); [apply same_refl|].
  intros r Hp Hs Hu. now apply (same_loop ate c g m m' stop (r_bits r) Hm Hr).
Qed.
Lemma same_vec {A} ate c (g : A -> Prop) (m m' : RM A) size lim : (inside = true -> lim <> LEnd) -> same ate m m' -> runs c g m' ->
  same ate (vec_read fuel size m lim) (vec_read fuel size m' lim).
Proof.
  intros Hi Hm Hr. pose proof (fun f => same_pred ate c g m m' f) as HP. destruct lim; cbn [vec_read].
  - destruct (_ =? _)%N; [apply same_refl|]. intros r. now apply HP.
  - now apply HP.
  - destruct (_ <? _)%N; [apply same_refl|]. destruct (_ =? _)%N; [apply same_refl|]. now apply HP.
  - destruct (_ =? _)%N; [apply same_refl|]. now apply HP.
  - unfold vec_to_end. destruct (_ =? _)%N; [apply same_refl|]. assert (inside = false) by (destruct inside; [now destruct (Hi eq_refl)|reflexivity]).
    eapply same_end; eassumption.
Qed.
Lemma same_at {A} ate (m m' : nat -> RM A) : (forall off, same ate (m off) (m' off)) -> same ate (fun r => m (r_bits r) r) (fun r => m' (r_bits r) r).
Proof. intros H r Hp Hs Hu. now apply H. Qed.

Definition ty_same (t : ty) : Prop := forall ate lim args, safe_ty cu' inside false t lim args -> guarded ate t = true ->
  same ate (read_ty cu fuel t lim args) (read_ty cu' fuel t lim args).
Definition fields_same (fs : fields) : Prop := forall ate c ctx acc, fields_safe cu' inside false c ctx fs None acc -> guarded_fields ate fs = true ->
  same ate (fields_read cu fuel c ctx fs None acc) (fields_read cu' fuel c ctx fs None acc).
Definition fields_same' (fs : fields) : Prop := fields_same fs /\ forall ate c ctx x,
  fields_safe cu' inside false c ctx fs (Some x) [] -> match fs with FNil => true | FCons _ _ _ tl => guarded_fields ate tl end = true ->
  same ate (fields_read cu fuel c ctx fs (Some x) []) (fields_read cu' fuel c ctx fs (Some x) []).
Definition variants_same (vs : variants) : Prop := forall ate e ctx id k d d', variants_safe cu' inside false e ctx id vs ->
  guarded_variants ate e vs = true -> match d, d' with Some m, Some m' => same ate m m' | None, None => True | _, _ => False end ->
  same ate (variants_read cu fuel e ctx id vs k d) (variants_read cu' fuel e ctx id vs k d').

Lemma field_same ate c a t wire ctx acc : ty_same wire ->
  field_safe inside false c a t wire ctx acc (fun lim args => safe_ty cu' inside false wire lim args) ->
  (a_reader a = None -> guarded (ate || nonempty (a_magic a)) wire = true) ->
  same ate (read_field c a (is_vec_u8 t) ctx acc (fun lim args => read_ty cu fuel wire lim args))
           (read_field c a (is_vec_u8 t) ctx acc (fun lim args => read_ty cu' fuel wire lim args)).
Proof.
  intros IH (Hs & Hpb & Hpa & Hd & Hn) HG. unfold read_field.
  eapply same_bind; [apply same_refl|now apply runs_seek|]. intros _ _. rewrite Bool.orb_false_r.
  eapply same_bind; [apply same_refl|apply runs_magic|]. intros _ _.
  eapply same_bind; [apply same_refl|now apply runs_pad|]. intros _ _. rewrite Bool.orb_false_r. set (ate' := ate || nonempty (a_magic a)) in *.
  apply (same_at ate'
    (fun off => let* v := field_read_tokens a ctx acc off
                (field_read_normal a ctx acc off (field_read_func c a (is_vec_u8 t) ctx acc off (fun lim args => read_ty cu fuel wire lim args))) in
    let* _ := asserts a ctx acc off v in
    let* _ := read_pad (eval0 (a_pad_after a) ctx (acc ++ [v])) (field_order c a ctx acc) in
    ret v)
    (fun off => let* v := field_read_tokens a ctx acc off
                (field_read_normal a ctx acc off (field_read_func c a (is_vec_u8 t) ctx acc off (fun lim args => read_ty cu' fuel wire lim args))) in
    let* _ := asserts a ctx acc off v in
    let* _ := read_pad (eval0 (a_pad_after a) ctx (acc ++ [v])) (field_order c a ctx acc) in
    ret v)). intros off.
  assert (HT : same ate'
    (field_read_tokens a ctx acc off (field_read_normal a ctx acc off (field_read_func c a (is_vec_u8 t) ctx acc off (fun lim args => read_ty cu fuel wire lim args))))
    (field_read_tokens a ctx acc off (field_read_normal a ctx acc off (field_read_func c a (is_vec_u8 t) ctx acc off (fun lim args => read_ty cu' fuel wire lim args))))).
  { assert (HN : takes_default a ctx acc off = false -> same ate'
      (field_read_normal a ctx acc off (field_read_func c a (is_vec_u8 t) ctx acc off (fun lim args => read_ty cu fuel wire lim args)))
      (field_read_normal a ctx acc off (field_read_func c a (is_vec_u8 t) ctx acc off (fun lim args => read_ty cu' fuel wire lim args)))).
    { intros HF. destruct (Hn off HF) as [Hr _]. unfold field_read_normal.
      assert (HX : same ate' (field_read_func c a (is_vec_u8 t) ctx acc off (fun lim args => read_ty cu fuel wire lim args))
                             (field_read_func c a (is_vec_u8 t) ctx acc off (fun lim args => read_ty cu' fuel wire lim args))).
      { unfold field_read_func. destruct (a_reader a) as [f|]; [apply same_refl|]. specialize (HG eq_refl).
        destruct (a_limit a) as [l|]; [|now apply IH]. destruct (eval_limit l ctx acc off) as [lim|e| |] eqn:El; try (intros r _ _ _; reflexivity).
        intros r Hp Hsm Hu. unfold lift, bind. cbn.
        try rewrite El in Hr. clear - Hr IH HG Hp Hsm Hu. destruct lim; try (destruct (is_vec_u8 t); exact (IH ate' _ _ Hr HG r Hp Hsm Hu)).
        destruct (is_vec_u8 t); [reflexivity|exact (IH ate' _ _ Hr HG r Hp Hsm Hu)]. }
      intros r Hp Hsm Hu. unfold bind. now rewrite (HX r Hp Hsm Hu). }
    unfold takes_default in HN. unfold field_read_tokens. destruct (a_skip a) as [[| |]|], (a_cond a) as [f|]; try apply same_refl; try now apply HN.
    - destruct (f ctx acc off); [apply same_refl|now apply HN].
    - destruct (f ctx acc off); [apply same_refl|now apply HN].
    - destruct (f ctx acc off); [now apply HN|apply same_refl]. }
  intros r Hp Hsm Hu. unfold bind at 1 4. now rewrite (HT r Hp Hsm Hu).
Qed.
Theorem all_same : (forall t, ty_same t) /\ (forall fs, fields_same' fs) /\ (forall vs, variants_same vs).
Proof.
  destruct (all_run fuel inside named cu') as (RT & RF & RV).
  apply types_ind; try (intros; intros ate lim args; intros; apply same_refl).
  - intros t IH ate lim args Hs Hg. cbn [read_ty]. apply same_map. now apply IH.
  - intros a IHa b IHb ate lim args [Ha Hb] Hg. cbn [guarded] in Hg. apply andb_prop in Hg. destruct Hg as [G1 G2]. cbn [read_ty].
    eapply same_bind; [now apply IHa|apply RT; exact Ha|]. intros x _. apply same_map. now apply IHb.
  - intros n t IH ate lim args Hs Hg. cbn [read_ty]. apply same_map. eapply same_array; [now apply IH|apply RT; exact Hs].
  - intros pl size t IH ate lim args (l & -> & (_ & _ & Hi) & Ht) Hg. cbn [read_ty]. apply same_map. eapply same_vec; [exact Hi|now apply IH|apply RT; exact Ht].
  - intros c fs [IH _] ate lim args [Hs Hf] Hg. rewrite !read_struct. cbn [guarded] in Hg.
    eapply same_bind; [apply same_refl|now apply runs_seek|]. intros _ _. rewrite Bool.orb_false_r.
    eapply same_bind; [apply same_refl|apply runs_magic|]. intros _ _. apply same_map. now apply IH.
  - intros e idt IHi vs IHv ate lim args H Hg. rewrite !read_enum. cbn [safe_ty_in guarded] in *.
    eapply same_bind; [apply same_refl|apply runs_magic|]. intros _ _. destruct (en_id e) as [f|].
    + intros r. rewrite !bind_ret_l. apply (IHv _ e _ _ 0 None None H Hg I).
    + destruct H as [Hi Hv]. apply andb_prop in Hg. destruct Hg as [G1 G2].
      eapply same_bind; [now apply IHi|apply RT; exact Hi|]. intros id Hid. apply (IHv _ e _ _ 0 None None (Hv id Hid) G2 I).
  - intros k ate lim args [-> _] Hg. cbn [guarded] in Hg. subst ate. cbn [read_ty]. intros r Hp Hs Hu. apply Hc; [exact Hs|lia].
  - split; [intros ate c ctx acc _ _; apply same_refl|intros ate c ctx x _ _; apply same_refl].
  - intros a t IHt wire IHw tl [IHtl _]. split.
    + intros ate c ctx acc [H1 H2] Hg. rewrite !read_cons. cbn [guarded_fields] in Hg. apply andb_prop in Hg. destruct Hg as [G1 G2].
      eapply same_bind; [apply field_same; [exact IHw|exact H1|intros _; exact G1]|apply field_runs; [apply RT|exact H1]|]. intros v [Hv Ha]. apply same_map.
      rewrite Bool.orb_assoc. apply IHtl; [now apply H2|exact G2].
    + intros ate c ctx x H Hg. rewrite !read_cons. cbn [fields_safe_in] in H. destruct (a_reader a) as [f|] eqn:Er.
      * destruct H as [H1 H2]. eapply same_bind; [apply field_same; [exact IHw|exact H1|congruence]|apply field_runs; [apply RT|exact H1]|].
        intros v [Hv Ha]. apply same_map. eapply same_weak; [apply IHtl; [now apply H2|exact Hg]|]. intros ->. reflexivity.
      * destruct H as [_ H2]. intros r. rewrite !bind_ret_l. apply same_map. now apply IHtl.
  - intros ate e ctx id k d d' _ _ Hd. cbn [variants_read]. destruct d, d'; try contradiction; [exact Hd|apply same_refl].
  - intros v fs [IHf IHs] tl IHt ate e ctx id k d d' [H1 H2] Hg Hd. rewrite !read_variant. cbn [guarded_variants] in Hg. apply andb_prop in Hg. destruct Hg as [G1 G2].
    assert (HB : matches (v_sel v) id || v_default v = true -> same ate
      (let* l := fields_read cu fuel (en_c e) ctx fs (if stores_id e v then Some id else None) [] in ret (VVar k l))
      (let* l := fields_read cu' fuel (en_c e) ctx fs (if stores_id e v then Some id else None) [] in ret (VVar k l))).
    { intros H. specialize (H1 H). apply same_map. destruct (stores_id e v); [now apply IHs|now apply IHf]. }
    destruct (matches (v_sel v) id) eqn:Em; [now apply HB|]. apply IHt; [exact H2|exact G2|].
    destruct d, d'; try contradiction; [exact Hd|]. destruct (v_default v); [now apply HB|exact I].
Qed.
End Safe.

Lemma unroll_runs fuel inside ok : rec_safe defs inside ok -> forall N depth k args, ok k args -> N < depth ->
  forall r x r', place inside r -> 8 * length (s_data (r_s r)) + 8 < fuel -> unread_len (seen r) <= N ->
  cu_read (unroll defs fuel depth k) args r = (x, r') ->
  x <> Panic /\ x <> Diverge /\ forall v, x = Ok v -> nested defs depth k v /\ place inside r' /\ s_data (r_s r') = s_data (r_s r) /\
    unread_len (seen r') + 0 <= unread_len (seen r) /\ r_bits r <= r_bits r'.
Proof.
  intros H. induction N as [N IH] using (well_founded_induction Nat.lt_wf_0). intros depth k args Hk Hd r x r' Hp Hs Hu E.
  destruct depth as [|d]; [lia|]. cbn [unroll cu_read] in E. destruct (H k args Hk) as [HG HS].
  set (cut := fun j => mkCustom (fun a r => if (unread_len (seen r) <? N) && (8 * length (s_data (r_s r)) + 8 <? fuel)
                                            then cu_read (unroll defs fuel d j) a r else (Err Parse, r)) (fun a v => cu_write (unroll defs fuel d j) a v)).
  assert (HB : forall j a, ok j a -> behaves inside false (nested defs d j) (cu_read (cut j) a)).
  { intros j a Hj s y s' Hps Es. cbn [cut cu_read] in Es. destruct (Nat.ltb_spec (unread_len (seen s)) N), (Nat.ltb_spec (8 * length (s_data (r_s s)) + 8) fuel); cbn [andb] in Es.
    - destruct (IH (unread_len (seen s)) ltac:(assumption) d j a Hj ltac:(lia) s y s' Hps ltac:(assumption) (le_n _) Es) as (P & D & K).
      split; [exact P|]. split; [exact D|]. intros v Ev. destruct (K v Ev) as (T & P' & S' & M). split; [exact T|]. split; [exact P'|]. split; [exact S'|]. intros _. lia.
    - apply pair_inj in Es. destruct Es as [<- <-]. split; [discriminate|]. split; discriminate.
    - apply pair_inj in Es. destruct Es as [<- <-]. split; [discriminate|]. split; discriminate.
    - apply pair_inj in Es. destruct Es as [<- <-]. split; [discriminate|]. split; discriminate. }
  specialize (HS (nested defs d) cut HB).
  assert (HC : forall j a s, small fuel s -> unread_len (seen s) < N -> cu_read (unroll defs fuel d j) a s = cu_read (cut j) a s).
  { intros j a s Hsm Hun. cbn [cut cu_read]. unfold small in Hsm. destruct (Nat.ltb_spec (unread_len (seen s)) N); [|lia].
    destruct (Nat.ltb_spec (8 * length (s_data (r_s s)) + 8) fuel); [reflexivity|lia]. }
  pose proof (proj1 (all_same fuel inside N (nested defs d) (unroll defs fuel d) cut HC) (defs k) false None args HS HG r Hp Hs) as ES.
  cbv iota in ES. rewrite Nat.add_0_r in ES. specialize (ES Hu).
  rewrite ES in E. destruct (proj1 (all_run fuel inside _ cut) (defs k) false None args HS r x r' Hp Hs E) as (P & D & K).
  split; [exact P|]. split; [exact D|]. intros v Ev. destruct (K v Ev) as (T & P' & S' & M). specialize (M eq_refl).
  split; [exact T|]. split; [exact P'|]. split; [exact S'|]. destruct (consumes (defs k)); lia.
Qed.
Lemma rec_from_reader inside ok fuel depth k input bit : rec_safe defs inside ok -> ok k [] -> bit < 8 -> 8 * length input + 8 < fuel -> 8 * length input < depth ->
  let x := fst (from_reader (unroll defs fuel depth) fuel (TCustom k) (cursor input) bit) in
  x <> Panic /\ x <> Diverge /\ forall n v, x = Ok (n, v) -> nested defs depth k v.
Proof.
  intros H Hk Hb Hf Hd. unfold from_reader. cbn [read_ty].
  assert (Hp : place inside (reader_new (cursor input))) by (apply place_new; [intros j; reflexivity|intros _; apply Nat.le_0_l]).
  assert (HS : runs fuel inside false false (fun _ => True) (if bit =? 0 then ret tt else skip_bits bit Msb0)) by (destruct (bit =? 0); [now apply runs_ret|now apply runs_skip]).
  unfold bind. destruct ((if bit =? 0 then ret tt else skip_bits bit Msb0) (reader_new (cursor input))) as [y r1] eqn:E1.
  destruct (HS _ _ _ Hp Hf E1) as (P & D & K). destruct y as [a|e| |]; try congruence; [|cbn; split; [discriminate|]; split; discriminate].
  destruct (K a eq_refl) as (_ & P1 & S1 & M1). destruct (M1 eq_refl) as [U1 B1].
  assert (HU : unread_len (seen (reader_new (cursor input))) = 8 * length input) by (unfold seen, unread_len; cbn; lia).
  destruct (cu_read (unroll defs fuel depth k) [] r1) as [x r2] eqn:E2.
  destruct (unroll_runs fuel inside ok H (8 * length input) depth k [] Hk Hd r1 x r2 P1) as (P2 & D2 & K2); [rewrite S1; exact Hf|lia|exact E2|].
  destruct x as [v|e| |]; try congruence; cbn; (split; [discriminate|]; split; [discriminate|]); intros n w E; [|discriminate].
  apply ok_inj, pair_inj in E. destruct E as [_ <-]. exact (proj1 (K2 v eq_refl)).
Qed.
Theorem rec_safe_from_bytes inside ok fuel depth k input bit : rec_safe defs inside ok -> ok k [] -> bit < 8 -> 8 * length input + 8 < fuel -> 8 * length input < depth ->
  let x := rec_from_bytes defs fuel depth k input bit in x <> Panic /\ x <> Diverge /\ forall rest v, x = Ok (rest, v) -> nested defs depth k v.
Proof.
  intros H Hk Hb Hf Hd. cbv zeta. unfold rec_from_bytes, from_bytes. destruct (rec_from_reader inside ok fuel depth k input bit H Hk Hb Hf Hd) as (P & D & K).
  destruct (from_reader _ fuel (TCustom k) (cursor input) bit) as [[[n v]|e| |] s]; cbn [fst] in P, D, K; try congruence.
  - destruct (n / 8 <=? length input); (split; [discriminate|]; split; [discriminate|]); intros rest w E; [|discriminate].
    apply ok_inj, pair_inj in E. destruct E as [_ <-]. exact (K n v eq_refl).
  - split; [discriminate|]. split; discriminate.
Qed.
Theorem rec_safe_try_from inside ok fuel depth k input : rec_safe defs inside ok -> ok k [] -> 8 * length input + 8 < fuel -> 8 * length input < depth ->
  let x := rec_try_from defs fuel depth k input in x <> Panic /\ x <> Diverge /\ forall v, x = Ok v -> nested defs depth k v.
Proof.
  intros H Hk Hf Hd. cbv zeta. unfold rec_try_from, try_from. destruct (rec_from_reader inside ok fuel depth k input 0 H Hk ltac:(lia) Hf Hd) as (P & D & K).
  destruct (from_reader _ fuel (TCustom k) (cursor input) 0) as [[[n v]|e| |] s]; cbn [fst] in P, D, K; try congruence.
  - destruct (n / 8 <? length input); [|destruct (length input <? n / 8)]; (split; [discriminate|]; split; [discriminate|]); intros w E; try discriminate.
    apply ok_inj in E. subst w. exact (K n v eq_refl).
  - split; [discriminate|]. split; discriminate.
Qed.

(** ** Reading on any stack *)

Lemma unroll_values inside ok : rec_safe defs inside ok -> forall depth fuel k args r x r', ok k args -> place inside r ->
  cu_read (unroll defs fuel depth k) args r = (x, r') ->
  x <> Panic /\ forall v, x = Ok v -> nested defs depth k v /\ place inside r' /\ s_data (r_s r') = s_data (r_s r) /\
    unread_len (seen r') <= unread_len (seen r) /\ r_bits r <= r_bits r'.
Proof.
  intros H. induction depth as [|d IH]; intros fuel k args r x r' Hk Hp E.
  { cbn [unroll cu_read] in E. unfold diverge in E. apply pair_inj in E. destruct E as [<- _]. split; discriminate. }
  assert (HX : x = Diverge \/ x <> Diverge) by (destruct x; first [now left|now right]). destruct HX as [-> | HX]; [split; discriminate|].
  set (f := Nat.max fuel (8 * length (s_data (r_s r)) + 9)).
  assert (E' : cu_read (unroll defs f (S d) k) args r = (x, r')).
  { destruct (unroll_refines defs fuel f (Nat.le_max_l _ _) (S d) (S d) (le_n _) k) as [HR _]. rewrite (HR args r); [exact E|]. now rewrite E. }
  clear E. cbn [unroll cu_read] in E'. destruct (H k args Hk) as [_ HS].
  set (cut := fun j => mkCustom (fun a r => match cu_read (unroll defs f d j) a r with (Diverge, r') => (Err Parse, r') | y => y end)
                                (fun a v => cu_write (unroll defs f d j) a v)).
  assert (HB : forall j a, ok j a -> behaves inside false (nested defs d j) (cu_read (cut j) a)).
  { intros j a Hj s y s' Hps Es. cbn [cut cu_read] in Es. destruct (cu_read (unroll defs f d j) a s) as [z s1] eqn:Ez.
    destruct (IH f j a s z s1 Hj Hps Ez) as [P K]. destruct z as [v|e| |]; try (now destruct P); apply pair_inj in Es; destruct Es as [<- <-];
      (split; [discriminate|]; split; [discriminate|]); intros w Ew; try discriminate.
    apply ok_inj in Ew. subst w. destruct (K v eq_refl) as (T & P' & S' & M). split; [exact T|]. split; [exact P'|]. split; [exact S'|]. now intros _. }
  specialize (HS (nested defs d) cut HB).
  assert (HR : refines (read_ty (unroll defs f d) f (defs k) None args) (read_ty cut f (defs k) None args)).
  { apply types_refine; [lia|]. intros j a s Hs. cbn [cut cu_read]. destruct (cu_read (unroll defs f d j) a s) as [[] s1]; cbn [fst] in Hs; congruence. }
  specialize (HR r). rewrite E' in HR. specialize (HR HX).
  destruct (proj1 (all_run f inside _ cut) (defs k) false None args HS r x r' Hp ltac:(unfold small, f; lia) HR) as (P & _ & K).
  split; [exact P|]. intros v Ev. destruct (K v Ev) as (T & P' & S' & M). specialize (M eq_refl).
  split; [exact T|]. split; [exact P'|]. split; [exact S'|]. destruct (consumes (defs k)); lia.
Qed.
Lemma values_from_reader inside ok fuel depth k input bit : rec_safe defs inside ok -> ok k [] -> bit < 8 ->
  let x := fst (from_reader (unroll defs fuel depth) fuel (TCustom k) (cursor input) bit) in
  x <> Panic /\ forall n v, x = Ok (n, v) -> nested defs depth k v.
Proof.
  intros H Hk Hb. unfold from_reader. cbn [read_ty]. set (f := 8 * length input + 9).
  assert (Hp : place inside (reader_new (cursor input))) by (apply place_new; [intros j; reflexivity|intros _; apply Nat.le_0_l]).
  assert (HS : runs f inside false false (fun _ => True) (if bit =? 0 then ret tt else skip_bits bit Msb0)) by (destruct (bit =? 0); [now apply runs_ret|now apply runs_skip]).
  unfold bind. destruct ((if bit =? 0 then ret tt else skip_bits bit Msb0) (reader_new (cursor input))) as [y r1] eqn:E1.
  destruct (HS _ _ _ Hp ltac:(unfold small, f; cbn; lia) E1) as (P & D & K). destruct y as [a|e| |]; try congruence; [|cbn; split; discriminate].
  destruct (K a eq_refl) as (_ & P1 & _).
  destruct (cu_read (unroll defs fuel depth k) [] r1) as [x r2] eqn:E2.
  destruct (unroll_values inside ok H depth fuel k [] r1 x r2 Hk P1 E2) as (P2 & K2).
  destruct x as [v|e| |]; try congruence; cbn; (split; [discriminate|]); intros n w E; try discriminate.
  apply ok_inj, pair_inj in E. destruct E as [_ <-]. exact (proj1 (K2 v eq_refl)).
Qed.
Theorem values_from_bytes inside ok fuel depth k input bit : rec_safe defs inside ok -> ok k [] -> bit < 8 ->
  let x := rec_from_bytes defs fuel depth k input bit in x <> Panic /\ forall rest v, x = Ok (rest, v) -> nested defs depth k v.
Proof.
  intros H Hk Hb. cbv zeta. unfold rec_from_bytes, from_bytes. destruct (values_from_reader inside ok fuel depth k input bit H Hk Hb) as (P & K).
  destruct (from_reader _ fuel (TCustom k) (cursor input) bit) as [[[n v]|e| |] s]; cbn [fst] in P, K; try congruence; try (split; discriminate).
  destruct (n / 8 <=? length input); (split; [discriminate|]); intros rest w E; [|discriminate].
  apply ok_inj, pair_inj in E. destruct E as [_ <-]. exact (K n v eq_refl).
Qed.
Theorem values_try_from inside ok fuel depth k input : rec_safe defs inside ok -> ok k [] ->
  let x := rec_try_from defs fuel depth k input in x <> Panic /\ forall v, x = Ok v -> nested defs depth k v.
Proof.
  intros H Hk. cbv zeta. unfold rec_try_from, try_from. destruct (values_from_reader inside ok fuel depth k input 0 H Hk ltac:(lia)) as (P & K).
  destruct (from_reader _ fuel (TCustom k) (cursor input) 0) as [[[n v]|e| |] s]; cbn [fst] in P, K; try congruence; try (split; discriminate).
  destruct (n / 8 <? length input); [|destruct (length input <? n / 8)]; (split; [discriminate|]); intros w E; try discriminate.
  apply ok_inj in E. subst w. exact (K n v eq_refl).
Qed.
Theorem shallow_from_bytes inside ok fuel depth k input bit rest v : rec_safe defs inside ok -> ok k [] -> bit < 8 ->
  rec_from_bytes defs fuel depth k input bit = Ok (rest, v) -> nested defs (8 * length input + 1) k v.
Proof.
  intros H Hk Hb E. set (f := 8 * length input + 9). set (d := 8 * length input + 1).
  destruct (rec_safe_from_bytes inside ok f d k input bit H Hk Hb ltac:(unfold f; lia) ltac:(unfold d; lia)) as (_ & D & K). apply (K rest v).
  rewrite <- E. rewrite <- (rec_more_from_bytes f (Nat.max f fuel) d (Nat.max d depth)); [|lia|lia|exact D].
  rewrite <- (rec_more_from_bytes fuel (Nat.max f fuel) depth (Nat.max d depth)); [reflexivity|lia|lia|congruence].
Qed.

(** ** Writing *)

Lemma unroll_writes fuel growing ok : rec_wsafe defs growing ok -> forall d depth k args v, ok k args -> nested defs d k v -> d <= depth ->
  writes_safely growing (cu_write (unroll defs fuel depth k) args v).
Proof.
  intros H. induction d as [|d IH]; intros depth k args v Hk Hv Hd; [contradiction|]. destruct depth as [|depth]; [lia|].
  cbn [unroll cu_write]. apply (wsafe_writer (named := nested defs d)); [|exact Hv].
  apply (H k args Hk). intros j a x Hj Hx. apply IH; auto. lia.
Qed.
Lemma rec_wsafe_ty fuel growing ok d depth k : rec_wsafe defs growing ok -> ok k [] -> d <= depth ->
  wsafe_ty_in (nested defs d) (unroll defs fuel depth) growing (TCustom k) [].
Proof. intros H Hk Hd. cbn [wsafe_ty_in]. intros v Hv. now apply (unroll_writes fuel growing ok H d). Qed.
Theorem rec_wsafe_to_bytes growing ok fuel d depth k v : rec_wsafe defs growing ok -> ok k [] -> nested defs d k v -> d <= depth ->
  match rec_to_bytes defs fuel depth k v with Ok _ => True | Err e => error_is growing e | Panic | Diverge => False end.
Proof.
  intros H Hk Hv Hd. refine (wsafe_to_bytes (unroll defs fuel depth) growing (TCustom k) v (rec_wsafe_ty fuel growing ok d depth k H Hk Hd) _). now destruct v.
Qed.
Theorem rec_writes ok fuel d depth k v : rec_wsafe defs false ok -> ok k [] -> nested defs d k v -> d <= depth ->
  rec_to_bytes defs fuel depth k v <> Panic /\ rec_to_bytes defs fuel depth k v <> Diverge.
Proof. intros H Hk Hv Hd. generalize (rec_wsafe_to_bytes false ok fuel d depth k v H Hk Hv Hd). destruct (rec_to_bytes defs fuel depth k v); try contradiction; now split. Qed.
Theorem rec_write_errors ok fuel d depth k v : rec_wsafe defs true ok -> ok k [] -> nested defs d k v -> d <= depth ->
  (exists b, rec_to_bytes defs fuel depth k v = Ok b) \/ rec_to_bytes defs fuel depth k v = Err InvalidParam \/ rec_to_bytes defs fuel depth k v = Err Assertion.
Proof.
  intros H Hk Hv Hd. generalize (rec_wsafe_to_bytes true ok fuel d depth k v H Hk Hv Hd). destruct (rec_to_bytes defs fuel depth k v) as [b|e| |]; try contradiction; [eauto|].
  intros He. destruct (He eq_refl) as [-> | ->]; auto.
Qed.
Theorem rec_read_then_write inside ok wok fuel depth k input bit rest v : rec_safe defs inside ok -> ok k [] -> rec_wsafe defs false wok -> wok k [] -> bit < 8 ->
  rec_from_bytes defs fuel depth k input bit = Ok (rest, v) -> rec_to_bytes defs fuel depth k v <> Panic /\ rec_to_bytes defs fuel depth k v <> Diverge.
Proof.
  intros H Hk Hw Hwk Hb E. apply (rec_writes wok fuel depth); auto. exact (proj2 (values_from_bytes inside ok fuel depth k input bit H Hk Hb) rest v E).
Qed.
End Rec.

(** ** Bytes that are read one after the other *)

Lemma reads_at_u8 src cu fuel pos b : reads_at src Msb0 pos (read_ty cu fuel (TPrim PU8) None []) (byte_bits b) (VNum (to_N b)).
Proof.
  assert (E : encode src Msb0 no_format (TPrim PU8) None [] pos (VNum (to_N b)) = Some (byte_bits b)).
  { destruct b; reflexivity. }
  assert (Hn : customs_upto src Msb0 8 cu no_format) by (intros k args p v enc E'; discriminate).
  destruct (encode_sound src Msb0 cu no_format 8 Hn _ _ _ _ _ _ E) as [_ H]. apply H. rewrite byte_bits_length. lia.
Qed.
