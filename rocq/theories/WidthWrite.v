(** Proofs about writing on a narrower target when the paddings fit, and about numbers that
    do not fit, C87. *)
From Coq Require Import Lia.
From Verif Require Import Base MonadFacts Stream Reader Writer Prims Containers Derive DeriveSpec DeriveSound Sugar Width WidthSpec WidthFacts.

Section Target.
Variable m : target.
Hypothesis Hm : sensible m.

Lemma usize_fits z : (z <= Z.of_N (n_usize_max m))%Z -> n_to_usize m z = to_usize z.
Proof.
  intros H. pose proof (umax_le m Hm). unfold n_to_usize, to_usize. replace (Z.of_N (n_usize_max m) <? z)%Z with false by lia. replace (Z.of_N usize_max <? z)%Z with false by lia. reflexivity.
Qed.
Lemma pad_fits z o : pad_within m z -> eqv (Width.n_write_pad m z o) (write_pad z o).
Proof. intros H. destruct z as [z|]; [|apply q_refl]. cbn [Width.n_write_pad write_pad]. rewrite usize_fits by exact H. apply q_refl. Qed.
Lemma list_fits {A} (f g : A -> WM unit) l : (forall x, In x l -> eqv (f x) (g x)) -> eqv (write_list f l) (write_list g l).
Proof. induction l as [|x l IH]; intros H; [apply q_refl|]. cbn [write_list]. apply q_bind; [apply H; now left|]. intros _. apply IH. intros y Hy. apply H. now right. Qed.
Lemma field_fits c a stored ctx fs v wr wr' : pad_within m (eval0 (a_pad_before a) ctx fs) -> pad_within m (eval0 (a_pad_after a) ctx (fs ++ [v])) ->
  (forall off, eqv (wr' (field_args c a ctx fs off) v) (wr (field_args c a ctx fs off) v)) ->
  eqv (Width.n_write_field m c a stored ctx fs v wr') (write_field c a stored ctx fs v wr).
Proof.
  intros Hb Ha H. unfold write_field, Width.n_write_field. do 2 (apply q_bind; [apply q_refl|intros _]). apply q_bind; [now apply pad_fits|intros _].
  intros w. cbv zeta. generalize (w_bits w). intros off. revert w. apply q_bind; [apply q_refl|intros _]. apply q_bind; [|intros _; now apply pad_fits].
  assert (HF : eqv (field_write_func c a stored ctx fs off v wr') (field_write_func c a stored ctx fs off v wr)).
  { unfold field_write_func. destruct (a_writer a); [apply q_refl|]. destruct (a_temp a); [|apply H]. destruct (a_temp_value a); [apply H|apply q_refl]. }
  unfold field_write_tokens. destruct (a_skip a) as [[]|], (a_cond a) as [f|]; try destruct (f _ _ _); auto using @q_refl.
Qed.

Variable cu : nat -> custom.
Theorem writes_fit :
  (forall t args v, pads_fit m t args v -> eqv (n_write_ty m cu t args v) (write_ty cu t args v)) /\
  (forall fs c ctx id stored todo acc, fields_pads_fit m c ctx fs id stored todo acc -> eqv (n_fields_write m cu c ctx fs id stored todo acc) (fields_write cu c ctx fs id stored todo acc)) /\
  (forall vs e ctx wid wid' k l, variant_pads_fit m e ctx vs k l -> (forall args x, eqv (wid' args x) (wid args x)) ->
     eqv (n_variant_write m cu e ctx wid' vs k l) (variant_write cu e ctx wid vs k l)).
Proof.
  apply types_ind; try (intros; apply q_refl).
  - intros t IH args v H. destruct v; try apply q_refl. now apply IH.
  - intros a IHa b IHb args v H. destruct v; try apply q_refl. destruct H as [Ha Hb]. cbn [write_ty n_write_ty]. apply q_bind; [now apply IHa|]. intros _. now apply IHb.
  - intros n t IH args v H. destruct v; try apply q_refl. apply list_fits. intros x Hx. apply IH. now apply H.
  - intros k s t IH args v H. destruct v; try apply q_refl. apply list_fits. intros x Hx. apply IH. now apply H.
  - intros c fs IH args v H. destruct v; try apply q_refl. rewrite write_struct. cbn [n_write_ty]. cbv zeta. do 2 (apply q_bind; [apply q_refl|intros _]). now apply IH.
  - intros e idt IHi vs IHv args v H. destruct v; try apply q_refl. destruct H as [Hi H]. rewrite write_enum. cbn [n_write_ty]. apply q_bind; [apply q_refl|intros _]. apply IHv; [exact H|].
    intros args' x. now apply IHi.
  - intros a t IHt wire _ tl IHtl c ctx id stored todo acc [Hf H]. rewrite write_cons. cbn [n_fields_write]. cbv zeta. apply q_bind; [|intros _; now apply IHtl].
    destruct id as [args|]; [now apply IHt|]. destruct Hf as (Hb & Ht & Ha). apply field_fits; [exact Hb|exact Ha|]. intros off. now apply IHt.
  - intros v fs IHf vs IHv e ctx wid wid' k l H Hw. destruct k as [|k]; [|now apply IHv]. rewrite write_variant_0. cbn [n_variant_write]. apply q_bind; [|intros _; now apply IHf].
    unfold write_id. destruct (en_id e); [apply q_refl|]. destruct (v_sel v) as [x|? d|x]; [apply Hw| |apply Hw]. destruct (no_fields fs); [|apply q_refl].
    destruct d; [apply Hw|apply q_refl].
Qed.
End Target.

Theorem written_fits m cu t v buf : sensible m -> pads_fit m t [] v ->
  n_to_bytes m cu t v = to_bytes cu t v /\ n_to_bits m cu t v = to_bits cu t v /\ n_to_slice m cu t v buf = to_slice cu t v buf.
Proof.
  intros Hm H. pose proof (proj1 (writes_fit m Hm cu) t [] v H) as W.
  unfold n_to_bytes, n_to_bits, n_to_slice, to_bytes, to_slice, to_bits, to_bytes_with, to_slice_with, to_bits_with, bind. rewrite !W. repeat split.
Qed.

Lemma usize_over m z : (Z.of_N (n_usize_max m) < z)%Z -> n_to_usize m z = None.
Proof. intros H. unfold n_to_usize. replace (Z.of_N (n_usize_max m) <? z)%Z with true by lia. now rewrite Bool.orb_true_r. Qed.
Theorem limit_refused m cu fuel c a f l t wire tl s : c_seek c = None -> c_magic c = [] -> a_reader a = None -> a_skip a = None -> a_cond a = None -> a_seek a = None ->
  a_magic a = [] -> a_pad_before a = None -> a_limit a = Some l -> l = FCount f \/ l = FBytes f \/ l = FBits f -> (forall ctx fs off, (Z.of_N (n_usize_max m) < f ctx fs off)%Z) ->
  fst (n_from_reader m cu fuel (TStruct c (FCons a t wire tl)) s 0) = Err Parse.
Proof.
  intros Hs Hg Hr Hk Hc Ha Hm Hp Hl Hf H. unfold n_from_reader. cbn [Nat.eqb n_read_ty n_fields_read]. unfold Width.n_read_field. cbv zeta. rewrite Hs, Hg, Ha, Hm, Hp. unfold field_read_tokens, field_read_normal, Width.n_field_read_func. rewrite Hr, Hk, Hc, Hl.
  unfold bind, ret. cbn [option_map read_seek read_magic eval0 Width.n_read_pad fst].
  destruct Hf as [-> | [-> | ->]]; unfold ret, lift; cbn [n_eval_limit reader_new r_bits]; rewrite usize_over by apply H; reflexivity.
Qed.
Theorem pad_refused m cu fuel c a p t wire tl s : c_seek c = None -> c_magic c = [] -> a_seek a = None -> a_magic a = [] ->
  a_pad_before a = Some p -> (forall ctx fs, (Z.of_N (n_usize_max m) < p ctx fs)%Z) ->
  fst (n_from_reader m cu fuel (TStruct c (FCons a t wire tl)) s 0) = Err InvalidParam /\
  forall l, n_to_bytes m cu (TStruct c (FCons a t wire tl)) (VRec l) = Err InvalidParam.
Proof.
  intros Hs Hg Ha Hm Hp H. split.
  - unfold n_from_reader. cbn [Nat.eqb n_read_ty n_fields_read]. unfold Width.n_read_field. cbv zeta. rewrite Hs, Hg, Ha, Hm, Hp.
    unfold bind, ret. cbn [option_map read_seek read_magic eval0 Width.n_read_pad fst]. unfold ret. cbn [reader_new]. rewrite usize_over by apply H. reflexivity.
  - intros l. unfold n_to_bytes, to_bytes_with. cbn [n_write_ty n_fields_write]. unfold Width.n_write_field. cbv zeta. rewrite Hs, Hg, Ha, Hm, Hp.
    unfold bind, ret. cbn [option_map write_seek eval0 Width.n_write_pad fst]. unfold ret. cbn [write_magic write_list]. rewrite usize_over by apply H. reflexivity.
Qed.
