(** Proofs about Decl.v. *)
From Coq Require Import Lia.
From Verif Require Import Base MonadFacts Stream Reader Writer Prims Containers Derive DeriveSpec Decl DeclSpec.

Lemma given_some : forall A (x : option A), given x <-> some x = true.
Proof. intros A [a|]; unfold given; cbn; split; intros; congruence. Qed.
Lemma absent_some : forall A (x : option A), absent x <-> some x = false.
Proof. intros A [a|]; unfold absent; cbn; split; intros; congruence. Qed.

Definition holds (b : bool) : Prop := b = true.
Lemma amo_iff : forall l l' : list Prop, Forall2 iff l l' -> at_most_one l -> at_most_one l'.
Proof.
  intros l l' H. induction H as [|p q l l' E T IH]; intros A; [constructor|].
  inversion A as [|p0 l0 N T0|p0 l0 P T0]; subst.
  - apply AmoSkip; [tauto|auto].
  - apply AmoTake; [tauto|]. clear - T T0.
    induction T as [|x y l l' E T IH]; constructor; inversion T0; subst; [tauto|auto].
Qed.
Lemma amo_b : forall bs : list bool, at_most_one (map holds bs) <-> list_sum (map b2n bs) <= 1.
Proof.
  assert (F : forall bs, Forall (fun q : Prop => ~ q) (map holds bs) <-> list_sum (map b2n bs) = 0).
  { induction bs as [|b bs IH]; cbn; [split; [reflexivity|constructor]|].
    change (fold_right Init.Nat.add 0 (map b2n bs)) with (list_sum (map b2n bs)).
    rewrite Forall_cons_iff, IH. unfold holds. destruct b; cbn; split; intros; try split; try lia; try congruence; intuition (try lia; try congruence). }
  induction bs as [|b bs IH]; cbn; [split; [lia|constructor]|].
  change (fold_right Init.Nat.add 0 (map b2n bs)) with (list_sum (map b2n bs)).
  split.
  - intros A. inversion A as [|p l N T|p l P T]; subst.
    + unfold holds in N. destruct b; [congruence|]. cbn. apply IH; assumption.
    + apply F in T. rewrite T. destruct b; cbn; lia.
  - intros L. destruct b; cbn in L.
    + apply AmoTake; [reflexivity|]. apply F. lia.
    + apply AmoSkip; [discriminate|]. apply IH. lia.
Qed.
(** A list of given attributes as a list of booleans. *)
Lemma amo_list : forall (l : list Prop) (bs : list bool), Forall2 (fun p b => p <-> b = true) l bs ->
  (at_most_one l <-> list_sum (map b2n bs) <= 1).
Proof.
  intros l bs H. rewrite <- amo_b. assert (T : Forall2 iff l (map holds bs)).
  { induction H; cbn; constructor; auto. }
  assert (T' : Forall2 iff (map holds bs) l).
  { clear H. induction T; constructor; [tauto|auto]. }
  split; intros A; eapply amo_iff; eauto.
Qed.
Ltac amo bs := rewrite (amo_list _ bs) by (repeat (apply Forall2_cons; [first [apply given_some|tauto]|]); apply Forall2_nil).

Lemma if_false_l : forall a b : bool, (if a then false else b) = negb a && b.
Proof. intros [] []; reflexivity. Qed.
Lemma imp_or : forall A B C (x : option A) (y : option B) (z : option C),
  (given x -> given y \/ given z) <-> some x && (negb (some y) && negb (some z)) = false.
Proof. intros A B C [x|] [y|] [z|]; unfold given; cbn; intuition congruence. Qed.

Lemma field_valid_ok : forall feat f, known feat f && field_valid feat f = true <-> field_ok feat f.
Proof.
  intros feat f. unfold known, field_valid. rewrite !if_false_l.
  rewrite !andb_true_iff, !negb_true_iff.
  assert (SK : at_most_one [given (d_seek_current f); given (d_seek_end f); given (d_seek_start f); d_seek_rewind f = true] <->
     (1 <? b2n (some (d_seek_current f)) + b2n (some (d_seek_end f)) + b2n (some (d_seek_start f)) + b2n (d_seek_rewind f)) = false).
  { amo [some (d_seek_current f); some (d_seek_end f); some (d_seek_start f); d_seek_rewind f].
    cbn [map list_sum fold_right]. rewrite Nat.ltb_ge. lia. }
  destruct feat; cbn [orb andb field_ok].
  - split.
    + intros [_ [A [B [C [D [E [F _]]]]]]]. constructor; try (apply imp_or; assumption); try (apply SK; assumption).
      * amo [some (d_count f); some (d_bits_read f); some (d_bytes_read f); d_read_all f].
        destruct (some (d_count f)), (some (d_bits_read f)), (some (d_bytes_read f)), (d_read_all f), (some (d_until f)); cbn in *; try lia; discriminate.
      * rewrite given_some. destruct (d_read_all f), (some (d_until f)); cbn in *; congruence.
      * amo [some (d_bits f); some (d_bytes f)]. destruct (some (d_bits f)), (some (d_bytes f)); cbn in *; try lia; discriminate.
    + intros [A B C D E]. apply SK in E. apply imp_or in D. rewrite E, D. revert A B C.
      amo [some (d_count f); some (d_bits_read f); some (d_bytes_read f); d_read_all f].
      amo [some (d_bits f); some (d_bytes f)]. rewrite given_some. intros A B C.
      destruct (some (d_count f)), (some (d_bits_read f)), (some (d_bytes_read f)), (d_read_all f); cbn in A; try lia;
        destruct (some (d_until f)); try (specialize (B eq_refl); discriminate);
        destruct (some (d_bits f)), (some (d_bytes f)); cbn in C; try lia; cbn; auto 10.
  - split.
    + intros [A [_ [B [_ [D [_ [F _]]]]]]]. constructor; try (apply imp_or; assumption); try (apply SK; assumption).
      * rewrite !absent_some. apply negb_true_iff in A. rewrite !orb_false_iff in A. tauto.
      * amo [some (d_count f); some (d_bytes_read f)]. destruct (some (d_count f)), (some (d_bytes_read f)); cbn in *; try lia; discriminate.
    + intros [A B D E]. apply SK in E. apply imp_or in D. rewrite E, D. revert A B. rewrite !absent_some.
      amo [some (d_count f); some (d_bytes_read f)]. intros [A1 [A2 [A3 A4]]] B. rewrite A1, A2, A3, A4.
      destruct (some (d_count f)), (some (d_bytes_read f)); cbn in *; try lia; auto 10.
Qed.
Lemma members_valid_ok : forall feat ms, members_valid feat ms = true <-> fields_ok feat ms.
Proof.
  intros feat ms. unfold members_valid, fields_ok. induction ms as [|m ms IH]; cbn [forallb].
  - split; [constructor|reflexivity].
  - rewrite andb_true_iff, field_valid_ok, IH, Forall_cons_iff. tauto.
Qed.
Lemma ctx_rule : forall A (x : option A) b, (given x -> b = true) <-> some x && negb b = false.
Proof. intros A [x|] []; unfold given; cbn; intuition congruence. Qed.
Lemma struct_valid_ok : forall feat c, container_valid feat false c = true <-> struct_rules c.
Proof.
  intros feat c. unfold container_valid. rewrite !if_false_l, !andb_true_iff, !negb_true_iff, !orb_false_iff. split.
  - intros [Z [A [[[[B C] D] E] [F _]]]]. constructor; [apply ctx_rule; assumption| |]; rewrite !absent_some; repeat split; auto.
    destruct feat, (some (k_bits c)); auto; discriminate.
  - intros [A [B [C D]] [E F]]. apply ctx_rule in A. rewrite absent_some in *. rewrite A, B, C, D, E, F.
    destruct feat; cbn; auto 10.
Qed.
Lemma enum_valid_ok : forall feat c, container_valid feat true c = true <-> enum_rules feat c.
Proof.
  intros feat c. unfold container_valid. rewrite !if_false_l. split.
  - rewrite !andb_true_iff, !negb_true_iff. intros [Z [A [B [C [D [E [F _]]]]]]].
    constructor; [apply ctx_rule; assumption| | | |].
    + rewrite !given_some. destruct (some (k_id c)), (some (k_id_type c)); cbn in *; auto; discriminate.
    + amo [some (k_id c); some (k_id_type c)]. destruct (some (k_id c)), (some (k_id_type c)); cbn in *; lia.
    + amo [some (k_id c); some (k_bits c); some (k_bytes c)].
      destruct feat, (some (k_id c)), (some (k_bits c)), (some (k_bytes c)); cbn in *; try lia; discriminate.
    + intros ->. rewrite absent_some. destruct (some (k_bits c)); cbn in *; congruence.
  - intros [A B C D E]. apply ctx_rule in A. rewrite A. revert B C D E.
    amo [some (k_id c); some (k_id_type c)]. amo [some (k_id c); some (k_bits c); some (k_bytes c)].
    rewrite !given_some, absent_some. intros B C D E.
    destruct feat; [|specialize (E eq_refl); rewrite E in *];
    destruct (some (k_id c)), (some (k_id_type c)), (some (k_bits c)), (some (k_bytes c)); cbn in *; try lia; intuition discriminate.
Qed.
Lemma variant_valid_ok : forall v, variant_valid v = true <-> at_most_one [given (v_id v); given (v_pat v)] /\ is_value (v_id v).
Proof.
  intros v. unfold variant_valid, is_value. amo [some (v_id v); some (v_pat v)].
  destruct (v_id v) as [[x|]|], (v_pat v); cbn; intuition (try lia; try congruence).
Qed.

Lemma prim_eqb_eq : forall p q, prim_eqb p q = true <-> p = q.
Proof.
  intros [|a|a] [|b|b]; cbn; try rewrite Nat.eqb_eq; split; intros E; subst; try congruence; try reflexivity; now inversion E.
Qed.
Lemma repr_valid_ok : forall c, repr_valid c = true <-> exists r, k_repr c = Some r /\ forall t, k_id_type c = Some t -> t = TPrim r.
Proof.
  intros c. unfold repr_valid. split.
  - destruct (k_repr c) as [r|]; [|discriminate]. intros H. exists r. split; [reflexivity|]. intros t Et. rewrite Et in H.
    destruct t; cbn in H; try discriminate. apply prim_eqb_eq in H. congruence.
  - intros [r [-> H]]. destruct (k_id_type c) as [t|]; [|reflexivity]. rewrite (H t eq_refl). cbn. now apply prim_eqb_eq.
Qed.
Definition has_disc (vs : list (vdecl * list member)) : bool := existsb (fun p => v_explicit (fst p)) vs.
Lemma has_disc_ok : forall vs, has_disc vs = true <-> exists v ms, In (v, ms) vs /\ v_explicit v = true.
Proof.
  intros vs. unfold has_disc. rewrite existsb_exists. split.
  - intros [[v ms] H]. now exists v, ms.
  - intros [v [ms H]]. now exists (v, ms).
Qed.
Lemma usable_ok : forall c vs, has_disc vs && repr_valid c = true <-> discriminants_usable c vs.
Proof. intros c vs. unfold discriminants_usable. rewrite andb_true_iff, has_disc_ok, repr_valid_ok. tauto. Qed.

Lemma bare_ok : forall f, any_field_set f = false <-> bare f.
Proof.
  intros f. unfold any_field_set, bare. rewrite !orb_false_iff, <- !absent_some. unfold absent. destruct f; cbn. split.
  - intros H. decompose [and] H. subst. reflexivity.
  - intros H. injection H as -> -> -> -> -> -> -> -> -> -> -> -> -> -> -> -> -> -> -> -> -> -> -> -> -> -> -> -> ->. tauto.
Qed.
Lemma storage_valid_ok : forall c v ms, storage_valid c v ms = true <->
  forall m tl, ms = m :: tl -> given (v_pat v) -> absent (k_id c) -> absent (d_reader (m_attrs m)) -> bare (m_attrs m).
Proof.
  intros c v ms. unfold storage_valid. split.
  - intros H m tl -> G A R. unfold absent in A, R. rewrite <- bare_ok. destruct (v_pat v); [|destruct (G eq_refl)].
    rewrite A, R in H. cbn in H. now apply negb_true_iff.
  - intros H. destruct (v_pat v) eqn:Ep; [|reflexivity]. destruct ms as [|m tl]; [reflexivity|].
    destruct (k_id c) eqn:Ei; [reflexivity|]. destruct (d_reader (m_attrs m)) eqn:Er; [reflexivity|]. cbn.
    rewrite negb_true_iff, bare_ok. apply (H m tl); [reflexivity|unfold given; congruence|reflexivity|exact Er].
Qed.
Lemma default_sum : forall vs : list (vdecl * list member), list_sum (map (fun p => b2n (default_of (fst p))) vs) <= 1 <->
  forall l1 v1 ms1 l2 v2 ms2 l3, vs = l1 ++ (v1, ms1) :: l2 ++ (v2, ms2) :: l3 ->
      ~ (v_is_default v1 = Some true /\ v_is_default v2 = Some true).
Proof.
  assert (D : forall v, v_is_default v = Some true <-> b2n (default_of v) = 1).
  { intros v. unfold default_of. destruct (v_is_default v) as [[]|]; cbn; intuition congruence. }
  assert (B : forall v, b2n (default_of v) <= 1) by (intros v; destruct (default_of v); cbn; lia).
  intros vs. split.
  - intros H l1 v1 ms1 l2 v2 ms2 l3 -> [E1 E2]. apply D in E1, E2.
    rewrite map_app, list_sum_app in H. cbn [map list_sum fold_right fst] in H.
    change (fold_right Init.Nat.add 0 ?l) with (list_sum l) in H. rewrite map_app, list_sum_app in H. cbn [map list_sum fold_right fst] in H. lia.
  - induction vs as [|[v ms] vs IH]; intros H; cbn [map list_sum fold_right fst]; [lia|].
    change (fold_right Init.Nat.add 0 ?l) with (list_sum l).
    assert (T : list_sum (map (fun p => b2n (default_of (fst p))) vs) <= 1).
    { apply IH. intros l1 v1 ms1 l2 v2 ms2 l3 ->. apply (H ((v, ms) :: l1) v1 ms1 l2 v2 ms2 l3). reflexivity. }
    pose proof (B v). destruct (Nat.eq_dec (b2n (default_of v)) 1) as [E|]; [|lia].
    assert (Z : forall v' ms', In (v', ms') vs -> b2n (default_of v') = 0).
    { intros v' ms' I. apply in_split in I. destruct I as [l2 [l3 ->]]. pose proof (B v').
      destruct (Nat.eq_dec (b2n (default_of v')) 1) as [E'|]; [|lia]. exfalso.
      apply (H [] v ms l2 v' ms' l3 eq_refl). split; apply D; assumption. }
    assert (list_sum (map (fun p => b2n (default_of (fst p))) vs) = 0); [|lia].
    clear - Z. induction vs as [|[v ms] vs IH]; [reflexivity|]. cbn [map list_sum fold_right fst].
    change (fold_right Init.Nat.add 0 ?l) with (list_sum l). rewrite IH, (Z v ms); [reflexivity|now left|]. intros v' ms' I. apply (Z v' ms'). now right.
Qed.
Lemma selector_ok : forall c hd v, is_value (v_id v) ->
  (selector_of c hd v <> None <-> given (v_id v) \/ given (v_pat v) \/ hd && repr_valid c = true).
Proof.
  intros c hd v N. unfold selector_of, is_value, given in *. destruct (v_id v) as [[x|]|]; [intuition congruence|congruence|].
  destruct (v_pat v); [intuition congruence|]. destruct (hd && repr_valid c); intuition congruence.
Qed.
Lemma variants_of_ok : forall c hd vs, variants_of c hd vs <> None <-> (forall v ms, In (v, ms) vs -> selector_of c hd v <> None).
Proof.
  intros c hd vs. induction vs as [|[v ms] vs IH]; cbn [variants_of In].
  - split; [tauto|discriminate].
  - split.
    + intros H v' ms' [E|I]; [injection E as <- <-; destruct (selector_of c hd v); congruence|].
      apply (proj1 IH) with (ms := ms'); [|assumption]. destruct (selector_of c hd v), (variants_of c hd vs); congruence.
    + intros H. pose proof (H v ms (or_introl eq_refl)) as A. destruct (selector_of c hd v); [|congruence].
      assert (T : variants_of c hd vs <> None) by (apply IH; intros v' ms' I; apply (H v' ms'); now right).
      destruct (variants_of c hd vs); congruence.
Qed.
Lemma forallb_pair : forall A B (p : A * B -> bool) l, forallb p l = true <-> forall a b, In (a, b) l -> p (a, b) = true.
Proof. intros A B p l. rewrite forallb_forall. split; [intros H a b; apply H|intros H [a b]; apply H]. Qed.

Theorem derive_ok : forall tr feat d, derive tr feat d <> None <-> decl_ok tr feat d.
Proof.
  intros tr feat [c ms|c vs]; cbn [derive decl_ok].
  - rewrite <- members_valid_ok, <- (struct_valid_ok feat). destruct (members_valid feat ms), (container_valid feat false c); cbn; intuition congruence.
  - fold (has_disc vs).
    assert (A : forallb (fun p => members_valid feat (snd p) && variant_valid (fst p)) vs = true <->
                (forall v ms, In (v, ms) vs -> fields_ok feat ms) /\ variants_ok vs).
    { rewrite forallb_pair. cbn [fst snd]. unfold variants_ok. split.
      - intros H. split; intros v ms I; specialize (H v ms I); apply andb_true_iff in H; destruct H as [H1 H2];
          [now apply members_valid_ok|now apply variant_valid_ok].
      - intros [H1 H2] v ms I. apply andb_true_iff. split; [apply members_valid_ok; eauto|apply variant_valid_ok; eauto]. }
    rewrite <- enum_valid_ok, <- (and_assoc _ (variants_ok vs)), <- A.
    destruct (forallb _ vs) eqn:EA; cbn [andb]; [|intuition congruence].
    apply proj1 in A. specialize (A eq_refl). destruct A as [_ VOK]. clear EA.
    destruct (container_valid feat true c) eqn:EC; [|intuition congruence].
    destruct tr.
    + assert (B : forallb (fun p => storage_valid c (fst p) (snd p)) vs = true <->
        forall v m ms, In (v, m :: ms) vs -> given (v_pat v) -> absent (k_id c) -> absent (d_reader (m_attrs m)) -> bare (m_attrs m)).
      { rewrite forallb_pair. cbn [fst snd]. split.
        - intros H v m ms I. apply (proj1 (storage_valid_ok c v (m :: ms)) (H _ _ I) m ms eq_refl).
        - intros H v ms I. apply storage_valid_ok. intros m tl ->. eapply H; eauto. }
      assert (V : variants_of c (has_disc vs) vs <> None <-> (forall v ms, In (v, ms) vs -> given (v_id v) \/ given (v_pat v) \/ discriminants_usable c vs)).
      { rewrite variants_of_ok. split; intros H v ms I; specialize (H v ms I); destruct (VOK v ms I) as [_ N];
          pose proof (selector_ok c (has_disc vs) v N); rewrite <- usable_ok in *; tauto. }
      pose proof (default_sum vs) as DS. rewrite <- Nat.leb_le in DS.
      split.
      * intros H. destruct (forallb _ vs); [|destruct (H eq_refl)]. destruct (_ <=? 1); [|destruct (H eq_refl)]. cbn [andb] in H.
        split; [reflexivity|split; [reflexivity|]]. constructor; [|now apply B|now apply DS]. apply V. destruct (variants_of _ _ _); [congruence|destruct (H eq_refl)].
      * intros [_ [_ [R1 R2 R3]]]. apply V in R1. apply B in R2. apply DS in R3. rewrite R2, R3. cbn [andb].
        destruct (variants_of _ _ _); [discriminate|congruence].
    + assert (W : forallb (fun p => writable_id c (has_disc vs) (fst p) (snd p)) vs = true <-> write_rules c vs).
      { rewrite forallb_pair. cbn [fst snd]. unfold write_rules, writable_id. rewrite absent_some. split.
        - intros H A v ms I. specialize (H v ms I). rewrite A in H. cbn [orb] in H. rewrite !orb_true_iff, andb_true_iff, usable_ok in H.
          rewrite !given_some. destruct H as [[H|[H1 H2]]|H]; auto. right. left. split; [assumption|]. destruct ms; [discriminate|discriminate].
        - intros H v ms I. destruct (some (k_id c)); [reflexivity|]. specialize (H eq_refl v ms I). rewrite !given_some in H.
          cbn [orb]. rewrite !orb_true_iff, andb_true_iff, usable_ok. destruct H as [H|[[H1 H2]|H]]; auto. left. right. split; [assumption|]. destruct ms; congruence. }
      rewrite <- W. destruct (forallb _ vs); intuition congruence.
Qed.

(** ** What the attributes become *)

Lemma attrs_list_of : forall ms i m a, nth_error ms i = Some m -> nth_error (attrs_list (fields_of ms)) i = Some a ->
  a = fattrs_of (m_attrs m) (m_default m).
Proof.
  induction ms as [|m0 ms IH]; intros [|i] m a H1 H2; try discriminate H1; cbn in H1, H2; [congruence|eauto].
Qed.
Lemma nth_forallb : forall A (p : A -> bool) l i x, forallb p l = true -> nth_error l i = Some x -> p x = true.
Proof. intros A p l i x H E. rewrite forallb_forall in H. apply H. eapply nth_error_In; eassumption. Qed.
(** The variants of the derived type, for either macro. *)
Lemma variants_list_of : forall c hd vs vs' k v ms v' fs, variants_of c hd vs = Some vs' ->
  nth_error vs k = Some (v, ms) -> nth_error (variant_list vs') k = Some (v', fs) ->
  fs = fields_of ms /\ selector_of c hd v = Some (v_sel v') /\ v_default v' = default_of v.
Proof.
  intros c hd vs. induction vs as [|[v0 ms0] vs IH]; intros vs' k v ms v' fs H E1 E2; [destruct k; discriminate|].
  cbn [variants_of] in H. destruct (selector_of c hd v0) eqn:Es; [|discriminate]. destruct (variants_of c hd vs) eqn:Ev; [|discriminate].
  injection H as <-. destruct k; cbn in E1, E2; [|eauto]. injection E1 as <- <-. injection E2 as <- <-. auto.
Qed.
Lemma write_variants_list_of : forall c hd vs k v ms v' fs,
  nth_error vs k = Some (v, ms) -> nth_error (variant_list (write_variants_of c hd vs)) k = Some (v', fs) ->
  fs = fields_of ms /\ v_sel v' = match selector_of c hd v with Some s => s | None => no_selector end.
Proof.
  intros c hd vs. induction vs as [|[v0 ms0] vs IH]; intros k v ms v' fs E1 E2; [destruct k; discriminate|].
  destruct k; cbn in E1, E2; [|eauto]. injection E1 as <- <-. injection E2 as <- <-. auto.
Qed.
Lemma derive_enum : forall tr feat c vs t, derive tr feat (DEnum c vs) = Some t ->
  exists vs', t = TEnum (eattrs_of c) (match k_id_type c with Some t => t | None => TUnit end) vs' /\
  container_valid feat true c = true /\
  forallb (fun p => members_valid feat (snd p) && variant_valid (fst p)) vs = true /\
  match tr with
  | DekuRead => variants_of c (has_disc vs) vs = Some vs'
  | DekuWrite => vs' = write_variants_of c (has_disc vs) vs /\ forallb (fun p => writable_id c (has_disc vs) (fst p) (snd p)) vs = true
  end.
Proof.
  intros tr feat c vs t H. cbn [derive] in H. fold (has_disc vs) in H. revert H.
  destruct (forallb (fun p => members_valid feat (snd p) && variant_valid (fst p)) vs); cbn [andb]; [|discriminate].
  destruct (container_valid feat true c); [|discriminate].
  destruct tr.
  - destruct (forallb (fun p => storage_valid c (fst p) (snd p)) vs); cbn [andb]; [|discriminate].
    destruct (_ <=? 1); [|discriminate]. destruct (variants_of c (has_disc vs) vs) as [vs'|]; cbn [option_map]; [|discriminate].
    intros E. injection E as <-. exists vs'. auto.
  - destruct (forallb (fun p => writable_id c (has_disc vs) (fst p) (snd p)) vs); [|discriminate].
    intros E. injection E as <-. exists (write_variants_of c (has_disc vs) vs). auto.
Qed.
Lemma becomes_eq : forall tr feat d t m a, derive tr feat d = Some t -> becomes d t m a ->
  a = fattrs_of (m_attrs m) (m_default m) /\ field_ok feat (m_attrs m).
Proof.
  intros tr feat [c ms|c vs] t m a H B.
  - cbn [derive] in H. destruct (members_valid feat ms) eqn:EM; cbn [andb] in H; [|discriminate].
    destruct (container_valid feat false c); [|discriminate]. injection H as <-. destruct B as [i [B1 B2]].
    split; [eapply attrs_list_of; eassumption|]. apply members_valid_ok in EM. unfold fields_ok in EM. rewrite Forall_forall in EM.
    apply EM. eapply nth_error_In; eassumption.
  - apply derive_enum in H. destruct H as [vs' [-> [_ [M D]]]]. destruct B as [k [i [v [ms [v' [fs [E1 [E2 [E3 E4]]]]]]]]].
    assert (F : fs = fields_of ms).
    { destruct tr; [|destruct D as [-> _]]; [eapply variants_list_of|eapply write_variants_list_of]; eassumption. }
    subst fs. split; [eapply attrs_list_of; eassumption|].
    pose proof (nth_forallb _ _ _ _ _ M E1) as V. cbn [fst snd] in V. apply andb_true_iff in V. destruct V as [V _].
    apply members_valid_ok in V. unfold fields_ok in V. rewrite Forall_forall in V. apply V. eapply nth_error_In; eassumption.
Qed.

Theorem limit_used : forall tr d t m a, derive tr true d = Some t -> becomes d t m a -> until_alone (m_attrs m) ->
  forall l, a_limit a = Some l <-> limit_written (m_attrs m) l.
Proof.
  intros tr d t m a H B U l. destruct (becomes_eq _ _ _ _ _ _ H B) as [-> R]. cbn [field_ok] in R. destruct R as [R1 R2 _ _ _].
  cbn [fattrs_of a_limit]. unfold limit_of, limit_written. revert R1.
  amo [some (d_count (m_attrs m)); some (d_bits_read (m_attrs m)); some (d_bytes_read (m_attrs m)); d_read_all (m_attrs m)].
  unfold until_alone, given, absent in *. intros R1.
  destruct (d_count (m_attrs m)), (d_bits_read (m_attrs m)), (d_bytes_read (m_attrs m)), (d_read_all (m_attrs m)); cbn in R1; try lia;
  destruct (d_until (m_attrs m)); cbn [option_map]; try (destruct U as [U1 [U2 U3]]; [discriminate|discriminate]); try (now discriminate R2);
  destruct l; split; intros E; congruence.
Qed.
Lemma to_i64_converted z to s : Some (option_map to (to_i64 z)) = Some s <-> converted (- 2 ^ 63) (2 ^ 63) z to s.
Proof.
  unfold to_i64, converted. destruct (Z.leb_spec (- 2 ^ 63) z), (Z.ltb_spec z (2 ^ 63)); cbn [andb option_map].
  - split; [intros E; injection E as <-; left; split; [lia|reflexivity]|]. intros [[_ ->]|[H1 _]]; [reflexivity|lia].
  - split; [intros E; injection E as <-; right; split; [lia|reflexivity]|]. intros [[H1 _]|[_ ->]]; [lia|reflexivity].
  - split; [intros E; injection E as <-; right; split; [lia|reflexivity]|]. intros [[H1 _]|[_ ->]]; [lia|reflexivity].
  - split; [intros E; injection E as <-; right; split; [lia|reflexivity]|]. intros [[H1 _]|[_ ->]]; [lia|reflexivity].
Qed.
Lemma to_u64_converted z s : Some (option_map SeekStart (to_u64 z)) = Some s <-> converted 0 (2 ^ 64) z (fun z => SeekStart (Z.to_nat z)) s.
Proof.
  unfold to_u64, converted. destruct (Z.leb_spec 0 z), (Z.ltb_spec z (2 ^ 64)); cbn [andb option_map].
  - split; [intros E; injection E as <-; left; split; [lia|reflexivity]|]. intros [[_ ->]|[H1 _]]; [reflexivity|lia].
  - split; [intros E; injection E as <-; right; split; [lia|reflexivity]|]. intros [[H1 _]|[_ ->]]; [lia|reflexivity].
  - split; [intros E; injection E as <-; right; split; [lia|reflexivity]|]. intros [[H1 _]|[_ ->]]; [lia|reflexivity].
  - split; [intros E; injection E as <-; right; split; [lia|reflexivity]|]. intros [[H1 _]|[_ ->]]; [lia|reflexivity].
Qed.
Theorem seek_used : forall tr feat d t m a ctx fs s, derive tr feat d = Some t -> becomes d t m a ->
  (option_map (fun f => f ctx fs) (a_seek a) = Some s <-> seek_written (m_attrs m) ctx fs s).
Proof.
  intros tr feat d t m a ctx fs s H B. destruct (becomes_eq _ _ _ _ _ _ H B) as [-> R].
  assert (SK : at_most_one [given (d_seek_current (m_attrs m)); given (d_seek_end (m_attrs m)); given (d_seek_start (m_attrs m)); d_seek_rewind (m_attrs m) = true])
    by (destruct feat; destruct R; assumption). clear R. revert SK.
  amo [some (d_seek_current (m_attrs m)); some (d_seek_end (m_attrs m)); some (d_seek_start (m_attrs m)); d_seek_rewind (m_attrs m)].
  intros SK. cbn [fattrs_of a_seek]. unfold seek_of, seek_written.
  destruct (d_seek_current (m_attrs m)) as [f|], (d_seek_end (m_attrs m)) as [g|], (d_seek_start (m_attrs m)) as [h|], (d_seek_rewind (m_attrs m)); cbn in SK; try lia;
  cbn [option_map]; unfold curry0, uncurry0; cbn [fst snd].
  - rewrite to_i64_converted. split; [eauto|]. intros [(e & E & X)|[(e & E & _)|[(e & E & _)|[E _]]]]; congruence.
  - rewrite to_i64_converted. split; [eauto|]. intros [(e & E & _)|[(e & E & X)|[(e & E & _)|[E _]]]]; congruence.
  - rewrite to_u64_converted. split; [eauto 6|]. intros [(e & E & _)|[(e & E & _)|[(e & E & X)|[E _]]]]; congruence.
  - split; [intros E; injection E as <-; auto|]. intros [(e & E & _)|[(e & E & _)|[(e & E & _)|[_ ->]]]]; congruence.
  - split; [discriminate|]. intros [(e & E & _)|[(e & E & _)|[(e & E & _)|[E _]]]]; congruence.
Qed.
Theorem padding_used : forall tr feat d t m a ctx fs, derive tr feat d = Some t -> becomes d t m a ->
  eval0 (a_pad_before a) ctx fs = padding_written (d_pad_bits_before (m_attrs m)) (d_pad_bytes_before (m_attrs m)) ctx fs /\
  eval0 (a_pad_after a) ctx fs = padding_written (d_pad_bits_after (m_attrs m)) (d_pad_bytes_after (m_attrs m)) ctx fs.
Proof.
  intros tr feat d t m a ctx fs H B. destruct (becomes_eq _ _ _ _ _ _ H B) as [-> _].
  assert (P : forall x y, eval0 (pad_of x y) ctx fs = padding_written x y ctx fs).
  { intros [x|] [y|]; unfold eval0, pad_of, padding_written; cbn [option_map]; try reflexivity; f_equal; lia. }
  split; apply P.
Qed.

(** ** The two macros and the two builds *)

Theorem read_write_same : forall feat d t t', derive DekuRead feat d = Some t -> derive DekuWrite feat d = Some t' -> t = t'.
Proof.
  intros feat [c ms|c vs] t t' H H'; [cbn [derive] in H, H'; congruence|].
  apply derive_enum in H, H'. destruct H as [r [-> [_ [_ H]]]]. destruct H' as [w [-> [_ [_ [-> _]]]]]. f_equal.
  revert r H. generalize (has_disc vs) as hd. intros hd. induction vs as [|[v ms] vs IH]; intros r H; cbn [variants_of] in H; [cbn; congruence|].
  destruct (selector_of c hd v) eqn:Es; [|discriminate]. destruct (variants_of c hd vs) eqn:Ev; [|discriminate]. injection H as <-.
  cbn [write_variants_of]. rewrite Es. f_equal. apply IH. reflexivity.
Qed.

Lemma members_valid_mono : forall ms, (forall m, In m ms -> read_all_alone (m_attrs m)) -> members_valid false ms = true -> members_valid true ms = true.
Proof.
  intros ms A H. rewrite members_valid_ok in *. unfold fields_ok in *. rewrite Forall_forall in *. intros m I. specialize (H m I). specialize (A m I).
  cbn [field_ok] in *. destruct H as [[B1 [B2 [B3 B4]]] L D S]. unfold read_all_alone, absent in *. constructor; auto.
  - revert L. amo [some (d_count (m_attrs m)); some (d_bytes_read (m_attrs m))].
    amo [some (d_count (m_attrs m)); some (d_bits_read (m_attrs m)); some (d_bytes_read (m_attrs m)); d_read_all (m_attrs m)].
    rewrite B2. destruct (d_read_all (m_attrs m)).
    + destruct (A eq_refl) as [A1 [A2 [A3 A4]]]. rewrite A2, A4. cbn. lia.
    + cbn. lia.
  - unfold given. intros G. destruct (d_read_all (m_attrs m)); [|reflexivity]. destruct (A eq_refl). contradiction.
  - amo [some (d_bits (m_attrs m)); some (d_bytes (m_attrs m))]. rewrite B1. cbn. destruct (some (d_bytes (m_attrs m))); cbn; lia.
Qed.
Lemma members_valid_down : forall ms, (forall m, In m ms -> no_bits (m_attrs m)) -> members_valid true ms = true -> members_valid false ms = true.
Proof.
  intros ms A H. rewrite members_valid_ok in *. unfold fields_ok in *. rewrite Forall_forall in *. intros m I. specialize (H m I). specialize (A m I).
  cbn [field_ok] in *. destruct H as [L U Z D S]. constructor; auto.
  revert L. amo [some (d_count (m_attrs m)); some (d_bits_read (m_attrs m)); some (d_bytes_read (m_attrs m)); d_read_all (m_attrs m)].
  amo [some (d_count (m_attrs m)); some (d_bytes_read (m_attrs m))]. cbn. lia.
Qed.
Lemma forallb_mono : forall A (p q : A -> bool) l, (forall x, In x l -> p x = true -> q x = true) -> forallb p l = true -> forallb q l = true.
Proof. intros A p q l H. rewrite !forallb_forall. eauto. Qed.
Lemma derive_feat : forall tr f1 f2 d t,
  (forall ms, (forall m, In m ms -> In m (members d)) -> members_valid f1 ms = true -> members_valid f2 ms = true) ->
  (forall b, container_valid f1 b (container d) = true -> container_valid f2 b (container d) = true) ->
  derive tr f1 d = Some t -> derive tr f2 d = Some t.
Proof.
  intros tr f1 f2 [c ms|c vs] t HM HC; cbn [members container] in *.
  - cbn [derive]. destruct (members_valid f1 ms) eqn:E1; [|discriminate]. destruct (container_valid f1 false c) eqn:E2; [|discriminate].
    rewrite (HM ms), (HC false); auto.
  - cbn [derive].
    destruct (forallb (fun p => members_valid f1 (snd p) && variant_valid (fst p)) vs) eqn:E1; [|discriminate].
    destruct (container_valid f1 true c) eqn:E2; [|discriminate].
    assert (E3 : forallb (fun p => members_valid f2 (snd p) && variant_valid (fst p)) vs = true).
    { revert E1. apply forallb_mono. intros [v ms] I. cbn [fst snd]. rewrite !andb_true_iff. intros [X Y]. split; [|assumption].
      apply HM; [|assumption]. intros m Im. apply in_flat_map. exists (v, ms). auto. }
    rewrite E3, (HC true) by assumption. auto.
Qed.
Theorem with_bits : forall tr d t, (forall m, In m (members d) -> read_all_alone (m_attrs m)) ->
  derive tr false d = Some t -> derive tr true d = Some t.
Proof.
  intros tr d t A. apply derive_feat.
  - intros ms I. apply members_valid_mono. auto.
  - intros b. unfold container_valid. cbn [negb andb]. destruct (some (k_bits (container d))) eqn:E; [discriminate|].
    rewrite !andb_false_r. cbn [andb]. auto.
Qed.
Theorem without_bits : forall tr d t, (forall m, In m (members d) -> no_bits (m_attrs m)) -> absent (k_bits (container d)) ->
  derive tr true d = Some t -> derive tr false d = Some t.
Proof.
  intros tr d t A B. apply derive_feat.
  - intros ms I. apply members_valid_down. auto.
  - intros b. unfold container_valid. apply absent_some in B. rewrite B, !andb_false_r. cbn [negb andb]. auto.
Qed.

(** ** Ids *)

Lemma fields_of_nil : forall ms, no_fields (fields_of ms) = match ms with [] => true | _ => false end.
Proof. intros [|m ms]; reflexivity. Qed.
Theorem id_written : forall feat c vs e idt vs' k v fs ctx w, derive DekuWrite feat (DEnum c vs) = Some (TEnum e idt vs') ->
  nth_error (variant_list vs') k = Some (v, fs) -> write_id e v fs ctx (fun _ _ => ret tt) w = (Ok tt, w).
Proof.
  intros feat c vs e idt vs' k v fs ctx w H E. apply derive_enum in H. destruct H as [r [T [CV [M [Er W]]]]].
  injection T as -> -> ->. subst r.
  assert (X : exists v0 ms0, nth_error vs k = Some (v0, ms0)).
  { destruct (nth_error vs k) as [[v0 ms0]|] eqn:En; [eauto|]. exfalso. revert k E En. clear. generalize (has_disc vs) as hd. intros hd.
    induction vs as [|[v0 ms0] vs IH]; intros [|k] E En; cbn in *; try discriminate; eauto. }
  destruct X as [v0 [ms0 E0]]. destruct (write_variants_list_of _ _ _ _ _ _ _ _ E0 E) as [-> S]. 
  pose proof (nth_forallb _ _ _ _ _ W E0) as V. cbn [fst snd] in V.
  unfold write_id, eattrs_of, en_id. unfold writable_id in V. destruct (k_id c) as [i|]; [reflexivity|]. cbn [some orb] in V.
  rewrite S. unfold selector_of. destruct (v_id v0) as [[x|]|] eqn:Ei; cbn [some orb] in V.
  - reflexivity.
  - pose proof (nth_forallb _ _ _ _ _ M E0) as VV. cbn [fst snd] in VV. apply andb_true_iff in VV. destruct VV as [_ VV].
    apply variant_valid_ok in VV. destruct VV as [_ VV]. now elim VV.
  - destruct (v_pat v0); cbn [some andb orb] in V.
    + rewrite fields_of_nil. destruct ms0; [|reflexivity]. cbn [orb] in V. apply andb_true_iff in V. destruct V as [-> _]. reflexivity.
    + rewrite V. reflexivity.
Qed.
Theorem storage_plain : forall feat c vs t m a ms v, derive DekuRead feat (DEnum c vs) = Some t -> absent (k_id c) ->
  In (v, m :: ms) vs -> given (v_pat v) -> absent (d_reader (m_attrs m)) -> becomes (DEnum c vs) t m a ->
  forall ctx fs off, a_default a ctx fs off = m_default m /\
    a = mkF None None None None (fun _ _ _ => []) None None None None None None (a_default a) None None None [] None None false None None.
Proof.
  intros feat c vs t m a ms v H A I G R B ctx fs off. destruct (becomes_eq _ _ _ _ _ _ H B) as [-> F].
  assert (D : decl_ok DekuRead feat (DEnum c vs)) by (apply derive_ok; congruence). destruct D as [_ [_ [_ D]]]. destruct D as [_ D _].
  pose proof (D v m ms I G A R) as X. unfold bare in X.
  assert (ND : d_default (m_attrs m) = None).
  { destruct (d_default (m_attrs m)) eqn:E; [|reflexivity]. exfalso.
    assert (Y : given (d_skip (m_attrs m)) \/ given (d_cond (m_attrs m))).
    { destruct feat; [destruct F as [? ? ? F ?]|destruct F as [? ? F ?]]; apply F; unfold given; congruence. }
    rewrite X in Y. cbn in Y. unfold given in Y. destruct Y as [Y|Y]; now apply Y. }
  rewrite X. cbn [d_default]. rewrite ND. split; reflexivity.
Qed.
Theorem discriminant_type : forall feat c vs e idt vs' k v fs x, derive DekuRead feat (DEnum c vs) = Some (TEnum e idt vs') ->
  absent (k_id c) -> nth_error (variant_list vs') k = Some (v, fs) -> v_sel v = SDisc x -> exists p, k_repr c = Some p /\ idt = TPrim p.
Proof.
  intros feat c vs e idt vs' k v fs x H A E S. apply derive_enum in H. destruct H as [r [T [CV [M W]]]].
  injection T as -> -> ->.
  assert (X : exists v0 ms0, nth_error vs k = Some (v0, ms0)).
  { destruct (nth_error vs k) as [[v0 ms0]|] eqn:En; [eauto|]. exfalso. revert k r E En W. clear. generalize (has_disc vs) as hd. intros hd.
    induction vs as [|[v0 ms0] vs IH]; intros k r E En W; cbn [variants_of] in W; [injection W as <-; destruct k; discriminate|].
    destruct (selector_of c hd v0); [|discriminate]. destruct (variants_of c hd vs) eqn:Ev; [|discriminate]. injection W as <-.
    destruct k; cbn in *; try discriminate; eauto. }
  destruct X as [v0 [ms0 E0]]. destruct (variants_list_of _ _ _ _ _ _ _ _ _ W E0 E) as [_ [S0 _]]. rewrite S in S0.
  unfold selector_of in S0. destruct (v_id v0) as [[y|]|]; try discriminate. destruct (v_pat v0); [discriminate|].
  destruct (has_disc vs && repr_valid c) eqn:V; [|discriminate]. apply andb_true_iff in V. destruct V as [_ V].
  apply repr_valid_ok in V. destruct V as [p [Ep V]]. exists p. split; [assumption|].
  apply enum_valid_ok in CV. destruct CV as [_ CV _ _ _]. destruct (k_id_type c) as [t|]; [apply V; reflexivity|].
  destruct CV as [CV|CV]; [|now elim CV]. unfold absent in A. now elim CV.
Qed.

(** ** Arguments and values *)
Lemma container_eq tr feat d t c : derive tr feat d = Some t -> container_of t c -> c = cattrs_of (container d).
Proof.
  intros H E. destruct d as [k ms|k vs]; cbn [derive container] in *.
  - destruct (_ && _); [|discriminate H]. injection H as <-. exact E.
  - apply derive_enum in H. destruct H as [vs' [-> _]]. exact E.
Qed.
Theorem args_used tr feat d t m a c : derive tr feat d = Some t -> becomes d t m a -> container_of t c ->
  forall ctx fs off, field_args c a ctx fs off = args_written (container d) (m_attrs m) ctx fs off.
Proof.
  intros H B E ctx fs off. rewrite (container_eq _ _ _ _ _ H E). destruct (becomes_eq _ _ _ _ _ _ H B) as [-> _].
  unfold field_args, args_of, field_order, args_written, fattrs_of, cattrs_of. cbn [a_endian a_bits a_bytes a_order a_ctx c_endian c_order].
  assert (HE : opt_list (option_map VEnd (eval0 (or_else (option_map endian_of (d_endian (m_attrs m))) (option_map endian_of (k_endian (container d)))) ctx fs)) =
    match d_endian (m_attrs m), k_endian (container d) with Some e, _ | None, Some e => [VEnd (endian_meant e ctx fs)] | None, None => [] end)
    by (destruct (d_endian _) as [[]|]; [..|destruct (k_endian _) as [[]|]]; reflexivity).
  assert (HO : opt_list (option_map VOrd (eval0 (or_else (option_map order_of (d_order (m_attrs m))) (option_map order_of (k_order (container d)))) ctx fs)) =
    match d_order (m_attrs m), k_order (container d) with Some o, _ | None, Some o => [VOrd (order_meant o ctx fs)] | None, None => [] end)
    by (destruct (d_order _) as [[]|]; [..|destruct (k_order _) as [[]|]]; reflexivity).
  rewrite HE, HO. destruct (d_bits (m_attrs m)), (d_bytes (m_attrs m)), (d_ctx (m_attrs m)); reflexivity.
Qed.
Theorem id_args_used tr feat c vs e idt vs' : derive tr feat (DEnum c vs) = Some (TEnum e idt vs') ->
  forall ctx, id_args e ctx = id_args_written c ctx.
Proof.
  intros H ctx. apply derive_enum in H. destruct H as [vs'' [E _]]. injection E as -> _ _.
  unfold id_args, args_of, id_args_written, eattrs_of, cattrs_of. cbn [en_c en_id_endian en_bits en_bytes c_endian c_order].
  assert (HE : opt_list (option_map VEnd (eval0 (or_else (option_map endian_of (k_id_endian c)) (option_map endian_of (k_endian c))) ctx [])) =
    match k_id_endian c, k_endian c with Some e, _ | None, Some e => [VEnd (endian_meant e ctx [])] | None, None => [] end)
    by (destruct (k_id_endian c) as [[]|]; [..|destruct (k_endian c) as [[]|]]; reflexivity).
  rewrite HE, app_nil_r. destruct (k_bits c), (k_bytes c), (k_order c) as [[]|]; reflexivity.
Qed.
Theorem rest_used tr feat d t m a : derive tr feat d = Some t -> becomes d t m a ->
  let f := m_attrs m in
  a_map a = d_map f /\ a_reader a = d_reader f /\ a_writer a = d_writer f /\ a_skip a = d_skip f /\ a_cond a = d_cond f /\
  a_assert a = d_assert f /\ a_assert_eq a = d_assert_eq f /\ a_temp_value a = d_temp_value f /\ a_update a = d_update f /\
  (forall m, d_magic f = Some m -> a_magic a = m) /\ (d_magic f = None -> a_magic a = []) /\
  (forall g, d_default f = Some g -> a_default a = g) /\ (d_default f = None -> forall ctx fs off, a_default a ctx fs off = m_default m).
Proof.
  intros H B. destruct (becomes_eq _ _ _ _ _ _ H B) as [-> _]. cbv zeta. unfold fattrs_of. cbn.
  repeat split; intros; try match goal with H : _ = _ |- _ => now rewrite H end.
Qed.

Lemma count_of ms : stored_count (fields_of ms) = length (rust_fields ms).
Proof. induction ms as [|m tl IH]; [reflexivity|]. cbn [fields_of stored_count rust_fields filter fattrs_of a_temp]. destruct (d_temp (m_attrs m)); cbn [negb length]; now rewrite IH. Qed.
Lemma read_count cu fuel c ctx : forall fs id acc r l r', fields_read cu fuel c ctx fs id acc r = (Ok l, r') -> length l = stored_count fs.
Proof.
  induction fs as [|a t wire tl IH]; intros id acc r l r' H; cbn [fields_read stored_count] in *.
  - apply pair_inj in H. destruct H as [H _]. apply ok_inj in H. now subst l.
  - apply bind_inv in H. destruct H as (v & r1 & _ & H). apply bind_inv in H. destruct H as (vs & r2 & H & E). apply pair_inj in E. destruct E as [E _]. apply ok_inj in E. subst l.
    apply IH in H. destruct (a_temp a); cbn [length]; now rewrite H.
Qed.
Lemma variants_count cu fuel e ctx id : forall vs k d r v r',
  (forall m, d = Some m -> forall r v r', m r = (Ok v, r') -> exists j l, v = VVar j l /\ j < k) ->
  variants_read cu fuel e ctx id vs k d r = (Ok v, r') ->
  (exists m r r', d = Some m /\ m r = (Ok v, r')) \/ exists j x fs l, nth_error (variant_list vs) j = Some (x, fs) /\ v = VVar (k + j) l /\ length l = stored_count fs.
Proof.
  induction vs as [|x fs tl IH]; intros k d r v r' HD H; cbn [variants_read] in H.
  - destruct d as [m|]; [|discriminate H]. left. eauto.
  - cbv zeta in H. set (body := let* l := fields_read cu fuel (en_c e) ctx fs (if stores_id e x then Some id else None) [] in ret (VVar k l)) in *.
    assert (HB : forall r v r', body r = (Ok v, r') -> exists l, v = VVar k l /\ length l = stored_count fs).
    { intros r0 v0 r0' E. unfold body in E. apply bind_inv in E. destruct E as (l & r1 & E1 & E2). apply pair_inj in E2. destruct E2 as [E2 _]. apply ok_inj in E2. subst v0.
      exists l. split; [reflexivity|]. eapply read_count; eassumption. }
    destruct (matches (v_sel x) id).
    + right. destruct (HB _ _ _ H) as (l & -> & E). exists 0, x, fs, l. rewrite Nat.add_0_r. auto.
    + apply IH in H.
      * destruct H as [(m & r0 & r0' & Em & E)|(j & x' & fs' & l & N & -> & E)].
        -- destruct d as [m0|]; [injection Em as <-; left; eauto|]. destruct (v_default x); [|discriminate Em]. injection Em as <-.
           right. destruct (HB _ _ _ E) as (l & -> & E'). exists 0, x, fs, l. rewrite Nat.add_0_r. auto.
        -- right. exists (S j), x', fs', l. rewrite Nat.add_succ_r. auto.
      * intros m Em r0 v0 r0' E. destruct d as [m0|].
        -- injection Em as <-. destruct (HD _ eq_refl _ _ _ E) as (j & l & -> & L). exists j, l. split; [reflexivity|]. apply le_S. exact L.
        -- destruct (v_default x); [|discriminate Em]. injection Em as <-. destruct (HB _ _ _ E) as (l & -> & _). exists k, l. split; [reflexivity|]. apply le_n.
Qed.
Lemma variant_at c hd : forall vs vs' k v' fs, variants_of c hd vs = Some vs' -> nth_error (variant_list vs') k = Some (v', fs) ->
  exists v ms, nth_error vs k = Some (v, ms) /\ fs = fields_of ms.
Proof.
  induction vs as [|[v ms] tl IH]; intros vs' k v' fs H N; cbn [variants_of] in H.
  - injection H as <-. destruct k; discriminate N.
  - destruct (selector_of c hd v); [|discriminate H]. destruct (variants_of c hd tl) as [r|] eqn:E; [|discriminate H]. injection H as <-. destruct k; cbn [variant_list nth_error] in *.
    + injection N as <- <-. eauto.
    + now apply (IH r k v').
Qed.
Theorem values_read feat d t cu fuel input bit rest v : derive DekuRead feat d = Some t -> from_bytes cu fuel t input bit = Ok (rest, v) -> value_shape d v.
Proof.
  intros H F. unfold from_bytes in F. destruct (from_reader cu fuel t (cursor input) bit) as [[[n x]|?| |] s] eqn:E; try discriminate F.
  assert (x = v) as ->.
  { destruct (_ <=? _); [|discriminate F]. apply ok_inj in F. congruence. }
  clear F. unfold from_reader in E. match type of E with (let '(_, _) := ?m in _) = _ => destruct m as [y r] eqn:E1 end.
  apply pair_inj in E. destruct E as [-> _]. apply bind_inv in E1. destruct E1 as (u & r1 & _ & E1). apply bind_inv in E1. destruct E1 as (v' & r2 & E1 & E2).
  apply pair_inj in E2. destruct E2 as [E2 _]. apply ok_inj in E2. injection E2 as <- ->.
  destruct d as [c ms|c vs]; cbn [value_shape].
  - cbn [derive] in H. destruct (_ && _); [|discriminate H]. injection H as <-. cbn [read_ty] in E1. cbv zeta in E1. apply bind_inv in E1. destruct E1 as (? & ? & _ & E1).
    apply bind_inv in E1. destruct E1 as (? & ? & _ & E1). apply bind_inv in E1. destruct E1 as (l & ? & E1 & E2). apply pair_inj in E2. destruct E2 as [E2 _]. apply ok_inj in E2. subst v.
    rewrite <- count_of. eapply read_count; eassumption.
  - apply derive_enum in H. destruct H as [vs' [-> [_ [_ H]]]]. cbn [read_ty] in E1. cbv zeta in E1. apply bind_inv in E1. destruct E1 as (? & ? & _ & E1).
    apply bind_inv in E1. destruct E1 as (id & ? & _ & E1). apply variants_count in E1; [|discriminate].
    destruct E1 as [(m & r3 & r3' & X & _)|(j & xv & fs & l & N & -> & L)]; [discriminate X|]. cbn [plus]. destruct (variant_at _ _ _ _ _ _ _ H N) as (v0 & ms & N0 & ->).
    exists v0, ms. split; [exact N0|]. now rewrite <- count_of.
Qed.
