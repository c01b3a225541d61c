(** Proofs about [reader] and [writer] on variants. *)
From Coq Require Import Lia.
From Verif Require Import Base Spec Stream Reader Session Writer WSession MonadFacts Prims CodecSpec Containers ContainerSpec Derive DeriveSpec DeriveFacts DeriveSound DeriveProps Variants VariantSpec.

Section Read.
Variables (cu : nat -> custom) (code : nat -> vcode) (fuel : nat).

Definition coded_body (e : eattrs) (ctx : list value) (id : value) (k : nat) (v : vattrs) (fs : fields) : RM value :=
  match vc_read (code k) with Some f => f ctx | None => variant_body cu fuel e ctx id k v fs end.
Definition coded_nth (e : eattrs) (ctx : list value) (id : value) (vs : variants) (k i : nat) : RM value :=
  match nth_variant vs i with Some (v, fs) => coded_body e ctx id k v fs | None => fail Parse end.
Lemma coded_read_eq e ctx id vs : forall k default,
  coded_read cu code fuel e ctx id vs k default =
  match first_match vs id k with
  | Some j => coded_nth e ctx id vs j (j - k)
  | None => match default with
            | Some m => m
            | None => match first_default vs k with Some j => coded_nth e ctx id vs j (j - k) | None => fail Parse end
            end
  end.
Proof.
  induction vs as [|v fs tl IH]; intros k default; [reflexivity|].
  cbn [coded_read first_match first_default]. cbv zeta. destruct (matches (v_sel v) id).
  { rewrite Nat.sub_diag. reflexivity. }
  rewrite IH. destruct (first_match tl id (S k)) as [j|] eqn:Ej.
  - apply (first_match_ge cu) in Ej. replace (j - k) with (S (j - S k)) by lia. reflexivity.
  - destruct default as [m|]; [reflexivity|]. destruct (v_default v).
    + rewrite Nat.sub_diag. reflexivity.
    + destruct (first_default tl (S k)) as [j|] eqn:Ed; [|reflexivity].
      apply (first_default_ge cu) in Ed. replace (j - k) with (S (j - S k)) by lia. reflexivity.
Qed.
Lemma coded_read_selected e ctx id vs : coded_read cu code fuel e ctx id vs 0 None =
  match selected vs id with Some j => coded_nth e ctx id vs j j | None => fail Parse end.
Proof.
  rewrite coded_read_eq. unfold selected. destruct (first_match vs id 0) as [j|]; [now rewrite Nat.sub_0_r|].
  destruct (first_default vs 0) as [j|]; [now rewrite Nat.sub_0_r|reflexivity].
Qed.
Lemma enum_read_id e idt vs args id r r1 : id_reader cu fuel e idt args r = (Ok id, r1) ->
  enum_read cu code fuel e idt vs args r = coded_read cu code fuel e (ctx_args (en_c e) args) id vs 0 None r1.
Proof.
  intros H. unfold enum_read. unfold id_reader in H. apply bind_inv in H. destruct H as ([] & r0 & E0 & E1). rewrite (bind_ok _ _ _ _ _ E0).
  erewrite bind_ok; [reflexivity|]. exact E1.
Qed.

Theorem coded_reads e idt vs args id r r1 : id_reader cu fuel e idt args r = (Ok id, r1) ->
  (forall k f, chosen vs id k -> vc_read (code k) = Some f ->
     enum_read cu code fuel e idt vs args r = f (ctx_args (en_c e) args) r1) /\
  (forall k, chosen vs id k -> vc_read (code k) = None ->
     enum_read cu code fuel e idt vs args r = read_ty cu fuel (TEnum e idt vs) None args r) /\
  ((forall k, ~ chosen vs id k) -> enum_read cu code fuel e idt vs args r = (Err Parse, r1)).
Proof.
  intros H. rewrite (enum_read_id _ _ _ _ _ _ _ H), coded_read_selected.
  assert (HN : forall k, chosen vs id k -> exists v fs, nth_variant vs k = Some (v, fs)).
  { intros k S. destruct S as [[(v & fs & HN & _) _]|(_ & (v & fs & HN & _) & _)]; eauto. }
  destruct (dispatch cu fuel e idt vs args id r r1 H) as [D1 D2]. split; [|split].
  - intros k f C Hf. destruct (HN k C) as (v & fs & N1). apply selected_chosen in C. rewrite C. unfold coded_nth, coded_body. now rewrite N1, Hf.
  - intros k C Hf. destruct (HN k C) as (v & fs & N1). rewrite (D1 k v fs C N1). apply selected_chosen in C. rewrite C. unfold coded_nth, coded_body.
    rewrite N1, Hf. reflexivity.
  - intros C. apply selected_none in C. rewrite C. reflexivity.
Qed.
Theorem coded_reads_fail e idt vs args x r r1 : id_reader cu fuel e idt args r = (Err x, r1) -> enum_read cu code fuel e idt vs args r = (Err x, r1).
Proof.
  intros H. unfold enum_read. unfold id_reader in H. unfold bind in *. destruct (read_magic _ r) as [[[]|e0| |] r0]; try discriminate; [|congruence].
  destruct (en_id e) as [f|]; [discriminate|]. destruct (read_ty _ _ _ _ _ r0) as [[]]; try discriminate. congruence.
Qed.

Lemma coded_write_nth e ctx wid vs : forall k n l w v fs, nth_variant vs k = Some (v, fs) ->
  coded_write cu code e ctx wid vs k n l w =
  match vc_write (code (n + k)) with Some f => f ctx l w | None => variant_write cu e ctx wid vs k l w end.
Proof.
  induction vs as [|v0 fs0 tl IH]; intros [|k] n l w v fs H; cbn [nth_variant] in H; try discriminate.
  - rewrite Nat.add_0_r. cbn [coded_write]. rewrite write_variant_0. destruct (vc_write (code n)); reflexivity.
  - cbn [coded_write]. rewrite (IH k (S n) l w v fs H). replace (S n + k) with (n + S k) by lia. reflexivity.
Qed.
Theorem coded_writes e idt vs args k l w v fs : nth_variant vs k = Some (v, fs) ->
  (forall f, vc_write (code k) = Some f ->
     enum_write cu code e idt vs args (VVar k l) w =
     (let* _ := write_magic (c_magic (en_c e)) in f (ctx_args (en_c e) args) l) w) /\
  (vc_write (code k) = None -> enum_write cu code e idt vs args (VVar k l) w = write_ty cu (TEnum e idt vs) args (VVar k l) w).
Proof.
  intros N1. unfold enum_write. split.
  - intros f Hf. apply bind_ext. intros [] w1 _. rewrite (coded_write_nth _ _ _ _ _ _ _ _ _ _ N1). cbn [Nat.add]. now rewrite Hf.
  - intros Hf. rewrite write_enum. apply bind_ext. intros [] w1 _. rewrite (coded_write_nth _ _ _ _ _ _ _ _ _ _ N1). cbn [Nat.add]. now rewrite Hf.
Qed.
Lemma coded_id_nth vs : forall k n v fs, nth_variant vs k = Some (v, fs) ->
  coded_id code vs k n = match vc_read (code (n + k)) with Some _ => Err IdVariantNotFound | None => deku_id vs k end.
Proof.
  induction vs as [|v0 fs0 tl IH]; intros [|k] n v fs H; cbn [nth_variant] in H; try discriminate.
  - rewrite Nat.add_0_r. cbn [coded_id deku_id]. destruct (vc_read (code n)); reflexivity.
  - cbn [coded_id deku_id]. rewrite (IH k (S n) v fs H). replace (S n + k) with (n + S k) by lia. reflexivity.
Qed.
Theorem coded_deku_id vs k v fs : nth_variant vs k = Some (v, fs) ->
  (vc_read (code k) = None -> enum_deku_id code vs k = deku_id vs k) /\ (vc_read (code k) <> None -> enum_deku_id code vs k = Err IdVariantNotFound).
Proof.
  intros H. unfold enum_deku_id. rewrite (coded_id_nth _ _ _ _ _ H). cbn [Nat.add]. split; intros E.
  - now rewrite E.
  - destruct (vc_read (code k)); [reflexivity|contradiction].
Qed.
End Read.

(** No code at all: the enum of [Derive.v]. *)
Theorem uncoded_impls cu code fuel e idt vs : (forall k, uncoded code k) ->
  (forall args r, enum_read cu code fuel e idt vs args r = read_ty cu fuel (TEnum e idt vs) None args r) /\
  (forall args k l w, enum_write cu code e idt vs args (VVar k l) w = write_ty cu (TEnum e idt vs) args (VVar k l) w).
Proof.
  intros U. split.
  - intros args r. unfold enum_read. rewrite read_enum. cbv zeta. apply bind_ext. intros [] r1 _. apply bind_ext. intros id r2 _.
    rewrite coded_read_selected, variants_read_selected. destruct (selected vs id) as [j|]; [|reflexivity].
    unfold coded_nth, nth_body, coded_body. destruct (nth_variant vs j) as [[v fs]|]; [|reflexivity]. now rewrite (proj1 (U j)).
  - intros args k l w. unfold enum_write. rewrite write_enum. apply bind_ext. intros [] w1 _.
    assert (G : forall n, coded_write cu code e (ctx_args (en_c e) args) (fun args x => write_ty cu idt args x) vs k n l w1 =
      variant_write cu e (ctx_args (en_c e) args) (fun args x => write_ty cu idt args x) vs k l w1); [|apply G].
    clear w. revert k. induction vs as [|v fs tl IH]; intros [|k] n; [reflexivity..| |].
    + cbn [coded_write]. rewrite (proj2 (U n)), write_variant_0. reflexivity.
    + cbn [coded_write]. rewrite IH. reflexivity.
Qed.

Lemma selects_chosen vs id k : selects vs id k = true -> selected vs id = Some k.
Proof. unfold selects. destruct (selected vs id) as [j|]; [|discriminate]. intros E. apply Nat.eqb_eq in E. now subst. Qed.
Lemma selected_nth vs id k : selected vs id = Some k -> exists v fs, nth_variant vs k = Some (v, fs).
Proof. intros S. apply selected_chosen in S. destruct S as [[(v & fs & HN & _) _]|(_ & (v & fs & HN & _) & _)]; eauto. Qed.

Lemma encode_variant_nth src o ce e ctx eid sel vs : forall k l pos x, encode_variant src o ce e ctx eid sel vs k l pos = Some x ->
  exists v fs, nth_variant vs k = Some (v, fs).
Proof. induction vs as [|v fs tl IH]; intros [|k] l pos x E; try discriminate; [now exists v, fs|exact (IH _ _ _ _ E)]. Qed.

(** The enum follows its format. *)
Theorem coded_sound src o cu ce code form fuel e idt vs : customs_upto src o fuel cu ce -> codes_lawful src o code form ->
  forall args pos v enc, enum_format src o ce code form e idt vs args pos v = Some enc ->
  emits_at o pos (enum_write cu code e idt vs args v) enc /\
  (length enc <= fuel -> reads_at src o pos (enum_read cu code fuel e idt vs args) enc v).
Proof.
  intros Hcu HL args pos v enc E. unfold enum_format in E. destruct v as [| | | | | | |k l| | | |]; try discriminate.
  destruct (code k) as [[f|] [g|]] eqn:Ek; try discriminate.
  - cbv zeta in E. set (ctx := ctx_args (en_c e) args) in *.
    destruct (encode_magic o pos (c_magic (en_c e))) as [m|] eqn:Em; [|discriminate].
    destruct (form k ctx (pos + length m) l) as [[[id x] b]|] eqn:Ef; [|discriminate].
    match type of E with match ?ym with _ => _ end = _ => destruct ym as [y|] eqn:Ey; [|discriminate] end.
    apply guard_inv in E. destruct E as [G E]. injection E as <-. apply andb_true_iff in G. destruct G as [G1 G2].
    apply (list_eqb_ok Bool.eqb) in G1; [|intros a c H; now apply Bool.eqb_prop]. subst y.
    apply selects_chosen in G2. destruct (selected_nth _ _ _ G2) as (v & fs & N1).
    destruct (HL _ _ _ _ _ _ _ Ef) as (f' & g' & Ek' & W1 & R1). rewrite Ek in Ek'. injection Ek' as <- <-. split.
    + eapply emits_at_ext; [intros w; symmetry; apply (proj1 (coded_writes cu code e idt vs args k l w v fs N1) g); now rewrite Ek|].
      apply emits_at_bind; [now apply write_magic_bytes|exact W1].
    + intros Hf. rewrite !app_length in Hf. unfold enum_read. apply reads_at_bind with (a := tt); [now apply read_magic_bytes|].
      apply reads_at_bind with (a := id).
      { destruct (en_id e) as [h|].
        - apply guard_inv in Ey. destruct Ey as [Ev Ey]. injection Ey as <-. apply value_eqb_ok in Ev. subst id. apply reads_at_ret.
        - apply (encode_sound src o cu ce fuel Hcu idt None _ _ _ _ Ey). lia. }
      eapply reads_at_ext; [intros r; rewrite coded_read_selected, G2; unfold coded_nth, coded_body; rewrite N1, Ek; reflexivity|].
      cbn [vc_read]. exact R1.
  - rewrite encode_enum in E. cbv zeta in E.
    destruct (encode_magic o pos (c_magic (en_c e))) as [m|] eqn:Em; [|discriminate].
    match type of E with match ?ym with _ => _ end = _ => destruct ym as [x|] eqn:Ex; [|discriminate] end. injection E as <-.
    destruct (types_sound src o cu ce fuel Hcu) as (TS & _ & VS).
    destruct (VS vs e _ (fun args p x => encode src o ce idt None args p x) (fun args x => write_ty cu idt args x) (fun args => read_ty cu fuel idt None args) _ _ _ _ _
      (fun args p x i H => TS idt None args p x i H) Ex) as [W1 R1].
    assert (N1 : exists v fs, nth_variant vs k = Some (v, fs)).
    { exact (encode_variant_nth _ _ _ _ _ _ _ _ _ _ _ _ Ex). }
    destruct N1 as (v & fs & N1). split.
    + unfold enum_write. apply emits_at_bind; [now apply write_magic_bytes|].
      eapply emits_at_ext; [intros w; symmetry; rewrite (coded_write_nth cu code e _ _ vs k 0 l w v fs N1); cbn [Nat.add]; rewrite Ek; reflexivity|]. exact W1.
    + intros Hf. rewrite app_length in Hf. destruct (R1 ltac:(lia)) as (id & i1 & i2 & v' & fs' & -> & Hs & N2 & RI & RF).
      unfold enum_read. apply reads_at_bind with (a := tt); [now apply read_magic_bytes|]. apply reads_at_bind with (a := id); [exact RI|].
      apply selects_chosen in Hs.
      eapply reads_at_ext; [intros r; rewrite coded_read_selected, Hs; unfold coded_nth, coded_body; rewrite N2, Ek; reflexivity|].
      cbn [vc_read]. unfold variant_body. apply reads_at_bind_nil with (a := l); [exact RF|apply reads_at_ret].
Qed.

Lemma with_enum_upto src o cu ce code form fuel e idt vs : customs_upto src o fuel cu ce -> codes_lawful src o code form ->
  customs_upto src o fuel (with_enum cu code fuel e idt vs) (with_format src o ce code form e idt vs).
Proof. intros Hcu HL [|i]; [exact (coded_sound src o cu ce code form fuel e idt vs Hcu HL)|exact (Hcu i)]. Qed.
Theorem coded_round_trip cu ce code form fuel o e idt vs t v enc : customs_lawful SeekSource o cu ce -> codes_lawful SeekSource o code form ->
  encode SeekSource o (with_format SeekSource o ce code form e idt vs) t None [] 0 v = Some enc -> length enc <= fuel ->
  let cu' := with_enum cu code fuel e idt vs in
  exists bytes pad, to_bytes cu' t v = Ok bytes /\ bitstring o bytes = enc ++ repeat false pad /\ pad < 8 /\
    forall tail, from_bytes cu' fuel t (bytes ++ tail) 0 = Ok ((skipn (length enc / 8) (bytes ++ tail), length enc mod 8), v).
Proof. intros Hcu HL. apply round_trip_upto. apply with_enum_upto; [now apply lawful_upto|exact HL]. Qed.

Lemma flip_lawful src o : codes_lawful src o flip_code (flip_form src o).
Proof.
  intros k ctx pos l id x b E. destruct k as [|k]; [|discriminate]. destruct l as [|[n| | | | | | | | | | |] [|? ?]]; try discriminate.
  cbn [flip_form] in E. destruct (n <? 256)%N eqn:Hn; [|discriminate]. apply N.ltb_lt in Hn.
  destruct (encode src o no_format (TPrim PU8) None [] pos (VNum 1)) as [x0|] eqn:Ex; [|discriminate].
  destruct (encode src o no_format (TPrim PU8) None [] (pos + length x0) (VNum (flip n))) as [b0|] eqn:Eb; [|discriminate].
  destruct (length b0 <=? 8); [|discriminate]. injection E as <- <- <-.
  assert (Hcu : forall fuel, customs_upto src o fuel no_customs no_format) by (intros fuel j args p v enc E'; discriminate).
  exists flip_read, flip_write. split; [reflexivity|].
  destruct (encode_sound src o no_customs no_format 0 (Hcu 0) _ _ _ _ _ _ Ex) as [W1 _].
  destruct (encode_sound src o no_customs no_format (length b0) (Hcu _) _ _ _ _ _ _ Eb) as [W2 R2]. split.
  - apply emits_at_bind; [exact W1|exact W2].
  - unfold flip_read. apply reads_at_bind_nil with (a := VNum (flip n)); [exact (R2 (Nat.le_refl _))|].
    replace (flip (flip n)) with n by (unfold flip; lia). apply reads_at_ret.
Qed.

Lemma same_inverse pos n : (n < 256)%N -> exists b, emits_at Msb0 pos (same_write [] [VNum n]) b /\ reads_at SeekSource Msb0 pos (same_read []) b (VVar 0 [VNum n]).
Proof.
  intros Hn.
  assert (Hcu : forall fuel, customs_upto SeekSource Msb0 fuel no_customs no_format) by (intros fuel j args p v enc E'; discriminate).
  assert (E : exists b, encode SeekSource Msb0 no_format (TPrim PU8) None [] pos (VNum n) = Some b).
  { cbn [encode]. unfold encode_num. cbn [pctx_of]. unfold encode_prim. cbn [bits_of_ctx bytes_of_ctx prim_bytes].
    change (2 ^ N.of_nat (8 * 1))%N with 256%N. apply N.ltb_lt in Hn. rewrite Hn. eexists. reflexivity. }
  destruct E as (b & E). exists b. destruct (encode_sound SeekSource Msb0 no_customs no_format 0 (Hcu 0) _ _ _ _ _ _ E) as [W1 _].
  split; [exact W1|]. unfold same_read. apply reads_at_bind_nil with (a := VNum n); [|apply reads_at_ret].
  destruct (encode_sound SeekSource Msb0 no_customs no_format (length b) (Hcu _) _ _ _ _ _ _ E) as [_ R2]. exact (R2 (Nat.le_refl _)).
Qed.
