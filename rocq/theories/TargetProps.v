(** Machines of different byte orders: the API. *)
From Coq Require Import Lia ZifyBool ZifyNat ZifyN.
From Verif Require Import Base MonadFacts Spec Stream Reader ReaderFacts Writer Prims Containers SourceSim Derive DeriveSpec Decl PlainSpec PlainFacts PlainProps PlainPad Target TargetSpec TargetRead TargetPlain TargetWrite.
Ltac Zify.zify_post_hook ::= Z.div_mod_to_equations.

Ltac asplit := repeat match goal with |- (_ && _)%bool = true => apply andb_true_intro; split end.

(** ** Writing *)

Lemma with_bytes m1 m2 : like m1 m2 -> to_bytes_with m1 = to_bytes_with m2.
Proof. intros H. unfold to_bytes_with, bind. now rewrite H. Qed.
Lemma with_slice m1 m2 buf : like m1 m2 -> to_slice_with m1 buf = to_slice_with m2 buf.
Proof. intros H. unfold to_slice_with, bind. now rewrite H. Qed.
Lemma with_bits m1 m2 : like m1 m2 -> to_bits_with m1 = to_bits_with m2.
Proof. intros H. unfold to_bits_with. now rewrite H. Qed.
Lemma same_output cu e1 t1 e2 t2 v : like (t_write_ty e1 cu t1 [] v) (t_write_ty e2 cu t2 [] v) ->
  t_to_bytes e1 cu t1 v = t_to_bytes e2 cu t2 v /\ t_to_bits e1 cu t1 v = t_to_bits e2 cu t2 v /\ forall buf, t_to_slice e1 cu t1 v buf = t_to_slice e2 cu t2 v buf.
Proof. intros H. split; [now apply with_bytes|]. split; [now apply with_bits|]. intros buf. now apply with_slice. Qed.
Theorem little_output cu t v : t_to_bytes Little cu t v = to_bytes cu t v /\ t_to_bits Little cu t v = to_bits cu t v /\ forall buf, t_to_slice Little cu t v buf = to_slice cu t v buf.
Proof.
  assert (H : like (t_write_ty Little cu t [] v) (write_ty cu t [] v)) by (intros w; apply little_write).
  split; [now apply with_bytes|]. split; [now apply with_bits|]. intros buf. now apply with_slice.
Qed.
Theorem portable_output cu e1 e2 t v : portable t ->
  t_to_bytes e1 cu t v = t_to_bytes e2 cu t v /\ t_to_bits e1 cu t v = t_to_bits e2 cu t v /\ forall buf, t_to_slice e1 cu t v buf = t_to_slice e2 cu t v buf.
Proof. intros H. apply same_output. intros w. now rewrite !portable_write. Qed.

(** ** Reading *)

Lemma start_calm s : quiet s -> calm (reader_new s).
Proof. intros H. split; [exact I|exact H]. Qed.
Theorem little_input cu fuel t : (forall s bit, t_from_reader Little cu fuel t s bit = from_reader cu fuel t s bit) /\
  (forall input bit, t_from_bytes Little cu fuel t input bit = from_bytes cu fuel t input bit) /\ (forall input, t_try_from Little cu fuel t input = try_from cu fuel t input).
Proof.
  assert (H : forall s bit, t_from_reader Little cu fuel t s bit = from_reader cu fuel t s bit).
  { intros s bit. unfold t_from_reader, from_reader, bind. destruct ((if bit =? 0 then ret tt else skip_bits bit Msb0) (reader_new s)) as [[[]|e| |] r]; try reflexivity. now rewrite little_read. }
  split; [exact H|]. split; intros; unfold t_from_bytes, t_try_from, from_bytes, try_from; now rewrite H.
Qed.
Lemma portable_little cu e fuel t s bit : portable t -> api_readers cu t -> quiet s -> t_from_reader e cu fuel t s bit = from_reader cu fuel t s bit.
Proof.
  intros Hp Ha Q. unfold t_from_reader, from_reader.
  assert (HA : alike calm (let* _ := if bit =? 0 then ret tt else skip_bits bit Msb0 in let* v := t_read_ty e cu fuel t None [] in fun r => (Ok (r_bits r, v), r))
                          (let* _ := if bit =? 0 then ret tt else skip_bits bit Msb0 in let* v := read_ty cu fuel t None [] in fun r => (Ok (r_bits r, v), r))).
  { apply al_bind; [apply al_refl; destruct (bit =? 0); [exact (keeps_lift calm (Ok tt))|apply calm_skip]|intros _]. apply al_bind; [now apply portable_read|].
    intros v. apply al_refl. intros r a r' C X. apply pair_inj in X. now destruct X as [_ <-]. }
  now rewrite (proj1 (HA _ (start_calm s Q))).
Qed.
Theorem portable_input cu e1 e2 fuel t : portable t -> api_readers cu t ->
  (forall s bit, quiet s -> t_from_reader e1 cu fuel t s bit = t_from_reader e2 cu fuel t s bit) /\
  (forall input bit, t_from_bytes e1 cu fuel t input bit = t_from_bytes e2 cu fuel t input bit) /\ (forall input, t_try_from e1 cu fuel t input = t_try_from e2 cu fuel t input).
Proof.
  intros Hp Ha. assert (H : forall s bit, quiet s -> t_from_reader e1 cu fuel t s bit = t_from_reader e2 cu fuel t s bit) by (intros; now rewrite !portable_little).
  split; [exact H|]. split; intros; unfold t_from_bytes, t_try_from; now rewrite H.
Qed.

(** ** Plain declarations *)

Lemma fill_gives e0 e b : gives_order (pargs (fill e0 e) b).
Proof. destruct e as [e|]; [exists e|exists e0]; destruct b; now left. Qed.
Lemma spelled_numbers e0 :
  (forall t whole e b, plain_in whole t e b = true ->
     (only_numbers t = true -> numbers (fun p args => single_byte p args \/ gives_order args) (ctype (spelled e0 t)) (pargs (fill e0 e) b)) /\
     (apart t = true -> forall args, numbers (fun p args => single_byte p args \/ gives_order args) (ctype (spelled e0 t)) args)) /\
  (forall fs whole done, fields_plain whole done fs = true -> fields_apart fs = true -> forall m,
     field_numbers (fun p args => single_byte p args \/ gives_order args) (cattrs_of (struct_decl m)) (cfields (spelled_fields e0 fs))) /\
  (forall vs whole, variants_plain whole vs = true -> variants_apart vs = true -> forall m p e b,
     variant_numbers (fun p args => single_byte p args \/ gives_order args) (eattrs_of (enum_decl m p e b)) (cvariants (spelled_variants e0 vs))).
Proof.
  apply plain_ind.
  - intros p whole e b _. split; [|discriminate]. intros _. right. apply fill_gives.
  - intros whole e b _. split; [|discriminate]. intros _. exact I.
  - intros n t IH whole e b H. exact (IH whole e b H).
  - intros m fs IH whole e b H. cbn [plain_in] in H. bsplit. split; [discriminate|]. intros Ha args. now apply (IH whole []).
  - intros m p e b vs IH whole e' b' H. cbn [plain_in] in H. bsplit. split; [discriminate|]. intros Ha args. split; [|now apply (IH whole)].
    intros _ ctx. rewrite id_pargs. right. apply fill_gives.
  - intros p whole e b _. split; [|discriminate]. intros _. right. apply fill_gives.
  - intros s IHs t IHt whole e b H. cbn [plain_in] in H. bsplit. destruct (IHs whole e b) as [S1 S2]; [assumption|]. destruct (IHt whole e b) as [T1 T2]; [assumption|].
    split; cbn [only_numbers apart]; intros Ha; [|intros args]; bsplit; split; auto.
  - intros whole e b _. split; [discriminate|]. intros _ args. exact I.
  - intros whole done _ _ m. exact I.
  - intros a t IH tl IHtl whole done H Ha m. cbn [fields_plain fields_apart] in H, Ha. bsplit. split; [|now apply (IHtl whole (done ++ [slot_of (p_kind a) t]))].
    destruct (IH whole (p_endian a) (p_bits a)) as [H1' H2']; [assumption|]. intros ctx l off. rewrite field_pargs.
    assert (X : numbers (fun p args => single_byte p args \/ gives_order args) (ctype (spelled e0 t)) (pargs (p_endian (fill_field e0 t a)) (p_bits (fill_field e0 t a)))).
    { cbn [fill_field p_endian p_bits]. destruct (only_numbers t) eqn:Eo; [now apply H1'|]. apply H2'. cbn [orb] in *. assumption. }
    change (p_kind (fill_field e0 t a)) with (p_kind a). destruct (p_kind a); split; exact X.
  - intros whole _ _ m p e b. exact I.
  - intros n fs IHf tl IHtl whole H Ha m p e b. cbn [variants_plain variants_apart] in H, Ha. bsplit. split; [exact (IHf whole [] ltac:(assumption) ltac:(assumption) m)|].
    split; [exact I|]. now apply (IHtl whole).
Qed.
Lemma num_spelled whole e0 p e b : num_plain whole p e b = true -> num_plain whole p (fill e0 e) b = true.
Proof.
  unfold num_plain. intros H. bsplit. apply andb_true_iff. split; [assumption|]. destruct b as [n|]; [|reflexivity]. bsplit.
  asplit; try assumption. destruct e; cbn [fill none negb]; rewrite ?Bool.orb_true_r; reflexivity.
Qed.
Lemma spelled_slot e0 k t : slot_of k (spelled e0 t) = slot_of k t.
Proof. now destruct k, t. Qed.
Lemma spelled_kind e0 whole done a t : kind_plain whole done (fill_field e0 t a) (spelled e0 t) = kind_plain whole done a t.
Proof. unfold kind_plain. cbn [fill_field p_kind p_bits]. now destruct t. Qed.
Lemma spelled_plain_in e0 :
  (forall t whole e b, plain_in whole t e b = true ->
     (only_numbers t = true -> plain_in whole (spelled e0 t) (fill e0 e) b = true) /\ (apart t = true -> plain_in whole (spelled e0 t) e b = true)) /\
  (forall fs whole done, fields_plain whole done fs = true -> fields_apart fs = true -> fields_plain whole done (spelled_fields e0 fs) = true) /\
  (forall vs whole, variants_plain whole vs = true -> variants_apart vs = true -> variants_plain whole (spelled_variants e0 vs) = true).
Proof.
  apply plain_ind.
  - intros p whole e b H. split; [|discriminate]. intros _. now apply num_spelled.
  - intros whole e b H. split; [|discriminate]. intros _. now apply num_spelled.
  - intros n t IH whole e b H. exact (IH whole e b H).
  - intros m fs IH whole e b H. split; [discriminate|]. intros Ha. cbn [plain_in spelled] in *. bsplit. asplit; try assumption. now apply IH.
  - intros m p e b vs IH whole e' b' H. split; [discriminate|]. intros Ha. cbn [plain_in spelled] in *. bsplit. rewrite spelled_ids.
    asplit; try assumption; [now apply num_spelled|now apply IH].
  - intros p whole e b H. split; [|discriminate]. intros _. now apply num_spelled.
  - intros s IHs t IHt whole e b H. cbn [plain_in] in H. bsplit. destruct (IHs whole e b) as [S1 S2]; [assumption|]. destruct (IHt whole e b) as [T1 T2]; [assumption|].
    split; cbn [only_numbers apart plain_in spelled]; intros Ha; bsplit; apply andb_true_iff; split; auto.
  - intros whole e b H. split; [discriminate|]. intros _. exact H.
  - intros whole done _ _. reflexivity.
  - intros a t IH tl IHtl whole done H Ha. cbn [fields_plain fields_apart spelled_fields] in *. bsplit. destruct (IH whole (p_endian a) (p_bits a)) as [H1' H2']; [assumption|].
    rewrite spelled_kind, spelled_slot. cbn [fill_field p_endian p_bits p_before p_after p_kind].
    asplit; try assumption; [|now apply IHtl]. destruct (only_numbers t) eqn:Eo; [now apply H1'|]. apply H2'. cbn [orb] in *. assumption.
  - intros whole _ _. reflexivity.
  - intros n fs IHf tl IHtl whole H Ha. cbn [variants_plain variants_apart spelled_variants] in *. bsplit. apply andb_true_iff. split; [now apply IHf|now apply IHtl].
Qed.
Lemma forallb_ext {A} (f g : A -> bool) l : (forall x, f x = g x) -> forallb f l = forallb g l.
Proof. intros H. induction l as [|x l IH]; cbn [forallb]; [reflexivity|]. now rewrite H, IH. Qed.
Lemma spelled_fits e0 :
  (forall t b v, value_fits b (spelled e0 t) v = value_fits b t v) /\
  (forall fs acc l, fields_fit (spelled_fields e0 fs) acc l = fields_fit fs acc l) /\
  (forall vs k l, variant_fits (spelled_variants e0 vs) k l = variant_fits vs k l).
Proof.
  apply plain_ind; try reflexivity.
  - intros n t IH b v. cbn [spelled value_fits]. destruct v; try reflexivity. f_equal. apply forallb_ext. intros x. apply IH.
  - intros m fs IH b v. cbn [spelled value_fits]. destruct v; try reflexivity. apply IH.
  - intros m p e b vs IH b' v. cbn [spelled value_fits]. destruct v; try reflexivity. apply IH.
  - intros s IHs t IHt b v. cbn [spelled value_fits]. destruct v; try reflexivity. now rewrite IHs, IHt.
  - intros a t IH tl IHtl acc l. cbn [spelled_fields fields_fit]. destruct l as [|v l]; [reflexivity|]. rewrite IHtl. cbn [fill_field p_kind p_bits]. f_equal.
    destruct (p_kind a); [apply IH|destruct v; try reflexivity; f_equal; apply forallb_ext; intros x; apply IH|destruct v; try reflexivity; now rewrite IH|
      destruct v; try reflexivity; f_equal; apply forallb_ext; intros x; apply IH].
  - intros n fs IHf tl IHtl k l. cbn [spelled_variants variant_fits]. destruct k; [apply IHf|apply IHtl].
Qed.
Lemma spelled_unpadded e0 :
  (forall t, unpadded (spelled e0 t) = unpadded t) /\ (forall fs, fields_unpadded (spelled_fields e0 fs) = fields_unpadded fs) /\
  (forall vs, variants_unpadded (spelled_variants e0 vs) = variants_unpadded vs).
Proof.
  apply plain_ind; try reflexivity.
  - intros n t IH. exact IH.
  - intros m fs IH. exact IH.
  - intros m p e b vs IH. exact IH.
  - intros s IHs t IHt. cbn [spelled unpadded]. now rewrite IHs, IHt.
  - intros a t IH tl IHtl. cbn [spelled_fields fields_unpadded fill_field p_before p_after]. now rewrite IH, IHtl.
  - intros n fs IHf tl IHtl. cbn [spelled_variants variants_unpadded]. now rewrite IHf, IHtl.
Qed.

Theorem spelled_kept e0 t : plain_type t = true -> apart t = true ->
  plain_type (spelled e0 t) = true /\ portable (ctype (spelled e0 t)) /\ unpadded (spelled e0 t) = unpadded t /\ forall v, value_fits None (spelled e0 t) v = value_fits None t v.
Proof.
  intros Hp Ha. split; [|split; [|split; [apply spelled_unpadded|intros v; apply spelled_fits]]].
  - unfold plain_type in *. apply orb_prop in Hp. destruct Hp as [H|H]; apply (proj1 (spelled_plain_in e0) t _ None None) in H; destruct H as [_ H]; rewrite (H Ha); [reflexivity|apply Bool.orb_true_r].
  - unfold plain_type in Hp. apply orb_prop in Hp. destruct Hp as [H|H]; apply (proj1 (spelled_numbers e0) t _ None None) in H; now apply H.
Qed.
Lemma plain_api cu :
  (forall t, api_readers cu (ctype t)) /\
  (forall fs c, every_field (fun _ => True) (fun _ => True) (fun _ a _ => forall f, a_reader a = Some f -> forall ctx fs off, reader_program True (f ctx fs off))
     (fun k => forall args, reader_program True (cu_read (cu k) args)) c (cfields fs)) /\
  (forall vs c, every_variant (fun _ => True) (fun _ => True) (fun _ a _ => forall f, a_reader a = Some f -> forall ctx fs off, reader_program True (f ctx fs off))
     (fun k => forall args, reader_program True (cu_read (cu k) args)) c (cvariants vs)).
Proof.
  apply plain_ind; try (intros; exact I).
  - intros n t H. exact H.
  - intros m fs H. split; [exact I|apply H].
  - intros m p e b vs H. split; [exact I|]. split; [exact I|apply H].
  - intros s Hs t Ht. split; assumption.
  - intros a t H tl Htl c. split; [intros f X; discriminate X|].
    assert (HH : forall k, every (fun _ => True) (fun _ => True) (fun _ a _ => forall f, a_reader a = Some f -> forall ctx fs off, reader_program True (f ctx fs off))
       (fun k => forall args, reader_program True (cu_read (cu k) args)) (holding k (ctype t))) by (intros [| | |]; exact H).
    split; [apply HH|]. split; [apply HH|apply Htl].
  - intros n fs Hf tl Htl c. split; [apply Hf|apply Htl].
Qed.
Theorem spelled_output cu e0 e1 t v : plain_type t = true -> apart t = true ->
  t_to_bytes e0 cu (ctype t) v = t_to_bytes e1 cu (ctype (spelled e0 t)) v /\ t_to_bits e0 cu (ctype t) v = t_to_bits e1 cu (ctype (spelled e0 t)) v /\
  forall buf, t_to_slice e0 cu (ctype t) v buf = t_to_slice e1 cu (ctype (spelled e0 t)) v buf.
Proof.
  intros Hp Ha. apply same_output. intros w. destruct (spelled_kept e0 t Hp Ha) as (_ & HP & _). rewrite (portable_write e1) by exact HP.
  exact (proj2 (proj1 (spelled_write e0 cu) t None None) Ha v w).
Qed.
Lemma spelled_little cu e0 fuel t s bit : plain_type t = true -> apart t = true -> quiet s ->
  fst (t_from_reader e0 cu fuel (ctype t) s bit) = fst (from_reader cu fuel (ctype (spelled e0 t)) s bit).
Proof.
  intros Hp Ha Q. unfold t_from_reader, from_reader.
  assert (HW : weak (let* _ := if bit =? 0 then ret tt else skip_bits bit Msb0 in let* v := t_read_ty e0 cu fuel (ctype t) None [] in fun r => (Ok (r_bits r, v), r))
                    (let* _ := if bit =? 0 then ret tt else skip_bits bit Msb0 in let* v := read_ty cu fuel (ctype (spelled e0 t)) None [] in fun r => (Ok (r_bits r, v), r))).
  { apply w_bind; [destruct (bit =? 0); [apply w_ret|apply w_skip]|intros _]. apply w_bind.
    - unfold plain_type in Hp. apply orb_prop in Hp. destruct Hp as [H|H]; apply (proj1 (spelled_read e0 cu fuel) t _ None None) in H; destruct H as [_ H]; exact (H Ha None).
    - intros v r1 r2 N. pose proof N as [(_ & _ & B) _]. split; cbn [fst snd]; [|exact N]. f_equal. f_equal. lia. }
  assert (HL : low (reader_new s)) by (split; [exact (start_calm s Q)|intros [b X]; discriminate X]).
  destruct (HW _ _ (near_refl _ HL)) as [E _].
  repeat match goal with |- context [let '(x, r) := ?m in _] => destruct m as [? ?] end. exact E.
Qed.
Theorem spelled_input cu e0 e1 fuel t : plain_type t = true -> apart t = true ->
  (forall s bit, quiet s -> fst (t_from_reader e0 cu fuel (ctype t) s bit) = fst (t_from_reader e1 cu fuel (ctype (spelled e0 t)) s bit)) /\
  (forall input bit, t_from_bytes e0 cu fuel (ctype t) input bit = t_from_bytes e1 cu fuel (ctype (spelled e0 t)) input bit) /\
  (forall input, t_try_from e0 cu fuel (ctype t) input = t_try_from e1 cu fuel (ctype (spelled e0 t)) input).
Proof.
  intros Hp Ha. destruct (spelled_kept e0 t Hp Ha) as (_ & HP & _).
  assert (H : forall s bit, quiet s -> fst (t_from_reader e0 cu fuel (ctype t) s bit) = fst (t_from_reader e1 cu fuel (ctype (spelled e0 t)) s bit)).
  { intros s bit Q. rewrite (portable_little cu e1) by (assumption || apply plain_api). now apply spelled_little. }
  split; [exact H|].
  assert (HQ : forall input, quiet (cursor input)) by (intros input k; reflexivity).
  split.
  - intros input bit. unfold t_from_bytes. specialize (H (cursor input) bit (HQ input)).
    destruct (t_from_reader e0 cu fuel (ctype t) (cursor input) bit) as [x s1], (t_from_reader e1 cu fuel (ctype (spelled e0 t)) (cursor input) bit) as [y s2]. cbn [fst] in H. now subst y.
  - intros input. unfold t_try_from. specialize (H (cursor input) 0 (HQ input)).
    destruct (t_from_reader e0 cu fuel (ctype t) (cursor input) 0) as [x s1], (t_from_reader e1 cu fuel (ctype (spelled e0 t)) (cursor input) 0) as [y s2]. cbn [fst] in H. now subst y.
Qed.

(** *** The format on any machine *)
Theorem machine_format cu e0 t v : plain_type t = true -> apart t = true -> value_fits None t v = true ->
  t_to_bits e0 cu (ctype t) v = Ok (wire None None (spelled e0 t) v) /\
  exists bytes pad, t_to_bytes e0 cu (ctype t) v = Ok bytes /\ bits_of_bytes bytes = wire None None (spelled e0 t) v ++ repeat false pad /\ pad < 8.
Proof.
  intros Hp Ha Hv. destruct (spelled_kept e0 t Hp Ha) as (Hp' & _ & _ & Hf). destruct (spelled_output cu e0 Little t v Hp Ha) as (-> & -> & _).
  destruct (little_output cu (ctype (spelled e0 t)) v) as (-> & -> & _). apply format; [exact Hp'|now rewrite Hf].
Qed.
Theorem machine_try cu e0 fuel t input v : plain_type t = true -> apart t = true -> unpadded t = true -> 8 * length input + 8 < fuel ->
  (t_try_from e0 cu fuel (ctype t) input = Ok v <-> value_fits None t v = true /\ bits_of_bytes input = wire None None (spelled e0 t) v).
Proof.
  intros Hp Ha Hu Hl. destruct (spelled_kept e0 t Hp Ha) as (Hp' & _ & Hu' & Hf). destruct (spelled_input cu e0 Little fuel t Hp Ha) as (_ & _ & ->).
  destruct (little_input cu fuel (ctype (spelled e0 t))) as (_ & _ & ->). rewrite <- (Hf v). apply try_exactly; congruence || auto.
Qed.
