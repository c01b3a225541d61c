(** Proofs about InheritSpec.v. *)
From Coq Require Import Lia ZifyBool ZifyNat ZifyN.
From Verif Require Import Base Spec Stream Reader Session Writer WSession Prims BitsFacts MonadFacts CodecSpec CodecFacts Containers Derive DeriveSpec DeriveFacts DeriveSound SafeSpec NeedSpec Decl PlainSpec PlainFacts PlainProps PlainPad PlainOut InheritSpec.

Scheme uty_mind := Induction for uty Sort Prop
  with ufields_mind := Induction for ufields Sort Prop
  with uvariants_mind := Induction for uvariants Sort Prop.
Combined Scheme uty_ind3 from uty_mind, ufields_mind, uvariants_mind.

(** ** The declarations are accepted *)

Lemma dmembers_fields fs : fields_of (umembers fs) = utypes fs.
Proof. induction fs as [|a t tl IH]; [reflexivity|]. cbn [umembers fields_of utypes m_attrs m_default m_ty m_wire]. now rewrite IH. Qed.
Lemma dmembers_ok fs : members_valid true (umembers fs) = true.
Proof.
  induction fs as [|a t tl IH]; [reflexivity|]. unfold members_valid in *. cbn [umembers forallb m_attrs]. rewrite IH, Bool.andb_true_r.
  destruct a as [[e [b|] [] m p q] pb pa]; reflexivity.
Qed.
Lemma prim_eqb_refl p : prim_eqb p p = true.
Proof. destruct p; cbn; auto using Nat.eqb_refl. Qed.
Definition explicit (vs : uvariants) : bool := existsb (fun p => v_explicit (fst p)) (uvmembers vs).
Lemma selected o m p e b hd how id : (how = ByDiscriminant -> hd = true) -> selector_of (uenum_decl o m p e b) hd (uvariant_decl how id) = Some (selector_for how id).
Proof.
  destruct how; [reflexivity|]. intros H. unfold selector_of, uvariant_decl, repr_valid. cbn [v_id v_pat v_disc uenum_decl k_repr k_id_type repr_of].
  now rewrite H, prim_eqb_refl.
Qed.
Lemma explicit_cons how id fs vs hd : (explicit (UVCons how id fs vs) = true -> hd = true) -> (how = ByDiscriminant -> hd = true) /\ (explicit vs = true -> hd = true).
Proof. intros H. split; intros X; apply H; unfold explicit in *; cbn [uvmembers existsb fst]; [now subst how|]. rewrite X. apply Bool.orb_true_r. Qed.
Lemma dvariants_members o m p e b hd vs : (explicit vs = true -> hd = true) -> variants_of (uenum_decl o m p e b) hd (uvmembers vs) = Some (uvtypes vs).
Proof.
  induction vs as [|how id fs vs IH]; intros H; [reflexivity|]. apply explicit_cons in H. destruct H as [H1 H2]. cbn [uvmembers variants_of].
  rewrite (selected _ _ _ _ _ _ _ _ H1), (IH H2), dmembers_fields. now destruct how.
Qed.
Lemma dwrite_variants_members o m p e b hd vs : (explicit vs = true -> hd = true) -> write_variants_of (uenum_decl o m p e b) hd (uvmembers vs) = uvtypes vs.
Proof.
  induction vs as [|how id fs vs IH]; intros H; [reflexivity|]. apply explicit_cons in H. destruct H as [H1 H2]. cbn [uvmembers write_variants_of].
  rewrite (selected _ _ _ _ _ _ _ _ H1), (IH H2), dmembers_fields. now destruct how.
Qed.
Lemma dvmembers_all (P : vdecl * list member -> bool) vs hd : (explicit vs = true -> hd = true) ->
  (forall how id fs, (how = ByDiscriminant -> hd = true) -> P (uvariant_decl how id, umembers fs) = true) -> forallb P (uvmembers vs) = true.
Proof.
  intros E H. induction vs as [|how id fs vs IH]; [reflexivity|]. apply explicit_cons in E. destruct E as [E1 E2]. cbn [uvmembers forallb]. now rewrite H, IH.
Qed.
Lemma dno_defaults vs : list_sum (map (fun p => b2n (default_of (fst p))) (uvmembers vs)) = 0.
Proof. induction vs as [|how id fs tl IH]; [reflexivity|]. cbn [uvmembers map fst list_sum fold_right]. change (fold_right _ _ _) with (list_sum (map (fun p => b2n (default_of (fst p))) (uvmembers tl))). rewrite IH. now destruct how. Qed.
Theorem written_declared t d tr : written t = Some d -> derive tr true d = Some (utype t).
Proof.
  destruct t as [p| |n t|o m fs|o m p e b vs|p|s t|]; try discriminate; intros E; injection E as <-; unfold derive.
  - rewrite dmembers_ok, dmembers_fields. assert (C : container_valid true false (ustruct_decl o m) = true) by (destruct o as [| |[]]; reflexivity). rewrite C. reflexivity.
  - fold (explicit vs). rewrite (dvmembers_all _ vs (explicit vs) (fun H => H)) by (intros how id fs _; cbn [fst snd]; rewrite dmembers_ok; now destruct how).
    assert (C : container_valid true true (uenum_decl o m p e b) = true) by (destruct o as [| |[]], b; reflexivity). rewrite C. cbn [andb k_id_type uenum_decl].
    destruct tr.
    + rewrite (dvmembers_all _ vs (explicit vs) (fun H => H)) by (intros [] id fs _; reflexivity). rewrite dno_defaults. cbn [andb Nat.leb].
      now rewrite dvariants_members by auto.
    + rewrite (dvmembers_all _ vs (explicit vs) (fun H => H)).
      * now rewrite dwrite_variants_members by auto.
      * intros [] id fs H; [reflexivity|]. cbn [fst snd]. unfold writable_id, repr_valid. cbn [uenum_decl k_id uvariant_decl v_id v_pat some k_repr k_id_type repr_of].
        rewrite prim_eqb_refl, H by reflexivity. reflexivity.
Qed.

(** ** They mean what they are resolved to *)

Lemma vec_loop_cong {A} (m1 m2 : RM A) stop : (forall r, m1 r = m2 r) -> forall fuel s acc r, vec_loop fuel m1 stop s acc r = vec_loop fuel m2 stop s acc r.
Proof.
  intros E. induction fuel as [|f IH]; intros s acc r; [reflexivity|]. cbn [vec_loop]. rewrite (bind_cong _ _ _ _ (E r)). apply bind_ext. intros a r1 _.
  destruct (_ <? s); [reflexivity|]. destruct (stop _ _); [reflexivity|apply IH].
Qed.
Lemma end_loop_cong {A} (m1 m2 : RM A) : (forall r, m1 r = m2 r) -> forall fuel acc r, end_loop fuel m1 acc r = end_loop fuel m2 acc r.
Proof.
  intros E. induction fuel as [|f IH]; intros acc r; [reflexivity|]. cbn [end_loop]. destruct (r_end r) as [[] r1]; [reflexivity|].
  rewrite (bind_cong _ _ _ _ (E r1)). apply bind_ext. intros a r2 _. apply IH.
Qed.
Lemma vec_cong {A} fuel size (m1 m2 : RM A) lim : (forall r, m1 r = m2 r) -> forall r, vec_read fuel size m1 lim r = vec_read fuel size m2 lim r.
Proof.
  intros E r. assert (HP : forall f cap stop r, vec_with_predicate f size cap m1 stop r = vec_with_predicate f size cap m2 stop r).
  { intros f cap stop r0. unfold vec_with_predicate. destruct (size =? 0)%N; [reflexivity|]. match goal with |- (if ?b then _ else _) _ = _ => destruct b end; [reflexivity|].
    now apply vec_loop_cong. }
  destruct lim as [n|p|n|n|]; cbn [vec_read].
  - destruct (n =? 0)%N; [reflexivity|apply HP].
  - apply HP.
  - destruct (_ <? _)%N; [reflexivity|]. destruct (_ =? 0)%N; [reflexivity|apply HP].
  - destruct (n =? 0)%N; [reflexivity|apply HP].
  - unfold vec_to_end. destruct (size =? 0)%N; [reflexivity|]. now apply end_loop_cong.
Qed.
Lemma array_cong {A} (m1 m2 : RM A) : (forall r, m1 r = m2 r) -> forall n r, read_array n m1 r = read_array n m2 r.
Proof.
  intros E. induction n as [|n IH]; intros r; [reflexivity|]. cbn [read_array]. rewrite (bind_cong _ _ _ _ (E r)). apply bind_ext. intros a r1 _. now apply bind_cong.
Qed.
Lemma write_list_cong {A} (f g : A -> WM unit) : (forall x w, f x w = g x w) -> forall l w, write_list f l w = write_list g l w.
Proof.
  intros E. induction l as [|x l IH]; intros w; [reflexivity|]. cbn [write_list]. rewrite (bind_cong _ _ _ _ (E x w)). apply bind_ext. intros _ w1 _. apply IH.
Qed.
Lemma dpad n m ctx fs ctx' fs' : eval0 (pad_of (pad n) (pad m)) ctx fs = eval0 (pad_of (pad (n + 8 * m)) None) ctx' fs'.
Proof.
  destruct n as [|n], m as [|m]; cbn [pad pad_of eval0 option_map const]; unfold const; try reflexivity.
  - replace (0 + 8 * S m) with (S (8 * m + 7)) by lia. cbn [pad pad_of eval0 option_map]. unfold const. f_equal. lia.
  - replace (S n + 8 * 0) with (S n) by lia. reflexivity.
  - replace (S n + 8 * S m) with (S (n + 8 * S m)) by lia. cbn [pad pad_of eval0 option_map]. unfold const. f_equal. lia.
Qed.
(** The attributes of a resolved field. *)
Definition res_attrs (e : option endian) (d : uattrs) (t : uty) : pattrs :=
  let a := u_plain d in
  mkP (own_order t (or_else (p_endian a) e)) (p_bits a) (p_kind a) (p_magic a) (p_before a + 8 * u_bytes_before d) (p_after a + 8 * u_bytes_after d).
Definition inner (c : cattrs) (ctx : list value) (e : option endian) : Prop := c_order c = None /\ forall fs, eval0 (c_endian c) ctx fs = e.
Lemma endian_lit_eval e c ctx fs x : (forall fs, eval0 (c_endian c) ctx fs = x) ->
  eval0 (or_else (option_map endian_of (option_map lit e)) (c_endian c)) ctx fs = or_else e x.
Proof. intros H. destruct e as [[]|]; [reflexivity..|]. apply H. Qed.
Lemma dfield_args c ctx e d fs off : inner c ctx e -> field_args c (fattrs_of (ufield_decl d) VNone) ctx fs off = pargs (or_else (p_endian (u_plain d)) e) (p_bits (u_plain d)).
Proof.
  intros [Ho He]. unfold field_args, field_order, fattrs_of, ufield_decl. cbn [a_endian a_bits a_bytes a_order a_ctx d_endian d_bits d_bytes d_order d_ctx option_map or_else].
  rewrite (endian_lit_eval _ _ _ _ _ He), Ho. unfold pargs. now destruct (p_bits (u_plain d)).
Qed.
Lemma pfield_args c ctx a fs off : inner c ctx None -> field_args c (fattrs_of (field_decl a) VNone) ctx fs off = pargs (p_endian a) (p_bits a).
Proof.
  intros [Ho He]. unfold field_args, field_order, fattrs_of, field_decl. cbn [a_endian a_bits a_bytes a_order a_ctx d_endian d_bits d_bytes d_order d_ctx option_map or_else].
  rewrite (endian_lit_eval _ _ _ _ _ He), Ho. unfold pargs. now destruct (p_bits a), (p_endian a).
Qed.
Lemma inner_order c ctx e a b fs : inner c ctx e -> a_order a = None -> field_order c a b fs = None.
Proof. intros [Ho _] Ha. unfold field_order. now rewrite Ha, Ho. Qed.

Section Same.
Variables (cu : nat -> custom) (fuel : nat).

Lemma read_field_same c c' ctx ctx' e d t v8 acc rd rd' r : inner c ctx e -> inner c' ctx' None ->
  (forall lim r, rd lim (pargs (or_else (p_endian (u_plain d)) e) (p_bits (u_plain d))) r = rd' lim (pargs (p_endian (res_attrs e d t)) (p_bits (u_plain d))) r) ->
  read_field c (fattrs_of (ufield_decl d) VNone) v8 ctx acc rd r = read_field c' (fattrs_of (field_decl (res_attrs e d t)) VNone) v8 ctx' acc rd' r.
Proof.
  intros Hc Hc' H. unfold read_field.
  rewrite (inner_order c ctx e (fattrs_of (ufield_decl d) VNone) ctx acc Hc eq_refl), (inner_order c' ctx' None (fattrs_of (field_decl (res_attrs e d t)) VNone) ctx' acc Hc' eq_refl).
  change (a_magic (fattrs_of (field_decl (res_attrs e d t)) VNone)) with (a_magic (fattrs_of (ufield_decl d) VNone)).
  change (a_seek (fattrs_of (field_decl (res_attrs e d t)) VNone)) with (@None (expr0 (option seekfrom))).
  change (a_seek (fattrs_of (ufield_decl d) VNone)) with (@None (expr0 (option seekfrom))).
  change (a_pad_before (fattrs_of (ufield_decl d) VNone)) with (pad_of (pad (p_before (u_plain d))) (pad (u_bytes_before d))).
  change (a_pad_before (fattrs_of (field_decl (res_attrs e d t)) VNone)) with (pad_of (pad (p_before (u_plain d) + 8 * u_bytes_before d)) None).
  change (a_pad_after (fattrs_of (ufield_decl d) VNone)) with (pad_of (pad (p_after (u_plain d))) (pad (u_bytes_after d))).
  change (a_pad_after (fattrs_of (field_decl (res_attrs e d t)) VNone)) with (pad_of (pad (p_after (u_plain d) + 8 * u_bytes_after d)) None).
  apply bind_ext. intros _ r1 _. apply bind_ext. intros _ r2 _. rewrite (dpad _ _ ctx acc ctx' acc). apply bind_ext. intros _ r3 _. cbv zeta.
  assert (HN : forall r, field_read_tokens (fattrs_of (ufield_decl d) VNone) ctx acc (r_bits r3)
      (field_read_normal (fattrs_of (ufield_decl d) VNone) ctx acc (r_bits r3) (field_read_func c (fattrs_of (ufield_decl d) VNone) v8 ctx acc (r_bits r3) rd)) r =
    field_read_tokens (fattrs_of (field_decl (res_attrs e d t)) VNone) ctx' acc (r_bits r3)
      (field_read_normal (fattrs_of (field_decl (res_attrs e d t)) VNone) ctx' acc (r_bits r3)
         (field_read_func c' (fattrs_of (field_decl (res_attrs e d t)) VNone) v8 ctx' acc (r_bits r3) rd')) r).
  { intros r0. assert (HF : forall r, field_read_func c (fattrs_of (ufield_decl d) VNone) v8 ctx acc (r_bits r3) rd r =
        field_read_func c' (fattrs_of (field_decl (res_attrs e d t)) VNone) v8 ctx' acc (r_bits r3) rd' r).
    { intros r4. unfold field_read_func. rewrite (dfield_args _ _ _ _ _ _ Hc), (pfield_args _ _ _ _ _ Hc').
      unfold fattrs_of. cbn [a_reader a_limit ufield_decl field_decl d_reader]. unfold limit_of. cbn [ufield_decl field_decl d_count d_bits_read d_bytes_read d_until d_read_all res_attrs p_kind p_bits].
      destruct (p_kind (u_plain d)) as [|k size|k|k size]; [apply H| |apply H|cbn [eval_limit]; unfold bind, lift; destruct v8; apply H]. unfold eval_limit. destruct (to_usize _); [|reflexivity]. cbn [lift bind]. unfold bind, lift.
      destruct v8; [reflexivity|apply H]. }
    unfold field_read_tokens, field_read_normal. unfold fattrs_of. cbn [a_skip a_cond a_map a_default ufield_decl field_decl d_skip d_cond d_map d_default res_attrs p_kind].
    destruct (p_kind (u_plain d)) as [|k size|k|k size]; [apply bind_cong, HF..| |apply bind_cong, HF]. destruct (flag_at acc k); [apply bind_cong, HF|reflexivity]. }
  rewrite (bind_cong _ _ _ _ (HN r3)). apply bind_ext. intros v r4 _.
  apply bind_ext. intros _ r5 _. rewrite (dpad _ _ ctx (acc ++ [v]) ctx' (acc ++ [v])). reflexivity.
Qed.
Lemma inner_struct o m e : takes o e = true -> inner (cattrs_of (ustruct_decl o m)) (ctx_args (cattrs_of (ustruct_decl o m)) (pargs e None)) (resolved o e).
Proof. destruct o as [|x|[y|]], e as [z|]; try discriminate; intros _; (split; [reflexivity|]); intros fs; reflexivity || (now destruct x) || (now destruct y). Qed.
Lemma inner_enum o m p e' b e : takes o e = true ->
  inner (cattrs_of (uenum_decl o m p e' b)) (ctx_args (cattrs_of (uenum_decl o m p e' b)) (pargs e None)) (resolved o e).
Proof. destruct o as [|x|[y|]], e as [z|]; try discriminate; intros _; (split; [reflexivity|]); intros fs; reflexivity || (now destruct x) || (now destruct y). Qed.
Lemma inner_plain m ctx : inner (cattrs_of (struct_decl m)) ctx None.
Proof. split; reflexivity. Qed.
Lemma inner_plain_enum m p e b ctx : inner (cattrs_of (enum_decl m p e b)) ctx None.
Proof. split; reflexivity. Qed.
Lemma did_args o m p e' b ctx e : inner (cattrs_of (uenum_decl o m p e' b)) ctx e -> id_args (eattrs_of (uenum_decl o m p e' b)) ctx = pargs (or_else e' e) b.
Proof.
  intros [Ho He]. unfold id_args, eattrs_of. cbn [en_id_endian en_c en_bits en_bytes uenum_decl k_id_endian k_bits k_bytes].
  rewrite (endian_lit_eval e' (cattrs_of (uenum_decl o m p e' b)) ctx [] e He). unfold pargs. cbn [option_map eval0 cattrs_of c_order uenum_decl k_order]. now destruct b.
Qed.
Lemma read_holding k t t' args args' : (forall lim r, read_ty cu fuel t lim args r = read_ty cu fuel t' lim args' r) ->
  forall lim r, read_ty cu fuel (holding k t) lim args r = read_ty cu fuel (holding k t') lim args' r.
Proof.
  intros H lim r. destruct k as [|j size|j|j size]; cbn [holding]; [apply H| | |].
  - cbn [read_ty]. destruct lim as [l|]; [|reflexivity]. apply bind_cong. apply vec_cong. apply H.
  - cbn [read_ty]. apply bind_cong. apply H.
  - cbn [read_ty]. destruct lim as [l|]; [|reflexivity]. apply bind_cong. apply vec_cong. apply H.
Qed.
Lemma is_u8_holding k t e : is_vec_u8 (holding k (utype t)) = is_vec_u8 (holding k (ctype (resolve e t))).
Proof. destruct k; [now destruct t| |reflexivity|]; now destruct t. Qed.
Lemma own_pair s t e : (none e || Bool.eqb (is_number s) (is_number t)) = true -> own_order (UPair s t) e = own_order s e /\ own_order (UPair s t) e = own_order t e.
Proof.
  intros H. unfold own_order. cbn [is_number]. destruct e; [|now destruct (is_number s), (is_number t)]. cbn [none orb] in H. apply Bool.eqb_prop in H. rewrite H. now destruct (is_number t).
Qed.
Lemma read_same :
  (forall t e b, handed e b t = true -> forall lim r, read_ty cu fuel (utype t) lim (pargs e b) r = read_ty cu fuel (ctype (resolve e t)) lim (pargs (own_order t e) b) r) /\
  (forall fs e c c' ctx ctx', fields_handed e fs = true -> inner c ctx e -> inner c' ctx' None ->
     forall acc r, fields_read cu fuel c ctx (utypes fs) None acc r = fields_read cu fuel c' ctx' (cfields (resolve_fields e fs)) None acc r) /\
  (forall vs e E E' ctx ctx', variants_handed e vs = true -> inner (en_c E) ctx e -> inner (en_c E') ctx' None -> en_id E = None -> en_id E' = None ->
     forall id k r, variants_read cu fuel E ctx id (uvtypes vs) k None r = variants_read cu fuel E' ctx' id (cvariants (resolve_variants e vs)) k None r).
Proof.
  apply uty_ind3.
  - reflexivity.
  - reflexivity.
  - intros n t IH e b H lim r. cbn [handed] in H. change (own_order (UArray n t) e) with (own_order t e). cbn [utype resolve ctype read_ty].
    apply bind_cong. apply array_cong. now apply IH.
  - intros o m fs IH e b H lim r. cbn [handed] in H. apply andb_true_iff in H. destruct H as [H Hf]. apply andb_true_iff in H. destruct H as [Hb Ho].
    destruct b; [discriminate|]. cbn [utype resolve ctype]. rewrite !read_struct.
    apply bind_ext. intros _ r1 _. apply bind_ext. intros _ r2 _. apply bind_cong. apply IH; [exact Hf|now apply inner_struct|apply inner_plain].
  - intros o m p e' b' vs IH e b H lim r. cbn [handed] in H. apply andb_true_iff in H. destruct H as [H Hf]. apply andb_true_iff in H. destruct H as [Hb Ho].
    destruct b; [discriminate|]. cbn [utype resolve ctype]. rewrite !read_enum. cbn [en_c eattrs_of].
    pose proof (inner_enum o m p e' b' e Ho) as HI. apply bind_ext. intros _ r1 _.
    change (en_id (eattrs_of (uenum_decl o m p e' b'))) with (@None (list value -> value)).
    change (en_id (eattrs_of (enum_decl m p (or_else e' (resolved o e)) b'))) with (@None (list value -> value)).
    rewrite (did_args _ _ _ _ _ _ _ HI), id_pargs. apply bind_ext. intros id r2 _. apply IH; [exact Hf|exact HI|apply inner_plain_enum|reflexivity..].
  - reflexivity.
  - intros s IHs t IHt e b H lim r. cbn [handed] in H. apply andb_true_iff in H. destruct H as [H Ho]. apply andb_true_iff in H. destruct H as [Hs Ht].
    destruct (own_pair s t e Ho) as [E1 E2]. cbn [utype resolve ctype read_ty]. rewrite E1 at 1. rewrite (bind_cong _ _ _ _ (IHs e b Hs _ r)).
    apply bind_ext. intros x r1 _. rewrite E2. apply bind_cong. now apply IHt.
  - intros e b H lim r. cbn [handed] in H. apply andb_true_iff in H. destruct H as [H _]. now destruct e.
  - reflexivity.
  - intros d t IHt tl IHtl e c c' ctx ctx' H Hc Hc' acc r. cbn [fields_handed] in H. apply andb_true_iff in H. destruct H as [Ht Htl].
    cbn [utypes resolve_fields cfields p_kind]. rewrite !read_cons.
    change (mkP _ _ _ _ _ _) with (res_attrs e d t).
    change (a_reader (fattrs_of (ufield_decl d) VNone)) with (@None (expr (RM value))).
    change (a_temp (fattrs_of (ufield_decl d) VNone)) with false. change (a_temp (fattrs_of (field_decl (res_attrs e d t)) VNone)) with false.
    rewrite (is_u8_holding (p_kind (u_plain d)) t (or_else (p_endian (u_plain d)) e)).
    rewrite (bind_cong _ _ _ _ (read_field_same c c' ctx ctx' e d t _ acc _ (fun lim args => read_ty cu fuel (holding (p_kind (u_plain d)) (ctype (resolve (or_else (p_endian (u_plain d)) e) t))) lim args) r Hc Hc'
      (read_holding _ _ _ _ _ (IHt _ _ Ht)))).
    apply bind_ext. intros v r1 _. apply bind_cong. now apply IHtl.
  - reflexivity.
  - intros how id fs IHf vs IHv e E E' ctx ctx' H Hc Hc' E1 E2 x k r. cbn [variants_handed] in H. apply andb_true_iff in H. destruct H as [Hf Hv].
    cbn [uvtypes resolve_variants cvariants]. rewrite !read_variant. cbv zeta.
    assert (S1 : stores_id E (mkV (selector_for how id) false) = false) by (unfold stores_id; rewrite E1; now destruct how).
    assert (S2 : stores_id E' (mkV (SId (VNum id)) false) = false) by (unfold stores_id; now rewrite E2). rewrite S1, S2.
    replace (matches (v_sel (mkV (selector_for how id) false)) x) with (matches (v_sel (mkV (SId (VNum id)) false)) x) by (now destruct how).
    destruct (matches _ x); [apply bind_cong; now apply IHf|]. cbn [v_default]. now apply IHv.
Qed.

Lemma write_holding k t t' args args' : (forall v w, write_ty cu t args v w = write_ty cu t' args' v w) ->
  forall v w, write_ty cu (holding k t) args v w = write_ty cu (holding k t') args' v w.
Proof.
  intros H v w. destruct k as [|j size|j|j size]; cbn [holding]; [apply H| | |].
  - cbn [write_ty]. destruct v; try reflexivity. now apply write_list_cong.
  - cbn [write_ty]. destruct v; try reflexivity. apply H.
  - cbn [write_ty]. destruct v; try reflexivity. now apply write_list_cong.
Qed.
Lemma write_field_same c c' ctx ctx' e d t stored acc v wr wr' w : inner c ctx e -> inner c' ctx' None ->
  (forall w, wr (pargs (or_else (p_endian (u_plain d)) e) (p_bits (u_plain d))) v w = wr' (pargs (p_endian (res_attrs e d t)) (p_bits (u_plain d))) v w) ->
  write_field c (fattrs_of (ufield_decl d) VNone) stored ctx acc v wr w = write_field c' (fattrs_of (field_decl (res_attrs e d t)) VNone) stored ctx' acc v wr' w.
Proof.
  intros Hc Hc' H. unfold write_field.
  rewrite (inner_order c ctx e (fattrs_of (ufield_decl d) VNone) ctx acc Hc eq_refl), (inner_order c' ctx' None (fattrs_of (field_decl (res_attrs e d t)) VNone) ctx' acc Hc' eq_refl).
  change (a_magic (fattrs_of (field_decl (res_attrs e d t)) VNone)) with (a_magic (fattrs_of (ufield_decl d) VNone)).
  change (a_seek (fattrs_of (field_decl (res_attrs e d t)) VNone)) with (@None (expr0 (option seekfrom))).
  change (a_seek (fattrs_of (ufield_decl d) VNone)) with (@None (expr0 (option seekfrom))).
  change (a_pad_before (fattrs_of (ufield_decl d) VNone)) with (pad_of (pad (p_before (u_plain d))) (pad (u_bytes_before d))).
  change (a_pad_before (fattrs_of (field_decl (res_attrs e d t)) VNone)) with (pad_of (pad (p_before (u_plain d) + 8 * u_bytes_before d)) None).
  change (a_pad_after (fattrs_of (ufield_decl d) VNone)) with (pad_of (pad (p_after (u_plain d))) (pad (u_bytes_after d))).
  change (a_pad_after (fattrs_of (field_decl (res_attrs e d t)) VNone)) with (pad_of (pad (p_after (u_plain d) + 8 * u_bytes_after d)) None).
  apply bind_ext. intros _ w1 _. apply bind_ext. intros _ w2 _. rewrite (dpad _ _ ctx acc ctx' acc). apply bind_ext. intros _ w3 _. cbv zeta.
  apply bind_ext. intros _ w4 _. rewrite (dpad _ _ ctx (acc ++ [v]) ctx' (acc ++ [v])). apply bind_cong.
  unfold field_write_tokens, field_write_func. rewrite (dfield_args _ _ _ _ _ _ Hc), (pfield_args _ _ _ _ _ Hc'). apply H.
Qed.
Lemma write_same :
  (forall t e b, handed e b t = true -> forall v w, write_ty cu (utype t) (pargs e b) v w = write_ty cu (ctype (resolve e t)) (pargs (own_order t e) b) v w) /\
  (forall fs e c c' ctx ctx', fields_handed e fs = true -> inner c ctx e -> inner c' ctx' None ->
     forall stored todo acc w, fields_write cu c ctx (utypes fs) None stored todo acc w = fields_write cu c' ctx' (cfields (resolve_fields e fs)) None stored todo acc w) /\
  (forall vs e E E' ctx ctx' wid wid', variants_handed e vs = true -> inner (en_c E) ctx e -> inner (en_c E') ctx' None -> en_id E = None -> en_id E' = None ->
     (forall x w, wid (id_args E ctx) x w = wid' (id_args E' ctx') x w) ->
     forall k l w, variant_write cu E ctx wid (uvtypes vs) k l w = variant_write cu E' ctx' wid' (cvariants (resolve_variants e vs)) k l w).
Proof.
  apply uty_ind3.
  - reflexivity.
  - reflexivity.
  - intros n t IH e b H v w. cbn [handed] in H. change (own_order (UArray n t) e) with (own_order t e). cbn [utype resolve ctype write_ty].
    destruct v; try reflexivity. apply write_list_cong. now apply IH.
  - intros o m fs IH e b H v w. cbn [handed] in H. apply andb_true_iff in H. destruct H as [H Hf]. apply andb_true_iff in H. destruct H as [Hb Ho].
    destruct b; [discriminate|]. cbn [utype resolve ctype]. destruct v; try reflexivity. rewrite !write_struct.
    apply bind_ext. intros _ w1 _. apply bind_ext. intros _ w2 _. apply IH; [exact Hf|now apply inner_struct|apply inner_plain].
  - intros o m p e' b' vs IH e b H v w. cbn [handed] in H. apply andb_true_iff in H. destruct H as [H Hf]. apply andb_true_iff in H. destruct H as [Hb Ho].
    destruct b; [discriminate|]. cbn [utype resolve ctype]. destruct v; try reflexivity. rewrite !write_enum. cbn [en_c eattrs_of].
    pose proof (inner_enum o m p e' b' e Ho) as HI. apply bind_ext. intros _ w1 _.
    apply IH; [exact Hf|exact HI|apply inner_plain_enum|reflexivity..|]. intros x w2. now rewrite (did_args _ _ _ _ _ _ _ HI), id_pargs.
  - reflexivity.
  - intros s IHs t IHt e b H v w. cbn [handed] in H. apply andb_true_iff in H. destruct H as [H Ho]. apply andb_true_iff in H. destruct H as [Hs Ht].
    destruct (own_pair s t e Ho) as [E1 E2]. cbn [utype resolve ctype write_ty]. destruct v; try reflexivity. rewrite E1 at 1. rewrite (bind_cong _ _ _ _ (IHs e b Hs _ w)).
    apply bind_ext. intros _ w1 _. rewrite E2. now apply IHt.
  - intros e b H v w. cbn [handed] in H. apply andb_true_iff in H. destruct H as [H _]. now destruct e.
  - reflexivity.
  - intros d t IHt tl IHtl e c c' ctx ctx' H Hc Hc' stored todo acc w. cbn [fields_handed] in H. apply andb_true_iff in H. destruct H as [Ht Htl].
    cbn [utypes resolve_fields cfields p_kind]. rewrite !write_cons.
    change (mkP _ _ _ _ _ _) with (res_attrs e d t).
    change (field_value (fattrs_of (ufield_decl d) VNone) stored todo ctx acc) with (hd VUnit todo).
    change (field_value (fattrs_of (field_decl (res_attrs e d t)) VNone) stored todo ctx' acc) with (hd VUnit todo).
    rewrite (bind_cong _ _ _ _ (write_field_same c c' ctx ctx' e d t stored acc (hd VUnit todo) _ (fun args x => write_ty cu (holding (p_kind (u_plain d)) (ctype (resolve (or_else (p_endian (u_plain d)) e) t))) args x) w Hc Hc'
      (write_holding _ _ _ _ _ (IHt _ _ Ht) _))).
    apply bind_ext. intros _ w1 _. now apply IHtl.
  - reflexivity.
  - intros how id fs IHf vs IHv e E E' ctx ctx' wid wid' H Hc Hc' E1 E2 HW k l w. cbn [variants_handed] in H. apply andb_true_iff in H. destruct H as [Hf Hv].
    cbn [uvtypes resolve_variants cvariants]. destruct k as [|k].
    + rewrite !write_variant_0. unfold write_id. rewrite E1, E2. destruct how; cbn [selector_for v_sel]; rewrite (bind_cong _ _ _ _ (HW _ _)); apply bind_ext; intros _ w1 _; now apply IHf.
    + cbn [variant_write]. now apply IHv.
Qed.
End Same.

Definition means (cu : nat -> custom) (t t' : ty) : Prop :=
  (forall fuel s bit, from_reader cu fuel t s bit = from_reader cu fuel t' s bit) /\
  (forall fuel input bit, from_bytes cu fuel t input bit = from_bytes cu fuel t' input bit) /\
  (forall fuel input, try_from cu fuel t input = try_from cu fuel t' input) /\
  (forall v, to_bytes cu t v = to_bytes cu t' v) /\ (forall v, to_bits cu t v = to_bits cu t' v) /\ (forall v buf, to_slice cu t v buf = to_slice cu t' v buf).
Theorem resolve_means cu t : handed None None t = true -> means cu (utype t) (ctype (resolve None t)).
Proof.
  intros H.
  assert (R : forall fuel r, read_ty cu fuel (utype t) None [] r = read_ty cu fuel (ctype (resolve None t)) None [] r).
  { intros fuel r. pose proof (proj1 (read_same cu fuel) t None None H None r) as X. unfold own_order in X. now destruct (is_number t). }
  assert (W : forall v w, write_ty cu (utype t) [] v w = write_ty cu (ctype (resolve None t)) [] v w).
  { intros v w. pose proof (proj1 (write_same cu) t None None H v w) as X. unfold own_order in X. now destruct (is_number t). }
  assert (F : forall fuel s bit, from_reader cu fuel (utype t) s bit = from_reader cu fuel (ctype (resolve None t)) s bit).
  { intros fuel s bit. unfold from_reader. erewrite (bind_ext _ _ (fun _ => let* v := read_ty cu fuel (ctype (resolve None t)) None [] in fun r => (Ok (r_bits r, v), r))); [reflexivity|].
    intros _ r _. apply bind_cong, R. }
  split; [exact F|]. split; [intros; unfold from_bytes; now rewrite F|]. split; [intros; unfold try_from; now rewrite F|].
  split; [|split]; intros v; [unfold to_bytes, to_bytes_with|unfold to_bits, to_bits_with; now rewrite W|intros buf; unfold to_slice, to_slice_with]; now rewrite (bind_cong _ _ _ _ (W v _)).
Qed.
Lemma typed_holding k t t' : (forall v, typed t v <-> typed t' v) -> forall v, typed (holding k t) v <-> typed (holding k t') v.
Proof.
  intros H v. destruct k; cbn [holding]; [apply H| | |]; destruct v; cbn [typed_in]; try tauto; [|apply H|].
  all: assert (F : Forall (typed t) l <-> Forall (typed t') l) by (split; apply Forall_impl; intros x; apply H).
  all: tauto.
Qed.
Lemma typed_same :
  (forall t e v, typed (utype t) v <-> typed (ctype (resolve e t)) v) /\
  (forall fs e l, fields_typed (utypes fs) l <-> fields_typed (cfields (resolve_fields e fs)) l) /\
  (forall vs e k l, variant_typed (uvtypes vs) k l <-> variant_typed (cvariants (resolve_variants e vs)) k l).
Proof.
  apply uty_ind3.
  - reflexivity.
  - reflexivity.
  - intros n t IH e v. destruct v; cbn [utype resolve ctype typed_in]; try tauto.
    assert (F : Forall (typed (utype t)) l <-> Forall (typed (ctype (resolve e t))) l) by (split; apply Forall_impl; intros x; apply IH). tauto.
  - intros o m fs IH e v. destruct v; cbn [utype resolve ctype typed_in]; try tauto. apply IH.
  - intros o m p e' b vs IH e v. destruct v; cbn [utype resolve ctype typed_in]; try tauto. apply IH.
  - reflexivity.
  - intros s IHs t IHt e v. destruct v; cbn [utype resolve ctype typed_in]; try tauto. now rewrite (IHs e), (IHt e).
  - reflexivity.
  - reflexivity.
  - intros d t IHt tl IHtl e l. cbn [utypes resolve_fields cfields fields_typed_in p_kind].
    change (a_temp (fattrs_of (ufield_decl d) VNone)) with false. change (a_temp (fattrs_of (field_decl _) VNone)) with false. cbn iota.
    destruct l as [|v l]; [tauto|]. rewrite (typed_holding (p_kind (u_plain d)) _ _ (IHt (or_else (p_endian (u_plain d)) e))), (IHtl e). tauto.
  - intros e [] l; reflexivity.
  - intros how id fs IHf vs IHv e [|k] l; cbn [uvtypes resolve_variants cvariants variant_typed_in]; [apply IHf|apply IHv].
Qed.
Theorem usual_format cu t v : usual_type t = true -> value_fits None (resolve None t) v = true ->
  let w := wire None None (resolve None t) v in
  to_bits cu (utype t) v = Ok w /\
  exists bytes pad, to_bytes cu (utype t) v = Ok bytes /\ bits_of_bytes bytes = w ++ repeat false pad /\ pad < 8.
Proof.
  intros U F w. apply andb_true_iff in U. destruct U as [H P]. destruct (resolve_means cu t H) as (_ & _ & _ & W1 & W2 & _). rewrite W2. rewrite (W1 v). now apply format.
Qed.
Theorem usual_exactly cu fuel t input rest off v : usual_type t = true -> 8 * length input + 8 < fuel ->
  (from_bytes cu fuel (utype t) input 0 = Ok ((rest, off), v) <->
   value_fits None (resolve None t) v = true /\ exists w s, bits_of_bytes input = w ++ s /\ agrees (shape None None (resolve None t) v) w /\
     rest = skipn (length w / 8) input /\ off = length w mod 8).
Proof.
  intros U F. apply andb_true_iff in U. destruct U as [H P]. destruct (resolve_means cu t H) as (_ & R & _). rewrite R. now apply padded_exactly.
Qed.
Theorem usual_try cu fuel t input v : usual_type t = true -> 8 * length input + 8 < fuel ->
  (try_from cu fuel (utype t) input = Ok v <-> value_fits None (resolve None t) v = true /\ agrees (shape None None (resolve None t) v) (bits_of_bytes input)).
Proof.
  intros U F. apply andb_true_iff in U. destruct U as [H P]. destruct (resolve_means cu t H) as (_ & _ & R & _). rewrite R. now apply padded_try.
Qed.
Theorem usual_reads cu fuel t s bit : usual_type t = true -> (forall j, s_fault s j = None) -> s_pos s <= length (s_data s) ->
  bit < 8 -> 8 * length (s_data s) + 8 < fuel ->
  (exists n v, fst (from_reader cu fuel (utype t) s bit) = Ok (n, v) /\ value_fits None (resolve None t) v = true) \/
  (exists e, fst (from_reader cu fuel (utype t) s bit) = Err e /\
     (e = Parse \/ (exists n, e = Incomplete n) \/ (s_noseek s <> None /\ e = Io (OtherKind 0)))).
Proof.
  intros U. apply andb_true_iff in U. destruct U as [H P]. destruct (resolve_means cu t H) as (R & _). rewrite R. now apply reads_stream.
Qed.
Theorem usual_writes cu t v : usual_type t = true -> typed (utype t) v ->
  let w := wire None None (resolve None t) v in
  if numbers_fit None (resolve None t) v then
    to_bits cu (utype t) v = Ok w /\
    exists bytes pad, to_bytes cu (utype t) v = Ok bytes /\ bits_of_bytes bytes = w ++ repeat false pad /\ pad < 8
  else to_bits cu (utype t) v = Err InvalidParam /\ to_bytes cu (utype t) v = Err InvalidParam.
Proof.
  intros U T. apply andb_true_iff in U. destruct U as [H P]. destruct (resolve_means cu t H) as (_ & _ & _ & W1 & W2 & _). cbv zeta.
  assert (T' : typed (ctype (resolve None t)) v) by now apply typed_same.
  pose proof (writes_exactly cu _ v P T') as X. rewrite W1, W2. exact X.
Qed.
