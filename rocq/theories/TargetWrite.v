(** Writing on machines of different byte orders. *)
From Coq Require Import Lia ZifyBool ZifyNat ZifyN.
From Verif Require Import Base BitsFacts NFacts MonadFacts Spec Stream Reader Writer Prims Containers CodecSpec PrimFacts Derive DeriveSpec DeriveSound DeriveFacts CanonFacts Decl PlainSpec PlainFacts Target TargetSpec TargetRead.
Ltac Zify.zify_post_hook ::= Z.div_mod_to_equations.

Definition like (m1 m2 : WM unit) : Prop := forall w, m1 w = m2 w.
Lemma k_refl m : like m m.
Proof. intros w. reflexivity. Qed.
Lemma k_bind (m1 m2 : WM unit) (f1 f2 : unit -> WM unit) : like m1 m2 -> like (f1 tt) (f2 tt) -> like (bind m1 f1) (bind m2 f2).
Proof. intros M F w. unfold bind. rewrite M. destruct (m2 w) as [[[]|e| |] w']; auto. Qed.
Lemma k_field c a e stored ctx fs v wr1 wr2 :
  (forall off, like (wr1 (field_args c a ctx fs off) v) (wr2 (field_args c (with_endian a e) ctx fs off) v)) ->
  like (write_field c a stored ctx fs v wr1) (write_field c (with_endian a e) stored ctx fs v wr2).
Proof.
  intros H. unfold write_field. apply k_bind; [apply k_refl|]. apply k_bind; [apply k_refl|]. apply k_bind; [exact (k_refl _)|]. intros w. cbv zeta. set (off := w_bits w). clearbody off. revert w.
  apply k_bind; [exact (k_refl _)|]. apply k_bind; [|exact (k_refl _)].
  assert (HF : like (field_write_func c a stored ctx fs off v wr1) (field_write_func c (with_endian a e) stored ctx fs off v wr2)).
  { unfold field_write_func. cbn [a_writer with_endian a_temp a_temp_value]. destruct (a_writer a); [apply k_refl|]. destruct (a_temp a); [|apply H]. destruct (a_temp_value a); [apply H|apply k_refl]. }
  unfold field_write_tokens. cbn [a_skip a_cond with_endian]. destruct (a_skip a) as [[]|], (a_cond a) as [f|]; try destruct (f _ _ _); auto using k_refl.
Qed.
Lemma k_pctx lim args (k1 k2 : pctx -> WM unit) : (forall c, pctx_of args = Some c -> like (k1 c) (k2 c)) -> like (with_pctx lim args k1) (with_pctx lim args k2).
Proof. intros H. unfold with_pctx. destruct lim; [apply k_refl|]. destruct (pctx_of args); [now apply H|apply k_refl]. Qed.
Lemma k_byte e c v : like (prim_write PU8 (write_ctx e c) v) (prim_write PU8 c v).
Proof. intros w. destruct c; try reflexivity. cbn [write_ctx prim_write]. unfold write_e. cbn [prim_bytes]. now rewrite !to_bytes_1. Qed.

Section Related.
Variables (cu : nat -> custom) (e0 : endian) (good : prim -> list value -> Prop).
Hypothesis k_good : forall p args c v, good p args -> pctx_of args = Some c -> like (prim_write p (write_ctx e0 c) v) (prim_write p c v).

Theorem related_write :
  (forall t args v, numbers good t args -> like (t_write_ty e0 cu t args v) (write_ty cu t args v)) /\
  (forall fs,
     (match fs with FCons _ t _ _ => forall args v, numbers good t args -> like (t_write_ty e0 cu t args v) (write_ty cu t args v) | FNil => True end) /\
     forall c id, field_numbers good c fs ->
     match id, fs with Some args, FCons _ t _ _ => numbers good t args | _, _ => True end -> forall ctx stored todo acc,
     like (t_fields_write e0 cu c ctx fs id stored todo acc) (fields_write cu c ctx fs id stored todo acc)) /\
  (forall vs e, variant_numbers good e vs -> forall ctx wid1 wid2 k l, (en_id e = None -> forall x, like (wid1 (id_args e ctx) x) (wid2 (id_args e ctx) x)) ->
     like (t_variant_write e0 cu e ctx wid1 vs k l) (variant_write cu e ctx wid2 vs k l)).
Proof.
  apply types_ind.
  - intros p args v Hg. destruct v; try apply k_refl. apply k_pctx. intros c Hc. now apply (k_good p args).
  - intros args v _. destruct v; try apply k_refl. apply k_pctx. intros c Hc. unfold write_bool. apply k_byte.
  - intros p args v Hg. destruct v; try apply k_refl. apply k_pctx. intros c Hc. now apply (k_good p args).
  - intros args v _. apply k_refl.
  - intros args v _. destruct v; try apply k_refl. apply k_pctx. intros c Hc. unfold write_cstring. intros w. apply write_list_ext. intros x w'. apply k_byte.
  - intros t IH args v Hg. cbn [numbers] in Hg. destruct v; try apply k_refl. now apply IH.
  - intros a IHa b IHb args v [Ha Hb]. destruct v; try apply k_refl. apply k_bind; [now apply IHa|now apply IHb].
  - intros n t IH args v Hg. cbn [numbers] in Hg. destruct v; try apply k_refl. intros w. apply write_list_ext. intros x w'. now apply IH.
  - intros k s t IH args v Hg. cbn [numbers] in Hg. destruct v; try apply k_refl. intros w. apply write_list_ext. intros x w'. now apply IH.
  - intros c fs [_ IH] args v Hg. cbn [numbers] in Hg. destruct v; try apply k_refl. rewrite write_struct. cbn [t_write_ty]. cbv zeta.
    apply k_bind; [apply k_refl|]. apply k_bind; [apply k_refl|]. now apply IH.
  - intros e idt IHi vs IHv args v [Gi Gv]. destruct v; try apply k_refl. rewrite write_enum. cbn [t_write_ty]. apply k_bind; [apply k_refl|]. apply IHv; [exact Gv|].
    intros E x. apply IHi. now apply Gi.
  - intros k args v _. apply k_refl.
  - split; [exact I|]. intros c id _ _ ctx stored todo acc. apply k_refl.
  - intros a t IHt wire _ tl [_ IHtl]. split; [exact IHt|]. intros c id [Ga Gtl] Hid ctx stored todo acc. rewrite write_cons. cbn [t_fields_write]. cbv zeta. apply k_bind; [|now apply IHtl].
    destruct id as [args|]; [now apply IHt|]. pose proof (k_field c a (a_endian a) stored ctx acc (field_value a stored todo ctx acc) (fun args x => t_write_ty e0 cu t args x) (fun args x => write_ty cu t args x)) as X.
    rewrite with_own_endian in X. apply X. intros off. apply IHt, Ga.
  - intros e _ ctx wid1 wid2 k l _. apply k_refl.
  - intros v fs [IHt IHf] vs IHv e (Gf & Gs & Gv) ctx wid1 wid2 k l Hw. destruct k as [|k]; [|now apply IHv]. rewrite write_variant_0. cbn [t_variant_write]. apply k_bind.
    + unfold write_id. destruct (en_id e) eqn:Ei; [apply k_refl|]. destruct (v_sel v) as [x|? d|x]; [now apply Hw| |now apply Hw]. destruct (no_fields fs); [|apply k_refl].
      destruct d; [now apply Hw|apply k_refl].
    + apply IHf; [exact Gf|]. destruct (v_sel v); [exact I| |exact I]. destruct fs; [exact I|apply Gs].
Qed.
End Related.

Lemma little_write_prim p c v : like (prim_write p (write_ctx Little c) v) (prim_write p c v).
Proof. intros w. now destruct c. Qed.
Theorem little_write cu t args v w : t_write_ty Little cu t args v w = write_ty cu t args v w.
Proof.
  refine (proj1 (related_write cu Little (fun _ _ => True) _) t args v _ w); [intros; apply little_write_prim|]. now apply all_numbers.
Qed.

Lemma first_bit_lt b l i : first_bit b l = Some i -> i < length l.
Proof.
  revert i. induction l as [|x l IH]; intros i; cbn [first_bit length]; [discriminate|]. destruct (Bool.eqb x b); [intros E; injection E as <-; lia|].
  destruct (first_bit b l) as [j|]; [|discriminate]. intros E. injection E as <-. specialize (IH j eq_refl). lia.
Qed.
(** Numbers that are single bytes, or of which the order is given. *)
Lemma too_big_same n v : n <= 8 -> too_big_le 8 n v = too_big_be 8 n v.
Proof.
  intros Hn. unfold too_big_le, too_big_be, last_bit. pose proof (first_bit_lt true (N2bits 8 v)) as X. setoid_rewrite N2bits_length in X. destruct (first_bit true (N2bits 8 v)) as [i|]; [|reflexivity].
  cbn [option_map]. specialize (X i eq_refl). lia.
Qed.
Lemma chunk_same n v w : n <= 8 -> write_chunks (le_bytes 1 v) n Msb0 w = write_bits (skipn (8 - n) (N2bits 8 v)) w.
Proof.
  intros Hn. rewrite le_be_1. pose proof (be_bits 1 v) as X. pose proof (be_length 1 v) as L. destruct (be_bytes 1 v) as [|b [|]]; try discriminate L. cbn [bits_of_bytes flat_map] in X.
  rewrite app_nil_r in X. cbn [write_chunks]. rewrite X. destruct (Nat.ltb_spec n 8) as [H|H]; [reflexivity|]. replace (8 - n) with 0 by lia. cbn [skipn].
  unfold write_bits, bind. change (8 * 1) with 8. destruct (write_bits_order (N2bits 8 v) Msb0 w) as [[[]|? | |] w']; reflexivity.
Qed.
Lemma single_write e p args c v : single_byte p args -> pctx_of args = Some c -> like (prim_write p (write_ctx e c) v) (prim_write p c v).
Proof.
  intros [->|[Hp Ho]] Hc; [apply k_byte|]. destruct e; [apply little_write_prim|].
  assert (HE : like (write_e p Big v) (write_e p Little v)) by (intros w; unfold write_e; rewrite Hp; now rewrite !to_bytes_1).
  assert (HY : forall n, like (write_eyo p Big n v) (write_eyo p Little n v)).
  { intros n w. destruct p as [|wb|wb]; cbn [write_eyo prim_bytes] in *; [reflexivity|subst wb..]; unfold write_bytes_sized; destruct (Nat.ltb_spec 1 n) as [H|H]; try reflexivity;
      rewrite le_be_1; pose proof (be_length 1 v) as L; destruct (be_bytes 1 v) as [|b [|]]; try discriminate L; (destruct n as [|[|n]]; [reflexivity|reflexivity|lia]). }
  assert (HB : forall n, like (write_eb p Big n v) (write_eb p Little n v)).
  { intros n w. destruct p as [|wb|wb]; cbn [write_eb prim_bytes] in *; [reflexivity|subst wb..]; unfold write_u_eb, write_i_eb; change (8 * 1) with 8; destruct (Nat.ltb_spec 8 n) as [H|H]; try reflexivity.
    - rewrite too_big_same by lia. destruct (too_big_be 8 n v); [reflexivity|]. symmetry. now apply chunk_same.
    - cbv zeta. set (ng := negb _). unfold last_bit. pose proof (first_bit_lt ng (N2bits 8 v)) as X. setoid_rewrite N2bits_length in X. destruct (first_bit ng (N2bits 8 v)) as [i|]; cbn [option_map].
      + specialize (X i eq_refl). replace (n <? 8 - 1 - i + 2) with (i <? 8 - n + 1) by lia. destruct (_ <? _); [reflexivity|]. symmetry. now apply chunk_same.
      + symmetry. now apply chunk_same. }
  destruct c; try (intros w; reflexivity); cbn [write_ctx prim_write]; auto.
  exfalso. destruct args as [|[] [|[] [|[] [|]]]]; try discriminate Hc. eapply Ho. right. left. reflexivity.
Qed.
Lemma order_write e p args c v : gives_order args -> pctx_of args = Some c -> like (prim_write p (write_ctx e c) v) (prim_write p c v).
Proof.
  intros [e' H] E. replace (write_ctx e c) with c; [apply k_refl|].
  destruct args as [|[] [|[] [|[] [|]]]]; try discriminate E; injection E as <-; cbn [In] in H; try reflexivity; exfalso; intuition congruence.
Qed.
Theorem portable_write e cu t args v w : numbers (fun p args => single_byte p args \/ gives_order args) t args -> t_write_ty e cu t args v w = write_ty cu t args v w.
Proof.
  intros H. refine (proj1 (related_write cu e _ _) t args v H w). intros p a c x [G|G] E; [now apply (single_write e p a)|now apply (order_write e p a)].
Qed.

(** ** Plain declarations *)

Section Spelled.
Variables (e0 : endian) (cu : nat -> custom).
Lemma k_num p e b v : like (prim_write p (write_ctx e0 (pcontext e b)) v) (prim_write p (pcontext (fill e0 e) b) v).
Proof. intros w. now destruct e, b. Qed.
Lemma k_args e b (k1 k2 : pctx -> WM unit) : like (k1 (pcontext e b)) (k2 (pcontext (fill e0 e) b)) -> like (with_pctx None (pargs e b) k1) (with_pctx None (pargs (fill e0 e) b) k2).
Proof. intros H. unfold with_pctx. now rewrite !pargs_pctx. Qed.
Lemma spelled_decl t a : fattrs_of (field_decl (fill_field e0 t a)) VNone =
  with_endian (fattrs_of (field_decl a) VNone) (a_endian (fattrs_of (field_decl (fill_field e0 t a)) VNone)).
Proof. now destruct a as [? ? [] ? ? ?]. Qed.
Theorem spelled_write :
  (forall t e b,
     (only_numbers t = true -> forall v, like (t_write_ty e0 cu (ctype t) (pargs e b) v) (write_ty cu (ctype (spelled e0 t)) (pargs (fill e0 e) b) v)) /\
     (apart t = true -> forall v, like (t_write_ty e0 cu (ctype t) (pargs e b) v) (write_ty cu (ctype (spelled e0 t)) (pargs e b) v))) /\
  (forall fs, fields_apart fs = true -> forall m ctx stored todo acc,
     like (t_fields_write e0 cu (cattrs_of (struct_decl m)) ctx (cfields fs) None stored todo acc) (fields_write cu (cattrs_of (struct_decl m)) ctx (cfields (spelled_fields e0 fs)) None stored todo acc)) /\
  (forall vs, variants_apart vs = true -> forall m p e b ctx wid1 wid2 k l, (forall x, like (wid1 (pargs e b) x) (wid2 (pargs (fill e0 e) b) x)) ->
     like (t_variant_write e0 cu (eattrs_of (enum_decl m p e b)) ctx wid1 (cvariants vs) k l)
          (variant_write cu (eattrs_of (enum_decl m p (fill e0 e) b)) ctx wid2 (cvariants (spelled_variants e0 vs)) k l)).
Proof.
  apply plain_ind.
  - intros p e b. split; [|discriminate]. intros _ v. destruct v; try apply k_refl. apply k_args, k_num.
  - intros e b. split; [|discriminate]. intros _ v. destruct v; try apply k_refl. apply k_args. apply k_num.
  - intros n t IH e b. destruct (IH e b) as [H1 H2]. split; intros Ht v; (destruct v; try apply k_refl); intros w; apply write_list_ext; intros x w'; [now apply H1|now apply H2].
  - intros m fs IH e b. split; [discriminate|]. intros Ha v. destruct v; try apply k_refl. cbn [spelled ctype]. rewrite write_struct. cbn [t_write_ty]. cbv zeta.
    apply k_bind; [apply k_refl|]. apply k_bind; [apply k_refl|]. now apply IH.
  - intros m p e b vs IH e' b'. split; [discriminate|]. intros Ha v. destruct v; try apply k_refl. cbn [spelled ctype]. rewrite write_enum. cbn [t_write_ty].
    apply k_bind; [apply k_refl|]. apply IH; [exact Ha|]. intros x. destruct x; try apply k_refl. apply k_args, k_num.
  - intros p e b. split; [|discriminate]. intros _ v. destruct v; try apply k_refl. apply k_args, k_num.
  - intros s IHs t IHt e b. destruct (IHs e b) as [S1 S2], (IHt e b) as [T1 T2]. split; cbn [only_numbers apart]; intros Ha v; bsplit; (destruct v; try apply k_refl); (apply k_bind; [now auto|]; now auto).
  - intros e b. split; [discriminate|]. intros _ v. destruct v; try apply k_refl. cbn [spelled ctype t_write_ty write_ty]. unfold with_pctx. rewrite pargs_pctx.
    unfold write_cstring. intros w. apply write_list_ext. intros x w'. apply k_byte.
  - intros _ m ctx stored todo acc. apply k_refl.
  - intros a t IH tl IHtl Ha m ctx stored todo acc. cbn [fields_apart] in Ha. bsplit. cbn [spelled_fields cfields]. rewrite write_cons. cbn [t_fields_write]. cbv zeta.
    destruct (IH (p_endian a) (p_bits a)) as [H1' H2'].
    change (p_kind (fill_field e0 t a)) with (p_kind a).
    change (field_value (fattrs_of (field_decl (fill_field e0 t a)) VNone) stored todo ctx acc) with (field_value (fattrs_of (field_decl a) VNone) stored todo ctx acc).
    change (field_rest (fattrs_of (field_decl (fill_field e0 t a)) VNone) todo) with (field_rest (fattrs_of (field_decl a) VNone) todo).
    apply k_bind; [|now apply IHtl]. rewrite spelled_decl. apply k_field. intros off. rewrite <- spelled_decl, !field_pargs. cbn [fill_field p_endian p_bits].
    assert (HT : forall v, like (t_write_ty e0 cu (ctype t) (pargs (p_endian a) (p_bits a)) v)
        (write_ty cu (ctype (spelled e0 t)) (pargs (if only_numbers t then fill e0 (p_endian a) else p_endian a) (p_bits a)) v)).
    { destruct (only_numbers t) eqn:Eo; [now apply H1'|]. apply H2'. cbn [orb] in *. assumption. }
    set (x := field_value _ _ _ _ _). clearbody x.
    destruct (p_kind a) as [|k size|k|n size]; cbn [holding t_write_ty write_ty].
    + apply HT.
    + destruct x; try apply k_refl. intros w. apply write_list_ext. intros y w'. apply HT.
    + destruct x; try apply k_refl. apply HT.
    + destruct x; try apply k_refl. intros w. apply write_list_ext. intros y w'. apply HT.
  - intros _ m p e b ctx wid1 wid2 k l _. apply k_refl.
  - intros n fs IHf tl IHtl Ha m p e b ctx wid1 wid2 k l Hw. cbn [variants_apart] in Ha. bsplit. cbn [spelled_variants cvariants].
    destruct k as [|k]; [|now apply IHtl]. rewrite write_variant_0. cbn [t_variant_write]. apply k_bind.
    + cbn [write_id v_sel en_id eattrs_of enum_decl k_id]. rewrite !id_pargs. apply Hw.
    + cbn [v_sel]. now apply (IHf ltac:(assumption) m).
Qed.
End Spelled.
