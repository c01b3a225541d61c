(** Proofs about plain declarations: the conditions of C48 to C52 and C55. *)
From Coq Require Import Lia ZifyBool ZifyNat ZifyN.
From Verif Require Import Base Spec Stream Reader Writer Prims CodecSpec Containers ContainerSpec Derive DeriveSpec DeriveSound SafeSpec WSafeSpec CanonSpec MoreSpec NeedSpec Decl PlainSpec PlainFacts.
Ltac Zify.zify_post_hook ::= Z.div_mod_to_equations.

Notation attrs a := (fattrs_of (field_decl a) VNone).
Lemma at_seek a : a_seek (attrs a) = None. Proof. reflexivity. Qed.
Lemma at_reader a : a_reader (attrs a) = None. Proof. reflexivity. Qed.
Lemma at_writer a : a_writer (attrs a) = None. Proof. reflexivity. Qed.
Lemma at_map a : a_map (attrs a) = None. Proof. reflexivity. Qed.
Lemma at_skip a : a_skip (attrs a) = None. Proof. reflexivity. Qed.
Lemma at_temp a : a_temp (attrs a) = false. Proof. reflexivity. Qed.
Lemma at_temp_value a : a_temp_value (attrs a) = None. Proof. reflexivity. Qed.
Lemma at_assert a : a_assert (attrs a) = None. Proof. reflexivity. Qed.
Lemma at_assert_eq a : a_assert_eq (attrs a) = None. Proof. reflexivity. Qed.
Lemma at_default a ctx fs off : a_default (attrs a) ctx fs off = VNone. Proof. reflexivity. Qed.
Lemma at_magic a : a_magic (attrs a) = p_magic a. Proof. destruct a as [e b k [|x m] p q]; reflexivity. Qed.
Lemma at_before a : a_pad_before (attrs a) = pad_of (pad (p_before a)) None. Proof. reflexivity. Qed.
Lemma at_after a : a_pad_after (attrs a) = pad_of (pad (p_after a)) None. Proof. reflexivity. Qed.
Lemma at_cond a : a_cond (attrs a) = match p_kind a with When k => Some (fun (_ fs : list value) (_ : nat) => flag_at fs k) | _ => None end.
Proof. reflexivity. Qed.
Lemma at_limit a : a_limit (attrs a) = match p_kind a with
  | Many k _ => Some (FCount (fun (_ fs : list value) (_ : nat) => Z.of_N (count_at fs k)))
  | Until n _ => Some (FUntil (fun (_ _ : list value) (_ : nat) (l : list value) => is_num n (last l VUnit)))
  | _ => None
  end.
Proof. unfold fattrs_of, limit_of. destruct a as [e b [] m p q]; reflexivity. Qed.
Lemma at_args m a ctx fs off : field_args (pc m) (attrs a) ctx fs off = pargs (p_endian a) (p_bits a).
Proof. apply field_pargs. Qed.
Lemma pad_none : eval0 (pad_of (pad 0) None) = fun _ _ => None.
Proof. reflexivity. Qed.
Lemma pad_whole n ctx fs : pad_plain true n = true -> eval0 (pad_of (pad n) None) ctx fs = None.
Proof. cbn. intros H. apply Nat.eqb_eq in H. now subst. Qed.
Lemma num_sized whole p e b : num_plain whole p e b = true -> sized (pcontext e b) /\ some_bits (pcontext e b) /\ 0 < prim_bytes p.
Proof.
  unfold num_plain. intros H. apply andb_true_iff in H. destruct H as [H0 H].
  destruct b as [n|]; [|destruct e; cbn; repeat split; lia]. apply andb_true_iff in H. destruct H as [H _]. apply andb_true_iff in H. destruct H as [H _].
  apply andb_true_iff in H. destruct H as [H _]. destruct e; cbn; repeat split; lia.
Qed.
Lemma vec_bytes_typed size bs : typed (TVec KVec size (TPrim PU8)) (vec_of_bytes bs).
Proof.
  unfold vec_of_bytes. cbn [typed_in]. split; [|now apply distinct_vec]. apply Forall_forall. intros x Hx. apply in_map_iff in Hx. destruct Hx as (b & <- & _). cbn [typed_in].
  change (2 ^ N.of_nat (prim_width PU8))%N with 256%N. pose proof (Byte.to_N_bounded b). lia.
Qed.

Definition sp (whole : bool) : spot := (SeekSource, if whole then Some 0 else None).
Definition starts (whole : bool) (p : spot) : Prop := fst p = SeekSource /\ (whole = true -> snd p = Some 0).
Lemma starts_sp whole : starts whole (sp whole).
Proof. split; [reflexivity|]. intros ->. reflexivity. Qed.
Lemma ends_sp whole p n : starts whole p -> at_byte whole n -> ends p (sp whole) n.
Proof.
  intros [H1 H2] HN. split; [intros _; exact H1|]. intros j E. destruct whole; [|discriminate]. cbn in E. injection E as <-.
  exists 0. split; [now apply H2|]. specialize (HN eq_refl). lia.
Qed.
Lemma num_rewritable whole p e b q : num_plain whole p e b = true -> starts whole q -> num_ok Msb0 q (sp whole) p None (pargs e b).
Proof.
  intros P HS. split; [reflexivity|]. exists (pcontext e b). split; [apply pargs_pctx|].
  assert (HW : at_byte whole (num_bits p b)) by (intros ->; exact (num_whole p e b P)).
  unfold num_plain in P. apply andb_true_iff in P. destruct P as [P0 P].
  unfold prim_ok. destruct b as [n|].
  - rewrite pcontext_bits. apply andb_true_iff in P. destruct P as [P P4]. apply andb_true_iff in P. destruct P as [P P3].
    apply andb_true_iff in P. destruct P as [P1 P2]. split; [reflexivity|]. split; [lia|]. split; [auto|]. split; [|now apply ends_sp].
    apply orb_prop in P3. destruct P3 as [P3|P3]; [apply orb_prop in P3; destruct P3 as [P3|P3]; [apply orb_prop in P3; destruct P3 as [P3|P3]|]|].
    + left. now destruct p.
    + right. left. lia.
    + destruct e as [x|]; [|discriminate]. right. right. left. now exists x.
    + destruct e as [x|]; [right; right; left; now exists x|]. right. right. right. split; [reflexivity|]. lia.
  - rewrite pcontext_none, pcontext_bytes. split; [lia|]. split; [left; auto|]. apply ends_sp; [exact HS|]. intros _. reflexivity.
Qed.

Section Plain.
Variable cu : nat -> custom.

Lemma plain_safe whole :
  (forall t e b seeks, plain_in whole t e b = true -> safe_ty cu whole seeks (ctype t) None (pargs e b)) /\
  (forall fs done acc m ctx seeks, fields_plain whole done fs = true -> before done acc ->
     fields_safe cu whole seeks (pc m) ctx (cfields fs) None acc) /\
  (forall vs m p e b ctx seeks id, variants_plain whole vs = true ->
     variants_safe cu whole seeks (eattrs_of (enum_decl m p e b)) ctx id (cvariants vs)).
Proof.
  apply plain_ind.
  - intros p e b seeks P. destruct (num_sized _ _ _ _ P) as (H1 & _ & H2). cbn [ctype safe_ty_in]. split; [reflexivity|]. split; [exact H2|].
    exists (pcontext e b). split; [apply pargs_pctx|exact H1].
  - intros e b seeks P. destruct (num_sized _ _ _ _ P) as (H1 & _ & H2). cbn [ctype safe_ty_in]. split; [reflexivity|].
    exists (pcontext e b). split; [apply pargs_pctx|exact H1].
  - intros n t IH e b seeks P. exact (IH e b seeks P).
  - intros m fs IH e b seeks P. cbn [plain_in] in P. bsplit. cbn [ctype]. split; [exact I|].
    refine (IH [] [] m _ seeks _ before_nil). assumption.
  - intros m p e' b' vs IH e b seeks P. cbn [plain_in] in P.
    apply andb_true_iff in P. destruct P as [P P7]. apply andb_true_iff in P. destruct P as [P P6]. apply andb_true_iff in P. destruct P as [P P5].
    apply andb_true_iff in P. destruct P as [P P4]. apply andb_true_iff in P. destruct P as [P P3].
    destruct (num_sized _ _ _ _ P3) as (H1 & _ & H2). cbn [ctype].
    change (safe_ty cu whole seeks (TPrim p) None (id_args (eattrs_of (enum_decl m p e' b')) (ctx_args (pc m) (pargs e b))) /\
      forall id, typed (TPrim p) id -> variants_safe cu whole seeks (eattrs_of (enum_decl m p e' b')) (ctx_args (pc m) (pargs e b)) id (cvariants vs)).
    rewrite id_pargs. split; [|intros id _; now apply IH]. split; [reflexivity|]. split; [exact H2|].
    exists (pcontext e' b'). split; [apply pargs_pctx|exact H1].
  - intros p e b seeks P. destruct (num_sized _ _ _ _ P) as (H1 & _ & H2). cbn [ctype safe_ty_in]. split; [reflexivity|]. split; [exact H2|].
    exists (pcontext e b). split; [apply pargs_pctx|exact H1].
  - intros s IHs t IHt e b seeks P. cbn [plain_in] in P. apply andb_true_iff in P. destruct P as [P1 P2].
    exact (conj (IHs e b seeks P1) (IHt e b seeks P2)).
  - intros e b seeks P. cbn [plain_in] in P. apply andb_true_iff in P. destruct P as [P1 P2].
    destruct (pargs_none e b P1 P2) as (-> & -> & ->). split; [reflexivity|]. now left.
  - intros. exact I.
  - intros a t IHt tl IHtl done acc m ctx seeks P B. rewrite fields_plain_cons in P.
    apply andb_true_iff in P. destruct P as [P P5]. apply andb_true_iff in P. destruct P as [P P4]. apply andb_true_iff in P. destruct P as [P P3].
    apply andb_true_iff in P. destruct P as [P1 P2].
    change (field_safe whole seeks (pc m) (attrs a) (holding (p_kind a) (ctype t)) (holding (p_kind a) (ctype t)) ctx acc
        (fun lim args => safe_ty cu whole seeks (holding (p_kind a) (ctype t)) lim args) /\
      forall v, typed (holding (p_kind a) (ctype t)) v -> SafeSpec.asserted (attrs a) ctx acc v -> fields_safe cu whole seeks (pc m) ctx (cfields tl) None (acc ++ [v])).
    split; [|intros v T _; exact (IHtl _ _ m ctx seeks P5 (before_snoc _ _ _ _ _ B T))].
    unfold field_safe_in. rewrite at_seek, at_before, at_after, at_reader, at_map, at_limit. split; [exact I|].
    split; [intros ->; now rewrite (pad_whole _ _ _ P3)|]. split; [intros v _ ->; now rewrite (pad_whole _ _ _ P4)|].
    unfold takes_default. rewrite at_skip, at_cond.
    split; [|intros off D; split; [|trivial]].
    + intros off D. rewrite at_default. destruct (p_kind a); try discriminate. exact I.
    + rewrite at_args. destruct (p_kind a) as [|k size|k|i size] eqn:EK; cbn [holding].
      * exact (IHt _ _ seeks P1).
      * destruct (eval_count k size done acc ctx whole a t EK P2 B off) as (-> & E1 & E2 & E3).
        destruct (is_vec_u8 (TVec KVec size (ctype t))) eqn:EV.
        -- unfold kind_plain in P2. rewrite EK in P2. destruct t as [[| |]| | | | | | |]; try discriminate. apply andb_true_iff in P2. destruct P2 as [_ P2].
           apply andb_true_iff in P2. destruct P2 as [-> _]. split; [reflexivity|]. split; [exact E3|]. apply vec_bytes_typed.
        -- exists (LCount (count_at acc k)). split; [reflexivity|]. split; [|exact (IHt _ _ false P1)]. split; [exact E1|]. split; [intros []|discriminate].
      * exact (IHt _ _ seeks P1).
      * cbn [eval_limit]. assert (G : safe_ty cu whole seeks (TVec KVec size (ctype t)) (Some (LUntil (fun l => is_num i (last l VUnit)))) (pargs (p_endian a) (p_bits a))).
        { exists (LUntil (fun l => is_num i (last l VUnit))). split; [reflexivity|]. split; [|exact (IHt _ _ false P1)].
          unfold kind_plain in P2. rewrite EK in P2. destruct t as [p| | | | | | |]; try discriminate.
          split; [exact I|]. split; [reflexivity|discriminate]. }
        destruct (is_vec_u8 (TVec KVec size (ctype t))); exact G.
  - intros. exact I.
  - intros id fs IHfs tl IHtl m p e b ctx seeks x P. cbn [variants_plain] in P. apply andb_true_iff in P. destruct P as [P1 P2].
    split; [|exact (IHtl m p e b ctx seeks x P2)]. intros _. exact (IHfs [] [] m ctx seeks P1 before_nil).
Qed.

Lemma plain_wsafe whole growing :
  (forall t e b, plain_in whole t e b = true -> wsafe_ty cu growing (ctype t) (pargs e b)) /\
  (forall fs done acc m ctx stored todo, fields_plain whole done fs = true ->
     fields_wsafe cu growing (pc m) ctx (cfields fs) None stored todo acc) /\
  (forall vs m p e b ctx (idok : value -> Prop), variants_plain whole vs = true -> (forall x, In x (ids vs) -> idok (VNum x)) ->
     variants_wsafe cu growing (eattrs_of (enum_decl m p e b)) ctx idok (cvariants vs)).
Proof.
  apply plain_ind.
  - intros p e b P. destruct (num_sized _ _ _ _ P) as (_ & H1 & _). exists (pcontext e b). split; [apply pargs_pctx|exact H1].
  - intros e b P. destruct (num_sized _ _ _ _ P) as (_ & H1 & _). exists (pcontext e b). split; [apply pargs_pctx|exact H1].
  - intros n t IH e b P. exact (IH e b P).
  - intros m fs IH e b P. cbn [plain_in] in P. bsplit. cbn [ctype]. split; [exact I|].
    intros l _. refine (IH [] [] m _ l l _). assumption.
  - intros m p e' b' vs IH e b P. cbn [plain_in] in P.
    apply andb_true_iff in P. destruct P as [P P7]. apply andb_true_iff in P. destruct P as [P P6]. apply andb_true_iff in P. destruct P as [P P5].
    apply andb_true_iff in P. destruct P as [P P4]. apply andb_true_iff in P. destruct P as [P P3].
    destruct (num_sized _ _ _ _ P3) as (_ & H1 & _). cbn [ctype].
    refine (IH m p e' b' (ctx_args (pc m) (pargs e b)) _ P7 _). intros x Hx. rewrite id_pargs. rewrite forallb_forall in P5. specialize (P5 x Hx).
    split; [|exists (pcontext e' b'); split; [apply pargs_pctx|exact H1]].
    cbn [typed_in]. apply N.ltb_lt in P5. unfold num_bits in P5. destruct b' as [n|]; [|exact P5]. unfold num_plain in P3.
    apply andb_true_iff in P3. destruct P3 as [_ P3]. apply andb_true_iff in P3. destruct P3 as [P3 _]. apply andb_true_iff in P3. destruct P3 as [P3 _].
    apply andb_true_iff in P3. destruct P3 as [_ P3]. apply N.lt_le_trans with (1 := P5). apply N.pow_le_mono_r; [lia|]. apply Nat.leb_le in P3. clear - P3. lia.
  - intros p e b P. destruct (num_sized _ _ _ _ P) as (_ & H1 & _). exists (pcontext e b). split; [apply pargs_pctx|exact H1].
  - intros s IHs t IHt e b P. cbn [plain_in] in P. apply andb_true_iff in P. destruct P as [P1 P2]. exact (conj (IHs e b P1) (IHt e b P2)).
  - intros e b P. cbn [plain_in] in P. apply andb_true_iff in P. destruct P as [P1 P2].
    destruct (pargs_none e b P1 P2) as (-> & -> & ->). exists C0. split; [reflexivity|exact I].
  - intros. exact I.
  - intros a t IHt tl IHtl done acc m ctx stored todo P. rewrite fields_plain_cons in P.
    apply andb_true_iff in P. destruct P as [P P5]. apply andb_true_iff in P. destruct P as [P P4]. apply andb_true_iff in P. destruct P as [P P3].
    apply andb_true_iff in P. destruct P as [P1 P2].
    change (let v := field_value (attrs a) stored todo ctx acc in
      field_wsafe growing (pc m) (attrs a) (holding (p_kind a) (ctype t)) stored ctx acc v
        (fun args => wsafe_ty cu growing (holding (p_kind a) (ctype t)) args) /\
      (SafeSpec.asserted (attrs a) ctx acc v -> fields_wsafe cu growing (pc m) ctx (cfields tl) None stored (field_rest (attrs a) todo) (acc ++ [v]))).
    cbv zeta. split; [|intros _; exact (IHtl _ _ m ctx stored _ P5)].
    unfold field_wsafe_in. rewrite at_seek, at_writer, at_temp. split; [exact I|]. intros off _. rewrite at_args.
    destruct (p_kind a); cbn [holding]; exact (IHt _ _ P1).
  - intros. exact I.
  - intros id fs IHfs tl IHtl m p e b ctx idok P HI. cbn [variants_plain] in P. apply andb_true_iff in P. destruct P as [P1 P2].
    split; [exact (HI id (or_introl eq_refl))|].
    split; [intros l _; exact (IHfs [] [] m ctx l l P1)|]. apply IHtl; [exact P2|]. intros x Hx. apply HI. now right.
Qed.

(** ** Reading and writing again *)

Lemma plain_rewritable whole :
  (forall t e b q, plain_in whole t e b = true -> unpadded t = true -> starts whole q ->
     rewritable cu Msb0 q (sp whole) (ctype t) None (pargs e b)) /\
  (forall fs done acc st m ctx q (due : list value -> Prop), fields_plain whole done fs = true -> fields_unpadded fs = true -> before done acc -> starts whole q ->
     (forall l, due l) -> fields_rewritable cu Msb0 q (sp whole) (pc m) ctx (cfields fs) st acc due) /\
  (forall vs m p e b ctx id q, variants_plain whole vs = true -> variants_unpadded vs = true -> starts whole q ->
     variants_rewritable cu Msb0 q (sp whole) (eattrs_of (enum_decl m p e b)) ctx id (TPrim p) (cvariants vs)).
Proof.
  apply plain_ind.
  - intros p e b q P _ HS. exact (num_rewritable whole p e b q P HS).
  - intros e b q P _ HS. exact (num_rewritable whole PU8 e b q P HS).
  - intros n t IH e b q P U HS. exists (sp whole). split; [apply ends_sp; [exact HS|intros _; reflexivity]|].
    split; [exact (IH e b _ P U (starts_sp whole))|]. apply ends_sp; [apply starts_sp|intros _; reflexivity].
  - intros m fs IH e b q P U HS. cbn [plain_in] in P. bsplit. split; [reflexivity|]. split; [right; now left|].
    refine (IH [] [] [] m _ q _ _ U before_nil HS (fun _ => I)). assumption.
  - intros m p e' b' vs IH e b q P U HS. cbn [plain_in] in P.
    apply andb_true_iff in P. destruct P as [P P7]. apply andb_true_iff in P. destruct P as [P P6]. apply andb_true_iff in P. destruct P as [P P5].
    apply andb_true_iff in P. destruct P as [P P4]. apply andb_true_iff in P. destruct P as [P P3].
    cbn [ctype].
    change ((c_magic (en_c (eattrs_of (enum_decl m p e' b'))) = [] \/ bytes_ok Msb0 q) /\
      exists s, rewritable cu Msb0 q s (TPrim p) None (id_args (eattrs_of (enum_decl m p e' b')) (ctx_args (pc m) (pargs e b))) /\
      forall id, typed (TPrim p) id -> variants_rewritable cu Msb0 s (sp whole) (eattrs_of (enum_decl m p e' b')) (ctx_args (pc m) (pargs e b)) id (TPrim p) (cvariants vs)).
    split; [right; now left|]. exists (sp whole). rewrite id_pargs. split; [exact (num_rewritable whole p e' b' q P3 HS)|].
    intros id _. exact (IH m p e' b' _ id _ P7 U (starts_sp whole)).
  - intros p e b q P _ HS. exact (num_rewritable whole p e b q P HS).
  - intros s IHs t IHt e b q P U HS. cbn [plain_in] in P. apply andb_true_iff in P. destruct P as [P1 P2].
    change (unpadded s && unpadded t = true) in U. apply andb_true_iff in U. destruct U as [U1 U2]. exists (sp whole).
    split; [exact (IHs e b q P1 U1 HS)|exact (IHt e b _ P2 U2 (starts_sp whole))].
  - intros e b q P _ HS. cbn [plain_in] in P. apply andb_true_iff in P. destruct P as [P1 P2].
    destruct (pargs_none e b P1 P2) as (-> & -> & ->). split; [reflexivity|]. split; [now left|]. split; [now left|].
    apply ends_sp; [exact HS|intros _; reflexivity].
  - intros done acc st m ctx q due _ _ _ HS HD. split; [apply ends_sp; [exact HS|intros _; reflexivity]|apply HD].
  - intros a t IHt tl IHtl done acc st m ctx q due P U B HS HD. rewrite fields_plain_cons in P.
    apply andb_true_iff in P. destruct P as [P P5]. apply andb_true_iff in P. destruct P as [P P4]. apply andb_true_iff in P. destruct P as [P P3].
    apply andb_true_iff in P. destruct P as [P1 P2].
    change (unpadded t && (p_before a =? 0) && (p_after a =? 0) && fields_unpadded tl = true) in U.
    apply andb_true_iff in U. destruct U as [U U4]. apply andb_true_iff in U. destruct U as [U U3]. apply andb_true_iff in U. destruct U as [U1 U2].
    apply Nat.eqb_eq in U2, U3.
    change (exists s, field_ok Msb0 q s (pc m) (attrs a) (holding (p_kind a) (ctype t)) (holding (p_kind a) (ctype t)) ctx acc
        (fun lim args => rewritable cu Msb0 q s (holding (p_kind a) (ctype t)) lim args) /\
      forall v, typed (holding (p_kind a) (ctype t)) v -> CanonSpec.known (attrs a) (holding (p_kind a) (ctype t)) ctx acc v ->
        fields_rewritable cu Msb0 s (sp whole) (pc m) ctx (cfields tl) (if a_temp (attrs a) then st else st ++ [v]) (acc ++ [v])
          (fun stored => due stored /\ match a_temp_value (attrs a) with Some f => a_temp (attrs a) = true -> f stored ctx acc = v | None => True end)).
    exists (sp whole). split.
    + unfold field_ok. rewrite at_seek, at_before, at_after, at_temp, at_map, at_reader, at_writer, at_skip, at_limit, U2, U3, !pad_none.
      split; [reflexivity|]. split; [right; now left|]. split; [reflexivity|]. split; [reflexivity|]. split; [discriminate|].
      split. { intros off off'. unfold assertions, cond_at. rewrite at_assert, at_assert_eq, at_cond, !at_args.
        split; [reflexivity|]. split; [|reflexivity]. now destruct (p_kind a). }
      intros off. cbv zeta. unfold cond_at. rewrite at_cond, at_args, at_default.
      destruct (p_kind a) as [|k size|k|i size] eqn:EK; cbn [holding option_map is_read is_written].
      * split; [reflexivity|]. split; [reflexivity|]. exact (IHt _ _ q P1 U1 HS).
      * split; [reflexivity|]. split; [reflexivity|].
        destruct (eval_count k size done acc ctx whole a t EK P2 B off) as (-> & E1 & E2 & E3).
        destruct (is_vec_u8 (TVec KVec size (ctype t))) eqn:EV.
        -- unfold kind_plain in P2. rewrite EK in P2. destruct t as [[| |]| | | | | | |]; try discriminate. apply andb_true_iff in P2. destruct P2 as [_ P2].
           apply andb_true_iff in P2. destruct P2 as [-> P2]. destruct HS as [HS1 HS2].
           split; [destruct q as [x y]; cbn in *; now rewrite HS1, (HS2 eq_refl)|]. split; [apply ends_sp; [split; assumption|intros _; reflexivity]|].
           destruct (p_bits a); [discriminate|]. exists (pcontext (p_endian a) None), (byte_order (p_endian a)), Msb0.
           split; [apply pargs_pctx|apply pcontext_bytes].
        -- split; [reflexivity|]. exists (LCount (count_at acc k)), (sp whole). split; [reflexivity|]. split; [apply ends_sp; [exact HS|intros _; reflexivity]|].
           split; [exact (IHt _ _ _ P1 U1 (starts_sp whole))|]. split; [apply ends_sp; [apply starts_sp|intros _; reflexivity]|discriminate].
      * destruct (flag_at acc k).
        -- split; [reflexivity|]. split; [reflexivity|]. exact (IHt _ _ q P1 U1 HS).
        -- split; [exact I|]. split; [apply ends_sp; [exact HS|intros _; reflexivity]|]. intros _. split; reflexivity.
      * split; [reflexivity|]. split; [reflexivity|]. cbn [eval_limit].
        split; [reflexivity|]. exists (LUntil (fun l => is_num i (last l VUnit))), (sp whole). split; [reflexivity|]. split; [apply ends_sp; [exact HS|intros _; reflexivity]|].
        split; [exact (IHt _ _ _ P1 U1 (starts_sp whole))|]. split; [apply ends_sp; [apply starts_sp|intros _; reflexivity]|discriminate].
    + intros v T _. rewrite at_temp, at_temp_value. apply (IHtl (done ++ [slot_of (p_kind a) t])); try assumption.
      * now apply before_snoc.
      * apply starts_sp.
      * intros l. split; [apply HD|exact I].
  - intros. exact I.
  - intros id fs IHfs tl IHtl m p e b ctx x q P U HS. cbn [variants_plain] in P. apply andb_true_iff in P. destruct P as [P1 P2].
    cbn [variants_unpadded] in U. apply andb_true_iff in U. destruct U as [U1 U2].
    split; [|exact (IHtl m p e b ctx x q P2 U2 HS)]. intros M. cbn [v_sel matches v_default] in M. rewrite Bool.orb_false_r in M.
    apply value_eqb_ok in M. split; [now symmetry|]. exact (IHfs [] [] [] m ctx q _ P1 U1 before_nil HS (fun _ => I)).
Qed.

(** ** Input that arrives in pieces *)

Lemma plain_blind more :
  (forall t, blind_to_end more cu (ctype t)) /\
  (forall fs m, every_field (fun c => forall f, c_seek c = Some f -> forall ctx, not_from_end (f ctx)) (fun _ => True)
    (fun _ a _ => (forall f, a_seek a = Some f -> forall ctx fs, not_from_end (f ctx fs)) /\ a_limit a <> Some FAll /\
       (forall f, a_reader a = Some f -> forall ctx fs off, unaffected more (f ctx fs off)))
    (fun k => forall args, unaffected more (cu_read (cu k) args)) (pc m) (cfields fs)) /\
  (forall vs m, every_variant (fun c => forall f, c_seek c = Some f -> forall ctx, not_from_end (f ctx)) (fun _ => True)
    (fun _ a _ => (forall f, a_seek a = Some f -> forall ctx fs, not_from_end (f ctx fs)) /\ a_limit a <> Some FAll /\
       (forall f, a_reader a = Some f -> forall ctx fs off, unaffected more (f ctx fs off)))
    (fun k => forall args, unaffected more (cu_read (cu k) args)) (pc m) (cvariants vs)).
Proof.
  apply plain_ind; try (intros; exact I).
  - intros n t IH. exact IH.
  - intros m fs IH. split; [discriminate|apply IH].
  - intros m p e b vs IH. split; [exact I|]. split; [exact I|apply IH].
  - intros s IHs t IHt. exact (conj IHs IHt).
  - intros a t IHt tl IHtl m. split; [|split; [|split; [|apply IHtl]]].
    + rewrite at_seek, at_reader, at_limit. split; [discriminate|]. split; [destruct (p_kind a); discriminate|discriminate].
    + destruct (p_kind a); exact IHt.
    + destruct (p_kind a); exact IHt.
  - intros id fs IHfs tl IHtl m. split; [apply IHfs|apply IHtl].
Qed.
Lemma plain_asking :
  (forall t, asking cu (ctype t)) /\
  (forall fs m, every_field (fun _ => True) (fun _ => True)
    (fun _ a _ => (forall f, a_reader a = Some f -> forall ctx fs off, asks (f ctx fs off)) /\
                  (forall f, a_map a = Some f -> forall ctx fs off v, f ctx fs off v <> Err (Incomplete 0)))
    (fun k => forall args, asks (cu_read (cu k) args)) (pc m) (cfields fs)) /\
  (forall vs m, every_variant (fun _ => True) (fun _ => True)
    (fun _ a _ => (forall f, a_reader a = Some f -> forall ctx fs off, asks (f ctx fs off)) /\
                  (forall f, a_map a = Some f -> forall ctx fs off v, f ctx fs off v <> Err (Incomplete 0)))
    (fun k => forall args, asks (cu_read (cu k) args)) (pc m) (cvariants vs)).
Proof.
  apply plain_ind; try (intros; exact I).
  - intros n t IH. exact IH.
  - intros m fs IH. split; [exact I|apply IH].
  - intros m p e b vs IH. split; [exact I|]. split; [exact I|apply IH].
  - intros s IHs t IHt. exact (conj IHs IHt).
  - intros a t IHt tl IHtl m. split; [|split; [|split; [|apply IHtl]]].
    + rewrite at_reader, at_map. split; discriminate.
    + destruct (p_kind a); exact IHt.
    + destruct (p_kind a); exact IHt.
  - intros id fs IHfs tl IHtl m. split; [apply IHfs|apply IHtl].
Qed.
End Plain.
