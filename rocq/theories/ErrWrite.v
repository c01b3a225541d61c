(** Errors of writing: lemmas behind C58. *)
From Coq Require Import Lia ZifyBool ZifyNat ZifyN.
From Verif Require Import Base MonadFacts Stream Reader Writer Prims Containers Derive DeriveSpec DeriveSound ErrSpec ErrRead.
Ltac Zify.zify_post_hook ::= Z.div_mod_to_equations.

(** ** Operations and their errors *)

Definition wnoseek (w : writer) : bool := match k_noseek (w_k w) with Some _ => true | None => false end.
Record wstep (w w' : writer) : Prop := {
  ws_fault : k_fault (w_k w') = k_fault (w_k w);
  ws_calls : k_calls (w_k w) <= k_calls (w_k w');
  ws_noseek : wnoseek w' = wnoseek w;
  ws_fixed : k_fixed (w_k w') = k_fixed (w_k w)
}.
(** [Q] (of: whether the sink has a fixed size, whether it is a [NoSeek], and the error)
    or reported by the sink. *)
Definition wblamed {A} (Q : bool -> bool -> derr -> Prop) (m : WM A) : Prop := forall w x w', m w = (x, w') ->
  wstep w w' /\ forall e, x = Err e -> Q (k_fixed (w_k w)) (wnoseek w) e \/ exists k, e = Io k /\ sink_reported (w_k w) (w_k w') k.

Lemma wstep_refl w : wstep w w.
Proof. split; auto. Qed.
Lemma wstep_trans a b c : wstep a b -> wstep b c -> wstep a c.
Proof. intros [F1 C1 N1 X1] [F2 C2 N2 X2]. split; [congruence|lia|congruence|congruence]. Qed.
Lemma wstep_same w w' : w_k w' = w_k w -> wstep w w'.
Proof. intros H. split; unfold wnoseek; now rewrite H. Qed.
Lemma sink_r a b c k : wstep a b -> wstep b c -> sink_reported (w_k b) (w_k c) k -> sink_reported (w_k a) (w_k c) k.
Proof. intros H1 H2 (j & n & Hj & E). exists j, n. rewrite (ws_fault _ _ H1) in E. split; [|exact E]. pose proof (ws_calls _ _ H1). lia. Qed.

Section Combinators.
Variable Q : bool -> bool -> derr -> Prop.
Lemma wblamed_same {A} (m : WM A) : (forall w, w_k (snd (m w)) = w_k w) -> (forall w e, fst (m w) <> Err e) -> wblamed Q m.
Proof.
  intros H1 H2 w x w' E. specialize (H1 w). specialize (H2 w). rewrite E in H1, H2. cbn in H1, H2. split; [now apply wstep_same|]. intros e ->. now destruct (H2 e).
Qed.
Lemma wblamed_ret {A} (a : A) : wblamed Q (ret a).
Proof. now apply wblamed_same. Qed.
Lemma wblamed_panic {A} : wblamed Q (@panic _ A).
Proof. now apply wblamed_same. Qed.
Lemma wblamed_diverge {A} : wblamed Q (@diverge _ A).
Proof. now apply wblamed_same. Qed.
Lemma wblamed_assert b : wblamed Q (assert_ b).
Proof. destruct b; [apply wblamed_ret|apply wblamed_panic]. Qed.
Lemma wblamed_mod f : (forall w, w_k (f w) = w_k w) -> wblamed Q (wmod f).
Proof. intros H. now apply wblamed_same. Qed.
Lemma wblamed_fail {A} e : (forall fx ns, Q fx ns e) -> wblamed Q (@fail _ A e).
Proof. intros H w x w' E. apply pair_inj in E. destruct E as [<- <-]. split; [apply wstep_refl|]. intros e' [= <-]. auto. Qed.
Lemma wblamed_bind {A B} (m : WM A) (f : A -> WM B) : wblamed Q m -> (forall a, wblamed Q (f a)) -> wblamed Q (bind m f).
Proof.
  intros Hm Hf w x w' E. unfold bind in E. destruct (m w) as [y w1] eqn:E1. destruct (Hm _ _ _ E1) as [S1 K1].
  destruct y as [a|e| |]; try (apply pair_inj in E; destruct E as [<- <-]; split; [exact S1|]; intros e' E'; try discriminate; injection E' as <-; exact (K1 e eq_refl)).
  destruct (Hf a _ _ _ E) as [S2 K2]. split; [exact (wstep_trans _ _ _ S1 S2)|]. intros e He. destruct (K2 e He) as [X|(k & -> & X)].
  - left. now rewrite (ws_noseek _ _ S1), (ws_fixed _ _ S1) in X.
  - right. exists k. split; [reflexivity|]. exact (sink_r _ _ _ _ S1 S2 X).
Qed.
Lemma wblamed_at {A B} (g : writer -> B) (m : B -> WM A) : (forall b, wblamed Q (m b)) -> wblamed Q (fun w => m (g w) w).
Proof. intros H w x w' E. exact (H (g w) w x w' E). Qed.
Lemma wblamed_all {A} (m : WM A) : (forall w, exists n, wblamed Q n /\ m w = n w) -> wblamed Q m.
Proof. intros H w x w' E. destruct (H w) as (n & Hn & En). rewrite En in E. exact (Hn w x w' E). Qed.
Lemma wblamed_if {A} (b : bool) (m n : WM A) : wblamed Q m -> wblamed Q n -> wblamed Q (if b then m else n).
Proof. now destruct b. Qed.
End Combinators.
Lemma wblamed_weak {A} (Q Q' : bool -> bool -> derr -> Prop) (m : WM A) : (forall fx ns e, Q fx ns e -> Q' fx ns e) -> wblamed Q m -> wblamed Q' m.
Proof. intros HQ H w x w' E. destruct (H w x w' E) as [S1 K]. split; [exact S1|]. intros e He. destruct (K e He); auto. Qed.

(** ** The writer *)

Definition Full (fx ns : bool) (e : derr) : Prop := fx = true /\ e = Io WriteZero.
Lemma wblamed_all_bytes buf : wblamed Full (w_write_all buf).
Proof.
  intros w x w' E. unfold w_write_all, k_write_all in E. cbv zeta in E.
  destruct (k_fault (w_k w) (k_calls (w_k w))) as [[k n]|] eqn:Ef; [|destruct (k_fixed (w_k w) && _) eqn:Ex]; apply pair_inj in E; destruct E as [<- <-].
  - split; [split; cbn; auto|]. intros e [= <-]. right. exists k. split; [reflexivity|]. exists (k_calls (w_k w)), n. split; [cbn; lia|exact Ef].
  - split; [split; cbn; auto|]. intros e [= <-]. left. apply andb_true_iff in Ex. now destruct Ex.
  - split; [|discriminate]. split; cbn; auto. unfold wnoseek. cbn. now destruct (k_noseek (w_k w)).
Qed.
Lemma wblamed_each bs : wblamed Full (w_write_each bs).
Proof. induction bs as [|b bs IH]; cbn [w_write_each]; [apply wblamed_ret|]. apply wblamed_bind; [apply wblamed_all_bytes|auto]. Qed.
Lemma wblamed_extend Q bs : wblamed Q (left_extend bs).
Proof. intros w x w' E. unfold left_extend in E. destruct (_ <=? _); apply pair_inj in E; destruct E as [<- <-]; (split; [now apply wstep_same|discriminate]). Qed.
Lemma wblamed_flush : wblamed Full flush_full.
Proof.
  apply wblamed_all. intros w. unfold flush_full. destruct (length (w_left w) =? 8).
  - eexists. split; [|reflexivity]. apply wblamed_bind; [apply wblamed_all_bytes|]. intros _. apply wblamed_bind; [now apply wblamed_mod|]. intros _. now apply wblamed_mod.
  - exists (ret tt). split; [apply wblamed_ret|reflexivity].
Qed.
Ltac wb := cbv zeta; repeat first
  [ apply wblamed_bind; [|intros]
  | apply wblamed_ret | apply wblamed_panic | apply wblamed_assert | apply wblamed_all_bytes | apply wblamed_each | apply wblamed_extend | apply wblamed_flush
  | apply wblamed_if
  | apply wblamed_mod; reflexivity
  | apply wblamed_same; [reflexivity|discriminate] ].
Lemma wblamed_bits bits o : wblamed Full (write_bits_order bits o).
Proof.
  apply wblamed_all. intros w. unfold write_bits_order. destruct (w_ord w), o; eexists; (split; [|reflexivity]).
  - unfold write_msb_msb. wb.
  - unfold write_msb_lsb. wb. destruct (_ =? 0); wb.
  - unfold write_lsb_msb. wb. destruct (_ =? 0); wb.
  - unfold write_lsb_lsb. wb.
Qed.
Lemma wblamed_bytes buf : wblamed Full (write_bytes buf).
Proof.
  apply wblamed_all. intros w. unfold write_bytes. destruct (negb _); eexists; (split; [|reflexivity]); [apply wblamed_bits|wb].
Qed.
Lemma wblamed_finalize : wblamed Full finalize.
Proof.
  apply wblamed_all. intros w. unfold finalize. cbv zeta. destruct (_ <? 8); [eexists; split; [apply wblamed_bits|reflexivity]|exists panic; split; [apply wblamed_panic|reflexivity]].
Qed.
Lemma wblamed_uint v n : wblamed Full (write_bits_uint_msb0 v n).
Proof. unfold write_bits_uint_msb0. wb. Qed.
Definition Seekw (s : option (option seekfrom)) (fx ns : bool) (e : derr) : Prop := s <> None /\ e = Io (if ns then OtherKind 0 else InvalidInput).
Lemma wblamed_seek s : wblamed (Seekw s) (write_seek s).
Proof.
  destruct s as [[t|]|]; cbn [write_seek]; [|apply wblamed_panic|apply wblamed_ret]. apply wblamed_bind; [|intros; apply wblamed_ret].
  intros w x w' E. unfold lift_io, w_seek, k_seek in E. cbn [w_k w_set_ord w_set_left] in E.
  destruct (k_fault (w_k w) (k_calls (w_k w))) as [[k n]|] eqn:Ef.
  - apply pair_inj in E. destruct E as [<- <-]. split; [split; cbn; auto|]. intros e [= <-]. right. exists k. split; [reflexivity|]. exists (k_calls (w_k w)), n. split; [cbn; lia|exact Ef].
  - destruct (k_noseek (w_k w)) as [v|] eqn:En.
    + destruct (noseek_target v t); apply pair_inj in E; destruct E as [<- <-]; (split; [split; cbn; auto|]); try discriminate.
      intros e [= <-]. left. split; [discriminate|]. unfold wnoseek. now rewrite En.
    + destruct (seek_target _ _ t); apply pair_inj in E; destruct E as [<- <-]; (split; [split; cbn; auto|]); try discriminate.
      intros e [= <-]. left. split; [discriminate|]. unfold wnoseek. now rewrite En.
Qed.

(** ** Integers and containers *)

Definition Put (s : Prop) (fx ns : bool) (e : derr) : Prop := Full fx ns e \/ (s /\ e = InvalidParam).
Lemma put_full {A} s (m : WM A) : wblamed Full m -> wblamed (Put s) m.
Proof. apply wblamed_weak. now left. Qed.
Lemma put_fail {A} (s : Prop) : s -> wblamed (Put s) (@fail _ A InvalidParam).
Proof. intros H. apply wblamed_fail. now right. Qed.
Section Ints.
Variable s : Prop.
Lemma put_chunks chunks o : forall n, wblamed Full (write_chunks chunks n o).
Proof.
  induction chunks as [|c tl IH]; intros n; cbn [write_chunks]; [apply wblamed_ret|]. apply wblamed_if; [apply wblamed_bits|]. apply wblamed_bind; [apply wblamed_bits|]. intros. apply IH.
Qed.
Lemma put_generic wb e n o v : s -> wblamed (Put s) (write_ebo_generic wb e n o v).
Proof.
  intros Hs. unfold write_ebo_generic. cbv zeta. apply wblamed_if; [now apply put_fail|].
  destruct e, o; try (apply wblamed_if; [now apply put_fail|]; try apply wblamed_if; apply put_full; first [apply put_chunks|apply wblamed_bits]).
  intros w x w' E. destruct (_ && _) in E.
  - destruct (_ <? _) in E; [exact (put_fail s Hs w x w' E)|exact (put_full s _ (wblamed_uint _ _) w x w' E)].
  - destruct (too_big_be _ _ _) in E; [exact (put_fail s Hs w x w' E)|exact (put_full s _ (wblamed_bits _ _) w x w' E)].
Qed.
Lemma put_u8 n o v : s -> wblamed (Put s) (write_u8_bits n o v).
Proof.
  intros Hs w x w' E. unfold write_u8_bits in E. destruct (_ && _) in E.
  - destruct (_ && _) in E; [exact (put_fail s Hs w x w' E)|exact (put_full s _ (wblamed_uint _ _) w x w' E)].
  - destruct (_ <? _) in E; [exact (put_fail s Hs w x w' E)|]. destruct (too_big_be _ _ _) in E; [exact (put_fail s Hs w x w' E)|exact (put_full s _ (wblamed_bits _ _) w x w' E)].
Qed.
Lemma put_eb p e n v : s -> wblamed (Put s) (write_eb p e n v).
Proof.
  intros Hs. destruct p as [|wb|wb]; cbn [write_eb]; [now apply put_u8| |].
  - unfold write_u_eb. cbv zeta. destruct e; repeat (apply wblamed_if; [now apply put_fail|]); apply put_full; first [apply put_chunks|apply wblamed_bits].
  - unfold write_i_eb. cbv zeta. destruct e; repeat (apply wblamed_if; [now apply put_fail|]); apply put_full; first [apply put_chunks|apply wblamed_bits].
Qed.
Lemma put_ebo p e n o v : s -> wblamed (Put s) (write_ebo p e n o v).
Proof. intros Hs. destruct p; cbn [write_ebo]; [now apply put_u8|now apply put_generic|now apply put_generic]. Qed.
Lemma put_eyo p e n v : (n = prim_bytes p \/ s) -> wblamed (Put s) (write_eyo p e n v).
Proof.
  intros Hs. destruct p as [|wb|wb]; cbn [write_eyo prim_bytes] in *; [apply put_full, wblamed_bytes| |]; unfold write_bytes_sized;
    (destruct Hs as [->|Hs]; [rewrite Nat.ltb_irrefl|apply wblamed_if; [now apply put_fail|]]; apply put_full, wblamed_bytes).
Qed.
Definition size_in (c : pctx) : Prop := match c with C0 | CE _ | CO _ | CEO _ _ => False | _ => True end.
Lemma put_prim p c v : (size_in c -> s) -> wblamed (Put s) (prim_write p c v).
Proof.
  intros Hs. destruct c; cbn [prim_write size_in] in *; try (apply put_full, wblamed_bytes); try (apply put_eb; auto); try (apply put_ebo; auto); apply put_eyo; auto.
Qed.
Lemma put_list {A} (m : A -> WM unit) Q : (forall a, wblamed Q (m a)) -> forall l, wblamed Q (write_list m l).
Proof. intros H. induction l as [|a l IH]; cbn [write_list]; [apply wblamed_ret|]. apply wblamed_bind; [apply H|auto]. Qed.
Lemma put_magic m : wblamed Full (write_magic m).
Proof. apply put_list. intros. apply wblamed_bytes. Qed.
Lemma put_padloop o f : forall n, wblamed Full (pad_loop f n o).
Proof. induction f as [|f IH]; intros [|n]; cbn [pad_loop]; try apply wblamed_ret; [apply wblamed_diverge|]. cbv zeta. apply wblamed_bind; [apply wblamed_bits|auto]. Qed.
Lemma put_pad p o : (forall z, p = Some z -> to_usize z = None -> s) -> wblamed (Put s) (write_pad p o).
Proof.
  intros H. destruct p as [z|]; cbn [write_pad]; [|apply wblamed_ret]. destruct (to_usize z) as [n|] eqn:E; [|apply put_fail; eauto].
  apply put_full. exact (put_padloop _ _ _).
Qed.
End Ints.
Lemma pctx_sized args c : pctx_of args = Some c -> size_in c -> sized args.
Proof.
  intros H. destruct args as [|[] [|[] [|[] [|]]]]; try discriminate; injection H as <-; cbn; try contradiction; intros _; eexists; cbn; eauto.
Qed.

(** ** Derived types *)

Definition wcause (h : search) (args : list value) (fx ns : bool) (e : derr) : Prop :=
  match e with
  | Incomplete _ | Parse | IdVariantNotFound => False
  | Assertion => h can_assert nowhere
  | InvalidParam => sized args \/ h (fun a t => bad_pad a t \/ field_sized a t) id_sized
  | Io x => (x = WriteZero /\ fx = true) \/ (x = (if ns then OtherKind 0 else InvalidInput) /\ h seeks struct_seeks)
  end.
Lemma wcause_mono (h h' : search) args fx ns e : (forall F N, h F N -> h' F N) -> wcause h args fx ns e -> wcause h' args fx ns e.
Proof. intros H. destruct e; cbn; auto; intros [X|X]; auto; destruct X; auto. Qed.
Lemma wcause_args (h : search) args args' fx ns e : (sized args -> sized args' \/ h (fun a t => bad_pad a t \/ field_sized a t) id_sized) ->
  wcause h args fx ns e -> wcause h args' fx ns e.
Proof. intros H. destruct e; cbn; auto. intros [X|X]; auto. Qed.
Lemma wcause_put (h : search) (s : Prop) args fx ns e : (s -> sized args \/ h (fun a t => bad_pad a t \/ field_sized a t) id_sized) -> Put s fx ns e -> wcause h args fx ns e.
Proof. intros H [[-> ->]|[X ->]]; cbn; auto. Qed.
Lemma wcause_full (h : search) args fx ns e : Full fx ns e -> wcause h args fx ns e.
Proof. intros [-> ->]. cbn. auto. Qed.

Lemma opt_in {A} (f : A -> value) (x : option A) v : In v (opt_list (option_map f x)) -> exists a, x = Some a /\ v = f a.
Proof. destruct x as [a|]; cbn; [|contradiction]. intros [<-|[]]. eauto. Qed.
Lemma args_sized e bits bytes o ctx : sized (args_of e bits bytes o ctx) -> bits <> None \/ bytes <> None \/ sized ctx.
Proof.
  intros [n H]. unfold args_of in H. rewrite !in_app_iff in H.
  assert (X : forall v, (v = VBits n \/ v = VBytes n) ->
    In v (opt_list (option_map VEnd e)) \/ In v (opt_list (option_map VBits bits)) \/ In v (opt_list (option_map VBytes bytes)) \/ In v (opt_list (option_map VOrd o)) \/ In v ctx ->
    bits <> None \/ bytes <> None \/ sized ctx).
  { intros v Hv [I|[I|[I|[I|I]]]]; try (apply opt_in in I; destruct I as (a & Ha & ->)).
    - destruct Hv; discriminate.
    - left. rewrite Ha. discriminate.
    - right. left. rewrite Ha. discriminate.
    - destruct Hv; discriminate.
    - right. right. exists n. destruct Hv as [<-|<-]; auto. }
  destruct H as [H|H]; [apply (X (VBits n))|apply (X (VBytes n))]; auto.
Qed.
Lemma eval0_some {A} (x : option (expr0 A)) ctx fs : eval0 x ctx fs <> None -> x <> None.
Proof. destruct x; cbn; congruence. Qed.
Lemma field_args_sized c a t ctx fs off : sized (field_args c a ctx fs off) -> field_sized a t.
Proof.
  intros H. apply args_sized in H. unfold field_sized. destruct H as [H|[H|H]]; [left|right; left|right; right; eauto]; exact (eval0_some _ _ _ H).
Qed.
Lemma id_args_sized e ctx : sized (id_args e ctx) -> id_sized (Enum e).
Proof. intros H. apply args_sized in H. destruct H as [H|[H|[n [[]|[]]]]]; [left|right]; exact (eval0_some _ _ _ H). Qed.
Lemma stored_args_sized e ctx : sized (stored_id_args e ctx) -> id_sized (Enum e).
Proof. intros H. apply args_sized in H. destruct H as [H|[H|[n [[]|[]]]]]; [left|right]; exact (eval0_some _ _ _ H). Qed.

Section Types.
Variable (cu : nat -> custom).

Lemma wblamed_field (a : fattrs) (t : ty) (h : search) c stored ctx fs v wr any : (forall (F : fattrs -> ty -> Prop) (N : node -> Prop), F a t -> h F N) ->
  a_writer a = None -> (forall args x, wblamed (wcause h args) (wr args x)) ->
  wblamed (wcause h any) (write_field c a stored ctx fs v wr).
Proof.
  intros sub Hw Hwr.
  assert (HP : forall p cx fs0 o, (exists f, p = Some f /\ (a_pad_before a = Some f \/ a_pad_after a = Some f)) \/ p = None -> wblamed (wcause h any) (write_pad (eval0 p cx fs0) o)).
  { intros p cx fs0 o Hp. refine (wblamed_weak (Put (bad_pad a t)) _ _ _ (put_pad _ _ _ _)).
    - intros fx ns e. apply wcause_put. intros X. right. apply sub. now left.
    - intros z Hz Hu. destruct Hp as [(f & -> & Hf)| ->]; [|discriminate]. injection Hz as <-. exists f, cx, fs0. split; [exact Hf|]. now apply usize_none. }
  unfold write_field. apply wblamed_bind.
  { refine (wblamed_weak (Seekw _) _ _ _ (wblamed_seek _)). intros fx ns e [X ->]. right. split; [reflexivity|]. apply sub. unfold seeks. destruct (a_seek a); [discriminate|contradiction]. }
  intros _. apply wblamed_bind; [refine (wblamed_weak Full _ _ _ (put_magic _)); intros fx ns e; apply wcause_full|]. intros _.
  apply wblamed_bind; [apply HP; destruct (a_pad_before a); eauto|]. intros _.
  apply (wblamed_at (wcause h any) w_bits (fun off =>
    let* _ := asserts a ctx fs off v in
    let* _ := field_write_tokens a ctx fs off (field_write_func c a stored ctx fs off v wr) in
    write_pad (eval0 (a_pad_after a) ctx (fs ++ [v])) (field_order c a ctx fs))). intros off.
  apply wblamed_bind; [|intros _; apply wblamed_bind; [|intros _; apply HP; destruct (a_pad_after a); eauto]].
  - unfold asserts. apply wblamed_bind.
    + destruct (a_assert a) as [f|] eqn:Ea; [|apply wblamed_ret]. unfold check. destruct (f ctx (fs ++ [v]) off) eqn:Ef; [apply wblamed_ret|]. apply wblamed_fail. intros fx ns. apply sub. left. eauto 8.
    + intros _. destruct (a_assert_eq a) as [f|] eqn:Ea; [|apply wblamed_ret]. unfold check. apply wblamed_if; [apply wblamed_ret|]. apply wblamed_fail. intros fx ns. apply sub. right. rewrite Ea. discriminate.
  - assert (HW : wblamed (wcause h any) (wr (field_args c a ctx fs off) v)).
    { refine (wblamed_weak _ _ _ _ (Hwr _ _)). intros fx ns e. apply wcause_args. intros X. right. apply sub. right. exact (field_args_sized _ _ _ _ _ _ X). }
    assert (HN : wblamed (wcause h any) (field_write_func c a stored ctx fs off v wr)).
    { unfold field_write_func. rewrite Hw. cbv zeta. apply wblamed_if; [|exact HW]. destruct (a_temp_value a); [exact HW|apply wblamed_ret]. }
    unfold field_write_tokens. destruct (a_skip a) as [[| |]|], (a_cond a); first [exact HN|apply wblamed_ret|apply wblamed_if; first [exact HN|apply wblamed_ret]].
Qed.

Definition in_tyw (t : ty) : search := fun F N => has false F N t.
Definition in_fieldsw (fs : fields) : search := fun F N => fields_have false F N fs.
Definition in_variantsw (vs : variants) : search := fun F N => variants_have false F N vs.
Definition size_err (h : search) : Prop := h (fun a t => bad_pad a t \/ field_sized a t) id_sized.

Lemma wblamed_types :
  (forall t, derived_write t -> forall args v, wblamed (wcause (in_tyw t) args) (write_ty cu t args v)) /\
  (forall fs, ~ fields_have false hand_written any_custom fs -> forall (h : search), (forall F N, in_fieldsw fs F N -> h F N) ->
     forall c ctx id stored todo acc any, (forall args, id = Some args -> sized args -> size_err h) ->
     wblamed (wcause h any) (fields_write cu c ctx fs id stored todo acc)) /\
  (forall vs, ~ variants_have false hand_written any_custom vs -> forall (h : search), (forall F N, in_variantsw vs F N -> h F N) ->
     forall e ctx wid k l any, (sized (stored_id_args e ctx) -> size_err h) -> (forall x, wblamed (wcause h any) (wid (id_args e ctx) x)) ->
     wblamed (wcause h any) (variant_write cu e ctx wid vs k l)).
Proof.
  assert (HP : forall args h (k : pctx -> WM unit), (forall c, wblamed (Put (size_in c)) (k c)) -> wblamed (wcause h args) (with_pctx None args k)).
  { intros args h k H. unfold with_pctx. destruct (pctx_of args) as [c|] eqn:E; [|apply wblamed_panic].
    refine (wblamed_weak _ _ _ _ (H c)). intros fx ns e. apply wcause_put. intros X. left. exact (pctx_sized _ _ E X). }
  apply types_ind; unfold derived_write; cbn [has fields_have variants_have].
  - intros p _ args v. cbn [write_ty]. destruct v; try apply wblamed_panic. apply HP. intros c. now apply put_prim.
  - intros _ args v. cbn [write_ty]. destruct v; try apply wblamed_panic. apply HP. intros c. unfold write_bool. now apply put_prim.
  - intros p _ args v. cbn [write_ty]. destruct v; try apply wblamed_panic. apply HP. intros c. now apply put_prim.
  - intros. apply wblamed_ret.
  - intros _ args v. cbn [write_ty]. destruct v; try apply wblamed_panic. apply HP. intros c. unfold write_cstring. apply put_list. intros. now apply put_prim.
  - intros t IH Hd args v. cbn [write_ty]. destruct v; try apply wblamed_panic; [apply (IH Hd)|apply wblamed_ret].
  - intros t IHt u IHu Hd args v. cbn [write_ty]. destruct v; try apply wblamed_panic. apply wblamed_bind; [|intros _].
    + refine (wblamed_weak _ _ _ _ (IHt _ args _)); [|tauto]. intros fx ns e. apply wcause_mono. intros F N. now left.
    + refine (wblamed_weak _ _ _ _ (IHu _ args _)); [|tauto]. intros fx ns e. apply wcause_mono. intros F N. now right.
  - intros n t IH Hd args v. cbn [write_ty]. destruct v; try apply wblamed_panic. apply put_list. intros. apply (IH Hd).
  - intros pl size t IH Hd args v. cbn [write_ty]. destruct v; try apply wblamed_panic. apply put_list. intros. apply (IH Hd).
  - intros c fs IH Hd args v. destruct v as [| | | | | |l| | | | |]; try apply wblamed_panic. rewrite write_struct. apply wblamed_bind.
    { refine (wblamed_weak (Seekw _) _ _ _ (wblamed_seek _)). intros fx ns e [X ->]. right. split; [reflexivity|]. left. cbn. destruct (c_seek c); [discriminate|contradiction]. }
    intros _. apply wblamed_bind; [refine (wblamed_weak Full _ _ _ (put_magic _)); intros fx ns e; apply wcause_full|]. intros _.
    apply IH; [tauto| |discriminate]. intros F N. now right.
  - intros e idt IHid vs IH Hd args v. destruct v; try apply wblamed_panic. rewrite write_enum.
    apply wblamed_bind; [refine (wblamed_weak Full _ _ _ (put_magic _)); intros fx ns x; apply wcause_full|]. intros _.
    apply IH; [tauto| | |].
    + intros F N. right. now right.
    + intros X. left. exact (stored_args_sized _ _ X).
    + intros x. refine (wblamed_weak _ _ _ _ (IHid _ _ _)); [|tauto]. intros fx ns y H.
      apply (wcause_args _ (id_args e (ctx_args (en_c e) args))); [intros X; right; left; exact (id_args_sized _ _ X)|].
      revert H. apply wcause_mono. intros F N. right. now left.
  - intros k Hd. destruct Hd. exact I.
  - intros. apply wblamed_ret.
  - intros a t IHt w _ tl IHtl Hd h Hh c ctx id stored todo acc any Hid. rewrite write_cons. apply wblamed_bind; [|intros _; apply IHtl; [tauto| |discriminate]].
    + assert (Hr : a_writer a = None) by (destruct (a_writer a) eqn:E; [destruct Hd; left; unfold hand_written; rewrite E; discriminate|reflexivity]).
      assert (Ht : forall args x, wblamed (wcause h args) (write_ty cu t args x)).
      { intros args x. refine (wblamed_weak _ _ _ _ (IHt _ args x)); [|tauto]. intros fx ns y. apply wcause_mono. intros F N X. apply Hh. right. now left. }
      destruct id as [args|].
      * refine (wblamed_weak _ _ _ _ (Ht args _)). intros fx ns y. apply wcause_args. intros X. right. exact (Hid args eq_refl X).
      * apply (wblamed_field a t); [|exact Hr|exact Ht]. intros F N X. apply Hh. now left.
    + intros F N X. apply Hh. right. now right.
  - intros. apply wblamed_panic.
  - intros v fs IHf tl IHtl Hd h Hh e ctx wid k l any Hs Hid. destruct k as [|k].
    + rewrite write_variant_0. apply wblamed_bind.
      * unfold write_id. destruct (en_id e); [apply wblamed_ret|]. destruct (v_sel v) as [x|p [d|]|x]; try apply Hid; (apply wblamed_if; [first [apply Hid|apply wblamed_panic]|apply wblamed_ret]).
      * intros _. apply IHf; [tauto|intros F N X; apply Hh; now left|]. intros args E X. destruct (v_sel v); try discriminate. injection E as <-. exact (Hs X).
    + change (wblamed (wcause h any) (variant_write cu e ctx wid tl k l)). apply IHtl; [tauto|intros F N X; apply Hh; now right|exact Hs|exact Hid].
Qed.

(** ** The API *)

(** Any sink: [to_writer] and [finalize]. *)
Lemma to_writer_cause t v k e w : derived_write t -> (let* _ := write_ty cu t [] v in finalize) (writer_new k) = (Err e, w) -> write_cause t k (w_k w) e.
Proof.
  intros Hd E.
  match type of E with ?m ?r = _ => assert (H : wblamed (wcause (in_tyw t) []) m) end.
  { apply wblamed_bind; [now apply wblamed_types|]. intros _. refine (wblamed_weak Full _ _ _ wblamed_finalize). intros fx ns x. apply wcause_full. }
  destruct (H _ _ _ E) as [_ K]. specialize (K e eq_refl). cbn [w_k writer_new] in K. unfold wnoseek in K. cbn [w_k writer_new] in K.
  destruct K as [K|(x & -> & K)]; [|left; exact K]. destruct e; cbn in *; try exact K.
  - destruct K as [[n [[]|[]]]|K]; exact K.
  - destruct K as [K|K]; [tauto|]. right. right. now destruct (k_noseek k).
Qed.
Lemma vec_of_write t k' e : write_cause t vec_sink k' e -> vec_cause t e.
Proof. destruct e; auto. intros [(j & n & _ & X)|[[_ X]|X]]; [discriminate|discriminate|exact X]. Qed.
Lemma to_bytes_cause t v e : derived_write t -> to_bytes cu t v = Err e -> vec_cause t e.
Proof.
  intros Hd E. unfold to_bytes, to_bytes_with in E. destruct ((let* _ := write_ty cu t [] v in finalize) (writer_new vec_sink)) as [x w] eqn:E1. destruct x; try discriminate. injection E as ->.
  exact (vec_of_write _ _ _ (to_writer_cause _ _ _ _ _ Hd E1)).
Qed.
Lemma to_bits_cause t v e : derived_write t -> to_bits cu t v = Err e -> vec_cause t e.
Proof.
  intros Hd E. unfold to_bits, to_bits_with in E. destruct (write_ty cu t [] v (writer_new vec_sink)) as [x w] eqn:E1. destruct x; try discriminate. injection E as ->.
  apply (vec_of_write _ (w_k w)). refine (to_writer_cause _ v _ _ w Hd _). unfold bind. now rewrite E1.
Qed.
Lemma to_slice_cause t v buf e buf' : derived_write t -> to_slice cu t v buf = (Err e, buf') -> vec_cause t e \/ e = Io WriteZero.
Proof.
  intros Hd E. unfold to_slice, to_slice_with in E. destruct ((let* _ := write_ty cu t [] v in finalize) (writer_new (slice_sink buf))) as [x w] eqn:E1. destruct x; try discriminate. injection E as -> _.
  pose proof (to_writer_cause _ _ _ _ _ Hd E1) as H. destruct e; auto. destruct H as [(j & n & _ & X)|[[-> X]|X]]; [discriminate|now right|left; exact X].
Qed.
End Types.

Section Never.
Variables (F F' : fattrs -> ty -> Prop) (N N' : node -> Prop) (rd : bool).
Hypothesis HF : forall a t, F a t -> F' a t.
Hypothesis HN : forall n, N n -> N' n.
Lemma has_mono : (forall t, has rd F N t -> has rd F' N' t) /\ (forall fs, fields_have rd F N fs -> fields_have rd F' N' fs) /\ (forall vs, variants_have rd F N vs -> variants_have rd F' N' vs).
Proof.
  destruct rd; apply types_ind; cbn [has fields_have variants_have]; intuition auto.
Qed.
End Never.
Lemma never_fails cu t : ~ has false (fun a t => hand_written a t \/ can_assert a t \/ bad_pad a t \/ field_sized a t \/ seeks a t) (fun n => any_custom n \/ id_sized n \/ struct_seeks n) t ->
  (forall v e, to_bytes cu t v <> Err e) /\ (forall v e, to_bits cu t v <> Err e) /\ (forall v buf e buf', to_slice cu t v buf = (Err e, buf') -> e = Io WriteZero).
Proof.
  intros H.
  assert (Hm : forall (F : fattrs -> ty -> Prop) (N : node -> Prop), (forall a t, F a t -> hand_written a t \/ can_assert a t \/ bad_pad a t \/ field_sized a t \/ seeks a t) -> (forall n, N n -> any_custom n \/ id_sized n \/ struct_seeks n) -> ~ has false F N t)
    by (intros F N HF HN X; apply H; revert X; now apply has_mono).
  assert (Hd : derived_write t) by (apply Hm; tauto).
  assert (Hv : forall e, ~ vec_cause t e).
  { intros e X. destruct e; cbn in X; try contradiction; [..|destruct X as [_ X]]; revert X; apply Hm; unfold nowhere; tauto. }
  repeat split.
  - intros v e E. exact (Hv e (to_bytes_cause cu _ _ _ Hd E)).
  - intros v e E. exact (Hv e (to_bits_cause cu _ _ _ Hd E)).
  - intros v buf e buf' E. destruct (to_slice_cause cu _ _ _ _ _ Hd E) as [X|X]; [destruct (Hv e X)|exact X].
Qed.

(** ** Update, deku_id *)

Lemma update_fields_cause e fs : forall pre todo, update_fields fs pre todo = Err e -> some_field (update_fails e) fs.
Proof.
  induction fs as [|a t w tl IH]; intros pre todo E; cbn [update_fields some_field] in *; [discriminate|]. destruct (a_temp a); [right; eauto|].
  destruct todo as [|v rest]; [discriminate|]. destruct (a_update a) as [f|] eqn:Ea; [|right; eauto].
  destruct (f (pre ++ v :: rest)) as [v'|x| |] eqn:Ef; cbn in E; try discriminate; [right; eauto|]. injection E as ->. left. exists f, (pre ++ v :: rest). auto.
Qed.
Lemma update_errs t v e : update t v = Err e -> update_cause t v e.
Proof.
  intros E. unfold update, update_cause in *. destruct t; try discriminate; destruct v; try discriminate.
  - destruct (update_fields _ _ _) eqn:E1; try discriminate. injection E as ->. exact (update_fields_cause _ _ _ _ E1).
  - destruct (nth_variant _ _) as [[va fs']|]; [|discriminate]. destruct (update_fields _ _ _) eqn:E1; try discriminate. injection E as ->. exact (update_fields_cause _ _ _ _ E1).
Qed.
Lemma deku_id_errs vs : forall k e, deku_id vs k = Err e -> e = IdVariantNotFound.
Proof.
  induction vs as [|v fs tl IH]; intros k e E; cbn [deku_id] in E; [congruence|]. destruct k; [|eauto]. destruct (v_sel v); congruence.
Qed.
