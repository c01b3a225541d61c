(** Proofs about declarations that say the same in other words, C88. *)
From Coq Require Import Lia.
From Verif Require Import Base MonadFacts Stream Reader Writer Prims Containers Derive DeriveSpec DeriveSound DeriveFacts CanonFacts SugarSpec Sugar RewordSpec.

Scheme reworded_mind := Minimality for reworded Sort Prop
with reworded_fields_mind := Minimality for reworded_fields Sort Prop
with reworded_variants_mind := Minimality for reworded_variants Sort Prop.
Combined Scheme reworded_ind3 from reworded_mind, reworded_fields_mind, reworded_variants_mind.

Lemma q_sym {S A} (m m' : ST S A) : eqv m m' -> eqv m' m.
Proof. intros H s. symmetry. apply H. Qed.
Lemma q_trans {S A} (m m' m'' : ST S A) : eqv m m' -> eqv m' m'' -> eqv m m''.
Proof. intros H G s. now rewrite H. Qed.
Lemma q_assoc {S A B C} (m : ST S A) (f : A -> ST S B) (g : B -> ST S C) : eqv (bind (bind m f) g) (let* x := m in bind (f x) g).
Proof. intros s. apply bind_assoc. Qed.
Lemma q_ret {S A B} (x : A) (f : A -> ST S B) : eqv (let* y := ret x in f y) (f x).
Proof. intros s. reflexivity. Qed.
Definition prim_head (t : ty) : option prim := match t with TPrim p => Some p | _ => None end.
Lemma head_vec k size t t' : prim_head t = prim_head t' -> is_vec_u8 (TVec k size t) = is_vec_u8 (TVec k size t').
Proof. intros H. destruct k; cbn [is_vec_u8]; try reflexivity. destruct t, t'; try discriminate H; try reflexivity; injection H as ->; reflexivity. Qed.

(** ** One field with other attributes *)

Section Field.
Variables (c : cattrs) (a a' : fattrs).
Hypothesis (HR : a_reader a' = a_reader a) (HT : a_temp a' = a_temp a) (HV : a_temp_value a' = a_temp_value a)
  (RF : forall u ctx fs rd, eqv (read_field c a u ctx fs rd) (read_field c a' u ctx fs rd))
  (WF : forall stored ctx fs v wr, eqv (write_field c a stored ctx fs v wr) (write_field c a' stored ctx fs v wr)).
Lemma field_reads cu fuel ctx t wire tl id acc : eqv (fields_read cu fuel c ctx (FCons a t wire tl) id acc) (fields_read cu fuel c ctx (FCons a' t wire tl) id acc).
Proof.
  rewrite !read_cons, HR, HT. apply q_bind; [|intros v; apply q_refl]. destruct id as [x|]; [destruct (a_reader a); [apply RF|apply q_refl]|apply RF].
Qed.
Lemma field_writes cu ctx t wire tl id stored todo acc :
  eqv (fields_write cu c ctx (FCons a t wire tl) id stored todo acc) (fields_write cu c ctx (FCons a' t wire tl) id stored todo acc).
Proof.
  rewrite !write_cons. unfold field_rest. replace (field_value a' stored todo ctx acc) with (field_value a stored todo ctx acc) by (unfold field_value; now rewrite HT, HV).
  rewrite HT. apply q_bind; [|intros v; apply q_refl]. destruct id as [args|]; [apply q_refl|apply WF].
Qed.
End Field.

Definition says (free : bool) (c : cattrs) (fs fs' : fields) : Prop :=
  no_fields fs = no_fields fs' /\
  (forall cu fuel ctx id acc, (free = true -> id = None) -> eqv (fields_read cu fuel c ctx fs id acc) (fields_read cu fuel c ctx fs' id acc)) /\
  (forall cu ctx id stored todo acc, (free = true -> id = None) -> eqv (fields_write cu c ctx fs id stored todo acc) (fields_write cu c ctx fs' id stored todo acc)).
Lemma says_field free c a a' t wire tl : a_reader a' = a_reader a -> a_temp a' = a_temp a -> a_temp_value a' = a_temp_value a ->
  (forall u ctx fs rd, eqv (read_field c a u ctx fs rd) (read_field c a' u ctx fs rd)) ->
  (forall stored ctx fs v wr, eqv (write_field c a stored ctx fs v wr) (write_field c a' stored ctx fs v wr)) ->
  says free c (FCons a t wire tl) (FCons a' t wire tl).
Proof. intros. split; [reflexivity|]. split; intros; [now apply field_reads|now apply field_writes]. Qed.

Lemma asserts_same {S} g f a ctx fs off v : eqv (@asserts S (asserting g (Some f) a) ctx fs off v) (asserts (asserting (Some (and_equal g f)) None a) ctx fs off v).
Proof.
  unfold asserts, and_equal, check. cbn [asserting a_assert a_assert_eq]. rewrite last_last, removelast_last. intros s. unfold bind, ret, fail.
  destruct g as [g|]; [destruct (g _ _ _)|]; cbn [andb]; try reflexivity; destruct (value_eqb _ _); reflexivity.
Qed.
Lemma q_asserts c g f a t wire tl free : says free c (FCons (asserting g (Some f) a) t wire tl) (FCons (asserting (Some (and_equal g f)) None a) t wire tl).
Proof.
  apply says_field; try reflexivity.
  - intros u ctx fs rd. unfold read_field. cbn [asserting a_seek a_magic a_pad_before a_pad_after]. do 3 (apply q_bind; [apply q_refl|intros _]).
    intros r. cbv zeta. apply q_bind; [apply q_refl|]. intros v. apply q_bind; [apply asserts_same|intros _; apply q_refl].
  - intros stored ctx fs v wr. unfold write_field. cbn [asserting a_seek a_magic a_pad_before a_pad_after]. do 3 (apply q_bind; [apply q_refl|intros _]).
    intros w. cbv zeta. apply q_bind; [apply asserts_same|intros _; apply q_refl].
Qed.
(** Reading and writing differ only in whether the field is skipped. *)
Lemma q_skips c s f d s' f' d' a t wire tl free :
  (forall ctx fs off m, eqv (field_read_tokens (skipping s f d a) ctx fs off m) (field_read_tokens (skipping s' f' d' a) ctx fs off m)) ->
  (forall ctx fs off m, eqv (field_write_tokens (skipping s f d a) ctx fs off m) (field_write_tokens (skipping s' f' d' a) ctx fs off m)) ->
  says free c (FCons (skipping s f d a) t wire tl) (FCons (skipping s' f' d' a) t wire tl).
Proof.
  intros HR HW. apply says_field; try reflexivity.
  - intros u ctx fs rd. unfold read_field. cbn [skipping a_seek a_magic a_pad_before a_pad_after]. do 3 (apply q_bind; [apply q_refl|intros _]).
    intros r. cbv zeta. apply q_bind; [|intros v; apply q_refl]. apply HR.
  - intros stored ctx fs v wr. unfold write_field. cbn [skipping a_seek a_magic a_pad_before a_pad_after]. do 3 (apply q_bind; [apply q_refl|intros _]).
    intros w. cbv zeta. apply q_bind; [apply q_refl|intros _]. apply q_bind; [apply HW|intros _; apply q_refl].
Qed.
Lemma q_maps c f a t wire tl free : (forall ctx fs off v, f ctx fs off v = Ok v) -> says free c (FCons (mapping (Some f) a) t wire tl) (FCons (mapping None a) t wire tl).
Proof.
  intros H. apply says_field; try reflexivity; [|intros; apply q_refl].
  intros u ctx fs rd. unfold read_field. cbn [mapping a_seek a_magic a_pad_before a_pad_after]. do 3 (apply q_bind; [apply q_refl|intros _]).
  intros r. cbv zeta. apply q_bind; [|intros v; apply q_refl]. unfold field_read_tokens. cbn [mapping a_skip a_cond a_default].
  assert (N : forall m, eqv (field_read_normal (mapping (Some f) a) ctx fs (r_bits r) m) (field_read_normal (mapping None a) ctx fs (r_bits r) m)).
  { intros m. unfold field_read_normal. cbn [mapping a_map]. apply q_bind; [apply q_refl|]. intros v s. unfold lift, ret. now rewrite H. }
  destruct (a_skip a) as [[]|], (a_cond a) as [g|]; try destruct (g _ _ _); first [apply N|apply q_refl].
Qed.
(** A field without the padding behind it. *)
Definition core_read (c : cattrs) (a : fattrs) (u : bool) (ctx fs : list value) (rd : option (limit value) -> list value -> RM value) : RM value :=
  let* _ := read_seek (option_map (fun f => f ctx fs) (a_seek a)) in
  let* _ := read_magic (a_magic a) in
  let* _ := read_pad (eval0 (a_pad_before a) ctx fs) (field_order c a ctx fs) in
  fun r => (let* v := field_read_tokens a ctx fs (r_bits r) (field_read_normal a ctx fs (r_bits r) (field_read_func c a u ctx fs (r_bits r) rd)) in
            let* _ := asserts a ctx fs (r_bits r) v in ret v) r.
Definition core_write (c : cattrs) (a : fattrs) (stored ctx fs : list value) (v : value) (wr : list value -> value -> WM unit) : WM unit :=
  let* _ := write_seek (option_map (fun f => f ctx fs) (a_seek a)) in
  let* _ := write_magic (a_magic a) in
  let* _ := write_pad (eval0 (a_pad_before a) ctx fs) (field_order c a ctx fs) in
  fun w => (let* _ := asserts a ctx fs (w_bits w) v in field_write_tokens a ctx fs (w_bits w) (field_write_func c a stored ctx fs (w_bits w) v wr)) w.
Lemma q_apart {S A B C} (m : ST S A) (f : A -> ST S B) (g : A -> ST S C) (h : C -> ST S B) : (forall a, eqv (f a) (bind (g a) h)) -> eqv (bind m f) (bind (bind m g) h).
Proof. intros H. eapply q_trans; [|apply q_sym, q_assoc]. apply q_bind; [apply q_refl|exact H]. Qed.
Lemma read_after c p a u ctx fs rd : eqv (read_field c (padding_after p a) u ctx fs rd)
  (let* v := core_read c a u ctx fs rd in let* _ := read_pad (eval0 p ctx (fs ++ [v])) (field_order c a ctx fs) in ret v).
Proof.
  unfold read_field, core_read. do 3 (apply q_apart; intros _). intros r. cbv zeta. revert r.
  intros r. change (a_skip (padding_after p a)) with (a_skip a).
  match goal with |- bind ?m ?f r = bind ?n ?h r => change (bind m f r = (let* x := (fun r0 : reader => bind m (fun v => let* _ := asserts a ctx fs (r_bits r) v in ret v) r0) in h x) r) end.
  change (fun r0 : reader => ?m r0) with m. revert r. intros r. apply q_apart. intros v. apply q_apart. intros _ s. reflexivity.
Qed.
Lemma write_after c p a stored ctx fs v wr : eqv (write_field c (padding_after p a) stored ctx fs v wr)
  (let* _ := core_write c a stored ctx fs v wr in write_pad (eval0 p ctx (fs ++ [v])) (field_order c a ctx fs)).
Proof.
  unfold write_field, core_write. do 3 (apply q_apart; intros _). intros w. cbv zeta.
  match goal with |- bind ?m ?f w = bind ?n ?h w => change (bind m f w = (let* x := bind m (fun _ => field_write_tokens a ctx fs (w_bits w) (field_write_func c a stored ctx fs (w_bits w) v wr)) in h x) w) end.
  apply q_apart. intros _. apply q_refl.
Qed.
Lemma read_before c p b u ctx fs rd : a_seek b = None -> eqv (read_field c (led_by [] p b) u ctx fs rd)
  (let* _ := read_pad (eval0 p ctx fs) (field_order c b ctx fs) in read_field c (led_by [] None b) u ctx fs rd).
Proof. intros H r. unfold read_field. cbn [led_by a_seek a_magic a_pad_before a_pad_after]. rewrite H. reflexivity. Qed.
Lemma write_before c p b stored ctx fs v wr : a_seek b = None -> eqv (write_field c (led_by [] p b) stored ctx fs v wr)
  (let* _ := write_pad (eval0 p ctx fs) (field_order c b ctx fs) in write_field c (led_by [] None b) stored ctx fs v wr).
Proof. intros H r. unfold write_field. cbn [led_by a_seek a_magic a_pad_before a_pad_after]. rewrite H. reflexivity. Qed.
Lemma q_pads c p a t wire b t' wire' tl : a_seek b = None -> (forall ctx fs v, field_order c a ctx fs = field_order c b ctx (fs ++ [v])) ->
  says true c (FCons (padding_after p a) t wire (FCons (led_by [] None b) t' wire' tl)) (FCons (padding_after None a) t wire (FCons (led_by [] p b) t' wire' tl)).
Proof.
  intros Hs Ho. split; [reflexivity|]. split.
  - intros cu fuel ctx id acc Hid. rewrite (Hid eq_refl), (read_cons _ _ _ _ (padding_after p a)), (read_cons _ _ _ _ (padding_after None a)).
    eapply q_trans; [eapply q_bind; [apply read_after|intros v; apply q_refl]|]. eapply q_trans; [|eapply q_bind; [apply q_sym, read_after|intros v; apply q_refl]].
    eapply q_trans; [apply q_assoc|]. eapply q_trans; [|apply q_sym, q_assoc]. apply q_bind; [apply q_refl|]. intros v.
    eapply q_trans; [apply q_assoc|]. intros r. change (eval0 None ctx (acc ++ [v])) with (@None Z). cbn [read_pad]. unfold bind at 4 5. cbn [ret].
    change (a_temp (padding_after p a)) with (a_temp a). change (a_temp (padding_after None a)) with (a_temp a). revert r.
    rewrite !read_cons. change (a_temp (led_by [] p b)) with (a_temp b). change (a_temp (led_by [] None b)) with (a_temp b).
    eapply q_trans; [|eapply q_bind; [eapply q_bind; [apply q_sym, read_before, Hs|intros w; apply q_refl]|intros w; apply q_refl]].
    eapply q_trans; [|apply q_sym, q_assoc]. eapply q_trans; [|apply q_sym, q_assoc]. rewrite (Ho ctx acc v). apply q_bind; [apply q_refl|intros _].
    intros r. match goal with |- bind (ret v) ?f r = ?y => change (f v r = y) end. cbv beta. rewrite read_cons. apply q_assoc.
  - intros cu ctx id stored todo acc Hid. rewrite (Hid eq_refl), (write_cons _ _ _ (padding_after p a)), (write_cons _ _ _ (padding_after None a)).
    change (field_value (padding_after p a) stored todo ctx acc) with (field_value a stored todo ctx acc). change (field_value (padding_after None a) stored todo ctx acc) with (field_value a stored todo ctx acc).
    set (v := field_value a stored todo ctx acc).
    eapply q_trans; [eapply q_bind; [apply write_after|intros x; apply q_refl]|]. eapply q_trans; [|eapply q_bind; [apply q_sym, write_after|intros x; apply q_refl]].
    eapply q_trans; [apply q_assoc|]. eapply q_trans; [|apply q_sym, q_assoc]. apply q_bind; [apply q_refl|]. intros _.
    change (field_rest (padding_after p a) todo) with (field_rest a todo). change (field_rest (padding_after None a) todo) with (field_rest a todo).
    rewrite !write_cons. change (field_value (led_by [] p b)) with (field_value b). change (field_value (led_by [] None b)) with (field_value b).
    change (field_rest (led_by [] p b)) with (field_rest b). change (field_rest (led_by [] None b)) with (field_rest b).
    intros r. change (eval0 None ctx (acc ++ [v])) with (@None Z). cbn [write_pad]. unfold bind at 3. cbn [ret]. revert r.
    eapply q_trans; [|eapply q_bind; [apply q_sym, write_before, Hs|intros w; apply q_refl]].
    eapply q_trans; [|apply q_sym, q_assoc]. rewrite (Ho ctx acc v). apply q_refl.
Qed.

(** ** One field with other types *)

Lemma q_field_read c a u ctx fs rd rd' : (forall lim args, eqv (rd' lim args) (rd lim args)) -> eqv (read_field c a u ctx fs rd') (read_field c a u ctx fs rd).
Proof.
  intros H. assert (Own : readdressed a (a_endian a) (a_order a) (a_bits a) (a_bytes a) (a_ctx a) = a) by now destruct a.
  pose proof (field_read_same c c a (a_endian a) (a_order a) (a_bits a) (a_bytes a) (a_ctx a)) as X. rewrite Own in X. apply X; auto.
Qed.
Lemma q_field_write c a stored ctx fs v wr wr' : (forall args, eqv (wr' args v) (wr args v)) -> eqv (write_field c a stored ctx fs v wr') (write_field c a stored ctx fs v wr).
Proof.
  intros H. assert (Own : readdressed a (a_endian a) (a_order a) (a_bits a) (a_bytes a) (a_ctx a) = a) by now destruct a.
  pose proof (field_write_same c c a (a_endian a) (a_order a) (a_bits a) (a_bytes a) (a_ctx a)) as X. rewrite Own in X. apply X; auto.
Qed.

(** ** The magic of the container *)

Lemma start_read cu fuel c m m' ctx tl : forall id acc, eqv (fields_read cu fuel (starting m c) ctx tl id acc) (fields_read cu fuel (starting m' c) ctx tl id acc).
Proof.
  induction tl as [|a t wire tl IH]; intros id acc; [apply q_refl|]. rewrite !read_cons. apply q_bind; [apply q_refl|]. intros v. apply q_bind; [apply IH|intros; apply q_refl].
Qed.
Lemma start_write cu c m m' ctx tl : forall id stored todo acc, eqv (fields_write cu (starting m c) ctx tl id stored todo acc) (fields_write cu (starting m' c) ctx tl id stored todo acc).
Proof.
  induction tl as [|a t wire tl IH]; intros id stored todo acc; [apply q_refl|]. rewrite !write_cons. apply q_bind; [apply q_refl|]. intros _. apply IH.
Qed.
Lemma read_led c m p a u ctx fs rd : a_seek a = None -> eqv (read_field c (led_by m p a) u ctx fs rd) (let* _ := read_magic m in read_field c (led_by [] p a) u ctx fs rd).
Proof. intros H r. unfold read_field. cbn [led_by a_seek a_magic a_pad_before a_pad_after]. rewrite H. reflexivity. Qed.
Lemma write_led c m p a stored ctx fs v wr : a_seek a = None -> eqv (write_field c (led_by m p a) stored ctx fs v wr) (let* _ := write_magic m in write_field c (led_by [] p a) stored ctx fs v wr).
Proof. intros H r. unfold write_field. cbn [led_by a_seek a_magic a_pad_before a_pad_after]. rewrite H. reflexivity. Qed.

(** ** Everything *)

Definition ty_says (t t' : ty) : Prop :=
  prim_head t = prim_head t' /\ is_vec_u8 t = is_vec_u8 t' /\
  (forall cu fuel lim args, eqv (read_ty cu fuel t lim args) (read_ty cu fuel t' lim args)) /\
  (forall cu args v, eqv (write_ty cu t args v) (write_ty cu t' args v)).
Definition variants_say (e : eattrs) (vs vs' : variants) : Prop :=
  (forall cu fuel ctx id k d d', match d, d' with Some m, Some m' => eqv m m' | None, None => True | _, _ => False end ->
     eqv (variants_read cu fuel e ctx id vs k d) (variants_read cu fuel e ctx id vs' k d')) /\
  (forall cu ctx wid wid' k l, (forall args x, eqv (wid args x) (wid' args x)) -> eqv (variant_write cu e ctx wid vs k l) (variant_write cu e ctx wid' vs' k l)).

Theorem all_say :
  (forall t t', reworded t t' -> ty_says t t') /\ (forall free c fs fs', reworded_fields free c fs fs' -> says free c fs fs') /\
  (forall e vs vs', reworded_variants e vs vs' -> variants_say e vs vs').
Proof.
  apply reworded_ind3.
  - intros t. repeat split; intros; apply q_refl.
  - intros t t' _ (H1 & H2 & H3 & H4). repeat split; auto; intros; apply q_sym; auto.
  - intros t t' t'' _ (H1 & H2 & H3 & H4) _ (G1 & G2 & G3 & G4). split; [congruence|]. split; [congruence|]. split; intros; eapply q_trans; eauto.
  - intros t t' _ (H1 & H2 & H3 & H4). do 2 (split; [reflexivity|]). split; [intros cu fuel lim args; cbn [read_ty]; apply q_bind; [apply H3|intros; apply q_refl]|].
    intros cu args v. destruct v; try apply q_refl. apply H4.
  - intros t t' u u' _ (H1 & H2 & H3 & H4) _ (G1 & G2 & G3 & G4). do 2 (split; [reflexivity|]). split.
    + intros cu fuel lim args. cbn [read_ty]. apply q_bind; [apply H3|intros x]. apply q_bind; [apply G3|intros; apply q_refl].
    + intros cu args v. destruct v; try apply q_refl. cbn [write_ty]. apply q_bind; [apply H4|intros _; apply G4].
  - intros n t t' _ (H1 & H2 & H3 & H4). do 2 (split; [reflexivity|]). split; [intros cu fuel lim args; cbn [read_ty]; apply q_bind; [apply q_array, H3|intros; apply q_refl]|].
    intros cu args v. destruct v; try apply q_refl. intros w. apply write_list_ext. intros x w'. apply H4.
  - intros k size t t' _ (H1 & H2 & H3 & H4). split; [reflexivity|]. split; [now apply head_vec|]. split.
    + intros cu fuel lim args. cbn [read_ty]. destruct lim as [l|]; [|apply q_refl]. apply q_bind; [apply q_vec, H3|intros; apply q_refl].
    + intros cu args v. destruct v; try apply q_refl. intros w. apply write_list_ext. intros x w'. apply H4.
  - intros c fs fs' _ (H1 & H2 & H3). do 2 (split; [reflexivity|]). split.
    + intros cu fuel lim args. rewrite !read_struct. do 2 (apply q_bind; [apply q_refl|intros _]). apply q_bind; [now apply H2|intros; apply q_refl].
    + intros cu args v. destruct v; try apply q_refl. rewrite !write_struct. do 2 (apply q_bind; [apply q_refl|intros _]). now apply H3.
  - intros e idt idt' vs vs' _ (H1 & H2 & H3 & H4) _ (G1 & G2). do 2 (split; [reflexivity|]). split.
    + intros cu fuel lim args. rewrite !read_enum. apply q_bind; [apply q_refl|intros _]. apply q_bind; [destruct (en_id e); [apply q_refl|apply H3]|]. intros id. now apply G1.
    + intros cu args v. destruct v; try apply q_refl. rewrite !write_enum. apply q_bind; [apply q_refl|intros _]. apply G2. intros; apply H4.
  - intros c m p a t wire tl Hs. do 2 (split; [reflexivity|]). split.
    + intros cu fuel lim args. rewrite !read_struct. change (ctx_args (starting m c) args) with (ctx_args c args). change (ctx_args (starting [] c) args) with (ctx_args c args).
      apply q_bind; [apply q_refl|intros _]. cbn [starting c_magic]. 
      change (read_magic []) with (@ret reader unit tt).
      set (ctx := ctx_args c args). rewrite (read_cons _ _ _ _ (led_by m p a)).
      eapply q_trans; [|eapply q_bind; [apply q_refl|intros x; cbv beta]; eapply q_bind; [eapply q_bind; [apply q_sym, read_led, Hs|intros v; apply q_refl]|intros v; apply q_refl]].
      eapply q_trans; [|apply q_sym, q_ret]. eapply q_trans; [|apply q_sym, q_assoc]. eapply q_trans; [|apply q_sym, q_assoc]. apply q_bind; [apply q_refl|intros _].
      rewrite read_cons. eapply q_trans; [apply q_assoc|]. apply q_bind; [apply q_refl|]. intros v. apply q_bind; [|intros; apply q_refl]. apply q_bind; [apply start_read|intros; apply q_refl].
    + intros cu args v. destruct v; try apply q_refl. rewrite !write_struct. change (ctx_args (starting m c) args) with (ctx_args c args). change (ctx_args (starting [] c) args) with (ctx_args c args).
      apply q_bind; [apply q_refl|intros _]. cbn [starting c_magic]. change (write_magic []) with (@ret writer unit tt). rewrite !write_cons.
      eapply q_trans; [|eapply q_bind; [apply q_refl|intros x; cbv beta]; eapply q_bind; [apply q_sym, write_led, Hs|intros v; apply q_refl]].
      eapply q_trans; [|apply q_sym, q_ret]. eapply q_trans; [|apply q_sym, q_assoc]. apply q_bind; [apply q_refl|intros _].
      apply q_bind; [apply q_refl|]. intros _. apply start_write.
  - intros free c fs. repeat split; intros; apply q_refl.
  - intros free c fs fs' _ (H1 & H2 & H3). repeat split; auto; intros; apply q_sym; auto.
  - intros free c fs fs' fs'' _ (H1 & H2 & H3) _ (G1 & G2 & G3). split; [congruence|]. split; intros; eapply q_trans; eauto.
  - intros free c a t t' wire wire' tl tl' _ (H1 & H2 & H3 & H4) _ (W1 & W2 & W3 & W4) _ (G1 & G2 & G3). split; [reflexivity|]. split.
    + intros cu fuel ctx id acc _. rewrite !read_cons, H2. apply q_bind; [|intros v; apply q_bind; [now apply G2|intros; apply q_refl]].
      destruct id as [x|]; [destruct (a_reader a); [|apply q_refl]|]; apply q_field_read; intros lim args; apply W3.
    + intros cu ctx id stored todo acc _. rewrite !write_cons. apply q_bind; [|intros v; now apply G3]. destruct id as [args|]; [apply H4|]. apply q_field_write. intros args. apply H4.
  - intros. apply q_asserts.
  - intros free c f d d' a t wire tl H. apply q_skips; intros ctx fs off m; unfold field_read_tokens, field_write_tokens; cbn [skipping a_skip a_cond a_default]; rewrite ?H; apply q_refl.
  - intros free c f d d' a t wire tl H. apply q_skips; intros ctx fs off m; unfold field_read_tokens, field_write_tokens; cbn [skipping a_skip a_cond a_default]; rewrite ?H; apply q_refl.
  - intros free c s f d a t wire tl H. apply q_skips; intros ctx fs off m; unfold field_read_tokens, field_write_tokens; cbn [skipping a_skip a_cond a_default]; destruct s; rewrite ?H; apply q_refl.
  - intros free c f d a t wire tl. apply q_skips; intros ctx fs off m; unfold field_read_tokens, field_write_tokens; cbn [skipping a_skip a_cond a_default]; [destruct (f _ _ _)|]; apply q_refl.
  - intros. now apply q_maps.
  - intros. now apply q_pads.
  - intros e. split; [|intros; apply q_refl]. intros cu fuel ctx id k d d' Hd. cbn [variants_read]. destruct d, d'; try contradiction; [exact Hd|apply q_refl].
  - intros e v fs fs' vs vs' _ (H1 & H2 & H3) _ (G1 & G2). split.
    + intros cu fuel ctx id k d d' Hd. rewrite !read_variant. cbv zeta.
      assert (B : eqv (let* l := fields_read cu fuel (en_c e) ctx fs (if stores_id e v then Some id else None) [] in ret (VVar k l)) (let* l := fields_read cu fuel (en_c e) ctx fs' (if stores_id e v then Some id else None) [] in ret (VVar k l))).
      { apply q_bind; [|intros; apply q_refl]. apply H2. unfold stores_id. destruct (en_id e), (v_sel v); auto; discriminate. }
      destruct (matches _ _); [exact B|]. apply G1. destruct d, d'; try contradiction; [exact Hd|]. destruct (v_default v); [exact B|exact I].
    + intros cu ctx wid wid' k l Hw. destruct k as [|k]; [|exact (G2 cu ctx wid wid' k l Hw)]. rewrite !write_variant_0. apply q_bind.
      * unfold write_id. rewrite H1. destruct (en_id e); [apply q_refl|]. destruct (v_sel v) as [x|q [x|]|x]; auto using @q_refl. destruct (no_fields fs'); auto using @q_refl.
      * intros _. apply H3. destruct (v_sel v); auto; discriminate.
Qed.

(** ** The API *)

Theorem reworded_reads cu fuel t t' : reworded t t' ->
  (forall lim args r, read_ty cu fuel t' lim args r = read_ty cu fuel t lim args r) /\
  (forall s bit, from_reader cu fuel t' s bit = from_reader cu fuel t s bit) /\
  (forall input bit, from_bytes cu fuel t' input bit = from_bytes cu fuel t input bit) /\
  (forall input, try_from cu fuel t' input = try_from cu fuel t input).
Proof.
  intros H. destruct (proj1 all_say t t' H) as (_ & _ & R & _).
  assert (R' : forall lim args, eqv (read_ty cu fuel t' lim args) (read_ty cu fuel t lim args)) by (intros; apply q_sym, R). repeat split.
  - exact R'.
  - intros s bit. now apply same_reader.
  - intros input bit. now apply same_bytes.
  - intros input. now apply same_bytes.
Qed.
Theorem reworded_writes cu t t' v : reworded t t' ->
  (forall args w, write_ty cu t' args v w = write_ty cu t args v w) /\
  to_bytes cu t' v = to_bytes cu t v /\
  (forall buf, to_slice cu t' v buf = to_slice cu t v buf) /\
  to_bits cu t' v = to_bits cu t v.
Proof.
  intros H. destruct (proj1 all_say t t' H) as (_ & _ & _ & W). split; [intros args w; symmetry; apply W|]. apply same_written, q_sym, W.
Qed.

Theorem all_update :
  (forall t t', reworded t t' -> forall v, update t' v = update t v) /\
  (forall free c fs fs', reworded_fields free c fs fs' -> forall pre todo, update_fields fs' pre todo = update_fields fs pre todo) /\
  (forall e vs vs', reworded_variants e vs vs' -> forall k, match nth_variant vs' k, nth_variant vs k with
     | Some (_, fs'), Some (_, fs) => forall pre todo, update_fields fs' pre todo = update_fields fs pre todo | None, None => True | _, _ => False end).
Proof.
  apply reworded_ind3; try (intros; reflexivity); try (intros; exact I).
  - intros t t' _ H v. now rewrite H.
  - intros t t' t'' _ H _ G v. now rewrite G, H.
  - intros c fs fs' _ H v. destruct v; try reflexivity. cbn [update]. now rewrite H.
  - intros e idt idt' vs vs' _ _ _ H v. destruct v as [| | | | | | |k l| | | |]; try reflexivity. cbn [update]. specialize (H k). destruct (nth_variant vs' k) as [[]|], (nth_variant vs k) as [[]|]; try contradiction; [|reflexivity]. now rewrite H.
  - intros free c fs fs' _ H pre todo. now rewrite H.
  - intros free c fs fs' fs'' _ H _ G pre todo. now rewrite G, H.
  - intros free c a t t' wire wire' tl tl' _ _ _ _ _ H pre todo. cbn [update_fields]. destruct (a_temp a); [apply H|]. destruct todo; [reflexivity|].
    destruct (a_update a) as [f|]; [|apply H]. destruct (f _); cbn [res_bind]; auto.
  - intros e v fs fs' vs vs' _ H _ G k. destruct k as [|k]; [exact H|exact (G k)].
Qed.
Theorem reworded_update t t' v : reworded t t' -> update t' v = update t v.
Proof. intros H. now apply all_update. Qed.

Theorem all_size :
  (forall t t', reworded t t' -> lasting t = lasting t' /\ (lasting t = true -> size_bits t = size_bits t')) /\
  (forall free c fs fs', reworded_fields free c fs fs' -> no_fields fs = no_fields fs' /\ fields_lasting fs = fields_lasting fs' /\
     (fields_lasting fs = true -> forall first, (free = true -> first = false) -> fields_size fs first = fields_size fs' first)) /\
  (forall e vs vs', reworded_variants e vs vs' -> variants_lasting vs = variants_lasting vs' /\ (variants_lasting vs = true -> variants_size e vs = variants_size e vs')).
Proof.
  apply reworded_ind3; try (intros; repeat split; reflexivity).
  - intros t t' _ [H G]. split; [auto|]. intros L. rewrite G; congruence.
  - intros t t' t'' _ [H G] _ [H' G']. split; [congruence|]. intros L. rewrite G, G'; congruence.
  - intros t t' _ [H G]. split; [exact H|reflexivity].
  - intros t t' u u' _ [H G] _ [H' G']. cbn [lasting size_bits]. split; [congruence|]. intros L. apply andb_prop in L. destruct L as [L L']. now rewrite G, G'.
  - intros n t t' _ [H G]. cbn [lasting size_bits]. split; [exact H|]. intros L. now rewrite G.
  - intros k size t t' _ [H G]. split; [exact H|reflexivity].
  - intros c fs fs' _ (N & H & G). cbn [lasting size_bits]. split; [exact H|]. intros L. now rewrite (G L false).
  - intros e idt idt' vs vs' _ [H G] _ [H' G']. cbn [lasting size_bits]. split; [congruence|]. intros L. apply andb_prop in L. destruct L as [L L']. now rewrite G, G'.
  - intros c m p a t wire tl Hs. split; [reflexivity|]. cbn [lasting fields_lasting led_by a_temp]. intros L. apply andb_prop in L. destruct L as [L L']. apply andb_prop in L. destruct L as [L _].
    apply Bool.negb_true_iff in L. cbn [size_bits fields_size starting c_seek c_magic led_by a_seek a_temp a_bits a_bytes a_magic a_pad_before a_pad_after]. rewrite Hs, L. destruct (c_seek c); [reflexivity|].
    cbn [orb]. destruct (match const_size (a_bits a) with Some n => _ | None => _ end), (fields_size tl false); try reflexivity. cbn [option_map length]. f_equal. lia.
  - intros free c fs fs' _ (N & H & G). split; [auto|]. split; [auto|]. intros L first F. rewrite G; [reflexivity|congruence|exact F].
  - intros free c fs fs' fs'' _ (N & H & G) _ (N' & H' & G'). split; [congruence|]. split; [congruence|]. intros L first F. rewrite G, G'; try exact F; congruence.
  - intros free c a t t' wire wire' tl tl' _ [H G] _ _ _ (N & H' & G'). cbn [fields_lasting fields_size]. split; [reflexivity|]. split; [congruence|]. intros L first F.
    apply andb_prop in L. destruct L as [L L']. apply andb_prop in L. destruct L as [_ L]. now rewrite (G L), (G' L' false).
  - intros c p a t wire b t' wire' tl Hs Ho. split; [reflexivity|]. split; [reflexivity|]. intros L first F. rewrite (F eq_refl).
    cbn [fields_lasting led_by padding_after a_temp] in L. apply andb_prop in L. destruct L as [La L]. apply andb_prop in La. destruct La as [La _]. apply andb_prop in L. destruct L as [L _]. apply andb_prop in L. destruct L as [Lb _].
    apply Bool.negb_true_iff in La. apply Bool.negb_true_iff in Lb.
    cbn [fields_size led_by padding_after a_seek a_temp a_bits a_bytes a_magic a_pad_before a_pad_after]. rewrite Hs, La, Lb. cbn [orb]. destruct (a_seek a); [reflexivity|].
    set (x := match const_size (a_bits a) with Some n => Some n | None => _ end). set (y := match const_size (a_bits b) with Some n => Some n | None => _ end). destruct x, y, (fields_size tl false); try reflexivity.
    cbn [const_pad length]. f_equal. lia.
  - intros e v fs fs' vs vs' _ (N & H & G) _ [H' G']. cbn [variants_lasting variants_size]. split; [congruence|]. intros L. apply andb_prop in L. destruct L as [L L'].
    rewrite <- N, (G' L'), (G L); [reflexivity|]. unfold stores_id. destruct (en_id e), (v_sel v); auto; discriminate.
Qed.
Theorem reworded_size t t' : reworded t t' -> lasting t = true -> size_bits t' = size_bits t /\ size_bytes t' = size_bytes t.
Proof. intros H L. assert (E : size_bits t' = size_bits t) by (symmetry; now apply all_size). split; [exact E|]. unfold size_bytes. now rewrite E. Qed.
