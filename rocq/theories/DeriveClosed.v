(** Induction over derived code: a property of programs that is closed under
    sequencing and holds of the basic operations holds of every derived reader or
    writer. *)
From Coq Require Import Lia ZifyBool ZifyNat ZifyN.
From Verif Require Import Base Spec Stream Reader Writer MonadFacts Prims Containers Derive DeriveSpec DeriveSound.

Section Read.
Variables (cu : nat -> custom) (fuel : nat).
Variables (Qc : cattrs -> Prop) (Qe : eattrs -> Prop) (Q : cattrs -> fattrs -> ty -> Prop) (K : nat -> Prop).
(** Contexts. *)
Variable G : list value -> Prop.
Variable P : forall A, RM A -> Type.
Variables (offs ends : Prop).
Hypothesis P_ext : forall A (m1 m2 : RM A), (forall r, m1 r = m2 r) -> P A m1 -> P A m2.
Hypothesis P_lift : forall A (x : res A), (forall n, x <> Err (Incomplete n)) -> P A (lift x).
Hypothesis P_map : forall c a t f ctx fs off v, Q c a t -> a_map a = Some f -> P value (lift (f ctx fs off v)).
Hypothesis P_bind : forall A B (m : RM A) (f : A -> RM B), P A m -> (forall a, P B (f a)) -> P B (bind m f).
Hypothesis P_off : forall A (f : nat -> RM A), offs \/ (forall n m r, f n r = f m r) -> (forall n, P A (f n)) -> P A (fun r => f (r_bits r) r).
Hypothesis P_prim : forall p args c, G args -> pctx_of args = Some c -> P N (prim_read p c).
Hypothesis P_byte : P N (prim_read PU8 C0).
Hypothesis G_field : forall c a t ctx fs off, Q c a t -> G (field_args c a ctx fs off).
Hypothesis G_id : forall e ctx, Qe e -> G (id_args e ctx).
Hypothesis P_vec : forall A (elem : RM A) size lim, (lim = LEnd -> ends) -> P A elem -> P (list A) (vec_read fuel size elem lim).
Hypothesis P_cstr : P (list N) (read_cstring fuel).
Hypothesis P_cstrb : forall n, P (list N) (read_cstring_bytes n).
Hypothesis P_exact : forall c a t f n, Q c a t -> is_vec_u8 t = true -> a_limit a = Some (FCount f) -> P (list byte) (read_exact_vec n).
Hypothesis P_pad : forall c a t p n o, Q c a t -> a_pad_before a = Some p \/ a_pad_after a = Some p -> (exists ctx fs, p ctx fs = Z.of_nat n) -> (o = Msb0 \/ exists ctx fs, field_order c a ctx fs = Some o) -> P unit (skip_bits n o).
Hypothesis P_seek : forall c a t f w, Q c a t -> a_seek a = Some f -> (exists ctx fs, f ctx fs = Some w) -> P nat (lift_io (r_seek w)).
Hypothesis P_cseek : forall c f w, Qc c -> c_seek c = Some f -> (exists ctx, f ctx = Some w) -> P nat (lift_io (r_seek w)).
Hypothesis P_reader : forall c a t f ctx fs off, Q c a t -> a_reader a = Some f -> P value (f ctx fs off).
Hypothesis P_custom : forall k args, K k -> G args -> P value (cu_read (cu k) args).
Hypothesis P_ends : forall c a t, Q c a t -> a_limit a = Some FAll -> ends.
Hypothesis P_offs : forall c a t, Q c a t -> offs \/ offset_free a.

Lemma P_ret {A} (a : A) : P A (ret a).
Proof. apply (P_lift A (Ok a)). discriminate. Qed.
Lemma P_panic {A} : P A panic.
Proof. apply (P_lift A Panic). discriminate. Qed.
Lemma P_fail {A} e : (forall n, e <> Incomplete n) -> P A (fail e).
Proof. intros H. apply (P_lift A (Err e)). intros n E. injection E. apply H. Qed.
Hint Resolve P_ret P_panic P_fail P_prim : closed.
Hint Extern 1 (forall _, _ <> Incomplete _) => discriminate : closed.

Lemma P_read_magic m : P unit (read_magic m).
Proof.
  induction m as [|b m IH]; cbn [read_magic]; [apply P_ret|]. apply P_bind; [apply P_byte|]. intros x. destruct (x =? _)%N; auto with closed.
Qed.
Lemma P_read_pad c a t p ctx fs ctx' fs' : Q c a t -> a_pad_before a = p \/ a_pad_after a = p -> P unit (read_pad (eval0 p ctx fs) (field_order c a ctx' fs')).
Proof.
  intros Ha Hp. destruct p as [p|]; cbn [eval0 option_map read_pad]; [|apply P_ret].
  destruct (to_usize _) as [n|] eqn:En; [|apply P_fail; discriminate]. apply P_ext with (m1 := skip_bits (N.to_nat n) (match field_order c a ctx' fs' with Some x => x | None => Msb0 end)); [reflexivity|].
  eapply P_pad; [exact Ha|destruct Hp as [-> | ->]; eauto| |destruct (field_order c a ctx' fs') eqn:Eo; eauto]. exists ctx, fs. unfold to_usize in En.
  destruct (_ || _) eqn:Eb in En; [discriminate|]. apply orb_false_iff in Eb. injection En as <-. lia.
Qed.
Lemma P_read_seek c a t ctx fs : Q c a t -> P unit (read_seek (option_map (fun f => f ctx fs) (a_seek a))).
Proof.
  intros Ha. destruct (a_seek a) as [f|] eqn:E; cbn [option_map read_seek]; [|apply P_ret]. destruct (f ctx fs) as [w|] eqn:Ew; [|apply P_panic].
  apply P_bind; [eapply P_seek; [exact Ha|exact E|do 2 eexists; exact Ew]|]. intros _. apply P_ret.
Qed.
Lemma P_asserts a ctx fs off v : P unit (asserts a ctx fs off v).
Proof.
  unfold asserts, check. apply P_bind.
  - destruct (a_assert a) as [f|]; [destruct (f _ _ _)|]; auto with closed.
  - intros _. destruct (a_assert_eq a) as [f|]; [destruct (value_eqb _ _)|]; auto with closed.
Qed.

Definition limit_allowed (lim : option (limit value)) : Prop := lim = Some LEnd -> ends.
Lemma P_read_field c a t ctx fs rd : Q c a t -> (forall lim args, limit_allowed lim -> G args -> P value (rd lim args)) -> P value (read_field c a (is_vec_u8 t) ctx fs rd).
Proof.
  intros Ha Hrd. unfold read_field. remember (is_vec_u8 t) as u eqn:Eu. apply P_bind; [now apply P_read_seek with (c := c) (t := t)|]. intros _. apply P_bind; [apply P_read_magic|]. intros _.
  apply P_bind; [eapply P_read_pad; [exact Ha|now left]|]. intros _.
  assert (HF : forall off, P value (field_read_func c a u ctx fs off rd)).
  { intros off. unfold field_read_func. destruct (a_reader a) as [f|] eqn:Er; [eapply P_reader; eassumption|].
    destruct (a_limit a) as [l|] eqn:El; [|apply Hrd; [discriminate|now apply G_field with (t := t)]].
    assert (HL : eval_limit l ctx fs off = Ok LEnd -> ends).
    { destruct l; cbn [eval_limit]; try (destruct (to_usize _)); intros H; try discriminate. eapply P_ends; eassumption. }
    assert (HX : forall n, u = true -> eval_limit l ctx fs off = Ok (LCount n) -> P (list byte) (read_exact_vec n)).
    { intros n Hu. destruct l; cbn [eval_limit]; try (destruct (to_usize _)); intros H; try discriminate. eapply P_exact; [exact Ha|congruence|eassumption]. }
    assert (HI : forall n, eval_limit l ctx fs off <> Err (Incomplete n)) by (intros n; destruct l; cbn [eval_limit]; try destruct (to_usize _); discriminate).
    destruct (eval_limit l ctx fs off) as [lim|e| |];
      [|apply P_ext with (m1 := fail e); [reflexivity|apply P_fail; intros n ->; now apply (HI n)]|apply P_ext with (m1 := panic); [reflexivity|apply P_panic]
       |apply P_ext with (m1 := lift Diverge); [reflexivity|apply P_lift; discriminate]].
    apply P_ext with (m1 := match u, lim with
       | true, LCount n => let* bs := read_exact_vec n in ret (vec_of_bytes bs)
       | _, _ => rd (Some lim) (field_args c a ctx fs off)
       end); [reflexivity|].
    assert (HR : P value (rd (Some lim) (field_args c a ctx fs off))).
    { apply Hrd; [|now apply G_field with (t := t)]. intros E. injection E as ->. now apply HL. }
    destruct u; [|exact HR]. destruct lim as [n|p|n|n|]; try exact HR.
    apply P_bind; [now apply HX|]. intros bs. apply P_ret. }
  assert (HN : forall off, P value (field_read_normal a ctx fs off (field_read_func c a u ctx fs off rd))).
  { intros off. unfold field_read_normal. apply P_bind; [apply HF|]. intros v. destruct (a_map a) eqn:Em; [eapply P_map; eassumption|apply P_ret]. }
  apply (P_off value (fun off => let* v := field_read_tokens a ctx fs off (field_read_normal a ctx fs off (field_read_func c a u ctx fs off rd)) in
     let* _ := asserts a ctx fs off v in
     let* _ := read_pad (eval0 (a_pad_after a) ctx (fs ++ [v])) (field_order c a ctx fs) in
     ret v)).
  - destruct (P_offs c a t Ha) as [H|H]; [now left|right]. destruct H as [X1 X2 X3 X4 _ X5 X6 X7 X8]. intros n m r.
    assert (E1 : field_read_func c a u ctx fs n rd = field_read_func c a u ctx fs m rd).
    { unfold field_read_func, field_args. destruct (a_reader a) as [f|]; [apply X4|]. rewrite (X1 ctx fs n m).
      destruct (a_limit a) as [[f|f|f| |f]|]; cbn [eval_limit]; try rewrite (X2 ctx fs n m); reflexivity. }
    assert (E2 : field_read_normal a ctx fs n (field_read_func c a u ctx fs n rd) = field_read_normal a ctx fs m (field_read_func c a u ctx fs m rd)).
    { rewrite E1. unfold field_read_normal. destruct (a_map a) as [f|]; [|reflexivity]. now rewrite (X3 ctx fs n m). }
    assert (E3 : field_read_tokens a ctx fs n (field_read_normal a ctx fs n (field_read_func c a u ctx fs n rd)) =
                 field_read_tokens a ctx fs m (field_read_normal a ctx fs m (field_read_func c a u ctx fs m rd))).
    { rewrite E2. unfold field_read_tokens. rewrite (X6 ctx fs n m). destruct (a_cond a) as [f|]; [now rewrite (X5 ctx fs n m)|reflexivity]. }
    rewrite E3. apply bind_ext. intros v r' _.
    assert (E4 : asserts a ctx fs n v r' = asserts a ctx fs m v r').
    { unfold asserts. destruct (a_assert a) as [f|]; [rewrite (X7 ctx (fs ++ [v]) n m)|]; (destruct (a_assert_eq a) as [g|]; [rewrite (X8 ctx fs n m)|]); reflexivity. }
    now apply bind_cong.
  - intros off. apply P_bind.
    + unfold field_read_tokens. destruct (a_skip a) as [[]|], (a_cond a) as [f|]; try destruct (f _ _ _); auto using P_ret.
    + intros v. apply P_bind; [apply P_asserts|]. intros _. apply P_bind; [|intros _; apply P_ret]. eapply P_read_pad; [exact Ha|now right].
Qed.

Lemma P_array {A} n (elem : RM A) : P A elem -> P (list A) (read_array n elem).
Proof.
  intros H. induction n as [|n IH]; cbn [read_array]; [apply P_ret|]. apply P_bind; [exact H|]. intros v. apply P_bind; [exact IH|]. intros vs. apply P_ret.
Qed.
Lemma P_pctx {A} lim args (k : pctx -> RM A) : (forall c, pctx_of args = Some c -> P A (k c)) -> P A (with_pctx lim args k).
Proof. intros H. unfold with_pctx. destruct lim; [apply P_panic|]. destruct (pctx_of args) eqn:E; [now apply H|apply P_panic]. Qed.

Theorem closed_read_all :
  (forall t, every Qc Qe Q K t -> forall lim args, limit_allowed lim -> G args -> P value (read_ty cu fuel t lim args)) *
 (  (forall fs c, every_field Qc Qe Q K c fs -> forall ctx id acc, P (list value) (fields_read cu fuel c ctx fs id acc)) *
  (forall vs e, every_variant Qc Qe Q K (en_c e) vs -> forall ctx id k default, (forall m, default = Some m -> P value m) ->
     P value (variants_read cu fuel e ctx id vs k default))).
Proof.
  apply types_rect.
  - intros p _ lim args _ Hg. apply P_pctx. intros c Hc. apply P_bind; [now apply P_prim with (args := args)|]. intros n. apply P_ret.
  - intros _ lim args _ Hg. apply P_pctx. intros c Hc. apply P_bind; [|intros b; apply P_ret]. unfold read_bool. apply P_bind; [now apply P_prim with (args := args)|].
    intros v. destruct (v =? 1)%N; [apply P_ret|]. destruct (v =? 0)%N; auto with closed.
  - intros p _ lim args _ Hg. apply P_pctx. intros c Hc. apply P_bind; [|intros n; apply P_ret]. unfold read_nonzero. apply P_bind; [now apply P_prim with (args := args)|].
    intros v. destruct (v =? 0)%N; auto with closed.
  - intros _ lim args _ _. apply P_ret.
  - intros _ lim args _ _. cbn [read_ty]. destruct lim; [apply P_panic|]. destruct args as [|[] [|]]; try apply P_panic; (apply P_bind; [auto|intros s; apply P_ret]).
  - intros t IH H lim args Hl Hg. cbn [read_ty]. apply P_bind; [now apply IH|]. intros v. apply P_ret.
  - intros a IHa b IHb [Ha Hb] lim args Hl Hg. cbn [read_ty]. apply P_bind; [now apply IHa|]. intros x. apply P_bind; [now apply IHb|]. intros y. apply P_ret.
  - intros n t IH H lim args Hl Hg. cbn [read_ty]. apply P_bind; [|intros vs; apply P_ret]. apply P_array. now apply IH.
  - intros pl size t IH H lim args Hl Hg. cbn [read_ty]. destruct lim as [l|]; [|apply P_panic]. apply P_bind; [|intros vs; apply P_ret].
    apply P_vec; [|apply IH; [exact H|discriminate|exact Hg]]. intros ->. now apply Hl.
  - intros c fs IH [Hc Hf] lim args _ Hg. rewrite read_struct. apply P_bind; [|intros _].
    { destruct (c_seek c) as [f|] eqn:E; cbn [option_map read_seek]; [|apply P_ret]. destruct (f _) as [w|] eqn:Ew; [|apply P_panic].
      apply P_bind; [eapply P_cseek; [exact Hc|exact E|eexists; exact Ew]|]. intros _. apply P_ret. }
    apply P_bind; [apply P_read_magic|]. intros _. apply P_bind; [now apply IH|]. intros vs. apply P_ret.
  - intros e idt IHi vs IHv (Hc & Hi & Hv) lim args _ Hg. rewrite read_enum. apply P_bind; [apply P_read_magic|]. intros _. apply P_bind.
    + destruct (en_id e); [apply P_ret|]. apply IHi; [exact Hi|discriminate|now apply G_id].
    + intros id. apply IHv; [exact Hv|discriminate].
  - intros k Hk lim args _ Hg. cbn [read_ty]. destruct lim; [apply P_panic|]. now apply P_custom.
  - intros c _ ctx id acc. apply P_ret.
  - intros a t IHt wire IHw tl IHtl c (Ha & Ht & Hw & Htl) ctx id acc. rewrite read_cons. apply P_bind.
    + assert (HF : P value (read_field c a (is_vec_u8 t) ctx acc (fun lim args => read_ty cu fuel wire lim args))).
      { apply P_read_field; [exact Ha|]. intros lim args Hl Hg. now apply IHw. }
      destruct id as [x|]; [|exact HF]. destruct (a_reader a); [exact HF|apply P_ret].
    + intros v. apply P_bind; [now apply IHtl|]. intros vs. apply P_ret.
  - intros e _ ctx id k default Hd. destruct default as [m|]; [now apply Hd|apply P_fail; discriminate].
  - intros v fs IHf vs IHv e [Hf Hv] ctx id k default Hd. rewrite read_variant. cbv zeta.
    assert (HB : P value (let* l := fields_read cu fuel (en_c e) ctx fs (if stores_id e v then Some id else None) [] in ret (VVar k l))).
    { apply P_bind; [now apply IHf|]. intros l. apply P_ret. }
    destruct (matches (v_sel v) id); [exact HB|]. apply IHv; [exact Hv|]. intros m Hm.
    destruct default as [d|]; [now apply Hd|]. destruct (v_default v); [|discriminate]. injection Hm as <-. exact HB.
Qed.
Theorem closed_read_map t lim args : every Qc Qe Q K t -> limit_allowed lim -> G args -> P value (read_ty cu fuel t lim args).
Proof. intros H Hl Hg. now apply (fst closed_read_all). Qed.
End Read.

(** The same for properties that also hold of every error a [map] function can give. *)
Theorem closed_read (cu : nat -> custom) (fuel : nat) (Qc : cattrs -> Prop) (Qe : eattrs -> Prop) (Q : cattrs -> fattrs -> ty -> Prop) (K : nat -> Prop)
  (G : list value -> Prop) (P : forall A, RM A -> Type) (offs ends : Prop) :
  (forall A (m1 m2 : RM A), (forall r, m1 r = m2 r) -> P A m1 -> P A m2) ->
  (forall A (x : res A), P A (lift x)) ->
  (forall A B (m : RM A) (f : A -> RM B), P A m -> (forall a, P B (f a)) -> P B (bind m f)) ->
  (forall A (f : nat -> RM A), offs \/ (forall n m r, f n r = f m r) -> (forall n, P A (f n)) -> P A (fun r => f (r_bits r) r)) ->
  (forall p args c, G args -> pctx_of args = Some c -> P N (prim_read p c)) ->
  P N (prim_read PU8 C0) ->
  (forall c a t ctx fs off, Q c a t -> G (field_args c a ctx fs off)) ->
  (forall e ctx, Qe e -> G (id_args e ctx)) ->
  (forall A (elem : RM A) size lim, (lim = LEnd -> ends) -> P A elem -> P (list A) (vec_read fuel size elem lim)) ->
  P (list N) (read_cstring fuel) ->
  (forall n, P (list N) (read_cstring_bytes n)) ->
  (forall c a t f n, Q c a t -> is_vec_u8 t = true -> a_limit a = Some (FCount f) -> P (list byte) (read_exact_vec n)) ->
  (forall c a t p n o, Q c a t -> a_pad_before a = Some p \/ a_pad_after a = Some p -> (exists ctx fs, p ctx fs = Z.of_nat n) -> (o = Msb0 \/ exists ctx fs, field_order c a ctx fs = Some o) -> P unit (skip_bits n o)) ->
  (forall c a t f w, Q c a t -> a_seek a = Some f -> (exists ctx fs, f ctx fs = Some w) -> P nat (lift_io (r_seek w))) ->
  (forall c f w, Qc c -> c_seek c = Some f -> (exists ctx, f ctx = Some w) -> P nat (lift_io (r_seek w))) ->
  (forall c a t f ctx fs off, Q c a t -> a_reader a = Some f -> P value (f ctx fs off)) ->
  (forall k args, K k -> G args -> P value (cu_read (cu k) args)) ->
  (forall c a t, Q c a t -> a_limit a = Some FAll -> ends) ->
  (forall c a t, Q c a t -> offs \/ offset_free a) ->
  forall t lim args, every Qc Qe Q K t -> limit_allowed ends lim -> G args -> P value (read_ty cu fuel t lim args).
Proof.
  intros H1 H2 H3 H4 H5 H6 H7 H8 H9 H10 H11 H12 H13 H14 H15 H16 H17 H18 H19 t lim args Ht Hl Hg.
  apply (closed_read_map cu fuel Qc Qe Q K G P offs ends); auto.
Qed.

Section Write.
Variable cu : nat -> custom.
Variables (Qc : cattrs -> Prop) (Qe : eattrs -> Prop) (Q : cattrs -> fattrs -> ty -> Prop) (K : nat -> Prop).
(** Contexts. *)
Variable G : list value -> Prop.
Variable P : WM unit -> Type.
Variable offs : Prop.
Hypothesis P_ext : forall m1 m2 : WM unit, (forall w, m1 w = m2 w) -> P m1 -> P m2.
Hypothesis P_lift : forall x : res unit, P (lift x).
Hypothesis P_seq : forall m n : WM unit, P m -> P n -> P (let* _ := m in n).
Hypothesis P_off : forall f : nat -> WM unit, offs \/ (forall n m w, f n w = f m w) -> (forall n, P (f n)) -> P (fun w => f (w_bits w) w).
Hypothesis P_prim : forall p args c v, G args -> pctx_of args = Some c -> P (prim_write p c v).
Hypothesis P_byte : forall v, P (prim_write PU8 C0 v).
Hypothesis G_field : forall c a t ctx fs off, Q c a t -> G (field_args c a ctx fs off).
Hypothesis G_id : forall e ctx, Qe e -> G (id_args e ctx).
Hypothesis G_stored : forall e ctx, Qe e -> G (stored_id_args e ctx).
Hypothesis P_bits : forall l o, P (write_bits_order l o).
Hypothesis P_seek : forall c a ft f t, Q c a ft -> a_seek a = Some f -> P (let* _ := lift_io (w_seek t) in ret tt).
Hypothesis P_cseek : forall c f t, Qc c -> c_seek c = Some f -> P (let* _ := lift_io (w_seek t) in ret tt).
Hypothesis P_writer : forall c a t f stored ctx fs off v, Q c a t -> a_writer a = Some f -> P (f stored ctx fs off v).
Hypothesis P_custom : forall k args v, K k -> G args -> P (cu_write (cu k) args v).
Hypothesis P_offs : forall c a t, Q c a t -> offs \/ offset_free a.

Lemma W_ret : P (ret tt).
Proof. exact (P_lift (Ok tt)). Qed.
Lemma W_panic : P panic.
Proof. exact (P_lift Panic). Qed.
Lemma W_fail e : P (fail e).
Proof. exact (P_lift (Err e)). Qed.
Lemma W_list {A} (w : A -> WM unit) l : (forall x, In x l -> P (w x)) -> P (write_list w l).
Proof.
  induction l as [|x l IH]; intros H; cbn [write_list]; [apply W_ret|]. apply P_seq; [apply H; now left|]. apply IH. intros y Hy. apply H. now right.
Qed.
Lemma W_magic m : P (write_magic m).
Proof. apply W_list. intros x _. apply P_byte. Qed.
Lemma W_pad_loop fuel n o : P (pad_loop fuel n o).
Proof. revert n. induction fuel as [|f IH]; intros [|n]; cbn [pad_loop]; try apply W_ret; try exact (P_lift Diverge). apply P_seq; [apply P_bits|apply IH]. Qed.
Lemma W_pad p o : P (write_pad p o).
Proof.
  destruct p as [z|]; cbn [write_pad]; [|apply W_ret]. destruct (to_usize z) as [n|]; [|apply W_fail]. eapply P_ext; [|apply W_pad_loop]. reflexivity.
Qed.
Lemma W_asserts a ctx fs off v : P (asserts a ctx fs off v).
Proof.
  unfold asserts, check. apply P_seq.
  - destruct (a_assert a) as [f|]; [destruct (f _ _ _)|]; auto using W_ret, W_fail.
  - destruct (a_assert_eq a) as [f|]; [destruct (value_eqb _ _)|]; auto using W_ret, W_fail.
Qed.
Lemma W_field c a t stored ctx fs v wr : Q c a t -> (forall args, G args -> P (wr args v)) -> P (write_field c a stored ctx fs v wr).
Proof.
  intros Ha Hwr. unfold write_field. apply P_seq.
  { destruct (a_seek a) as [f|] eqn:E; cbn [option_map write_seek]; [|apply W_ret]. destruct (f ctx fs) as [to|]; [|apply W_panic]. eapply P_seek; eassumption. }
  apply P_seq; [apply W_magic|]. apply P_seq; [apply W_pad|].
  apply (P_off (fun off => let* _ := asserts a ctx fs off v in
     let* _ := field_write_tokens a ctx fs off (field_write_func c a stored ctx fs off v wr) in
     write_pad (eval0 (a_pad_after a) ctx (fs ++ [v])) (field_order c a ctx fs))).
  - destruct (P_offs c a t Ha) as [H|H]; [now left|right]. destruct H as [X1 _ _ _ X4 X5 _ X7 X8]. intros n m w.
    assert (E1 : field_write_func c a stored ctx fs n v wr = field_write_func c a stored ctx fs m v wr).
    { unfold field_write_func, field_args. destruct (a_writer a) as [f|]; [now rewrite (X4 stored ctx fs n m)|]. now rewrite (X1 ctx fs n m). }
    assert (E2 : field_write_tokens a ctx fs n (field_write_func c a stored ctx fs n v wr) = field_write_tokens a ctx fs m (field_write_func c a stored ctx fs m v wr)).
    { rewrite E1. unfold field_write_tokens. destruct (a_cond a) as [f|]; [now rewrite (X5 ctx fs n m)|reflexivity]. }
    rewrite E2. assert (E4 : asserts a ctx fs n v w = asserts a ctx fs m v w).
    { unfold asserts. destruct (a_assert a) as [f|]; [rewrite (X7 ctx (fs ++ [v]) n m)|]; (destruct (a_assert_eq a) as [g|]; [rewrite (X8 ctx fs n m)|]); reflexivity. }
    now apply bind_cong.
  - intros off. apply P_seq; [apply W_asserts|]. apply P_seq; [|apply W_pad].
    assert (HF : P (field_write_func c a stored ctx fs off v wr)).
    { unfold field_write_func. destruct (a_writer a) as [f|] eqn:E; [eapply P_writer; eassumption|].
      pose proof (G_field c a t ctx fs off Ha) as Hg. destruct (a_temp a); [|now apply Hwr]. destruct (a_temp_value a); [now apply Hwr|apply W_ret]. }
    unfold field_write_tokens. destruct (a_skip a) as [[]|], (a_cond a) as [f|]; try destruct (f _ _ _); auto using W_ret.
Qed.
Lemma W_pctx args (k : pctx -> WM unit) : (forall c, pctx_of args = Some c -> P (k c)) -> P (with_pctx None args k).
Proof. intros H. unfold with_pctx. destruct (pctx_of args) eqn:E; [now apply H|apply W_panic]. Qed.

Theorem closed_write_all :
  (forall t, every Qc Qe Q K t -> forall args v, G args -> P (write_ty cu t args v)) *
 (  (forall fs c, every_field Qc Qe Q K c fs -> forall ctx id stored todo acc, (forall args, id = Some args -> G args) -> P (fields_write cu c ctx fs id stored todo acc)) *
  (forall vs e, every_variant Qc Qe Q K (en_c e) vs -> Qe e -> forall ctx wid k l, (forall args x, G args -> P (wid args x)) -> P (variant_write cu e ctx wid vs k l))).
Proof.
  apply types_rect.
  - intros p _ args v Hg. cbn [write_ty]. destruct v; try apply W_panic. apply W_pctx. intros c Hc. now apply P_prim with (args := args).
  - intros _ args v Hg. cbn [write_ty]. destruct v; try apply W_panic. apply W_pctx. intros c Hc. unfold write_bool. now apply P_prim with (args := args).
  - intros p _ args v Hg. cbn [write_ty]. destruct v; try apply W_panic. apply W_pctx. intros c Hc. now apply P_prim with (args := args).
  - intros _ args v _. apply W_ret.
  - intros _ args v Hg. cbn [write_ty]. destruct v; try apply W_panic. apply W_pctx. intros c Hc. apply W_list. intros x _. now apply P_prim with (args := args).
  - intros t IH H args v Hg. cbn [write_ty]. destruct v; try apply W_panic; [now apply IH|apply W_ret].
  - intros a IHa b IHb [Ha Hb] args v Hg. cbn [write_ty]. destruct v; try apply W_panic. apply P_seq; [now apply IHa|now apply IHb].
  - intros n t IH H args v Hg. cbn [write_ty]. destruct v; try apply W_panic. apply W_list. intros x _. now apply IH.
  - intros pl size t IH H args v Hg. cbn [write_ty]. destruct v; try apply W_panic. apply W_list. intros x _. now apply IH.
  - intros c fs IH [Hc Hf] args v Hg. destruct v; try apply W_panic. rewrite write_struct. apply P_seq.
    { destruct (c_seek c) as [f|] eqn:E; cbn [option_map write_seek]; [|apply W_ret]. destruct (f _) as [w|]; [|apply W_panic]. eapply P_cseek; eassumption. }
    apply P_seq; [apply W_magic|]. apply IH; [exact Hf|discriminate].
  - intros e idt IHi vs IHv (Hc & Hi & Hv) args v Hg. destruct v; try apply W_panic. rewrite write_enum. apply P_seq; [apply W_magic|]. apply IHv; [exact Hv|exact Hc|].
    intros args' x Hg'. now apply IHi.
  - intros k Hk args v Hg. now apply P_custom.
  - intros c _ ctx id stored todo acc _. apply W_ret.
  - intros a t IHt wire IHw tl IHtl c (Ha & Ht & Hw & Htl) ctx id stored todo acc Hid. rewrite write_cons. apply P_seq; [|apply IHtl; [exact Htl|discriminate]].
    destruct id as [args|]; [apply IHt; [exact Ht|now apply Hid]|]. apply W_field with (t := t); [exact Ha|]. intros args Hg. now apply IHt.
  - intros e _ _ ctx wid k l _. apply W_panic.
  - intros v fs IHf vs IHv e [Hf Hv] He ctx wid k l Hw. destruct k as [|k]; [|exact (IHv e Hv He ctx wid k l Hw)]. rewrite write_variant_0.
    apply P_seq; [|apply IHf; [exact Hf|]; intros args Hs; destruct (v_sel v); try discriminate; injection Hs as <-; now apply G_stored].
    pose proof (G_id e ctx He) as Hgi.
    unfold write_id. destruct (en_id e); [apply W_ret|]. destruct (v_sel v) as [x|p d|x]; try now apply Hw.
    destruct (no_fields fs); [|apply W_ret]. destruct d; [now apply Hw|apply W_panic].
Qed.
Theorem closed_write t args v : every Qc Qe Q K t -> G args -> P (write_ty cu t args v).
Proof. intros H Hg. now apply (fst closed_write_all). Qed.
End Write.
