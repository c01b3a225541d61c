(** Reading on machines of different byte orders. *)
From Coq Require Import Lia ZifyBool ZifyNat ZifyN.
From Verif Require Import Base BitsFacts NFacts MonadFacts Spec Stream Reader Session SessionFacts ReaderFacts FastRead Writer Prims Containers SafeFacts ReaderOps Derive DeriveSpec DeriveSound DeriveFacts Target TargetSpec.
Ltac Zify.zify_post_hook ::= Z.div_mod_to_equations.

(** ** Related programs *)

Definition with_endian (a : fattrs) (e : option (expr0 endian)) : fattrs :=
  mkF e (a_order a) (a_bits a) (a_bytes a) (a_ctx a) (a_limit a) (a_map a) (a_reader a) (a_writer a) (a_skip a) (a_cond a) (a_default a)
    (a_assert a) (a_assert_eq a) (a_seek a) (a_magic a) (a_pad_before a) (a_pad_after a) (a_temp a) (a_temp_value a) (a_update a).
Lemma with_own_endian a : with_endian a (a_endian a) = a.
Proof. now destruct a. Qed.

Section Related.
Variables (cu : nat -> custom) (fuel : nat).
Variable R : forall A, RM A -> RM A -> Prop.
Arguments R {A}.
Hypothesis R_ext : forall A (m1 m1' m2 m2' : RM A), (forall r, m1 r = m1' r) -> (forall r, m2 r = m2' r) -> R m1 m2 -> R m1' m2'.
Hypothesis R_lift : forall A (x : res A), R (lift x) (lift x).
Hypothesis R_bind : forall A B (m1 m2 : RM A) (f1 f2 : A -> RM B), R m1 m2 -> (forall a, R (f1 a) (f2 a)) -> R (bind m1 f1) (bind m2 f2).
Hypothesis R_off : forall A (f1 f2 : nat -> RM A), (forall n, R (f1 n) (f2 n)) -> R (fun r => f1 (r_bits r) r) (fun r => f2 (r_bits r) r).
Hypothesis R_byte : R (prim_read PU8 C0) (prim_read PU8 C0).
Hypothesis R_skip : forall n o, R (skip_bits n o) (skip_bits n o).
Hypothesis R_seek : forall w, R (lift_io (r_seek w)) (lift_io (r_seek w)).
Hypothesis R_end : forall A (k1 k2 : bool -> RM A), (forall b, R (k1 b) (k2 b)) -> R (fun r => let '(b, r') := r_end r in k1 b r') (fun r => let '(b, r') := r_end r in k2 b r').
Hypothesis R_exact : forall n, R (read_exact_vec n) (read_exact_vec n).

Lemma R_ret {A} (a : A) : R (ret a) (ret a).
Proof. exact (R_lift A (Ok a)). Qed.
Lemma R_fail {A} e : R (fail (A:=A) e) (fail e).
Proof. exact (R_lift A (Err e)). Qed.
Lemma R_panic {A} : R (panic (A:=A)) panic.
Proof. exact (R_lift A Panic). Qed.
Lemma R_magic m : R (read_magic m) (read_magic m).
Proof. induction m as [|b m IH]; cbn [read_magic]; [apply R_ret|]. apply R_bind; [apply R_byte|]. intros x. destruct (_ =? _)%N; [exact IH|apply R_fail]. Qed.
Lemma R_pad p o : R (read_pad p o) (read_pad p o).
Proof.
  destruct p as [z|]; cbn [read_pad]; [|apply R_ret]. destruct (to_usize z) as [n|]; [|apply R_fail].
  eapply R_ext; [| |apply (R_skip (N.to_nat n) (match o with Some x => x | None => Msb0 end))]; reflexivity.
Qed.
Lemma R_read_seek s : R (read_seek s) (read_seek s).
Proof. destruct s as [[w|]|]; cbn [read_seek]; [|apply R_panic|apply R_ret]. apply R_bind; [apply R_seek|]. intros _. apply R_ret. Qed.
Lemma R_asserts a ctx fs off v : R (asserts a ctx fs off v) (asserts a ctx fs off v).
Proof.
  unfold asserts, check. apply R_bind; [|intros _].
  - destruct (a_assert a) as [f|]; [destruct (f _ _ _)|]; [apply R_ret|apply R_fail|apply R_ret].
  - destruct (a_assert_eq a) as [f|]; [destruct (value_eqb _ _)|]; [apply R_ret|apply R_fail|apply R_ret].
Qed.
Lemma R_array {A} n (e1 e2 : RM A) : R e1 e2 -> R (read_array n e1) (read_array n e2).
Proof. intros H. induction n as [|n IH]; cbn [read_array]; [apply R_ret|]. apply R_bind; [exact H|intros v]. apply R_bind; [exact IH|intros; apply R_ret]. Qed.
Lemma R_loop {A} (e1 e2 : RM A) stop start : R e1 e2 -> forall f acc, R (vec_loop f e1 stop start acc) (vec_loop f e2 stop start acc).
Proof.
  intros H. induction f as [|f IH]; intros acc; cbn [vec_loop]; [exact (R_lift _ Diverge)|]. apply R_bind; [exact H|intros v].
  apply (R_off _ (fun n r => if n <? start then (Panic, r) else if stop (n - start) (acc ++ [v]) then (Ok (acc ++ [v]), r) else vec_loop f e1 stop start (acc ++ [v]) r)
    (fun n r => if n <? start then (Panic, r) else if stop (n - start) (acc ++ [v]) then (Ok (acc ++ [v]), r) else vec_loop f e2 stop start (acc ++ [v]) r)).
  intros n. destruct (n <? start); [apply R_panic|]. destruct (stop _ _); [apply (R_ret (acc ++ [v]))|]. eapply R_ext; [| |apply (IH (acc ++ [v]))]; reflexivity.
Qed.
Lemma R_end_loop {A} (e1 e2 : RM A) : R e1 e2 -> forall f acc, R (end_loop f e1 acc) (end_loop f e2 acc).
Proof.
  intros H. induction f as [|f IH]; intros acc; cbn [end_loop]; [exact (R_lift _ Diverge)|].
  eapply R_ext; [| |apply (R_end _ (fun b => if b then ret acc else let* v := e1 in end_loop f e1 (acc ++ [v])) (fun b => if b then ret acc else let* v := e2 in end_loop f e2 (acc ++ [v])))].
  - intros r. cbv beta. destruct (r_end r) as [[] r']; reflexivity.
  - intros r. cbv beta. destruct (r_end r) as [[] r']; reflexivity.
  - intros []; [apply R_ret|]. apply R_bind; [exact H|]. intros v. apply IH.
Qed.
Lemma R_pred {A} f size cap (e1 e2 : RM A) stop : R e1 e2 -> R (vec_with_predicate f size cap e1 stop) (vec_with_predicate f size cap e2 stop).
Proof.
  intros H. unfold vec_with_predicate. destruct (size =? 0)%N; [apply R_ret|]. match goal with |- R (if ?b then _ else _) _ => destruct b end; [apply R_panic|].
  apply (R_off _ (fun n => vec_loop f e1 stop n []) (fun n => vec_loop f e2 stop n [])). intros n. now apply R_loop.
Qed.
Lemma R_vec_stop {A} f size (e1 e2 : RM A) lim : lim <> LEnd -> R e1 e2 -> R (vec_read f size e1 lim) (vec_read f size e2 lim).
Proof.
  intros L H. destruct lim as [n|p|n|n|]; cbn [vec_read].
  - destruct (n =? 0)%N; [apply R_ret|]. eapply R_ext; [| |apply (R_pred (N.to_nat n) size (Some n) e1 e2 (fun _ acc => (N.of_nat (length acc) =? n)%N) H)]; reflexivity.
  - now apply R_pred.
  - destruct (_ <? _)%N; [apply R_panic|]. destruct (_ =? 0)%N; [apply R_ret|]. now apply R_pred.
  - destruct (n =? 0)%N; [apply R_ret|]. now apply R_pred.
  - now destruct L.
Qed.
Lemma R_vec {A} f size (e1 e2 : RM A) lim : R e1 e2 -> R (vec_read f size e1 lim) (vec_read f size e2 lim).
Proof.
  intros H. destruct lim as [n|p|n|n|]; try (now apply R_vec_stop). cbn [vec_read].
  unfold vec_to_end. destruct (size =? 0)%N; [apply R_ret|]. now apply R_end_loop.
Qed.
Lemma R_cstr f : R (read_cstring f) (read_cstring f).
Proof. unfold read_cstring, to_cstring. apply R_bind; [apply R_vec_stop; [discriminate|apply R_byte]|]. intros l. destruct (from_vec_with_nul l); [apply R_ret|apply R_fail]. Qed.
Lemma R_cstrb n : R (read_cstring_bytes n) (read_cstring_bytes n).
Proof. unfold read_cstring_bytes, to_cstring. apply R_bind; [apply R_vec_stop; [discriminate|apply R_byte]|]. intros l. destruct (from_vec_with_nul l); [apply R_ret|apply R_fail]. Qed.
Lemma R_read_field c a e u ctx fs rd1 rd2 :
  (forall f ctx fs off, a_reader a = Some f -> R (f ctx fs off) (f ctx fs off)) ->
  (forall lim off, (forall l, lim = Some l -> exists f, a_limit a = Some f /\ eval_limit f ctx fs off = Ok l) ->
     R (rd1 lim (field_args c a ctx fs off)) (rd2 lim (field_args c (with_endian a e) ctx fs off))) ->
  R (read_field c a u ctx fs rd1) (read_field c (with_endian a e) u ctx fs rd2).
Proof.
  intros HR H. unfold read_field. apply R_bind; [apply R_read_seek|intros _]. apply R_bind; [apply R_magic|intros _]. apply R_bind; [apply R_pad|intros _].
  apply (R_off value (fun off => let* v := field_read_tokens a ctx fs off (field_read_normal a ctx fs off (field_read_func c a u ctx fs off rd1)) in
     let* _ := asserts a ctx fs off v in let* _ := read_pad (eval0 (a_pad_after a) ctx (fs ++ [v])) (field_order c a ctx fs) in ret v)
    (fun off => let* v := field_read_tokens (with_endian a e) ctx fs off (field_read_normal (with_endian a e) ctx fs off (field_read_func c (with_endian a e) u ctx fs off rd2)) in
     let* _ := asserts (with_endian a e) ctx fs off v in
     let* _ := read_pad (eval0 (a_pad_after (with_endian a e)) ctx (fs ++ [v])) (field_order c (with_endian a e) ctx fs) in ret v)).
  intros off. apply R_bind.
  - assert (HF : R (field_read_func c a u ctx fs off rd1) (field_read_func c (with_endian a e) u ctx fs off rd2)).
    { unfold field_read_func. cbn [a_reader with_endian a_limit]. destruct (a_reader a) as [f|] eqn:Er; [now apply HR|]. destruct (a_limit a) as [l|] eqn:El; [|apply H; discriminate].
      destruct (eval_limit l ctx fs off) as [lim|x| |] eqn:Ev;
        [|eapply R_ext; [| |apply (R_lift value (Err x))]; reflexivity|eapply R_ext; [| |apply (R_lift value Panic)]; reflexivity
         |eapply R_ext; [| |apply (R_lift value Diverge)]; reflexivity].
      apply R_ext with (m1 := match u, lim with
         | true, LCount n => let* bs := read_exact_vec n in ret (vec_of_bytes bs)
         | _, _ => rd1 (Some lim) (field_args c a ctx fs off) end)
       (m2 := match u, lim with
         | true, LCount n => let* bs := read_exact_vec n in ret (vec_of_bytes bs)
         | _, _ => rd2 (Some lim) (field_args c (with_endian a e) ctx fs off) end); [reflexivity|reflexivity|].
      assert (HL : forall l0, Some lim = Some l0 -> exists f, Some l = Some f /\ eval_limit f ctx fs off = Ok l0) by (intros l0 X; injection X as <-; eauto).
      destruct u; [|now apply H]. destruct lim; try (now apply H). apply R_bind; [apply R_exact|intros; apply R_ret]. }
    assert (HN : R (field_read_normal a ctx fs off (field_read_func c a u ctx fs off rd1))
                   (field_read_normal (with_endian a e) ctx fs off (field_read_func c (with_endian a e) u ctx fs off rd2))).
    { unfold field_read_normal. cbn [a_map with_endian]. apply R_bind; [exact HF|]. intros v. destruct (a_map a); [apply R_lift|apply R_ret]. }
    unfold field_read_tokens. cbn [a_skip a_cond a_default with_endian]. destruct (a_skip a) as [[]|], (a_cond a) as [f|]; try destruct (f _ _ _); auto using R_ret.
  - intros v. apply R_bind; [exact (R_asserts a ctx fs off v)|intros _]. apply R_bind; [|intros; apply R_ret]. exact (R_pad _ _).
Qed.
Lemma R_pctx {A} lim args (k1 k2 : pctx -> RM A) : (forall c, pctx_of args = Some c -> R (k1 c) (k2 c)) -> R (with_pctx lim args k1) (with_pctx lim args k2).
Proof. intros H. unfold with_pctx. destruct lim; [apply R_panic|]. destruct (pctx_of args); [now apply H|apply R_panic]. Qed.

(** *** One type on two machines *)
Variables (e0 : endian) (good : prim -> list value -> Prop).
Hypothesis R_good : forall p args c, good p args -> pctx_of args = Some c -> R (prim_read p (read_ctx e0 c)) (prim_read p c).
Hypothesis good_byte : forall args, good PU8 args.
Variables (Q : cattrs -> fattrs -> ty -> Prop) (K : nat -> Prop).
Hypothesis R_reader : forall c a t f ctx fs off, Q c a t -> a_reader a = Some f -> R (f ctx fs off) (f ctx fs off).
Hypothesis R_custom : forall k args, K k -> R (cu_read (cu k) args) (cu_read (cu k) args).
Notation ev := (every (fun _ => True) (fun _ => True) Q K).
Notation evf := (every_field (fun _ => True) (fun _ => True) Q K).
Notation evv := (every_variant (fun _ => True) (fun _ => True) Q K).

Theorem related_read :
  (forall t, ev t -> forall lim args, numbers good t args -> R (t_read_ty e0 cu fuel t lim args) (read_ty cu fuel t lim args)) /\
  (forall fs c, evf c fs -> field_numbers good c fs -> forall ctx id acc, R (t_fields_read e0 cu fuel c ctx fs id acc) (fields_read cu fuel c ctx fs id acc)) /\
  (forall vs e, evv (en_c e) vs -> variant_numbers good e vs -> forall ctx id k d1 d2,
     match d1, d2 with Some m1, Some m2 => R m1 m2 | None, None => True | _, _ => False end ->
     R (t_variants_read e0 cu fuel e ctx id vs k d1) (variants_read cu fuel e ctx id vs k d2)).
Proof.
  apply types_ind.
  - intros p _ lim args Hg. apply R_pctx. intros c Hc. apply R_bind; [now apply R_good with (args := args)|]. intros n. apply R_ret.
  - intros _ lim args _. apply R_pctx. intros c Hc. apply R_bind; [|intros b; apply R_ret]. unfold read_bool. apply R_bind; [now apply R_good with (args := args)|].
    intros v. destruct (v =? 1)%N; [apply R_ret|]. destruct (v =? 0)%N; [apply R_ret|apply R_fail].
  - intros p _ lim args Hg. apply R_pctx. intros c Hc. apply R_bind; [|intros n; apply R_ret]. unfold read_nonzero. apply R_bind; [now apply R_good with (args := args)|].
    intros v. destruct (v =? 0)%N; [apply R_fail|apply R_ret].
  - intros _ lim args _. apply R_ret.
  - intros _ lim args _. cbn [t_read_ty read_ty]. destruct lim; [apply R_panic|]. destruct args as [|[] [|]]; try apply R_panic; (apply R_bind; [auto using R_cstr, R_cstrb|intros; apply R_ret]).
  - intros t IH H lim args Hg. cbn [t_read_ty read_ty]. apply R_bind; [now apply IH|]. intros v. apply R_ret.
  - intros a IHa b IHb [Ha Hb] lim args [Ga Gb]. cbn [t_read_ty read_ty]. apply R_bind; [now apply IHa|]. intros x. apply R_bind; [now apply IHb|]. intros y. apply R_ret.
  - intros n t IH H lim args Hg. cbn [t_read_ty read_ty]. apply R_bind; [|intros vs; apply R_ret]. apply R_array. now apply IH.
  - intros pl size t IH H lim args Hg. cbn [t_read_ty read_ty]. destruct lim as [l|]; [|apply R_panic]. apply R_bind; [|intros vs; apply R_ret]. apply R_vec. now apply IH.
  - intros c fs IH [_ Hf] lim args Hg. rewrite read_struct. cbn [t_read_ty]. cbv zeta. apply R_bind; [apply R_read_seek|intros _].
    apply R_bind; [apply R_magic|]. intros _. apply R_bind; [now apply IH|]. intros vs. apply R_ret.
  - intros e idt IHi vs IHv (_ & Hi & Hv) lim args [Gi Gv]. rewrite read_enum. cbn [t_read_ty]. cbv zeta. apply R_bind; [apply R_magic|]. intros _. apply R_bind.
    + destruct (en_id e); [apply R_ret|]. apply IHi; auto.
    + intros id. apply IHv; auto.
  - intros k Hk lim args _. cbn [t_read_ty read_ty]. destruct lim; [apply R_panic|]. now apply R_custom.
  - intros c _ _ ctx id acc. apply R_ret.
  - intros a t IHt wire IHw tl IHtl c (Ha & Ht & Hw & Htl) [Ga Gtl] ctx id acc. rewrite read_cons. cbn [t_fields_read]. apply R_bind.
    + assert (HF : R (read_field c a (is_vec_u8 t) ctx acc (fun lim args => t_read_ty e0 cu fuel wire lim args))
                     (read_field c a (is_vec_u8 t) ctx acc (fun lim args => read_ty cu fuel wire lim args))).
      { rewrite <- (with_own_endian a) at 2. apply R_read_field; [intros; now apply R_reader with (c := c) (a := a) (t := t)|].
        intros lim off _. rewrite with_own_endian. apply IHw; [exact Hw|]. apply Ga. }
      destruct id as [x|]; [|exact HF]. destruct (a_reader a); [exact HF|apply R_ret].
    + intros v. apply R_bind; [now apply IHtl|]. intros vs. apply R_ret.
  - intros e _ _ ctx id k d1 d2 Hd. cbn [t_variants_read variants_read]. destruct d1, d2; try contradiction; [exact Hd|apply R_fail].
  - intros v fs IHf vs IHv e [Hf Hv] (Gf & _ & Gv) ctx id k d1 d2 Hd. rewrite read_variant. cbn [t_variants_read]. cbv zeta.
    assert (HB : R (let* l := t_fields_read e0 cu fuel (en_c e) ctx fs (if stores_id e v then Some id else None) [] in ret (VVar k l))
                   (let* l := fields_read cu fuel (en_c e) ctx fs (if stores_id e v then Some id else None) [] in ret (VVar k l))).
    { apply R_bind; [now apply IHf|]. intros l. apply R_ret. }
    destruct (matches (v_sel v) id); [exact HB|]. apply IHv; [exact Hv|exact Gv|].
    destruct d1 as [m1|], d2 as [m2|]; try contradiction; [exact Hd|]. destruct (v_default v); [exact HB|exact I].
Qed.
End Related.

(** ** The same results, states included *)

Section Invariant.
Variable I : reader -> Prop.
Definition keeps {A} (m : RM A) : Prop := forall r a r', I r -> m r = (Ok a, r') -> I r'.
Definition alike {A} (m1 m2 : RM A) : Prop := forall r, I r -> m1 r = m2 r /\ forall a r', m1 r = (Ok a, r') -> I r'.
Lemma al_refl {A} (m : RM A) : keeps m -> alike m m.
Proof. intros H r Hr. split; [reflexivity|]. intros a r'. now apply H. Qed.
Lemma al_ext {A} (m1 m1' m2 m2' : RM A) : (forall r, m1 r = m1' r) -> (forall r, m2 r = m2' r) -> alike m1 m2 -> alike m1' m2'.
Proof. intros E1 E2 H r Hr. rewrite <- E1, <- E2. now apply H. Qed.
Lemma al_lift {A} (x : res A) : alike (lift x) (lift x).
Proof. apply al_refl. intros r a r' Hr E. apply pair_inj in E. now destruct E as [_ <-]. Qed.
Lemma al_bind {A B} (m1 m2 : RM A) (f1 f2 : A -> RM B) : alike m1 m2 -> (forall a, alike (f1 a) (f2 a)) -> alike (bind m1 f1) (bind m2 f2).
Proof.
  intros M F r Hr. destruct (M r Hr) as [E H]. unfold bind. rewrite <- E. destruct (m1 r) as [[a|e| |] r1]; try (split; [reflexivity|intros ? ? X; discriminate X]).
  apply (F a). now apply (H a).
Qed.
Lemma al_off {A} (f1 f2 : nat -> RM A) : (forall n, alike (f1 n) (f2 n)) -> alike (fun r => f1 (r_bits r) r) (fun r => f2 (r_bits r) r).
Proof. intros H r. apply H. Qed.
Lemma al_end (HE : forall r b r', I r -> r_end r = (b, r') -> I r') A (k1 k2 : bool -> RM A) :
  (forall b, alike (k1 b) (k2 b)) -> alike (fun r => let '(b, r') := r_end r in k1 b r') (fun r => let '(b, r') := r_end r in k2 b r').
Proof. intros H r Hr. destruct (r_end r) as [b r'] eqn:E. apply H. now apply (HE r b). Qed.
End Invariant.

(** ** On every machine *)

Definition any (r : reader) : Prop := True.
Lemma any_keeps {A} (m : RM A) : keeps any m.
Proof. intros r a r' _ _. exact I. Qed.
Lemma little_prim p c r : prim_read p (read_ctx Little c) r = prim_read p c r.
Proof. destruct c; try reflexivity; cbn [read_ctx]; cbn [prim_read]; destruct (_ =? 0); reflexivity. Qed.
Lemma all_numbers (good : prim -> list value -> Prop) : (forall p args, good p args) -> forall t args, numbers good t args.
Proof.
  intros G. enough ((forall t args, numbers good t args) /\
    (forall fs, (forall c, field_numbers good c fs) /\ match fs with FCons _ t _ _ => forall args, numbers good t args | FNil => True end) /\
    (forall vs e, variant_numbers good e vs)) by tauto.
  apply types_ind; cbn [numbers field_numbers variant_numbers]; auto.
  - intros c fs H args. apply H.
  - intros e idt Hi vs Hv args. split; [intros _ ctx; apply Hi|apply Hv].
  - intros a t Ht wire Hw tl [Hl _]. split; [|exact Ht]. intros c. split; [intros ctx l off; split; [apply Ht|apply Hw]|apply Hl].
  - intros v fs Hf vs Hv e. split; [apply Hf|]. split; [|apply Hv]. destruct (v_sel v), fs; try exact I. intros ctx. apply Hf.
Qed.
Lemma all_every t : every (fun _ => True) (fun _ => True) (fun _ _ _ => True) (fun _ => True) t.
Proof.
  revert t. enough ((forall t, every (fun _ => True) (fun _ => True) (fun _ _ _ => True) (fun _ => True) t) /\
    (forall fs c, every_field (fun _ => True) (fun _ => True) (fun _ _ _ => True) (fun _ => True) c fs) /\
    (forall vs c, every_variant (fun _ => True) (fun _ => True) (fun _ _ _ => True) (fun _ => True) c vs)) by tauto.
  apply types_ind; try (intros; exact I).
  - intros t H. exact H.
  - intros a Ha b Hb. split; assumption.
  - intros n t H. exact H.
  - intros k s t H. exact H.
  - intros c fs H. split; [exact I|apply H].
  - intros e idt Hi vs Hv. split; [exact I|]. split; [exact Hi|apply Hv].
  - intros a t Ht wire Hw tl Hl c. split; [exact I|]. split; [exact Ht|]. split; [exact Hw|apply Hl].
  - intros v fs Hf vs Hv c. split; [apply Hf|apply Hv].
Qed.
Theorem little_read cu fuel t lim args r : t_read_ty Little cu fuel t lim args r = read_ty cu fuel t lim args r.
Proof.
  refine (proj1 (proj1 (related_read cu fuel (@alike any) (@al_ext any) (@al_lift any) (@al_bind any) (@al_off any) _ _ _ _ _ Little (fun _ _ => True)
    _ _ (fun _ _ _ => True) (fun _ => True) _ _) t (all_every t) lim args _ r I));
    try (intros; apply al_refl, any_keeps); try (intros; exact I).
  - apply al_end. intros; exact I.
  - intros p a c _ _ r0 _. split; [apply little_prim|intros; exact I].
  - now apply all_numbers.
Qed.

(** Numbers that are single bytes, or of which the order is given. *)
Definition calm (r : reader) : Prop := r_wf r /\ quiet (r_s r).
Lemma calm_step r r' : calm r -> r_wf r' -> same_source (r_s r) (r_s r') -> calm r'.
Proof. intros [_ Q] W (_ & _ & F). split; [exact W|]. intros k. rewrite F. apply Q. Qed.
Lemma calm_bits n o : keeps calm (read_bits_into n o).
Proof. intros r a r' H E. apply read_bits_into_frame in E; [|apply H]. now apply (calm_step r). Qed.
Lemma calm_uint n : keeps calm (read_bits_uint_msb0 n).
Proof. intros r a r' H E. apply read_uint_frame in E; [|apply H]. now apply (calm_step r). Qed.
Lemma bytes_fit n k o r bs r' : read_bytes n k o r = (Ok bs, r') -> read_bytes n n o r = (Ok bs, r').
Proof.
  unfold read_bytes. destruct (r_left r) as [[b|l]|].
  - unfold read_bytes_leftover. destruct (k =? 0); [discriminate|]. unfold bind, modify. destruct (Nat.eqb_spec n 0) as [->|Hn]; [discriminate|].
    destruct (n - 1 =? 0); [exact (fun H => H)|]. replace (n <? n - 1) with false by lia. rewrite Nat.ltb_irrefl. destruct (k <? n - 1); [discriminate|]. destruct (k <? n); [discriminate|].
    exact (fun H => H).
  - rewrite Nat.ltb_irrefl. destruct (k <? n); [discriminate|]. exact (fun H => H).
  - rewrite Nat.ltb_irrefl. destruct (k <? n); [discriminate|]. exact (fun H => H).
Qed.
Lemma calm_bytes n k o : keeps calm (read_bytes n k o).
Proof. intros r a r' H E. apply bytes_fit in E. apply read_bytes_frame in E; [|apply H]. now apply (calm_step r). Qed.
Lemma calm_end r b r' : calm r -> r_end r = (b, r') -> calm r'.
Proof. intros H E. apply r_end_frame in E; [|apply H]. now apply (calm_step r). Qed.
Lemma calm_skip n o : keeps calm (skip_bits n o).
Proof. intros r a r' H E. apply skip_bits_frame in E; [|apply H]. now apply (calm_step r). Qed.
Lemma calm_seek w : keeps calm (lift_io (r_seek w)).
Proof. intros r a r' H E. unfold lift_io in E. destruct (r_seek w r) as [x r1] eqn:X. apply r_seek_frame in X. destruct x; [|discriminate]. apply pair_inj in E. destruct E as [_ <-]. now apply (calm_step r). Qed.
Lemma calm_inner w : keeps calm (inner_seek w).
Proof.
  intros r a r' [W Q] E. unfold inner_seek, lift_io in E. destruct (s_seek w (r_s r)) as [x s] eqn:X. destruct x; [|discriminate]. apply pair_inj in E. destruct E as [_ <-].
  unfold s_seek in X. destruct (s_fault _ _) as [[? ?]|]; [discriminate|]. destruct (s_noseek (r_s r)) as [v|]; [destruct (noseek_target _ _); [|discriminate]|destruct (seek_target _ _ _); [|discriminate]];
    (apply pair_inj in X; destruct X as [_ <-]; split; [exact W|exact Q]).
Qed.
Lemma keeps_bind (J : reader -> Prop) {A B} (m : RM A) (f : A -> RM B) : keeps J m -> (forall a, keeps J (f a)) -> keeps J (bind m f).
Proof. intros M F r b r' H E. apply bind_inv in E. destruct E as (a & r1 & E1 & E2). apply (F a r1 b r'); [|exact E2]. now apply (M r a). Qed.
Lemma keeps_lift (J : reader -> Prop) {A} (x : res A) : keeps J (lift x).
Proof. intros r a r' H E. apply pair_inj in E. now destruct E as [_ <-]. Qed.
Lemma keeps_exact (J : reader -> Prop) n : (forall w, keeps J (inner_seek w)) -> (forall n k o, keeps J (read_bytes n k o)) -> keeps J (read_exact_vec n).
Proof.
  intros JI JY.
  unfold read_exact_vec. do 3 (apply keeps_bind; [apply JI|intros ?]). destruct (_ <? _); [exact (keeps_lift J Panic)|].
  destruct (_ <? n)%N; [destruct (_ <? _)%N; [exact (keeps_lift J Panic)|]|]; [exact (keeps_lift J (Err _))|apply JY].
Qed.
Lemma calm_exact n : keeps calm (read_exact_vec n).
Proof. apply keeps_exact; [apply calm_inner|apply calm_bytes]. Qed.
Lemma keeps_prim (J : reader -> Prop) p c : (forall n o, keeps J (read_bits_into n o)) -> (forall n, keeps J (read_bits_uint_msb0 n)) -> (forall n k o, keeps J (read_bytes n k o)) ->
  keeps J (prim_read p c).
Proof.
  intros JB JU JY.
  assert (HY : forall e n o, keeps J (read_eyo p e n o)).
  { intros e n o. unfold read_eyo, read_u8_bytes, read_bytes_sized, read_bytes_const. destruct p; [|destruct (_ <? n); [exact (keeps_lift J (Err _))|]..];
      (apply keeps_bind; [apply JY|intros; exact (keeps_lift J (Ok _))]). }
  assert (HB : forall e n o, keeps J (read_ebo p e n o)).
  { assert (HU : forall wb e n o, keeps J (read_u_bits wb e n o)).
    { intros wb e n o. unfold read_u_bits. destruct (_ <? n); [exact (keeps_lift J (Err _))|].
      assert (HS : keeps J (let* bits := read_bits_into n o in lift (u_of_bits wb e n o bits))) by (apply keeps_bind; [apply JB|intros; apply keeps_lift]).
      destruct e, o; try exact HS. destruct (_ && _); [|exact HS]. apply keeps_bind; [apply JU|intros; exact (keeps_lift J (Ok _))]. }
    intros e n o. destruct p; cbn [read_ebo]; [apply HU|apply HU|]. unfold read_i_bits. destruct (_ <? n); [exact (keeps_lift J (Err _))|].
    apply keeps_bind; [apply JB|intros; apply keeps_lift]. }
  destruct c; cbn [prim_read]; try apply HY; try apply HB; try (destruct (_ =? 0); [apply HY|apply HB]);
    (unfold read_e, read_bytes_const; apply keeps_bind; [apply JY|intros; exact (keeps_lift J (Ok _))]).
Qed.
Lemma calm_prim p c : keeps calm (prim_read p c).
Proof. apply keeps_prim; [apply calm_bits|apply calm_uint|apply calm_bytes]. Qed.
Lemma calm_program m : reader_program True m -> keeps calm m.
Proof.
  induction 1 as [x|op k _ IH|f _ IH|f _ _ IH|m1 m2 E _ IH].
  - apply keeps_lift.
  - intros r a r' H E. destruct (run_rop op r) as [x r1] eqn:X. apply (IH x r1 a r'); [|exact E]. apply run_rop_frame in X; [|apply H]. now apply (calm_step r).
  - intros r. apply IH.
  - intros r. apply IH.
  - intros r a r' H X. rewrite <- E in X. now apply (IH r a r').
Qed.

(** One byte. *)
Lemma from_e_1 e b : from_e e [b] = from_be [b].
Proof. now destruct e. Qed.
Lemma short_lists l : 0 < length l < 8 -> In l (flat_map (fun n => map (fun k => N2bits n (N.of_nat k)) (seq 0 (2 ^ n))) (seq 1 7)).
Proof.
  intros H. apply in_flat_map. exists (length l). split; [apply in_seq; lia|]. apply in_map_iff. exists (N.to_nat (bits2N l)). split.
  - rewrite N2Nat.id. apply N2bits_bits2N.
  - apply in_seq. pose proof (bits2N_lt l) as X. replace (2 ^ N.of_nat (length l))%N with (N.of_nat (2 ^ length l)) in X by (rewrite Nat2N.inj_pow; reflexivity). lia.
Qed.
Lemma u_of_bits_1 e n o l : 0 < n < 8 -> length l = n -> u_of_bits 1 e n o l = u_of_bits 1 Little n o l.
Proof.
  intros Hn HL. destruct e; [reflexivity|]. assert (HI : In l (flat_map (fun n => map (fun k => N2bits n (N.of_nat k)) (seq 0 (2 ^ n))) (seq 1 7))) by (apply short_lists; lia).
  assert (H : forallb (fun o => forallb (fun l => match u_of_bits 1 Big (length l) o l, u_of_bits 1 Little (length l) o l with Ok a, Ok b => (a =? b)%N | _, _ => false end)
     (flat_map (fun n => map (fun k => N2bits n (N.of_nat k)) (seq 0 (2 ^ n))) (seq 1 7))) [Msb0; Lsb0] = true) by (vm_compute; reflexivity).
  rewrite forallb_forall in H. specialize (H o ltac:(destruct o; cbn; auto)). cbv beta in H. rewrite forallb_forall in H. specialize (H l HI). cbv beta in H.
  rewrite HL in H. destruct (u_of_bits 1 Big n o l) as [a| | |], (u_of_bits 1 Little n o l) as [b| | |]; try discriminate H. f_equal. now apply N.eqb_eq.
Qed.
Lemma bytes_length n k o r bs r' : calm r -> read_bytes n k o r = (Ok bs, r') -> length bs = n.
Proof.
  intros [W Q] E. apply bytes_fit in E. pose proof E as E0. destruct (Nat.eq_dec n 0) as [->|Hn]; [|now apply (ranged_bytes n n o ltac:(lia) r bs r' W Q)].
  unfold read_bytes in E. destruct (r_left r) as [[b|l]|] eqn:L.
  - discriminate E.
  - rewrite Nat.ltb_irrefl in E. unfold read_bytes_bits in E. apply bind_inv in E. destruct E as (l' & r1 & E1 & E2). apply read_bits_into_frame in E1; [|exact W].
    destruct E1 as (_ & _ & _ & _ & _ & HL). specialize (HL l' eq_refl). apply pair_inj in E2. destruct E2 as [E2 _]. apply ok_inj in E2. subst bs.
    destruct l'; [|discriminate HL]. now destruct o.
  - rewrite Nat.ltb_irrefl in E. pose proof (read_bytes_spec 0 0 o r W Q (le_n 0)) as X.
    assert (NP : ~ peeked r) by (intros [b Hb]; congruence). specialize (X (fun _ => NP)). cbn [take_bits Nat.mul] in X.
    destruct X as (bs1 & r1 & X1 & X2 & _). rewrite X1 in E0. apply pair_inj in E0. destruct E0 as [E0 _]. apply ok_inj in E0. subst bs1.
    pose proof (f_equal (@length bool) X2) as X3. rewrite bitstring_length in X3. cbn [length] in X3. lia.
Qed.
Lemma al_bind_ok {A B} (m : RM A) (f1 f2 : A -> RM B) : keeps calm m -> (forall r a r', calm r -> m r = (Ok a, r') -> f1 a r' = f2 a r') -> (forall a, keeps calm (f1 a)) ->
  alike calm (bind m f1) (bind m f2).
Proof.
  intros M F K r H. split; [|intros a r' E; now apply (keeps_bind calm m f1 M K r a)]. unfold bind. destruct (m r) as [[a|e| |] r1] eqn:E; try reflexivity. now apply (F r).
Qed.
Lemma byte_list (bs : list byte) : length bs = 1 -> exists b, bs = [b].
Proof. destruct bs as [|b [|]]; try discriminate. eauto. Qed.
Lemma byte_prim e p c : prim_bytes p = 1 -> alike calm (prim_read p (read_ctx e c)) (prim_read p c).
Proof.
  intros Hp.
  assert (HE : alike calm (read_e p e) (read_e p Little)).
  { unfold read_e, read_bytes_const. rewrite Hp. apply al_bind_ok; [apply calm_bytes| |intros; exact (keeps_lift calm (Ok _))].
    intros r bs r' H E. apply (bytes_length _ _ _ _ _ _ H) in E. destruct (byte_list _ E) as [b ->]. now rewrite !from_e_1. }
  assert (HY : forall n o, alike calm (read_eyo p e n o) (read_eyo p Little n o)).
  { assert (HS : forall n o, alike calm (read_bytes_sized 1 e n o) (read_bytes_sized 1 Little n o)).
    { intros n o. unfold read_bytes_sized. destruct (Nat.ltb_spec 1 n) as [Hn|Hn]; [exact (al_lift calm (Err Parse))|].
      apply al_bind_ok; [apply calm_bytes| |intros; exact (keeps_lift calm (Ok _))].
      intros r bs r' H E. apply (bytes_length _ _ _ _ _ _ H) in E. destruct e; [reflexivity|]. unfold ret. do 2 f_equal.
      destruct n as [|[|n]]; [|destruct (byte_list _ E) as [b ->]; reflexivity|lia]. destruct bs; [reflexivity|discriminate E]. }
    intros n o. destruct p as [|wb|wb]; cbn [read_eyo prim_bytes] in *; [|subst wb; apply HS..]. apply al_refl. exact (calm_prim PU8 (CEYO Little n o)). }
  assert (HB : forall n o, n mod 8 <> 0 -> alike calm (read_ebo p e n o) (read_ebo p Little n o)).
  { intros n o Hn.
    assert (HU : alike calm (read_u_bits 1 e n o) (read_u_bits 1 Little n o)).
    { unfold read_u_bits. destruct (Nat.ltb_spec (8 * 1) n) as [H8|H8]; [exact (al_lift calm (Err Parse))|].
      assert (HS : alike calm (let* bits := read_bits_into n o in lift (u_of_bits 1 e n o bits)) (let* bits := read_bits_into n o in lift (u_of_bits 1 Little n o bits))).
      { apply al_bind_ok; [apply calm_bits| |intros; apply keeps_lift]. intros r l r' [W _] E. apply read_bits_into_frame in E; [|exact W].
        unfold lift. f_equal. apply u_of_bits_1; [lia|]. now apply E. }
      destruct e; [exact HS|]. destruct o; [|exact HS]. replace ((0 <? n) && (n <=? 64)) with true by lia.
      intros r H. split; [|intros a r' E; refine (keeps_bind calm _ _ (calm_uint n) _ r a r' H E); intros; exact (keeps_lift calm (Ok _))].
      rewrite <- (proj1 (HS r H)). rewrite (bind_cong _ _ _ r (fast_read_generic n r (proj1 H) (proj2 H) ltac:(lia))). rewrite bind_assoc. apply bind_ext.
      intros l r' E. apply read_bits_into_frame in E; [|apply H]. destruct E as (_ & _ & _ & _ & _ & HL). specialize (HL l eq_refl). rewrite bind_ret_l.
      unfold lift, ret. f_equal. rewrite u_of_bits_1 by lia. pose proof (u_of_bits_1 Big n Msb0 l ltac:(lia) HL) as X. rewrite <- X. unfold u_of_bits.
      rewrite HL. unfold ceil8. replace (8 * 1 <? n + (8 * ((n + 7) / 8) - n)) with false by lia. replace (8 * ((n + 7) / 8) - n =? 0) with false by lia. cbn [andb].
      replace (0 <? n) with true by lia. f_equal. unfold wrap. apply N.mod_small. pose proof (bits2N_lt l) as Y. rewrite HL in Y.
      eapply N.lt_le_trans; [exact Y|]. apply N.pow_le_mono_r; lia. }
    destruct p as [|wb|wb]; cbn [read_ebo prim_bytes] in *; [exact HU|subst wb; exact HU|subst wb].
    unfold read_i_bits. destruct (Nat.ltb_spec (8 * 1) n) as [H8|H8]; [exact (al_lift calm (Err Parse))|].
    apply al_bind_ok; [apply calm_bits| |intros; apply keeps_lift]. intros r l r' [W _] E. apply read_bits_into_frame in E; [|exact W].
    unfold lift. f_equal. rewrite (u_of_bits_1 e n o l); [reflexivity|lia|]. now apply E. }
  destruct c; cbn [read_ctx]; try (apply al_refl, calm_prim); cbn [prim_read]; try apply HY; try exact HE.
  - destruct (n mod 8 =? 0) eqn:E; cbn [prim_read]; [apply HY|apply HB; lia].
  - destruct (n mod 8 =? 0) eqn:E; cbn [prim_read]; [apply HY|apply HB; lia].
Qed.
Lemma order_prim e p args c : gives_order args -> pctx_of args = Some c -> alike calm (prim_read p (read_ctx e c)) (prim_read p c).
Proof.
  intros [e' H] E. replace (read_ctx e c) with c; [apply al_refl, calm_prim|].
  destruct args as [|[] [|[] [|[] [|]]]]; try discriminate E; injection E as <-; cbn [In] in H; try reflexivity; exfalso; intuition congruence.
Qed.
Theorem portable_read e cu fuel t lim args : numbers (fun p args => single_byte p args \/ gives_order args) t args -> api_readers cu t ->
  alike calm (t_read_ty e cu fuel t lim args) (read_ty cu fuel t lim args).
Proof.
  intros HN HA.
  refine (proj1 (related_read cu fuel (@alike calm) (@al_ext calm) (@al_lift calm) (@al_bind calm) (@al_off calm) _ _ _ _ _ e (fun p args => single_byte p args \/ gives_order args)
    _ _ _ _ _ _) t HA lim args HN).
  - apply al_refl, calm_prim.
  - intros. apply al_refl, calm_skip.
  - intros. apply al_refl, calm_seek.
  - apply al_end, calm_end.
  - intros. apply al_refl, calm_exact.
  - intros p a c [H|H] E; [apply byte_prim; destruct H as [->|[H _]]; [reflexivity|exact H]|now apply (order_prim e p a)].
  - intros a. left. now left.
  - intros c a t' f ctx fs off H E. apply al_refl, calm_program. now apply H.
  - intros k a H. apply al_refl, calm_program, H.
Qed.
