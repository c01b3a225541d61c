(** More fuel and more stack never change a result. *)
From Coq Require Import Lia.
From Verif Require Import Base Stream Reader Writer Prims MonadFacts Containers Derive DeriveSpec DeriveSound DeriveProps Rec.

(** [m'] gives the result of [m] wherever [m] ends. *)
Definition refines {S A} (m m' : ST S A) : Prop := forall s, fst (m s) <> Diverge -> m' s = m s.
Lemma refines_refl {S A} (m : ST S A) : refines m m.
Proof. intros s _. reflexivity. Qed.
Lemma refines_trans {S A} (m1 m2 m3 : ST S A) : refines m1 m2 -> refines m2 m3 -> refines m1 m3.
Proof. intros H1 H2 s H. rewrite (H2 s); [|rewrite (H1 s H); exact H]. exact (H1 s H). Qed.
Lemma refines_bind {S A B} (m m' : ST S A) (f f' : A -> ST S B) : refines m m' -> (forall a, refines (f a) (f' a)) -> refines (bind m f) (bind m' f').
Proof.
  intros Hm Hf s H. unfold bind in *. specialize (Hm s). destruct (m s) as [[a|e| |] s1]; cbn [fst] in *.
  - rewrite Hm by discriminate. exact (Hf a s1 H).
  - now rewrite Hm by discriminate.
  - now rewrite Hm by discriminate.
  - now destruct H.
Qed.
Lemma refines_diverge {S A} (m : ST S A) : refines diverge m.
Proof. intros s H. now destruct H. Qed.
Ltac at_state := let s := fresh "s" in intros s; cbv beta; lazymatch goal with |- fst (?m s) <> _ -> ?m' s = _ => refine ((_ : refines m m') s) end.

(** Loops *)
Lemma refines_vec_loop {A} f : forall f' (el el' : RM A) stop start acc, f <= f' -> refines el el' ->
  refines (vec_loop f el stop start acc) (vec_loop f' el' stop start acc).
Proof.
  induction f as [|f IH]; intros f' el el' stop start acc Hf He; [apply refines_diverge|]. destruct f' as [|f']; [lia|]. cbn [vec_loop].
  apply refines_bind; [exact He|]. intros v r H. destruct (_ <? _); [reflexivity|]. destruct (stop _ _); [reflexivity|].
  apply IH; [lia|exact He|exact H].
Qed.
Lemma refines_end_loop {A} f : forall f' (el el' : RM A) acc, f <= f' -> refines el el' -> refines (end_loop f el acc) (end_loop f' el' acc).
Proof.
  induction f as [|f IH]; intros f' el el' acc Hf He; [apply refines_diverge|]. destruct f' as [|f']; [lia|]. cbn [end_loop].
  intros r H. destruct (r_end r) as [[] r1]; [reflexivity|].
  refine (refines_bind el el' _ _ He _ r1 H). intros v. apply IH; [lia|exact He].
Qed.
Lemma refines_pred {A} f f' size cap (el el' : RM A) stop : f <= f' -> refines el el' ->
  refines (vec_with_predicate f size cap el stop) (vec_with_predicate f' size cap el' stop).
Proof.
  intros Hf He. unfold vec_with_predicate. destruct (size =? 0)%N; [apply refines_refl|]. destruct (match cap with Some _ => _ | None => _ end); [apply refines_refl|].
  intros r. now apply refines_vec_loop.
Qed.
Lemma refines_vec {A} f f' size (el el' : RM A) lim : f <= f' -> refines el el' -> refines (vec_read f size el lim) (vec_read f' size el' lim).
Proof.
  intros Hf He. destruct lim; cbn [vec_read].
  - destruct (n =? 0)%N; [apply refines_refl|]. intros r. now apply refines_pred.
  - now apply refines_pred.
  - destruct (_ <? _)%N; [apply refines_refl|]. destruct (_ =? 0)%N; [apply refines_refl|]. now apply refines_pred.
  - destruct (_ =? 0)%N; [apply refines_refl|]. now apply refines_pred.
  - unfold vec_to_end. destruct (_ =? 0)%N; [apply refines_refl|]. now apply refines_end_loop.
Qed.
Lemma refines_array {A} n (el el' : RM A) : refines el el' -> refines (read_array n el) (read_array n el').
Proof.
  intros He. induction n as [|n IH]; cbn [read_array]; [apply refines_refl|]. apply refines_bind; [exact He|]. intros v.
  apply refines_bind; [exact IH|]. intros vs. apply refines_refl.
Qed.
Lemma refines_list {A} (f f' : A -> WM unit) l : (forall x, refines (f x) (f' x)) -> refines (write_list f l) (write_list f' l).
Proof. intros H. induction l as [|x l IH]; cbn [write_list]; [apply refines_refl|]. apply refines_bind; auto. Qed.

Section Types.
Variables (cu cu' : nat -> custom) (f f' : nat).
Hypothesis Hf : f <= f'.
Hypothesis Hr : forall k args, refines (cu_read (cu k) args) (cu_read (cu' k) args).
Hypothesis Hw : forall k args v, refines (cu_write (cu k) args v) (cu_write (cu' k) args v).

Lemma refines_field c a b ctx acc rd rd' : (forall lim args, refines (rd lim args) (rd' lim args)) ->
  refines (read_field c a b ctx acc rd) (read_field c a b ctx acc rd').
Proof.
  intros H. unfold read_field. do 3 (apply refines_bind; [apply refines_refl|]; intros _).
  at_state. set (off := r_bits s). apply refines_bind; [|intros v; apply refines_refl].
  assert (HF : refines (field_read_func c a b ctx acc off rd) (field_read_func c a b ctx acc off rd')).
  { unfold field_read_func. destruct (a_reader a); [apply refines_refl|]. destruct (a_limit a); [|apply H]. apply refines_bind; [apply refines_refl|].
    intros lim. destruct b, lim; try apply H; apply refines_refl. }
  assert (HN : refines (field_read_normal a ctx acc off (field_read_func c a b ctx acc off rd)) (field_read_normal a ctx acc off (field_read_func c a b ctx acc off rd'))).
  { unfold field_read_normal. apply refines_bind; [exact HF|]. intros v. apply refines_refl. }
  unfold field_read_tokens. destruct (a_skip a) as [[]|], (a_cond a) as [g|]; try exact HN; try apply refines_refl; destruct (g ctx acc off); try exact HN; apply refines_refl.
Qed.
Definition body_refines (d d' : option (RM value)) : Prop :=
  match d, d' with Some m, Some m' => refines m m' | None, None => True | _, _ => False end.
Theorem types_refine :
  (forall t lim args, refines (read_ty cu f t lim args) (read_ty cu' f' t lim args)) /\
  (forall fs c ctx id acc, refines (fields_read cu f c ctx fs id acc) (fields_read cu' f' c ctx fs id acc)) /\
  (forall vs e ctx id k d d', body_refines d d' -> refines (variants_read cu f e ctx id vs k d) (variants_read cu' f' e ctx id vs k d')).
Proof.
  apply types_ind; intros; cbn [read_ty fields_read variants_read]; try apply refines_refl.
  - destruct lim; [apply refines_refl|]. destruct args as [|[] [|]]; try apply refines_refl.
    apply refines_bind; [|intros; apply refines_refl]. unfold read_cstring. apply refines_bind; [|intros; apply refines_refl].
    now apply refines_vec; [|apply refines_refl].
  - apply refines_bind; [auto|]. intros; apply refines_refl.
  - apply refines_bind; [auto|]. intros x. apply refines_bind; [auto|]. intros; apply refines_refl.
  - apply refines_bind; [|intros; apply refines_refl]. apply refines_array. auto.
  - destruct lim; [|apply refines_refl]. apply refines_bind; [|intros; apply refines_refl]. apply refines_vec; auto.
  - do 2 (apply refines_bind; [apply refines_refl|]; intros). apply refines_bind; [auto|]. intros; apply refines_refl.
  - apply refines_bind; [apply refines_refl|]. intros _. apply refines_bind; [destruct (en_id _); [apply refines_refl|auto]|].
    intros id. apply H0. exact I.
  - destruct lim; [apply refines_refl|]. apply Hr.
  - apply refines_bind.
    + destruct id; [destruct (a_reader a)|]; try apply refines_refl; apply refines_field; intros; auto.
    + intros v. apply refines_bind; [auto|]. intros; apply refines_refl.
  - destruct d, d'; cbn in H; try contradiction; [exact H|apply refines_refl].
  - assert (HB : refines (let* l := fields_read cu f (en_c e) ctx fs (if stores_id e v then Some id else None) [] in ret (VVar k l))
                         (let* l := fields_read cu' f' (en_c e) ctx fs (if stores_id e v then Some id else None) [] in ret (VVar k l))).
    { apply refines_bind; [auto|]. intros; apply refines_refl. }
    destruct (matches _ _); [exact HB|]. apply H0. destruct d, d'; cbn in H1 |- *; try contradiction; [exact H1|].
    destruct (v_default v); [exact HB|exact I].
Qed.
Theorem writes_refine :
  (forall t args v, refines (write_ty cu t args v) (write_ty cu' t args v)) /\
  (forall fs c ctx id stored todo acc, refines (fields_write cu c ctx fs id stored todo acc) (fields_write cu' c ctx fs id stored todo acc)) /\
  (forall vs e ctx wid wid' k l, (forall args x, refines (wid args x) (wid' args x)) ->
     refines (variant_write cu e ctx wid vs k l) (variant_write cu' e ctx wid' vs k l)).
Proof.
  apply types_ind; intros; cbn [write_ty fields_write variant_write]; try apply refines_refl.
  - destruct v; try apply refines_refl. auto.
  - destruct v; try apply refines_refl. apply refines_bind; auto.
  - destruct v; try apply refines_refl. apply refines_list. auto.
  - destruct v; try apply refines_refl. apply refines_list. auto.
  - destruct v; try apply refines_refl. do 2 (apply refines_bind; [apply refines_refl|]; intros). auto.
  - destruct v; try apply refines_refl. apply refines_bind; [apply refines_refl|]. intros. apply H0. intros. apply H.
  - apply Hw.
  - apply refines_bind; [|intros; auto]. destruct id; [auto|]. unfold write_field.
    do 3 (apply refines_bind; [apply refines_refl|]; intros).
    at_state. apply refines_bind; [apply refines_refl|]. intros. apply refines_bind; [|intros; apply refines_refl].
    assert (HF : refines (field_write_func c a stored ctx acc (w_bits s) (field_value a stored todo ctx acc) (fun args x => write_ty cu t args x))
                         (field_write_func c a stored ctx acc (w_bits s) (field_value a stored todo ctx acc) (fun args x => write_ty cu' t args x))).
    { unfold field_write_func. destruct (a_writer a); [apply refines_refl|]. destruct (a_temp a); [destruct (a_temp_value a); [auto|apply refines_refl]|auto]. }
    unfold field_write_tokens. destruct (a_skip a) as [[]|], (a_cond a) as [g|]; try exact HF; try apply refines_refl; destruct (g ctx acc _); try exact HF; apply refines_refl.
  - destruct k; [|auto]. apply refines_bind; [|intros; auto]. unfold write_id. destruct (en_id e); [apply refines_refl|].
    destruct (v_sel v) as [x|p [x|]|x]; try apply H; destruct (no_fields fs); try apply refines_refl; auto.
Qed.
End Types.
