(** An assertion only refuses. *)
From Coq Require Import Lia.
From Verif Require Import Base Spec Stream Reader Session Writer Prims MonadFacts Containers Derive DeriveSpec DeriveSound DeriveProps SafeSpec FlowSpec FlowFacts UncheckedSpec.

(** [m] with assertions, [m'] without. *)
Definition filters {S A} (m m' : ST S A) : Prop := forall s, m s = m' s \/ fst (m s) = Err Assertion.
Lemma f_refl {S A} (m : ST S A) : filters m m.
Proof. intros s. now left. Qed.
Lemma f_bind {S A B} (m m' : ST S A) (f f' : A -> ST S B) : filters m m' -> (forall a, filters (f a) (f' a)) -> filters (bind m f) (bind m' f').
Proof.
  intros Hm Hf s. unfold bind. destruct (Hm s) as [E|E].
  - rewrite E. destruct (m' s) as [[a|e| |] s1]; try (now left). apply Hf.
  - right. destruct (m s) as [[a|e| |] s1]; cbn [fst] in E; try discriminate. now inversion E.
Qed.
Lemma f_asserts {S A} a ctx acc off v (m m' : ST S A) : filters m m' -> filters (let* _ := asserts a ctx acc off v in m) (let* _ := asserts (unasserted a) ctx acc off v in m').
Proof.
  intros H s. unfold asserts, bind, check, ret, fail. cbn [a_assert a_assert_eq unasserted].
  destruct (a_assert a) as [g|]; [destruct (g _ _ _); [|now right]|]; (destruct (a_assert_eq a) as [h|]; [destruct (value_eqb _ _); [apply H|now right]|apply H]).
Qed.

Lemma f_vec_loop {A} f : forall (el el' : RM A) stop start acc, filters el el' -> filters (vec_loop f el stop start acc) (vec_loop f el' stop start acc).
Proof.
  induction f as [|f IH]; intros el el' stop start acc He; [apply f_refl|]. cbn [vec_loop].
  apply f_bind; [exact He|]. intros v r. destruct (_ <? _); [now left|]. destruct (stop _ _); [now left|]. apply IH, He.
Qed.
Lemma f_end_loop {A} f : forall (el el' : RM A) acc, filters el el' -> filters (end_loop f el acc) (end_loop f el' acc).
Proof.
  induction f as [|f IH]; intros el el' acc He; [apply f_refl|]. cbn [end_loop]. intros r. destruct (r_end r) as [[] r1]; [now left|].
  refine (f_bind el el' _ _ He _ r1). intros v. apply IH, He.
Qed.
Lemma f_pred {A} f size cap (el el' : RM A) stop : filters el el' -> filters (vec_with_predicate f size cap el stop) (vec_with_predicate f size cap el' stop).
Proof.
  intros He. unfold vec_with_predicate. destruct (size =? 0)%N; [apply f_refl|]. destruct (match cap with Some _ => _ | None => _ end); [apply f_refl|].
  intros r. now apply f_vec_loop.
Qed.
Lemma f_vec {A} f size (el el' : RM A) lim : filters el el' -> filters (vec_read f size el lim) (vec_read f size el' lim).
Proof.
  intros He. destruct lim; cbn [vec_read].
  - destruct (n =? 0)%N; [apply f_refl|]. intros r. now apply f_pred.
  - now apply f_pred.
  - destruct (_ <? _)%N; [apply f_refl|]. destruct (_ =? 0)%N; [apply f_refl|]. now apply f_pred.
  - destruct (_ =? 0)%N; [apply f_refl|]. now apply f_pred.
  - unfold vec_to_end. destruct (_ =? 0)%N; [apply f_refl|]. now apply f_end_loop.
Qed.
Lemma f_array {A} n (el el' : RM A) : filters el el' -> filters (read_array n el) (read_array n el').
Proof.
  intros He. induction n as [|n IH]; cbn [read_array]; [apply f_refl|]. apply f_bind; [exact He|]. intros v.
  apply f_bind; [exact IH|]. intros vs. apply f_refl.
Qed.
Lemma f_list {A} (f f' : A -> WM unit) l : (forall x, filters (f x) (f' x)) -> filters (write_list f l) (write_list f' l).
Proof. intros H. induction l as [|x l IH]; cbn [write_list]; [apply f_refl|]. apply f_bind; auto. Qed.
Ltac at_filter := let s := fresh "s" in intros s; cbv beta; lazymatch goal with |- ?m s = ?m' s \/ _ => refine ((_ : filters m m') s) end.
Lemma f_read_field c a b ctx acc rd rd' : (forall lim args, filters (rd lim args) (rd' lim args)) ->
  filters (read_field c a b ctx acc rd) (read_field c (unasserted a) b ctx acc rd').
Proof.
  intros H. unfold read_field. change (field_order c (unasserted a) ctx acc) with (field_order c a ctx acc).
  cbn [a_seek a_magic a_pad_before a_pad_after unasserted]. do 3 (apply f_bind; [apply f_refl|]; intros _).
  at_filter. set (off := r_bits s).
  apply f_bind; [|intros v; apply f_asserts, f_refl].
  assert (HF : filters (field_read_func c a b ctx acc off rd) (field_read_func c (unasserted a) b ctx acc off rd')).
  { unfold field_read_func. change (field_args c (unasserted a) ctx acc off) with (field_args c a ctx acc off). cbn [a_reader a_limit unasserted].
    destruct (a_reader a); [apply f_refl|]. destruct (a_limit a); [|apply H]. apply f_bind; [apply f_refl|].
    intros lim. destruct b, lim; try apply H; apply f_refl. }
  assert (HN : filters (field_read_normal a ctx acc off (field_read_func c a b ctx acc off rd)) (field_read_normal (unasserted a) ctx acc off (field_read_func c (unasserted a) b ctx acc off rd'))).
  { unfold field_read_normal. cbn [a_map unasserted]. apply f_bind; [exact HF|]. intros v. apply f_refl. }
  unfold field_read_tokens. cbn [a_skip a_cond a_default unasserted].
  destruct (a_skip a) as [[]|], (a_cond a) as [g|]; try exact HN; try apply f_refl; destruct (g ctx acc off); try exact HN; apply f_refl.
Qed.
Lemma f_write_field c a stored ctx acc v wr wr' : (forall args x, filters (wr args x) (wr' args x)) ->
  filters (write_field c a stored ctx acc v wr) (write_field c (unasserted a) stored ctx acc v wr').
Proof.
  intros H. unfold write_field. change (field_order c (unasserted a) ctx acc) with (field_order c a ctx acc).
  cbn [a_seek a_magic a_pad_before a_pad_after unasserted]. do 3 (apply f_bind; [apply f_refl|]; intros).
  at_filter. apply f_asserts. apply f_bind; [|intros; apply f_refl].
  assert (HF : filters (field_write_func c a stored ctx acc (w_bits s) v wr) (field_write_func c (unasserted a) stored ctx acc (w_bits s) v wr')).
  { unfold field_write_func. change (field_args c (unasserted a) ctx acc (w_bits s)) with (field_args c a ctx acc (w_bits s)). cbn [a_writer a_temp a_temp_value unasserted].
    destruct (a_writer a); [apply f_refl|]. destruct (a_temp a); [destruct (a_temp_value a); [auto|apply f_refl]|auto]. }
  unfold field_write_tokens. cbn [a_skip a_cond unasserted].
  destruct (a_skip a) as [[]|], (a_cond a) as [g|]; try exact HF; try apply f_refl; destruct (g ctx acc _); try exact HF; apply f_refl.
Qed.
Lemma vec_u8_unchecked t : is_vec_u8 (unchecked t) = is_vec_u8 t.
Proof. destruct t; try reflexivity. destruct k; try reflexivity. destruct t; reflexivity. Qed.
Lemma no_fields_unchecked fs : no_fields (fields_unchecked fs) = no_fields fs.
Proof. now destruct fs. Qed.
Definition body_filters (d d' : option (RM value)) : Prop :=
  match d, d' with Some m, Some m' => filters m m' | None, None => True | _, _ => False end.
Section Types.
Variables (cu : nat -> custom) (f : nat).
Theorem types_filter :
  (forall t lim args, filters (read_ty cu f t lim args) (read_ty cu f (unchecked t) lim args)) /\
  (forall fs c ctx id acc, filters (fields_read cu f c ctx fs id acc) (fields_read cu f c ctx (fields_unchecked fs) id acc)) /\
  (forall vs e ctx id k d d', body_filters d d' -> filters (variants_read cu f e ctx id vs k d) (variants_read cu f e ctx id (variants_unchecked vs) k d')).
Proof.
  apply types_ind; intros; cbn [unchecked fields_unchecked variants_unchecked]; rewrite ?read_struct, ?read_enum; cbn [read_ty fields_read variants_read]; try apply f_refl.
  - apply f_bind; [auto|]. intros; apply f_refl.
  - apply f_bind; [auto|]. intros x. apply f_bind; [auto|]. intros; apply f_refl.
  - apply f_bind; [|intros; apply f_refl]. apply f_array. auto.
  - destruct lim; [|apply f_refl]. apply f_bind; [|intros; apply f_refl]. apply f_vec; auto.
  - do 2 (apply f_bind; [apply f_refl|]; intros). apply f_bind; [auto|]. intros; apply f_refl.
  - apply f_bind; [apply f_refl|]. intros _. apply f_bind; [destruct (en_id _); [apply f_refl|auto]|].
    intros id. apply H0. exact I.
  - rewrite vec_u8_unchecked. change (a_reader (unasserted a)) with (a_reader a). change (a_temp (unasserted a)) with (a_temp a). apply f_bind.
    + destruct id; [destruct (a_reader a)|]; try apply f_refl; apply f_read_field; intros; auto.
    + intros v. apply f_bind; [auto|]. intros; apply f_refl.
  - destruct d, d'; cbn in H; try contradiction; [exact H|apply f_refl].
  - assert (HB : filters (let* l := fields_read cu f (en_c e) ctx fs (if stores_id e v then Some id else None) [] in ret (VVar k l))
                         (let* l := fields_read cu f (en_c e) ctx (fields_unchecked fs) (if stores_id e v then Some id else None) [] in ret (VVar k l))).
    { apply f_bind; [auto|]. intros; apply f_refl. }
    destruct (matches _ _); [exact HB|]. apply H0. destruct d, d'; cbn in H1 |- *; try contradiction; [exact H1|].
    destruct (v_default v); [exact HB|exact I].
Qed.
Theorem writes_filter :
  (forall t args v, filters (write_ty cu t args v) (write_ty cu (unchecked t) args v)) /\
  (forall fs c ctx id stored todo acc, filters (fields_write cu c ctx fs id stored todo acc) (fields_write cu c ctx (fields_unchecked fs) id stored todo acc)) /\
  (forall vs e ctx wid wid' k l, (forall args x, filters (wid args x) (wid' args x)) ->
     filters (variant_write cu e ctx wid vs k l) (variant_write cu e ctx wid' (variants_unchecked vs) k l)).
Proof.
  apply types_ind; intros; cbn [unchecked fields_unchecked variants_unchecked]; cbn [write_ty fields_write variant_write]; try apply f_refl.
  - destruct v; try apply f_refl. auto.
  - destruct v; try apply f_refl. apply f_bind; auto.
  - destruct v; try apply f_refl. apply f_list. auto.
  - destruct v; try apply f_refl. apply f_list. auto.
  - destruct v; try apply f_refl. do 2 (apply f_bind; [apply f_refl|]; intros). auto.
  - destruct v; try apply f_refl. apply f_bind; [apply f_refl|]. intros. apply H0. intros. apply H.
  - change (field_value (unasserted a) stored todo ctx acc) with (field_value a stored todo ctx acc). change (field_rest (unasserted a) todo) with (field_rest a todo).
    apply f_bind; [|intros; auto]. destruct id; [auto|]. apply f_write_field. auto.
  - destruct k; [|auto]. apply f_bind; [|intros; auto]. unfold write_id. rewrite no_fields_unchecked. destruct (en_id e); [apply f_refl|].
    destruct (v_sel v) as [x|p [x|]|x]; try apply H; destruct (no_fields fs); try apply f_refl; auto.
Qed.
End Types.

Lemma unchecked_reader cu fuel t s bit :
  from_reader cu fuel t s bit = from_reader cu fuel (unchecked t) s bit \/ fst (from_reader cu fuel t s bit) = Err Assertion.
Proof.
  unfold from_reader.
  assert (G : filters (let* _ := if bit =? 0 then ret tt else skip_bits bit Msb0 in let* v := read_ty cu fuel t None [] in fun r => (Ok (r_bits r, v), r))
                      (let* _ := if bit =? 0 then ret tt else skip_bits bit Msb0 in let* v := read_ty cu fuel (unchecked t) None [] in fun r => (Ok (r_bits r, v), r))).
  { apply f_bind; [apply f_refl|]. intros _. apply f_bind; [now apply types_filter|]. intros v. apply f_refl. }
  specialize (G (reader_new s)). destruct ((let* _ := _ in let* v := read_ty cu fuel t None [] in _) (reader_new s)) as [x r].
  destruct ((let* _ := _ in let* v := read_ty cu fuel (unchecked t) None [] in _) (reader_new s)) as [x' r']. cbn [fst] in *.
  destruct G as [G|G]; [left; now inversion G|now right].
Qed.
Lemma unchecked_from_bytes cu fuel t input bit :
  from_bytes cu fuel t input bit = from_bytes cu fuel (unchecked t) input bit \/ from_bytes cu fuel t input bit = Err Assertion.
Proof.
  unfold from_bytes. destruct (unchecked_reader cu fuel t (cursor input) bit) as [E|E]; [rewrite E; now left|].
  right. destruct (from_reader cu fuel t (cursor input) bit) as [[[]|e| |] s]; cbn [fst] in E; try discriminate. now inversion E.
Qed.
Lemma unchecked_try_from cu fuel t input :
  try_from cu fuel t input = try_from cu fuel (unchecked t) input \/ try_from cu fuel t input = Err Assertion.
Proof.
  unfold try_from. destruct (unchecked_reader cu fuel t (cursor input) 0) as [E|E]; [rewrite E; now left|].
  right. destruct (from_reader cu fuel t (cursor input) 0) as [[[]|e| |] s]; cbn [fst] in E; try discriminate. now inversion E.
Qed.
Lemma unchecked_finalize cu t v : filters (let* _ := write_ty cu t [] v in finalize) (let* _ := write_ty cu (unchecked t) [] v in finalize).
Proof. apply f_bind; [apply writes_filter|]. intros. apply f_refl. Qed.
Lemma unchecked_to_bytes cu t v : to_bytes cu t v = to_bytes cu (unchecked t) v \/ to_bytes cu t v = Err Assertion.
Proof.
  unfold to_bytes, to_bytes_with. destruct (unchecked_finalize cu t v (writer_new vec_sink)) as [E|E]; [rewrite E; now left|].
  right. destruct ((let* _ := write_ty cu t [] v in finalize) (writer_new vec_sink)) as [x w]. cbn [fst] in E. now subst.
Qed.
Lemma unchecked_to_slice cu t v buf : to_slice cu t v buf = to_slice cu (unchecked t) v buf \/ fst (to_slice cu t v buf) = Err Assertion.
Proof.
  unfold to_slice, to_slice_with. destruct (unchecked_finalize cu t v (writer_new (slice_sink buf))) as [E|E]; [rewrite E; now left|].
  right. destruct ((let* _ := write_ty cu t [] v in finalize) (writer_new (slice_sink buf))) as [x w]. cbn [fst] in E. now subst.
Qed.
Lemma unchecked_to_bits cu t v : to_bits cu t v = to_bits cu (unchecked t) v \/ to_bits cu t v = Err Assertion.
Proof.
  unfold to_bits, to_bits_with. destruct (proj1 (writes_filter cu) t [] v (writer_new vec_sink)) as [E|E]; [rewrite E; now left|].
  right. destruct (write_ty cu t [] v (writer_new vec_sink)) as [x w]. cbn [fst] in E. now subst.
Qed.

(** The other way. *)
Lemma asserts_pass {S A} a ctx acc off v (m : ST S A) s : assertions a ctx acc off v = true -> (let* _ := asserts a ctx acc off v in m) s = m s.
Proof.
  intros H. unfold assertions in H. unfold asserts, bind, check, ret, fail. apply andb_true_iff in H. destruct H as [H1 H2].
  destruct (a_assert a); [rewrite H1|]; (destruct (a_assert_eq a); [now rewrite H2|reflexivity]).
Qed.
Lemma bind_ok {S A B} (m : ST S A) (k : A -> ST S B) s b s2 : bind m k s = (Ok b, s2) -> exists a s1, m s = (Ok a, s1) /\ k a s1 = (Ok b, s2).
Proof. unfold bind. destruct (m s) as [[a|e| |] s1]; try discriminate. intros H. now exists a, s1. Qed.
Lemma bind_same {S A B} (m : ST S A) (k k' : A -> ST S B) s : (forall a s1, k a s1 = k' a s1) -> bind m k s = bind m k' s.
Proof. intros H. unfold bind. destruct (m s) as [[] s1]; try reflexivity. apply H. Qed.
Lemma read_field_passes c a b ctx acc rd v r r' : read_field c (unasserted a) b ctx acc rd r = (Ok v, r') -> (forall off, assertions a ctx acc off v = true) ->
  read_field c a b ctx acc rd r = (Ok v, r').
Proof.
  intros H P. unfold read_field in *. change (field_order c (unasserted a) ctx acc) with (field_order c a ctx acc) in H.
  cbn [a_seek a_magic a_pad_before a_pad_after unasserted] in H.
  apply bind_ok in H. destruct H as (x1 & s1 & E1 & H). unfold bind at 1. rewrite E1.
  apply bind_ok in H. destruct H as (x2 & s2 & E2 & H). unfold bind at 1. rewrite E2.
  apply bind_ok in H. destruct H as (x3 & s3 & E3 & H). unfold bind at 1. rewrite E3. clear E1 E2 E3.
  apply bind_ok in H. destruct H as (v' & s4 & E4 & H).
  change (field_read_tokens (unasserted a) ctx acc (r_bits s3) (field_read_normal (unasserted a) ctx acc (r_bits s3) (field_read_func c (unasserted a) b ctx acc (r_bits s3) rd)))
    with (field_read_tokens a ctx acc (r_bits s3) (field_read_normal a ctx acc (r_bits s3) (field_read_func c a b ctx acc (r_bits s3) rd))) in E4.
  unfold bind at 1. rewrite E4. clear E4.
  assert (E : v' = v).
  { apply bind_ok in H. destruct H as (? & ? & _ & H). apply bind_ok in H. destruct H as (? & ? & _ & H). now inversion H. }
  subst. rewrite asserts_pass by apply P. exact H.
Qed.
Section Passes.
Variables (cu : nat -> custom) (f : nat).
Lemma fields_pass fs : forall c ctx acc l r r', fields_read cu f c ctx (own_unchecked fs) None acc r = (Ok l, r') -> passes ctx fs acc l ->
  fields_read cu f c ctx fs None acc r = (Ok l, r').
Proof.
  induction fs as [|a t wire tl IH]; intros c ctx acc l r r' H P; [exact H|]. cbn [fields_read own_unchecked passes] in *.
  change (a_temp (unasserted a)) with (a_temp a) in H.
  apply bind_ok in H. destruct H as (v & r1 & E1 & H). apply bind_ok in H. destruct H as (vs & r2 & E2 & H). inversion H; subst. clear H.
  destruct (a_temp a) eqn:T.
  - destruct (P v) as [Pv Ptl]. unfold bind at 1. rewrite (read_field_passes _ _ _ _ _ _ _ _ _ E1 Pv). unfold bind at 1. now rewrite (IH _ _ _ _ _ _ E2 Ptl).
  - destruct P as [Pv Ptl]. unfold bind at 1. rewrite (read_field_passes _ _ _ _ _ _ _ _ _ E1 Pv). unfold bind at 1. now rewrite (IH _ _ _ _ _ _ E2 Ptl).
Qed.
Lemma struct_passes c fs args l r r' : read_ty cu f (TStruct c (own_unchecked fs)) None args r = (Ok (VRec l), r') -> passes (ctx_args c args) fs [] l ->
  read_ty cu f (TStruct c fs) None args r = (Ok (VRec l), r').
Proof.
  rewrite !read_struct. intros H P.
  apply bind_ok in H. destruct H as (x1 & s1 & E1 & H). unfold bind at 1. rewrite E1.
  apply bind_ok in H. destruct H as (x2 & s2 & E2 & H). unfold bind at 1. rewrite E2.
  apply bind_ok in H. destruct H as (l' & s3 & E3 & H). inversion H; subst. unfold bind at 1. now rewrite (fields_pass _ _ _ _ _ _ _ E3 P).
Qed.
Lemma write_field_passes c a stored ctx acc v wr w : (forall off, assertions a ctx acc off v = true) ->
  write_field c a stored ctx acc v wr w = write_field c (unasserted a) stored ctx acc v wr w.
Proof.
  intros P. unfold write_field. change (field_order c (unasserted a) ctx acc) with (field_order c a ctx acc).
  cbn [a_seek a_magic a_pad_before a_pad_after unasserted].
  do 3 (apply bind_same; intros). rewrite asserts_pass by apply P. reflexivity.
Qed.
Lemma fields_write_pass fs : forall c ctx stored todo acc w, passes ctx fs acc todo ->
  fields_write cu c ctx fs None stored todo acc w = fields_write cu c ctx (own_unchecked fs) None stored todo acc w.
Proof.
  induction fs as [|a t wire tl IH]; intros c ctx stored todo acc w P; [reflexivity|]. cbn [fields_write own_unchecked passes] in *.
  change (field_value (unasserted a) stored todo ctx acc) with (field_value a stored todo ctx acc). change (field_rest (unasserted a) todo) with (field_rest a todo).
  set (v := field_value a stored todo ctx acc).
  assert (G : (forall off, assertions a ctx acc off v = true) /\ passes ctx tl (acc ++ [v]) (field_rest a todo)).
  { subst v. unfold field_value, field_rest. destruct (a_temp a); [apply P|]. destruct todo; [contradiction|exact P]. }
  destruct G as [Pv Ptl]. unfold bind. rewrite (write_field_passes c a stored ctx acc v _ w Pv).
  destruct (write_field c (unasserted a) stored ctx acc v _ w) as [[] w1]; try reflexivity. now apply IH.
Qed.
Lemma struct_write_passes c fs args l w : passes (ctx_args c args) fs [] l ->
  write_ty cu (TStruct c fs) args (VRec l) w = write_ty cu (TStruct c (own_unchecked fs)) args (VRec l) w.
Proof.
  intros P. cbn [write_ty]. unfold bind. destruct (write_seek _ w) as [[] w1]; try reflexivity. destruct (write_magic _ w1) as [[] w2]; try reflexivity.
  now apply fields_write_pass.
Qed.
End Passes.
