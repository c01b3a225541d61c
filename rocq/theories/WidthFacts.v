(** A target with a narrower [usize] does what a 64-bit target does, or refuses. *)
From Coq Require Import Lia ZifyBool ZifyNat ZifyN.
From Verif Require Import Base MonadFacts Stream Reader Writer Prims Containers Derive DeriveSpec DeriveSound Width WidthSpec.

(** [m'] ends like [m], or with a panic (if [p]) or one of the errors [es]. *)
Definition stops {A} (p : bool) (es : list derr) (x : res A) : Prop := p = true /\ x = Panic \/ exists e, In e es /\ x = Err e.
Definition ng (p : bool) (es : list derr) {S A} (m m' : ST S A) : Prop := forall r, m' r = m r \/ stops p es (fst (m' r)).

Lemma n_refl p es {S A} (m : ST S A) : ng p es m m.
Proof. intros r. now left. Qed.
Lemma n_panic p es {S A} (m : ST S A) : p = true -> ng p es m panic.
Proof. intros H r. right. left. split; [exact H|reflexivity]. Qed.
Lemma n_fail p es {S A} (m : ST S A) e : In e es -> ng p es m (fail e).
Proof. intros H r. right. right. exists e. split; [exact H|reflexivity]. Qed.
Lemma n_bind p es {S A B} (m m' : ST S A) (f f' : A -> ST S B) : ng p es m m' -> (forall a, ng p es (f a) (f' a)) -> ng p es (bind m f) (bind m' f').
Proof.
  intros H F r. unfold bind. destruct (H r) as [E|E].
  - rewrite E. destruct (m r) as [[a|e| |] r']; auto. apply F.
  - right. destruct (m' r) as [[a|e| |] r']; cbn [fst] in *; destruct E as [[Hp E]|(e' & Hi & E)]; try discriminate E.
    + right. exists e'. split; [exact Hi|congruence].
    + left. auto.
Qed.

Section Narrow.
Variable m : target.
Hypothesis Hm : sensible m.
Variables (p : bool) (es : list derr).
(** Nothing but the same is allowed on a 64-bit target. *)
Hypothesis He : In InvalidParam es \/ m = bits64.
Local Notation nr := (ng p es).
Local Notation nw := (ng p es).

Lemma umax_le : (n_usize_max m <= usize_max)%N.
Proof. unfold n_usize_max, usize_max. destruct Hm as [H _]. pose proof (N.pow_le_mono_r 2 (tg_bits m) 64 ltac:(lia) H). lia. Qed.
Lemma imax_le : (n_isize_max m <= isize_max)%N.
Proof. unfold n_isize_max, isize_max. destruct Hm as [H _]. pose proof (N.pow_le_mono_r 2 (tg_bits m - 1) 63 ltac:(lia) ltac:(lia)). lia. Qed.
Lemma size_0 n : (tg_size m n =? 0)%N = (n =? 0)%N.
Proof. destruct Hm as [_ H]. specialize (H n). destruct (tg_size m n); [destruct n; [reflexivity|lia]|destruct n; [lia|reflexivity]]. Qed.
Lemma capacity c n : (n_isize_max m <? c * tg_size m n)%N = false -> (isize_max <? c * n)%N = false.
Proof.
  destruct Hm as [Hb H]. specialize (H n). unfold n_isize_max, isize_max. intros E. set (s := tg_size m n) in *. set (b := tg_bits m) in *.
  assert (c * n <= c * s * 2 ^ (64 - b))%N by nia.
  destruct (N.eq_dec b 0) as [->|Hb0]; [change (2 ^ (0 - 1) - 1)%N with 0%N in E; assert (c * s = 0)%N by lia; lia|].
  assert (P : (2 ^ (b - 1) * 2 ^ (64 - b) = 2 ^ 63)%N) by (rewrite <- N.pow_add_r; f_equal; lia).
  assert (0 < 2 ^ (64 - b))%N by (apply N.neq_0_lt_0, N.pow_nonzero; lia).
  assert (c * s + 1 <= 2 ^ (b - 1))%N by (assert (0 < 2 ^ (b - 1))%N by (apply N.neq_0_lt_0, N.pow_nonzero; lia); lia).
  assert ((c * s + 1) * 2 ^ (64 - b) <= 2 ^ 63)%N by (rewrite <- P; apply N.mul_le_mono_r; assumption).
  assert (c * n + 1 <= 2 ^ 63)%N by lia. lia.
Qed.
Lemma usize_narrow z : n_to_usize m z = to_usize z \/ n_to_usize m z = None.
Proof.
  unfold n_to_usize, to_usize. pose proof umax_le. destruct (z <? 0)%Z; [now left|]. cbn [orb]. destruct (Z.of_N (n_usize_max m) <? z)%Z eqn:E; [now right|left].
  replace (Z.of_N usize_max <? z)%Z with false by lia. reflexivity.
Qed.

(** ** Writing *)

Lemma n_write_list {A} (f f' : A -> WM unit) : (forall x, nw (f x) (f' x)) -> forall l, nw (write_list f l) (write_list f' l).
Proof. intros H. induction l as [|x l IH]; cbn [write_list]; [apply n_refl|]. apply n_bind; [apply H|]. intros _. exact IH. Qed.
Lemma n_write_pad z o : nw (write_pad z o) (n_write_pad m z o).
Proof.
  destruct He as [Hi| ->]; [|apply n_refl]. destruct z as [z|]; cbn [write_pad n_write_pad]; [|apply n_refl].
  destruct (usize_narrow z) as [-> | ->]; [apply n_refl|]. now apply n_fail.
Qed.
Lemma n_write_field c a stored ctx fs v wr wr' : (forall args x, nw (wr args x) (wr' args x)) -> nw (write_field c a stored ctx fs v wr) (n_write_field m c a stored ctx fs v wr').
Proof.
  intros H. unfold write_field, n_write_field. apply n_bind; [apply n_refl|intros _]. apply n_bind; [apply n_refl|intros _]. apply n_bind; [apply n_write_pad|intros _].
  intros w. cbv zeta. generalize (w_bits w). intros off. revert w. apply n_bind; [apply n_refl|intros _]. apply n_bind; [|intros _; apply n_write_pad].
  assert (HF : nw (field_write_func c a stored ctx fs off v wr) (field_write_func c a stored ctx fs off v wr')).
  { unfold field_write_func. destruct (a_writer a); [apply n_refl|]. destruct (a_temp a); [|apply H]. destruct (a_temp_value a); [apply H|apply n_refl]. }
  unfold field_write_tokens. destruct (a_skip a) as [[]|], (a_cond a) as [f|]; try destruct (f _ _ _); auto using @n_refl.
Qed.



Variables (cu : nat -> custom) (fuel : nat).
Theorem narrow_writes :
  (forall t args v, nw (write_ty cu t args v) (n_write_ty m cu t args v)) /\
  (forall fs, match fs with FCons _ t _ _ => forall args v, nw (write_ty cu t args v) (n_write_ty m cu t args v) | FNil => True end /\
     forall c id ctx stored todo acc, nw (fields_write cu c ctx fs id stored todo acc) (n_fields_write m cu c ctx fs id stored todo acc)) /\
  (forall vs e ctx wid wid' k l, (forall args x, nw (wid args x) (wid' args x)) -> nw (variant_write cu e ctx wid vs k l) (n_variant_write m cu e ctx wid' vs k l)).
Proof.
  apply types_ind.
  - intros p0 args v. apply n_refl.
  - intros args v. apply n_refl.
  - intros p0 args v. apply n_refl.
  - intros args v. apply n_refl.
  - intros args v. apply n_refl.
  - intros t IH args v. destruct v; try apply n_refl. apply IH.
  - intros a IHa b IHb args v. destruct v; try apply n_refl. apply n_bind; [apply IHa|]. intros _. apply IHb.
  - intros n t IH args v. destruct v; try apply n_refl. apply n_write_list. intros x. apply IH.
  - intros k s t IH args v. destruct v; try apply n_refl. apply n_write_list. intros x. apply IH.
  - intros c fs [_ IH] args v. destruct v; try apply n_refl. rewrite write_struct. cbn [n_write_ty]. cbv zeta.
    apply n_bind; [apply n_refl|intros _]. apply n_bind; [apply n_refl|intros _]. apply IH.
  - intros e idt IHi vs IHv args v. destruct v; try apply n_refl. rewrite write_enum. cbn [n_write_ty]. apply n_bind; [apply n_refl|intros _]. apply IHv. exact IHi.
  - intros k args v. apply n_refl.
  - split; [exact I|]. intros c id ctx stored todo acc. apply n_refl.
  - intros a t IHt wire _ tl [_ IHtl]. split; [exact IHt|]. intros c id ctx stored todo acc. rewrite write_cons. cbn [n_fields_write]. cbv zeta. apply n_bind; [|intros _; apply IHtl].
    destruct id as [args|]; [apply IHt|]. apply n_write_field. exact IHt.
  - intros e ctx wid wid' k l _. apply n_refl.
  - intros v fs [IHt IHf] vs IHv e ctx wid wid' k l Hw. destruct k as [|k]; [|now apply IHv]. rewrite write_variant_0. cbn [n_variant_write]. apply n_bind; [|intros _; apply IHf].
    unfold write_id. destruct (en_id e); [apply n_refl|]. destruct (v_sel v) as [x|? d|x]; [apply Hw| |apply Hw]. destruct (no_fields fs); [|apply n_refl].
    destruct d; [apply Hw|apply n_refl].
Qed.


(** ** Vec *)

Hypothesis Hr : p = true /\ In Parse es \/ m = bits64.

Lemma n_loop {A} (e e' : RM A) stop start : nr e e' -> forall f acc, nr (vec_loop f e stop start acc) (vec_loop f e' stop start acc).
Proof.
  intros H. induction f as [|f IH]; intros acc; cbn [vec_loop]; [apply n_refl|]. apply n_bind; [exact H|]. intros v r. cbv beta.
  destruct (r_bits r <? start); [now left|]. destruct (stop _ _); [now left|]. apply IH.
Qed.
Lemma n_pred {A} f size cap (e e' : RM A) stop : nr e e' -> nr (vec_with_predicate f size cap e stop) (n_vec_with_predicate m f size cap e' stop).
Proof.
  intros H. unfold vec_with_predicate, n_vec_with_predicate. rewrite size_0. destruct (size =? 0)%N; [apply n_refl|].
  assert (L : nr (fun r => vec_loop f e stop (r_bits r) [] r) (fun r => vec_loop f e' stop (r_bits r) [] r)) by (intros r; now apply n_loop).
  destruct cap as [c|]; [|exact L]. destruct Hr as [[Hp _]| ->]; [|intros r; change (n_isize_max bits64) with isize_max; change (tg_size bits64 size) with size; destruct (isize_max <? c * size)%N; [now left|apply L]].
  destruct (n_isize_max m <? c * tg_size m size)%N eqn:E; [now apply n_panic|]. rewrite (capacity _ _ E). exact L.
Qed.
Lemma n_end {A} (e e' : RM A) : nr e e' -> forall f acc, nr (end_loop f e acc) (end_loop f e' acc).
Proof.
  intros H. induction f as [|f IH]; intros acc; cbn [end_loop]; [apply n_refl|]. intros r. destruct (r_end r) as [[] r']; [now left|].
  revert r'. apply n_bind; [exact H|]. intros v. apply IH.
Qed.
Lemma n_vec {A} f size (e e' : RM A) lim : nr e e' -> nr (vec_read f size e lim) (n_vec_read m f size e' lim).
Proof.
  intros H. destruct lim as [n|q|n|n|]; cbn [vec_read n_vec_read].
  - destruct (n =? 0)%N; [apply n_refl|]. intros r. now apply n_pred.
  - now apply n_pred.
  - assert (K : (n_usize_max m <? n * 8)%N = true -> p = false -> (usize_max <? n * 8)%N = true).
    { intros E Hp. destruct Hr as [[Hp' _]| ->]; [congruence|exact E]. }
    destruct (n_usize_max m <? n * 8)%N eqn:E.
    + destruct p eqn:Ep; [now apply n_panic|]. rewrite K by reflexivity. apply n_refl.
    + pose proof umax_le. replace (usize_max <? n * 8)%N with false by lia. destruct (n * 8 =? 0)%N; [apply n_refl|]. now apply n_pred.
  - destruct (n =? 0)%N; [apply n_refl|]. now apply n_pred.
  - unfold vec_to_end, n_vec_to_end. rewrite size_0. destruct (size =? 0)%N; [apply n_refl|]. now apply n_end.
Qed.
Lemma n_array {A} n (e e' : RM A) : nr e e' -> nr (read_array n e) (read_array n e').
Proof. intros H. induction n as [|n IH]; cbn [read_array]; [apply n_refl|]. apply n_bind; [exact H|]. intros v. apply n_bind; [exact IH|]. intros vs. apply n_refl. Qed.
Lemma n_exact n : nr (read_exact_vec n) (n_read_exact_vec m n).
Proof.
  unfold read_exact_vec, n_read_exact_vec. apply n_bind; [apply n_refl|]. intros pos. apply n_bind; [apply n_refl|]. intros en. apply n_bind; [apply n_refl|]. intros _.
  destruct (en <? pos); [apply n_refl|]. destruct (_ <? n)%N.
  - assert (K : (n_usize_max m <? n * 8)%N = true -> p = false -> (usize_max <? n * 8)%N = true).
    { intros E Hp. destruct Hr as [[Hp' _]| ->]; [congruence|exact E]. }
    destruct (n_usize_max m <? n * 8)%N eqn:E.
    + destruct p eqn:Ep; [now apply n_panic|]. rewrite K by reflexivity. apply n_refl.
    + pose proof umax_le. replace (usize_max <? n * 8)%N with false by lia. apply n_refl.
  - destruct Hr as [[Hp _]| ->]; [|apply n_refl]. destruct (_ && _); [now apply n_panic|apply n_refl].
Qed.
Lemma n_cstring f : nr (read_cstring f) (n_read_cstring m f).
Proof. apply n_bind; [apply n_vec, n_refl|]. intros l. apply n_refl. Qed.
Lemma n_cstring_bytes n : nr (read_cstring_bytes n) (n_read_cstring_bytes m n).
Proof. apply n_bind; [apply n_vec, n_refl|]. intros l. apply n_refl. Qed.

(** ** Derived code *)

Lemma n_pad z o : nr (read_pad z o) (n_read_pad m z o).
Proof.
  destruct He as [Hi| ->]; [|apply n_refl]. destruct z as [z|]; cbn [read_pad n_read_pad]; [|apply n_refl].
  destruct (usize_narrow z) as [-> | ->]; [apply n_refl|]. now apply n_fail.
Qed.
Lemma n_limit l ctx fs off : @ng p es reader _ (lift (eval_limit l ctx fs off)) (lift (n_eval_limit m l ctx fs off)).
Proof.
  destruct Hr as [[_ Hi]| ->]; [|apply n_refl]. destruct l as [f|f|g| |f]; cbn [eval_limit n_eval_limit]; try apply n_refl;
    (destruct (usize_narrow (f ctx fs off)) as [-> | ->]; [apply n_refl|]; apply (n_fail p es _ Parse Hi)).
Qed.
Lemma n_field c a u ctx fs rd rd' : (forall lim args, nr (rd lim args) (rd' lim args)) -> nr (read_field c a u ctx fs rd) (n_read_field m c a u ctx fs rd').
Proof.
  intros H. unfold read_field, n_read_field. apply n_bind; [apply n_refl|intros _]. apply n_bind; [apply n_refl|intros _]. apply n_bind; [apply n_pad|intros _].
  intros r. cbv zeta. generalize (r_bits r). intros off. revert r. apply n_bind.
  - assert (HF : nr (field_read_func c a u ctx fs off rd) (n_field_read_func m c a u ctx fs off rd')).
    { unfold field_read_func, n_field_read_func. destruct (a_reader a); [apply n_refl|]. cbv zeta. destruct (a_limit a) as [l|]; [|apply H].
      apply n_bind; [apply n_limit|]. intros lim. destruct u; [|apply H]. destruct lim; try apply H. apply n_bind; [apply n_exact|]. intros bs. apply n_refl. }
    assert (HN : nr (field_read_normal a ctx fs off (field_read_func c a u ctx fs off rd)) (field_read_normal a ctx fs off (n_field_read_func m c a u ctx fs off rd'))).
    { apply n_bind; [exact HF|]. intros v. apply n_refl. }
    unfold field_read_tokens. destruct (a_skip a) as [[]|], (a_cond a) as [f|]; try destruct (f _ _ _); auto using @n_refl.
  - intros v. apply n_bind; [apply n_refl|intros _]. apply n_bind; [apply n_pad|]. intros _. apply n_refl.
Qed.
Lemma nq_struct c fs lim args : n_read_ty m cu fuel (TStruct c fs) lim args =
  (let* _ := read_seek (option_map (fun f => f (ctx_args c args)) (c_seek c)) in
   let* _ := read_magic (c_magic c) in
   let* vs := n_fields_read m cu fuel c (ctx_args c args) fs None [] in
   ret (VRec vs)).
Proof. reflexivity. Qed.
Lemma nq_enum e idt vs lim args : n_read_ty m cu fuel (TEnum e idt vs) lim args =
  (let* _ := read_magic (c_magic (en_c e)) in
   let* id := match en_id e with Some f => ret (f (ctx_args (en_c e) args)) | None => n_read_ty m cu fuel idt None (id_args e (ctx_args (en_c e) args)) end in
   n_variants_read m cu fuel e (ctx_args (en_c e) args) id vs 0 None).
Proof. reflexivity. Qed.
Lemma nq_cons c ctx a t wire tl id acc : n_fields_read m cu fuel c ctx (FCons a t wire tl) id acc =
  (let* v := match id, a_reader a with
             | Some x, None => ret x
             | _, _ => n_read_field m c a (is_vec_u8 t) ctx acc (fun lim args => n_read_ty m cu fuel wire lim args)
             end in
   let* vs := n_fields_read m cu fuel c ctx tl None (acc ++ [v]) in
   ret (if a_temp a then vs else v :: vs)).
Proof. reflexivity. Qed.
Lemma nq_variant e ctx id v fs tl k d : n_variants_read m cu fuel e ctx id (VCons v fs tl) k d =
  (let body := let* l := n_fields_read m cu fuel (en_c e) ctx fs (if stores_id e v then Some id else None) [] in ret (VVar k l) in
   if matches (v_sel v) id then body
   else n_variants_read m cu fuel e ctx id tl (S k) (match d with Some _ => d | None => if v_default v then Some body else None end)).
Proof. reflexivity. Qed.



Theorem narrow_reads :
  (forall t lim args, nr (read_ty cu fuel t lim args) (n_read_ty m cu fuel t lim args)) /\
  (forall fs c ctx id acc, nr (fields_read cu fuel c ctx fs id acc) (n_fields_read m cu fuel c ctx fs id acc)) /\
  (forall vs e ctx id k d d', match d, d' with Some m, Some m' => nr m m' | None, None => True | _, _ => False end ->
     nr (variants_read cu fuel e ctx id vs k d) (n_variants_read m cu fuel e ctx id vs k d')).
Proof.
  apply types_ind.
  - intros p0 lim args. apply n_refl.
  - intros lim args. apply n_refl.
  - intros p0 lim args. apply n_refl.
  - intros lim args. apply n_refl.
  - intros lim args. cbn [read_ty n_read_ty]. destruct lim; [apply n_refl|]. destruct args as [|[] [|]]; try apply n_refl.
    + apply n_bind; [apply n_cstring|]. intros v. apply n_refl.
    + apply n_bind; [apply n_cstring_bytes|]. intros v. apply n_refl.
  - intros t IH lim args. cbn [read_ty n_read_ty]. apply n_bind; [apply IH|]. intros v. apply n_refl.
  - intros a IHa b IHb lim args. cbn [read_ty n_read_ty]. apply n_bind; [apply IHa|]. intros v. apply n_bind; [apply IHb|]. intros w. apply n_refl.
  - intros n t IH lim args. cbn [read_ty n_read_ty]. apply n_bind; [apply n_array, IH|]. intros v. apply n_refl.
  - intros k s t IH lim args. cbn [read_ty n_read_ty]. destruct lim as [l|]; [|apply n_refl]. apply n_bind; [apply n_vec, IH|]. intros v. apply n_refl.
  - intros c fs IH lim args. rewrite read_struct, nq_struct. apply n_bind; [apply n_refl|intros _]. apply n_bind; [apply n_refl|intros _].
    apply n_bind; [apply IH|]. intros v. apply n_refl.
  - intros e idt IHi vs IHv lim args. rewrite read_enum, nq_enum. apply n_bind; [apply n_refl|intros _]. apply n_bind.
    + destruct (en_id e); [apply n_refl|apply IHi].
    + intros id. now apply IHv.
  - intros k lim args. apply n_refl.
  - intros c ctx id acc. apply n_refl.
  - intros a t IHt wire IHw tl IHtl c ctx id acc. rewrite read_cons, nq_cons. apply n_bind.
    + destruct id as [v|]; [|apply n_field; exact IHw]. destruct (a_reader a); [apply n_field; exact IHw|apply n_refl].
    + intros v. apply n_bind; [apply IHtl|]. intros vs. apply n_refl.
  - intros e ctx id k d d' Hd. cbn [variants_read n_variants_read]. destruct d, d'; try contradiction; [exact Hd|apply n_refl].
  - intros v fs IHf vs IHv e ctx id k d d' Hd. rewrite read_variant, nq_variant. cbv zeta.
    assert (B : nr (let* l := fields_read cu fuel (en_c e) ctx fs (if stores_id e v then Some id else None) [] in ret (VVar k l))
      (let* l := n_fields_read m cu fuel (en_c e) ctx fs (if stores_id e v then Some id else None) [] in ret (VVar k l))).
    { apply n_bind; [apply IHf|]. intros l. apply n_refl. }
    destruct (matches (v_sel v) id); [exact B|]. apply IHv. destruct d, d'; try contradiction; [exact Hd|]. destruct (v_default v); [exact B|exact I].
Qed.

End Narrow.

(** ** The API *)

Lemma bits64_sensible : sensible bits64.
Proof. split; [cbn; lia|]. intros n. change (2 ^ (64 - tg_bits bits64))%N with 1%N. cbn [tg_size bits64]. lia. Qed.
Lemma bits32_sensible : sensible bits32.
Proof. split; [cbn; lia|]. intros n. change (2 ^ (64 - tg_bits bits32))%N with 4294967296%N. cbn [tg_size bits32]. lia. Qed.
Lemma stops_refused {A} (x : res A) : stops true [Parse; InvalidParam] x -> refused x.
Proof. intros [[_ E]|(e & [<-|[<-|[]]] & E)]; unfold refused; auto. Qed.
Lemma never_stops {A} (x : res A) : stops false [] x -> False.
Proof. intros [[E _]|(e & [] & _)]. discriminate E. Qed.
Lemma refused_err {A B} (x : res A) (y : res B) : refused x -> (x = Panic -> y = Panic) -> (forall e, x = Err e -> y = Err e) -> refused y.
Proof. unfold refused. intros [E|[E|E]] H1 H2; auto. Qed.

Section Api.
Variables (m : target) (cu : nat -> custom) (fuel : nat).

Section Any.
Variables (p : bool) (es : list derr).
Hypothesis Hm : sensible m.
Hypothesis He : In InvalidParam es \/ m = bits64.
Hypothesis Hr : p = true /\ In Parse es \/ m = bits64.
Lemma n_whole t bit : ng p es (let* _ := if bit =? 0 then ret tt else skip_bits bit Msb0 in let* v := read_ty cu fuel t None [] in fun r => (Ok (r_bits r, v), r))
  (let* _ := if bit =? 0 then ret tt else skip_bits bit Msb0 in let* v := n_read_ty m cu fuel t None [] in fun r => (Ok (r_bits r, v), r)).
Proof. apply n_bind; [apply n_refl|intros _]. apply n_bind; [now apply narrow_reads|]. intros v. apply n_refl. Qed.
Lemma any_from_reader t s bit : n_from_reader m cu fuel t s bit = from_reader cu fuel t s bit \/ stops p es (fst (n_from_reader m cu fuel t s bit)).
Proof.
  unfold from_reader, n_from_reader. destruct (n_whole t bit (reader_new s)) as [E|E]; [left; now rewrite E|right].
  destruct (bind _ _ (reader_new s)) as [x r]. exact E.
Qed.
End Any.

Section Lower.
Hypothesis Hm : sensible m.
Theorem narrow_reader t lim args r : n_read_ty m cu fuel t lim args r = read_ty cu fuel t lim args r \/ refused (fst (n_read_ty m cu fuel t lim args r)).
Proof.
  destruct (proj1 (narrow_reads m Hm true [Parse; InvalidParam] ltac:(cbn; auto) cu fuel ltac:(cbn; auto)) t lim args r) as [E|E]; [now left|right; now apply stops_refused].
Qed.
Theorem narrow_from_reader t s bit : n_from_reader m cu fuel t s bit = from_reader cu fuel t s bit \/ refused (fst (n_from_reader m cu fuel t s bit)).
Proof.
  destruct (any_from_reader true [Parse; InvalidParam] Hm ltac:(cbn; auto) ltac:(cbn; auto) t s bit) as [E|E]; [now left|right; now apply stops_refused].
Qed.
Theorem narrow_from_bytes t input bit : n_from_bytes m cu fuel t input bit = from_bytes cu fuel t input bit \/ refused (n_from_bytes m cu fuel t input bit).
Proof.
  unfold n_from_bytes, from_bytes. destruct (narrow_from_reader t (cursor input) bit) as [E|E]; [left; now rewrite E|right].
  eapply refused_err; [exact E| |]; destruct (n_from_reader _ _ _ _ _ _) as [[] ?]; cbn [fst]; intros; try discriminate; congruence.
Qed.
Theorem narrow_try_from t input : n_try_from m cu fuel t input = try_from cu fuel t input \/ refused (n_try_from m cu fuel t input).
Proof.
  unfold n_try_from, try_from. destruct (narrow_from_reader t (cursor input) 0) as [E|E]; [left; now rewrite E|right].
  eapply refused_err; [exact E| |]; destruct (n_from_reader _ _ _ _ _ _) as [[] ?]; cbn [fst]; intros; try discriminate; congruence.
Qed.
Theorem narrow_ok t input bit :
  (forall x, n_from_bytes m cu fuel t input bit = Ok x -> from_bytes cu fuel t input bit = Ok x) /\
  (forall x, n_try_from m cu fuel t input = Ok x -> try_from cu fuel t input = Ok x).
Proof.
  split; intros x E; [destruct (narrow_from_bytes t input bit) as [E1|E1]|destruct (narrow_try_from t input) as [E1|E1]]; try congruence;
    rewrite E in E1; destruct E1 as [E1|[E1|E1]]; discriminate E1.
Qed.
Lemma nw_any t v w : n_write_ty m cu t [] v w = write_ty cu t [] v w \/ fst (n_write_ty m cu t [] v w) = Err InvalidParam.
Proof.
  destruct (proj1 (narrow_writes m Hm false [InvalidParam] ltac:(cbn; auto) cu) t [] v w) as [E|E]; [now left|right].
  destruct E as [[E _]|(e & [<-|[]] & E)]; [discriminate E|exact E].
Qed.
Theorem narrow_written t v buf :
  (n_to_bytes m cu t v = to_bytes cu t v \/ n_to_bytes m cu t v = Err InvalidParam) /\
  (n_to_bits m cu t v = to_bits cu t v \/ n_to_bits m cu t v = Err InvalidParam) /\
  (n_to_slice m cu t v buf = to_slice cu t v buf \/ fst (n_to_slice m cu t v buf) = Err InvalidParam).
Proof.
  unfold n_to_bytes, to_bytes, to_bytes_with, n_to_bits, to_bits, to_bits_with, n_to_slice, to_slice, to_slice_with, bind. split; [|split].
  - destruct (nw_any t v (writer_new vec_sink)) as [E|E]; [left; now rewrite E|right]. destruct (n_write_ty _ _ _ _ _ _) as [[] ?]; cbn [fst] in E; try discriminate E. cbn [res_map]. congruence.
  - destruct (nw_any t v (writer_new vec_sink)) as [E|E]; [left; now rewrite E|right]. destruct (n_write_ty _ _ _ _ _ _) as [[] ?]; cbn [fst] in E; try discriminate E. cbn [res_map]. congruence.
  - destruct (nw_any t v (writer_new (slice_sink buf))) as [E|E]; [left; now rewrite E|right]. destruct (n_write_ty _ _ _ _ _ _) as [[] ?]; cbn [fst] in E; try discriminate E. cbn [res_map fst]. congruence.
Qed.
End Lower.
End Api.

Theorem wide_reader cu fuel t lim args r : n_read_ty bits64 cu fuel t lim args r = read_ty cu fuel t lim args r.
Proof.
  destruct (proj1 (narrow_reads bits64 bits64_sensible false [] ltac:(auto) cu fuel ltac:(auto)) t lim args r) as [E|E]; [exact E|destruct (never_stops _ E)].
Qed.
Theorem wide_writer cu t args v w : n_write_ty bits64 cu t args v w = write_ty cu t args v w.
Proof.
  destruct (proj1 (narrow_writes bits64 bits64_sensible false [] ltac:(auto) cu) t args v w) as [E|E]; [exact E|destruct (never_stops _ E)].
Qed.
Theorem wide_from_reader cu fuel t s bit : n_from_reader bits64 cu fuel t s bit = from_reader cu fuel t s bit.
Proof.
  destruct (any_from_reader bits64 cu fuel false [] bits64_sensible ltac:(auto) ltac:(auto) t s bit) as [E|E]; [exact E|destruct (never_stops _ E)].
Qed.
