(** Memory asked for while reading. *)
From Coq Require Import Lia ZifyBool ZifyNat ZifyN.
From Verif Require Import Base Spec Stream Reader Session Writer WSession Prims BitsFacts NFacts MonadFacts ReaderFacts ReaderOps SessionFacts FastRead CodecSpec CodecFacts Containers ContainerSpec ContainerFacts Safety PrimFacts ContainerProps Derive DeriveSound SafeSpec SafeFacts DeriveSafe FlowSpec FlowFacts Alloc AllocSpec.
Ltac Zify.zify_post_hook ::= Z.div_mod_to_equations.

(** ** Counting changes nothing *)

Definition erases {A} (m : AM A) (m0 : RM A) : Prop := forall r k, exists k', m (r, k) = (fst (m0 r), (snd (m0 r), k')).
Lemma er_ext {A} (m m' : AM A) (m0 m0' : RM A) : (forall rk, m rk = m' rk) -> (forall r, m0 r = m0' r) -> erases m m0 -> erases m' m0'.
Proof. intros H H0 H1 r k. rewrite <- H, <- H0. apply H1. Qed.
Lemma er_free {A} (m : RM A) : erases (free m) m.
Proof. intros r k. unfold free. cbn [fst snd]. destruct (m r) as [x r']. exists k. reflexivity. Qed.
Lemma er_lift {A} (x : res A) : erases (lift x) (lift x).
Proof. intros r k. exists k. reflexivity. Qed.
Lemma er_ret {A} (a : A) : erases (ret a) (ret a).
Proof. exact (er_lift (Ok a)). Qed.
Lemma er_fail {A} e : erases (fail (A:=A) e) (fail e).
Proof. exact (er_lift (Err e)). Qed.
Lemma er_panic {A} : erases (panic (A:=A)) panic.
Proof. exact (er_lift Panic). Qed.
Lemma er_diverge {A} : erases (diverge (A:=A)) diverge.
Proof. exact (er_lift Diverge). Qed.
Lemma er_bind {A B} (m : AM A) m0 (f : A -> AM B) f0 : erases m m0 -> (forall a, erases (f a) (f0 a)) -> erases (bind m f) (bind m0 f0).
Proof.
  intros H1 H2 r k. unfold bind. destruct (H1 r k) as [k1 E]. rewrite E. destruct (m0 r) as [x r1]. cbn [fst snd].
  destruct x; try (exists k1; reflexivity). apply H2.
Qed.
Lemma er_request {A} n (m : AM A) m0 : erases m m0 -> erases (let* _ := request n in m) m0.
Proof. intros H r k. unfold bind, request. cbn [fst snd]. apply H. Qed.
Lemma er_at {A} (m : nat -> AM A) (m0 : nat -> RM A) : (forall n, erases (m n) (m0 n)) -> erases (fun rk => m (r_bits (fst rk)) rk) (fun r => m0 (r_bits r) r).
Proof. intros H r k. apply H. Qed.
Lemma er_loop {A} (e : AM A) e0 cost stop start : erases e e0 -> forall f acc, erases (a_vec_loop f cost e stop start acc) (vec_loop f e0 stop start acc).
Proof.
  intros H. induction f as [|f IH]; intros acc; cbn [a_vec_loop vec_loop]; [apply er_diverge|]. apply er_bind; [exact H|]. intros v. apply er_request.
  intros r k. cbn [fst]. destruct (_ <? _); [exists k; reflexivity|]. destruct (stop _ _); [exists k; reflexivity|]. apply IH.
Qed.
Lemma er_end_loop {A} (e : AM A) e0 cost : erases e e0 -> forall f acc, erases (a_end_loop f cost e acc) (end_loop f e0 acc).
Proof.
  intros H. induction f as [|f IH]; intros acc; cbn [a_end_loop end_loop]; [apply er_diverge|]. intros r k. cbn [fst snd]. destruct (r_end r) as [[] r1]; [exists k; reflexivity|].
  apply (er_bind e e0 (fun v => let* _ := request cost in a_end_loop f cost e (acc ++ [v])) (fun v => end_loop f e0 (acc ++ [v]))); [exact H|]. intros v. apply er_request. apply IH.
Qed.
Lemma er_pred {A} f size cap (e : AM A) e0 stop : erases e e0 -> erases (a_vec_with_predicate f size cap e stop) (vec_with_predicate f size cap e0 stop).
Proof.
  intros H. unfold a_vec_with_predicate, vec_with_predicate. destruct (size =? 0)%N; [apply er_ret|]. match goal with |- erases (if ?b then _ else _) _ => destruct b end; [apply er_panic|].
  apply er_request. apply (er_at (fun n => a_vec_loop f (push_cost size cap) e stop n []) (fun n => vec_loop f e0 stop n [])). intros n. now apply er_loop.
Qed.
Lemma er_vec {A} f size (e : AM A) e0 lim : erases e e0 -> erases (a_vec_read f size e lim) (vec_read f size e0 lim).
Proof.
  intros H. destruct lim as [n|p|n|n|]; cbn [a_vec_read vec_read].
  - destruct (n =? 0)%N; [apply er_ret|]. exact (er_pred (N.to_nat n) size (Some n) e e0 _ H).
  - now apply er_pred.
  - destruct (_ <? _)%N; [apply er_panic|]. destruct (_ =? 0)%N; [apply er_ret|]. now apply er_pred.
  - destruct (n =? 0)%N; [apply er_ret|]. now apply er_pred.
  - unfold a_vec_to_end, vec_to_end. destruct (size =? 0)%N; [apply er_ret|]. now apply er_end_loop.
Qed.
Lemma er_exact n : erases (a_read_exact_vec n) (read_exact_vec n).
Proof.
  unfold a_read_exact_vec, read_exact_vec. apply er_bind; [apply er_free|intros p]. apply er_bind; [apply er_free|intros e]. apply er_bind; [apply er_free|intros _].
  destruct (e <? p); [apply er_panic|]. destruct (_ <? n)%N; [destruct (_ <? _)%N; [apply er_panic|intros r k; exists k; reflexivity]|].
  apply er_request. exact (er_free (read_bytes (N.to_nat n) (N.to_nat n) Lsb0)).
Qed.
Lemma er_array {A} n (e : AM A) e0 : erases e e0 -> erases (a_read_array n e) (read_array n e0).
Proof. intros H. induction n as [|n IH]; cbn [a_read_array read_array]; [apply er_ret|]. apply er_bind; [exact H|intros v]. apply er_bind; [exact IH|intros; apply er_ret]. Qed.
Lemma er_pctx {A} lim args (k : pctx -> RM A) : erases (with_pctx lim args (fun c => free (k c))) (with_pctx lim args k).
Proof. unfold with_pctx. destruct lim; [apply er_panic|]. destruct (pctx_of args); [apply er_free|apply er_panic]. Qed.
Lemma er_check b : erases (check b) (check b).
Proof. destruct b; [apply er_ret|apply er_fail]. Qed.
Lemma er_asserts a ctx fs off v : erases (asserts a ctx fs off v) (asserts a ctx fs off v).
Proof.
  unfold asserts. apply er_bind; [|intros _].
  - destruct (a_assert a); [apply er_check|apply er_ret].
  - destruct (a_assert_eq a); [apply er_check|apply er_ret].
Qed.
Lemma er_func c a u ctx fs off rd rd0 : (forall lim args, erases (rd lim args) (rd0 lim args)) -> erases (a_field_read_func c a u ctx fs off rd) (field_read_func c a u ctx fs off rd0).
Proof.
  intros H. unfold a_field_read_func, field_read_func. destruct (a_reader a) as [f|]; [apply er_free|]. destruct (a_limit a) as [l|]; [|apply H].
  apply er_bind; [apply er_lift|]. intros lim. destruct u; [|apply H]. destruct lim; try apply H. apply er_bind; [apply er_exact|intros; apply er_ret].
Qed.
Lemma er_normal a ctx fs off m m0 : erases m m0 -> erases (a_field_read_normal a ctx fs off m) (field_read_normal a ctx fs off m0).
Proof. intros H. unfold a_field_read_normal, field_read_normal. apply er_bind; [exact H|]. intros v. destruct (a_map a); [apply er_lift|apply er_ret]. Qed.
Lemma er_tokens a ctx fs off m m0 : erases m m0 -> erases (a_field_read_tokens a ctx fs off m) (field_read_tokens a ctx fs off m0).
Proof.
  intros H. unfold a_field_read_tokens, field_read_tokens. destruct (a_skip a) as [[]|], (a_cond a) as [f|]; try destruct (f _ _ _); auto using er_ret.
Qed.
Lemma er_read_field c a u ctx fs rd rd0 : (forall lim args, erases (rd lim args) (rd0 lim args)) -> erases (a_read_field c a u ctx fs rd) (read_field c a u ctx fs rd0).
Proof.
  intros H. unfold a_read_field, read_field. apply er_bind; [apply er_free|intros _]. apply er_bind; [apply er_free|intros _]. apply er_bind; [apply er_free|intros _].
  apply (er_at (fun off => let* v := a_field_read_tokens a ctx fs off (a_field_read_normal a ctx fs off (a_field_read_func c a u ctx fs off rd)) in
     let* _ := asserts a ctx fs off v in let* _ := free (read_pad (eval0 (a_pad_after a) ctx (fs ++ [v])) (field_order c a ctx fs)) in ret v)
    (fun off => let* v := field_read_tokens a ctx fs off (field_read_normal a ctx fs off (field_read_func c a u ctx fs off rd0)) in
     let* _ := asserts a ctx fs off v in let* _ := read_pad (eval0 (a_pad_after a) ctx (fs ++ [v])) (field_order c a ctx fs) in ret v)).
  intros off. apply er_bind; [apply er_tokens, er_normal, er_func, H|]. intros v. apply er_bind; [apply er_asserts|intros _]. apply er_bind; [apply er_free|intros _; apply er_ret].
Qed.

Section Types.
Variables (cu : nat -> custom) (fuel : nat).
Lemma a_read_struct c fs lim args : a_read_ty cu fuel (TStruct c fs) lim args =
  (let* _ := free (read_seek (option_map (fun f => f (ctx_args c args)) (c_seek c))) in
   let* _ := free (read_magic (c_magic c)) in
   let* vs := a_fields_read cu fuel c (ctx_args c args) fs None [] in
   ret (VRec vs)).
Proof. reflexivity. Qed.
Lemma a_read_enum e idt vs lim args : a_read_ty cu fuel (TEnum e idt vs) lim args =
  (let* _ := free (read_magic (c_magic (en_c e))) in
   let* id := match en_id e with
              | Some f => ret (f (ctx_args (en_c e) args))
              | None => a_read_ty cu fuel idt None (id_args e (ctx_args (en_c e) args))
              end in
   a_variants_read cu fuel e (ctx_args (en_c e) args) id vs 0 None).
Proof. reflexivity. Qed.
Lemma a_read_cons c ctx a t wire tl id acc : a_fields_read cu fuel c ctx (FCons a t wire tl) id acc =
  (let* v := match id, a_reader a with
             | Some x, None => ret x
             | _, _ => a_read_field c a (is_vec_u8 t) ctx acc (fun lim args => a_read_ty cu fuel wire lim args)
             end in
   let* vs := a_fields_read cu fuel c ctx tl None (acc ++ [v]) in
   ret (if a_temp a then vs else v :: vs)).
Proof. reflexivity. Qed.
Lemma a_read_variant e ctx id v fs tl k default : a_variants_read cu fuel e ctx id (VCons v fs tl) k default =
  (let body := let* l := a_fields_read cu fuel (en_c e) ctx fs (if stores_id e v then Some id else None) [] in
               ret (VVar k l) in
   if matches (v_sel v) id then body
   else a_variants_read cu fuel e ctx id tl (S k)
          (match default with Some _ => default | None => if v_default v then Some body else None end)).
Proof. reflexivity. Qed.

Lemma all_erase :
  (forall t lim args, erases (a_read_ty cu fuel t lim args) (read_ty cu fuel t lim args)) /\
  (forall fs c ctx id acc, erases (a_fields_read cu fuel c ctx fs id acc) (fields_read cu fuel c ctx fs id acc)) /\
  (forall vs e ctx id k d d0, match d, d0 with Some m, Some m0 => erases m m0 | None, None => True | _, _ => False end ->
     erases (a_variants_read cu fuel e ctx id vs k d) (variants_read cu fuel e ctx id vs k d0)).
Proof.
  apply types_ind.
  - intros p lim args. apply er_pctx.
  - intros lim args. apply er_pctx.
  - intros p lim args. apply er_pctx.
  - intros lim args. apply er_ret.
  - intros lim args. cbn [a_read_ty read_ty]. destruct lim; [apply er_panic|].
    destruct args as [|[] [|]]; try apply er_panic; (apply er_bind; [|intros; apply er_ret]).
    + unfold a_read_cstring, read_cstring. apply er_bind; [apply er_vec, er_free|intros; apply er_free].
    + unfold a_read_cstring_bytes, read_cstring_bytes. apply er_bind; [apply er_vec, er_free|intros; apply er_free].
  - intros t IH lim args. cbn [a_read_ty read_ty]. apply er_bind; [apply IH|intros; apply er_ret].
  - intros a IHa b IHb lim args. cbn [a_read_ty read_ty]. apply er_bind; [apply IHa|intros x]. apply er_bind; [apply IHb|intros; apply er_ret].
  - intros n t IH lim args. cbn [a_read_ty read_ty]. apply er_bind; [apply er_array, IH|intros; apply er_ret].
  - intros k size t IH lim args. cbn [a_read_ty read_ty]. destruct lim; [|apply er_panic]. apply er_bind; [apply er_vec, IH|intros; apply er_ret].
  - intros c fs IH lim args. rewrite a_read_struct, read_struct. apply er_bind; [apply er_free|intros _]. apply er_bind; [apply er_free|intros _]. apply er_bind; [apply IH|intros; apply er_ret].
  - intros e idt IHi vs IHv lim args. rewrite a_read_enum, read_enum. apply er_bind; [apply er_free|intros _].
    apply er_bind; [destruct (en_id e); [apply er_ret|apply IHi]|]. intros id. now apply IHv.
  - intros k lim args. cbn [a_read_ty read_ty]. destruct lim; [apply er_panic|apply er_free].
  - intros c ctx id acc. apply er_ret.
  - intros a t IHt wire IHw tl IHtl c ctx id acc. rewrite a_read_cons, read_cons. apply er_bind.
    + assert (H : erases (a_read_field c a (is_vec_u8 t) ctx acc (fun lim args => a_read_ty cu fuel wire lim args))
                         (read_field c a (is_vec_u8 t) ctx acc (fun lim args => read_ty cu fuel wire lim args))) by (apply er_read_field; intros; apply IHw).
      destruct id; [destruct (a_reader a); [exact H|apply er_ret]|exact H].
    + intros v. apply er_bind; [apply IHtl|intros; apply er_ret].
  - intros e ctx id k d d0 H. cbn [a_variants_read variants_read]. destruct d, d0; try contradiction; [exact H|apply er_fail].
  - intros v fs IHf tl IHt e ctx id k d d0 H. rewrite a_read_variant, read_variant. cbv zeta.
    assert (HB : erases (let* l := a_fields_read cu fuel (en_c e) ctx fs (if stores_id e v then Some id else None) [] in ret (VVar k l))
      (let* l := fields_read cu fuel (en_c e) ctx fs (if stores_id e v then Some id else None) [] in ret (VVar k l))) by (apply er_bind; [apply IHf|intros; apply er_ret]).
    destruct (matches _ _); [exact HB|]. apply IHt. destruct d, d0; try contradiction; [exact H|]. destruct (v_default v); [exact HB|exact I].
Qed.
Lemma same_from_reader t s bit : fst (a_from_reader cu fuel t s bit) = from_reader cu fuel t s bit.
Proof.
  unfold a_from_reader, from_reader.
  assert (H : erases (let* _ := if bit =? 0 then ret tt else free (skip_bits bit Msb0) in let* v := a_read_ty cu fuel t None [] in fun rk => (Ok (r_bits (fst rk), v), rk))
    (let* _ := if bit =? 0 then ret tt else skip_bits bit Msb0 in let* v := read_ty cu fuel t None [] in fun r => (Ok (r_bits r, v), r))).
  { apply er_bind; [destruct (bit =? 0); [apply er_ret|apply er_free]|intros _]. apply er_bind; [apply all_erase|]. intros v r k. exists k. reflexivity. }
  destruct (H (reader_new s) 0%N) as [k' E]. rewrite E. match goal with |- context [snd (?m (reader_new s))] => destruct (m (reader_new s)) as [x r'] end. reflexivity.
Qed.
End Types.

(** ** The bound *)

Definition bits_left (r : reader) : N := N.of_nat (unread_len (seen r)).
Section Bound.
Variables (fuel : nat).
Local Notation moves := (moves fuel false).
(** At most [u] bytes, and [w] eighths of a byte per bit taken (per bit there was, if the
    read fails), from any place that is inside the source if [i] is true. *)
Definition within (i : bool) {A} (w u : N) (m : AM A) : Prop :=
  forall r k x r' k', place i r -> 8 * length (s_data (r_s r)) + 8 < fuel -> m (r, k) = (x, (r', k')) ->
    (8 * k' + w * (match x with Ok _ => bits_left r' | _ => 0 end) <= 8 * k + w * bits_left r + 8 * u)%N.

Ltac split_run E := apply pair_inj in E; destruct E as [<- E]; apply pair_inj in E; destruct E as [<- <-].
Lemma w_quiet {A} i j w u c (good : A -> Prop) m : moves c good m i j -> within i w u (free m).
Proof.
  intros H r k x r' k' Hp Hf E. unfold free in E. cbn [fst snd] in E. destruct (m r) as [y r1] eqn:E1. split_run E.
  destruct y as [v|e| |]; try lia. destruct (H r _ r1 Hp Hf E1) as (_ & _ & K). destruct (K v eq_refl) as (_ & _ & _ & M). specialize (M eq_refl). unfold bits_left. nia.
Qed.
Lemma w_lift {A} i w u (x : res A) : within i w u (lift x).
Proof. intros r k y r' k' Hp Hf E. split_run E. destruct x; lia. Qed.
Lemma w_ret {A} i w u (a : A) : within i w u (ret a).
Proof. exact (w_lift i w u (Ok a)). Qed.
Lemma w_fail {A} i w u e : within i w u (fail (A:=A) e).
Proof. exact (w_lift i w u (Err e)). Qed.
Lemma w_panic {A} i w u : within i w u (panic (A:=A)).
Proof. exact (w_lift i w u Panic). Qed.
Lemma w_ext {A} i w u (m m' : AM A) : (forall rk, m rk = m' rk) -> within i w u m' -> within i w u m.
Proof. intros H H' r k x r' k' Hp Hf E. rewrite H in E. exact (H' r k x r' k' Hp Hf E). Qed.
Lemma w_at {A} i w u (m : nat -> AM A) : (forall n, within i w u (m n)) -> within i w u (fun rk => m (r_bits (fst rk)) rk).
Proof. intros H r k x r' k' Hp Hf E. exact (H _ r k x r' k' Hp Hf E). Qed.
Lemma er_run {A} (m : AM A) m0 r k x r' k' : erases m m0 -> m (r, k) = (x, (r', k')) -> m0 r = (x, r').
Proof. intros H E. destruct (H r k) as [k1 E1]. rewrite E in E1. apply pair_inj in E1. destruct E1 as [-> E1]. apply pair_inj in E1. destruct E1 as [-> _]. now destruct (m0 r). Qed.
Lemma w_known {A} i i' w u (m : AM A) : only_if_known i i' -> within i w u m -> within i' w u m.
Proof. intros L H r k x r' k' Hp. apply H. exact (place_le _ _ _ L Hp). Qed.
Lemma w_mono {A} i j w u w' u' c (good : A -> Prop) m m0 : (w <= w')%N -> (u <= u')%N -> erases m m0 -> moves c good m0 i j -> within i w u m -> within i w' u' m.
Proof.
  intros Hw Hu He Hr H r k x r' k' Hp Hf E. pose proof (H r k x r' k' Hp Hf E) as B. apply (er_run _ _ _ _ _ _ _ He) in E.
  destruct x as [v|e| |]; try nia. destruct (Hr r _ r' Hp Hf E) as (_ & _ & K). destruct (K v eq_refl) as (_ & _ & _ & M). specialize (M eq_refl). unfold bits_left in *. nia.
Qed.
Lemma w_up {A} i w u u' (m : AM A) : (u <= u')%N -> within i w u m -> within i w u' m.
Proof. intros Hu H r k x r' k' Hp Hf E. pose proof (H r k x r' k' Hp Hf E). lia. Qed.
Lemma w_bind {A B} i j w u1 u2 c (good : A -> Prop) (m : AM A) m0 (f : A -> AM B) : erases m m0 -> moves c good m0 i j -> within i w u1 m -> (forall a, good a -> within j w u2 (f a)) ->
  within i w (u1 + u2) (bind m f).
Proof.
  intros He Hr H1 H2 r k x r' k' Hp Hf E. unfold bind in E. destruct (m (r, k)) as [y [r1 k1]] eqn:E1. pose proof (H1 _ _ _ _ _ Hp Hf E1) as B1.
  apply (er_run _ _ _ _ _ _ _ He) in E1. destruct (Hr r _ r1 Hp Hf E1) as (_ & _ & K).
  destruct y as [a|e| |]; try (split_run E; lia).
  destruct (K a eq_refl) as (G & P1 & S1 & _). rewrite <- S1 in Hf. pose proof (H2 a G r1 k1 x r' k' P1 Hf E). lia.
Qed.
Lemma w_free_bind {A B} i j w u c (good : A -> Prop) (m0 : RM A) (f : A -> AM B) : moves c good m0 i j -> (forall a, good a -> within j w u (f a)) -> within i w u (bind (free m0) f).
Proof. intros Hr H. change u with (0 + u)%N. eapply w_bind; [apply er_free|exact Hr|eapply w_quiet; exact Hr|exact H]. Qed.
Lemma w_map {A B} i w u (m : AM A) (f : A -> B) : within i w u m -> within i w u (let* a := m in ret (f a)).
Proof.
  intros H r k x r' k' Hp Hf E. unfold bind in E. destruct (m (r, k)) as [y [r1 k1]] eqn:E1. pose proof (H _ _ _ _ _ Hp Hf E1) as B1.
  destruct y as [a|e| |]; split_run E; exact B1.
Qed.

(** An element takes [c] bits, so its place in the collection is paid for. *)
Definition eats (i : bool) {A} (c : nat) (m : RM A) : Prop := forall r v r', place i r -> 8 * length (s_data (r_s r)) + 8 < fuel -> m r = (Ok v, r') -> unread_len (seen r') + c <= unread_len (seen r).
Lemma runs_eats {A} i j (good : A -> Prop) m : moves true good m i j -> eats i 1 m.
Proof. intros H r v r' Hp Hf E. destruct (H r _ r' Hp Hf E) as (_ & _ & K). destruct (K v eq_refl) as (_ & _ & _ & M). apply M. reflexivity. Qed.
Lemma w_loop {A} i (e : AM A) e0 (good : A -> Prop) w u p c size stop start : erases e e0 -> moves true good e0 i i -> within i w u e ->
  eats i c e0 -> (8 * (size + u) <= p * N.of_nat c)%N -> forall f acc, within i (p + w) u (a_vec_loop f size e stop start acc).
Proof.
  intros He Hr Hw Hc Hs. induction f as [|f IH]; intros acc; [exact (w_lift _ _ _ Diverge)|]. intros r k x r' k' Hp Hf E. cbn [a_vec_loop] in E.
  unfold bind, request in E. destruct (e (r, k)) as [y [r1 k1]] eqn:E1. pose proof (Hw _ _ _ _ _ Hp Hf E1) as B1.
  apply (er_run _ _ _ _ _ _ _ He) in E1. destruct (Hr r _ r1 Hp Hf E1) as (_ & _ & K).
  destruct y as [v|er| |]; try (split_run E; nia).
  destruct (K v eq_refl) as (G & P1 & S1 & M). pose proof (Hc r v r1 Hp Hf E1) as M1. cbn [fst snd] in E.
  assert (B2 : (8 * (k1 + size) + (p + w) * bits_left r1 <= 8 * k + (p + w) * bits_left r)%N) by (unfold bits_left in *; nia).
  destruct (_ <? _); [split_run E; lia|]. destruct (stop _ _); [split_run E; lia|].
  rewrite <- S1 in Hf. pose proof (IH _ r1 (k1 + size)%N x r' k' P1 Hf E). lia.
Qed.
Lemma w_end_loop {A} m (e : AM A) e0 (good : A -> Prop) w u size : erases e e0 -> moves true good e0 false m -> within false w u e ->
  forall f acc, within false (8 * (size + u) + w) u (a_end_loop f size e acc).
Proof.
  intros He Hr Hw. apply m_at with (i' := false) (j' := false) in Hr; [|apply known_refl|apply known_false]. induction f as [|f IH]; intros acc; [exact (w_lift _ _ _ Diverge)|]. intros r k x r' k' Hp Hf E. cbn [a_end_loop fst snd] in E.
  destruct (r_end_spec r (place_wf _ r Hp) (place_quiet _ r Hp)) as (r0 & E0 & A0 & U0).
  destruct (place_adv _ r r0 0 Hp A0) as (P0 & S0 & Us0 & B0); [now rewrite U0|discriminate|].
  rewrite E0 in E. assert (BL : bits_left r0 = bits_left r) by (unfold bits_left; lia). destruct (_ =? 0).
  - split_run E. rewrite BL. lia.
  - rewrite <- S0 in Hf. unfold bind, request in E. destruct (e (r0, k)) as [y [r1 k1]] eqn:E1. pose proof (Hw _ _ _ _ _ P0 Hf E1) as B1.
    apply (er_run _ _ _ _ _ _ _ He) in E1. destruct (Hr r0 _ r1 P0 Hf E1) as (_ & _ & K).
    destruct y as [v|er| |]; try (split_run E; nia).
    destruct (K v eq_refl) as (G & P1 & S1 & M). destruct (M eq_refl) as [M1 M2]. cbn [fst snd] in E.
    assert (B2 : (8 * (k1 + size) + (8 * (size + u) + w) * bits_left r1 <= 8 * k + (8 * (size + u) + w) * bits_left r0)%N) by (unfold bits_left in *; nia).
    rewrite <- S1 in Hf. pose proof (IH _ r1 (k1 + size)%N x r' k' P1 Hf E). rewrite <- BL. lia.
Qed.
(** With a count there are as many elements at most. *)
Lemma w_count_loop {A} i (e : AM A) e0 (good : A -> Prop) c w u stop start : erases e e0 -> moves c good e0 i i -> within i w u e ->
  forall f acc, within i w (N.of_nat f * u) (a_vec_loop f 0 e stop start acc).
Proof.
  intros He Hr Hw. induction f as [|f IH]; intros acc; [exact (w_lift _ _ _ Diverge)|]. cbn [a_vec_loop].
  replace (N.of_nat (S f) * u)%N with (u + N.of_nat f * u)%N by lia. eapply w_bind; [exact He|exact Hr|exact Hw|]. intros v _.
  intros r k x r' k' Hp Hf E. unfold bind, request in E. cbn [fst snd] in E. rewrite N.add_0_r in E.
  destruct (_ <? _); [split_run E; lia|]. destruct (stop _ _); [split_run E; lia|]. exact (IH _ r k x r' k' Hp Hf E).
Qed.
Lemma w_pred {A} i f (e : AM A) e0 (good : A -> Prop) w u p c size stop : erases e e0 -> (size <> 0%N -> moves true good e0 i i /\ eats i c e0) -> within i w u e ->
  (8 * (size + u) <= p * N.of_nat c)%N -> within i (p + w) u (a_vec_with_predicate f size None e stop).
Proof.
  intros He Hr Hw Hs. unfold a_vec_with_predicate. destruct (size =? 0)%N eqn:C; [apply w_ret|]. destruct Hr as [Hr Hc]; [lia|].
  eapply w_ext with (m' := fun rk => a_vec_loop f size e stop (r_bits (fst rk)) [] rk).
  - intros [r k]. unfold bind, request. cbn [fst snd push_cost]. rewrite N.add_0_r. reflexivity.
  - apply (w_at _ _ _ (fun n => a_vec_loop f size e stop n [])). intros n. eapply w_loop; eassumption.
Qed.
Lemma w_request {A} i w u n (m : AM A) : within i w u m -> within i w (n + u) (let* _ := request n in m).
Proof. intros H r k x r' k' Hp Hf E. unfold bind, request in E. cbn [fst snd] in E. pose proof (H r (k + n)%N x r' k' Hp Hf E). lia. Qed.
Lemma er_counted {A} (e : AM A) e0 f n size : erases e e0 -> erases (a_vec_read f size e (LCount n)) (vec_read fuel size e0 (LCount n)).
Proof. intros He. exact (er_vec f size e e0 (LCount n) He). Qed.
Lemma w_counted {A} i f (e : AM A) e0 c (good : A -> Prop) w u n size : erases e e0 -> moves c good e0 i i -> within i w u e -> (n * size <= isize_max)%N ->
  within i w (n * size + n * u) (a_vec_read f size e (LCount n)).
Proof.
  intros He Hr Hw Hfit. cbn [a_vec_read]. destruct (n =? 0)%N eqn:C; [apply w_ret|]. unfold a_vec_with_predicate. destruct (size =? 0)%N eqn:Cz; [apply (w_ret _ _ _ [])|].
  replace (isize_max <? n * size)%N with false by lia.
  apply w_request. cbn [push_cost]. apply (w_at i w (n * u) (fun s => a_vec_loop (N.to_nat n) 0 e (fun _ acc => (N.of_nat (length acc) =? n)%N) s [])). intros s.
  replace n with (N.of_nat (N.to_nat n)) at 1 by lia. eapply w_count_loop; eassumption.
Qed.
Lemma w_vec {A} i f (e : AM A) e0 c (good : A -> Prop) w u most size lim : erases e e0 -> moves c good e0 i i -> (loops lim -> size <> 0%N -> c = true) -> within i w u e ->
  lim <> LEnd -> match lim with LCount n => (n <= most)%N | _ => True end -> limit_fits size lim ->
  within i (8 * (size + u) + w) (most * size + N.max 1 most * u) (a_vec_read f size e lim).
Proof.
  intros He Hr Hl Hw Hi Hc Hfit.
  assert (HU : (u <= most * size + N.max 1 most * u)%N) by nia.
  assert (HP : (size <> 0%N -> c = true) -> forall stop, within i (8 * (size + u) + w) (most * size + N.max 1 most * u) (a_vec_with_predicate f size None e stop)).
  { intros H stop. eapply w_up; [exact HU|]. apply w_pred with (e0 := e0) (good := good) (c := 1); [exact He| |exact Hw|lia]. intros Hs. rewrite (H Hs) in Hr. split; [exact Hr|]. now apply runs_eats with (j := i) (good := good). }
  destruct lim as [n|p|n|n|]; [|cbn [a_vec_read loops limit_fits] in *..].
  - eapply w_mono; [| |apply er_counted; exact He| |eapply w_counted; eassumption].
    + lia.
    + nia.
    + apply m_runs. eapply runs_vec; [exact Hr|exact Hfit|intros []|discriminate].
  - apply HP. auto.
  - destruct (_ <? _)%N; [apply w_panic|]. destruct (_ =? 0)%N; [apply w_ret|]. apply HP. auto.
  - destruct (_ =? 0)%N; [apply w_ret|]. apply HP. auto.
  - now destruct Hi.
Qed.
Lemma w_to_end {A} i m f (e : AM A) e0 c (good : A -> Prop) w u most size : erases e e0 -> moves c good e0 false m -> (size <> 0%N -> c = true) -> within false w u e ->
  within i (8 * (size + u) + w) (most * size + N.max 1 most * u) (a_vec_read f size e LEnd).
Proof.
  intros He Hr Hl Hw. apply w_known with (i := false); [apply known_false|]. cbn [a_vec_read]. unfold a_vec_to_end. destruct (size =? 0)%N eqn:C; [apply w_ret|].
  apply w_up with (u := u); [nia|]. rewrite Hl in Hr by lia. eapply w_end_loop; eassumption.
Qed.
Lemma w_array {A} i n (e : AM A) e0 c (good : A -> Prop) w u : erases e e0 -> moves c good e0 i i -> within i w u e -> within i w (N.of_nat n * u) (a_read_array n e).
Proof.
  intros He Hr Hw. induction n as [|n IH]; cbn [a_read_array]; [apply w_ret|]. replace (N.of_nat (S n) * u)%N with (u + N.of_nat n * u)%N by lia.
  eapply w_bind; [exact He|exact Hr|exact Hw|]. intros v _. now apply w_map.
Qed.
Lemma exact_cases n r k x r' k' : quiet (r_s r) -> s_pos (r_s r) <= length (s_data (r_s r)) -> a_read_exact_vec n (r, k) = (x, (r', k')) ->
  (k' = k /\ forall v, x <> Ok v) \/
  (exists r1, quiet (r_s r1) /\ s_data (r_s r1) = s_data (r_s r) /\ s_pos (r_s r1) = s_pos (r_s r) /\ r_left r1 = r_left r /\
     k' = (k + n)%N /\ N.to_nat n <= length (s_data (r_s r)) - s_pos (r_s r) /\ read_bytes (N.to_nat n) (N.to_nat n) Lsb0 r1 = (x, r')).
Proof.
  intros Hq Hl E. destruct (s_noseek (r_s r)) as [v|] eqn:En.
  - left. unfold a_read_exact_vec, bind, free, inner_seek, lift_io, s_seek in E. cbn [fst snd] in E. rewrite Hq, En in E. cbn [noseek_target Z.eqb r_set_s r_s s_tick s_noseek s_fault s_calls fst snd] in E.
    rewrite Hq, En in E. apply pair_inj in E. destruct E as [<- E]. apply pair_inj in E. destruct E as [_ <-]. split; [reflexivity|discriminate].
  - pose (pos := s_pos (r_s r)). pose (len := length (s_data (r_s r))).
    pose (ra := r_set_s r (s_goto (s_tick (r_s r)) pos)). pose (rb := r_set_s ra (s_goto (s_tick (r_s ra)) len)).
    pose (rc := r_set_s rb (s_goto (s_tick (r_s rb)) pos)).
    assert (HF : forall (m : RM nat) r0 a r1, m r0 = (Ok a, r1) -> free m (r0, k) = (Ok a, (r1, k))) by (intros m r0 a r1 H; unfold free; cbn [fst snd]; now rewrite H).
    assert (Ea : free (inner_seek (SeekCurrent 0)) (r, k) = (Ok pos, (ra, k))).
    { apply HF, inner_seek_ok; [exact Hq|exact En|]. cbn [seek_target]. fold pos. replace (Z.of_nat pos + 0 <? 0)%Z with false by lia. f_equal. lia. }
    assert (Eb : free (inner_seek (SeekEnd 0)) (ra, k) = (Ok len, (rb, k))).
    { apply HF, inner_seek_ok; [exact Hq|exact En|]. cbn [seek_target]. change (length (s_data (r_s ra))) with len. replace (Z.of_nat len + 0 <? 0)%Z with false by lia. f_equal. lia. }
    assert (Ec : free (inner_seek (SeekStart pos)) (rb, k) = (Ok pos, (rc, k))) by (apply HF, inner_seek_ok; [exact Hq|exact En|reflexivity]).
    unfold a_read_exact_vec in E. rewrite (bind_ok _ _ _ _ _ Ea), (bind_ok _ _ _ _ _ Eb), (bind_ok _ _ _ _ _ Ec) in E.
    destruct (len <? pos); [left; apply pair_inj in E; destruct E as [<- E]; apply pair_inj in E; destruct E as [_ <-]; split; [reflexivity|discriminate]|].
    destruct (N.ltb_spec (N.of_nat (len - pos)) n) as [Hn|Hn].
    { left. destruct (_ <? _)%N; apply pair_inj in E; destruct E as [<- E]; apply pair_inj in E; destruct E as [_ <-]; (split; [reflexivity|discriminate]). }
    right. exists rc. split; [exact Hq|]. split; [reflexivity|]. split; [reflexivity|]. split; [reflexivity|].
    unfold bind, request, free in E. cbn [fst snd] in E. destruct (read_bytes _ _ _ rc) as [y r1]. apply pair_inj in E. destruct E as [<- E]. apply pair_inj in E. destruct E as [<- <-].
    split; [reflexivity|]. split; [|reflexivity]. fold len pos. lia.
Qed.
Lemma w_exact n : within true 1 0 (a_read_exact_vec n).
Proof.
  intros r k x r' k' Hp Hf E. pose proof Hp as (Hq & Hw & Hm & Hb & _ & Hk). destruct (Hk eq_refl) as [Hl Hpk].
  destruct (exact_cases n r k x r' k' Hq Hl E) as [[-> Hx]|(r1 & Q1 & D1 & P1 & L1 & -> & Hn & E1)].
  - destruct x as [v|e| |]; [now destruct (Hx v)|lia|lia|lia].
  - assert (BL : bits_left r = N.of_nat (length (r_rest r) + 8 * (length (s_data (r_s r)) - s_pos (r_s r)))) by (unfold bits_left; rewrite unread_len_avail by exact Hl; reflexivity).
    destruct x as [v|e| |]; try lia.
    assert (Hw1 : r_wf r1) by (unfold r_wf, valid in *; now rewrite L1).
    assert (Hk1 : ~ peeked r1) by (apply peeked_left; intros b; rewrite L1; apply Hpk).
    pose proof (read_bytes_spec (N.to_nat n) (N.to_nat n) Lsb0 r1 Hw1 Q1 (le_n _) (fun _ => Hk1)) as H.
    destruct (take_bits Lsb0 (8 * N.to_nat n) (unread r1)) as [[l u']|] eqn:T.
    + destruct H as (bs & r2 & E2 & _ & Ad & U1). rewrite E2 in E1. apply pair_inj in E1. destruct E1 as [_ <-].
      destruct (take_bits_some_len _ _ _ _ _ T) as [? ?]. pose proof (same_seen r r1 D1 P1 L1) as SS.
      assert (unread_len (seen r) = 8 * N.to_nat n + unread_len (seen r2)) by (rewrite <- SS, !seen_unread_len, U1; lia). unfold bits_left. lia.
    + destruct H as (e & r2 & E2 & _). rewrite E2 in E1. discriminate.
Qed.

(** ** Types *)

Variables (most : N) (named : nat -> value -> Prop) (cu : nat -> custom).
Local Notation typed := (typed_in named).
Local Notation rd := (read_ty cu fuel).
Local Notation ard := (a_read_ty cu fuel).
Local Notation pb := (per_byte most).
Local Notation up := (upfront most).
Local Notation flows := (flows_in named cu false).
Local Notation fields_flow := (fields_flow_in named cu false).
Local Notation variants_flow := (variants_flow_in named cu false).
Definition ty_within (t : ty) : Prop := forall lim args i j, flows t lim args i j -> counts_in most named t lim args ->
  within i (pb t) (up t) (ard t lim args).
Definition fields_within (fs : fields) : Prop := forall c ctx id acc i j,
  fields_flow c ctx fs id acc i j -> fields_counts_in most named c ctx fs id acc ->
  within i (fields_per_byte most fs) (fields_upfront most fs) (a_fields_read cu fuel c ctx fs id acc).
Definition variants_within (vs : variants) : Prop := forall e ctx id k d w u i j, (variants_per_byte most vs <= w)%N -> (variants_upfront most vs <= u)%N ->
  variants_flow e ctx id vs i j -> variants_counts_in most named e ctx id vs -> match d with Some m => within i w u m | None => True end ->
  within i w u (a_variants_read cu fuel e ctx id vs k d).

Lemma ty_move t lim args i j : flows t lim args i j -> moves (consumes t) (typed t) (rd t lim args) i j.
Proof. apply (all_move fuel named cu). Qed.
Lemma fields_move_any fs c ctx id acc i j : fields_flow c ctx fs id acc i j ->
  moves false (fields_typed_in named fs) (fields_read cu fuel c ctx fs id acc) i j.
Proof.
  intros H. eapply m_weak; [apply (proj1 (proj2 (all_move fuel named cu)) fs false c ctx id acc i j H)|apply known_refl|apply known_refl|discriminate|auto].
Qed.
Lemma ty_erase t lim args : erases (ard t lim args) (rd t lim args).
Proof. apply all_erase. Qed.
Lemma w_pctx i j lim args w u c (good : value -> Prop) (k : pctx -> RM value) :
  (forall x, pctx_of args = Some x -> moves c good (k x) i j) -> within i w u (with_pctx lim args (fun x => free (k x))).
Proof. intros H. unfold with_pctx. destruct lim; [apply w_panic|]. destruct (pctx_of args); [eapply w_quiet; now apply H|apply w_panic]. Qed.
Lemma w_byte i w u : within i w u (free (prim_read PU8 C0)).
Proof. eapply w_quiet. apply (m_byte fuel i i false). Qed.
Lemma w_string i l : Forall (fun n => (n < 256)%N) l -> within i 1 0 (free (to_cstring l)).
Proof. intros Hl. eapply w_quiet. apply (m_to_cstring fuel i i false); [exact Hl|apply known_refl]. Qed.
Lemma asserts_within i w u a ctx acc off v : within i w u (asserts a ctx acc off v).
Proof.
  unfold asserts, check. intros r k x r' k' Hp Hf E. destruct (a_assert a) as [f|], (a_assert_eq a) as [g|]; try destruct (f _ _ _); try destruct (value_eqb _ _); split_run E; lia.
Qed.
Lemma field_within {B} w u c a t wire ctx acc i m (f : value -> AM B) : ty_within wire -> (N.max (if is_vec_u8 t then 1 else 0) (pb wire) <= w)%N ->
  let s := option_map (fun f => f ctx acc) (a_seek a) in
  let i1 := (i && seek_in s || nonempty (a_magic a)) && pad_in (eval0 (a_pad_before a) ctx acc) in
  (forall off, match option_map (fun l => eval_limit l ctx acc off) (a_limit a) with
     | None => counts_in most named wire None (field_args c a ctx acc off)
     | Some (Ok (LCount n)) => is_vec_u8 t = true \/ counts_in most named wire (Some (LCount n)) (field_args c a ctx acc off)
     | Some (Ok lim) => counts_in most named wire (Some lim) (field_args c a ctx acc off)
     | Some _ => True
     end) ->
  seek_allowed false s -> field_flows_in named false c a t wire ctx acc i1 m (fun lim args => flows wire lim args i1 m) ->
  (forall v, typed t v -> asserted a ctx acc v -> within (m && pad_in (eval0 (a_pad_after a) ctx (acc ++ [v]))) w u (f v)) ->
  within i w (up wire + u) (bind (a_read_field c a (is_vec_u8 t) ctx acc (fun lim args => ard wire lim args)) f).
Proof.
  intros IH Hle s i1 Hc Hs HS Hg. pose proof HS as (Hd & Hn). unfold a_read_field.
  eapply w_ext; [intros rk; apply bind_assoc|]. eapply w_free_bind; [apply m_seek; exact Hs|intros _ _].
  eapply w_ext; [intros rk; apply bind_assoc|]. eapply w_free_bind; [apply m_magic|intros _ _].
  eapply w_ext; [intros rk; apply bind_assoc|]. eapply w_free_bind; [apply m_pad|intros _ _].
  fold s. fold i1. apply (w_at i1 w _ (fun off => bind (
    let* v := a_field_read_tokens a ctx acc off
                (a_field_read_normal a ctx acc off (a_field_read_func c a (is_vec_u8 t) ctx acc off (fun lim args => ard wire lim args))) in
    let* _ := asserts a ctx acc off v in
    let* _ := free (read_pad (eval0 (a_pad_after a) ctx (acc ++ [v])) (field_order c a ctx acc)) in
    ret v) f)). intros off.
  eapply w_ext; [intros rk; apply bind_assoc|]. eapply w_bind with (j := m); [apply er_tokens, er_normal, er_func; intros; apply ty_erase|apply (tokens_move fuel named cu false c a t wire ctx acc off i1 m); [apply (all_move fuel named cu)|exact HS]| |].
  - assert (HN : takes_default a ctx acc off = false ->
      within i1 w (up wire) (a_field_read_normal a ctx acc off (a_field_read_func c a (is_vec_u8 t) ctx acc off (fun lim args => ard wire lim args)))).
    { intros HF. destruct (Hn off HF) as [Hr _]. specialize (Hc off). unfold a_field_read_normal.
      assert (HW : within i1 w (up wire) (a_field_read_func c a (is_vec_u8 t) ctx acc off (fun lim args => ard wire lim args))).
      { assert (HT : forall lim, flows wire lim (field_args c a ctx acc off) i1 m -> counts_in most named wire lim (field_args c a ctx acc off) ->
          within i1 w (up wire) (ard wire lim (field_args c a ctx acc off))).
        { intros lim H1 H2. eapply w_mono; [|apply N.le_refl|apply ty_erase|apply ty_move; exact H1|eapply IH; eauto]. lia. }
        unfold a_field_read_func. destruct (a_reader a) as [g|]; [eapply w_quiet; apply (m_leads fuel _ _ _ _ _ Hr)|].
        destruct (a_limit a) as [l|]; cbn [option_map] in Hc; [|apply HT; [exact Hr|exact Hc]].
        destruct (eval_limit l ctx acc off) as [lim|e| |] eqn:El.
        2:{ exact (w_fail _ w _ e). } 2:{ exact (w_panic _ w _). } 2:{ exact (w_lift _ w _ Diverge). }
        eapply w_ext; [intros rk; unfold lift; apply (bind_ret_l lim _ rk)|].
        destruct lim as [n|p|n|n|]; try (destruct (is_vec_u8 t); (apply HT; [exact Hr|exact Hc])).
        destruct (is_vec_u8 t) eqn:Hv; [|apply HT; [exact Hr|destruct Hc as [Hc|Hc]; [discriminate|exact Hc]]].
        destruct Hr as (Hi & Hn8 & _). rewrite Hi. eapply w_mono with (j := true); [| |apply er_bind; [apply er_exact|intros; apply er_ret]| |apply w_map; apply w_exact].
        - lia.
        - lia.
        - eapply m_bindl with (g2 := fun _ => True) (k := true); [now apply m_exact|]. intros bs _. apply m_ret; [exact I|apply known_refl]. }
      destruct (a_map a) as [g|] eqn:Em.
      - intros r k x r' k' Hp Hf E. unfold bind in E. destruct (a_field_read_func c a _ ctx acc off _ (r, k)) as [y [r1 k1]] eqn:E1. pose proof (HW _ _ _ _ _ Hp Hf E1) as B1.
        destruct y as [v|e| |]; split_run E; try exact B1. destruct (g ctx acc off v); lia.
      - exact (w_map _ w _ _ (fun v => v) HW). }
    unfold takes_default in HN. unfold a_field_read_tokens. destruct (a_skip a) as [[| |]|], (a_cond a) as [g|]; try destruct (g ctx acc off); auto using w_ret.
  - intros v Hv. eapply w_ext; [intros rk; apply bind_assoc|]. rewrite <- (N.add_0_l u). eapply w_bind with (j := m); [apply er_asserts|apply m_asserts, known_refl|apply asserts_within|].
    intros ? Ha. eapply w_ext; [intros rk; apply bind_assoc|]. eapply w_free_bind; [apply m_pad|intros _ _]. eapply w_ext; [intros rk; apply bind_ret_l|]. now apply Hg.
Qed.
Theorem all_within : (forall t, ty_within t) /\ (forall fs, fields_within fs) /\ (forall vs, variants_within vs).
Proof.
  apply types_ind.
  - intros p lim args i j H _. pose proof (ty_move _ _ _ _ _ H) as R. destruct H as (-> & _ & c & Hc & _). cbn [a_read_ty read_ty] in *. eapply w_pctx. intros x Hx.
    unfold with_pctx in R. rewrite Hx in R. exact R.
  - intros lim args i j H _. pose proof (ty_move _ _ _ _ _ H) as R. destruct H as (-> & c & Hc & _). cbn [a_read_ty read_ty] in *. eapply w_pctx. intros x Hx.
    unfold with_pctx in R. rewrite Hx in R. exact R.
  - intros p lim args i j H _. pose proof (ty_move _ _ _ _ _ H) as R. destruct H as (-> & _ & c & Hc & _). cbn [a_read_ty read_ty] in *. eapply w_pctx. intros x Hx.
    unfold with_pctx in R. rewrite Hx in R. exact R.
  - intros lim args i j _ _. apply w_ret.
  - intros lim args i j H Hcnt.
    assert (HX : eats i 8 (prim_read PU8 C0)).
    { intros r v r' Hp _ E. destruct (walks_prim PU8 C0 ltac:(cbn; lia) I r v r' (place_wf _ r Hp) (place_quiet _ r Hp) E) as (_ & U & _).
      rewrite !seen_unread_len. cbn [prim_size] in U. change (prim_width PU8) with 8 in U. lia. }
    destruct H as (-> & [->|(n & -> & Hn)]); cbn [a_read_ty per_byte upfront]; apply w_map.
    + apply w_up with (u := 0%N); [lia|]. unfold a_read_cstring. change 0%N with (0 + 0)%N. eapply w_bind; [apply er_vec, er_free| | |].
      * apply m_runs. eapply (runs_vec fuel i) with (eats := true); [exact (runs_byte fuel i false)|exact I|reflexivity|discriminate].
      * change 1%N with (1 + 0)%N at 1. cbn [a_vec_read]. eapply w_pred with (c := 8); [apply er_free| |apply w_byte|reflexivity]. intros _. split; [apply m_byte|exact HX].
      * intros l Hl. now apply w_string.
    + specialize (Hcnt n eq_refl). eapply w_mono with (j := i) (w := 0%N) (u := (N.of_nat n * 1 + N.of_nat n * 0)%N); [lia|lia| |apply m_cstring_bytes; exact Hn|].
      * apply er_bind; [apply er_vec, er_free|intros; apply er_free].
      * unfold a_read_cstring_bytes. rewrite <- (N.add_0_r (_ + _)). eapply w_bind; [apply er_counted, er_free| | |].
        -- apply m_runs. eapply (runs_vec fuel i) with (eats := true); [exact (runs_byte fuel i false)| |reflexivity|discriminate]. cbn [limit_fits]. rewrite N.mul_1_r. exact Hn.
        -- eapply w_counted; [apply er_free|exact (m_byte fuel i i false)|apply w_byte|rewrite N.mul_1_r; exact Hn].
        -- intros l Hl. eapply w_quiet. apply (m_to_cstring fuel i i false); [exact Hl|apply known_refl].
  - intros t IH lim args i j H Hc. cbn [a_read_ty per_byte upfront]. apply w_map. eapply IH; eauto.
  - intros a IHa b IHb lim args i j (m & Ha & Hb) [Ca Cb]. cbn [a_read_ty per_byte upfront].
    eapply w_bind; [apply ty_erase|apply ty_move; exact Ha| |].
    + eapply w_mono; [|apply N.le_refl|apply ty_erase|apply ty_move; exact Ha|eapply IHa; eauto]. lia.
    + intros x _. apply w_map. eapply w_mono; [|apply N.le_refl|apply ty_erase|apply ty_move; exact Hb|eapply IHb; eauto]. lia.
  - intros n t IH lim args i j H Hc. cbn [a_read_ty per_byte upfront flows_in] in *. apply w_map. destruct n as [|n]; [apply w_ret|]. destruct H as (m & Hm & H1 & H2).
    apply w_known with (i := m); [exact Hm|]. eapply w_array; [apply ty_erase|apply ty_move; exact H1|eapply IH; eauto].
  - intros pl size t IH lim args i j (l & -> & Hf & Hlo & Ht) [Hc Hct]. cbn [a_read_ty per_byte upfront]. apply w_map.
    destruct l as [n|p|n|n|].
    5:{ destruct Ht as (m & Ht & _). eapply w_to_end; [apply ty_erase|apply ty_move; exact Ht|apply Hlo; exact I|eapply IH; eauto]. }
    all: destruct Ht as (m & Hm & Ht & _); apply w_known with (i := m); [exact Hm|];
      (eapply w_vec; [apply ty_erase|apply ty_move; exact Ht|exact Hlo|eapply IH; [exact Ht|exact Hct]|discriminate|exact Hc|exact Hf]).
  - intros c fs IH lim args i j [Hs Hf] Hc. rewrite a_read_struct. cbn [per_byte upfront]. eapply w_free_bind; [apply m_seek; exact Hs|intros _ _].
    eapply w_free_bind; [apply m_magic|intros _ _]. apply w_map. eapply IH; [exact Hf|exact Hc].
  - intros e idt IHi vs IHv lim args i j H Hc. rewrite a_read_enum. cbn [flows_in counts_in] in *.
    change (pb (TEnum e idt vs)) with (N.max (pb idt) (variants_per_byte most vs)). change (up (TEnum e idt vs)) with (up idt + variants_upfront most vs)%N. eapply w_free_bind; [apply m_magic|intros _ _].
    destruct (en_id e) as [f|].
    + eapply w_ext; [intros rk; apply bind_ret_l|]. eapply IHv; [lia|lia|exact H|exact Hc|exact I].
    + destruct H as (m & Hi & Hv), Hc as [Hci Hcv]. eapply w_bind; [apply ty_erase|apply ty_move; exact Hi| |].
      * eapply w_mono; [|apply N.le_refl|apply ty_erase|apply ty_move; exact Hi|eapply IHi; eauto]. lia.
      * intros id Hid. eapply IHv; [lia|lia|now apply Hv|now apply Hcv|exact I].
  - intros k lim args i j H _. pose proof (ty_move _ _ _ _ _ H) as R. destruct H as [-> H]. cbn [a_read_ty read_ty] in *. eapply w_quiet. exact R.
  - intros c ctx id acc i j _ _. apply w_ret.
  - intros a t IHt wire IHw tl IHtl c ctx id acc i j H Hc. rewrite a_read_cons. cbn [fields_flow_in fields_counts_in] in *.
    change (fields_per_byte most (FCons a t wire tl)) with (N.max (N.max (if is_vec_u8 t then 1 else 0) (pb wire)) (fields_per_byte most tl))%N.
    change (fields_upfront most (FCons a t wire tl)) with (up wire + fields_upfront most tl)%N. set (w := N.max _ _).
    match type of H with match id with Some _ => match _ with Some _ => ?P | None => _ end | None => _ end =>
      match type of Hc with match id with Some _ => match _ with Some _ => ?Q | None => _ end | None => _ end => assert (HG : P -> Q ->
      within i w (up wire + fields_upfront most tl) (let* v := a_read_field c a (is_vec_u8 t) ctx acc (fun lim args => ard wire lim args) in
        let* vs := a_fields_read cu fuel c ctx tl None (acc ++ [v]) in ret (if a_temp a then vs else v :: vs))) end end.
    { intros (H0 & m & H1 & H2) [C1 C2]. eapply field_within; [exact IHw|subst w; lia|exact C1|exact H0|exact H1|].
      intros v Hv Ha. pose proof (H2 v Hv Ha) as H3. apply w_map.
      eapply w_mono; [|apply N.le_refl|apply (proj1 (proj2 (all_erase cu fuel)))|apply fields_move_any; exact H3|eapply IHtl; [exact H3|now apply C2]]. subst w. lia. }
    destruct id as [x|]; [|exact (HG H Hc)]. destruct (a_reader a) as [f|] eqn:Er; [exact (HG H Hc)|].
    destruct H as [Hx Hr]. eapply w_ext; [intros rk; apply bind_ret_l|]. apply w_map.
    eapply w_mono; [| |apply (proj1 (proj2 (all_erase cu fuel)))|apply fields_move_any; exact Hr|eapply IHtl; [exact Hr|exact Hc]]; [subst w|]; lia.
  - intros e ctx id k d w u i j _ _ _ _ Hd. cbn [a_variants_read]. destruct d; [exact Hd|apply w_fail].
  - intros v fs IHf tl IHt e ctx id k d w u i j Hw Hu [H1 H2] [C1 C2] Hd. rewrite a_read_variant. cbv zeta.
    change (variants_per_byte most (VCons v fs tl)) with (N.max (fields_per_byte most fs) (variants_per_byte most tl)) in Hw.
    change (variants_upfront most (VCons v fs tl)) with (N.max (fields_upfront most fs) (variants_upfront most tl)) in Hu.
    assert (HB : matches (v_sel v) id || v_default v = true ->
      within i w u (let* l := a_fields_read cu fuel (en_c e) ctx fs (if stores_id e v then Some id else None) [] in ret (VVar k l))).
    { intros H. apply w_map. eapply w_mono; [| |apply (proj1 (proj2 (all_erase cu fuel)))|apply fields_move_any; exact (H1 H)|eapply IHf; [exact (H1 H)|exact (C1 H)]]; lia. }
    destruct (matches (v_sel v) id) eqn:Em; [now apply HB|]. eapply IHt; [lia|lia|exact H2|exact C2|].
    destruct d as [m|]; [exact Hd|]. destruct (v_default v); [now apply HB|exact I].
Qed.
End Bound.

Lemma memory_from_reader cu fuel j most t s bit : flows cu false t None [] true j -> counts_up_to most t -> quiet s -> s_pos s <= length (s_data s) ->
  bit < 8 -> 8 * length (s_data s) + 8 < fuel ->
  (snd (a_from_reader cu fuel t s bit) <= per_byte most t * N.of_nat (length (s_data s) - s_pos s) + upfront most t)%N.
Proof.
  intros Hs Hm Hq Hpos Hb Hf. unfold a_from_reader.
  assert (H : within fuel true (per_byte most t) (upfront most t) (let* _ := if bit =? 0 then ret tt else free (skip_bits bit Msb0) in
     let* v := a_read_ty cu fuel t None [] in fun rk => (Ok (r_bits (fst rk), v), rk))).
  { assert (HV : within fuel true (per_byte most t) (upfront most t) (let* v := a_read_ty cu fuel t None [] in fun rk => (Ok (r_bits (fst rk), v), rk))).
    { intros r k x r' k' Hp Hf' E. unfold bind in E. destruct (a_read_ty cu fuel t None [] (r, k)) as [y [r1 k1]] eqn:E1.
      assert (B1 := proj1 (all_within fuel most any_value cu) t None [] true j Hs Hm r k y r1 k1 Hp Hf' E1).
      destruct y as [a|e| |]; apply pair_inj in E; destruct E as [<- E]; apply pair_inj in E; destruct E as [<- <-]; exact B1. }
    destruct (bit =? 0).
    - eapply w_ext; [intros rk; apply bind_ret_l|]. exact HV.
    - eapply w_free_bind; [apply m_runs, (runs_skip fuel true false bit Msb0); auto|]. intros _ _. exact HV. }
  match goal with |- context [(?m (reader_new s, 0%N))] => destruct (m (reader_new s, 0%N)) as [x [r' k']] eqn:E end. cbn [snd].
  pose proof (H (reader_new s) 0%N x r' k' (place_new true s Hq (fun _ => Hpos)) Hf E) as B.
  assert (BL : bits_left (reader_new s) = N.of_nat (8 * (length (s_data s) - s_pos s))) by (unfold bits_left; rewrite unread_len_avail by exact Hpos; reflexivity).
  rewrite BL in B. destruct x; lia.
Qed.
Lemma memory_from_bytes_bound cu fuel j most t input bit : flows cu false t None [] true j -> counts_up_to most t -> bit < 8 -> 8 * length input + 8 < fuel ->
  (memory_from_bytes cu fuel t input bit <= per_byte most t * N.of_nat (length input) + upfront most t)%N.
Proof.
  intros Hs Hm Hb Hf. unfold memory_from_bytes. pose proof (memory_from_reader cu fuel j most t (cursor input) bit Hs Hm) as H.
  cbn [cursor s_data s_pos] in H. rewrite Nat.sub_0_r in H. apply H; [|lia|exact Hb|exact Hf]. intros i. reflexivity.
Qed.
