(** Types whose numbers fit are read alike on a narrower target. *)
From Coq Require Import Lia ZifyBool ZifyNat ZifyN.
From Verif Require Import Base Spec Stream Reader Session Writer WSession Prims BitsFacts NFacts MonadFacts ReaderFacts ReaderOps SessionFacts FastRead CodecSpec CodecFacts Containers ContainerSpec ContainerFacts Safety PrimFacts ContainerProps Derive DeriveSpec DeriveSound SafeSpec SafeFacts DeriveSafe FlowSpec FlowFacts Width WidthSpec WidthFacts.
Local Hint Resolve known_refl known_false known_true known_and_l : core.

Section Same.
Variables (m : target) (cu : nat -> custom) (fuel : nat).
Hypothesis Hm : sensible m.
Local Notation moves := (moves fuel).
Local Notation typed := (typed_in any_value).

Definition sm {A} (i : bool) (x x' : RM A) : Prop := forall r, place i r -> 8 * length (s_data (r_s r)) + 8 < fuel -> x' r = x r.
Lemma s_refl {A} i (x : RM A) : sm i x x.
Proof. intros r _ _. reflexivity. Qed.
Lemma s_bind {A B} i k sk c (g : A -> Prop) (x x' : RM A) (f f' : A -> RM B) : moves sk c g x i k -> sm i x x' -> (forall a, g a -> sm k (f a) (f' a)) ->
  sm i (bind x f) (bind x' f').
Proof.
  intros M H F r Hp Hf. unfold bind. rewrite (H r Hp Hf). destruct (x r) as [[a|e| |] r'] eqn:E; try reflexivity.
  destruct (M r _ _ Hp Hf E) as (_ & _ & K). destruct (K a eq_refl) as (G & Pl & S & _). apply (F a G r' Pl). now rewrite S.
Qed.
Lemma s_bind_l {A B} i (x x' : RM A) (f : A -> RM B) : sm i x x' -> sm i (bind x f) (bind x' f).
Proof. intros H r Hp Hf. unfold bind. now rewrite (H r Hp Hf). Qed.
Lemma s_at {A} i i' (x x' : RM A) : only_if_known i i' -> sm i x x' -> sm i' x x'.
Proof. intros L H r Hp Hf. apply H; [exact (place_le _ _ _ L Hp)|exact Hf]. Qed.
Lemma s_ext {A} i (x y x' y' : RM A) : (forall r, x r = y r) -> (forall r, x' r = y' r) -> sm i y y' -> sm i x x'.
Proof. intros H1 H2 H r Hp Hf. rewrite H1, H2. now apply H. Qed.

(** ** Numbers *)

Lemma usize_within z : (z <= Z.of_N (n_usize_max m))%Z -> n_to_usize m z = to_usize z.
Proof.
  intros H. unfold n_to_usize, to_usize. pose proof (umax_le m Hm). destruct (z <? 0)%Z; [reflexivity|]. cbn [orb].
  replace (Z.of_N (n_usize_max m) <? z)%Z with false by lia. replace (Z.of_N usize_max <? z)%Z with false by lia. reflexivity.
Qed.
Lemma s_pad i z o : pad_within m z -> sm i (read_pad z o) (n_read_pad m z o).
Proof. intros H r _ _. destruct z as [z|]; [|reflexivity]. cbn [pad_within read_pad n_read_pad] in *. now rewrite usize_within. Qed.
Lemma limit_same l ctx fs off : match eval_limit l ctx fs off with Ok lim => number_within m lim | _ => True end -> n_eval_limit m l ctx fs off = eval_limit l ctx fs off.
Proof.
  intros H. destruct l as [f|f|p| |f]; cbn [eval_limit n_eval_limit] in *; try reflexivity; set (z := f ctx fs off) in *.
  all: assert (E : n_to_usize m z = to_usize z); [|now rewrite E].
  all: unfold to_usize in H |- *; unfold n_to_usize; destruct (z <? 0)%Z eqn:E1; [reflexivity|]; cbn [orb] in *; pose proof (umax_le m Hm);
    destruct (Z.of_N usize_max <? z)%Z eqn:E2; cbn [number_within] in H.
  all: try (replace (Z.of_N (n_usize_max m) <? z)%Z with true by lia; reflexivity).
  all: replace (Z.of_N (n_usize_max m) <? z)%Z with false by lia; reflexivity.
Qed.
Lemma s_exact i n : (8 * n <= n_usize_max m)%N -> sm i (read_exact_vec n) (n_read_exact_vec m n).
Proof.
  intros Hn r _ _. unfold read_exact_vec, n_read_exact_vec, bind. destruct (inner_seek _ r) as [[pos|? | |] r1]; try reflexivity.
  destruct (inner_seek _ r1) as [[en|? | |] r2]; try reflexivity. destruct (inner_seek _ r2) as [[?|? | |] r3]; try reflexivity.
  destruct (en <? pos); [reflexivity|]. pose proof (umax_le m Hm). replace (n_usize_max m <? n * 8)%N with false by lia. replace (usize_max <? n * 8)%N with false by lia.
  assert (n <= n_isize_max m)%N; [|replace (n_isize_max m <? n)%N with false by lia; rewrite Bool.andb_false_r; reflexivity].
  unfold n_usize_max, n_isize_max in *. destruct (N.eq_dec (tg_bits m) 0) as [E|E]; [rewrite E in *; change (2 ^ 0 - 1)%N with 0%N in Hn; lia|].
  replace (tg_bits m) with (N.succ (tg_bits m - 1)) in Hn at 1 by lia. rewrite N.pow_succ_r' in Hn. lia.
Qed.

(** ** Loops *)

Lemma s_loop {A} i sk c (g : A -> Prop) (e e' : RM A) stop start : moves sk c g e i i -> sm i e e' -> forall f acc, sm i (vec_loop f e stop start acc) (vec_loop f e' stop start acc).
Proof.
  intros M H. induction f as [|f IH]; intros acc; cbn [vec_loop]; [apply s_refl|]. eapply s_bind; [exact M|exact H|]. intros v _ r Hp Hf. cbv beta.
  destruct (r_bits r <? start); [reflexivity|]. destruct (stop _ _); [reflexivity|]. now apply IH.
Qed.
Lemma s_end {A} (e e' : RM A) sk c (g : A -> Prop) j : moves sk c g e false j -> sm false e e' -> forall f acc i, sm i (end_loop f e acc) (end_loop f e' acc).
Proof.
  intros M H. induction f as [|f IH]; intros acc i; cbn [end_loop]; [apply s_refl|]. intros r Hp Hf.
  pose proof (place_wf i r Hp) as Hw. pose proof (place_quiet i r Hp) as Hq. destruct (r_end_spec r Hw Hq) as (r0 & E0 & A0 & U0). rewrite E0. destruct (_ =? 0); [reflexivity|].
  destruct (place_adv false r r0 0 (place_le i false r (known_false i) Hp) A0) as (P0 & S0 & _); [now rewrite U0|discriminate|].
  refine (s_bind false j sk c g e e' _ _ M H _ r0 P0 _); [|now rewrite S0]. intros v _. apply IH.
Qed.
Lemma s_pred {A} i sk c (g : A -> Prop) f size cap (e e' : RM A) stop : moves sk c g e i i -> sm i e e' ->
  match cap with Some n => (n * tg_size m size <= n_isize_max m)%N | None => True end ->
  sm i (vec_with_predicate f size cap e stop) (n_vec_with_predicate m f size cap e' stop).
Proof.
  intros M H Hc. unfold vec_with_predicate, n_vec_with_predicate. rewrite (size_0 m Hm). destruct (size =? 0)%N; [apply s_refl|].
  assert (L : sm i (fun r => vec_loop f e stop (r_bits r) [] r) (fun r => vec_loop f e' stop (r_bits r) [] r)).
  { intros r. exact (s_loop i sk c g e e' stop (r_bits r) M H f [] r). }
  destruct cap as [n|]; [|exact L]. assert (E : (n_isize_max m <? n * tg_size m size)%N = false) by lia. rewrite E, (capacity m Hm _ _ E). exact L.
Qed.
Lemma s_vec {A} i sk c (g : A -> Prop) f size (e e' : RM A) l : l <> LEnd -> moves sk c g e i i -> sm i e e' ->
  match l with LCount n => (n * tg_size m size <= n_isize_max m)%N | LBytes n => (8 * n <= n_usize_max m)%N | _ => True end ->
  sm i (vec_read f size e l) (n_vec_read m f size e' l).
Proof.
  intros Hl M H Hw. destruct l as [n|q|n|n|]; cbn [vec_read n_vec_read]; [| | | |contradiction].
  - destruct (n =? 0)%N; [apply s_refl|]. exact (s_pred i sk c g _ size (Some n) e e' _ M H Hw).
  - exact (s_pred i sk c g _ size None e e' _ M H I).
  - pose proof (umax_le m Hm). replace (n_usize_max m <? n * 8)%N with false by lia. replace (usize_max <? n * 8)%N with false by lia.
    destruct (n * 8 =? 0)%N; [apply s_refl|]. exact (s_pred i sk c g _ size None e e' _ M H I).
  - destruct (n =? 0)%N; [apply s_refl|]. exact (s_pred i sk c g _ size None e e' _ M H I).
Qed.
Lemma s_array {A} i sk c (g : A -> Prop) (e e' : RM A) n : moves sk c g e i i -> sm i e e' -> sm i (read_array n e) (read_array n e').
Proof.
  intros M H. induction n as [|n IH]; cbn [read_array]; [apply s_refl|]. eapply s_bind; [exact M|exact H|]. intros v _. now apply s_bind_l.
Qed.
Lemma s_cstring i : sm i (read_cstring fuel) (n_read_cstring m fuel).
Proof. apply s_bind_l. apply (s_at false); [auto|]. eapply s_vec; [discriminate|apply (m_byte fuel false false true)|apply s_refl|exact I]. Qed.
Lemma s_cstring_bytes i n : (n <= n_isize_max m)%N -> sm i (read_cstring_bytes n) (n_read_cstring_bytes m n).
Proof.
  intros H. apply s_bind_l. apply (s_at false); [auto|]. eapply s_vec; [discriminate|apply (m_byte fuel false false true)|apply s_refl|].
  assert (tg_size m 1 <= 1)%N by (destruct Hm as [_ Hs]; apply Hs). nia.
Qed.

(** ** Declarations *)

Definition ty_same (t : ty) : Prop := forall sk lim args i j, flows cu sk t lim args i j -> within m t lim args ->
  sm i (read_ty cu fuel t lim args) (n_read_ty m cu fuel t lim args).
Definition fields_same (fs : fields) : Prop := forall sk c ctx id acc i j, fields_flow_in any_value cu sk c ctx fs id acc i j -> fields_within m c ctx fs id acc ->
  sm i (fields_read cu fuel c ctx fs id acc) (n_fields_read m cu fuel c ctx fs id acc).
Definition variants_same (vs : variants) : Prop := forall sk e ctx id k d d' i j, variants_flow_in any_value cu sk e ctx id vs i j -> variants_within m e ctx id vs ->
  match d, d' with Some x, Some x' => sm i x x' | None, None => True | _, _ => False end ->
  sm i (variants_read cu fuel e ctx id vs k d) (n_variants_read m cu fuel e ctx id vs k d').

Lemma tokens_same sk c a t wire ctx acc off i j : ty_same wire ->
  field_flows_in any_value sk c a t wire ctx acc i j (fun lim args => flows cu sk wire lim args i j) ->
  (forall off, takes_default a ctx acc off = false -> a_reader a = None ->
     match a_limit a with
     | None => within m wire None (field_args c a ctx acc off)
     | Some l =>
         match eval_limit l ctx acc off with
         | Ok lim => number_within m lim /\
             (if is_vec_u8 t && match lim with LCount _ => true | _ => false end
              then match lim with LCount n => (8 * n <= n_usize_max m)%N | _ => True end
              else within m wire (Some lim) (field_args c a ctx acc off))
         | _ => True
         end
     end) ->
  sm i (field_read_tokens a ctx acc off
       (field_read_normal a ctx acc off (field_read_func c a (is_vec_u8 t) ctx acc off (fun lim args => read_ty cu fuel wire lim args))))
    (field_read_tokens a ctx acc off
       (field_read_normal a ctx acc off (n_field_read_func m c a (is_vec_u8 t) ctx acc off (fun lim args => n_read_ty m cu fuel wire lim args)))).
Proof.
  intros IH (_ & Hn) Hw.
  assert (HN : takes_default a ctx acc off = false ->
    sm i (field_read_normal a ctx acc off (field_read_func c a (is_vec_u8 t) ctx acc off (fun lim args => read_ty cu fuel wire lim args)))
      (field_read_normal a ctx acc off (n_field_read_func m c a (is_vec_u8 t) ctx acc off (fun lim args => n_read_ty m cu fuel wire lim args)))).
  { intros HF. destruct (Hn off HF) as [Hr _]. specialize (Hw off HF). unfold field_read_normal. apply s_bind_l.
    unfold field_read_func, n_field_read_func. destruct (a_reader a) as [f|]; [apply s_refl|]. specialize (Hw eq_refl). cbv zeta.
    destruct (a_limit a) as [l|]; [|now apply (IH sk _ _ i j)].
    rewrite limit_same by (destruct (eval_limit l ctx acc off); [apply Hw|exact I..]).
    destruct (eval_limit l ctx acc off) as [lim|e| |]; try apply s_refl. destruct Hw as [_ Hw].
    eapply s_ext; [intros r; unfold lift; apply (bind_ret_l lim _ r)|intros r; unfold lift; apply (bind_ret_l lim _ r)|].
    destruct (is_vec_u8 t); cbn [andb] in Hw; destruct lim; try (now apply (IH sk _ _ i j)). apply s_bind_l. now apply s_exact. }
  unfold takes_default in HN. unfold field_read_tokens.
  destruct (a_skip a) as [[| |]|], (a_cond a) as [f|]; try destruct (f ctx acc off); auto using @s_refl.
Qed.
Lemma field_same {B} sk c a t wire ctx acc i j (f f' : value -> RM B) : ty_same wire ->
  let s := option_map (fun f => f ctx acc) (a_seek a) in
  let i1 := (i && seek_in s || nonempty (a_magic a)) && pad_in (eval0 (a_pad_before a) ctx acc) in
  seek_allowed sk s -> field_flows_in any_value sk c a t wire ctx acc i1 j (fun lim args => flows cu sk wire lim args i1 j) ->
  pad_within m (eval0 (a_pad_before a) ctx acc) ->
  (forall off, takes_default a ctx acc off = false -> a_reader a = None ->
     match a_limit a with
     | None => within m wire None (field_args c a ctx acc off)
     | Some l =>
         match eval_limit l ctx acc off with
         | Ok lim => number_within m lim /\
             (if is_vec_u8 t && match lim with LCount _ => true | _ => false end
              then match lim with LCount n => (8 * n <= n_usize_max m)%N | _ => True end
              else within m wire (Some lim) (field_args c a ctx acc off))
         | _ => True
         end
     end) ->
  (forall v, typed t v -> asserted a ctx acc v -> pad_within m (eval0 (a_pad_after a) ctx (acc ++ [v])) /\
     sm (j && pad_in (eval0 (a_pad_after a) ctx (acc ++ [v]))) (f v) (f' v)) ->
  sm i (bind (read_field c a (is_vec_u8 t) ctx acc (fun lim args => read_ty cu fuel wire lim args)) f)
    (bind (n_read_field m c a (is_vec_u8 t) ctx acc (fun lim args => n_read_ty m cu fuel wire lim args)) f').
Proof.
  intros IH s i1 Hs HF Hp Hw Hg. unfold read_field, n_read_field.
  eapply s_ext; [intros r; apply bind_assoc|intros r; apply bind_assoc|]. eapply s_bind; [eapply m_seek; exact Hs|apply s_refl|]. intros _ _.
  eapply s_ext; [intros r; apply bind_assoc|intros r; apply bind_assoc|]. eapply s_bind; [apply (m_magic fuel _ sk)|apply s_refl|]. intros _ _.
  eapply s_ext; [intros r; apply bind_assoc|intros r; apply bind_assoc|]. eapply s_bind; [apply (m_pad fuel _ sk)|now apply s_pad|]. intros _ _. fold s. fold i1.
  intros r Hpl Hfu. unfold bind at 1. unfold bind at 3. cbv zeta. revert r Hpl Hfu.
  assert (HO : forall off, sm i1 (bind (
      let* v := field_read_tokens a ctx acc off
                  (field_read_normal a ctx acc off (field_read_func c a (is_vec_u8 t) ctx acc off (fun lim args => read_ty cu fuel wire lim args))) in
      let* _ := asserts a ctx acc off v in
      let* _ := read_pad (eval0 (a_pad_after a) ctx (acc ++ [v])) (field_order c a ctx acc) in ret v) f) (bind (
      let* v := field_read_tokens a ctx acc off
                  (field_read_normal a ctx acc off (n_field_read_func m c a (is_vec_u8 t) ctx acc off (fun lim args => n_read_ty m cu fuel wire lim args))) in
      let* _ := asserts a ctx acc off v in
      let* _ := n_read_pad m (eval0 (a_pad_after a) ctx (acc ++ [v])) (field_order c a ctx acc) in ret v) f')).
  { intros off.
    eapply s_ext; [intros r; apply bind_assoc|intros r; apply bind_assoc|].
    eapply s_bind with (g := typed t); [apply (tokens_move fuel any_value cu sk c a t wire ctx acc off i1 j); [apply all_move|exact HF]|now apply (tokens_same sk c a t wire ctx acc off i1 j)|]. intros v Hv.
    eapply s_ext; [intros r; apply bind_assoc|intros r; apply bind_assoc|]. eapply s_bind; [apply (m_asserts fuel j j sk); auto|apply s_refl|]. intros ? Has.
    destruct (Hg v Hv Has) as [Hq Hk].
    eapply s_ext; [intros r; apply bind_assoc|intros r; apply bind_assoc|]. eapply s_bind; [apply (m_pad fuel _ sk)|now apply s_pad|]. intros _ _.
    eapply s_ext; [intros r; apply bind_ret_l|intros r; apply bind_ret_l|]. exact Hk. }
  intros r Hpl Hfu. exact (HO (r_bits r) r Hpl Hfu).
Qed.

Theorem all_same : (forall t, ty_same t) /\ (forall fs, fields_same fs) /\ (forall vs, variants_same vs).
Proof.
  apply types_ind.
  - intros p sk lim args i j _ _. apply s_refl.
  - intros sk lim args i j _ _. apply s_refl.
  - intros p sk lim args i j _ _. apply s_refl.
  - intros sk lim args i j _ _. apply s_refl.
  - intros sk lim args i j (-> & [->|(n & -> & _)]) Hw; cbn [read_ty n_read_ty within] in *; apply s_bind_l; [apply s_cstring|now apply s_cstring_bytes].
  - intros t IH sk lim args i j H Hw. cbn [read_ty n_read_ty flows_in within] in *. apply s_bind_l. now apply (IH sk _ _ i j).
  - intros a IHa b IHb sk lim args i j (k & Ha & Hb) [Wa Wb]. cbn [read_ty n_read_ty].
    eapply s_bind; [apply (proj1 (all_move fuel any_value cu) a sk lim args i k Ha)|now apply (IHa sk _ _ i k)|]. intros x _. apply s_bind_l. now apply (IHb sk _ _ k j).
  - intros n t IH sk lim args i j H Hw. cbn [read_ty n_read_ty flows_in within] in *. destruct n as [|n]; [apply s_refl|]. destruct H as (k & Hk & H1 & _).
    apply s_bind_l. apply (s_at k); [exact Hk|]. eapply s_array; [apply (proj1 (all_move fuel any_value cu) t sk lim args k k H1)|now apply (IH sk _ _ k k)].
  - intros pl size t IH sk lim args i j (l & -> & Hf & Hl & Ht) [Wl Wt]. cbn [read_ty n_read_ty]. apply s_bind_l. destruct l as [n|q|n|n|].
    5:{ destruct Ht as (k & Ht & _ & _). cbn [vec_read n_vec_read]. unfold vec_to_end, n_vec_to_end. rewrite (size_0 m Hm). destruct (_ =? 0)%N; [apply s_refl|].
        eapply s_end; [apply (proj1 (all_move fuel any_value cu) t false None args false k Ht)|now apply (IH false _ _ false k)]. }
    all: destruct Ht as (k & Hk & Ht & _); apply (s_at k); [exact Hk|];
      (eapply s_vec; [discriminate|apply (proj1 (all_move fuel any_value cu) t false None args k k Ht)|now apply (IH false _ _ k k)|exact Wl]).
  - intros c fs IH sk lim args i j [Hs Hf] Hw. rewrite read_struct, nq_struct. eapply s_bind; [apply (m_seek fuel i sk); exact Hs|apply s_refl|]. intros _ _.
    eapply s_bind; [apply (m_magic fuel _ sk)|apply s_refl|]. intros _ _. apply s_bind_l. exact (IH sk c _ None [] _ j Hf Hw).
  - intros e idt IHi vs IHv sk lim args i j H Hw. rewrite read_enum, nq_enum. cbn [flows_in within] in *.
    eapply s_bind; [apply (m_magic fuel _ sk)|apply s_refl|]. intros _ _. destruct (en_id e) as [f|].
    + eapply s_ext; [intros r; apply bind_ret_l|intros r; apply bind_ret_l|]. exact (IHv sk e _ _ 0 None None _ j H Hw I).
    + destruct H as (k & Hi & Hv). destruct Hw as [Wi Wv].
      eapply s_bind; [apply (proj1 (all_move fuel any_value cu) idt sk None _ _ k Hi)|exact (IHi sk _ _ _ k Hi Wi)|]. intros id Hid.
      exact (IHv sk e _ _ 0 None None _ j (Hv id Hid) (Wv id Hid) I).
  - intros k sk lim args i j _ _. apply s_refl.
  - intros sk c ctx id acc i j _ _. apply s_refl.
  - intros a t IHt wire IHw tl IHtl sk c ctx id acc i j H Hw. rewrite read_cons, nq_cons. cbn [fields_flow_in fields_within] in *.
    match type of H with match id with Some _ => match _ with Some _ => ?P | None => _ end | None => _ end =>
      match type of Hw with match id with Some _ => match _ with Some _ => ?Q | None => _ end | None => _ end => assert (HG : P -> Q ->
        sm i (let* v := read_field c a (is_vec_u8 t) ctx acc (fun lim args => read_ty cu fuel wire lim args) in
              let* vs := fields_read cu fuel c ctx tl None (acc ++ [v]) in ret (if a_temp a then vs else v :: vs))
             (let* v := n_read_field m c a (is_vec_u8 t) ctx acc (fun lim args => n_read_ty m cu fuel wire lim args) in
              let* vs := n_fields_read m cu fuel c ctx tl None (acc ++ [v]) in ret (if a_temp a then vs else v :: vs))) end end.
    { intros (H1 & k & H2 & H3) (W1 & W2 & W3). eapply (field_same sk); [exact IHw|exact H1|exact H2|exact W1|exact W2|]. intros v Hv Ha.
      destruct (W3 v Hv Ha) as [Wp Wt]. split; [exact Wp|]. apply s_bind_l. exact (IHtl sk c ctx None _ _ j (H3 v Hv Ha) Wt). }
    destruct id as [x|]; [|exact (HG H Hw)]. destruct (a_reader a) as [f|]; [exact (HG H Hw)|].
    destruct H as [Hx Hr]. eapply s_ext; [intros r; apply bind_ret_l|intros r; apply bind_ret_l|]. apply s_bind_l. exact (IHtl sk c ctx None _ _ j Hr Hw).
  - intros sk e ctx id k d d' i j _ _ Hd. cbn [variants_read n_variants_read]. destruct d, d'; try contradiction; [exact Hd|apply s_refl].
  - intros v fs IHf tl IHt sk e ctx id k d d' i j [H1 H2] [W1 W2] Hd. rewrite read_variant, nq_variant. cbv zeta.
    assert (HB : matches (v_sel v) id || v_default v = true ->
      sm i (let* l := fields_read cu fuel (en_c e) ctx fs (if stores_id e v then Some id else None) [] in ret (VVar k l))
           (let* l := n_fields_read m cu fuel (en_c e) ctx fs (if stores_id e v then Some id else None) [] in ret (VVar k l))).
    { intros H. apply s_bind_l. exact (IHf sk _ _ _ _ i j (H1 H) (W1 H)). }
    destruct (matches (v_sel v) id) eqn:Em; [now apply HB|]. apply (IHt sk e ctx id _ _ _ i j H2 W2).
    destruct d, d'; try contradiction; [exact Hd|]. destruct (v_default v); [now apply HB|exact I].
Qed.
End Same.

(** ** The API *)

Lemma same_from_reader m cu fuel t s bit : sensible m -> flow_type cu t -> within m t None [] -> (forall j, s_fault s j = None) ->
  s_pos s <= length (s_data s) -> bit < 8 -> 8 * length (s_data s) + 8 < fuel -> n_from_reader m cu fuel t s bit = from_reader cu fuel t s bit.
Proof.
  intros Hm [j Ht] Hw Hq Hs Hb Hf. unfold n_from_reader, from_reader.
  assert (E : sm fuel true (let* _ := if bit =? 0 then ret tt else skip_bits bit Msb0 in let* v := read_ty cu fuel t None [] in fun r => (Ok (r_bits r, v), r))
    (let* _ := if bit =? 0 then ret tt else skip_bits bit Msb0 in let* v := n_read_ty m cu fuel t None [] in fun r => (Ok (r_bits r, v), r))).
  { eapply s_bind with (g := fun _ => True) (k := true) (sk := true); [|apply s_refl|].
    - apply m_runs. destruct (bit =? 0); [now apply runs_ret|]. apply runs_skip. auto.
    - intros _ _. apply s_bind_l. exact (proj1 (all_same m cu fuel Hm) t true None [] true j Ht Hw). }
  now rewrite (E (reader_new s) (place_new true s Hq (fun _ => Hs)) Hf).
Qed.
Lemma same_from_bytes m cu fuel t input bit : sensible m -> flow_type cu t -> within m t None [] -> bit < 8 -> 8 * length input + 8 < fuel ->
  n_from_bytes m cu fuel t input bit = from_bytes cu fuel t input bit /\ n_try_from m cu fuel t input = try_from cu fuel t input.
Proof.
  intros Hm Ht Hw Hb Hf. unfold n_from_bytes, from_bytes, n_try_from, try_from.
  rewrite !(same_from_reader m cu fuel t (cursor input)); auto; try exact (Nat.le_0_l _). lia.
Qed.
Lemma narrow_safe m cu fuel t input bit : sensible m -> flow_type cu t -> within m t None [] -> bit < 8 -> 8 * length input + 8 < fuel ->
  let x := n_from_bytes m cu fuel t input bit in x <> Panic /\ x <> Diverge /\ forall rest v, x = Ok (rest, v) -> typed t v.
Proof. intros Hm Ht Hw Hb Hf x. unfold x. rewrite (proj1 (same_from_bytes m cu fuel t input bit Hm Ht Hw Hb Hf)). now apply flow_from_bytes. Qed.
