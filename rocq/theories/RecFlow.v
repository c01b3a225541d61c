(** Recursive types and the places of C49, C53. *)
From Coq Require Import Lia.
From Verif Require Import Base Spec Stream Reader Session Writer WSession Prims MonadFacts ReaderFacts ReaderOps Containers ContainerSpec Derive DeriveSpec DeriveSound SafeSpec SafeFacts DeriveSafe FlowSpec FlowFacts Rec RecSpec RecFacts RecProps.

Section Rec.
Variable defs : nat -> ty.
Section Flow.
Variables (fuel N : nat) (named : nat -> value -> Prop) (cu cu' : nat -> custom).
Hypothesis Hc : forall k args r, small fuel r -> unread_len (seen r) < N -> cu_read (cu k) args r = cu_read (cu' k) args r.
Local Notation same i ate := (RecProps.same fuel i N ate).
Local Notation moves := (moves fuel false).
Local Notation typed := (typed_in named).

Lemma f_le {A} i i' ate (m m' : RM A) : only_if_known i i' -> same i ate m m' -> same i' ate m m'.
Proof. intros L H r Hp Hs Hu. apply H; [exact (place_le _ _ _ L Hp)|exact Hs|exact Hu]. Qed.
Lemma f_weak {A} i ate ate' (m m' : RM A) : same i ate m m' -> (ate = true -> ate' = true) -> same i ate' m m'.
Proof. intros H Ha r Hp Hs Hu. apply H; [exact Hp|exact Hs|]. destruct ate; [rewrite Ha in Hu by reflexivity; exact Hu|]. destruct ate'; lia. Qed.
Lemma f_bind {A B} i j ate c (g : A -> Prop) (m m' : RM A) (f f' : A -> RM B) : same i ate m m' -> moves c g m' i j ->
  (forall a, g a -> same j (ate || c) (f a) (f' a)) -> same i ate (bind m f) (bind m' f').
Proof.
  intros Hm Hr Hf r Hp Hs Hu. unfold bind. rewrite (Hm r Hp Hs Hu). destruct (m' r) as [x r1] eqn:E.
  destruct (Hr r x r1 Hp Hs E) as (_ & _ & K). destruct x as [a|e| |]; try reflexivity.
  destruct (K a eq_refl) as (G & P & S & M). specialize (M eq_refl). apply (Hf a G r1 P); [unfold small in *; now rewrite S|].
  destruct ate, c; cbn [orb]; lia.
Qed.
Lemma f_bind0 {A B} i j ate (g : A -> Prop) (m : RM A) (f f' : A -> RM B) : moves false g m i j ->
  (forall a, g a -> same j ate (f a) (f' a)) -> same i ate (bind m f) (bind m f').
Proof. intros Hm Hf. eapply f_bind; [apply same_refl|exact Hm|]. intros a Ha. rewrite Bool.orb_false_r. now apply Hf. Qed.
Lemma f_ext {A} i ate (m1 m2 m m' : RM A) : (forall r, m1 r = m r) -> (forall r, m2 r = m' r) -> same i ate m m' -> same i ate m1 m2.
Proof. intros E1 E2 H r Hp Hs Hu. rewrite E1, E2. now apply H. Qed.

Definition ty_fl (t : ty) : Prop := forall ate lim args i j, flows_in named cu' false t lim args i j -> guarded ate t = true ->
  same i ate (read_ty cu fuel t lim args) (read_ty cu' fuel t lim args).
Definition fields_fl (fs : fields) : Prop := forall ate c ctx acc i j, fields_flow_in named cu' false c ctx fs None acc i j -> guarded_fields ate fs = true ->
  same i ate (fields_read cu fuel c ctx fs None acc) (fields_read cu' fuel c ctx fs None acc).
Definition fields_fl' (fs : fields) : Prop := fields_fl fs /\ forall ate c ctx x i j,
  fields_flow_in named cu' false c ctx fs (Some x) [] i j -> match fs with FNil => true | FCons _ _ _ tl => guarded_fields ate tl end = true ->
  same i ate (fields_read cu fuel c ctx fs (Some x) []) (fields_read cu' fuel c ctx fs (Some x) []).
Definition variants_fl (vs : variants) : Prop := forall ate e ctx id k d d' i j, variants_flow_in named cu' false e ctx id vs i j ->
  guarded_variants ate e vs = true -> match d, d' with Some m, Some m' => same i ate m m' | None, None => True | _, _ => False end ->
  same i ate (variants_read cu fuel e ctx id vs k d) (variants_read cu' fuel e ctx id vs k d').

Lemma tokens_fl ate c a t wire ctx acc off i j : ty_fl wire ->
  field_flows_in named false c a t wire ctx acc i j (fun lim args => flows_in named cu' false wire lim args i j) ->
  (a_reader a = None -> guarded ate wire = true) -> same i ate
    (field_read_tokens a ctx acc off (field_read_normal a ctx acc off (field_read_func c a (is_vec_u8 t) ctx acc off (fun lim args => read_ty cu fuel wire lim args))))
    (field_read_tokens a ctx acc off (field_read_normal a ctx acc off (field_read_func c a (is_vec_u8 t) ctx acc off (fun lim args => read_ty cu' fuel wire lim args)))).
Proof.
  intros IH (Hd & Hn) HG.
  assert (HN : takes_default a ctx acc off = false -> same i ate
    (field_read_normal a ctx acc off (field_read_func c a (is_vec_u8 t) ctx acc off (fun lim args => read_ty cu fuel wire lim args)))
    (field_read_normal a ctx acc off (field_read_func c a (is_vec_u8 t) ctx acc off (fun lim args => read_ty cu' fuel wire lim args)))).
  { intros HF. destruct (Hn off HF) as [Hr _]. unfold field_read_normal.
    assert (HX : same i ate (field_read_func c a (is_vec_u8 t) ctx acc off (fun lim args => read_ty cu fuel wire lim args))
                           (field_read_func c a (is_vec_u8 t) ctx acc off (fun lim args => read_ty cu' fuel wire lim args))).
    { unfold field_read_func. destruct (a_reader a) as [f|]; [apply same_refl|]. specialize (HG eq_refl).
      destruct (a_limit a) as [l|]; [|now apply (IH _ _ _ i j)]. destruct (eval_limit l ctx acc off) as [lim|e| |] eqn:El; try (intros r _ _ _; reflexivity).
      intros r Hp Hsm Hu. unfold lift, bind. cbn.
      try rewrite El in Hr. clear - Hr IH HG Hp Hsm Hu. destruct lim; try (destruct (is_vec_u8 t); exact (IH ate _ _ i j Hr HG r Hp Hsm Hu)).
      destruct (is_vec_u8 t); [reflexivity|exact (IH ate _ _ i j Hr HG r Hp Hsm Hu)]. }
    intros r Hp Hsm Hu. unfold bind. now rewrite (HX r Hp Hsm Hu). }
  unfold takes_default in HN. unfold field_read_tokens. destruct (a_skip a) as [[| |]|], (a_cond a) as [f|]; try apply same_refl; try now apply HN.
  - destruct (f ctx acc off); [apply same_refl|now apply HN].
  - destruct (f ctx acc off); [apply same_refl|now apply HN].
  - destruct (f ctx acc off); [now apply HN|apply same_refl].
Qed.
Lemma field_fl {B} ate c a t wire ctx acc i m (f f' : value -> RM B) : ty_fl wire ->
  let s := option_map (fun f => f ctx acc) (a_seek a) in
  let i1 := (i && seek_in s || nonempty (a_magic a)) && pad_in (eval0 (a_pad_before a) ctx acc) in
  seek_allowed false s -> field_flows_in named false c a t wire ctx acc i1 m (fun lim args => flows_in named cu' false wire lim args i1 m) ->
  (a_reader a = None -> guarded (ate || nonempty (a_magic a)) wire = true) ->
  (forall v, typed t v -> asserted a ctx acc v ->
     same (m && pad_in (eval0 (a_pad_after a) ctx (acc ++ [v]))) (ate || nonempty (a_magic a) || (always_read a && negb (is_vec_u8 t) && consumes wire)) (f v) (f' v)) ->
  same i ate (bind (read_field c a (is_vec_u8 t) ctx acc (fun lim args => read_ty cu fuel wire lim args)) f)
             (bind (read_field c a (is_vec_u8 t) ctx acc (fun lim args => read_ty cu' fuel wire lim args)) f').
Proof.
  intros IH s i1 Hs HF HG Hf. unfold read_field.
  eapply f_ext; [intros r; apply bind_assoc|intros r; apply bind_assoc|]. eapply f_bind0; [now apply m_seek|]. intros _ _.
  eapply f_ext; [intros r; apply bind_assoc|intros r; apply bind_assoc|]. eapply f_bind; [apply same_refl|apply m_magic|]. intros _ _.
  eapply f_ext; [intros r; apply bind_assoc|intros r; apply bind_assoc|]. eapply f_bind0; [apply m_pad|]. intros _ _. fold s. fold i1. set (ate' := ate || nonempty (a_magic a)) in *.
  apply (same_at fuel i1 N ate'
    (fun off => bind (let* v := field_read_tokens a ctx acc off
                (field_read_normal a ctx acc off (field_read_func c a (is_vec_u8 t) ctx acc off (fun lim args => read_ty cu fuel wire lim args))) in
    let* _ := asserts a ctx acc off v in
    let* _ := read_pad (eval0 (a_pad_after a) ctx (acc ++ [v])) (field_order c a ctx acc) in
    ret v) f)
    (fun off => bind (let* v := field_read_tokens a ctx acc off
                (field_read_normal a ctx acc off (field_read_func c a (is_vec_u8 t) ctx acc off (fun lim args => read_ty cu' fuel wire lim args))) in
    let* _ := asserts a ctx acc off v in
    let* _ := read_pad (eval0 (a_pad_after a) ctx (acc ++ [v])) (field_order c a ctx acc) in
    ret v) f')). intros off.
  eapply f_ext; [intros r; apply bind_assoc|intros r; apply bind_assoc|].
  eapply f_bind with (g := typed t); [eapply tokens_fl; [exact IH|exact HF|exact HG]|apply tokens_move; [apply all_move|exact HF]|]. intros v Hv.
  eapply f_ext; [intros r; apply bind_assoc|intros r; apply bind_assoc|]. eapply f_bind0; [apply (m_asserts fuel m m); auto; apply known_refl|]. intros ? Has.
  eapply f_ext; [intros r; apply bind_assoc|intros r; apply bind_assoc|]. eapply f_bind0; [apply m_pad|]. intros _ _.
  eapply f_ext; [intros r; apply bind_ret_l|intros r; apply bind_ret_l|]. now apply Hf.
Qed.
Theorem all_fl : (forall t, ty_fl t) /\ (forall fs, fields_fl' fs) /\ (forall vs, variants_fl vs).
Proof.
  destruct (all_move fuel named cu') as (RT & RF & RV).
  apply types_ind; try (intros; intros ate lim args i j; intros; apply same_refl).
  - intros t IH ate lim args i j Hs Hg. cbn [read_ty]. apply same_map. now apply (IH _ _ _ i j).
  - intros a IHa b IHb ate lim args i j (m & Ha & Hb) Hg. cbn [guarded] in Hg. apply andb_prop in Hg. destruct Hg as [G1 G2]. cbn [read_ty].
    eapply f_bind; [now apply (IHa _ _ _ i m)|apply RT; exact Ha|]. intros x _. apply same_map. now apply (IHb _ _ _ m j).
  - intros n t IH ate lim args i j Hs Hg. cbn [read_ty flows_in] in *. apply same_map. destruct n as [|n]; [apply same_refl|]. destruct Hs as (m & Hm & H1 & H2).
    eapply f_le; [exact Hm|]. eapply (same_array defs fuel m N named cu cu' Hc); [now apply (IH _ _ _ m m)|apply (RT t false lim args m m H1)].
  - intros pl size t IH ate lim args i j (l & -> & Hf & Hl & Ht) Hg. cbn [read_ty]. apply same_map. destruct l as [n|n|n|p|].
    5:{ destruct Ht as (m & Ht & Hi & Hm). eapply f_le; [apply known_false|]. eapply (same_vec defs fuel _ N named cu cu' Hc); [discriminate|now apply (IH _ _ _ false m)|].
        eapply m_at; [exact (RT t false None args false m Ht)|apply known_refl|apply known_false]. }
    all: destruct Ht as (m & Hm & Ht & Hj); (eapply f_le; [exact Hm|]); (eapply (same_vec defs fuel _ N named cu cu' Hc); [discriminate|now apply (IH _ _ _ m m)|exact (RT t false None args m m Ht)]).
  - intros c fs [IH _] ate lim args i j [Hs Hf] Hg. rewrite !read_struct. cbn [guarded] in Hg.
    eapply f_bind0; [now apply m_seek|]. intros _ _.
    eapply f_bind; [apply same_refl|apply m_magic|]. intros _ _. apply same_map. now apply (IH _ _ _ _ _ j).
  - intros e idt IHi vs IHv ate lim args i j H Hg. rewrite !read_enum. cbn [flows_in guarded] in *.
    eapply f_bind; [apply same_refl|apply m_magic|]. intros _ _. destruct (en_id e) as [f|].
    + eapply f_ext; [intros r; apply bind_ret_l|intros r; apply bind_ret_l|]. exact (IHv _ e _ _ 0 None None _ j H Hg I).
    + destruct H as (m & Hi & Hv). apply andb_prop in Hg. destruct Hg as [G1 G2].
      eapply f_bind; [now apply (IHi _ _ _ _ m)|apply RT; exact Hi|]. intros id Hid. exact (IHv _ e _ _ 0 None None m j (Hv id Hid) G2 I).
  - intros k ate lim args i j [-> _] Hg. cbn [guarded] in Hg. subst ate. cbn [read_ty]. intros r Hp Hs Hu. apply Hc; [exact Hs|lia].
  - split; [intros ate c ctx acc i j _ _; apply same_refl|intros ate c ctx x i j _ _; apply same_refl].
  - intros a t IHt wire IHw tl [IHtl _]. split.
    + intros ate c ctx acc i j H Hg. rewrite !read_cons. cbn [guarded_fields fields_flow_in] in *. apply andb_prop in Hg. destruct Hg as [G1 G2]. destruct H as (H1 & m & H2 & H3).
      eapply field_fl; [exact IHw|exact H1|exact H2|intros _; exact G1|]. intros v Hv Ha. apply same_map.
      apply (IHtl _ _ _ _ _ j); [now apply H3|exact G2].
    + intros ate c ctx x i j H Hg. rewrite !read_cons. cbn [fields_flow_in] in H. destruct (a_reader a) as [f|] eqn:Er.
      * destruct H as (H1 & m & H2 & H3). eapply field_fl; [exact IHw|exact H1|exact H2|congruence|].
        intros v Hv Ha. apply same_map. eapply f_weak; [exact (IHtl ate c ctx _ _ j (H3 v Hv Ha) Hg)|]. intros ->. reflexivity.
      * destruct H as [_ H2]. eapply f_ext; [intros r; apply bind_ret_l|intros r; apply bind_ret_l|]. apply same_map. now apply (IHtl _ _ _ _ _ j).
  - intros ate e ctx id k d d' i j _ _ Hd. cbn [variants_read]. destruct d, d'; try contradiction; [exact Hd|apply same_refl].
  - intros v fs [IHf IHs] tl IHt ate e ctx id k d d' i j [H1 H2] Hg Hd. rewrite !read_variant. cbn [guarded_variants] in Hg. apply andb_prop in Hg. destruct Hg as [G1 G2].
    assert (HB : matches (v_sel v) id || v_default v = true -> same i ate
      (let* l := fields_read cu fuel (en_c e) ctx fs (if stores_id e v then Some id else None) [] in ret (VVar k l))
      (let* l := fields_read cu' fuel (en_c e) ctx fs (if stores_id e v then Some id else None) [] in ret (VVar k l))).
    { intros H. specialize (H1 H). apply same_map. destruct (stores_id e v); [now apply (IHs _ _ _ _ i j)|now apply (IHf _ _ _ _ i j)]. }
    destruct (matches (v_sel v) id) eqn:Em; [now apply HB|]. apply (IHt _ _ _ _ _ _ _ i j); [exact H2|exact G2|].
    destruct d, d'; try contradiction; [exact Hd|]. destruct (v_default v); [now apply HB|exact I].
Qed.
End Flow.

Lemma flow_unroll fuel ok : rec_flows defs ok -> forall N depth k args i j, ok k args i j -> N < depth ->
  forall r x r', place i r -> 8 * length (s_data (r_s r)) + 8 < fuel -> unread_len (seen r) <= N ->
  cu_read (unroll defs fuel depth k) args r = (x, r') ->
  x <> Panic /\ x <> Diverge /\ forall v, x = Ok v -> nested defs depth k v /\ place j r' /\ s_data (r_s r') = s_data (r_s r) /\
    unread_len (seen r') + 0 <= unread_len (seen r) /\ r_bits r <= r_bits r'.
Proof.
  intros H. induction N as [N IH] using (well_founded_induction Nat.lt_wf_0). intros depth k args i o Hk Hd r x r' Hp Hs Hu E.
  destruct depth as [|d]; [lia|]. cbn [unroll cu_read] in E. destruct (H k args i o Hk) as [HG HS].
  set (cut := fun j => mkCustom (fun a r => if (unread_len (seen r) <? N) && (8 * length (s_data (r_s r)) + 8 <? fuel)
                                            then cu_read (unroll defs fuel d j) a r else (Err Parse, r)) (fun a v => cu_write (unroll defs fuel d j) a v)).
  assert (HB : forall j a i' o', ok j a i' o' -> leads false (nested defs d j) (cu_read (cut j) a) i' o').
  { intros j a i' o' Hj s y s' Hps Es. cbn [cut cu_read] in Es. destruct (Nat.ltb_spec (unread_len (seen s)) N), (Nat.ltb_spec (8 * length (s_data (r_s s)) + 8) fuel); cbn [andb] in Es.
    - destruct (IH (unread_len (seen s)) ltac:(assumption) d j a i' o' Hj ltac:(lia) s y s' Hps ltac:(assumption) (le_n _) Es) as (P & D & K).
      split; [exact P|]. split; [exact D|]. intros v Ev. destruct (K v Ev) as (T & P' & S' & M). split; [exact T|]. split; [exact P'|]. split; [exact S'|]. intros _. lia.
    - apply pair_inj in Es. destruct Es as [<- <-]. split; [discriminate|]. split; discriminate.
    - apply pair_inj in Es. destruct Es as [<- <-]. split; [discriminate|]. split; discriminate.
    - apply pair_inj in Es. destruct Es as [<- <-]. split; [discriminate|]. split; discriminate. }
  specialize (HS (nested defs d) cut HB).
  assert (HC : forall j a s, small fuel s -> unread_len (seen s) < N -> cu_read (unroll defs fuel d j) a s = cu_read (cut j) a s).
  { intros j a s Hsm Hun. cbn [cut cu_read]. unfold small in Hsm. destruct (Nat.ltb_spec (unread_len (seen s)) N); [|lia].
    destruct (Nat.ltb_spec (8 * length (s_data (r_s s)) + 8) fuel); [reflexivity|lia]. }
  pose proof (proj1 (all_fl fuel N (nested defs d) (unroll defs fuel d) cut HC) (defs k) false None args i o HS HG r Hp Hs) as ES.
  cbv iota in ES. rewrite Nat.add_0_r in ES. specialize (ES Hu).
  rewrite ES in E. destruct (proj1 (all_move fuel _ cut) (defs k) false None args i o HS r x r' Hp Hs E) as (P & D & K).
  split; [exact P|]. split; [exact D|]. intros v Ev. destruct (K v Ev) as (T & P' & S' & M). specialize (M eq_refl).
  split; [exact T|]. split; [exact P'|]. split; [exact S'|]. destruct (consumes (defs k)); lia.
Qed.
Lemma rec_flow_from_reader j ok fuel depth k input bit : rec_flows defs ok -> ok k [] true j -> bit < 8 -> 8 * length input + 8 < fuel -> 8 * length input < depth ->
  let x := fst (from_reader (unroll defs fuel depth) fuel (TCustom k) (cursor input) bit) in
  x <> Panic /\ x <> Diverge /\ forall n v, x = Ok (n, v) -> nested defs depth k v.
Proof.
  intros H Hk Hb Hf Hd. unfold from_reader. cbn [read_ty].
  assert (Hp : place true (reader_new (cursor input))) by (apply place_new; [intros ?; reflexivity|intros _; apply Nat.le_0_l]).
  assert (HS : runs fuel true false false (fun _ => True) (if bit =? 0 then ret tt else skip_bits bit Msb0)) by (destruct (bit =? 0); [now apply runs_ret|now apply runs_skip]).
  unfold bind. destruct ((if bit =? 0 then ret tt else skip_bits bit Msb0) (reader_new (cursor input))) as [y r1] eqn:E1.
  destruct (HS _ _ _ Hp Hf E1) as (P & D & K). destruct y as [a|e| |]; try congruence; [|cbn; split; [discriminate|]; split; discriminate].
  destruct (K a eq_refl) as (_ & P1 & S1 & M1). destruct (M1 eq_refl) as [U1 B1].
  assert (HU : unread_len (seen (reader_new (cursor input))) = 8 * length input) by (unfold seen, unread_len; cbn; lia).
  destruct (cu_read (unroll defs fuel depth k) [] r1) as [x r2] eqn:E2.
  destruct (flow_unroll fuel ok H (8 * length input) depth k [] true j Hk Hd r1 x r2 P1) as (P2 & D2 & K2); [rewrite S1; exact Hf|lia|exact E2|].
  destruct x as [v|e| |]; try congruence; cbn; (split; [discriminate|]; split; [discriminate|]); intros n w E; [|discriminate].
  apply ok_inj, pair_inj in E. destruct E as [_ <-]. exact (proj1 (K2 v eq_refl)).
Qed.
Theorem rec_flow_from_bytes j ok fuel depth k input bit : rec_flows defs ok -> ok k [] true j -> bit < 8 -> 8 * length input + 8 < fuel -> 8 * length input < depth ->
  let x := rec_from_bytes defs fuel depth k input bit in x <> Panic /\ x <> Diverge /\ forall rest v, x = Ok (rest, v) -> nested defs depth k v.
Proof.
  intros H Hk Hb Hf Hd. cbv zeta. unfold rec_from_bytes, from_bytes. destruct (rec_flow_from_reader j ok fuel depth k input bit H Hk Hb Hf Hd) as (P & D & K).
  destruct (from_reader _ fuel (TCustom k) (cursor input) bit) as [[[n v]|e| |] s]; cbn [fst] in P, D, K; try congruence.
  - destruct (n / 8 <=? length input); (split; [discriminate|]; split; [discriminate|]); intros rest w E; [|discriminate].
    apply ok_inj, pair_inj in E. destruct E as [_ <-]. exact (K n v eq_refl).
  - split; [discriminate|]. split; discriminate.
Qed.
Theorem rec_flow_try_from j ok fuel depth k input : rec_flows defs ok -> ok k [] true j -> 8 * length input + 8 < fuel -> 8 * length input < depth ->
  let x := rec_try_from defs fuel depth k input in x <> Panic /\ x <> Diverge /\ forall v, x = Ok v -> nested defs depth k v.
Proof.
  intros H Hk Hf Hd. cbv zeta. unfold rec_try_from, try_from. destruct (rec_flow_from_reader j ok fuel depth k input 0 H Hk ltac:(lia) Hf Hd) as (P & D & K).
  destruct (from_reader _ fuel (TCustom k) (cursor input) 0) as [[[n v]|e| |] s]; cbn [fst] in P, D, K; try congruence.
  - destruct (n / 8 <? length input); [|destruct (length input <? n / 8)]; (split; [discriminate|]; split; [discriminate|]); intros w E; try discriminate.
    apply ok_inj in E. subst w. exact (K n v eq_refl).
  - split; [discriminate|]. split; discriminate.
Qed.

(** ** Reading on any stack *)

Lemma flow_unroll_values ok : rec_flows defs ok -> forall depth fuel k args i j r x r', ok k args i j -> place i r ->
  cu_read (unroll defs fuel depth k) args r = (x, r') ->
  x <> Panic /\ forall v, x = Ok v -> nested defs depth k v /\ place j r' /\ s_data (r_s r') = s_data (r_s r) /\
    unread_len (seen r') <= unread_len (seen r) /\ r_bits r <= r_bits r'.
Proof.
  intros H. induction depth as [|d IH]; intros fuel k args i o r x r' Hk Hp E.
  { cbn [unroll cu_read] in E. unfold diverge in E. apply pair_inj in E. destruct E as [<- _]. split; discriminate. }
  assert (HX : x = Diverge \/ x <> Diverge) by (destruct x; first [now left|now right]). destruct HX as [-> | HX]; [split; discriminate|].
  set (f := Nat.max fuel (8 * length (s_data (r_s r)) + 9)).
  assert (E' : cu_read (unroll defs f (S d) k) args r = (x, r')).
  { destruct (unroll_refines defs fuel f (Nat.le_max_l _ _) (S d) (S d) (le_n _) k) as [HR _]. rewrite (HR args r); [exact E|]. now rewrite E. }
  clear E. cbn [unroll cu_read] in E'. destruct (H k args i o Hk) as [_ HS].
  set (cut := fun j => mkCustom (fun a r => match cu_read (unroll defs f d j) a r with (Diverge, r') => (Err Parse, r') | y => y end)
                                (fun a v => cu_write (unroll defs f d j) a v)).
  assert (HB : forall j a i' o', ok j a i' o' -> leads false (nested defs d j) (cu_read (cut j) a) i' o').
  { intros j a i' o' Hj s y s' Hps Es. cbn [cut cu_read] in Es. destruct (cu_read (unroll defs f d j) a s) as [z s1] eqn:Ez.
    destruct (IH f j a i' o' s z s1 Hj Hps Ez) as [P K]. destruct z as [v|e| |]; try (now destruct P); apply pair_inj in Es; destruct Es as [<- <-];
      (split; [discriminate|]; split; [discriminate|]); intros w Ew; try discriminate.
    apply ok_inj in Ew. subst w. destruct (K v eq_refl) as (T & P' & S' & M). split; [exact T|]. split; [exact P'|]. split; [exact S'|]. now intros _. }
  specialize (HS (nested defs d) cut HB).
  assert (HR : refines (read_ty (unroll defs f d) f (defs k) None args) (read_ty cut f (defs k) None args)).
  { apply types_refine; [lia|]. intros j a s Hs. cbn [cut cu_read]. destruct (cu_read (unroll defs f d j) a s) as [[] s1]; cbn [fst] in Hs; congruence. }
  specialize (HR r). rewrite E' in HR. specialize (HR HX).
  destruct (proj1 (all_move f _ cut) (defs k) false None args i o HS r x r' Hp ltac:(unfold small, f; lia) HR) as (P & _ & K).
  split; [exact P|]. intros v Ev. destruct (K v Ev) as (T & P' & S' & M). specialize (M eq_refl).
  split; [exact T|]. split; [exact P'|]. split; [exact S'|]. destruct (consumes (defs k)); lia.
Qed.
Lemma flow_values_from_reader j ok fuel depth k input bit : rec_flows defs ok -> ok k [] true j -> bit < 8 ->
  let x := fst (from_reader (unroll defs fuel depth) fuel (TCustom k) (cursor input) bit) in
  x <> Panic /\ forall n v, x = Ok (n, v) -> nested defs depth k v.
Proof.
  intros H Hk Hb. unfold from_reader. cbn [read_ty]. set (f := 8 * length input + 9).
  assert (Hp : place true (reader_new (cursor input))) by (apply place_new; [intros ?; reflexivity|intros _; apply Nat.le_0_l]).
  assert (HS : runs f true false false (fun _ => True) (if bit =? 0 then ret tt else skip_bits bit Msb0)) by (destruct (bit =? 0); [now apply runs_ret|now apply runs_skip]).
  unfold bind. destruct ((if bit =? 0 then ret tt else skip_bits bit Msb0) (reader_new (cursor input))) as [y r1] eqn:E1.
  destruct (HS _ _ _ Hp ltac:(unfold small, f; cbn; lia) E1) as (P & D & K). destruct y as [a|e| |]; try congruence; [|cbn; split; discriminate].
  destruct (K a eq_refl) as (_ & P1 & _).
  destruct (cu_read (unroll defs fuel depth k) [] r1) as [x r2] eqn:E2.
  destruct (flow_unroll_values ok H depth fuel k [] true j r1 x r2 Hk P1 E2) as (P2 & K2).
  destruct x as [v|e| |]; try congruence; cbn; (split; [discriminate|]); intros n w E; try discriminate.
  apply ok_inj, pair_inj in E. destruct E as [_ <-]. exact (proj1 (K2 v eq_refl)).
Qed.
Theorem flow_values_from_bytes j ok fuel depth k input bit : rec_flows defs ok -> ok k [] true j -> bit < 8 ->
  let x := rec_from_bytes defs fuel depth k input bit in x <> Panic /\ forall rest v, x = Ok (rest, v) -> nested defs depth k v.
Proof.
  intros H Hk Hb. cbv zeta. unfold rec_from_bytes, from_bytes. destruct (flow_values_from_reader j ok fuel depth k input bit H Hk Hb) as (P & K).
  destruct (from_reader _ fuel (TCustom k) (cursor input) bit) as [[[n v]|e| |] s]; cbn [fst] in P, K; try congruence; try (split; discriminate).
  destruct (n / 8 <=? length input); (split; [discriminate|]); intros rest w E; [|discriminate].
  apply ok_inj, pair_inj in E. destruct E as [_ <-]. exact (K n v eq_refl).
Qed.
Theorem flow_values_try_from j ok fuel depth k input : rec_flows defs ok -> ok k [] true j ->
  let x := rec_try_from defs fuel depth k input in x <> Panic /\ forall v, x = Ok v -> nested defs depth k v.
Proof.
  intros H Hk. cbv zeta. unfold rec_try_from, try_from. destruct (flow_values_from_reader j ok fuel depth k input 0 H Hk ltac:(lia)) as (P & K).
  destruct (from_reader _ fuel (TCustom k) (cursor input) 0) as [[[n v]|e| |] s]; cbn [fst] in P, K; try congruence; try (split; discriminate).
  destruct (n / 8 <? length input); [|destruct (length input <? n / 8)]; (split; [discriminate|]); intros w E; try discriminate.
  apply ok_inj in E. subst w. exact (K n v eq_refl).
Qed.
Theorem flow_shallow_from_bytes j ok fuel depth k input bit rest v : rec_flows defs ok -> ok k [] true j -> bit < 8 ->
  rec_from_bytes defs fuel depth k input bit = Ok (rest, v) -> nested defs (8 * length input + 1) k v.
Proof.
  intros H Hk Hb E. set (f := 8 * length input + 9). set (d := 8 * length input + 1).
  destruct (rec_flow_from_bytes j ok f d k input bit H Hk Hb ltac:(unfold f; lia) ltac:(unfold d; lia)) as (_ & D & K). apply (K rest v).
  rewrite <- E. rewrite <- (rec_more_from_bytes defs f (Nat.max f fuel) d (Nat.max d depth)); [|lia|lia|exact D].
  rewrite <- (rec_more_from_bytes defs fuel (Nat.max f fuel) depth (Nat.max d depth)); [reflexivity|lia|lia|congruence].
Qed.

End Rec.
