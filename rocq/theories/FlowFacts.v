(** Derived readers return and do not panic: from place to place. *)
From Coq Require Import Lia ZifyBool ZifyNat ZifyN.
From Verif Require Import Base Spec Stream Reader Session Writer WSession Prims BitsFacts NFacts MonadFacts ReaderFacts ReaderOps SessionFacts FastRead CodecSpec CodecFacts Containers ContainerSpec ContainerFacts Safety PrimFacts ContainerProps Derive DeriveSound SafeSpec SafeFacts DeriveSafe FlowSpec.
Ltac Zify.zify_post_hook ::= Z.div_mod_to_equations.

Definition moves (fuel : nat) (seeks eats : bool) {A} (good : A -> Prop) (m : RM A) (i j : bool) : Prop :=
  forall r x r', place i r -> 8 * length (s_data (r_s r)) + 8 < fuel -> m r = (x, r') ->
    x <> Panic /\ x <> Diverge /\
    forall v, x = Ok v -> good v /\ place j r' /\ s_data (r_s r') = s_data (r_s r) /\
      (seeks = false -> unread_len (seen r') + (if eats then 1 else 0) <= unread_len (seen r) /\ r_bits r <= r_bits r').

Lemma place_le i j r : only_if_known j i -> place i r -> place j r.
Proof.
  intros L (Hq & Hw & Hm & Hb & Ho & Hi). split; [exact Hq|]. split; [exact Hw|]. split; [exact Hm|]. split; [exact Hb|]. split; [exact Ho|]. intros H. apply Hi, L, H.
Qed.
Lemma known_refl i : only_if_known i i.
Proof. intros H. exact H. Qed.
Lemma known_false i : only_if_known false i.
Proof. discriminate. Qed.
Lemma known_true i : only_if_known i true.
Proof. intros _. reflexivity. Qed.
Lemma known_trans a b c : only_if_known a b -> only_if_known b c -> only_if_known a c.
Proof. intros H1 H2 H. auto. Qed.
Lemma known_and_l a b : only_if_known (a && b) a.
Proof. intros H. now apply Bool.andb_true_iff in H. Qed.
Local Hint Resolve known_refl known_false known_true known_and_l : core.

Section Moves.
Variable fuel : nat.
Local Notation moves := (moves fuel).
Local Notation runs := (runs fuel).

Lemma m_runs {A} i sk c (g : A -> Prop) m : runs i sk c g m -> moves sk c g m i i.
Proof. intros H. exact H. Qed.
Lemma m_weak {A} i j i' j' sk c c' (g g' : A -> Prop) m : moves sk c g m i j -> only_if_known i i' -> only_if_known j' j -> (c' = true -> c = true) -> (forall v, g v -> g' v) ->
  moves sk c' g' m i' j'.
Proof.
  intros H Li Lj Hc Hg r x r' Hp Hf E. destruct (H r x r' (place_le _ _ _ Li Hp) Hf E) as (P & D & K). split; [exact P|]. split; [exact D|]. intros v Ev.
  destruct (K v Ev) as (G & Pl & S & M). split; [auto|]. split; [exact (place_le _ _ _ Lj Pl)|]. split; [exact S|]. intros Hs. specialize (M Hs).
  destruct c'; [rewrite Hc in M by reflexivity; exact M|]. destruct c; lia.
Qed.
Lemma m_at {A} i j i' j' sk c (g : A -> Prop) m : moves sk c g m i j -> only_if_known i i' -> only_if_known j' j -> moves sk c g m i' j'.
Proof. intros H Li Lj. eapply m_weak; eauto. Qed.
Lemma m_good {A} i j sk c (g g' : A -> Prop) m : moves sk c g m i j -> (forall v, g v -> g' v) -> moves sk c g' m i j.
Proof. intros H Hg. eapply m_weak; eauto. Qed.
Lemma m_seeks {A} i j sk c (g : A -> Prop) m : moves false c g m i j -> moves sk c g m i j.
Proof.
  intros H r x r' Hp Hf E. destruct (H r x r' Hp Hf E) as (P & D & K). split; [exact P|]. split; [exact D|]. intros v Ev.
  destruct (K v Ev) as (G & Pl & S & M). auto.
Qed.
Lemma m_ret {A} i j sk (g : A -> Prop) a : g a -> only_if_known j i -> moves sk false g (ret a) i j.
Proof. intros Hg L. eapply m_at; [apply m_runs, runs_ret; exact Hg|apply known_refl|exact L]. Qed.
Lemma m_fail {A} i j sk c (g : A -> Prop) e : moves sk c g (fail e) i j.
Proof. intros r x r' Hp Hf E. apply pair_inj in E. destruct E as [<- <-]. split; [discriminate|]. split; discriminate. Qed.
Lemma m_lift {A} i j sk (g : A -> Prop) y : match y with Ok a => g a | Err _ => True | Panic | Diverge => False end -> only_if_known j i -> moves sk false g (lift y) i j.
Proof. intros H L. destruct y; try contradiction; [now apply m_ret|apply m_fail]. Qed.
Lemma m_bind {A B} i k j sk c1 c2 (g1 : A -> Prop) (g2 : B -> Prop) m f : moves sk c1 g1 m i k -> (forall a, g1 a -> moves sk c2 g2 (f a) k j) ->
  moves sk (c1 || c2) g2 (bind m f) i j.
Proof.
  intros H1 H2 r x r' Hp Hf E. unfold bind in E. destruct (m r) as [y r1] eqn:E1. destruct (H1 r y r1 Hp Hf E1) as (P & D & K).
  destruct y as [a|e| |]; try congruence.
  - destruct (K a eq_refl) as (G & Pl & S & M). rewrite <- S in Hf. destruct (H2 a G r1 x r' Pl Hf E) as (P2 & D2 & K2).
    split; [exact P2|]. split; [exact D2|]. intros v Ev. destruct (K2 v Ev) as (G2 & Pl2 & S2 & M2).
    split; [exact G2|]. split; [exact Pl2|]. split; [congruence|]. intros Hs. specialize (M Hs). specialize (M2 Hs). destruct c1, c2; cbn [orb]; lia.
  - apply pair_inj in E. destruct E as [<- <-]. split; [discriminate|]. split; [discriminate|]. discriminate.
Qed.
Lemma m_bindl {A B} i k j sk c (g1 : A -> Prop) (g2 : B -> Prop) m f : moves sk c g1 m i k -> (forall a, g1 a -> moves sk false g2 (f a) k j) -> moves sk c g2 (bind m f) i j.
Proof. intros H1 H2. rewrite <- (Bool.orb_false_r c). eapply m_bind; eassumption. Qed.
Lemma m_bindr {A B} i k j sk c (g1 : A -> Prop) (g2 : B -> Prop) m f : moves sk false g1 m i k -> (forall a, g1 a -> moves sk c g2 (f a) k j) -> moves sk c g2 (bind m f) i j.
Proof. intros H1 H2. rewrite <- (Bool.orb_false_l c). eapply m_bind; eassumption. Qed.
Lemma m_map {A B} i j sk c (g1 : A -> Prop) (g2 : B -> Prop) m (f : A -> B) : moves sk c g1 m i j -> (forall a, g1 a -> g2 (f a)) -> moves sk c g2 (let* a := m in ret (f a)) i j.
Proof. intros H1 H2. eapply m_bindl; [exact H1|]. intros a Ha. apply m_ret; auto. Qed.
Lemma m_ext {A} i j sk c (g : A -> Prop) m m' : (forall r, m r = m' r) -> moves sk c g m' i j -> moves sk c g m i j.
Proof. intros H H' r x r' Hp Hf E. rewrite H in E. exact (H' r x r' Hp Hf E). Qed.
Lemma m_off {A} i j sk c (g : A -> Prop) (m : nat -> RM A) : (forall off, moves sk c g (m off) i j) -> moves sk c g (fun r => m (r_bits r) r) i j.
Proof. intros H r x r' Hp Hf E. exact (H _ r x r' Hp Hf E). Qed.

(** What takes input leads inside. *)
Lemma m_walks {A} i j sk n (g : A -> Prop) m : 0 < n -> safe m -> walks m n -> ranged m g -> moves sk true g m i j.
Proof.
  intros Hn H1 H2 H3. apply m_at with (i := false) (j := true); [|auto|auto]. intros r x r' Hp Hf E. pose proof (place_wf false r Hp) as Hw. pose proof (place_quiet false r Hp) as Hq.
  destruct (H1 r x r' Hw E) as (P & D & _). split; [exact P|]. split; [exact D|]. intros v ->.
  destruct (H2 r v r' Hw Hq E) as (Ad & U & Pk). destruct (place_adv false r r' n Hp Ad U ltac:(discriminate)) as (Pl & S & Us & B).
  split; [exact (H3 r v r' Hw Hq E)|]. split; [|split; [exact S|intros _; lia]].
  destruct Pl as (Hq' & Hw' & Hm' & Hb' & Ho' & _). split; [exact Hq'|]. split; [exact Hw'|]. split; [exact Hm'|]. split; [exact Hb'|]. split; [exact Ho'|].
  intros _. split; [|apply peeked_left, Pk; now left].
  destruct (r_left r') as [l|] eqn:El; [apply Ho'; discriminate|].
  destruct Hp as (_ & _ & _ & _ & Ho & _). destruct Ad as [_ _ _ Ap Al _]. rewrite <- !rest_left in Ap. unfold seen, unread_len in Us. cbn [fst snd] in Us. rewrite !s_avail_length, S in Us. rewrite S.
  destruct (r_left r) as [l|] eqn:E0; [specialize (Ho ltac:(discriminate)); lia|]. unfold r_rest in Us, Ap. rewrite El, E0 in *. cbn [length] in *. lia.
Qed.
Lemma m_prim i j sk p c : 0 < prim_bytes p -> sized c -> moves sk true (fun n => (n < 2 ^ N.of_nat (prim_width p))%N) (prim_read p c) i j.
Proof. intros Hp Hs. exact (m_walks i j sk _ _ _ (prim_size_pos p c Hp Hs) (safe_prim p c Hp Hs) (walks_prim p c Hp Hs) (prim_range p c Hp Hs)). Qed.
Lemma m_byte i j sk : moves sk true (fun n => (n < 256)%N) (prim_read PU8 C0) i j.
Proof. exact (m_prim i j sk PU8 C0 ltac:(cbn; lia) I). Qed.
Lemma m_magic i sk m : moves sk (nonempty m) (fun _ => True) (read_magic m) i (i || nonempty m).
Proof.
  destruct m as [|b m]; cbn [read_magic nonempty].
  - apply m_ret; [exact I|]. rewrite Bool.orb_false_r. auto.
  - eapply m_bindl; [apply (m_byte i true sk)|]. intros x _. destruct (_ =? _)%N; [|apply m_fail].
    eapply m_weak; [apply m_runs, (runs_magic fuel true sk m)|auto|auto|discriminate|auto].
Qed.
Lemma m_seek i sk s : seek_allowed sk s -> moves sk false (fun _ => True) (read_seek s) i (i && seek_in s).
Proof.
  intros Ha. destruct (i && seek_in s) eqn:C.
  - apply Bool.andb_true_iff in C. destruct C as [-> C]. apply m_runs, runs_seek. destruct s as [[w|]|]; cbn [seek_allowed seek_safe seek_in] in *; auto.
    split; [exact Ha|]. intros _. destruct w; [now apply Nat.eqb_eq|now apply Z.leb_le|now apply Z.leb_le].
  - eapply m_at; [apply m_runs, (runs_seek fuel false)|auto|auto]. destruct s as [[w|]|]; cbn [seek_allowed seek_safe] in *; auto. split; [exact Ha|discriminate].
Qed.
Lemma m_pad i sk p o : moves sk false (fun _ => True) (read_pad p o) i (i && pad_in p).
Proof.
  destruct (i && pad_in p) eqn:C.
  - apply Bool.andb_true_iff in C. destruct C as [-> C]. apply m_runs, runs_pad. intros _. destruct p as [z|]; cbn [pad_in] in C; [now apply Z.ltb_lt|exact I].
  - eapply m_at; [apply m_runs, (runs_pad fuel false)|auto|auto]. discriminate.
Qed.
Lemma m_exact sk n j : (8 * n <= usize_max)%N -> moves sk false (fun _ => True) (read_exact_vec n) true j.
Proof. intros Hn. eapply m_at; [apply m_runs, (runs_exact fuel true); auto|auto|auto]. Qed.

(** ** Loops *)

Lemma m_end {A} (elem : RM A) (g : A -> Prop) m j : moves false true g elem false m -> only_if_known j m ->
  forall f acc i r x r', only_if_known j i -> place i r -> 8 * length (s_data (r_s r)) + 8 < fuel -> Forall g acc -> unread_len (seen r) < f ->
  end_loop f elem acc r = (x, r') ->
  x <> Panic /\ x <> Diverge /\ forall l, x = Ok l -> Forall g l /\ place j r' /\ s_data (r_s r') = s_data (r_s r) /\
    unread_len (seen r') <= unread_len (seen r) /\ r_bits r <= r_bits r'.
Proof.
  intros He Hjm. induction f as [|f IH]; intros acc i r x r' Hji Hp Hf Ha Hm E; [lia|].
  cbn [end_loop] in E. pose proof (place_wf i r Hp) as Hw. pose proof (place_quiet i r Hp) as Hq. destruct (r_end_spec r Hw Hq) as (r0 & E0 & A0 & U0).
  rewrite E0 in E. destruct (_ =? 0) eqn:C.
  - assert (NP : ~ peeked r0).
    { intros [b Hb]. rewrite <- U0 in C. unfold unread in C. rewrite Hb in C. unfold unread_len in C. cbn [fst snd length] in C. lia. }
    destruct (place_adv i r r0 0 Hp A0) as (P0 & S0 & Us0 & B0); [now rewrite U0|auto|].
    apply pair_inj in E. destruct E as [<- <-]. split; [discriminate|]. split; [discriminate|]. intros l El. apply ok_inj in El. subst l. split; [exact Ha|]. split; [exact (place_le _ _ _ Hji P0)|]. split; [exact S0|]. lia.
  - destruct (place_adv false r r0 0 (place_le i false r (known_false i) Hp) A0) as (P0 & S0 & Us0 & B0); [now rewrite U0|discriminate|].
    unfold bind in E. destruct (elem r0) as [y r1] eqn:E1. destruct (He r0 y r1 P0) as (P & D & K); [congruence|exact E1|].
    destruct y as [v|e| |]; try congruence.
    2:{ apply pair_inj in E. destruct E as [<- <-]. split; [discriminate|]. split; discriminate. }
    destruct (K v eq_refl) as (G & Pl & S & M). destruct (M eq_refl) as [M1 M2].
    destruct (IH (acc ++ [v]) m r1 x r' Hjm Pl) as (P2 & D2 & K2); [congruence| | |exact E|].
    + apply Forall_app; split; [exact Ha|now repeat constructor].
    + lia.
    + split; [exact P2|]. split; [exact D2|]. intros l El. destruct (K2 l El) as (G2 & Pl2 & S2 & M3). split; [exact G2|]. split; [exact Pl2|]. split; [congruence|]. lia.
Qed.
Lemma m_to_end {A} (elem : RM A) c (g : A -> Prop) size m i j : moves false c g elem false m -> (size <> 0%N -> c = true) -> only_if_known j i -> only_if_known j m ->
  moves false false (Forall g) (vec_to_end fuel size elem) i j.
Proof.
  intros He Hc Hji Hjm. unfold vec_to_end. destruct (size =? 0)%N eqn:C; [now apply m_ret|]. rewrite Hc in He by lia.
  intros r x r' Hp Hf E. destruct (m_end elem g m j He Hjm fuel [] i r x r' Hji Hp Hf (Forall_nil _)) as (P & D & K); [pose proof (seen_bound i r Hp); lia|exact E|].
  split; [exact P|]. split; [exact D|]. intros l El. destruct (K l El) as (G & Pl & S & M). split; [exact G|]. split; [exact Pl|]. split; [exact S|]. lia.
Qed.
(** A first element that leads inside, then the loop. *)
Lemma m_loop {A} (elem : RM A) (g : A -> Prop) stop f i j : moves false true g elem i true -> runs true false true g elem ->
  f = fuel \/ (exists n, stop = count_stop n /\ N.to_nat n = f /\ 0 < f) ->
  moves false true (Forall g) (fun r => vec_loop f elem stop (r_bits r) [] r) i j.
Proof.
  intros H1 H2 Hm. apply m_at with (i := i) (j := true); [|auto|auto]. intros r x r' Hp Hf E. destruct f as [|f]; [exfalso; destruct Hm as [H|(n & _ & _ & H)]; lia|].
  cbn [vec_loop] in E. unfold bind in E. destruct (elem r) as [y r1] eqn:E1. destruct (H1 r y r1 Hp Hf E1) as (P & D & K).
  destruct y as [v|e| |]; try congruence.
  2:{ apply pair_inj in E. destruct E as [<- <-]. split; [discriminate|]. split; discriminate. }
  destruct (K v eq_refl) as (G & Pl & S & M). destruct (M eq_refl) as [M1 M2].
  replace (r_bits r1 <? r_bits r) with false in E by lia.
  assert (Ha : Forall g ([] ++ [v])) by (now repeat constructor).
  destruct (stop (r_bits r1 - r_bits r) ([] ++ [v])) eqn:C.
  - apply pair_inj in E. destruct E as [<- <-]. split; [discriminate|]. split; [discriminate|]. intros l El. apply ok_inj in El. subst l. auto.
  - destruct (loop_runs fuel true elem true g stop (r_bits r) H2 f ([] ++ [v]) r1 x r' Pl) as (P2 & D2 & K2); [congruence|lia|exact Ha| |exact E|].
    + destruct Hm as [Hm|(n & -> & Hn & _)]; [left; split; [reflexivity|]; pose proof (seen_bound i r Hp); lia|].
      right. exists n. unfold count_stop in C. cbn [app length] in *. split; [reflexivity|]. lia.
    + split; [exact P2|]. split; [exact D2|]. intros l El. destruct (K2 l El) as (G2 & Pl2 & S2 & M3). split; [exact G2|]. split; [exact Pl2|]. split; [congruence|]. lia.
Qed.
Lemma m_to_cstring i j sk l : Forall (fun n => (n < 256)%N) l -> only_if_known j i -> moves sk false (fun s => Forall string_char (map VNum s)) (to_cstring l) i j.
Proof. intros Hl L. eapply m_at; [apply m_runs, (runs_to_cstring fuel i sk); exact Hl|auto|exact L]. Qed.
Lemma m_cstring i j sk : moves sk true (fun s => Forall string_char (map VNum s)) (read_cstring fuel) i j.
Proof.
  unfold read_cstring. eapply m_bindl with (g1 := Forall (fun n => (n < 256)%N)) (k := true); [|intros l Hl; now apply m_to_cstring]. cbn [vec_read]. apply m_seeks.
  eapply m_ext; [reflexivity|]. exact (m_loop _ _ _ fuel i true (m_byte i true false) (runs_byte fuel true false) (or_introl eq_refl)).
Qed.
Lemma m_cstring_bytes i j sk n : (n <= isize_max)%N -> moves sk true (fun s => Forall string_char (map VNum s)) (read_cstring_bytes n) i j.
Proof.
  intros Hn. unfold read_cstring_bytes. cbn [vec_read]. destruct (n =? 0)%N eqn:C.
  - eapply m_ext; [intros r; apply bind_ret_l|]. apply m_fail.
  - eapply m_bindl with (g1 := Forall (fun n => (n < 256)%N)) (k := true); [|intros l Hl; now apply m_to_cstring]. apply m_seeks.
    unfold vec_with_predicate. cbn [N.eqb]. replace (isize_max <? n * 1)%N with false by lia.
    eapply m_ext; [reflexivity|]. refine (m_loop _ _ (count_stop n) (N.to_nat n) i true (m_byte i true false) (runs_byte fuel true false) (or_intror _)).
    exists n. split; [reflexivity|]. lia.
Qed.
Lemma m_array {A} sk c (g : A -> Prop) n elem m j : moves sk c g elem m m -> moves sk c g elem m j ->
  moves sk c (fun l => length l = S n /\ Forall g l) (read_array (S n) elem) m j.
Proof.
  intros H1 H2. induction n as [|n IH].
  - cbn [read_array]. eapply m_bindl; [exact H2|]. intros v Hv. eapply m_ext; [intros r; apply bind_ret_l|]. apply m_ret; auto.
  - change (read_array (S (S n)) elem) with (let* v := elem in let* vs := read_array (S n) elem in ret (v :: vs)).
    eapply m_bindl; [exact H1|]. intros v Hv. apply m_weak with (i := m) (j := j) (c := c) (g := fun l => length l = S (S n) /\ Forall g l); [|auto|auto|discriminate|auto].
    eapply m_map; [exact IH|]. intros l [L1 L2]. split; [cbn [length]; now f_equal|now constructor].
Qed.
Lemma m_asserts i j sk a ctx acc off v : only_if_known j i -> moves sk false (fun _ => asserted a ctx acc v) (asserts a ctx acc off v) i j.
Proof. intros L. eapply m_at; [apply m_runs, (runs_asserts fuel i)|auto|exact L]. Qed.
Lemma m_leads {A} sk (g : A -> Prop) m i j : leads sk g m i j -> moves sk false g m i j.
Proof.
  intros H r x r' Hp Hf E. destruct (H r x r' Hp E) as (P & D & K). split; [exact P|]. split; [exact D|]. intros v Ev.
  destruct (K v Ev) as (G & Pl & S & M). split; [exact G|]. split; [exact Pl|]. split; [exact S|]. intros Hs. specialize (M Hs). lia.
Qed.

(** ** Declarations *)

Variables (named : nat -> value -> Prop) (cu : nat -> custom).
Local Notation typed := (typed_in named).
Local Notation fields_typed := (fields_typed_in named).
Local Notation variant_typed := (variant_typed_in named).

Definition ty_moves (t : ty) : Prop := forall sk lim args i j, flows_in named cu sk t lim args i j -> moves sk (consumes t) (typed t) (read_ty cu fuel t lim args) i j.
Definition fields_move (fs : fields) : Prop := forall sk c ctx id acc i j, fields_flow_in named cu sk c ctx fs id acc i j ->
  moves sk (if id then false else fields_consume fs) (fields_typed fs) (fields_read cu fuel c ctx fs id acc) i j.
Definition variants_move (vs : variants) : Prop := forall sk e ctx id k all default i j, variants_flow_in named cu sk e ctx id vs i j ->
  (forall x l, variant_typed vs x l -> variant_typed all (k + x) l) ->
  match default with Some m => moves sk false (typed (TEnum e TUnit all)) m i j | None => True end ->
  moves sk false (typed (TEnum e TUnit all)) (variants_read cu fuel e ctx id vs k default) i j.

Lemma tokens_move sk c a t wire ctx acc off i j : ty_moves wire ->
  field_flows_in named sk c a t wire ctx acc i j (fun lim args => flows_in named cu sk wire lim args i j) ->
  moves sk (always_read a && negb (is_vec_u8 t) && consumes wire) (typed t)
    (field_read_tokens a ctx acc off
       (field_read_normal a ctx acc off (field_read_func c a (is_vec_u8 t) ctx acc off (fun lim args => read_ty cu fuel wire lim args)))) i j.
Proof.
  intros IH (Hd & Hn).
  assert (HN : takes_default a ctx acc off = false ->
    moves sk (negb (match a_reader a with Some _ => true | None => false end) && negb (is_vec_u8 t) && consumes wire) (typed t)
      (field_read_normal a ctx acc off (field_read_func c a (is_vec_u8 t) ctx acc off (fun lim args => read_ty cu fuel wire lim args))) i j).
  { intros HF. destruct (Hn off HF) as [Hr Hm]. unfold field_read_normal. eapply m_bindl with (g1 := typed wire) (k := j).
    - unfold field_read_func. destruct (a_reader a) as [f|]; cbn [negb andb]; [now apply m_leads|].
      destruct (a_limit a) as [l|].
      2:{ eapply m_weak; [apply IH; exact Hr|auto|auto| |auto]. intros H. destruct (is_vec_u8 t); [discriminate|exact H]. }
      destruct (eval_limit l ctx acc off) as [lim|e| |] eqn:El.
      + eapply m_ext; [intros r; unfold lift; apply (bind_ret_l lim _ r)|].
        assert (HG : flows_in named cu sk wire (Some lim) (field_args c a ctx acc off) i j ->
          moves sk (negb (is_vec_u8 t) && consumes wire) (typed wire) (read_ty cu fuel wire (Some lim) (field_args c a ctx acc off)) i j).
        { intros H. eapply m_weak; [apply IH; exact H|auto|auto| |auto]. intros H2. destruct (is_vec_u8 t); [discriminate|exact H2]. }
        destruct lim; try (destruct (is_vec_u8 t); now apply HG).
        destruct (is_vec_u8 t) eqn:Ev; [|now apply HG]. destruct Hr as (-> & Hn8 & Hty). cbn [negb andb].
        eapply m_bindl; [now apply (m_exact sk _ j)|]. intros bs _. now apply m_ret.
      + eapply m_ext; [intros r; reflexivity|]. apply m_fail.
      + exfalso. unfold eval_limit in El. destruct l; try destruct (to_usize _); discriminate.
      + exfalso. unfold eval_limit in El. destruct l; try destruct (to_usize _); discriminate.
    - intros v Hv. specialize (Hm v Hv). destruct (a_map a) as [f|]; [now apply m_lift|now apply m_ret]. }
  assert (HD : takes_default a ctx acc off = true -> moves sk false (typed t) (ret (a_default a ctx acc off)) i j).
  { intros H. destruct (Hd off H) as [H1 H2]. now apply m_ret. }
  clear Hd. unfold takes_default in HN, HD. unfold field_read_tokens, always_read.
  destruct (a_skip a) as [[| |]|], (a_cond a) as [f|]; cbn [andb] in *.
  + destruct (f ctx acc off); [destruct (a_reader a); now apply HD|]. destruct (a_reader a); (eapply m_weak; [now apply HN|auto|auto|discriminate|auto]).
  + destruct (a_reader a); now apply HD.
  + destruct (f ctx acc off); [destruct (a_reader a); now apply HD|]. destruct (a_reader a); (eapply m_weak; [now apply HN|auto|auto|discriminate|auto]).
  + destruct (a_reader a); now apply HD.
  + specialize (HN eq_refl). destruct (a_reader a); exact HN.
  + specialize (HN eq_refl). destruct (a_reader a); exact HN.
  + destruct (f ctx acc off); [|destruct (a_reader a); now apply HD]. destruct (a_reader a); (eapply m_weak; [now apply HN|auto|auto|discriminate|auto]).
  + specialize (HN eq_refl). destruct (a_reader a); exact HN.
Qed.
Lemma field_moves {B} sk c2 (g : B -> Prop) c a t wire ctx acc i m j (f : value -> RM B) : ty_moves wire ->
  let s := option_map (fun f => f ctx acc) (a_seek a) in
  let i1 := (i && seek_in s || nonempty (a_magic a)) && pad_in (eval0 (a_pad_before a) ctx acc) in
  seek_allowed sk s -> field_flows_in named sk c a t wire ctx acc i1 m (fun lim args => flows_in named cu sk wire lim args i1 m) ->
  (forall v, typed t v -> asserted a ctx acc v -> moves sk c2 g (f v) (m && pad_in (eval0 (a_pad_after a) ctx (acc ++ [v]))) j) ->
  moves sk (nonempty (a_magic a) || (always_read a && negb (is_vec_u8 t) && consumes wire) || c2) g
    (bind (read_field c a (is_vec_u8 t) ctx acc (fun lim args => read_ty cu fuel wire lim args)) f) i j.
Proof.
  intros IH s i1 Hs HF Hg. unfold read_field.
  eapply m_ext; [intros r; apply bind_assoc|]. eapply m_bindr; [now apply m_seek|]. intros _ _. rewrite <- Bool.orb_assoc.
  eapply m_ext; [intros r; apply bind_assoc|]. eapply m_bind; [apply m_magic|]. intros _ _.
  eapply m_ext; [intros r; apply bind_assoc|]. eapply m_bindr; [apply m_pad|]. intros _ _. fold s. fold i1.
  apply (m_off i1 j sk _ _ (fun off => bind (
    let* v := field_read_tokens a ctx acc off
                (field_read_normal a ctx acc off (field_read_func c a (is_vec_u8 t) ctx acc off (fun lim args => read_ty cu fuel wire lim args))) in
    let* _ := asserts a ctx acc off v in
    let* _ := read_pad (eval0 (a_pad_after a) ctx (acc ++ [v])) (field_order c a ctx acc) in ret v) f)). intros off.
  eapply m_ext; [intros r; apply bind_assoc|]. eapply m_bind with (g1 := typed t); [apply tokens_move; [exact IH|exact HF]|]. intros v Hv.
  eapply m_ext; [intros r; apply bind_assoc|]. eapply m_bindr; [apply (m_asserts m m); auto|]. intros ? Has.
  eapply m_ext; [intros r; apply bind_assoc|]. eapply m_bindr; [apply m_pad|]. intros _ _.
  eapply m_ext; [intros r; apply bind_ret_l|]. now apply Hg.
Qed.

Theorem all_move : (forall t, ty_moves t) /\ (forall fs, fields_move fs) /\ (forall vs, variants_move vs).
Proof.
  apply types_ind.
  - intros p sk lim args i j (-> & Hp & c & Hc & Hs). cbn [read_ty consumes]. unfold with_pctx. rewrite Hc.
    eapply m_map; [now apply m_prim|]. auto.
  - intros sk lim args i j (-> & c & Hc & Hs). cbn [read_ty consumes]. unfold with_pctx. rewrite Hc. unfold read_bool.
    eapply m_map with (g1 := fun _ => True); [|intros b _; exact I]. eapply m_bindl; [apply (m_prim i j); [cbn; lia|exact Hs]|]. intros n _.
    destruct (n =? 1)%N; [apply m_ret; auto|]. destruct (n =? 0)%N; [apply m_ret; auto|apply m_fail].
  - intros p sk lim args i j (-> & Hp & c & Hc & Hs). cbn [read_ty consumes]. unfold with_pctx. rewrite Hc. unfold read_nonzero.
    eapply m_map with (g1 := fun n => (0 < n < 2 ^ N.of_nat (prim_width p))%N); [|auto].
    eapply m_bindl; [now apply (m_prim i j)|]. intros n Hn. cbv beta in Hn |- *. destruct (n =? 0)%N eqn:C; [apply m_fail|apply m_ret; [|auto]]. split; [lia|exact Hn].
  - intros sk lim args i j H. now apply m_ret.
  - intros sk lim args i j (-> & [->|(n & -> & Hn)]); cbn [read_ty consumes].
    + eapply m_map; [apply m_cstring|]. intros s Hs. exact Hs.
    + eapply m_map; [now apply m_cstring_bytes|]. intros s Hs. exact Hs.
  - intros t IH sk lim args i j H. cbn [read_ty consumes flows_in] in *. eapply m_map; [apply IH; exact H|]. auto.
  - intros a IHa b IHb sk lim args i j (m & Ha & Hb). cbn [read_ty consumes]. eapply m_bind; [apply IHa; exact Ha|]. intros x Hx.
    eapply m_map; [apply IHb; exact Hb|]. cbn; auto.
  - intros n t IH sk lim args i j H. cbn [read_ty consumes flows_in] in *. destruct n as [|n]; cbn [Nat.ltb Nat.leb andb].
    + eapply m_map with (g1 := fun l => length l = 0 /\ Forall (typed t) l); [cbn [read_array]; apply m_ret; [auto|exact H]|]. auto.
    + destruct H as (m & Hm & H1 & H2). apply m_at with (i := m) (j := j); [|exact Hm|auto]. eapply m_map; [apply (m_array sk (consumes t) (typed t)); now apply IH|]. auto.
  - intros pl size t IH sk lim args i j (l & -> & Hf & Hl & Ht). cbn [read_ty consumes]. eapply m_map with (g1 := Forall (typed t)).
    + apply m_seeks. destruct l as [n|n|n|p|].
      5:{ destruct Ht as (m & Ht & Hi & Hm). cbn [vec_read]. eapply m_to_end; [apply IH; exact Ht|apply Hl; exact I|exact Hi|exact Hm]. }
      all: destruct Ht as (m & Hm & Ht & Hj); (eapply m_at; [apply m_runs; eapply runs_vec; [apply (IH false None args m m); exact Ht|exact Hf|exact Hl|discriminate]|exact Hm|exact Hj]).
    + intros l' Hl'. cbn [typed_in]. split; [now apply collect_forall|apply collect_is_distinct].
  - intros c fs IH sk lim args i j [Hs Hf]. rewrite read_struct. cbn [consumes]. eapply m_bindr; [now apply m_seek|]. intros _ _.
    eapply m_bind; [apply m_magic|]. intros _ _. eapply m_map; [now apply (IH sk c (ctx_args c args) None [])|]. auto.
  - intros e idt IHi vs IHv sk lim args i j H. rewrite read_enum. cbn [consumes flows_in] in *.
    assert (HT : forall v, typed (TEnum e TUnit vs) v -> typed (TEnum e idt vs) v) by (intros []; auto).
    eapply m_bind; [apply m_magic|]. intros _ _. destruct (en_id e) as [f|].
    + eapply m_ext; [intros r; apply bind_ret_l|]. eapply m_good; [|exact HT].
      apply (IHv sk e _ _ 0 vs None); [exact H|intros x l Hx; exact Hx|exact I].
    + destruct H as (m & Hi & Hv). eapply m_bindl; [apply IHi; exact Hi|]. intros id Hid. eapply m_good; [|exact HT].
      apply (IHv sk e _ _ 0 vs None); [now apply Hv|intros x l Hx; exact Hx|exact I].
  - intros k sk lim args i j [-> H]. cbn [read_ty consumes]. eapply m_good; [apply m_leads; exact H|]. intros []; exact (fun Hv => Hv).
  - intros sk c ctx id acc i j H. cbn [fields_read fields_consume]. destruct id; now apply m_ret.
  - intros a t IHt wire IHw tl IHtl sk c ctx id acc i j H. rewrite read_cons. cbn [fields_flow_in fields_consume] in *.
    match type of H with match id with Some _ => match _ with Some _ => ?P | None => _ end | None => _ end => assert (HG : P ->
      moves sk (nonempty (a_magic a) || (always_read a && negb (is_vec_u8 t) && consumes wire) || fields_consume tl) (fields_typed (FCons a t wire tl))
       (let* v := read_field c a (is_vec_u8 t) ctx acc (fun lim args => read_ty cu fuel wire lim args) in
        let* vs := fields_read cu fuel c ctx tl None (acc ++ [v]) in ret (if a_temp a then vs else v :: vs)) i j) end.
    { intros (H1 & m & H2 & H3). eapply field_moves; [exact IHw|exact H1|exact H2|]. intros v Hv Ha. eapply m_map; [apply (IHtl sk c ctx None); now apply H3|].
      intros l Hl. cbn [fields_typed_in]. destruct (a_temp a); auto. }
    destruct id as [x|]; [|exact (HG H)]. destruct (a_reader a) as [f|] eqn:Er.
    + eapply m_weak; [exact (HG H)|auto|auto|discriminate|auto].
    + destruct H as [Hx Hr]. eapply m_ext; [intros r; apply bind_ret_l|].
      eapply m_weak with (g := fields_typed (FCons a t wire tl)); [|apply known_refl|apply known_refl|discriminate|intros v Hv; exact Hv].
      eapply m_map; [now apply (IHtl sk c ctx None)|]. intros l Hl. cbn [fields_typed_in]. destruct (a_temp a); auto.
  - intros sk e ctx id k all default i j _ _ Hd. cbn [variants_read]. destruct default; [exact Hd|apply m_fail].
  - intros v fs IHf tl IHt sk e ctx id k all default i j [H1 H2] Hk Hd. rewrite read_variant.
    assert (HB : matches (v_sel v) id || v_default v = true ->
      moves sk false (typed (TEnum e TUnit all)) (let* l := fields_read cu fuel (en_c e) ctx fs (if stores_id e v then Some id else None) [] in ret (VVar k l)) i j).
    { intros H. eapply m_weak with (g := typed (TEnum e TUnit all)); [|apply known_refl|apply known_refl|discriminate|intros u Hu; exact Hu]. eapply m_map; [apply IHf; now apply H1|]. intros l Hl. cbn [typed_in].
      rewrite <- (Nat.add_0_r k). apply Hk. exact Hl. }
    destruct (matches (v_sel v) id) eqn:Em; [now apply HB|]. apply IHt; [exact H2| |].
    + intros x l Hx. replace (S k + x) with (k + S x) by lia. apply Hk. exact Hx.
    + destruct default as [m|]; [exact Hd|]. destruct (v_default v); [now apply HB|exact I].
Qed.
End Moves.

(** ** The container API *)

Lemma flow_reader cu fuel seeks t lim args i j r : flows cu seeks t lim args i j -> place i r -> 8 * length (s_data (r_s r)) + 8 < fuel ->
  let '(x, r') := read_ty cu fuel t lim args r in x <> Panic /\ x <> Diverge /\ forall v, x = Ok v -> typed t v /\ place j r'.
Proof.
  intros Hs Hp Hf. destruct (read_ty cu fuel t lim args r) as [x r'] eqn:E.
  destruct (proj1 (all_move fuel _ cu) t seeks lim args i j Hs r x r' Hp Hf E) as (P & D & K).
  split; [exact P|]. split; [exact D|]. intros v Hv. destruct (K v Hv) as (H1 & H2 & _). auto.
Qed.
Lemma flow_from_reader cu fuel t s bit : flow_type cu t -> quiet s -> s_pos s <= length (s_data s) -> bit < 8 -> 8 * length (s_data s) + 8 < fuel ->
  let x := fst (from_reader cu fuel t s bit) in x <> Panic /\ x <> Diverge /\ forall n v, x = Ok (n, v) -> typed t v.
Proof.
  intros [j Hs] Hq Hpos Hb Hf. unfold from_reader.
  assert (H : moves fuel true false (fun nv : nat * value => typed t (snd nv))
    (let* _ := if bit =? 0 then ret tt else skip_bits bit Msb0 in let* v := read_ty cu fuel t None [] in fun r => (Ok (r_bits r, v), r)) true j).
  { eapply m_bindr with (g1 := fun _ => True) (k := true).
    - apply m_runs. destruct (bit =? 0); [now apply runs_ret|]. apply runs_skip. auto.
    - intros _ _. eapply m_bindr with (g1 := typed t).
      + eapply m_weak; [exact (proj1 (all_move fuel _ cu) t true None [] true j Hs)|apply known_refl|apply known_refl|discriminate|auto].
      + intros v Hv. intros r x r' Hp _ E. apply pair_inj in E. destruct E as [<- <-]. split; [discriminate|]. split; [discriminate|].
        intros nv E. apply ok_inj in E. subst nv. split; [exact Hv|]. split; [exact Hp|]. split; [reflexivity|]. discriminate. }
  match goal with |- context [(?m (reader_new s))] => destruct (m (reader_new s)) as [x r'] eqn:E end. cbn [fst].
  destruct (H (reader_new s) x r' (place_new true s Hq (fun _ => Hpos)) Hf E) as (P & D & K).
  split; [exact P|]. split; [exact D|]. intros n v Hv. exact (proj1 (K _ Hv)).
Qed.
Lemma flow_from_bytes cu fuel t input bit : flow_type cu t -> bit < 8 -> 8 * length input + 8 < fuel ->
  let x := from_bytes cu fuel t input bit in x <> Panic /\ x <> Diverge /\ forall rest v, x = Ok (rest, v) -> typed t v.
Proof.
  intros Hs Hb Hf. cbv zeta. unfold from_bytes.
  destruct (flow_from_reader cu fuel t (cursor input) bit Hs (fun _ => eq_refl) (Nat.le_0_l _) Hb Hf) as (P & D & K).
  destruct (from_reader cu fuel t (cursor input) bit) as [[[n v]|e| |] s]; cbn [fst] in P, D, K; try congruence.
  - destruct (n / 8 <=? length input); (split; [discriminate|]; split; [discriminate|]); intros rest w E; [|discriminate].
    apply ok_inj, pair_inj in E. destruct E as [_ <-]. exact (K n v eq_refl).
  - split; [discriminate|]. split; [discriminate|]. discriminate.
Qed.
Lemma flow_try_from cu fuel t input : flow_type cu t -> 8 * length input + 8 < fuel ->
  let x := try_from cu fuel t input in x <> Panic /\ x <> Diverge /\ forall v, x = Ok v -> typed t v.
Proof.
  intros Hs Hf. cbv zeta. unfold try_from.
  destruct (flow_from_reader cu fuel t (cursor input) 0 Hs (fun _ => eq_refl) (Nat.le_0_l _) ltac:(lia) Hf) as (P & D & K).
  destruct (from_reader cu fuel t (cursor input) 0) as [[[n v]|e| |] s]; cbn [fst] in P, D, K; try congruence.
  - destruct (n / 8 <? length input); [|destruct (length input <? n / 8)]; (split; [discriminate|]; split; [discriminate|]); intros w E; try discriminate.
    apply ok_inj in E. subst w. exact (K n v eq_refl).
  - split; [discriminate|]. split; [discriminate|]. discriminate.
Qed.

(** ** Knowing more before, asking less after; safe types *)

Section Mono.
Variables (named : nat -> value -> Prop) (cu : nat -> custom).

Lemma leads_mono {A} sk (g : A -> Prop) m i j i' j' : only_if_known i i' -> only_if_known j' j -> leads sk g m i j -> leads sk g m i' j'.
Proof.
  intros Hi Hj H r x r' Hp E. destruct (H r x r' (place_le _ _ _ Hi Hp) E) as (P & D & K). split; [exact P|]. split; [exact D|]. intros v Ev.
  destruct (K v Ev) as (G & Pl & S). split; [exact G|]. split; [exact (place_le _ _ _ Hj Pl)|exact S].
Qed.
Lemma known_through i i' b m p : only_if_known i i' -> only_if_known ((i && b || m) && p) ((i' && b || m) && p).
Proof. unfold only_if_known. destruct i, i', b, m, p; cbn; intuition. Qed.
Lemma known_magic i i' m : only_if_known i i' -> only_if_known (i || m) (i' || m).
Proof. unfold only_if_known. destruct i, i', m; cbn; intuition. Qed.
Definition ty_mono (t : ty) : Prop := forall sk lim args i j i' j', only_if_known i i' -> only_if_known j' j -> flows_in named cu sk t lim args i j -> flows_in named cu sk t lim args i' j'.
Definition fields_mono (fs : fields) : Prop := forall sk c ctx id acc i j i' j', only_if_known i i' -> only_if_known j' j -> fields_flow_in named cu sk c ctx fs id acc i j ->
  fields_flow_in named cu sk c ctx fs id acc i' j'.
Definition variants_mono (vs : variants) : Prop := forall sk e ctx id i j i' j', only_if_known i i' -> only_if_known j' j -> variants_flow_in named cu sk e ctx id vs i j ->
  variants_flow_in named cu sk e ctx id vs i' j'.
Lemma through4 i i' j j' : only_if_known i i' -> only_if_known j' j -> only_if_known j i -> only_if_known j' i'.
Proof. unfold only_if_known. auto. Qed.
Lemma field_mono sk c a t wire ctx acc i j i' j' (ok ok' : option (limit value) -> list value -> Prop) : only_if_known i i' -> only_if_known j' j ->
  (forall lim args, ok lim args -> ok' lim args) -> field_flows_in named sk c a t wire ctx acc i j ok -> field_flows_in named sk c a t wire ctx acc i' j' ok'.
Proof.
  intros Hi Hj Ho [H1 H2]. split.
  - intros off H. destruct (H1 off H). split; [assumption|]. eapply through4; eassumption.
  - intros off H. destruct (H2 off H) as [H3 H4]. split; [|exact H4]. destruct (a_reader a); [now apply (leads_mono _ _ _ i j)|].
    destruct (a_limit a); [|now apply Ho]. destruct (eval_limit _ _ _ _) as [lim| | |]; try exact I.
    destruct lim; try now apply Ho. destruct (is_vec_u8 t); [|now apply Ho]. destruct H3 as (-> & H3). split; [now apply Hi|exact H3].
Qed.
Theorem flow_mono : (forall t, ty_mono t) /\ (forall fs, fields_mono fs) /\ (forall vs, variants_mono vs).
Proof.
  apply types_ind.
  - intros p sk lim args i j i' j' Hi Hj H. exact H.
  - intros sk lim args i j i' j' Hi Hj H. exact H.
  - intros p sk lim args i j i' j' Hi Hj H. exact H.
  - intros sk lim args i j i' j' Hi Hj H. cbn [flows_in] in *. eapply through4; eassumption.
  - intros sk lim args i j i' j' Hi Hj H. exact H.
  - intros t IH sk lim args i j i' j' Hi Hj H. cbn [flows_in] in *. eapply IH; eassumption.
  - intros a IHa b IHb sk lim args i j i' j' Hi Hj (m & Ha & Hb). exists m. split; [eapply IHa; [exact Hi|apply known_refl|exact Ha]|eapply IHb; [apply known_refl|exact Hj|exact Hb]].
  - intros n t IH sk lim args i j i' j' Hi Hj H. cbn [flows_in] in *. destruct n; [eapply through4; eassumption|].
    destruct H as (m & Hm & H1 & H2). exists m. split; [now apply known_trans with i|]. split; [exact H1|]. eapply IH; [apply known_refl|exact Hj|exact H2].
  - intros k size t IH sk lim args i j i' j' Hi Hj (l & -> & Hf & Hl & H). exists l. split; [reflexivity|]. split; [exact Hf|]. split; [exact Hl|].
    destruct l; [destruct H as (m & Hm & Ht & Hjm)..|destruct H as (m & Ht & Hji & Hjm)]; exists m; (split; [first [exact Ht|now apply known_trans with i]|]); (split; [first [exact Ht|eapply through4; eassumption]|]); now apply known_trans with j.
  - intros c fs IH sk lim args i j i' j' Hi Hj [Hs H]. split; [exact Hs|]. eapply IH; [|exact Hj|exact H].
    pose proof (known_through i i' (seek_in (option_map (fun f => f (ctx_args c args)) (c_seek c))) (nonempty (c_magic c)) true Hi) as K. rewrite !Bool.andb_true_r in K. exact K.
  - intros e idt IHi vs IHv sk lim args i j i' j' Hi Hj H. cbn [flows_in] in *. destruct (en_id e).
    + eapply IHv; [apply known_magic, Hi|exact Hj|exact H].
    + destruct H as (m & H1 & H2). exists m. split; [eapply IHi; [apply known_magic, Hi|apply known_refl|exact H1]|]. intros id Hid. eapply IHv; [apply known_refl|exact Hj|now apply H2].
  - intros k sk lim args i j i' j' Hi Hj [-> H]. split; [reflexivity|]. now apply (leads_mono _ _ _ i j).
  - intros sk c ctx id acc i j i' j' Hi Hj H. cbn [fields_flow_in] in *. eapply through4; eassumption.
  - intros a t IHt wire IHw tl IHtl sk c ctx id acc i j i' j' Hi Hj H. cbn [fields_flow_in] in *.
    match type of H with match id with Some _ => match _ with Some _ => ?P | None => _ end | None => _ end =>
      match goal with |- match id with Some _ => match _ with Some _ => ?Q | None => _ end | None => _ end => assert (HG : P -> Q) end end.
    { intros (H1 & m & H2 & H3). split; [exact H1|]. exists m. split.
      - eapply field_mono; [now apply known_through, Hi|apply known_refl| |exact H2]. intros l args. apply IHw; [now apply known_through|apply known_refl].
      - intros v Hv Ha. eapply IHtl; [apply known_refl|exact Hj|now apply H3]. }
    destruct id; [|exact (HG H)]. destruct (a_reader a); [exact (HG H)|]. destruct H as [H1 H2]. split; [exact H1|]. eapply IHtl; [exact Hi|exact Hj|exact H2].
  - intros sk e ctx id i j i' j' Hi Hj H. exact I.
  - intros v fs IHf tl IHt sk e ctx id i j i' j' Hi Hj [H1 H2]. split; [|eapply IHt; eassumption]. intros H. eapply IHf; [exact Hi|exact Hj|now apply H1].
Qed.

Variable inside : bool.
Lemma seek_known sk s : seek_safe inside sk s -> seek_allowed sk s /\ (inside = true -> seek_in s = true).
Proof.
  destruct s as [[w|]|]; cbn [seek_safe seek_allowed seek_in]; [|tauto|auto]. intros [H1 H2]. split; [exact H1|]. intros H. specialize (H2 H).
  destruct w; [now apply Nat.eqb_eq|now apply Z.leb_le|now apply Z.leb_le].
Qed.
Lemma pad_known p : pad_safe inside p -> inside = true -> pad_in p = true.
Proof. intros H Hi. specialize (H Hi). destruct p; [cbn; now apply Z.ltb_lt|reflexivity]. Qed.
Lemma known_kept b m p : (inside = true -> b = true) -> (inside = true -> p = true) -> only_if_known inside ((inside && b || m) && p).
Proof. intros H1 H2 H. rewrite H, (H1 H), (H2 H). reflexivity. Qed.
Definition ty_known (t : ty) : Prop := forall sk lim args, safe_ty_in named cu inside sk t lim args -> flows_in named cu sk t lim args inside inside.
Definition fields_known (fs : fields) : Prop := forall sk c ctx id acc, fields_safe_in named cu inside sk c ctx fs id acc -> fields_flow_in named cu sk c ctx fs id acc inside inside.
Definition variants_known (vs : variants) : Prop := forall sk e ctx id, variants_safe_in named cu inside sk e ctx id vs -> variants_flow_in named cu sk e ctx id vs inside inside.
Theorem all_known : (forall t, ty_known t) /\ (forall fs, fields_known fs) /\ (forall vs, variants_known vs).
Proof.
  destruct flow_mono as (MT & MF & MV).
  apply types_ind.
  - intros p sk lim args H. exact H.
  - intros sk lim args H. exact H.
  - intros p sk lim args H. exact H.
  - intros sk lim args H. apply known_refl.
  - intros sk lim args H. exact H.
  - intros t IH sk lim args H. apply IH, H.
  - intros a IHa b IHb sk lim args [Ha Hb]. exists inside. split; [now apply IHa|now apply IHb].
  - intros n t IH sk lim args H. cbn [flows_in safe_ty_in] in *. destruct n; [apply known_refl|]. exists inside. split; [apply known_refl|]. split; now apply IH.
  - intros k size t IH sk lim args (l & -> & (Hf & Hl & Hi) & Ht). exists l. split; [reflexivity|]. split; [exact Hf|]. split; [exact Hl|]. apply IH in Ht.
    destruct l; [exists inside; split; [apply known_refl|]; split; [exact Ht|apply known_refl]..|].
    destruct inside; [now elim (Hi eq_refl)|]. exists false. split; [exact Ht|]. split; apply known_refl.
  - intros c fs IH sk lim args [Hs H]. apply seek_known in Hs. destruct Hs as [Hs Hk]. split; [exact Hs|]. eapply MF; [|apply known_refl|apply IH; exact H].
    pose proof (known_kept _ (nonempty (c_magic c)) true Hk (fun _ => eq_refl)) as K. rewrite Bool.andb_true_r in K. exact K.
  - intros e idt IHi vs IHv sk lim args H. cbn [flows_in safe_ty_in] in *. assert (HM : only_if_known inside (inside || nonempty (c_magic (en_c e)))) by (intros ->; reflexivity).
    destruct (en_id e).
    + eapply MV; [exact HM|apply known_refl|apply IHv; exact H].
    + destruct H as [H1 H2]. exists inside. split; [eapply MT; [exact HM|apply known_refl|now apply IHi]|]. intros id Hid. now apply IHv, H2.
  - intros k sk lim args [-> H]. split; [reflexivity|exact H].
  - intros sk c ctx id acc H. apply known_refl.
  - intros a t IHt wire IHw tl IHtl sk c ctx id acc H. cbn [fields_flow_in fields_safe_in] in *.
    match type of H with match id with Some _ => match _ with Some _ => ?P | None => _ end | None => _ end =>
      match goal with |- match id with Some _ => match _ with Some _ => ?Q | None => _ end | None => _ end => assert (HG : P -> Q) end end.
    { intros [(Hs & Hpb & Hpa & Hd & Hn) H2]. apply seek_known in Hs. destruct Hs as [Hs Hk]. split; [exact Hs|]. exists inside.
      assert (K : only_if_known inside ((inside && seek_in (option_map (fun f => f ctx acc) (a_seek a)) || nonempty (a_magic a)) && pad_in (eval0 (a_pad_before a) ctx acc)))
        by (apply known_kept; [exact Hk|now apply pad_known]).
      split.
      - apply field_mono with (i := inside) (j := inside) (ok := fun lim args => safe_ty_in named cu inside sk wire lim args); [exact K|apply known_refl| |].
        + intros lim args Hok. eapply MT; [exact K|apply known_refl|now apply IHw].
        + split; [|exact Hn]. intros off Ho. split; [now apply Hd|apply known_refl].
      - intros v Hv Ha. eapply MF; [|apply known_refl|apply IHtl; now apply H2]. intros Hin. rewrite Hin. cbn [andb]. apply pad_known; auto. }
    destruct id; [|exact (HG H)]. destruct (a_reader a); [exact (HG H)|]. destruct H as [H1 H2]. split; [exact H1|]. now apply IHtl.
  - intros sk e ctx id H. exact I.
  - intros v fs IHf tl IHt sk e ctx id [H1 H2]. split; [|now apply IHt]. intros H. apply IHf. now apply H1.
Qed.
End Mono.
Lemma safe_flows cu inside seeks t lim args : safe_ty cu inside seeks t lim args -> flows cu seeks t lim args true inside.
Proof.
  intros H. apply (proj1 (flow_mono _ _) t seeks lim args inside inside); [apply known_true|apply known_refl|]. now apply (proj1 (all_known _ _ _)).
Qed.
Lemma safe_flow cu t : safe_type cu t -> flow_type cu t.
Proof. intros [inside H]. exists inside. now apply safe_flows. Qed.
