(** Derived readers return and do not panic. *)
From Coq Require Import Lia ZifyBool ZifyNat ZifyN.
From Verif Require Import Base Spec Stream Reader Session Writer WSession Prims BitsFacts NFacts MonadFacts ReaderFacts ReaderOps SessionFacts FastRead CodecSpec CodecFacts Containers ContainerSpec ContainerFacts Safety PrimFacts ContainerProps Derive DeriveSound SafeSpec SafeFacts.
Ltac Zify.zify_post_hook ::= Z.div_mod_to_equations.

Definition runs (fuel : nat) (inside seeks eats : bool) {A} (good : A -> Prop) (m : RM A) : Prop :=
  forall r x r', place inside r -> 8 * length (s_data (r_s r)) + 8 < fuel -> m r = (x, r') ->
    x <> Panic /\ x <> Diverge /\
    forall v, x = Ok v -> good v /\ place inside r' /\ s_data (r_s r') = s_data (r_s r) /\
      (seeks = false -> unread_len (seen r') + (if eats then 1 else 0) <= unread_len (seen r) /\ r_bits r <= r_bits r').

Section Runs.
Variables (fuel : nat) (inside : bool).
Notation runs := (runs fuel inside).
Notation place := (place inside).

Lemma place_wf r : place r -> r_wf r.
Proof. intros (_ & H & _). exact H. Qed.
Lemma place_quiet r : place r -> quiet (r_s r).
Proof. intros (H & _). exact H. Qed.
Lemma peeked_left r : ~ peeked r <-> forall b, r_left r <> Some (LByte b).
Proof. unfold peeked. split; [intros H b E; apply H; eauto|intros H [b E]; now apply (H b)]. Qed.
Lemma place_adv r r' n : place r -> adv r r' n -> unread_len (unread r) = n + unread_len (unread r') -> (inside = true -> ~ peeked r -> ~ peeked r') ->
  place r' /\ s_data (r_s r') = s_data (r_s r) /\ unread_len (seen r') + n = unread_len (seen r) /\ r_bits r' = r_bits r + n.
Proof.
  intros (Hq & Hw & Hm & Hb & Ho & Hi) [(Sd & Se & Sf) Aw Ab Ap Al Av] Hu Hp. rewrite !seen_unread_len.
  split; [|split; [exact Sd|split; [lia|exact Ab]]].
  rewrite <- !rest_left in Ap.
  split; [intros j; rewrite Sf; apply Hq|]. split; [exact Aw|]. split; [|split; [|split]].
  - lia.
  - intros Hn. unfold virt_moved in Av. rewrite Hn in Av. destruct (s_noseek (r_s r)) eqn:En; [discriminate|]. specialize (Hb eq_refl). lia.
  - intros Hl. rewrite <- !seen_unread_len in Hu. unfold seen, unread_len in Hu. cbn [fst snd] in Hu. rewrite !s_avail_length, Sd in Hu. rewrite Sd. unfold r_wf in Aw.
    assert (0 < length (r_rest r')) by (unfold r_rest; destruct (r_left r') as [[b|l]|]; [rewrite byte_bits_length; lia|lia|contradiction]).
    destruct (r_left r) as [x|] eqn:E; [specialize (Ho ltac:(discriminate)); lia|]. unfold r_rest in Hu, Ap. rewrite E in Hu, Ap. cbn [length] in Hu, Ap. unfold r_rest in *. lia.
  - intros Hi'. destruct (Hi Hi') as [Hl Hk]. split; [|apply peeked_left, (Hp Hi'), peeked_left, Hk].
    rewrite <- !seen_unread_len in Hu. unfold seen, unread_len in Hu. cbn [fst snd] in Hu. rewrite !s_avail_length, Sd in Hu. rewrite Sd. lia.
Qed.

Lemma runs_ret {A} sk (good : A -> Prop) a : good a -> runs sk false good (ret a).
Proof.
  intros Hg r x r' Hp Hf E. apply pair_inj in E. destruct E as [<- <-]. split; [discriminate|]. split; [discriminate|].
  intros v Ev. apply ok_inj in Ev. subst v. split; [exact Hg|]. split; [exact Hp|]. split; [reflexivity|]. intros _. lia.
Qed.
Lemma runs_fail {A} sk c (good : A -> Prop) e : runs sk c good (fail e).
Proof.
  intros r x r' Hp Hf E. apply pair_inj in E. destruct E as [<- <-]. split; [discriminate|]. split; [discriminate|]. intros v Ev. discriminate.
Qed.
Lemma runs_lift {A} sk (good : A -> Prop) y : match y with Ok a => good a | Err _ => True | Panic | Diverge => False end -> runs sk false good (lift y).
Proof. destruct y; intros H; try contradiction; [now apply runs_ret|apply runs_fail]. Qed.
Lemma runs_weak {A} sk c c' (good good' : A -> Prop) m : runs sk c good m -> (c' = true -> c = true) -> (forall v, good v -> good' v) -> runs sk c' good' m.
Proof.
  intros H Hc Hg r x r' Hp Hf E. destruct (H r x r' Hp Hf E) as (P & D & K). split; [exact P|]. split; [exact D|]. intros v Ev.
  destruct (K v Ev) as (G & Pl & S & M). split; [auto|]. split; [exact Pl|]. split; [exact S|]. intros Hs. specialize (M Hs).
  destruct c'; [rewrite Hc in M by reflexivity; exact M|]. destruct c; lia.
Qed.
Lemma runs_good {A} sk c (good good' : A -> Prop) m : runs sk c good m -> (forall v, good v -> good' v) -> runs sk c good' m.
Proof. intros H Hg. eapply runs_weak; eauto. Qed.
Lemma runs_seeks {A} sk c (good : A -> Prop) m : runs false c good m -> runs sk c good m.
Proof.
  intros H r x r' Hp Hf E. destruct (H r x r' Hp Hf E) as (P & D & K). split; [exact P|]. split; [exact D|]. intros v Ev.
  destruct (K v Ev) as (G & Pl & S & M). auto.
Qed.
Lemma runs_bind {A B} sk c1 c2 (g1 : A -> Prop) (g2 : B -> Prop) m f : runs sk c1 g1 m -> (forall a, g1 a -> runs sk c2 g2 (f a)) ->
  runs sk (c1 || c2) g2 (bind m f).
Proof.
  intros H1 H2 r x r' Hp Hf E. unfold bind in E. destruct (m r) as [y r1] eqn:E1. destruct (H1 r y r1 Hp Hf E1) as (P & D & K).
  destruct y as [a|e| |]; try congruence.
  - destruct (K a eq_refl) as (G & Pl & S & M). rewrite <- S in Hf. destruct (H2 a G r1 x r' Pl Hf E) as (P2 & D2 & K2).
    split; [exact P2|]. split; [exact D2|]. intros v Ev. destruct (K2 v Ev) as (G2 & Pl2 & S2 & M2).
    split; [exact G2|]. split; [exact Pl2|]. split; [congruence|]. intros Hs. specialize (M Hs). specialize (M2 Hs). destruct c1, c2; cbn [orb]; lia.
  - apply pair_inj in E. destruct E as [<- <-]. split; [discriminate|]. split; [discriminate|]. discriminate.
Qed.
Lemma runs_bindl {A B} sk c (g1 : A -> Prop) (g2 : B -> Prop) m f : runs sk c g1 m -> (forall a, g1 a -> runs sk false g2 (f a)) -> runs sk c g2 (bind m f).
Proof. intros H1 H2. rewrite <- (Bool.orb_false_r c). eapply runs_bind; eassumption. Qed.
Lemma runs_bindr {A B} sk c (g1 : A -> Prop) (g2 : B -> Prop) m f : runs sk false g1 m -> (forall a, g1 a -> runs sk c g2 (f a)) -> runs sk c g2 (bind m f).
Proof. intros H1 H2. rewrite <- (Bool.orb_false_l c). eapply runs_bind; eassumption. Qed.
Lemma runs_map {A B} sk c (g1 : A -> Prop) (g2 : B -> Prop) m (f : A -> B) : runs sk c g1 m -> (forall a, g1 a -> g2 (f a)) -> runs sk c g2 (let* a := m in ret (f a)).
Proof. intros H1 H2. eapply runs_bindl; [exact H1|]. intros a Ha. apply runs_ret. auto. Qed.
Lemma runs_ext {A} sk c (g : A -> Prop) m m' : (forall r, m r = m' r) -> runs sk c g m' -> runs sk c g m.
Proof. intros H H' r x r' Hp Hf E. rewrite H in E. exact (H' r x r' Hp Hf E). Qed.
Lemma runs_at {A} sk c (g : A -> Prop) (m : nat -> RM A) : (forall off, runs sk c g (m off)) -> runs sk c g (fun r => m (r_bits r) r).
Proof. intros H r x r' Hp Hf E. exact (H _ r x r' Hp Hf E). Qed.

Lemma runs_walks {A} sk n (good : A -> Prop) m : safe m -> walks m n -> ranged m good -> runs sk (0 <? n) good m.
Proof.
  intros H1 H2 H3 r x r' Hp Hf E. pose proof (place_wf _ Hp) as Hw. pose proof (place_quiet _ Hp) as Hq.
  destruct (H1 r x r' Hw E) as (P & D & _). split; [exact P|]. split; [exact D|]. intros v ->.
  destruct (H2 r v r' Hw Hq E) as (Ad & U & Pk). destruct (place_adv r r' n Hp Ad U (fun _ H => Pk (or_intror H))) as (Pl & S & Us & B).
  split; [exact (H3 r v r' Hw Hq E)|]. split; [exact Pl|]. split; [exact S|]. intros _. destruct n; cbn [Nat.ltb Nat.leb]; lia.
Qed.
Lemma runs_prim sk p c : 0 < prim_bytes p -> sized c -> runs sk true (fun n => (n < 2 ^ N.of_nat (prim_width p))%N) (prim_read p c).
Proof.
  intros Hp Hs. pose proof (runs_walks sk _ _ _ (safe_prim p c Hp Hs) (walks_prim p c Hp Hs) (prim_range p c Hp Hs)) as H.
  pose proof (prim_size_pos p c Hp Hs). now replace (0 <? prim_size p c) with true in H by lia.
Qed.
Lemma runs_bits sk n o : runs sk false (fun _ => True) (read_bits_into n o).
Proof.
  eapply runs_weak; [apply (runs_walks sk n (fun _ => True)); [apply safe_bits|apply walks_bits|]| |auto]; [now intros ? ? ? ? ? ?|discriminate].
Qed.
Lemma runs_magic sk m : runs sk (nonempty m) (fun _ => True) (read_magic m).
Proof.
  induction m as [|b m IH]; cbn [read_magic nonempty]; [now apply runs_ret|].
  eapply runs_bindl; [apply (runs_prim sk PU8 C0); cbn; lia|]. intros x _. destruct (_ =? _)%N; [|apply runs_fail].
  eapply runs_weak; [exact IH|discriminate|auto].
Qed.

(** ** Seeks and padding *)

Lemma avail_goto s p : s_pos s <= p -> length (s_avail (s_goto s p)) <= length (s_avail s).
Proof. intros H. rewrite !s_avail_length. cbn [s_goto s_data s_pos]. lia. Qed.
Lemma runs_seek sk s : seek_safe inside sk s -> runs sk false (fun _ => True) (read_seek s).
Proof.
  destruct s as [[w|]|]; cbn [seek_safe read_seek]; [|contradiction|intros _; now apply runs_ret]. intros [-> Hi].
  intros r x r' Hp Hf E. pose proof Hp as (Hq & Hw & Hm & Hb & Ho & Hk).
  unfold bind, lift_io, r_seek, s_seek in E. cbn [r_set_left r_s] in E. rewrite Hq in E.
  assert (HP : forall s p, quiet s -> (s_noseek s = None -> s_pos s = p) -> (inside = true -> s_pos s <= length (s_data s)) ->
    place (r_set_bits (r_set_s (r_set_left r None) s) (8 * p))).
  { intros s p Q N I. split; [exact Q|]. split; [exact Logic.I|]. unfold r_rest. cbn [r_set_bits r_set_s r_set_left r_left r_s r_bits length].
    split; [lia|]. split; [intros H; rewrite (N H); lia|]. split; [congruence|]. intros H. split; [auto|discriminate]. }
  destruct (s_noseek (r_s r)) as [v|] eqn:En.
  - destruct (noseek_target v w) as [t|].
    + apply pair_inj in E. destruct E as [<- <-]. split; [discriminate|]. split; [discriminate|]. intros u _. split; [exact I|]. split; [|split; [reflexivity|discriminate]].
      apply HP; [exact Hq|cbn; congruence|]. intros H. apply (Hk H).
    + apply pair_inj in E. destruct E as [<- <-]. split; [discriminate|]. split; discriminate.
  - destruct (seek_target (s_pos (r_s r)) (length (s_data (r_s r))) w) as [t|] eqn:Et.
    + apply pair_inj in E. destruct E as [<- <-]. split; [discriminate|]. split; [discriminate|]. intros u _. split; [exact I|]. split; [|split; [reflexivity|discriminate]].
      apply HP; [exact Hq|reflexivity|]. intros H. specialize (Hi H). destruct (Hk H) as [Hl _]. cbn [s_goto s_tick s_pos s_data].
      destruct w as [n|d|d]; cbn [seek_target] in Et.
      * injection Et as <-. lia.
      * destruct (_ <? 0)%Z eqn:C; [discriminate|]. injection Et as <-. lia.
      * destruct (_ <? 0)%Z eqn:C; [discriminate|]. injection Et as <-. lia.
    + apply pair_inj in E. destruct E as [<- <-]. split; [discriminate|]. split; discriminate.
Qed.
Lemma runs_skip sk n o : (inside = true -> n < 8) -> runs sk false (fun _ => True) (skip_bits n o).
Proof.
  intros Hn. apply runs_seeks. intros r x r' Hp Hf E. unfold skip_bits in E.
  match type of E with bind ?f _ _ = _ => set (first := f) in E end.
  assert (H1 : exists y r1, first r = (y, r1) /\ match y with
     | Ok k => k <= n /\ place r1 /\ s_data (r_s r1) = s_data (r_s r) /\ unread_len (seen r1) <= unread_len (seen r) /\ r_bits r <= r_bits r1 /\
          (8 <= k -> r_bits r1 mod 8 = 0)
     | Err _ => True | _ => False end).
  { subst first. destruct (r_left r) as [[b|bits]|] eqn:HL.
    - exists (Ok n), r. split; [reflexivity|]. split; [lia|]. split; [exact Hp|]. split; [reflexivity|]. split; [lia|]. split; [lia|]. intros _. destruct Hp as (_ & _ & Hm & _). unfold r_rest in Hm. rewrite HL, byte_bits_length in Hm. lia.
    - cbn zeta. destruct (read_bits_into (Nat.min n (length bits)) o r) as [y r1] eqn:E1.
      destruct (runs_bits false (Nat.min n (length bits)) o r y r1 Hp Hf E1) as (P & D & K).
      pose proof (walks_bits (Nat.min n (length bits)) o r) as W. unfold bind. rewrite E1. destruct y as [l|e| |]; try congruence.
      + exists (Ok (n - Nat.min n (length bits))), r1. split; [reflexivity|]. destruct (K l eq_refl) as (_ & Pl & S & M). specialize (M eq_refl).
        split; [lia|]. split; [exact Pl|]. split; [exact S|]. split; [lia|]. split; [lia|]. intros H8.
        destruct (W l r1 (place_wf _ Hp) (place_quiet _ Hp) E1) as (Ad & _). destruct Ad as [_ _ Ab _ _ _].
        destruct Hp as (_ & _ & Hm & _). unfold r_rest in Hm. rewrite HL in Hm. lia.
      + exists (Err e), r1. split; [reflexivity|exact I].
    - exists (Ok n), r. split; [reflexivity|]. split; [lia|]. split; [exact Hp|]. split; [reflexivity|]. split; [lia|]. split; [lia|]. intros _. destruct Hp as (_ & _ & Hm & _). unfold r_rest in Hm. rewrite HL in Hm. cbn [length] in Hm. lia. }
  destruct H1 as (y & r1 & E1 & H1). unfold bind at 1 in E. rewrite E1 in E. destruct y as [k|e| |]; try contradiction.
  2:{ apply pair_inj in E. destruct E as [<- <-]. split; [discriminate|]. split; discriminate. }
  destruct H1 as (Hk & P1 & S1 & U1 & B1 & M1).
  assert (H2 : runs false false (fun _ => True) (let* _ := read_bits_into (k mod 8) o in ret tt)) by (eapply runs_bindl; [apply runs_bits|]; intros; now apply runs_ret).
  assert (HG : forall r2, place r2 -> s_data (r_s r2) = s_data (r_s r1) -> unread_len (seen r2) <= unread_len (seen r1) -> r_bits r1 <= r_bits r2 ->
    (let* _ := read_bits_into (k mod 8) o in ret tt) r2 = (x, r') ->
    x <> Panic /\ x <> Diverge /\ forall v, x = Ok v -> True /\ place r' /\ s_data (r_s r') = s_data (r_s r) /\
      (false = false -> unread_len (seen r') + 0 <= unread_len (seen r) /\ r_bits r <= r_bits r')).
  { intros r2 P2 S2 U2 B2 E2. destruct (H2 r2 x r' P2) as (P & D & K); [congruence|exact E2|]. split; [exact P|]. split; [exact D|].
    intros v Ev. destruct (K v Ev) as (_ & P3 & S3 & M). specialize (M eq_refl). split; [exact I|]. split; [exact P3|]. split; [congruence|]. lia. }
  destruct (k / 8 =? 0) eqn:C.
  { apply (HG r1 P1 eq_refl (le_n _) (le_n _)). exact E. }
  assert (Hin : inside = false) by (destruct inside; [specialize (Hn eq_refl); lia|reflexivity]).
  unfold bind at 1 in E.
  replace (r_bits r1 mod 8 =? 0) with true in E by (symmetry; apply Nat.eqb_eq, M1; lia). cbn [negb] in E.
  pose proof P1 as (Hq & Hw & Hm & Hb & _).
  unfold bind at 1, lift_io, r_seek, s_seek in E. cbn [r_set_left r_s] in E. rewrite Hq in E.
  destruct (s_noseek (r_s r1)) as [v|] eqn:En.
  - cbn [noseek_target] in E. replace (Z.of_nat (k / 8) =? 0)%Z with false in E by lia.
    apply pair_inj in E. destruct E as [<- <-]. split; [discriminate|]. split; discriminate.
  - cbn [seek_target] in E. replace (Z.of_nat (s_pos (r_s r1)) + Z.of_nat (k / 8) <? 0)%Z with false in E by lia.
    cbn [ret] in E. specialize (Hb eq_refl).
    match type of E with bind _ _ ?rr = _ => set (r2 := rr) in E end. apply (HG r2); [| | | |exact E].
    + split; [exact Hq|]. split; [exact I|]. subst r2. unfold r_rest. cbn [r_set_bits r_set_s r_set_left r_left r_s r_bits length s_goto s_tick s_pos s_data s_noseek].
      split; [lia|]. split; [lia|]. split; [congruence|]. rewrite Hin. discriminate.
    + reflexivity.
    + subst r2. unfold seen, unread_len, r_rest. cbn [r_set_bits r_set_s r_set_left r_left r_s r_bits length fst snd]. rewrite !s_avail_length. cbn [s_goto s_tick s_pos s_data]. lia.
    + subst r2. cbn [r_set_bits r_bits]. lia.
Qed.
Lemma runs_pad sk p o : pad_safe inside p -> runs sk false (fun _ => True) (read_pad p o).
Proof.
  intros Hs. destruct p as [z|]; cbn [read_pad]; [|now apply runs_ret]. unfold to_usize. destruct (_ || _) eqn:C; [apply runs_fail|].
  eapply runs_ext; [reflexivity|]. apply runs_skip. intros Hi. specialize (Hs Hi). cbn in Hs. lia.
Qed.

(** ** Byte vectors with a count *)

Lemma runs_bytes_any sk n : inside = true -> runs sk false (fun _ => True) (read_bytes n n Lsb0).
Proof.
  intros Hi r x r' Hp Hf E. pose proof (place_wf _ Hp) as Hw. pose proof (place_quiet _ Hp) as Hq.
  assert (Hk : ~ peeked r) by (apply peeked_left; apply Hp; exact Hi).
  pose proof (read_bytes_unpeeked _ _ _ _ _ _ E Hk) as Hk'. pose proof (read_bytes_spec n n Lsb0 r Hw Hq (le_n n) (fun _ => Hk)) as H.
  destruct (take_bits Lsb0 (8 * n) (unread r)) as [[l u']|] eqn:T.
  - destruct H as (bs & r1 & E1 & _ & Ad & U1). rewrite E1 in E. apply pair_inj in E. destruct E as [<- <-]. split; [discriminate|]. split; [discriminate|].
    intros v _. destruct (take_bits_some_len _ _ _ _ _ T) as [? ?].
    destruct (place_adv r r1 (8 * n) Hp Ad) as (Pl & S & Us & B); [rewrite U1; lia|auto|]. split; [exact I|]. split; [exact Pl|]. split; [exact S|]. intros _. lia.
  - destruct H as (e & r1 & E1 & _). rewrite E1 in E. apply pair_inj in E. destruct E as [<- <-]. split; [discriminate|]. split; discriminate.
Qed.
Lemma runs_exact sk n : inside = true -> (8 * n <= usize_max)%N -> runs sk false (fun _ => True) (read_exact_vec n).
Proof.
  intros Hi Hn r x r' Hp Hf E. pose proof Hp as (Hq & Hw & Hm & Hb & Ho & Hk). destruct (Hk Hi) as [Hl Hpk].
  destruct (s_noseek (r_s r)) as [v|] eqn:En.
  - unfold read_exact_vec, bind, inner_seek, lift_io, s_seek in E. rewrite Hq, En in E. cbn [noseek_target Z.eqb r_set_s r_s s_tick s_noseek s_fault s_calls] in E.
    rewrite Hq, En in E. apply pair_inj in E. destruct E as [<- <-]. split; [discriminate|]. split; discriminate.
  - destruct (read_exact_unfold n r Hq En) as (r1 & (Q1 & N1 & D1 & P1 & L1 & B1 & E1) & EE). rewrite EE in E. cbv zeta in E.
    replace (length (s_data (r_s r)) <? s_pos (r_s r)) with false in E by lia.
    assert (Pl : place r1).
    { split; [exact Q1|]. unfold valid, r_rest in *. rewrite L1, B1, P1, D1, N1. split; [exact Hw|]. split; [exact Hm|]. split; [exact Hb|]. split; [exact Ho|exact Hk]. }
    destruct (_ <? n)%N; [|].
    + replace (usize_max <? n * 8)%N with false in E by lia. apply pair_inj in E. destruct E as [<- <-]. split; [discriminate|]. split; discriminate.
    + destruct (runs_bytes_any sk (N.to_nat n) Hi r1 x r' Pl) as (P & D & K); [congruence|exact E|]. split; [exact P|]. split; [exact D|]. intros u Eu.
      destruct (K u Eu) as (_ & P2 & S2 & M). split; [exact I|]. split; [exact P2|]. split; [congruence|]. intros Hs. specialize (M Hs).
      rewrite <- (same_seen r r1 D1 P1 L1), <- B1. exact M.
Qed.

(** ** Loops *)

Lemma seen_bound r : place r -> unread_len (seen r) <= 8 * length (s_data (r_s r)) + 8.
Proof.
  intros (_ & Hw & _). unfold seen, unread_len. cbn [fst snd]. rewrite s_avail_length. unfold valid, r_rest in *.
  destruct (r_left r) as [[b|l]|]; [rewrite byte_bits_length; lia|lia|cbn [length]; lia].
Qed.
Definition count_stop {A} (n : N) : nat -> list A -> bool := fun _ acc => (N.of_nat (length acc) =? n)%N.
Lemma loop_runs {A} (elem : RM A) eats (good : A -> Prop) stop start : runs false eats good elem ->
  forall f acc r x r', place r -> 8 * length (s_data (r_s r)) + 8 < fuel -> start <= r_bits r -> Forall good acc ->
  (eats = true /\ unread_len (seen r) < f) \/ (exists n, stop = count_stop n /\ N.to_nat n = length acc + f /\ 0 < f) ->
  vec_loop f elem stop start acc r = (x, r') ->
  x <> Panic /\ x <> Diverge /\ forall l, x = Ok l -> Forall good l /\ place r' /\ s_data (r_s r') = s_data (r_s r) /\
    unread_len (seen r') + (if eats then 1 else 0) <= unread_len (seen r) /\ r_bits r <= r_bits r'.
Proof.
  intros He. induction f as [|f IH]; intros acc r x r' Hp Hf Hs Ha Hm E; [exfalso; destruct Hm as [[_ H]|(n & _ & _ & H)]; lia|].
  cbn [vec_loop] in E. unfold bind in E. destruct (elem r) as [y r1] eqn:E1. destruct (He r y r1 Hp Hf E1) as (P & D & K).
  destruct y as [v|e| |]; try congruence.
  2:{ apply pair_inj in E. destruct E as [<- <-]. split; [discriminate|]. split; discriminate. }
  destruct (K v eq_refl) as (G & Pl & S & M). destruct (M eq_refl) as [M1 M2].
  replace (r_bits r1 <? start) with false in E by lia.
  assert (Ha' : Forall good (acc ++ [v])) by (apply Forall_app; split; [exact Ha|now repeat constructor]).
  destruct (stop (r_bits r1 - start) (acc ++ [v])) eqn:C.
  - apply pair_inj in E. destruct E as [<- <-]. split; [discriminate|]. split; [discriminate|]. intros l El. apply ok_inj in El. subst l. auto.
  - destruct (IH (acc ++ [v]) r1 x r' Pl) as (P2 & D2 & K2); [congruence|lia|exact Ha'| |exact E|].
    + destruct Hm as [[-> Hm]|(n & -> & Hn & _)]; [left; split; [reflexivity|lia]|].
      right. exists n. unfold count_stop in C. rewrite app_length in *. cbn [length] in *. split; [reflexivity|]. lia.
    + split; [exact P2|]. split; [exact D2|]. intros l El. destruct (K2 l El) as (G2 & Pl2 & S2 & M3). split; [exact G2|]. split; [exact Pl2|]. split; [congruence|].
      destruct eats; lia.
Qed.
Lemma end_runs {A} (elem : RM A) (good : A -> Prop) : inside = false -> runs false true good elem ->
  forall f acc r x r', place r -> 8 * length (s_data (r_s r)) + 8 < fuel -> Forall good acc -> unread_len (seen r) < f ->
  end_loop f elem acc r = (x, r') ->
  x <> Panic /\ x <> Diverge /\ forall l, x = Ok l -> Forall good l /\ place r' /\ s_data (r_s r') = s_data (r_s r) /\
    unread_len (seen r') <= unread_len (seen r) /\ r_bits r <= r_bits r'.
Proof.
  intros Hi He. induction f as [|f IH]; intros acc r x r' Hp Hf Ha Hm E; [lia|].
  cbn [end_loop] in E. destruct (r_end_spec r (place_wf _ Hp) (place_quiet _ Hp)) as (r0 & E0 & A0 & U0).
  destruct (place_adv r r0 0 Hp A0) as (P0 & S0 & Us0 & B0); [now rewrite U0|rewrite Hi; discriminate|].
  rewrite E0 in E. destruct (_ =? 0).
  - apply pair_inj in E. destruct E as [<- <-]. split; [discriminate|]. split; [discriminate|]. intros l El. apply ok_inj in El. subst l. split; [exact Ha|]. split; [exact P0|]. split; [exact S0|]. lia.
  - unfold bind in E. destruct (elem r0) as [y r1] eqn:E1. destruct (He r0 y r1 P0) as (P & D & K); [congruence|exact E1|].
    destruct y as [v|e| |]; try congruence.
    2:{ apply pair_inj in E. destruct E as [<- <-]. split; [discriminate|]. split; discriminate. }
    destruct (K v eq_refl) as (G & Pl & S & M). destruct (M eq_refl) as [M1 M2].
    destruct (IH (acc ++ [v]) r1 x r' Pl) as (P2 & D2 & K2); [congruence| | |exact E|].
    + apply Forall_app; split; [exact Ha|now repeat constructor].
    + lia.
    + split; [exact P2|]. split; [exact D2|]. intros l El. destruct (K2 l El) as (G2 & Pl2 & S2 & M3). split; [exact G2|]. split; [exact Pl2|]. split; [congruence|]. lia.
Qed.

Lemma runs_predicate {A} (elem : RM A) eats (good : A -> Prop) stop size cap f : runs false eats good elem ->
  match cap with Some c => (c * size <= isize_max)%N | None => True end ->
  (size <> 0%N -> (eats = true /\ f = fuel) \/ exists n, stop = count_stop n /\ N.to_nat n = f /\ 0 < f) ->
  runs false ((0 <? size)%N && eats) (Forall good) (vec_with_predicate f size cap elem stop).
Proof.
  intros He Hc Hm. unfold vec_with_predicate. destruct (size =? 0)%N eqn:C.
  { replace (0 <? size)%N with false by lia. now apply runs_ret. }
  replace (0 <? size)%N with true by lia. cbn [andb].
  replace (match cap with Some c => (isize_max <? c * size)%N | None => false end) with false by (destruct cap; [symmetry; lia|reflexivity]).
  intros r x r' Hp Hf E. assert (Hs : size <> 0%N) by lia.
  destruct (loop_runs elem eats good stop (r_bits r) He f [] r x r' Hp Hf (le_n _) (Forall_nil _)) as (P & D & K); [|exact E|].
  - destruct (Hm Hs) as [[H ->]|(n & H1 & H2 & H3)]; [left; split; [exact H|]; pose proof (seen_bound r Hp); lia|right; exists n; auto].
  - split; [exact P|]. split; [exact D|]. intros l El. destruct (K l El) as (G & Pl & S & M). auto.
Qed.
Lemma runs_vec {A} (elem : RM A) eats (good : A -> Prop) size lim : runs false eats good elem ->
  limit_fits size lim -> (loops lim -> size <> 0%N -> eats = true) -> (inside = true -> lim <> LEnd) ->
  runs false false (Forall good) (vec_read fuel size elem lim).
Proof.
  intros He Hf Hl Hi. destruct lim as [n|p|n|n|]; cbn [vec_read limit_fits loops] in *.
  - destruct (n =? 0)%N eqn:C; [now apply runs_ret|]. eapply runs_ext; [reflexivity|].
    eapply runs_weak; [apply (runs_predicate elem eats good (count_stop n) size (Some n) (N.to_nat n) He Hf)|discriminate|auto].
    intros _. right. exists n. split; [reflexivity|]. lia.
  - eapply runs_weak; [apply (runs_predicate elem eats good _ size None fuel He I)|discriminate|auto]. auto.
  - destruct (_ <? _)%N eqn:C1; [lia|]. destruct (_ =? _)%N; [now apply runs_ret|].
    eapply runs_weak; [apply (runs_predicate elem eats good _ size None fuel He I)|discriminate|auto]. auto.
  - destruct (_ =? _)%N; [now apply runs_ret|].
    eapply runs_weak; [apply (runs_predicate elem eats good _ size None fuel He I)|discriminate|auto]. auto.
  - unfold vec_to_end. destruct (size =? 0)%N eqn:C; [now apply runs_ret|]. rewrite Hl in He by (exact I || lia).
    assert (Hin : inside = false) by (destruct inside; [now destruct (Hi eq_refl)|reflexivity]).
    intros r x r' Hp Hfu E. destruct (end_runs elem good Hin He fuel [] r x r' Hp Hfu (Forall_nil _)) as (P & D & K); [pose proof (seen_bound r Hp); lia|exact E|].
    split; [exact P|]. split; [exact D|]. intros l El. destruct (K l El) as (G & Pl & S & M). split; [exact G|]. split; [exact Pl|]. split; [exact S|]. lia.
Qed.

(** ** Strings and arrays *)

Definition string_char (x : value) : Prop := match x with VNum n => (0 < n < 256)%N | _ => False end.
Lemma nul_chars l s : Forall (fun n => (n < 256)%N) l -> from_vec_with_nul l = Some s -> Forall string_char (map VNum s).
Proof.
  intros Hl E. apply from_nul_inv in E. destruct E as [-> Hs]. apply Forall_app in Hl. destruct Hl as [Hl _].
  induction Hs as [|x s Hx Hs IH]; [constructor|]. inversion Hl; subst. constructor; [cbn; lia|auto].
Qed.
Lemma runs_to_cstring sk l : Forall (fun n => (n < 256)%N) l -> runs sk false (fun s => Forall string_char (map VNum s)) (to_cstring l).
Proof. intros Hl. unfold to_cstring. destruct (from_vec_with_nul l) as [s|] eqn:E; [apply runs_ret; eapply nul_chars; eassumption|apply runs_fail]. Qed.
Lemma runs_byte sk : runs sk true (fun n => (n < 256)%N) (prim_read PU8 C0).
Proof. exact (runs_prim sk PU8 C0 ltac:(cbn; lia) I). Qed.
Lemma runs_cstring sk : runs sk true (fun s => Forall string_char (map VNum s)) (read_cstring fuel).
Proof.
  unfold read_cstring. eapply runs_bindl with (g1 := Forall (fun n => (n < 256)%N)); [|intros l Hl; now apply runs_to_cstring]. cbn [vec_read]. apply runs_seeks.
  apply (runs_predicate _ true _ _ 1%N None fuel (runs_byte false) I). auto.
Qed.
Lemma runs_cstring_bytes sk n : (n <= isize_max)%N -> runs sk true (fun s => Forall string_char (map VNum s)) (read_cstring_bytes n).
Proof.
  intros Hn. unfold read_cstring_bytes. cbn [vec_read]. destruct (n =? 0)%N eqn:C.
  - eapply runs_ext; [intros r; apply bind_ret_l|]. apply runs_fail.
  - eapply runs_bindl with (g1 := Forall (fun n => (n < 256)%N)); [|intros l Hl; now apply runs_to_cstring]. apply runs_seeks. eapply runs_ext; [reflexivity|].
    apply (runs_predicate _ true _ _ 1%N (Some n) (N.to_nat n) (runs_byte false)); [lia|].
    intros _. right. exists n. split; [reflexivity|]. lia.
Qed.
Lemma runs_array {A} sk c (good : A -> Prop) n elem : runs sk c good elem ->
  runs sk ((0 <? n) && c) (fun l => length l = n /\ Forall good l) (read_array n elem).
Proof.
  intros He. induction n as [|n IH]; cbn [read_array]; [now apply runs_ret|].
  change (0 <? S n) with true. cbn [andb]. eapply runs_bindl; [exact He|]. intros v Hv.
  eapply runs_bindl; [eapply runs_weak; [exact IH|discriminate|intros l Hl; exact Hl]|]. intros l [Hl1 Hl2]. apply runs_ret.
  cbn [length]. split; [now f_equal|now constructor].
Qed.
Lemma runs_check sk (b : bool) : runs sk false (fun _ => b = true) (check b).
Proof. destruct b; [now apply runs_ret|apply runs_fail]. Qed.
Lemma runs_asserts sk a ctx acc off v : runs sk false (fun _ => asserted a ctx acc v) (asserts a ctx acc off v).
Proof.
  unfold asserts. eapply runs_bindl with (g1 := fun _ => asserted a ctx acc v).
  - unfold asserted. destruct (a_assert a) as [f|]; [|apply runs_ret; discriminate].
    eapply runs_good; [apply runs_check|]. intros ? H g Hg. injection Hg as <-. exists off. exact H.
  - intros ? H. destruct (a_assert_eq a) as [f|]; [|now apply runs_ret]. eapply runs_good; [apply runs_check|]. auto.
Qed.

(** ** Derived types *)

Variables (named : nat -> value -> Prop) (cu : nat -> custom).
Local Notation typed := (typed_in named).
Local Notation fields_typed := (fields_typed_in named).
Local Notation variant_typed := (variant_typed_in named).
Local Notation field_safe := (field_safe_in named).
Local Notation safe_ty := (safe_ty_in named).
Local Notation fields_safe := (fields_safe_in named).
Local Notation variants_safe := (variants_safe_in named).
Definition ty_runs (t : ty) : Prop := forall sk lim args, safe_ty cu inside sk t lim args -> runs sk (consumes t) (typed t) (read_ty cu fuel t lim args).
Definition fields_run (fs : fields) : Prop := forall sk c ctx id acc, fields_safe cu inside sk c ctx fs id acc ->
  runs sk (match id with None => fields_consume fs | Some _ => false end) (fields_typed fs) (fields_read cu fuel c ctx fs id acc).
Definition variants_run (vs : variants) : Prop := forall sk e ctx id k all default, variants_safe cu inside sk e ctx id vs ->
  (forall j l, variant_typed vs j l -> variant_typed all (k + j) l) ->
  match default with Some m => runs sk false (typed (TEnum e TUnit all)) m | None => True end ->
  runs sk false (typed (TEnum e TUnit all)) (variants_read cu fuel e ctx id vs k default).

Lemma behaves_runs {A} sk (good : A -> Prop) m : behaves inside sk good m -> runs sk false good m.
Proof.
  intros H r x r' Hp Hf E. destruct (H r x r' Hp E) as (P & D & K). split; [exact P|]. split; [exact D|]. intros v Ev.
  destruct (K v Ev) as (G & Pl & S & M). split; [exact G|]. split; [exact Pl|]. split; [exact S|]. intros Hs. specialize (M Hs). lia.
Qed.
Lemma tokens_run sk c a t wire ctx acc off : ty_runs wire ->
  field_safe inside sk c a t wire ctx acc (fun lim args => safe_ty cu inside sk wire lim args) ->
  runs sk (always_read a && negb (is_vec_u8 t) && consumes wire) (typed t)
    (field_read_tokens a ctx acc off
       (field_read_normal a ctx acc off (field_read_func c a (is_vec_u8 t) ctx acc off (fun lim args => read_ty cu fuel wire lim args)))).
Proof.
  intros IH (Hs & Hpb & Hpa & Hd & Hn).
  assert (HN : takes_default a ctx acc off = false ->
    runs sk (negb (match a_reader a with Some _ => true | None => false end) && negb (is_vec_u8 t) && consumes wire) (typed t)
      (field_read_normal a ctx acc off (field_read_func c a (is_vec_u8 t) ctx acc off (fun lim args => read_ty cu fuel wire lim args)))).
  { intros HF. destruct (Hn off HF) as [Hr Hm]. unfold field_read_normal. eapply runs_bindl with (g1 := typed wire).
    - unfold field_read_func. destruct (a_reader a) as [f|]; cbn [negb andb]; [now apply behaves_runs|].
      destruct (a_limit a) as [l|].
      2:{ eapply runs_weak; [now apply IH| |auto]. intros H. destruct (is_vec_u8 t); [discriminate|exact H]. }
      destruct (eval_limit l ctx acc off) as [lim|e| |] eqn:El.
      + eapply runs_ext; [intros r; unfold lift; apply (bind_ret_l lim _ r)|].
        assert (HG : safe_ty cu inside sk wire (Some lim) (field_args c a ctx acc off) ->
          runs sk (negb (is_vec_u8 t) && consumes wire) (typed wire) (read_ty cu fuel wire (Some lim) (field_args c a ctx acc off))).
        { intros H. eapply runs_weak; [now apply IH| |auto]. intros H2. destruct (is_vec_u8 t); [discriminate|exact H2]. }
        destruct lim; try (destruct (is_vec_u8 t); now apply HG).
        destruct (is_vec_u8 t) eqn:Ev; [|now apply HG]. destruct Hr as (Hi & Hn8 & Hty). cbn [negb andb].
        eapply runs_bindl; [now apply runs_exact|]. intros bs _. now apply runs_ret.
      + eapply runs_ext; [intros r; reflexivity|]. apply runs_fail.
      + exfalso. unfold eval_limit in El. destruct l; try destruct (to_usize _); discriminate.
      + exfalso. unfold eval_limit in El. destruct l; try destruct (to_usize _); discriminate.
    - intros v Hv. specialize (Hm v Hv). destruct (a_map a) as [f|]; [now apply runs_lift|now apply runs_ret]. }
  specialize (Hd off). unfold takes_default in HN, Hd. unfold field_read_tokens, always_read.
  destruct (a_skip a) as [[| |]|], (a_cond a) as [f|]; cbn [andb] in *.
  + destruct (f ctx acc off); [destruct (a_reader a); apply runs_ret; auto|]. destruct (a_reader a); (eapply runs_weak; [now apply HN|discriminate|auto]).
  + destruct (a_reader a); apply runs_ret; auto.
  + destruct (f ctx acc off); [destruct (a_reader a); apply runs_ret; auto|]. destruct (a_reader a); (eapply runs_weak; [now apply HN|discriminate|auto]).
  + destruct (a_reader a); apply runs_ret; auto.
  + specialize (HN eq_refl). destruct (a_reader a); exact HN.
  + specialize (HN eq_refl). destruct (a_reader a); exact HN.
  + destruct (f ctx acc off); [|destruct (a_reader a); apply runs_ret; auto]. destruct (a_reader a); (eapply runs_weak; [now apply HN|discriminate|auto]).
  + specialize (HN eq_refl). destruct (a_reader a); exact HN.
Qed.
Lemma field_runs sk c a t wire ctx acc : ty_runs wire ->
  field_safe inside sk c a t wire ctx acc (fun lim args => safe_ty cu inside sk wire lim args) ->
  runs sk (nonempty (a_magic a) || (always_read a && negb (is_vec_u8 t) && consumes wire)) (fun v => typed t v /\ asserted a ctx acc v)
    (read_field c a (is_vec_u8 t) ctx acc (fun lim args => read_ty cu fuel wire lim args)).
Proof.
  intros IH HS. pose proof HS as (Hs & Hpb & Hpa & _ & _). unfold read_field.
  eapply runs_bindr; [now apply runs_seek|]. intros _ _. eapply runs_bind; [apply runs_magic|]. intros _ _.
  eapply runs_bindr; [now apply runs_pad|]. intros _ _.
  apply (runs_at sk _ _ (fun off =>
    let* v := field_read_tokens a ctx acc off
                (field_read_normal a ctx acc off (field_read_func c a (is_vec_u8 t) ctx acc off (fun lim args => read_ty cu fuel wire lim args))) in
    let* _ := asserts a ctx acc off v in
    let* _ := read_pad (eval0 (a_pad_after a) ctx (acc ++ [v])) (field_order c a ctx acc) in
    ret v)). intros off.
  eapply runs_bindl with (g1 := typed t).
  - now apply tokens_run.
  - intros v Hv. eapply runs_bindl; [apply runs_asserts|]. intros ? Has. eapply runs_bindl; [apply runs_pad; auto|]. intros _ _. now apply runs_ret.
Qed.

Theorem all_run : (forall t, ty_runs t) /\ (forall fs, fields_run fs) /\ (forall vs, variants_run vs).
Proof.
  apply types_ind.
  - intros p sk lim args (-> & Hp & c & Hc & Hs). cbn [read_ty consumes]. unfold with_pctx. rewrite Hc.
    eapply runs_map; [now apply runs_prim|]. auto.
  - intros sk lim args (-> & c & Hc & Hs). cbn [read_ty consumes]. unfold with_pctx. rewrite Hc. unfold read_bool.
    eapply runs_map with (g1 := fun _ => True); [|intros b _; exact I]. eapply runs_bindl; [apply runs_prim; [cbn; lia|exact Hs]|]. intros n _.
    destruct (n =? 1)%N; [now apply runs_ret|]. destruct (n =? 0)%N; [now apply runs_ret|apply runs_fail].
  - intros p sk lim args (-> & Hp & c & Hc & Hs). cbn [read_ty consumes]. unfold with_pctx. rewrite Hc. unfold read_nonzero.
    eapply runs_map with (g1 := fun n => (0 < n < 2 ^ N.of_nat (prim_width p))%N); [|auto].
    eapply runs_bindl; [now apply runs_prim|]. intros n Hn. cbv beta in Hn |- *. destruct (n =? 0)%N eqn:C; [apply runs_fail|apply runs_ret]. split; [lia|exact Hn].
  - intros sk lim args _. now apply runs_ret.
  - intros sk lim args (-> & [->|(n & -> & Hn)]); cbn [read_ty consumes].
    + eapply runs_map; [apply runs_cstring|]. intros s Hs. exact Hs.
    + eapply runs_map; [now apply runs_cstring_bytes|]. intros s Hs. exact Hs.
  - intros t IH sk lim args H. cbn [read_ty consumes safe_ty_in] in *. eapply runs_map; [now apply IH|]. auto.
  - intros a IHa b IHb sk lim args [Ha Hb]. cbn [read_ty consumes]. eapply runs_bind; [now apply IHa|]. intros x Hx.
    eapply runs_map; [now apply IHb|]. cbn; auto.
  - intros n t IH sk lim args H. cbn [read_ty consumes safe_ty_in] in *. eapply runs_map; [apply runs_array; now apply IH|]. auto.
  - intros pl size t IH sk lim args (l & -> & (Hf & Hl & Hi) & Ht). cbn [read_ty consumes]. eapply runs_map.
    + apply runs_seeks. eapply runs_vec; [now apply IH|exact Hf|exact Hl|exact Hi].
    + intros l' Hl'. cbn [typed_in]. split; [now apply collect_forall|apply collect_is_distinct].
  - intros c fs IH sk lim args [Hs Hf]. rewrite read_struct. cbn [consumes]. eapply runs_bindr; [now apply runs_seek|]. intros _ _.
    eapply runs_bind; [apply runs_magic|]. intros _ _. eapply runs_map; [now apply (IH sk c (ctx_args c args) None [])|]. auto.
  - intros e idt IHi vs IHv sk lim args H. rewrite read_enum. cbn [consumes safe_ty_in] in *.
    assert (HT : forall v, typed (TEnum e TUnit vs) v -> typed (TEnum e idt vs) v) by (intros []; auto).
    eapply runs_bind; [apply runs_magic|]. intros _ _. destruct (en_id e) as [f|].
    + eapply runs_ext; [intros r; apply bind_ret_l|]. eapply runs_good; [|exact HT].
      apply (IHv sk e _ _ 0 vs None); [exact H|intros j l Hj; exact Hj|exact I].
    + destruct H as [Hi Hv]. eapply runs_bindl; [now apply IHi|]. intros id Hid. eapply runs_good; [|exact HT].
      apply (IHv sk e _ _ 0 vs None); [now apply Hv|intros j l Hj; exact Hj|exact I].
  - intros k sk lim args [-> H]. cbn [read_ty consumes]. eapply runs_good; [apply behaves_runs; exact H|]. intros []; exact (fun Hv => Hv).
  - intros sk c ctx id acc _. cbn [fields_read fields_consume]. destruct id; now apply runs_ret.
  - intros a t IHt wire IHw tl IHtl sk c ctx id acc H. rewrite read_cons. cbn [fields_safe_in fields_consume] in *.
    assert (HG : field_safe inside sk c a t wire ctx acc (fun lim args => safe_ty cu inside sk wire lim args) /\
       (forall v, typed t v -> asserted a ctx acc v -> fields_safe cu inside sk c ctx tl None (acc ++ [v])) ->
      runs sk (nonempty (a_magic a) || (always_read a && negb (is_vec_u8 t) && consumes wire) || fields_consume tl) (fields_typed (FCons a t wire tl))
       (let* v := read_field c a (is_vec_u8 t) ctx acc (fun lim args => read_ty cu fuel wire lim args) in
        let* vs := fields_read cu fuel c ctx tl None (acc ++ [v]) in ret (if a_temp a then vs else v :: vs))).
    { intros [H1 H2]. eapply runs_bind; [now apply field_runs|]. intros v [Hv Ha]. eapply runs_map; [apply (IHtl sk c ctx None); now apply H2|].
      intros l Hl. cbn [fields_typed_in]. destruct (a_temp a); auto. }
    destruct id as [x|]; [|exact (HG H)]. destruct (a_reader a) as [f|] eqn:Er.
    + eapply runs_weak; [exact (HG H)|discriminate|auto].
    + destruct H as [Hx Hr]. eapply runs_ext; [intros r; apply bind_ret_l|].
      eapply runs_weak with (good := fields_typed (FCons a t wire tl)); [|discriminate|intros v Hv; exact Hv].
      eapply runs_map; [now apply (IHtl sk c ctx None)|]. intros l Hl. cbn [fields_typed_in]. destruct (a_temp a); auto.
  - intros sk e ctx id k all default _ _ Hd. cbn [variants_read]. destruct default; [exact Hd|apply runs_fail].
  - intros v fs IHf tl IHt sk e ctx id k all default [H1 H2] Hk Hd. rewrite read_variant.
    assert (HB : matches (v_sel v) id || v_default v = true ->
      runs sk false (typed (TEnum e TUnit all)) (let* l := fields_read cu fuel (en_c e) ctx fs (if stores_id e v then Some id else None) [] in ret (VVar k l))).
    { intros H. eapply runs_weak with (good := typed (TEnum e TUnit all)); [|discriminate|intros u Hu; exact Hu]. eapply runs_map; [apply IHf; now apply H1|]. intros l Hl. cbn [typed_in].
      rewrite <- (Nat.add_0_r k). apply Hk. exact Hl. }
    destruct (matches (v_sel v) id) eqn:Em; [now apply HB|]. apply IHt; [exact H2| |].
    + intros j l Hj. replace (S k + j) with (k + S j) by lia. apply Hk. exact Hj.
    + destruct default as [m|]; [exact Hd|]. destruct (v_default v); [now apply HB|exact I].
Qed.
End Runs.

(** ** The container API *)

Lemma place_new inside s : quiet s -> (inside = true -> s_pos s <= length (s_data s)) -> place inside (reader_new s).
Proof.
  intros Hq Hi. split; [exact Hq|]. split; [exact I|]. split; [reflexivity|]. split; [cbn; lia|]. split; [cbn; congruence|].
  intros H. split; [exact (Hi H)|]. cbn. discriminate.
Qed.
Lemma safe_reader cu fuel inside seeks t lim args r : safe_ty cu inside seeks t lim args -> place inside r -> 8 * length (s_data (r_s r)) + 8 < fuel ->
  let x := fst (read_ty cu fuel t lim args r) in x <> Panic /\ x <> Diverge /\ forall v, x = Ok v -> typed t v.
Proof.
  intros Hs Hp Hf. destruct (read_ty cu fuel t lim args r) as [x r'] eqn:E. cbn [fst].
  destruct (proj1 (all_run fuel inside _ cu) t seeks lim args Hs r x r' Hp Hf E) as (P & D & K).
  split; [exact P|]. split; [exact D|]. intros v Hv. exact (proj1 (K v Hv)).
Qed.
Lemma safe_from_reader cu fuel t s bit : safe_type cu t -> quiet s -> s_pos s <= length (s_data s) -> bit < 8 -> 8 * length (s_data s) + 8 < fuel ->
  let x := fst (from_reader cu fuel t s bit) in x <> Panic /\ x <> Diverge /\ forall n v, x = Ok (n, v) -> typed t v.
Proof.
  intros [inside Hs] Hq Hpos Hb Hf. unfold from_reader.
  assert (H : runs fuel inside true false (fun nv : nat * value => typed t (snd nv))
    (let* _ := if bit =? 0 then ret tt else skip_bits bit Msb0 in let* v := read_ty cu fuel t None [] in fun r => (Ok (r_bits r, v), r))).
  { eapply runs_bindr with (g1 := fun _ => True).
    - destruct (bit =? 0); [now apply runs_ret|]. apply runs_skip. auto.
    - intros _ _. eapply runs_bindr with (g1 := typed t).
      + eapply runs_weak; [exact (proj1 (all_run fuel inside _ cu) t true None [] Hs)|discriminate|auto].
      + intros v Hv. intros r x r' Hp _ E. apply pair_inj in E. destruct E as [<- <-]. split; [discriminate|]. split; [discriminate|].
        intros nv E. apply ok_inj in E. subst nv. split; [exact Hv|]. split; [exact Hp|]. split; [reflexivity|]. discriminate. }
  match goal with |- context [(?m (reader_new s))] => destruct (m (reader_new s)) as [x r'] eqn:E end. cbn [fst].
  destruct (H (reader_new s) x r' (place_new inside s Hq (fun _ => Hpos)) Hf E) as (P & D & K).
  split; [exact P|]. split; [exact D|]. intros n v Hv. exact (proj1 (K _ Hv)).
Qed.
Lemma safe_from_bytes cu fuel t input bit : safe_type cu t -> bit < 8 -> 8 * length input + 8 < fuel ->
  let x := from_bytes cu fuel t input bit in x <> Panic /\ x <> Diverge /\ forall rest v, x = Ok (rest, v) -> typed t v.
Proof.
  intros Hs Hb Hf. cbv zeta. unfold from_bytes.
  destruct (safe_from_reader cu fuel t (cursor input) bit Hs (fun _ => eq_refl) (Nat.le_0_l _) Hb Hf) as (P & D & K).
  destruct (from_reader cu fuel t (cursor input) bit) as [[[n v]|e| |] s]; cbn [fst] in P, D, K; try congruence.
  - destruct (n / 8 <=? length input); (split; [discriminate|]; split; [discriminate|]); intros rest w E; [|discriminate].
    apply ok_inj, pair_inj in E. destruct E as [_ <-]. exact (K n v eq_refl).
  - split; [discriminate|]. split; [discriminate|]. discriminate.
Qed.
Lemma safe_try_from cu fuel t input : safe_type cu t -> 8 * length input + 8 < fuel ->
  let x := try_from cu fuel t input in x <> Panic /\ x <> Diverge /\ forall v, x = Ok v -> typed t v.
Proof.
  intros Hs Hf. cbv zeta. unfold try_from.
  destruct (safe_from_reader cu fuel t (cursor input) 0 Hs (fun _ => eq_refl) (Nat.le_0_l _) ltac:(lia) Hf) as (P & D & K).
  destruct (from_reader cu fuel t (cursor input) 0) as [[[n v]|e| |] s]; cbn [fst] in P, D, K; try congruence.
  - destruct (n / 8 <? length input); [|destruct (length input <? n / 8)]; (split; [discriminate|]; split; [discriminate|]); intros w E; try discriminate.
    apply ok_inj in E. subst w. exact (K n v eq_refl).
  - split; [discriminate|]. split; [discriminate|]. discriminate.
Qed.

(** ** Proving that a type is safe *)

Lemma to_usize_small z : (0 <= z < 2 ^ 64)%Z -> to_usize z = Some (Z.to_N z).
Proof.
  intros H. unfold to_usize. replace ((z <? 0)%Z || (Z.of_N usize_max <? z)%Z) with false; [reflexivity|].
  symmetry. apply Bool.orb_false_iff. split; apply Z.ltb_ge; [lia|]. change (Z.of_N usize_max) with (2 ^ 64 - 1)%Z. lia.
Qed.
Ltac safe_step :=
  match goal with
  | |- _ /\ _ => split
  | |- True => exact I
  | |- field_safe_in _ _ _ _ _ _ _ _ _ _ => unfold field_safe_in; cbn
  | |- exists c, Some _ = Some c /\ _ => eexists; split; [reflexivity|]
  | |- ?x = ?x => reflexivity
  | |- pad_safe _ _ => intro; cbn
  | |- sized _ => cbn; lia
  | |- _ => progress intros
  | |- _ => discriminate
  | |- _ => assumption
  | |- match ?v with _ => _ end => is_var v; destruct v; try contradiction
  | |- _ => lia
  end.
