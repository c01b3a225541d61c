(** Derived readers do not panic, whichever calls fail, and return if finitely many do. *)
From Coq Require Import Lia ZifyBool ZifyNat ZifyN.
From Verif Require Import Base Spec Stream Reader Session Writer WSession Prims BitsFacts NFacts MonadFacts ReaderFacts ReaderOps SessionFacts FastRead CodecSpec CodecFacts Containers ContainerSpec ContainerFacts Safety PrimFacts ContainerProps Derive DeriveSound SafeSpec SafeFacts DeriveSafe FaultSpec SpendFacts.
Ltac Zify.zify_post_hook ::= Z.div_mod_to_equations.

(** ** Integers *)

Lemma exact_length n r bs r' : r_io n r = (IoOk bs, r') -> length bs = n.
Proof.
  unfold r_io, s_read_exact. destruct (s_fault _ _) as [[? ?]|]; [discriminate|]. destruct (n <=? _) eqn:C; [|discriminate]. intros E. apply pair_inj in E. destruct E as [E _].
  injection E as <-. rewrite firstn_length. lia.
Qed.
Lemma bytes_length n b o r v r' : 0 < n <= b -> valid r -> read_bytes n b o r = (Ok v, r') -> length v = n.
Proof.
  intros Hn Hv E. rewrite leftover_len in E by exact Hn. unfold read_bytes in E. destruct (r_left r) as [[c|l]|] eqn:HL.
  - unfold read_bytes_leftover in E. replace (n =? 0) with false in E by lia. apply bind_inv in E. destruct E as (u & r1 & E1 & E).
    apply pair_inj in E1. destruct E1 as [_ <-]. destruct (n - 1 =? 0) eqn:C1.
    + apply bind_inv in E. destruct E as (u1 & r2 & E2 & E). apply pair_inj in E. destruct E as [E _]. apply ok_inj in E. subst v. cbn [length]. lia.
    + destruct (n <? n - 1); [discriminate|]. destruct (n <? n); [discriminate|]. destruct (r_io (n - 1) (r_set_left r None)) as [[bs|e] r1] eqn:E1; [|discriminate].
      apply exact_length in E1. apply pair_inj in E. destruct E as [E _]. apply ok_inj in E. subst v. cbn [length]. lia.
  - destruct (n <? n); [discriminate|]. unfold read_bytes_bits in E. apply bind_inv in E. destruct E as (bits & r1 & E1 & E). apply pair_inj in E. destruct E as [E _].
    apply ok_inj in E. subst v. destruct (read_bits_into_frame _ _ _ _ _ Hv E1) as (_ & _ & _ & _ & _ & HN). specialize (HN bits eq_refl).
    destruct o; rewrite ?rev_length, bytes_of_bits_length; unfold ceil8; lia.
  - destruct (n <? n); [discriminate|]. destruct (r_io n r) as [[bs|e] r1] eqn:E1; [|discriminate]. apply exact_length in E1. apply pair_inj in E. destruct E as [E _].
    apply ok_inj in E. now subst v.
Qed.
Lemma uint_not_peeked n r v r' : valid r -> read_bits_uint_msb0 n r = (Ok v, r') -> ~ peeked r'.
Proof.
  intros Hv E. unfold read_bits_uint_msb0 in E. apply bind_inv in E. destruct E as (u & r0 & E0 & E). unfold assert_ in E0. destruct (_ && _) eqn:Hn; [|discriminate].
  apply pair_inj in E0. destruct E0 as [_ <-]. destruct (match r_left r with Some _ => _ | None => _ end) as [acc have]. apply bind_inv in E. destruct E as ([a h] & r1 & E1 & E).
  cbv zeta in E. apply bind_inv in E. destruct E as (u2 & r2 & E2 & E). apply bind_inv in E. destruct E as (u3 & r3 & E3 & E).
  apply pair_inj in E3. destruct E3 as [_ <-]. apply pair_inj in E. destruct E as [_ <-].
  destruct (uint_loop_frame n n acc have (r_set_left r None) _ r1 ltac:(lia) E1) as (L1 & _).
  destruct (_ =? 0) in E2; apply pair_inj in E2; destruct E2 as [_ <-]; intros [b H]; cbn in H; [rewrite L1 in H|]; discriminate.
Qed.

Section Goes.
Variable N0 : nat.
Definition goes {A} (m : RM A) (n : nat) (good : A -> Prop) : Prop :=
  forall r v r', valid r -> m r = (Ok v, r') -> spent N0 r r' n /\ good v /\ (0 < n \/ ~ peeked r -> ~ peeked r').
Lemma goes_then {A B} (m : RM A) n (g : A -> Prop) (f : A -> res B) (good : B -> Prop) : goes m n g -> (forall a b, g a -> f a = Ok b -> good b) ->
  goes (let* a := m in lift (f a)) n good.
Proof.
  intros H Hg r v r' Hv E. apply bind_inv in E. destruct E as (a & r1 & E1 & E2). apply pair_inj in E2. destruct E2 as [E2 <-].
  destruct (H r a r1 Hv E1) as (S & G & P). split; [exact S|]. split; [exact (Hg a v G E2)|exact P].
Qed.
Lemma goes_ret {A B} (m : RM A) n (g : A -> Prop) (f : A -> B) (good : B -> Prop) : goes m n g -> (forall a, g a -> good (f a)) -> goes (let* a := m in ret (f a)) n good.
Proof. intros H Hg. apply (goes_then m n g (fun a => Ok (f a)) good H). intros a b Ha E. apply ok_inj in E. subst b. auto. Qed.
Lemma goes_bits n o : goes (read_bits_into n o) n (fun _ => True).
Proof.
  intros r v r' Hv E. split; [exact (spends_bits N0 n o r v r' Hv E)|]. split; [exact I|].
  intros [H|H]; [apply (bits_unpeeked n o r (Ok v)); [lia|exact E]|exact (read_bits_into_unpeeked _ _ _ _ _ E H)].
Qed.
Lemma goes_uint n : goes (read_bits_uint_msb0 n) n (fun _ => True).
Proof. intros r v r' Hv E. split; [exact (spends_uint N0 n r v r' Hv E)|]. split; [exact I|]. intros _. exact (uint_not_peeked n r v r' Hv E). Qed.
Lemma goes_bytes n b o : 0 < n <= b -> goes (read_bytes n b o) (8 * n) (fun bs => length bs = n).
Proof.
  intros Hn r v r' Hv E. split; [exact (spends_bytes_in N0 n b o Hn r v r' Hv E)|]. split; [exact (bytes_length n b o r v r' Hn Hv E)|].
  intros _. apply (bytes_unpeeked n b o r v); [lia|exact E].
Qed.
Lemma goes_if {A} (b : bool) (m1 m2 : RM A) n good : (b = true -> goes m1 n good) -> (b = false -> goes m2 n good) -> goes (if b then m1 else m2) n good.
Proof. destruct b; auto. Qed.
Lemma goes_fail {A} e n (good : A -> Prop) : goes (fail e) n good.
Proof. intros r v r' Hv E. discriminate. Qed.
Theorem goes_prim p c : 0 < prim_bytes p -> sized c -> goes (prim_read p c) (prim_size p c) (fun n => (n < 2 ^ N.of_nat (prim_width p))%N).
Proof.
  intros Hp Hs.
  assert (HY : forall e n o, 0 < n -> goes (read_eyo p e n o) (8 * match p with PU8 => 1 | _ => n end) (fun n => (n < 2 ^ N.of_nat (prim_width p))%N)).
  { intros e n o Hn.
    assert (HZ : forall wb, goes (if wb <? n then fail Parse else let* bs := read_bytes n wb o in
         ret (match e with Little => from_le (bs ++ repeat x00 (wb - n)) | Big => from_be (repeat x00 (wb - n) ++ bs) end)) (8 * n) (fun v => (v < 2 ^ N.of_nat (8 * wb))%N)).
    { intros wb. apply goes_if; intros C; [apply goes_fail|]. eapply goes_ret; [apply goes_bytes; lia|]. intros bs Hb. cbv beta in Hb.
      destruct e; [apply (from_e_lt Little)|apply (from_e_lt Big)]; rewrite app_length, repeat_length; lia. }
    destruct p; cbn [read_eyo]; unfold read_u8_bytes, read_bytes_sized, read_bytes_const.
    - eapply goes_ret; [apply (goes_bytes 1 1 o); lia|]. intros bs Hb. cbv beta in Hb. apply (from_e_lt Big bs 1). lia.
    - apply HZ.
    - apply HZ. }
  assert (HU : forall wb e n o, goes (read_u_bits wb e n o) n (fun n => (n < 2 ^ N.of_nat (8 * wb))%N)).
  { intros wb e n o. unfold read_u_bits. apply goes_if; intros C; [apply goes_fail|].
    assert (HS : goes (let* bits := read_bits_into n o in lift (u_of_bits wb e n o bits)) n (fun v => (v < 2 ^ N.of_nat (8 * wb))%N)).
    { eapply goes_then; [apply goes_bits|]. intros a b _ E. eapply u_of_bits_lt. exact E. }
    destruct e, o; try exact HS. apply goes_if; intros C2; [|exact HS]. eapply goes_ret; [apply goes_uint|]. intros a _. apply N.mod_lt, pow2_nz. }
  assert (HB : forall e n o, goes (read_ebo p e n o) n (fun n => (n < 2 ^ N.of_nat (prim_width p))%N)).
  { intros e n o. destruct p as [|wb|wb]; cbn [read_ebo]; [apply (HU 1)|apply (HU wb)|]. unfold read_i_bits. apply goes_if; intros C; [apply goes_fail|].
    eapply goes_then; [apply goes_bits|]. intros a b _ E. apply res_bind_ok in E. destruct E as (u & _ & E). apply sign_extend_lt in E. exact E. }
  assert (HE : forall e, goes (read_e p e) (prim_width p) (fun n => (n < 2 ^ N.of_nat (prim_width p))%N)).
  { intros e. unfold read_e, read_bytes_const. eapply goes_ret; [apply goes_bytes; lia|]. intros bs Hb. cbv beta in Hb. unfold prim_width. apply from_e_lt. lia. }
  assert (HW : prim_width p = 8 * match p with PU8 => 1 | _ => prim_bytes p end) by (destruct p; reflexivity).
  destruct c; cbn [prim_read sized prim_size] in *; try apply HE; try apply HB; try (apply HY; assumption).
  all: try match goal with |- goes (read_eyo _ ?e (prim_bytes ?q) ?o) _ _ => pose proof (HY e (prim_bytes q) o Hp) as H; rewrite <- HW in H; exact H end.
  all: destruct (n mod 8 =? 0) eqn:Hm; [|apply HB; assumption].
  all: replace (match p with PU8 => 8 | _ => n end) with (8 * match p with PU8 => 1 | _ => n / 8 end) by (destruct p; lia); apply HY; lia.
Qed.
End Goes.

Definition fplace (N0 : nat) (ends inside : bool) (r : reader) : Prop :=
  valid r /\ (r_bits r + length (r_rest r)) mod 8 = 0 /\ (ends = true -> calm N0 (r_s r)) /\
  (inside = true -> s_pos (r_s r) <= length (s_data (r_s r)) /\ forall b, r_left r <> Some (LByte b)).
Definition fruns (N0 fuel : nat) (ends inside seeks eats : bool) {A} (good : A -> Prop) (m : RM A) : Prop :=
  forall r x r', fplace N0 ends inside r -> (ends = true -> 8 * length (s_data (r_s r)) + 8 + 9 * N0 < fuel) -> m r = (x, r') ->
    x <> Panic /\ (ends = true -> x <> Diverge) /\
    forall v, x = Ok v -> good v /\ fplace N0 ends inside r' /\ s_data (r_s r') = s_data (r_s r) /\
      (seeks = false -> (ends = true -> mu N0 r' + (if eats then 1 else 0) <= mu N0 r) /\ r_bits r <= r_bits r').

Section Runs.
Variables (N0 fuel : nat) (ends inside : bool).
Notation runs := (fruns N0 fuel ends inside).
Notation place := (fplace N0 ends inside).
Notation mu := (mu N0).

Lemma place_spent r r' n : place r -> valid r' -> spent N0 r r' n -> (inside = true -> ~ peeked r -> ~ peeked r') ->
  place r' /\ s_data (r_s r') = s_data (r_s r) /\ (ends = true -> mu r' + n <= mu r) /\ r_bits r' = r_bits r + n.
Proof.
  intros (Hv & Hm & Hc & Hi) Hv' Hs Hp. pose proof (spent_calm _ _ _ _ Hs) as Hc'. destruct Hs as ((Sd & _ & _) & Ps & U & M & B).
  split; [|split; [exact Sd|split; [auto|exact B]]].
  split; [exact Hv'|]. split; [lia|]. split; [auto|]. intros H. destruct (Hi H) as [Hl Hk]. split; [auto|]. apply peeked_left, (Hp H), peeked_left, Hk.
Qed.

Lemma runs_ret {A} sk (good : A -> Prop) a : good a -> runs sk false good (ret a).
Proof.
  intros Hg r x r' Hp Hf E. apply pair_inj in E. destruct E as [<- <-]. split; [discriminate|]. split; [discriminate|].
  intros v Ev. apply ok_inj in Ev. subst v. split; [exact Hg|]. split; [exact Hp|]. split; [reflexivity|]. intros _. lia.
Qed.
Lemma runs_fail {A} sk c (good : A -> Prop) e : runs sk c good (fail e).
Proof.
  intros r x r' Hp Hf E. apply pair_inj in E. destruct E as [<- <-]. split; [discriminate|]. split; [discriminate|]. intros v Ev. discriminate.
Qed.
Lemma runs_lift {A} sk (good : A -> Prop) y : match y with Ok a => good a | Err _ => True | Panic | Diverge => False end -> runs sk false good (lift y).
Proof. destruct y; intros H; try contradiction; [now apply runs_ret|apply runs_fail]. Qed.
Lemma runs_weak {A} sk c c' (good good' : A -> Prop) m : runs sk c good m -> (c' = true -> c = true) -> (forall v, good v -> good' v) -> runs sk c' good' m.
Proof.
  intros H Hc Hg r x r' Hp Hf E. destruct (H r x r' Hp Hf E) as (P & D & K). split; [exact P|]. split; [exact D|]. intros v Ev.
  destruct (K v Ev) as (G & Pl & S & M). split; [auto|]. split; [exact Pl|]. split; [exact S|]. intros Hs. destruct (M Hs) as [M1 M2]. split; [|exact M2].
  intros He. specialize (M1 He). destruct c'; [rewrite Hc in M1 by reflexivity; exact M1|]. destruct c; lia.
Qed.
Lemma runs_good {A} sk c (good good' : A -> Prop) m : runs sk c good m -> (forall v, good v -> good' v) -> runs sk c good' m.
Proof. intros H Hg. eapply runs_weak; eauto. Qed.
Lemma runs_seeks {A} sk c (good : A -> Prop) m : runs false c good m -> runs sk c good m.
Proof.
  intros H r x r' Hp Hf E. destruct (H r x r' Hp Hf E) as (P & D & K). split; [exact P|]. split; [exact D|]. intros v Ev.
  destruct (K v Ev) as (G & Pl & S & M). auto.
Qed.
Lemma runs_bind {A B} sk c1 c2 (g1 : A -> Prop) (g2 : B -> Prop) m f : runs sk c1 g1 m -> (forall a, g1 a -> runs sk c2 g2 (f a)) ->
  runs sk (c1 || c2) g2 (bind m f).
Proof.
  intros H1 H2 r x r' Hp Hf E. unfold bind in E. destruct (m r) as [y r1] eqn:E1. destruct (H1 r y r1 Hp Hf E1) as (P & D & K).
  destruct y as [a|e| |]; try congruence.
  - destruct (K a eq_refl) as (G & Pl & S & M). rewrite <- S in Hf. destruct (H2 a G r1 x r' Pl Hf E) as (P2 & D2 & K2).
    split; [exact P2|]. split; [exact D2|]. intros v Ev. destruct (K2 v Ev) as (G2 & Pl2 & S2 & M2).
    split; [exact G2|]. split; [exact Pl2|]. split; [congruence|]. intros Hs. destruct (M Hs) as [U B1]. destruct (M2 Hs) as [U2 B2]. split; [|lia].
    intros He. specialize (U He). specialize (U2 He). destruct c1, c2; cbn [orb]; lia.
  - apply pair_inj in E. destruct E as [<- <-]. split; [discriminate|]. split; [discriminate|]. discriminate.
  - apply pair_inj in E. destruct E as [<- <-]. split; [discriminate|]. split; [intros He; now destruct (D He)|]. discriminate.
Qed.
Lemma runs_bindl {A B} sk c (g1 : A -> Prop) (g2 : B -> Prop) m f : runs sk c g1 m -> (forall a, g1 a -> runs sk false g2 (f a)) -> runs sk c g2 (bind m f).
Proof. intros H1 H2. rewrite <- (Bool.orb_false_r c). eapply runs_bind; eassumption. Qed.
Lemma runs_bindr {A B} sk c (g1 : A -> Prop) (g2 : B -> Prop) m f : runs sk false g1 m -> (forall a, g1 a -> runs sk c g2 (f a)) -> runs sk c g2 (bind m f).
Proof. intros H1 H2. rewrite <- (Bool.orb_false_l c). eapply runs_bind; eassumption. Qed.
Lemma runs_map {A B} sk c (g1 : A -> Prop) (g2 : B -> Prop) m (f : A -> B) : runs sk c g1 m -> (forall a, g1 a -> g2 (f a)) -> runs sk c g2 (let* a := m in ret (f a)).
Proof. intros H1 H2. eapply runs_bindl; [exact H1|]. intros a Ha. apply runs_ret. auto. Qed.
Lemma runs_ext {A} sk c (g : A -> Prop) m m' : (forall r, m r = m' r) -> runs sk c g m' -> runs sk c g m.
Proof. intros H H' r x r' Hp Hf E. rewrite H in E. exact (H' r x r' Hp Hf E). Qed.
Lemma runs_at {A} sk c (g : A -> Prop) (m : nat -> RM A) : (forall off, runs sk c g (m off)) -> runs sk c g (fun r => m (r_bits r) r).
Proof. intros H r x r' Hp Hf E. exact (H _ r x r' Hp Hf E). Qed.

Lemma runs_goes {A} sk n (good : A -> Prop) m : safe m -> goes N0 m n good -> runs sk (0 <? n) good m.
Proof.
  intros H1 H2 r x r' Hp Hf E. pose proof Hp as (Hv & _). destruct (H1 r x r' Hv E) as (P & D & V). split; [exact P|]. split; [auto|]. intros v ->.
  destruct (H2 r v r' Hv E) as (S & G & K). destruct (place_spent r r' n Hp V S (fun _ H => K (or_intror H))) as (Pl & Sd & U & B).
  split; [exact G|]. split; [exact Pl|]. split; [exact Sd|]. intros _. split; [|lia]. intros He. specialize (U He). destruct n; cbn [Nat.ltb Nat.leb]; lia.
Qed.
Lemma runs_prim sk p c : 0 < prim_bytes p -> sized c -> runs sk true (fun n => (n < 2 ^ N.of_nat (prim_width p))%N) (prim_read p c).
Proof.
  intros Hp Hs. pose proof (runs_goes sk _ _ _ (safe_prim p c Hp Hs) (goes_prim N0 p c Hp Hs)) as H.
  pose proof (prim_size_pos p c Hp Hs). now replace (0 <? prim_size p c) with true in H by lia.
Qed.
Lemma runs_bits sk n o : runs sk false (fun _ => True) (read_bits_into n o).
Proof. eapply runs_weak; [apply (runs_goes sk n (fun _ => True)); [apply safe_bits|apply goes_bits]|discriminate|auto]. Qed.
Lemma runs_magic sk m : runs sk (nonempty m) (fun _ => True) (read_magic m).
Proof.
  induction m as [|b m IH]; cbn [read_magic nonempty]; [now apply runs_ret|].
  eapply runs_bindl; [apply (runs_prim sk PU8 C0); cbn; lia|]. intros x _. destruct (_ =? _)%N; [|apply runs_fail].
  eapply runs_weak; [exact IH|discriminate|auto].
Qed.

(** ** Seeks and padding *)

Lemma runs_r_seek w : (inside = true -> match w with SeekStart n => n = 0 | SeekCurrent d | SeekEnd d => (d <= 0)%Z end) ->
  runs true false (fun _ => True) (lift_io (r_seek w)).
Proof.
  intros Hi r x r' Hp Hf E. pose proof Hp as (Hv & Hm & Hc & Hk). unfold lift_io, r_seek in E. cbn [r_set_left r_s] in E.
  destruct (s_seek w (r_s r)) as [y s] eqn:Es. destruct y as [p|e].
  2:{ apply pair_inj in E. destruct E as [<- <-]. split; [discriminate|]. split; discriminate. }
  apply pair_inj in E. destruct E as [<- <-]. split; [discriminate|]. split; [discriminate|]. intros v _. split; [exact I|].
  assert (HS : same_source (r_s r) s /\ (inside = true -> s_pos s <= length (s_data s))).
  { unfold s_seek in Es. destruct (s_fault _ _) as [[? ?]|]; [discriminate|]. destruct (s_noseek (r_s r)) as [v0|].
    - destruct (noseek_target v0 w); [|discriminate]. apply pair_inj in Es. destruct Es as [_ <-]. split; [repeat split|]. intros H. apply (Hk H).
    - destruct (seek_target (s_pos (r_s r)) (length (s_data (r_s r))) w) as [t|] eqn:Et; [|discriminate]. apply pair_inj in Es. destruct Es as [_ <-]. split; [repeat split|].
      intros H. specialize (Hi H). destruct (Hk H) as [Hl _]. cbn [s_goto s_tick s_pos s_data].
      destruct w as [n|d|d]; cbn [seek_target] in Et.
      * injection Et as <-. lia.
      * destruct (_ <? 0)%Z eqn:C; [discriminate|]. injection Et as <-. lia.
      * destruct (_ <? 0)%Z eqn:C; [discriminate|]. injection Et as <-. lia. }
  destruct HS as ((Sd & Se & Sf) & Hin). split; [|split; [exact Sd|discriminate]].
  split; [exact I|]. unfold r_rest. cbn [r_set_bits r_set_s r_set_left r_left r_s r_bits length]. split; [lia|]. split; [intros He j Hj; rewrite Sf; exact (Hc He j Hj)|].
  intros H. split; [auto|discriminate].
Qed.
Lemma runs_seek sk s : seek_safe inside sk s -> runs sk false (fun _ => True) (read_seek s).
Proof.
  destruct s as [[w|]|]; cbn [seek_safe read_seek]; [|contradiction|intros _; now apply runs_ret]. intros [-> Hi].
  eapply runs_bindl; [now apply runs_r_seek|]. intros _ _. now apply runs_ret.
Qed.
Lemma runs_skip sk n o : (inside = true -> n < 8) -> (sk = false -> n < 8) -> runs sk false (fun _ => True) (skip_bits n o).
Proof.
  intros Hn Hsk r x r' Hp Hf E. unfold skip_bits in E.
  match type of E with bind ?f _ _ = _ => set (first := f) in E end.
  assert (H1 : exists y r1, first r = (y, r1) /\ match y with
     | Ok k => k <= n /\ place r1 /\ s_data (r_s r1) = s_data (r_s r) /\ (ends = true -> mu r1 <= mu r) /\ r_bits r <= r_bits r1 /\
          (8 <= k -> r_bits r1 mod 8 = 0)
     | Err _ => True | _ => False end).
  { subst first. destruct (r_left r) as [[b|bits]|] eqn:HL.
    - exists (Ok n), r. split; [reflexivity|]. split; [lia|]. split; [exact Hp|]. split; [reflexivity|]. split; [lia|]. split; [lia|]. intros _. destruct Hp as (_ & Hm & _). unfold r_rest in Hm. rewrite HL, byte_bits_length in Hm. lia.
    - cbn zeta. destruct (read_bits_into (Nat.min n (length bits)) o r) as [y r1] eqn:E1. pose proof Hp as (Hv & _).
      destruct (safe_bits _ _ _ _ _ Hv E1) as (P0 & D0 & V0).
      destruct (runs_bits false (Nat.min n (length bits)) o r y r1 Hp Hf E1) as (P & D & K).
      pose proof (goes_bits N0 (Nat.min n (length bits)) o r) as W. unfold bind. rewrite E1. destruct y as [l|e| |]; try congruence.
      + exists (Ok (n - Nat.min n (length bits))), r1. split; [reflexivity|]. destruct (K l eq_refl) as (_ & Pl & S & M). destruct (M eq_refl) as [M1 M2].
        split; [lia|]. split; [exact Pl|]. split; [exact S|]. split; [intros He; specialize (M1 He); lia|]. split; [lia|]. intros H8.
        destruct (W l r1 Hv E1) as ((_ & _ & _ & _ & Ab) & _). destruct Hp as (_ & Hm & _). unfold r_rest in Hm. rewrite HL in Hm. lia.
      + exists (Err e), r1. split; [reflexivity|exact I].
    - exists (Ok n), r. split; [reflexivity|]. split; [lia|]. split; [exact Hp|]. split; [reflexivity|]. split; [lia|]. split; [lia|]. intros _. destruct Hp as (_ & Hm & _). unfold r_rest in Hm. rewrite HL in Hm. cbn [length] in Hm. lia. }
  destruct H1 as (y & r1 & E1 & H1). unfold bind at 1 in E. rewrite E1 in E. destruct y as [k|e| |]; try contradiction.
  2:{ apply pair_inj in E. destruct E as [<- <-]. split; [discriminate|]. split; discriminate. }
  destruct H1 as (Hk & P1 & S1 & U1 & B1 & M1).
  assert (H2 : forall sk, runs sk false (fun _ => True) (let* _ := read_bits_into (k mod 8) o in ret tt)) by (intros sk'; eapply runs_bindl; [apply runs_bits|]; intros; now apply runs_ret).
  rewrite <- S1 in Hf. destruct (k / 8 =? 0) eqn:C.
  { destruct (H2 sk r1 x r' P1 Hf E) as (P & D & K). split; [exact P|]. split; [exact D|]. intros v Ev. destruct (K v Ev) as (_ & P3 & S3 & M). split; [exact I|]. split; [exact P3|]. split; [congruence|].
    intros Hs. destruct (M Hs) as [Ma Mb]. split; [|lia]. intros He. specialize (Ma He). specialize (U1 He). lia. }
  assert (Hin : inside = false) by (destruct inside; [specialize (Hn eq_refl); lia|reflexivity]).
  assert (sk = true) as -> by (destruct sk; [reflexivity|specialize (Hsk eq_refl); lia]).
  unfold bind at 1 in E. replace (r_bits r1 mod 8 =? 0) with true in E by (symmetry; apply Nat.eqb_eq, M1; lia). cbn [negb] in E.
  change ((let* _ := (let* _ := lift_io (r_seek (SeekCurrent (Z.of_nat (k / 8)))) in ret tt) in let* _ := read_bits_into (k mod 8) o in ret tt) r1 = (x, r')) in E.
  assert (H3 : runs true false (fun _ => True) (let* _ := (let* _ := lift_io (r_seek (SeekCurrent (Z.of_nat (k / 8)))) in ret tt) in let* _ := read_bits_into (k mod 8) o in ret tt)).
  { eapply runs_bindl with (g1 := fun _ => True); [|intros _ _; apply H2]. eapply runs_bindl; [apply runs_r_seek; rewrite Hin; discriminate|]. intros _ _. now apply runs_ret. }
  destruct (H3 r1 x r' P1 Hf E) as (P & D & K). split; [exact P|]. split; [exact D|]. intros v Ev. destruct (K v Ev) as (_ & P3 & S3 & _). split; [exact I|]. split; [exact P3|]. split; [congruence|discriminate].
Qed.
Lemma runs_pad sk p o : pad_safe inside p -> (sk = false -> below_a_byte p) -> runs sk false (fun _ => True) (read_pad p o).
Proof.
  intros Hs Hk. destruct p as [z|]; cbn [read_pad]; [|now apply runs_ret]. unfold to_usize. destruct (_ || _) eqn:C; [apply runs_fail|].
  eapply runs_ext; [reflexivity|]. apply runs_skip; intros Hi; [specialize (Hs Hi); cbn in Hs|specialize (Hk Hi); cbn in Hk]; lia.
Qed.

(** ** Byte vectors with a count *)

Lemma runs_bytes_any sk n : inside = true -> runs sk false (fun _ => True) (read_bytes n n Lsb0).
Proof.
  intros Hi r x r' Hp Hf E. pose proof Hp as (Hv & Hm & Hc & Hk). destruct (Hk Hi) as [Hl Hb].
  pose proof (read_bytes_unpeeked _ _ _ _ _ _ E (proj2 (peeked_left r) Hb)) as Hk'.
  destruct (read_bytes_frame n Lsb0 r x r' Hv E) as (W & _ & _ & D & P).
  assert (HP : x <> Panic).
  { destruct (Nat.eq_dec n 0) as [->|Hn]; [|apply P; lia]. unfold read_bytes in E. destruct (r_left r) as [[c|l]|]; [now destruct (Hb c)| |].
    - change (0 <? 0) with false in E. cbn iota in E. unfold read_bytes_bits, bind, read_bits_into in E. cbn in E. apply pair_inj in E. destruct E as [<- _]. discriminate.
    - change (0 <? 0) with false in E. cbn iota in E. destruct (r_io 0 r) as [[] r1]; apply pair_inj in E; destruct E as [<- _]; discriminate. }
  split; [exact HP|]. split; [auto|]. intros v ->. pose proof (spends_bytes N0 n Lsb0 r v r' Hv E) as S.
  destruct (place_spent r r' _ Hp W S (fun _ _ => Hk')) as (Pl & Sd & U & B). split; [exact I|]. split; [exact Pl|]. split; [exact Sd|]. intros _. split; [|lia].
  intros He. specialize (U He). lia.
Qed.
Lemma inner_inv w r y r1 : inner_seek w r = (y, r1) -> y <> Panic /\ y <> Diverge /\ forall p, y = Ok p ->
  r_left r1 = r_left r /\ r_bits r1 = r_bits r /\ same_source (r_s r) (r_s r1) /\ s_noseek (r_s r1) = s_noseek (r_s r) /\ s_calls (r_s r1) = S (s_calls (r_s r)) /\
  match s_noseek (r_s r) with
  | Some v => noseek_target v w = Some p
  | None => seek_target (s_pos (r_s r)) (length (s_data (r_s r))) w = Some p /\ s_pos (r_s r1) = p
  end.
Proof.
  unfold inner_seek, lift_io, s_seek. destruct (s_fault _ _) as [[? ?]|].
  { intros E. apply pair_inj in E. destruct E as [<- <-]. split; [discriminate|]. split; discriminate. }
  destruct (s_noseek (r_s r)) as [v|] eqn:En.
  - destruct (noseek_target v w) as [t|]; intros E; apply pair_inj in E; destruct E as [<- <-]; (split; [discriminate|]); (split; [discriminate|]); intros p H; [|discriminate].
    apply ok_inj in H. subst t. cbn. rewrite En. repeat split.
  - destruct (seek_target _ _ w) as [t|]; intros E; apply pair_inj in E; destruct E as [<- <-]; (split; [discriminate|]); (split; [discriminate|]); intros p H; [|discriminate].
    apply ok_inj in H. subst t. cbn. rewrite En. repeat split.
Qed.
Lemma runs_exact sk n : inside = true -> (8 * n <= usize_max)%N -> runs sk false (fun _ => True) (read_exact_vec n).
Proof.
  intros Hi Hn r x r' Hp Hf E. pose proof Hp as (Hv & Hm & Hc & Hk). destruct (Hk Hi) as [Hl Hpk].
  unfold read_exact_vec in E. unfold bind at 1 in E. destruct (inner_seek _ r) as [y1 r1] eqn:E1. destruct (inner_inv _ _ _ _ E1) as (P1 & D1 & K1).
  destruct y1 as [p1|e| |]; try congruence; [|apply pair_inj in E; destruct E as [<- <-]; split; [discriminate|]; split; discriminate].
  unfold bind at 1 in E. destruct (inner_seek _ r1) as [y2 r2] eqn:E2. destruct (inner_inv _ _ _ _ E2) as (P2 & D2 & K2).
  destruct y2 as [p2|e| |]; try congruence; [|apply pair_inj in E; destruct E as [<- <-]; split; [discriminate|]; split; discriminate].
  unfold bind at 1 in E. destruct (inner_seek _ r2) as [y3 r3] eqn:E3. destruct (inner_inv _ _ _ _ E3) as (P3 & D3 & K3).
  destruct y3 as [p3|e| |]; try congruence; [|apply pair_inj in E; destruct E as [<- <-]; split; [discriminate|]; split; discriminate].
  destruct (K1 _ eq_refl) as (L1 & B1 & (S1 & _ & F1) & N1 & C1 & T1), (K2 _ eq_refl) as (L2 & B2 & (S2 & _ & F2) & N2 & C2 & T2), (K3 _ eq_refl) as (L3 & B3 & (S3 & _ & F3) & N3 & C3 & T3).
  rewrite N2, N1 in T3. rewrite N1 in T2. destruct (s_noseek (r_s r)) as [v|] eqn:En; [discriminate|].
  destruct T1 as [T1 Q1], T2 as [T2 Q2], T3 as [T3 Q3]. cbn [seek_target] in T1, T2, T3.
  replace (Z.of_nat (s_pos (r_s r)) + 0 <? 0)%Z with false in T1 by lia. replace (Z.of_nat (length (s_data (r_s r1))) + 0 <? 0)%Z with false in T2 by lia.
  injection T1 as T1. injection T2 as T2. injection T3 as T3. rewrite S1 in T2.
  replace (p2 <? p1) with false in E by lia.
  assert (Pl : place r3).
  { unfold fplace, valid, r_rest in *. rewrite L3, L2, L1, B3, B2, B1. split; [exact Hv|]. split; [exact Hm|]. split; [intros He j Hj; rewrite F3, F2, F1; exact (Hc He j Hj)|].
    intros _. split; [rewrite S3, S2, S1; lia|exact Hpk]. }
  assert (HU : mu r3 <= mu r).
  { unfold SpendFacts.mu, nu, r_rest. rewrite L3, L2, L1, !s_avail_length, S3, S2, S1, C3, C2, C1. lia. }
  destruct (_ <? n)%N.
  - replace (usize_max <? n * 8)%N with false in E by lia. apply pair_inj in E. destruct E as [<- <-]. split; [discriminate|]. split; discriminate.
  - destruct (runs_bytes_any sk (N.to_nat n) Hi r3 x r' Pl) as (P & D & K); [rewrite S3, S2, S1; exact Hf|exact E|]. split; [exact P|]. split; [exact D|]. intros u Eu.
    destruct (K u Eu) as (_ & P4 & S4 & M). split; [exact I|]. split; [exact P4|]. split; [congruence|]. intros Hs. destruct (M Hs) as [Ma Mb]. split; [|lia].
    intros He. specialize (Ma He). lia.
Qed.

(** ** Loops *)

Lemma mu_bound r : place r -> mu r <= 8 * length (s_data (r_s r)) + 8 + 9 * N0.
Proof.
  intros (Hv & _). unfold SpendFacts.mu, nu. rewrite s_avail_length. unfold valid, r_rest in *.
  destruct (r_left r) as [[b|l]|]; [rewrite byte_bits_length; lia|lia|cbn [length]; lia].
Qed.
Lemma loop_runs {A} (elem : RM A) eats (good : A -> Prop) stop start : runs false eats good elem ->
  forall f acc r x r', place r -> (ends = true -> 8 * length (s_data (r_s r)) + 8 + 9 * N0 < fuel) -> start <= r_bits r -> Forall good acc ->
  (ends = true -> (eats = true /\ mu r < f) \/ (exists n, stop = count_stop n /\ N.to_nat n = length acc + f /\ 0 < f)) ->
  vec_loop f elem stop start acc r = (x, r') ->
  x <> Panic /\ (ends = true -> x <> Diverge) /\ forall l, x = Ok l -> Forall good l /\ place r' /\ s_data (r_s r') = s_data (r_s r) /\
    (ends = true -> mu r' + (if eats then 1 else 0) <= mu r) /\ r_bits r <= r_bits r'.
Proof.
  intros He. induction f as [|f IH]; intros acc r x r' Hp Hf Hs Ha Hm E.
  { apply pair_inj in E. destruct E as [<- <-]. split; [discriminate|]. split; [|discriminate]. intros H. exfalso. destruct (Hm H) as [[_ H0]|(n & _ & _ & H0)]; lia. }
  cbn [vec_loop] in E. unfold bind in E. destruct (elem r) as [y r1] eqn:E1. destruct (He r y r1 Hp Hf E1) as (P & D & K).
  destruct y as [v|e| |]; try congruence.
  2:{ apply pair_inj in E. destruct E as [<- <-]. split; [discriminate|]. split; discriminate. }
  2:{ apply pair_inj in E. destruct E as [<- <-]. split; [discriminate|]. split; [intros H; now destruct (D H)|discriminate]. }
  destruct (K v eq_refl) as (G & Pl & S & M). destruct (M eq_refl) as [M1 M2].
  replace (r_bits r1 <? start) with false in E by lia.
  assert (Ha' : Forall good (acc ++ [v])) by (apply Forall_app; split; [exact Ha|now repeat constructor]).
  destruct (stop (r_bits r1 - start) (acc ++ [v])) eqn:C.
  - apply pair_inj in E. destruct E as [<- <-]. split; [discriminate|]. split; [discriminate|]. intros l El. apply ok_inj in El. subst l. auto.
  - destruct (IH (acc ++ [v]) r1 x r' Pl) as (P2 & D2 & K2); [rewrite S; exact Hf|lia|exact Ha'| |exact E|].
    + intros H. specialize (M1 H). destruct (Hm H) as [[-> Hm']|(n & -> & Hn & _)]; [left; split; [reflexivity|lia]|].
      right. exists n. unfold count_stop in C. rewrite app_length in *. cbn [length] in *. split; [reflexivity|]. lia.
    + split; [exact P2|]. split; [exact D2|]. intros l El. destruct (K2 l El) as (G2 & Pl2 & S2 & M3 & M4). split; [exact G2|]. split; [exact Pl2|]. split; [congruence|].
      split; [|lia]. intros H. specialize (M1 H). specialize (M3 H). destruct eats; lia.
Qed.
Lemma end_runs {A} (elem : RM A) (good : A -> Prop) : inside = false -> runs false true good elem ->
  forall f acc r x r', place r -> (ends = true -> 8 * length (s_data (r_s r)) + 8 + 9 * N0 < fuel) -> Forall good acc -> (ends = true -> mu r < f) ->
  end_loop f elem acc r = (x, r') ->
  x <> Panic /\ (ends = true -> x <> Diverge) /\ forall l, x = Ok l -> Forall good l /\ place r' /\ s_data (r_s r') = s_data (r_s r) /\
    (ends = true -> mu r' <= mu r) /\ r_bits r <= r_bits r'.
Proof.
  intros Hi He. induction f as [|f IH]; intros acc r x r' Hp Hf Ha Hm E.
  { apply pair_inj in E. destruct E as [<- <-]. split; [discriminate|]. split; [|discriminate]. intros H. specialize (Hm H). lia. }
  cbn [end_loop] in E. destruct (r_end r) as [b r0] eqn:E0. pose proof Hp as (Hv & Hmod & Hc & _).
  destruct (spends_end N0 r b r0 Hv E0) as ((S0 & _ & F0) & _ & U0 & R0 & B0). destruct (r_end_frame r b r0 Hv E0) as (V0 & _).
  assert (P0 : place r0).
  { split; [exact V0|]. split; [lia|]. split; [intros H j Hj; rewrite F0; exact (Hc H j Hj)|]. rewrite Hi. discriminate. }
  destruct b.
  - apply pair_inj in E. destruct E as [<- <-]. split; [discriminate|]. split; [discriminate|]. intros l El. apply ok_inj in El. subst l. split; [exact Ha|]. split; [exact P0|]. split; [exact S0|]. split; [auto|lia].
  - unfold bind in E. destruct (elem r0) as [y r1] eqn:E1. destruct (He r0 y r1 P0) as (P & D & K); [rewrite S0; exact Hf|exact E1|].
    destruct y as [v|e| |]; try congruence.
    2:{ apply pair_inj in E. destruct E as [<- <-]. split; [discriminate|]. split; discriminate. }
    2:{ apply pair_inj in E. destruct E as [<- <-]. split; [discriminate|]. split; [intros H; now destruct (D H)|discriminate]. }
    destruct (K v eq_refl) as (G & Pl & S & M). destruct (M eq_refl) as [M1 M2].
    destruct (IH (acc ++ [v]) r1 x r' Pl) as (P2 & D2 & K2); [rewrite S, S0; exact Hf| | |exact E|].
    + apply Forall_app; split; [exact Ha|now repeat constructor].
    + intros H. specialize (Hm H). specialize (M1 H). specialize (U0 (Hc H)). lia.
    + split; [exact P2|]. split; [exact D2|]. intros l El. destruct (K2 l El) as (G2 & Pl2 & S2 & M3 & M4). split; [exact G2|]. split; [exact Pl2|]. split; [congruence|].
      split; [|lia]. intros H. specialize (M1 H). specialize (U0 (Hc H)). specialize (M3 H). lia.
Qed.

Lemma runs_predicate {A} (elem : RM A) eats (good : A -> Prop) stop size cap f : runs false eats good elem ->
  match cap with Some c => (c * size <= isize_max)%N | None => True end ->
  (size <> 0%N -> (eats = true /\ f = fuel) \/ exists n, stop = count_stop n /\ N.to_nat n = f /\ 0 < f) ->
  runs false ((0 <? size)%N && eats) (Forall good) (vec_with_predicate f size cap elem stop).
Proof.
  intros He Hc Hm. unfold vec_with_predicate. destruct (size =? 0)%N eqn:C.
  { replace (0 <? size)%N with false by lia. now apply runs_ret. }
  replace (0 <? size)%N with true by lia. cbn [andb].
  replace (match cap with Some c => (isize_max <? c * size)%N | None => false end) with false by (destruct cap; [symmetry; lia|reflexivity]).
  intros r x r' Hp Hf E. assert (Hs : size <> 0%N) by lia.
  destruct (loop_runs elem eats good stop (r_bits r) He f [] r x r' Hp Hf (le_n _) (Forall_nil _)) as (P & D & K); [|exact E|].
  - intros H. specialize (Hf H). destruct (Hm Hs) as [[H' ->]|(n & H1 & H2 & H3)]; [left; split; [exact H'|]; pose proof (mu_bound r Hp); lia|right; exists n; auto].
  - split; [exact P|]. split; [exact D|]. intros l El. destruct (K l El) as (G & Pl & S & M). auto.
Qed.
Lemma runs_vec {A} (elem : RM A) eats (good : A -> Prop) size lim : runs false eats good elem ->
  limit_fits size lim -> (loops lim -> size <> 0%N -> eats = true) -> (inside = true -> lim <> LEnd) ->
  runs false false (Forall good) (vec_read fuel size elem lim).
Proof.
  intros He Hf Hl Hi. destruct lim as [n|p|n|n|]; cbn [vec_read limit_fits loops] in *.
  - destruct (n =? 0)%N eqn:C; [now apply runs_ret|]. eapply runs_ext; [reflexivity|].
    eapply runs_weak; [apply (runs_predicate elem eats good (count_stop n) size (Some n) (N.to_nat n) He Hf)|discriminate|auto].
    intros _. right. exists n. split; [reflexivity|]. lia.
  - eapply runs_weak; [apply (runs_predicate elem eats good _ size None fuel He I)|discriminate|auto]. auto.
  - destruct (_ <? _)%N eqn:C1; [lia|]. destruct (_ =? _)%N; [now apply runs_ret|].
    eapply runs_weak; [apply (runs_predicate elem eats good _ size None fuel He I)|discriminate|auto]. auto.
  - destruct (_ =? _)%N; [now apply runs_ret|].
    eapply runs_weak; [apply (runs_predicate elem eats good _ size None fuel He I)|discriminate|auto]. auto.
  - unfold vec_to_end. destruct (size =? 0)%N eqn:C; [now apply runs_ret|]. rewrite Hl in He by (exact I || lia).
    assert (Hin : inside = false) by (destruct inside; [now destruct (Hi eq_refl)|reflexivity]).
    intros r x r' Hp Hfu E. destruct (end_runs elem good Hin He fuel [] r x r' Hp Hfu (Forall_nil _)) as (P & D & K); [intros H; specialize (Hfu H); pose proof (mu_bound r Hp); lia|exact E|].
    split; [exact P|]. split; [exact D|]. intros l El. destruct (K l El) as (G & Pl & S & M). split; [exact G|]. split; [exact Pl|]. split; [exact S|]. intros _. destruct M as [M1 M2]. split; [|exact M2]. intros H. specialize (M1 H). lia.
Qed.

(** ** Strings and arrays *)

Lemma runs_to_cstring sk l : Forall (fun n => (n < 256)%N) l -> runs sk false (fun s => Forall string_char (map VNum s)) (to_cstring l).
Proof. intros Hl. unfold to_cstring. destruct (from_vec_with_nul l) as [s|] eqn:E; [apply runs_ret; eapply nul_chars; eassumption|apply runs_fail]. Qed.
Lemma runs_byte sk : runs sk true (fun n => (n < 256)%N) (prim_read PU8 C0).
Proof. exact (runs_prim sk PU8 C0 ltac:(cbn; lia) I). Qed.
Lemma runs_cstring sk : runs sk true (fun s => Forall string_char (map VNum s)) (read_cstring fuel).
Proof.
  unfold read_cstring. eapply runs_bindl with (g1 := Forall (fun n => (n < 256)%N)); [|intros l Hl; now apply runs_to_cstring]. cbn [vec_read]. apply runs_seeks.
  apply (runs_predicate _ true _ _ 1%N None fuel (runs_byte false) I). auto.
Qed.
Lemma runs_cstring_bytes sk n : (n <= isize_max)%N -> runs sk true (fun s => Forall string_char (map VNum s)) (read_cstring_bytes n).
Proof.
  intros Hn. unfold read_cstring_bytes. cbn [vec_read]. destruct (n =? 0)%N eqn:C.
  - eapply runs_ext; [intros r; apply bind_ret_l|]. apply runs_fail.
  - eapply runs_bindl with (g1 := Forall (fun n => (n < 256)%N)); [|intros l Hl; now apply runs_to_cstring]. apply runs_seeks. eapply runs_ext; [reflexivity|].
    apply (runs_predicate _ true _ _ 1%N (Some n) (N.to_nat n) (runs_byte false)); [lia|].
    intros _. right. exists n. split; [reflexivity|]. lia.
Qed.
Lemma runs_array {A} sk c (good : A -> Prop) n elem : runs sk c good elem ->
  runs sk ((0 <? n) && c) (fun l => length l = n /\ Forall good l) (read_array n elem).
Proof.
  intros He. induction n as [|n IH]; cbn [read_array]; [now apply runs_ret|].
  change (0 <? S n) with true. cbn [andb]. eapply runs_bindl; [exact He|]. intros v Hv.
  eapply runs_bindl; [eapply runs_weak; [exact IH|discriminate|intros l Hl; exact Hl]|]. intros l [Hl1 Hl2]. apply runs_ret.
  cbn [length]. split; [now f_equal|now constructor].
Qed.
Lemma runs_check sk (b : bool) : runs sk false (fun _ => b = true) (check b).
Proof. destruct b; [now apply runs_ret|apply runs_fail]. Qed.
Lemma runs_asserts sk a ctx acc off v : runs sk false (fun _ => asserted a ctx acc v) (asserts a ctx acc off v).
Proof.
  unfold asserts. eapply runs_bindl with (g1 := fun _ => asserted a ctx acc v).
  - unfold asserted. destruct (a_assert a) as [f|]; [|apply runs_ret; discriminate].
    eapply runs_good; [apply runs_check|]. intros ? H g Hg. injection Hg as <-. exists off. exact H.
  - intros ? H. destruct (a_assert_eq a) as [f|]; [|now apply runs_ret]. eapply runs_good; [apply runs_check|]. auto.
Qed.

(** ** Derived types *)

Lemma enduring_runs A (good : A -> Prop) m : enduring A good m -> forall sk, runs sk false good m.
Proof.
  induction 1 as [A good a Ha|A good e|A B mid good m f Hm IHm Hf IHf|n o|n size o Hn|p c Hp Hs|n o Hn|A good f Hf IH|A good m1 m2 He Hm IH]; intros sk.
  - now apply runs_ret.
  - apply runs_fail.
  - eapply runs_bindl; [apply IHm|]. intros a Ha. now apply IHf.
  - apply runs_bits.
  - eapply runs_weak; [apply (runs_goes sk (8 * n)); [now apply safe_bytes|now apply goes_bytes]|discriminate|auto].
  - eapply runs_weak; [now apply runs_prim|discriminate|auto].
  - now apply runs_skip.
  - intros r x r' Hp Hfu E. exact (IH _ _ sk r x r' Hp Hfu E).
  - eapply runs_ext; [intros r; symmetry; apply He|apply IH].
Qed.
Local Notation named := any_value.
Variables (cu : nat -> custom).
Local Notation field_safe := (field_safe_in named).
Local Notation safe_ty := (safe_ty_in named).
Local Notation fields_safe := (fields_safe_in named).
Local Notation variants_safe := (variants_safe_in named).
Definition ty_runs (t : ty) : Prop := forall sk lim args, safe_ty cu inside sk t lim args -> steady cu (negb sk) t -> runs sk (consumes t) (typed t) (read_ty cu fuel t lim args).
Definition fields_run (fs : fields) : Prop := forall sk c ctx id acc, fields_safe cu inside sk c ctx fs id acc -> steady_fields cu (negb sk) fs ->
  runs sk (match id with None => fields_consume fs | Some _ => false end) (fields_typed fs) (fields_read cu fuel c ctx fs id acc).
Definition variants_run (vs : variants) : Prop := forall sk e ctx id k all default, variants_safe cu inside sk e ctx id vs -> steady_variants cu (negb sk) vs ->
  (forall j l, variant_typed vs j l -> variant_typed all (k + j) l) ->
  match default with Some m => runs sk false (typed (TEnum e TUnit all)) m | None => True end ->
  runs sk false (typed (TEnum e TUnit all)) (variants_read cu fuel e ctx id vs k default).

Lemma tokens_run sk c a t wire ctx acc off : ty_runs wire -> steady cu (negb sk) wire -> (forall f, a_reader a = Some f -> forall ctx fs off, enduring value (typed wire) (f ctx fs off)) ->
  field_safe inside sk c a t wire ctx acc (fun lim args => safe_ty cu inside sk wire lim args) ->
  runs sk (always_read a && negb (is_vec_u8 t) && consumes wire) (typed t)
    (field_read_tokens a ctx acc off
       (field_read_normal a ctx acc off (field_read_func c a (is_vec_u8 t) ctx acc off (fun lim args => read_ty cu fuel wire lim args)))).
Proof.
  intros IH Hst Hrd (Hs & Hpb & Hpa & Hd & Hn).
  assert (HN : takes_default a ctx acc off = false ->
    runs sk (negb (match a_reader a with Some _ => true | None => false end) && negb (is_vec_u8 t) && consumes wire) (typed t)
      (field_read_normal a ctx acc off (field_read_func c a (is_vec_u8 t) ctx acc off (fun lim args => read_ty cu fuel wire lim args)))).
  { intros HF. destruct (Hn off HF) as [Hr Hm]. unfold field_read_normal. eapply runs_bindl with (g1 := typed wire).
    - unfold field_read_func. destruct (a_reader a) as [rd|] eqn:Er; [cbn [negb andb]; now apply enduring_runs, Hrd|]. cbn [negb andb].
      destruct (a_limit a) as [l|].
      2:{ eapply runs_weak; [now apply IH| |auto]. intros H. destruct (is_vec_u8 t); [discriminate|exact H]. }
      destruct (eval_limit l ctx acc off) as [lim|e| |] eqn:El.
      + eapply runs_ext; [intros r; unfold lift; apply (bind_ret_l lim _ r)|].
        assert (HG : safe_ty cu inside sk wire (Some lim) (field_args c a ctx acc off) ->
          runs sk (negb (is_vec_u8 t) && consumes wire) (typed wire) (read_ty cu fuel wire (Some lim) (field_args c a ctx acc off))).
        { intros H. eapply runs_weak; [now apply IH| |auto]. intros H2. destruct (is_vec_u8 t); [discriminate|exact H2]. }
        destruct lim; try (destruct (is_vec_u8 t); now apply HG).
        destruct (is_vec_u8 t) eqn:Ev; [|now apply HG]. destruct Hr as (Hi & Hn8 & Hty). cbn [negb andb].
        eapply runs_bindl; [now apply runs_exact|]. intros bs _. now apply runs_ret.
      + eapply runs_ext; [intros r; reflexivity|]. apply runs_fail.
      + exfalso. unfold eval_limit in El. destruct l; try destruct (to_usize _); discriminate.
      + exfalso. unfold eval_limit in El. destruct l; try destruct (to_usize _); discriminate.
    - intros v Hv. specialize (Hm v Hv). destruct (a_map a) as [f|]; [now apply runs_lift|now apply runs_ret]. }
  specialize (Hd off). unfold takes_default in HN, Hd. unfold field_read_tokens, always_read.
  destruct (a_skip a) as [[| |]|], (a_cond a) as [f|]; cbn [andb] in *.
  + destruct (f ctx acc off); [destruct (a_reader a); apply runs_ret; auto|]. destruct (a_reader a); (eapply runs_weak; [now apply HN|discriminate|auto]).
  + destruct (a_reader a); apply runs_ret; auto.
  + destruct (f ctx acc off); [destruct (a_reader a); apply runs_ret; auto|]. destruct (a_reader a); (eapply runs_weak; [now apply HN|discriminate|auto]).
  + destruct (a_reader a); apply runs_ret; auto.
  + specialize (HN eq_refl). destruct (a_reader a); exact HN.
  + specialize (HN eq_refl). destruct (a_reader a); exact HN.
  + destruct (f ctx acc off); [|destruct (a_reader a); apply runs_ret; auto]. destruct (a_reader a); (eapply runs_weak; [now apply HN|discriminate|auto]).
  + specialize (HN eq_refl). destruct (a_reader a); exact HN.
Qed.
Lemma field_runs sk c a t wire ctx acc : ty_runs wire -> steady cu (negb sk) wire -> (forall f, a_reader a = Some f -> forall ctx fs off, enduring value (typed wire) (f ctx fs off)) ->
  (negb sk = true -> forall ctx fs, below_a_byte (eval0 (a_pad_before a) ctx fs) /\ below_a_byte (eval0 (a_pad_after a) ctx fs)) ->
  field_safe inside sk c a t wire ctx acc (fun lim args => safe_ty cu inside sk wire lim args) ->
  runs sk (nonempty (a_magic a) || (always_read a && negb (is_vec_u8 t) && consumes wire)) (fun v => typed t v /\ asserted a ctx acc v)
    (read_field c a (is_vec_u8 t) ctx acc (fun lim args => read_ty cu fuel wire lim args)).
Proof.
  intros IH Hst Hrd Hpd HS. pose proof HS as (Hs & Hpb & Hpa & _ & _). unfold read_field.
  assert (Hpd' : sk = false -> forall ctx fs, below_a_byte (eval0 (a_pad_before a) ctx fs) /\ below_a_byte (eval0 (a_pad_after a) ctx fs)) by (intros ->; now apply Hpd).
  eapply runs_bindr; [now apply runs_seek|]. intros _ _. eapply runs_bind; [apply runs_magic|]. intros _ _.
  eapply runs_bindr; [apply runs_pad; [exact Hpb|intros H; apply (Hpd' H)]|]. intros _ _.
  apply (runs_at sk _ _ (fun off =>
    let* v := field_read_tokens a ctx acc off
                (field_read_normal a ctx acc off (field_read_func c a (is_vec_u8 t) ctx acc off (fun lim args => read_ty cu fuel wire lim args))) in
    let* _ := asserts a ctx acc off v in
    let* _ := read_pad (eval0 (a_pad_after a) ctx (acc ++ [v])) (field_order c a ctx acc) in
    ret v)). intros off.
  eapply runs_bindl with (g1 := typed t).
  - now apply tokens_run.
  - intros v Hv. eapply runs_bindl; [apply runs_asserts|]. intros ? Has. eapply runs_bindl; [apply runs_pad; [auto|intros H; apply (Hpd' H)]|]. intros _ _. now apply runs_ret.
Qed.

Theorem all_run : (forall t, ty_runs t) /\ (forall fs, fields_run fs) /\ (forall vs, variants_run vs).
Proof.
  apply types_ind.
  - intros p sk lim args (-> & Hp & c & Hc & Hs) _. cbn [read_ty consumes]. unfold with_pctx. rewrite Hc.
    eapply runs_map; [now apply runs_prim|]. auto.
  - intros sk lim args (-> & c & Hc & Hs) _. cbn [read_ty consumes]. unfold with_pctx. rewrite Hc. unfold read_bool.
    eapply runs_map with (g1 := fun _ => True); [|intros b _; exact I]. eapply runs_bindl; [apply runs_prim; [cbn; lia|exact Hs]|]. intros n _.
    destruct (n =? 1)%N; [now apply runs_ret|]. destruct (n =? 0)%N; [now apply runs_ret|apply runs_fail].
  - intros p sk lim args (-> & Hp & c & Hc & Hs) _. cbn [read_ty consumes]. unfold with_pctx. rewrite Hc. unfold read_nonzero.
    eapply runs_map with (g1 := fun n => (0 < n < 2 ^ N.of_nat (prim_width p))%N); [|auto].
    eapply runs_bindl; [now apply runs_prim|]. intros n Hn. cbv beta in Hn |- *. destruct (n =? 0)%N eqn:C; [apply runs_fail|apply runs_ret]. split; [lia|exact Hn].
  - intros sk lim args _ _. now apply runs_ret.
  - intros sk lim args (-> & [->|(n & -> & Hn)]) _; cbn [read_ty consumes].
    + eapply runs_map; [apply runs_cstring|]. intros s Hs. exact Hs.
    + eapply runs_map; [now apply runs_cstring_bytes|]. intros s Hs. exact Hs.
  - intros t IH sk lim args H Hst. cbn [read_ty consumes safe_ty_in steady] in *. eapply runs_map; [now apply IH|]. auto.
  - intros a IHa b IHb sk lim args [Ha Hb] [Hsa Hsb]. cbn [read_ty consumes]. eapply runs_bind; [now apply IHa|]. intros x Hx.
    eapply runs_map; [now apply IHb|]. cbn; auto.
  - intros n t IH sk lim args H Hst. cbn [read_ty consumes safe_ty_in steady] in *. eapply runs_map; [apply runs_array; now apply IH|]. auto.
  - intros pl size t IH sk lim args (l & -> & (Hf & Hl & Hi) & Ht) Hst. cbn [read_ty consumes]. eapply runs_map.
    + apply runs_seeks. eapply runs_vec; [now apply IH|exact Hf|exact Hl|exact Hi].
    + intros l' Hl'. cbn [typed_in]. split; [now apply collect_forall|apply collect_is_distinct].
  - intros c fs IH sk lim args [Hs Hf] Hst. rewrite read_struct. cbn [consumes]. eapply runs_bindr; [now apply runs_seek|]. intros _ _.
    eapply runs_bind; [apply runs_magic|]. intros _ _. eapply runs_map; [now apply (IH sk c (ctx_args c args) None [])|]. auto.
  - intros e idt IHi vs IHv sk lim args H [Hsi Hsv]. rewrite read_enum. cbn [consumes safe_ty_in] in *.
    assert (HT : forall v, typed (TEnum e TUnit vs) v -> typed (TEnum e idt vs) v) by (intros []; auto).
    eapply runs_bind; [apply runs_magic|]. intros _ _. destruct (en_id e) as [f|].
    + eapply runs_ext; [intros r; apply bind_ret_l|]. eapply runs_good; [|exact HT].
      apply (IHv sk e _ _ 0 vs None); [exact H|exact Hsv|intros j l Hj; exact Hj|exact I].
    + destruct H as [Hi Hv]. eapply runs_bindl; [now apply IHi|]. intros id Hid. eapply runs_good; [|exact HT].
      apply (IHv sk e _ _ 0 vs None); [now apply Hv|exact Hsv|intros j l Hj; exact Hj|exact I].
  - intros k sk lim args [-> _] Hst. cbn [read_ty consumes]. eapply runs_good; [apply enduring_runs, Hst|]. intros []; exact (fun _ => I).
  - intros sk c ctx id acc _ _. cbn [fields_read fields_consume]. destruct id; now apply runs_ret.
  - intros a t IHt wire IHw tl IHtl sk c ctx id acc H (Hrd & Hpd & Hsw & Hst). rewrite read_cons. cbn [fields_safe_in fields_consume] in *.
    assert (HG : field_safe inside sk c a t wire ctx acc (fun lim args => safe_ty cu inside sk wire lim args) /\
       (forall v, typed t v -> asserted a ctx acc v -> fields_safe cu inside sk c ctx tl None (acc ++ [v])) ->
      runs sk (nonempty (a_magic a) || (always_read a && negb (is_vec_u8 t) && consumes wire) || fields_consume tl) (fields_typed (FCons a t wire tl))
       (let* v := read_field c a (is_vec_u8 t) ctx acc (fun lim args => read_ty cu fuel wire lim args) in
        let* vs := fields_read cu fuel c ctx tl None (acc ++ [v]) in ret (if a_temp a then vs else v :: vs))).
    { intros [H1 H2]. eapply runs_bind; [now apply field_runs|]. intros v [Hv Ha]. eapply runs_map; [apply (IHtl sk c ctx None); [now apply H2|exact Hst]|].
      intros l Hl. cbn [fields_typed_in]. destruct (a_temp a); auto. }
    destruct id as [x|]; [|exact (HG H)]. destruct (a_reader a) as [rd|].
    + eapply runs_weak; [exact (HG H)|discriminate|auto].
    + destruct H as [Hx Hr]. eapply runs_ext; [intros r; apply bind_ret_l|].
      eapply runs_weak with (good := fields_typed (FCons a t wire tl)); [|discriminate|intros v Hv; exact Hv].
      eapply runs_map; [now apply (IHtl sk c ctx None)|]. intros l Hl. cbn [fields_typed_in]. destruct (a_temp a); auto.
  - intros sk e ctx id k all default _ _ _ Hd. cbn [variants_read]. destruct default; [exact Hd|apply runs_fail].
  - intros v fs IHf tl IHt sk e ctx id k all default [H1 H2] [Hsf Hst] Hk Hd. rewrite read_variant.
    assert (HB : matches (v_sel v) id || v_default v = true ->
      runs sk false (typed (TEnum e TUnit all)) (let* l := fields_read cu fuel (en_c e) ctx fs (if stores_id e v then Some id else None) [] in ret (VVar k l))).
    { intros H. eapply runs_weak with (good := typed (TEnum e TUnit all)); [|discriminate|intros u Hu; exact Hu]. eapply runs_map; [apply IHf; [now apply H1|exact Hsf]|]. intros l Hl. cbn [typed_in].
      rewrite <- (Nat.add_0_r k). apply Hk. exact Hl. }
    destruct (matches (v_sel v) id) eqn:Em; [now apply HB|]. apply IHt; [exact H2|exact Hst| |].
    + intros j l Hj. replace (S k + j) with (k + S j) by lia. apply Hk. exact Hj.
    + destruct default as [m|]; [exact Hd|]. destruct (v_default v); [now apply HB|exact I].
Qed.
End Runs.


(** ** The container API *)

Lemma fault_from_reader cu fuel t s bit : safe_type cu t -> steady cu false t -> s_pos s <= length (s_data s) -> bit < 8 ->
  let x := fst (from_reader cu fuel t s bit) in x <> Panic /\ (forall n v, x = Ok (n, v) -> typed t v) /\
  forall n, calm n s -> 8 * length (s_data s) + 8 + 9 * n < fuel -> x <> Diverge.
Proof.
  intros [inside Hs] Hst Hpos Hb. unfold from_reader.
  assert (H : forall N0 ends, fruns N0 fuel ends inside true false (fun nv : nat * value => typed t (snd nv))
    (let* _ := if bit =? 0 then ret tt else skip_bits bit Msb0 in let* v := read_ty cu fuel t None [] in fun r => (Ok (r_bits r, v), r))).
  { intros N0 ends. eapply runs_bindr with (g1 := fun _ => True).
    - destruct (bit =? 0); [now apply runs_ret|]. apply runs_skip; auto.
    - intros _ _. eapply runs_bindr with (g1 := typed t).
      + eapply runs_weak; [exact (proj1 (all_run N0 fuel ends inside cu) t true None [] Hs Hst)|discriminate|auto].
      + intros v Hv. intros r x r' Hp _ E. apply pair_inj in E. destruct E as [<- <-]. split; [discriminate|]. split; [discriminate|].
        intros nv E. apply ok_inj in E. subst nv. split; [exact Hv|]. split; [exact Hp|]. split; [reflexivity|]. discriminate. }
  match goal with |- context [(?m (reader_new s))] => destruct (m (reader_new s)) as [x r'] eqn:E end. cbn [fst].
  assert (HP : forall N0 ends, (ends = true -> calm N0 s) -> fplace N0 ends inside (reader_new s)).
  { intros N0 ends Hc. split; [exact I|]. split; [reflexivity|]. split; [exact Hc|]. intros _. split; [exact Hpos|discriminate]. }
  destruct (H 0 false (reader_new s) x r' (HP 0 false ltac:(discriminate)) ltac:(discriminate) E) as (P & _ & K).
  split; [exact P|]. split; [intros n v Hv; exact (proj1 (K _ Hv))|]. intros n Hc Hf.
  destruct (H n true (reader_new s) x r' (HP n true (fun _ => Hc)) (fun _ => Hf) E) as (_ & D & _). now apply D.
Qed.
