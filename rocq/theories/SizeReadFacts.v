From Coq Require Import Lia ZifyBool ZifyNat ZifyN.
From Verif Require Import Base MonadFacts Spec Stream Reader Session Prims CodecSpec BitsFacts NFacts ReaderFacts ReaderOps FastRead SessionFacts CodecFacts
  Containers ContainerSpec Derive DeriveSpec DeriveSound DeriveClosed Place SizeSpec SizeFacts SizeReadSpec.
Ltac Zify.zify_post_hook ::= Z.div_mod_to_equations.

(** [bits_read] agrees with the position, which is in the source unless nothing is read
    ahead. *)
Definition ok (r : reader) : Prop :=
  r_wf r /\ quiet (r_s r) /\ s_noseek (r_s r) = None /\ synced r /\ ~ peeked r /\ (s_pos (r_s r) <= length (s_data (r_s r)) \/ r_left r = None).
(** A successful read takes [n] bits ([ex]) or at most [n]; it asks for more only if the
    source does not have [n]. *)
Definition takes {A} (ex : bool) (n : nat) (m : RM A) : Prop :=
  forall r x r', ok r -> m r = (x, r') ->
  (forall a, x = Ok a -> ok r' /\ s_data (r_s r') = s_data (r_s r) /\ exists k, r_bits r' = r_bits r + k /\ k <= n /\ (ex = true -> k = n)) /\
  (forall e, x = Err (Incomplete e) -> 8 * length (s_data (r_s r)) < r_bits r + n).

Lemma t_lift {A} ex (x : res A) : (forall e, x <> Err (Incomplete e)) -> takes ex 0 (lift x).
Proof.
  intros N r y r' H E. apply pair_inj in E. destruct E as [<- <-]. split; [|intros e E; now apply N in E].
  intros a _. split; [exact H|]. split; [reflexivity|]. exists 0. repeat split; lia.
Qed.
Lemma t_ret {A} ex (a : A) : takes ex 0 (ret a).
Proof. apply (t_lift ex (Ok a)). discriminate. Qed.
Lemma t_never {A} ex n (x : res A) : (forall a, x <> Ok a) -> (forall e, x <> Err (Incomplete e)) -> takes ex n (lift x).
Proof. intros N M r y r' H E. apply pair_inj in E. destruct E as [<- <-]. split; [intros a E; now apply N in E|intros e E; now apply M in E]. Qed.
Lemma t_fail {A} ex n e : (forall k, e <> Incomplete k) -> takes ex n (fail (A:=A) e).
Proof. intros N. apply (t_never ex n (Err e)); [discriminate|]. intros k E. injection E as E. now apply N in E. Qed.
Lemma t_panic {A} ex n : takes ex n (panic (A:=A)).
Proof. apply (t_never ex n Panic); discriminate. Qed.
Lemma t_bind {A B} ex a b n (m : RM A) (f : A -> RM B) : takes ex a m -> (forall x, takes ex b (f x)) -> n = a + b -> takes ex n (bind m f).
Proof.
  intros M F -> r x r' H E. unfold bind in E. destruct (m r) as [y r1] eqn:E1. destruct (M _ _ _ H E1) as [M1 M2]. destruct y as [v|e| |].
  - destruct (M1 v eq_refl) as (H1 & D1 & k & B1 & L1 & X1). destruct (F v _ _ _ H1 E) as [F1 F2]. split.
    + intros w Ew. destruct (F1 w Ew) as (H2 & D2 & j & B2 & L2 & X2). split; [exact H2|]. split; [congruence|]. exists (k + j). split; [lia|]. split; [lia|]. intros Ex. rewrite (X1 Ex), (X2 Ex). reflexivity.
    + intros e Ee. apply F2 in Ee. rewrite D1 in Ee. lia.
  - apply pair_inj in E. destruct E as [<- <-]. split; [discriminate|]. intros k Ek. injection Ek as ->. specialize (M2 _ eq_refl). lia.
  - apply pair_inj in E. destruct E as [<- <-]. split; discriminate.
  - apply pair_inj in E. destruct E as [<- <-]. split; discriminate.
Qed.
Lemma t_ext {A} ex n (m1 m2 : RM A) : (forall r, m1 r = m2 r) -> takes ex n m1 -> takes ex n m2.
Proof. intros E H r x r'. rewrite <- E. apply H. Qed.
Lemma t_less {A} ex n k (m : RM A) : takes ex n m -> ex = false -> n <= k -> takes ex k m.
Proof.
  intros H -> L r x r' G E. destruct (H r x r' G E) as [H1 H2]. split.
  - intros a Ea. destruct (H1 a Ea) as (G' & D & j & B & Lj & _). split; [exact G'|]. split; [exact D|]. exists j. split; [exact B|]. split; [lia|discriminate].
  - intros e Ee. specialize (H2 e Ee). lia.
Qed.
Lemma t_see {A} ex n (f : reader -> RM A) : (forall r, takes ex n (f r)) -> takes ex n (fun r => f r r).
Proof. intros F r. exact (F r r). Qed.

(** ** The reader *)

Lemma ok_left r : ok r -> unread_len (unread r) = length (left_bits (r_left r)) + 8 * (length (s_data (r_s r)) - s_pos (r_s r)).
Proof.
  intros (_ & _ & _ & _ & P & _). unfold unread, unread_len. destruct (r_left r) as [[b|l]|] eqn:L; [exfalso; apply P; now exists b| |]; cbn [fst snd left_bits length]; now rewrite s_avail_length.
Qed.
Lemma ok_short r n : ok r -> unread_len (unread r) < n -> 8 * length (s_data (r_s r)) < r_bits r + n.
Proof. intros H L. rewrite (ok_left _ H) in L. destruct H as (_ & _ & _ & S & _). unfold synced in S. lia. Qed.
Lemma ok_step o n l r r' : ok r -> adv r r' n -> take_bits o n (unread r) = Some (l, unread r') -> (~ peeked r -> ~ peeked r') -> ok r' /\ s_data (r_s r') = s_data (r_s r).
Proof.
  intros H A T U. pose proof (ok_left _ H) as HL. destruct H as (W & Q & N & S & P & I). pose proof A as [(Sd & Se & Sf) Aw Ab Ap Al Av]. split; [|exact Sd].
  split; [exact Aw|]. split; [exact (adv_quiet _ _ _ A Q)|]. split; [unfold virt_moved in Av; now rewrite Av, N|]. split; [exact (adv_synced _ _ _ A S)|]. split; [exact (U P)|].
  destruct (take_bits_some_len _ _ _ _ _ T) as [_ Hn]. rewrite Sd. destruct (Nat.le_gt_cases (s_pos (r_s r)) (length (s_data (r_s r)))) as [L|L].
  - left. assert (length (left_bits (r_left r')) <= unread_len (unread r')).
    { unfold unread, unread_len. destruct (r_left r') as [[b|x]|]; cbn [fst snd left_bits length]; rewrite ?byte_bits_length; lia. }
    rewrite HL in Hn. lia.
  - destruct I as [I|I]; [lia|]. rewrite I in HL. cbn [left_bits length] in HL. right. assert (length (fst (unread r')) = 0) by (unfold unread_len in Hn at 2; lia).
    unfold r_wf, unread in *. destruct (r_left r') as [[b|x]|] eqn:Lr; [exfalso; apply (U P); now exists b|cbn in H; lia|reflexivity].
Qed.
Lemma t_step {A} ex n o (m : RM A) :
  (forall r x r', ok r -> m r = (x, r') -> match x with
     | Ok _ => exists l, adv r r' n /\ take_bits o n (unread r) = Some (l, unread r') /\ (~ peeked r -> ~ peeked r')
     | Err (Incomplete _) => unread_len (unread r) < n
     | _ => True end) -> takes ex n m.
Proof.
  intros H r x r' G E. specialize (H r x r' G E). split.
  - intros a ->. destruct H as (l & A1 & T & U). destruct (ok_step _ _ _ _ _ G A1 T U) as [G' D]. split; [exact G'|]. split; [exact D|]. exists n. split; [apply A1|]. split; auto.
  - intros e ->. now apply ok_short.
Qed.
Lemma t_bits ex n o : takes ex n (read_bits_into n o).
Proof.
  apply (t_step ex n o). intros r x r' G E. assert (W := proj1 G). assert (Q := proj1 (proj2 G)). pose proof (read_bits_into_spec n o r W Q) as H.
  destruct (take_bits o n (unread r)) as [[l u']|] eqn:T.
  - destruct H as (r1 & E1 & A & U). rewrite E1 in E. apply pair_inj in E. destruct E as [<- <-]. exists l. rewrite U. split; [exact A|]. split; [reflexivity|]. exact (read_bits_into_unpeeked _ _ _ _ _ E1).
  - destruct H as (r1 & E1 & _). rewrite E1 in E. apply pair_inj in E. destruct E as [<- <-]. now apply take_bits_none in T.
Qed.
Lemma t_uint ex n : 1 <= n <= 64 -> takes ex n (read_bits_uint_msb0 n).
Proof.
  intros Hn. assert (H : takes ex n (let* l := read_bits_into n Msb0 in ret (bits2N l))) by (eapply t_bind; [apply t_bits|intros; apply t_ret|lia]).
  intros r x r' G E. rewrite fast_read_generic in E; [exact (H r x r' G E)|apply G|apply G|exact Hn].
Qed.
Lemma t_bytes ex n b o : n <= b -> takes ex (8 * n) (read_bytes n b o).
Proof.
  intros Hb. apply (t_step ex (8 * n) o). intros r x r' G E. assert (W := proj1 G). assert (Q := proj1 (proj2 G)).
  assert (P : n = 0 -> ~ peeked r) by (intros _; apply G). pose proof (read_bytes_spec n b o r W Q Hb P) as H.
  destruct (take_bits o (8 * n) (unread r)) as [[l u']|] eqn:T.
  - destruct H as (bs & r1 & E1 & _ & A & U). rewrite E1 in E. apply pair_inj in E. destruct E as [<- <-]. exists l. rewrite U. split; [exact A|]. split; [reflexivity|]. exact (read_bytes_unpeeked _ _ _ _ _ _ E1).
  - destruct H as (e & r1 & E1 & _). rewrite E1 in E. apply pair_inj in E. destruct E as [<- <-]. now apply take_bits_none in T.
Qed.
Lemma t_seek ex k r x r' : ok r -> r_left r = None -> lift_io (r_seek (SeekCurrent (Z.of_nat k))) r = (x, r') ->
  (forall a, x = Ok a -> ok r' /\ s_data (r_s r') = s_data (r_s r) /\ exists j, r_bits r' = r_bits r + j /\ j <= 8 * k /\ (ex = true -> j = 8 * k)) /\
  (forall e, x = Err (Incomplete e) -> 8 * length (s_data (r_s r)) < r_bits r + 8 * k).
Proof.
  intros (W & Q & N & S & P & I) L E. unfold synced in S. rewrite L in S. cbn [left_bits length] in S.
  destruct (r_seek_ok (SeekCurrent (Z.of_nat k)) r (s_pos (r_s r) + k) Q N) as (r2 & X2 & (Sd & Se & Sf) & L2 & B2 & P2 & M2).
  { cbn [seek_target]. destruct (Z.ltb_spec (Z.of_nat (s_pos (r_s r)) + Z.of_nat k) 0); [lia|]. f_equal. lia. }
  unfold lift_io in E. rewrite X2 in E. apply pair_inj in E. destruct E as [<- <-]. split; [|discriminate]. intros _ _.
  split; [|split; [exact Sd|exists (8 * k); lia]]. split; [unfold r_wf; now rewrite L2|]. split; [intros j; rewrite Sf; apply Q|]. split; [exact M2|].
  split; [unfold synced; rewrite L2; cbn [left_bits length]; lia|]. split; [intros [b X]; congruence|now right].
Qed.
Lemma t_skip ex n o : takes ex n (skip_bits n o).
Proof.
  intros r x r' G E. rewrite skip_eq in E. cbv zeta in E. set (n0 := match r_left r with Some (Reader.LBits bits) => Nat.min n (length bits) | _ => 0 end) in *.
  assert (N0 : n0 <= n) by (subst n0; destruct (r_left r) as [[]|]; lia).
  assert (HS : forall r1 l, read_bits_into n0 o r = (Ok l, r1) -> ok r1 -> (n - n0) / 8 <> 0 -> r_left r1 = None).
  { intros r1 l E1 G1 K. assert (W := proj1 G). assert (Q := proj1 (proj2 G)). destruct (bits_step _ _ _ _ _ W Q E1) as (l0 & A & T & U).
    pose proof (ok_left _ G) as HL. pose proof (ok_left _ G1) as HL1. destruct (take_bits_some_len _ _ _ _ _ T) as [_ Hn].
    assert (n0 = length (left_bits (r_left r))).
    { subst n0. destruct (r_left r) as [[b|y]|] eqn:Lr; cbn [left_bits length]; [exfalso; destruct G as (_ & _ & _ & _ & P & _); apply P; now exists b| |reflexivity]. lia. }
    pose proof A as [(Sd & _) Aw Ab Ap Al Av]. rewrite Sd in HL1. destruct G1 as (W1 & _ & _ & _ & P1 & I1). unfold r_wf in W1. unfold peeked in P1.
    destruct (r_left r1) as [[b|y]|]; [exfalso; apply P1; now exists b| |reflexivity]. cbn [left_bits length] in *. lia. }
  pose proof (t_bits ex n0 o) as T0. unfold bind in E at 1. destruct (read_bits_into n0 o r) as [y r1] eqn:E1. destruct (T0 _ _ _ G E1) as [T1 T2]. destruct y as [l|e| |].
  2:{ apply pair_inj in E. destruct E as [<- <-]. split; [discriminate|]. intros k Ek. injection Ek as ->. specialize (T2 _ eq_refl). lia. }
  2,3: apply pair_inj in E; destruct E as [<- <-]; split; discriminate.
  destruct (T1 l eq_refl) as (G1 & D1 & k1 & B1 & L1 & X1). specialize (HS r1 l eq_refl G1).
  assert (TM : forall r x r', ok r -> ((n - n0) / 8 <> 0 -> r_left r = None) ->
    (if (n - n0) / 8 =? 0 then ret tt else fun r => if negb (r_bits r mod 8 =? 0) then (Panic, r) else (let* _ := lift_io (r_seek (SeekCurrent (Z.of_nat ((n - n0) / 8)))) in ret tt) r) r = (x, r') ->
    (forall a, x = Ok a -> ok r' /\ s_data (r_s r') = s_data (r_s r) /\ exists k, r_bits r' = r_bits r + k /\ k <= 8 * ((n - n0) / 8) /\ (ex = true -> k = 8 * ((n - n0) / 8))) /\
    (forall e, x = Err (Incomplete e) -> 8 * length (s_data (r_s r)) < r_bits r + 8 * ((n - n0) / 8))).
  { intros q z q' Gq HL Eq. destruct (Nat.eqb_spec ((n - n0) / 8) 0) as [Z|Z].
    - rewrite Z. exact (t_ret ex tt q z q' Gq Eq).
    - destruct (negb _); [apply pair_inj in Eq; destruct Eq as [<- <-]; split; discriminate|]. unfold bind in Eq. destruct (lift_io _ q) as [y q1] eqn:E2.
      destruct (t_seek ex _ _ _ _ Gq (HL Z) E2) as [S1 S2]. destruct y as [p|e| |]; apply pair_inj in Eq; destruct Eq as [<- <-]; split; try discriminate.
      + intros a _. exact (S1 p eq_refl).
      + intros e' Ee. injection Ee as ->. exact (S2 _ eq_refl). }
  unfold bind in E at 1.
  match type of E with (let (_, _) := ?m in _) = _ => destruct m as [y r2] eqn:E2 end. destruct (TM _ _ _ G1 HS E2) as [M1 M2]. destruct y as [u|e| |].
  2:{ apply pair_inj in E. destruct E as [<- <-]. split; [discriminate|]. intros k Ek. injection Ek as ->. specialize (M2 _ eq_refl). rewrite D1 in M2. lia. }
  2,3: apply pair_inj in E; destruct E as [<- <-]; split; discriminate.
  destruct (M1 u eq_refl) as (G2 & D2 & k2 & B2 & L2 & X2).
  assert (TL : takes ex ((n - n0) mod 8) (let* _ := read_bits_into ((n - n0) mod 8) o in ret tt)) by (eapply t_bind; [apply t_bits|intros; apply t_ret|lia]).
  destruct (TL _ _ _ G2 E) as [F1 F2]. split.
  - intros a Ea. destruct (F1 a Ea) as (G3 & D3 & k3 & B3 & L3 & X3). split; [exact G3|]. split; [congruence|]. exists (k1 + k2 + k3). split; [lia|]. split; [lia|].
    intros Ex. rewrite (X1 Ex), (X2 Ex), (X3 Ex). lia.
  - intros e Ee. specialize (F2 e Ee). rewrite D2, D1 in F2. lia.
Qed.

(** ** Integers *)

Lemma t_lift_u {A} ex wb e n o bits (f : N -> res A) : (forall v k, f v <> Err (Incomplete k)) -> takes ex 0 (lift (res_bind (u_of_bits wb e n o bits) f)).
Proof.
  intros H. apply t_lift. intros k.
  assert (HI : forall cap k i l z, bbv_inserts cap k i l <> Err z).
  { intros cap j. induction j as [|j IH]; intros i l z; cbn [bbv_inserts]; [discriminate|]. destruct (_ && _); [apply IH|discriminate]. }
  assert (HN : forall z, u_of_bits wb e n o bits <> Err z).
  { intros z. unfold u_of_bits, bbv_pushes. cbv zeta. destruct (_ <? _); [discriminate|]. destruct (_ && _); [discriminate|].
    assert (HB : forall (A B : Type) (x : res A) (g : A -> res B), (forall z, x <> Err z) -> (forall a z, g a <> Err z) -> forall z, res_bind x g <> Err z).
    { intros A' B x g Hx Hg y. destruct x as [v|w| |]; cbn [res_bind]; try discriminate; [apply Hg|intros _; exact (Hx w eq_refl)]. }
    destruct e, o; repeat match goal with |- context [if ?b then _ else _] => destruct b end; try discriminate;
      repeat (apply HB; [first [intros; apply HI|intros; destruct (_ <=? _); discriminate]|intros]); try discriminate. }
  destruct (u_of_bits wb e n o bits) as [v|w| |]; cbn [res_bind]; [apply H|intros _; exact (HN w eq_refl)|discriminate|discriminate].
Qed.
Lemma t_prim ex p c : (p = PU8 -> match c with CB n | CBO n _ => 1 <= n <= 8 | _ => True end) -> takes ex (wsize p c) (prim_read p c).
Proof.
  intros HP.
  assert (HY : forall e n o, takes ex (8 * match p with PU8 => 1 | _ => n end) (read_eyo p e n o)).
  { intros e n o. unfold read_eyo, read_u8_bytes, read_bytes_sized, read_bytes_const. destruct p; [|destruct (Nat.ltb_spec wb n); [apply t_fail; discriminate|]..];
      (eapply t_bind; [apply t_bytes; lia|intros; apply t_ret|lia]). }
  assert (HU : forall wb e n o, takes ex n (read_u_bits wb e n o)).
  { intros wb e n o. unfold read_u_bits. destruct (_ <? n); [apply t_fail; discriminate|]. cbv zeta.
    assert (SL : takes ex n (let* bits := read_bits_into n o in lift (u_of_bits wb e n o bits))).
    { eapply t_bind; [apply t_bits| |symmetry; apply Nat.add_0_r]. intros bits. replace (u_of_bits wb e n o bits) with (res_bind (u_of_bits wb e n o bits) Ok) by (now destruct (u_of_bits wb e n o bits)).
      apply t_lift_u. discriminate. }
    destruct e, o; auto. destruct ((0 <? n) && (n <=? 64)) eqn:B; auto. eapply t_bind; [apply t_uint; lia|intros; apply t_ret|lia]. }
  assert (HO : forall e n o, takes ex n (read_ebo p e n o)).
  { intros e n o. unfold read_ebo. destruct p; auto. unfold read_i_bits. destruct (_ <? n); [apply t_fail; discriminate|].
    eapply t_bind; [apply t_bits|intros bits; apply t_lift_u|lia]. intros v k. unfold sign_extend. cbv zeta. destruct (_ <=? _); discriminate. }
  assert (HE : forall e, takes ex (prim_width p) (read_e p e)) by (intros; unfold read_e, read_bytes_const; eapply t_bind; [apply t_bytes; lia|intros; apply t_ret|destruct p; cbn; lia]).
  assert (HB : forall e n o, (p = PU8 -> 1 <= n <= 8) -> n mod 8 = 0 -> takes ex n (read_eyo p e (n / 8) o)).
  { intros e n o H1 H8. replace n with (8 * match p with PU8 => 1 | _ => n / 8 end) at 1; [apply HY|]. destruct p; [specialize (H1 eq_refl)|..]; lia. }
  assert (HW : forall e o, takes ex (prim_width p) (read_eyo p e (prim_bytes p) o)).
  { intros e o. replace (prim_width p) with (8 * match p with PU8 => 1 | _ => prim_bytes p end) by (destruct p; cbn; lia). apply HY. }
  destruct c; cbn [prim_read wsize]; auto; destruct (Nat.eqb_spec (n mod 8) 0); auto.
Qed.

(** ** Derived types *)

Lemma t_magic ex m : takes ex (8 * length m) (read_magic m).
Proof.
  induction m as [|b m IH]; cbn [read_magic length]; [apply t_ret|]. eapply t_bind with (a := 8) (b := 8 * length m); [apply (t_prim ex PU8 C0); auto| |lia].
  intros x. destruct (_ =? _)%N; [exact IH|apply t_fail; discriminate].
Qed.
Lemma t_pad ex p ctx fs o : constant_pad p -> takes ex (const_pad p) (read_pad (eval0 p ctx fs) o).
Proof.
  intros H. destruct p as [f|]; cbn [eval0 option_map read_pad const_pad]; [|apply t_ret]. rewrite (H f eq_refl ctx fs).
  destruct (to_usize _) as [n|] eqn:E; [|apply t_fail; discriminate]. unfold to_usize in E. destruct (_ || _) eqn:B in E; [discriminate|]. injection E as <-.
  eapply t_ext; [reflexivity|]. rewrite Z_N_nat. apply t_skip.
Qed.
Lemma t_asserts ex a ctx fs off v : takes ex 0 (asserts a ctx fs off v).
Proof.
  unfold asserts, check. eapply t_bind with (a := 0) (b := 0); [| |reflexivity]; [|intros _].
  - destruct (a_assert a) as [f|]; [destruct (f _ _ _)|]; try apply t_ret; apply t_fail; discriminate.
  - destruct (a_assert_eq a) as [f|]; [destruct (value_eqb _ _)|]; try apply t_ret; apply t_fail; discriminate.
Qed.
Lemma t_bool ex c : match c with CB n | CBO n _ => 1 <= n <= 8 | _ => True end -> takes ex (wsize PU8 c) (read_bool c).
Proof.
  intros H. unfold read_bool. eapply t_bind; [apply t_prim; auto|intros x|symmetry; apply Nat.add_0_r].
  destruct (x =? 1)%N; [apply t_ret|]. destruct (x =? 0)%N; [apply t_ret|apply t_fail; discriminate].
Qed.
Lemma t_array {A} ex n k (m : RM A) : takes ex n m -> takes ex (n * k) (read_array k m).
Proof.
  intros H. induction k as [|k IH]; cbn [read_array]; [rewrite Nat.mul_0_r; apply t_ret|].
  eapply t_bind with (a := n) (b := n * k); [exact H|intros x|lia]. eapply t_bind; [exact IH|intros; apply t_ret|lia].
Qed.
Lemma size_args e bits bytes o ctx c : no_sizes ctx -> pctx_of (args_of e bits bytes o ctx) = Some c -> (forall n, bits = Some n -> 1 <= n <= 8) ->
  match c with CB n | CBO n _ => 1 <= n <= 8 | _ => True end.
Proof.
  intros H E B. destruct bits as [n|].
  - specialize (B n eq_refl). unfold args_of in E. destruct e, bytes, o, ctx as [|x [|y [|]]]; cbn in E; try discriminate; try (injection E as <-; exact B || exact I);
      destruct x; try discriminate; try (injection E as <-; exact B || exact I); try (inversion H; discriminate); try (destruct y; discriminate).
  - clear B. unfold args_of in E. destruct e, bytes, o, ctx as [|x [|y [|]]]; cbn in E; try discriminate; try (injection E as <-; exact I);
      destruct x; try discriminate; try (injection E as <-; exact I); try (inversion H; discriminate); destruct y; try discriminate; try (injection E as <-; exact I);
      inversion H as [|? ? ? H2]; inversion H2; discriminate.
Qed.
Lemma plain_args args c : no_sizes args -> pctx_of args = Some c -> match c with CB n | CBO n _ => 1 <= n <= 8 | _ => True end.
Proof. intros H E. apply (size_args None None None None args c H); [exact E|discriminate]. Qed.

Section Derived.
Variables (cu : nat -> custom) (fuel : nat) (ex : bool).

Definition ty_takes (t : ty) : Prop :=
  forall n, size_bits t = Some n -> forall args, (passes_args t = true -> no_sizes args) -> takes ex n (read_ty cu fuel t None args).

Lemma t_num p args n c : pctx_of args = Some c -> wsize p c = n -> (p = PU8 -> match c with CB n | CBO n _ => 1 <= n <= 8 | _ => True end) ->
  takes ex n (read_ty cu fuel (TPrim p) None args).
Proof.
  intros E W H. cbn [read_ty]. unfold with_pctx. rewrite E. apply t_bind with (a := wsize p c) (b := 0); [apply t_prim, H|intros; apply t_ret|lia].
Qed.
Lemma t_truth args n c : pctx_of args = Some c -> wsize PU8 c = n -> match c with CB n | CBO n _ => 1 <= n <= 8 | _ => True end ->
  takes ex n (read_ty cu fuel TBool None args).
Proof.
  intros E W H. cbn [read_ty]. unfold with_pctx. rewrite E. apply t_bind with (a := wsize PU8 c) (b := 0); [apply t_bool, H|intros; apply t_ret|lia].
Qed.
Lemma t_args t e bits bytes o ctx n : ty_takes t -> size_on_read t bits bytes -> (passes_args t = true -> no_sizes ctx) ->
  own_size t bits bytes = Some n -> takes ex n (read_ty cu fuel t None (args_of e bits bytes o ctx)).
Proof.
  intros HT [[[-> ->]|HS] HR] HC HO.
  - apply HT; [exact HO|]. intros Hp. apply no_sizes_args. auto.
  - assert (HN : forall p c, size_on (TPrim p) bits bytes -> no_sizes ctx -> pctx_of (args_of e bits bytes o ctx) = Some c -> own_size (TPrim p) bits bytes = Some n -> wsize p c = n).
    { intros p c Hs Hc E Ho. rewrite (wsize_args p _ _ _ _ _ _ Hc E). unfold own_size in Ho. destruct bits as [k|]; [now injection Ho as <-|].
      destruct bytes as [k|]; [|now injection Ho as <-]. injection Ho as <-. destruct Hs as [[_ Hs]|Hs]; [discriminate|]. destruct p; [destruct Hs as [|Hs]; [discriminate|injection Hs as ->]; reflexivity|lia|lia]. }
    destruct t as [p| | | | | | | | | | |]; try contradiction; specialize (HC eq_refl);
      (destruct (pctx_of (args_of e bits bytes o ctx)) as [c|] eqn:E; [|cbn [read_ty]; unfold with_pctx; rewrite E; apply t_panic]).
    + eapply t_num; [exact E|apply HN; auto; right; exact HS|]. intros ->. eapply size_args; eauto.
    + eapply t_truth; [exact E|apply (HN PU8); auto; right; exact HS|]. eapply size_args; eauto.
Qed.
Lemma t_asks A n (m : RM A) : asks ex A n m -> takes ex n m.
Proof.
  induction 1 as [A x H|A n e H|A B a b m f _ Hm _ Hf|n o|n size o H|p c H|p e n|n o|A n k m Hx L _ H|A n f _ H|A n m1 m2 He _ H].
  - now apply t_lift.
  - now apply t_fail.
  - eapply t_bind; [exact Hm|exact Hf|reflexivity].
  - apply t_bits.
  - now apply t_bytes.
  - destruct H as [->|[e ->]]; [apply (t_prim ex p C0)|apply (t_prim ex p (CE e))]; auto.
  - apply (t_prim ex p (CEB e n)). auto.
  - apply t_skip.
  - eapply t_less; eassumption.
  - apply (t_see ex n (fun r => f (r_bits r))). intros r. apply H.
  - eapply t_ext; eassumption.
Qed.
Lemma t_field c a t wire vec ctx fs n : ty_takes wire -> sized_field ex a t wire -> a_seek a = None ->
  own_size t (const_size (a_bits a)) (const_size (a_bytes a)) = Some n ->
  takes ex (8 * length (a_magic a) + const_pad (a_pad_before a) + n + const_pad (a_pad_after a))
    (read_field c a vec ctx fs (fun lim args => read_ty cu fuel wire lim args)).
Proof.
  intros HT R Hs HO. unfold read_field. rewrite Hs. cbn [option_map read_seek].
  assert (HW : own_size wire (const_size (a_bits a)) (const_size (a_bytes a)) = Some n).
  { rewrite <- HO. unfold own_size. destruct (a_bits a) as [f|] eqn:B1; [reflexivity|]. destruct (a_bytes a) as [f|] eqn:B2; [reflexivity|]. cbn. exact (sf_wire _ _ _ _ R B1 B2). }
  match goal with |- takes _ ?k _ => apply t_bind with (a := 0) (b := k) end; [apply t_ret|intros _|reflexivity].
  eapply t_bind with (b := const_pad (a_pad_before a) + n + const_pad (a_pad_after a)); [apply t_magic|intros _|lia].
  eapply t_bind with (b := n + const_pad (a_pad_after a)); [apply t_pad, R|intros _|lia].
  apply t_see with (f := fun r => let* v := field_read_tokens a ctx fs (r_bits r) (field_read_normal a ctx fs (r_bits r) (field_read_func c a vec ctx fs (r_bits r) (fun lim args => read_ty cu fuel wire lim args))) in
     let* _ := asserts a ctx fs (r_bits r) v in let* _ := read_pad (eval0 (a_pad_after a) ctx (fs ++ [v])) (field_order c a ctx fs) in ret v).
  intros r. generalize (r_bits r) as off. intros off.
  eapply t_bind with (b := const_pad (a_pad_after a)); [|intros v|reflexivity].
  2:{ match goal with |- takes _ ?k _ => apply t_bind with (a := 0) (b := k) end; [apply t_asserts|intros _|reflexivity]. eapply t_bind; [apply t_pad, R|intros; apply t_ret|lia]. }
  assert (HF : takes ex n (field_read_normal a ctx fs off (field_read_func c a vec ctx fs off (fun lim args => read_ty cu fuel wire lim args)))).
  { unfold field_read_normal. eapply t_bind with (a := n) (b := 0); [|intros v|lia].
    - unfold field_read_func. destruct (a_reader a) as [f|] eqn:Er; [apply t_asks, (sf_reader _ _ _ _ R f Er); exact HO|]. rewrite (sf_limit _ _ _ _ R). cbv zeta. unfold field_args.
      rewrite (eval_constant _ _ _ (sf_bits _ _ _ _ R)), (eval_constant _ _ _ (sf_bytes _ _ _ _ R)). eapply t_args; try eassumption; [apply R|]. intros Hp. now apply (sf_ctx _ _ _ _ R).
    - destruct (a_map a) as [f|] eqn:Em; [|apply t_ret]. apply t_lift. intros e. now apply (sf_map _ _ _ _ R). }
  assert (HZ : match a_skip a, a_cond a with Some SkipWrite, _ | None, None => False | _, _ => True end -> takes ex n (ret (a_default a ctx fs off))).
  { intros Hk. destruct (Bool.bool_dec ex true) as [Ex|Ex].
    - pose proof (sf_read _ _ _ _ R Ex). destruct (a_skip a) as [[]|], (a_cond a); contradiction.
    - apply t_less with (n := 0); [apply t_ret|now destruct ex|lia]. }
  unfold field_read_tokens. cbv zeta. destruct (a_skip a) as [[]|], (a_cond a) as [f|]; try destruct (f _ _ _); auto.
Qed.

Definition fields_takes (fs : fields) : Prop :=
  sized_fields ex fs ->
  (forall n, fields_size fs false = Some n -> forall c ctx acc, takes ex n (fields_read cu fuel c ctx fs None acc)) /\
  (forall n, fields_size fs (negb (no_fields fs)) = Some n -> match fs with FCons a _ _ _ => a_reader a = None | FNil => True end -> forall c ctx x acc, takes ex n (fields_read cu fuel c ctx fs (Some x) acc)).
Definition variants_takes (vs : variants) : Prop :=
  sized_variants ex vs -> ex = false ->
  forall e m n, variants_size e vs = Some m -> m <= n -> forall ctx id k default, (forall d, default = Some d -> takes ex n d) ->
  takes ex n (variants_read cu fuel e ctx id vs k default).

Theorem takes_all : (forall t, sized ex t -> ty_takes t) /\ (forall fs, fields_takes fs) /\ (forall vs, variants_takes vs).
Proof.
  apply types_ind; unfold ty_takes; try discriminate.
  - intros p _ n E args Hg. cbn [size_bits] in E. injection E as <-. specialize (Hg eq_refl). destruct (pctx_of args) as [c|] eqn:E; [|cbn [read_ty]; unfold with_pctx; rewrite E; apply t_panic].
    eapply t_num; [exact E|now apply (wsize_plain p args)|]. intros _. now apply (plain_args args).
  - intros _ n E args Hg. cbn [size_bits] in E. injection E as <-. specialize (Hg eq_refl). destruct (pctx_of args) as [c|] eqn:E; [|cbn [read_ty]; unfold with_pctx; rewrite E; apply t_panic].
    eapply t_truth; [exact E|now apply (wsize_plain PU8 args)|]. now apply (plain_args args).
  - intros a IHa b IHb [Ha Hb] n E args Hg. cbn [read_ty size_bits passes_args] in *. destruct (size_bits a) as [x|] eqn:Ea, (size_bits b) as [y|] eqn:Eb; try discriminate. injection E as <-.
    apply t_bind with (a := x) (b := y); [apply IHa; auto; intros Hp; apply Hg; now rewrite Hp| |reflexivity]. intros u.
    apply t_bind with (a := y) (b := 0); [apply IHb; auto; intros Hp; apply Hg; rewrite Hp; apply orb_true_r|intros; apply t_ret|lia].
  - intros k t IH H n E args Hg. cbn [read_ty size_bits passes_args] in *. destruct (size_bits t) as [x|] eqn:Et; [|discriminate]. injection E as <-.
    eapply t_bind; [apply t_array, IH; auto|intros; apply t_ret|lia].
  - intros c fs IH H n E args Hg. rewrite read_struct. cbn [size_bits] in E. destruct (c_seek c); [discriminate|].
    destruct (fields_size fs false) as [m|] eqn:Ef; [|discriminate]. injection E as <-. cbn [option_map read_seek].
    match goal with |- takes _ ?k _ => apply t_bind with (a := 0) (b := k) end; [apply t_ret|intros _|reflexivity]. apply t_bind with (a := 8 * length (c_magic c)) (b := m); [apply t_magic|intros _|reflexivity].
    eapply t_bind; [apply (proj1 (IH H)); eassumption|intros; apply t_ret|lia].
  - intros e idt IHi vs IHv (Hx & Hr & Hi & Hvs) n E args Hg. rewrite read_enum. cbn [size_bits] in E. destruct (c_seek (en_c e)); [discriminate|].
    match type of E with match ?a with _ => _ end = _ => destruct a as [i|] eqn:Ei; [|discriminate] end.
    destruct (variants_size e vs) as [m|] eqn:Em; [|discriminate]. injection E as <-.
    rewrite <- Nat.add_assoc. apply t_bind with (a := 8 * length (c_magic (en_c e))) (b := i + m); [apply t_magic|intros _|reflexivity].
    apply t_bind with (a := i) (b := m); [|intros id; eapply IHv; [exact Hvs|exact Hx|exact Em|apply le_n|discriminate]|reflexivity].
    unfold sized_id in Hr. destruct (en_id e) as [f|]; [apply t_less with (n := 0); [apply t_ret|exact Hx|lia]|].
    destruct (Hr eq_refl) as (K1 & K2 & Hs). unfold id_args. rewrite (eval_constant _ _ _ K1), (eval_constant _ _ _ K2).
    eapply t_args; [exact (IHi Hi)|exact Hs|intros _; constructor|]. unfold own_size. destruct (const_size (en_bits e)); [exact Ei|]. destruct (const_size (en_bytes e)); exact Ei.
  - intros _. split; intros n E; injection E as <-; [|intros _]; intros c ctx; [|intros x]; intros acc; apply t_ret.
  - intros a t _ wire IHw tl IHtl (Ra & Rw & Rtl). destruct (IHtl Rtl) as [IH _]. specialize (IHw Rw). split; intros n E; [|intros Hk]; intros c ctx; [|intros id]; intros acc; rewrite read_cons; cbn [fields_size no_fields negb] in E;
      (destruct (a_seek a) eqn:Es; [discriminate|]); cbn [orb] in E.
    + rewrite (sf_temp _ _ _ _ Ra) in E. cbn [orb] in E. fold (own_size t (const_size (a_bits a)) (const_size (a_bytes a))) in E.
      destruct (own_size t (const_size (a_bits a)) (const_size (a_bytes a))) as [x|] eqn:Eo; [|discriminate]. destruct (fields_size tl false) as [y|] eqn:Ey; [|discriminate]. injection E as <-.
      eapply t_bind with (b := y); [eapply t_field; eassumption|intros v|reflexivity]. eapply t_bind with (a := y); [apply IH; reflexivity|intros; apply t_ret|lia].
    + rewrite Hk. apply t_bind with (a := 0) (b := n); [apply t_ret|intros v|reflexivity]. eapply t_bind; [apply IH; exact E|intros; apply t_ret|lia].
  - intros _ Hx e m n E L ctx id k default Hd. cbn [variants_read]. destruct default as [d|]; [now apply Hd|apply t_fail; discriminate].
  - intros v fs IHf vs IHv (Rk & Rf & Rvs) Hx e m n E L ctx id k default Hd. rewrite read_variant. cbv zeta. cbn [variants_size] in E. destruct (IHf Rf) as [F1 F2].
    destruct (fields_size fs (stores_id e v && negb (no_fields fs))) as [x|] eqn:Ex; [|discriminate]. destruct (variants_size e vs) as [y|] eqn:Ey; [|discriminate]. injection E as <-.
    assert (HB : takes ex n (let* l := fields_read cu fuel (en_c e) ctx fs (if stores_id e v then Some id else None) [] in ret (VVar k l))).
    { apply t_less with (n := x); [|exact Hx|lia]. eapply t_bind with (a := x); [|intros; apply t_ret|lia]. destruct (stores_id e v) eqn:St; [|now apply F1]. apply F2; [exact Ex|]. unfold keeps_id in Rk. unfold stores_id in St. destruct (en_id e), (v_sel v); try discriminate. exact Rk. }
    destruct (matches _ _); [exact HB|]. eapply IHv; [exact Rvs|exact Hx|exact Ey|lia|]. intros d. destruct default as [d0|]; [apply Hd|]. destruct (v_default v); [|discriminate]. intros [= <-]. exact HB.
Qed.
End Derived.

(** ** From a fresh reader *)

Lemma ok_new input : ok (reader_new (cursor input)).
Proof. split; [exact I|]. split; [intros k; reflexivity|]. split; [reflexivity|]. split; [reflexivity|]. split; [intros [b E]; discriminate|]. left. cbn. lia. Qed.
Lemma ok_whole r : ok r -> r_bits r / 8 <= length (s_data (r_s r)) -> r_bits r <= 8 * length (s_data (r_s r)).
Proof. intros (_ & _ & _ & S & _ & [L|L]) H; unfold synced in S; [lia|]. rewrite L in S. cbn [left_bits length] in S. lia. Qed.
Lemma ok_pos r : ok r -> s_pos (r_s r) = (r_bits r + 7) / 8.
Proof. intros (W & _ & _ & S & P & _). unfold synced, r_wf in *. destruct (r_left r) as [[b|l]|] eqn:L; [exfalso; apply P; now exists b| |]; cbn [left_bits length] in S; lia. Qed.

Section Api.
Variables (cu : nat -> custom) (fuel : nat) (ex : bool) (t : ty) (n : nat).
Hypothesis (T : sized ex t) (N : size_bits t = Some n).

Lemma t_top bit : takes ex (bit + n) (let* _ := if bit =? 0 then ret tt else skip_bits bit Msb0 in read_ty cu fuel t None []).
Proof.
  apply t_bind with (a := bit) (b := n); [|intros _; apply (proj1 (takes_all cu fuel ex) t T n N); constructor|reflexivity].
  destruct (Nat.eqb_spec bit 0) as [->|]; [apply t_ret|apply t_skip].
Qed.
Theorem reader_takes input bit : match from_reader cu fuel t (cursor input) bit with
  | (Ok (k, v), s) => k <= bit + n /\ (ex = true -> k = bit + n) /\ s_pos s = (k + 7) / 8 /\ (k / 8 <= length input -> k <= 8 * length input)
  | (Err (Incomplete _), _) => 8 * length input < bit + n
  | _ => True
  end.
Proof.
  unfold from_reader. pose proof (t_top bit) as H. unfold takes in H.
  destruct ((let* _ := if bit =? 0 then ret tt else skip_bits bit Msb0 in read_ty cu fuel t None []) (reader_new (cursor input))) as [x r] eqn:E.
  destruct (H _ _ _ (ok_new input) E) as [H1 H2]. clear H. rewrite <- bind_assoc. unfold bind at 1. rewrite E. destruct x as [v|e| |].
  - destruct (H1 v eq_refl) as (G & D & k & B & L & X). cbn [reader_new r_bits r_s cursor s_data Nat.add] in *. rewrite B in *. split; [exact L|]. split; [exact X|].
    pose proof (ok_pos _ G) as P. rewrite B in P. split; [exact P|]. pose proof (ok_whole _ G) as W. now rewrite B, D in W.
  - destruct e; auto. exact (H2 _ eq_refl).
  - exact I.
  - exact I.
Qed.
End Api.
Theorem takes_size cu fuel t n input bit rest off v : sized true t -> size_bits t = Some n -> from_bytes cu fuel t input bit = Ok ((rest, off), v) ->
  bit + n <= 8 * length input /\ rest = skipn ((bit + n) / 8) input /\ off = (bit + n) mod 8.
Proof.
  intros T N E. pose proof (reader_takes cu fuel true t n T N input bit) as H. unfold from_bytes in E. destruct (from_reader _ _ _ _ _) as [[[k w]|e| |] s]; try discriminate.
  destruct H as (_ & X & _ & W). specialize (X eq_refl). subst k. cbv zeta in E. destruct (Nat.leb_spec ((bit + n) / 8) (length input)) as [L|]; [|discriminate]. injection E as <- <- _. auto.
Qed.
Theorem takes_at_most cu fuel t n input bit rest off v : sized false t -> size_bits t = Some n -> from_bytes cu fuel t input bit = Ok ((rest, off), v) ->
  exists k, k <= bit + n /\ k <= 8 * length input /\ rest = skipn (k / 8) input /\ off = k mod 8.
Proof.
  intros T N E. pose proof (reader_takes cu fuel false t n T N input bit) as H. unfold from_bytes in E. destruct (from_reader _ _ _ _ _) as [[[k w]|e| |] s]; try discriminate.
  destruct H as (X & _ & _ & W). cbv zeta in E. destruct (Nat.leb_spec (k / 8) (length input)) as [L|]; [|discriminate]. injection E as <- <- _. exists k. auto.
Qed.
Theorem size_enough cu fuel t n input bit e : sized false t -> size_bits t = Some n -> bit + n <= 8 * length input ->
  from_bytes cu fuel t input bit <> Err (Incomplete e) /\ (bit = 0 -> try_from cu fuel t input <> Err (Incomplete e)).
Proof.
  intros T N L. pose proof (reader_takes cu fuel false t n T N input bit) as H. unfold from_bytes, try_from. split; [|intros ->].
  - destruct (from_reader _ _ _ _ _) as [[[k w]|x| |] s]; try discriminate.
    + destruct H as (X & _). cbv zeta. destruct (Nat.leb_spec (k / 8) (length input)); [discriminate|lia].
    + intros E. injection E as ->. lia.
  - destruct (from_reader _ _ _ _ _) as [[[k w]|x| |] s]; try discriminate.
    + destruct H as (X & _). cbv zeta. destruct (Nat.ltb_spec (k / 8) (length input)); [discriminate|]. destruct (Nat.ltb_spec (length input) (k / 8)); [lia|discriminate].
    + intros E. injection E as ->. lia.
Qed.
Theorem whole_size cu fuel t n input v : sized true t -> size_bits t = Some n ->
  (try_from cu fuel t input = Ok v <-> n = 8 * length input /\ from_bytes cu fuel t input 0 = Ok (([], 0), v)).
Proof.
  intros T N. pose proof (reader_takes cu fuel true t n T N input 0) as H. unfold from_bytes, try_from.
  destruct (from_reader _ _ _ _ _) as [[[k w]|x| |] s]; try (split; [discriminate|intros [_ E]; discriminate]).
  destruct H as (_ & X & _ & W). specialize (X eq_refl). cbn [Nat.add] in X. subst k. cbv zeta. split.
  - destruct (Nat.ltb_spec (n / 8) (length input)); [discriminate|]. destruct (Nat.ltb_spec (length input) (n / 8)); [discriminate|]. intros E. injection E as <-.
    assert (n = 8 * length input) by lia. split; [assumption|]. destruct (Nat.leb_spec (n / 8) (length input)); [|lia]. rewrite skipn_all2 by lia. repeat f_equal. lia.
  - intros [-> E]. destruct (Nat.leb_spec (8 * length input / 8) (length input)); [|discriminate]. injection E as _ _ <-.
    destruct (Nat.ltb_spec (8 * length input / 8) (length input)); [lia|]. destruct (Nat.ltb_spec (length input) (8 * length input / 8)); [lia|]. reflexivity.
Qed.
Theorem position_after cu fuel t n input bit k v s : sized true t -> size_bits t = Some n -> from_reader cu fuel t (cursor input) bit = (Ok (k, v), s) ->
  k = bit + n /\ s_pos s = (bit + n + 7) / 8.
Proof. intros T N E. pose proof (reader_takes cu fuel true t n T N input bit) as H. rewrite E in H. destruct H as (_ & X & P & _). rewrite (X eq_refl) in P. auto. Qed.
