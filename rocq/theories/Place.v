(** A reader's place in its input: C29. *)
From Coq Require Import Lia ZifyBool ZifyNat ZifyN.
From Verif Require Import Base MonadFacts Spec Stream Reader Session BitsFacts NFacts Prims Containers ReaderFacts ReaderOps FastRead
  SourceSim CodecSpec CodecFacts Derive DeriveSpec DeriveSound DeriveClosed ReadStreams.
Ltac Zify.zify_post_hook ::= Z.div_mod_to_equations.

Section Place.
Variables (input : list byte) (whole : bool).

(** [bits_read] agrees with the source's position, and what is unread is what follows
    it in the input (or the source is past the end of the input). *)
Definition placed (r : reader) : Prop :=
  r_wf r /\ quiet (r_s r) /\ s_noseek (r_s r) = None /\ (s_data (r_s r) = input /\ s_eat (r_s r) = true) /\ synced r /\
  (whole = true -> fst (unread r) = []) /\
  (unread_string Msb0 (unread r) = skipn (r_bits r) (bitstring Msb0 input) \/ (r_left r = None /\ 8 * length input < r_bits r)).
Definition keeps {A} (m : RM A) : Prop :=
  forall r a r', placed r -> m r = (Ok a, r') -> placed r' /\ (~ peeked r -> ~ peeked r').

Lemma keeps_ext {A} (m1 m2 : RM A) : (forall r, m1 r = m2 r) -> keeps m1 -> keeps m2.
Proof. intros E H r a r'. rewrite <- E. apply H. Qed.
Lemma keeps_lift {A} (x : res A) : keeps (lift x).
Proof. intros r a r' H E. apply pair_inj in E. destruct E as [_ <-]. auto. Qed.
Lemma keeps_bind {A B} (m : RM A) (f : A -> RM B) : keeps m -> (forall a, keeps (f a)) -> keeps (bind m f).
Proof.
  intros M F r b r' H E. apply bind_inv in E. destruct E as (a & r1 & E1 & E2).
  destruct (M _ _ _ H E1) as [H1 P1]. destruct (F a _ _ _ H1 E2) as [H2 P2]. auto.
Qed.
Lemma keeps_see {A} (f : reader -> RM A) : (forall r, keeps (f r)) -> keeps (fun r => f r r).
Proof. intros F r. exact (F r r). Qed.

(** One step. *)
Lemma placed_step o n l r r' : placed r -> adv r r' n -> take_bits o n (unread r) = Some (l, unread r') ->
  (if whole then n mod 8 = 0 else o = Msb0) -> placed r'.
Proof.
  intros (Hw & Hq & Hn & (Hd & He) & Hs & Ha & Hc) A T Ho.
  assert (HA : whole = true -> fst (unread r') = [] /\ unread_string Msb0 (unread r') = skipn n (unread_string Msb0 (unread r))).
  { intros W. rewrite W in *. specialize (Ha eq_refl). assert (H8 : n mod 8 = 0) by exact Ho. destruct (unread r) as [p bs]. cbn [fst] in Ha. subst p.
    destruct (take_bits_some_len _ _ _ _ _ T) as [_ HL]. unfold unread_len in HL. cbn [fst snd length] in HL.
    assert (Hk : exists k, n = 8 * k) by (exists (n / 8); lia). destruct Hk as [k ->]. rewrite take_bits_bytes in T by lia. injection T as _ <-. split; [reflexivity|].
    unfold unread_string. cbn [fst snd]. rewrite orient_nil. cbn [app]. now rewrite <- bitstring_skipn. }
  assert (HS : unread_string Msb0 (unread r') = skipn n (unread_string Msb0 (unread r))).
  { destruct whole; [now apply HA|]. subst o. now destruct (take_bits_firstn _ _ _ _ _ T). }
  pose proof A as [(Sd & Se & Sf) Aw Ab Ap Al Av]. split; [exact Aw|]. split; [exact (adv_quiet _ _ _ A Hq)|].
  split; [unfold virt_moved in Av; now rewrite Av, Hn|]. split; [split; congruence|]. split; [exact (adv_synced _ _ _ A Hs)|]. split; [apply HA|].
  destruct Hc as [Hc|[Hl Hp]].
  - left. rewrite HS, Hc, Ab, skipn_skipn. f_equal; lia.
  - right. unfold unread in T. rewrite Hl in T. assert (Hav : s_avail (r_s r) = []).
    { unfold s_avail. apply skipn_all2. unfold synced in Hs. rewrite Hl in Hs. cbn in Hs. rewrite Hd. lia. }
    rewrite Hav in T. destruct (take_bits_some_len _ _ _ _ _ T) as [_ HL]. unfold unread_len in HL. cbn [fst snd length] in HL.
    assert (n = 0) by lia. subst n. cbn in T. split; [|lia]. unfold unread, r_wf in *. destruct (r_left r') as [[b|x]|]; [discriminate| |reflexivity].
    injection T as _ E. subst x. cbn in Aw. lia.
Qed.

Lemma keeps_step {A} (m : RM A) o n : (if whole then n mod 8 = 0 else o = Msb0) ->
  (forall r a r', r_wf r -> quiet (r_s r) -> m r = (Ok a, r') ->
     exists l, adv r r' n /\ take_bits o n (unread r) = Some (l, unread r') /\ (~ peeked r -> ~ peeked r')) -> keeps m.
Proof.
  intros Ho H r a r' P E. destruct (H r a r' (proj1 P) (proj1 (proj2 P)) E) as (l & A1 & T & U). split; [eapply placed_step; eassumption|exact U].
Qed.
Lemma bits_step n o r a r' : r_wf r -> quiet (r_s r) -> read_bits_into n o r = (Ok a, r') ->
  exists l, adv r r' n /\ take_bits o n (unread r) = Some (l, unread r') /\ (~ peeked r -> ~ peeked r').
Proof.
  intros W Q E. pose proof (read_bits_into_spec n o r W Q) as H. destruct (take_bits o n (unread r)) as [[l u']|] eqn:T.
  - destruct H as (r1 & E1 & A & U). rewrite E1 in E. apply pair_inj in E. destruct E as [_ <-]. exists l. rewrite U. split; [exact A|]. split; [reflexivity|].
    eapply read_bits_into_unpeeked. exact E1.
  - destruct H as (r1 & E1 & _). rewrite E1 in E. discriminate.
Qed.
Lemma keeps_bits n o : (if whole then n mod 8 = 0 else o = Msb0) -> keeps (read_bits_into n o).
Proof. intros H. eapply keeps_step; [exact H|]. intros. eapply bits_step; eassumption. Qed.
Lemma keeps_uint n : (whole = true -> n mod 8 = 0) -> keeps (read_bits_uint_msb0 n).
Proof.
  intros H. assert (D : 1 <= n <= 64 \/ ~ (1 <= n <= 64)) by lia. destruct D as [D|D].
  - apply keeps_step with (o := Msb0) (n := n); [destruct whole; auto|]. intros r a r' W Q E. pose proof E as E0. rewrite (fast_read_generic _ _ W Q D) in E.
    apply bind_inv in E. destruct E as (l & r1 & E1 & E2). apply pair_inj in E2. destruct E2 as [_ <-]. eapply bits_step; eassumption.
  - apply keeps_ext with (m1 := lift Panic); [|apply keeps_lift]. intros r. unfold read_bits_uint_msb0. replace ((1 <=? n) && (n <=? 64)) with false by lia. reflexivity.
Qed.
Lemma keeps_bytes n k o : (if whole then True else o = Msb0) -> keeps (read_bytes n k o).
Proof.
  intros H. apply keeps_step with (o := o) (n := 8 * n); [destruct whole; [lia|exact H]|]. intros r a r' W Q E.
  assert (K : n <= k /\ (n = 0 -> ~ peeked r)).
  { unfold read_bytes in E. destruct (r_left r) as [[b|l]|] eqn:L.
    - unfold read_bytes_leftover, bind, modify in E. destruct (k =? 0) eqn:K0; [discriminate|]. destruct (n =? 0) eqn:N0; [discriminate|].
      destruct (n - 1 =? 0) eqn:N1; [split; lia|]. destruct (k <? n - 1) eqn:K1; [discriminate|]. destruct (k <? n) eqn:K2; [discriminate|]. split; lia.
    - destruct (k <? n) eqn:K2; [discriminate|]. split; [lia|]. intros _ [b X]. congruence.
    - destruct (k <? n) eqn:K2; [discriminate|]. split; [lia|]. intros _ [b X]. congruence. }
  destruct K as [K1 K2]. pose proof (read_bytes_spec n k o r W Q K1 K2) as S. destruct (take_bits o (8 * n) (unread r)) as [[l u']|] eqn:T.
  - destruct S as (bs & r1 & E1 & _ & A & U). pose proof E1 as E0. rewrite E1 in E. apply pair_inj in E. destruct E as [_ <-]. exists l. rewrite U. split; [exact A|]. split; [reflexivity|].
    eapply read_bytes_unpeeked. exact E0.
  - destruct S as (e & r1 & E1 & _). rewrite E1 in E. discriminate.
Qed.
Lemma keeps_fail {A} e : keeps (fail (A:=A) e).
Proof. exact (keeps_lift (Err e)). Qed.
Lemma keeps_ret {A} (a : A) : keeps (ret a).
Proof. exact (keeps_lift (Ok a)). Qed.
Lemma keeps_prim p args c : Forall (keeps_place whole) args -> pctx_of args = Some c -> keeps (prim_read p c).
Proof.
  intros G E.
  assert (HY : forall e n o, (if whole then True else o = Msb0) -> keeps (read_eyo p e n o)).
  { intros e n o H. unfold read_eyo, read_u8_bytes, read_bytes_sized. destruct p; [|destruct (_ <? _); [apply keeps_fail|]..];
      (apply keeps_bind; [now apply keeps_bytes|intros; apply keeps_ret]). }
  assert (HU : forall wb e n o, (if whole then n mod 8 = 0 else o = Msb0) -> keeps (read_u_bits wb e n o)).
  { intros wb e n o H. unfold read_u_bits. destruct (_ <? n); [apply keeps_fail|]. cbv zeta.
    assert (SL : keeps (let* bits := read_bits_into n o in lift (u_of_bits wb e n o bits))) by (apply keeps_bind; [now apply keeps_bits|intros; apply keeps_lift]).
    destruct e, o; auto. destruct (_ && _); auto. apply keeps_bind; [apply keeps_uint; intros W; now rewrite W in H|intros; apply keeps_ret]. }
  assert (HO : forall e n o, (if whole then n mod 8 = 0 else o = Msb0) -> keeps (read_ebo p e n o)).
  { intros e n o H. unfold read_ebo. destruct p; auto. unfold read_i_bits. destruct (_ <? n); [apply keeps_fail|].
    apply keeps_bind; [now apply keeps_bits|intros; apply keeps_lift]. }
  assert (HE : forall e, keeps (read_e p e)) by (intros; unfold read_e, read_bytes_const; apply keeps_bind; [apply keeps_bytes; now destruct whole|intros; apply keeps_ret]).
  assert (GB : forall n, In (VBits n) args -> whole = true -> n mod 8 = 0) by (intros n I W; rewrite Forall_forall in G; apply G in I; now rewrite W in I).
  assert (GO : forall o, In (VOrd o) args -> whole = false -> o = Msb0) by (intros o I W; rewrite Forall_forall in G; apply G in I; rewrite W in I; now destruct o).
  clear G.
  assert (F : forall o, In (VOrd o) args -> if whole then True else o = Msb0) by (intros o I; destruct whole; auto).
  assert (FB : forall n, In (VBits n) args -> if whole then n mod 8 = 0 else Msb0 = Msb0) by (intros n I; destruct whole; auto).
  assert (FBO : forall n o, In (VBits n) args -> In (VOrd o) args -> if whole then n mod 8 = 0 else o = Msb0) by (intros n o I J; destruct whole; auto).
  assert (F0 : if whole then True else Msb0 = Msb0) by now destruct whole.
  unfold pctx_of in E. repeat (match type of E with match ?x with _ => _ end = _ => destruct x; try discriminate E end); injection E as <-; cbn [prim_read];
    try destruct (_ mod 8 =? 0);
    (apply HE || apply HY || apply HO); (exact F0 || (apply F; cbn [In]; tauto) || (apply FB; cbn [In]; tauto) || (apply FBO; cbn [In]; tauto)).
Qed.
Lemma keeps_u8 : keeps (prim_read PU8 C0).
Proof. exact (keeps_prim PU8 [] C0 (Forall_nil _) eq_refl). Qed.
Lemma end_placed r b r' : placed r -> r_end r = (b, r') -> placed r'.
Proof.
  intros P E. destruct (r_end_spec r (proj1 P) (proj1 (proj2 P))) as (r1 & E1 & A & U). rewrite E1 in E. apply pair_inj in E. destruct E as [_ <-].
  eapply placed_step with (o := Msb0) (l := []); [exact P|exact A| |destruct whole; auto]. cbn. now rewrite U.
Qed.
Lemma end_unpeeked r r' : placed r -> r_end r = (true, r') -> ~ peeked r'.
Proof.
  intros P E. destruct (r_end_spec r (proj1 P) (proj1 (proj2 P))) as (r1 & E1 & A & U). rewrite E1 in E. apply pair_inj in E. destruct E as [Z <-].
  intros [c L]. apply Nat.eqb_eq in Z. rewrite <- U in Z. unfold unread in Z. rewrite L in Z. discriminate.
Qed.

Lemma skip_eq n o r : skip_bits n o r =
  (let n0 := match r_left r with Some (Reader.LBits bits) => Nat.min n (length bits) | _ => 0 end in
   let* _ := read_bits_into n0 o in
   let* _ := if (n - n0) / 8 =? 0 then ret tt else fun r => if negb (r_bits r mod 8 =? 0) then (Panic, r)
         else (let* _ := lift_io (r_seek (SeekCurrent (Z.of_nat ((n - n0) / 8)))) in ret tt) r in
   let* _ := read_bits_into ((n - n0) mod 8) o in ret tt) r.
Proof.
  unfold skip_bits. destruct (r_left r) as [[b|bits]|]; cbv zeta; [|now rewrite bind_assoc|]; rewrite Nat.sub_0_r; reflexivity.
Qed.
Lemma skip_over n o r r' : placed r -> ~ peeked r -> take_bits o n (unread r) = None -> skip_bits n o r = (Ok tt, r') -> placed r' /\ ~ peeked r' /\ 8 * length input < r_bits r'.
Proof.
  intros (Hw & Hq & Hn & (Hd & He) & Hs & Ha & Hc) Hp T E. apply take_bits_none in T. rewrite skip_eq in E. cbv zeta in E.
  set (n0 := match r_left r with Some (Reader.LBits bits) => Nat.min n (length bits) | _ => 0 end) in *.
  assert (Hn0 : n0 = length (left_bits (r_left r))).
  { subst n0. unfold unread, unread_len in T. destruct (r_left r) as [[b|x]|] eqn:L; cbn [left_bits length fst snd] in *; [exfalso; apply Hp; now exists b|lia|reflexivity]. }
  apply bind_inv in E. destruct E as (l1 & r1 & E1 & E). destruct (bits_step _ _ _ _ _ Hw Hq E1) as (l0 & A1 & T1 & U1).
  assert (HL1 : r_left r1 = None).
  { specialize (U1 Hp). pose proof A1 as [_ W1 _ P1 _ _]. pose proof (adv_synced _ _ _ A1 Hs) as S1. unfold r_wf, peeked in *.
    destruct (take_bits_some_len _ _ _ _ _ T1) as [_ HL]. unfold unread, unread_len in HL.
    destruct (r_left r) as [[b|x]|] eqn:L; [exfalso; apply Hp; now exists b| |]; (destruct (r_left r1) as [[c|y]|] eqn:L1; [exfalso; apply U1; now exists c| |reflexivity]);
      cbn [left_bits length fst snd] in *; pose proof (adv_le _ _ _ A1); rewrite ?s_avail_length in HL; destruct (adv_src _ _ _ A1) as (D1 & _); rewrite ?D1 in HL; lia. }
  pose proof (adv_quiet _ _ _ A1 Hq) as Q1. assert (N1 : s_noseek (r_s r1) = None) by (rewrite (adv_virt _ _ _ A1), Hn; reflexivity).
  assert (D1 : s_data (r_s r1) = input /\ s_eat (r_s r1) = true) by (destruct (adv_src _ _ _ A1) as (X & Y & _); split; congruence). destruct D1 as [D1 G1].
  pose proof (adv_synced _ _ _ A1 Hs) as S1. unfold synced in S1. rewrite HL1 in S1. cbn [left_bits length] in S1.
  assert (UL : unread_len (unread r) = n0 + 8 * length (s_avail (r_s r1))).
  { destruct (take_bits_some_len _ _ _ _ _ T1) as [_ HL]. rewrite HL. unfold unread at 1. rewrite HL1. reflexivity. }
  rewrite UL, s_avail_length, D1 in T. set (k := (n - n0) / 8) in *. set (m := (n - n0) mod 8) in *. assert (Hk : n - n0 = 8 * k + m /\ m < 8) by (subst k m; lia).
  apply bind_inv in E. destruct E as ([] & r2 & E2 & E). apply bind_inv in E. destruct E as (l3 & r3 & E3 & E). apply pair_inj in E. destruct E as [_ <-].
  assert (X : r_left r2 = None /\ r_bits r2 = 8 * s_pos (r_s r2) /\ s_pos (r_s r2) = s_pos (r_s r1) + k /\ quiet (r_s r2) /\ s_noseek (r_s r2) = None /\ s_data (r_s r2) = input /\ s_eat (r_s r2) = true).
  { destruct (k =? 0) eqn:K0.
    - apply pair_inj in E2. destruct E2 as [_ <-]. repeat split; auto; lia.
    - destruct (negb _); [discriminate|]. apply bind_inv in E2. destruct E2 as (p & r2' & E2 & E4). apply pair_inj in E4. destruct E4 as [_ <-].
      destruct (r_seek_ok (SeekCurrent (Z.of_nat k)) r1 (s_pos (r_s r1) + k) Q1 N1) as (r2'' & X2 & (Sd & Se & Sf) & L2 & B2 & P2 & M2).
      { cbn [seek_target]. destruct (Z.ltb_spec (Z.of_nat (s_pos (r_s r1)) + Z.of_nat k) 0); [lia|]. f_equal. lia. }
      unfold lift_io in E2. rewrite X2 in E2. apply pair_inj in E2. destruct E2 as [_ <-]. repeat split; auto; try congruence; try lia. }
  destruct X as (L2 & B2 & P2 & Q2 & M2 & D2 & G2).
  assert (W2 : r_wf r2) by (unfold r_wf; now rewrite L2). destruct (bits_step _ _ _ _ _ W2 Q2 E3) as (l & A3 & T3 & U3).
  destruct (take_bits_some_len _ _ _ _ _ T3) as [_ HL]. unfold unread at 1 in HL. rewrite L2 in HL. unfold unread_len at 1 in HL. cbn [fst snd length] in HL.
  rewrite s_avail_length, D2, P2 in HL.
  assert (m = 0 /\ length input < s_pos (r_s r2)) as [M0 Past] by lia. rewrite M0 in *.
  assert (R3 : r3 = r2).
  { unfold read_bits_into in E3. cbn [Nat.eqb] in E3. apply pair_inj in E3. now destruct E3. }
  subst r3. split; [|split; [intros [c X]; congruence|lia]]. split; [exact W2|]. split; [exact Q2|]. split; [exact M2|]. split; [split; assumption|].
  split; [unfold synced; rewrite L2; cbn; lia|]. split; [intros _; unfold unread; now rewrite L2|]. right. split; [exact L2|lia].
Qed.
(** A seek drops what was read ahead and makes the counter 8 times the position. *)
Lemma keeps_seek w : keeps (lift_io (r_seek w)).
Proof.
  intros r p r' (Hw & Hq & Hn & (Hd & He) & Hs & Ha & Hc) E. unfold lift_io, r_seek, s_seek in E. cbn [r_set_left r_s] in E. rewrite (Hq _), Hn in E.
  destruct (seek_target _ _ _) as [q|]; [|discriminate]. apply pair_inj in E. destruct E as [_ <-].
  split; [|intros _ [b X]; discriminate]. split; [exact I|]. split; [intros k; cbn; apply Hq|]. split; [exact Hn|]. split; [split; assumption|].
  split; [unfold synced; cbn; lia|]. split; [reflexivity|].
  cbn [r_set_left r_set_bits r_set_s r_bits r_left r_s s_goto s_tick s_pos]. destruct (Nat.le_gt_cases q (length input)) as [L|L]; [left|right; split; [reflexivity|lia]].
  unfold unread, s_avail, unread_string. cbn [r_left r_set_left r_set_bits r_set_s r_s s_goto s_tick s_data s_pos fst snd]. rewrite orient_nil, Hd, <- bitstring_skipn. reflexivity.
Qed.
Lemma keeps_skip n o : (if whole then n mod 8 = 0 else o = Msb0) -> keeps (skip_bits n o).
Proof.
  intros Ho r [] r' P E. rewrite skip_eq in E. revert r' E.
  assert (K : keeps (let n0 := match r_left r with Some (Reader.LBits bits) => Nat.min n (length bits) | _ => 0 end in
   let* _ := read_bits_into n0 o in
   let* _ := if (n - n0) / 8 =? 0 then ret tt else fun r => if negb (r_bits r mod 8 =? 0) then (Panic, r)
         else (let* _ := lift_io (r_seek (SeekCurrent (Z.of_nat ((n - n0) / 8)))) in ret tt) r in
   let* _ := read_bits_into ((n - n0) mod 8) o in ret tt)).
  2:{ intros r' E. exact (K r tt r' P E). }
  cbv zeta. set (n0 := match r_left r with Some (Reader.LBits bits) => Nat.min n (length bits) | _ => 0 end).
  assert (H0 : (if whole then n0 mod 8 = 0 else o = Msb0) /\ (if whole then ((n - n0) mod 8) mod 8 = 0 else o = Msb0)).
  { destruct P as (_ & _ & _ & _ & _ & Ha & _). destruct whole; [|auto]. specialize (Ha eq_refl). unfold unread in Ha. subst n0.
    destruct (r_left r) as [[b|x]|]; cbn [fst] in Ha; [|subst x; cbn [length]|]; rewrite ?Nat.min_0_r, ?Nat.sub_0_r; split; auto; lia. }
  apply keeps_bind; [apply keeps_bits, H0|]. intros _. apply keeps_bind; [|intros _; apply keeps_bind; [apply keeps_bits, H0|intros; apply (keeps_lift (Ok tt))]].
  destruct (_ =? 0); [exact (keeps_lift (Ok tt))|]. intros r1 a r' P1 E. destruct (negb _); [discriminate|]. revert P1 E.
  apply (keeps_bind (A:=nat) (B:=unit)); [apply keeps_seek|intros; apply (keeps_lift (Ok tt))].
Qed.
Lemma keeps_vec_loop {A} (elem : RM A) stop : keeps elem -> forall fuel s acc, keeps (vec_loop fuel elem stop s acc).
Proof.
  intros E. induction fuel as [|f IH]; intros s acc; cbn [vec_loop]; [exact (keeps_lift Diverge)|]. apply keeps_bind; [exact E|]. intros v.
  eapply keeps_ext; [|apply (keeps_see (fun r => if r_bits r <? s then lift Panic else if stop (r_bits r - s) (acc ++ [v]) then ret (acc ++ [v]) else vec_loop f elem stop s (acc ++ [v])))].
  - intros r. cbv beta. destruct (_ <? s); [reflexivity|]. now destruct (stop _ _).
  - intros r. destruct (_ <? s); [apply keeps_lift|]. destruct (stop _ _); [apply keeps_ret|apply IH].
Qed.
Lemma end_loop_placed {A} (elem : RM A) : keeps elem -> forall fuel acc r a r', placed r -> end_loop fuel elem acc r = (Ok a, r') -> placed r' /\ ~ peeked r'.
Proof.
  intros E. induction fuel as [|f IH]; intros acc r a r' P X; cbn [end_loop] in X; [discriminate|].
  destruct (r_end r) as [[] r1] eqn:E1.
  - apply pair_inj in X. destruct X as [_ <-]. split; [eapply end_placed|eapply end_unpeeked]; eassumption.
  - apply end_placed in E1; [|exact P]. apply bind_inv in X. destruct X as (v & r2 & X1 & X2). eapply IH; [|exact X2]. eapply (E r1); eassumption.
Qed.
Lemma keeps_vec {A} fuel size (elem : RM A) lim : keeps elem -> keeps (vec_read fuel size elem lim).
Proof.
  intros E. assert (HP : forall f cap stop, keeps (vec_with_predicate f size cap elem stop)).
  { intros. unfold vec_with_predicate. destruct (size =? 0)%N; [apply keeps_ret|].
    match goal with |- keeps (if ?b then _ else _) => destruct b end; [exact (keeps_lift Panic)|].
    apply (keeps_see (fun r => vec_loop f elem stop (r_bits r) [])). intros r. now apply keeps_vec_loop. }
  destruct lim as [n|p|n|n|]; cbn [vec_read].
  - destruct (n =? 0)%N; [apply keeps_ret|]. eapply keeps_ext; [|apply HP]. reflexivity.
  - apply HP.
  - destruct (_ <? _)%N; [exact (keeps_lift Panic)|]. destruct (_ =? 0)%N; [apply keeps_ret|apply HP].
  - destruct (n =? 0)%N; [apply keeps_ret|apply HP].
  - unfold vec_to_end. destruct (size =? 0)%N; [apply keeps_ret|]. intros r a r' P X. destruct (end_loop_placed elem E _ _ _ _ _ P X) as [P1 U1]. auto.
Qed.
Lemma keeps_cstring fuel : keeps (read_cstring fuel).
Proof.
  unfold read_cstring. apply keeps_bind; [apply keeps_vec, keeps_u8|]. intros l. unfold to_cstring. destruct (from_vec_with_nul l); [apply keeps_ret|apply keeps_fail].
Qed.
Lemma keeps_cstring_bytes n : keeps (read_cstring_bytes n).
Proof.
  unfold read_cstring_bytes. apply keeps_bind; [apply keeps_vec, keeps_u8|]. intros l. unfold to_cstring. destruct (from_vec_with_nul l); [apply keeps_ret|apply keeps_fail].
Qed.
Lemma keeps_exact n : whole = true -> keeps (read_exact_vec n).
Proof.
  intros W. pose proof (keeps_bytes (N.to_nat n) (N.to_nat n) Lsb0 ltac:(now rewrite W)) as K.
  assert (S : forall r, placed r -> exists r1, placed r1 /\ (~ peeked r -> ~ peeked r1) /\ forall a r', read_exact_vec n r = (Ok a, r') -> read_bytes (N.to_nat n) (N.to_nat n) Lsb0 r1 = (Ok a, r')).
  { intros r P. pose proof P as (Hw & Hq & Hn & Hd & Hs & Ha & Hc). destruct (exact_state n r Hn Hq) as (r1 & E & D1 & P1 & A1 & N1 & Q1 & L1 & B1).
    exists r1. assert (U : unread r1 = unread r) by (unfold unread, s_avail; now rewrite L1, D1, P1). split; [|split].
    - unfold placed. rewrite U, B1, L1, D1, A1. unfold r_wf, synced in *. rewrite L1, P1, B1. auto 12.
    - unfold peeked. now rewrite L1.
    - intros a r' X. rewrite E in X. destruct (_ <? _); [discriminate|]. destruct (N.of_nat _ <? n)%N; [destruct (usize_max <? _)%N; discriminate|exact X]. }
  intros r a r' P X. destruct (S r P) as (r1 & P1 & Q1 & S1). apply S1 in X. destruct (K r1 a r' P1 X) as [P2 U2]. auto.
Qed.
Lemma stepping_keeps A (m : RM A) : stepping whole A m -> keeps m.
Proof.
  induction 1.
  - apply keeps_lift.
  - now apply keeps_bind.
  - now apply keeps_bits.
  - now apply keeps_bytes.
  - eapply keeps_prim; eassumption.
  - now apply keeps_skip.
  - apply keeps_seek.
  - apply (keeps_see (fun r => f (r_rest r) (r_bits r))). auto.
  - eapply keeps_ext; eassumption.
Qed.
Theorem derived_keeps cu fuel t : in_step whole cu t -> keeps (read_ty cu fuel t None []).
Proof.
  intros H. eapply (closed_read cu fuel) with (G := Forall (keeps_place whole)) (P := fun A => @keeps A) (offs := True) (ends := True);
    [..|exact H|intros X; discriminate|constructor]; intros; auto.
  - eapply keeps_ext; eassumption.
  - apply keeps_lift.
  - now apply keeps_bind.
  - apply (keeps_see (fun r => f (r_bits r))). auto.
  - eapply keeps_prim; eassumption.
  - apply keeps_u8.
  - apply H0.
  - now apply keeps_vec.
  - apply keeps_cstring.
  - apply keeps_cstring_bytes.
  - destruct H0 as (_ & _ & _ & [W|[X|X]]); [now apply keeps_exact|congruence|]. now apply X in H2.
  - destruct H0 as (_ & Ho & X & _). destruct H2 as (ctx & fs & E). apply keeps_skip.
    destruct whole; [specialize (X eq_refl p H1 ctx fs); lia|]. destruct H3 as [-> | (ctx' & fs' & E')]; [reflexivity|].
    specialize (Ho ctx' fs' 0). rewrite Forall_forall in Ho. specialize (Ho (VOrd o)).
    assert (I : In (VOrd o) (field_args c a ctx' fs' 0)) by (unfold field_args, args_of; rewrite E'; cbn [option_map opt_list]; rewrite !in_app_iff; cbn [In]; tauto).
    specialize (Ho I). now destruct o.
  - apply keeps_seek.
  - apply keeps_seek.
  - destruct H0 as (H0 & _). eapply stepping_keeps. now apply H0.
  - now apply stepping_keeps.
Qed.
End Place.

(** ** Continuing *)

Lemma fresh_placed input whole : placed input whole (reader_new (cursor input)).
Proof.
  split; [exact I|]. split; [intros j; reflexivity|]. split; [reflexivity|]. split; [split; reflexivity|]. split; [reflexivity|]. split; [reflexivity|]. left. reflexivity.
Qed.
Lemma fresh_unpeeked s : ~ peeked (reader_new s).
Proof. intros [b X]. discriminate. Qed.
Lemma app_inj {A} (a b x y : list A) : length a = length b -> a ++ x = b ++ y -> a = b /\ x = y.
Proof.
  revert b. induction a as [|h a IH]; intros [|k b] H E; try discriminate; [auto|]. cbn in *. injection E as -> E. destruct (IH b) as [-> ->]; auto.
Qed.
Lemma same_place input w1 w2 r1 r2 : let idx := r_bits r1 / 8 in
  idx <= length input -> placed input w1 r1 -> ~ peeked r1 ->
  placed (skipn idx input) w2 r2 -> ~ peeked r2 -> r_bits r2 = r_bits r1 mod 8 ->
  rrel (shift_rel input idx) idx r1 r2.
Proof.
  intros idx Hi (W1 & Q1 & N1 & (D1 & E1) & S1 & _ & C1) P1 (W2 & Q2 & N2 & (D2 & E2) & S2 & _ & C2) P2 B. unfold synced in *.
  assert (HL : length (left_bits (r_left r1)) < 8 /\ length (left_bits (r_left r2)) < 8).
  { unfold r_wf, peeked in *. destruct (r_left r1) as [[b|x]|], (r_left r2) as [[c|y]|]; cbn [left_bits length]; try lia;
      exfalso; (apply P1; now eexists) || (apply P2; now eexists). }
  assert (HE : length (left_bits (r_left r1)) = length (left_bits (r_left r2)) /\ s_pos (r_s r1) = idx + s_pos (r_s r2)) by (subst idx; lia).
  destruct HE as [HE HP].
  assert (C1' : unread_string Msb0 (unread r1) = skipn (r_bits r1) (bitstring Msb0 input)).
  { destruct C1 as [C1|[X Y]]; [exact C1|]. rewrite X in S1. cbn in S1. subst idx. lia. }
  assert (C2' : unread_string Msb0 (unread r2) = skipn (r_bits r1) (bitstring Msb0 input)).
  { destruct C2 as [C2|[X Y]]; [|rewrite X in S2; cbn in S2; lia]. rewrite C2, <- bitstring_skipn, skipn_skipn. f_equal. subst idx. lia. }
  split; [repeat split; auto; congruence|]. split; [|subst idx; lia].
  assert (US : forall r, ~ peeked r -> unread_string Msb0 (unread r) = left_bits (r_left r) ++ bitstring Msb0 (s_avail (r_s r))).
  { intros r Hp. unfold unread, unread_string. destruct (r_left r) as [[b|x]|] eqn:L; cbn [left_bits fst snd]; [exfalso; apply Hp; now exists b| |]; reflexivity. }
  rewrite (US r1 P1) in C1'. rewrite (US r2 P2), <- C1' in C2'. apply app_inj in C2'; [|now symmetry]. destruct C2' as [X _].
  unfold r_wf, peeked in *. destruct (r_left r1) as [[b|x]|], (r_left r2) as [[c|y]|]; cbn [left_bits length] in *; try congruence; try lia;
    exfalso; (apply P1; now eexists) || (apply P2; now eexists).
Qed.
Definition start_at (bit : nat) : RM unit := if bit =? 0 then ret tt else skip_bits bit Msb0.
Lemma start_placed input bit whole r : (whole = true -> bit mod 8 = 0) ->
  start_at bit (reader_new (cursor input)) = (Ok tt, r) -> placed input whole r /\ ~ peeked r.
Proof.
  unfold start_at. intros H E. destruct (bit =? 0); [apply pair_inj in E; destruct E as [_ <-]; split; [apply fresh_placed|apply fresh_unpeeked]|].
  destruct (keeps_skip input whole bit Msb0 ltac:(destruct whole; auto) _ _ _ (fresh_placed input whole) E) as [P U]. split; [exact P|]. apply U, fresh_unpeeked.
Qed.
Lemma start_short input bit : bit < 8 -> (bit = 0 \/ input <> []) ->
  exists r, start_at bit (reader_new (cursor input)) = (Ok tt, r) /\ r_bits r = bit.
Proof.
  unfold start_at. intros H1 H2. destruct (Nat.eqb_spec bit 0) as [->|Hb]; [eexists; split; reflexivity|].
  destruct (take_some Msb0 bit (unread (reader_new (cursor input)))) as (u' & T & _); [destruct H2; [lia|]; destruct input; [congruence|]; cbn; lia|].
  destruct (skip_bits_spec bit Msb0 (reader_new (cursor input)) _ u' I (fun j => eq_refl) eq_refl eq_refl (fun _ => H1) T) as (r & E & A & _).
  exists r. split; [exact E|]. apply (adv_bits _ _ _ A).
Qed.
Definition run_from (cu : nat -> custom) (fuel : nat) (t : ty) (bit : nat) (input : list byte) : res (nat * value) * reader :=
  (let* _ := start_at bit in let* v := read_ty cu fuel t None [] in fun r => (Ok (r_bits r, v), r)) (reader_new (cursor input)).
Lemma from_bytes_run cu fuel t input bit : from_bytes cu fuel t input bit =
  match fst (run_from cu fuel t bit input) with
  | Ok (n, v) => if n / 8 <=? length input then Ok ((skipn (n / 8) input, n mod 8), v) else Err (Incomplete (8 * (n / 8 - length input)))
  | Err e => Err e | Panic => Panic | Diverge => Diverge
  end.
Proof. unfold from_bytes, from_reader, run_from, start_at. destruct (bind _ _ _) as [[[]|e| |] r]; reflexivity. Qed.
Theorem from_bytes_chain cu fuel whole t1 t2 input bit rest off v1 :
  in_step whole cu t1 -> (whole = true -> bit mod 8 = 0) -> reads_in_order False True True cu t2 ->
  from_bytes cu fuel t1 input bit = Ok ((rest, off), v1) ->
  from_bytes cu fuel (TPair t1 t2) input bit =
    match from_bytes cu fuel t2 rest off with
    | Ok (p, v2) => Ok (p, VPair v1 v2)
    | Err e => Err e
    | Panic => Panic
    | Diverge => Diverge
    end.
Proof.
  intros H1 Hb H2. rewrite !from_bytes_run.
  destruct (run_from cu fuel t1 bit input) as [x r1] eqn:E. cbn [fst]. destruct x as [[n v]|e| |]; try discriminate. unfold run_from in E.
  apply bind_inv in E. destruct E as ([] & r0 & E0 & E). apply bind_inv in E. destruct E as (v' & r1' & E1 & E). apply pair_inj in E. destruct E as [E <-].
  apply ok_inj in E. apply pair_inj in E. destruct E as [<- ->].
  destruct (start_placed input bit whole r0 Hb E0) as [P0 U0]. destruct (derived_keeps input whole cu fuel t1 H1 _ _ _ P0 E1) as [P1 U1]. specialize (U1 U0).
  destruct (Nat.leb_spec (r_bits r1' / 8) (length input)) as [Hi|]; [|discriminate]. intros X. apply ok_inj in X. apply pair_inj in X. destruct X as [X <-].
  apply pair_inj in X. destruct X as [<- <-].
  assert (HR : r_bits r1' mod 8 = 0 \/ skipn (r_bits r1' / 8) input <> []).
  { destruct (Nat.eq_dec (r_bits r1' mod 8) 0) as [Z|Z]; [now left|]. right. intros Y. destruct P1 as (W & _ & _ & _ & S & _ & C).
    apply (f_equal (@length byte)) in Y. rewrite skipn_length in Y. cbn [length] in Y. unfold synced in S. destruct C as [C|[L C]]; [|rewrite L in S; cbn in S; lia].
    apply (f_equal (@length bool)) in C. rewrite skipn_length, bitstring_length in C.
    unfold unread, unread_string, r_wf, peeked in *. destruct (r_left r1') as [[b|x]|]; cbn [left_bits length fst snd] in *; [apply U1; now eexists| |lia].
    rewrite app_length, orient_length in C. lia. }
  destruct (start_short _ (r_bits r1' mod 8) (Nat.mod_upper_bound _ 8 ltac:(lia)) HR) as (r2 & E2 & B2).
  destruct (start_placed _ (r_bits r1' mod 8) false r2 ltac:(discriminate) E2) as [P2 U2].
  pose proof (same_place input whole false r1' r2 Hi P1 U1 P2 U2 B2) as R.
  assert (HS : rsim (shift_rel input (r_bits r1' / 8)) (r_bits r1' / 8) (read_ty cu fuel t2 None [])).
  { apply (derived_rsim _ _ (shift_read _ _) False True True); [intros []| | |exact H2]; intros _ k.
    - intros o. apply rsim_skip; [apply shift_read|apply shift_skip].
    - now apply shift_exact. }
  destruct (HS _ _ R) as [F (_ & _ & B)].
  unfold run_from. rewrite (bind_ok _ _ _ _ _ E0), (bind_ok _ _ _ _ _ E2).
  change (read_ty cu fuel (TPair t1 t2) None []) with (let* a := read_ty cu fuel t1 None [] in let* b := read_ty cu fuel t2 None [] in ret (VPair a b)).
  rewrite bind_assoc, (bind_ok _ _ _ _ _ E1), bind_assoc. unfold bind, ret. set (idx := r_bits r1' / 8) in *.
  destruct (read_ty cu fuel t2 None [] r1') as [x1 q1], (read_ty cu fuel t2 None [] r2) as [x2 q2]. cbn [fst snd] in *. subst x2.
  destruct x1 as [v2|e| |]; cbn [fst]; try reflexivity. rewrite skipn_length, B.
  replace ((r_bits q2 + 8 * idx) / 8) with (idx + r_bits q2 / 8) by lia. replace ((r_bits q2 + 8 * idx) mod 8) with (r_bits q2 mod 8) by lia.
  replace (idx + r_bits q2 / 8 <=? length input) with (r_bits q2 / 8 <=? length input - idx) by lia.
  destruct (_ <=? _); [now rewrite skipn_skipn, Nat.add_comm|]. do 3 f_equal. lia.
Qed.
(** [from_bytes] returns the input from the last [bits_read] on. *)
Theorem from_bytes_rest cu fuel t input bit rest off v : from_bytes cu fuel t input bit = Ok ((rest, off), v) ->
  exists used s, input = used ++ rest /\ off < 8 /\ from_reader cu fuel t (cursor input) bit = (Ok (8 * length used + off, v), s).
Proof.
  unfold from_bytes. destruct (from_reader cu fuel t (cursor input) bit) as [[[n x]|e| |] s] eqn:E; try discriminate.
  destruct (Nat.leb_spec (n / 8) (length input)) as [H|]; [|discriminate]. intros X. apply ok_inj in X. apply pair_inj in X. destruct X as [X <-].
  apply pair_inj in X. destruct X as [<- <-]. exists (firstn (n / 8) input), s. rewrite firstn_skipn, firstn_length. repeat split.
  - lia.
  - do 3 f_equal. lia.
Qed.
