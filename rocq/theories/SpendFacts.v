(** Reading from sources that fail: what each operation does to the reader. *)
From Coq Require Import Lia ZifyBool ZifyNat ZifyN.
From Verif Require Import Base Spec Stream Reader Session Writer WSession Prims BitsFacts NFacts MonadFacts ReaderFacts ReaderOps SessionFacts FastRead CodecSpec CodecFacts Containers ContainerSpec ContainerFacts Safety PrimFacts ContainerProps Derive DeriveSound SafeSpec SafeFacts DeriveSafe FaultSpec.
Ltac Zify.zify_post_hook ::= Z.div_mod_to_equations.

Section Faults.
Variable N0 : nat.
(** The bytes the source has, and nine bits for every call that may still fail. *)
Definition nu (s : stream) : nat := 8 * length (s_avail s) + 9 * (N0 - s_calls s).
Definition mu (r : reader) : nat := length (r_rest r) + nu (r_s r).

(** [paid s s' k]: the same source, not past its end if it was not, and at least [k] bits poorer. *)
Definition paid (s s' : stream) (k : nat) : Prop :=
  same_source s s' /\ (s_pos s <= length (s_data s) -> s_pos s' <= length (s_data s')) /\ (calm N0 s -> nu s' + k <= nu s).
Lemma paid_refl s : paid s s 0.
Proof. split; [apply same_source_refl|]. split; [auto|]. intros _. lia. Qed.
Lemma paid_calm s s' k : paid s s' k -> calm N0 s -> calm N0 s'.
Proof. intros ((_ & _ & E) & _) H j Hj. rewrite E. auto. Qed.
Lemma paid_trans a b c k1 k2 : paid a b k1 -> paid b c k2 -> paid a c (k1 + k2).
Proof.
  intros H1 H2. pose proof (paid_calm _ _ _ H1) as Hc. destruct H1 as (S1 & P1 & U1), H2 as (S2 & P2 & U2).
  split; [eapply same_source_trans; eassumption|]. split; [auto|]. intros H. specialize (U1 H). specialize (U2 (Hc H)). lia.
Qed.
Lemma paid_less a b k j : paid a b k -> j <= k -> paid a b j.
Proof. intros (S & P & U) H. split; [exact S|]. split; [exact P|]. intros C. specialize (U C). lia. Qed.

Lemma exact_paid n s x s' : s_read_exact n s = (x, s') ->
  paid s s' 0 /\ match x with IoOk bs => paid s s' (8 * n) | IoErr k => is_eof k = false -> paid s s' 9 end.
Proof.
  unfold s_read_exact. destruct (s_fault s (s_calls s)) as [[k m]|] eqn:F.
  - intros E. apply pair_inj in E. destruct E as [<- <-].
    match goal with |- paid s ?s' 0 /\ _ => assert (H : paid s s' 9) end.
    { split; [repeat split|]. split; [cbn; rewrite s_avail_length; lia|]. intros C. unfold nu. rewrite !s_avail_length. cbn [s_goto s_tick s_calls s_data s_pos].
      assert (s_calls s < N0) by (destruct (Nat.lt_ge_cases (s_calls s) N0) as [H|H]; [exact H|]; rewrite (C _ H) in F; discriminate). lia. }
    split; [eapply paid_less; [exact H|lia]|]. intros _. exact H.
  - destruct (n <=? length (s_avail s)) eqn:C; intros E; apply pair_inj in E; destruct E as [<- <-].
    + match goal with |- paid s ?s' 0 /\ _ => assert (H : paid s s' (8 * n)) end.
      { split; [repeat split|]. rewrite s_avail_length in C. split; [cbn; lia|]. intros _. unfold nu. rewrite !s_avail_length. cbn [s_virt s_goto s_tick s_calls s_data s_pos]. lia. }
      split; [eapply paid_less; [exact H|lia]|exact H].
    + split; [|discriminate]. destruct (s_eat s).
      * split; [repeat split|]. split; [cbn; lia|]. intros _. unfold nu. rewrite !s_avail_length. cbn [s_virt s_goto s_tick s_calls s_data s_pos]. lia.
      * split; [repeat split|]. split; [auto|]. intros _. unfold nu. change (s_avail (s_tick s)) with (s_avail s). cbn [s_tick s_calls]. lia.
Qed.
Lemma io_paid n r x r' : r_io n r = (x, r') ->
  paid (r_s r) (r_s r') 0 /\ match x with IoOk bs => paid (r_s r) (r_s r') (8 * n) | IoErr k => is_eof k = false -> paid (r_s r) (r_s r') 9 end.
Proof.
  unfold r_io. destruct (s_read_exact n (r_s r)) as [y s] eqn:E. intros H. apply pair_inj in H. destruct H as [<- <-]. exact (exact_paid _ _ _ _ E).
Qed.
Lemma fill_paid d k r bs r' : fill_slots d k r = (Ok bs, r') -> paid (r_s r) (r_s r') (8 * k).
Proof.
  revert r bs r'. induction k as [|k IH]; intros r bs r' E; cbn [fill_slots] in E.
  - apply pair_inj in E. destruct E as [_ <-]. apply paid_refl.
  - destruct (r_io 1 r) as [y r1] eqn:E1. destruct (io_paid _ _ _ _ E1) as [_ P].
    assert (P8 : forall f, bind (fill_slots d k) f r1 = (Ok bs, r') -> (forall l r2 r3 y, f l r2 = (y, r3) -> r3 = r2) -> paid (r_s r) (r_s r1) 8 -> paid (r_s r) (r_s r') (8 * S k)).
    { intros f E2 Hf H8. apply bind_inv in E2. destruct E2 as (l & r2 & E2 & E3). apply Hf in E3. subst r2. apply IH in E2.
      replace (8 * S k) with (8 + 8 * k) by lia. eapply paid_trans; eassumption. }
    destruct y as [b|e]; [|destruct (is_eof e); [discriminate|]]; (eapply P8; [exact E| |]).
    1,3: intros l r2 r3 z H; apply pair_inj in H; now destruct H.
    + exact P.
    + eapply paid_less; [apply P; reflexivity|lia].
Qed.
Lemma rem_paid d r b r' : read_rem_byte d r = (Ok b, r') -> paid (r_s r) (r_s r') 8.
Proof.
  unfold read_rem_byte. destruct (r_io 1 r) as [y r1] eqn:E1. destruct (io_paid _ _ _ _ E1) as [_ P]. destruct y; intros E; apply pair_inj in E; destruct E as [H <-]; [exact P|discriminate].
Qed.
Lemma loop_paid fuel amt acc have r a h r' : uint_loop fuel amt acc have r = (Ok (a, h), r') -> have <= h /\ paid (r_s r) (r_s r') (h - have) /\ (h - have) mod 8 = 0.
Proof.
  revert acc have r. induction fuel as [|f IH]; intros acc have r E; cbn [uint_loop] in E; destruct (amt <=? have) eqn:C; try discriminate.
  1,2: apply pair_inj in E; destruct E as [E <-]; apply ok_inj in E; injection E as <- <-; rewrite Nat.sub_diag; split; [lia|]; split; [apply paid_refl|reflexivity].
  destruct (r_io 1 r) as [y r1] eqn:E1. destruct (io_paid _ _ _ _ E1) as [_ P]. destruct y; [|discriminate]. apply IH in E. destruct E as (H & P2 & M).
  split; [lia|]. split; [|lia]. replace (h - have) with (8 * 1 + (h - (have + 8))) by lia. eapply paid_trans; eassumption.
Qed.

(** [spent r r' n]: [n] bits further. *)
Definition spent (r r' : reader) (n : nat) : Prop :=
  same_source (r_s r) (r_s r') /\ (s_pos (r_s r) <= length (s_data (r_s r)) -> s_pos (r_s r') <= length (s_data (r_s r'))) /\
  (calm N0 (r_s r) -> mu r' + n <= mu r) /\ (length (r_rest r') + n) mod 8 = length (r_rest r) mod 8 /\ r_bits r' = r_bits r + n.
Lemma spent_refl r : spent r r 0.
Proof. split; [apply same_source_refl|]. split; [auto|]. split; [intros _; lia|]. rewrite Nat.add_0_r. split; [reflexivity|lia]. Qed.
Lemma spent_calm r r' n : spent r r' n -> calm N0 (r_s r) -> calm N0 (r_s r').
Proof. intros ((_ & _ & E) & _) H j Hj. rewrite E. auto. Qed.
Lemma spent_trans a b c m n : spent a b m -> spent b c n -> spent a c (m + n).
Proof.
  intros H1 H2. pose proof (spent_calm _ _ _ H1) as Hc. destruct H1 as (S1 & P1 & U1 & M1 & B1), H2 as (S2 & P2 & U2 & M2 & B2).
  split; [eapply same_source_trans; eassumption|]. split; [auto|]. split; [intros H; specialize (U1 H); specialize (U2 (Hc H)); lia|]. split; lia.
Qed.
(** From what was paid. *)
Lemma spent_paid r r' n k : paid (r_s r) (r_s r') k -> length (r_rest r') + n = length (r_rest r) + k -> k mod 8 = 0 -> r_bits r' = r_bits r + n -> spent r r' n.
Proof.
  intros (S & P & U) H M B. split; [exact S|]. split; [exact P|]. split; [intros C; specialize (U C); unfold mu; lia|]. split; [lia|exact B].
Qed.
Definition spends {A} (m : RM A) (n : nat) : Prop := forall r v r', valid r -> m r = (Ok v, r') -> spent r r' n.

Lemma spends_greater o n prev r l r' : r_left r = None -> length prev < n ->
  (match o with Lsb0 => read_greater_lsb n prev | Msb0 => read_greater_msb n prev end) r = (Ok l, r') ->
  exists k, paid (r_s r) (r_s r') k /\ length (r_rest r') + n = length prev + k /\ k mod 8 = 0.
Proof.
  intros HL Hlt E.
  assert (HF : forall bs r1, fill_slots n ((n - length prev) / 8) r = (Ok bs, r1) -> r_left r1 = None /\ paid (r_s r) (r_s r1) (8 * ((n - length prev) / 8))).
  { intros bs r1 E1. split; [|exact (fill_paid _ _ _ _ _ E1)]. destruct (fill_slots_frame _ _ _ _ _ E1) as (L & _). congruence. }
  destruct o; unfold read_greater_msb, read_greater_lsb in E; cbv zeta in E; apply bind_inv in E; destruct E as (bs & r1 & E1 & E);
    destruct (HF _ _ E1) as [L1 P1]; (destruct (_ =? 0) eqn:C;
    [apply pair_inj in E; destruct E as [_ <-]; exists (8 * ((n - length prev) / 8)); split; [exact P1|]; unfold r_rest; rewrite L1; cbn [length]; lia|]);
    apply bind_inv in E; destruct E as (b & r2 & E2 & E); apply rem_paid in E2; apply bind_inv in E; destruct E as (u & r3 & E3 & E);
    apply pair_inj in E3; destruct E3 as [_ <-]; apply pair_inj in E; destruct E as [_ <-];
    (exists (8 * ((n - length prev) / 8) + 8); split; [cbn [r_set_left r_s]; eapply paid_trans; eassumption|]);
    unfold r_rest; cbn [r_set_left r_left]; rewrite ?skipn_length, ?firstn_length, byte_bits_length; lia.
Qed.
Lemma spends_bits n o : spends (read_bits_into n o) n.
Proof.
  intros r v r' Hv E. destruct (Nat.eq_dec n 0) as [->|Hn].
  { unfold read_bits_into in E. cbn [Nat.eqb] in E. apply pair_inj in E. destruct E as [_ <-]. apply spent_refl. }
  pose proof (left_bits_le8 r Hv) as H8. unfold read_bits_into in E. destruct (Nat.eqb_spec n 0); [lia|]. cbv zeta in E.
  apply bind_inv in E. destruct E as (l & r1 & E1 & E). apply bind_inv in E. destruct E as (u & r2 & E2 & E).
  apply pair_inj in E2. destruct E2 as [_ <-]. apply pair_inj in E. destruct E as [_ <-].
  assert (HS : exists k, paid (r_s r) (r_s r1) k /\ length (r_rest r1) + n = length (left_bits (r_left r)) + k /\ k mod 8 = 0 /\ r_bits r1 = r_bits r).
  { destruct (Nat.compare_spec n (length (left_bits (r_left r)))) as [He|Hl|Hg].
    - apply bind_inv in E1. destruct E1 as (u1 & r3 & E3 & E1). unfold assert_ in E3. destruct (_ <=? 8); [|discriminate].
      apply pair_inj in E3. destruct E3 as [_ <-]. apply pair_inj in E1. destruct E1 as [_ <-]. exists 0. split; [apply paid_refl|].
      unfold r_rest. cbn [r_set_left r_left r_bits length]. split; [lia|]. split; reflexivity.
    - apply bind_inv in E1. destruct E1 as (u1 & r3 & E3 & E1). unfold assert_ in E3. destruct (_ <=? 8); [|discriminate].
      apply pair_inj in E3. destruct E3 as [_ <-].
      destruct o; apply bind_inv in E1; destruct E1 as (u2 & r4 & E4 & E1); apply pair_inj in E4; destruct E4 as [_ <-]; apply pair_inj in E1; destruct E1 as [_ <-];
        (exists 0; split; [apply paid_refl|]); unfold r_rest; cbn [r_set_left r_left r_bits]; rewrite ?skipn_length, ?firstn_length; (split; [lia|]); split; reflexivity.
    - destruct (spends_greater o n (left_bits (r_left r)) (r_set_left r None) l r1 eq_refl Hg) as (k & P & H & M); [destruct o; exact E1|].
      destruct (read_greater_frame o n (left_bits (r_left r)) (r_set_left r None) (Ok l) r1 eq_refl Hg) as (_ & B & _); [destruct o; exact E1|].
      exists k. auto. }
  destruct HS as (k & P & H & M & B). eapply (spent_paid _ _ _ k); [exact P| |exact M|].
  - rewrite <- rest_left in H. unfold r_rest in *. cbn [r_add_bits r_left]. exact H.
  - cbn [r_add_bits r_bits]. lia.
Qed.
Lemma spends_uint n : spends (read_bits_uint_msb0 n) n.
Proof.
  intros r v r' Hv E. destruct (read_uint_frame n r _ r' Hv E) as (_ & B & _). cbn [counted] in B. unfold read_bits_uint_msb0 in E.
  apply bind_inv in E. destruct E as (u & r0 & E0 & E). unfold assert_ in E0. destruct (_ && _) eqn:Hn; [|discriminate]. apply pair_inj in E0. destruct E0 as [_ <-].
  assert (Hst : exists acc, match r_left r with
      | Some (LByte b) => (Byte.to_N b, 8)
      | Some (Reader.LBits bits) => if length bits =? 0 then (0%N, 0)
          else (N.shiftr (as_msb0_byte bits) (N.of_nat (8 - length bits)), length bits)
      | None => (0%N, 0) end = (acc, length (r_rest r))).
  { unfold valid, r_rest in *. destruct (r_left r) as [[b|l]|].
    - rewrite byte_bits_length. eauto.
    - destruct (Nat.eqb_spec (length l) 0); [lia|eauto].
    - eauto. }
  destruct Hst as [acc0 Hst]. rewrite Hst in E. apply bind_inv in E. destruct E as ([a h] & r1 & E1 & E).
  pose proof (left_bits_le8 r Hv) as H8. rewrite <- rest_left in H8.
  destruct (loop_paid _ _ _ _ _ _ _ _ E1) as (Hh & P & M).
  destruct (uint_loop_frame n n acc0 (length (r_rest r)) (r_set_left r None) _ r1 ltac:(lia) E1) as (L1 & _ & _ & _ & _ & N1).
  specialize (N1 _ eq_refl). cbn [snd] in N1. cbv zeta in E. apply bind_inv in E. destruct E as (u2 & r2 & E2 & E). apply bind_inv in E. destruct E as (u3 & r3 & E3 & E).
  apply pair_inj in E3. destruct E3 as [_ <-]. apply pair_inj in E. destruct E as [_ <-].
  eapply (spent_paid _ _ _ (h - length (r_rest r))); [|  |exact M|exact B].
  - destruct (_ =? 0) in E2; apply pair_inj in E2; destruct E2 as [_ <-]; exact P.
  - change (r_rest (r_add_bits r2 n)) with (r_rest r2). cbn [r_set_left r_left] in L1.
    destruct (h - n =? 0) eqn:C in E2; apply pair_inj in E2; destruct E2 as [_ <-]; unfold r_rest at 1; [rewrite L1; cbn [length]; lia|].
    cbn [r_set_left r_left]. rewrite firstn_length, N2bits_length. lia.
Qed.
Lemma spends_bytes n o : spends (read_bytes n n o) (8 * n).
Proof.
  intros r v r' Hv E. destruct (read_bytes_frame n o r _ r' Hv E) as (_ & B & _). cbn [counted] in B. unfold read_bytes in E.
  destruct (r_left r) as [[b|l]|] eqn:HL.
  - unfold read_bytes_leftover in E. destruct (n =? 0) eqn:C0; [discriminate|]. apply bind_inv in E. destruct E as (u & r1 & E1 & E).
    apply pair_inj in E1. destruct E1 as [_ <-]. destruct (n - 1 =? 0) eqn:C1.
    + apply bind_inv in E. destruct E as (u1 & r2 & E2 & E). apply pair_inj in E2. destruct E2 as [_ <-]. apply pair_inj in E. destruct E as [_ <-].
      eapply (spent_paid _ _ _ 0); [apply paid_refl| |reflexivity|exact B]. unfold r_rest. rewrite HL, byte_bits_length. cbn [r_add_bits r_set_left r_left length]. lia.
    + destruct (n <? n - 1); [discriminate|]. destruct (n <? n); [discriminate|]. destruct (r_io (n - 1) (r_set_left r None)) as [y r1] eqn:E1.
      destruct (io_paid _ _ _ _ E1) as [_ P]. destruct (r_io_frame _ _ _ _ E1) as (L1 & _). destruct y; [|discriminate]. apply pair_inj in E. destruct E as [_ <-].
      apply (spent_paid r (r_add_bits r1 (n * 8)) (8 * n) (8 * (n - 1)) P); [|lia|exact B]. unfold r_rest. rewrite HL, byte_bits_length. cbn [r_add_bits r_left]. rewrite L1. cbn [r_set_left r_left length]. lia.
  - destruct (n <? n); [discriminate|]. unfold read_bytes_bits in E. apply bind_inv in E. destruct E as (bits & r1 & E1 & E). apply pair_inj in E. destruct E as [_ <-].
    exact (spends_bits (8 * n) o r bits r1 Hv E1).
  - destruct (n <? n); [discriminate|]. destruct (r_io n r) as [y r1] eqn:E1. destruct (io_paid _ _ _ _ E1) as [_ P]. destruct (r_io_frame _ _ _ _ E1) as (L1 & _).
    destruct y; [|discriminate]. apply pair_inj in E. destruct E as [_ <-]. apply (spent_paid r (r_add_bits r1 (n * 8)) (8 * n) (8 * n) P); [|lia|exact B].
    unfold r_rest. cbn [r_add_bits r_left]. rewrite L1, HL. cbn [length]. lia.
Qed.
Lemma spends_bytes_in n b o : 0 < n <= b -> spends (read_bytes n b o) (8 * n).
Proof. intros Hn r v r' Hv E. rewrite leftover_len in E by exact Hn. exact (spends_bytes n o r v r' Hv E). Qed.
Lemma spends_end r b r' : valid r -> r_end r = (b, r') ->
  same_source (r_s r) (r_s r') /\ (s_pos (r_s r) <= length (s_data (r_s r)) -> s_pos (r_s r') <= length (s_data (r_s r'))) /\
  (calm N0 (r_s r) -> mu r' <= mu r) /\ length (r_rest r') mod 8 = length (r_rest r) mod 8 /\ r_bits r' = r_bits r.
Proof.
  intros Hv. unfold r_end. destruct (r_left r) as [l|] eqn:HL.
  - intros E. apply pair_inj in E. destruct E as [_ <-]. split; [apply same_source_refl|]. split; [auto|]. split; [lia|]. split; reflexivity.
  - destruct (r_io 1 r) as [y r1] eqn:E1. destruct (io_paid _ _ _ _ E1) as [P0 P]. destruct (r_io_frame _ _ _ _ E1) as (L1 & B1 & _).
    assert (H0 : length (r_rest r) = 0) by (unfold r_rest; now rewrite HL).
    assert (HB : forall c k, 8 <= k -> paid (r_s r) (r_s r1) k -> forall r2, r_set_left r1 (Some (LByte c)) = r2 -> 
      same_source (r_s r) (r_s r2) /\ (s_pos (r_s r) <= length (s_data (r_s r)) -> s_pos (r_s r2) <= length (s_data (r_s r2))) /\
      (calm N0 (r_s r) -> mu r2 <= mu r) /\ length (r_rest r2) mod 8 = length (r_rest r) mod 8 /\ r_bits r2 = r_bits r).
    { intros c k Hk (S & Q & U) r2 <-. split; [exact S|]. split; [exact Q|]. split; [intros C; specialize (U C); unfold mu; cbn [r_set_left r_s]; unfold r_rest at 1; cbn [r_set_left r_left]; rewrite byte_bits_length; lia|].
      split; [unfold r_rest at 1; cbn [r_set_left r_left]; rewrite byte_bits_length, H0; reflexivity|exact B1]. }
    destruct y as [bs|e]; [|destruct (is_eof e) eqn:Ee]; intros E; apply pair_inj in E; destruct E as [_ E].
    + apply (HB _ _ (le_n 8) P _ E).
    + subst r'. destruct P0 as (S & Q & U). split; [exact S|]. split; [exact Q|]. split; [intros C; specialize (U C); unfold mu, r_rest; rewrite L1; lia|].
      split; [unfold r_rest; now rewrite L1|exact B1].
    + apply (HB _ 9 ltac:(lia) (P eq_refl) _ E).
Qed.
End Faults.
