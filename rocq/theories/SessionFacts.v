(** Sessions refine the specification. *)
From Coq Require Import Lia ZifyBool ZifyNat ZifyN Permutation.
From Verif Require Import Base MonadFacts Spec Stream Reader BitsFacts NFacts ReaderFacts FastRead ReaderOps Session.
Ltac Zify.zify_post_hook ::= Z.div_mod_to_equations.

(** ** Frame properties on arbitrary (also failing) sources *)

Lemma s_read_exact_src n s x s' : s_read_exact n s = (x, s') -> same_source s s'.
Proof.
  unfold s_read_exact. destruct (s_fault s (s_calls s)) as [[? ?]|]; [intros H; apply pair_inj in H; destruct H as [<- <-]; repeat split|].
  destruct (n <=? length (s_avail s)); intros H; apply pair_inj in H; destruct H as [<- <-]; [repeat split|].
  destruct (s_eat s) eqn:E; repeat split; cbn; auto.
Qed.
Lemma r_io_frame n r x r' : r_io n r = (x, r') ->
  r_left r' = r_left r /\ r_bits r' = r_bits r /\ same_source (r_s r) (r_s r').
Proof.
  unfold r_io. destruct (s_read_exact n (r_s r)) as [y s] eqn:E. intros H; apply pair_inj in H; destruct H as [<- <-].
  cbn. repeat split; apply (s_read_exact_src _ _ _ _ E).
Qed.
Lemma fill_slots_frame d k r x r' : fill_slots d k r = (x, r') ->
  r_left r' = r_left r /\ r_bits r' = r_bits r /\ same_source (r_s r) (r_s r').
Proof.
  revert r x r'; induction k as [|k IH]; intros r x r' E; cbn [fill_slots] in E.
  - apply pair_inj in E; destruct E as [<- <-]. repeat split.
  - destruct (r_io 1 r) as [y r1] eqn:E1. destruct (r_io_frame _ _ _ _ E1) as (L1 & B1 & S1).
    assert (Hk : forall y r2, fill_slots d k r1 = (y, r2) ->
      r_left r2 = r_left r /\ r_bits r2 = r_bits r /\ same_source (r_s r) (r_s r2)).
    { intros y' r2 E2. destruct (IH _ _ _ E2) as (? & ? & ?). split; [congruence|]. split; [congruence|].
      eapply same_source_trans; eassumption. }
    destruct y as [bs|e]; [|destruct (is_eof e)]; unfold bind, ret in E.
    + destruct (fill_slots d k r1) as [[] r2] eqn:E2; apply pair_inj in E; destruct E as [<- <-]; eauto.
    + apply pair_inj in E; destruct E as [<- <-]. auto.
    + destruct (fill_slots d k r1) as [[] r2] eqn:E2; apply pair_inj in E; destruct E as [<- <-]; eauto.
Qed.
Lemma read_rem_byte_frame d r x r' : read_rem_byte d r = (x, r') ->
  r_left r' = r_left r /\ r_bits r' = r_bits r /\ same_source (r_s r) (r_s r').
Proof.
  unfold read_rem_byte. destruct (r_io 1 r) as [y r1] eqn:E1. pose proof (r_io_frame _ _ _ _ E1).
  destruct y; intros H1; injection H1 as <- <-; assumption.
Qed.

(** The outcome of an operation of size [n]: only successes count. *)
Definition counted {A} (x : res A) (n : nat) : nat := match x with Ok _ => n | _ => 0 end.

Lemma read_greater_frame o n prev r x r' : r_left r = None -> length prev < n ->
  (match o with Lsb0 => read_greater_lsb n prev | Msb0 => read_greater_msb n prev end) r = (x, r') ->
  r_wf r' /\ r_bits r' = r_bits r /\ same_source (r_s r) (r_s r') /\ x <> Panic /\ x <> Diverge /\
  (forall l, x = Ok l -> length l = n).
Proof.
  intros HL Hlt E.
  remember (n - length prev) as need eqn:Hneed.
  assert (Hfill : forall y r1, fill_slots n (need / 8) r = (y, r1) ->
    r_wf r1 /\ r_bits r1 = r_bits r /\ same_source (r_s r) (r_s r1) /\ y <> Panic /\ y <> Diverge /\ r_left r1 = None
    /\ (forall l, y = Ok l -> length l = need / 8)).
  { intros y r1 E1. pose proof (fill_slots_frame _ _ _ _ _ E1) as (L1 & B1 & S1).
    split; [unfold r_wf; now rewrite L1, HL|]. split; [exact B1|]. split; [exact S1|].
    assert (y <> Panic /\ y <> Diverge).
    { clear -E1. revert r y r1 E1. generalize (need / 8) as k. induction k as [|k IH]; intros r y r1 E1; cbn [fill_slots] in E1.
      - apply pair_inj in E1; destruct E1 as [<- <-]. split; discriminate.
      - destruct (r_io 1 r) as [z r2]. destruct z as [bs|e]; [|destruct (is_eof e)]; unfold bind, ret in E1.
        + destruct (fill_slots n k r2) as [[] r3] eqn:E2; apply pair_inj in E1; destruct E1 as [<- <-];
            destruct (IH _ _ _ E2); split; congruence.
        + apply pair_inj in E1; destruct E1 as [<- <-]. split; discriminate.
        + destruct (fill_slots n k r2) as [[] r3] eqn:E2; apply pair_inj in E1; destruct E1 as [<- <-];
            destruct (IH _ _ _ E2); split; congruence. }
    repeat split; try tauto; [congruence|]. intros l ->. eapply fill_slots_len; eassumption. }
  assert (Hrem : forall y r1 r2, r_left r1 = None -> read_rem_byte n r1 = (y, r2) ->
     r_wf r2 /\ r_bits r2 = r_bits r1 /\ same_source (r_s r1) (r_s r2) /\ y <> Panic /\ y <> Diverge).
  { intros y r1 r2 L1 E1. pose proof (read_rem_byte_frame _ _ _ _ E1) as (L2 & B2 & S2).
    split; [unfold r_wf; now rewrite L2, L1|]. split; [exact B2|]. split; [exact S2|].
    unfold read_rem_byte in E1. destruct (r_io 1 r1) as [[]]; apply pair_inj in E1; destruct E1 as [<- <-]; split; discriminate. }
  destruct o; unfold read_greater_msb, read_greater_lsb, bind in E; rewrite <- Hneed in E; remember (need mod 8) as rem eqn:Hrm;
  destruct (fill_slots n (need / 8) r) as [y r1] eqn:E1; destruct (Hfill _ _ eq_refl) as (W1 & B1 & S1 & P1 & D1 & L1 & N1);
  (destruct y as [bs| | |]; [|apply pair_inj in E; destruct E as [<- <-]; repeat split; try tauto; try (intros; congruence); apply S1|congruence|congruence]);
  specialize (N1 _ eq_refl);
  (destruct (Nat.eqb_spec rem 0) as [Hr|Hr];
   [unfold ret in E; apply pair_inj in E; destruct E as [<- <-]; repeat split; try assumption; try discriminate; try apply S1;
    intros l Hl; injection Hl as <-; rewrite app_length, ?concat_byte_bits, ?concat_rev_byte_bits, ?rev_length, bitstring_length; lia|]);
  destruct (read_rem_byte n r1) as [z r2] eqn:E2; destruct (Hrem _ _ _ L1 E2) as (W2 & B2 & S2 & P2 & D2);
  (destruct z as [b| | |]; [|apply pair_inj in E; destruct E as [<- <-]; repeat split; try assumption; try congruence; eapply same_source_trans; eassumption|congruence|congruence]);
  cbn [modify] in E; unfold ret in E; apply pair_equal_spec in E; destruct E as [<- <-];
  cbn [r_set_left r_s r_bits r_left]; (split; [|split; [congruence|split; [eapply same_source_trans; eassumption|split; [discriminate|split; [discriminate|]]]]]).
  - unfold r_wf; cbn [r_set_left r_left]. rewrite skipn_length, byte_bits_length.
 lia.
  - intros l Hl; apply ok_inj in Hl; subst l. rewrite !app_length, concat_byte_bits, bitstring_length, firstn_length, byte_bits_length. lia.
  - unfold r_wf; cbn [r_set_left r_left]. rewrite firstn_length, byte_bits_length. lia.
  - intros l Hl; apply ok_inj in Hl; subst l. rewrite !app_length, concat_rev_byte_bits, rev_length, bitstring_length, skipn_length, byte_bits_length. lia.
Qed.

Lemma read_bits_into_frame n o r x r' : r_wf r -> read_bits_into n o r = (x, r') ->
  r_wf r' /\ r_bits r' = r_bits r + counted x n /\ same_source (r_s r) (r_s r') /\ x <> Panic /\ x <> Diverge /\
  (forall l, x = Ok l -> length l = n).
Proof.
  intros Hw. destruct (Nat.eq_dec n 0) as [->|Hn].
  { unfold read_bits_into. cbn [Nat.eqb]. intros E; apply pair_inj in E; destruct E as [<- <-].
    repeat split; try assumption; try discriminate; cbn; try lia. intros l H; now injection H as <-. }
  pose proof (left_bits_le8 r Hw) as H8.
  destruct (Nat.compare_spec n (length (left_bits (r_left r)))) as [He|Hl|Hg].
  - rewrite read_bits_into_eq by lia. intros E; apply pair_inj in E; destruct E as [<- <-].
    repeat split; try assumption; try discriminate; cbn; try lia. intros l H; now injection H as <-.
  - unfold read_bits_into. destruct (Nat.eqb_spec n 0); [lia|]. cbn zeta.
    rewrite (proj2 (Nat.compare_lt_iff _ _) Hl). unfold bind, assert_.
    destruct (Nat.leb_spec (length (left_bits (r_left r))) 8); [|lia].
    destruct o; cbn; intros E; apply pair_inj in E; destruct E as [<- <-]; cbn; repeat split; try discriminate;
      unfold r_wf; cbn [r_left r_add_bits r_set_left]; rewrite ?skipn_length, ?firstn_length; try lia;
      intros l H0; injection H0 as <-; rewrite ?firstn_length, ?skipn_length; lia.
  - rewrite read_bits_into_gt by exact Hg. unfold bind.
    pose proof (read_greater_frame o n (left_bits (r_left r)) (r_set_left r None)) as HF.
    destruct o;
    [destruct (read_greater_msb n (left_bits (r_left r)) (r_set_left r None)) as [y r1]
    |destruct (read_greater_lsb n (left_bits (r_left r)) (r_set_left r None)) as [y r1]];
    destruct (HF y r1 eq_refl Hg eq_refl) as (W & B & S & P & D & N);
    (destruct y as [l| | |]; [| |congruence|congruence]); cbn [modify]; unfold ret; intros E; apply pair_inj in E; destruct E as [<- <-];
      cbn [counted r_add_bits r_set_left r_s r_bits] in *;
      (split; [exact W|]); (split; [lia|]); (split; [exact S|]); (split; [discriminate|]); (split; [discriminate|]);
      intros l0 H0; try discriminate; apply ok_inj in H0; subst l0; now apply N.
Qed.

Lemma uint_loop_frame fuel amt acc have r x r' : amt <= fuel + have ->
  uint_loop fuel amt acc have r = (x, r') ->
  r_left r' = r_left r /\ r_bits r' = r_bits r /\ same_source (r_s r) (r_s r') /\ x <> Panic /\ x <> Diverge /\
  (forall p, x = Ok p -> amt <= snd p /\ (snd p = have \/ snd p < amt + 8)).
Proof.
  revert acc have r x r'; induction fuel as [|fuel IH]; intros acc have r x r' Hf E; cbn [uint_loop] in E.
  - destruct (Nat.leb_spec amt have); [|lia]. apply pair_inj in E; destruct E as [<- <-].
    repeat (split; [first [reflexivity|discriminate|apply same_source_refl]|]); intros p H0; apply ok_inj in H0; subst p; cbn [snd]; lia.
  - destruct (Nat.leb_spec amt have).
    + apply pair_inj in E; destruct E as [<- <-].
      repeat (split; [first [reflexivity|discriminate|apply same_source_refl]|]); intros p H0; apply ok_inj in H0; subst p; cbn [snd]; lia.
    + destruct (r_io 1 r) as [[bs|e] r1] eqn:E1; destruct (r_io_frame _ _ _ _ E1) as (L1 & B1 & S1).
      * assert (Hf2 : amt <= fuel + (have + 8)) by lia. destruct (IH _ _ _ _ _ Hf2 E) as (L & B & S & P & D & N).
        split; [congruence|]. split; [congruence|]. split; [eapply same_source_trans; eassumption|].
        split; [exact P|]. split; [exact D|]. intros p Hp. specialize (N p Hp). lia.
      * apply pair_inj in E; destruct E as [<- <-]. repeat split; try assumption; try discriminate; apply S1.
Qed.
Lemma read_uint_frame n r x r' : r_wf r -> read_bits_uint_msb0 n r = (x, r') ->
  r_wf r' /\ r_bits r' = r_bits r + counted x n /\ same_source (r_s r) (r_s r') /\ x <> Diverge /\
  (1 <= n <= 64 -> x <> Panic).
Proof.
  intros Hw. unfold read_bits_uint_msb0, assert_, bind at 1.
  destruct ((1 <=? n) && (n <=? 64)) eqn:Hn.
  2:{ cbn. intros E; apply pair_inj in E; destruct E as [<- <-]. cbn. split; [exact Hw|]. split; [lia|]. split; [apply same_source_refl|].
      split; [discriminate|]. lia. }
  cbn [ret].
  pose proof (left_bits_le8 r Hw) as H8.
  assert (Hst : exists acc, match r_left r with
      | Some (LByte b) => (Byte.to_N b, 8)
      | Some (LBits bits) => if length bits =? 0 then (0%N, 0)
          else (N.shiftr (as_msb0_byte bits) (N.of_nat (8 - length bits)), length bits)
      | None => (0%N, 0) end = (acc, length (left_bits (r_left r)))).
  { unfold r_wf in Hw. destruct (r_left r) as [[b|l]|]; cbn [left_bits].
    - rewrite byte_bits_length. eauto.
    - destruct (Nat.eqb_spec (length l) 0); [lia|eauto].
    - eauto. }
  destruct Hst as [acc0 ->]. unfold bind at 1.
  destruct (uint_loop n n acc0 (length (left_bits (r_left r))) (r_set_left r None)) as [y r1] eqn:E1.
  destruct (uint_loop_frame n n acc0 (length (left_bits (r_left r))) (r_set_left r None) y r1 ltac:(lia) E1)
    as (L1 & B1 & S1 & P1 & D1 & N1). cbn [r_set_left r_left r_bits r_s] in *.
  destruct y as [[acc have]| | |]; [| |congruence|congruence].
  - specialize (N1 _ eq_refl). cbn [snd] in N1. unfold bind.
    destruct (Nat.eqb_spec (have - n) 0) as [Hz|Hz]; cbn [ret modify]; intros E; apply pair_inj in E; destruct E as [<- <-];
      cbn [r_add_bits r_set_left r_s r_bits r_left counted]; (split; [|split; [lia|split; [exact S1|split; [discriminate|]]]]); try discriminate.
    + unfold r_wf; cbn [r_add_bits r_left]. now rewrite L1.
    + unfold r_wf; cbn [r_add_bits r_set_left r_left]. rewrite firstn_length, N2bits_length. lia.
  - intros E; apply pair_inj in E; destruct E as [<- <-]. cbn [counted]. split; [unfold r_wf; now rewrite L1|].
    split; [lia|]. split; [exact S1|]. split; discriminate.
Qed.
Lemma read_bytes_frame amt o r x r' : r_wf r -> read_bytes amt amt o r = (x, r') ->
  r_wf r' /\ r_bits r' = r_bits r + counted x (8 * amt) /\ same_source (r_s r) (r_s r') /\ x <> Diverge /\
  (0 < amt -> x <> Panic).
Proof.
  intros Hw. unfold read_bytes. destruct (r_left r) as [[b|l]|] eqn:HL.
  - unfold read_bytes_leftover. destruct (Nat.eqb_spec amt 0) as [->|Ha].
    { cbn. intros E; apply pair_inj in E; destruct E as [<- <-]. cbn. split; [exact Hw|]. split; [lia|]. split; [apply same_source_refl|].
      split; [discriminate|lia]. }
    unfold bind, modify. destruct (Nat.eqb_spec (amt - 1) 0) as [H1|H1].
    { unfold ret. intros E; apply pair_inj in E; destruct E as [<- <-]. cbn [counted r_add_bits r_set_left r_bits r_s].
      split; [exact I|]. split; [lia|]. split; [apply same_source_refl|]. split; discriminate. }
    destruct (Nat.ltb_spec amt (amt - 1)); [lia|]. destruct (Nat.ltb_spec amt amt); [lia|].
    destruct (r_io (amt - 1) (r_set_left r None)) as [y r1] eqn:E1.
    destruct (r_io_frame _ _ _ _ E1) as (L1 & B1 & S1). cbn [r_set_left r_left r_bits r_s] in *.
    destruct y as [bs|e]; intros E; apply pair_inj in E; destruct E as [<- <-]; cbn [counted r_add_bits r_bits r_s];
      (split; [unfold r_wf; cbn [r_add_bits r_left]; now rewrite L1|]); (split; [lia|]); (split; [exact S1|]); split; discriminate.
  - destruct (Nat.ltb_spec amt amt); [lia|]. unfold read_bytes_bits, bind.
    destruct (read_bits_into (8 * amt) o r) as [y r1] eqn:E1.
    destruct (read_bits_into_frame _ _ _ _ _ Hw E1) as (W & B & S & P & D & N).
    destruct y; [| |congruence|congruence]; cbn; intros E; apply pair_inj in E; destruct E as [<- <-]; repeat split; try assumption; try discriminate; apply S.
  - destruct (Nat.ltb_spec amt amt); [lia|].
    destruct (r_io amt r) as [y r1] eqn:E1.
    destruct (r_io_frame _ _ _ _ E1) as (L1 & B1 & S1).
    destruct y as [bs|e]; intros E; apply pair_inj in E; destruct E as [<- <-]; cbn [counted r_add_bits r_bits r_s];
      (split; [unfold r_wf; cbn [r_add_bits r_left]; now rewrite L1, HL|]); (split; [lia|]); (split; [exact S1|]); split; discriminate.
Qed.
Lemma r_end_frame r b r' : r_wf r -> r_end r = (b, r') ->
  r_wf r' /\ r_bits r' = r_bits r /\ same_source (r_s r) (r_s r').
Proof.
  intros Hw. unfold r_end. destruct (r_left r) as [l|] eqn:HL.
  - intros E; apply pair_inj in E; destruct E as [<- <-]. repeat split; assumption.
  - destruct (r_io 1 r) as [y r1] eqn:E1. destruct (r_io_frame _ _ _ _ E1) as (L1 & B1 & S1).
    destruct y as [bs|e]; [|destruct (is_eof e)]; intros E; apply pair_inj in E; destruct E as [<- <-];
      cbn [r_set_left r_bits r_s]; (split; [|split; [exact B1|exact S1]]); try exact I.
    unfold r_wf; now rewrite L1, HL.
Qed.
Lemma run_rop_frame op r x r' : r_wf r -> run_rop op r = (x, r') ->
  r_wf r' /\ r_bits r' = r_bits r + counted x (rop_size op) /\ same_source (r_s r) (r_s r') /\ x <> Diverge /\
  (rop_ok op -> x <> Panic).
Proof.
  intros Hw. destruct op as [n o|n o|n|]; cbn [run_rop rop_size rop_ok]; unfold bind.
  - unfold read_bits. destruct (read_bits_into n o r) as [y r1] eqn:E.
    destruct (read_bits_into_frame _ _ _ _ _ Hw E) as (W & B & S & P & D & N).
    destruct y; intros H; apply pair_inj in H; destruct H as [<- <-]; repeat split; try assumption; try discriminate; try congruence; apply S.
  - destruct (read_bytes n n o r) as [y r1] eqn:E.
    destruct (read_bytes_frame _ _ _ _ _ Hw E) as (W & B & S & D & P).
    destruct y; intros H; apply pair_inj in H; destruct H as [<- <-]; repeat split; try assumption; try discriminate; try congruence; try apply S.
    intros H0. now apply P in H0.
  - destruct (read_bits_uint_msb0 n r) as [y r1] eqn:E.
    destruct (read_uint_frame _ _ _ _ Hw E) as (W & B & S & D & P).
    destruct y; intros H; apply pair_inj in H; destruct H as [<- <-]; repeat split; try assumption; try discriminate; try congruence; try apply S.
    intros H0. now apply P in H0.
  - destruct (r_end r) as [b r1] eqn:E. destruct (r_end_frame _ _ _ Hw E) as (W & B & S).
    intros H; apply pair_inj in H; destruct H as [<- <-]. cbn [counted]. repeat split; try assumption; try discriminate; try apply S. lia.
Qed.

Lemma r_seek_frame w r x r' : r_seek w r = (x, r') -> r_left r' = None /\ r_wf r' /\ same_source (r_s r) (r_s r').
Proof.
  unfold r_seek, s_seek. cbn [r_set_left r_s].
  destruct (s_fault (r_s r) (s_calls (r_s r))) as [[? ?]|]; [intros E; apply pair_inj in E; destruct E as [<- <-]; repeat split|].
  destruct (s_noseek (r_s r)) as [v|].
  - destruct (noseek_target v w); intros E; apply pair_inj in E; destruct E as [<- <-]; repeat split.
  - destruct (seek_target _ _ w); intros E; apply pair_inj in E; destruct E as [<- <-]; repeat split.
Qed.
Lemma skip_bits_frame n o r x r' : r_wf r -> skip_bits n o r = (x, r') ->
  r_wf r' /\ same_source (r_s r) (r_s r').
Proof.
  intros Hw. unfold skip_bits. cbn zeta.
  assert (H1 : forall y r1, (match r_left r with
      | Some (LBits bits) => let* _ := read_bits_into (Nat.min n (length bits)) o in ret (n - Nat.min n (length bits))
      | _ => ret n end) r = (y, r1) -> r_wf r1 /\ same_source (r_s r) (r_s r1)).
  { intros y r1. destruct (r_left r) as [[b|l]|]; unfold ret; try (intros E; apply pair_inj in E; destruct E as [<- <-]; repeat split; assumption).
    unfold bind. destruct (read_bits_into (Nat.min n (length l)) o r) as [z r2] eqn:E.
    destruct (read_bits_into_frame _ _ _ _ _ Hw E) as (W & _ & S & _).
    destruct z; intros H; apply pair_inj in H; destruct H as [<- <-]; auto. }
  set (m := match r_left r with Some (LBits bits) => _ | _ => _ end) in *. clearbody m.
  unfold bind at 1. destruct (m r) as [y r1]. specialize (H1 _ _ eq_refl) as (W1 & S1).
  destruct y as [a| | |]; try (intros E; apply pair_inj in E; destruct E as [<- <-]; auto).
  assert (H2 : forall y r2, (if a / 8 =? 0 then ret tt
     else fun r0 => if negb (r_bits r0 mod 8 =? 0) then (Panic, r0)
        else (let* _ := lift_io (r_seek (SeekCurrent (Z.of_nat (a / 8)))) in ret tt) r0) r1 = (y, r2) ->
     r_wf r2 /\ same_source (r_s r1) (r_s r2)).
  { intros y r2. destruct (a / 8 =? 0); [intros E; apply pair_inj in E; destruct E as [<- <-]; split; [assumption|apply same_source_refl]|].
    destruct (negb _); [intros E; apply pair_inj in E; destruct E as [<- <-]; split; [assumption|apply same_source_refl]|].
    unfold bind, lift_io. destruct (r_seek (SeekCurrent (Z.of_nat (a / 8))) r1) as [z r3] eqn:E.
    destruct (r_seek_frame _ _ _ _ E) as (_ & W & S).
    destruct z; unfold ret; intros H; apply pair_inj in H; destruct H as [<- <-]; auto. }
  set (m2 := if a / 8 =? 0 then _ else _) in *. clearbody m2.
  unfold bind at 1. destruct (m2 r1) as [y r2]. specialize (H2 _ _ eq_refl) as (W2 & S2).
  assert (S12 := same_source_trans _ _ _ S1 S2).
  destruct y; try (intros E; apply pair_inj in E; destruct E as [<- <-]; auto).
  unfold bind. destruct (read_bits_into (a mod 8) o r2) as [z r3] eqn:E.
  destruct (read_bits_into_frame _ _ _ _ _ W2 E) as (W & _ & S & _).
  assert (S123 := same_source_trans _ _ _ S12 S).
  destruct z; unfold ret; intros H; apply pair_inj in H; destruct H as [<- <-]; auto.
Qed.
Theorem reachable_wf r : reachable r -> r_wf r.
Proof.
  induction 1 as [s|op r H IH|n o r H IH|w r H IH].
  - exact I.
  - destruct (run_rop op r) as [x r'] eqn:E. now destruct (run_rop_frame _ _ _ _ IH E).
  - destruct (skip_bits n o r) as [x r'] eqn:E. now destruct (skip_bits_frame _ _ _ _ _ IH E).
  - destruct (r_seek w r) as [x r'] eqn:E. now destruct (r_seek_frame _ _ _ _ E) as (_ & ? & _).
Qed.

(** ** Refinement *)

Lemma bytes_of_bitstring o bs : bytes_of_string o (bitstring o bs) = bs.
Proof.
  unfold bytes_of_string. induction bs as [|b bs IH]; [reflexivity|].
  rewrite bitstring_cons, chunks8_cons by (rewrite orient_length; apply byte_bits_length).
  cbn [map]. rewrite orient_invol, byte_of_byte_bits. f_equal. exact IH.
Qed.
Lemma bitstring_bytes_of o l : length l mod 8 = 0 -> bitstring o (bytes_of_string o l) = l.
Proof.
  unfold bytes_of_string. induction l as [l Hl|c l Hc IH] using len8_ind; intros H.
  - destruct l; [reflexivity|]. cbn [length] in *. lia.
  - rewrite chunks8_cons by exact Hc. cbn [map]. rewrite bitstring_cons.
    rewrite byte_bits_of_bits by (rewrite orient_length; exact Hc). rewrite orient_invol. f_equal.
    apply IH. rewrite app_length in H. lia.
Qed.

Theorem run_rop_spec op r : r_wf r -> quiet (r_s r) -> rop_ok op ->
  match spec_rop op (unread r) with
  | Some (x, u') => exists r', run_rop op r = (Ok x, r') /\ adv r r' (rop_size op) /\ unread r' = u'
  | None => exists e r', run_rop op r = (Err (Incomplete e), r') /\ failed r r' /\
      0 < e <= rop_size op /\ (~ peeked r -> e = rop_size op)
  end.
Proof.
  intros Hw Hq Hok. destruct op as [n o|n o|n|]; cbn [run_rop spec_rop rop_size rop_ok] in *.
  - pose proof (read_bits_into_spec n o r Hw Hq) as H.
    destruct (take_bits o n (unread r)) as [[l u']|] eqn:E; cbn [option_map fst snd].
    + destruct H as (r' & E1 & A & U). exists r'. unfold bind, read_bits. rewrite E1. auto.
    + destruct H as (r' & E1 & F). exists n, r'. unfold bind, read_bits. rewrite E1.
      split; [reflexivity|]. split; [exact F|]. split; [|auto].
      apply take_bits_none in E. lia.
  - pose proof (read_bytes_spec n n o r Hw Hq (le_n n) ltac:(lia)) as H.
    destruct (take_bits o (8 * n) (unread r)) as [[l u']|] eqn:E; cbn [option_map fst snd].
    + destruct H as (bs & r' & E1 & Hb & A & U). exists r'. unfold bind. rewrite E1.
      rewrite <- Hb, bytes_of_bitstring. auto.
    + destruct H as (e & r' & E1 & F & He). exists e, r'. unfold bind. rewrite E1. auto.
  - pose proof (read_bits_into_spec n Msb0 r Hw Hq) as H.
    unfold bind. rewrite fast_read_generic by assumption. unfold bind.
    destruct (take_bits Msb0 n (unread r)) as [[l u']|] eqn:E; cbn [option_map fst snd].
    + destruct H as (r' & -> & A & U). exists r'. auto.
    + destruct H as (r' & -> & F). exists n, r'. split; [reflexivity|]. split; [exact F|]. split; [|auto].
      apply take_bits_none in E. lia.
  - destruct (r_end_spec r Hw Hq) as (r' & E & A & U). rewrite E. exists r'. auto.
Qed.

(** Success alone already means the request was supported. *)
Lemma rop_success op r x r' : r_wf r -> quiet (r_s r) -> run_rop op r = (Ok x, r') ->
  spec_rop op (unread r) = Some (x, unread r') /\ adv r r' (rop_size op).
Proof.
  intros Hw Hq E.
  assert (Hz : forall o, op = RBytes 0 o -> x = OBytes [] /\ adv r r' 0 /\ unread r' = unread r).
  { intros o ->. cbn [run_rop] in E. unfold bind in E.
    assert (Hp : ~ peeked r).
    { intros [b Hb]. unfold read_bytes in E. rewrite Hb in E. cbn in E. discriminate. }
    pose proof (read_bytes_spec 0 0 o r Hw Hq (le_n 0) (fun _ => Hp)) as H.
    change (take_bits o (8 * 0) (unread r)) with (Some (@nil bool, unread r)) in H. cbn iota in H.
    destruct H as (bs & r1 & E1 & Hb & A & U). rewrite E1 in E. apply pair_inj in E; destruct E as [E <-].
    apply ok_inj in E. destruct bs; [|rewrite bitstring_cons in Hb; pose proof (byte_bits_length b) as L;
      rewrite <- (orient_length o) in L; destruct (orient o (byte_bits b)); discriminate].
    split; [now symmetry|]. split; [exact A|exact U]. }
  assert (Hok : rop_ok op \/ exists o, op = RBytes 0 o).
  { destruct op as [n o|n o|n|]; cbn [rop_ok]; auto.
    - destruct n; [right; eauto|left; lia].
    - left. cbn [run_rop] in E. unfold bind, read_bits_uint_msb0, assert_ in E.
      destruct ((1 <=? n) && (n <=? 64)) eqn:Hn; [lia|]. cbn in E. discriminate. }
  destruct Hok as [Hok|[o ->]].
  - pose proof (run_rop_spec op r Hw Hq Hok) as H. destruct (spec_rop op (unread r)) as [[y u']|].
    + destruct H as (r1 & E1 & A & U). rewrite E in E1. apply pair_inj in E1; destruct E1 as [X <-].
      apply ok_inj in X; subst. auto.
    + destruct H as (e & r1 & E1 & _). rewrite E in E1. discriminate.
  - destruct (Hz o eq_refl) as (-> & A & U). split; [|exact A]. rewrite U. reflexivity.
Qed.
Lemma session_success ops r xs r' : r_wf r -> quiet (r_s r) -> run_session ops r = (Ok xs, r') ->
  spec_session ops (unread r) = Some (xs, unread r') /\ adv r r' (total ops).
Proof.
  revert r xs; induction ops as [|op ops IH]; intros r xs Hw Hq E; cbn [run_session spec_session] in *.
  - apply pair_inj in E; destruct E as [E <-]. apply ok_inj in E; subst. split; [reflexivity|now apply adv_refl].
  - apply bind_inv in E. destruct E as (x & r1 & E1 & E). apply bind_inv in E. destruct E as (ys & r2 & E2 & E).
    apply pair_inj in E; destruct E as [E <-]. apply ok_inj in E; subst xs.
    destruct (rop_success _ _ _ _ Hw Hq E1) as [S1 A1].
    destruct (IH r1 ys (adv_wf _ _ _ A1) (adv_quiet _ _ _ A1 Hq) E2) as [S2 A2].
    rewrite S1, S2. split; [reflexivity|]. eapply adv_trans; eassumption.
Qed.

Theorem run_session_spec ops r : r_wf r -> quiet (r_s r) -> Forall rop_ok ops ->
  match spec_session ops (unread r) with
  | Some (xs, u') => exists r', run_session ops r = (Ok xs, r') /\ adv r r' (total ops) /\ unread r' = u'
  | None => exists e r', run_session ops r = (Err (Incomplete e), r') /\ r_wf r' /\ same_source (r_s r) (r_s r')
  end.
Proof.
  revert r; induction ops as [|op ops IH]; intros r Hw Hq Hok.
  - cbn. exists r. split; [reflexivity|]. split; [now apply adv_refl|reflexivity].
  - inversion Hok as [|? ? Ho Hos]; subst. cbn [spec_session run_session].
    pose proof (run_rop_spec op r Hw Hq Ho) as H.
    destruct (spec_rop op (unread r)) as [[x u1]|].
    + destruct H as (r1 & E1 & A1 & U1). rewrite (bind_ok _ _ _ _ _ E1).
      specialize (IH r1 (adv_wf _ _ _ A1) (adv_quiet _ _ _ A1 Hq) Hos). rewrite U1 in IH.
      destruct (spec_session ops u1) as [[xs u2]|]; cbn [option_map fst snd].
      * destruct IH as (r2 & E2 & A2 & U2). exists r2. rewrite (bind_ok _ _ _ _ _ E2).
        split; [reflexivity|]. split; [|exact U2]. cbn [total map list_sum fold_right].
        eapply adv_trans; eassumption.
      * destruct IH as (e & r2 & E2 & W2 & S2). exists e, r2. rewrite (bind_err _ _ _ _ _ E2).
        split; [reflexivity|]. split; [exact W2|]. eapply same_source_trans; [apply A1|exact S2].
    + destruct H as (e & r1 & E1 & F1 & _). exists e, r1. unfold bind. rewrite E1.
      split; [reflexivity|]. split; [apply F1|apply F1].
Qed.

(** ** Consequences on the specification side *)

Lemma spec_rop_string o op u x u' : rop_in_order o op -> spec_rop op u = Some (x, u') ->
  unread_string o u = out_string o op x ++ unread_string o u' /\ length (out_string o op x) = rop_size op.
Proof.
  intros Ho H. destruct op as [n o'|n o'|n|]; cbn [spec_rop rop_in_order rop_size] in *; subst.
  - destruct (take_bits o n u) as [[l u1]|] eqn:E; [|discriminate]. injection H as <- <-.
    cbn [out_string fst]. rewrite orient_invol. split; [now apply (take_bits_string _ _ _ _ _ E)|].
    now destruct (take_bits_some_len _ _ _ _ _ E).
  - destruct (take_bits o (8 * n) u) as [[l u1]|] eqn:E; [|discriminate]. injection H as <- <-.
    destruct (take_bits_some_len _ _ _ _ _ E) as [Hl _].
    cbn [out_string fst]. rewrite bitstring_bytes_of by (rewrite Hl; lia).
    split; [now apply (take_bits_string _ _ _ _ _ E)|exact Hl].
  - destruct (take_bits Msb0 n u) as [[l u1]|] eqn:E; [|discriminate]. injection H as <- <-.
    destruct (take_bits_some_len _ _ _ _ _ E) as [Hl _].
    cbn [out_string fst]. rewrite <- Hl at 1 2. rewrite N2bits_bits2N.
    split; [now apply (take_bits_string _ _ _ _ _ E)|exact Hl].
  - injection H as <- <-. split; reflexivity.
Qed.
Lemma spec_session_string o ops u xs u' : Forall (rop_in_order o) ops -> spec_session ops u = Some (xs, u') ->
  unread_string o u = concat (out_strings o ops xs) ++ unread_string o u' /\
  map (@length bool) (out_strings o ops xs) = map rop_size ops /\ length xs = length ops.
Proof.
  revert u xs; induction ops as [|op ops IH]; intros u xs Ho H; cbn [spec_session] in H.
  - injection H as <- <-. repeat split; reflexivity.
  - inversion Ho as [|? ? H1 H2]; subst. destruct (spec_rop op u) as [[x u1]|] eqn:E1; [|discriminate].
    destruct (spec_session ops u1) as [[xs1 u2]|] eqn:E2; [|discriminate]. injection H as <- <-.
    destruct (spec_rop_string _ _ _ _ _ H1 E1) as [Hs Hl]. destruct (IH _ _ H2 E2) as (Is & Il & In).
    cbn [out_strings concat map length]. rewrite <- app_assoc, <- Is. repeat split; [exact Hs| |]; f_equal; assumption.
Qed.
Lemma spec_rop_len op u : match spec_rop op u with
  | Some (_, u') => unread_len u = rop_size op + unread_len u'
  | None => unread_len u < rop_size op end.
Proof.
  destruct op as [n o'|n o'|n|]; cbn [spec_rop rop_size].
  - destruct (take_bits o' n u) as [[l u1]|] eqn:E; cbn.
    + now destruct (take_bits_some_len _ _ _ _ _ E). + now apply take_bits_none in E.
  - destruct (take_bits o' (8 * n) u) as [[l u1]|] eqn:E; cbn [option_map fst snd].
    + now destruct (take_bits_some_len _ _ _ _ _ E). + now apply take_bits_none in E.
  - destruct (take_bits Msb0 n u) as [[l u1]|] eqn:E; cbn.
    + now destruct (take_bits_some_len _ _ _ _ _ E). + now apply take_bits_none in E.
  - reflexivity.
Qed.
Lemma spec_session_len ops u : match spec_session ops u with
  | Some (_, u') => unread_len u = total ops + unread_len u'
  | None => unread_len u < total ops end.
Proof.
  revert u; induction ops as [|op ops IH]; intros u; [reflexivity|].
  cbn [spec_session]. unfold total; cbn [map list_sum fold_right]. fold (list_sum (map rop_size ops)). fold (total ops).
  pose proof (spec_rop_len op u) as H. destruct (spec_rop op u) as [[x u1]|]; [|lia].
  specialize (IH u1). destruct (spec_session ops u1) as [[xs u2]|]; cbn [option_map snd]; lia.
Qed.

(** Every bit is delivered at most once and none disappears. *)
Lemma orient_perm o l : Permutation (orient o l) l.
Proof. destruct o; cbn; [reflexivity|]. symmetry. apply Permutation_rev. Qed.
Lemma bitstring_perm o bs : Permutation (bitstring o bs) (bits_of_bytes bs).
Proof.
  induction bs as [|b bs IH]; [reflexivity|]. rewrite bitstring_cons. cbn [bits_of_bytes flat_map].
  apply Permutation_app; [apply orient_perm|exact IH].
Qed.
Lemma unread_string_perm o u : Permutation (unread_string o u) (unread_bits u).
Proof. apply Permutation_app; [apply orient_perm|apply bitstring_perm]. Qed.
Lemma rop_in_own_order op : rop_in_order (op_order op) op.
Proof. destruct op; reflexivity || exact I. Qed.
Lemma spec_session_perm ops u xs u' : spec_session ops u = Some (xs, u') ->
  Permutation (unread_bits u) (all_delivered ops xs ++ unread_bits u').
Proof.
  revert u xs; induction ops as [|op ops IH]; intros u xs H; cbn [spec_session] in H.
  - injection H as <- <-. reflexivity.
  - destruct (spec_rop op u) as [[x u1]|] eqn:E1; [|discriminate].
    destruct (spec_session ops u1) as [[xs1 u2]|] eqn:E2; [|discriminate]. injection H as <- <-.
    destruct (spec_rop_string _ _ _ _ _ (rop_in_own_order op) E1) as [Hs _].
    cbn [all_delivered]. unfold delivered. rewrite <- app_assoc, <- (IH _ _ E2).
    rewrite <- (unread_string_perm (op_order op) u), Hs. apply Permutation_app_head, unread_string_perm.
Qed.

(** Appending input. *)
Lemma spec_rop_app op u x u' more : is_read op -> spec_rop op u = Some (x, u') ->
  spec_rop op (fst u, snd u ++ more) = Some (x, (fst u', snd u' ++ more)).
Proof.
  intros Hr H. destruct op as [n o'|n o'|n|]; cbn [spec_rop] in *; [| | |contradiction].
  - destruct (take_bits o' n u) as [[l u1]|] eqn:E; [|discriminate]. injection H as <- <-.
    now rewrite (take_bits_app _ _ _ _ _ more E).
  - destruct (take_bits o' (8 * n) u) as [[l u1]|] eqn:E; [|discriminate]. injection H as <- <-.
    now rewrite (take_bits_app _ _ _ _ _ more E).
  - destruct (take_bits Msb0 n u) as [[l u1]|] eqn:E; [|discriminate]. injection H as <- <-.
    now rewrite (take_bits_app _ _ _ _ _ more E).
Qed.
Lemma spec_session_app ops u xs u' more : Forall is_read ops -> spec_session ops u = Some (xs, u') ->
  spec_session ops (fst u, snd u ++ more) = Some (xs, (fst u', snd u' ++ more)).
Proof.
  revert u xs; induction ops as [|op ops IH]; intros u xs Hr H; cbn [spec_session] in *.
  - now injection H as <- <-.
  - inversion Hr as [|? ? H1 H2]; subst.
    destruct (spec_rop op u) as [[x u1]|] eqn:E1; [|discriminate].
    destruct (spec_session ops u1) as [[xs1 u2]|] eqn:E2; [|discriminate]. injection H as <- <-.
    rewrite (spec_rop_app _ _ _ _ more H1 E1), (IH _ _ H2 E2). reflexivity.
Qed.
