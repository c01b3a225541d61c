(** Byte reads, end-of-input checks, skips and seeks against [Spec.take_bits]. *)
From Coq Require Import Lia ZifyBool ZifyNat ZifyN.
From Verif Require Import Base MonadFacts Spec Stream Reader BitsFacts NFacts ReaderFacts FastRead.
Ltac Zify.zify_post_hook ::= Z.div_mod_to_equations.

Definition peeked (r : reader) : Prop := exists b, r_left r = Some (LByte b).

Lemma rev_bitstring_bytes bits : length bits mod 8 = 0 ->
  bitstring Lsb0 (rev (bytes_of_bits bits)) = rev bits.
Proof.
  intros H. rewrite <- (bits_bytes_of_bits bits H) at 2.
  generalize (bytes_of_bits bits) as bs. intros bs.
  induction bs as [|b bs IH]; [reflexivity|].
  cbn [rev bits_of_bytes flat_map]. rewrite bitstring_app, IH, rev_app_distr. f_equal.
  cbn. apply app_nil_r.
Qed.

Lemma read_bytes_bits_spec amt o r : r_wf r -> quiet (r_s r) ->
  match take_bits o (8 * amt) (unread r) with
  | Some (l, u') => exists bs r', read_bytes_bits amt o r = (Ok bs, r') /\ bitstring o bs = l /\
      adv r r' (8 * amt) /\ unread r' = u'
  | None => exists r', read_bytes_bits amt o r = (Err (Incomplete (8 * amt)), r') /\ failed r r'
  end.
Proof.
  intros Hw Hq. pose proof (read_bits_into_spec (8 * amt) o r Hw Hq) as H.
  unfold read_bytes_bits, bind.
  destruct (take_bits o (8 * amt) (unread r)) as [[l u']|] eqn:E.
  - destruct H as (r' & -> & Ha & Hu).
    destruct (take_bits_some_len _ _ _ _ _ E) as [Hl _].
    eexists _, r'. split; [reflexivity|]. split; [|auto].
    assert (Hm : length (orient o l) mod 8 = 0) by (rewrite orient_length, Hl; lia).
    destruct o; cbn [orient] in *.
    + rewrite bitstring_msb. now apply bits_bytes_of_bits.
    + rewrite rev_bitstring_bytes by exact Hm. apply rev_involutive.
  - destruct H as (r' & -> & Hf). exists r'. auto.
Qed.

Theorem read_bytes_spec amt buf_len o r : r_wf r -> quiet (r_s r) -> amt <= buf_len ->
  (amt = 0 -> ~ peeked r) ->
  match take_bits o (8 * amt) (unread r) with
  | Some (l, u') => exists bs r', read_bytes amt buf_len o r = (Ok bs, r') /\ bitstring o bs = l /\
      adv r r' (8 * amt) /\ unread r' = u'
  | None => exists e r', read_bytes amt buf_len o r = (Err (Incomplete e), r') /\ failed r r' /\
      0 < e <= 8 * amt /\ (~ peeked r -> e = 8 * amt)
  end.
Proof.
  intros Hw Hq Hb H0. unfold read_bytes.
  destruct (r_left r) as [[b|l0]|] eqn:HL.
  - (* a peeked byte *)
    assert (Hp : peeked r) by (exists b; exact HL).
    assert (Ha : amt <> 0) by (intros ->; now apply H0).
    unfold read_bytes_leftover.
    destruct (Nat.eqb_spec buf_len 0); [lia|]. unfold bind, modify.
    destruct (Nat.eqb_spec amt 0); [lia|].
    unfold unread. rewrite HL. set (av := s_avail (r_s r)).
    set (r1 := r_set_left r None).
    destruct (Nat.eqb_spec (amt - 1) 0) as [H1|H1].
    + replace amt with 1 by lia. rewrite Nat.mul_1_r, take_bits_whole_byte.
      exists [b], (r_add_bits r1 8). split; [reflexivity|]. split; [apply app_nil_r|].
      split; [|reflexivity].
      split; cbn [r1 r_add_bits r_set_left r_s r_left r_bits left_bits length]; rewrite ?HL; cbn [left_bits];
        rewrite ?byte_bits_length; try lia; [apply same_source_refl|exact I|apply virt_refl].
    + destruct (Nat.ltb_spec buf_len (amt - 1)); [lia|]. destruct (Nat.ltb_spec buf_len amt); [lia|].
      replace (8 * amt) with (8 + 8 * (amt - 1)) by lia.
      rewrite take_bits_add, take_bits_whole_byte.
      destruct (le_lt_dec (amt - 1) (length av)) as [Hk|Hk].
      * rewrite take_bits_bytes by exact Hk. cbn zeta beta.
        destruct (r_io_ok (amt - 1) r1 Hq Hk) as (r2 & -> & S2 & L2 & B2 & A2 & P2 & V2).
        cbn [r1 r_set_left r_s] in A2. fold av in A2.
        eexists (b :: firstn (amt - 1) av), _. split; [reflexivity|]. split; [reflexivity|].
        cbn [r1 r_set_left r_s r_bits r_left] in *. split.
        -- split; cbn [r_add_bits r_s r_left r_bits]; rewrite ?L2, ?HL; cbn [left_bits length];
             rewrite ?byte_bits_length; auto; try lia.
           unfold r_wf; cbn [r_add_bits r_left]. rewrite L2. exact I.
        -- unfold unread; cbn [r_add_bits r_s r_left]. rewrite L2, A2. reflexivity.
      * assert (E : take_bits o (8 * (amt - 1)) ([], av) = None).
        { apply take_bits_none. unfold unread_len; cbn [fst snd length]. lia. }
        rewrite E. cbn zeta beta.
        destruct (r_io_short (amt - 1) r1 Hq Hk) as (r2 & -> & S2 & L2 & B2 & P2). cbn [is_eof].
        exists ((amt - 1) * 8), r2. split; [reflexivity|]. cbn [r1 r_set_left r_s r_bits r_left] in *.
        split; [split; auto|].
        -- unfold r_wf. rewrite L2. exact I.
        -- split; [lia|]. intros Hn. now exfalso.
  - (* buffered bits *)
    destruct (Nat.ltb_spec buf_len amt); [lia|].
    pose proof (read_bytes_bits_spec amt o r Hw Hq) as H1.
    assert (Hpos : 0 < amt \/ amt = 0) by lia.
    destruct (take_bits o (8 * amt) (unread r)) as [[l u']|] eqn:E; [exact H1|].
    destruct H1 as (r' & E1 & Hf). exists (8 * amt), r'. split; [exact E1|]. split; [exact Hf|].
    split; [|auto]. destruct Hpos as [|Hz]; [lia|]. subst amt. discriminate.
  - destruct (Nat.ltb_spec buf_len amt); [lia|].
    unfold unread. rewrite HL. set (av := s_avail (r_s r)).
    destruct (le_lt_dec amt (length av)) as [Hk|Hk].
    + rewrite take_bits_bytes by exact Hk.
      destruct (r_io_ok amt r Hq Hk) as (r2 & -> & S2 & L2 & B2 & A2 & P2 & V2). fold av in A2.
      eexists (firstn amt av), _. split; [reflexivity|]. split; [reflexivity|]. split.
      * split; cbn [r_add_bits r_s r_left r_bits]; rewrite ?L2, ?HL; cbn [left_bits length]; auto; try lia.
        unfold r_wf; cbn [r_add_bits r_left]. rewrite L2, HL. exact I.
      * unfold unread; cbn [r_add_bits r_s r_left]. rewrite L2, HL, A2. reflexivity.
    + assert (E : take_bits o (8 * amt) ([], av) = None).
      { apply take_bits_none. unfold unread_len; cbn [fst snd length]. lia. }
      rewrite E.
      destruct (r_io_short amt r Hq Hk) as (r2 & -> & S2 & L2 & B2 & P2). cbn [is_eof].
      exists (amt * 8), r2. split; [reflexivity|]. split; [split; auto|].
      * unfold r_wf. rewrite L2, HL. exact I.
      * split; [lia|]. intros _. lia.
Qed.

(** [end()] only peeks. *)
Theorem r_end_spec r : r_wf r -> quiet (r_s r) ->
  exists r', r_end r = (unread_len (unread r) =? 0, r') /\ adv r r' 0 /\ unread r' = unread r.
Proof.
  intros Hw Hq. unfold r_end. destruct (r_left r) as [l|] eqn:HL.
  - exists r. split; [|split; [now apply adv_refl|reflexivity]]. f_equal.
    unfold r_wf in Hw. rewrite HL in Hw. unfold unread. rewrite HL. unfold unread_len.
    destruct l as [b|l]; cbn [fst snd length]; symmetry; apply Nat.eqb_neq; lia.
  - unfold unread at 1 3. rewrite HL. unfold unread_len; cbn [fst snd length].
    destruct (le_lt_dec 1 (length (s_avail (r_s r)))) as [H1|H1].
    + destruct (r_io_ok 1 r Hq H1) as (r1 & -> & S1 & L1 & B1 & A1 & P1 & V1).
      destruct (s_avail (r_s r)) as [|b av] eqn:Hav; [cbn in H1; lia|].
      eexists; split; [reflexivity|]. cbn [firstn hd skipn] in *. split.
      * split; cbn [r_set_left r_s r_left r_bits left_bits length]; rewrite ?HL; cbn [left_bits length];
          rewrite ?byte_bits_length; auto; try lia. exact I.
      * unfold unread; cbn [r_set_left r_left r_s]. now rewrite A1.
    + unfold r_io, s_read_exact. rewrite (Hq (s_calls (r_s r))).
      destruct (Nat.leb_spec 1 (length (s_avail (r_s r)))); [lia|]. cbn [is_eof].
      assert (Hav : length (s_data (r_s r)) - s_pos (r_s r) = 0) by (rewrite <- s_avail_length; lia).
      eexists; split; [f_equal; symmetry; apply Nat.eqb_eq; lia|].
      assert (Hmax : Nat.max (s_pos (r_s r)) (length (s_data (r_s r))) = s_pos (r_s r)) by lia.
      destruct (s_eat (r_s r)) eqn:He; split.
      * split; cbn [r_set_s r_s r_left r_bits s_goto s_pos s_tick]; rewrite ?HL; try lia.
        -- repeat split; auto.
        -- unfold r_wf; cbn [r_set_s r_left]. rewrite HL. exact I.
        -- unfold virt_moved. cbn [s_noseek s_goto s_tick s_pos]. rewrite Hmax.
           destruct (s_noseek (r_s r)); cbn [option_map]; [f_equal; lia|reflexivity].
      * unfold unread; cbn [r_set_s r_left r_s]. rewrite HL. f_equal. unfold s_avail. cbn [s_goto s_tick s_data s_pos].
        now rewrite Hmax.
      * split; cbn [r_set_s r_s r_left r_bits s_pos s_tick]; rewrite ?HL; try lia.
        -- repeat split; auto.
        -- unfold r_wf; cbn [r_set_s r_left]. rewrite HL. exact I.
        -- unfold virt_moved. cbn [s_noseek s_tick s_pos].
           destruct (s_noseek (r_s r)); cbn [option_map]; [f_equal; lia|reflexivity].
      * unfold unread; cbn [r_set_s r_left r_s]. rewrite HL. reflexivity.
Qed.

(** ** Seeking *)

Lemma r_seek_ok w r p : quiet (r_s r) -> s_noseek (r_s r) = None ->
  seek_target (s_pos (r_s r)) (length (s_data (r_s r))) w = Some p ->
  exists r', r_seek w r = (IoOk p, r') /\ same_source (r_s r) (r_s r') /\ r_left r' = None /\
    r_bits r' = 8 * p /\ s_pos (r_s r') = p /\ s_noseek (r_s r') = None.
Proof.
  intros Hq Hn Ht. unfold r_seek, s_seek. cbn [r_set_left r_s]. rewrite (Hq (s_calls (r_s r))), Hn, Ht.
  eexists; split; [reflexivity|]. cbn. repeat split; auto.
Qed.

(** bits_read and the position in the source agree. *)
Definition synced (r : reader) : Prop :=
  r_bits r + length (left_bits (r_left r)) = 8 * s_pos (r_s r).

Lemma adv_synced r r' n : adv r r' n -> synced r -> synced r'.
Proof. intros [_ _ B P _ _] H. unfold synced in *. lia. Qed.

Lemma take_bits_add_inv o a b u l u' : take_bits o (a + b) u = Some (l, u') ->
  exists u1, take_bits o a u = Some (firstn a l, u1) /\ take_bits o b u1 = Some (skipn a l, u').
Proof.
  rewrite take_bits_add. destruct (take_bits o a u) as [[l1 u1]|] eqn:E1; [|discriminate].
  destruct (take_bits o b u1) as [[l2 u2]|] eqn:E2; [|discriminate].
  intros H; injection H as <- <-. exists u1. destruct (take_bits_some_len _ _ _ _ _ E1) as [<- _].
  now rewrite firstn_length_app, skipn_length_app.
Qed.

(** Skipping [amt] bits when nothing is peeked, or less than a byte is skipped. *)
Theorem skip_bits_spec amt o r l u' : r_wf r -> quiet (r_s r) -> s_noseek (r_s r) = None -> synced r ->
  (peeked r -> amt < 8) ->
  take_bits o amt (unread r) = Some (l, u') ->
  exists r', skip_bits amt o r = (Ok tt, r') /\ adv r r' amt /\ unread r' = u'.
Proof.
  intros Hw Hq Hns Hsync Hp Ht. unfold skip_bits.
  (* what is taken from the buffered bits *)
  set (n0 := match r_left r with Some (LBits bits) => Nat.min amt (length bits) | _ => 0 end).
  assert (Hn0 : n0 <= amt) by (subst n0; destruct (r_left r) as [[]|]; lia).
  replace amt with (n0 + (amt - n0)) in Ht by lia.
  destruct (take_bits_add_inv _ _ _ _ _ _ Ht) as (u1 & T1 & T2). clear Ht.
  assert (Hfirst : exists r1,
    (match r_left r with
      | Some (LBits bits) =>
          let needed := Nat.min amt (length bits) in
          let* _ := read_bits_into needed o in
          ret (amt - needed)
      | _ => ret amt
      end) r = (Ok (amt - n0), r1) /\ adv r r1 n0 /\ unread r1 = u1 /\ (8 <= amt - n0 -> r_left r1 = None)).
  { subst n0. destruct (r_left r) as [[b|bits]|] eqn:HL.
    - exists r. assert (Hu : unread r = u1) by (cbn [take_bits] in T1; congruence). rewrite <- Hu, Nat.sub_0_r.
      split; [reflexivity|]. split; [now apply adv_refl|]. split; [reflexivity|].
      intros H. assert (Hpk : peeked r) by (eexists; exact HL). specialize (Hp Hpk). lia.
    - cbn zeta. pose proof (read_bits_into_spec (Nat.min amt (length bits)) o r Hw Hq) as H.
      rewrite T1 in H. destruct H as (r1 & E & A & U). exists r1. unfold bind. rewrite E.
      split; [reflexivity|]. split; [exact A|]. split; [exact U|].
      intros H. unfold r_wf in Hw. rewrite HL in Hw.
      rewrite read_bits_into_eq in E by (rewrite ?HL; cbn [left_bits]; lia).
      injection E as _ <-. reflexivity.
    - exists r. assert (Hu : unread r = u1) by (cbn [take_bits] in T1; congruence). rewrite <- Hu, Nat.sub_0_r.
      split; [reflexivity|]. split; [now apply adv_refl|]. split; [reflexivity|]. auto. }
  destruct Hfirst as (r1 & E1 & A1 & U1 & N1). cbn zeta. erewrite bind_ok by exact E1. clear E1.
  set (a := amt - n0) in *. set (k := a / 8). set (m := a mod 8).
  assert (Ha : a = 8 * k + m) by (subst k m; lia).
  rewrite Ha in T2. destruct (take_bits_add_inv _ _ _ _ _ _ T2) as (u2 & T3 & T4). clear T2.
  assert (Hq1 : quiet (r_s r1)) by (eapply adv_quiet; eassumption).
  assert (Hns1 : s_noseek (r_s r1) = None) by (rewrite (adv_virt _ _ _ A1), Hns; reflexivity).
  assert (Hmid : exists r2,
    (if k =? 0 then ret tt
       else fun r =>
         if negb (r_bits r mod 8 =? 0) then (Panic, r)
         else (let* _ := lift_io (r_seek (SeekCurrent (Z.of_nat k))) in ret tt) r) r1 = (Ok tt, r2) /\
      adv r1 r2 (8 * k) /\ unread r2 = u2).
  { destruct (Nat.eqb_spec k 0) as [Hk|Hk].
    - exists r1. split; [reflexivity|]. rewrite Hk. split; [apply adv_refl, A1|].
      rewrite Hk in T3. cbn in T3. congruence.
    - (* after the first step no bits are buffered *)
      assert (HL1 : r_left r1 = None).
      { apply N1. subst k. lia. }
      assert (Hs1 : synced r1) by (eapply adv_synced; eassumption).
      unfold synced in Hs1. rewrite HL1 in Hs1. cbn [left_bits length] in Hs1.
      destruct (Nat.eqb_spec (r_bits r1 mod 8) 0) as [_|Hbad]; [|lia]. cbn [negb].
      unfold bind, lift_io.
      destruct (r_seek_ok (SeekCurrent (Z.of_nat k)) r1 (s_pos (r_s r1) + k) Hq1 Hns1) as (r2 & E2 & S2 & L2 & B2 & P2 & N2).
      { cbn [seek_target]. destruct (Z.ltb_spec (Z.of_nat (s_pos (r_s r1)) + Z.of_nat k) 0); [lia|]. f_equal. lia. }
      rewrite E2. exists r2. split; [reflexivity|].
      unfold unread in U1. rewrite HL1 in U1. subst u1.
      assert (Hkl : k <= length (s_avail (r_s r1))).
      { destruct (take_bits_some_len _ _ _ _ _ T3) as [_ H]. unfold unread_len in H; cbn [fst snd length] in H. lia. }
      rewrite take_bits_bytes in T3 by exact Hkl. injection T3 as _ <-.
      split.
      + split; rewrite ?L2, ?HL1; cbn [left_bits length]; auto; try lia.
        * unfold r_wf. rewrite L2. exact I.
        * unfold virt_moved. rewrite N2, Hns1. reflexivity.
      + unfold unread. rewrite L2. f_equal. unfold s_avail. destruct S2 as (-> & _). rewrite P2.
        symmetry. apply skipn_skipn. }
  destruct Hmid as (r2 & E2 & A2 & U2). fold k. erewrite bind_ok by exact E2. fold m.
  pose proof (read_bits_into_spec m o r2 (adv_wf _ _ _ A2) (adv_quiet _ _ _ A2 Hq1)) as H.
  rewrite U2, T4 in H. destruct H as (r3 & E3 & A3 & U3). erewrite bind_ok by exact E3.
  exists r3. split; [reflexivity|]. split; [|exact U3].
  replace amt with (n0 + 8 * k + m) by lia. eapply adv_trans; [eapply adv_trans|]; eassumption.
Qed.
