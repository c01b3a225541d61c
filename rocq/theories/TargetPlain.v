(** Plain declarations on machines of different byte orders. *)
From Coq Require Import Lia ZifyBool ZifyNat ZifyN.
From Verif Require Import Base BitsFacts NFacts MonadFacts Spec Stream Reader Session SessionFacts ReaderFacts FastRead Writer Prims Containers SafeFacts ReaderOps CodecSpec CodecFacts
  PrimFacts PrimProps SourceSim Derive DeriveSpec DeriveSound DeriveFacts Decl PlainSpec PlainFacts Target TargetSpec TargetRead.
From Verif Require Place.
Ltac Zify.zify_post_hook ::= Z.div_mod_to_equations.

(** ** Readers at the same place *)

Definition twin (s1 s2 : stream) : Prop :=
  s_data s1 = s_data s2 /\ s_pos s1 = s_pos s2 /\ s_eat s1 = s_eat s2 /\ s_noseek s1 = s_noseek s2 /\ quiet s1 /\ quiet s2.
Lemma twin_read n s1 s2 : twin s1 s2 ->
  fst (s_read_exact n s1) = fst (s_read_exact n s2) /\ twin (snd (s_read_exact n s1)) (snd (s_read_exact n s2)).
Proof.
  intros (D & P & T & V & Q1 & Q2). unfold s_read_exact, s_avail. rewrite (Q1 _), (Q2 _), D, P, T, V.
  destruct (_ <=? _); cbn [fst snd]; (split; [reflexivity|]); [repeat split; cbn; auto|]. destruct (s_eat s2) eqn:T2; repeat split; cbn; congruence || auto.
Qed.
Lemma twin_seek w s1 s2 : twin s1 s2 -> fst (s_seek w s1) = fst (s_seek w s2) /\ twin (snd (s_seek w s1)) (snd (s_seek w s2)).
Proof.
  intros (D & P & T & V & Q1 & Q2). unfold s_seek. rewrite (Q1 _), (Q2 _), D, P, V.
  destruct (s_noseek s2) as [v|] eqn:V2; [destruct (noseek_target v w)|destruct (seek_target _ _ w)]; cbn [fst snd]; (split; [reflexivity|]); repeat split; cbn; congruence || auto.
Qed.
Notation same := (rrel twin 0).
Notation sim := (rsim twin 0).
Lemma sim_seek w : sim (lift_io (r_seek w)).
Proof.
  intros r1 r2 (R & L & B). unfold lift_io, r_seek. cbn [r_set_left r_s]. destruct (twin_seek w _ _ R) as [E T].
  destruct (s_seek w (r_s r1)) as [[p1|k1] s1], (s_seek w (r_s r2)) as [[p2|k2] s2]; cbn [fst snd] in *; try discriminate E; injection E as <-;
    (split; [reflexivity|]); (split; [exact T|]); (split; [cbn; auto|cbn [r_bits r_set_bits r_set_s r_set_left]; lia]).
Qed.
Lemma sim_skip n o : sim (skip_bits n o).
Proof.
  apply rsim_skip; [exact twin_read|]. intros k s1 s2 R. destruct (twin_seek (SeekCurrent (Z.of_nat k)) _ _ R) as [E T]. rewrite E. split; [|exact T].
  clear E T. destruct (fst (s_seek (SeekCurrent (Z.of_nat k)) s2)); [lia|reflexivity].
Qed.
Lemma sim_inner w : sim (inner_seek w).
Proof.
  intros r1 r2 (R & L & B). unfold inner_seek, lift_io. destruct (twin_seek w _ _ R) as [E T].
  destruct (s_seek w (r_s r1)) as [[p1|k1] s1], (s_seek w (r_s r2)) as [[p2|k2] s2]; cbn [fst snd] in *; try discriminate E; injection E as <-;
    (split; [reflexivity|]); (split; [exact T|]); (split; [cbn; auto|cbn [r_bits r_set_bits r_set_s r_set_left]; lia]).
Qed.
Lemma sim_exact n : sim (read_exact_vec n).
Proof.
  unfold read_exact_vec. do 3 (apply rsim_bind; [apply sim_inner|intros ?]). destruct (_ <? _); [apply rsim_panic|].
  destruct (_ <? n)%N; [destruct (_ <? _)%N; [apply rsim_panic|apply rsim_fail]|]. apply rsim_bytes, twin_read.
Qed.

(** Nothing in a plain declaration asks whether the input has ended, so no byte is
    kept from that. *)
Definition low (r : reader) : Prop := calm r /\ ~ peeked r.
Lemma low_bits n o : keeps low (read_bits_into n o).
Proof. intros r a r' [C P] E. split; [now apply (calm_bits n o r a)|]. now apply (read_bits_into_unpeeked _ _ _ _ _ E). Qed.
Lemma low_bytes n k o : keeps low (read_bytes n k o).
Proof. intros r a r' [C P] E. split; [now apply (calm_bytes n k o r a)|]. now apply (read_bytes_unpeeked _ _ _ _ _ _ E). Qed.
Lemma low_uint n : keeps low (read_bits_uint_msb0 n).
Proof.
  intros r a r' [C P] E. split; [now apply (calm_uint n r a)|]. destruct ((1 <=? n) && (n <=? 64)) eqn:D.
  - now apply (uint_unpeeked n r (Ok a) r' (proj1 C) (proj2 C) ltac:(lia) E).
  - unfold read_bits_uint_msb0 in E. rewrite D in E. discriminate E.
Qed.
Lemma low_prim p c : keeps low (prim_read p c).
Proof. apply keeps_prim; [apply low_bits|apply low_uint|apply low_bytes]. Qed.
Lemma low_seek w : keeps low (lift_io (r_seek w)).
Proof.
  intros r a r' [C P] E. split; [now apply (calm_seek w r a)|]. unfold lift_io, r_seek in E. destruct (s_seek w _) as [[p|k] s]; [|discriminate E].
  apply pair_inj in E. destruct E as [_ <-]. intros [b X]. discriminate X.
Qed.
Lemma low_inner w : keeps low (inner_seek w).
Proof.
  intros r a r' [C P] E. split; [now apply (calm_inner w r a)|]. unfold inner_seek, lift_io in E. destruct (s_seek w _) as [[p|k] s]; [|discriminate E].
  apply pair_inj in E. destruct E as [_ <-]. exact P.
Qed.
Lemma low_exact n : keeps low (read_exact_vec n).
Proof. apply keeps_exact; [apply low_inner|apply low_bytes]. Qed.
Lemma low_skip n o : keeps low (skip_bits n o).
Proof.
  intros r [] r' P E. rewrite Place.skip_eq in E. revert r' E. set (n0 := match r_left r with Some (Reader.LBits bits) => Nat.min n (length bits) | _ => 0 end). cbv zeta.
  assert (K : keeps low (let* _ := read_bits_into n0 o in
   let* _ := if (n - n0) / 8 =? 0 then ret tt else fun r => if negb (r_bits r mod 8 =? 0) then (Panic, r)
         else (let* _ := lift_io (r_seek (SeekCurrent (Z.of_nat ((n - n0) / 8)))) in ret tt) r in
   let* _ := read_bits_into ((n - n0) mod 8) o in ret tt)).
  2:{ intros r' E. exact (K r tt r' P E). }
  apply keeps_bind; [apply low_bits|]. intros _. apply keeps_bind; [|intros _; apply keeps_bind; [apply low_bits|intros; apply (keeps_lift low (Ok tt))]].
  destruct (_ =? 0); [exact (keeps_lift low (Ok tt))|]. intros r1 a r' P1 E. destruct (negb _); [discriminate|]. revert P1 E.
  apply (keeps_bind low (A:=nat) (B:=unit)); [apply low_seek|intros; apply (keeps_lift low (Ok tt))].
Qed.

Definition near (r1 r2 : reader) : Prop := same r1 r2 /\ r_wf r1 /\ ~ peeked r1.
Definition both {A} (x y : res A * reader) : Prop :=
  fst x = fst y /\ match fst x with Ok _ => near (snd x) (snd y) | _ => True end.
(** The same results at the same place. *)
Definition weak {A} (m1 m2 : RM A) : Prop := forall r1 r2, near r1 r2 -> both (m1 r1) (m2 r2).
Lemma near_low r1 r2 : near r1 r2 -> low r1 /\ low r2.
Proof.
  intros (((_ & _ & _ & _ & Q1 & Q2) & L & _) & W & P). unfold low, calm, peeked, r_wf in *. rewrite <- L. auto.
Qed.
Lemma near_refl r : low r -> near r r.
Proof. intros [[W Q] P]. split; [|now split]. split; [repeat split; auto|]. split; [reflexivity|lia]. Qed.
Lemma w_refl {A} (m : RM A) : sim m -> keeps low m -> weak m m.
Proof.
  intros S K r1 r2 H. destruct (near_low _ _ H) as [C1 C2]. destruct (S r1 r2 (proj1 H)) as [E R]. split; [exact E|]. destruct (m r1) as [x1 v1] eqn:E1, (m r2) as [x2 v2]. cbn [fst snd] in *. subst x2.
  destruct x1 as [a|e| |]; try exact I. split; [exact R|]. destruct (K r1 a v1 C1 E1) as [[W _] P]. now split.
Qed.
Lemma w_ext {A} (m1 m1' m2 m2' : RM A) : (forall r, m1 r = m1' r) -> (forall r, m2 r = m2' r) -> weak m1 m2 -> weak m1' m2'.
Proof. intros E1 E2 H r1 r2 N. rewrite <- E1, <- E2. now apply H. Qed.
Lemma w_lift {A} (x : res A) : weak (lift x) (lift x).
Proof. intros r1 r2 N. split; [reflexivity|]. destruct x; cbn; auto. Qed.
Lemma w_bind {A B} (m1 m2 : RM A) (f1 f2 : A -> RM B) : weak m1 m2 -> (forall a, weak (f1 a) (f2 a)) -> weak (bind m1 f1) (bind m2 f2).
Proof.
  intros M F r1 r2 N. specialize (M r1 r2 N). unfold bind. destruct M as [M M']. destruct (m1 r1) as [x1 v1], (m2 r2) as [x2 v2]. cbn [fst snd] in *. subst x2.
  destruct x1 as [a|e| |]; [now apply F|..]; now split.
Qed.
Lemma w_off {A} (f1 f2 : nat -> RM A) : (forall n, weak (f1 n) (f2 n)) -> weak (fun r => f1 (r_bits r) r) (fun r => f2 (r_bits r) r).
Proof. intros H r1 r2 N. pose proof N as [(_ & _ & B) _]. replace (r_bits r1) with (r_bits r2) by lia. now apply H. Qed.
Lemma w_prim p c : weak (prim_read p c) (prim_read p c).
Proof. apply w_refl; [apply rsim_prim, twin_read|apply low_prim]. Qed.

(** ** A whole number of bytes as bytes and as bits *)

Lemma adv_same r ra rb n : calm r -> adv r ra n -> adv r rb n -> unread ra = unread rb -> ~ peeked ra -> ~ peeked rb -> same ra rb.
Proof.
  intros [_ Q] [(D1 & E1 & F1) W1 B1 P1 _ V1] [(D2 & E2 & F2) W2 B2 P2 _ V2] U N1 N2. unfold peeked in *. unfold unread in U. unfold r_wf in *.
  assert (HL : r_left ra = r_left rb).
  { destruct (r_left ra) as [[b|l]|]; [exfalso; eauto| |]; (destruct (r_left rb) as [[b'|l']|]; [exfalso; eauto| |]); try congruence;
      injection U as U _; subst; cbn in *; lia. }
  rewrite HL in P1. assert (HP : s_pos (r_s ra) = s_pos (r_s rb)) by lia. unfold virt_moved in *.
  split; [|split; [exact HL|lia]]. unfold twin, quiet. rewrite D1, D2, E1, E2, F1, F2, V1, V2, HP. auto 10.
Qed.
Lemma whole_states k wb r : low r -> 1 <= k <= wb ->
  match read_bytes k wb Msb0 r, read_bits_into (8 * k) Msb0 r with
  | (Ok bs, ra), (Ok l, rb) => length bs = k /\ l = bits_of_bytes bs /\ same ra rb
  | (Err e, _), (Err e', _) => e = e'
  | _, _ => False
  end.
Proof.
  intros [[W Q] P] Hk. pose proof (read_bytes_spec k wb Msb0 r W Q ltac:(lia) ltac:(lia)) as HB. pose proof (read_bits_into_spec (8 * k) Msb0 r W Q) as HI.
  destruct (take_bits Msb0 (8 * k) (unread r)) as [[l u]|] eqn:ET.
  - destruct HB as (bs & ra & EB & Eb & Aa & Ua). destruct HI as (rb & EI & Ab & Ub). rewrite EB, EI. rewrite bitstring_msb in Eb.
    split; [apply (ranged_bytes k wb Msb0 ltac:(lia) r bs ra W Q EB)|]. split; [now symmetry|].
    apply (adv_same r ra rb (8 * k)); auto; [now split|congruence| |]; [apply (bytes_unpeeked k wb Msb0 r bs); [lia|exact EB]|apply (bits_unpeeked (8 * k) Msb0 r (Ok (orient Msb0 l))); [lia|exact EI]].
  - destruct HB as (e & ra & EB & _ & _ & He). destruct HI as (rb & EI & _). rewrite EB, EI. now rewrite He.
Qed.
Lemma to_from_e e bs : to_bytes_e e (length bs) (from_e e bs) = bs.
Proof. destruct e; cbn [to_bytes_e from_e]; [|apply be_from_be]. unfold le_bytes, from_le. rewrite <- (rev_length bs), be_from_be. apply rev_involutive. Qed.
Lemma from_e_lt e bs : (from_e e bs < 2 ^ N.of_nat (8 * length bs))%N.
Proof. destruct e; [apply from_le_lt|apply from_be_lt]. Qed.
Lemma u_of_whole wb e k bs : length bs = k -> 1 <= k <= wb -> u_of_bits wb e (8 * k) Msb0 (bits_of_bytes bs) = Ok (from_e e bs).
Proof.
  intros HL Hk. replace (bits_of_bytes bs) with (orient Msb0 (layout e Msb0 (8 * k) (from_e e bs))).
  - apply u_of_layout; [lia|rewrite <- HL; apply from_e_lt|discriminate].
  - rewrite layout_whole by lia. replace (8 * k / 8) with k by lia. rewrite <- HL, to_from_e. cbn [orient]. apply bitstring_msb.
Qed.
Lemma sized_value wb e k bs : length bs = k -> k <= wb ->
  match e with Little => from_le (bs ++ repeat x00 (wb - k)) | Big => from_be (repeat x00 (wb - k) ++ bs) end = from_e e bs.
Proof.
  intros HL Hk. pose proof (to_from_e e bs) as X. pose proof (from_e_lt e bs) as Y. rewrite HL in X, Y. destruct e; cbn [to_bytes_e] in X; rewrite <- X at 1.
  - now apply from_le_pad.
  - now apply from_be_pad.
Qed.
Lemma sign_whole w v : 1 <= w -> (v < 2 ^ N.of_nat w)%N -> sign_extend w w v = Ok v.
Proof.
  intros Hw Hv. unfold sign_extend. rewrite Nat.sub_diag, Nat.sub_0_r. replace (w <=? 0) with false by lia. cbn [N.of_nat]. rewrite N.shiftl_0_r, N.shiftr_0_r, N.sub_diag, N.add_0_r.
  unfold wrap. rewrite N.mod_small by exact Hv. now destruct (N.testbit _ _).
Qed.
Lemma u_bits_slow wb e n r : calm r -> 1 <= n <= 8 * wb -> n mod 8 = 0 ->
  read_u_bits wb e n Msb0 r = (let* l := read_bits_into n Msb0 in lift (u_of_bits wb e n Msb0 l)) r.
Proof.
  intros [W Q] Hn Hm. unfold read_u_bits. replace (8 * wb <? n) with false by lia. cbv zeta. destruct e; [reflexivity|]. destruct ((0 <? n) && (n <=? 64)) eqn:E64; [|reflexivity].
  rewrite (bind_cong _ _ _ r (fast_read_generic n r W Q ltac:(lia))). rewrite bind_assoc. apply bind_ext.
  intros l r' E. apply read_bits_into_frame in E; [|exact W]. destruct E as (_ & _ & _ & _ & _ & HL). specialize (HL l eq_refl). rewrite bind_ret_l.
  unfold lift, ret. f_equal. pose proof (u_of_whole wb Big (n / 8) (bytes_of_bits l)) as X. rewrite bits_bytes_of_bits in X by lia.
  replace (8 * (n / 8)) with n in X by lia. rewrite X; [|pose proof (bits_bytes_of_bits l ltac:(lia)) as Y; apply (f_equal (@length bool)) in Y; rewrite bits_of_bytes_length in Y; lia|lia].
  cbn [from_e]. unfold from_be. rewrite bits_bytes_of_bits by lia. f_equal. unfold wrap. apply N.mod_small. pose proof (bits2N_lt l) as Y. rewrite HL in Y.
  eapply N.lt_le_trans; [exact Y|]. apply N.pow_le_mono_r; lia.
Qed.
Lemma w_whole p e k : 1 <= k <= prim_bytes p -> unsigned p || (k =? prim_bytes p) = true -> weak (read_eyo p e k Msb0) (read_ebo p e (8 * k) Msb0).
Proof.
  intros Hk Hu.
  enough (H : forall r, low r -> both (read_eyo p e k Msb0 r) (read_ebo p e (8 * k) Msb0 r)).
  { intros r1 r2 N. destruct (near_low _ _ N) as [C1 C2]. specialize (H r1 C1). pose proof (w_prim p (CEB e (8 * k)) r1 r2 N) as X. cbn [prim_read] in X.
    destruct H as [H H'], X as [X X']. split; [congruence|].
    destruct (read_eyo p e k Msb0 r1) as [x1 v1], (read_ebo p e (8 * k) Msb0 r1) as [x2 v2], (read_ebo p e (8 * k) Msb0 r2) as [x3 v3]. cbn [fst snd] in *. subst x2. destruct x1; auto.
    destruct H' as [H1 W1], X' as [X1 _]. split; [|exact W1].
    destruct H1 as ((D1 & P1 & T1 & V1 & Q1 & _) & L1 & B1), X1 as ((D2 & P2 & T2 & V2 & _ & Q2) & L2 & B2). split; [|split; [congruence|lia]].
    unfold twin. rewrite D1, P1, T1, V1. auto 10. }
  intros r C. pose proof C as [[W Q] P].
  assert (HS : forall wb (f : N -> res N), k <= wb -> (forall bs, length bs = k -> f (from_e e bs) = Ok (from_e e bs)) ->
     both (read_bytes_sized wb e k Msb0 r) ((let* l := read_bits_into (8 * k) Msb0 in lift (res_bind (u_of_bits wb e (8 * k) Msb0 l) f)) r)).
  { intros wb f Hw Hf. unfold read_bytes_sized. replace (wb <? k) with false by lia. pose proof (whole_states k wb r C ltac:(lia)) as X. unfold bind.
    destruct (read_bytes k wb Msb0 r) as [[bs|?| |] ra] eqn:EB, (read_bits_into (8 * k) Msb0 r) as [[l|?| |] rb]; try contradiction.
    - destruct X as (HL & -> & X). unfold lift, ret. rewrite u_of_whole by lia. cbn [res_bind]. rewrite (Hf _ HL). split; cbn [fst snd]; [f_equal; now apply sized_value|].
      split; [exact X|]. destruct (low_bytes k wb Msb0 r bs ra C EB) as [[W1 _] P1]. now split.
    - subst. split; [reflexivity|exact I]. }
  assert (HU : forall wb, k <= wb -> both (read_bytes_sized wb e k Msb0 r) (read_u_bits wb e (8 * k) Msb0 r)).
  { intros wb Hw. rewrite u_bits_slow; [|exact (proj1 C)|lia|lia]. specialize (HS wb Ok Hw (fun _ _ => eq_refl)).
    rewrite (bind_ext (read_bits_into (8 * k) Msb0) (fun l => lift (u_of_bits wb e (8 * k) Msb0 l)) (fun l => lift (res_bind (u_of_bits wb e (8 * k) Msb0 l) Ok)) r); [exact HS|].
    intros l r' _. unfold lift. now destruct (u_of_bits _ _ _ _ _). }
  destruct p as [|wb|wb]; cbn [read_eyo read_ebo prim_bytes] in *.
  - assert (k = 1) by lia. subst k. specialize (HU 1 (le_n 1)). unfold read_bytes_sized in HU. cbn [Nat.ltb Nat.leb Nat.sub repeat app] in HU. unfold read_u8_bytes, read_bytes_const.
    unfold bind in *. pose proof (bytes_length 1 1 Msb0 r) as BL. destruct (read_bytes 1 1 Msb0 r) as [[bs|?| |] ra]; try exact HU. destruct (byte_list bs (BL bs ra (proj1 C) eq_refl)) as [b ->]. destruct e; exact HU.
  - apply HU. lia.
  - cbn [unsigned orb] in Hu. apply Nat.eqb_eq in Hu. subst k. unfold read_i_bits. replace (8 * wb <? 8 * wb) with false by lia. apply HS; [lia|].
    intros bs HL. apply sign_whole; [lia|]. rewrite <- HL. apply from_e_lt.
Qed.

(** ** Reading plain declarations *)

Section Spelled.
Variables (e0 : endian) (cu : nat -> custom) (fuel : nat).
Let w_byte := w_prim PU8 C0.
Lemma w_skip n o : weak (skip_bits n o) (skip_bits n o).
Proof. apply w_refl; [apply sim_skip|apply low_skip]. Qed.
Lemma w_seek w : weak (lift_io (r_seek w)) (lift_io (r_seek w)).
Proof. apply w_refl; [apply sim_seek|apply low_seek]. Qed.
Lemma w_exact n : weak (read_exact_vec n) (read_exact_vec n).
Proof. apply w_refl; [apply sim_exact|apply low_exact]. Qed.
Lemma w_ret {A} (a : A) : weak (ret a) (ret a).
Proof. exact (w_lift (Ok a)). Qed.
Lemma w_fail {A} e : weak (fail (A:=A) e) (fail e).
Proof. exact (w_lift (Err e)). Qed.
Lemma w_panic {A} : weak (panic (A:=A)) panic.
Proof. exact (w_lift Panic). Qed.
Lemma w_vec {A} size (x1 x2 : RM A) lim : lim <> LEnd -> weak x1 x2 -> weak (vec_read fuel size x1 lim) (vec_read fuel size x2 lim).
Proof. apply (R_vec_stop (@weak) (@w_ext) (@w_lift) (@w_bind) (@w_off)). Qed.
Lemma w_field c a e u ctx fs rd1 rd2 : a_reader a = None ->
  (forall lim off, (forall l, lim = Some l -> exists f, a_limit a = Some f /\ eval_limit f ctx fs off = Ok l) ->
     weak (rd1 lim (field_args c a ctx fs off)) (rd2 lim (field_args c (with_endian a e) ctx fs off))) ->
  weak (read_field c a u ctx fs rd1) (read_field c (with_endian a e) u ctx fs rd2).
Proof. intros H. apply (R_read_field (@weak) (@w_ext) (@w_lift) (@w_bind) (@w_off) w_byte w_skip w_seek w_exact). intros f ? ? ? X. congruence. Qed.
Lemma no_end a ctx fs off lim : (forall l, lim = Some l -> exists f, a_limit (fattrs_of (field_decl a) VNone) = Some f /\ eval_limit f ctx fs off = Ok l) -> lim <> Some LEnd.
Proof.
  intros H ->. destruct (H LEnd eq_refl) as (f & Hf & E). destruct a as [? ? [] ? ? ?]; try discriminate Hf; injection Hf as <-; [|discriminate E].
  cbn in E. destruct (to_usize _); discriminate E.
Qed.
Lemma w_magic m : weak (read_magic m) (read_magic m).
Proof. apply (R_magic (@weak) (@w_lift) (@w_bind) w_byte). Qed.

Lemma w_num whole p e b : num_plain whole p e b = true -> weak (prim_read p (read_ctx e0 (pcontext e b))) (prim_read p (pcontext (fill e0 e) b)).
Proof.
  intros H. destruct e as [e|]; [destruct b; apply w_prim|]. destruct b as [n|]; [|apply w_prim]. cbn [pcontext fill read_ctx].
  destruct (n mod 8 =? 0) eqn:E8; [|apply w_prim]. cbn [prim_read]. unfold num_plain in H. cbn [none negb orb] in H. unfold prim_width in H.
  replace n with (8 * (n / 8)) at 2 by lia. apply w_whole; [lia|]. destruct (unsigned p); [reflexivity|]. cbn [orb] in *. rewrite E8 in H. cbn [negb orb] in H. lia.
Qed.
Lemma w_pctx {A} lim e b (k1 k2 : pctx -> RM A) : weak (k1 (pcontext e b)) (k2 (pcontext (fill e0 e) b)) ->
  weak (with_pctx lim (pargs e b) k1) (with_pctx lim (pargs (fill e0 e) b) k2).
Proof. intros H. unfold with_pctx. rewrite !pargs_pctx. destruct lim; [apply w_panic|exact H]. Qed.
Lemma spelled_attrs t a : fattrs_of (field_decl (fill_field e0 t a)) VNone =
  with_endian (fattrs_of (field_decl a) VNone) (a_endian (fattrs_of (field_decl (fill_field e0 t a)) VNone)).
Proof. now destruct a as [? ? [] ? ? ?]. Qed.
Lemma spelled_u8 t : (match ctype (spelled e0 t) with TPrim PU8 => true | _ => false end) = match ctype t with TPrim PU8 => true | _ => false end.
Proof. now destruct t. Qed.
Lemma spelled_vec_u8 k t : is_vec_u8 (holding k (ctype (spelled e0 t))) = is_vec_u8 (holding k (ctype t)).
Proof. pose proof (spelled_u8 t) as H. destruct k; cbn [holding is_vec_u8]; try exact H; try (now destruct t); reflexivity. Qed.
Lemma spelled_ids vs : ids (spelled_variants e0 vs) = ids vs.
Proof. induction vs as [|id fs tl IH]; cbn [spelled_variants ids]; [reflexivity|]. now rewrite IH. Qed.

Theorem spelled_read :
  (forall t whole e b, plain_in whole t e b = true ->
     (only_numbers t = true -> forall lim, weak (t_read_ty e0 cu fuel (ctype t) lim (pargs e b)) (read_ty cu fuel (ctype (spelled e0 t)) lim (pargs (fill e0 e) b))) /\
     (apart t = true -> forall lim, weak (t_read_ty e0 cu fuel (ctype t) lim (pargs e b)) (read_ty cu fuel (ctype (spelled e0 t)) lim (pargs e b)))) /\
  (forall fs whole done, fields_plain whole done fs = true -> fields_apart fs = true -> forall m ctx acc,
     weak (t_fields_read e0 cu fuel (cattrs_of (struct_decl m)) ctx (cfields fs) None acc) (fields_read cu fuel (cattrs_of (struct_decl m)) ctx (cfields (spelled_fields e0 fs)) None acc)) /\
  (forall vs whole, variants_plain whole vs = true -> variants_apart vs = true -> forall m p e b ctx id k,
     weak (t_variants_read e0 cu fuel (eattrs_of (enum_decl m p e b)) ctx id (cvariants vs) k None)
          (variants_read cu fuel (eattrs_of (enum_decl m p (fill e0 e) b)) ctx id (cvariants (spelled_variants e0 vs)) k None)).
Proof.
  apply plain_ind.
  - intros p whole e b H. split; [|discriminate]. intros _ lim. apply w_pctx. apply w_bind; [now apply (w_num whole)|]. intros n. apply w_ret.
  - intros whole e b H. split; [|discriminate]. intros _ lim. apply w_pctx. apply w_bind; [|intros x; apply w_ret]. unfold read_bool. apply w_bind; [now apply (w_num whole)|].
    intros v. destruct (v =? 1)%N; [apply w_ret|]. destruct (v =? 0)%N; [apply w_ret|apply w_fail].
  - intros n t IH whole e b H. destruct (IH whole e b H) as [H1 H2].
    split; intros Ht lim; (apply w_bind; [|intros vs; apply w_ret]); apply (R_array (@weak) (@w_lift) (@w_bind)); [now apply H1|now apply H2].
  - intros m fs IH whole e b H. cbn [plain_in] in H. bsplit. split; [discriminate|]. intros Ha lim. cbn [spelled ctype]. rewrite read_struct. cbn [t_read_ty]. cbv zeta.
    apply w_bind; [apply w_ret|intros _]. apply w_bind; [apply w_magic|intros _]. apply w_bind; [|intros vs; apply w_ret]. now apply (IH whole []).
  - intros m p e b vs IH whole e' b' H. cbn [plain_in] in H. bsplit. split; [discriminate|]. intros Ha lim. cbn [spelled ctype]. rewrite read_enum. cbn [t_read_ty]. cbv zeta.
    apply w_bind; [apply w_magic|intros _]. apply w_bind; [|intros id; now apply (IH whole)]. cbn [en_id eattrs_of enum_decl k_id]. rewrite !id_pargs.
    cbn [read_ty]. apply w_pctx. apply w_bind; [now apply (w_num whole)|]. intros n. apply w_ret.
  - intros p whole e b H. split; [|discriminate]. intros _ lim. apply w_pctx. apply w_bind; [|intros x; apply w_ret]. unfold read_nonzero. apply w_bind; [now apply (w_num whole)|].
    intros v. destruct (v =? 0)%N; [apply w_fail|apply w_ret].
  - intros s IHs t IHt whole e b H. cbn [plain_in] in H. bsplit. destruct (IHs whole e b) as [S1 S2]; [assumption|]. destruct (IHt whole e b) as [T1 T2]; [assumption|].
    split; cbn [only_numbers apart]; intros Ha lim; bsplit; (apply w_bind; [|intros x; apply w_bind; [|intros y; apply w_ret]]); auto.
  - intros whole e b H. split; [discriminate|]. intros _ lim. cbn [spelled ctype t_read_ty read_ty]. cbn [plain_in] in H. bsplit.
    destruct (pargs_none e b) as (-> & _ & _); auto. destruct lim; [apply w_panic|]. apply w_bind; [|intros; apply w_ret].
    apply (R_cstr (@weak) (@w_ext) (@w_lift) (@w_bind) (@w_off) w_byte).
  - intros whole done _ _ m ctx acc. apply w_ret.
  - intros a t IH tl IHtl whole done H Ha m ctx acc. cbn [fields_plain fields_apart] in H, Ha. bsplit. cbn [spelled_fields cfields]. rewrite read_cons. cbn [t_fields_read].
    destruct (IH whole (p_endian a) (p_bits a)) as [H1' H2']; [assumption|].
    apply w_bind; [|intros v; apply w_bind; [now apply (IHtl whole (done ++ [slot_of (p_kind a) t]))|intros vs]].
    + change (p_kind (fill_field e0 t a)) with (p_kind a). rewrite spelled_vec_u8. rewrite spelled_attrs. apply w_field; [reflexivity|]. intros lim off HL. rewrite <- spelled_attrs, !field_pargs.
      cbn [fill_field p_endian p_bits].
      assert (HT : forall lim, weak (t_read_ty e0 cu fuel (ctype t) lim (pargs (p_endian a) (p_bits a)))
        (read_ty cu fuel (ctype (spelled e0 t)) lim (pargs (if only_numbers t then fill e0 (p_endian a) else p_endian a) (p_bits a)))).
      { destruct (only_numbers t) eqn:Eo; [now apply H1'|]. apply H2'. cbn [orb] in *. assumption. }
      destruct (p_kind a) as [|k size|k|n size]; cbn [holding t_read_ty read_ty].
      * apply HT.
      * destruct lim; [|apply w_panic]. apply w_bind; [|intros; apply w_ret]. apply w_vec; [|apply HT]. intros ->. exact (no_end _ _ _ _ _ HL eq_refl).
      * apply w_bind; [apply HT|]. intros; apply w_ret.
      * destruct lim; [|apply w_panic]. apply w_bind; [|intros; apply w_ret]. apply w_vec; [|apply HT]. intros ->. exact (no_end _ _ _ _ _ HL eq_refl).
    + apply w_ret.
  - intros whole _ _ m p e b ctx id k. apply w_fail.
  - intros n fs IHf tl IHtl whole H Ha m p e b ctx id k. cbn [variants_plain variants_apart] in H, Ha. bsplit. cbn [spelled_variants cvariants]. rewrite read_variant. cbn [t_variants_read]. cbv zeta.
    destruct (matches _ id); [|now apply (IHtl whole)]. apply w_bind; [|intros; apply w_ret]. exact (IHf whole [] ltac:(assumption) ltac:(assumption) m ctx []).
Qed.
End Spelled.
