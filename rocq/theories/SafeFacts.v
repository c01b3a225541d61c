(** Building blocks for the safety of derived readers. *)
From Coq Require Import Lia ZifyBool ZifyNat ZifyN.
From Verif Require Import Base Spec Stream Reader Session Writer WSession Prims BitsFacts NFacts MonadFacts ReaderFacts ReaderOps SessionFacts FastRead CodecSpec CodecFacts Containers ContainerSpec ContainerFacts Safety PrimFacts Derive SafeSpec.
Ltac Zify.zify_post_hook ::= Z.div_mod_to_equations.

(** ** Values in range *)

Lemma from_be_lt bs : (from_be bs < 2 ^ N.of_nat (8 * length bs))%N.
Proof. unfold from_be. pose proof (bits2N_lt (bits_of_bytes bs)) as H. now rewrite bits_of_bytes_length in H. Qed.
Lemma from_le_lt bs : (from_le bs < 2 ^ N.of_nat (8 * length bs))%N.
Proof. unfold from_le. pose proof (from_be_lt (rev bs)) as H. now rewrite rev_length in H. Qed.
Lemma from_e_lt e bs n : length bs <= n -> (from_e e bs < 2 ^ N.of_nat (8 * n))%N.
Proof.
  intros H. eapply N.lt_le_trans; [|apply (pow2_le (N.of_nat (8 * length bs))); lia]. destruct e; [apply from_le_lt|apply from_be_lt].
Qed.
Lemma bits2N_le_lt l n : length l <= n -> (bits2N l < 2 ^ N.of_nat n)%N.
Proof. intros H. eapply N.lt_le_trans; [apply bits2N_lt|]. apply pow2_le. lia. Qed.
Lemma bbv_inserts_len cap k i l l' : bbv_inserts cap k i l = Ok l' -> length l <= cap -> length l' <= cap.
Proof.
  revert l. induction k as [|k IH]; intros l E H; cbn [bbv_inserts] in E; [apply ok_inj in E; now subst|].
  destruct ((length l <? cap) && (i <? length l)) eqn:C; [|discriminate]. apply (IH _ E).
  rewrite app_length, firstn_length. cbn [length]. rewrite skipn_length. lia.
Qed.
Lemma bbv_pushes_len cap k l l' : bbv_pushes cap k l = Ok l' -> length l' <= cap.
Proof.
  unfold bbv_pushes. destruct (_ <=? _) eqn:C; [|discriminate]. intros E. apply ok_inj in E. subst l'.
  rewrite app_length, repeat_length. lia.
Qed.
Lemma res_bind_ok {A B} (x : res A) (f : A -> res B) b : res_bind x f = Ok b -> exists a, x = Ok a /\ f a = Ok b.
Proof. destruct x; try discriminate. eauto. Qed.
Lemma u_of_bits_lt wb e n o bits v : u_of_bits wb e n o bits = Ok v -> (v < 2 ^ N.of_nat (8 * wb))%N.
Proof.
  unfold u_of_bits. set (pad := 8 * ceil8 (length bits) - length bits). destruct (8 * wb <? length bits + pad) eqn:C1; [discriminate|].
  destruct ((pad =? 0) && (length bits =? 8 * wb) && negb (order_eqb o Lsb0)) eqn:C2.
  { intros E. apply ok_inj in E. subst v. apply from_e_lt. rewrite bytes_of_bits_length. lia. }
  assert (HL : forall skip b1, skip <= wb -> (from_e e (repeat x00 skip ++ firstn (wb - skip) b1 ++ repeat x00 (wb - skip - length (firstn (wb - skip) b1))) < 2 ^ N.of_nat (8 * wb))%N).
  { intros skip b1 Hs. apply from_e_lt. rewrite !app_length, !repeat_length. pose proof (firstn_le_length (wb - skip) b1). lia. }
  destruct e, o.
  - destruct (length bits <? 8 - pad); [discriminate|]. intros E. apply res_bind_ok in E. destruct E as (b1 & E1 & E). apply res_bind_ok in E.
    destruct E as (b2 & E2 & E). apply ok_inj in E. subst v. apply (from_e_lt Little). rewrite bytes_of_bits_length. apply bbv_pushes_len in E2. lia.
  - destruct (negb (n =? length bits)); [discriminate|]. intros E. apply res_bind_ok in E. destruct E as (b1 & E1 & E). apply ok_inj in E. subst v. apply HL. lia.
  - destruct (0 <? n).
    + intros E. apply ok_inj in E. subst v. apply bits2N_le_lt. lia.
    + intros E. apply res_bind_ok in E. destruct E as (b1 & E1 & E). apply res_bind_ok in E.
      destruct E as (b2 & E2 & E). apply ok_inj in E. subst v. apply (from_e_lt Big). rewrite bytes_of_bits_length.
      apply bbv_inserts_len in E1; [|lia]. apply bbv_inserts_len in E2; lia.
  - destruct (negb (n =? length bits)); [discriminate|]. intros E. apply res_bind_ok in E. destruct E as (b1 & E1 & E). apply ok_inj in E. subst v. apply HL. lia.
Qed.
Lemma sign_extend_lt w n v x : sign_extend w n v = Ok x -> (x < 2 ^ N.of_nat w)%N.
Proof.
  unfold sign_extend. destruct (w <=? w - n) eqn:C; [discriminate|]. intros E. apply ok_inj in E. subst x.
  set (s := w - n) in *. set (y := wrap (N.of_nat w) _). assert (Hy : (y < 2 ^ N.of_nat w)%N) by (apply N.mod_lt, pow2_nz).
  assert (Hsh : (N.shiftr y (N.of_nat s) < 2 ^ N.of_nat (w - s))%N).
  { rewrite N.shiftr_div_pow2. apply N.div_lt_upper_bound; [apply pow2_nz|]. rewrite <- N.pow_add_r.
    replace (N.of_nat s + N.of_nat (w - s))%N with (N.of_nat w) by lia. exact Hy. }
  assert (HP : (2 ^ N.of_nat (w - s) <= 2 ^ N.of_nat w)%N) by (apply pow2_le; lia).
  destruct (N.testbit _ _); lia.
Qed.

Definition ranged {A} (m : RM A) (good : A -> Prop) : Prop := forall r v r', r_wf r -> quiet (r_s r) -> m r = (Ok v, r') -> good v.
Lemma ranged_bytes n b o : 0 < n <= b -> ranged (read_bytes n b o) (fun bs => length bs = n).
Proof.
  intros Hn r v r' Hw Hq E. pose proof (read_bytes_spec n b o r Hw Hq ltac:(lia) ltac:(lia)) as H.
  destruct (take_bits o (8 * n) (unread r)) as [[l u']|] eqn:T.
  - destruct H as (bs & r1 & E1 & HB & _). rewrite E1 in E. apply pair_inj in E. destruct E as [E _]. apply ok_inj in E. subst v.
    destruct (take_bits_some_len _ _ _ _ _ T) as [HL _]. rewrite <- HB, bitstring_length in HL. lia.
  - destruct H as (e & r1 & E1 & _). rewrite E1 in E. discriminate.
Qed.
Theorem prim_range p c : 0 < prim_bytes p -> sized c -> ranged (prim_read p c) (fun n => (n < 2 ^ N.of_nat (prim_width p))%N).
Proof.
  intros Hp Hs.
  assert (HY : forall e n o, 0 < n -> ranged (read_eyo p e n o) (fun n => (n < 2 ^ N.of_nat (prim_width p))%N)).
  { intros e n o Hn r v r' Hw Hq E.
    assert (HZ : forall wb, (if wb <? n then fail Parse else let* bs := read_bytes n wb o in
         ret (match e with Little => from_le (bs ++ repeat x00 (wb - n)) | Big => from_be (repeat x00 (wb - n) ++ bs) end)) r = (Ok v, r') ->
         (v < 2 ^ N.of_nat (8 * wb))%N).
    { intros wb E'. destruct (wb <? n) eqn:C; [discriminate|]. apply bind_inv in E'. destruct E' as (bs & r1 & E1 & E2).
      apply (ranged_bytes n wb o ltac:(lia) r) in E1; [|assumption|assumption]. apply pair_inj in E2. destruct E2 as [E2 _]. apply ok_inj in E2. subst v.
      destruct e; [apply (from_e_lt Little)|apply (from_e_lt Big)]; rewrite app_length, repeat_length; lia. }
    destruct p; cbn [read_eyo] in E; unfold read_u8_bytes, read_bytes_sized, read_bytes_const in E.
    - apply bind_inv in E. destruct E as (bs & r1 & E1 & E2). apply (ranged_bytes 1 1 o ltac:(lia) r) in E1; [|assumption|assumption].
      apply pair_inj in E2. destruct E2 as [E2 _]. apply ok_inj in E2. subst v. apply (from_e_lt Big bs 1). lia.
    - apply HZ. exact E.
    - apply HZ. exact E. }
  assert (HU : forall wb e n o, ranged (read_u_bits wb e n o) (fun n => (n < 2 ^ N.of_nat (8 * wb))%N)).
  { intros wb e n o r v r' Hw Hq E. unfold read_u_bits in E. destruct (8 * wb <? n); [discriminate|].
    assert (HS : (let* bits := read_bits_into n o in lift (u_of_bits wb e n o bits)) r = (Ok v, r') -> (v < 2 ^ N.of_nat (8 * wb))%N).
    { intros E'. apply bind_inv in E'. destruct E' as (l & r1 & E1 & E2). apply pair_inj in E2. destruct E2 as [E2 _].
      eapply u_of_bits_lt. exact E2. }
    destruct e, o; try (apply HS; exact E). destruct (_ && _); [|apply HS; exact E].
    apply bind_inv in E. destruct E as (x & r1 & E1 & E2). apply pair_inj in E2. destruct E2 as [E2 _]. apply ok_inj in E2. subst v.
    apply N.mod_lt, pow2_nz. }
  assert (HB : forall e n o, ranged (read_ebo p e n o) (fun n => (n < 2 ^ N.of_nat (prim_width p))%N)).
  { intros e n o. destruct p as [|wb|wb]; cbn [read_ebo]; [apply (HU 1)|apply (HU wb)|].
    intros r v r' Hw Hq E. unfold read_i_bits in E. destruct (8 * wb <? n); [discriminate|].
    apply bind_inv in E. destruct E as (l & r1 & E1 & E2). apply pair_inj in E2. destruct E2 as [E2 _]. apply res_bind_ok in E2.
    destruct E2 as (u & _ & E2). apply sign_extend_lt in E2. exact E2. }
  assert (HE : forall e, ranged (read_e p e) (fun n => (n < 2 ^ N.of_nat (prim_width p))%N)).
  { intros e r v r' Hw Hq E. unfold read_e, read_bytes_const in E. apply bind_inv in E. destruct E as (bs & r1 & E1 & E2).
    apply (ranged_bytes (prim_bytes p) (prim_bytes p) Msb0 ltac:(lia) r) in E1; [|assumption|assumption]. apply pair_inj in E2. destruct E2 as [E2 _]. apply ok_inj in E2. subst v.
    unfold prim_width. apply from_e_lt. lia. }
  destruct c; cbn [prim_read sized] in *; try (apply HY; assumption); try apply HB; try apply HE.
  all: destruct (n mod 8 =? 0) eqn:C; [apply HY; lia|apply HB].
Qed.

(** ** Exact consumption *)

Definition walks {A} (m : RM A) (n : nat) : Prop := forall r v r', r_wf r -> quiet (r_s r) -> m r = (Ok v, r') ->
  adv r r' n /\ unread_len (unread r) = n + unread_len (unread r') /\ (0 < n \/ ~ peeked r -> ~ peeked r').
Lemma walks_ret {A} (a : A) : walks (ret a) 0.
Proof. intros r v r' Hw Hq E. apply pair_inj in E. destruct E as [_ <-]. split; [now apply adv_refl|]. split; [reflexivity|]. intros [H|H]; [lia|exact H]. Qed.
Lemma walks_lift {A} (y : res A) : walks (lift y) 0.
Proof. intros r v r' Hw Hq E. apply pair_inj in E. destruct E as [_ <-]. split; [now apply adv_refl|]. split; [reflexivity|]. intros [H|H]; [lia|exact H]. Qed.
Lemma walks_fail {A} e k : walks (fail e : RM A) k.
Proof. intros r v r' Hw Hq E. discriminate. Qed.
Lemma walks_bind {A B} (m : RM A) (f : A -> RM B) k1 k2 : walks m k1 -> (forall a, walks (f a) k2) -> walks (bind m f) (k1 + k2).
Proof.
  intros H1 H2 r v r' Hw Hq E. apply bind_inv in E. destruct E as (a & r1 & E1 & E2).
  destruct (H1 _ _ _ Hw Hq E1) as (A1 & U1 & P1). destruct (H2 _ _ _ _ (adv_wf _ _ _ A1) (adv_quiet _ _ _ A1 Hq) E2) as (A2 & U2 & P2).
  split; [eapply adv_trans; eassumption|]. split; [lia|]. intros H. destruct k2; [|apply P2; left; lia]. apply P2. right. apply P1. destruct H; [left; lia|now right].
Qed.
Lemma walks_bind0 {A B} (m : RM A) (f : A -> RM B) k : walks m k -> (forall a, walks (f a) 0) -> walks (bind m f) k.
Proof. intros H1 H2. rewrite <- (Nat.add_0_r k). now apply walks_bind. Qed.
Lemma walks_if {A} (b : bool) (m1 m2 : RM A) k : (b = true -> walks m1 k) -> (b = false -> walks m2 k) -> walks (if b then m1 else m2) k.
Proof. destruct b; auto. Qed.
Lemma walks_bits n o : walks (read_bits_into n o) n.
Proof.
  intros r v r' Hw Hq E. assert (Hp : 0 < n \/ ~ peeked r -> ~ peeked r') by (intros [H|H]; [apply (bits_unpeeked n o r (Ok v)); [lia|exact E]|exact (read_bits_into_unpeeked _ _ _ _ _ E H)]). pose proof (read_bits_into_spec n o r Hw Hq) as H.
  destruct (take_bits o n (unread r)) as [[l u']|] eqn:T.
  - destruct H as (r1 & E1 & Ad & U1). rewrite E1 in E. apply pair_inj in E. destruct E as [_ <-]. split; [exact Ad|].
    rewrite U1. destruct (take_bits_some_len _ _ _ _ _ T) as [? ?]. split; [lia|exact Hp].
  - destruct H as (r1 & E1 & _). rewrite E1 in E. discriminate.
Qed.
Lemma walks_uint n : 1 <= n <= 64 -> walks (read_bits_uint_msb0 n) n.
Proof.
  intros Hn r v r' Hw Hq E. rewrite (fast_read_generic _ _ Hw Hq Hn) in E.
  exact (walks_bind0 _ _ n (walks_bits n Msb0) (fun _ => walks_ret _) r v r' Hw Hq E).
Qed.
Lemma walks_bytes n b o : 0 < n <= b -> walks (read_bytes n b o) (8 * n).
Proof.
  intros Hn r v r' Hw Hq E. assert (Hp : 0 < 8 * n \/ ~ peeked r -> ~ peeked r') by (intros _; apply (bytes_unpeeked n b o r v); [lia|exact E]). pose proof (read_bytes_spec n b o r Hw Hq ltac:(lia) ltac:(lia)) as H.
  destruct (take_bits o (8 * n) (unread r)) as [[l u']|] eqn:T.
  - destruct H as (bs & r1 & E1 & _ & Ad & U1). rewrite E1 in E. apply pair_inj in E. destruct E as [_ <-]. split; [exact Ad|].
    rewrite U1. destruct (take_bits_some_len _ _ _ _ _ T) as [? ?]. split; [lia|exact Hp].
  - destruct H as (e & r1 & E1 & _). rewrite E1 in E. discriminate.
Qed.
Theorem walks_prim p c : 0 < prim_bytes p -> sized c -> walks (prim_read p c) (prim_size p c).
Proof.
  intros Hp Hs.
  assert (HY : forall e n o, 0 < n -> walks (read_eyo p e n o) (8 * match p with PU8 => 1 | _ => n end)).
  { intros e n o Hn. destruct p; cbn [read_eyo]; unfold read_u8_bytes, read_bytes_sized, read_bytes_const.
    - apply walks_bind0; [apply walks_bytes; lia|intros; apply walks_ret].
    - apply walks_if; intros; [apply walks_fail|]. apply walks_bind0; [apply walks_bytes; lia|intros; apply walks_ret].
    - apply walks_if; intros; [apply walks_fail|]. apply walks_bind0; [apply walks_bytes; lia|intros; apply walks_ret]. }
  assert (HB : forall e n o, 1 <= n -> walks (read_ebo p e n o) n).
  { intros e n o Hn.
    assert (HU : forall wb, walks (read_u_bits wb e n o) n).
    { intros wb. unfold read_u_bits. apply walks_if; intros; [apply walks_fail|].
      assert (HS : walks (let* bits := read_bits_into n o in lift (u_of_bits wb e n o bits)) n) by (apply walks_bind0; [apply walks_bits|intros; apply walks_lift]).
      destruct e, o; try exact HS. apply walks_if; intros; [|exact HS]. apply walks_bind0; [apply walks_uint; lia|intros; apply walks_ret]. }
    destruct p as [|wb|wb]; cbn [read_ebo]; try apply HU. unfold read_i_bits. apply walks_if; intros; [apply walks_fail|].
    apply walks_bind0; [apply walks_bits|intros; apply walks_lift]. }
  assert (H0 : walks (read_bytes (prim_bytes p) (prim_bytes p) Msb0) (prim_width p)) by (apply walks_bytes; lia).
  assert (HW : prim_width p = 8 * match p with PU8 => 1 | _ => prim_bytes p end) by (destruct p; reflexivity).
  destruct c; cbn [prim_read sized prim_size] in *; unfold read_e, read_bytes_const.
  1,2: apply walks_bind0; [exact H0|intros; apply walks_ret].
  3,6: rewrite HW; now apply HY.
  all: try (apply HB; assumption).
  all: try (apply HY; assumption).
  all: destruct (n mod 8 =? 0) eqn:Hm; [|apply HB; assumption].
  all: replace (match p with PU8 => 8 | _ => n end) with (8 * match p with PU8 => 1 | _ => n / 8 end) by (destruct p; lia); apply HY; lia.
Qed.
Lemma prim_size_pos p c : 0 < prim_bytes p -> sized c -> 0 < prim_size p c.
Proof. intros Hp Hs. destruct c; cbn [prim_size sized prim_width] in *; unfold prim_width; try destruct (n mod 8 =? 0) eqn:?; destruct p; cbn in *; lia. Qed.
