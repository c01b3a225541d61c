(** No panics, and [bits_read] never moves back: facts about all inputs and faults. *)
From Coq Require Import Lia ZifyBool ZifyNat ZifyN.
From Verif Require Import Base Spec Stream Reader Session Writer WSession Prims BitsFacts NFacts MonadFacts ReaderFacts ReaderOps SessionFacts FastRead CodecSpec CodecFacts Containers ContainerSpec ContainerFacts.
Ltac Zify.zify_post_hook ::= Z.div_mod_to_equations.

(** ** [bits_read] *)

Definition mono {A} (m : RM A) : Prop := forall r x r', m r = (x, r') -> r_bits r <= r_bits r'.
Lemma mono_forward {A} (m : RM A) : mono m -> forward m.
Proof. intros H r v r' E. exact (H _ _ _ E). Qed.
Lemma mono_ret {A} (a : A) : mono (ret a).
Proof. intros r x r' E. apply pair_inj in E. destruct E as [_ <-]. lia. Qed.
Lemma mono_fail {A} e : mono (fail e : RM A).
Proof. intros r x r' E. apply pair_inj in E. destruct E as [_ <-]. lia. Qed.
Lemma mono_panic {A} : mono (panic : RM A).
Proof. intros r x r' E. apply pair_inj in E. destruct E as [_ <-]. lia. Qed.
Lemma mono_diverge {A} : mono (diverge : RM A).
Proof. intros r x r' E. apply pair_inj in E. destruct E as [_ <-]. lia. Qed.
Lemma mono_lift {A} (y : res A) : mono (lift y).
Proof. intros r x r' E. apply pair_inj in E. destruct E as [_ <-]. lia. Qed.
Lemma mono_bind {A B} (m : RM A) (f : A -> RM B) : mono m -> (forall a, mono (f a)) -> mono (bind m f).
Proof.
  intros H1 H2 r x r' E. unfold bind in E. destruct (m r) as [y r1] eqn:E1. apply H1 in E1.
  destruct y; try (apply pair_inj in E; destruct E as [_ <-]; exact E1). apply H2 in E. lia.
Qed.
Lemma mono_modify g : (forall r, r_bits r <= r_bits (g r)) -> mono (modify g).
Proof. intros H r x r' E. apply pair_inj in E. destruct E as [_ <-]. apply H. Qed.
Lemma mono_if {A} (b : bool) (m1 m2 : RM A) : mono m1 -> mono m2 -> mono (if b then m1 else m2).
Proof. now destruct b. Qed.
Lemma mono_assert b : mono (assert_ b).
Proof. unfold assert_. destruct b; [apply mono_ret|apply mono_panic]. Qed.
Lemma mono_fill d k : mono (fill_slots d k).
Proof. intros r x r' E. destruct (fill_slots_frame _ _ _ _ _ E) as (_ & -> & _). lia. Qed.
Lemma mono_rem d : mono (read_rem_byte d).
Proof. intros r x r' E. destruct (read_rem_byte_frame _ _ _ _ E) as (_ & -> & _). lia. Qed.
Local Hint Resolve mono_ret mono_fail mono_panic mono_diverge mono_lift mono_bind mono_if mono_assert mono_fill mono_rem : mono.
Lemma mono_set_left l : mono (modify (fun r => r_set_left r l)).
Proof. apply mono_modify. intros; cbn; lia. Qed.
Lemma mono_add n : mono (modify (fun r => r_add_bits r n)).
Proof. apply mono_modify. intros; cbn; lia. Qed.
Local Hint Resolve mono_set_left mono_add : mono.
Lemma mono_greater_lsb n p : mono (read_greater_lsb n p).
Proof. unfold read_greater_lsb. auto 8 with mono. Qed.
Lemma mono_greater_msb n p : mono (read_greater_msb n p).
Proof. unfold read_greater_msb. auto 8 with mono. Qed.
Local Hint Resolve mono_greater_lsb mono_greater_msb : mono.
Lemma mono_bits n o : mono (read_bits_into n o).
Proof.
  unfold read_bits_into. apply mono_if; [auto with mono|]. intros r x r' E.
  match type of E with ?m _ = _ => assert (M : mono m) end.
  { apply mono_bind; [|auto with mono]. destruct (n ?= _), o; auto with mono. }
  exact (M _ _ _ E).
Qed.
Lemma mono_uint_loop fuel amt acc have : mono (uint_loop fuel amt acc have).
Proof.
  revert acc have. induction fuel as [|f IH]; intros acc have; cbn [uint_loop]; apply mono_if; auto with mono.
  intros r x r' E. destruct (r_io 1 r) as [y r1] eqn:E1. destruct (r_io_frame _ _ _ _ E1) as (_ & B & _).
  destruct y; [apply IH in E; lia|]. apply pair_inj in E. destruct E as [_ <-]. lia.
Qed.
Local Hint Resolve mono_bits mono_uint_loop : mono.
Lemma mono_uint n : mono (read_bits_uint_msb0 n).
Proof.
  unfold read_bits_uint_msb0. apply mono_bind; [auto with mono|]. intros _ r x r' E.
  destruct (match r_left r with Some _ => _ | None => _ end) as [acc have].
  match type of E with ?m _ = _ => assert (M : mono m) end.
  { apply mono_bind; [auto with mono|]. intros [acc' have']. auto 8 with mono. }
  exact (M _ _ _ E).
Qed.
Lemma mono_leftover n k b : mono (read_bytes_leftover n k b).
Proof.
  unfold read_bytes_leftover. apply mono_if; [auto with mono|]. apply mono_bind; [auto with mono|]. intros _.
  apply mono_if; [auto with mono|]. apply mono_if; [auto with mono|]. apply mono_if; [auto with mono|]. apply mono_if; [auto with mono|].
  intros r x r' E. destruct (r_io _ r) as [y r1] eqn:E1. destruct (r_io_frame _ _ _ _ E1) as (_ & B & _).
  destruct y; apply pair_inj in E; destruct E as [_ <-]; cbn; lia.
Qed.
Lemma mono_bytes n k o : mono (read_bytes n k o).
Proof.
  intros r x r' E. unfold read_bytes in E. destruct (r_left r) as [[b|l]|].
  - exact (mono_leftover _ _ _ _ _ _ E).
  - match type of E with (if ?c then _ else ?m r) = _ => assert (M : mono (if c then panic else m)) by (unfold read_bytes_bits; auto with mono);
      apply (M r x r'); destruct c; exact E end.
  - destruct (k <? n); [apply pair_inj in E; destruct E as [_ <-]; lia|].
    destruct (r_io _ r) as [y r1] eqn:E1. destruct (r_io_frame _ _ _ _ E1) as (_ & B & _).
    destruct y; apply pair_inj in E; destruct E as [_ <-]; cbn; lia.
Qed.
Local Hint Resolve mono_uint mono_bytes : mono.
Theorem mono_prim p c : mono (prim_read p c).
Proof.
  assert (H1 : forall e n o, mono (read_eyo p e n o)).
  { intros e n o. destruct p; cbn [read_eyo]; unfold read_u8_bytes, read_bytes_sized, read_bytes_const; auto with mono. }
  assert (H2 : forall e n o, mono (read_ebo p e n o)).
  { intros e n o. destruct p; cbn [read_ebo]; unfold read_u_bits, read_i_bits; destruct e, o; auto with mono. }
  destruct c; cbn [prim_read]; unfold read_e, read_bytes_const; auto with mono.
Qed.
Theorem prim_forward p c : forward (prim_read p c).
Proof. apply mono_forward, mono_prim. Qed.

(** ** Panics *)

Lemma safe_ret {A} (a : A) : safe (ret a).
Proof. intros r x r' Hv E. apply pair_inj in E. destruct E as [<- <-]. repeat split; discriminate || assumption. Qed.
Lemma safe_fail {A} e : safe (fail e : RM A).
Proof. intros r x r' Hv E. apply pair_inj in E. destruct E as [<- <-]. repeat split; discriminate || assumption. Qed.
Lemma safe_bind_at {A B} (m : RM A) (f : A -> RM B) : safe m -> (forall r a r', m r = (Ok a, r') -> valid r -> safe (f a)) -> safe (bind m f).
Proof.
  intros H1 H2 r x r' Hv E. unfold bind in E. destruct (m r) as [y r1] eqn:E1. pose proof (H1 _ _ _ Hv E1) as (P & D & V).
  destruct y; try (apply pair_inj in E; destruct E as [<- <-]; repeat split; congruence || assumption).
  exact (H2 _ _ _ E1 Hv _ _ _ V E).
Qed.
Lemma safe_bind {A B} (m : RM A) (f : A -> RM B) : safe m -> (forall a, safe (f a)) -> safe (bind m f).
Proof. intros H1 H2. apply safe_bind_at; auto. Qed.
Lemma safe_if {A} (b : bool) (m1 m2 : RM A) : (b = true -> safe m1) -> (b = false -> safe m2) -> safe (if b then m1 else m2).
Proof. destruct b; auto. Qed.
Lemma safe_lift {A} (y : res A) : y <> Panic -> y <> Diverge -> safe (lift y).
Proof. intros H1 H2 r x r' Hv E. apply pair_inj in E. destruct E as [<- <-]. auto. Qed.
Lemma safe_bits n o : safe (read_bits_into n o).
Proof. intros r x r' Hv E. destruct (read_bits_into_frame n o r x r' Hv E) as (W & _ & _ & P & D & _). auto. Qed.
Lemma safe_uint n : 1 <= n <= 64 -> safe (read_bits_uint_msb0 n).
Proof. intros Hn r x r' Hv E. destruct (read_uint_frame n r x r' Hv E) as (W & _ & _ & D & P). auto. Qed.
Lemma leftover_len n b o r : 0 < n <= b -> read_bytes n b o r = read_bytes n n o r.
Proof.
  intros H. unfold read_bytes. replace (b <? n) with false by lia. replace (n <? n) with false by lia. destruct (r_left r) as [[c|l]|]; try reflexivity.
  unfold read_bytes_leftover. replace (b =? 0) with false by lia. replace (n =? 0) with false by lia.
  replace (b <? n - 1) with false by lia. replace (n <? n - 1) with false by lia.
  replace (b <? n) with false by lia. replace (n <? n) with false by lia. reflexivity.
Qed.
Lemma safe_bytes n b o : 0 < n <= b -> safe (read_bytes n b o).
Proof. intros Hn r x r' Hv E. rewrite leftover_len in E by assumption. destruct (read_bytes_frame n o r x r' Hv E) as (W & _ & _ & D & P). repeat split; auto. apply P. lia. Qed.

Lemma bbv_inserts_ok cap k i l : i < length l -> length l + k <= cap -> exists l', bbv_inserts cap k i l = Ok l' /\ length l' = length l + k.
Proof.
  revert l. induction k as [|k IH]; intros l Hi Hc; cbn [bbv_inserts]; [exists l; split; [reflexivity|lia]|].
  replace (length l <? cap) with true by lia. replace (i <? length l) with true by lia. cbn [andb].
  assert (HL : length (firstn i l ++ false :: skipn i l) = S (length l)) by (rewrite app_length, firstn_length; cbn [length]; rewrite skipn_length; lia).
  destruct (IH (firstn i l ++ false :: skipn i l)) as (l' & E & L); [lia|lia|]. exists l'. split; [exact E|lia].
Qed.
Lemma u_of_bits_total wb e n o bits : length bits = n -> 1 <= n <= 8 * wb -> exists v, u_of_bits wb e n o bits = Ok v.
Proof.
  intros Hl Hn. unfold u_of_bits. rewrite Hl. unfold ceil8. set (pad := 8 * ((n + 7) / 8) - n).
  assert (Hp : pad < 8 /\ n + pad <= 8 * wb /\ 8 - pad <= n) by (unfold pad; lia). clearbody pad. destruct Hp as (Hp1 & Hp2 & Hp3).
  replace (8 * wb <? n + pad) with false by lia. destruct ((pad =? 0) && (n =? 8 * wb) && negb (order_eqb o Lsb0)); [eexists; reflexivity|].
  assert (HL : exists v, (if negb (n =? n) then Panic else
      res_bind (bbv_inserts (8 * wb) pad 0 bits) (fun b1 =>
      let chunks := map byte_of_bits (rchunks8 b1) in
      let skip := match e with Little => 0 | Big => wb - (n + 7) / 8 end in
      let taken := firstn (wb - skip) chunks in
      let buf := repeat x00 skip ++ taken ++ repeat x00 (wb - skip - length taken) in
      Ok (from_e e buf))) = Ok v).
  { rewrite Nat.eqb_refl. cbn [negb]. destruct (bbv_inserts_ok (8 * wb) pad 0 bits) as (l' & E & _); [lia|lia|]. rewrite E. eexists. reflexivity. }
  destruct e, o; try exact HL.
  - replace (n <? 8 - pad) with false by lia. destruct (bbv_inserts_ok (8 * wb) pad (n - (8 - pad)) bits) as (l' & E & L'); [lia|lia|].
    rewrite E. cbn [res_bind]. unfold bbv_pushes. replace (length l' + (8 * wb - length l') <=? 8 * wb) with true by lia. eexists. reflexivity.
  - replace (0 <? n) with true by lia. eexists. reflexivity.
Qed.

(** The sizes that the attributes allow: at least one bit or byte. *)
Theorem safe_prim p c : 0 < prim_bytes p -> sized c -> safe (prim_read p c).
Proof.
  intros Hp Hs.
  assert (HY : forall e n o, 0 < n -> safe (read_eyo p e n o)).
  { intros e n o Hn. destruct p; cbn [read_eyo]; unfold read_u8_bytes, read_bytes_sized, read_bytes_const.
    - apply safe_bind; [apply safe_bytes; lia|intros; apply safe_ret].
    - apply safe_if; intros; [apply safe_fail|]. apply safe_bind; [apply safe_bytes; lia|intros; apply safe_ret].
    - apply safe_if; intros; [apply safe_fail|]. apply safe_bind; [apply safe_bytes; lia|intros; apply safe_ret]. }
  assert (HU : forall wb e n o, 1 <= n -> safe (read_u_bits wb e n o)).
  { intros wb e n o Hn. unfold read_u_bits. apply safe_if; intros Hc; [apply safe_fail|].
    assert (HS : safe (let* bits := read_bits_into n o in lift (u_of_bits wb e n o bits))).
    { apply safe_bind_at; [apply safe_bits|]. intros r l r' E V. destruct (read_bits_into_frame n o r _ r' V E) as (_ & _ & _ & _ & _ & HL).
      destruct (u_of_bits_total wb e n o l (HL l eq_refl)) as (v & ->); [lia|]. apply safe_ret. }
    destruct e, o; try exact HS. apply safe_if; intros Hc2; [|exact HS]. apply safe_bind; [apply safe_uint; lia|intros; apply safe_ret]. }
  assert (HB : forall e n o, 1 <= n -> safe (read_ebo p e n o)).
  { intros e n o Hn. destruct p as [|wb|wb]; cbn [read_ebo]; try (apply HU; exact Hn). unfold read_i_bits.
    apply safe_if; intros Hc; [apply safe_fail|]. apply safe_bind_at; [apply safe_bits|]. intros r l r' E V.
    destruct (read_bits_into_frame n o r _ r' V E) as (_ & _ & _ & _ & _ & HL).
    destruct (u_of_bits_total wb e n o l (HL l eq_refl)) as (v & ->); [lia|]. cbn [res_bind]. unfold sign_extend.
    replace (8 * wb <=? 8 * wb - n) with false by lia. apply safe_ret. }
  destruct c; cbn [prim_read sized] in *; try (apply HY; assumption); try (apply HB; assumption); unfold read_e, read_bytes_const.
  1,2: apply safe_bind; [apply safe_bytes; lia|intros; apply safe_ret].
  all: apply safe_if; intros Hm; [apply HY; lia|apply HB; assumption].
Qed.

(** ** Consumption *)

Definition takes {A} (m : RM A) (k : nat) : Prop :=
  forall r v r', readable AnySource r -> m r = (Ok v, r') -> readable AnySource r' /\ unread_len (seen r) = k + unread_len (seen r').
Lemma takes_consuming {A} (m : RM A) k : takes m (S k) -> consuming m.
Proof. intros H r v r' Hr E. destruct (H _ _ _ Hr E) as [H1 H2]. split; [exact H1|lia]. Qed.
Lemma takes_ret {A} (a : A) : takes (ret a) 0.
Proof. intros r v r' Hr E. apply pair_inj in E. destruct E as [_ <-]. split; [exact Hr|reflexivity]. Qed.
Lemma takes_fail {A} e k : takes (fail e : RM A) k.
Proof. intros r v r' Hr E. discriminate. Qed.
Lemma takes_bind {A B} (m : RM A) (f : A -> RM B) k1 k2 : takes m k1 -> (forall a, takes (f a) k2) -> takes (bind m f) (k1 + k2).
Proof.
  intros H1 H2 r v r' Hr E. apply bind_inv in E. destruct E as (a & r1 & E1 & E2).
  destruct (H1 _ _ _ Hr E1) as [R1 U1]. destruct (H2 _ _ _ _ R1 E2) as [R2 U2]. split; [exact R2|lia].
Qed.
Lemma takes_bind0 {A B} (m : RM A) (f : A -> RM B) k : takes m k -> (forall a, takes (f a) 0) -> takes (bind m f) k.
Proof. intros H1 H2. rewrite <- (Nat.add_0_r k). now apply takes_bind. Qed.
Lemma takes_if {A} (b : bool) (m1 m2 : RM A) k : (b = true -> takes m1 k) -> (b = false -> takes m2 k) -> takes (if b then m1 else m2) k.
Proof. destruct b; auto. Qed.
Lemma takes_lift {A} (y : res A) : takes (lift y) 0.
Proof. intros r v r' Hr E. apply pair_inj in E. destruct E as [_ <-]. split; [exact Hr|reflexivity]. Qed.
Lemma takes_bits n o : takes (read_bits_into n o) n.
Proof.
  intros r v r' Hr E. destruct (readable_base _ _ Hr) as [Hw Hq]. pose proof (read_bits_into_spec n o r Hw Hq) as H.
  destruct (take_bits o n (unread r)) as [[l u']|] eqn:T.
  - destruct H as (r1 & E1 & Ad & U1). rewrite E1 in E. apply pair_inj in E. destruct E as [_ <-]. split.
    + split; [exact (adv_quiet _ _ _ Ad Hq)|split; [exact (adv_wf _ _ _ Ad)|exact I]].
    + rewrite !seen_unread_len, U1. destruct (take_bits_some_len _ _ _ _ _ T) as [? ?]. lia.
  - destruct H as (r1 & E1 & _). rewrite E1 in E. discriminate.
Qed.
Lemma takes_uint n : 1 <= n <= 64 -> takes (read_bits_uint_msb0 n) n.
Proof.
  intros Hn r v r' Hr E. destruct (readable_base _ _ Hr) as [Hw Hq]. rewrite (fast_read_generic _ _ Hw Hq Hn) in E.
  exact (takes_bind0 _ _ n (takes_bits n Msb0) (fun _ => takes_ret _) r v r' Hr E).
Qed.
Lemma takes_bytes n b o : 0 < n <= b -> takes (read_bytes n b o) (8 * n).
Proof.
  intros Hn r v r' Hr E. destruct (readable_base _ _ Hr) as [Hw Hq]. pose proof (read_bytes_spec n b o r Hw Hq ltac:(lia) ltac:(lia)) as H.
  destruct (take_bits o (8 * n) (unread r)) as [[l u']|] eqn:T.
  - destruct H as (bs & r1 & E1 & _ & Ad & U1). rewrite E1 in E. apply pair_inj in E. destruct E as [_ <-]. split.
    + split; [exact (adv_quiet _ _ _ Ad Hq)|split; [exact (adv_wf _ _ _ Ad)|exact I]].
    + rewrite !seen_unread_len, U1. destruct (take_bits_some_len _ _ _ _ _ T) as [? ?]. lia.
  - destruct H as (e & r1 & E1 & _). rewrite E1 in E. discriminate.
Qed.

Theorem takes_prim p c : 0 < prim_bytes p -> sized c -> takes (prim_read p c) (prim_size p c).
Proof.
  intros Hp Hs.
  assert (HY : forall e n o, 0 < n -> takes (read_eyo p e n o) (8 * match p with PU8 => 1 | _ => n end)).
  { intros e n o Hn. destruct p; cbn [read_eyo]; unfold read_u8_bytes, read_bytes_sized, read_bytes_const.
    - apply takes_bind0; [apply takes_bytes; lia|intros; apply takes_ret].
    - apply takes_if; intros; [apply takes_fail|]. apply takes_bind0; [apply takes_bytes; lia|intros; apply takes_ret].
    - apply takes_if; intros; [apply takes_fail|]. apply takes_bind0; [apply takes_bytes; lia|intros; apply takes_ret]. }
  assert (HB : forall e n o, 1 <= n -> takes (read_ebo p e n o) n).
  { intros e n o Hn.
    assert (HU : forall wb, takes (read_u_bits wb e n o) n).
    { intros wb. unfold read_u_bits. apply takes_if; intros; [apply takes_fail|].
      assert (HS : takes (let* bits := read_bits_into n o in lift (u_of_bits wb e n o bits)) n) by (apply takes_bind0; [apply takes_bits|intros; apply takes_lift]).
      destruct e, o; try exact HS. apply takes_if; intros; [|exact HS]. apply takes_bind0; [apply takes_uint; lia|intros; apply takes_ret]. }
    destruct p as [|wb|wb]; cbn [read_ebo]; try apply HU. unfold read_i_bits. apply takes_if; intros; [apply takes_fail|].
    apply takes_bind0; [apply takes_bits|intros; apply takes_lift]. }
  assert (H0 : takes (read_bytes (prim_bytes p) (prim_bytes p) Msb0) (prim_width p)) by (apply takes_bytes; lia).
  assert (HW : prim_width p = 8 * match p with PU8 => 1 | _ => prim_bytes p end) by (destruct p; reflexivity).
  destruct c; cbn [prim_read sized prim_size] in *; unfold read_e, read_bytes_const.
  1,2: apply takes_bind0; [exact H0|intros; apply takes_ret].
  3,6: rewrite HW; now apply HY.
  all: try (apply HB; assumption).
  all: try (apply HY; assumption).
  all: destruct (n mod 8 =? 0) eqn:Hm; [|apply HB; assumption].
  all: replace (match p with PU8 => 8 | _ => n end) with (8 * match p with PU8 => 1 | _ => n / 8 end) by (destruct p; lia); apply HY; lia.
Qed.
Theorem prim_consuming p c : 0 < prim_bytes p -> sized c -> consuming (prim_read p c).
Proof.
  intros Hp Hs. pose proof (takes_prim p c Hp Hs) as H.
  assert (0 < prim_size p c) by (destruct c; cbn [prim_size sized prim_width] in *; unfold prim_width; try destruct (n mod 8 =? 0) eqn:?; destruct p; cbn in *; lia).
  destruct (prim_size p c); [lia|]. exact (takes_consuming _ _ H).
Qed.
