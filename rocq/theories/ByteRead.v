(** Reading in the build without bits. *)
From Coq Require Import Lia ZifyBool ZifyNat ZifyN.
From Verif Require Import Base MonadFacts Spec Stream Reader Session Writer Prims Containers SourceSim Derive DeriveSpec DeriveFacts DeriveSound DeriveClosed ByteBuild ByteSpec ByteWrite.
Ltac Zify.zify_post_hook ::= Z.div_mod_to_equations.

Section Read.
Variable input : list byte.

(** Sources that differ in the number of calls made. *)
Definition smooth (s : stream) : Prop := s_data s = input /\ s_noseek s = None /\ forall n, s_fault s n = None.
Definition ssame (s1 s2 : stream) : Prop := smooth s1 /\ smooth s2 /\ s_pos s1 = s_pos s2 /\ s_eat s1 = s_eat s2.
Notation rsame := (rrel ssame 0).
Notation sim := (rsim ssame 0).
(** Between fields: nothing is buffered but perhaps a peeked byte. *)
Definition between (peek : bool) (r : reader) : Prop :=
  smooth (r_s r) /\
  match r_left r with
  | None => r_bits r = 8 * s_pos (r_s r)
  | Some (LByte _) => peek = true /\ r_bits r + 8 = 8 * s_pos (r_s r)
  | Some (Reader.LBits _) => False
  end.
Definition past (r : reader) : Prop := 8 * length input < r_bits r.
Definition keeps (peek : bool) {A} (m : RM A) : Prop :=
  forall r a r', between peek r -> m r = (Ok a, r') -> between peek r' /\ r_bits r <= r_bits r'.
Definition ragree (peek : bool) {A} (m1 m2 : RM A) : Prop :=
  keeps peek m1 /\
  forall r1 r2, between peek r1 -> rsame r1 r2 ->
  match m2 r2 with
  | (Ok a, r2') => exists r1', m1 r1 = (Ok a, r1') /\ rsame r1' r2'
  | _ => forall a r1', m1 r1 = (Ok a, r1') -> past r1'
  end.

Lemma ssame_read : forall n s1 s2, ssame s1 s2 ->
  fst (s_read_exact n s1) = fst (s_read_exact n s2) /\ ssame (snd (s_read_exact n s1)) (snd (s_read_exact n s2)).
Proof.
  intros n s1 s2 ((D1 & N1 & F1) & (D2 & N2 & F2) & P & E). unfold s_read_exact, s_avail. rewrite F1, F2, D1, D2, N1, N2, <- P, <- E. cbn [option_map].
  destruct (_ <=? _); cbn [fst snd]; (split; [reflexivity|]); unfold ssame, smooth; [cbn; rewrite P; repeat split; auto|].
  destruct (s_eat s1) eqn:X; cbn; repeat split; auto; congruence.
Qed.
Lemma rsame_refl peek r : between peek r -> rsame r r.
Proof. intros [H _]. split; [|split; [reflexivity|lia]]. repeat split; apply H. Qed.
Lemma ra_refl peek {A} (m : RM A) : sim m -> keeps peek m -> ragree peek m m.
Proof.
  intros S K. split; [exact K|]. intros r1 r2 B R. destruct (S r1 r2 R) as [X Y]. destruct (m r1) as [x1 v1], (m r2) as [x2 v2]. cbn [fst snd] in *. subst x2.
  destruct x1; try (intros ? ? E; discriminate E). eauto.
Qed.
Lemma ra_lift peek {A} (x : res A) : ragree peek (lift x) (lift x).
Proof. apply ra_refl; [apply rsim_lift|]. intros r a r' B E. apply pair_inj in E. destruct E as [_ <-]. auto. Qed.
Lemma ra_ret peek {A} (a : A) : ragree peek (ret a) (ret a).
Proof. exact (ra_lift peek (Ok a)). Qed.
Lemma ra_fail peek {A} e : ragree peek (fail (A:=A) e) (fail e).
Proof. exact (ra_lift peek (Err e)). Qed.
Lemma ra_panic peek {A} : ragree peek (panic (A:=A)) panic.
Proof. exact (ra_lift peek Panic). Qed.
Lemma ra_diverge peek {A} : ragree peek (diverge (A:=A)) diverge.
Proof. exact (ra_lift peek Diverge). Qed.
Lemma keeps_bind peek {A B} (m : RM A) (f : A -> RM B) : keeps peek m -> (forall a, keeps peek (f a)) -> keeps peek (bind m f).
Proof.
  intros M F r b r' H E. apply bind_inv in E. destruct E as (a & r1 & E1 & E2). destruct (M _ _ _ H E1) as [B1 L1]. destruct (F a _ _ _ B1 E2). split; [assumption|lia].
Qed.
Lemma ra_bind peek {A B} (m1 m2 : RM A) (f1 f2 : A -> RM B) : ragree peek m1 m2 -> (forall a, ragree peek (f1 a) (f2 a)) -> ragree peek (bind m1 f1) (bind m2 f2).
Proof.
  intros [K M] F. split; [apply keeps_bind; [exact K|intros a; apply F]|]. intros r1 r2 Hb R. specialize (M r1 r2 Hb R). unfold bind at 1. destruct (m2 r2) as [x2 v2].
  assert (FP : (forall a r1', m1 r1 = (Ok a, r1') -> past r1') -> forall a r1', bind m1 f1 r1 = (Ok a, r1') -> past r1').
  { intros HP b r' E. apply bind_inv in E. destruct E as (a & v1 & E1 & E2). specialize (HP _ _ E1). destruct (K _ _ _ Hb E1) as [B1 _].
    destruct (proj1 (F a) _ _ _ B1 E2) as [_ L]. unfold past in *. lia. }
  destruct x2 as [a|e| |]; try (now apply FP).
  destruct M as (v1 & E1 & R1). destruct (K _ _ _ Hb E1) as [B1 _]. pose proof (proj2 (F a) v1 v2 B1 R1) as HF. unfold bind. rewrite E1. exact HF.
Qed.
Lemma ra_off peek {A} (f1 f2 : nat -> RM A) : (forall n, ragree peek (f1 n) (f2 n)) -> ragree peek (fun r => f1 (r_bits r) r) (fun r => f2 (r_bits r) r).
Proof.
  intros H. split; [intros r; apply (proj1 (H (r_bits r)))|]. intros r1 r2 B R. pose proof R as (_ & _ & E). rewrite Nat.mul_0_r, Nat.add_0_r in E.
  replace (r_bits r1) with (r_bits r2) by lia. exact (proj2 (H (r_bits r2)) r1 r2 B R).
Qed.

(** Bytes. *)
Lemma keeps_bytes peek amt len o : keeps peek (read_bytes amt len o).
Proof.
  intros r a r' [(D & N & F) B] E. unfold read_bytes in E. destruct (r_left r) as [[b|l]|] eqn:L; [| contradiction|].
  - unfold read_bytes_leftover in E. destruct (len =? 0); [discriminate E|]. unfold bind, modify in E. cbn [r_set_left] in E.
    destruct (amt =? 0) eqn:Ea; [discriminate E|]. destruct (amt - 1 =? 0) eqn:Er.
    + injection E as _ <-. split; [|cbn; lia]. unfold between. cbn. split; [now repeat split|]. lia.
    + destruct (len <? amt - 1); [discriminate E|]. destruct (len <? amt); [discriminate E|]. unfold r_io, s_read_exact in E. cbn [r_s r_set_left] in E. rewrite F, N in E.
      destruct (amt - 1 <=? _) eqn:Hl; [|destruct (s_eat (r_s r)); discriminate E]. injection E as _ <-. split; [|cbn; lia].
      unfold between, smooth. cbn. split; [repeat split; auto|]. lia.
  - destruct (len <? amt); [discriminate E|]. unfold r_io, s_read_exact in E. rewrite F, N in E. destruct (amt <=? _); [|destruct (s_eat (r_s r)); discriminate E].
    injection E as _ <-. split; [|cbn; lia]. unfold between, smooth. cbn. rewrite L. split; [repeat split; auto|]. lia.
Qed.
Lemma ra_bytes peek amt len o : ragree peek (read_bytes amt len o) (read_bytes amt len o).
Proof. apply ra_refl; [apply rsim_bytes, ssame_read|apply keeps_bytes]. Qed.
Lemma ra_prim peek p c : byte_pctx c = true -> ragree peek (prim_read p c) (prim_read p c).
Proof.
  intros H. assert (HY : forall e n o, ragree peek (read_eyo p e n o) (read_eyo p e n o)).
  { intros e n o. unfold read_eyo, read_u8_bytes, read_bytes_sized, read_bytes_const. destruct p; [|destruct (_ <? n); [apply ra_fail|]..]; (apply ra_bind; [apply ra_bytes|intros; apply ra_ret]). }
  destruct c; try discriminate H; cbn [prim_read]; auto; unfold read_e, read_bytes_const; (apply ra_bind; [apply ra_bytes|intros; apply ra_ret]).
Qed.
Lemma ra_magic peek m : ragree peek (read_magic m) (read_magic m).
Proof. induction m as [|b m IH]; cbn [read_magic]; [apply ra_ret|]. apply ra_bind; [now apply ra_prim|]. intros x. destruct (_ =? _)%N; [exact IH|apply ra_fail]. Qed.

(** Collections. *)
Lemma ra_array peek {A} n (e1 e2 : RM A) : ragree peek e1 e2 -> ragree peek (read_array n e1) (read_array n e2).
Proof. intros H. induction n as [|n IH]; cbn [read_array]; [apply ra_ret|]. apply ra_bind; [exact H|intros v]. apply ra_bind; [exact IH|intros; apply ra_ret]. Qed.
Lemma ra_loop peek {A} (e1 e2 : RM A) stop start : ragree peek e1 e2 -> forall fuel acc, ragree peek (vec_loop fuel e1 stop start acc) (vec_loop fuel e2 stop start acc).
Proof.
  intros H. induction fuel as [|f IH]; intros acc; cbn [vec_loop]; [apply ra_diverge|]. apply ra_bind; [exact H|intros v].
  apply (ra_off peek (fun n r => if n <? start then (Panic, r) else if stop (n - start) (acc ++ [v]) then (Ok (acc ++ [v]), r) else vec_loop f e1 stop start (acc ++ [v]) r)
    (fun n r => if n <? start then (Panic, r) else if stop (n - start) (acc ++ [v]) then (Ok (acc ++ [v]), r) else vec_loop f e2 stop start (acc ++ [v]) r)).
  intros n. destruct (n <? start); [apply ra_panic|]. destruct (stop _ _); [apply (ra_ret peek (acc ++ [v]))|]. apply IH.
Qed.
Lemma ra_pred peek {A} fuel size cap (e1 e2 : RM A) stop : ragree peek e1 e2 -> ragree peek (vec_with_predicate fuel size cap e1 stop) (vec_with_predicate fuel size cap e2 stop).
Proof.
  intros H. unfold vec_with_predicate. destruct (size =? 0)%N; [apply ra_ret|]. match goal with |- ragree _ (if ?b then _ else _) _ => destruct b end; [apply ra_panic|].
  apply (ra_off peek (fun n => vec_loop fuel e1 stop n []) (fun n => vec_loop fuel e2 stop n [])). intros n. now apply ra_loop.
Qed.
Lemma between_weaken peek r : between false r -> between peek r.
Proof. intros [S B]. split; [exact S|]. destruct (r_left r) as [[b|l]|]; auto. destruct B as [B _]. discriminate B. Qed.
Lemma between_true peek r : between peek r -> between true r.
Proof. intros [S B]. split; [exact S|]. destruct (r_left r) as [[b|l]|]; auto. tauto. Qed.
Lemma end_between r b r' : between true r -> r_end r = (b, r') -> (b = true -> between false r') /\ between true r' /\ r_bits r' = r_bits r.
Proof.
  intros [(D & N & F) B] E. unfold r_end in E. destruct (r_left r) as [l|] eqn:L.
  - injection E as <- <-. split; [discriminate|]. split; [|reflexivity]. split; [now repeat split|]. now rewrite L.
  - unfold r_io, s_read_exact in E. rewrite F, N in E. destruct (1 <=? _) eqn:H1.
    + injection E as <- <-. split; [discriminate|]. split; [|reflexivity]. unfold between, smooth. cbn. split; [now repeat split|]. lia.
    + cbn [is_eof] in E. assert (HB : between false r').
      { assert (HP : Nat.max (s_pos (r_s r)) (length (s_data (r_s r))) = s_pos (r_s r)) by (unfold s_avail in H1; rewrite skipn_length in H1; lia).
        injection E as _ <-. unfold between, smooth. destruct (s_eat (r_s r)); cbn; rewrite L, ?HP; repeat split; auto. }
      split; [intros _; exact HB|]. split; [now apply between_weaken|]. injection E as _ <-. reflexivity.
Qed.
Lemma loop_end {A} (e1 e2 : RM A) : ragree true e1 e2 -> forall fuel acc,
  (forall r a r', between true r -> end_loop fuel e1 acc r = (Ok a, r') -> between false r' /\ r_bits r <= r_bits r') /\
  (forall r1 r2, between true r1 -> rsame r1 r2 ->
   match end_loop fuel e2 acc r2 with
   | (Ok a, r2') => exists r1', end_loop fuel e1 acc r1 = (Ok a, r1') /\ rsame r1' r2'
   | _ => forall a r1', end_loop fuel e1 acc r1 = (Ok a, r1') -> past r1'
   end).
Proof.
  intros [HK HE]. induction fuel as [|f IH]; intros acc; [split; [intros r a r' _ E; discriminate E|intros r1 r2 _ _ a r' E; discriminate E]|].
  assert (KP : forall r a r', between true r -> end_loop (S f) e1 acc r = (Ok a, r') -> between false r' /\ r_bits r <= r_bits r').
  { intros r a r' B E. cbn [end_loop] in E. destruct (r_end r) as [b rb] eqn:Eb. destruct (end_between _ _ _ B Eb) as (B1 & B2 & B3). destruct b.
    - injection E as _ <-. split; [now apply B1|lia].
    - apply bind_inv in E. destruct E as (v & rv & Ev & El). destruct (HK _ _ _ B2 Ev) as [B4 L4]. destruct (proj1 (IH (acc ++ [v])) _ _ _ B4 El). split; [assumption|lia]. }
  split; [exact KP|]. intros r1 r2 B R. cbn [end_loop].
  destruct (rsim_end ssame 0 ssame_read r1 r2 R) as [X Y]. destruct (r_end r1) as [b1 v1] eqn:Eb, (r_end r2) as [b2 v2]. cbn [fst snd] in X, Y. injection X as <-.
  destruct (end_between _ _ _ B Eb) as (_ & B2 & _). destruct b1; [exists v1; auto|].
  specialize (HE v1 v2 B2 Y). unfold bind. destruct (e2 v2) as [x2 u2]. destruct x2 as [v|e| |].
  - destruct HE as (u1 & E1 & R1). rewrite E1. apply (proj2 (IH (acc ++ [v]))); [|exact R1]. now destruct (HK _ _ _ B2 E1).
  - intros a r' E. destruct (e1 v1) as [y w] eqn:Ew. destruct y; try discriminate E. specialize (HE _ _ eq_refl). destruct (HK _ _ _ B2 Ew) as [B4 _].
    destruct (proj1 (IH _) _ _ _ B4 E). unfold past in *. lia.
  - intros a r' E. destruct (e1 v1) as [y w] eqn:Ew. destruct y; try discriminate E. specialize (HE _ _ eq_refl). destruct (HK _ _ _ B2 Ew) as [B4 _].
    destruct (proj1 (IH _) _ _ _ B4 E). unfold past in *. lia.
  - intros a r' E. destruct (e1 v1) as [y w] eqn:Ew. destruct y; try discriminate E. specialize (HE _ _ eq_refl). destruct (HK _ _ _ B2 Ew) as [B4 _].
    destruct (proj1 (IH _) _ _ _ B4 E). unfold past in *. lia.
Qed.
Lemma ra_vec peek {A} fuel size (e1 e2 : RM A) lim : (lim <> LEnd -> ragree peek e1 e2) -> (lim = LEnd -> ragree true e1 e2) ->
  ragree peek (vec_read fuel size e1 lim) (vec_read fuel size e2 lim).
Proof.
  intros H HE. destruct lim as [n|p|n|n|]; cbn [vec_read].
  - destruct (n =? 0)%N; [apply ra_ret|]. apply (ra_pred peek (N.to_nat n) size (Some n)). now apply H.
  - apply ra_pred. now apply H.
  - destruct (_ <? _)%N; [apply ra_panic|]. destruct (_ =? 0)%N; [apply ra_ret|]. apply ra_pred. now apply H.
  - destruct (n =? 0)%N; [apply ra_ret|]. apply ra_pred. now apply H.
  - unfold vec_to_end. destruct (size =? 0)%N; [apply ra_ret|]. destruct (loop_end _ _ (HE eq_refl) fuel []) as [K M]. split.
    + intros r a r' B E. destruct (K _ _ _ (between_true _ _ B) E). split; [now apply between_weaken|assumption].
    + intros r1 r2 B R. apply M; [exact (between_true _ _ B)|exact R].
Qed.
Lemma inner_at w r : smooth (r_s r) -> w = SeekCurrent 0 \/ w = SeekEnd 0 \/ (exists n, w = SeekStart n) ->
  exists p s, inner_seek w r = (Ok p, r_set_s r s) /\ smooth s /\ s_pos s = p /\ s_eat s = s_eat (r_s r) /\
    p = match w with SeekStart n => n | SeekCurrent _ => s_pos (r_s r) | SeekEnd _ => length input end.
Proof.
  intros (D & N & F) H. unfold inner_seek, lift_io, s_seek. rewrite F, N, D.
  assert (HT : seek_target (s_pos (r_s r)) (length input) w = Some (match w with SeekStart n => n | SeekCurrent _ => s_pos (r_s r) | SeekEnd _ => length input end)).
  { destruct H as [->|[->|[n ->]]]; cbn [seek_target]; rewrite ?Z.add_0_r; [| |reflexivity]; (match goal with |- context [(Z.of_nat ?x <? 0)%Z] => destruct (Z.ltb_spec (Z.of_nat x) 0) end; [lia|]); now rewrite Nat2Z.id. }
  rewrite HT. eexists. eexists. split; [reflexivity|]. cbn. repeat split; auto.
Qed.
Lemma exact_as n r : smooth (r_s r) -> exists s, smooth s /\ s_pos s = s_pos (r_s r) /\ s_eat s = s_eat (r_s r) /\
  read_exact_vec n r = (if length input <? s_pos (r_s r) then panic
                        else if (N.of_nat (length input - s_pos (r_s r)) <? n)%N then
                          if (usize_max <? n * 8)%N then panic else fail (Incomplete (N.to_nat (n * 8)))
                        else read_bytes (N.to_nat n) (N.to_nat n) Lsb0) (r_set_s r s).
Proof.
  intros S. unfold read_exact_vec.
  destruct (inner_at (SeekCurrent 0) r S) as (p1 & s1 & E1 & S1 & P1 & T1 & Q1); [auto|].
  destruct (inner_at (SeekEnd 0) (r_set_s r s1) S1) as (p2 & s2 & E2 & S2 & P2 & T2 & Q2); [auto|].
  destruct (inner_at (SeekStart p1) (r_set_s (r_set_s r s1) s2) S2) as (p3 & s3 & E3 & S3 & P3 & T3 & Q3); [eauto|].
  exists s3. cbn [r_s r_set_s] in *. split; [exact S3|]. split; [congruence|]. split; [congruence|].
  unfold bind at 1. rewrite E1. unfold bind at 1. rewrite E2. unfold bind at 1. rewrite E3, Q2, Q1.
  destruct (length input <? s_pos (r_s r)); [reflexivity|]. destruct (_ <? n)%N; [destruct (_ <? _)%N; reflexivity|reflexivity].
Qed.
Lemma ra_exact peek n : ragree peek (read_exact_vec n) (read_exact_vec n).
Proof.
  set (m := fun p => if length input <? p then panic else if (N.of_nat (length input - p) <? n)%N then
              if (usize_max <? n * 8)%N then panic else fail (Incomplete (N.to_nat (n * 8))) else read_bytes (N.to_nat n) (N.to_nat n) Lsb0).
  assert (HM : forall p, ragree peek (m p) (m p)).
  { intros p. unfold m. destruct (_ <? p); [apply ra_panic|]. destruct (_ <? n)%N; [destruct (_ <? _)%N; [apply ra_panic|apply ra_fail]|apply ra_bytes]. }
  split.
  - intros r a r' B E. destruct (exact_as n r (proj1 B)) as (s & S & P & _ & EQ). rewrite EQ in E. fold (m (s_pos (r_s r))) in E.
    apply (proj1 (HM (s_pos (r_s r))) (r_set_s r s) a r'); [|exact E]. destruct B as [_ B]. split; [exact S|]. cbn [r_set_s r_left r_bits r_s]. now rewrite P.
  - intros r1 r2 B R. pose proof R as ((S1 & S2 & P & T) & L & BB). destruct (exact_as n r1 S1) as (s1 & X1 & P1 & T1 & ->), (exact_as n r2 S2) as (s2 & X2 & P2 & T2 & ->).
    fold (m (s_pos (r_s r1))). fold (m (s_pos (r_s r2))). rewrite <- P. apply (proj2 (HM (s_pos (r_s r1)))).
    + destruct B as [_ B]. split; [exact X1|]. cbn [r_set_s r_left r_bits r_s]. now rewrite P1.
    + split; [|now split]. cbn. split; [exact X1|]. split; [exact X2|]. split; congruence.
Qed.

(** Padding. *)
Lemma skip_loop k : forall f r, k <= f -> between false r ->
  (k <= length input - s_pos (r_s r) -> exists r', b_skip_loop f k r = (Ok tt, r') /\ smooth (r_s r') /\ r_left r' = None /\
     r_bits r' = r_bits r + 8 * k /\ s_pos (r_s r') = s_pos (r_s r) + k /\ s_eat (r_s r') = s_eat (r_s r)) /\
  (length input - s_pos (r_s r) < k -> exists e r', b_skip_loop f k r = (Err e, r')).
Proof.
  induction k as [k IH] using lt_wf_ind. intros f r Hf [(D & N & F) B].
  assert (L : r_left r = None) by (destruct (r_left r) as [[b|l]|]; [destruct B as [B _]; discriminate B|contradiction|reflexivity]). rewrite L in B.
  destruct k as [|k].
  { split; [intros _|lia]. exists r. split; [destruct f; reflexivity|]. repeat split; auto; lia. }
  destruct f as [|f]; [lia|]. cbn [b_skip_loop]. set (c := Nat.min 64 (S k)). assert (Hc : 1 <= c <= S k) by (unfold c; lia). clearbody c.
  unfold bind, read_bytes. rewrite L. replace (c <? c) with false by lia. unfold r_io, s_read_exact. rewrite F, N. cbn [option_map].
  assert (HA : length (s_avail (r_s r)) = length input - s_pos (r_s r)) by (unfold s_avail; rewrite skipn_length, D; reflexivity). rewrite HA.
  destruct (Nat.leb_spec c (length input - s_pos (r_s r))) as [Hl|Hl].
  - match goal with |- context [r_add_bits ?x _] => set (r1 := r_add_bits x (c * 8)) end.
    destruct (IH (S k - c) ltac:(lia) f r1 ltac:(lia)) as [I1 I2].
    { unfold r1, between, smooth. cbn. rewrite L. split; [repeat split; auto|]. lia. }
    assert (Q : s_pos (r_s r1) = s_pos (r_s r) + c /\ r_bits r1 = r_bits r + c * 8 /\ s_eat (r_s r1) = s_eat (r_s r)) by (unfold r1; cbn; auto). destruct Q as (Q1 & Q2 & Q3).
    split; intros Hk.
    + destruct I1 as (r' & E & S & L' & B' & P' & T'); [lia|]. exists r'. split; [exact E|]. split; [exact S|]. split; [exact L'|]. repeat split; [lia|lia|congruence].
    + destruct I2 as (e & r' & E); [lia|]. eauto.
  - split; [lia|]. intros _. cbn [is_eof]. eauto.
Qed.
Lemma skip_whole k o r : between false r -> exists r', skip_bits (8 * k) o r = (Ok tt, r') /\ smooth (r_s r') /\ r_left r' = None /\
     r_bits r' = r_bits r + 8 * k /\ s_pos (r_s r') = s_pos (r_s r) + k /\ s_eat (r_s r') = s_eat (r_s r).
Proof.
  intros [(D & N & F) B].
  assert (L : r_left r = None) by (destruct (r_left r) as [[b|l]|]; [destruct B as [B _]; discriminate B|contradiction|reflexivity]). rewrite L in B.
  unfold skip_bits. rewrite L. rewrite bind_ret_l. replace ((8 * k) / 8) with k by lia. replace ((8 * k) mod 8) with 0 by lia.
  assert (H0 : forall r : reader, (let* _ := read_bits_into 0 o in ret tt) r = (Ok tt, r)) by reflexivity.
  destruct (k =? 0) eqn:E0.
  - rewrite bind_ret_l, H0. exists r. repeat split; auto; lia.
  - unfold bind at 1. replace (r_bits r mod 8 =? 0) with true by lia. cbn [negb]. unfold lift_io, r_seek, s_seek, bind at 1. cbn [r_set_left r_s]. rewrite F, N.
    unfold seek_target. destruct (Z.ltb_spec (Z.of_nat (s_pos (r_s r)) + Z.of_nat k) 0); [lia|]. unfold ret at 1. rewrite H0.
    eexists. split; [reflexivity|]. cbn. unfold smooth. cbn. replace (Z.to_nat (Z.of_nat (s_pos (r_s r)) + Z.of_nat k)) with (s_pos (r_s r) + k) by lia. repeat split; auto. lia.
Qed.
Lemma ra_pad p ctx fs o : whole_bytes p -> ragree false (read_pad (eval0 p ctx fs) o) (b_read_pad (eval0 p ctx fs)).
Proof.
  intros H. destruct p as [f|]; [|apply ra_ret]. cbn [eval0 option_map read_pad b_read_pad]. destruct (H ctx fs) as [H8 Hm].
  pose proof (to_usize_eighth _ H8 Hm) as HU. destruct (to_usize (f ctx fs)) as [n|], (to_usize (f ctx fs / 8)) as [m|]; try contradiction; [|apply ra_fail].
  rewrite HU. generalize (N.to_nat m). clear. intros k. set (o' := match o with Some x => x | None => Msb0 end). clearbody o'. split.
  - intros r a r' B E. destruct (skip_whole k o' r B) as (r1 & E1 & S & L & Bb & P & _). rewrite E1 in E. apply pair_inj in E. destruct E as [_ <-].
    split; [|lia]. split; [exact S|]. rewrite L. destruct B as [_ B]. destruct (r_left r) as [[b|l]|]; [|contradiction|]; lia.
  - intros r1 r2 B R. destruct (skip_whole k o' r1 B) as (r1' & E1 & S & L & Bb & P & T). rewrite E1.
    pose proof R as ((S1 & S2 & RP & RT) & RL & RB).
    assert (B2 : between false r2) by (destruct B as [_ B]; split; [exact S2|]; rewrite <- RL, <- RP; replace (r_bits r2) with (r_bits r1) by lia; exact B).
    destruct (skip_loop k k r2 (le_n k) B2) as [I1 I2]. destruct (Nat.le_gt_cases k (length input - s_pos (r_s r2))) as [Hk|Hk].
    + destruct (I1 Hk) as (r2' & -> & S' & L' & B' & P' & T'). exists r1'. split; [reflexivity|]. split; [|split; [congruence|lia]]. split; [exact S|]. split; [exact S'|]. split; [lia|congruence].
    + destruct (I2 Hk) as (e & r' & ->). intros a r1'' E. apply pair_inj in E. destruct E as [_ <-]. unfold past. rewrite Bb. destruct B as [_ B].
      destruct (r_left r1) as [[b|l]|]; [destruct B as [B _]; discriminate B|contradiction|]. lia.
Qed.
Lemma ra_pad_peek peek p ctx fs o : whole_bytes p -> (peek = true -> p = None) -> ragree peek (read_pad (eval0 p ctx fs) o) (b_read_pad (eval0 p ctx fs)).
Proof. intros H Hp. destruct peek; [|now apply ra_pad]. rewrite (Hp eq_refl). apply ra_ret. Qed.

(** Derived types. *)
Lemma ra_asserts peek a ctx fs off v : ragree peek (asserts a ctx fs off v) (asserts a ctx fs off v).
Proof.
  unfold asserts, check. apply ra_bind; [destruct (a_assert a) as [f|]; [destruct (f _ _ _)|]|intros _; destruct (a_assert_eq a) as [f|]; [destruct (value_eqb _ _)|]];
    auto using ra_ret, ra_fail.
Qed.
Lemma limit_end a ctx fs off l : a_limit a = Some l -> eval_limit l ctx fs off = Ok LEnd -> reads_all a = true.
Proof. unfold reads_all. intros -> E. destruct l; cbn in E; try destruct (to_usize _); try discriminate E. reflexivity. Qed.
Lemma ra_hand peek A (m : RM A) : reads_bytes A m -> ragree peek m m.
Proof.
  induction 1 as [A x|A B m f _ Hm _ Hf|n size o|p c Hc|A f _ H|A m1 m2 He _ H].
  - apply ra_lift.
  - now apply ra_bind.
  - apply ra_bytes.
  - now apply ra_prim.
  - now apply ra_off.
  - destruct H as [K M]. split.
    + intros r a r' B E. rewrite <- He in E. now apply K in E.
    + intros r1 r2 B R. rewrite <- !He. now apply M.
Qed.
Lemma ra_field peek c a t ctx fs rd1 rd2 : field_in_bytes a -> a_seek a = None -> reader_in_bytes a -> padded_field (negb peek) a ->
  (forall lim args, no_bit_size args -> (lim = Some LEnd -> reads_all a = true) -> ragree peek (rd1 lim args) (rd2 lim args)) ->
  ragree peek (read_field c a (is_vec_u8 t) ctx fs rd1) (b_read_field c a (is_vec_u8 t) ctx fs rd2).
Proof.
  intros Ha Hs Hr Hp H. unfold read_field, b_read_field. rewrite Hs. cbn [option_map read_seek]. apply ra_bind; [apply ra_ret|intros _]. apply ra_bind; [apply ra_magic|intros _].
  apply ra_bind; [apply ra_pad_peek; [apply (fb_before a Ha)|intros ->; destruct Hp as [Hp|[Hp _]]; [discriminate Hp|exact Hp]]|intros _].
  apply (ra_off peek (fun off => let* v := field_read_tokens a ctx fs off (field_read_normal a ctx fs off (field_read_func c a (is_vec_u8 t) ctx fs off rd1)) in
     let* _ := asserts a ctx fs off v in let* _ := read_pad (eval0 (a_pad_after a) ctx (fs ++ [v])) (field_order c a ctx fs) in ret v)
    (fun off => let* v := field_read_tokens a ctx fs off (field_read_normal a ctx fs off (field_read_func c a (is_vec_u8 t) ctx fs off rd2)) in
     let* _ := asserts a ctx fs off v in let* _ := b_read_pad (eval0 (a_pad_after a) ctx (fs ++ [v])) in ret v)).
  intros off. apply ra_bind.
  - assert (HF : ragree peek (field_read_func c a (is_vec_u8 t) ctx fs off rd1) (field_read_func c a (is_vec_u8 t) ctx fs off rd2)).
    { unfold field_read_func. destruct (a_reader a) as [f|] eqn:Er; [apply ra_hand, (Hr f Er)|]. pose proof (no_bits_field c a ctx fs off Ha) as Hg. destruct (a_limit a) as [l|] eqn:El; [|apply H; [exact Hg|discriminate]].
      assert (HL : forall lim, eval_limit l ctx fs off = Ok lim ->
        ragree peek (match is_vec_u8 t, lim with true, LCount n => let* bs := read_exact_vec n in ret (vec_of_bytes bs) | _, _ => rd1 (Some lim) (field_args c a ctx fs off) end)
          (match is_vec_u8 t, lim with true, LCount n => let* bs := read_exact_vec n in ret (vec_of_bytes bs) | _, _ => rd2 (Some lim) (field_args c a ctx fs off) end)).
      { intros lim Ee. assert (HL : ragree peek (rd1 (Some lim) (field_args c a ctx fs off)) (rd2 (Some lim) (field_args c a ctx fs off))).
        { apply H; [exact Hg|]. intros X. injection X as ->. eapply limit_end; eassumption. }
        destruct (is_vec_u8 t); [|exact HL]. destruct lim; try exact HL. apply ra_bind; [apply ra_exact|intros; apply ra_ret]. }
      destruct (eval_limit l ctx fs off) as [lim|e| |]; [exact (HL lim eq_refl)|exact (ra_fail peek e)|exact (ra_panic peek)|exact (ra_diverge peek)]. }
    assert (HN : ragree peek (field_read_normal a ctx fs off (field_read_func c a (is_vec_u8 t) ctx fs off rd1)) (field_read_normal a ctx fs off (field_read_func c a (is_vec_u8 t) ctx fs off rd2))).
    { unfold field_read_normal. apply ra_bind; [exact HF|]. intros v. destruct (a_map a); [apply ra_lift|apply ra_ret]. }
    unfold field_read_tokens. destruct (a_skip a) as [[]|], (a_cond a) as [f|]; try destruct (f _ _ _); auto using ra_ret.
  - intros v. apply ra_bind; [apply ra_asserts|intros _]. apply ra_bind; [|intros _; apply ra_ret].
    apply ra_pad_peek; [apply (fb_after a Ha)|intros ->; destruct Hp as [Hp|[_ Hp]]; [discriminate Hp|exact Hp]].
Qed.
Lemma ra_pctx peek {A} lim args (k1 k2 : pctx -> RM A) : no_bit_size args -> (forall c, byte_pctx c = true -> ragree peek (k1 c) (k2 c)) ->
  ragree peek (with_pctx lim args k1) (b_with_pctx lim args k2).
Proof.
  intros Hg H. unfold b_with_pctx, with_pctx. destruct lim; [apply ra_panic|]. destruct (pctx_of args) as [c|] eqn:E; [|apply ra_panic].
  rewrite (no_bits_pctx _ _ Hg E). apply H. eapply no_bits_pctx; eassumption.
Qed.
Lemma ra_cstr peek fuel lim : lim <> LEnd -> ragree peek (let* l := vec_read fuel 1 (prim_read PU8 C0) lim in to_cstring l) (let* l := vec_read fuel 1 (prim_read PU8 C0) lim in to_cstring l).
Proof.
  intros H. apply ra_bind; [apply ra_vec; [intros _; now apply ra_prim|contradiction]|]. intros l. unfold to_cstring.
  repeat match goal with |- ragree _ (match ?x with _ => _ end) _ => destruct x end; auto using ra_ret, ra_fail, ra_panic.
Qed.
Section Build.
Variable cu : nat -> custom.
Variable fuel : nat.
Theorem read_builds :
  (forall t pads, read_in_bytes cu pads t -> forall peek lim args, no_bit_size args -> (peek = true -> pads = false) -> (lim = Some LEnd -> pads = false) ->
     ragree peek (read_ty cu fuel t lim args) (b_read_ty cu fuel t lim args)) /\
  (forall fs pads, fields_in_bytes cu pads fs -> forall peek c ctx id acc, (peek = true -> pads = false) ->
     ragree peek (fields_read cu fuel c ctx fs id acc) (b_fields_read cu fuel c ctx fs id acc)) /\
  (forall vs pads, variants_in_bytes cu pads vs -> forall peek e ctx id k d1 d2, (peek = true -> pads = false) ->
     match d1, d2 with Some m1, Some m2 => ragree peek m1 m2 | None, None => True | _, _ => False end ->
     ragree peek (variants_read cu fuel e ctx id vs k d1) (b_variants_read cu fuel e ctx id vs k d2)).
Proof.
  apply types_ind.
  - intros p pads _ peek lim args Hg _ _. cbn [read_ty b_read_ty]. apply ra_pctx; [exact Hg|]. intros c Hc. apply ra_bind; [now apply ra_prim|intros; apply ra_ret].
  - intros pads _ peek lim args Hg _ _. cbn [read_ty b_read_ty]. apply ra_pctx; [exact Hg|]. intros c Hc. apply ra_bind; [|intros; apply ra_ret].
    unfold read_bool. apply ra_bind; [now apply ra_prim|]. intros v. destruct (v =? 1)%N; [apply ra_ret|]. destruct (v =? 0)%N; [apply ra_ret|apply ra_fail].
  - intros p pads _ peek lim args Hg _ _. cbn [read_ty b_read_ty]. apply ra_pctx; [exact Hg|]. intros c Hc. apply ra_bind; [|intros; apply ra_ret].
    unfold read_nonzero. apply ra_bind; [now apply ra_prim|]. intros v. destruct (v =? 0)%N; [apply ra_fail|apply ra_ret].
  - intros pads _ peek lim args _ _ _. apply ra_ret.
  - intros pads _ peek lim args _ _ _. cbn [read_ty b_read_ty]. destruct lim; [apply ra_panic|]. destruct args as [|a args]; [|destruct a, args; try apply ra_panic];
      (apply ra_bind; [|intros; apply ra_ret]); apply ra_cstr; discriminate.
  - intros t IH pads H peek lim args Hg Hp Hl. cbn [read_ty b_read_ty]. apply ra_bind; [eapply IH; eauto|intros; apply ra_ret].
  - intros a IHa b IHb pads [Ha Hb] peek lim args Hg Hp Hl. cbn [read_ty b_read_ty]. apply ra_bind; [eapply IHa; eauto|intros x]. apply ra_bind; [eapply IHb; eauto|intros; apply ra_ret].
  - intros n t IH pads H peek lim args Hg Hp Hl. cbn [read_ty b_read_ty]. apply ra_bind; [apply ra_array; eapply IH; eauto|intros; apply ra_ret].
  - intros pl size t IH pads H peek lim args Hg Hp Hl. cbn [read_ty b_read_ty]. destruct lim as [l|]; [|apply ra_panic]. apply ra_bind; [|intros; apply ra_ret].
    apply ra_vec; [intros _; eapply IH; eauto; discriminate|]. intros ->. eapply IH; eauto; discriminate.
  - intros c fs IH pads (Hc & Hs & Hf) peek lim args Hg Hp Hl. rewrite read_struct.
    change (b_read_ty cu fuel (TStruct c fs) lim args) with
      (let* _ := read_seek (option_map (fun f => f (ctx_args c args)) (c_seek c)) in let* _ := read_magic (c_magic c) in let* vs := b_fields_read cu fuel c (ctx_args c args) fs None [] in ret (VRec vs)).
    rewrite Hs. apply ra_bind; [apply ra_ret|intros _]. apply ra_bind; [apply ra_magic|intros _]. apply ra_bind; [eapply IH; eauto|intros; apply ra_ret].
  - intros e idt IHi vs IHv pads (Hb & Hc & Hi & Hv) peek lim args Hg Hp Hl. rewrite read_enum.
    change (b_read_ty cu fuel (TEnum e idt vs) lim args) with
      (let* _ := read_magic (c_magic (en_c e)) in
       let* id := match en_id e with Some f => ret (f (ctx_args (en_c e) args)) | None => b_read_ty cu fuel idt None (id_args e (ctx_args (en_c e) args)) end in
       b_variants_read cu fuel e (ctx_args (en_c e) args) id vs 0 None).
    apply ra_bind; [apply ra_magic|intros _]. apply ra_bind; [destruct (en_id e); [apply ra_ret|]; eapply IHi; eauto; [apply no_bits_id; exact Hb|discriminate]|].
    intros id. eapply IHv; eauto.
  - intros k pads H peek lim args Hg _ _. cbn [read_ty b_read_ty]. destruct lim; [apply ra_panic|]. apply ra_hand, H, Hg.
  - intros pads _ peek c ctx id acc _. apply ra_ret.
  - intros a t IHt wire IHw tl IHtl pads (Ha & Hs & Hr & Hp & Hw & Htl) peek c ctx id acc Hk. rewrite read_cons.
    change (b_fields_read cu fuel c ctx (FCons a t wire tl) id acc) with
      (let* v := match id, a_reader a with
                | Some x, None => ret x
                | _, _ => b_read_field c a (is_vec_u8 t) ctx acc (fun lim args => b_read_ty cu fuel wire lim args)
                end in
      let* vs := b_fields_read cu fuel c ctx tl None (acc ++ [v]) in
      ret (if a_temp a then vs else v :: vs)).
    apply ra_bind; [|intros v; apply ra_bind; [eapply IHtl; eauto|intros; apply ra_ret]].
    assert (HF : ragree peek (read_field c a (is_vec_u8 t) ctx acc (fun lim args => read_ty cu fuel wire lim args)) (b_read_field c a (is_vec_u8 t) ctx acc (fun lim args => b_read_ty cu fuel wire lim args))).
    { apply ra_field; auto.
      - destruct Hp as [Hp|Hp]; [|now right]. destruct peek; [rewrite (Hk eq_refl) in Hp; discriminate Hp|now left].
      - intros lim args Hg Hl. eapply IHw; eauto; [intros ->; now rewrite (Hk eq_refl)|]. intros ->. rewrite (Hl eq_refl). now destruct pads. }
    destruct id; [destruct (a_reader a); [exact HF|apply ra_ret]|exact HF].
  - intros pads _ peek e ctx id k d1 d2 _ Hd. change (ragree peek (match d1 with Some m => m | None => fail Parse end) (match d2 with Some m => m | None => fail Parse end)).
    destruct d1, d2; try contradiction; [exact Hd|apply ra_fail].
  - intros v fs IHf vs IHv pads [Hf Hv] peek e ctx id k d1 d2 Hp Hd. rewrite read_variant.
    change (b_variants_read cu fuel e ctx id (VCons v fs vs) k d2) with
      (if matches (v_sel v) id then let* l := b_fields_read cu fuel (en_c e) ctx fs (if stores_id e v then Some id else None) [] in ret (VVar k l)
       else b_variants_read cu fuel e ctx id vs (S k) (match d2 with Some _ => d2 | None => if v_default v then Some (let* l := b_fields_read cu fuel (en_c e) ctx fs (if stores_id e v then Some id else None) [] in ret (VVar k l)) else None end)).
    assert (HB : ragree peek (let* l := fields_read cu fuel (en_c e) ctx fs (if stores_id e v then Some id else None) [] in ret (VVar k l))
      (let* l := b_fields_read cu fuel (en_c e) ctx fs (if stores_id e v then Some id else None) [] in ret (VVar k l))) by (apply ra_bind; [eapply IHf; eauto|intros; apply ra_ret]).
    destruct (matches _ _); [exact HB|]. eapply IHv; eauto. destruct d1, d2; try contradiction; [exact Hd|]. destruct (v_default v); [exact HB|exact I].
Qed.

Lemma start_between : between false (reader_new (cursor input)).
Proof. split; [now repeat split|]. reflexivity. Qed.
Theorem top_builds t : read_in_bytes cu true t ->
  match b_from_reader cu fuel t (cursor input) 0 with
  | (Ok (n, v), _) => exists s, from_reader cu fuel t (cursor input) 0 = (Ok (n, v), s)
  | _ => forall n v s, from_reader cu fuel t (cursor input) 0 = (Ok (n, v), s) -> length input < n / 8
  end.
Proof.
  intros H. unfold b_from_reader, from_reader. cbn [Nat.eqb]. rewrite !bind_ret_l.
  destruct (proj1 read_builds t true H false None [] no_bits_nil ltac:(discriminate) ltac:(discriminate)) as [K M0]. pose proof (M0 _ _ start_between (rsame_refl _ _ start_between)) as M. clear M0.
  unfold bind. destruct (b_read_ty cu fuel t None [] (reader_new (cursor input))) as [x2 r2].
  assert (HE : (forall a r1', read_ty cu fuel t None [] (reader_new (cursor input)) = (Ok a, r1') -> past r1') ->
     forall n v s, (let '(x, r) := match read_ty cu fuel t None [] (reader_new (cursor input)) with (Ok v, r) => (Ok (r_bits r, v), r) | (Err e, r) => (Err e, r) | (Panic, r) => (Panic, r) | (Diverge, r) => (Diverge, r) end in (x, r_s r)) = (Ok (n, v), s) -> length input < n / 8).
  { intros HP n v s E. destruct (read_ty cu fuel t None [] (reader_new (cursor input))) as [x r] eqn:Er. destruct x; try discriminate E. injection E as <- _ _. specialize (HP _ _ eq_refl). destruct (K _ _ _ start_between Er) as [[_ HB] _]. unfold past in HP. destruct (r_left r) as [[b|l]|]; [destruct HB as [HB _]; discriminate HB|contradiction|]. rewrite HB in *. rewrite Nat.mul_comm, Nat.div_mul by discriminate. lia. }
  destruct x2 as [v|e| |]; try (apply HE; exact M). destruct M as (r1 & -> & _ & _ & Hb). exists (r_s r1). now replace (r_bits r2) with (r_bits r1) by lia.
Qed.
Theorem from_bytes_builds t x : read_in_bytes cu true t -> b_from_bytes cu fuel t input 0 = Ok x <-> from_bytes cu fuel t input 0 = Ok x.
Proof.
  intros H. pose proof (top_builds t H) as T. unfold b_from_bytes, from_bytes. destruct (b_from_reader cu fuel t (cursor input) 0) as [[[n v]|e| |] s].
  1: { destruct T as (s' & ->). reflexivity. }
  all: (split; [discriminate|]); destruct (from_reader cu fuel t (cursor input) 0) as [[[n v]|e'| |] s']; try discriminate; specialize (T n v s' eq_refl);
    destruct (Nat.leb_spec (n / 8) (length input)); [lia|discriminate].
Qed.
Theorem try_from_builds t x : read_in_bytes cu true t -> b_try_from cu fuel t input = Ok x <-> try_from cu fuel t input = Ok x.
Proof.
  intros H. pose proof (top_builds t H) as T. unfold b_try_from, try_from. destruct (b_from_reader cu fuel t (cursor input) 0) as [[[n v]|e| |] s].
  1: { destruct T as (s' & ->). reflexivity. }
  all: (split; [discriminate|]); destruct (from_reader cu fuel t (cursor input) 0) as [[[n v]|e'| |] s']; try discriminate; specialize (T n v s' eq_refl);
    destruct (_ <? length input); [discriminate|]; destruct (Nat.ltb_spec (length input) (n / 8)); [discriminate|lia].
Qed.
End Build.
End Read.

(** Without padding the two builds are the same function. *)
Definition eqm {A} (m m' : RM A) : Prop := forall r, m r = m' r.
Lemma eqm_refl {A} (m : RM A) : eqm m m.
Proof. intros r. reflexivity. Qed.
Lemma eqm_bind {A B} (m m' : RM A) (f f' : A -> RM B) : eqm m m' -> (forall a, eqm (f a) (f' a)) -> eqm (bind m f) (bind m' f').
Proof. intros Hm Hf r. unfold bind. rewrite (Hm r). destruct (m' r) as [[a|e| |] s1]; try reflexivity. apply Hf. Qed.
Lemma eqm_vec {A} f size (el el' : RM A) lim : eqm el el' -> eqm (vec_read f size el lim) (vec_read f size el' lim).
Proof.
  intros He. assert (HL : forall stop start f acc, eqm (vec_loop f el stop start acc) (vec_loop f el' stop start acc)).
  { intros stop start. induction f0 as [|g IH]; intros acc; [apply eqm_refl|]. cbn [vec_loop]. apply eqm_bind; [exact He|]. intros v r. destruct (_ <? _); [reflexivity|].
    destruct (stop _ _); [reflexivity|]. apply IH. }
  assert (HE : forall f acc, eqm (end_loop f el acc) (end_loop f el' acc)).
  { induction f0 as [|g IH]; intros acc; [apply eqm_refl|]. cbn [end_loop]. intros r. destruct (r_end r) as [[] r1]; [reflexivity|]. apply (eqm_bind el el'); [exact He|]. intros v. apply IH. }
  assert (HP : forall f size cap stop, eqm (vec_with_predicate f size cap el stop) (vec_with_predicate f size cap el' stop)).
  { intros g sz cap stop. unfold vec_with_predicate. destruct (sz =? 0)%N; [apply eqm_refl|]. destruct (match cap with Some _ => _ | None => _ end); [apply eqm_refl|].
    intros r. apply HL. }
  destruct lim; cbn [vec_read].
  - destruct (n =? 0)%N; [apply eqm_refl|]. intros r. apply HP.
  - apply HP.
  - destruct (_ <? _)%N; [apply eqm_refl|]. destruct (_ =? 0)%N; [apply eqm_refl|]. apply HP.
  - destruct (_ =? 0)%N; [apply eqm_refl|]. apply HP.
  - unfold vec_to_end. destruct (_ =? 0)%N; [apply eqm_refl|]. apply HE.
Qed.
Lemma eqm_array {A} n (el el' : RM A) : eqm el el' -> eqm (read_array n el) (read_array n el').
Proof.
  intros He. induction n as [|n IH]; cbn [read_array]; [apply eqm_refl|]. apply eqm_bind; [exact He|]. intros v. apply eqm_bind; [exact IH|]. intros vs. apply eqm_refl.
Qed.
Lemma eqm_pctx {A} lim args (k : pctx -> RM A) : no_bit_size args -> eqm (with_pctx lim args k) (b_with_pctx lim args k).
Proof.
  intros Hg r. unfold b_with_pctx, with_pctx. destruct lim; [reflexivity|]. destruct (pctx_of args) as [c|] eqn:E; [|reflexivity]. now rewrite (no_bits_pctx _ _ Hg E).
Qed.
Lemma eqm_field c a b ctx fs rd1 rd2 : field_in_bytes a -> a_pad_before a = None -> a_pad_after a = None ->
  (forall lim args, no_bit_size args -> eqm (rd1 lim args) (rd2 lim args)) -> eqm (read_field c a b ctx fs rd1) (b_read_field c a b ctx fs rd2).
Proof.
  intros Ha Hb Hp H. unfold read_field, b_read_field. rewrite Hb, Hp. do 3 (apply eqm_bind; [apply eqm_refl|intros _]). intros r. cbv zeta. set (off := r_bits r).
  assert (HF : eqm (field_read_func c a b ctx fs off rd1) (field_read_func c a b ctx fs off rd2)).
  { unfold field_read_func. destruct (a_reader a); [apply eqm_refl|]. pose proof (no_bits_field c a ctx fs off Ha) as Hg. destruct (a_limit a) as [l|]; [|now apply H].
    apply eqm_bind; [apply eqm_refl|]. intros lim. destruct b, lim; try (now apply H); apply eqm_refl. }
  assert (HN : eqm (field_read_normal a ctx fs off (field_read_func c a b ctx fs off rd1)) (field_read_normal a ctx fs off (field_read_func c a b ctx fs off rd2))).
  { unfold field_read_normal. apply eqm_bind; [exact HF|]. intros v. apply eqm_refl. }
  match goal with |- ?m r = ?m' r => refine ((_ : eqm m m') r) end. apply eqm_bind; [|intros v; apply eqm_refl].
  unfold field_read_tokens. destruct (a_skip a) as [[]|], (a_cond a) as [g|]; try exact HN; try apply eqm_refl; destruct (g ctx fs off); try exact HN; apply eqm_refl.
Qed.
Section Padless.
Variable cu : nat -> custom.
Variable fuel : nat.
Notation E := (every container_in_bytes (fun e => en_bits e = None /\ container_in_bytes (en_c e)) (fun _ a _ => field_in_bytes a /\ a_pad_before a = None /\ a_pad_after a = None) (fun _ => True)).
Notation EF := (every_field container_in_bytes (fun e => en_bits e = None /\ container_in_bytes (en_c e)) (fun _ a _ => field_in_bytes a /\ a_pad_before a = None /\ a_pad_after a = None) (fun _ => True)).
Notation EV := (every_variant container_in_bytes (fun e => en_bits e = None /\ container_in_bytes (en_c e)) (fun _ a _ => field_in_bytes a /\ a_pad_before a = None /\ a_pad_after a = None) (fun _ => True)).
Theorem padless_builds :
  (forall t, E t -> forall lim args, no_bit_size args -> eqm (read_ty cu fuel t lim args) (b_read_ty cu fuel t lim args)) /\
  (forall fs c, EF c fs -> forall ctx id acc, eqm (fields_read cu fuel c ctx fs id acc) (b_fields_read cu fuel c ctx fs id acc)) /\
  (forall vs e, EV (en_c e) vs -> forall ctx id k d1 d2, match d1, d2 with Some m1, Some m2 => eqm m1 m2 | None, None => True | _, _ => False end ->
     eqm (variants_read cu fuel e ctx id vs k d1) (b_variants_read cu fuel e ctx id vs k d2)).
Proof.
  apply types_ind.
  - intros p _ lim args Hg. now apply eqm_pctx.
  - intros _ lim args Hg. now apply eqm_pctx.
  - intros p _ lim args Hg. now apply eqm_pctx.
  - intros _ lim args _. apply eqm_refl.
  - intros _ lim args _. apply eqm_refl.
  - intros t IH H lim args Hg. cbn [read_ty b_read_ty]. apply eqm_bind; [now apply IH|intros; apply eqm_refl].
  - intros a IHa b IHb [Ha Hb] lim args Hg. cbn [read_ty b_read_ty]. apply eqm_bind; [now apply IHa|intros x]. apply eqm_bind; [now apply IHb|intros; apply eqm_refl].
  - intros n t IH H lim args Hg. cbn [read_ty b_read_ty]. apply eqm_bind; [apply eqm_array; now apply IH|intros; apply eqm_refl].
  - intros pl size t IH H lim args Hg. cbn [read_ty b_read_ty]. destruct lim as [l|]; [|apply eqm_refl]. apply eqm_bind; [apply eqm_vec; now apply IH|intros; apply eqm_refl].
  - intros c fs IH [Hc Hf] lim args Hg. rewrite read_struct.
    change (b_read_ty cu fuel (TStruct c fs) lim args) with
      (let* _ := read_seek (option_map (fun f => f (ctx_args c args)) (c_seek c)) in let* _ := read_magic (c_magic c) in let* vs := b_fields_read cu fuel c (ctx_args c args) fs None [] in ret (VRec vs)).
    do 2 (apply eqm_bind; [apply eqm_refl|intros _]). apply eqm_bind; [now apply IH|intros; apply eqm_refl].
  - intros e idt IHi vs IHv ((Hb & Hc) & Hi & Hv) lim args Hg. rewrite read_enum.
    change (b_read_ty cu fuel (TEnum e idt vs) lim args) with
      (let* _ := read_magic (c_magic (en_c e)) in
       let* id := match en_id e with Some f => ret (f (ctx_args (en_c e) args)) | None => b_read_ty cu fuel idt None (id_args e (ctx_args (en_c e) args)) end in
       b_variants_read cu fuel e (ctx_args (en_c e) args) id vs 0 None).
    apply eqm_bind; [apply eqm_refl|intros _]. apply eqm_bind; [destruct (en_id e); [apply eqm_refl|]; apply IHi; [exact Hi|apply no_bits_id; exact Hb]|].
    intros id. now apply IHv.
  - intros k _ lim args _. apply eqm_refl.
  - intros c _ ctx id acc. apply eqm_refl.
  - intros a t IHt wire IHw tl IHtl c ((Ha & Hb & Hp) & Ht & Hw & Htl) ctx id acc. rewrite read_cons.
    change (b_fields_read cu fuel c ctx (FCons a t wire tl) id acc) with
      (let* v := match id, a_reader a with
                | Some x, None => ret x
                | _, _ => b_read_field c a (is_vec_u8 t) ctx acc (fun lim args => b_read_ty cu fuel wire lim args)
                end in
      let* vs := b_fields_read cu fuel c ctx tl None (acc ++ [v]) in
      ret (if a_temp a then vs else v :: vs)).
    apply eqm_bind; [|intros v; apply eqm_bind; [now apply IHtl|intros; apply eqm_refl]].
    assert (HF : eqm (read_field c a (is_vec_u8 t) ctx acc (fun lim args => read_ty cu fuel wire lim args)) (b_read_field c a (is_vec_u8 t) ctx acc (fun lim args => b_read_ty cu fuel wire lim args))).
    { apply eqm_field; auto. }
    destruct id; [destruct (a_reader a); [exact HF|apply eqm_refl]|exact HF].
  - intros e _ ctx id k d1 d2 Hd. change (eqm (match d1 with Some m => m | None => fail Parse end) (match d2 with Some m => m | None => fail Parse end)).
    destruct d1, d2; try contradiction; [exact Hd|apply eqm_refl].
  - intros v fs IHf vs IHv e [Hf Hv] ctx id k d1 d2 Hd. rewrite read_variant.
    change (b_variants_read cu fuel e ctx id (VCons v fs vs) k d2) with
      (if matches (v_sel v) id then let* l := b_fields_read cu fuel (en_c e) ctx fs (if stores_id e v then Some id else None) [] in ret (VVar k l)
       else b_variants_read cu fuel e ctx id vs (S k) (match d2 with Some _ => d2 | None => if v_default v then Some (let* l := b_fields_read cu fuel (en_c e) ctx fs (if stores_id e v then Some id else None) [] in ret (VVar k l)) else None end)).
    assert (HB : eqm (let* l := fields_read cu fuel (en_c e) ctx fs (if stores_id e v then Some id else None) [] in ret (VVar k l))
      (let* l := b_fields_read cu fuel (en_c e) ctx fs (if stores_id e v then Some id else None) [] in ret (VVar k l))) by (apply eqm_bind; [now apply IHf|intros; apply eqm_refl]).
    destruct (matches _ _); [exact HB|]. apply IHv; [exact Hv|]. destruct d1, d2; try contradiction; [exact Hd|]. destruct (v_default v); [exact HB|exact I].
Qed.
Theorem from_reader_builds t s : read_without_padding t -> b_from_reader cu fuel t s 0 = from_reader cu fuel t s 0.
Proof.
  intros H. unfold b_from_reader, from_reader. cbn [Nat.eqb]. rewrite !bind_ret_l. unfold bind. now rewrite (proj1 padless_builds t H None [] no_bits_nil).
Qed.
Theorem offset_panics t s bit : bit <> 0 -> b_from_reader cu fuel t s bit = (Panic, s).
Proof. intros H. unfold b_from_reader. replace (bit =? 0) with false by lia. unfold b_skip_bits. replace (0 <? bit) with true by lia. reflexivity. Qed.
End Padless.
