(** Reading from a source that fails: lemmas behind C10. *)
From Coq Require Import Lia ZifyBool ZifyNat ZifyN.
From Verif Require Import Base MonadFacts Spec Stream Reader BitsFacts ReaderFacts Session.
Ltac Zify.zify_post_hook ::= Z.div_mod_to_equations.

Notation calls r := (s_calls (r_s r)).
Notation fault r := (s_fault (r_s r)).
Notation nf := r_without_faults.

(** The source reported no fault / the fault [e] between two states. *)
Definition no_fault (r r' : reader) : Prop := forall k, calls r <= k < calls r' -> fault r k = None.
Definition saw_fault (r r' : reader) (e : iokind) : Prop := exists k, calls r <= k < calls r' /\ exists m, fault r k = Some (e, m).

Definition io_err (e : iokind) (x : derr) : Prop :=
  if is_eof e then exists n, x = Incomplete n else x = Io e.

Record tracked {A} (m : RM A) : Prop := {
  tr_mono : forall r x r', m r = (x, r') -> calls r <= calls r' /\ fault r' = fault r;
  tr_same : forall r x r', m r = (x, r') -> no_fault r r' -> m (nf r) = (x, nf r')
}.
(** Every fault ends the operation with that error. *)
Definition strict {A} (m : RM A) : Prop :=
  forall r x r' e, m r = (x, r') -> saw_fault r r' e -> exists d, x = Err d /\ io_err e d.

Lemma no_fault_split r r1 r2 : calls r <= calls r1 -> calls r1 <= calls r2 -> fault r1 = fault r ->
  no_fault r r2 -> no_fault r r1 /\ no_fault r1 r2.
Proof.
  intros H1 H2 Hf H. split; intros k Hk; [|rewrite Hf]; apply H; lia.
Qed.
Lemma saw_fault_split r r1 r2 e : fault r1 = fault r -> saw_fault r r2 e -> saw_fault r r1 e \/ saw_fault r1 r2 e.
Proof.
  intros Hf (k & Hk & m & He). destruct (Nat.lt_ge_cases k (calls r1)); [left|right]; exists k; (split; [lia|]); exists m; congruence.
Qed.

Lemma tracked_bind {A B} (m : RM A) (f : A -> RM B) : tracked m -> (forall a, tracked (f a)) -> tracked (bind m f).
Proof.
  intros [Mm Ms] Hf. split.
  - intros r x r' E. unfold bind in E. destruct (m r) as [y r1] eqn:E1. destruct (Mm _ _ _ E1) as [L1 F1].
    destruct y as [a| | |]; try (apply pair_inj in E; destruct E as [_ <-]; now split).
    destruct (tr_mono _ (Hf a) _ _ _ E) as [L2 F2]. split; [lia|congruence].
  - intros r x r' E Hn. unfold bind in *. destruct (m r) as [y r1] eqn:E1. destruct (Mm _ _ _ E1) as [L1 F1].
    destruct y as [a| | |]; try (apply pair_inj in E; destruct E as [<- <-]; now rewrite (Ms _ _ _ E1 Hn)).
    destruct (tr_mono _ (Hf a) _ _ _ E) as [L2 F2].
    destruct (no_fault_split r r1 r' L1 L2 F1 Hn) as [N1 N2].
    rewrite (Ms _ _ _ E1 N1). now apply (tr_same _ (Hf a)).
Qed.
Lemma strict_bind {A B} (m : RM A) (f : A -> RM B) : tracked m -> strict m -> (forall a, strict (f a)) -> strict (bind m f).
Proof.
  intros [Mm _] Hs Hf r x r' e E H. unfold bind in E. destruct (m r) as [y r1] eqn:E1. destruct (Mm _ _ _ E1) as [L1 F1].
  destruct y as [a|d| |].
  - destruct (saw_fault_split _ r1 _ _ F1 H) as [H1|H1].
    + destruct (Hs _ _ _ _ E1 H1) as (d & [=] & _).
    + eapply Hf; eassumption.
  - apply pair_inj in E; destruct E as [<- <-]. destruct (Hs _ _ _ _ E1 H) as (d' & [= <-] & ?). eauto.
  - apply pair_inj in E; destruct E as [<- <-]. destruct (Hs _ _ _ _ E1 H) as (d' & [=] & ?).
  - apply pair_inj in E; destruct E as [<- <-]. destruct (Hs _ _ _ _ E1 H) as (d' & [=] & ?).
Qed.

(** Operations that do not touch the source. *)
Definition silent {A} (m : RM A) : Prop :=
  (forall r, r_s (snd (m r)) = r_s r) /\ (forall r, m (nf r) = (fst (m r), nf (snd (m r)))).
Lemma silent_tracked {A} (m : RM A) : silent m -> tracked m.
Proof.
  intros [H1 H2]. split; intros r x r' E; specialize (H1 r); specialize (H2 r); rewrite E in *; cbn [fst snd] in *.
  - rewrite H1. auto.
  - auto.
Qed.
Lemma silent_strict {A} (m : RM A) : silent m -> strict m.
Proof.
  intros [H1 _] r x r' e E (k & Hk & _). specialize (H1 r). rewrite E in H1. cbn in H1. rewrite H1 in Hk. lia.
Qed.
Lemma silent_ret {A} (a : A) : silent (ret a).
Proof. split; reflexivity. Qed.
Lemma silent_fail {A} e : @silent A (fail e).
Proof. split; reflexivity. Qed.
Lemma silent_panic {A} : @silent A panic.
Proof. split; reflexivity. Qed.
Lemma silent_diverge {A} : @silent A diverge.
Proof. split; reflexivity. Qed.
Lemma silent_assert b : silent (assert_ b).
Proof. destruct b; split; reflexivity. Qed.
Lemma silent_modify f : (forall r, r_s (f r) = r_s r) -> (forall r, f (nf r) = nf (f r)) -> silent (modify f).
Proof. intros H1 H2. split; intros r; unfold modify; cbn; [apply H1|now rewrite H2]. Qed.
Lemma silent_set_left l : silent (modify (fun r => r_set_left r l)).
Proof. apply silent_modify; reflexivity. Qed.
Lemma silent_add_bits n : silent (modify (fun r => r_add_bits r n)).
Proof. apply silent_modify; reflexivity. Qed.

(** Looking at the buffered bits. *)
Lemma tracked_left {A} (M : option leftover -> RM A) : (forall l, tracked (M l)) -> tracked (fun r => M (r_left r) r).
Proof.
  intros H. split; intros r x r' E.
  - now apply (tr_mono _ (H (r_left r))) in E.
  - intros Hn. now apply (tr_same _ (H (r_left r))) in E.
Qed.
Lemma strict_left {A} (M : option leftover -> RM A) : (forall l, strict (M l)) -> strict (fun r => M (r_left r) r).
Proof. intros H r x r' e E. exact (H (r_left r) r x r' e E). Qed.
Lemma tracked_take {A} (M : option leftover -> RM A) : (forall l, tracked (M l)) ->
  tracked (fun r => M (r_left r) (r_set_left r None)).
Proof.
  intros H. split; intros r x r' E.
  - now apply (tr_mono _ (H (r_left r))) in E.
  - intros Hn. now apply (tr_same _ (H (r_left r))) in E.
Qed.
Lemma strict_take {A} (M : option leftover -> RM A) : (forall l, strict (M l)) ->
  strict (fun r => M (r_left r) (r_set_left r None)).
Proof. intros H r x r' e E. exact (H (r_left r) (r_set_left r None) x r' e E). Qed.

(** Transfers. *)
Lemma s_read_exact_tracked n s x s' : s_read_exact n s = (x, s') ->
  s_calls s' = S (s_calls s) /\ s_fault s' = s_fault s /\
  match s_fault s (s_calls s) with
  | Some (e, _) => x = IoErr e
  | None => s_read_exact n (without_faults s) = (x, without_faults s')
  end.
Proof.
  unfold s_read_exact. destruct (s_fault s (s_calls s)) as [[e m]|] eqn:Ef.
  - intros E; apply pair_inj in E; destruct E as [<- <-]. auto.
  - cbn [without_faults s_fault s_calls s_eat s_noseek]. change (s_avail (without_faults s)) with (s_avail s).
    destruct (n <=? length (s_avail s)); [|destruct (s_eat s)]; intros E; apply pair_inj in E; destruct E as [<- <-]; repeat split.
Qed.
Lemma r_io_tracked n r x r' : r_io n r = (x, r') ->
  calls r' = S (calls r) /\ fault r' = fault r /\
  match fault r (calls r) with
  | Some (e, _) => x = IoErr e
  | None => r_io n (nf r) = (x, nf r')
  end.
Proof.
  unfold r_io. destruct (s_read_exact n (r_s r)) as [y s] eqn:E. destruct (s_read_exact_tracked _ _ _ _ E) as (H1 & H2 & H3).
  intros H; apply pair_inj in H; destruct H as [<- <-]. cbn [r_set_s r_s]. split; [exact H1|]. split; [exact H2|].
  destruct (s_fault (r_s r) (s_calls (r_s r))) as [[e m]|]; [exact H3|].
  cbn [r_without_faults r_s]. rewrite H3. reflexivity.
Qed.
Lemma tracked_io {A} n (F : iokind -> RM A) (G : list byte -> RM A) :
  (forall e, tracked (F e)) -> (forall bs, tracked (G bs)) ->
  tracked (fun r => match r_io n r with (IoErr e, r') => F e r' | (IoOk bs, r') => G bs r' end).
Proof.
  intros HF HG. split.
  - intros r x r' E. destruct (r_io n r) as [y r1] eqn:E1. destruct (r_io_tracked _ _ _ _ E1) as (C & F1 & _).
    destruct y as [bs|e]; [apply (tr_mono _ (HG bs)) in E|apply (tr_mono _ (HF e)) in E]; destruct E; split; try lia; congruence.
  - intros r x r' E Hn. destruct (r_io n r) as [y r1] eqn:E1. destruct (r_io_tracked _ _ _ _ E1) as (C & F1 & X).
    assert (L : calls r1 <= calls r' /\ fault r' = fault r1).
    { destruct y as [bs|e]; [apply (tr_mono _ (HG bs)) in E|apply (tr_mono _ (HF e)) in E]; exact E. }
    rewrite (Hn (calls r)) in X by lia. rewrite X.
    assert (N1 : no_fault r1 r') by (intros k Hk; rewrite F1; apply Hn; lia).
    destruct y as [bs|e]; [now apply (tr_same _ (HG bs)) in E|now apply (tr_same _ (HF e)) in E].
Qed.
Lemma strict_io {A} n (F : iokind -> RM A) (G : list byte -> RM A) (g : iokind -> derr) :
  (forall e r, F e r = (Err (g e), r)) -> (forall e, io_err e (g e)) -> (forall bs, strict (G bs)) ->
  strict (fun r => match r_io n r with (IoErr e, r') => F e r' | (IoOk bs, r') => G bs r' end).
Proof.
  intros HF Hg HG r x r' e E (k & Hk & m & He). destruct (r_io n r) as [y r1] eqn:E1.
  destruct (r_io_tracked _ _ _ _ E1) as (C & F1 & X).
  destruct y as [bs|e1].
  - destruct (Nat.eq_dec k (calls r)) as [->|Hne]; [rewrite He in X; discriminate|].
    eapply HG; [exact E|]. exists k. split; [lia|]. exists m. congruence.
  - rewrite HF in E. apply pair_inj in E; destruct E as [<- <-].
    assert (k = calls r) as -> by lia. rewrite He in X. injection X as ->. eauto.
Qed.
Lemma io_err_if e n : io_err e (if is_eof e then Incomplete n else Io e).
Proof. unfold io_err. destruct (is_eof e); eauto. Qed.

Lemma tracked_ext {A} (m1 m2 : RM A) : (forall r, m1 r = m2 r) -> tracked m2 -> tracked m1.
Proof.
  intros H [T1 T2]. split; intros r x r'; rewrite !H; [apply T1|apply T2].
Qed.
Lemma strict_ext {A} (m1 m2 : RM A) : (forall r, m1 r = m2 r) -> strict m2 -> strict m1.
Proof. intros H T r x r' e. rewrite H. apply T. Qed.

Create HintDb trk.
Global Hint Resolve silent_tracked silent_strict silent_ret silent_fail silent_panic silent_diverge silent_assert
  silent_set_left silent_add_bits : trk.

Lemma fill_slots_tracked d k : tracked (fill_slots d k).
Proof.
  induction k as [|k IH]; cbn [fill_slots]; [auto with trk|].
  eapply tracked_ext; [|apply (tracked_io 1
     (fun e => if is_eof e then fail (Incomplete d) else let* bs := fill_slots d k in ret (x00 :: bs))
     (fun bs0 => let* bs := fill_slots d k in ret (hd x00 bs0 :: bs)))].
  - intros r. cbv beta. destruct (r_io 1 r) as [[bs|e] r']; [reflexivity|]. destruct (is_eof e); reflexivity.
  - intros e. destruct (is_eof e); [auto with trk|]. apply tracked_bind; auto with trk.
  - intros bs. apply tracked_bind; auto with trk.
Qed.
Lemma read_rem_byte_tracked d : tracked (read_rem_byte d).
Proof.
  apply (tracked_io 1 (fun e => fail (if is_eof e then Incomplete d else Io e)) (fun bs => ret (hd x00 bs))); auto with trk.
Qed.
Lemma read_rem_byte_strict d : strict (read_rem_byte d).
Proof.
  apply (strict_io 1 (fun e => fail (if is_eof e then Incomplete d else Io e)) (fun bs => ret (hd x00 bs))
    (fun e => if is_eof e then Incomplete d else Io e)); auto using io_err_if with trk.
Qed.
Lemma read_greater_tracked o n prev :
  tracked (match o with Lsb0 => read_greater_lsb n prev | Msb0 => read_greater_msb n prev end).
Proof.
  destruct o; unfold read_greater_lsb, read_greater_msb; (apply tracked_bind; [apply fill_slots_tracked|]); intros bs;
    cbn zeta; destruct (_ =? 0); auto with trk;
    (apply tracked_bind; [apply read_rem_byte_tracked|]); intros b; (apply tracked_bind; auto with trk).
Qed.
Lemma read_greater_strict o n prev : n - length prev < 8 ->
  strict (match o with Lsb0 => read_greater_lsb n prev | Msb0 => read_greater_msb n prev end).
Proof.
  intros H. assert (Hz : (n - length prev) / 8 = 0) by lia.
  destruct o; unfold read_greater_lsb, read_greater_msb; rewrite Hz; cbn [fill_slots];
    (apply strict_bind; [auto with trk|auto with trk|]); intros bs;
    cbn zeta; destruct (_ =? 0); auto with trk;
    (apply strict_bind; [apply read_rem_byte_tracked|apply read_rem_byte_strict|]); intros b; (apply strict_bind; auto with trk).
Qed.
Definition read_bits_core (n : nat) (o : order) (left : option leftover) : RM (list bool) :=
  let prev := left_bits left in
  let* dst :=
       match n ?= length prev with
       | Lt =>
           let* _ := assert_ (length prev <=? 8) in
           match o with
           | Lsb0 =>
               let at_ := length prev - n in
               let* _ := modify (fun r => r_set_left r (Some (LBits (firstn at_ prev)))) in
               ret (skipn at_ prev)
           | Msb0 =>
               let* _ := modify (fun r => r_set_left r (Some (LBits (skipn n prev)))) in
               ret (firstn n prev)
           end
       | Eq => let* _ := assert_ (length prev <=? 8) in ret prev
       | Gt => match o with
               | Lsb0 => read_greater_lsb n prev
               | Msb0 => read_greater_msb n prev
               end
       end in
     let* _ := modify (fun r => r_add_bits r n) in
     ret dst.
Lemma read_bits_into_core n o : read_bits_into n o =
  if n =? 0 then ret [] else fun r => read_bits_core n o (r_left r) (r_set_left r None).
Proof. reflexivity. Qed.
Lemma read_bits_core_tracked n o l : tracked (read_bits_core n o l).
Proof.
  unfold read_bits_core. cbn zeta. apply tracked_bind.
  - destruct (n ?= length (left_bits l)).
    + apply tracked_bind; auto with trk.
    + apply tracked_bind; [auto with trk|]. intros _. destruct o; (apply tracked_bind; auto with trk).
    + apply read_greater_tracked.
  - intros dst. apply tracked_bind; auto with trk.
Qed.
Lemma read_bits_into_tracked n o : tracked (read_bits_into n o).
Proof.
  rewrite read_bits_into_core. destruct (n =? 0); [auto with trk|]. apply (tracked_take (read_bits_core n o)).
  apply read_bits_core_tracked.
Qed.
Lemma read_bits_core_strict n o l : n < 8 + length (left_bits l) -> strict (read_bits_core n o l).
Proof.
  intros H. unfold read_bits_core. cbn zeta. apply strict_bind.
  - destruct (n ?= length (left_bits l)).
    + apply tracked_bind; auto with trk.
    + apply tracked_bind; [auto with trk|]. intros _. destruct o; (apply tracked_bind; auto with trk).
    + apply read_greater_tracked.
  - destruct (n ?= length (left_bits l)).
    + apply strict_bind; auto with trk.
    + apply strict_bind; [auto with trk|auto with trk|]. intros _. destruct o; (apply strict_bind; auto with trk).
    + apply read_greater_strict. lia.
  - intros dst. apply strict_bind; auto with trk.
Qed.

Lemma uint_loop_tracked fuel amt acc have : tracked (uint_loop fuel amt acc have).
Proof.
  revert acc have; induction fuel as [|fuel IH]; intros acc have; cbn [uint_loop]; destruct (amt <=? have); auto with trk.
  apply (tracked_io 1 (fun e => fail (if is_eof e then Incomplete amt else Io e))
    (fun bs => uint_loop fuel amt (N.lor (wrap 128 (N.shiftl acc 8)) (Byte.to_N (hd x00 bs))) (have + 8))); auto with trk.
Qed.
Lemma uint_loop_strict fuel amt acc have : strict (uint_loop fuel amt acc have).
Proof.
  revert acc have; induction fuel as [|fuel IH]; intros acc have; cbn [uint_loop]; destruct (amt <=? have); auto with trk.
  apply (strict_io 1 (fun e => fail (if is_eof e then Incomplete amt else Io e))
    (fun bs => uint_loop fuel amt (N.lor (wrap 128 (N.shiftl acc 8)) (Byte.to_N (hd x00 bs))) (have + 8))
    (fun e => if is_eof e then Incomplete amt else Io e)); auto using io_err_if with trk.
Qed.
Definition uint_start (l : option leftover) : N * nat :=
  match l with
  | Some (LByte b) => (Byte.to_N b, 8)
  | Some (LBits bits) =>
      if length bits =? 0 then (0%N, 0)
      else (N.shiftr (as_msb0_byte bits) (N.of_nat (8 - length bits)), length bits)
  | None => (0%N, 0)
  end.
Definition uint_rest (amt : nat) (p : N * nat) : RM N :=
     let '(acc, have) := p in
     let rest := have - amt in
     let value := N.land (wrap 64 (N.shiftr acc (N.of_nat rest)))
                         (N.shiftr (2 ^ 64 - 1) (N.of_nat (64 - amt))) in
     let* _ :=
       if rest =? 0 then ret tt
       else
         let tail := wrap 8 (N.land acc (N.shiftl 1 (N.of_nat rest) - 1)) in
         let b := wrap 8 (N.shiftl tail (N.of_nat (8 - rest))) in
         modify (fun r => r_set_left r (Some (LBits (firstn rest (N2bits 8 b)))))
     in
     let* _ := modify (fun r => r_add_bits r amt) in
     ret value.
Lemma read_uint_core amt r : read_bits_uint_msb0 amt r =
  (let* _ := assert_ ((1 <=? amt) && (amt <=? 64)) in
   fun r => (let* p := uint_loop amt amt (fst (uint_start (r_left r))) (snd (uint_start (r_left r))) in uint_rest amt p)
      (r_set_left r None)) r.
Proof.
  unfold read_bits_uint_msb0. destruct ((1 <=? amt) && (amt <=? 64)); [|reflexivity].
  unfold assert_, bind at 1 5. cbn [ret]. fold (uint_start (r_left r)). destruct (uint_start (r_left r)). reflexivity.
Qed.
Lemma uint_rest_tracked amt p : tracked (uint_rest amt p).
Proof.
  destruct p as [acc have]. cbn. apply tracked_bind; [destruct (_ =? 0); auto with trk|]. intros _.
  apply tracked_bind; auto with trk.
Qed.
Lemma uint_rest_strict amt p : strict (uint_rest amt p).
Proof.
  destruct p as [acc have]. cbn. apply strict_bind; [destruct (_ =? 0); auto with trk|destruct (_ =? 0); auto with trk|]. intros _.
  apply strict_bind; auto with trk.
Qed.
Lemma read_uint_tracked amt : tracked (read_bits_uint_msb0 amt).
Proof.
  eapply tracked_ext; [apply read_uint_core|]. apply tracked_bind; [auto with trk|]. intros _.
  apply (tracked_take (fun l => let* p := uint_loop amt amt (fst (uint_start l)) (snd (uint_start l)) in uint_rest amt p)).
  intros l. apply tracked_bind; [apply uint_loop_tracked|apply uint_rest_tracked].
Qed.
Lemma read_uint_strict amt : strict (read_bits_uint_msb0 amt).
Proof.
  eapply strict_ext; [apply read_uint_core|]. apply strict_bind; [auto with trk|auto with trk|]. intros _.
  apply (strict_take (fun l => let* p := uint_loop amt amt (fst (uint_start l)) (snd (uint_start l)) in uint_rest amt p)).
  intros l. apply strict_bind; [apply uint_loop_tracked|apply uint_loop_strict|apply uint_rest_strict].
Qed.
Lemma read_bytes_leftover_tracked amt buf b : tracked (read_bytes_leftover amt buf b).
Proof.
  unfold read_bytes_leftover. destruct (buf =? 0); [auto with trk|]. apply tracked_bind; [auto with trk|]. intros _.
  destruct (amt =? 0); [auto with trk|]. cbn zeta. destruct (amt - 1 =? 0); [apply tracked_bind; auto with trk|].
  destruct (buf <? amt - 1); [auto with trk|]. destruct (buf <? amt); [auto with trk|].
  apply (tracked_io (amt - 1) (fun e => fail (if is_eof e then Incomplete ((amt - 1) * 8) else Io e))
    (fun bs => let* _ := modify (fun r => r_add_bits r (amt * 8)) in ret (b :: bs))); auto with trk.
  intros bs. apply tracked_bind; auto with trk.
Qed.
Lemma read_bytes_leftover_strict amt buf b : strict (read_bytes_leftover amt buf b).
Proof.
  unfold read_bytes_leftover. destruct (buf =? 0); [auto with trk|]. apply strict_bind; [auto with trk|auto with trk|]. intros _.
  destruct (amt =? 0); [auto with trk|]. cbn zeta. destruct (amt - 1 =? 0); [apply strict_bind; auto with trk|].
  destruct (buf <? amt - 1); [auto with trk|]. destruct (buf <? amt); [auto with trk|].
  apply (strict_io (amt - 1) (fun e => fail (if is_eof e then Incomplete ((amt - 1) * 8) else Io e))
    (fun bs => let* _ := modify (fun r => r_add_bits r (amt * 8)) in ret (b :: bs))
    (fun e => if is_eof e then Incomplete ((amt - 1) * 8) else Io e)); auto using io_err_if with trk.
  intros bs. apply strict_bind; auto with trk.
Qed.
Definition read_bytes_core amt buf_len o (l : option leftover) : RM (list byte) :=
    match l with
    | None =>
        if buf_len <? amt then panic else fun r =>
        match r_io amt r with
        | (IoErr e, r') => (Err (if is_eof e then Incomplete (amt * 8) else Io e), r')
        | (IoOk bs, r') => (Ok bs, r_add_bits r' (amt * 8))
        end
    | Some (LByte b) => read_bytes_leftover amt buf_len b
    | Some (LBits _) =>
        if buf_len <? amt then panic else read_bytes_bits amt o
    end.
Lemma read_bytes_as_core amt buf o r : read_bytes amt buf o r = read_bytes_core amt buf o (r_left r) r.
Proof. unfold read_bytes, read_bytes_core. destruct (r_left r) as [[b|l]|]; destruct (buf <? amt); reflexivity. Qed.
Lemma read_bytes_core_tracked amt buf o l : tracked (read_bytes_core amt buf o l).
Proof.
  destruct l as [[b|l]|]; cbn [read_bytes_core].
  - apply read_bytes_leftover_tracked.
  - destruct (buf <? amt); [auto with trk|]. apply tracked_bind; [apply read_bits_into_tracked|]. auto with trk.
  - destruct (buf <? amt); [auto with trk|].
    apply (tracked_io amt (fun e => fail (if is_eof e then Incomplete (amt * 8) else Io e))
      (fun bs => let* _ := modify (fun r => r_add_bits r (amt * 8)) in ret bs)); auto with trk.
    intros bs. apply tracked_bind; auto with trk.
Qed.
Lemma read_bytes_core_strict amt buf o l : (forall bits, l <> Some (LBits bits)) -> strict (read_bytes_core amt buf o l).
Proof.
  intros H. destruct l as [[b|l]|]; cbn [read_bytes_core].
  - apply read_bytes_leftover_strict.
  - now specialize (H l).
  - destruct (buf <? amt); [auto with trk|].
    apply (strict_io amt (fun e => fail (if is_eof e then Incomplete (amt * 8) else Io e))
      (fun bs => let* _ := modify (fun r => r_add_bits r (amt * 8)) in ret bs)
      (fun e => if is_eof e then Incomplete (amt * 8) else Io e)); auto using io_err_if with trk.
    intros bs. apply strict_bind; auto with trk.
Qed.
Lemma read_bytes_tracked amt buf o : tracked (read_bytes amt buf o).
Proof.
  eapply tracked_ext; [apply read_bytes_as_core|]. apply (tracked_left (read_bytes_core amt buf o)), read_bytes_core_tracked.
Qed.
Lemma r_end_tracked : tracked (fun r => let '(b, r') := r_end r in (Ok (OFlag b), r')).
Proof.
  apply tracked_ext with (m2 := fun r => (match r_left r with
     | Some _ => ret (OFlag false)
     | None => fun r => match r_io 1 r with
        | (IoErr k, r') => (if is_eof k then ret (OFlag true) else let* _ := modify (fun r => r_set_left r (Some (LByte x00))) in ret (OFlag false)) r'
        | (IoOk bs, r') => (let* _ := modify (fun r => r_set_left r (Some (LByte (hd x00 bs)))) in ret (OFlag false)) r'
        end end) r).
  { intros r. unfold r_end. destruct (r_left r); [reflexivity|]. destruct (r_io 1 r) as [[bs|e] r']; [reflexivity|].
    destruct (is_eof e); reflexivity. }
  apply (tracked_left (fun l => match l with
     | Some _ => ret (OFlag false)
     | None => fun r => match r_io 1 r with
        | (IoErr k, r') => (if is_eof k then ret (OFlag true) else let* _ := modify (fun r => r_set_left r (Some (LByte x00))) in ret (OFlag false)) r'
        | (IoOk bs, r') => (let* _ := modify (fun r => r_set_left r (Some (LByte (hd x00 bs)))) in ret (OFlag false)) r'
        end end)).
  intros [l|]; [auto with trk|].
  apply (tracked_io 1 (fun k => if is_eof k then ret (OFlag true) else let* _ := modify (fun r => r_set_left r (Some (LByte x00))) in ret (OFlag false))
    (fun bs => let* _ := modify (fun r => r_set_left r (Some (LByte (hd x00 bs)))) in ret (OFlag false))).
  - intros e. destruct (is_eof e); [auto with trk|apply tracked_bind; auto with trk].
  - intros bs. apply tracked_bind; auto with trk.
Qed.
Lemma run_rop_tracked op : tracked (run_rop op).
Proof.
  destruct op as [n o|n o|n|]; cbn [run_rop].
  - apply tracked_bind; [apply read_bits_into_tracked|auto with trk].
  - apply tracked_bind; [apply read_bytes_tracked|auto with trk].
  - apply tracked_bind; [apply read_uint_tracked|auto with trk].
  - apply r_end_tracked.
Qed.
Lemma run_session_tracked ops : tracked (run_session ops).
Proof.
  induction ops as [|op ops IH]; cbn [run_session]; [auto with trk|].
  apply tracked_bind; [apply run_rop_tracked|]. intros x. apply tracked_bind; [exact IH|auto with trk].
Qed.

Lemma run_rop_strict op r x r' e : reports_faults op r -> run_rop op r = (x, r') -> saw_fault r r' e ->
  exists d, x = Err d /\ io_err e d.
Proof.
  intros Hr E Hs. destruct op as [n o|n o|n|]; cbn [run_rop reports_faults] in *.
  - unfold bind, read_bits in E. destruct (read_bits_into n o r) as [y r1] eqn:E1.
    assert (r1 = r') by (destruct y; apply pair_inj in E; apply E). subst r1.
    assert (H : exists d, y = Err d /\ io_err e d).
    { rewrite read_bits_into_core in E1. destruct (n =? 0); [exact (silent_strict _ (silent_ret _) _ _ _ _ E1 Hs)|].
      eapply (read_bits_core_strict n o (r_left r)); [|exact E1|exact Hs].
      unfold r_rest in Hr. unfold left_bits. destruct (r_left r) as [[]|]; exact Hr. }
    destruct H as (d & -> & Hd). apply pair_inj in E; destruct E as [<- _]. eauto.
  - unfold bind in E. destruct (read_bytes n n o r) as [y r1] eqn:E1.
    assert (r1 = r') by (destruct y; apply pair_inj in E; apply E). subst r1.
    rewrite read_bytes_as_core in E1.
    destruct (read_bytes_core_strict n n o (r_left r) Hr _ _ _ _ E1 Hs) as (d & -> & Hd).
    apply pair_inj in E; destruct E as [<- _]. eauto.
  - unfold bind in E. destruct (read_bits_uint_msb0 n r) as [y r1] eqn:E1.
    assert (r1 = r') by (destruct y; apply pair_inj in E; apply E). subst r1.
    destruct (read_uint_strict n _ _ _ _ E1 Hs) as (d & -> & Hd). apply pair_inj in E; destruct E as [<- _]. eauto.
  - contradiction.
Qed.
