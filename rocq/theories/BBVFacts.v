(** The array-level buffer behaves as a list of bits; readers and writers on top of it
    behave as those of [Reader.v] and [Writer.v]. *)
From Coq Require Import Lia ZifyBool ZifyNat ZifyN.
From Verif Require Import Base Spec Stream Reader Writer Session WSession BitsFacts NFacts MonadFacts BBV BBVSpec BBVSession.
Ltac Zify.zify_post_hook ::= Z.div_mod_to_equations.

(** ** Buffers *)
Definition vok (cap : nat) (v : bbv) : Prop := length (v_arr v) = cap /\ v_size v <= cap.
Definition vabs (v : bbv) : list bool := firstn (v_size v) (v_arr v).

Lemma vabs_length cap v : vok cap v -> length (vabs v) = v_size v.
Proof. intros [A B]. unfold vabs. rewrite firstn_length. lia. Qed.
Lemma v_new_ok cap : vok cap (v_new cap).
Proof. split; cbn; [apply repeat_length|lia]. Qed.
Lemma v_slice_ok cap v : vok cap v -> v_slice v = Ok (vabs v).
Proof. intros [A B]. unfold v_slice. replace (v_size v <=? length (v_arr v)) with true by lia. reflexivity. Qed.
Lemma v_extend_ok cap v l : vok cap v -> v_size v + length l <= cap ->
  exists v', v_extend v l = Ok v' /\ vok cap v' /\ vabs v' = vabs v ++ l.
Proof.
  intros [A B] H. unfold v_extend. replace (v_size v + length l <=? length (v_arr v)) with true by lia.
  eexists. split; [reflexivity|]. split.
  - split; cbn; [|lia]. unfold arr_copy. rewrite !app_length, firstn_length, skipn_length. lia.
  - unfold vabs, arr_copy. cbn. rewrite app_assoc.
    assert (E : length (firstn (v_size v) (v_arr v) ++ l) = v_size v + length l) by (rewrite app_length, firstn_length; lia).
    rewrite <- E. apply firstn_length_app.
Qed.
Lemma v_extend_panic cap v l : vok cap v -> cap < v_size v + length l -> v_extend v l = Panic.
Proof. intros [A B] H. unfold v_extend. replace (v_size v + length l <=? length (v_arr v)) with false by lia. reflexivity. Qed.
Lemma v_from_ok cap l : length l <= cap -> exists v, v_from cap l = Ok v /\ vok cap v /\ vabs v = l.
Proof.
  intros H. destruct (v_extend_ok cap (v_new cap) l (v_new_ok cap)) as (v & E & O & A); [cbn; lia|].
  exists v. auto.
Qed.
Lemma v_split_ok cap v i : vok cap v -> i < v_size v ->
  exists l r, v_split_off v i = Ok (l, r) /\ vok cap l /\ vok cap r /\ vabs l = firstn i (vabs v) /\ vabs r = skipn i (vabs v).
Proof.
  intros O H. pose proof O as [A B]. unfold v_split_off. replace (i <? v_size v) with true by lia. rewrite A.
  destruct (v_from_ok cap (skipn i (vabs v))) as (r & E & O' & A').
  { rewrite skipn_length, (vabs_length cap v O). lia. }
  unfold vabs in E at 1. rewrite E. eexists _, r. split; [reflexivity|]. split; [split; cbn; lia|]. split; [exact O'|].
  split; [|exact A']. unfold vabs. cbn. rewrite firstn_firstn. f_equal. lia.
Qed.
Lemma v_of_array_ok l : vok (length l) (v_of_array l) /\ vabs (v_of_array l) = l.
Proof. split; [split; cbn; lia|]. unfold vabs. cbn. apply firstn_all. Qed.
Lemma v_msb0_ok v : vok 8 v ->
  N.shiftr (fst (v_msb0_byte v)) (N.of_nat (8 - snd (v_msb0_byte v))) = bits2N (vabs v).
Proof.
  intros [A B]. unfold v_msb0_byte, vabs. cbn [fst snd]. rewrite firstn_all2 by lia.
  rewrite bits2N_firstn by lia. rewrite A, N.shiftr_div_pow2. reflexivity.
Qed.
Lemma v_full_raw cap v : vok cap v -> v_full v = true -> v_raw v = bytes_of_bits (vabs v).
Proof. intros [A B] F. unfold v_full in F. unfold v_raw, vabs. rewrite firstn_all2 by lia. reflexivity. Qed.
Lemma v_of_byte_ok b n : n <= 8 -> exists v, v_of_msb0_byte b n = Ok v /\ vok 8 v /\ vabs v = firstn n (byte_bits b).
Proof.
  intros H. unfold v_of_msb0_byte. replace (n <=? 8) with true by lia. eexists. split; [reflexivity|].
  split; [split; cbn; [apply byte_bits_length|lia]|reflexivity].
Qed.
Lemma removelast_firstn {A} (l : list A) : removelast l = firstn (length l - 1) l.
Proof. rewrite removelast_firstn_len. f_equal. lia. Qed.
Lemma v_insert_ok cap v i b : vok cap v -> v_size v < cap -> i < v_size v ->
  exists v', v_insert v i b = Ok v' /\ vok cap v' /\ vabs v' = firstn i (vabs v) ++ b :: skipn i (vabs v).
Proof.
  intros [A B] H I. unfold v_insert. replace ((v_size v <? length (v_arr v)) && (i <? v_size v)) with true by lia.
  eexists. split; [reflexivity|]. rewrite removelast_firstn. split.
  - split; cbn; [|lia]. rewrite app_length, firstn_length. cbn. rewrite firstn_length, skipn_length. lia.
  - unfold vabs. cbn [v_size v_arr]. rewrite firstn_app_ge by (rewrite firstn_length; lia).
    rewrite firstn_length. replace (S (v_size v) - Nat.min i (length (v_arr v))) with (S (v_size v - i)) by lia.
    cbn [firstn]. rewrite (firstn_firstn (v_arr v) i (v_size v)), skipn_firstn_comm, (firstn_firstn (skipn i (v_arr v))).
    rewrite skipn_length. replace (Nat.min i (v_size v)) with i by lia.
    replace (Nat.min (v_size v - i) (length (v_arr v) - i - 1)) with (v_size v - i) by lia. reflexivity.
Qed.
Lemma v_push_ok cap v b : vok cap v -> v_size v < cap ->
  exists v', v_push v b = Ok v' /\ vok cap v' /\ vabs v' = vabs v ++ [b].
Proof.
  intros O H. destruct (v_extend_ok cap v [b] O) as (v' & E & O' & A); [cbn; lia|].
  exists v'. split; [|split; assumption]. rewrite <- E. destruct O as [L S]. unfold v_push, v_extend. cbn [length].
  replace (v_size v <? length (v_arr v)) with true by lia. replace (v_size v + 1 <=? length (v_arr v)) with true by lia.
  do 2 f_equal. lia.
Qed.

Lemma v_step_sim cap v o : vok cap v ->
  match v_step v o with
  | Ok v' => vok cap v' /\ l_step cap (vabs v) o = Some (vabs v')
  | Panic => l_step cap (vabs v) o = None
  | _ => False
  end.
Proof.
  intros O. pose proof (vabs_length cap v O) as L. pose proof O as [A B].
  destruct o as [m|i b|b|i|i| |b n]; cbn [v_step l_step]; rewrite ?L.
  - destruct (v_size v + length m <=? cap) eqn:C.
    + destruct (v_extend_ok cap v m O) as (v' & E & O' & H); [lia|]. rewrite E, H. auto.
    + rewrite (v_extend_panic cap v m O) by lia. reflexivity.
  - destruct ((v_size v <? cap) && (i <? v_size v)) eqn:C.
    + destruct (v_insert_ok cap v i b O) as (v' & E & O' & H); [lia..|]. rewrite E, H. auto.
    + unfold v_insert. rewrite A, C. reflexivity.
  - destruct (v_size v <? cap) eqn:C.
    + destruct (v_push_ok cap v b O) as (v' & E & O' & H); [lia|]. rewrite E, H. auto.
    + unfold v_push. rewrite A, C. reflexivity.
  - destruct (i <? v_size v) eqn:C.
    + destruct (v_split_ok cap v i O) as (l & r & E & O1 & O2 & H1 & H2); [lia|]. rewrite E, H1. auto.
    + unfold v_split_off. rewrite C. reflexivity.
  - destruct (i <? v_size v) eqn:C.
    + destruct (v_split_ok cap v i O) as (l & r & E & O1 & O2 & H1 & H2); [lia|]. rewrite E, H2. auto.
    + unfold v_split_off. rewrite C. reflexivity.
  - split; [split; cbn; lia|reflexivity].
  - rewrite A. destruct (cap =? 8) eqn:C; [|reflexivity]. cbn [andb].
    destruct (n <=? 8) eqn:D.
    + destruct (v_of_byte_ok b n) as (v' & E & O' & H); [lia|]. rewrite E, H. split; [|reflexivity].
      replace cap with 8 by lia. exact O'.
    + unfold v_of_msb0_byte. rewrite D. reflexivity.
Qed.
Lemma v_answers cap v : vok cap v -> answers cap v (vabs v).
Proof.
  intros O. pose proof (vabs_length cap v O) as L. pose proof O as [A B]. unfold answers. rewrite L.
  split; [now apply (v_slice_ok cap)|]. split; [reflexivity|]. split; [exact A|]. split; [reflexivity|].
  split; [unfold v_full; now rewrite A|]. split; [now apply (v_full_raw cap)|].
  intros ->. now apply v_msb0_ok.
Qed.
Lemma v_run_sim cap ops : forall v, vok cap v ->
  match v_run v ops with
  | Ok v' => exists l, l_run cap (vabs v) ops = Some l /\ answers cap v' l
  | Panic => l_run cap (vabs v) ops = None
  | _ => False
  end.
Proof.
  induction ops as [|o tl IH]; intros v O; cbn [v_run l_run].
  - exists (vabs v). split; [reflexivity|]. now apply v_answers.
  - pose proof (v_step_sim cap v o O) as H. destruct (v_step v o) as [v'|e| |]; try contradiction.
    + destruct H as [O' ->]. apply IH, O'.
    + now rewrite H.
Qed.
Theorem buffer_histories cap ops :
  match v_run (v_new cap) ops with
  | Ok v => exists l, l_run cap [] ops = Some l /\ answers cap v l
  | Panic => l_run cap [] ops = None
  | _ => False
  end.
Proof. apply (v_run_sim cap ops (v_new cap)), v_new_ok. Qed.

(** ** Readers *)
Definition absl (l : option aleft) : option leftover :=
  match l with Some (AByte b) => Some (LByte b) | Some (ABits v) => Some (LBits (vabs v)) | None => None end.
Definition absr (a : areader) : reader := mkReader (a_s a) (absl (a_left a)) (a_bits a).
Definition okl (l : option aleft) : Prop := match l with Some (ABits v) => vok 8 v | _ => True end.
Definition aok (a : areader) : Prop := okl (a_left a).
Definition asim {A} (m : AM A) (n : RM A) : Prop :=
  forall a, aok a -> n (absr a) = (fst (m a), absr (snd (m a))) /\ aok (snd (m a)).

Lemma asim_ret {A} (x : A) : asim (ret x) (ret x).
Proof. intros a O. split; [reflexivity|exact O]. Qed.
Lemma asim_panic {A} : asim (@panic _ A) panic.
Proof. intros a O. split; [reflexivity|exact O]. Qed.
Lemma asim_bind {A B} (m : AM A) n (f : A -> AM B) g : asim m n -> (forall x, asim (f x) (g x)) -> asim (bind m f) (bind n g).
Proof.
  intros M F a O. destruct (M a O) as [E O']. unfold bind. rewrite E. destruct (m a) as [[x|e| |] a']; cbn in *; auto.
  exact (F x a' O').
Qed.
Lemma asim_bind' {A B} (Q : A -> Prop) (m : AM A) n (f : A -> AM B) g : asim m n ->
  (forall r x r', n r = (Ok x, r') -> Q x) -> (forall x, Q x -> asim (f x) (g x)) -> asim (bind m f) (bind n g).
Proof.
  intros M HQ F a O. destruct (M a O) as [E O']. specialize (HQ (absr a)). unfold bind. rewrite E in *.
  destruct (m a) as [[x|e| |] a']; cbn in *; auto. exact (F x (HQ x _ eq_refl) a' O').
Qed.
Lemma asim_assert b : asim (assert_ b) (assert_ b).
Proof. destruct b; [apply asim_ret|apply asim_panic]. Qed.
Lemma asim_add n : asim (a_add_bits n) (modify (fun r => r_add_bits r n)).
Proof. intros a O. split; [reflexivity|exact O]. Qed.
Lemma asim_set l : okl l -> asim (a_set_left l) (modify (fun r => r_set_left r (absl l))).
Proof. intros L a O. split; [reflexivity|exact L]. Qed.
(** Operations that do not touch the leftover. *)
Definition leftless {A} (m : RM A) : Prop :=
  forall s l b, m (mkReader s l b) = (fst (m (mkReader s None b)), r_set_left (snd (m (mkReader s None b))) l).
Lemma asim_src {A} (m : RM A) : leftless m -> asim (a_src m) m.
Proof.
  intros M a O. unfold a_src, absr. rewrite M. destruct (m (mkReader (a_s a) None (a_bits a))) as [x r]. cbn. split; [reflexivity|exact O].
Qed.
Lemma leftless_ret {A} (x : A) : leftless (ret x).
Proof. intros s l b. reflexivity. Qed.
Lemma leftless_bind {A B} (m : RM A) (f : A -> RM B) : leftless m -> (forall x, leftless (f x)) -> leftless (bind m f).
Proof.
  intros M F s l b. unfold bind. rewrite M. destruct (m (mkReader s None b)) as [[x|e| |] r] eqn:E; cbn; try reflexivity.
  destruct r as [s' l' b']. cbn [r_set_left r_s r_bits].
  assert (L : l' = None). { specialize (M s None b). rewrite E in M. unfold r_set_left in M. cbn in M. congruence. }
  subst l'. apply F.
Qed.
Lemma fill_slots_leftless n k : leftless (fill_slots n k).
Proof.
  induction k as [|k IH]; [apply leftless_ret|]. intros s l b. cbn [fill_slots]. unfold r_io. cbn [r_s].
  destruct (s_read_exact 1 s) as [[bs|e] s'].
  - refine (leftless_bind _ _ IH _ s' l b). intros x. apply leftless_ret.
  - destruct (is_eof e); [reflexivity|]. refine (leftless_bind _ _ IH _ s' l b). intros x. apply leftless_ret.
Qed.
Lemma rem_byte_leftless n : leftless (read_rem_byte n).
Proof. intros s l b. unfold read_rem_byte, r_io. cbn [r_s]. destruct (s_read_exact 1 s) as [[bs|e] s']; reflexivity. Qed.
Lemma uint_loop_leftless fuel : forall amt acc have, leftless (uint_loop fuel amt acc have).
Proof.
  induction fuel as [|fuel IH]; intros amt acc have s l b; cbn [uint_loop]; destruct (amt <=? have); try reflexivity.
  unfold r_io. cbn [r_s]. destruct (s_read_exact 1 s) as [[bs|e] s']; [|reflexivity]. exact (IH _ _ _ s' l b).
Qed.
Lemma uint_loop_have fuel : forall amt acc have r p r', uint_loop fuel amt acc have r = (Ok p, r') ->
  amt <= snd p /\ (snd p = have \/ snd p < amt + 8).
Proof.
  induction fuel as [|fuel IH]; intros amt acc have r p r'; cbn [uint_loop]; destruct (amt <=? have) eqn:E; intros H.
  - injection H as <- <-. cbn. lia.
  - discriminate.
  - injection H as <- <-. cbn. lia.
  - destruct (r_io 1 r) as [[bs|e] r1]; [|discriminate]. apply IH in H. lia.
Qed.
Definition buflist (l : option aleft) : list bool := match a_buffer l with Some v => vabs v | None => [] end.
Lemma buffer_ok l v : okl l -> a_buffer l = Some v -> vok 8 v.
Proof.
  destruct l as [[b|w]|]; cbn; intros O E; try discriminate; injection E as <-; [|exact O].
  pose proof (proj1 (v_of_array_ok (byte_bits b))) as H. rewrite byte_bits_length in H. exact H.
Qed.
Lemma buflist_left l : left_bits (absl l) = buflist l.
Proof.
  unfold buflist. destruct l as [[b|w]|]; cbn; try reflexivity. symmetry. apply (proj2 (v_of_array_ok (byte_bits b))).
Qed.
Lemma buflist_length l : okl l -> length (buflist l) = match a_buffer l with Some v => v_len v | None => 0 end.
Proof.
  intros O. unfold buflist. destruct (a_buffer l) as [v|] eqn:E; [|reflexivity]. exact (vabs_length 8 v (buffer_ok _ _ O E)).
Qed.
Lemma asim_eq {A} (m : AM A) (n n' : RM A) : asim m n -> (forall r, n r = n' r) -> asim m n'.
Proof. intros M E a O. rewrite <- E. exact (M a O). Qed.
Lemma asim_eq_l {A} (m m' : AM A) (n : RM A) : asim m n -> (forall a, m a = m' a) -> asim m' n.
Proof. intros M E a O. rewrite <- E. exact (M a O). Qed.
Lemma asim_fun {A} (m : AM A) (n : RM A) : asim m n -> asim (fun a => m a) (fun r => n r).
Proof. exact (fun H => H). Qed.

Lemma asim_lift {A B} (v : res A) x (f : A -> AM B) n : v = Ok x -> asim (f x) n -> asim (bind (r_lift v) f) n.
Proof. intros -> H a O. exact (H a O). Qed.
Lemma asim_assoc {A B C} (m : AM A) (f : A -> AM B) (g : B -> AM C) n : asim (bind m (fun x => bind (f x) g)) n -> asim (bind (bind m f) g) n.
Proof. intros H a O. rewrite bind_assoc. exact (H a O). Qed.
Lemma asim_retl {A B} (x : A) (f : A -> AM B) n : asim (f x) n -> asim (bind (ret x) f) n.
Proof. intros H a O. exact (H a O). Qed.
Lemma asim_set' v l : vok 8 v -> vabs v = l -> asim (a_set_left (Some (ABits v))) (modify (fun r => r_set_left r (Some (LBits l)))).
Proof. intros V <-. exact (asim_set (Some (ABits v)) V). Qed.
Lemma asim_pre {A} (m : AM (list bool)) prev (f : list bool -> AM A) n : asim m (ret prev) -> asim (f prev) n -> asim (bind m f) n.
Proof.
  intros M F a O. destruct (M a O) as [E O']. unfold bind. destruct (m a) as [x a'] eqn:EM. cbn in E, O'.
  unfold ret in E. apply pair_inj in E. destruct E as [<- E]. assert (H := F a' O'). rewrite E. exact H.
Qed.

Lemma read_bits_sim n o : asim (a_read_bits n o) (read_bits_into n o).
Proof.
  unfold a_read_bits, read_bits_into. destruct (n =? 0) eqn:Z; [apply asim_ret|].
  intros a O. set (l := a_left a). assert (OL : okl l) by exact O.
  change (absr a) with (mkReader (a_s a) (absl l) (a_bits a)). cbn [r_left].
  rewrite buflist_left. rewrite <- (buflist_length l OL).
  set (prev := buflist l) in *.
  cbv zeta. change (r_set_left (mkReader (a_s a) (absl l) (a_bits a)) None) with (absr (mkA (a_s a) None (a_bits a))).
  assert (P : forall v, a_buffer l = Some v -> v_slice v = Ok prev /\ v_len v = length prev /\ vok 8 v /\ vabs v = prev).
  { intros v E. pose proof (buffer_ok l v OL E) as V. unfold prev, buflist. rewrite E.
    split; [now apply (v_slice_ok 8)|]. split; [symmetry; exact (vabs_length 8 v V)|]. split; [exact V|reflexivity]. }
  assert (G : asim (match a_buffer l with Some v => r_lift (v_slice v) | None => ret [] end) (ret prev)).
  { destruct (a_buffer l) as [v|] eqn:E.
    - destruct (P v eq_refl) as (S & _). rewrite S. exact (asim_ret prev).
    - unfold prev, buflist. rewrite E. apply asim_ret. }
  match goal with |- ?n (absr ?a) = (fst (?m ?a), _) /\ _ => enough (H : asim m n) by exact (H a I) end.
  apply asim_bind; [|intros dst; apply asim_bind; [apply asim_add|intros _; apply asim_ret]].
  destruct (n ?= length prev) eqn:C.
  - apply Nat.compare_eq_iff in C. destruct (a_buffer l) as [v|] eqn:E.
    + destruct (P v eq_refl) as (S & L & V & A). rewrite L, S. apply asim_bind; [apply asim_assert|intros _; apply asim_ret].
    + exfalso. unfold prev, buflist in C. rewrite E in C. cbn in C. lia.
  - apply Nat.compare_lt_iff in C. destruct (a_buffer l) as [v|] eqn:E.
    + destruct (P v eq_refl) as (S & L & V & A). rewrite L. apply asim_bind; [apply asim_assert|intros _].
      destruct o.
      * destruct (v_split_ok 8 v n V) as (x & y & F & O1 & O2 & H1 & H2); [unfold v_len in L; lia|].
        rewrite A in H1, H2. eapply asim_lift; [exact F|]. cbn [fst snd].
        eapply asim_lift; [rewrite (v_slice_ok 8 x O1), H1; reflexivity|].
        apply asim_bind; [exact (asim_set' y _ O2 H2)|intros _; apply asim_ret].
      * destruct (v_split_ok 8 v (length prev - n) V) as (x & y & F & O1 & O2 & H1 & H2); [unfold v_len in L; lia|].
        rewrite A in H1, H2. eapply asim_lift; [exact F|]. cbn [fst snd].
        eapply asim_lift; [rewrite (v_slice_ok 8 y O2), H2; reflexivity|].
        apply asim_bind; [exact (asim_set' x _ O1 H1)|intros _; apply asim_ret].
    + exfalso. unfold prev, buflist in C. rewrite E in C. cbn in C. lia.
  - assert (R : forall m, length m <= 8 -> exists v, v_from 8 m = Ok v /\ asim (a_set_left (Some (ABits v))) (modify (fun r => r_set_left r (Some (LBits m))))).
    { intros m Hm. destruct (v_from_ok 8 m Hm) as (v & E & V & A). exists v. split; [exact E|now apply asim_set']. }
    set (rem := (n - length prev) mod 8).
    destruct o; [unfold read_greater_msb|unfold read_greater_lsb]; (apply asim_bind; [apply asim_src, fill_slots_leftless|intros bs]); fold rem.
    + apply (asim_pre _ prev _ _ G). destruct (rem =? 0) eqn:E.
      * apply asim_retl. rewrite app_nil_r. apply asim_ret.
      * apply asim_assoc.
        apply asim_bind; [apply asim_src, rem_byte_leftless|intros b].
        apply asim_assoc.
        destruct (R (skipn rem (byte_bits b))) as (v & Ev & Sv); [rewrite skipn_length, byte_bits_length; lia|].
        eapply asim_lift; [exact Ev|]. apply asim_assoc.
        apply asim_bind; [exact Sv|intros _]. apply asim_retl, asim_ret.
    + destruct (rem =? 0) eqn:E.
      * apply asim_retl. apply (asim_pre _ prev _ _ G). apply asim_ret.
      * apply asim_assoc.
        apply asim_bind; [apply asim_src, rem_byte_leftless|intros b].
        apply asim_assoc.
        destruct (R (firstn (8 - rem) (byte_bits b))) as (v & Ev & Sv); [rewrite firstn_length, byte_bits_length; lia|].
        eapply asim_lift; [exact Ev|]. apply asim_assoc.
        apply asim_bind; [exact Sv|intros _]. apply asim_retl.
        apply (asim_pre _ prev _ _ G). apply asim_ret.
Qed.
Lemma as_msb0_shift l : length l <= 8 -> N.shiftr (as_msb0_byte l) (N.of_nat (8 - length l)) = bits2N l.
Proof.
  intros H. unfold as_msb0_byte. rewrite bits2N_shift_zeros, N.shiftr_div_pow2, N.div_mul by (apply pow2_nz). reflexivity.
Qed.
Lemma asim_guard {A} b (f : unit -> AM A) g : (b = true -> asim (f tt) (g tt)) -> asim (bind (assert_ b) f) (bind (assert_ b) g).
Proof. destruct b; intros H a O; [exact (H eq_refl a O)|split; [reflexivity|exact O]]. Qed.
Lemma uint_sim amt : asim (a_read_uint amt) (read_bits_uint_msb0 amt).
Proof.
  unfold a_read_uint, read_bits_uint_msb0. apply asim_guard. intros Z.
  intros a O. set (start := match a_left a with Some (AByte b) => (Byte.to_N b, 8) | Some (ABits v) => (bits2N (vabs v), v_size v) | None => (0%N, 0) end).
  assert (S8 : snd start <= 8). { unfold start. destruct (a_left a) as [[b|v]|] eqn:E; cbn; try lia. unfold aok in O. rewrite E in O. apply O. }
  assert (E1 : (match a_left a with
      | Some (AByte b) => (Byte.to_N b, 8)
      | Some (ABits v) => let '(raw, size) := v_msb0_byte v in if size =? 0 then (0%N, 0) else (N.shiftr raw (N.of_nat (8 - size)), size)
      | None => (0%N, 0) end) = start).
  { unfold start. destruct (a_left a) as [[b|v]|] eqn:E; try reflexivity. unfold aok in O. rewrite E in O.
    pose proof (v_msb0_ok v O) as H. unfold v_msb0_byte in *. cbn [fst snd] in H. destruct (v_size v =? 0) eqn:V.
    - unfold vabs. replace (v_size v) with 0 by lia. reflexivity.
    - now rewrite H. }
  assert (E2 : (match r_left (absr a) with
      | Some (LByte b) => (Byte.to_N b, 8)
      | Some (LBits bits) => if length bits =? 0 then (0%N, 0) else (N.shiftr (as_msb0_byte bits) (N.of_nat (8 - length bits)), length bits)
      | None => (0%N, 0) end) = start).
  { unfold start. cbn [absr r_left]. destruct (a_left a) as [[b|v]|] eqn:E; try reflexivity. unfold aok in O. rewrite E in O. cbn [absl].
    pose proof (vabs_length 8 v O) as L. pose proof O as [_ O2]. rewrite as_msb0_shift by lia. rewrite L. destruct (v_size v =? 0) eqn:V; [|reflexivity].
    unfold vabs. replace (v_size v) with 0 by lia. reflexivity. }
  rewrite E1, E2. destruct start as [acc have]. cbn [snd] in S8. clear E1 E2.
  change (r_set_left (absr a) None) with (absr (mkA (a_s a) None (a_bits a))).
  assert (O' : aok (mkA (a_s a) None (a_bits a))) by exact I.
  match goal with |- ?n (absr ?a) = (fst (?m ?a), _) /\ _ => enough (H : asim m n) by exact (H a O') end.
  apply (asim_bind' (fun p => snd p - amt <= 8)).
  { apply asim_src, uint_loop_leftless. }
  { intros r p r' H. apply uint_loop_have in H. lia. }
  intros [acc' have'] H. cbn [snd] in H.
  apply asim_bind; [|intros _; apply asim_bind; [apply asim_add|intros _; apply asim_ret]].
  destruct (have' - amt =? 0); [apply asim_ret|].
  match goal with |- asim (bind (r_lift (v_of_msb0_byte ?b ?n)) _) _ => destruct (v_of_byte_ok b n) as (v & Ev & V & A) end; [lia|].
  eapply asim_lift; [exact Ev|]. apply asim_set'; [exact V|]. rewrite A, byte_bits_of_bits by apply N2bits_length. reflexivity.
Qed.
Lemma bytes_sim amt len o : asim (a_read_bytes amt len o) (read_bytes amt len o).
Proof.
  intros a O. unfold a_read_bytes. destruct (a_left a) as [[b|v]|] eqn:E.
  - unfold absr at 1. rewrite E. cbn [absl]. unfold read_bytes at 1. cbn [r_left]. unfold read_bytes_leftover.
    destruct (len =? 0) eqn:Z; [unfold panic; cbn [fst snd]; unfold absr; rewrite E; split; [reflexivity|exact O]|].
    unfold a_src. cbn [a_s a_bits a_left]. unfold modify, bind, r_set_left. cbn [r_s r_bits].
    destruct (amt =? 0); [split; [reflexivity|exact I]|]. cbv zeta.
    destruct (amt - 1 =? 0); [split; [reflexivity|exact I]|].
    destruct (len <? amt - 1); [split; [reflexivity|exact I]|].
    destruct (len <? amt); [split; [reflexivity|exact I]|].
    unfold r_io. cbn [r_s]. destruct (s_read_exact (amt - 1) (a_s a)) as [[bs|e] s']; (split; [reflexivity|exact I]).
  - unfold absr at 1. rewrite E. cbn [absl]. unfold read_bytes at 1. cbn [r_left].
    destruct (len <? amt) eqn:Z; [cbn [fst snd]; unfold absr; rewrite E; split; [reflexivity|exact O]|].
    change (mkReader (a_s a) (Some (LBits (vabs v))) (a_bits a)) with (mkReader (a_s a) (absl (Some (ABits v))) (a_bits a)).
    rewrite <- E. change (mkReader (a_s a) (absl (a_left a)) (a_bits a)) with (absr a).
    match goal with |- ?n (absr ?a) = (fst (?m ?a), _) /\ _ => enough (H : asim m n) by exact (H a O) end.
    unfold read_bytes_bits. apply asim_bind; [apply read_bits_sim|intros l; apply asim_ret].
  - unfold a_src, absr. rewrite E. cbn [absl]. unfold read_bytes. cbn [r_left].
    destruct (len <? amt); [split; [reflexivity|exact I]|].
    unfold r_io. cbn [r_s]. destruct (s_read_exact amt (a_s a)) as [[bs|e] s']; (split; [reflexivity|exact I]).
Qed.
Lemma seek_sim w a : aok a -> r_seek w (absr a) = (fst (a_seek w a), absr (snd (a_seek w a))) /\ aok (snd (a_seek w a)).
Proof.
  intros O. unfold r_seek, a_seek. cbn [absr r_set_left r_s]. destruct (s_seek w (a_s a)) as [[p|k] s]; (split; [reflexivity|exact I]).
Qed.
Lemma seek_sim' w : asim (lift_io (a_seek w)) (lift_io (r_seek w)).
Proof.
  intros a O. unfold lift_io. destruct (seek_sim w a O) as [E O']. rewrite E. destruct (a_seek w a) as [[p|k] a']; cbn in *; auto.
Qed.
Lemma skip_sim amt o : asim (a_skip amt o) (skip_bits amt o).
Proof.
  intros a O. unfold a_skip, skip_bits.
  match goal with |- ?n (absr ?a) = (fst (?m ?a), _) /\ _ => enough (H : asim m n) by exact (H a O) end.
  apply asim_bind.
  - cbn [absr r_left]. destruct (a_left a) as [[b|v]|] eqn:E; cbn [absl]; try apply asim_ret.
    unfold aok in O. rewrite E in O. rewrite (vabs_length 8 v O). apply asim_bind; [apply read_bits_sim|intros _; apply asim_ret].
  - clear a O. intros n. apply asim_bind.
    + destruct (n / 8 =? 0); [apply asim_ret|]. intros a O.
      change (r_bits (absr a)) with (a_bits a). destruct (negb (a_bits a mod 8 =? 0)); [split; [reflexivity|exact O]|].
      match goal with |- ?n (absr ?a) = (fst (?m ?a), _) /\ _ => enough (H : asim m n) by exact (H a O) end.
      apply asim_bind; [apply seek_sim'|intros _; apply asim_ret].
    + intros _. apply asim_bind; [apply read_bits_sim|intros _; apply asim_ret].
Qed.
Lemma end_sim a : aok a -> r_end (absr a) = (fst (a_end a), absr (snd (a_end a))) /\ aok (snd (a_end a)).
Proof.
  intros O. unfold r_end, a_end. cbn [absr r_left]. destruct (a_left a) as [[b|v]|] eqn:E; cbn [absl fst snd].
  - split; [unfold absr; rewrite E; reflexivity|exact O].
  - split; [unfold absr; rewrite E; reflexivity|exact O].
  - unfold r_io, a_io. cbn [r_s absr]. destruct (s_read_exact 1 (a_s a)) as [[bs|k] s]; [split; [reflexivity|exact I]|].
    destruct (is_eof k); [split; [unfold absr; cbn; rewrite E; reflexivity|unfold aok; cbn; now rewrite E]|split; [reflexivity|exact I]].
Qed.
Lemma rop_sim op : asim (a_rop op) (run_rop op).
Proof.
  destruct op; cbn [a_rop run_rop].
  - apply asim_bind; [apply read_bits_sim|intros; apply asim_ret].
  - apply asim_bind; [apply bytes_sim|intros; apply asim_ret].
  - apply asim_bind; [apply uint_sim|intros; apply asim_ret].
  - intros a O. destruct (end_sim a O) as [E O']. rewrite E. destruct (a_end a) as [b a']. cbn in *. auto.
Qed.
Lemma rest_sim a : aok a -> a_rest a = r_rest (absr a).
Proof.
  intros O. unfold a_rest, r_rest. cbn [absr r_left]. unfold aok in O. destruct (a_left a) as [[b|v]|]; cbn [absl]; try reflexivity.
  now rewrite (v_slice_ok 8 v O).
Qed.
Lemma step_sim h a : aok a -> h_step h (absr a) = (fst (a_step h a), absr (snd (a_step h a))) /\ aok (snd (a_step h a)).
Proof.
  intros O. destruct h as [op|n o|w]; cbn [h_step a_step].
  - destruct (rop_sim op a O) as [E O']. rewrite E. destruct (a_rop op a). auto.
  - destruct (skip_sim n o a O) as [E O']. rewrite E. destruct (a_skip n o a). auto.
  - destruct (seek_sim w a O) as [E O']. rewrite E. destruct (a_seek w a). auto.
Qed.
Lemma run_sim hs : forall a, aok a -> a_run hs a = h_run hs (absr a).
Proof.
  induction hs as [|h tl IH]; intros a O; [reflexivity|]. cbn [a_run h_run].
  destruct (step_sim h a O) as [E O']. rewrite E. destruct (a_step h a) as [x a']. cbn [fst snd] in *.
  rewrite (rest_sim a' O'), (IH a' O'). reflexivity.
Qed.
Theorem reader_histories s hs : a_run hs (a_new s) = h_run hs (reader_new s).
Proof. exact (run_sim hs (a_new s) I). Qed.

(** ** Writers *)
Definition absw (w : awriter) : writer := mkWriter (aw_k w) (vabs (aw_left w)) (aw_ord w) (aw_bits w).
Definition awok (w : awriter) : Prop := vok 8 (aw_left w).
Definition at_sim {A} (w : awriter) (m : AWM A) (n : WM A) : Prop :=
  n (absw w) = (fst (m w), absw (snd (m w))) /\ awok (snd (m w)).
Definition wsim {A} (m : AWM A) (n : WM A) : Prop := forall w, awok w -> at_sim w m n.

Lemma wsim_ret {A} (x : A) : wsim (ret x) (ret x).
Proof. intros w O. split; [reflexivity|exact O]. Qed.
Lemma wsim_panic {A} : wsim (@panic _ A) panic.
Proof. intros w O. split; [reflexivity|exact O]. Qed.
Lemma wsim_bind {A B} (m : AWM A) n (f : A -> AWM B) g : wsim m n -> (forall x, wsim (f x) (g x)) -> wsim (bind m f) (bind n g).
Proof.
  intros M F a O. destruct (M a O) as [E O']. unfold at_sim, bind. rewrite E. destruct (m a) as [[x|e| |] a']; cbn in *; auto.
  exact (F x a' O').
Qed.
Lemma wsim_assert b : wsim (assert_ b) (assert_ b).
Proof. destruct b; [apply wsim_ret|apply wsim_panic]. Qed.
Lemma wsim_retl {A B} (x : A) (f : A -> AWM B) n : wsim (f x) n -> wsim (bind (ret x) f) n.
Proof. exact (fun H => H). Qed.
Lemma wsim_lift {A B} (v : res A) x (f : A -> AWM B) n : v = Ok x -> wsim (f x) n -> wsim (bind (r_lift v) f) n.
Proof. intros -> H. exact H. Qed.
Lemma wsim_assoc {A B C} (m : AWM A) (f : A -> AWM B) (g : B -> AWM C) n : wsim (bind m (fun x => bind (f x) g)) n -> wsim (bind (bind m f) g) n.
Proof. intros H a O. specialize (H a O). unfold at_sim in *. rewrite bind_assoc. exact H. Qed.
Lemma wsim_assoc_r {A B C} m (n : WM A) (f : A -> WM B) (g : B -> WM C) : wsim m (bind n (fun x => bind (f x) g)) -> wsim m (bind (bind n f) g).
Proof. intros H a O. specialize (H a O). unfold at_sim in *. rewrite bind_assoc. exact H. Qed.
Lemma wsim_get {A} (f : awriter -> AWM A) g : (forall w, awok w -> at_sim w (f w) (g (absw w))) -> wsim (bind get f) (bind get g).
Proof. intros H w O. exact (H w O). Qed.
Lemma wsim_take {A} (f : bbv -> AWM A) g : (forall v, vok 8 v -> wsim (f v) (g (vabs v))) -> wsim (bind aw_take f) (bind take_left g).
Proof. intros H w O. apply (H (aw_left w) O (mkAW (aw_k w) (v_new 8) Msb0 (aw_bits w))). exact (v_new_ok 8). Qed.
Lemma wsim_left {A} (f : bbv -> AWM A) g : (forall v, vok 8 v -> wsim (f v) (g (vabs v))) -> wsim (bind aw_get_left f) (bind wleft g).
Proof. intros H w O. exact (H (aw_left w) O w O). Qed.
Lemma wsim_add n : wsim (aw_add_bits n) (wmod (fun w => w_add_bits w n)).
Proof. intros w O. split; [reflexivity|exact O]. Qed.
Lemma wsim_ord o : wsim (aw_set_ord o) (wmod (fun w => w_set_ord w o)).
Proof. intros w O. split; [reflexivity|exact O]. Qed.
Lemma wsim_set v l : vok 8 v -> vabs v = l -> wsim (aw_set_left v) (wmod (fun w => w_set_left w l)).
Proof. intros V <- w O. split; [reflexivity|exact V]. Qed.
Lemma wsim_all bs : wsim (aw_write_all bs) (w_write_all bs).
Proof. intros w O. unfold at_sim, aw_write_all, w_write_all. cbn [absw w_k]. destruct (k_write_all bs (aw_k w)) as [[x|e] k]; (split; [reflexivity|exact O]). Qed.
Lemma wsim_each bs : wsim (aw_write_each bs) (w_write_each bs).
Proof. induction bs as [|b tl IH]; [apply wsim_ret|]. apply wsim_bind; [apply wsim_all|intros _; exact IH]. Qed.
Lemma wsim_extend bs : wsim (aw_extend bs) (left_extend bs).
Proof.
  intros w O. unfold at_sim, aw_extend, left_extend, bind, aw_get_left, r_lift. cbn [absw w_left]. rewrite (vabs_length 8 _ O).
  destruct (v_size (aw_left w) + length bs <=? 8) eqn:E.
  - destruct (v_extend_ok 8 (aw_left w) bs O) as (v & F & V & A); [lia|]. rewrite F.
    split; [|exact V]. cbn. unfold absw, w_set_left. cbn. rewrite A. reflexivity.
  - rewrite (v_extend_panic 8 _ bs O) by lia. split; [reflexivity|exact O].
Qed.
Lemma bytes_of_full l : length l = 8 -> bytes_of_bits l = [byte_of_bits l].
Proof. intros H. rewrite <- (app_nil_r l) at 1. rewrite bytes_of_bits_cons by exact H. reflexivity. Qed.
Lemma wsim_flush : wsim aw_flush flush_full.
Proof.
  intros w O. unfold at_sim, aw_flush, flush_full. rewrite (bind_ok aw_get_left _ w (aw_left w) w eq_refl).
  pose proof (vabs_length 8 _ O) as L. change (w_left (absw w)) with (vabs (aw_left w)). rewrite L.
  pose proof O as [O1 O2]. unfold v_full. rewrite O1. destruct (v_size (aw_left w) =? 8) eqn:E; [|split; [reflexivity|exact O]].
  rewrite (v_full_raw 8 _ O) by (unfold v_full; lia). rewrite bytes_of_full by lia.
  replace (v_len (aw_left w)) with 8 by (unfold v_len; lia).
  match goal with |- ?n (absw ?a) = (fst (?m ?a), _) /\ _ => enough (H : wsim m n) by exact (H a O) end.
  apply wsim_bind; [apply wsim_all|intros _]. apply wsim_bind; [apply wsim_add|intros _].
  intros a Oa. split; [reflexivity|exact (v_new_ok 8)].
Qed.
Lemma wsim_guard {A} o (f : unit -> AWM A) g : wsim (f tt) g ->
  wsim (bind (aw_guard o) f)
    (let* w0 := get in let* _ := assert_ (order_eqb (w_ord w0) o) in let* _ := assert_ (length (w_left w0) <? 8) in g).
Proof.
  intros H. apply wsim_assoc, wsim_get. intros w O. pose proof O as [O1 _].
  change (w_ord (absw w)) with (aw_ord w). change (w_left (absw w)) with (vabs (aw_left w)). rewrite (vabs_length 8 _ O).
  unfold v_capacity, v_len. rewrite O1.
  match goal with |- at_sim _ ?m ?n => enough (G : wsim m n) by exact (G w O) end.
  apply wsim_assoc, wsim_bind; [apply wsim_assert|intros _]. apply wsim_bind; [apply wsim_assert|intros []; exact H].
Qed.
Lemma wsim_fits {A} l (f : unit -> AWM A) g : wsim (f tt) g ->
  wsim (bind (aw_fits l) f) (let* v := wleft in let* _ := assert_ (length v + length l <=? 8) in g).
Proof.
  intros H. apply wsim_assoc, wsim_left. intros v V. rewrite (vabs_length 8 v V). destruct V as [V1 V2]. unfold v_len, v_capacity. rewrite V1.
  apply wsim_bind; [apply wsim_assert|intros []; exact H].
Qed.
Lemma wsim_full_or {A} l (f : unit -> AWM A) g : wsim (f tt) g ->
  wsim (bind (aw_full_or l) f) (let* v := wleft in let* _ := assert_ ((length v =? 8) || (length l =? 0)) in g).
Proof.
  intros H. apply wsim_assoc, wsim_left. intros v V. rewrite (vabs_length 8 v V). destruct V as [V1 V2]. unfold v_full. rewrite V1.
  apply wsim_bind; [apply wsim_assert|intros []; exact H].
Qed.
Ltac wsteps :=
  repeat first
    [ apply wsim_guard | apply wsim_fits | apply wsim_full_or
    | apply wsim_ret | apply wsim_ord | apply wsim_extend | apply wsim_flush
    | apply wsim_bind; [first [apply wsim_extend | apply wsim_flush | apply wsim_each | apply wsim_add | apply wsim_ord]|intros _] ].
Lemma v_cap8 v : vok 8 v -> v_capacity v = 8 /\ v_len v = length (vabs v) /\ v_empty v = (length (vabs v) =? 0) /\ v_slice v = Ok (vabs v).
Proof.
  intros V. pose proof V as [V1 V2]. split; [exact V1|]. split; [symmetry; exact (vabs_length 8 v V)|].
  split; [unfold v_empty; now rewrite (vabs_length 8 v V)|now apply (v_slice_ok 8)].
Qed.
Lemma msb_msb_sim bits : wsim (aw_msb_msb bits) (write_msb_msb bits).
Proof.
  unfold aw_msb_msb, write_msb_msb. apply wsim_guard, wsim_take. intros v V. destruct (v_cap8 v V) as (C & L & E & S). rewrite C, L, E.
  apply wsim_bind.
  - destruct (length (vabs v) =? 0); [apply wsim_ret|]. cbv zeta. eapply wsim_lift; [exact S|]. wsteps.
  - intros rest. wsteps.
Qed.
Lemma lsb_lsb_sim bits : wsim (aw_lsb_lsb bits) (write_lsb_lsb bits).
Proof.
  unfold aw_lsb_lsb, write_lsb_lsb. apply wsim_guard, wsim_take. intros v V. destruct (v_cap8 v V) as (C & L & E & S). rewrite C, L, E.
  apply wsim_bind.
  - destruct (length (vabs v) =? 0); [apply wsim_ret|]. cbv zeta. eapply wsim_lift; [exact S|]. wsteps.
  - intros rest. wsteps.
Qed.
Lemma msb_lsb_sim bits : wsim (aw_msb_lsb bits) (write_msb_lsb bits).
Proof.
  unfold aw_msb_lsb, write_msb_lsb. apply wsim_guard, wsim_take. intros v V. destruct (v_cap8 v V) as (C & L & E & S). rewrite C, L, E.
  destruct (length (vabs v) =? 0).
  - apply wsim_retl. cbv beta iota zeta. wsteps.
  - cbv zeta. apply wsim_assoc. eapply wsim_lift; [exact S|]. apply wsim_retl. cbv beta iota zeta. wsteps.
Qed.
Lemma lsb_msb_sim bits : wsim (aw_lsb_msb bits) (write_lsb_msb bits).
Proof.
  unfold aw_lsb_msb, write_lsb_msb. apply wsim_guard, wsim_take. intros v V. destruct (v_cap8 v V) as (C & L & E & S). rewrite C, L, E.
  destruct (length (vabs v) =? 0).
  - apply wsim_retl. cbv beta iota zeta. wsteps.
  - cbv zeta. apply wsim_assoc. eapply wsim_lift; [exact S|]. apply wsim_retl. cbv beta iota zeta. wsteps.
Qed.
Lemma write_bits_sim bits o : wsim (aw_write_bits bits o) (write_bits_order bits o).
Proof.
  intros w O. unfold at_sim, aw_write_bits, write_bits_order. change (w_ord (absw w)) with (aw_ord w). destruct (aw_ord w), o.
  - exact (msb_msb_sim bits w O).
  - exact (msb_lsb_sim bits w O).
  - exact (lsb_msb_sim bits w O).
  - exact (lsb_lsb_sim bits w O).
Qed.
Lemma write_bytes_sim buf : wsim (aw_write_bytes buf) (write_bytes buf).
Proof.
  intros w O. unfold at_sim, aw_write_bytes, write_bytes. change (w_left (absw w)) with (vabs (aw_left w)).
  destruct (v_cap8 _ O) as (C & L & E & S). rewrite <- E. destruct (negb (v_empty (aw_left w))).
  - exact (write_bits_sim _ _ w O).
  - match goal with |- ?n (absw ?a) = (fst (?m ?a), _) /\ _ => enough (H : wsim m n) by exact (H a O) end.
    apply wsim_bind; [apply wsim_all|intros _; apply wsim_add].
Qed.
Lemma finalize_sim : wsim aw_finalize finalize.
Proof.
  intros w O. unfold at_sim, aw_finalize, finalize. change (w_left (absw w)) with (vabs (aw_left w)). change (w_ord (absw w)) with (aw_ord w).
  destruct (v_cap8 _ O) as (C & L & E & S). rewrite C, L. destruct (length (vabs (aw_left w)) <? 8).
  - exact (write_bits_sim _ _ w O).
  - split; [reflexivity|exact O].
Qed.
Lemma write_uint_sim v n : wsim (aw_write_uint v n) (write_bits_uint_msb0 v n).
Proof.
  unfold aw_write_uint, write_bits_uint_msb0. apply wsim_bind; [apply wsim_assert|intros _]. apply wsim_get. intros w O.
  change (w_ord (absw w)) with (aw_ord w). change (w_left (absw w)) with (vabs (aw_left w)).
  match goal with |- at_sim _ ?m ?n => enough (G : wsim m n) by exact (G w O) end.
  apply wsim_bind; [apply wsim_assert|intros _].
  pose proof (v_msb0_ok _ O) as H. pose proof (vabs_length 8 _ O) as L. pose proof O as [O1 O2]. rewrite L.
  pose proof (as_msb0_shift (vabs (aw_left w))) as M. unfold as_msb0_byte in M. rewrite L in M. specialize (M O2).
  unfold v_msb0_byte in *. cbn [fst snd] in H. rewrite H, M. clear H M.
  generalize (bits2N (vabs (aw_left w))). generalize (v_size (aw_left w)). clear w O L O1 O2. intros len lead.
  cbv zeta. apply wsim_bind; [|intros _; apply wsim_bind; [|intros _; apply wsim_ord]].
  - match goal with |- context [?x / 8 =? 0] => destruct (x / 8 =? 0) end; [apply wsim_ret|].
    match goal with |- context [9 <? ?x] => destruct (9 <? x) end; [apply wsim_panic|].
    apply wsim_bind; [apply wsim_all|intros _; apply wsim_add].
  - match goal with |- context [?x mod 8 =? 0] => destruct (x mod 8 =? 0) end.
    + intros w O. split; [reflexivity|]. destruct O as [O1 O2]. split; cbn; lia.
    + match goal with |- wsim (bind (r_lift (v_of_msb0_byte ?b ?n)) _) _ => destruct (v_of_byte_ok b n) as (u & Eu & U & A) end; [lia|].
      eapply wsim_lift; [exact Eu|]. apply wsim_set; [exact U|]. rewrite A, byte_bits_of_bits by apply N2bits_length. reflexivity.
Qed.
Lemma wop_sim op : wsim (aw_op op) (run_wop op).
Proof.
  destruct op; cbn [aw_op run_wop].
  - apply write_bits_sim.
  - apply write_bytes_sim.
  - intros w O. unfold at_sim. change (w_ord (absw w)) with (aw_ord w). destruct (aw_ord w).
    + exact (write_uint_sim _ _ w O).
    + exact (write_bits_sim _ _ w O).
Qed.
Lemma wstep_sim h w : awok w -> wh_step h (absw w) = (fst (aw_step h w), absw (snd (aw_step h w))) /\ awok (snd (aw_step h w)).
Proof.
  intros O. destruct h as [op|t|]; cbn [wh_step aw_step].
  - destruct (wop_sim op w O) as [E O']. rewrite E. destruct (aw_op op w). auto.
  - unfold w_seek, aw_seek. cbn [absw w_set_left w_set_ord w_k]. destruct (k_seek t (aw_k w)) as [x k]. split; [reflexivity|].
    destruct O as [O1 O2]. split; cbn; [exact O1|lia].
  - destruct (finalize_sim w O) as [E O']. rewrite E. destruct (aw_finalize w). auto.
Qed.
Lemma wrun_sim hs : forall w, awok w -> aw_run hs w = wh_run hs (absw w).
Proof.
  induction hs as [|h tl IH]; intros w O; [reflexivity|]. cbn [aw_run wh_run].
  destruct (wstep_sim h w O) as [E O']. rewrite E. destruct (aw_step h w) as [x w']. cbn [fst snd] in *.
  rewrite (IH w' O'). unfold aw_rest, w_rest. cbn [absw w_left]. rewrite (v_slice_ok 8 _ O'). reflexivity.
Qed.
Theorem writer_histories k hs : aw_run hs (aw_new k) = wh_run hs (writer_new k).
Proof. exact (wrun_sim hs (aw_new k) (v_new_ok 8)). Qed.

(** ** The conversions of [Prims.v] *)
From Verif Require Import Prims.
Definition or_panic {A} (x : option A) : res A := match x with Some a => Ok a | None => Panic end.
Lemma inserts_run cap i k : forall l, or_panic (l_run cap l (repeat (BInsert i false) k)) = bbv_inserts cap k i l.
Proof.
  induction k as [|k IH]; intros l; [reflexivity|]. cbn [repeat l_run l_step bbv_inserts].
  destruct ((length l <? cap) && (i <? length l)); [apply IH|reflexivity].
Qed.
Lemma pushes_run cap k : forall l, length l <= cap -> or_panic (l_run cap l (repeat (BPush false) k)) = bbv_pushes cap k l.
Proof.
  unfold bbv_pushes. induction k as [|k IH]; intros l H; cbn [repeat l_run l_step or_panic].
  - replace (length l + 0 <=? cap) with true by lia. now rewrite app_nil_r.
  - destruct (length l <? cap) eqn:E.
    + rewrite IH by (rewrite app_length; cbn; lia). rewrite app_length. cbn [length].
      replace (length l + 1 + k) with (length l + S k) by lia. destruct (length l + S k <=? cap); [|reflexivity].
      rewrite <- app_assoc. reflexivity.
    + replace (length l + S k <=? cap) with false by lia. reflexivity.
Qed.
(** [From<&[bool]>] is [From<&BitSlice>]. *)
Lemma v_pushes_from cap l : forall v, vok cap v ->
  match v_pushes v l with
  | Ok v' => vok cap v' /\ vabs v' = vabs v ++ l /\ length (vabs v ++ l) <= cap
  | Panic => cap < length (vabs v ++ l)
  | _ => False
  end.
Proof.
  induction l as [|b tl IH]; intros v O; cbn [v_pushes].
  - rewrite app_nil_r. split; [exact O|]. split; [reflexivity|]. rewrite (vabs_length cap v O). apply O.
  - destruct (Nat.lt_ge_cases (v_size v) cap) as [H|H].
    + destruct (v_push_ok cap v b O H) as (v' & E & O' & A). rewrite E. specialize (IH v' O'). rewrite A, <- app_assoc in IH. exact IH.
    + unfold v_push. destruct O as [O1 O2]. replace (v_size v <? length (v_arr v)) with false by lia.
      rewrite app_length, (vabs_length cap v (conj O1 O2)). cbn. lia.
Qed.
Theorem from_bools cap l :
  match v_pushes (v_new cap) l, v_from cap l with
  | Ok v, Ok v' => answers cap v l /\ answers cap v' l
  | Panic, Panic => cap < length l
  | _, _ => False
  end.
Proof.
  pose proof (v_pushes_from cap l (v_new cap) (v_new_ok cap)) as H. cbn [vabs v_new v_size firstn app] in H.
  destruct (v_pushes (v_new cap) l) as [v|e| |]; try contradiction.
  - destruct H as (O & A & L). destruct (v_from_ok cap l L) as (v' & E & O' & A'). rewrite E.
    pose proof (v_answers cap v O) as X. pose proof (v_answers cap v' O') as Y. rewrite A in X. rewrite A' in Y. auto.
  - unfold v_from. rewrite (v_extend_panic cap (v_new cap) l (v_new_ok cap)) by (cbn; lia). exact H.
Qed.
