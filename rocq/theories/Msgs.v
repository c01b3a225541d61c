(** Messages one after another: C59. *)
From Coq Require Import Lia ZifyBool ZifyNat ZifyN.
From Verif Require Import Base MonadFacts Spec Stream Reader Session BitsFacts NFacts Prims Containers ReaderFacts ReaderOps
  SourceSim CodecSpec CodecFacts Derive DeriveSpec DeriveFacts DeriveSound DeriveClosed DeriveProps FastRead ReadStreams Place MsgSpec.
Ltac Zify.zify_post_hook ::= Z.div_mod_to_equations.

(** ** Where the source stands *)
Section Stand.
Variables (src : stream) (base : nat) (long : Prop).
Hypothesis long_start : long -> base = 0.
Definition stood (r : reader) : Prop :=
  r_wf r /\ quiet (r_s r) /\ s_noseek (r_s r) = None /\ (s_data (r_s r) = s_data src /\ s_eat (r_s r) = s_eat src) /\ r_bits r + length (left_bits (r_left r)) + 8 * base = 8 * s_pos (r_s r).
Definition stands {A} (m : RM A) : Prop := forall r a r', stood r -> m r = (Ok a, r') -> stood r' /\ (~ peeked r -> ~ peeked r').
Lemma stands_ext {A} (m1 m2 : RM A) : (forall r, m1 r = m2 r) -> stands m1 -> stands m2.
Proof. intros E H r a r'. rewrite <- E. apply H. Qed.
Lemma stands_lift {A} (x : res A) : stands (lift x).
Proof. intros r a r' H E. apply pair_inj in E. destruct E as [_ <-]. auto. Qed.
Lemma stands_bind {A B} (m : RM A) (f : A -> RM B) : stands m -> (forall a, stands (f a)) -> stands (bind m f).
Proof.
  intros M F r b r' H E. apply bind_inv in E. destruct E as (a & r1 & E1 & E2). destruct (M _ _ _ H E1) as [H1 P1].
  destruct (F a _ _ _ H1 E2) as [H2 P2]. auto.
Qed.
Lemma stands_see {A} (f : reader -> RM A) : (forall r, stands (f r)) -> stands (fun r => f r r).
Proof. intros F r. exact (F r r). Qed.
Lemma stood_adv r r' n : stood r -> adv r r' n -> stood r'.
Proof.
  intros (Hw & Hq & Hn & Hs & Hb) A. pose proof A as [S1 W1 B1 P1 _ V1]. split; [exact W1|]. split; [exact (adv_quiet _ _ _ A Hq)|].
  split; [unfold virt_moved in V1; now rewrite V1, Hn|]. split; [destruct S1 as (X & Y & _), Hs; split; congruence|]. lia.
Qed.
Lemma stands_step {A} (m : RM A) :
  (forall r a r', r_wf r -> quiet (r_s r) -> m r = (Ok a, r') -> exists n, adv r r' n /\ (~ peeked r -> ~ peeked r')) -> stands m.
Proof. intros H r a r' P E. destruct (H r a r' (proj1 P) (proj1 (proj2 P)) E) as (n & A1 & U). split; [eapply stood_adv; eassumption|exact U]. Qed.
Lemma stands_bits n o : stands (read_bits_into n o).
Proof. apply stands_step. intros r a r' W Q E. destruct (bits_step n o r a r' W Q E) as (l & A1 & _ & U). eauto. Qed.
Lemma stands_uint n : stands (read_bits_uint_msb0 n).
Proof.
  assert (D : 1 <= n <= 64 \/ ~ (1 <= n <= 64)) by lia. destruct D as [D|D].
  - apply stands_step. intros r a r' W Q E. rewrite (fast_read_generic _ _ W Q D) in E.
    apply bind_inv in E. destruct E as (l & r1 & E1 & E2). apply pair_inj in E2. destruct E2 as [_ <-]. destruct (bits_step n Msb0 r l r1 W Q E1) as (l' & A1 & _ & U). eauto.
  - apply stands_ext with (m1 := lift Panic); [|apply stands_lift]. intros r. unfold read_bits_uint_msb0. replace ((1 <=? n) && (n <=? 64)) with false by lia. reflexivity.
Qed.
Lemma stands_bytes n k o : stands (read_bytes n k o).
Proof.
  apply stands_step. intros r a r' W Q E.
  assert (K : n <= k /\ (n = 0 -> ~ peeked r)).
  { unfold read_bytes in E. destruct (r_left r) as [[b|l]|] eqn:L.
    - unfold read_bytes_leftover, bind, modify in E. destruct (k =? 0) eqn:K0; [discriminate|]. destruct (n =? 0) eqn:N0; [discriminate|].
      destruct (n - 1 =? 0) eqn:N1; [split; lia|]. destruct (k <? n - 1) eqn:K1; [discriminate|]. destruct (k <? n) eqn:K2; [discriminate|]. split; lia.
    - destruct (k <? n) eqn:K2; [discriminate|]. split; [lia|]. intros _ [b X]. congruence.
    - destruct (k <? n) eqn:K2; [discriminate|]. split; [lia|]. intros _ [b X]. congruence. }
  destruct K as [K1 K2]. pose proof (read_bytes_spec n k o r W Q K1 K2) as S. destruct (take_bits o (8 * n) (unread r)) as [[l u']|] eqn:T.
  - destruct S as (bs & r1 & E1 & _ & A & U). pose proof E1 as E0. rewrite E1 in E. apply pair_inj in E. destruct E as [_ <-]. exists (8 * n). split; [exact A|].
    eapply read_bytes_unpeeked. exact E0.
  - destruct S as (e & r1 & E1 & _). rewrite E1 in E. discriminate.
Qed.
Lemma stands_fail {A} e : stands (fail (A:=A) e).
Proof. exact (stands_lift (Err e)). Qed.
Lemma stands_ret {A} (a : A) : stands (ret a).
Proof. exact (stands_lift (Ok a)). Qed.
Lemma stands_prim p c : stands (prim_read p c).
Proof.
  assert (HY : forall e n o, stands (read_eyo p e n o)).
  { intros e n o. unfold read_eyo, read_u8_bytes, read_bytes_sized. destruct p; [|destruct (_ <? _); [apply stands_fail|]..];
      (apply stands_bind; [now apply stands_bytes|intros; apply stands_ret]). }
  assert (HU : forall wb e n o, stands (read_u_bits wb e n o)).
  { intros wb e n o. unfold read_u_bits. destruct (_ <? n); [apply stands_fail|]. cbv zeta.
    assert (SL : stands (let* bits := read_bits_into n o in lift (u_of_bits wb e n o bits))) by (apply stands_bind; [now apply stands_bits|intros; apply stands_lift]).
    destruct e, o; auto. destruct (_ && _); auto. apply stands_bind; [apply stands_uint|intros; apply stands_ret]. }
  assert (HO : forall e n o, stands (read_ebo p e n o)).
  { intros e n o. unfold read_ebo. destruct p; auto. unfold read_i_bits. destruct (_ <? n); [apply stands_fail|].
    apply stands_bind; [now apply stands_bits|intros; apply stands_lift]. }
  assert (HE : forall e, stands (read_e p e)) by (intros; unfold read_e, read_bytes_const; apply stands_bind; [apply stands_bytes|intros; apply stands_ret]).
  destruct c; cbn [prim_read]; try destruct (_ mod 8 =? 0); auto.
Qed.
Lemma end_stood r b r' : stood r -> r_end r = (b, r') -> stood r'.
Proof.
  intros P E. destruct (r_end_spec r (proj1 P) (proj1 (proj2 P))) as (r1 & E1 & A & U). rewrite E1 in E. apply pair_inj in E. destruct E as [_ <-].
  eapply stood_adv; eassumption.
Qed.
Lemma end_stood_unpeeked r r' : stood r -> r_end r = (true, r') -> ~ peeked r'.
Proof.
  intros P E. destruct (r_end_spec r (proj1 P) (proj1 (proj2 P))) as (r1 & E1 & A & U). rewrite E1 in E. apply pair_inj in E. destruct E as [Z <-].
  intros [c L]. apply Nat.eqb_eq in Z. rewrite <- U in Z. unfold unread in Z. rewrite L in Z. discriminate.
Qed.
Lemma stands_seek w : long -> stands (lift_io (r_seek w)).
Proof.
  intros Hl r p r' (Hw & Hq & Hn & Hs & Hb) E. unfold lift_io, r_seek, s_seek in E. cbn [r_set_left r_s] in E. rewrite (Hq _), Hn in E.
  destruct (seek_target _ _ _) as [q|]; [|discriminate]. apply pair_inj in E. destruct E as [_ <-]. specialize (long_start Hl).
  split; [|intros _ [b X]; discriminate]. split; [exact I|]. split; [intros k; cbn; apply Hq|]. split; [exact Hn|]. split; [exact Hs|].
  cbn [r_set_left r_set_bits r_set_s r_bits r_left r_s left_bits length s_goto s_tick s_pos]. lia.
Qed.
Lemma stands_skip n o : long \/ n < 8 -> stands (skip_bits n o).
Proof.
  intros H. eapply stands_ext; [intros r; symmetry; apply skip_eq|].
  apply (stands_see (fun r => let n0 := match r_left r with Some (Reader.LBits bits) => Nat.min n (length bits) | _ => 0 end in _)).
  intros r. cbv zeta. apply stands_bind; [apply stands_bits|]. intros _. apply stands_bind; [|intros _; apply stands_bind; [apply stands_bits|intros _; apply stands_ret]].
  destruct (_ =? 0) eqn:Z; [apply stands_ret|].
  intros r1 a r' P E. destruct (negb _); [discriminate|]. revert P E. match goal with |- _ -> ?m r1 = _ -> _ => apply (stands_bind (A:=nat) (B:=unit)); [|intros; apply stands_ret] end.
  apply stands_seek. destruct H as [H|H]; [exact H|]. exfalso. apply Nat.eqb_neq in Z. apply Z. apply Nat.div_small. lia.
Qed.
Lemma stands_vec_loop {A} (elem : RM A) stop : stands elem -> forall fuel s acc, stands (vec_loop fuel elem stop s acc).
Proof.
  intros E. induction fuel as [|f IH]; intros s acc; cbn [vec_loop]; [exact (stands_lift Diverge)|]. apply stands_bind; [exact E|]. intros v.
  eapply stands_ext; [|apply (stands_see (fun r => if r_bits r <? s then lift Panic else if stop (r_bits r - s) (acc ++ [v]) then ret (acc ++ [v]) else vec_loop f elem stop s (acc ++ [v])))].
  - intros r. cbv beta. destruct (_ <? s); [reflexivity|]. now destruct (stop _ _).
  - intros r. destruct (_ <? s); [apply stands_lift|]. destruct (stop _ _); [apply stands_ret|apply IH].
Qed.
Lemma stands_end_loop {A} (elem : RM A) : stands elem -> forall fuel acc r a r', stood r -> end_loop fuel elem acc r = (Ok a, r') -> stood r' /\ ~ peeked r'.
Proof.
  intros E. induction fuel as [|f IH]; intros acc r a r' P X; cbn [end_loop] in X; [discriminate|].
  destruct (r_end r) as [[] r1] eqn:E1.
  - apply pair_inj in X. destruct X as [_ <-]. split; [eapply end_stood|eapply end_stood_unpeeked]; eassumption.
  - apply end_stood in E1; [|exact P]. apply bind_inv in X. destruct X as (v & r2 & X1 & X2). eapply IH; [|exact X2]. eapply E; eassumption.
Qed.
Lemma stands_vec {A} fuel size (elem : RM A) lim : stands elem -> stands (vec_read fuel size elem lim).
Proof.
  intros E. assert (HP : forall f cap stop, stands (vec_with_predicate f size cap elem stop)).
  { intros. unfold vec_with_predicate. destruct (size =? 0)%N; [apply stands_ret|].
    match goal with |- stands (if ?b then _ else _) => destruct b end; [exact (stands_lift Panic)|].
    apply (stands_see (fun r => vec_loop f elem stop (r_bits r) [])). intros r. now apply stands_vec_loop. }
  destruct lim as [n|p|n|n|]; cbn [vec_read].
  - destruct (n =? 0)%N; [apply stands_ret|]. eapply stands_ext; [|apply HP]. reflexivity.
  - apply HP.
  - destruct (_ <? _)%N; [exact (stands_lift Panic)|]. destruct (_ =? 0)%N; [apply stands_ret|apply HP].
  - destruct (n =? 0)%N; [apply stands_ret|apply HP].
  - unfold vec_to_end. destruct (size =? 0)%N; [apply stands_ret|]. intros r a r' P X. destruct (stands_end_loop elem E _ _ _ _ _ P X). auto.
Qed.
Lemma stands_cstring fuel : stands (read_cstring fuel).
Proof.
  unfold read_cstring. apply stands_bind; [apply stands_vec, stands_prim|]. intros l. unfold to_cstring. destruct (from_vec_with_nul l); [apply stands_ret|apply stands_fail].
Qed.
Lemma stands_cstring_bytes n : stands (read_cstring_bytes n).
Proof.
  unfold read_cstring_bytes. apply stands_bind; [apply stands_vec, stands_prim|]. intros l. unfold to_cstring. destruct (from_vec_with_nul l); [apply stands_ret|apply stands_fail].
Qed.
Lemma stands_exact n : stands (read_exact_vec n).
Proof.
  intros r a r' P X. pose proof P as (Hw & Hq & Hn & Hs & Hb). destruct (exact_state n r Hn Hq) as (r1 & E & D1 & P1 & A1 & N1 & Q1 & L1 & B1).
  rewrite E in X. destruct (_ <? _); [discriminate|]. destruct (N.of_nat _ <? n)%N; [destruct (usize_max <? _)%N; discriminate|].
  assert (P2 : stood r1) by (unfold stood, r_wf in *; rewrite D1, P1, A1, L1, B1; auto).
  destruct (stands_bytes _ _ _ r1 a r' P2 X) as [X1 X2]. split; [exact X1|]. unfold peeked in *. now rewrite L1 in X2.
Qed.
Lemma plain_stands cu fuel t : every (fun c => long \/ c_seek c = None) (fun _ => True)
    (fun _ a _ => (long \/ a_seek a = None) /\ a_reader a = None /\
       (long \/ forall p, a_pad_before a = Some p \/ a_pad_after a = Some p -> forall ctx fs, (p ctx fs < 8)%Z))
    (fun _ => False) t -> stands (read_ty cu fuel t None []).
Proof.
  intros H. eapply (closed_read cu fuel) with (G := fun _ => True) (P := fun A => @stands A) (offs := True) (ends := True);
    [..|exact H|intros X; discriminate|constructor]; intros; auto.
  - eapply stands_ext; eassumption.
  - apply stands_lift.
  - now apply stands_bind.
  - apply (stands_see (fun r => f (r_bits r))). auto.
  - apply stands_prim.
  - apply stands_prim.
  - now apply stands_vec.
  - apply stands_cstring.
  - apply stands_cstring_bytes.
  - apply stands_exact.
  - destruct H0 as (_ & _ & X). destruct H2 as (ctx & fs & E). apply stands_skip. destruct X as [X|X]; [now left|right]. specialize (X p H1 ctx fs). lia.
  - destruct H0 as ([H0|H0] & _); [now apply stands_seek|congruence].
  - destruct H0 as [H0|H0]; [now apply stands_seek|congruence].
  - destruct H0 as (_ & H0 & _). congruence.
  - contradiction.
Qed.
Lemma straight_stands A (m : RM A) : straight long A m -> stands m.
Proof.
  induction 1.
  - apply stands_lift.
  - now apply stands_bind.
  - apply stands_bits.
  - apply stands_bytes.
  - apply stands_prim.
  - now apply stands_skip.
  - now apply stands_seek.
  - now apply plain_stands.
  - apply (stands_see (fun r => f (r_rest r) (r_bits r))). auto.
  - eapply stands_ext; eassumption.
Qed.
Theorem derived_stands cu fuel t : in_place long cu t -> stands (read_ty cu fuel t None []).
Proof.
  intros H. eapply (closed_read cu fuel) with (G := fun _ => True) (P := fun A => @stands A) (offs := True) (ends := True);
    [..|exact H|intros X; discriminate|constructor]; intros; auto.
  - eapply stands_ext; eassumption.
  - apply stands_lift.
  - now apply stands_bind.
  - apply (stands_see (fun r => f (r_bits r))). auto.
  - apply stands_prim.
  - apply stands_prim.
  - now apply stands_vec.
  - apply stands_cstring.
  - apply stands_cstring_bytes.
  - apply stands_exact.
  - destruct H0 as (_ & _ & X). destruct H2 as (ctx & fs & E). apply stands_skip. destruct X as [X|X]; [now left|right]. specialize (X p H1 ctx fs). lia.
  - destruct H0 as ([H0|H0] & _); [now apply stands_seek|congruence].
  - destruct H0 as [H0|H0]; [now apply stands_seek|congruence].
  - destruct H0 as (_ & H0 & _). apply straight_stands. now apply H0.
  - now apply straight_stands.
Qed.
End Stand.

Theorem from_reader_reads cu fuel t s bit : bit < 8 -> forall x s', from_reader cu fuel t s bit = (x, s') ->
  exists r', (let* _ := if bit =? 0 then ret tt else skip_bits bit Msb0 in let* v := read_ty cu fuel t None [] in fun r => (Ok (r_bits r, v), r)) (reader_new s) = (x, r') /\ s' = r_s r'.
Proof. intros _ x s' E. unfold from_reader in E. match type of E with (let '(_, _) := ?m in _) = _ => destruct m as [y r] end. apply pair_inj in E. destruct E as [-> <-]. eauto. Qed.
Lemma new_stood s : quiet s -> s_noseek s = None -> stood s (s_pos s) (reader_new s).
Proof. intros Hq Hn. split; [exact I|]. split; [exact Hq|]. split; [exact Hn|]. split; [now split|]. cbn. lia. Qed.
Lemma stood_read cu fuel t s bit (long : Prop) : (long -> s_pos s = 0) -> in_place long cu t -> quiet s -> s_noseek s = None -> bit < 8 ->
  forall n v r', (let* _ := if bit =? 0 then ret tt else skip_bits bit Msb0 in let* v := read_ty cu fuel t None [] in fun r => (Ok (r_bits r, v), r)) (reader_new s) = (Ok (n, v), r') ->
  stood s (s_pos s) r' /\ ~ peeked r' /\ r_bits r' = n.
Proof.
  intros Hl H Hq Hn Hb n v r' E. apply bind_inv in E. destruct E as ([] & r1 & E1 & E). apply bind_inv in E. destruct E as (v1 & r2 & E2 & E).
  apply pair_inj in E. destruct E as [E <-]. apply ok_inj in E. apply pair_inj in E. destruct E as [<- <-].
  assert (S1 : stood s (s_pos s) r1 /\ (~ peeked (reader_new s) -> ~ peeked r1)).
  { eapply (stands_bind s (s_pos s)) with (m := if bit =? 0 then ret tt else skip_bits bit Msb0) (f := fun u => ret u);
      [destruct (bit =? 0); [apply stands_ret|apply (stands_skip s (s_pos s) long Hl); now right]|intros; apply stands_ret|now apply new_stood|unfold bind; rewrite E1; reflexivity]. }
  destruct S1 as [S1 U1]. destruct (derived_stands s (s_pos s) long Hl cu fuel t H r1 v1 r2 S1 E2) as [S2 U2].
  split; [exact S2|]. split; [|reflexivity]. apply U2, U1. intros [b X]. discriminate.
Qed.
Theorem from_reader_position cu fuel t s bit (long : Prop) n v s' : (long -> s_pos s = 0) -> in_place long cu t -> quiet s -> s_noseek s = None -> bit < 8 ->
  from_reader cu fuel t s bit = (Ok (n, v), s') -> stands_at (s_pos s + bytes_for n) s s'.
Proof.
  intros Hl H Hq Hn Hb E. apply from_reader_reads in E; [|exact Hb]. destruct E as (r' & E & ->).
  destruct (stood_read cu fuel t s bit long Hl H Hq Hn Hb n v r' E) as ((W & Q & N & (D & A) & B) & U & <-). split; [exact D|]. split; [|auto].
  unfold bytes_for. unfold r_wf in W. destruct (r_left r') as [[b|l]|] eqn:L; cbn [left_bits length] in B; [exfalso; apply U; now exists b|lia|lia].
Qed.

(** ** The same bytes elsewhere *)
Lemma shift_exact0 input p d n : p <= length input -> rsim (shift_rel input p) d (read_exact_vec n).
Proof.
  intros Hl r1 r2 ((Hi & Hd & Hp & He & N1 & N2 & Q1 & Q2) & L & B).
  destruct (exact_state n r1 N1 Q1) as (v1 & -> & D1 & P1 & A1 & M1 & U1 & L1 & B1). destruct (exact_state n r2 N2 Q2) as (v2 & -> & D2 & P2 & A2 & M2 & U2 & L2 & B2).
  assert (R : rrel (shift_rel input p) d v1 v2) by (repeat split; congruence || assumption || lia).
  rewrite Hi, Hp, Hd, skipn_length. replace (length input - p <? s_pos (r_s r2)) with (length input <? p + s_pos (r_s r2)) by lia.
  replace (length input - p - s_pos (r_s r2)) with (length input - (p + s_pos (r_s r2))) by lia.
  destruct (_ <? _); [exact (conj eq_refl R)|]. destruct (N.of_nat _ <? n)%N; [destruct (usize_max <? _)%N; exact (conj eq_refl R)|].
  apply (rsim_bytes (shift_rel input p) d); [apply shift_read|exact R].
Qed.
Theorem from_reader_elsewhere cu fuel t s bit : reads_in_order True False True cu t -> quiet s -> s_noseek s = None -> s_pos s <= length (s_data s) -> bit < 8 ->
  exists x s1 s2, from_reader cu fuel t s bit = (x, s1) /\ from_reader cu fuel t (source_from s (s_pos s)) bit = (x, s2) /\
    s_data s1 = s_data s /\ s_pos s1 = s_pos s + s_pos s2.
Proof.
  intros H Hq Hn Hp Hb. set (Rel := shift_rel (s_data s) (s_pos s)).
  assert (HR : forall n s1 s2, Rel s1 s2 -> fst (s_read_exact n s1) = fst (s_read_exact n s2) /\ Rel (snd (s_read_exact n s1)) (snd (s_read_exact n s2))) by (intros; now apply shift_read).
  assert (HS : rsim Rel 0 (let* _ := if bit =? 0 then ret tt else skip_bits bit Msb0 in let* v := read_ty cu fuel t None [] in fun r => (Ok (r_bits r, v), r))).
  { apply rsim_bind; [destruct (bit =? 0); [apply rsim_ret|now apply rsim_skip_short]|intros _].
    apply rsim_bind; [eapply derived_rsim; [exact HR|..|exact H]; [tauto|tauto|intros _ n; now apply shift_exact0]|]. intros v r1 r2 R. pose proof R as (_ & _ & B). cbn [fst snd]. rewrite B.
    split; [do 2 f_equal; lia|exact R]. }
  destruct (HS (reader_new s) (reader_new (source_from s (s_pos s)))) as [E (R & _)].
  { split; [|now split]. unfold Rel, shift_rel. cbn. repeat split; auto. }
  unfold from_reader.
  match type of E with fst ?a = fst ?b => destruct a as [x1 r1], b as [x2 r2] end. cbn [fst snd] in *. subst x2.
  exists x1, (r_s r1), (r_s r2). split; [reflexivity|]. split; [reflexivity|]. destruct R as (R1 & R2 & R3 & R4 & R5 & R6 & R7 & R8).
  split; assumption.
Qed.

(** ** One after another *)
(** The bits counted so far do not matter. *)
Lemma same_source_read n (s1 s2 : stream) : s1 = s2 -> fst (s_read_exact n s1) = fst (s_read_exact n s2) /\ snd (s_read_exact n s1) = snd (s_read_exact n s2).
Proof. intros ->. auto. Qed.
Lemma later_exact d n : rsim eq d (read_exact_vec n).
Proof.
  assert (HI : forall w, rsim eq d (inner_seek w)).
  { intros w r1 r2 (E & L & B). unfold inner_seek, lift_io. rewrite E. destruct (s_seek w (r_s r2)) as [[p|k] s']; cbn [fst snd]; (split; [reflexivity|]); now split. }
  unfold read_exact_vec. apply rsim_bind; [apply HI|]. intros pos. apply rsim_bind; [apply HI|]. intros e. apply rsim_bind; [apply HI|]. intros _.
  destruct (_ <? _); [apply rsim_panic|]. destruct (N.of_nat _ <? n)%N.
  - destruct (usize_max <? _)%N; [apply rsim_panic|]. exact (rsim_fail eq d (Incomplete (N.to_nat (n * 8)))).
  - apply (rsim_bytes eq d). exact same_source_read.
Qed.
Lemma later_reader cu fuel t d : reads_in_order False False True cu t -> rsim eq d (read_ty cu fuel t None []).
Proof.
  intros H. apply (derived_rsim eq d same_source_read False False True cu fuel t None []); [tauto|tauto| |exact H]. intros _ n. apply later_exact.
Qed.
Lemma new_reader cu fuel t s : from_reader cu fuel t s 0 =
  let '(x, r) := read_ty cu fuel t None [] (reader_new s) in (res_map x (fun v => (r_bits r, v)), r_s r).
Proof. unfold from_reader. cbn [Nat.eqb]. unfold bind, ret. destruct (read_ty cu fuel t None [] (reader_new s)) as [[v|e| |] r]; reflexivity. Qed.
(** A reader between two bytes that has counted whole bytes reads what a new one reads. *)
Lemma between cu fuel t r : reads_in_order False False True cu t -> r_left r = None -> r_bits r mod 8 = 0 ->
  let '(x, s') := from_reader cu fuel t (r_s r) 0 in
  exists r', read_ty cu fuel t None [] r = (res_map x snd, r') /\ r_s r' = s' /\ forall n v, x = Ok (n, v) -> r_bits r' = r_bits r + n.
Proof.
  intros H L B. rewrite new_reader. destruct (later_reader cu fuel t (r_bits r / 8) H r (reader_new (r_s r))) as [E (R1 & R2 & R3)].
  { split; [reflexivity|]. split; [exact L|]. cbn [reader_new r_bits]. lia. }
  destruct (read_ty cu fuel t None [] r) as [x1 r1], (read_ty cu fuel t None [] (reader_new (r_s r))) as [x2 r2]. cbn [fst snd] in *. subst x2.
  exists r1. split; [now destruct x1|]. split; [exact R1|]. intros n v X. destruct x1; try discriminate X. cbn [res_map] in X. apply ok_inj in X. apply pair_inj in X. destruct X as [<- _]. lia.
Qed.
Lemma stood_between s base n r : stood s base r -> ~ peeked r -> r_bits r = n -> n mod 8 = 0 -> r_left r = None.
Proof.
  intros (W & _ & _ & _ & B) U E1 Hm. unfold r_wf in W. destruct (r_left r) as [[b|l]|] eqn:L; [exfalso; apply U; now exists b| |reflexivity]. cbn [left_bits length] in B. lia.
Qed.
Theorem from_reader_next cu fuel t1 t2 s bit (long : Prop) n1 v1 s1 : (long -> s_pos s = 0) -> in_place long cu t1 -> reads_in_order False False True cu t2 ->
  quiet s -> s_noseek s = None -> bit < 8 ->
  from_reader cu fuel t1 s bit = (Ok (n1, v1), s1) -> n1 mod 8 = 0 ->
  from_reader cu fuel (TPair t1 t2) s bit =
    let '(x, s2) := from_reader cu fuel t2 s1 0 in (res_map x (fun p => (n1 + fst p, VPair v1 (snd p))), s2).
Proof.
  intros Hl H1 H2 Hq Hn Hb E Hm. apply from_reader_reads in E; [|exact Hb]. destruct E as (r1 & E & ->).
  destruct (stood_read cu fuel t1 s bit long Hl H1 Hq Hn Hb n1 v1 r1 E) as (P & U & E1).
  pose proof (stood_between _ _ _ _ P U E1 Hm) as L. pose proof (between cu fuel t2 r1 H2 L ltac:(now rewrite E1)) as K.
  unfold from_reader at 1. apply bind_inv in E. destruct E as ([] & r0 & E0 & E). apply bind_inv in E. destruct E as (v & r2 & E2 & E).
  apply pair_inj in E. destruct E as [E <-]. apply ok_inj in E. apply pair_inj in E. destruct E as [_ ->].
  destruct (from_reader cu fuel t2 (r_s r2) 0) as [x s2]. destruct K as (r3 & K1 & <- & K3).
  unfold bind. rewrite E0. change (read_ty cu fuel (TPair t1 t2) None []) with (let* x := read_ty cu fuel t1 None [] in let* y := read_ty cu fuel t2 None [] in ret (VPair x y)).
  unfold bind. rewrite E2, K1. destruct x as [[n v]|e| |]; cbn [res_map fst snd]; [|reflexivity..]. unfold ret. now rewrite (K3 n v eq_refl), E1.
Qed.
Lemma array_between cu fuel t s l s' : messages cu fuel t s l s' -> in_place False cu t -> reads_in_order False False True cu t ->
  quiet s -> s_noseek s = None -> Forall (fun p => fst p mod 8 = 0) l ->
  forall r, r_s r = s -> r_left r = None -> r_bits r mod 8 = 0 ->
  exists r', read_array (length l) (read_ty cu fuel t None []) r = (Ok (map snd l), r') /\ r_s r' = s' /\ r_bits r' = r_bits r + list_sum (map fst l).
Proof.
  intros M H1 H2. induction M as [s|s n v s1 l s' E M IH]; intros Hq Hn Hm r Es L B.
  - exists r. split; [reflexivity|]. split; [exact Es|]. cbn. lia.
  - inversion_clear Hm as [|? ? Hm1 Hm2]. cbn [fst] in Hm1. pose proof E as E0. apply from_reader_position with (long := False) in E0; [|tauto|exact H1|assumption..|lia].
    destruct E0 as (_ & _ & _ & N1 & Q1). subst s. pose proof (between cu fuel t r H2 L B) as K. rewrite E in K. destruct K as (r1 & K1 & K2 & K3). cbn [res_map snd] in K1.
    specialize (K3 n v eq_refl).
    assert (L1 : r_left r1 = None).
    { rewrite new_reader in E. destruct (later_reader cu fuel t (r_bits r / 8) H2 r (reader_new (r_s r))) as [_ (_ & R2 & _)].
      { split; [reflexivity|]. split; [exact L|]. cbn [reader_new r_bits]. lia. }
      rewrite K1 in R2. cbn [snd] in R2. rewrite R2. clear R2. destruct (read_ty cu fuel t None [] (reader_new (r_s r))) as [x r2] eqn:E2. cbn [snd].
      destruct x as [v'| | |]; try discriminate. cbn [res_map] in E. apply pair_inj in E. destruct E as [E <-]. apply ok_inj in E. apply pair_inj in E. destruct E as [<- <-].
      destruct (derived_stands (r_s r) (s_pos (r_s r)) False ltac:(tauto) cu fuel t H1 _ _ _ (new_stood _ Hq Hn) E2) as [P U].
      eapply stood_between; [exact P| |reflexivity|exact Hm1]. apply U. intros [b X]. discriminate. }
    destruct (IH Q1 N1 Hm2 r1 K2 L1 ltac:(lia)) as (r2 & K4 & K5 & K6). exists r2. cbn [length read_array map snd fst]. split.
    + unfold bind. rewrite K1, K4. reflexivity.
    + split; [exact K5|]. cbn [list_sum fold_right]. fold (list_sum (map fst l)). lia.
Qed.
Theorem from_reader_array cu fuel t s l s' : messages cu fuel t s l s' -> in_place False cu t -> reads_in_order False False True cu t ->
  quiet s -> s_noseek s = None -> Forall (fun p => fst p mod 8 = 0) l ->
  from_reader cu fuel (TArray (length l) t) s 0 = (Ok (list_sum (map fst l), VList (map snd l)), s').
Proof.
  intros M H1 H2 Hq Hn Hm. destruct (array_between cu fuel t s l s' M H1 H2 Hq Hn Hm (reader_new s) eq_refl eq_refl eq_refl) as (r' & E & <- & B).
  rewrite new_reader. change (read_ty cu fuel (TArray (length l) t) None []) with (let* vs := read_array (length l) (read_ty cu fuel t None []) in ret (VList vs)).
  unfold bind. rewrite E. cbn [ret res_map]. now rewrite B.
Qed.

(** ** What the properties say *)
Theorem position cu fuel t s bit n v s' : in_place False cu t \/ in_place True cu t /\ s_pos s = 0 ->
  (forall k, s_fault s k = None) -> s_noseek s = None -> bit < 8 ->
  from_reader cu fuel t s bit = (Ok (n, v), s') -> stands_at (s_pos s + bytes_for n) s s'.
Proof.
  intros [H|[H Z]]; [apply (from_reader_position cu fuel t s bit False)|apply (from_reader_position cu fuel t s bit True)]; tauto.
Qed.
Theorem next cu fuel t1 t2 s bit n1 v1 s1 : in_place False cu t1 \/ in_place True cu t1 /\ s_pos s = 0 -> reads_in_order False False True cu t2 ->
  (forall k, s_fault s k = None) -> s_noseek s = None -> bit < 8 ->
  from_reader cu fuel t1 s bit = (Ok (n1, v1), s1) -> n1 mod 8 = 0 ->
  from_reader cu fuel (TPair t1 t2) s bit =
    match from_reader cu fuel t2 s1 0 with
    | (Ok (n2, v2), s2) => (Ok (n1 + n2, VPair v1 v2), s2)
    | (Err e, s2) => (Err e, s2)
    | (Panic, s2) => (Panic, s2)
    | (Diverge, s2) => (Diverge, s2)
    end.
Proof.
  intros H H2 Hq Hn Hb E Hm.
  assert (X : from_reader cu fuel (TPair t1 t2) s bit = let '(x, s2) := from_reader cu fuel t2 s1 0 in (res_map x (fun p => (n1 + fst p, VPair v1 (snd p))), s2))
    by (destruct H as [H|[H Z]]; [eapply (from_reader_next cu fuel t1 t2 s bit False)|eapply (from_reader_next cu fuel t1 t2 s bit True)]; try eassumption; tauto).
  rewrite X. now destruct (from_reader cu fuel t2 s1 0) as [[[]| | |]].
Qed.
(** One message in the middle. *)
Lemma received_one cu ce fuel o t s v bytes enc post : customs_lawful SeekSource o cu ce -> in_place False cu t -> reads_in_order True False True cu t ->
  encode SeekSource o ce t None [] 0 v = Some enc -> length enc <= fuel -> to_bytes cu t v = Ok bytes ->
  quiet s -> s_noseek s = None -> s_pos s <= length (s_data s) -> skipn (s_pos s) (s_data s) = bytes ++ post ->
  exists s', from_reader cu fuel t s 0 = (Ok (length enc, v), s') /\ stands_at (s_pos s + length bytes) s s'.
Proof.
  intros Hcu H1 H2 He Hf Eb Hq Hn Hp Hd. pose proof (lawful_upto _ _ fuel _ _ Hcu) as Hu. destruct (encode_sound SeekSource o cu ce fuel Hu _ _ _ _ _ _ He) as [HW HR]. specialize (HR Hf).
  destruct (emits_at_out o _ _ HW) as (bytes' & pad & E & HB & Hpad). unfold to_bytes in Eb. rewrite E in Eb. apply ok_inj in Eb. subst bytes'.
  destruct (from_reader_at cu fuel SeekSource o t (source_from s (s_pos s)) 0 [] enc (repeat false pad ++ bitstring o post) v HR eq_refl (or_introl eq_refl)) as (s2 & E2).
  - split; [reflexivity|]. split; [exact I|]. cbn. repeat split; lia.
  - unfold s_avail. cbn [source_from s_pos s_data]. rewrite skipn_O, Hd, bitstring_app, HB. cbn [app]. now rewrite <- app_assoc.
  - cbn [Nat.add] in E2. destruct (from_reader_elsewhere cu fuel t s 0 H2 Hq Hn Hp ltac:(lia)) as (x & s1 & s2' & X1 & X2 & _ & _). rewrite X2 in E2. apply pair_inj in E2. destruct E2 as [-> _].
    exists s1. split; [exact X1|]. pose proof (position cu fuel t s 0 _ _ _ (or_introl H1) Hq Hn ltac:(lia) X1) as P.
    assert (HL : length bytes = bytes_for (length enc)). { apply (f_equal (@length bool)) in HB. rewrite bitstring_length, app_length, repeat_length in HB. unfold bytes_for. lia. }
    now rewrite HL.
Qed.
Theorem sent_received cu ce fuel o t : customs_lawful SeekSource o cu ce -> in_place False cu t -> reads_in_order True False True cu t ->
  forall vs bs, Forall2 (fun v b => to_bytes cu t v = Ok b /\ exists enc, encode SeekSource o ce t None [] 0 v = Some enc /\ length enc <= fuel) vs bs ->
  forall s before after, s_data s = before ++ concat bs ++ after -> s_pos s = length before -> (forall k, s_fault s k = None) -> s_noseek s = None ->
  exists l s', messages cu fuel t s l s' /\ map snd l = vs /\ stands_at (length before + length (concat bs)) s s'.
Proof.
  intros Hcu H1 H2 vs bs F. induction F as [|v b vs bs (Eb & enc & He & Hf) F IH]; intros s before after Hd Hp Hq Hn.
  - exists [], s. split; [constructor|]. split; [reflexivity|]. repeat split; auto; cbn [concat length]; lia.
  - cbn [concat] in *. rewrite <- app_assoc in Hd.
    destruct (received_one cu ce fuel o t s v b enc (concat bs ++ after) Hcu H1 H2 He Hf Eb Hq Hn) as (s1 & E1 & (D1 & P1 & A1 & N1 & Q1)).
    { rewrite Hp, Hd, app_length. lia. }
    { rewrite Hp, Hd, skipn_app, skipn_all, Nat.sub_diag. reflexivity. }
    destruct (IH s1 (before ++ b) after) as (l & s' & M & EV & (D2 & P2 & A2 & N2 & Q2)).
    { rewrite D1, Hd. now rewrite !app_assoc. }
    { rewrite P1, Hp, app_length. reflexivity. }
    { exact Q1. }
    { exact N1. }
    exists ((length enc, v) :: l), s'. split; [econstructor; eassumption|]. split; [cbn [map snd]; congruence|].
    repeat split; try congruence; try assumption. rewrite P2, !app_length. lia.
Qed.
