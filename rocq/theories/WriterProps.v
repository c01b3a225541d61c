(** Lemmas behind the writer properties C11-C17. *)
From Coq Require Import Lia ZifyBool ZifyNat ZifyN Permutation.
From Verif Require Import Base MonadFacts Spec Stream Reader Writer BitsFacts NFacts ReaderFacts ReaderOps
  Session SessionFacts ReaderProps WSession WriterFacts.
Ltac Zify.zify_post_hook ::= Z.div_mod_to_equations.

(** ** One call *)

Lemma bytes_perm_orient o bs : Permutation (bitstring o bs) (bits_of_bytes bs).
Proof.
  pose proof (bits_eq_perm o bs [] (orient o (bitstring o bs)) []) as H.
  rewrite !app_nil_r, orient_invol, !orient_nil, !app_nil_r in H. specialize (H eq_refl).
  rewrite H. destruct o; cbn; [reflexivity|apply Permutation_rev].
Qed.

Lemma run_wop_ok op w : w_good w -> wop_ok op ->
  exists w' bs, run_wop op w = (Ok tt, w') /\ wadv w w' bs /\ w_good w' /\
    Permutation (bits_of_bytes bs ++ w_left w') (w_left w ++ wop_bits op) /\
    (wop_in_msb0 op -> w_ord w = Msb0 -> w_ord w' = Msb0 /\ bitstring Msb0 bs ++ w_left w' = w_left w ++ wop_bits op).
Proof.
  intros Hg Hok. destruct op as [l o|bs0|v n]; cbn [run_wop wop_ok wop_bits wop_in_msb0] in *.
  - destruct (write_bits_order_ok l o w Hg) as (w' & bs & E & A & G & O & P & S & _).
    exists w', bs. split; [exact E|]. split; [exact A|]. split; [exact G|]. split; [exact P|].
    intros -> Ho. split; [exact O|]. exact (S Ho).
  - destruct (write_bytes_ok bs0 w Hg) as (w' & bs & E & A & G & O & _ & P & S).
    exists w', bs. split; [exact E|]. split; [exact A|]. split; [exact G|]. split; [exact P|].
    intros _ Ho. split; [rewrite O, Ho; now destruct (_ =? 0)|]. exact (S Ho).
  - destruct (w_ord w) eqn:Ho.
    + destruct (fast_write_ok v n w Hg Ho Hok) as (w' & bs & E & A & G & O & S).
      exists w', bs. split; [exact E|]. split; [exact A|]. split; [exact G|]. split; [|auto].
      exact (bits_eq_perm Msb0 _ _ _ _ S).
    + destruct (write_bits_order_ok (N2bits n v) Msb0 w Hg) as (w' & bs & E & A & G & O & P & S & _).
      exists w', bs. split; [exact E|]. split; [exact A|]. split; [exact G|]. split; [exact P|]. discriminate.
Qed.

Lemma wadv_refl w : wadv w w [].
Proof. now apply wadv_nil. Qed.

Lemma run_wsession_ok ops w : w_good w -> Forall wop_ok ops ->
  exists w' bs, run_wsession ops w = (Ok tt, w') /\ wadv w w' bs /\ w_good w' /\
    Permutation (bits_of_bytes bs ++ w_left w') (w_left w ++ written ops) /\
    (Forall wop_in_msb0 ops -> w_ord w = Msb0 -> w_ord w' = Msb0 /\ bitstring Msb0 bs ++ w_left w' = w_left w ++ written ops).
Proof.
  revert w; induction ops as [|op ops IH]; intros w Hg Hok; cbn [run_wsession].
  - exists w, []. split; [reflexivity|]. split; [apply wadv_refl|]. split; [exact Hg|]. cbn. rewrite !app_nil_r. auto.
  - inversion Hok as [|x y H1 H2]; subst x y.
    destruct (run_wop_ok op w Hg H1) as (w1 & bs1 & E1 & A1 & G1 & P1 & S1). rewrite (bind_ok _ _ _ _ _ E1).
    destruct (IH w1 G1 H2) as (w2 & bs2 & E2 & A2 & G2 & P2 & S2).
    exists w2, (bs1 ++ bs2). split; [exact E2|]. split; [eapply wadv_app; eassumption|]. split; [exact G2|].
    change (written (op :: ops)) with (wop_bits op ++ written ops). split.
    + rewrite bits_of_bytes_app, <- app_assoc, P2, !app_assoc, P1. reflexivity.
    + intros Hm Ho. inversion Hm as [|x y M1 M2]; subst x y. destruct (S1 M1 Ho) as [O1 X1].
      destruct (S2 M2 O1) as [O2 X2]. split; [exact O2|].
      rewrite bitstring_app, <- app_assoc, X2, !app_assoc, X1. reflexivity.
Qed.

(** ** finalize *)

Definition pad_byte (o : order) (p : list bool) : byte :=
  match o with
  | Msb0 => byte_of_bits (p ++ repeat false (8 - length p))
  | Lsb0 => byte_of_bits (repeat false (8 - length p) ++ p)
  end.
Lemma bitstring_inj o a b : bitstring o a = bitstring o b -> a = b.
Proof. intros H. rewrite <- (bytes_of_bitstring o a), H. apply bytes_of_bitstring. Qed.
Lemma finalize_nil w : w_left w = [] -> finalize w = (Ok tt, w).
Proof.
  intros H. unfold finalize. rewrite H. cbn [length Nat.ltb Nat.leb]. change (repeat false ((8 - 0) mod 8)) with (@nil bool).
  destruct w as [k l o n]. cbn in H. subst l. destruct o; cbn; unfold w_add_bits; cbn; rewrite Nat.add_0_r; reflexivity.
Qed.
Lemma finalize_pad w : w_good w -> w_left w <> [] ->
  exists w', finalize w = (Ok tt, w') /\ wadv w w' [pad_byte (w_ord w) (w_left w)] /\ w_good w' /\ w_left w' = [] /\ w_ord w' = w_ord w.
Proof.
  intros Hg Hn. assert (Hl : 0 < length (w_left w) < 8).
  { destruct Hg as [_ Hl]. split; [|exact Hl]. destruct (w_left w); [congruence|cbn; lia]. }
  unfold finalize. destruct (Nat.ltb_spec (length (w_left w)) 8) as [_|]; [|lia].
  replace ((8 - length (w_left w)) mod 8) with (8 - length (w_left w)) by lia.
  destruct (write_bits_order_ok (repeat false (8 - length (w_left w))) (w_ord w) w Hg) as (w' & bs & E & A & G & O & P & S & _).
  specialize (S eq_refl). exists w'. split; [exact E|].
  assert (HL : 8 * length bs + length (w_left w') = 8).
  { apply Permutation_length in P. rewrite !app_length, repeat_length, bits_of_bytes_length in P. lia. }
  destruct G as [Ga Gl]. assert (HL' : w_left w' = []) by (apply length_zero_iff_nil; lia).
  assert (Hbs : bs = [pad_byte (w_ord w) (w_left w)]).
  { apply (bitstring_inj (w_ord w)). rewrite HL', orient_nil, app_nil_r in S. rewrite S.
    rewrite bitstring_cons. change (bitstring (w_ord w) []) with (@nil bool). rewrite app_nil_r.
    unfold pad_byte. destruct (w_ord w); cbn [orient].
    - rewrite byte_bits_of_bits; [reflexivity|]. rewrite app_length, repeat_length. lia.
    - rewrite byte_bits_of_bits; [now rewrite rev_app_distr|]. rewrite app_length, repeat_length. lia. }
  subst bs. split; [exact A|]. split; [split; [exact Ga|exact Gl]|]. auto.
Qed.

Lemma app_len_inj {A} (a b c d : list A) : length a = length c -> a ++ b = c ++ d -> a = c /\ b = d.
Proof.
  revert c; induction a as [|x a IH]; intros [|y c] HL H; try discriminate; [auto|].
  cbn in H. injection H as -> H. destruct (IH c) as [-> ->]; auto.
Qed.
Lemma split_bytes a b p q : length p < 8 -> length q < 8 -> bitstring Msb0 a ++ p = bitstring Msb0 b ++ q -> a = b /\ p = q.
Proof.
  revert b; induction a as [|x a IH]; intros [|y b] Hp Hq H.
  - auto.
  - cbn in H. apply (f_equal (@length bool)) in H. rewrite !app_length, byte_bits_length in H. lia.
  - cbn in H. apply (f_equal (@length bool)) in H. rewrite !app_length, byte_bits_length in H. lia.
  - rewrite !bitstring_cons, <- !app_assoc in H. cbn [orient] in H.
    apply app_len_inj in H; [|now rewrite !byte_bits_length]. destruct H as [H1 H2].
    destruct (IH b Hp Hq H2) as [-> ->]. apply byte_bits_inj in H1. subst. auto.
Qed.
Lemma overlay_read d p a : p <= length d \/ a <> [] -> firstn (length a) (skipn p (overlay d p a)) = a.
Proof.
  intros _. destruct a as [|x a]; [reflexivity|]. rewrite overlay_cons by discriminate. rewrite app_assoc.
  rewrite skipn_app_ge by (rewrite app_length, firstn_length, repeat_length; lia).
  rewrite app_length, firstn_length, repeat_length. replace (p - (Nat.min p (length d) + (p - length d))) with 0 by lia.
  cbn [skipn]. apply firstn_length_app.
Qed.
Lemma overlay_inj d p a b : length a = length b -> overlay d p a = overlay d p b -> a = b.
Proof.
  intros HL H. destruct a as [|x a]; [destruct b; [reflexivity|discriminate]|]. destruct b as [|y b]; [discriminate|].
  rewrite <- (overlay_read d p (x :: a)) by (right; discriminate). rewrite H, HL. apply overlay_read. right; discriminate.
Qed.

(** ** Reachable writers *)

Lemma k_seek_accepting t k : accepting k -> accepting (snd (k_seek t k)).
Proof.
  intros [H1 H2]. unfold k_seek. rewrite (H2 (k_calls k)).
  destruct (k_noseek k); [destruct (noseek_target _ _)|destruct (seek_target _ _ _)]; split; cbn; auto.
Qed.
Lemma w_reachable_good w : w_reachable w -> w_good w.
Proof.
  induction 1 as [k H1 H2|op w _ IH Ho|w _ IH|t w _ IH].
  - split; [split; assumption|cbn; lia].
  - destruct (run_wop_ok op w IH Ho) as (w' & bs & E & _ & G & _). rewrite E. exact G.
  - destruct (w_left w) as [|b p] eqn:E.
    + rewrite (finalize_nil w E). exact IH.
    + destruct (finalize_pad w IH) as (w' & -> & _ & G & _); [congruence|exact G].
  - destruct IH as [Ha _]. unfold w_seek. cbn [w_set_ord w_set_left w_k].
    pose proof (k_seek_accepting t (w_k w) Ha) as H. destruct (k_seek t (w_k w)) as [x k]. cbn in *.
    split; [exact H|cbn; lia].
Qed.

(** ** Round trips *)

(** [bs] has been read, except the last bits [p] that are pending. *)
Definition reading (t : order) (p : list bool) (F : list byte) (u : unread_t) : Prop :=
  take_bits t (length p) ([], F) = Some (orient t p, u).

Lemma take_bytes_app o bs F : take_bits o (8 * length bs) ([], bs ++ F) = Some (bitstring o bs, ([], F)).
Proof.
  rewrite take_bits_bytes by (rewrite app_length; lia).
  now rewrite firstn_length_app, skipn_length_app.
Qed.
Lemma reading_same o p bits bs p' F u' :
  bitstring o bs ++ orient o p' = orient o p ++ orient o bits -> reading o p' F u' ->
  exists u, reading o p (bs ++ F) u /\ take_bits o (length bits) u = Some (orient o bits, u').
Proof.
  intros S R. assert (T : take_bits o (8 * length bs + length p') ([], bs ++ F) = Some (orient o p ++ orient o bits, u')).
  { rewrite take_bits_add, take_bytes_app, R, S. reflexivity. }
  assert (HL : 8 * length bs + length p' = length p + length bits).
  { apply (f_equal (@length bool)) in S. rewrite !app_length, !orient_length, bitstring_length in S. lia. }
  rewrite HL in T. apply take_bits_add_inv in T. destruct T as (u & T1 & T2).
  rewrite <- (orient_length o p), firstn_length_app in T1. rewrite orient_length in T1.
  rewrite <- (orient_length o p), skipn_length_app in T2. exists u. split; assumption.
Qed.
Lemma reading_complete t o p bits b F : length p + length bits = 8 -> 0 < length p ->
  byte_bits b = match t with Msb0 => p ++ bits | Lsb0 => bits ++ p end ->
  exists u, reading t p (b :: F) u /\ take_bits o (length bits) u = Some (orient o bits, ([], F)).
Proof.
  intros HL Hp Hb. exists (bits, F). split.
  - unfold reading. rewrite take_bits_byte by exact Hp. rewrite take_bits_part by (rewrite byte_bits_length; lia).
    rewrite Hb. destruct t; cbn [orient].
    + now rewrite firstn_length_app, skipn_length_app.
    + rewrite rev_app_distr. rewrite <- (rev_length p).
      now rewrite firstn_length_app, skipn_length_app, rev_involutive.
  - rewrite take_bits_part by lia. rewrite <- (orient_length o bits), firstn_all, skipn_all, orient_nil. reflexivity.
Qed.
Lemma cross_short o bits : length bits <= 8 ->
  bitstring o (fst (match o with Lsb0 => msb_lsb_pure [] bits | Msb0 => lsb_msb_pure [] bits end)) ++
  orient o (snd (match o with Lsb0 => msb_lsb_pure [] bits | Msb0 => lsb_msb_pure [] bits end)) = orient o bits.
Proof.
  intros H. assert (Hc : length bits < 8 \/ length bits = 8) by lia. destruct o.
  - unfold lsb_msb_pure. cbn [length]. rewrite Nat.min_0_r, Nat.add_0_r. destruct (Nat.eqb_spec (length bits mod 8) 8); [lia|].
    cbn [fst snd orient]. rewrite app_nil_r. destruct Hc as [Hc|Hc].
    + unfold rchunks8, rchunks8_rem. rewrite Nat.mod_small, firstn_all, skipn_all by exact Hc. reflexivity.
    + destruct (list8 bits Hc) as (a & b & c & d & e & f & g & h & ->). cbn -[byte_bits byte_of_bits].
      rewrite byte_bits_of_bits by reflexivity. reflexivity.
  - unfold msb_lsb_pure. cbn [length Nat.eqb fst snd orient]. destruct Hc as [Hc|Hc].
    + unfold bytes_of_bits, chunks8_rem. rewrite chunks8_short, Nat.div_small by exact Hc. reflexivity.
    + destruct (list8 bits Hc) as (a & b & c & d & e & f & g & h & ->). cbn -[byte_bits byte_of_bits].
      rewrite byte_bits_of_bits by reflexivity. reflexivity.
Qed.

(** Bits written by one fitting bit write are what the matching read returns. *)
Definition fits_bits (t : order) (m n : nat) (o : order) : option (order * nat) :=
    if order_eqb o t then Some (o, (m + n) mod 8)
    else if (m =? 0) && (n <=? 8) then Some (o, n mod 8)
    else if (0 <? n) && (m + n =? 8) then Some (o, 0)
    else None.
Lemma step_bits bits o w t' m' : w_good w -> fits_bits (w_ord w) (length (w_left w)) (length bits) o = Some (t', m') ->
  exists w' bs, write_bits_order bits o w = (Ok tt, w') /\ wadv w w' bs /\ w_good w' /\ w_ord w' = t' /\ length (w_left w') = m' /\
    forall F u', reading (w_ord w') (w_left w') F u' ->
      exists u, reading (w_ord w) (w_left w) (bs ++ F) u /\ take_bits o (length bits) u = Some (orient o bits, u').
Proof.
  intros Hg Hf. destruct (write_bits_order_ok bits o w Hg) as (w' & bs & E & A & G & O & P & S & X).
  assert (HL : 8 * length bs + length (w_left w') = length (w_left w) + length bits).
  { apply Permutation_length in P. rewrite !app_length, bits_of_bytes_length in P. lia. }
  exists w', bs. split; [exact E|]. split; [exact A|]. split; [exact G|].
  destruct Hg as [_ Hl]. destruct G as [_ Hl'].
  assert (Hm : length (w_left w') = (length (w_left w) + length bits) mod 8) by lia.
  unfold fits_bits in Hf. destruct (order_eqb o (w_ord w)) eqn:Eo.
  - assert (Ho : w_ord w = o) by (destruct o, (w_ord w); (reflexivity || discriminate)).
    injection Hf as <- <-. split; [exact O|]. split; [exact Hm|].
    intros F u' R. rewrite O in R. rewrite Ho. exact (reading_same _ _ _ _ _ _ _ (S Ho) R).
  - assert (Ho : w_ord w <> o) by (intros Ho; rewrite Ho in Eo; destruct o; discriminate).
    specialize (X Ho). destruct ((length (w_left w) =? 0) && (length bits <=? 8)) eqn:E1.
    + injection Hf as <- <-. assert (Hz : length (w_left w) = 0) by lia. split; [exact O|]. split; [rewrite Hm, Hz; reflexivity|].
      intros F u' R. rewrite O in R. apply length_zero_iff_nil in Hz. rewrite Hz in X |- *.
      exists ([], bs ++ F). split; [destruct (w_ord w); reflexivity|].
      pose proof (cross_short o bits) as C. destruct (match o with Lsb0 => _ | Msb0 => _ end) as [y z].
      apply pair_inj in X. destruct X as [X1 X2]. subst y z. cbn [fst snd] in C.
      destruct (reading_same o [] bits bs (w_left w') F u') as (u & R1 & R2); [rewrite C by lia; now rewrite orient_nil|exact R|].
      unfold reading in R1. cbn in R1. injection R1 as _ <-. exact R2.
    + destruct ((0 <? length bits) && (length (w_left w) + length bits =? 8)) eqn:E2; [|discriminate].
      injection Hf as <- <-. split; [exact O|]. split; [lia|]. intros F u' R.
      assert (Hn : w_left w' = []) by (apply length_zero_iff_nil; lia).
      rewrite Hn in R. assert (Hu : u' = ([], F)) by (unfold reading in R; cbn in R; congruence). subst u'.
      assert (Hb : length bits < 8) by lia.
      assert (Hbs : bs = [byte_of_bits (match w_ord w with Msb0 => w_left w ++ bits | Lsb0 => bits ++ w_left w end)]).
      { destruct (w_ord w), o; try congruence.
        - unfold msb_lsb_pure in X. destruct (Nat.eqb_spec (length (w_left w)) 0); [lia|].
          cbn zeta in X. replace (Nat.min (8 - length bits mod 8) (length (w_left w))) with (length (w_left w)) in X
            by (rewrite Nat.mod_small by exact Hb; lia).
          replace (Nat.min (length bits) (8 - length (w_left w))) with (length bits) in X by lia.
          destruct (Nat.eqb_spec (length (w_left w) + length bits) 8); [|lia].
          injection X as -> _. rewrite !firstn_all, skipn_all. reflexivity.
        - unfold lsb_msb_pure in X.
          cbn zeta in X. replace (Nat.min (8 - length bits mod 8) (length (w_left w))) with (length (w_left w)) in X
            by (rewrite Nat.mod_small by exact Hb; lia).
          rewrite Nat.mod_small in X by exact Hb.
          destruct (Nat.eqb_spec (length bits + length (w_left w)) 8); [|lia].
          injection X as -> _. unfold rchunks8, rchunks8_rem. rewrite Nat.mod_small, !firstn_all, skipn_all by exact Hb. reflexivity. }
      subst bs. cbn [app]. eapply reading_complete; [lia|lia|].
      rewrite byte_bits_of_bits; [reflexivity|]. destruct (w_ord w); rewrite app_length; lia.
Qed.

Lemma step_wop op w t' m' : w_good w -> wop_readable op -> fits1 (w_ord w) (length (w_left w)) op = Some (t', m') ->
  exists w' bs, run_wop op w = (Ok tt, w') /\ wadv w w' bs /\ w_good w' /\ w_ord w' = t' /\ length (w_left w') = m' /\
    forall F u', reading (w_ord w') (w_left w') F u' ->
      exists u, reading (w_ord w) (w_left w) (bs ++ F) u /\ spec_rop (read_of op) u = Some (value_of op, u').
Proof.
  intros Hg Hr Hf. destruct op as [l o|buf|v n]; cbn [fits1 run_wop read_of value_of spec_rop wop_readable] in *.
  - destruct (step_bits l o w t' m' Hg Hf) as (w' & bs & E & A & G & O & L & H).
    exists w', bs. do 5 (split; [assumption|]). intros F u' R. destruct (H F u' R) as (u & R1 & R2).
    exists u. split; [exact R1|]. rewrite R2. cbn. now rewrite orient_invol.
  - destruct (Nat.eqb_spec (length (w_left w)) 0) as [Hz|Hz].
    + injection Hf as <- <-. destruct (write_bytes_ok buf w Hg) as (w' & bs & E & A & G & O & X & _).
      apply length_zero_iff_nil in Hz. destruct (X Hz) as [-> Hn]. rewrite Hz in O. cbn in O.
      exists w', buf. split; [exact E|]. split; [exact A|]. split; [exact G|]. split; [exact O|]. rewrite Hn, Hz. split; [reflexivity|].
      intros F u' R. exists ([], buf ++ F). split; [destruct (w_ord w); reflexivity|].
      assert (Hu : u' = ([], F)) by (unfold reading in R; cbn in R; congruence). subst u'.
      rewrite take_bytes_app. cbn [option_map fst snd]. now rewrite bytes_of_bitstring.
    + assert (Hz' : (length (w_left w) =? 0) = false) by now apply Nat.eqb_neq.
      assert (Hf' : fits_bits (w_ord w) (length (w_left w)) (8 * length buf) Msb0 = Some (t', m'))
        by (unfold fits_bits; rewrite Hz'; exact Hf). clear Hf; rename Hf' into Hf.
      rewrite <- (bits_of_bytes_length buf) in Hf.
      destruct (step_bits (bits_of_bytes buf) Msb0 w t' m' Hg Hf) as (w' & bs & E & A & G & O & L & H).
      exists w', bs. split; [unfold write_bytes; rewrite Hz'; exact E|]. do 4 (split; [assumption|]).
      intros F u' R. destruct (H F u' R) as (u & R1 & R2). exists u. split; [exact R1|].
      rewrite bits_of_bytes_length in R2. rewrite R2. cbn [option_map fst snd orient].
      rewrite <- bitstring_msb, bytes_of_bitstring. reflexivity.
  - change (fits_bits (w_ord w) (length (w_left w)) n Msb0 = Some (t', m')) in Hf.
    assert (Hl : length (N2bits n v) = n) by apply N2bits_length. rewrite <- Hl in Hf at 1.
    destruct (step_bits (N2bits n v) Msb0 w t' m' Hg Hf) as (w' & bs & E & A & G & O & L & H).
    assert (Hread : forall F u', reading (w_ord w') (w_left w') F u' ->
      exists u, reading (w_ord w) (w_left w) (bs ++ F) u /\
       option_map (fun p => (ONum (bits2N (fst p)), snd p)) (take_bits Msb0 n u) = Some (ONum (v mod 2 ^ N.of_nat n)%N, u')).
    { intros F u' R. destruct (H F u' R) as (u & R1 & R2). exists u. split; [exact R1|].
      rewrite Hl in R2. rewrite R2. cbn [option_map fst snd orient]. now rewrite bits2N_N2bits. }
    destruct (w_ord w) eqn:Ho.
    + destruct (fast_write_ok v n w Hg Ho Hr) as (w2 & bs2 & E2 & A2 & G2 & O2 & S2).
      destruct (write_bits_order_ok (N2bits n v) Msb0 w Hg) as (w3 & bs3 & E3 & A3 & G3 & O3 & _ & S3 & _).
      rewrite E in E3. apply pair_inj in E3. destruct E3 as [_ <-]. specialize (S3 Ho).
      assert (Heq : bs2 = bs3 /\ w_left w2 = w_left w').
      { destruct (split_bytes _ _ _ _ (proj2 G2) (proj2 G3) (eq_trans S2 (eq_sym S3))). auto. }
      destruct Heq as [-> HL2].
      assert (Hbs : bs = bs3).
      { destruct A as [[d1 p1 _ _ _] b1], A3 as [[d2 p2 _ _ _] b2].
        assert (length bs = length bs3) by lia.
        rewrite d1 in d2. revert d2. apply overlay_inj. assumption. }
      subst bs3. exists w2, bs. split; [exact E2|]. split; [exact A2|]. split; [exact G2|]. rewrite O2, HL2. rewrite <- O.
      split; [congruence|]. split; [exact L|]. intros F u' R. apply Hread. rewrite O3. exact R.
    + exists w', bs. do 5 (split; [assumption|]). exact Hread.
Qed.

Lemma session_reads ops w : w_good w -> Forall wop_readable ops -> fits (w_ord w) (length (w_left w)) ops = true ->
  exists w' bs, run_wsession ops w = (Ok tt, w') /\ wadv w w' bs /\ w_good w' /\
    forall F u', reading (w_ord w') (w_left w') F u' ->
      exists u, reading (w_ord w) (w_left w) (bs ++ F) u /\ spec_session (map read_of ops) u = Some (map value_of ops, u').
Proof.
  revert w; induction ops as [|op ops IH]; intros w Hg Hr Hf; cbn [run_wsession map].
  - exists w, []. split; [reflexivity|]. split; [apply wadv_refl|]. split; [exact Hg|]. intros F u' R. exists u'. auto.
  - inversion Hr as [|x y H1 H2]; subst x y. cbn [fits] in Hf.
    destruct (fits1 (w_ord w) (length (w_left w)) op) as [[t' m']|] eqn:E1; [|discriminate].
    destruct (step_wop op w t' m' Hg H1 E1) as (w1 & bs1 & X1 & A1 & G1 & <- & <- & R1).
    destruct (IH w1 G1 H2 Hf) as (w2 & bs2 & X2 & A2 & G2 & R2).
    exists w2, (bs1 ++ bs2). split; [rewrite (bind_ok _ _ _ _ _ X1); exact X2|]. split; [eapply wadv_app; eassumption|].
    split; [exact G2|]. intros F u' R. destruct (R2 F u' R) as (u1 & Ra & Rb).
    rewrite <- app_assoc. destruct (R1 _ _ Ra) as (u0 & Rc & Rd). exists u0. split; [exact Rc|].
    cbn [spec_session]. rewrite Rd, Rb. reflexivity.
Qed.
Lemma read_of_ok ops : Forall wop_readable ops -> Forall rop_ok (map read_of ops).
Proof.
  induction 1 as [|op ops H _ IH]; constructor; [|exact IH]. destruct op as [l o|bs|v n]; cbn in *; auto.
  destruct bs; [congruence|cbn; lia].
Qed.
Lemma vec_emitted k bs : emitted vec_sink k bs -> k_data k = bs.
Proof. intros [d _ _ _ _]. rewrite d. apply overlay_empty. Qed.

Lemma finalize_reading w : w_good w -> exists w' F u', finalize w = (Ok tt, w') /\ wadv w w' F /\
  reading (w_ord w) (w_left w) F u' /\ unread_len u' < 8.
Proof.
  intros Hg. destruct (w_left w) as [|b p] eqn:E.
  - exists w, [], ([], []). split; [now apply finalize_nil|]. split; [apply wadv_refl|]. split; [destruct (w_ord w); reflexivity|cbn; lia].
  - rewrite <- E. destruct (finalize_pad w Hg) as (w' & Ef & A & _); [congruence|].
    destruct (reading_complete (w_ord w) Msb0 (w_left w) (repeat false (8 - length (w_left w))) (pad_byte (w_ord w) (w_left w)) []) as (u & R & T).
    + destruct Hg as [_ Hl]. rewrite repeat_length. lia.
    + rewrite E. cbn. lia.
    + destruct Hg as [_ Hl]. unfold pad_byte. destruct (w_ord w); apply byte_bits_of_bits; rewrite app_length, repeat_length; lia.
    + exists w', [pad_byte (w_ord w) (w_left w)], u. split; [exact Ef|]. split; [exact A|]. split; [exact R|].
      apply take_bits_some_len in T. destruct T as [_ T]. rewrite T, repeat_length.
      assert (Hp : 0 < length (w_left w)) by (rewrite E; cbn; lia).
      unfold unread_len. cbn [fst snd length]. lia.
Qed.

Lemma unread_string_length o u : length (unread_string o u) = unread_len u.
Proof. unfold unread_string, unread_len. now rewrite app_length, orient_length, bitstring_length. Qed.

Lemma mixed_round_trip ops : Forall wop_readable ops -> fits Msb0 0 ops = true ->
  exists w, write_out ops (writer_new vec_sink) = (Ok tt, w) /\
  exists r, run_session (map read_of ops) (reader_new (cursor (k_data (w_k w)))) = (Ok (map value_of ops), r) /\
    unread_len (seen r) < 8.
Proof.
  intros Hr Hf. assert (Hg : w_good (writer_new vec_sink)) by (split; [split; reflexivity|cbn; lia]).
  destruct (session_reads ops _ Hg Hr Hf) as (w1 & bs & E1 & A1 & G1 & R1).
  destruct (finalize_reading w1 G1) as (w2 & F & u' & E2 & A2 & RF & Hlt).
  exists w2. split; [unfold write_out; rewrite (bind_ok _ _ _ _ _ E1); exact E2|].
  destruct (R1 F u' RF) as (u & Ru & Sp). assert (Hu : u = ([], bs ++ F)) by (unfold reading in Ru; cbn in Ru; congruence). subst u.
  pose proof (wadv_app _ _ _ _ _ A1 A2) as [Em _]. cbn [writer_new w_k] in Em. apply vec_emitted in Em. rewrite Em.
  pose proof (session_refines (map read_of ops) (reader_new (cursor (bs ++ F))) (reach_new _) (fun _ => eq_refl) (read_of_ok _ Hr)) as S.
  change (seen (reader_new (cursor (bs ++ F)))) with ((@nil bool), bs ++ F) in S. rewrite Sp in S.
  destruct S as (r' & Er & _ & Us). exists r'. split; [exact Er|].
  rewrite <- (unread_string_length Msb0), Us, unread_string_length. exact Hlt.
Qed.

Lemma fits_msb0 m ops : Forall wop_in_msb0 ops -> m < 8 -> fits Msb0 m ops = true.
Proof.
  intros H. revert m. induction H as [|op ops H _ IH]; intros m Hm; [reflexivity|]. cbn [fits].
  destruct op as [l o|bs|v n]; cbn [fits1 wop_in_msb0] in *.
  - subst o. cbn [order_eqb]. apply IH. lia.
  - cbn [order_eqb]. destruct (Nat.eqb_spec m 0); apply IH; lia.
  - cbn [order_eqb]. apply IH. lia.
Qed.
Lemma fits_lsb0 m ls : fits Lsb0 m (map (fun l => WBits l Lsb0) ls) = true.
Proof. revert m; induction ls as [|l ls IH]; intros m; [reflexivity|]. cbn [map fits fits1 order_eqb]. apply IH. Qed.
Lemma fits_lsb0_fresh l ls : length l <= 8 -> fits Msb0 0 (map (fun l => WBits l Lsb0) (l :: ls)) = true.
Proof.
  intros H. cbn [map fits fits1 order_eqb Nat.eqb andb]. destruct (Nat.leb_spec (length l) 8); [|lia]. apply fits_lsb0.
Qed.
Lemma read_back_bits o ls : map read_of (map (fun l => WBits l o) ls) = map (fun l => RBits (length l) o) ls /\
  map value_of (map (fun l => WBits l o) ls) = map OBits ls.
Proof. rewrite !map_map. split; reflexivity. Qed.

(** ** C11-C15 *)

Lemma stored_wadv w w' bs : wadv w w' bs -> stored w w' bs.
Proof. intros [[d p _ _ _] b]. repeat split; assumption. Qed.

Lemma msb0_concat ops w : w_reachable w -> w_ord w = Msb0 -> Forall wop_ok ops -> Forall wop_in_msb0 ops ->
  exists w' bs, run_wsession ops w = (Ok tt, w') /\ stored w w' bs /\ length (w_rest w') < 8 /\
    bitstring Msb0 bs ++ w_rest w' = w_rest w ++ written ops.
Proof.
  intros Hr Ho H1 H2. apply w_reachable_good in Hr.
  destruct (run_wsession_ok ops w Hr H1) as (w' & bs & E & A & G & _ & S). exists w', bs.
  split; [exact E|]. split; [now apply stored_wadv|]. split; [apply G|]. now apply S.
Qed.
Lemma lsb0_step l w : w_good w -> w_ord w = Lsb0 \/ (w_left w = [] /\ length l <= 8) ->
  exists w' bs, write_bits_order l Lsb0 w = (Ok tt, w') /\ wadv w w' bs /\ w_good w' /\ w_ord w' = Lsb0 /\
    bitstring Lsb0 bs ++ rev (w_left w') = rev (w_left w) ++ rev l.
Proof.
  intros Hg Hc. destruct (write_bits_order_ok l Lsb0 w Hg) as (w' & bs & E & A & G & O & _ & S & X).
  exists w', bs. do 4 (split; [assumption|]). destruct (w_ord w) eqn:Ho; [|now apply S].
  destruct Hc as [Hc|[Hz Hl]]; [discriminate|]. specialize (X ltac:(discriminate)). rewrite Hz in X |- *.
  pose proof (cross_short Lsb0 l Hl) as C. cbv iota in C. rewrite <- X in C. exact C.
Qed.
Lemma lsb0_concat ls w : w_reachable w ->
  w_ord w = Lsb0 \/ (w_rest w = [] /\ match ls with [] => True | l :: _ => length l <= 8 end) ->
  exists w' bs, run_wsession (map (fun l => WBits l Lsb0) ls) w = (Ok tt, w') /\ stored w w' bs /\ length (w_rest w') < 8 /\
    bitstring Lsb0 bs ++ rev (w_rest w') = rev (w_rest w) ++ concat (map (@rev bool) ls).
Proof.
  intros Hr Hc. apply w_reachable_good in Hr. unfold w_rest in *.
  assert (HX : forall ls w, w_good w -> w_ord w = Lsb0 -> exists w' bs,
    run_wsession (map (fun l => WBits l Lsb0) ls) w = (Ok tt, w') /\ wadv w w' bs /\ w_good w' /\
    bitstring Lsb0 bs ++ rev (w_left w') = rev (w_left w) ++ concat (map (@rev bool) ls)).
  { clear. induction ls as [|l ls IH]; intros w Hg Ho; cbn [map run_wsession concat].
    - exists w, []. split; [reflexivity|]. split; [apply wadv_refl|]. split; [exact Hg|]. now rewrite app_nil_r.
    - destruct (lsb0_step l w Hg (or_introl Ho)) as (w1 & b1 & E1 & A1 & G1 & O1 & S1).
      destruct (IH w1 G1 O1) as (w2 & b2 & E2 & A2 & G2 & S2). exists w2, (b1 ++ b2).
      split; [cbn [run_wop]; rewrite (bind_ok _ _ _ _ _ E1); exact E2|]. split; [eapply wadv_app; eassumption|].
      split; [exact G2|]. rewrite bitstring_app, <- app_assoc, S2, !app_assoc, S1. reflexivity. }
  destruct ls as [|l ls]; cbn [map run_wsession concat].
  - exists w, []. split; [reflexivity|]. split; [apply stored_wadv, wadv_refl|]. split; [apply Hr|]. now rewrite app_nil_r.
  - destruct (lsb0_step l w Hr) as (w1 & b1 & E1 & A1 & G1 & O1 & S1); [tauto|].
    destruct (HX ls w1 G1 O1) as (w2 & b2 & E2 & A2 & G2 & S2). exists w2, (b1 ++ b2).
    split; [cbn [run_wop]; rewrite (bind_ok _ _ _ _ _ E1); exact E2|]. split; [apply stored_wadv; eapply wadv_app; eassumption|].
    split; [apply G2|]. rewrite bitstring_app, <- app_assoc, S2, !app_assoc, S1. reflexivity.
Qed.
Lemma writer_total ops w : w_reachable w -> Forall wop_ok ops ->
  exists w' bs, run_wsession ops w = (Ok tt, w') /\ stored w w' bs /\ length (w_rest w') < 8 /\
    Permutation (bits_of_bytes bs ++ w_rest w') (w_rest w ++ written ops).
Proof.
  intros Hr H1. apply w_reachable_good in Hr.
  destruct (run_wsession_ok ops w Hr H1) as (w' & bs & E & A & G & P & _). exists w', bs.
  split; [exact E|]. split; [now apply stored_wadv|]. split; [apply G|exact P].
Qed.
Lemma fast_is_generic v amt w : w_reachable w -> w_ord w = Msb0 -> 1 <= amt <= 64 ->
  exists w1 w2, write_bits_uint_msb0 v amt w = (Ok tt, w1) /\ write_bits (N2bits amt v) w = (Ok tt, w2) /\ w_view w1 = w_view w2.
Proof.
  intros Hr Ho Ha. apply w_reachable_good in Hr.
  destruct (fast_write_ok v amt w Hr Ho Ha) as (w1 & b1 & E1 & [[d1 p1 _ _ _] n1] & [_ G1] & O1 & S1).
  destruct (write_bits_order_ok (N2bits amt v) Msb0 w Hr) as (w2 & b2 & E2 & [[d2 p2 _ _ _] n2] & [_ G2] & O2 & _ & S2 & _).
  exists w1, w2. split; [exact E1|]. split; [exact E2|]. specialize (S2 Ho).
  destruct (split_bytes _ _ _ _ G1 G2 (eq_trans S1 (eq_sym S2))) as [-> HL].
  unfold w_view, w_rest. rewrite d1, d2, p1, p2, n1, n2, O1, O2, HL. reflexivity.
Qed.
Lemma finalize_pads w : w_reachable w ->
  exists w', finalize w = (Ok tt, w') /\ w_rest w' = [] /\ w_ord w' = w_ord w /\ finalize w' = (Ok tt, w') /\
    match w_rest w with
    | [] => w' = w
    | p => exists b, stored w w' [b] /\
        byte_bits b = match w_ord w with
                      | Msb0 => p ++ repeat false (8 - length p)
                      | Lsb0 => repeat false (8 - length p) ++ p
                      end
    end.
Proof.
  intros Hr. apply w_reachable_good in Hr. unfold w_rest. destruct (w_left w) as [|b p] eqn:E.
  - exists w. rewrite (finalize_nil w E). auto.
  - destruct (finalize_pad w Hr) as (w' & Ef & A & G & L & O); [congruence|]. exists w'. rewrite (finalize_nil w' L).
    do 4 (split; [auto|]). rewrite E in A. eexists. split; [apply stored_wadv; exact A|].
    destruct Hr as [_ Hl]. rewrite E in Hl. unfold pad_byte.
    destruct (w_ord w); apply byte_bits_of_bits; rewrite app_length, repeat_length; lia.
Qed.
Lemma lsb0_round_trip l ls : length l <= 8 ->
  exists w, write_out (map (fun l => WBits l Lsb0) (l :: ls)) (writer_new vec_sink) = (Ok tt, w) /\
  exists r, run_session (map (fun l => RBits (length l) Lsb0) (l :: ls)) (reader_new (cursor (k_data (w_k w))))
      = (Ok (map OBits (l :: ls)), r) /\ unread_len (seen r) < 8.
Proof.
  intros H. destruct (read_back_bits Lsb0 (l :: ls)) as [R1 R2]. rewrite <- R1, <- R2. apply mixed_round_trip.
  - clear. induction (l :: ls) as [|a b IH]; constructor; [exact I|exact IH].
  - now apply fits_lsb0_fresh.
Qed.
Lemma msb0_round_trip ops : Forall wop_readable ops -> Forall wop_in_msb0 ops ->
  exists w, write_out ops (writer_new vec_sink) = (Ok tt, w) /\
  exists r, run_session (map read_of ops) (reader_new (cursor (k_data (w_k w)))) = (Ok (map value_of ops), r) /\
    unread_len (seen r) < 8.
Proof. intros H1 H2. apply mixed_round_trip; [exact H1|]. apply fits_msb0; [exact H2|lia]. Qed.
