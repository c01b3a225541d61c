(** Lemmas about the writer model. *)
From Coq Require Import Lia ZifyBool ZifyNat ZifyN Permutation.
From Verif Require Import Base MonadFacts Spec Stream Writer BitsFacts NFacts.
Ltac Zify.zify_post_hook ::= Z.div_mod_to_equations.

(** ** Sinks *)

Lemma overlay_nil d p : overlay d p [] = d.
Proof. reflexivity. Qed.
Lemma overlay_cons d p buf : buf <> [] ->
  overlay d p buf = firstn p d ++ repeat x00 (p - length d) ++ buf ++ skipn (p + length buf) d.
Proof. destruct buf; [congruence|reflexivity]. Qed.
Lemma overlay_app d p a b : overlay (overlay d p a) (p + length a) b = overlay d p (a ++ b).
Proof.
  destruct a as [|a0 a]; [now rewrite Nat.add_0_r|].
  destruct b as [|b0 b]; [now rewrite app_nil_r|].
  set (A := a0 :: a). set (B := b0 :: b).
  assert (HA : A <> []) by discriminate. assert (HB : B <> []) by discriminate.
  assert (HAB : A ++ B <> []) by discriminate.
  rewrite (overlay_cons d p A HA), (overlay_cons _ _ B HB), (overlay_cons d p (A ++ B) HAB).
  set (pre := firstn p d ++ repeat x00 (p - length d)).
  assert (Hpre : length pre = p).
  { subst pre. rewrite app_length, firstn_length, repeat_length. lia. }
  replace (firstn p d ++ repeat x00 (p - length d) ++ A ++ skipn (p + length A) d)
    with ((pre ++ A) ++ skipn (p + length A) d) by (subst pre; now rewrite <- !app_assoc).
  assert (Hl : length (pre ++ A) = p + length A) by (rewrite app_length; lia).
  rewrite <- Hl at 1. rewrite firstn_length_app. rewrite (app_length (pre ++ A)), Hl.
  replace (p + length A - (p + length A + length (skipn (p + length A) d))) with 0 by lia.
  cbn [repeat app]. rewrite skipn_app_ge by lia. rewrite Hl.
  replace (p + length A + length B - (p + length A)) with (length B) by lia.
  rewrite skipn_skipn, app_length. subst pre. rewrite <- !app_assoc. rewrite Nat.add_assoc. reflexivity.
Qed.
Lemma overlay_empty bs : overlay [] 0 bs = bs.
Proof. destruct bs; cbn; [reflexivity|]. now rewrite app_nil_r. Qed.
Lemma overlay_end d bs : overlay d (length d) bs = d ++ bs.
Proof.
  destruct bs as [|b bs]; [cbn; now rewrite app_nil_r|]. rewrite overlay_cons by discriminate.
  rewrite firstn_all, Nat.sub_diag, skipn_all2 by lia. cbn. now rewrite app_nil_r.
Qed.

(** [bs] has been stored at the position of [k]. *)
Record emitted (k k' : sink) (bs : list byte) : Prop := {
  em_data : k_data k' = overlay (k_data k) (k_pos k) bs;
  em_pos : k_pos k' = k_pos k + length bs;
  em_fixed : k_fixed k' = k_fixed k;
  em_noseek : k_noseek k' = option_map (fun v => v + length bs) (k_noseek k);
  em_fault : k_fault k' = k_fault k
}.
Lemma emitted_nil k : emitted k k [].
Proof.
  split; auto; cbn; try lia. destruct (k_noseek k); cbn; [f_equal; lia|reflexivity].
Qed.
Lemma emitted_app k1 k2 k3 a b : emitted k1 k2 a -> emitted k2 k3 b -> emitted k1 k3 (a ++ b).
Proof.
  intros [d1 p1 f1 n1 t1] [d2 p2 f2 n2 t2]. split; try congruence.
  - rewrite d2, d1, p1. apply overlay_app.
  - rewrite p2, p1, app_length. lia.
  - rewrite n2, n1. destruct (k_noseek k1); cbn; [f_equal; rewrite app_length; lia|reflexivity].
Qed.

(** A sink that accepts everything. *)
Definition accepting (k : sink) : Prop := k_fixed k = false /\ forall j, k_fault k j = None.
Lemma emitted_accepting k k' bs : emitted k k' bs -> accepting k -> accepting k'.
Proof. intros [_ _ f _ t] [H1 H2]. split; [congruence|]. intros j. rewrite t. apply H2. Qed.

Lemma k_write_all_ok buf k : accepting k ->
  exists k', k_write_all buf k = (IoOk tt, k') /\ emitted k k' buf.
Proof.
  intros [Hf Hq]. unfold k_write_all. rewrite (Hq (k_calls k)), Hf. cbn [andb].
  eexists; split; [reflexivity|]. split; reflexivity.
Qed.

(** ** Writers *)

Definition w_good (w : writer) : Prop := accepting (w_k w) /\ length (w_left w) < 8.
Record wadv (w w' : writer) (bs : list byte) : Prop := {
  wa_em : emitted (w_k w) (w_k w') bs;
  wa_bits : w_bits w' = w_bits w + 8 * length bs
}.
Lemma wadv_nil w w' : w_k w' = w_k w -> w_bits w' = w_bits w -> wadv w w' [].
Proof. intros H1 H2. split; [rewrite H1; apply emitted_nil|cbn; lia]. Qed.
Lemma wadv_app w1 w2 w3 a b : wadv w1 w2 a -> wadv w2 w3 b -> wadv w1 w3 (a ++ b).
Proof.
  intros [e1 b1] [e2 b2]. split; [eapply emitted_app; eassumption|]. rewrite app_length. lia.
Qed.
Lemma wadv_accepting w w' bs : wadv w w' bs -> accepting (w_k w) -> accepting (w_k w').
Proof. intros [e _]. exact (emitted_accepting _ _ _ e). Qed.

Lemma w_write_all_ok buf w : accepting (w_k w) ->
  exists w', w_write_all buf w = (Ok tt, w') /\ emitted (w_k w) (w_k w') buf /\
    w_left w' = w_left w /\ w_ord w' = w_ord w /\ w_bits w' = w_bits w.
Proof.
  intros H. unfold w_write_all. destruct (k_write_all_ok buf (w_k w) H) as (k' & -> & E).
  eexists; split; [reflexivity|]. auto.
Qed.
Lemma w_write_each_ok bs w : accepting (w_k w) ->
  exists w', w_write_each bs w = (Ok tt, w') /\ emitted (w_k w) (w_k w') bs /\
    w_left w' = w_left w /\ w_ord w' = w_ord w /\ w_bits w' = w_bits w.
Proof.
  revert w; induction bs as [|b bs IH]; intros w H; cbn [w_write_each].
  - exists w. split; [reflexivity|]. split; [apply emitted_nil|auto].
  - destruct (w_write_all_ok [b] w H) as (w1 & E1 & Em1 & L1 & O1 & B1).
    rewrite (bind_ok _ _ _ _ _ E1).
    destruct (IH w1 (emitted_accepting _ _ _ Em1 H)) as (w2 & E2 & Em2 & L2 & O2 & B2).
    exists w2. split; [exact E2|]. split; [exact (emitted_app _ _ _ [b] bs Em1 Em2)|]. repeat split; congruence.
Qed.

Lemma flush_full_no w : length (w_left w) <> 8 -> flush_full w = (Ok tt, w).
Proof. intros H. unfold flush_full. destruct (Nat.eqb_spec (length (w_left w)) 8); [congruence|reflexivity]. Qed.
Lemma flush_full_yes w : accepting (w_k w) -> length (w_left w) = 8 ->
  exists w', flush_full w = (Ok tt, w') /\ wadv w w' [byte_of_bits (w_left w)] /\ w_left w' = [] /\ w_ord w' = Msb0.
Proof.
  intros Ha H. unfold flush_full. rewrite H. cbn [Nat.eqb].
  destruct (w_write_all_ok [byte_of_bits (w_left w)] w Ha) as (w1 & E1 & Em & L & O & B).
  rewrite (bind_ok _ _ _ _ _ E1). eexists; split; [reflexivity|].
  cbn. split; [|auto]. split; cbn; [exact Em|lia].
Qed.
Lemma left_extend_ok bs w : length (w_left w) + length bs <= 8 ->
  left_extend bs w = (Ok tt, w_set_left w (w_left w ++ bs)).
Proof. intros H. unfold left_extend. destruct (Nat.leb_spec (length (w_left w) + length bs) 8); [reflexivity|lia]. Qed.

(** The two assertions and the swap at the start of every path. *)
Lemma enter_ok o {B} (f : list bool -> WM B) w : w_ord w = o -> length (w_left w) < 8 ->
  (let* w0 := get in
   let* _ := assert_ (order_eqb (w_ord w0) o) in
   let* _ := assert_ (length (w_left w0) <? 8) in
   let* left := take_left in f left) w
  = f (w_left w) (w_set_ord (w_set_left w []) Msb0).
Proof.
  intros H1 H2. unfold bind, get, assert_. rewrite H1.
  replace (order_eqb o o) with true by (destruct o; reflexivity).
  destruct (Nat.ltb_spec (length (w_left w)) 8); [|lia]. reflexivity.
Qed.

(** The tail shared by the paths: whole chunks, count, remainder. *)
Lemma bulk_ok cs rem n w : accepting (w_k w) -> length (w_left w) + length rem <= 8 -> n = 8 * length cs ->
  forall {B} (f : WM B),
  exists w', (let* _ := w_write_each (map byte_of_bits cs) in
   let* _ := wmod (fun w => w_add_bits w n) in
   let* l := wleft in
   let* _ := assert_ (length l + length rem <=? 8) in
   let* _ := left_extend rem in f) w = f w' /\
   wadv w w' (map byte_of_bits cs) /\ w_left w' = w_left w ++ rem /\ w_ord w' = w_ord w.
Proof.
  intros Ha Hl Hn B f. destruct (w_write_each_ok (map byte_of_bits cs) w Ha) as (w1 & E1 & Em & L1 & O1 & B1).
  rewrite (bind_ok _ _ _ _ _ E1). unfold wmod at 1. erewrite bind_ok by reflexivity.
  unfold wleft at 1. erewrite bind_ok by reflexivity. cbn [w_add_bits w_left]. rewrite L1.
  unfold assert_. destruct (Nat.leb_spec (length (w_left w) + length rem) 8); [|lia].
  erewrite bind_ok by reflexivity. erewrite bind_ok by (apply left_extend_ok; cbn [w_add_bits w_left]; rewrite L1; lia).
  eexists; split; [reflexivity|]. cbn [w_add_bits w_set_left w_left w_ord w_k]. rewrite L1. split; [|auto].
  split; cbn [w_add_bits w_set_left w_bits w_k]; [exact Em|]. rewrite map_length. lia.
Qed.

(** *** Msb0 after Msb0 *)
Lemma msb_msb_ok bits w : w_good w -> w_ord w = Msb0 ->
  exists w' bs, write_msb_msb bits w = (Ok tt, w') /\ wadv w w' bs /\ w_ord w' = Msb0 /\ length (w_left w') < 8 /\
    bitstring Msb0 bs ++ w_left w' = w_left w ++ bits.
Proof.
  intros [Ha Hl] Ho. unfold write_msb_msb. rewrite enter_ok by assumption.
  set (w1 := w_set_ord (w_set_left w []) Msb0).
  assert (Ha1 : accepting (w_k w1)) by exact Ha.
  assert (Hw1 : wadv w w1 []) by (now apply wadv_nil).
  (* first part: complete the pending byte *)
  assert (Hfirst : exists w2 bs rest,
    (if length (w_left w) =? 0 then ret bits
    else
      let complement := Nat.min (8 - length (w_left w)) (length bits) in
      let rest := skipn complement bits in
      let* _ := left_extend (w_left w) in
      let* _ := left_extend (firstn complement bits) in
      let* l := wleft in
      let* _ := assert_ ((length l =? 8) || (length rest =? 0)) in
      let* _ := flush_full in
      ret rest) w1 = (Ok rest, w2) /\ wadv w1 w2 bs /\ w_ord w2 = Msb0 /\
      length (w_left w2) + length rest mod 8 < 8 /\ (w_left w2 <> [] -> rest = []) /\
      bitstring Msb0 bs ++ w_left w2 ++ rest = w_left w ++ bits).
  { destruct (Nat.eqb_spec (length (w_left w)) 0) as [Hz|Hz].
    - exists w1, [], bits. split; [reflexivity|]. split; [now apply wadv_nil|]. split; [reflexivity|].
      split; [change (length (w_left w1)) with 0; lia|]. split; [now intros []|].
      apply length_zero_iff_nil in Hz. now rewrite Hz.
    - cbn zeta. remember (Nat.min (8 - length (w_left w)) (length bits)) as c eqn:Ec.
      assert (Hc : c <= length bits) by lia.
      erewrite bind_ok by (apply left_extend_ok; cbn [w1 w_set_left w_set_ord w_left length]; lia).
      erewrite bind_ok by (apply left_extend_ok; cbn [w1 w_set_left w_set_ord w_left app]; rewrite firstn_length; lia).
      unfold wleft at 1. erewrite bind_ok by reflexivity.
      cbn [w1 w_set_left w_set_ord w_left app]. rewrite app_length, firstn_length, skipn_length.
      replace ((length (w_left w) + Nat.min c (length bits) =? 8) || (length bits - c =? 0)) with true by lia.
      unfold assert_. erewrite bind_ok by reflexivity.
      set (w2 := w_set_left (w_set_left w1 (w_left w)) (w_left w ++ firstn c bits)).
      change (w_set_left (w_set_left w1 ([] ++ w_left w)) _) with w2.
      assert (Hw2 : wadv w1 w2 []) by (now apply wadv_nil).
      assert (Hl2 : length (w_left w2) = length (w_left w) + c).
      { cbn. rewrite app_length, firstn_length. lia. }
      destruct (Nat.eq_dec (length (w_left w2)) 8) as [H8|H8].
      + destruct (flush_full_yes w2 Ha H8) as (w3 & E3 & A3 & L3 & O3).
        rewrite (bind_ok _ _ _ _ _ E3).
        exists w3, [byte_of_bits (w_left w2)], (skipn c bits). split; [reflexivity|].
        split; [exact (wadv_app _ _ _ [] _ Hw2 A3)|]. split; [exact O3|].
        rewrite L3. split; [cbn [length]; lia|]. split; [now intros []|].
        cbn [bitstring flat_map orient app]. rewrite app_nil_r, byte_bits_of_bits by exact H8.
        cbn [w2 w_set_left w_left]. rewrite <- app_assoc. f_equal. apply firstn_skipn.
      + rewrite (bind_ok _ _ _ _ _ (flush_full_no w2 H8)).
        exists w2, [], (skipn c bits). split; [reflexivity|]. split; [exact Hw2|]. split; [reflexivity|].
        assert (Hcb : c = length bits) by lia.
        assert (Hsk : skipn c bits = []) by (rewrite Hcb; apply skipn_all).
        rewrite Hsk. split; [cbn [length]; rewrite Hl2 in *; lia|]. split; [reflexivity|].
        cbn [w2 w_set_left w_left bitstring flat_map app]. rewrite app_nil_r, Hcb. now rewrite firstn_all. }
  destruct Hfirst as (w2 & bs & rest & E2 & A2 & O2 & L2 & R2 & S2).
  rewrite (bind_ok _ _ _ _ _ E2). cbn zeta.
  destruct (bulk_ok (chunks8 rest) (chunks8_rem rest) (length rest - length (chunks8_rem rest)) w2
    (wadv_accepting _ _ _ A2 Ha1)) with (f := wmod (fun w => w_set_ord w Msb0)) as (w3 & E3 & A3 & L3 & O3).
  { rewrite chunks8_rem_length. lia. }
  { rewrite chunks8_rem_length, chunks8_length. lia. }
  rewrite E3. eexists; exists (bs ++ map byte_of_bits (chunks8 rest)). split; [reflexivity|].
  split; [|split; [reflexivity|]].
  - destruct (wadv_app _ _ _ _ _ (wadv_app _ _ _ [] bs Hw1 A2) A3) as [X Y]. split; [exact X|exact Y].
  - cbn [w_set_ord w_left]. rewrite L3. split; [rewrite app_length, chunks8_rem_length; lia|].
    rewrite bitstring_app, <- S2.
    destruct (w_left w2) as [|b l2] eqn:El.
    + cbn [app]. rewrite <- app_assoc. now rewrite chunks8_msb.
    + rewrite (R2 ltac:(discriminate)). cbn. now rewrite !app_nil_r.
Qed.

(** *** Lsb0 after Lsb0 *)
Lemma lsb_lsb_ok bits w : w_good w -> w_ord w = Lsb0 ->
  exists w' bs, write_lsb_lsb bits w = (Ok tt, w') /\ wadv w w' bs /\ w_ord w' = Lsb0 /\ length (w_left w') < 8 /\
    bitstring Lsb0 bs ++ rev (w_left w') = rev (w_left w) ++ rev bits.
Proof.
  intros [Ha Hl] Ho. unfold write_lsb_lsb. rewrite enter_ok by assumption.
  set (w1 := w_set_ord (w_set_left w []) Msb0).
  assert (Ha1 : accepting (w_k w1)) by exact Ha.
  assert (Hw1 : wadv w w1 []) by (now apply wadv_nil).
  assert (Hfirst : exists w2 bs rest,
    (if length (w_left w) =? 0 then ret bits
    else
      let c := Nat.min (8 - length (w_left w)) (length bits) in
      let rest := firstn (length bits - c) bits in
      let* _ := left_extend (skipn (length bits - c) bits) in
      let* _ := left_extend (w_left w) in
      let* l := wleft in
      let* _ := assert_ ((length l =? 8) || (length rest =? 0)) in
      let* _ := flush_full in
      ret rest) w1 = (Ok rest, w2) /\ wadv w1 w2 bs /\
      length (w_left w2) + length rest mod 8 < 8 /\ (w_left w2 <> [] -> rest = []) /\
      bitstring Lsb0 bs ++ rev (w_left w2) ++ rev rest = rev (w_left w) ++ rev bits).
  { destruct (Nat.eqb_spec (length (w_left w)) 0) as [Hz|Hz].
    - exists w1, [], bits. split; [reflexivity|]. split; [now apply wadv_nil|].
      split; [change (length (w_left w1)) with 0; lia|]. split; [now intros []|].
      apply length_zero_iff_nil in Hz. now rewrite Hz.
    - cbn zeta. remember (Nat.min (8 - length (w_left w)) (length bits)) as c eqn:Ec.
      assert (Hc : c <= length bits) by lia.
      erewrite bind_ok by (apply left_extend_ok; cbn [w1 w_set_left w_set_ord w_left length]; rewrite skipn_length; lia).
      erewrite bind_ok by (apply left_extend_ok; cbn [w1 w_set_left w_set_ord w_left app]; rewrite skipn_length; lia).
      unfold wleft at 1. erewrite bind_ok by reflexivity.
      cbn [w1 w_set_left w_set_ord w_left app]. rewrite app_length, firstn_length, skipn_length.
      replace ((length bits - (length bits - c) + length (w_left w) =? 8) || (Nat.min (length bits - c) (length bits) =? 0)) with true by lia.
      unfold assert_. erewrite bind_ok by reflexivity.
      set (w2 := w_set_left (w_set_left w1 (skipn (length bits - c) bits)) (skipn (length bits - c) bits ++ w_left w)).
      change (w_set_left (w_set_left w1 ([] ++ skipn (length bits - c) bits)) _) with w2.
      assert (Hw2 : wadv w1 w2 []) by (now apply wadv_nil).
      assert (Hl2 : length (w_left w2) = length (w_left w) + c).
      { cbn [w2 w_set_left w_left]. rewrite app_length, skipn_length. lia. }
      destruct (Nat.eq_dec (length (w_left w2)) 8) as [H8|H8].
      + destruct (flush_full_yes w2 Ha H8) as (w3 & E3 & A3 & L3 & O3).
        rewrite (bind_ok _ _ _ _ _ E3).
        exists w3, [byte_of_bits (w_left w2)], (firstn (length bits - c) bits). split; [reflexivity|].
        split; [exact (wadv_app _ _ _ [] _ Hw2 A3)|].
        rewrite L3. split; [cbn [length]; lia|]. split; [now intros []|].
        rewrite bitstring_cons. cbn [bitstring flat_map orient app rev]. rewrite app_nil_r, byte_bits_of_bits by exact H8.
        cbn [w2 w_set_left w_left]. rewrite rev_app_distr, <- app_assoc. f_equal.
        rewrite <- rev_app_distr. now rewrite firstn_skipn.
      + rewrite (bind_ok _ _ _ _ _ (flush_full_no w2 H8)).
        exists w2, [], (firstn (length bits - c) bits). split; [reflexivity|]. split; [exact Hw2|].
        assert (Hcb : c = length bits) by lia.
        assert (Hsk : firstn (length bits - c) bits = []) by (rewrite Hcb, Nat.sub_diag; reflexivity).
        rewrite Hsk. split; [cbn [length]; rewrite Hl2 in *; lia|]. split; [reflexivity|].
        cbn [w2 w_set_left w_left bitstring flat_map app rev]. rewrite app_nil_r, Hcb, Nat.sub_diag. cbn [skipn]. apply rev_app_distr. }
  destruct Hfirst as (w2 & bs & rest & E2 & A2 & L2 & R2 & S2).
  rewrite (bind_ok _ _ _ _ _ E2). cbn zeta.
  destruct (bulk_ok (rchunks8 rest) (rchunks8_rem rest) (length rest - length (rchunks8_rem rest)) w2
    (wadv_accepting _ _ _ A2 Ha1)) with (f := wmod (fun w => w_set_ord w Lsb0)) as (w3 & E3 & A3 & L3 & O3).
  { rewrite rchunks8_rem_length. lia. }
  { rewrite rchunks8_rem_length, rchunks8_length. lia. }
  rewrite E3. eexists; exists (bs ++ map byte_of_bits (rchunks8 rest)). split; [reflexivity|].
  split; [|split; [reflexivity|]].
  - destruct (wadv_app _ _ _ _ _ (wadv_app _ _ _ [] bs Hw1 A2) A3) as [X Y]. split; [exact X|exact Y].
  - cbn [w_set_ord w_left]. rewrite L3. split; [rewrite app_length, rchunks8_rem_length; lia|].
    rewrite bitstring_app, <- S2.
    destruct (w_left w2) as [|b l2] eqn:El.
    + cbn [app rev]. rewrite <- app_assoc. now rewrite rchunks8_lsb.
    + rewrite (R2 ltac:(discriminate)). cbn [rchunks8 rchunks8_rem length firstn skipn map app rev chunks8].
      cbn. now rewrite !app_nil_r.
Qed.

(** *** Lsb0 after Msb0 *)
Definition msb_lsb_pure (left bits : list bool) : list byte * list bool :=
  if length left =? 0 then (bytes_of_bits bits, chunks8_rem bits)
  else
    let c := Nat.min (8 - length bits mod 8) (length left) in
    let front := Nat.min (length bits) (8 - c) in
    if c + front =? 8 then
      (byte_of_bits (firstn c left ++ firstn front bits) :: bytes_of_bits (skipn front bits),
       chunks8_rem (skipn front bits) ++ skipn c left)
    else ([], left ++ bits).
Lemma msb_lsb_ok bits w : w_good w -> w_ord w = Msb0 ->
  exists w', write_msb_lsb bits w = (Ok tt, w') /\ wadv w w' (fst (msb_lsb_pure (w_left w) bits)) /\ w_ord w' = Lsb0 /\
    w_left w' = snd (msb_lsb_pure (w_left w) bits) /\ length (w_left w') < 8.
Proof.
  intros [Ha Hl] Ho. unfold write_msb_lsb. rewrite enter_ok by assumption.
  set (w1 := w_set_ord (w_set_left w []) Msb0).
  assert (Ha1 : accepting (w_k w1)) by exact Ha.
  assert (Hw1 : wadv w w1 []) by (now apply wadv_nil).
  unfold msb_lsb_pure. destruct (Nat.eqb_spec (length (w_left w)) 0) as [Hz|Hz].
  - cbn zeta. erewrite bind_ok by (apply left_extend_ok; cbn; lia).
    erewrite bind_ok by (apply left_extend_ok; cbn; lia).
    erewrite bind_ok by (apply flush_full_no; cbn; discriminate).
    change (w_set_left _ _) with w1.
    match goal with |- context [let* _ := left_extend (chunks8_rem bits) in ?g] =>
      destruct (bulk_ok (chunks8 bits) (chunks8_rem bits) (length bits - length (chunks8_rem bits)) w1 Ha1) with (f := g) as (w3 & E3 & A3 & L3 & O3) end.
    { rewrite chunks8_rem_length. cbn [w1 w_set_left w_set_ord w_left length]. lia. }
    { rewrite chunks8_rem_length, chunks8_length. lia. }
    rewrite E3. cbn [length]. rewrite Nat.min_0_r. cbn [firstn skipn w1 w_set_left w_set_ord w_left app] in *.
    assert (Hl3 : length (w_left w3) < 8) by (rewrite L3, chunks8_rem_length; lia).
    erewrite bind_ok by (apply left_extend_ok; cbn [length]; lia).
    unfold wleft at 1. erewrite bind_ok by reflexivity. cbn [w_set_left w_left length]. rewrite app_nil_r.
    unfold assert_. cbn [Nat.eqb]. rewrite orb_true_r. erewrite bind_ok by reflexivity.
    erewrite bind_ok by (apply flush_full_no; cbn [w_set_left w_left]; lia).
    erewrite bind_ok by (apply left_extend_ok; cbn [length w_set_left w_left]; lia).
    eexists. split; [reflexivity|]. cbn [fst snd w_set_left w_set_ord w_left w_ord]. rewrite app_nil_r.
    split; [|split; [reflexivity|split; [exact L3|exact Hl3]]].
    destruct (wadv_app _ _ _ [] _ Hw1 A3) as [X Y]. split; [exact X|exact Y].
  - cbn zeta. remember (Nat.min (8 - length bits mod 8) (length (w_left w))) as c eqn:Ec.
    remember (Nat.min (length bits) (8 - c)) as front eqn:Ef.
    assert (Hcl : c <= length (w_left w)) by lia. assert (Hfb : front <= length bits) by lia.
    erewrite bind_ok by (apply left_extend_ok; cbn [w1 w_set_left w_set_ord w_left length]; rewrite firstn_length; lia).
    erewrite bind_ok by (apply left_extend_ok; cbn [w1 w_set_left w_set_ord w_left app]; rewrite !firstn_length; lia).
    cbn [w1 w_set_left w_set_ord w_left app].
    set (w2 := mkWriter (w_k w) (firstn c (w_left w) ++ firstn front bits) Msb0 (w_bits w)).
    change (w_set_left _ _) with w2.
    assert (Hw2 : wadv w w2 []) by (now apply wadv_nil).
    assert (Hl2 : length (w_left w2) = c + front).
    { cbn [w2 w_left]. rewrite app_length, !firstn_length. lia. }
    destruct (Nat.eqb_spec (c + front) 8) as [H8|H8].
    + destruct (flush_full_yes w2 Ha ltac:(lia)) as (w3 & E3 & A3 & L3 & O3).
      rewrite (bind_ok _ _ _ _ _ E3).
      remember (skipn front bits) as bulk eqn:Eb. remember (skipn c (w_left w)) as lst eqn:El.
      assert (Hbulk : length bulk = length bits - front) by (subst; apply skipn_length).
      assert (Hlst : length lst = length (w_left w) - c) by (subst; apply skipn_length).
      assert (Hex : lst = [] \/ chunks8_rem bulk = []).
      { destruct (Nat.eq_dec c (length (w_left w))) as [E|E].
        - left. apply length_zero_iff_nil. lia.
        - right. apply length_zero_iff_nil. rewrite chunks8_rem_length, Hbulk. lia. }
      match goal with |- context [let* _ := left_extend (chunks8_rem bulk) in ?g] =>
        destruct (bulk_ok (chunks8 bulk) (chunks8_rem bulk) (length bulk - length (chunks8_rem bulk)) w3 (wadv_accepting _ _ _ A3 Ha)) with (f := g) as (w4 & E4 & A4 & L4 & O4) end.
      { rewrite chunks8_rem_length, L3. cbn [length]. lia. }
      { rewrite chunks8_rem_length, chunks8_length. lia. }
      rewrite E4. clear E4. rewrite L3 in L4. cbn [app] in L4.
      assert (Hlast : length (chunks8_rem bulk) + length lst < 8).
      { destruct Hex as [->| ->]; [rewrite chunks8_rem_length; cbn [length]; lia|cbn [length]; lia]. }
      assert (Hmin : Nat.min (8 - length (chunks8_rem bulk)) (length lst) = length lst) by lia.
      rewrite Hmin, firstn_all, skipn_all.
      erewrite bind_ok by (apply left_extend_ok; rewrite L4; lia).
      unfold wleft at 1. erewrite bind_ok by reflexivity. cbn [w_set_left w_left length Nat.eqb].
      unfold assert_. rewrite orb_true_r. erewrite bind_ok by reflexivity.
      erewrite bind_ok by (apply flush_full_no; cbn [w_set_left w_left]; rewrite L4, app_length; lia).
      erewrite bind_ok by (apply left_extend_ok; cbn [w_set_left w_left length]; rewrite L4, app_length; lia).
      eexists. split; [reflexivity|]. cbn [fst snd w_set_left w_set_ord w_left w_ord]. rewrite app_nil_r, L4.
      split; [|split; [reflexivity|split; [reflexivity|rewrite app_length; exact Hlast]]].
      destruct (wadv_app _ _ _ _ _ (wadv_app _ _ _ [] _ Hw2 A3) A4) as [X Y]. split; [exact X|exact Y].
    + assert (Hfb2 : front = length bits) by lia. assert (Hcl2 : c = length (w_left w)) by lia.
      assert (Hl8 : length (w_left w) + length bits < 8) by lia.
      erewrite bind_ok by (apply flush_full_no; lia).
      rewrite Hfb2, Hcl2, !skipn_all.
      match goal with |- context [let* _ := left_extend (chunks8_rem []) in ?g] =>
        destruct (bulk_ok (chunks8 []) (chunks8_rem []) (length (@nil bool) - length (chunks8_rem [])) w2 Ha) with (f := g) as (w4 & E4 & A4 & L4 & O4) end.
      { change (length (chunks8_rem [])) with 0. lia. } { reflexivity. }
      rewrite E4. clear E4. change (chunks8_rem []) with (@nil bool) in *. rewrite app_nil_r in L4.
      cbn [length]. rewrite Nat.min_0_r. cbn [firstn skipn].
      erewrite bind_ok by (apply left_extend_ok; rewrite L4; cbn [length]; lia).
      unfold wleft at 1. erewrite bind_ok by reflexivity. cbn [w_set_left w_left length Nat.eqb].
      unfold assert_. rewrite orb_true_r. erewrite bind_ok by reflexivity.
      rewrite app_nil_r.
      erewrite bind_ok by (apply flush_full_no; cbn [w_set_left w_left]; rewrite L4; lia).
      erewrite bind_ok by (apply left_extend_ok; cbn [w_set_left w_left length]; rewrite L4; lia).
      eexists. split; [reflexivity|]. cbn [fst snd w_set_left w_set_ord w_left w_ord]. rewrite app_nil_r, L4.
      cbn [w2 w_left]. rewrite Hfb2, Hcl2, !firstn_all.
      split; [|split; [reflexivity|split; [reflexivity|rewrite app_length; exact Hl8]]].
      destruct (wadv_app _ _ _ _ _ Hw2 A4) as [X Y]. split; [exact X|exact Y].
Qed.

(** *** Msb0 after Lsb0 *)
Definition lsb_msb_pure (left bits : list bool) : list byte * list bool :=
  let c := Nat.min (8 - length bits mod 8) (length left) in
  if length bits mod 8 + c =? 8 then
    (map byte_of_bits (rchunks8 bits) ++ [byte_of_bits (rchunks8_rem bits ++ firstn c left)], skipn c left)
  else (map byte_of_bits (rchunks8 bits), rchunks8_rem bits ++ left).
Lemma lsb_msb_ok bits w : w_good w -> w_ord w = Lsb0 ->
  exists w', write_lsb_msb bits w = (Ok tt, w') /\ wadv w w' (fst (lsb_msb_pure (w_left w) bits)) /\ w_ord w' = Msb0 /\
    w_left w' = snd (lsb_msb_pure (w_left w) bits) /\ length (w_left w') < 8.
Proof.
  intros [Ha Hl] Ho. unfold write_lsb_msb. rewrite enter_ok by assumption.
  set (w1 := w_set_ord (w_set_left w []) Msb0).
  assert (Ha1 : accepting (w_k w1)) by exact Ha.
  assert (Hw1 : wadv w w1 []) by (now apply wadv_nil).
  unfold lsb_msb_pure. cbn zeta. remember (Nat.min (8 - length bits mod 8) (length (w_left w))) as c eqn:Ec.
  assert (Hpair : (if length (w_left w) =? 0 then ([], []) else (firstn c (w_left w), skipn c (w_left w)))
     = (firstn c (w_left w), skipn c (w_left w))).
  { destruct (Nat.eqb_spec (length (w_left w)) 0) as [E|E]; [|reflexivity].
    apply length_zero_iff_nil in E. now rewrite E, firstn_nil, skipn_nil. }
  rewrite Hpair. clear Hpair.
  match goal with |- context [let* _ := left_extend (rchunks8_rem bits) in ?g] =>
      destruct (bulk_ok (rchunks8 bits) (rchunks8_rem bits) (length bits - length (rchunks8_rem bits)) w1 Ha1) with (f := g) as (w3 & E3 & A3 & L3 & O3) end.
  { rewrite rchunks8_rem_length. cbn [w1 w_set_left w_set_ord w_left length]. lia. }
  { rewrite rchunks8_rem_length, rchunks8_length. lia. }
  rewrite E3. clear E3. cbn [w1 w_set_left w_set_ord w_left app] in L3.
  pose proof (rchunks8_rem_length bits) as Hr.
  erewrite bind_ok by (apply left_extend_ok; rewrite L3, firstn_length; lia).
  unfold wmod at 1. erewrite bind_ok by reflexivity. unfold wleft at 1. erewrite bind_ok by reflexivity.
  cbn [w_set_left w_set_ord w_left]. rewrite L3.
  assert (Hlen : length (rchunks8_rem bits ++ firstn c (w_left w)) = length bits mod 8 + c).
  { rewrite app_length, firstn_length. lia. }
  rewrite Hlen, skipn_length.
  set (w4 := w_set_ord (w_set_left w3 (rchunks8_rem bits ++ firstn c (w_left w))) Msb0).
  assert (A4 : wadv w w4 (map byte_of_bits (rchunks8 bits))).
  { destruct (wadv_app _ _ _ [] _ Hw1 A3) as [X Y]. split; [exact X|exact Y]. }
  assert (Has : (length bits mod 8 + c =? 8) || (length (w_left w) - c =? 0) = true) by lia.
  rewrite Has. unfold assert_. erewrite bind_ok by reflexivity.
  destruct (Nat.eqb_spec (length bits mod 8 + c) 8) as [H8|H8].
  - destruct (flush_full_yes w4 (wadv_accepting _ _ _ A4 Ha)) as (w5 & E5 & A5 & L5 & O5).
    { cbn [w4 w_set_left w_set_ord w_left]. lia. }
    rewrite (bind_ok _ _ _ _ _ E5). rewrite left_extend_ok by (rewrite L5, skipn_length; cbn [length]; lia).
    eexists. split; [reflexivity|]. cbn [fst snd w_set_left w_left w_ord]. rewrite L5. cbn [app].
    split; [|split; [exact O5|split; [reflexivity|rewrite skipn_length; lia]]].
    destruct (wadv_app _ _ _ _ _ A4 A5) as [X Y]. split; [exact X|exact Y].
  - erewrite bind_ok by (apply flush_full_no; cbn [w4 w_set_left w_set_ord w_left]; lia).
    assert (Hc : c = length (w_left w)) by lia.
    rewrite Hc, skipn_all. rewrite left_extend_ok by (cbn [w4 w_set_left w_set_ord w_left length]; lia).
    eexists. split; [reflexivity|]. cbn [fst snd w4 w_set_left w_set_ord w_left w_ord]. rewrite app_nil_r.
    rewrite Hc, firstn_all in *. split; [|split; [reflexivity|split; [reflexivity|lia]]].
    destruct A4 as [X Y]. split; [exact X|exact Y].
Qed.

(** ** The paths together *)

Lemma bits_eq_perm o bs p l1 l2 : bitstring o bs ++ orient o p = orient o l1 ++ orient o l2 ->
  Permutation (bits_of_bytes bs ++ p) (l1 ++ l2).
Proof.
  intros H. assert (Ho : forall l, Permutation (orient o l) l).
  { intros l. destruct o; cbn; [reflexivity|symmetry; apply Permutation_rev]. }
  assert (Hb : Permutation (bitstring o bs) (bits_of_bytes bs)).
  { clear H. induction bs as [|b bs IH]; [reflexivity|]. rewrite bitstring_cons. cbn [bits_of_bytes flat_map].
    apply Permutation_app; [apply Ho|exact IH]. }
  rewrite <- Hb, <- (Ho p), H, !Ho. reflexivity.
Qed.
Lemma bytes_perm_front l : Permutation (bits_of_bytes (bytes_of_bits l) ++ chunks8_rem l) l.
Proof. pose proof (chunks8_msb l) as H. rewrite bitstring_msb in H. unfold bytes_of_bits. now rewrite H. Qed.
Lemma bytes_perm_back l : Permutation (bits_of_bytes (map byte_of_bits (rchunks8 l)) ++ rchunks8_rem l) l.
Proof.
  pose proof (rchunks8_lsb l) as H. pose proof (bits_eq_perm Lsb0 (map byte_of_bits (rchunks8 l)) (rchunks8_rem l) l []) as P.
  cbn [orient rev] in P. rewrite !app_nil_r in P. apply P. exact H.
Qed.
Lemma msb_lsb_perm left bits :
  Permutation (bits_of_bytes (fst (msb_lsb_pure left bits)) ++ snd (msb_lsb_pure left bits)) (left ++ bits).
Proof.
  unfold msb_lsb_pure. destruct (Nat.eqb_spec (length left) 0) as [Hz|Hz].
  - apply length_zero_iff_nil in Hz. rewrite Hz. cbn [fst snd app]. apply bytes_perm_front.
  - cbn zeta. remember (Nat.min (8 - length bits mod 8) (length left)) as c eqn:Ec.
    remember (Nat.min (length bits) (8 - c)) as front eqn:Ef.
    destruct (Nat.eqb_spec (c + front) 8) as [H8|H8]; cbn [fst snd]; [|reflexivity].
    cbn [bits_of_bytes flat_map]. fold (bits_of_bytes (bytes_of_bits (skipn front bits))).
    rewrite byte_bits_of_bits by (rewrite app_length, !firstn_length; lia).
    rewrite <- (app_assoc _ (bits_of_bytes _)), (app_assoc (bits_of_bytes _)), bytes_perm_front.
    rewrite <- (firstn_skipn c left) at 3. rewrite <- (firstn_skipn front bits) at 3.
    rewrite <- !app_assoc. apply Permutation_app_head.
    rewrite (app_assoc (firstn front bits)). apply Permutation_app_comm.
Qed.
Lemma lsb_msb_perm left bits :
  Permutation (bits_of_bytes (fst (lsb_msb_pure left bits)) ++ snd (lsb_msb_pure left bits)) (left ++ bits).
Proof.
  unfold lsb_msb_pure. cbn zeta. remember (Nat.min (8 - length bits mod 8) (length left)) as c eqn:Ec.
  destruct (Nat.eqb_spec (length bits mod 8 + c) 8) as [H8|H8]; cbn [fst snd].
  - rewrite bits_of_bytes_app. cbn [bits_of_bytes flat_map]. rewrite app_nil_r.
    rewrite byte_bits_of_bits by (rewrite app_length, firstn_length, rchunks8_rem_length; lia).
    rewrite <- !app_assoc, firstn_skipn, (app_assoc (bits_of_bytes _)), bytes_perm_back. apply Permutation_app_comm.
  - rewrite app_assoc, bytes_perm_back. apply Permutation_app_comm.
Qed.

(** What one bit write does, whatever the orders. *)
Theorem write_bits_order_ok bits o w : w_good w ->
  exists w' bs, write_bits_order bits o w = (Ok tt, w') /\ wadv w w' bs /\ w_good w' /\ w_ord w' = o /\
    Permutation (bits_of_bytes bs ++ w_left w') (w_left w ++ bits) /\
    (w_ord w = o -> bitstring o bs ++ orient o (w_left w') = orient o (w_left w) ++ orient o bits) /\
    (w_ord w <> o -> (bs, w_left w') =
      match o with Lsb0 => msb_lsb_pure (w_left w) bits | Msb0 => lsb_msb_pure (w_left w) bits end).
Proof.
  intros Hg. unfold write_bits_order. destruct Hg as [Ha Hl]. assert (Hg : w_good w) by (split; assumption).
  destruct (w_ord w) eqn:Ho, o.
  - destruct (msb_msb_ok bits w Hg Ho) as (w' & bs & E & A & O & L & S). exists w', bs.
    split; [exact E|]. split; [exact A|]. split; [split; [eapply wadv_accepting; eassumption|exact L]|].
    split; [exact O|]. split; [exact (bits_eq_perm Msb0 _ _ _ _ S)|]. split; [auto|congruence].
  - destruct (msb_lsb_ok bits w Hg Ho) as (w' & E & A & O & S & L). exists w', (fst (msb_lsb_pure (w_left w) bits)).
    split; [exact E|]. split; [exact A|]. split; [split; [eapply wadv_accepting; eassumption|exact L]|].
    split; [exact O|]. rewrite S. split; [apply msb_lsb_perm|]. split; [discriminate|]. intros _. symmetry. apply surjective_pairing.
  - destruct (lsb_msb_ok bits w Hg Ho) as (w' & E & A & O & S & L). exists w', (fst (lsb_msb_pure (w_left w) bits)).
    split; [exact E|]. split; [exact A|]. split; [split; [eapply wadv_accepting; eassumption|exact L]|].
    split; [exact O|]. rewrite S. split; [apply lsb_msb_perm|]. split; [discriminate|]. intros _. symmetry. apply surjective_pairing.
  - destruct (lsb_lsb_ok bits w Hg Ho) as (w' & bs & E & A & O & L & S). exists w', bs.
    split; [exact E|]. split; [exact A|]. split; [split; [eapply wadv_accepting; eassumption|exact L]|].
    split; [exact O|]. split; [exact (bits_eq_perm Lsb0 _ _ _ _ S)|]. split; [auto|congruence].
Qed.
Lemma write_bytes_ok buf w : w_good w ->
  exists w' bs, write_bytes buf w = (Ok tt, w') /\ wadv w w' bs /\ w_good w' /\
    w_ord w' = (if length (w_left w) =? 0 then w_ord w else Msb0) /\
    (w_left w = [] -> bs = buf /\ w_left w' = []) /\
    Permutation (bits_of_bytes bs ++ w_left w') (w_left w ++ bits_of_bytes buf) /\
    (w_ord w = Msb0 -> bitstring Msb0 bs ++ w_left w' = w_left w ++ bits_of_bytes buf).
Proof.
  intros Hg. unfold write_bytes. destruct (Nat.eqb_spec (length (w_left w)) 0) as [Hz|Hz]; cbn [negb].
  - destruct Hg as [Ha Hl]. destruct (w_write_all_ok buf w Ha) as (w1 & E1 & Em & L & O & B).
    rewrite (bind_ok _ _ _ _ _ E1). eexists. exists buf. split; [reflexivity|].
    apply length_zero_iff_nil in Hz. cbn [w_add_bits w_ord w_left w_k].
    split; [split; cbn [w_add_bits w_k w_bits]; [exact Em|lia]|].
    split; [split; [eapply emitted_accepting; eassumption|cbn [w_add_bits w_left]; rewrite L, Hz; cbn; lia]|].
    split; [exact O|]. rewrite L, Hz. split; [auto|]. rewrite !app_nil_r. split; reflexivity.
  - destruct (write_bits_order_ok (bits_of_bytes buf) Msb0 w Hg) as (w' & bs & E & A & G & O & P & S & _).
    exists w', bs. split; [exact E|]. split; [exact A|]. split; [exact G|]. split; [exact O|].
    split; [intros H; rewrite H in Hz; now cbn in Hz|]. split; [exact P|exact S].
Qed.

(** ** The integer fast path *)

Lemma bytes_of_bits_nth l : bytes_of_bits l = map (fun i => byte_of_bits (firstn 8 (skipn (8 * i) l))) (seq 0 (length l / 8)).
Proof.
  unfold bytes_of_bits. induction l as [l Hl|c l Hc IH] using len8_ind.
  - rewrite chunks8_short by exact Hl. replace (length l / 8) with 0 by lia. reflexivity.
  - rewrite chunks8_cons by exact Hc. rewrite app_length, Hc. replace ((8 + length l) / 8) with (S (length l / 8)) by lia.
    cbn [seq map]. f_equal.
    + change (8 * 0) with 0. cbn [skipn]. rewrite <- Hc, firstn_length_app. reflexivity.
    + rewrite IH. rewrite <- seq_shift, map_map. apply map_ext. intros i. f_equal. f_equal.
      rewrite skipn_app_ge by lia. f_equal. lia.
Qed.
Lemma byte_of_N_bits l : length l = 8 -> byte_of_N (bits2N l) = byte_of_bits l.
Proof. intros H. unfold byte_of_N. f_equal. rewrite <- H. apply N2bits_bits2N. Qed.
Lemma fast_bytes l k : length l = 8 * k ->
  map (fun i => byte_of_N (wrapN 8 (N.shiftr (bits2N l) (N.of_nat ((k - 1 - i) * 8))))) (seq 0 k) = bytes_of_bits l.
Proof.
  intros H. rewrite bytes_of_bits_nth. replace (length l / 8) with k by lia.
  apply map_ext_in. intros i Hi. apply in_seq in Hi.
  rewrite <- byte_of_N_bits by (rewrite firstn_length, skipn_length; lia). f_equal.
  unfold wrapN. rewrite N.shiftr_div_pow2.
  replace ((k - 1 - i) * 8) with (length l - 8 * (i + 1)) by lia.
  rewrite <- bits2N_firstn by lia.
  replace (firstn 8 (skipn (8 * i) l)) with (skipn (8 * i) (firstn (8 * (i + 1)) l)).
  - rewrite bits2N_skipn by (rewrite firstn_length; lia). rewrite firstn_length.
    replace (Nat.min (8 * (i + 1)) (length l) - 8 * i) with 8 by lia. reflexivity.
  - rewrite skipn_firstn_comm. f_equal. lia.
Qed.
Lemma fast_write_ok v amt w : w_good w -> w_ord w = Msb0 -> 1 <= amt <= 64 ->
  exists w' bs, write_bits_uint_msb0 v amt w = (Ok tt, w') /\ wadv w w' bs /\ w_good w' /\ w_ord w' = Msb0 /\
    bitstring Msb0 bs ++ w_left w' = w_left w ++ N2bits amt v.
Proof.
  intros [Ha Hl] Ho Hamt. unfold write_bits_uint_msb0.
  unfold assert_. destruct ((1 <=? amt) && (amt <=? 64)) eqn:Hb; [|lia]. erewrite bind_ok by reflexivity.
  unfold get at 1. erewrite bind_ok by reflexivity. rewrite Ho. cbn [order_eqb]. erewrite bind_ok by reflexivity.
  remember (w_left w) as left eqn:Eleft.
  (* the accumulator *)
  set (L := left ++ N2bits amt v).
  assert (HL : length L = length left + amt) by (subst L; rewrite app_length, N2bits_length; reflexivity).
  assert (Hacc0 : (if length left =? 0 then 0%N
     else N.shiftr (bits2N (left ++ repeat false (8 - length left))) (N.of_nat (8 - length left))) = bits2N left).
  { destruct (Nat.eqb_spec (length left) 0) as [Hz|Hz].
    - apply length_zero_iff_nil in Hz. now rewrite Hz.
    - rewrite bits2N_shift_zeros, N.shiftr_div_pow2, N.div_mul; [reflexivity|apply pow2_nz]. }
  cbn zeta. rewrite Hacc0.
  assert (Hacc : N.lor (wrapN 128 (N.shiftl (bits2N left) (N.of_nat amt)))
      (N.land v (N.shiftr (2 ^ 64 - 1) (N.of_nat (64 - amt)))) = bits2N L).
  { replace (N.of_nat (64 - amt)) with (64 - N.of_nat amt)%N by lia.
    rewrite mask64 by lia. rewrite land_pow2_mask. unfold wrapN. rewrite N.mod_small.
    - rewrite lor_shiftl_add by (apply N.mod_lt, pow2_nz).
      subst L. now rewrite bits2N_app, N2bits_length, bits2N_N2bits.
    - rewrite N.shiftl_mul_pow2. pose proof (bits2N_lt left) as Hlt.
      apply N.lt_le_trans with (2 ^ N.of_nat (length left) * 2 ^ N.of_nat amt)%N.
      + apply N.mul_lt_mono_pos_r; [apply pow2_pos|exact Hlt].
      + rewrite <- N.pow_add_r. apply pow2_le. lia. }
  rewrite Hacc. clear Hacc Hacc0.
  rewrite <- HL. remember (length L / 8) as whole eqn:Ewh. remember (length L mod 8) as rest eqn:Ers.
  assert (Haligned : N.shiftr (bits2N L) (N.of_nat rest) = bits2N (firstn (8 * whole) L)).
  { rewrite bits2N_firstn by lia. rewrite N.shiftr_div_pow2. do 3 f_equal. lia. }
  assert (Hfl : length (firstn (8 * whole) L) = 8 * whole) by (rewrite firstn_length; lia).
  (* whole bytes *)
  assert (Hwh : exists w1, (if whole =? 0 then ret tt
    else
      if 9 <? whole then panic else
      let aligned := N.shiftr (bits2N L) (N.of_nat rest) in
      let buf := map (fun i => byte_of_N (wrapN 8 (N.shiftr aligned (N.of_nat ((whole - 1 - i) * 8)))))
                     (seq 0 whole) in
      let* _ := w_write_all buf in
      wmod (fun w => w_add_bits w (whole * 8))) w = (Ok tt, w1) /\ wadv w w1 (bytes_of_bits (firstn (8 * whole) L)) /\
      w_left w1 = left /\ w_ord w1 = Msb0).
  { destruct (Nat.eqb_spec whole 0) as [Hz|Hz].
    - exists w. split; [reflexivity|]. rewrite Hz. change (bytes_of_bits (firstn (8 * 0) L)) with (@nil byte).
      split; [now apply wadv_nil|]. auto.
    - destruct (Nat.ltb_spec 9 whole); [lia|]. cbn zeta. rewrite Haligned, fast_bytes by exact Hfl.
      destruct (w_write_all_ok (bytes_of_bits (firstn (8 * whole) L)) w Ha) as (w1 & E1 & Em & L1 & O1 & B1).
      rewrite (bind_ok _ _ _ _ _ E1). eexists. split; [reflexivity|]. cbn [w_add_bits w_left w_ord].
      split; [|split; congruence]. split; cbn [w_add_bits w_k w_bits]; [exact Em|].
      rewrite bytes_of_bits_length, Hfl. lia. }
  destruct Hwh as (w1 & E1 & A1 & L1 & O1). cbn zeta in E1. rewrite (bind_ok _ _ _ _ _ E1). clear E1.
  exists (mkWriter (w_k w1) (skipn (8 * whole) L) Msb0 (w_bits w1)), (bytes_of_bits (firstn (8 * whole) L)).
  assert (Hsk : length (skipn (8 * whole) L) = rest) by (rewrite skipn_length; lia).
  split.
  { destruct (Nat.eqb_spec rest 0) as [Hz|Hz].
    - assert (Hn : skipn (8 * whole) L = []) by (apply length_zero_iff_nil; lia). rewrite Hn.
      unfold wmod. erewrite bind_ok by reflexivity. unfold w_set_ord, w_set_left. cbn. reflexivity.
    - assert (Htail : wrapN 8 (N.land (bits2N L) (N.shiftl 1 (N.of_nat rest) - 1)) = (bits2N (skipn (8 * whole) L))).
      { rewrite N.shiftl_mul_pow2, N.mul_1_l, land_pow2_mask. unfold wrapN. rewrite bits2N_skipn by lia.
        replace (length L - 8 * whole) with rest by lia. apply N.mod_small.
        apply N.lt_le_trans with (2 ^ N.of_nat rest)%N; [apply N.mod_lt, pow2_nz|apply pow2_le; lia]. }
      rewrite Htail. unfold wrapN. rewrite firstn_N2bits_high by (try lia; rewrite <- Hsk; apply bits2N_lt).
      assert (Hn : N2bits rest (bits2N (skipn (8 * whole) L)) = skipn (8 * whole) L)
        by (rewrite <- Hsk; apply N2bits_bits2N).
      rewrite Hn. reflexivity. }
  split; [destruct A1 as [X Y]; split; [exact X|exact Y]|].
  split; [split; [exact (wadv_accepting _ _ _ A1 Ha)|cbn [w_left]; lia]|]. split; [reflexivity|].
  cbn [w_left]. rewrite bitstring_msb, bits_bytes_of_bits by (rewrite Hfl; lia). apply firstn_skipn.
Qed.
Lemma write_uint_lsb v amt w : w_ord w = Lsb0 -> fst (write_bits_uint_msb0 v amt w) = Panic /\ snd (write_bits_uint_msb0 v amt w) = w.
Proof.
  intros H. unfold write_bits_uint_msb0, assert_. destruct ((1 <=? amt) && (amt <=? 64)); [|split; reflexivity].
  unfold get, bind. cbn [ret]. rewrite H. split; reflexivity.
Qed.
