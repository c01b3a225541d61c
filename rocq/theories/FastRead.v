(** The integer read fast path computes what the generic path computes. *)
From Coq Require Import Lia ZifyBool ZifyNat ZifyN.
From Verif Require Import Base Spec Stream Reader BitsFacts NFacts ReaderFacts.
Ltac Zify.zify_post_hook ::= Z.div_mod_to_equations.

(** Equality of computations on quiet sources. *)
Lemma r_io_quiet n r x r' : quiet (r_s r) -> r_io n r = (x, r') -> quiet (r_s r').
Proof.
  intros Hq E k. unfold r_io, s_read_exact in E. rewrite (Hq (s_calls (r_s r))) in E.
  destruct (n <=? length (s_avail (r_s r))); injection E as <- <-; cbn; [apply Hq|].
  destruct (s_eat (r_s r)); apply Hq.
Qed.
Lemma r_io_eof n r k r' : quiet (r_s r) -> r_io n r = (IoErr k, r') -> k = UnexpectedEof.
Proof.
  intros Hq E. unfold r_io, s_read_exact in E. rewrite (Hq (s_calls (r_s r))) in E.
  destruct (n <=? length (s_avail (r_s r))); [discriminate|]. injection E as <- <-. reflexivity.
Qed.

Lemma fill_slots_add d a b r : quiet (r_s r) ->
  fill_slots d (a + b) r =
  (let* l1 := fill_slots d a in let* l2 := fill_slots d b in ret (l1 ++ l2)) r.
Proof.
  revert r; induction a as [|a IH]; intros r Hq.
  - cbn [Nat.add fill_slots]. unfold bind, ret. cbn.
    destruct (fill_slots d b r) as [[]]; reflexivity.
  - cbn [Nat.add fill_slots]. unfold bind.
    destruct (r_io 1 r) as [[bs|k] r1] eqn:E.
    + pose proof (r_io_quiet _ _ _ _ Hq E) as Hq1. rewrite (IH _ Hq1). unfold bind, ret.
      destruct (fill_slots d a r1) as [[] r2]; try reflexivity.
      destruct (fill_slots d b r2) as [[] r3]; reflexivity.
    + now rewrite (r_io_eof _ _ _ _ Hq E).
Qed.
Lemma read_rem_byte_fill d r : quiet (r_s r) ->
  read_rem_byte d r = (let* l := fill_slots d 1 in ret (hd x00 l)) r.
Proof.
  intros Hq. unfold read_rem_byte, bind. cbn [fill_slots]. unfold bind.
  destruct (r_io 1 r) as [[bs|k] r1] eqn:E; cbn; [reflexivity|].
  now rewrite (r_io_eof _ _ _ _ Hq E).
Qed.

Lemma fill_slots_len d k r l r' : fill_slots d k r = (Ok l, r') -> length l = k.
Proof.
  revert r l r'; induction k as [|k IH]; intros r l r' E; cbn [fill_slots] in E.
  - now injection E as <- <-.
  - unfold bind, ret in E. destruct (r_io 1 r) as [[bs|e] r1].
    + destruct (fill_slots d k r1) as [[] r2] eqn:E2; try discriminate.
      injection E as <- <-. cbn. f_equal. eapply IH; eassumption.
    + destruct (is_eof e); [discriminate|].
      destruct (fill_slots d k r1) as [[] r2] eqn:E2; try discriminate.
      injection E as <- <-. cbn. f_equal. eapply IH; eassumption.
Qed.

Lemma wrap_small w x : (x < 2 ^ w)%N -> wrap w x = x.
Proof. apply N.mod_small. Qed.

(** The accumulating loop. *)
Lemma uint_loop_spec fuel amt L r : quiet (r_s r) ->
  amt <= fuel + length L -> length L + 8 * ceil8 (amt - length L) <= 128 ->
  uint_loop fuel amt (bits2N L) (length L) r =
  (let* bs := fill_slots amt (ceil8 (amt - length L)) in
   ret (bits2N (L ++ bits_of_bytes bs), length (L ++ bits_of_bytes bs))) r.
Proof.
  revert L r; induction fuel as [|fuel IH]; intros L r Hq Hf H128; cbn [uint_loop].
  - destruct (Nat.leb_spec amt (length L)); [|lia].
    replace (ceil8 (amt - length L)) with 0 by (unfold ceil8; lia).
    cbn. now rewrite app_nil_r.
  - destruct (Nat.leb_spec amt (length L)) as [H|H].
    + replace (ceil8 (amt - length L)) with 0 by (unfold ceil8; lia).
      cbn. now rewrite app_nil_r.
    + replace (ceil8 (amt - length L)) with (S (ceil8 (amt - length L - 8))) by (unfold ceil8; lia).
      cbn [fill_slots]. unfold bind at 1.
      destruct (r_io 1 r) as [[bs|k] r1] eqn:E; [|now rewrite (r_io_eof _ _ _ _ Hq E)].
      pose proof (r_io_quiet _ _ _ _ Hq E) as Hq1.
      set (b := hd x00 bs).
      assert (Hacc : N.lor (wrap 128 (N.shiftl (bits2N L) 8)) (Byte.to_N b) = bits2N (L ++ byte_bits b)).
      { pose proof (bits2N_lt L) as HL. pose proof (byte_to_N_lt b) as Hb.
        rewrite wrap_small.
        - rewrite lor_shiftl_add by exact Hb. rewrite bits2N_app, byte_bits_length, byte_to_N_bits. reflexivity.
        - rewrite N.shiftl_mul_pow2.
          replace (2 ^ 128)%N with (2 ^ 120 * 2 ^ 8)%N by reflexivity.
          apply N.mul_lt_mono_pos_r; [reflexivity|].
          eapply N.lt_le_trans; [exact HL|]. apply pow2_le. unfold ceil8 in H128. lia. }
      rewrite Hacc.
      replace (length L + 8) with (length (L ++ byte_bits b)) by (rewrite app_length, byte_bits_length; reflexivity).
      rewrite IH; try exact Hq1; rewrite ?app_length, ?byte_bits_length.
      * replace (amt - (length L + 8)) with (amt - length L - 8) by lia.
        unfold bind, ret. destruct (fill_slots amt (ceil8 (amt - length L - 8)) r1) as [[] r2]; try reflexivity.
        cbn [bits_of_bytes flat_map]. now rewrite <- app_assoc.
      * lia.
      * unfold ceil8 in *. lia.
Qed.

(** The generic path, written with one block of byte reads. *)
Lemma read_greater_msb_fill n prev r : quiet (r_s r) -> length prev < n ->
  read_greater_msb n prev r =
  (let* bs := fill_slots n (ceil8 (n - length prev)) in
   let L := prev ++ bits_of_bytes bs in
   let* _ := modify (fun r => if length L - n =? 0 then r else r_set_left r (Some (LBits (skipn n L)))) in
   ret (firstn n L)) r.
Proof.
  intros Hq Hn. unfold read_greater_msb.
  set (need := n - length prev). set (k := need / 8). set (rem := need mod 8).
  destruct (Nat.eqb_spec rem 0) as [Hr|Hr].
  - replace (ceil8 need) with k by (unfold ceil8; subst k rem; lia).
    unfold bind. destruct (fill_slots n k r) as [[bs| | |] r1] eqn:E; try reflexivity.
    cbn zeta. pose proof (fill_slots_len _ _ _ _ _ E) as Hl.
    assert (HL : length (prev ++ bits_of_bytes bs) = n).
    { rewrite app_length, bits_of_bytes_length, Hl. subst k rem need. lia. }
    rewrite HL, Nat.sub_diag. cbn [Nat.eqb]. unfold modify, ret.
    rewrite firstn_all2 by lia. now rewrite concat_byte_bits, bitstring_msb.
  - replace (ceil8 need) with (k + 1) by (unfold ceil8; subst k rem; lia).
    unfold bind. rewrite fill_slots_add by exact Hq. unfold bind.
    destruct (fill_slots n k r) as [[bs| | |] r1] eqn:E; try reflexivity.
    pose proof (fill_slots_len _ _ _ _ _ E) as Hl.
    assert (Hq1 : quiet (r_s r1)).
    { destruct (le_lt_dec k (length (s_avail (r_s r)))) as [Hk|Hk].
      - destruct (fill_slots_ok n k r Hq Hk) as (r2 & E2 & S2 & _). rewrite E in E2. injection E2 as _ <-.
        eapply same_source_quiet; eassumption.
      - destruct (fill_slots_short n k r Hq Hk) as (r2 & E2 & _). rewrite E in E2. discriminate. }
    rewrite read_rem_byte_fill by exact Hq1. unfold bind.
    destruct (fill_slots n 1 r1) as [[b1| | |] r2] eqn:E2; try reflexivity.
    pose proof (fill_slots_len _ _ _ _ _ E2) as Hl2.
    destruct b1 as [|b [|? ?]]; try discriminate Hl2. unfold ret. cbn [hd].
    rewrite bits_of_bytes_app. cbn [bits_of_bytes flat_map]. rewrite app_nil_r.
    fold (bits_of_bytes bs). unfold modify.
    set (P := prev ++ bits_of_bytes bs).
    assert (HP : n = length P + rem).
    { unfold P. rewrite app_length, bits_of_bytes_length, Hl. subst k rem need. lia. }
    rewrite !app_assoc. fold P. rewrite app_length, byte_bits_length.
    destruct (Nat.eqb_spec (length P + 8 - n) 0) as [Hz|Hz].
    { exfalso. subst rem. lia. }
    rewrite skipn_app_ge, firstn_app_ge by lia.
    replace (n - length P) with rem by lia.
    rewrite concat_byte_bits, bitstring_msb. fold P. reflexivity.
Qed.

Lemma read_bits_into_eq n o r : n <> 0 -> n = length (left_bits (r_left r)) -> n <= 8 ->
  read_bits_into n o r = (Ok (left_bits (r_left r)), r_add_bits (r_set_left r None) n).
Proof.
  intros H0 He H8. unfold read_bits_into. destruct (Nat.eqb_spec n 0); [lia|]. cbn zeta.
  rewrite (proj2 (Nat.compare_eq_iff _ _) He). unfold bind, assert_.
  destruct (Nat.leb_spec (length (left_bits (r_left r))) 8); [reflexivity|lia].
Qed.
Lemma read_bits_into_lt_msb n r : n <> 0 -> n < length (left_bits (r_left r)) <= 8 ->
  read_bits_into n Msb0 r =
  (Ok (firstn n (left_bits (r_left r))),
   r_add_bits (r_set_left r (Some (LBits (skipn n (left_bits (r_left r)))))) n).
Proof.
  intros H0 He. unfold read_bits_into. destruct (Nat.eqb_spec n 0); [lia|]. cbn zeta.
  rewrite (proj2 (Nat.compare_lt_iff _ _) (proj1 He)). unfold bind, assert_.
  destruct (Nat.leb_spec (length (left_bits (r_left r))) 8); [reflexivity|lia].
Qed.
Lemma read_bits_into_gt n o r : length (left_bits (r_left r)) < n ->
  read_bits_into n o r =
  (let* dst := match o with Lsb0 => read_greater_lsb n (left_bits (r_left r))
                          | Msb0 => read_greater_msb n (left_bits (r_left r)) end in
   let* _ := modify (fun r => r_add_bits r n) in ret dst) (r_set_left r None).
Proof.
  intros He. unfold read_bits_into. destruct (Nat.eqb_spec n 0); [lia|]. cbn zeta.
  rewrite (proj2 (Nat.compare_gt_iff _ _) He). reflexivity.
Qed.

Theorem fast_read_generic amt r : r_wf r -> quiet (r_s r) -> 1 <= amt <= 64 ->
  read_bits_uint_msb0 amt r = (let* l := read_bits_into amt Msb0 in ret (bits2N l)) r.
Proof.
  intros Hwf Hq Ha. unfold read_bits_uint_msb0.
  replace ((1 <=? amt) && (amt <=? 64)) with true by lia. unfold assert_. unfold bind at 1. cbn [ret].
  pose proof (left_bits_le8 r Hwf) as H8.
  set (prev := left_bits (r_left r)) in *.
  assert (Hstart : match r_left r with
    | Some (LByte b) => (Byte.to_N b, 8)
    | Some (LBits bits) => if length bits =? 0 then (0%N, 0)
        else (N.shiftr (as_msb0_byte bits) (N.of_nat (8 - length bits)), length bits)
    | None => (0%N, 0) end = (bits2N prev, length prev)).
  { subst prev. unfold r_wf in Hwf. destruct (r_left r) as [[b|l]|]; cbn [left_bits].
    - now rewrite byte_to_N_bits, byte_bits_length.
    - destruct (Nat.eqb_spec (length l) 0); [lia|]. f_equal.
      unfold as_msb0_byte. rewrite bits2N_shift_zeros, N.shiftr_div_pow2. apply N.div_mul, pow2_nz.
    - reflexivity. }
  rewrite Hstart. clear Hstart. unfold bind at 1.
  rewrite uint_loop_spec; cbn [r_set_left r_s]; [|exact Hq|lia|unfold ceil8; lia].
  set (r1 := r_set_left r None).
  (* the tail common to both, from the block of bits read so far *)
  assert (Hval : forall L, amt <= length L -> length L - amt < 8 -> length L <= 128 ->
    N.land (wrap 64 (N.shiftr (bits2N L) (N.of_nat (length L - amt))))
      (N.shiftr (2 ^ 64 - 1) (N.of_nat (64 - amt))) = bits2N (firstn amt L)).
  { intros L HL Hr H128.
    rewrite bits2N_firstn by exact HL. rewrite N.shiftr_div_pow2.
    replace (N.of_nat (64 - amt)) with (64 - N.of_nat amt)%N by lia.
    rewrite mask64 by lia. rewrite land_pow2_mask.
    rewrite <- bits2N_firstn by exact HL.
    pose proof (bits2N_lt (firstn amt L)) as Hb. rewrite firstn_length_le in Hb by exact HL.
    rewrite wrap_small; [now apply N.mod_small|].
    eapply N.lt_le_trans; [exact Hb|]. apply pow2_le. lia. }
  assert (Htail : forall L, amt <= length L -> length L - amt < 8 ->
    firstn (length L - amt) (N2bits 8 (wrap 8 (N.shiftl
      (wrap 8 (N.land (bits2N L) (N.shiftl 1 (N.of_nat (length L - amt)) - 1)))
      (N.of_nat (8 - (length L - amt)))))) = skipn amt L).
  { intros L HL Hr. rewrite N.shiftl_1_l, land_pow2_mask, <- bits2N_skipn by exact HL.
    pose proof (bits2N_lt (skipn amt L)) as Hb. rewrite skipn_length in Hb.
    unfold wrap at 2. rewrite (N.mod_small (bits2N (skipn amt L))).
    2:{ eapply N.lt_le_trans; [exact Hb|]. apply pow2_le. lia. }
    unfold wrap. rewrite firstn_N2bits_high; [|lia|exact Hb].
    rewrite <- (skipn_length amt L). apply N2bits_bits2N. }
  destruct (Nat.compare_spec amt (length prev)) as [Heq|Hlt|Hgt]; unfold bind.
  - rewrite read_bits_into_eq by (fold prev; lia).
    replace (ceil8 (amt - length prev)) with 0 by (unfold ceil8; lia).
    cbn [fill_slots]. unfold ret. cbn [bits_of_bytes flat_map]. rewrite app_nil_r.
    rewrite Hval by lia. rewrite (@firstn_all2 _ amt prev) by lia.
    destruct (Nat.eqb_spec (length prev - amt) 0); [|lia]. reflexivity.
  - rewrite read_bits_into_lt_msb by (fold prev; lia).
    replace (ceil8 (amt - length prev)) with 0 by (unfold ceil8; lia).
    cbn [fill_slots]. unfold ret. cbn [bits_of_bytes flat_map]. rewrite app_nil_r.
    rewrite Hval by lia.
    destruct (Nat.eqb_spec (length prev - amt) 0); [lia|]. rewrite Htail by lia. reflexivity.
  - rewrite read_bits_into_gt by (fold prev; lia). fold prev. fold r1. unfold bind.
    rewrite read_greater_msb_fill by (assumption || exact Hq). unfold bind.
    destruct (fill_slots amt (ceil8 (amt - length prev)) r1) as [[bs| | |] r2] eqn:E; try reflexivity.
    pose proof (fill_slots_len _ _ _ _ _ E) as Hl. unfold ret. cbn zeta.
    set (L := prev ++ bits_of_bytes bs).
    assert (HL : length L = length prev + 8 * ceil8 (amt - length prev)).
    { unfold L. now rewrite app_length, bits_of_bytes_length, Hl. }
    unfold ceil8 in HL.
    rewrite Hval by lia. unfold modify.
    destruct (Nat.eqb_spec (length L - amt) 0); [reflexivity|]. rewrite Htail by lia. reflexivity.
Qed.
