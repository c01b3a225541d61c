(** The property theorems about primitives, proved. *)
From Coq Require Import Lia ZifyBool ZifyNat ZifyN.
From Verif Require Import Base Spec Stream Reader Session Writer WSession Prims BitsFacts NFacts MonadFacts ReaderFacts CodecSpec CodecFacts PrimFacts.
Ltac Zify.zify_post_hook ::= Z.div_mod_to_equations.

Lemma mult8 p n : n = prim_width p -> n mod 8 = 0.
Proof. unfold prim_width. lia. Qed.

Theorem prim_u_codec p c e n o v : is_unsigned p -> bits_of_ctx c = Some (e, n, o) -> supported p e n o -> (v < 2 ^ N.of_nat n)%N ->
  (forall a, emits o a (prim_write p c v) (layout e o n v)) /\ (forall src, reads src o (prim_read p c) (layout e o n v) v).
Proof.
  intros Hu Hc [Hn Hb] Hv. split; intros; [now apply emits_prim_u|apply reads_prim_u; try assumption].
  intros E1 E2. destruct (Hb E1 E2); [now left|right; now apply (mult8 p)].
Qed.

Lemma be_from_be bs : be_bytes (length bs) (from_be bs) = bs.
Proof. unfold be_bytes, from_be. rewrite <- bits_of_bytes_length, N2bits_bits2N. apply bytes_of_bits_of_bytes. Qed.
Lemma layout_surj e o n bits : length bits = n -> exists v, (v < 2 ^ N.of_nat n)%N /\ layout e o n v = bits.
Proof.
  intros Hl. unfold layout.
  assert (HX : exists A B, length A = 8 * (n / 8) /\ length B = n mod 8 /\
    bits = match e with Little => A ++ B | Big => B ++ A end).
  { destruct e.
    - exists (firstn (8 * (n / 8)) bits), (skipn (8 * (n / 8)) bits). rewrite firstn_length, skipn_length, firstn_skipn. repeat split; lia.
    - exists (skipn (n mod 8) bits), (firstn (n mod 8) bits). rewrite firstn_length, skipn_length, firstn_skipn. repeat split; lia. }
  destruct HX as (A & B & HA & HB & ->).
  assert (HY : exists bs, length bs = n / 8 /\ bitstring o bs = A).
  { assert (HE : bits_of_bytes (bytes_of_bits A) = A) by (apply bits_bytes_of_bits; lia).
    assert (HL : length (bytes_of_bits A) = n / 8) by (rewrite bytes_of_bits_length; lia).
    revert HE HL. generalize (bytes_of_bits A). intros bs HE HL. exists (match o with Msb0 => bs | Lsb0 => map (fun b => byte_of_bits (rev (byte_bits b))) bs end).
    destruct o; [split; [lia|exact HE]|]. rewrite map_length. split; [lia|]. rewrite <- HE. clear. induction bs as [|b bs IH]; [reflexivity|].
    cbn [map]. rewrite bitstring_cons, IH. cbn [orient]. rewrite byte_bits_of_bits, rev_involutive by now rewrite rev_length, byte_bits_length.
    reflexivity. }
  destruct HY as (bs & HL & HE).
  set (lo := match e with Little => from_le bs | Big => from_be bs end).
  set (hi := bits2N (orient o B)).
  assert (Hlo : (lo < 2 ^ N.of_nat (8 * (n / 8)))%N).
  { unfold lo. destruct e; unfold from_le, from_be; eapply N.lt_le_trans; try apply bits2N_lt;
    rewrite bits_of_bytes_length, ?rev_length, HL; lia. }
  assert (Hhi : (hi < 2 ^ N.of_nat (n mod 8))%N).
  { unfold hi. eapply N.lt_le_trans; [apply bits2N_lt|]. rewrite orient_length, HB. lia. }
  exists (lo + hi * 2 ^ N.of_nat (8 * (n / 8)))%N. split.
  - replace (N.of_nat n) with (N.of_nat (n mod 8) + N.of_nat (8 * (n / 8)))%N by lia. rewrite N.pow_add_r.
    pose proof (pow2_pos (N.of_nat (8 * (n / 8)))). nia.
  - assert (E1 : ((lo + hi * 2 ^ N.of_nat (8 * (n / 8))) / 2 ^ N.of_nat (8 * (n / 8)) = hi)%N).
    { rewrite N.div_add by apply pow2_nz. rewrite N.div_small by exact Hlo. lia. }
    assert (E2 : ((lo + hi * 2 ^ N.of_nat (8 * (n / 8))) mod 2 ^ N.of_nat (8 * (n / 8)) = lo)%N).
    { rewrite N.mod_add by apply pow2_nz. now apply N.mod_small. }
    rewrite E1. assert (E3 : orient o (N2bits (n mod 8) hi) = B).
    { unfold hi. rewrite <- HB, <- (orient_length o B), N2bits_bits2N. now destruct o; cbn [orient]; rewrite ?rev_involutive. }
    rewrite E3. destruct e.
    + rewrite <- le_mod, E2, <- HE. unfold lo, from_le, le_bytes. f_equal. f_equal. rewrite <- HL, <- (rev_length bs), be_from_be.
      apply rev_involutive.
    + rewrite <- be_mod, E2, <- HE. unfold lo. f_equal. f_equal. rewrite <- HL. apply be_from_be.
Qed.

Theorem prim_u_canonical p c e n o bits : is_unsigned p -> bits_of_ctx c = Some (e, n, o) -> supported p e n o -> length bits = n ->
  exists v, (v < 2 ^ N.of_nat n)%N /\ (forall src, reads src o (prim_read p c) bits v) /\ (forall a, emits o a (prim_write p c v) bits).
Proof.
  intros Hu Hc Hs Hl. destruct (layout_surj e o n bits Hl) as (v & Hv & <-). exists v. split; [exact Hv|].
  destruct (prim_u_codec p c e n o v Hu Hc Hs Hv). now split.
Qed.

Lemma fields_codec o fs : Forall (field_fits o) fs -> exists enc, length enc = fields_bits fs /\
  (forall a, emits o a (write_fields fs) enc) /\ (forall src, reads src o (read_fields (map fst fs)) enc (map snd fs)).
Proof.
  induction 1 as [|[[p c] v] fs Hf _ IH].
  - exists []. split; [reflexivity|]. split; intros; [apply emits_ret|apply reads_ret].
  - destruct IH as (enc & Hl & HW & HR). destruct Hf as (Hu & e & n & Hc & Hs & Hv).
    destruct (prim_u_codec p c e n o v Hu Hc Hs Hv) as [HW1 HR1].
    exists (layout e o n v ++ enc). split.
    + rewrite app_length, layout_length, Hl. unfold fields_bits. cbn [map list_sum fold_right snd fst]. unfold ctx_bits at 2. now rewrite Hc.
    + cbn [write_fields read_fields map fst snd]. split; intros.
      * apply emits_bind; [apply HW1|apply HW].
      * eapply reads_bind; [apply HR1|]. rewrite <- (app_nil_r enc). eapply reads_bind; [apply HR|apply reads_ret].
Qed.
Theorem fields_roundtrip o fs tail : Forall (field_fits o) fs ->
  exists w r, (let* _ := write_fields fs in finalize) (writer_new vec_sink) = (Ok tt, w) /\
    read_fields (map fst fs) (reader_new (cursor (k_data (w_k w) ++ tail))) = (Ok (map snd fs), r) /\
    r_bits r = fields_bits fs.
Proof.
  intros H. destruct (fields_codec o fs H) as (enc & Hl & HW & HR).
  destruct (emits_out o _ enc (HW 0)) as (w & pad & E & HD & _).
  destruct (HR AnySource (reader_new (cursor (k_data (w_k w) ++ tail))) (repeat false pad ++ bitstring o tail)) as (r & Er & _ & _ & Hb & _).
  - apply readable_new.
  - rewrite app_assoc, <- HD. rewrite <- bitstring_app. destruct o; reflexivity.
  - exists w, r. split; [exact E|]. split; [exact Er|]. rewrite Hb, <- Hl. reflexivity.
Qed.

(** ** Signed *)

Definition signed_fits (w n : nat) (v : N) : Prop := (- 2 ^ (Z.of_nat n - 1) <= signed w v < 2 ^ (Z.of_nat n - 1))%Z.
Theorem prim_i_exact wb e n v w : 1 <= wb -> 1 <= n -> (v < 2 ^ N.of_nat (8 * wb))%N -> writable w ->
  (n <= 8 * wb /\ (- 2 ^ (Z.of_nat n - 1) <= signed (8 * wb) v < 2 ^ (Z.of_nat n - 1))%Z ->
     exists w', prim_write (PI wb) (CEB e n) v w = (Ok tt, w')) /\
  (~ (n <= 8 * wb /\ (- 2 ^ (Z.of_nat n - 1) <= signed (8 * wb) v < 2 ^ (Z.of_nat n - 1))%Z) ->
     prim_write (PI wb) (CEB e n) v w = (Err InvalidParam, w)).
Proof. intros H1 H2 H3 H4. exact (exact_i_eb wb e n v w H1 H2 H3 H4). Qed.
Theorem prim_i_codec wb e n v : 1 <= n <= 8 * wb -> (v < 2 ^ N.of_nat (8 * wb))%N ->
  (- 2 ^ (Z.of_nat n - 1) <= signed (8 * wb) v < 2 ^ (Z.of_nat n - 1))%Z ->
  (forall a, emits Msb0 a (prim_write (PI wb) (CEB e n) v) (layout e Msb0 n v)) /\
  (forall src, reads src Msb0 (prim_read (PI wb) (CEB e n)) (layout e Msb0 n v) v).
Proof.
  intros Hn Hv Hr. split; intros; cbn [prim_write prim_read write_eb read_ebo].
  - apply emits_i_eb; assumption || lia.
  - apply reads_i_bits; try assumption. discriminate.
Qed.
Theorem prim_i_codec_le wb n v : 1 <= n <= 8 * wb -> n mod 8 <> 0 -> (v < 2 ^ N.of_nat (8 * wb))%N ->
  (- 2 ^ (Z.of_nat n - 1) <= signed (8 * wb) v < 2 ^ (Z.of_nat n - 1))%Z ->
  (forall a, emits Msb0 a (prim_write (PI wb) (CB n) v) (layout Little Msb0 n v)) /\
  (forall src, reads src Msb0 (prim_read (PI wb) (CB n)) (layout Little Msb0 n v) v).
Proof.
  intros Hn Hm Hv Hr. destruct (prim_i_codec wb Little n v Hn Hv Hr) as [H1 H2]. split; [exact H1|].
  cbn [prim_read]. apply Nat.eqb_neq in Hm. rewrite Hm. exact H2.
Qed.
Lemma signed_full w v : 1 <= w -> (v < 2 ^ N.of_nat w)%N ->
  (- 2 ^ (Z.of_nat w - 1) <= signed w v < 2 ^ (Z.of_nat w - 1))%Z.
Proof.
  intros Hw Hv. apply in_range_reach; [lia|exact Hv|]. unfold reach. rewrite (pow2_pred w Hw) in *.
  destruct (N.leb_spec (2 * 2 ^ N.of_nat (w - 1)) (2 * v)); lia.
Qed.
Lemma signed_small w n v : 1 <= n <= w -> (v < 2 ^ N.of_nat (n - 1))%N ->
  (- 2 ^ (Z.of_nat n - 1) <= signed w v < 2 ^ (Z.of_nat n - 1))%Z.
Proof.
  intros Hn Hv. apply in_range_reach; [lia|eapply pow2_small; [|exact Hv]; lia|]. unfold reach.
  pose proof (pow2_mono (n - 1) (w - 1) ltac:(lia)). pose proof (pow2_pred w ltac:(lia)).
  destruct (N.leb_spec (2 ^ N.of_nat w) (2 * v)); lia.
Qed.
Theorem prim_i_explicit_order wb e n v : 1 <= n <= 8 * wb -> (v < 2 ^ N.of_nat (8 * wb))%N ->
  (v < 2 ^ N.of_nat (n - 1))%N \/ n = 8 * wb ->
  (forall a, emits Msb0 a (prim_write (PI wb) (CEBO e n Msb0) v) (layout e Msb0 n v)) /\
  (forall src, reads src Msb0 (prim_read (PI wb) (CEBO e n Msb0)) (layout e Msb0 n v) v).
Proof.
  intros Hn Hv Hr. split; intros; cbn [prim_write prim_read write_ebo read_ebo].
  - apply emits_ebo_generic; [lia| |discriminate]. destruct Hr as [Hr| ->]; [eapply pow2_small; [|exact Hr]; lia|exact Hv].
  - apply reads_i_bits; try assumption; [discriminate|]. destruct Hr as [Hr| ->]; [apply signed_small; assumption|apply signed_full; [lia|exact Hv]].
Qed.

(** ** Byte sizes *)

Lemma to_bytes_mod e n v : to_bytes_e e n (v mod 2 ^ N.of_nat (8 * n)) = to_bytes_e e n v.
Proof. destruct e; [apply le_mod|apply be_mod]. Qed.
Theorem prim_bytes_codec p c e n o v : bytes_of_ctx (prim_bytes p) c = Some (e, n, o) ->
  0 < n <= prim_bytes p -> (v < 2 ^ N.of_nat (prim_width p))%N ->
  (forall a, o = Msb0 \/ a = 0 -> emits o a (prim_write p c v) (bitstring o (to_bytes_e e n v))) /\
  (forall src, reads src o (prim_read p c) (bitstring o (to_bytes_e e n v)) (v mod 2 ^ N.of_nat (8 * n))%N).
Proof.
  intros Hc Hn Hv. split; intros; [now apply emits_prim_bytes|].
  rewrite <- to_bytes_mod. apply reads_prim_bytes; try assumption. apply N.mod_lt, pow2_nz.
Qed.
Theorem prim_bytes_roundtrip p c e n o v : bytes_of_ctx (prim_bytes p) c = Some (e, n, o) ->
  0 < n <= prim_bytes p -> (v < 2 ^ N.of_nat (8 * n))%N ->
  (forall a, o = Msb0 \/ a = 0 -> emits o a (prim_write p c v) (bitstring o (to_bytes_e e n v))) /\
  (forall src, reads src o (prim_read p c) (bitstring o (to_bytes_e e n v)) v).
Proof.
  intros Hc Hn Hv. destruct (prim_bytes_codec p c e n o v Hc Hn) as [H1 H2].
  - eapply pow2_small; [|exact Hv]. unfold prim_width. lia.
  - split; [exact H1|]. intros src. specialize (H2 src). now rewrite N.mod_small in H2.
Qed.
Theorem bytes_oversize_write p c e n o v w : p <> PU8 -> bytes_of_ctx (prim_bytes p) c = Some (e, n, o) -> prim_bytes p < n ->
  prim_write p c v w = (Err InvalidParam, w).
Proof.
  intros Hp Hc Hn.
  assert (HY : write_eyo p e n v w = (Err InvalidParam, w)).
  { destruct p as [|wb|wb]; [now destruct Hp| |]; cbn [write_eyo prim_bytes] in *; unfold write_bytes_sized;
    (replace (wb <? n) with true by lia); reflexivity. }
  destruct c; cbn in Hc; try discriminate; injection Hc as <- <- <-; cbn [prim_write]; first [lia|exact HY].
Qed.

(** ** Oversize reads *)

Lemma read_eyo_over p e n o r : p <> PU8 -> prim_bytes p < n -> read_eyo p e n o r = (Err Parse, r).
Proof.
  intros Hp Hn. destruct p as [|wb|wb]; [now destruct Hp| |]; cbn [read_eyo prim_bytes] in *; unfold read_bytes_sized;
  (replace (wb <? n) with true by lia); reflexivity.
Qed.
Lemma read_ebo_over p e n o r : prim_width p < n -> read_ebo p e n o r = (Err Parse, r).
Proof.
  intros Hn. unfold prim_width in Hn.
  destruct p as [|wb|wb]; cbn [read_ebo prim_bytes] in *; unfold read_u_bits, read_i_bits;
  [replace (8 * 1 <? n) with true by lia|replace (8 * wb <? n) with true by lia|replace (8 * wb <? n) with true by lia]; reflexivity.
Qed.
Theorem oversize_bits p c e n o r : bits_of_ctx c = Some (e, n, o) -> prim_width p < n ->
  p <> PU8 \/ n mod 8 <> 0 \/ (exists e', c = CEB e' n \/ c = CEBO e' n o) ->
  prim_read p c r = (Err Parse, r).
Proof.
  intros Hc Hn Hp.
  destruct c; cbn in Hc; try discriminate; injection Hc as <- <- <-; cbn [prim_read]; try (now apply read_ebo_over);
  (destruct (Nat.eqb_spec (n0 mod 8) 0) as [E|E]; [|now apply read_ebo_over]);
  (destruct Hp as [Hp|[Hp|[e' [Hp|Hp]]]]; [|contradiction|discriminate|discriminate]);
  (apply read_eyo_over; [exact Hp|unfold prim_width in Hn; lia]).
Qed.
Theorem oversize_bytes p c e n o r : p <> PU8 -> bytes_of_ctx (prim_bytes p) c = Some (e, n, o) -> prim_bytes p < n ->
  prim_read p c r = (Err Parse, r).
Proof.
  intros Hp Hc Hn.
  destruct c; cbn in Hc; try discriminate; injection Hc as <- <- <-; cbn [prim_read]; try lia; now apply read_eyo_over.
Qed.
