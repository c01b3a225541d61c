(** Reading and writing again: the container API. *)
From Coq Require Import Lia ZifyBool ZifyNat ZifyN.
From Verif Require Import Base Spec Stream Reader Session Writer WSession Prims BitsFacts MonadFacts ReaderFacts CodecSpec CodecFacts Containers ContainerSpec ContainerFacts Derive DeriveSpec DeriveFacts DeriveSound DeriveProps SafeSpec CanonSpec CanonFacts CanonDerive.
Ltac Zify.zify_post_hook ::= Z.div_mod_to_equations.

Section Api.
Variables (cu : nat -> custom) (o : order) (fuel : nat) (t : ty).
Hypothesis Ht : rewritable_type cu o t.

Theorem read_write input rest off v : from_bytes cu fuel t input 0 = Ok ((rest, off), v) ->
  let n := 8 * (length input - length rest) + off in
  typed t v /\ n <= 8 * length input /\ off < 8 /\ (exists before, input = before ++ rest) /\
  exists out pad, to_bytes cu t v = Ok out /\ pad < 8 /\ bitstring o out = firstn n (bitstring o input) ++ repeat false pad.
Proof.
  destruct Ht as [q Hq]. unfold from_bytes, from_reader. cbn [Nat.eqb]. rewrite bind_ret_l.
  destruct (bind _ _ _) as [[[b x]|e| |] r'] eqn:E; try discriminate. apply bind_inv in E. destruct E as (v1 & r1 & E1 & E2).
  apply pair_inj in E2. destruct E2 as [E2 _]. apply ok_inj in E2. apply pair_inj in E2. destruct E2 as [<- <-].
  assert (Hh : here (SeekSource, Some 0) (reader_new (cursor input))).
  { split; [apply readable_new|]. split; [reflexivity|]. intros k [= <-]. reflexivity. }
  destruct (proj1 (types_ok cu o fuel) t _ _ _ _ Hq _ _ _ Hh E1) as (Hty & _ & enc & U & B & W).
  assert (HU : unread_string o (seen (reader_new (cursor input))) = bitstring o input) by (destruct o; reflexivity).
  rewrite HU in U. change (r_bits (reader_new (cursor input))) with 0 in B, W. cbn [Nat.add] in B. rewrite B.
  destruct (emits_at_out o _ _ W) as (out & pad & Eo & Ho & Hp).
  assert (HL : length enc <= 8 * length input) by (apply (f_equal (@length bool)) in U; rewrite app_length, bitstring_length in U; lia).
  destruct (Nat.leb_spec (length enc / 8) (length input)) as [Hle|]; [|lia]. intros H. apply ok_inj in H. apply pair_inj in H. destruct H as [H <-].
  apply pair_inj in H. destruct H as [<- <-]. cbv zeta. rewrite skipn_length.
  replace (8 * (length input - (length input - length enc / 8)) + length enc mod 8) with (length enc) by lia.
  split; [exact Hty|]. split; [exact HL|]. split; [lia|]. split; [exists (firstn (length enc / 8) input); now rewrite firstn_skipn|].
  exists out, pad. split; [exact Eo|]. split; [exact Hp|]. rewrite U, firstn_app, Nat.sub_diag, firstn_all, app_nil_r. exact Ho.
Qed.
Theorem read_write_whole input rest v : from_bytes cu fuel t input 0 = Ok ((rest, 0), v) ->
  exists out, to_bytes cu t v = Ok out /\ input = out ++ rest.
Proof.
  intros H. destruct (read_write _ _ _ _ H) as (_ & _ & _ & (before & ->) & out & pad & E & Hp & Ho). exists out. split; [exact E|].
  rewrite app_length in Ho. replace (8 * (length before + length rest - length rest) + 0) with (length (bitstring o before)) in Ho by (rewrite bitstring_length; lia).
  rewrite bitstring_app, firstn_app, Nat.sub_diag, firstn_all in Ho. cbn [firstn] in Ho. rewrite app_nil_r in Ho.
  assert (pad = 0) by (apply (f_equal (@length bool)) in Ho; rewrite app_length, repeat_length, !bitstring_length in Ho; lia). subst pad.
  cbn [repeat] in Ho. rewrite app_nil_r in Ho. apply bitstring_inj in Ho. now subst out.
Qed.
Theorem try_from_write input v : try_from cu fuel t input = Ok v -> to_bytes cu t v = Ok input.
Proof.
  intros H. apply try_from_ok in H. destruct H as [off H]. destruct (read_write _ _ _ _ H) as (_ & Hn & Hoff & _). cbn [length] in Hn.
  assert (off = 0) by lia. subst off. destruct (read_write_whole _ _ _ H) as (out & E & ->). now rewrite app_nil_r.
Qed.
(** A value is read from one byte string only. *)
Theorem unique_bytes a b v : try_from cu fuel t a = Ok v -> try_from cu fuel t b = Ok v -> a = b.
Proof. intros Ha Hb. apply try_from_write in Ha, Hb. rewrite Ha in Hb. now injection Hb. Qed.
End Api.
(** A value read in the middle of a stream. *)
Theorem reread_middle cu o fuel p q t lim args r v r' : rewritable cu o p q t lim args -> here p r -> read_ty cu fuel t lim args r = (Ok v, r') ->
  typed t v /\ here q r' /\
  exists enc, unread_string o (seen r) = enc ++ unread_string o (seen r') /\ r_bits r' = r_bits r + length enc /\
    emits_at o (r_bits r) (write_ty cu t args v) enc.
Proof. intros H Hh E. exact (proj1 (types_ok cu o fuel) t _ _ _ _ H r v r' Hh E). Qed.
