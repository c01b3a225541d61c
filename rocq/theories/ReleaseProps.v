(** What is known of the debug build, for optimised builds. *)
From Coq Require Import Lia.
From Verif Require Import Base MonadFacts Stream Reader Writer Prims Containers Derive DeriveSpec SafeSpec DeriveSafe FlowSpec PlainSpec PlainProps Release ReleaseFacts P_Derive P_Safe P_Plain.

Theorem same_read cu fuel t lim args r : fst (read_ty cu fuel t lim args r) <> Panic -> o_read_ty cu fuel t lim args r = read_ty cu fuel t lim args r.
Proof. intros H. destruct (proj1 (release_reads cu fuel) t lim args r); [contradiction|auto]. Qed.
Theorem safe_release cu fuel t input bit : flow_type cu t -> bit < 8 -> 8 * length input + 8 < fuel ->
  let x := o_from_bytes cu fuel t input bit in
  x = from_bytes cu fuel t input bit /\ x <> Panic /\ x <> Diverge /\ forall rest v, x = Ok (rest, v) -> typed t v.
Proof.
  intros S B F. destruct (C49_from_bytes_partial cu fuel t input bit S B F) as [P D]. cbv zeta. rewrite (proj1 (release_same cu fuel t input bit) P). auto.
Qed.
Theorem safe_release_reader cu fuel t s bit : flow_type cu t -> (forall j, s_fault s j = None) ->
  s_pos s <= length (s_data s) -> bit < 8 -> 8 * length (s_data s) + 8 < fuel ->
  o_from_reader cu fuel t s bit = from_reader cu fuel t s bit.
Proof. intros S N P B F. apply release_same_reader. apply (C49_from_reader_partial cu fuel t s bit S N P B F). Qed.
Theorem plain_release_back cu fuel t v input s : plain_type t = true -> value_fits None t v = true ->
  bits_of_bytes input = wire None None t v ++ s -> length (wire None None t v) <= fuel ->
  let n := length (wire None None t v) in
  o_from_bytes cu fuel (ctype t) input 0 = Ok ((skipn (n / 8) input, n mod 8), v).
Proof.
  intros P V B F. pose proof (C57_read_back cu fuel t v input s P V B F) as R. cbv zeta in *. rewrite (proj1 (release_same cu fuel (ctype t) input 0)); [exact R|]. now rewrite R.
Qed.
Theorem plain_release_try cu fuel t input v : plain_type t = true -> unpadded t = true -> 8 * length input + 8 < fuel ->
  (o_try_from cu fuel (ctype t) input = Ok v <-> value_fits None t v = true /\ bits_of_bytes input = wire None None t v).
Proof.
  intros P U F. rewrite <- (C57_try_from cu fuel t input v P U F). rewrite (proj2 (release_same cu fuel (ctype t) input 0)); [reflexivity|].
  assert (N : from_bytes cu fuel (ctype t) input 0 <> Panic).
  { destruct (C57_reads_anything cu fuel t input 0 P (Nat.lt_0_succ _) F) as [(rest & off & w & E & _)|[E|[n E]]]; rewrite E; discriminate. }
  unfold from_bytes in N. unfold try_from. destruct (from_reader _ _ _ _ _) as [[[b w]|e| |] s]; try discriminate; [|contradiction].
  destruct (_ <? _); [discriminate|]. destruct (_ <? _); discriminate.
Qed.
Theorem same_write cu t args v w : fst (write_ty cu t args v w) <> Panic -> o_write_ty cu t args v w = write_ty cu t args v w.
Proof. intros H. destruct (proj1 (release_writes cu) t args v w); [contradiction|auto]. Qed.
Theorem write_no_new_panics cu t v buf :
  (o_to_bytes cu t v = Panic -> to_bytes cu t v = Panic) /\ (o_to_bits cu t v = Panic -> to_bits cu t v = Panic) /\
  (fst (o_to_slice cu t v buf) = Panic -> fst (to_slice cu t v buf) = Panic).
Proof.
  split; [|split]; intros H; [destruct (release_to_bytes cu t v) as [E|E]|destruct (release_to_bits cu t v) as [E|E]|destruct (release_to_slice cu t v buf) as [E|E]]; try exact E; now rewrite <- E.
Qed.
Theorem plain_release_write cu t v : plain_type t = true -> typed (ctype t) v ->
  if numbers_fit None t v then
    o_to_bits cu (ctype t) v = Ok (wire None None t v) /\
    exists bytes pad, o_to_bytes cu (ctype t) v = Ok bytes /\ bits_of_bytes bytes = wire None None t v ++ repeat false pad /\ pad < 8
  else o_to_bits cu (ctype t) v = Err InvalidParam /\ o_to_bytes cu (ctype t) v = Err InvalidParam.
Proof.
  intros P T. pose proof (C57_writes_anything cu t v P T) as W. destruct (release_same_write cu (ctype t) v []) as (S1 & S2 & _).
  destruct (numbers_fit None t v).
  - destruct W as (B & bytes & pad & Y & Rest). rewrite S2, B by (rewrite B; discriminate). split; [reflexivity|]. exists bytes, pad. rewrite S1, Y by (rewrite Y; discriminate). auto.
  - destruct W as [B Y]. rewrite S2, B by (rewrite B; discriminate). rewrite S1, Y by (rewrite Y; discriminate). auto.
Qed.
Definition two (p k b : nat) : reader := mkReader (mkStream [x01; x02] p (s_eat (cursor [])) None (s_fault (cursor [])) k) None b.
Definition back_elem fuel : RM value := o_read_ty no_customs fuel (TStruct cplain (field (rewinding plain) u8 FNil)) None [].
Lemma back_elem_reads fuel p k b : exists k', back_elem fuel (two p k b) = (Ok (VRec [VNum 1]), two 1 k' 8).
Proof. eexists. reflexivity. Qed.
Lemma back_loops fuel stop : (forall n l, stop n l = false) -> forall f acc p k b, exists r, o_vec_loop f (back_elem fuel) stop 16 acc (two p k b) = (Diverge, r).
Proof.
  intros S. induction f as [|f IH]; intros acc p k b; [eexists; reflexivity|]. cbn [o_vec_loop]. unfold bind.
  destruct (back_elem_reads fuel p k b) as [k' ->]. rewrite S. apply IH.
Qed.
Theorem back_release fuel : o_from_bytes no_customs fuel Back [x01; x02] 0 = Diverge.
Proof.
  cbv -[o_vec_loop N.of_nat usize_sub].
  match goal with |- context [o_vec_loop fuel ?e ?st ?b ?l ?r] =>
    assert (H : exists r', o_vec_loop fuel e st b l r = (Diverge, r')) by exact (back_loops fuel st (fun _ _ => eq_refl) fuel [] 2 1 16);
    destruct H as [r' ->] end.
  reflexivity.
Qed.
