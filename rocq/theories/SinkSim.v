(** Two runs of one writer program on related sinks. *)
From Coq Require Import Lia.
From Verif Require Import Base MonadFacts Spec Stream Writer Prims Containers WSession.

(** The second sink may give up where the first carries on, with an error [e] that shows in
    its state; [Gone] then relates the two, whatever else is written to the first. *)
Section Sim.
Variables (Rel Gone : sink -> sink -> Prop) (e : sink -> iokind).
Hypothesis Rel_write : forall buf k1 k2, Rel k1 k2 ->
  (fst (k_write_all buf k1) = fst (k_write_all buf k2) /\ Rel (snd (k_write_all buf k1)) (snd (k_write_all buf k2))) \/
  (fst (k_write_all buf k2) = IoErr (e (snd (k_write_all buf k2))) /\ Gone (snd (k_write_all buf k1)) (snd (k_write_all buf k2))).
Hypothesis Gone_write : forall buf k1 k2, Gone k1 k2 -> Gone (snd (k_write_all buf k1)) k2.

Definition wrel (w1 w2 : writer) : Prop :=
  Rel (w_k w1) (w_k w2) /\ w_left w1 = w_left w2 /\ w_ord w1 = w_ord w2 /\ w_bits w1 = w_bits w2.
Definition sim {A} (m : WM A) : Prop :=
  (forall w1 w2, wrel w1 w2 ->
    (fst (m w1) = fst (m w2) /\ wrel (snd (m w1)) (snd (m w2))) \/
    (fst (m w2) = Err (Io (e (w_k (snd (m w2))))) /\ Gone (w_k (snd (m w1))) (w_k (snd (m w2))))) /\
  (forall w k, Gone (w_k w) k -> Gone (w_k (snd (m w))) k).

Lemma sim_ext {A} (m1 m2 : WM A) : (forall w, m1 w = m2 w) -> sim m1 -> sim m2.
Proof. intros E [H1 H2]. split; [intros w1 w2|intros w k]; rewrite <- !E; auto. Qed.
Lemma sim_lift {A} (x : res A) : sim (lift x).
Proof. split; [|auto]. intros w1 w2 H. left. now split. Qed.
Lemma sim_ret {A} (a : A) : sim (ret a).
Proof. exact (sim_lift (Ok a)). Qed.
Lemma sim_fail {A} x : sim (fail (A:=A) x).
Proof. exact (sim_lift (Err x)). Qed.
Lemma sim_panic {A} : sim (panic (A:=A)).
Proof. exact (sim_lift Panic). Qed.
Lemma sim_assert b : sim (assert_ b).
Proof. destruct b; [apply sim_ret|apply sim_panic]. Qed.
Lemma sim_bind {A B} (m : WM A) (f : A -> WM B) : sim m -> (forall a, sim (f a)) -> sim (bind m f).
Proof.
  intros [M1 M2] F. split.
  - intros w1 w2 H. specialize (M1 w1 w2 H). pose proof (M2 w1) as M3. unfold bind.
    destruct (m w1) as [x1 v1], (m w2) as [x2 v2]. cbn [fst snd] in *. destruct M1 as [[-> HR]|[-> HG]].
    + destruct x2; cbn [fst snd]; auto. destruct (F a) as [F1 _]. now apply F1.
    + right. split; [reflexivity|]. destruct x1; cbn [fst snd]; auto. destruct (F a) as [_ F2]. now apply F2.
  - intros w k H. specialize (M2 w k H). unfold bind. destruct (m w) as [x v]. cbn [fst snd] in *. destruct x; auto. destruct (F a) as [_ F2]. now apply F2.
Qed.
Lemma sim_see {A} (f : writer -> WM A) : (forall w, sim (f w)) ->
  (forall w1 w2, w_left w1 = w_left w2 -> w_ord w1 = w_ord w2 -> w_bits w1 = w_bits w2 -> f w1 = f w2) -> sim (fun w => f w w).
Proof.
  intros F E. split.
  - intros w1 w2 H. destruct (F w1) as [F1 _]. destruct H as (HR & HL & HO & HB). rewrite <- (E w1 w2 HL HO HB). apply F1. now repeat split.
  - intros w k H. destruct (F w) as [_ F2]. now apply F2.
Qed.
Lemma sim_get {A} (f : writer -> WM A) : (forall w, sim (f w)) ->
  (forall w1 w2, w_left w1 = w_left w2 -> w_ord w1 = w_ord w2 -> w_bits w1 = w_bits w2 -> f w1 = f w2) -> sim (bind get f).
Proof. exact (sim_see f). Qed.
Lemma sim_wmod f : (forall w1 w2, wrel w1 w2 -> wrel (f w1) (f w2)) -> (forall w, w_k (f w) = w_k w) -> sim (wmod f).
Proof. intros H K. split; cbn; [intros w1 w2 R; left; auto|]. intros w k G. now rewrite K. Qed.
Lemma wrel_left w1 w2 l : wrel w1 w2 -> wrel (w_set_left w1 l) (w_set_left w2 l).
Proof. intros (A & B & C & D). now repeat split. Qed.
Lemma wrel_ord w1 w2 o : wrel w1 w2 -> wrel (w_set_ord w1 o) (w_set_ord w2 o).
Proof. intros (A & B & C & D). now repeat split. Qed.
Lemma wrel_bits w1 w2 n : wrel w1 w2 -> wrel (w_add_bits w1 n) (w_add_bits w2 n).
Proof. intros (A & B & C & D). repeat split; auto. cbn. now rewrite D. Qed.
Lemma sim_write_all buf : sim (w_write_all buf).
Proof.
  split.
  - intros w1 w2 (R & L & O & N). unfold w_write_all. pose proof (Rel_write buf _ _ R) as H.
    destruct (k_write_all buf (w_k w1)) as [x1 k1], (k_write_all buf (w_k w2)) as [x2 k2]. cbn [fst snd] in H.
    destruct H as [[-> R']|[-> G]].
    + left. destruct x2; (split; [reflexivity|]); now repeat split.
    + right. split; [reflexivity|]. destruct x1; exact G.
  - intros w k G. unfold w_write_all. pose proof (Gone_write buf _ _ G) as H. destruct (k_write_all buf (w_k w)) as [[] k1]; exact H.
Qed.
Lemma sim_write_each bs : sim (w_write_each bs).
Proof. induction bs as [|b bs IH]; cbn [w_write_each]; [apply sim_ret|]. apply sim_bind; [apply sim_write_all|auto]. Qed.
Lemma sim_left : sim wleft.
Proof. split; [|auto]. intros w1 w2 R. left. split; [|exact R]. unfold wleft. cbn. destruct R as (_ & -> & _). reflexivity. Qed.
Lemma sim_extend bs : sim (left_extend bs).
Proof.
  eapply sim_ext; [|apply (sim_see (fun w => if length (w_left w) + length bs <=? 8 then (fun w' => (Ok tt, w_set_left w' (w_left w ++ bs))) else panic))].
  - intros w. unfold left_extend. now destruct (_ <=? 8).
  - intros w. destruct (_ <=? 8); [|apply sim_panic]. apply (sim_wmod (fun w' => w_set_left w' (w_left w ++ bs))); [|reflexivity].
    intros w1 w2. apply wrel_left.
  - intros w1 w2 -> _ _. reflexivity.
Qed.
Lemma sim_take : sim take_left.
Proof.
  split; [|auto]. intros w1 w2 R. left. unfold take_left. cbn [fst snd]. pose proof R as (_ & -> & _). split; [reflexivity|].
  apply wrel_ord, wrel_left, R.
Qed.
Lemma sim_add n : sim (wmod (fun w => w_add_bits w n)).
Proof. apply sim_wmod; [|reflexivity]. intros w1 w2. apply wrel_bits. Qed.
Lemma sim_ord o : sim (wmod (fun w => w_set_ord w o)).
Proof. apply sim_wmod; [|reflexivity]. intros w1 w2. apply wrel_ord. Qed.
Lemma sim_setleft l : sim (wmod (fun w => w_set_left w l)).
Proof. apply sim_wmod; [|reflexivity]. intros w1 w2. apply wrel_left. Qed.
Lemma sim_flush : sim flush_full.
Proof.
  eapply sim_ext; [|apply (sim_see (fun w => if length (w_left w) =? 8 then
      (let* _ := w_write_all [byte_of_bits (w_left w)] in
       let* _ := wmod (fun w => w_add_bits w 8) in
       wmod (fun w => w_set_ord (w_set_left w []) Msb0)) else ret tt))].
  - intros w. unfold flush_full. now destruct (_ =? 8).
  - intros w. destruct (_ =? 8); [|apply sim_ret]. apply sim_bind; [apply sim_write_all|intros []]. apply sim_bind; [apply sim_add|intros []].
    apply sim_wmod; [|reflexivity]. intros w1 w2 R. now apply wrel_ord, wrel_left.
  - intros w1 w2 -> _ _. reflexivity.
Qed.

Ltac step := lazymatch goal with
  | |- sim (bind get _) => apply sim_get; [intros ?|intros ? ? E1 E2 E3; rewrite ?E1, ?E2, ?E3; reflexivity]
  | |- sim (bind _ _) => apply sim_bind; [|intros ?]
  | |- sim (ret _) => apply sim_ret
  | |- sim (fail _) => apply sim_fail
  | |- sim panic => apply sim_panic
  | |- sim (assert_ _) => apply sim_assert
  | |- sim (w_write_all _) => apply sim_write_all
  | |- sim (w_write_each _) => apply sim_write_each
  | |- sim wleft => apply sim_left
  | |- sim (left_extend _) => apply sim_extend
  | |- sim take_left => apply sim_take
  | |- sim flush_full => apply sim_flush
  | |- sim (wmod (fun w => w_add_bits w _)) => apply sim_add
  | |- sim (wmod (fun w => w_set_ord w _)) => apply sim_ord
  | |- sim (wmod (fun w => w_set_left w _)) => apply sim_setleft
  | |- sim (if ?b then _ else _) => destruct b
  | |- sim (match ?x with (_, _) => _ end) => destruct x
  end.
Ltac go := repeat step.

Lemma sim_msb_msb bits : sim (write_msb_msb bits).
Proof. unfold write_msb_msb. cbv zeta. go. Qed.
Lemma sim_msb_lsb bits : sim (write_msb_lsb bits).
Proof. unfold write_msb_lsb. cbv zeta. go. Qed.
Lemma sim_lsb_msb bits : sim (write_lsb_msb bits).
Proof. unfold write_lsb_msb. cbv zeta. go. Qed.
Lemma sim_lsb_lsb bits : sim (write_lsb_lsb bits).
Proof. unfold write_lsb_lsb. cbv zeta. go. Qed.
Lemma sim_bits bits o : sim (write_bits_order bits o).
Proof.
  eapply sim_ext; [|apply (sim_see (fun w => match w_ord w, o with
    | Msb0, Msb0 => write_msb_msb bits | Msb0, Lsb0 => write_msb_lsb bits
    | Lsb0, Msb0 => write_lsb_msb bits | Lsb0, Lsb0 => write_lsb_lsb bits end))].
  - intros w. unfold write_bits_order. destruct (w_ord w), o; reflexivity.
  - intros w. destruct (w_ord w), o; auto using sim_msb_msb, sim_msb_lsb, sim_lsb_msb, sim_lsb_lsb.
  - intros w1 w2 _ -> _. reflexivity.
Qed.
Lemma sim_bytes buf : sim (write_bytes buf).
Proof.
  eapply sim_ext; [|apply (sim_see (fun w => if negb (length (w_left w) =? 0) then write_bits (bits_of_bytes buf) else
     (let* _ := w_write_all buf in wmod (fun w => w_add_bits w (length buf * 8)))))].
  - intros w. unfold write_bytes. now destruct (negb _).
  - intros w. destruct (negb _); [apply sim_bits|go].
  - intros w1 w2 -> _ _. reflexivity.
Qed.
Lemma sim_finalize : sim finalize.
Proof.
  eapply sim_ext; [|apply (sim_see (fun w => if length (w_left w) <? 8 then write_bits_order (repeat false ((8 - length (w_left w)) mod 8)) (w_ord w) else panic))].
  - intros w. unfold finalize. now destruct (_ <? 8).
  - intros w. destruct (_ <? 8); [apply sim_bits|apply sim_panic].
  - intros w1 w2 -> -> _. reflexivity.
Qed.
Lemma sim_uint v n : sim (write_bits_uint_msb0 v n).
Proof. unfold write_bits_uint_msb0. cbv zeta. go. Qed.
Lemma sim_chunks cs : forall n o, sim (write_chunks cs n o).
Proof.
  induction cs as [|c cs IH]; intros n o; cbn [write_chunks]; [apply sim_ret|]. destruct (_ <? 8); [apply sim_bits|]. apply sim_bind; [apply sim_bits|auto].
Qed.
Lemma sim_ebo wb en n o v : sim (write_ebo_generic wb en n o v).
Proof.
  unfold write_ebo_generic. cbv zeta. destruct (_ <? n); [apply sim_fail|]. destruct en, o; try (destruct (too_big_le _ _ _); [apply sim_fail|apply sim_chunks]).
  - eapply sim_ext; [|apply (sim_see (fun wr => if (n <=? 64) && order_eqb (w_ord wr) Msb0 then
        if n <? significant (to_bytes_e Big wb v) then fail InvalidParam
        else write_bits_uint_msb0 (from_be (skipn (length (to_bytes_e Big wb v) - 8) (to_bytes_e Big wb v))) n
      else if too_big_be (8 * wb) n v then fail InvalidParam
      else write_bits_order (skipn (8 * wb - n) (bits_of_bytes (to_bytes_e Big wb v))) Msb0))].
    + intros w. cbv beta. destruct (_ && _); [destruct (n <? _)|destruct (too_big_be _ _ _)]; reflexivity.
    + intros w. destruct (_ && _); [destruct (n <? _)|destruct (too_big_be _ _ _)]; auto using sim_fail, sim_uint, sim_bits.
    + intros w1 w2 _ -> _. reflexivity.
  - destruct (too_big_be _ _ _); [apply sim_fail|]. destruct (_ <=? 8); [apply sim_bits|apply sim_chunks].
Qed.
Lemma sim_u8 n o v : sim (write_u8_bits n o v).
Proof.
  eapply sim_ext; [|apply (sim_see (fun wr => if order_eqb o Msb0 && order_eqb (w_ord wr) Msb0 && (n <=? 8) then
      if (n <? 8) && negb (N.shiftr v (N.of_nat n) =? 0)%N then fail InvalidParam
      else write_bits_uint_msb0 v n
    else if 8 <? n then fail InvalidParam
    else if too_big_be 8 n v then fail InvalidParam
    else write_bits_order (skipn (8 - n) (N2bits 8 v)) o))].
  - intros w. unfold write_u8_bits. destruct (_ && _ && _); [destruct (_ && _)|destruct (8 <? n); [|destruct (too_big_be _ _ _)]]; reflexivity.
  - intros w. destruct (_ && _ && _); [destruct (_ && _)|destruct (8 <? n); [|destruct (too_big_be _ _ _)]]; auto using sim_fail, sim_uint, sim_bits.
  - intros w1 w2 _ -> _. reflexivity.
Qed.
Lemma sim_prim p c v : sim (prim_write p c v).
Proof.
  assert (HS : forall wb en n, sim (write_bytes_sized wb en n v)) by (intros; unfold write_bytes_sized; destruct (_ <? n); [apply sim_fail|apply sim_bytes]).
  assert (HY : forall en n, sim (write_eyo p en n v)) by (intros; unfold write_eyo; destruct p; auto using sim_bytes).
  assert (HE : forall en, sim (write_e p en v)) by (intros; apply sim_bytes).
  assert (HO : forall en n o, sim (write_ebo p en n o v)) by (intros; unfold write_ebo; destruct p; auto using sim_u8, sim_ebo).
  assert (HB : forall en n, sim (write_eb p en n v)).
  { intros. unfold write_eb. destruct p; [apply sim_u8| |].
    - unfold write_u_eb. cbv zeta. destruct (_ <? n); [apply sim_fail|]. destruct en; [destruct (too_big_le _ _ _)|destruct (too_big_be _ _ _)];
        auto using sim_fail, sim_chunks, sim_bits; apply sim_bits.
    - unfold write_i_eb. cbv zeta. destruct (_ <? n); [apply sim_fail|].
      destruct en; (match goal with |- sim (if ?b then _ else _) => destruct b end); auto using sim_fail, sim_chunks, sim_bits; apply sim_bits. }
  destruct c; cbn [prim_write]; auto.
Qed.
Lemma sim_wop op : sim (run_wop op).
Proof.
  destruct op; cbn [run_wop]; auto using sim_bits, sim_bytes.
  eapply sim_ext; [|apply (sim_see (fun w => match w_ord w with Msb0 => write_bits_uint_msb0 v n | Lsb0 => write_bits_order (N2bits n v) Msb0 end))].
  - intros w. cbv beta; now destruct (w_ord w).
  - intros w. destruct (w_ord w); auto using sim_uint, sim_bits.
  - intros w1 w2 _ -> _. reflexivity.
Qed.
Lemma sim_wsession ops : sim (run_wsession ops).
Proof. induction ops as [|op ops IH]; cbn [run_wsession]; [apply sim_ret|]. apply sim_bind; [apply sim_wop|auto]. Qed.
End Sim.
