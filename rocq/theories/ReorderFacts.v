From Coq Require Import Lia.
From Verif Require Import Base MonadFacts Stream Reader Writer Prims Containers Derive DeriveSpec DeriveSound DeriveProps ReorderSpec.

Section Reordered.
Variables (s r : nat -> nat) (vs vs' : variants).
Hypothesis (HR : reordered s r vs vs') (HA : apart vs).

Lemma matches_there id k : matches_at vs id k -> matches_at vs' id (s k).
Proof. intros (v & fs & N & M). destruct (proj1 HR _ _ N) as [N' _]. exists v, fs. auto. Qed.
Lemma matches_back id k : matches_at vs' id k -> matches_at vs id (r k) /\ s (r k) = k.
Proof. intros (v & fs & N & M). destruct (proj2 HR _ _ N) as [N' E]. split; [exists v, fs; auto|exact E]. Qed.
Lemma default_there k : default_at vs k -> default_at vs' (s k).
Proof. intros (v & fs & N & M). destruct (proj1 HR _ _ N) as [N' _]. exists v, fs. auto. Qed.
Lemma default_back k : default_at vs' k -> default_at vs (r k) /\ s (r k) = k.
Proof. intros (v & fs & N & M). destruct (proj2 HR _ _ N) as [N' E]. split; [exists v, fs; auto|exact E]. Qed.
Lemma one_match id i j : matches_at vs id i -> matches_at vs id j -> i = j.
Proof.
  intros (v & fs & N & M) (w & gs & N' & M'). destruct (Nat.eq_dec i j) as [H|H]; [exact H|]. destruct (HA _ _ _ _ _ _ H N N') as [X _]. rewrite (X _ M) in M'. discriminate.
Qed.
Lemma one_default i j : default_at vs i -> default_at vs j -> i = j.
Proof.
  intros (v & fs & N & M) (w & gs & N' & M'). destruct (Nat.eq_dec i j) as [H|H]; [exact H|]. destruct (HA _ _ _ _ _ _ H N N') as [_ X]. rewrite (X M) in M'. discriminate.
Qed.
Lemma chosen_there id k : chosen vs id k -> chosen vs' id (s k).
Proof.
  intros [[M _]|(N & D & _)].
  - left. split; [now apply matches_there|]. intros j Hj Mj. destruct (matches_back _ _ Mj) as [Mb E]. rewrite (one_match _ _ _ M Mb) in Hj. lia.
  - right. split; [|split; [now apply default_there|]].
    + intros j Mj. destruct (matches_back _ _ Mj) as [Mb _]. exact (N _ Mb).
    + intros j Hj Dj. destruct (default_back _ Dj) as [Db E]. rewrite (one_default _ _ D Db) in Hj. lia.
Qed.
Lemma selected_there id : selected vs' id = option_map s (selected vs id).
Proof.
  destruct (selected vs id) as [k|] eqn:E; cbn [option_map].
  - apply selected_chosen. apply chosen_there. now apply selected_chosen.
  - destruct (selected vs' id) as [k|] eqn:E'; [|reflexivity]. exfalso.
    assert (H : (exists i, matches_at vs id i) \/ (exists i, default_at vs i)).
    { apply selected_chosen in E'. destruct E' as [[M _]|(_ & D & _)]; [left; exists (r k); exact (proj1 (matches_back _ _ M))|right; exists (r k); exact (proj1 (default_back _ D))]. }
    unfold selected in E. pose proof (first_match_spec vs id 0) as F. destruct (first_match vs id 0); [discriminate|].
    pose proof (first_default_spec vs 0) as G. rewrite E in G. destruct H as [[i H]|[i H]]; [exact (F i H)|exact (G i H)].
Qed.

Section Api.
Variables (cu : nat -> custom) (fuel : nat) (e : eattrs) (idt : ty).
Definition lifts {A B} (f : A -> B) (m : RM A) (m' : RM B) : Prop := forall x, m' x = (let '(y, x') := m x in (res_map y f, x')).
Lemma read_there lim args : lifts (renamed s) (read_ty cu fuel (TEnum e idt vs) lim args) (read_ty cu fuel (TEnum e idt vs') lim args).
Proof.
  intros x. rewrite !read_enum. unfold bind at 1 3. destruct (read_magic _ x) as [[[]|y| |] x1]; try reflexivity.
  unfold bind at 1 2. match goal with |- context [match (match en_id e with Some f => @?a f | None => ?b end) x1 with _ => _ end] => set (rd := match en_id e with Some f => a f | None => b end) end.
  destruct (rd x1) as [[id|y| |] x2]; try reflexivity.
  rewrite !variants_read_selected, selected_there. destruct (selected vs id) as [k|] eqn:E; cbn [option_map]; [|reflexivity].
  apply selected_chosen in E. assert (N : exists v, nth_variant vs k = Some v) by (destruct E as [[(v & fs & N & _) _]|(_ & (v & fs & N & _) & _)]; eauto).
  destruct N as [[v fs] N]. rewrite (nth_body_eq _ _ _ _ _ _ _ _ _ N). destruct (proj1 HR _ _ N) as [N' _]. rewrite (nth_body_eq _ _ _ _ _ _ _ _ _ N').
  unfold variant_body, bind. destruct (fields_read _ _ _ _ _ _ _ x2) as [[l|y| |] x3]; reflexivity.
Qed.
Theorem from_reader_there st bit : from_reader cu fuel (TEnum e idt vs') st bit =
  (let '(x, st') := from_reader cu fuel (TEnum e idt vs) st bit in (res_map x (fun '(n, v) => (n, renamed s v)), st')).
Proof.
  unfold from_reader, bind. destruct ((if bit =? 0 then ret tt else skip_bits bit Msb0) (reader_new st)) as [[[]|y| |] x1]; try reflexivity.
  rewrite (read_there None [] x1). destruct (read_ty cu fuel (TEnum e idt vs) None [] x1) as [[v|y| |] x2]; reflexivity.
Qed.
Theorem from_bytes_there input bit : from_bytes cu fuel (TEnum e idt vs') input bit = res_map (from_bytes cu fuel (TEnum e idt vs) input bit) (fun '(p, v) => (p, renamed s v)).
Proof.
  unfold from_bytes. rewrite from_reader_there. destruct (from_reader cu fuel (TEnum e idt vs) (cursor input) bit) as [[[n v]|y| |] st]; try reflexivity.
  cbn [res_map]. destruct (n / 8 <=? length input); reflexivity.
Qed.
Theorem try_from_there input : try_from cu fuel (TEnum e idt vs') input = res_map (try_from cu fuel (TEnum e idt vs) input) (renamed s).
Proof.
  unfold try_from. rewrite from_reader_there. destruct (from_reader cu fuel (TEnum e idt vs) (cursor input) 0) as [[[n v]|y| |] st]; try reflexivity.
  cbn [res_map]. destruct (n / 8 <? length input); [reflexivity|]. destruct (length input <? n / 8); reflexivity.
Qed.
End Api.
End Reordered.

Lemma write_nth cu e ctx wid vs : forall k v fs l, nth_variant vs k = Some (v, fs) -> variant_write cu e ctx wid vs k l =
  (let* _ := write_id e v fs ctx wid in fields_write cu (en_c e) ctx fs (match v_sel v with SPat _ _ => Some (stored_id_args e ctx) | _ => None end) l l []).
Proof.
  induction vs as [|v fs tl IH]; intros k w gs l N; [discriminate|]. destruct k as [|k]; cbn [nth_variant] in N.
  - injection N as -> ->. apply write_variant_0.
  - rewrite <- (IH _ _ _ l N). reflexivity.
Qed.
Lemma write_there cu s r e idt vs vs' args k l : reordered s r vs vs' -> nth_variant vs k <> None ->
  write_ty cu (TEnum e idt vs') args (VVar (s k) l) = write_ty cu (TEnum e idt vs) args (VVar k l).
Proof.
  intros HR HN. destruct (nth_variant vs k) as [[v fs]|] eqn:N; [|congruence]. destruct (proj1 HR _ _ N) as [N' _].
  rewrite !write_enum, (write_nth _ _ _ _ _ _ _ _ l N), (write_nth _ _ _ _ _ _ _ _ l N'). reflexivity.
Qed.
Theorem written_there cu s r e idt vs vs' k l buf : reordered s r vs vs' -> nth_variant vs k <> None ->
  to_bytes cu (TEnum e idt vs') (VVar (s k) l) = to_bytes cu (TEnum e idt vs) (VVar k l) /\
  to_bits cu (TEnum e idt vs') (VVar (s k) l) = to_bits cu (TEnum e idt vs) (VVar k l) /\
  to_slice cu (TEnum e idt vs') (VVar (s k) l) buf = to_slice cu (TEnum e idt vs) (VVar k l) buf.
Proof. intros HR HN. unfold to_bytes, to_bits, to_slice. rewrite (write_there cu s r e idt vs vs' [] k l HR HN). repeat split; reflexivity. Qed.
Lemma id_nth vs : forall k, match nth_variant vs k with
  | Some (v, fs) => deku_id vs k = deku_id (VCons v fs VNil) 0
  | None => True end.
Proof. induction vs as [|v fs tl IH]; intros [|k]; cbn [nth_variant]; try exact I; try reflexivity. apply IH. Qed.
Theorem id_there s r vs vs' k : reordered s r vs vs' -> nth_variant vs k <> None -> deku_id vs' (s k) = deku_id vs k.
Proof.
  intros HR HN. pose proof (id_nth vs k) as H. destruct (nth_variant vs k) as [[v fs]|] eqn:N; [|congruence]. destruct (proj1 HR _ _ N) as [N' _].
  pose proof (id_nth vs' (s k)) as H'. rewrite N' in H'. now rewrite H, H'.
Qed.
Theorem update_there s r e idt vs vs' k l : reordered s r vs vs' -> nth_variant vs k <> None ->
  update (TEnum e idt vs') (VVar (s k) l) = res_map (update (TEnum e idt vs) (VVar k l)) (renamed s).
Proof.
  intros HR HN. cbn [update]. destruct (nth_variant vs k) as [[v fs]|] eqn:N; [|congruence]. destruct (proj1 HR _ _ N) as [N' _]. rewrite N'.
  destruct (update_fields fs [] l); reflexivity.
Qed.

(** The largest variant. *)
Definition size_of_variant (e : eattrs) (v : vattrs * fields) : option nat := fields_size (snd v) (stores_id e (fst v) && negb (no_fields (snd v))).
Lemma size_none e vs : variants_size e vs = None <-> exists k v, nth_variant vs k = Some v /\ size_of_variant e v = None.
Proof.
  induction vs as [|v fs tl IH]; cbn [variants_size].
  - split; [discriminate|intros (k & v & H & _); discriminate].
  - destruct (fields_size fs _) as [x|] eqn:E.
    + transitivity (variants_size e tl = None); [destruct (variants_size e tl); split; congruence|]. rewrite IH. split.
      * intros (k & w & N & S). exists (Datatypes.S k), w. auto.
      * intros ([|k] & w & N & S); [injection N as <-; unfold size_of_variant in S; cbn [fst snd] in S; congruence|exists k, w; auto].
    + split; [intros _; exists 0, (v, fs); auto|reflexivity].
Qed.
Lemma size_some e vs n : variants_size e vs = Some n -> (forall k v x, nth_variant vs k = Some v -> size_of_variant e v = Some x -> x <= n) /\
  (n = 0 \/ exists k v, nth_variant vs k = Some v /\ size_of_variant e v = Some n).
Proof.
  revert n. induction vs as [|v fs tl IH]; intros n H; cbn [variants_size] in H.
  - injection H as <-. split; [intros k v x N; discriminate|now left].
  - destruct (fields_size fs _) as [x|] eqn:E; [|discriminate]. destruct (variants_size e tl) as [y|]; [|discriminate]. injection H as <-. destruct (IH _ eq_refl) as [U V]. split.
    + intros [|k] w z N S; [injection N as <-; unfold size_of_variant in S; cbn [fst snd] in S; rewrite E in S; injection S as <-; lia|]. specialize (U _ _ _ N S). lia.
    + destruct (Nat.max_spec x y) as [[L ->]|[L ->]].
      * destruct V as [V|(k & w & N & S)]; [lia|]. right. exists (Datatypes.S k), w. auto.
      * right. exists 0, (v, fs). auto.
Qed.
Theorem size_there s r e idt vs vs' : reordered s r vs vs' -> size_bits (TEnum e idt vs') = size_bits (TEnum e idt vs).
Proof.
  intros HR. cbn [size_bits]. replace (variants_size e vs') with (variants_size e vs); [reflexivity|].
  destruct (variants_size e vs) as [n|] eqn:E, (variants_size e vs') as [n'|] eqn:E'; [| | |reflexivity].
  - f_equal. destruct (size_some _ _ _ E) as [U V], (size_some _ _ _ E') as [U' V']. apply Nat.le_antisymm.
    + destruct V as [->|(k & v & N & S)]; [lia|]. destruct (proj1 HR _ _ N) as [N' _]. exact (U' _ _ _ N' S).
    + destruct V' as [->|(k & v & N & S)]; [lia|]. destruct (proj2 HR _ _ N) as [N' _]. exact (U _ _ _ N' S).
  - exfalso. apply size_none in E'. destruct E' as (k & v & N & S). destruct (proj2 HR _ _ N) as [N' _]. assert (X : variants_size e vs = None) by (apply size_none; eauto). congruence.
  - exfalso. apply size_none in E. destruct E as (k & v & N & S). destruct (proj1 HR _ _ N) as [N' _]. assert (X : variants_size e vs' = None) by (apply size_none; eauto). congruence.
Qed.
