(** Writing without panics: the writer and the integers. *)
From Coq Require Import Lia ZifyBool ZifyNat ZifyN.
From Verif Require Import Base BitsFacts Stream Reader Writer Prims MonadFacts Containers Derive WSafeSpec.
Ltac Zify.zify_post_hook ::= Z.div_mod_to_equations.

Section G.
Variable growing : bool.

(** Weakest preconditions; [wp m Q w]. *)
Definition wp {A} (m : WM A) (Q : A -> writer -> Prop) (w : writer) : Prop :=
  match m w with (Ok a, w') => Q a w' | (Err e, _) => error_is growing e | (Panic, _) | (Diverge, _) => False end.
Lemma wp_bind {A B} (m : WM A) (f : A -> WM B) Q w : wp m (fun a w' => wp (f a) Q w') w -> wp (bind m f) Q w.
Proof. unfold wp, bind. destruct (m w) as [[]]; auto. Qed.
Lemma wp_ret {A} (a : A) (Q : A -> writer -> Prop) w : Q a w -> wp (ret a) Q w.
Proof. auto. Qed.
Lemma wp_mono {A} (m : WM A) (Q Q' : A -> writer -> Prop) w : (forall a w', Q a w' -> Q' a w') -> wp m Q w -> wp m Q' w.
Proof. unfold wp. destruct (m w) as [[]]; auto. Qed.
Lemma wp_fail {A} e (Q : A -> writer -> Prop) w : error_is growing e -> wp (fail e) Q w.
Proof. auto. Qed.
Lemma wp_assert b (Q : unit -> writer -> Prop) w : b = true -> Q tt w -> wp (assert_ b) Q w.
Proof. intros ->. auto. Qed.
Lemma wp_get (Q : writer -> writer -> Prop) w : Q w w -> wp get Q w.
Proof. auto. Qed.
Lemma wp_wmod f (Q : unit -> writer -> Prop) w : Q tt (f w) -> wp (wmod f) Q w.
Proof. auto. Qed.
Lemma wp_wleft (Q : list bool -> writer -> Prop) w : Q (w_left w) w -> wp wleft Q w.
Proof. auto. Qed.
Lemma wp_take_left (Q : list bool -> writer -> Prop) w : Q (w_left w) (w_set_ord (w_set_left w []) Msb0) -> wp take_left Q w.
Proof. auto. Qed.

Lemma sink_write buf k : sink_is growing k ->
  match k_write_all buf k with (IoOk _, k') => sink_is growing k' | (IoErr e, _) => error_is growing (Io e) end.
Proof.
  intros H. unfold k_write_all, sink_is, error_is in *. destruct growing.
  - destruct (H eq_refl) as [H1 H2]. rewrite H1, H2. cbn [andb]. intros _. unfold k_store, k_virt, k_tick. destruct buf; cbn; auto.
  - destruct (k_fault k (k_calls k)) as [[]|]; [discriminate|]. destruct (_ && _); discriminate.
Qed.
Lemma wp_write_all buf (Q : unit -> writer -> Prop) w : sink_is growing (w_k w) ->
  (forall k, sink_is growing k -> Q tt (w_set_k w k)) -> wp (w_write_all buf) Q w.
Proof.
  intros Hs HQ. unfold wp, w_write_all. generalize (sink_write buf (w_k w) Hs). destruct (k_write_all buf (w_k w)) as [[]]; auto.
Qed.
Lemma wp_write_each bs : forall (Q : unit -> writer -> Prop) w, sink_is growing (w_k w) ->
  (forall k, sink_is growing k -> Q tt (w_set_k w k)) -> wp (w_write_each bs) Q w.
Proof.
  induction bs as [|b bs IH]; intros Q w Hs HQ; cbn [w_write_each].
  - apply wp_ret. replace w with (w_set_k w (w_k w)) by now destruct w. now apply HQ.
  - apply wp_bind. apply wp_write_all; [exact Hs|]. intros k Hk. apply IH; [exact Hk|]. intros k' Hk'. exact (HQ k' Hk').
Qed.
Lemma wp_left_extend bs (Q : unit -> writer -> Prop) w : length (w_left w) + length bs <= 8 ->
  Q tt (w_set_left w (w_left w ++ bs)) -> wp (left_extend bs) Q w.
Proof. intros H HQ. unfold wp, left_extend. now rewrite (proj2 (Nat.leb_le _ _) H). Qed.
Lemma wp_flush (Q : unit -> writer -> Prop) w : sink_is growing (w_k w) ->
  (length (w_left w) = 8 -> forall k, sink_is growing k -> Q tt (mkWriter k [] Msb0 (w_bits w + 8))) ->
  (length (w_left w) <> 8 -> Q tt w) -> wp flush_full Q w.
Proof.
  intros Hs H8 HN. unfold flush_full, wp. destruct (Nat.eqb_spec (length (w_left w)) 8) as [E|E]; [|now apply HN].
  apply (wp_bind (w_write_all [byte_of_bits (w_left w)])). apply wp_write_all; [exact Hs|]. intros k Hk. apply wp_bind. apply wp_wmod. apply wp_wmod. now apply (H8 E).
Qed.

Ltac lens := cbn [w_left w_set_left w_set_ord w_set_k w_add_bits w_k w_ord w_bits] in *;
  rewrite ?app_length, ?chunks8_rem_length, ?rchunks8_rem_length, ?firstn_length, ?skipn_length, ?map_length in *; cbn [length] in *.
Ltac wstep :=
  lazymatch goal with
  | |- wp (bind _ _) _ _ => apply wp_bind
  | |- wp get _ _ => apply wp_get
  | |- wp (wmod _) _ _ => apply wp_wmod
  | |- wp wleft _ _ => apply wp_wleft
  | |- wp take_left _ _ => apply wp_take_left
  | |- wp (ret _) _ _ => apply wp_ret
  | |- wp (assert_ _) _ _ => apply wp_assert; [first [reflexivity|lens; lia]|]
  | |- wp (left_extend _) _ _ => apply wp_left_extend; [lens; lia|]
  | |- wp (w_write_each _) _ _ => apply wp_write_each; [assumption|intros ? ?]
  | |- wp flush_full _ _ => apply wp_flush; [assumption|intros ? ? ?|intros ?]
  end; cbv beta.
Ltac close := split; [lens; lia|assumption].

Definition calm {A} (m : WM A) : Prop := forall w, between growing w -> wp m (fun _ => between growing) w.
Lemma calm_safely m : calm m <-> writes_safely growing m.
Proof.
  unfold calm, writes_safely, wp. split.
  - intros H w x w' Hb E. specialize (H w Hb). rewrite E in H. destruct x; auto.
  - intros H w Hb. destruct (m w) as [x w'] eqn:E. specialize (H w x w' Hb E). destruct x; auto.
Qed.

Lemma calm_msb_msb bits w : w_ord w = Msb0 -> between growing w -> wp (write_msb_msb bits) (fun _ => between growing) w.
Proof.
  intros Ho [Hl Hs]. unfold write_msb_msb. do 2 wstep. rewrite Ho. repeat wstep.
  destruct (Nat.eqb_spec (length (w_left w)) 0) as [E|E]; repeat wstep; close.
Qed.
Lemma calm_lsb_lsb bits w : w_ord w = Lsb0 -> between growing w -> wp (write_lsb_lsb bits) (fun _ => between growing) w.
Proof.
  intros Ho [Hl Hs]. unfold write_lsb_lsb. do 2 wstep. rewrite Ho. repeat wstep.
  destruct (Nat.eqb_spec (length (w_left w)) 0) as [E|E]; repeat wstep; close.
Qed.
Ltac small Hq := lens; rewrite <- ?Hq in *; clear Hq; lia.
Lemma calm_msb_lsb bits w : w_ord w = Msb0 -> between growing w -> wp (write_msb_lsb bits) (fun _ => between growing) w.
Proof.
  intros Ho [Hl Hs]. unfold write_msb_lsb. do 2 wstep. rewrite Ho. repeat wstep.
  destruct (Nat.eqb_spec (length (w_left w)) 0) as [E|E]; [repeat wstep; close|].
  assert (R : length bits mod 8 < 8 /\ (length bits < 8 -> length bits mod 8 = length bits)) by lia.
  revert R. generalize (length bits mod 8). intros r R.
  remember (Nat.min (8 - r) (length (w_left w))) as c eqn:Hc. remember (Nat.min (length bits) (8 - c)) as f eqn:Hf.
  assert (Q : (length bits - f) mod 8 < 8 /\ (f = length bits -> (length bits - f) mod 8 = 0)).
  { split; [apply Nat.mod_upper_bound; lia|]. intros ->. rewrite Nat.sub_diag. reflexivity. }
  remember ((length bits - f) mod 8) as q eqn:Hq.
  assert (C : c <= 8 - r /\ c <= length (w_left w) /\ (c = 8 - r \/ c = length (w_left w))) by (clear - Hc; lia).
  assert (F : f = length bits /\ length bits <= 8 - c \/ f = 8 - c /\ 8 - c < length bits) by (clear - Hf; lia).
  assert (Q' : f = 8 - c \/ c = length (w_left w)) by (clear - C F R; lia).
  clear Hc Hf R. destruct C as [_ [C _]], Q as [Q Q0].
  assert (T : f = 8 - c \/ q = 0 /\ c = length (w_left w)) by (clear - F Q0 Q'; lia).
  assert (F' : f <= 8 - c /\ f <= length bits) by (clear - F; lia). clear F Q0 Q'.
  destruct T as [T|[T1 T2]].
  all: repeat first [apply wp_left_extend; [small Hq|] | apply wp_assert; [small Hq|] | wstep]; (split; [small Hq|assumption]).
Qed.
Lemma calm_lsb_msb bits w : w_ord w = Lsb0 -> between growing w -> wp (write_lsb_msb bits) (fun _ => between growing) w.
Proof.
  intros Ho [Hl Hs]. unfold write_lsb_msb. do 2 wstep. rewrite Ho. repeat wstep.
  destruct (Nat.eqb_spec (length (w_left w)) 0) as [E|E]; repeat wstep; close.
Qed.
Lemma calm_write_bits_order bits o : calm (write_bits_order bits o).
Proof.
  intros w Hw. unfold wp, write_bits_order. destruct (w_ord w) eqn:Ho, o.
  - exact (calm_msb_msb bits w Ho Hw).
  - exact (calm_msb_lsb bits w Ho Hw).
  - exact (calm_lsb_msb bits w Ho Hw).
  - exact (calm_lsb_lsb bits w Ho Hw).
Qed.
Lemma calm_ret {A} (a : A) : calm (ret a).
Proof. intros w Hw. exact Hw. Qed.
Lemma calm_fail {A} e : error_is growing e -> calm (@fail _ A e).
Proof. intros He w Hw. exact He. Qed.
Lemma calm_invalid {A} : calm (@fail _ A InvalidParam).
Proof. apply calm_fail. intros _. now left. Qed.
Lemma calm_bind {A B} (m : WM A) (f : A -> WM B) : calm m -> (forall a, calm (f a)) -> calm (bind m f).
Proof. intros Hm Hf w Hw. apply wp_bind. eapply wp_mono; [|exact (Hm w Hw)]. intros a w' H'. exact (Hf a w' H'). Qed.
Lemma calm_write_bytes buf : calm (write_bytes buf).
Proof.
  intros w Hw. unfold wp, write_bytes. destruct (negb _); [exact (calm_write_bits_order _ _ w Hw)|].
  destruct Hw as [Hl Hs]. apply (wp_bind (w_write_all buf)). apply wp_write_all; [exact Hs|]. intros k Hk. split; assumption.
Qed.
Lemma calm_finalize : calm finalize.
Proof.
  intros w Hw. unfold wp, finalize. destruct (Nat.ltb_spec (length (w_left w)) 8) as [H|H]; [|destruct Hw; lia].
  exact (calm_write_bits_order _ _ w Hw).
Qed.
Lemma calm_fast v n w : w_ord w = Msb0 -> 0 < n <= 64 -> between growing w -> wp (write_bits_uint_msb0 v n) (fun _ => between growing) w.
Proof.
  intros Ho Hn [Hl Hs]. unfold write_bits_uint_msb0. apply wp_bind, wp_assert; [lia|]. apply wp_bind, wp_get. rewrite Ho. apply wp_bind, wp_assert; [reflexivity|].
  assert (HT : forall w1 m, sink_is growing (w_k w1) -> length m < 8 ->
     wp (let* _ := if (length (w_left w) + n) mod 8 =? 0 then wmod (fun w => w_set_left w []) else wmod (fun w => w_set_left w m) in wmod (fun w => w_set_ord w Msb0))
        (fun _ => between growing) w1).
  { intros w1 m H1 H2. apply wp_bind. destruct (_ =? 0); apply wp_wmod, wp_wmod; split; cbn; trivial; lia. }
  assert (HF : forall x, length (firstn ((length (w_left w) + n) mod 8) (N2bits 8 x)) < 8).
  { intros x. rewrite firstn_length, N2bits_length. lia. }
  apply wp_bind. destruct ((length (w_left w) + n) / 8 =? 0).
  - apply wp_ret. now apply HT.
  - destruct (Nat.ltb_spec 9 ((length (w_left w) + n) / 8)); [lia|]. apply wp_bind. apply wp_write_all; [exact Hs|]. intros k Hk. apply wp_wmod. now apply HT.
Qed.

(** Integers *)
Lemma calm_write_chunks o bs : forall n, calm (write_chunks bs n o).
Proof.
  induction bs as [|b bs IH]; intros n; cbn [write_chunks]; [apply calm_ret|]. destruct (n <? 8); [apply calm_write_bits_order|].
  apply calm_bind; [apply calm_write_bits_order|]. intros _. apply IH.
Qed.
Lemma calm_ebo wb e n o v : 0 < n -> calm (write_ebo_generic wb e n o v).
Proof.
  intros Hn. unfold write_ebo_generic. destruct (8 * wb <? n); [apply calm_invalid|]. destruct e.
  - destruct (too_big_le _ _ _); [apply calm_invalid|apply calm_write_chunks].
  - destruct o.
    + intros w Hw. unfold wp. destruct (Nat.leb_spec n 64) as [H64|_]; cbn [andb]; [destruct (order_eqb (w_ord w) Msb0) eqn:Eo|].
      * destruct (_ <? _); [intros _; now left|]. apply calm_fast; [now destruct (w_ord w)|lia|exact Hw].
      * destruct (too_big_be _ _ _); [intros _; now left|]. exact (calm_write_bits_order _ _ w Hw).
      * destruct (too_big_be _ _ _); [intros _; now left|]. exact (calm_write_bits_order _ _ w Hw).
    + destruct (too_big_be _ _ _); [apply calm_invalid|]. destruct (n <=? 8); [apply calm_write_bits_order|apply calm_write_chunks].
Qed.
Lemma calm_u8 n o v : 0 < n -> calm (write_u8_bits n o v).
Proof.
  intros Hn w Hw. unfold wp, write_u8_bits. destruct (_ && _ && _) eqn:E.
  - apply andb_true_iff in E. destruct E as [E E3]. apply andb_true_iff in E. destruct E as [E1 E2]. destruct (_ && _); [intros _; now left|].
    apply calm_fast; [now destruct (w_ord w)|lia|exact Hw].
  - destruct (8 <? n); [intros _; now left|]. destruct (too_big_be _ _ _); [intros _; now left|]. exact (calm_write_bits_order _ _ w Hw).
Qed.
Lemma calm_eb p e n v : 0 < n -> calm (write_eb p e n v).
Proof.
  intros Hn. destruct p as [|wb|wb]; cbn [write_eb]; [now apply calm_u8| |].
  - unfold write_u_eb. destruct (_ <? _); [apply calm_invalid|]. destruct e.
    + destruct (too_big_le _ _ _); [apply calm_invalid|apply calm_write_chunks].
    + destruct (too_big_be _ _ _); [apply calm_invalid|apply calm_write_bits_order].
  - unfold write_i_eb. destruct (_ <? n); [apply calm_invalid|]. destruct e; (match goal with |- calm (if ?b then _ else _) => destruct b end; [apply calm_invalid|]).
    + apply calm_write_chunks.
    + apply calm_write_bits_order.
Qed.
Lemma calm_eyo p e n v : calm (write_eyo p e n v).
Proof.
  assert (H : forall wb, calm (write_bytes_sized wb e n v)).
  { intros wb. unfold write_bytes_sized. destruct (_ <? _); [apply calm_invalid|apply calm_write_bytes]. }
  destruct p; cbn [write_eyo]; [apply calm_write_bytes|apply H|apply H].
Qed.
Lemma calm_prim p c v : some_bits c -> calm (prim_write p c v).
Proof.
  intros H. destruct c; cbn [prim_write some_bits] in *; try apply calm_eyo; try apply calm_write_bytes; try (apply calm_eb; exact H).
  all: unfold write_ebo; destruct p; [now apply calm_u8|now apply calm_ebo|now apply calm_ebo].
Qed.
Lemma calm_list {A} (f : A -> WM unit) l : Forall (fun x => calm (f x)) l -> calm (write_list f l).
Proof. induction 1; cbn [write_list]; [apply calm_ret|]. apply calm_bind; auto. Qed.
Lemma calm_magic m : calm (write_magic m).
Proof. apply calm_list, Forall_forall. intros x _. now apply calm_prim. Qed.
Lemma calm_pad_loop o f : forall n, n <= f -> calm (pad_loop f n o).
Proof.
  induction f as [|f IH]; intros [|n] H; try lia; cbn [pad_loop]; try apply calm_ret.
  apply calm_bind; [apply calm_write_bits_order|]. intros _. apply IH. lia.
Qed.
Lemma calm_pad p o : calm (write_pad p o).
Proof.
  unfold write_pad. destruct p as [z|]; [|apply calm_ret]. destruct (to_usize z); [|apply calm_invalid].
  exact (calm_pad_loop _ _ _ (le_n _)).
Qed.
Lemma calm_seek s : seek_wsafe growing s -> calm (write_seek s).
Proof.
  destruct s as [[t|]|]; cbn [seek_wsafe write_seek]; [|contradiction|intros _; apply calm_ret]. intros Hg w [Hl Hs].
  apply wp_bind. unfold wp, lift_io, w_seek. destruct (k_seek t _) as [[]]; cbn.
  - split; [cbn; lia|]. unfold sink_is. rewrite Hg. discriminate.
  - unfold error_is. rewrite Hg. discriminate.
Qed.
End G.
