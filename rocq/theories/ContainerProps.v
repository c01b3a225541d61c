(** The property theorems about containers, proved. *)
From Coq Require Import Lia ZifyBool ZifyNat ZifyN Permutation.
From Verif Require Import Base Spec Stream Reader Session Writer WSession Prims BitsFacts NFacts MonadFacts ReaderFacts ReaderOps SessionFacts FastRead CodecSpec CodecFacts PrimFacts PrimProps Containers ContainerSpec ContainerFacts Safety.
Ltac Zify.zify_post_hook ::= Z.div_mod_to_equations.

(** ** Integers as lawful codecs *)

Theorem lawful_prim al src p c e n o v : is_unsigned p -> bits_of_ctx c = Some (e, n, o) -> supported p e n o -> (v < 2 ^ N.of_nat n)%N ->
  (al = true -> n mod 8 = 0) -> lawful al src o (prim_read p c) (prim_write p c) v (layout e o n v).
Proof.
  intros Hu Hc Hs Hv Hm. destruct (prim_u_codec p c e n o v Hu Hc Hs Hv) as [HW HR].
  split; [rewrite layout_length; exact Hm|intros; apply HW|apply HR].
Qed.
Theorem lawful_prim_bytes al src p c e n o v : bytes_of_ctx (prim_bytes p) c = Some (e, n, o) ->
  0 < n <= prim_bytes p -> (v < 2 ^ N.of_nat (8 * n))%N -> (o = Lsb0 -> al = true) ->
  lawful al src o (prim_read p c) (prim_write p c) v (bitstring o (to_bytes_e e n v)).
Proof.
  intros Hc Hn Hv Ha. destruct (prim_bytes_roundtrip p c e n o v Hc Hn Hv) as [HW HR]. split.
  - intros _. rewrite bitstring_length. lia.
  - intros a Ha0. apply HW. destruct o; [now left|right; auto].
  - apply HR.
Qed.
Lemma to_N_lt b : (Byte.to_N b < 256)%N.
Proof. destruct b; reflexivity. Qed.
Lemma be_1_byte b : be_bytes 1 (Byte.to_N b) = [b].
Proof. destruct b; reflexivity. Qed.
Lemma from_be_1 b : from_be [b] = Byte.to_N b.
Proof. destruct b; reflexivity. Qed.
Lemma be_1_surj v : (v < 256)%N -> exists b, be_bytes 1 v = [b] /\ v = Byte.to_N b.
Proof.
  intros Hv. pose proof (be_length 1 v) as HL. destruct (be_bytes 1 v) as [|b [|]] eqn:E; cbn in HL; try lia. exists b. split; [reflexivity|].
  rewrite <- from_be_1, <- E. symmetry. now apply from_be_be.
Qed.
Theorem lawful_byte al src c e o b : bytes_of_ctx 1 c = Some (e, 1, o) -> (o = Lsb0 -> al = true) ->
  lawful al src o (prim_read PU8 c) (prim_write PU8 c) (Byte.to_N b) (bitstring o [b]).
Proof.
  intros Hc Ha. rewrite <- (be_1_byte b), <- (to_bytes_1 e). apply (lawful_prim_bytes al src PU8 c e 1 o); auto. apply to_N_lt.
Qed.

(** ** bool, NonZero, IP addresses *)

Definition bool_N (b : bool) : N := if b then 1%N else 0%N.
Theorem lawful_bool al src o c b enc : lawful al src o (prim_read PU8 c) (prim_write PU8 c) (bool_N b) enc ->
  lawful al src o (read_bool c) (write_bool c) b enc.
Proof.
  intros [L W R]. split; [exact L|exact W|]. unfold read_bool. rewrite <- (app_nil_r enc). eapply reads_bind; [exact R|].
  destruct b; apply reads_ret.
Qed.
Theorem bool_rejects src o c v enc : reads src o (prim_read PU8 c) enc v -> (2 <= v)%N -> rejects src o (read_bool c) enc Parse.
Proof.
  intros R Hv r rest Hr Hu. destruct (R r rest Hr Hu) as (r' & E & _). exists r'. unfold read_bool. rewrite (bind_ok _ _ _ _ _ E).
  replace (v =? 1)%N with false by lia. replace (v =? 0)%N with false by lia. reflexivity.
Qed.
Theorem lawful_nonzero al src o p c v enc : v <> 0%N -> lawful al src o (prim_read p c) (prim_write p c) v enc ->
  lawful al src o (read_nonzero p c) (write_nonzero p c) v enc.
Proof.
  intros Hv [L W R]. split; [exact L|exact W|]. unfold read_nonzero. rewrite <- (app_nil_r enc). eapply reads_bind; [exact R|].
  replace (v =? 0)%N with false by lia. apply reads_ret.
Qed.
Theorem nonzero_rejects src o p c enc : reads src o (prim_read p c) enc 0%N -> rejects src o (read_nonzero p c) enc Parse.
Proof.
  intros R r rest Hr Hu. destruct (R r rest Hr Hu) as (r' & E & _). exists r'. unfold read_nonzero. now rewrite (bind_ok _ _ _ _ _ E).
Qed.

(** ** CString *)

Lemma from_nul_ok s : Forall (fun x => x <> 0%N) s -> from_vec_with_nul (s ++ [0%N]) = Some s.
Proof.
  induction 1 as [|x s Hx _ IH]; [reflexivity|]. cbn [app from_vec_with_nul]. destruct (s ++ [0%N]) as [|y l] eqn:E; [destruct s; discriminate|].
  rewrite IH. replace (x =? 0)%N with false by lia. reflexivity.
Qed.
Lemma from_nul_inv l s : from_vec_with_nul l = Some s -> l = s ++ [0%N] /\ Forall (fun x => x <> 0%N) s.
Proof.
  revert s. induction l as [|x [|y l] IH]; intros s H; [discriminate| |].
  - cbn in H. destruct (x =? 0)%N eqn:E; [|discriminate]. injection H as <-. split; [cbn; f_equal; lia|constructor].
  - change (from_vec_with_nul (x :: y :: l)) with (if (x =? 0)%N then None else option_map (cons x) (from_vec_with_nul (y :: l))) in H.
    destruct (x =? 0)%N eqn:E; [discriminate|]. destruct (from_vec_with_nul (y :: l)) as [s'|]; [|discriminate]. injection H as <-.
    destruct (IH s' eq_refl) as [-> F]. split; [reflexivity|]. constructor; [lia|exact F].
Qed.
(** The bytes of a string as numbers. *)
Definition nums (bs : list byte) : list N := map Byte.to_N bs.
Lemma reads_byte src c e o b : bytes_of_ctx 1 c = Some (e, 1, o) -> reads src o (prim_read PU8 c) (bitstring o [b]) (Byte.to_N b).
Proof. intros Hc. exact (lw_read _ _ _ _ _ _ _ (lawful_byte true src c e o b Hc (fun _ => eq_refl))). Qed.
Lemma lawful_bytes al src c e o bs : bytes_of_ctx 1 c = Some (e, 1, o) -> (o = Lsb0 -> al = true) ->
  lawful_list al src o (prim_read PU8 c) (prim_write PU8 c) (nums bs) (map (fun b => bitstring o [b]) bs).
Proof. intros Hc Ha. induction bs as [|b bs IH]; constructor; [now apply (lawful_byte al src c e)|exact IH]. Qed.
Lemma concat_bytes o bs : concat (map (fun b => bitstring o [b]) bs) = bitstring o bs.
Proof. induction bs as [|b bs IH]; [reflexivity|]. cbn [map concat]. rewrite IH. rewrite (bitstring_cons o b bs). f_equal. cbn. apply app_nil_r. Qed.
Lemma emits_mono {A} al src src' o (r1 r2 : RM A) w v e : lawful al src o r1 w v e -> reads src' o r2 e v -> lawful al src' o r2 w v e.
Proof. intros [L W _] R. now split. Qed.
Definition no_nul (s : list byte) : Prop := Forall (fun b => b <> x00) s.
Lemma no_nul_nums s : no_nul s -> Forall (fun x => x <> 0%N) (nums s).
Proof. induction 1 as [|b s Hb _ IH]; constructor; [|exact IH]. destruct b; try discriminate. now destruct Hb. Qed.
Lemma nums_app a b : nums (a ++ b) = nums a ++ nums b.
Proof. apply map_app. Qed.
Lemma nums_length a : length (nums a) = length a.
Proof. apply map_length. Qed.
Lemma reads_all_bytes src c e o bs : bytes_of_ctx 1 c = Some (e, 1, o) -> reads_all src o (prim_read PU8 c) (nums bs) (map (fun b => bitstring o [b]) bs).
Proof. intros Hc. exact (proj1 (lawful_parts _ _ _ _ _ _ _ (lawful_bytes true src c e o bs Hc (fun _ => eq_refl)))). Qed.
Lemma nul_stops s : no_nul s -> stops_at (LUntil (fun l => (last l 1 =? 0)%N)) (nums (s ++ [x00])) (map (fun b => bitstring Msb0 [b]) (s ++ [x00])).
Proof.
  intros Hs. rewrite nums_app. split; [destruct (nums s); discriminate|]. split; [cbn [stop_of nums map]; now rewrite last_last|].
  intros k Hk. rewrite app_length, nums_length in Hk. cbn in Hk. cbn [stop_of].
  rewrite firstn_app, nums_length. replace (k - length s) with 0 by lia. cbn [firstn]. rewrite app_nil_r.
  apply no_nul_nums in Hs. rewrite <- (firstn_skipn k (nums s)) in Hs. apply Forall_app in Hs. destruct Hs as [Hs _].
  destruct (firstn k (nums s)) as [|x l _] using rev_ind; [reflexivity|]. rewrite last_last. apply Forall_app in Hs. destruct Hs as [_ Hs].
  inversion Hs. lia.
Qed.
Theorem lawful_cstring src c e s fuel : bytes_of_ctx 1 c = Some (e, 1, Msb0) -> no_nul s -> length s < fuel ->
  lawful false src Msb0 (read_cstring fuel) (write_cstring c) (nums s) (bitstring Msb0 (s ++ [x00])).
Proof.
  intros Hc Hs Hf. destruct (lawful_parts _ _ _ _ _ _ _ (lawful_bytes false src c e Msb0 (s ++ [x00]) Hc ltac:(discriminate))) as (_ & HW & _).
  split; [discriminate| |].
  - intros a _. unfold write_cstring. rewrite <- concat_bytes. replace (nums s ++ [0%N]) with (nums (s ++ [x00])) by now rewrite nums_app.
    apply (emits_list false Msb0 _ _ _ HW). discriminate.
  - unfold read_cstring. rewrite <- (app_nil_r (bitstring _ _)). apply reads_bind with (a := nums (s ++ [x00])).
    + rewrite <- concat_bytes. apply reads_vec.
      * discriminate.
      * exact I.
      * rewrite nums_length, app_length. cbn [length]. lia.
      * apply (reads_all_bytes src C0 Little Msb0). reflexivity.
      * now apply nul_stops.
    + unfold to_cstring. rewrite nums_app. cbn [nums map]. change [Byte.to_N x00] with [0%N]. rewrite (from_nul_ok _ (no_nul_nums s Hs)). apply reads_ret.
Qed.
Theorem lawful_cstring_bytes src c e s n : bytes_of_ctx 1 c = Some (e, 1, Msb0) -> no_nul s -> n = N.of_nat (length s + 1) -> (n <= isize_max)%N ->
  lawful false src Msb0 (read_cstring_bytes n) (write_cstring c) (nums s) (bitstring Msb0 (s ++ [x00])).
Proof.
  intros Hc Hs Hn Hl. apply (emits_mono false src src Msb0 (read_cstring (S (length s))) _ _ _ _ (lawful_cstring src c e s (S (length s)) Hc Hs ltac:(lia))).
  unfold read_cstring_bytes. rewrite <- (app_nil_r (bitstring _ _)). apply reads_bind with (a := nums (s ++ [x00])).
  - rewrite <- concat_bytes. apply reads_count.
    + discriminate.
    + lia.
    + rewrite nums_length, app_length. cbn [length]. lia.
    + apply (reads_all_bytes src C0 Little Msb0). reflexivity.
  - unfold to_cstring. rewrite nums_app. cbn [nums map]. change [Byte.to_N x00] with [0%N]. rewrite (from_nul_ok _ (no_nul_nums s Hs)). apply reads_ret.
Qed.
(** Any other [n] bytes are rejected. *)
Theorem cstring_bytes_rejects src bs n : n = N.of_nat (length bs) -> (n <= isize_max)%N -> (forall s, no_nul s -> bs <> s ++ [x00]) ->
  rejects src Msb0 (read_cstring_bytes n) (bitstring Msb0 bs) Parse.
Proof.
  intros Hn Hl Hb r rest Hr Hu.
  assert (HR : reads src Msb0 (vec_read 0 1 (prim_read PU8 C0) (LCount n)) (bitstring Msb0 bs) (nums bs)).
  { rewrite <- concat_bytes. apply reads_count; [discriminate|lia|now rewrite nums_length|]. apply (reads_all_bytes src C0 Little Msb0). reflexivity. }
  destruct (HR r rest Hr Hu) as (r' & E & _). exists r'. unfold read_cstring_bytes. rewrite (bind_ok _ _ _ _ _ E).
  unfold to_cstring. destruct (from_vec_with_nul (nums bs)) as [s|] eqn:En; [exfalso|reflexivity].
  apply from_nul_inv in En. destruct En as [En Fs].
  assert (HX : exists t, bs = t ++ [x00] /\ nums t = s).
  { destruct bs as [|b t _] using rev_ind; [destruct s; discriminate|]. rewrite nums_app in En. apply app_inj_tail in En. destruct En as [Es Eb].
    exists t. split; [|exact Es]. f_equal. f_equal. destruct b; discriminate || reflexivity. }
  destruct HX as (t & -> & <-). apply (Hb t); [|reflexivity]. clear - Fs. induction t as [|b t IH]; [constructor|].
  inversion Fs; subst. constructor; [intros ->; now apply H1|apply IH; assumption].
Qed.

(** ** Byte vectors *)

Lemma split_bytes o l : exists bs tail, l = bitstring o bs ++ tail /\ length tail < 8.
Proof.
  exists (bytes_of_string o (firstn (8 * (length l / 8)) l)), (skipn (8 * (length l / 8)) l).
  rewrite bitstring_bytes_of by (rewrite firstn_length; lia). split; [symmetry; apply firstn_skipn|]. rewrite skipn_length. lia.
Qed.
Lemma byte_short src c e o : bytes_of_ctx 1 c = Some (e, 1, o) -> runs_short src (prim_read PU8 c) 8.
Proof.
  intros Hc r Hr Hl. destruct (readable_base _ _ Hr) as [Hw Hq].
  assert (HB : forall o', exists e' r', read_bytes 1 1 o' r = (Err (Incomplete e'), r')).
  { intros o'. pose proof (read_bytes_spec 1 1 o' r Hw Hq ltac:(lia) ltac:(lia)) as H.
    rewrite (proj2 (take_bits_none o' (8 * 1) (unread r))) in H by (rewrite <- seen_unread_len; lia). destruct H as (e' & r' & E & _). eauto. }
  assert (HU : forall o', exists e' r', read_u8_bytes o' r = (Err (Incomplete e'), r')).
  { intros o'. destruct (HB o') as (e' & r' & E). exists e', r'. unfold read_u8_bytes, read_bytes_const. now rewrite (bind_err _ _ _ _ _ E). }
  destruct c; cbn in Hc; try discriminate; cbn [prim_read read_eyo prim_bytes]; try apply HU; unfold read_e, read_bytes_const.
  all: destruct (HB Msb0) as (e' & r' & E); exists e', r'; cbn [prim_bytes]; now rewrite (bind_err _ _ _ _ _ E).
Qed.

(** Element by element: enough input, and not enough. *)
Lemma elementwise_short src c e o n r : bytes_of_ctx 1 c = Some (e, 1, o) -> (n <= isize_max)%N -> readable src r ->
  (N.of_nat (unread_len (seen r)) < 8 * n)%N -> exists e' r', vec_read 0 1 (prim_read PU8 c) (LCount n) r = (Err (Incomplete e'), r').
Proof.
  intros Hc Hn Hr Hl. destruct (split_bytes o (unread_string o (seen r))) as (bs & tail & HU & Ht).
  rewrite <- concat_bytes in HU. destruct (reads_bb src o (prim_read PU8 c) _ _ (reads_all_bytes src c e o bs Hc) r tail Hr HU)
    as (r1 & Hb & R1 & U1 & _). rewrite concat_bytes in HU.
  destruct (byte_short src c e o Hc r1 R1) as (e' & r' & E).
  { rewrite <- (ReaderFacts.unread_string_length o), U1. exact Ht. }
  exists e', r'. apply count_err; [apply prim_forward|discriminate|lia|]. exists (nums bs), r1. split; [exact Hb|]. split; [|exact E].
  rewrite <- (ReaderFacts.unread_string_length o), HU, app_length, bitstring_length in Hl. rewrite nums_length. lia.
Qed.

Lemma inner_seek_ok w r t : quiet (r_s r) -> s_noseek (r_s r) = None -> seek_target (s_pos (r_s r)) (length (s_data (r_s r))) w = Some t ->
  inner_seek w r = (Ok t, r_set_s r (s_goto (s_tick (r_s r)) t)).
Proof. intros Hq Hn Ht. unfold inner_seek, lift_io, s_seek. rewrite (Hq (s_calls (r_s r))), Hn, Ht. reflexivity. Qed.
(** The three seeks of the bulk path have no net effect. *)
Lemma read_exact_unfold n r : quiet (r_s r) -> s_noseek (r_s r) = None ->
  exists r1, (quiet (r_s r1) /\ s_noseek (r_s r1) = None /\ s_data (r_s r1) = s_data (r_s r) /\ s_pos (r_s r1) = s_pos (r_s r) /\
    r_left r1 = r_left r /\ r_bits r1 = r_bits r /\ s_eat (r_s r1) = s_eat (r_s r)) /\
  read_exact_vec n r =
    (let len := length (s_data (r_s r)) in let pos := s_pos (r_s r) in
     if len <? pos then (Panic, r1) else
     if (N.of_nat (len - pos) <? n)%N then
       if (usize_max <? n * 8)%N then (Panic, r1) else (Err (Incomplete (N.to_nat (n * 8))), r1)
     else read_bytes (N.to_nat n) (N.to_nat n) Lsb0 r1).
Proof.
  intros Hq Hn. unfold read_exact_vec.
  pose (pos := s_pos (r_s r)). pose (len := length (s_data (r_s r))).
  pose (ra := r_set_s r (s_goto (s_tick (r_s r)) pos)). pose (rb := r_set_s ra (s_goto (s_tick (r_s ra)) len)).
  pose (rc := r_set_s rb (s_goto (s_tick (r_s rb)) pos)).
  assert (Ea : inner_seek (SeekCurrent 0) r = (Ok pos, ra)).
  { apply inner_seek_ok; [exact Hq|exact Hn|]. cbn [seek_target]. fold pos. replace (Z.of_nat pos + 0 <? 0)%Z with false by lia. f_equal. lia. }
  assert (Eb : inner_seek (SeekEnd 0) ra = (Ok len, rb)).
  { apply inner_seek_ok; [exact Hq|exact Hn|]. cbn [seek_target]. change (length (s_data (r_s ra))) with len. replace (Z.of_nat len + 0 <? 0)%Z with false by lia. f_equal. lia. }
  assert (Ec : inner_seek (SeekStart pos) rb = (Ok pos, rc)) by (apply inner_seek_ok; [exact Hq|exact Hn|reflexivity]).
  rewrite (bind_ok _ _ _ _ _ Ea), (bind_ok _ _ _ _ _ Eb), (bind_ok _ _ _ _ _ Ec).
  exists rc. split; [repeat split; [exact Hq|exact Hn]|]. cbv zeta. fold len pos.
  destruct (len <? pos); [reflexivity|]. destruct (N.of_nat (len - pos) <? n)%N; [|reflexivity]. destruct (usize_max <? n * 8)%N; reflexivity.
Qed.
Lemma unread_len_avail r : s_pos (r_s r) <= length (s_data (r_s r)) ->
  unread_len (seen r) = length (r_rest r) + 8 * (length (s_data (r_s r)) - s_pos (r_s r)).
Proof. intros H. unfold seen, unread_len, s_avail. cbn [fst snd]. now rewrite skipn_length. Qed.
Lemma same_seen r r1 : s_data (r_s r1) = s_data (r_s r) -> s_pos (r_s r1) = s_pos (r_s r) -> r_left r1 = r_left r -> seen r1 = seen r.
Proof. intros H1 H2 H3. unfold seen, s_avail, r_rest. now rewrite H1, H2, H3. Qed.

Theorem exact_reads bs : reads SeekSource Lsb0 (read_exact_vec (N.of_nat (length bs))) (bitstring Lsb0 bs) bs.
Proof.
  intros r rest Hr Hu. pose proof Hr as (Hq & Hw & Hn & Hp & Hb & Hk).
  destruct (read_exact_unfold (N.of_nat (length bs)) r Hq Hn) as (r1 & (Q1 & N1 & D1 & P1 & L1 & B1 & E1) & ->).
  cbv zeta. replace (length (s_data (r_s r)) <? s_pos (r_s r)) with false by lia.
  assert (HS : seen r1 = seen r) by now apply same_seen.
  assert (HL : length (r_rest r) < 8) by (unfold r_rest; destruct (r_left r) as [[b|l]|]; cbn in *; lia || contradiction).
  assert (HA : (N.of_nat (length (s_data (r_s r)) - s_pos (r_s r)) <? N.of_nat (length bs))%N = false).
  { apply (f_equal (@length bool)) in Hu. rewrite ReaderFacts.unread_string_length, app_length, bitstring_length, unread_len_avail in Hu by exact Hp. lia. }
  rewrite HA, Nat2N.id.
  assert (R1 : readable SeekSource r1).
  { split; [exact Q1|]. rewrite L1. split; [exact Hw|]. rewrite N1, P1, D1, B1. unfold r_rest in *. rewrite L1. auto. }
  destruct bs as [|b bs].
  - destruct (readable_base _ _ R1) as [W1 _].
    assert (Hz : ~ peeked r1) by (intros [b E]; rewrite L1 in E; rewrite E in Hk; exact Hk).
    pose proof (read_bytes_spec 0 0 Lsb0 r1 W1 Q1 (le_n 0) (fun _ => Hz)) as H. cbn [take_bits Nat.mul] in H.
    destruct H as (bs & r' & E & Hbs & Ad & U'). cbn [length]. rewrite E. exists r'.
    destruct bs; [|apply (f_equal (@length bool)) in Hbs; rewrite bitstring_length in Hbs; cbn in Hbs; lia].
    assert (HU : forall o, unread_string o (seen r') = unread_string o (seen r)) by (intros o'; now rewrite seen_unread, U', <- seen_unread, HS).
    split; [reflexivity|]. split; [|split; [rewrite HU; exact Hu|]].
    + apply (adv_readable SeekSource r1 r' 0 R1 Ad); [exact (fun H => read_bytes_unpeeked _ _ _ _ _ _ E H)|].
      now rewrite !seen_unread_len, U'.
    + destruct Ad as [(Sd & Se & Sf) Aw Ab Ap Al Av]. cbn [bitstring length flat_map]. repeat split; try congruence; lia.
  - destruct (reads_bytes SeekSource Lsb0 (length (b :: bs)) (length (b :: bs)) (b :: bs) eq_refl ltac:(cbn; lia) r1 rest R1) as (r' & E & R' & U' & B' & D' & P').
    { rewrite HS. exact Hu. }
    rewrite E. exists r'. split; [reflexivity|]. split; [exact R'|]. split; [exact U'|]. repeat split; try congruence; lia.
Qed.
Theorem exact_short n r : readable SeekSource r -> (8 * n <= usize_max)%N -> (N.of_nat (unread_len (seen r)) < 8 * n)%N ->
  exists r', read_exact_vec n r = (Err (Incomplete (N.to_nat (8 * n))), r') /\ seen r' = seen r /\ r_bits r' = r_bits r.
Proof.
  intros Hr Hn Hl. pose proof Hr as (Hq & Hw & Hns & Hp & Hb & Hk).
  destruct (read_exact_unfold n r Hq Hns) as (r1 & (Q1 & N1 & D1 & P1 & L1 & B1 & E1) & ->). cbv zeta.
  replace (length (s_data (r_s r)) <? s_pos (r_s r)) with false by lia. rewrite unread_len_avail in Hl by exact Hp.
  replace (N.of_nat (length (s_data (r_s r)) - s_pos (r_s r)) <? n)%N with true by lia. replace (usize_max <? n * 8)%N with false by lia. exists r1.
  replace (n * 8)%N with (8 * n)%N by lia. split; [reflexivity|]. split; [now apply same_seen|exact B1].
Qed.

(** Bulk and element-wise reading agree: always in an Lsb0 stream; at byte
    boundaries in both. *)
Lemma aligned_string o r : r_left r = None -> unread_string o (seen r) = bitstring o (s_avail (r_s r)).
Proof. intros H. unfold seen, r_rest, unread_string. rewrite H. cbn [fst snd]. now rewrite orient_nil. Qed.
Theorem bulk_agrees c e o n r : bytes_of_ctx 1 c = Some (e, 1, o) -> o = Lsb0 \/ r_left r = None ->
  readable SeekSource r -> (8 * n <= usize_max)%N ->
  (exists bs r1 r2, read_exact_vec n r = (Ok bs, r1) /\ vec_read 0 1 (prim_read PU8 c) (LCount n) r = (Ok (nums bs), r2) /\
     unread_string o (seen r1) = unread_string o (seen r2) /\ r_bits r1 = r_bits r2) \/
  (exists e1 e2 r1 r2, read_exact_vec n r = (Err (Incomplete e1), r1) /\ vec_read 0 1 (prim_read PU8 c) (LCount n) r = (Err (Incomplete e2), r2)).
Proof.
  intros Hc Ho Hr Hn. destruct (N.le_gt_cases (8 * n) (N.of_nat (unread_len (seen r)))) as [Hl|Hl].
  - left. set (S := unread_string o (seen r)).
    assert (HS : length S = unread_len (seen r)) by apply ReaderFacts.unread_string_length.
    destruct (split_bytes o (firstn (8 * N.to_nat n) S)) as (bs & tl & HX & Ht).
    assert (HLt : length (bitstring o bs ++ tl) = 8 * N.to_nat n) by (rewrite <- HX, firstn_length; lia).
    rewrite app_length, bitstring_length in HLt. destruct tl; [|cbn [length] in HLt, Ht; lia]. rewrite app_nil_r in HX.
    assert (HN : N.of_nat (length bs) = n) by (cbn in HLt; lia).
    assert (HU : S = bitstring o bs ++ skipn (8 * N.to_nat n) S) by (rewrite <- HX; symmetry; apply firstn_skipn).
    assert (HE : reads SeekSource o (vec_read 0 1 (prim_read PU8 c) (LCount n)) (bitstring o bs) (nums bs)).
    { rewrite <- concat_bytes. apply reads_count; [discriminate|unfold usize_max, isize_max in *; lia|now rewrite nums_length|]. now apply (reads_all_bytes SeekSource c e o). }
    destruct (HE r _ Hr HU) as (r2 & E2 & R2 & U2 & B2 & D2 & P2).
    assert (HL : unread_string Lsb0 (seen r) = bitstring Lsb0 bs ++ skipn (8 * N.to_nat n) (unread_string Lsb0 (seen r))).
    { destruct Ho as [-> |Ho]; [exact HU|]. rewrite (aligned_string Lsb0 r Ho). unfold S in HU. rewrite (aligned_string o r Ho) in HU.
      rewrite bitstring_skipn in HU |- *. rewrite <- bitstring_app in HU |- *. apply bitstring_inj in HU. now rewrite HU at 1. }
    rewrite <- HN in E2 |- *. destruct (exact_reads bs r _ Hr HL) as (r1 & E1 & R1 & U1 & B1 & D1 & P1).
    exists bs, r1, r2. split; [exact E1|]. split; [exact E2|]. split; [|rewrite bitstring_length in *; lia].
    destruct Ho as [-> |Ho]; [rewrite U1, U2; reflexivity|].
    assert (HA : forall r', readable SeekSource r' -> s_data (r_s r') = s_data (r_s r) -> r_bits r' = r_bits r + 8 * length bs ->
      r_left r' = None /\ s_pos (r_s r') = s_pos (r_s r) + length bs).
    { intros r' (_ & W' & _ & _ & A' & K') D' B'. destruct Hr as (_ & _ & _ & _ & A & _). unfold r_rest in A, A'. rewrite Ho in A. cbn [length] in A.
      destruct (r_left r') as [[b|l]|]; [contradiction|lia|]. cbn [length] in A'. split; [reflexivity|lia]. }
    rewrite bitstring_length in B1, B2. destruct (HA r1 R1 D1 B1) as [L1 Q1]. destruct (HA r2 R2 D2 B2) as [L2 Q2].
    rewrite (aligned_string o r1 L1), (aligned_string o r2 L2). unfold s_avail. now rewrite D1, D2, Q1, Q2.
  - right. destruct (exact_short n r Hr Hn Hl) as (r1 & E1 & _). destruct (elementwise_short SeekSource c e o n r Hc) as (e2 & r2 & E2); [unfold usize_max, isize_max in *; lia|exact Hr|exact Hl|].
    eauto 8.
Qed.

(** ** Maps and sets *)

Section Maps.
Context {K V : Type} (eqb : K -> K -> bool).
Hypothesis eqb_ok : forall a b, eqb a b = true <-> a = b.
Lemma eqb_refl k : eqb k k = true.
Proof. now apply eqb_ok. Qed.
Lemma eqb_no a b : a <> b -> eqb a b = false.
Proof. intros H. destruct (eqb a b) eqn:E; [|reflexivity]. apply eqb_ok in E. contradiction. Qed.
Lemma find_remove k k' (m : list (K * V)) : find eqb k (map_remove eqb k' m) = if eqb k k' then None else find eqb k m.
Proof.
  induction m as [|[a v] m IH]; cbn [map_remove find]; [now destruct (eqb k k')|].
  destruct (eqb k' a) eqn:E1.
  - apply eqb_ok in E1. subst a. rewrite IH. destruct (eqb k k'); reflexivity.
  - cbn [find]. rewrite IH. destruct (eqb k a) eqn:E2; [|reflexivity]. apply eqb_ok in E2. subst a. rewrite (eqb_no k k'); [reflexivity|].
    intros ->. now rewrite eqb_refl in E1.
Qed.
Lemma find_insert k (m : list (K * V)) kv : find eqb k (map_insert eqb m kv) = if eqb k (fst kv) then Some (snd kv) else find eqb k m.
Proof. destruct kv as [a v]. unfold map_insert. cbn [find fst snd]. rewrite find_remove. now destruct (eqb k a). Qed.
Lemma find_app k (a b : list (K * V)) : find eqb k (a ++ b) = match find eqb k a with Some v => Some v | None => find eqb k b end.
Proof. induction a as [|[x v] a IH]; [reflexivity|]. cbn [app find]. now destruct (eqb k x). Qed.
Theorem map_of_last k (l : list (K * V)) : find eqb k (map_of eqb l) = find_last eqb k l.
Proof.
  unfold map_of, find_last. assert (H : forall acc, find eqb k (fold_left (map_insert eqb) l acc) = find eqb k (rev l ++ acc)).
  { induction l as [|[a v] l IH]; intros acc; [reflexivity|]. cbn [fold_left rev]. rewrite IH, <- app_assoc, !(find_app k (rev l)), find_insert. reflexivity. }
  rewrite H. now rewrite app_nil_r.
Qed.
Lemma remove_keys k (m : list (K * V)) x : In x (map fst (map_remove eqb k m)) <-> In x (map fst m) /\ x <> k.
Proof.
  induction m as [|[a v] m IH]; [cbn; tauto|]. cbn [map_remove]. destruct (eqb k a) eqn:E.
  - apply eqb_ok in E. subst a. rewrite IH. cbn. split; [tauto|]. intros [[H|H] Hn]; [congruence|tauto].
  - cbn [map In fst]. rewrite IH. split; [|tauto]. intros [<-|[H Hn]]; [|tauto]. split; [now left|]. intros ->. now rewrite eqb_refl in E.
Qed.
Lemma remove_nodup k (m : list (K * V)) : NoDup (map fst m) -> NoDup (map fst (map_remove eqb k m)).
Proof.
  induction m as [|[a v] m IH]; intros H; [constructor|]. cbn [map fst] in H. inversion H; subst. cbn [map_remove]. destruct (eqb k a); [auto|].
  cbn [map fst]. constructor; [|auto]. rewrite remove_keys. tauto.
Qed.
Theorem map_of_nodup (l : list (K * V)) : NoDup (map fst (map_of eqb l)).
Proof.
  unfold map_of. assert (H : forall acc, NoDup (map fst acc) -> NoDup (map fst (fold_left (map_insert eqb) l acc))).
  { induction l as [|[a v] l IH]; intros acc H; [exact H|]. cbn [fold_left]. apply IH. unfold map_insert. cbn [map fst].
    constructor; [rewrite remove_keys; tauto|now apply remove_nodup]. }
  apply H. constructor.
Qed.
Lemma find_none k (l : list (K * V)) : find eqb k l = None <-> ~ In k (map fst l).
Proof.
  induction l as [|[a v] l IH]; [cbn; tauto|]. cbn [find map fst In]. destruct (eqb k a) eqn:E.
  - apply eqb_ok in E. split; [discriminate|]. intros H. destruct H. now left.
  - rewrite IH. split; [|tauto]. intros H [->|H2]; [now rewrite eqb_refl in E|tauto].
Qed.
Lemma find_in k v (l : list (K * V)) : NoDup (map fst l) -> find eqb k l = Some v <-> In (k, v) l.
Proof.
  induction l as [|[a w] l IH]; intros H; [cbn; split; [discriminate|tauto]|]. cbn [map fst] in H. inversion H as [|? ? Hn Hd]; subst. cbn [find In].
  destruct (eqb k a) eqn:E.
  - apply eqb_ok in E. subst a. split; [intros X; injection X as ->; now left|]. intros [X|X]; [now injection X as ->|].
    destruct Hn. apply (in_map fst) in X. exact X.
  - rewrite (IH Hd). split; [tauto|]. intros [X|X]; [|exact X]. injection X as -> ->. now rewrite eqb_refl in E.
Qed.
Theorem map_of_perm (l : list (K * V)) : NoDup (map fst l) -> Permutation (map_of eqb l) l.
Proof.
  intros H. apply NoDup_Permutation.
  - eapply NoDup_map_inv. apply map_of_nodup.
  - eapply NoDup_map_inv. exact H.
  - intros [k v]. rewrite <- (find_in k v _ (map_of_nodup l)), map_of_last. unfold find_last. rewrite find_in.
    + rewrite <- in_rev. reflexivity.
    + rewrite map_rev. apply NoDup_rev. exact H.
Qed.
Lemma map_read_vec fuel (elem : RM (K * V)) lim r : match lim with LCount n => (n <= isize_max)%N | _ => True end ->
  map_read fuel eqb elem lim r = (let* l := vec_read fuel 1 elem lim in ret (map_of eqb l)) r.
Proof.
  intros Hl. unfold map_read. apply bind_cong. unfold vec_read, vec_with_predicate, vec_to_end. destruct lim as [n|p|n|n|]; cbn [N.eqb Pos.eqb].
  - destruct (n =? 0)%N; [reflexivity|]. replace (isize_max <? n * 1)%N with false by lia. reflexivity.
  - reflexivity.
  - destruct (_ <? _)%N; [reflexivity|]. destruct (_ =? _)%N; reflexivity.
  - destruct (n =? 0)%N; reflexivity.
  - reflexivity.
Qed.
Theorem lawful_map al src o (elem : RM (K * V)) wk wv l encs fuel : (N.of_nat (length l) <= isize_max)%N ->
  lawful_list al src o elem (write_pair wk wv) l encs ->
  (forall a, (al = true -> a = 0) -> emits o a (map_write wk wv l) (concat encs)) /\
  reads src o (map_read fuel eqb elem (LCount (N.of_nat (length l)))) (concat encs) (map_of eqb l).
Proof.
  intros Hl H. destruct (lawful_parts _ _ _ _ _ _ _ H) as (H1 & H2 & H3). split; [now apply emits_list|].
  eapply reads_ext; [intros r; symmetry; apply map_read_vec; exact Hl|]. apply reads_map. apply reads_count; try assumption; [discriminate|lia|reflexivity].
Qed.
End Maps.

Theorem lawful_set {K} (eqb : K -> K -> bool) al src o (elem : RM K) wk (l : list (K * unit)) encs fuel : (N.of_nat (length l) <= isize_max)%N ->
  lawful_list al src o elem wk (map fst l) encs ->
  (forall a, (al = true -> a = 0) -> emits o a (set_write wk l) (concat encs)) /\
  reads src o (set_read fuel eqb elem (LCount (N.of_nat (length l)))) (concat encs) (map_of eqb l).
Proof.
  intros Hl H. destruct (lawful_parts _ _ _ _ _ _ _ H) as (H1 & H2 & H3). split.
  - intros a Ha. pose proof (emits_list al o wk _ _ H2 a Ha) as E. eapply emits_ext; [|exact E]. clear.
    induction l as [|[k []] l IH]; intros w; [reflexivity|]. cbn [set_write write_list map fst]. apply bind_ext. intros; apply IH.
  - unfold set_read. eapply reads_ext; [intros r; symmetry; apply map_read_vec; exact Hl|]. apply reads_map.
    apply reads_count; try assumption; [discriminate|lia|reflexivity|].
    clear - H1. revert encs H1. induction l as [|[k []] l IH]; intros encs H1; inversion H1; subst; constructor; [|now apply IH].
    exact (reads_map src o elem (fun k => (k, tt)) _ _ H2).
Qed.

(** ** Panics and termination *)

Lemma safe_loop {A} (elem : RM A) stop start : safe elem -> forward elem -> forall fuel acc r x r', start <= r_bits r -> valid r ->
  vec_loop fuel elem stop start acc r = (x, r') -> x <> Panic /\ valid r'.
Proof.
  intros Hs Hf. induction fuel as [|f IH]; intros acc r x r' Hb Hv E.
  - apply pair_inj in E. destruct E as [<- <-]. split; [discriminate|exact Hv].
  - cbn [vec_loop] in E. unfold bind in E. destruct (elem r) as [y r1] eqn:Er. destruct (Hs _ _ _ Hv Er) as (P & D & V).
    destruct y as [v|e| |]; try (apply pair_inj in E; destruct E as [<- <-]; split; [congruence|exact V]).
    apply Hf in Er. replace (r_bits r1 <? start) with false in E by lia.
    destruct (stop _ _); [apply pair_inj in E; destruct E as [<- <-]; split; [congruence|exact V]|].
    eapply IH; [| |exact E]; [lia|exact V].
Qed.
Lemma safe_end_loop {A} (elem : RM A) : safe elem -> forall fuel acc r x r', valid r ->
  end_loop fuel elem acc r = (x, r') -> x <> Panic /\ valid r'.
Proof.
  intros Hs. induction fuel as [|f IH]; intros acc r x r' Hv E.
  - apply pair_inj in E. destruct E as [<- <-]. split; [discriminate|exact Hv].
  - cbn [end_loop] in E. destruct (r_end r) as [b r0] eqn:Ee. destruct (r_end_frame r b r0 Hv Ee) as (V0 & _).
    destruct b; [apply pair_inj in E; destruct E as [<- <-]; split; [discriminate|exact V0]|].
    unfold bind in E. destruct (elem r0) as [y r1] eqn:Er. destruct (Hs _ _ _ V0 Er) as (P & D & V).
    destruct y as [v|e| |]; try (apply pair_inj in E; destruct E as [<- <-]; split; [congruence|exact V]). eapply IH; [exact V|exact E].
Qed.
(** No limit makes a vector of well-behaved elements panic, unless its number
    overflows a machine word. *)
Theorem safe_vec {A} (elem : RM A) size lim fuel r x r' : safe elem -> forward elem -> limit_fits size lim -> valid r ->
  vec_read fuel size elem lim r = (x, r') -> x <> Panic /\ valid r'.
Proof.
  intros Hs Hf Hl Hv E. assert (H0 : forall B (b : B), (ret b : RM B) r = (Ok b, r)) by reflexivity.
  unfold vec_read, vec_with_predicate, vec_to_end in E.
  destruct lim as [n|p|n|n|]; cbn [limit_fits] in Hl; repeat match type of E with context [if ?c then _ else _] => destruct c eqn:? end;
    try (apply pair_inj in E; destruct E as [<- <-]; split; [discriminate|exact Hv]);
    try (exfalso; lia); try (eapply safe_loop; [exact Hs|exact Hf| |exact Hv|exact E]; lia).
  eapply safe_end_loop; eassumption.
Qed.
Theorem safe_count {A} (elem : RM A) size n fuel : safe elem -> forward elem -> (n * size <= isize_max)%N -> safe (vec_read fuel size elem (LCount n)).
Proof.
  intros Hs Hf Hl r x r' Hv E. destruct (safe_vec elem size (LCount n) fuel r x r' Hs Hf Hl Hv E) as [P V]. split; [exact P|]. split; [|exact V].
  intros ->. unfold vec_read, vec_with_predicate in E. destruct (n =? 0)%N eqn:En; [discriminate|]. destruct (size =? 0)%N; [discriminate|].
  destruct (_ <? _)%N; [discriminate|].
  assert (HD : forall fuel acc r0 r1, valid r0 -> length acc + fuel = N.to_nat n -> length acc < N.to_nat n ->
    vec_loop fuel elem (fun _ acc => (N.of_nat (length acc) =? n)%N) (r_bits r) acc r0 <> (Diverge, r1)).
  { clear - Hs. induction fuel as [|f IH]; intros acc r0 r1 Hv Hl Hlt E; [lia|]. cbn [vec_loop] in E. unfold bind in E.
    destruct (elem r0) as [y r2] eqn:Er. destruct (Hs _ _ _ Hv Er) as (P & D & V). destruct y as [v|e| |]; try discriminate; [|congruence].
    destruct (_ <? _); [discriminate|]. destruct (N.of_nat (length (acc ++ [v])) =? n)%N eqn:Es; [discriminate|].
    rewrite app_length in Es. cbn [length] in Es. eapply IH; [exact V| | |exact E]; rewrite app_length; cbn [length]; lia. }
  eapply HD; [exact Hv| | |exact E]; cbn [length]; lia.
Qed.

Theorem cstring_unterminated src s tail fuel r : no_nul s -> length tail < 8 -> readable src r ->
  unread_string Msb0 (seen r) = bitstring Msb0 s ++ tail -> length s < fuel -> exists e r', read_cstring fuel r = (Err (Incomplete e), r').
Proof.
  intros Hs Ht Hr Hu Hf. rewrite <- concat_bytes in Hu.
  destruct (reads_bb src Msb0 (prim_read PU8 C0) _ _ (reads_all_bytes src C0 Little Msb0 s eq_refl) r tail Hr Hu) as (r1 & Hb & R1 & U1 & _).
  destruct (byte_short src C0 Little Msb0 eq_refl r1 R1) as (e & r' & E).
  { rewrite <- (ReaderFacts.unread_string_length Msb0), U1. exact Ht. }
  exists e, r'. unfold read_cstring. apply bind_err. rewrite vec_read_loop by (discriminate || exact I). cbn [fuel_of].
  apply (vec_loop_err _ (prim_forward PU8 C0) _ r _ r' (nums s) fuel [] r r1); try assumption; [constructor|now rewrite nums_length|].
  intros vs1 vs2 r2 Ev Hn _. cbn [stop_of app] in *. apply no_nul_nums in Hs. rewrite Ev in Hs. apply Forall_app in Hs. destruct Hs as [Hs _].
  destruct vs1 as [|x vs1 _] using rev_ind; [contradiction|]. rewrite last_last. apply Forall_app in Hs. destruct Hs as [_ Hs]. inversion Hs. lia.
Qed.

(** Write, finalize, read from the start with anything appended. *)
Theorem lawful_end_to_end {A} al o (rd : RM A) wr v enc tail : lawful al AnySource o rd wr v enc ->
  exists w r, (let* _ := wr v in finalize) (writer_new vec_sink) = (Ok tt, w) /\
    rd (reader_new (cursor (k_data (w_k w) ++ tail))) = (Ok v, r) /\ r_bits r = length enc.
Proof.
  intros [L W R]. destruct (emits_out o _ enc (W 0 (fun _ => eq_refl))) as (w & pad & E & HD & _).
  destruct (R (reader_new (cursor (k_data (w_k w) ++ tail))) (repeat false pad ++ bitstring o tail)) as (r & Er & _ & _ & Hb & _).
  - apply readable_new.
  - rewrite app_assoc, <- HD, <- bitstring_app. destruct o; reflexivity.
  - exists w, r. split; [exact E|]. split; [exact Er|exact Hb].
Qed.

(** All limits: what success and failure mean. *)
Theorem limit_ok {A} (elem : RM A) size lim r vs r' : forward elem -> size <> 0%N -> proper_limit size lim ->
  (exists fuel, vec_read fuel size elem lim r = (Ok vs, r')) <-> first_stop elem (stop_of lim) r vs r'.
Proof.
  intros Hf Hz Hp. split; [intros (fuel & E); eapply vec_ok; eassumption|]. intros H. exists (length vs). now apply vec_ok_rev.
Qed.
Theorem limit_err {A} (elem : RM A) size lim r e r' : forward elem -> size <> 0%N -> proper_limit size lim ->
  (exists fuel, vec_read fuel size elem lim r = (Err e, r')) <-> fails_first elem (stop_of lim) r e r'.
Proof.
  intros Hf Hz Hp. split; [intros (fuel & E); eapply vec_err; eassumption|]. intros H.
  destruct (vec_err_rev elem size lim Hf Hz Hp r e r' H) as (f0 & H0). exists f0. now apply H0.
Qed.
Theorem end_ok {A} (elem : RM A) size r vs r' : size <> 0%N ->
  (exists fuel, vec_read fuel size elem LEnd r = (Ok vs, r')) <-> until_end elem r vs r'.
Proof.
  intros Hz. split; [intros (fuel & E); eapply vec_end_ok; eassumption|]. intros H. exists (S (length vs)). apply vec_end_ok_rev; auto.
Qed.
Theorem vec_halts {A} (elem : RM A) size lim fuel r r' : forward elem -> consuming elem -> returns elem -> size <> 0%N -> limit_fits size lim ->
  readable AnySource r -> unread_len (seen r) < fuel -> vec_read fuel size elem lim r <> (Diverge, r').
Proof.
  intros Hf Hc Hr Hz Hl Ha Hu. destruct lim as [n|p|n|n|].
  - destruct (N.eq_dec n 0) as [->|Hn]; [discriminate|]. apply vec_terminates; try assumption. now split.
  - apply vec_terminates; try assumption; exact I.
  - destruct (N.eq_dec n 0) as [->|Hn]; [discriminate|]. apply vec_terminates; try assumption. now split.
  - destruct (N.eq_dec n 0) as [->|Hn]; [discriminate|]. apply vec_terminates; assumption.
  - now apply end_terminates.
Qed.
Theorem safe_returns {A} (m : RM A) : safe m -> returns m.
Proof. intros Hs r r' (_ & Hv & _) E. destruct (Hs r _ r' Hv E) as (_ & D & _). congruence. Qed.

Theorem capacity_panic {A} fuel size (elem : RM A) n r : (isize_max < n * size)%N -> vec_read fuel size elem (LCount n) r = (Panic, r).
Proof.
  intros H. unfold vec_read, vec_with_predicate. destruct (N.eqb_spec n 0); [subst; cbn in H; lia|].
  destruct (N.eqb_spec size 0); [subst; rewrite N.mul_0_r in H; cbn in H; lia|].
  replace (isize_max <? n * size)%N with true; [reflexivity|]. symmetry. now apply N.ltb_lt.
Qed.
