(** The reader refines [Spec.take_bits]. *)
From Coq Require Import Lia ZifyBool ZifyNat ZifyN.
From Verif Require Import Base Spec Stream Reader BitsFacts.
Ltac Zify.zify_post_hook ::= Z.div_mod_to_equations.

(** ** The specification *)

Lemma take_bits_add o a b u :
  take_bits o (a + b) u =
  match take_bits o a u with
  | None => None
  | Some (l1, u1) =>
      match take_bits o b u1 with
      | None => None
      | Some (l2, u2) => Some (l1 ++ l2, u2)
      end
  end.
Proof.
  revert u; induction a as [|a IH]; intros u.
  - cbn. destruct (take_bits o b u) as [[l u2]|]; reflexivity.
  - cbn [Nat.add take_bits]. destruct (pop o u) as [[x u1]|]; [|reflexivity].
    rewrite IH. destruct (take_bits o a u1) as [[l1 u2]|]; [|reflexivity].
    destruct (take_bits o b u2) as [[l2 u3]|]; reflexivity.
Qed.

Lemma pop_part o part bytes : part <> [] ->
  pop o (part, bytes) =
  Some (hd false (orient o part), (orient o (tl (orient o part)), bytes)).
Proof.
  intros H. unfold pop; cbn [fst snd]. destruct part as [|b p]; [easy|].
  destruct o; [reflexivity|].
  cbn [orient]. set (l := b :: p) in *.
  assert (Hl : l = removelast l ++ [last l false]) by (apply app_removelast_last; discriminate).
  assert (Hr : rev l = last l false :: rev (removelast l)).
  { rewrite Hl at 1. rewrite rev_app_distr. reflexivity. }
  rewrite Hr. cbn [hd tl]. rewrite rev_involutive. destruct bytes; reflexivity.
Qed.
Lemma pop_byte o b bs : pop o ([], b :: bs) = pop o (byte_bits b, bs).
Proof.
  pose proof (byte_bits_length b) as H. unfold pop; cbn [fst snd].
  destruct (byte_bits b) eqn:E; [discriminate|]. destruct o; destruct bs; reflexivity.
Qed.
Lemma take_bits_byte o n b bs : 0 < n -> take_bits o n ([], b :: bs) = take_bits o n (byte_bits b, bs).
Proof. destruct n; [lia|]. intros _. cbn [take_bits]. now rewrite pop_byte. Qed.

Lemma take_bits_part o n part bytes : n <= length part ->
  take_bits o n (part, bytes) =
  Some (firstn n (orient o part), (orient o (skipn n (orient o part)), bytes)).
Proof.
  revert part; induction n as [|n IH]; intros part H.
  - cbn. now rewrite orient_invol.
  - cbn [take_bits]. rewrite pop_part by (destruct part; cbn in H; [lia|discriminate]).
    assert (Hl : length (orient o part) = length part) by apply orient_length.
    destruct (orient o part) as [|x q] eqn:E; [cbn in Hl; lia|]. cbn [hd tl length] in *.
    rewrite IH by (rewrite orient_length; lia). rewrite orient_invol. reflexivity.
Qed.
Lemma take_bits_whole_byte o b bs : take_bits o 8 ([], b :: bs) = Some (orient o (byte_bits b), ([], bs)).
Proof.
  rewrite take_bits_byte by lia. rewrite take_bits_part by (rewrite byte_bits_length; lia).
  rewrite firstn_all2, skipn_all2 by (rewrite orient_length, byte_bits_length; lia).
  now rewrite orient_nil.
Qed.
Lemma take_bits_bytes o k bs : k <= length bs ->
  take_bits o (8 * k) ([], bs) = Some (bitstring o (firstn k bs), ([], skipn k bs)).
Proof.
  revert bs; induction k as [|k IH]; intros bs H; [reflexivity|].
  destruct bs as [|b bs]; cbn [length] in H; [lia|].
  replace (8 * S k) with (8 + 8 * k) by lia. rewrite take_bits_add, take_bits_whole_byte, IH by lia.
  reflexivity.
Qed.
Lemma pop_len o u : match pop o u with
  | None => unread_len u = 0
  | Some (_, u') => unread_len u = S (unread_len u') end.
Proof.
  destruct u as [part bytes]. destruct part as [|p part].
  - destruct bytes as [|b bs]; [reflexivity|].
    rewrite pop_byte, pop_part by (intros E; pose proof (byte_bits_length b); rewrite E in *; discriminate).
    unfold unread_len; cbn [fst snd]. rewrite orient_length.
    assert (Hl : length (orient o (byte_bits b)) = 8) by (rewrite orient_length; apply byte_bits_length).
    destruct (orient o (byte_bits b)); cbn [length tl] in *; lia.
  - rewrite pop_part by discriminate. unfold unread_len; cbn [fst snd]. rewrite orient_length.
    pose proof (orient_length o (p :: part)) as Hl.
    destruct (orient o (p :: part)); cbn [length tl] in *; lia.
Qed.
Lemma take_bits_some_len o n u l u' : take_bits o n u = Some (l, u') ->
  length l = n /\ unread_len u = n + unread_len u'.
Proof.
  revert u l; induction n as [|n IH]; intros u l H; cbn [take_bits] in H.
  - injection H as <- <-. auto.
  - pose proof (pop_len o u) as Hp. destruct (pop o u) as [[x u1]|]; [|discriminate].
    destruct (take_bits o n u1) as [[l1 u2]|] eqn:E; [|discriminate].
    injection H as <- <-. destruct (IH _ _ E). cbn [length]. lia.
Qed.
Lemma take_bits_none o n u : take_bits o n u = None <-> unread_len u < n.
Proof.
  revert u; induction n as [|n IH]; intros u; cbn [take_bits]; [split; [discriminate|lia]|].
  pose proof (pop_len o u) as Hp. destruct (pop o u) as [[x u1]|].
  - specialize (IH u1). destruct (take_bits o n u1) as [[l u2]|]; split; intros H; try discriminate; try easy.
    + destruct IH as [_ IH]. enough (Some (l, u2) = None) by discriminate. apply IH. lia.
    + destruct IH as [IH _]. specialize (IH eq_refl). lia.
  - split; [lia|reflexivity].
Qed.
Lemma pop_string o u : match pop o u with
  | None => unread_string o u = []
  | Some (b, u') => unread_string o u = b :: unread_string o u' end.
Proof.
  assert (Hpart : forall part bytes, part <> [] ->
    unread_string o (part, bytes) =
    hd false (orient o part) :: unread_string o (orient o (tl (orient o part)), bytes)).
  { intros part bytes H. unfold unread_string; cbn [fst snd]. rewrite orient_invol.
    pose proof (orient_length o part) as Hl.
    destruct (orient o part); [destruct part; [easy|discriminate]|reflexivity]. }
  destruct u as [part bytes]. destruct part as [|p part].
  - destruct bytes as [|b bs]; [unfold unread_string; cbn; now rewrite orient_nil|].
    assert (Hn : byte_bits b <> []) by (intros E; pose proof (byte_bits_length b); rewrite E in *; discriminate).
    rewrite pop_byte, pop_part by exact Hn.
    rewrite <- Hpart by exact Hn. unfold unread_string; cbn [fst snd].
    now rewrite orient_nil, bitstring_cons.
  - rewrite pop_part by discriminate. apply Hpart. discriminate.
Qed.
Lemma take_bits_string o n u l u' : take_bits o n u = Some (l, u') ->
  unread_string o u = l ++ unread_string o u'.
Proof.
  revert u l; induction n as [|n IH]; intros u l H; cbn [take_bits] in H.
  - now injection H as <- <-.
  - pose proof (pop_string o u) as Hp. destruct (pop o u) as [[x u1]|]; [|discriminate].
    destruct (take_bits o n u1) as [[l1 u2]|] eqn:E; [|discriminate].
    injection H as <- <-. rewrite Hp, (IH _ _ E). reflexivity.
Qed.
Lemma unread_string_length o u : length (unread_string o u) = unread_len u.
Proof. unfold unread_string, unread_len. rewrite app_length, orient_length, bitstring_length. reflexivity. Qed.
Lemma take_bits_firstn o n u l u' : take_bits o n u = Some (l, u') ->
  l = firstn n (unread_string o u) /\ unread_string o u' = skipn n (unread_string o u).
Proof.
  intros H. destruct (take_bits_some_len _ _ _ _ _ H) as [Hl _].
  rewrite (take_bits_string _ _ _ _ _ H). rewrite <- Hl.
  now rewrite firstn_length_app, skipn_length_app.
Qed.
Lemma pop_app o u b u' more : pop o u = Some (b, u') ->
  pop o (fst u, snd u ++ more) = Some (b, (fst u', snd u' ++ more)).
Proof.
  destruct u as [part bytes]; cbn [fst snd]. destruct part as [|p part].
  - destruct bytes as [|x bs]; [discriminate|]. cbn [app].
    rewrite !pop_byte.
    assert (Hn : byte_bits x <> []) by (intros E; pose proof (byte_bits_length x); rewrite E in *; discriminate).
    rewrite !pop_part by exact Hn. intros H. now injection H as <- <-.
  - rewrite !pop_part by discriminate. intros H. now injection H as <- <-.
Qed.
Lemma take_bits_app o n u l u' more : take_bits o n u = Some (l, u') ->
  take_bits o n (fst u, snd u ++ more) = Some (l, (fst u', snd u' ++ more)).
Proof.
  revert u l; induction n as [|n IH]; intros u l H; cbn [take_bits] in *.
  - now injection H as <- <-.
  - destruct (pop o u) as [[x u1]|] eqn:Ep; [|discriminate].
    rewrite (pop_app _ _ _ _ more Ep).
    destruct (take_bits o n u1) as [[l1 u2]|] eqn:E; [|discriminate].
    injection H as <- <-. now rewrite (IH _ _ E).
Qed.
(** ** Streams *)

Definition quiet (s : stream) : Prop := forall k, s_fault s k = None.

(** What never changes while reading. *)
Definition same_source (s s' : stream) : Prop :=
  s_data s' = s_data s /\ s_eat s' = s_eat s /\ s_fault s' = s_fault s.
Lemma same_source_refl s : same_source s s.
Proof. repeat split. Qed.
Lemma same_source_trans a b c : same_source a b -> same_source b c -> same_source a c.
Proof. unfold same_source. intros (?&?&?) (?&?&?). repeat split; congruence. Qed.
Lemma same_source_quiet s s' : same_source s s' -> quiet s -> quiet s'.
Proof. intros (_ & _ & E) H k. rewrite E. apply H. Qed.

Definition virt_moved (s s' : stream) : Prop :=
  s_noseek s' = option_map (fun v => v + (s_pos s' - s_pos s)) (s_noseek s).

Lemma s_avail_length s : length (s_avail s) = length (s_data s) - s_pos s.
Proof. unfold s_avail. apply skipn_length. Qed.

Lemma s_read_exact_ok n s : quiet s -> n <= length (s_avail s) ->
  exists s', s_read_exact n s = (IoOk (firstn n (s_avail s)), s') /\
    same_source s s' /\ s_avail s' = skipn n (s_avail s) /\ s_pos s' = s_pos s + n /\
    virt_moved s s'.
Proof.
  intros Hq Hn. unfold s_read_exact. rewrite (Hq (s_calls s)).
  destruct (Nat.leb_spec n (length (s_avail s))) as [_|?]; [|lia].
  eexists; split; [reflexivity|]. repeat split.
  - unfold s_avail; cbn. now rewrite skipn_skipn.
  - unfold virt_moved. cbn [s_noseek s_virt s_pos s_goto s_tick]. destruct (s_noseek s); cbn [option_map]; f_equal; lia.
Qed.
Lemma s_read_exact_short n s : quiet s -> length (s_avail s) < n ->
  exists s', s_read_exact n s = (IoErr UnexpectedEof, s') /\ same_source s s' /\
    s_noseek s' = s_noseek s /\ s_pos s <= s_pos s'.
Proof.
  intros Hq Hn. unfold s_read_exact. rewrite (Hq (s_calls s)).
  destruct (Nat.leb_spec n (length (s_avail s))) as [?|_]; [lia|].
  eexists; split; [reflexivity|]. destruct (s_eat s) eqn:E; repeat split; cbn [s_noseek s_virt s_pos s_goto s_tick]; auto; lia.
Qed.

(** ** Reader states *)

(** Buffered bits are a proper, non-empty part of one byte. *)
Definition r_wf (r : reader) : Prop :=
  match r_left r with Some (LBits l) => 0 < length l < 8 | _ => True end.

Definition unread (r : reader) : unread_t :=
  match r_left r with
  | Some (LBits l) => (l, s_avail (r_s r))
  | Some (LByte b) => ([], b :: s_avail (r_s r))
  | None => ([], s_avail (r_s r))
  end.

Record adv (r r' : reader) (n : nat) : Prop := {
  adv_src : same_source (r_s r) (r_s r');
  adv_wf : r_wf r';
  adv_bits : r_bits r' = r_bits r + n;
  adv_pos : 8 * s_pos (r_s r') + length (left_bits (r_left r)) =
            8 * s_pos (r_s r) + n + length (left_bits (r_left r'));
  adv_le : s_pos (r_s r) <= s_pos (r_s r');
  adv_virt : virt_moved (r_s r) (r_s r')
}.
Record failed (r r' : reader) : Prop := {
  fl_src : same_source (r_s r) (r_s r');
  fl_wf : r_wf r';
  fl_bits : r_bits r' = r_bits r;
  fl_le : s_pos (r_s r) <= s_pos (r_s r')
}.

Lemma virt_trans a b c : s_pos a <= s_pos b -> s_pos b <= s_pos c ->
  virt_moved a b -> virt_moved b c -> virt_moved a c.
Proof.
  unfold virt_moved. intros H1 H2 -> ->. destruct (s_noseek a); cbn [option_map]; [f_equal; lia|reflexivity].
Qed.
Lemma virt_refl a : virt_moved a a.
Proof. unfold virt_moved. destruct (s_noseek a); cbn [option_map]; [f_equal; lia|reflexivity]. Qed.

Lemma adv_refl r : r_wf r -> adv r r 0.
Proof. intros H. split; try lia; [apply same_source_refl|exact H|apply virt_refl]. Qed.
Lemma adv_trans a b c n m : adv a b n -> adv b c m -> adv a c (n + m).
Proof.
  intros [s1 w1 b1 p1 l1 v1] [s2 w2 b2 p2 l2 v2]. split; try lia; auto.
  - eapply same_source_trans; eassumption.
  - eapply virt_trans; [exact l1|exact l2|assumption|assumption].
Qed.
Lemma adv_failed a b c n : adv a b n -> failed b c -> n = 0 -> failed a c.
Proof.
  intros [s1 w1 b1 p1 l1 v1] [s2 w2 b2 l2] ->. split; auto; try lia.
  eapply same_source_trans; eassumption.
Qed.
Lemma adv_quiet r r' n : adv r r' n -> quiet (r_s r) -> quiet (r_s r').
Proof. intros H. eapply same_source_quiet, H. Qed.

(** [r_io] on a quiet source. *)
Lemma r_io_ok n r : quiet (r_s r) -> n <= length (s_avail (r_s r)) ->
  exists r', r_io n r = (IoOk (firstn n (s_avail (r_s r))), r') /\
    same_source (r_s r) (r_s r') /\ r_left r' = r_left r /\ r_bits r' = r_bits r /\
    s_avail (r_s r') = skipn n (s_avail (r_s r)) /\
    s_pos (r_s r') = s_pos (r_s r) + n /\ virt_moved (r_s r) (r_s r').
Proof.
  intros Hq Hn. destruct (s_read_exact_ok n (r_s r) Hq Hn) as (s' & E & H1 & H2 & H3 & H4).
  unfold r_io. rewrite E. eexists; split; [reflexivity|]. cbn. tauto.
Qed.
Lemma r_io_short n r : quiet (r_s r) -> length (s_avail (r_s r)) < n ->
  exists r', r_io n r = (IoErr UnexpectedEof, r') /\
    same_source (r_s r) (r_s r') /\ r_left r' = r_left r /\ r_bits r' = r_bits r /\
    s_pos (r_s r) <= s_pos (r_s r').
Proof.
  intros Hq Hn. destruct (s_read_exact_short n (r_s r) Hq Hn) as (s' & E & H1 & H2 & H3).
  unfold r_io. rewrite E. eexists; split; [reflexivity|]. cbn. tauto.
Qed.

Lemma hd_firstn_1 {A} (d : A) l : hd d (firstn 1 l) = hd d l.
Proof. destruct l; reflexivity. Qed.

Lemma fill_slots_ok d k r : quiet (r_s r) -> k <= length (s_avail (r_s r)) ->
  exists r', fill_slots d k r = (Ok (firstn k (s_avail (r_s r))), r') /\
    same_source (r_s r) (r_s r') /\ r_left r' = r_left r /\ r_bits r' = r_bits r /\
    s_avail (r_s r') = skipn k (s_avail (r_s r)) /\
    s_pos (r_s r') = s_pos (r_s r) + k /\ virt_moved (r_s r) (r_s r').
Proof.
  revert r; induction k as [|k IH]; intros r Hq Hk.
  - exists r. cbn. repeat split; auto; try lia. apply virt_refl.
  - cbn [fill_slots].
    destruct (r_io_ok 1 r Hq ltac:(lia)) as (r1 & -> & S1 & L1 & B1 & A1 & P1 & V1).
    destruct (IH r1) as (r2 & E & S2 & L2 & B2 & A2 & P2 & V2).
    { eapply same_source_quiet; eassumption. }
    { rewrite A1, skipn_length. lia. }
    unfold bind. rewrite E. exists r2; split; [|repeat split].
    + rewrite A1. destruct (s_avail (r_s r)); [cbn in Hk; lia|reflexivity].
    + apply (same_source_trans _ _ _ S1 S2).
    + apply (same_source_trans _ _ _ S1 S2).
    + apply (same_source_trans _ _ _ S1 S2).
    + congruence.
    + congruence.
    + rewrite A2, A1, skipn_skipn. reflexivity.
    + lia.
    + refine (virt_trans _ _ _ _ _ V1 V2); lia.
Qed.
Lemma fill_slots_short d k r : quiet (r_s r) -> length (s_avail (r_s r)) < k ->
  exists r', fill_slots d k r = (Err (Incomplete d), r') /\
    same_source (r_s r) (r_s r') /\ r_left r' = r_left r /\ r_bits r' = r_bits r /\
    s_pos (r_s r) <= s_pos (r_s r').
Proof.
  revert r; induction k as [|k IH]; intros r Hq Hk; [lia|].
  cbn [fill_slots]. destruct (le_lt_dec 1 (length (s_avail (r_s r)))) as [H1|H1].
  - destruct (r_io_ok 1 r Hq H1) as (r1 & -> & S1 & L1 & B1 & A1 & P1 & V1).
    destruct (IH r1) as (r2 & E & S2 & L2 & B2 & P2).
    { eapply same_source_quiet; eassumption. }
    { rewrite A1, skipn_length. lia. }
    unfold bind. rewrite E. eexists; split; [reflexivity|]. repeat split; try congruence; try lia.
    all: apply (same_source_trans _ _ _ S1 S2).
  - destruct (r_io_short 1 r Hq ltac:(lia)) as (r1 & -> & S1 & L1 & B1 & P1).
    cbn. eexists; split; [reflexivity|]. tauto.
Qed.
Lemma read_rem_byte_ok d r : quiet (r_s r) -> 1 <= length (s_avail (r_s r)) ->
  exists r', read_rem_byte d r = (Ok (hd x00 (s_avail (r_s r))), r') /\
    same_source (r_s r) (r_s r') /\ r_left r' = r_left r /\ r_bits r' = r_bits r /\
    s_avail (r_s r') = tl (s_avail (r_s r)) /\
    s_pos (r_s r') = s_pos (r_s r) + 1 /\ virt_moved (r_s r) (r_s r').
Proof.
  intros Hq H1. unfold read_rem_byte.
  destruct (r_io_ok 1 r Hq H1) as (r1 & -> & S1 & L1 & B1 & A1 & P1 & V1).
  rewrite hd_firstn_1. eexists; split; [reflexivity|]. rewrite A1. tauto.
Qed.
Lemma read_rem_byte_short d r : quiet (r_s r) -> length (s_avail (r_s r)) = 0 ->
  exists r', read_rem_byte d r = (Err (Incomplete d), r') /\
    same_source (r_s r) (r_s r') /\ r_left r' = r_left r /\ r_bits r' = r_bits r /\
    s_pos (r_s r) <= s_pos (r_s r').
Proof.
  intros Hq H1. unfold read_rem_byte.
  destruct (r_io_short 1 r Hq ltac:(lia)) as (r1 & -> & S1 & L1 & B1 & P1).
  eexists; split; [reflexivity|]. tauto.
Qed.

Lemma concat_rev_byte_bits bs : concat (rev (map byte_bits bs)) = rev (bitstring Lsb0 bs).
Proof.
  unfold bitstring. rewrite flat_map_concat_map, rev_concat, <- !map_rev, map_map.
  f_equal. apply map_ext. intros b. cbn. symmetry. apply rev_involutive.
Qed.
Lemma concat_byte_bits bs : concat (map byte_bits bs) = bitstring Msb0 bs.
Proof. unfold bitstring. now rewrite flat_map_concat_map. Qed.

(** The bytes behind the buffered bits, in closed form. *)
Lemma take_bits_greater o n prev av :
  length prev < n ->
  take_bits o n (prev, av) =
  let need := n - length prev in
  let k := need / 8 in let rem := need mod 8 in
  if rem =? 0 then
    if k <=? length av then Some (orient o prev ++ bitstring o (firstn k av), ([], skipn k av)) else None
  else
    if k <? length av then
      let b := nth k av x00 in
      Some (orient o prev ++ bitstring o (firstn k av) ++ firstn rem (orient o (byte_bits b)),
            (orient o (skipn rem (orient o (byte_bits b))), skipn (S k) av))
    else None.
Proof.
  intros H. cbn zeta. set (need := n - length prev). set (k := need / 8). set (rem := need mod 8).
  replace n with (length prev + (8 * k + rem)) at 1 by (subst k rem need; lia).
  rewrite take_bits_add, take_bits_part by lia.
  rewrite firstn_all2 by (rewrite orient_length; lia).
  rewrite skipn_all2 by (rewrite orient_length; lia). rewrite orient_nil.
  destruct (Nat.leb_spec k (length av)) as [Hk|Hk].
  - rewrite take_bits_add, take_bits_bytes by exact Hk.
    destruct (Nat.eqb_spec rem 0) as [->|Hr].
    + cbn. now rewrite app_nil_r.
    + destruct (Nat.ltb_spec k (length av)) as [Hk2|Hk2].
      * rewrite (skipn_hd x00) by exact Hk2. rewrite take_bits_byte by lia.
        rewrite take_bits_part by (rewrite byte_bits_length; subst rem; lia). reflexivity.
      * rewrite skipn_all2 by lia. destruct rem; [lia|]. reflexivity.
  - assert (E : take_bits o (8 * k + rem) ([], av) = None).
    { apply take_bits_none. unfold unread_len; cbn [fst snd length]. lia. }
    rewrite E. destruct (Nat.eqb_spec rem 0); [reflexivity|].
    destruct (Nat.ltb_spec k (length av)); [lia|reflexivity].
Qed.

Definition dst_result (o : order) (l : list bool) : list bool := orient o l.

Lemma take_bits_unread o n r : 0 < n ->
  take_bits o n (unread r) = take_bits o n (left_bits (r_left r), s_avail (r_s r)).
Proof.
  intros H. unfold unread. destruct (r_left r) as [[b|l]|]; cbn [left_bits]; try reflexivity.
  now apply take_bits_byte.
Qed.

Lemma tl_skipn_S {A} k (l : list A) : tl (skipn k l) = skipn (S k) l.
Proof. revert l; induction k as [|k IH]; intros l; [reflexivity|]. destruct l; [reflexivity|]. cbn [skipn]. apply IH. Qed.
Lemma hd_skipn {A} (d : A) k l : hd d (skipn k l) = nth k l d.
Proof. revert l; induction k as [|k IH]; intros l; destruct l; try reflexivity. cbn [skipn nth]. apply IH. Qed.

Lemma read_greater_spec o n r prev : r_left r = None -> quiet (r_s r) -> length prev < n -> length prev <= 8 ->
  match take_bits o n (prev, s_avail (r_s r)) with
  | Some (l, u') => exists r',
      (match o with Lsb0 => read_greater_lsb n prev | Msb0 => read_greater_msb n prev end) r
        = (Ok (orient o l), r') /\
      same_source (r_s r) (r_s r') /\ r_wf r' /\ r_bits r' = r_bits r /\
      8 * s_pos (r_s r') + length prev = 8 * s_pos (r_s r) + n + length (left_bits (r_left r')) /\
      s_pos (r_s r) <= s_pos (r_s r') /\ virt_moved (r_s r) (r_s r') /\ unread r' = u'
  | None => exists r',
      (match o with Lsb0 => read_greater_lsb n prev | Msb0 => read_greater_msb n prev end) r
        = (Err (Incomplete n), r') /\ failed r r'
  end.
Proof.
  intros HL Hq Hlt H8. rewrite take_bits_greater by exact Hlt. cbn zeta.
  set (need := n - length prev). set (k := need / 8). set (rem := need mod 8).
  set (av := s_avail (r_s r)).
  assert (Hn : n = length prev + (8 * k + rem)) by (subst k rem need; lia).
  destruct (le_lt_dec k (length av)) as [Hk|Hk].
  2:{ (* whole bytes missing *)
    destruct (fill_slots_short n k r Hq Hk) as (r1 & E1 & S1 & L1 & B1 & P1).
    assert (Hf : failed r r1).
    { split; auto. unfold r_wf. rewrite L1, HL. exact I. }
    assert (He : exists r',
      (match o with Lsb0 => read_greater_lsb n prev | Msb0 => read_greater_msb n prev end) r
        = (Err (Incomplete n), r') /\ failed r r').
    { exists r1. split; [|exact Hf].
      destruct o; unfold read_greater_lsb, read_greater_msb, bind;
        fold need; fold k; rewrite E1; reflexivity. }
    destruct (rem =? 0); [destruct (Nat.leb_spec k (length av))|destruct (Nat.ltb_spec k (length av))];
        try lia; exact He. }
  destruct (fill_slots_ok n k r Hq Hk) as (r1 & E1 & S1 & L1 & B1 & A1 & P1 & V1). fold av in E1, A1.
  destruct (Nat.eqb_spec rem 0) as [Hr|Hr].
  - destruct (Nat.leb_spec k (length av)) as [_|?]; [|lia].
    exists r1. split.
    + destruct o; unfold read_greater_lsb, read_greater_msb, bind; fold need; fold k; rewrite E1; fold rem;
        rewrite Hr; cbn [Nat.eqb]; unfold ret; f_equal; f_equal; cbn [orient].
      * now rewrite concat_byte_bits.
      * now rewrite concat_rev_byte_bits, rev_app_distr, rev_involutive.
    + unfold r_wf, unread. rewrite L1, HL. cbn [left_bits length]. rewrite A1.
      split; [exact S1|]. repeat (split; auto; try lia).
  - destruct (Nat.ltb_spec k (length av)) as [Hk2|Hk2].
    + destruct (read_rem_byte_ok n r1) as (r2 & E2 & S2 & L2 & B2 & A2 & P2 & V2).
      { eapply same_source_quiet; eassumption. }
      { rewrite A1, skipn_length. lia. }
      rewrite A1, hd_skipn in E2. rewrite A1, tl_skipn_S in A2.
      set (b := nth k av x00) in *.
      assert (Hrem : 0 < rem < 8) by (subst rem; lia).
      eexists (r_set_left r2 (Some (LBits (orient o (skipn rem (orient o (byte_bits b))))))).
      split.
      * destruct o; unfold read_greater_lsb, read_greater_msb, bind; fold need; fold k; rewrite E1; fold rem;
          rewrite (proj2 (Nat.eqb_neq rem 0) Hr), E2; unfold modify, ret; cbn [orient]; f_equal.
        -- now rewrite concat_byte_bits.
        -- f_equal. rewrite !rev_app_distr, rev_involutive, <- app_assoc, concat_rev_byte_bits.
           f_equal. rewrite rev_firstn, rev_involutive by (rewrite rev_length, byte_bits_length; lia).
           now rewrite rev_length, byte_bits_length.
        -- do 3 f_equal. rewrite rev_skipn, rev_involutive by (rewrite rev_length, byte_bits_length; lia).
           now rewrite rev_length, byte_bits_length.
      * assert (HLen : length (orient o (skipn rem (orient o (byte_bits b)))) = 8 - rem).
        { rewrite orient_length, skipn_length, orient_length, byte_bits_length. reflexivity. }
        unfold r_wf, unread; cbn [r_set_left r_left r_s r_bits left_bits].
        rewrite HLen, A2. split; [apply (same_source_trans _ _ _ S1 S2)|].
        split; [lia|]. split; [congruence|]. split; [lia|]. split; [lia|].
        split; [refine (virt_trans _ _ _ _ _ V1 V2); lia|]. reflexivity.
    + destruct (read_rem_byte_short n r1) as (r2 & E2 & S2 & L2 & B2 & P2).
      { eapply same_source_quiet; eassumption. }
      { rewrite A1, skipn_length. lia. }
      exists r2. split.
      * destruct o; unfold read_greater_lsb, read_greater_msb, bind; fold need; fold k; rewrite E1; fold rem;
          rewrite (proj2 (Nat.eqb_neq rem 0) Hr), E2; reflexivity.
      * split; try congruence; try lia; [apply (same_source_trans _ _ _ S1 S2)|].
        unfold r_wf. rewrite L2, L1, HL. exact I.
Qed.

Lemma left_bits_le8 r : r_wf r -> length (left_bits (r_left r)) <= 8.
Proof.
  unfold r_wf. destruct (r_left r) as [[b|l]|]; cbn [left_bits length]; try lia.
  rewrite byte_bits_length. lia.
Qed.

(** [read_bits_into] is [take_bits]; short input is [Incomplete]. *)
Theorem read_bits_into_spec n o r : r_wf r -> quiet (r_s r) ->
  match take_bits o n (unread r) with
  | Some (l, u') => exists r', read_bits_into n o r = (Ok (orient o l), r') /\ adv r r' n /\ unread r' = u'
  | None => exists r', read_bits_into n o r = (Err (Incomplete n), r') /\ failed r r'
  end.
Proof.
  intros Hwf Hq. unfold read_bits_into.
  destruct (Nat.eqb_spec n 0) as [->|Hn].
  { cbn [take_bits]. exists r. rewrite orient_nil. split; [reflexivity|]. split; [now apply adv_refl|reflexivity]. }
  rewrite take_bits_unread by lia. pose proof (left_bits_le8 r Hwf) as H8.
  set (prev := left_bits (r_left r)) in *. set (r1 := r_set_left r None).
  destruct (Nat.compare_spec n (length prev)) as [Heq|Hlt|Hgt].
  - (* Equal *)
    rewrite take_bits_part by lia. rewrite firstn_all2, skipn_all2 by (rewrite orient_length; lia).
    rewrite orient_invol, orient_nil. unfold bind, assert_.
    destruct (Nat.leb_spec (length prev) 8); [|lia]. cbn [ret modify].
    eexists; split; [reflexivity|]. split.
    + split; cbn [r_s r_bits r_left r_set_left r_add_bits r1 left_bits length]; fold prev; try lia;
        [apply same_source_refl|exact I|apply virt_refl].
    + reflexivity.
  - (* Less *)
    rewrite take_bits_part by lia. unfold bind, assert_.
    destruct (Nat.leb_spec (length prev) 8); [|lia].
    exists (r_add_bits (r_set_left r (Some (LBits (orient o (skipn n (orient o prev)))))) n).
    split; [|split].
    + destruct o; cbn [ret modify orient]; [reflexivity|].
      rewrite rev_firstn, rev_skipn by (rewrite rev_length; lia).
      rewrite rev_length, rev_involutive. reflexivity.
    + split; cbn [r_s r_bits r_left r_set_left r_add_bits left_bits]; fold prev; try lia;
        [apply same_source_refl| | |apply virt_refl].
      * unfold r_wf; cbn [r_left r_add_bits r_set_left]. rewrite orient_length, skipn_length, orient_length. lia.
      * rewrite orient_length, skipn_length, orient_length. lia.
    + reflexivity.
  - (* Greater *)
    pose proof (read_greater_spec o n r1 prev eq_refl Hq Hgt H8) as Hg. cbn [r1 r_set_left r_s] in Hg.
    destruct (take_bits o n (prev, s_avail (r_s r))) as [[l u']|].
    + destruct Hg as (r' & E & S & W & B & P & L & V & U).
      exists (r_add_bits r' n). unfold bind.
      split; [destruct o; rewrite E; reflexivity|]. split; [|exact U].
      cbn [r_bits r1 r_set_left] in B. split; cbn [r_add_bits r_s r_left r_bits]; auto; lia.
    + destruct Hg as (r' & E & F). exists r'. unfold bind.
      split; [destruct o; rewrite E; reflexivity|]. destruct F as [F1 F2 F3 F4]. split; auto.
Qed.
