(** Lemmas behind the reader properties C01-C10. *)
From Coq Require Import Lia ZifyBool ZifyNat ZifyN Permutation.
From Verif Require Import Base MonadFacts Spec Stream Reader BitsFacts NFacts ReaderFacts FastRead ReaderOps Session SessionFacts.
Ltac Zify.zify_post_hook ::= Z.div_mod_to_equations.

(** ** Opening the next byte early makes no difference *)

Definition canon (u : unread_t) : unread_t :=
  match fst u, snd u with
  | [], b :: bs => (byte_bits b, bs)
  | _, _ => u
  end.
Lemma byte_bits_nonnil b : byte_bits b <> [].
Proof. intros E. pose proof (byte_bits_length b) as H. now rewrite E in H. Qed.
Lemma canon_seen r : r_wf r -> canon (seen r) = canon (unread r).
Proof.
  unfold seen, unread, r_rest, r_wf, canon. destruct (r_left r) as [[b|l]|]; cbn [fst snd]; intros H; try reflexivity.
  destruct (byte_bits b) eqn:E; [now apply byte_bits_nonnil in E|reflexivity].
Qed.
Lemma unread_string_canon o u : unread_string o (canon u) = unread_string o u.
Proof.
  destruct u as [[|p l] [|b bs]]; try reflexivity. cbn [canon fst snd]. unfold unread_string. cbn [fst snd].
  rewrite bitstring_cons. destruct o; reflexivity.
Qed.
Lemma unread_len_canon u : unread_len (canon u) = unread_len u.
Proof.
  destruct u as [[|p l] [|b bs]]; try reflexivity. cbn [canon fst snd]. unfold unread_len. cbn [fst snd length].
  rewrite byte_bits_length. lia.
Qed.
Lemma unread_bits_canon u : unread_bits (canon u) = unread_bits u.
Proof. destruct u as [[|p l] [|b bs]]; reflexivity. Qed.
Lemma pop_canon o u : pop o (canon u) = pop o u.
Proof.
  destruct u as [[|p l] [|b bs]]; try reflexivity. cbn [canon fst snd]. now rewrite pop_byte.
Qed.
Lemma take_bits_canon o n u v : canon u = canon v ->
  match take_bits o n u, take_bits o n v with
  | Some (l1, u'), Some (l2, v') => l1 = l2 /\ canon u' = canon v'
  | None, None => True
  | _, _ => False
  end.
Proof.
  intros H. destruct n as [|n]; cbn [take_bits]; [auto|].
  rewrite <- (pop_canon o u), <- (pop_canon o v), H.
  destruct (pop o (canon v)) as [[b u1]|]; [|exact I].
  destruct (take_bits o n u1) as [[l u2]|]; [auto|exact I].
Qed.
Lemma spec_rop_canon op u v : canon u = canon v ->
  match spec_rop op u, spec_rop op v with
  | Some (x, u'), Some (y, v') => x = y /\ canon u' = canon v'
  | None, None => True
  | _, _ => False
  end.
Proof.
  intros H. destruct op as [n o|n o|n|]; cbn [spec_rop].
  - pose proof (take_bits_canon o n _ _ H) as T.
    destruct (take_bits o n u) as [[l1 u']|], (take_bits o n v) as [[l2 v']|]; cbn; try contradiction; [|exact I].
    destruct T as [-> T]. auto.
  - pose proof (take_bits_canon o (8 * n) _ _ H) as T.
    destruct (take_bits o (8 * n) u) as [[l1 u']|], (take_bits o (8 * n) v) as [[l2 v']|]; cbn [option_map fst snd]; try contradiction; [|exact I].
    destruct T as [-> T]. auto.
  - pose proof (take_bits_canon Msb0 n _ _ H) as T.
    destruct (take_bits Msb0 n u) as [[l1 u']|], (take_bits Msb0 n v) as [[l2 v']|]; cbn; try contradiction; [|exact I].
    destruct T as [-> T]. auto.
  - rewrite <- (unread_len_canon u), <- (unread_len_canon v), H. auto.
Qed.
Lemma spec_session_canon ops u v : canon u = canon v ->
  match spec_session ops u, spec_session ops v with
  | Some (xs, u'), Some (ys, v') => xs = ys /\ canon u' = canon v'
  | None, None => True
  | _, _ => False
  end.
Proof.
  revert u v; induction ops as [|op ops IH]; intros u v H; cbn [spec_session]; [auto|].
  pose proof (spec_rop_canon op _ _ H) as S.
  destruct (spec_rop op u) as [[x u1]|], (spec_rop op v) as [[y v1]|]; try contradiction; [|exact I].
  destruct S as [-> S]. specialize (IH _ _ S).
  destruct (spec_session ops u1) as [[xs u2]|], (spec_session ops v1) as [[ys v2]|]; cbn [option_map fst snd]; try contradiction; [|exact I].
  destruct IH as [-> IH]. auto.
Qed.

(** ** C01, C02, C03 *)

Lemma session_refines ops r : reachable r -> quiet (r_s r) -> Forall rop_ok ops ->
  match spec_session ops (seen r) with
  | Some (xs, u') => exists r', run_session ops r = (Ok xs, r') /\ r_bits r' = r_bits r + total ops /\
      (forall o, unread_string o (seen r') = unread_string o u')
  | None => exists e r', run_session ops r = (Err (Incomplete e), r')
  end.
Proof.
  intros Hr Hq Ho. apply reachable_wf in Hr. pose proof (run_session_spec ops r Hr Hq Ho) as H.
  pose proof (spec_session_canon ops _ _ (canon_seen r Hr)) as C.
  destruct (spec_session ops (seen r)) as [[xs u1]|], (spec_session ops (unread r)) as [[ys u2]|]; try contradiction.
  - destruct C as [-> C]. destruct H as (r' & E & A & U). exists r'. split; [exact E|]. split; [apply A|].
    intros o. rewrite <- (unread_string_canon o u1), C, <- U, <- canon_seen, unread_string_canon; [reflexivity|apply A].
  - destruct H as (e & r' & E & _). eauto.
Qed.

Lemma session_success_seen ops r xs r' : reachable r -> quiet (r_s r) -> run_session ops r = (Ok xs, r') ->
  exists u', spec_session ops (seen r) = Some (xs, u') /\ canon u' = canon (seen r') /\ r_bits r' = r_bits r + total ops.
Proof.
  intros Hr Hq E. apply reachable_wf in Hr. destruct (session_success _ _ _ _ Hr Hq E) as [S A].
  pose proof (spec_session_canon ops _ _ (canon_seen r Hr)) as C. rewrite S in C.
  destruct (spec_session ops (seen r)) as [[ys u1]|]; [|contradiction]. destruct C as [-> C].
  exists u1. split; [reflexivity|]. split; [|apply A]. rewrite C. symmetry. apply canon_seen, A.
Qed.
Lemma one_order_session o ops r xs r' : reachable r -> quiet (r_s r) -> Forall (rop_in_order o) ops ->
  run_session ops r = (Ok xs, r') ->
      length xs = length ops /\
      map (@length bool) (out_strings o ops xs) = map rop_size ops /\
      concat (out_strings o ops xs) = firstn (total ops) (unread_string o (seen r)) /\
      unread_string o (seen r') = skipn (total ops) (unread_string o (seen r)) /\
      total ops <= length (unread_string o (seen r)).
Proof.
  intros Hr Hq Ho E. destruct (session_success_seen _ _ _ _ Hr Hq E) as (u' & S & C & _).
  destruct (spec_session_string o _ _ _ _ Ho S) as (Ss & L & N).
  assert (HT : length (concat (out_strings o ops xs)) = total ops).
  { unfold total. rewrite <- L. clear. generalize (out_strings o ops xs) as ls. induction ls as [|l ls IH]; [reflexivity|].
    cbn [concat map]. rewrite app_length, IH. reflexivity. }
  split; [exact N|]. split; [exact L|]. rewrite <- (unread_string_canon o (seen r')), <- C, unread_string_canon, Ss, <- HT.
  rewrite firstn_length_app, skipn_length_app, app_length. repeat split; try reflexivity; lia.
Qed.

Lemma session_conserves ops r xs r' : reachable r -> quiet (r_s r) ->
  run_session ops r = (Ok xs, r') ->
  Permutation (unread_bits (seen r)) (all_delivered ops xs ++ unread_bits (seen r')).
Proof.
  intros Hr Hq E. destruct (session_success_seen _ _ _ _ Hr Hq E) as (u' & S & C & _).
  rewrite <- (unread_bits_canon (seen r')), <- C, unread_bits_canon. now apply spec_session_perm.
Qed.

(** ** C05 *)

Lemma run_all_bits ops r xs r' : r_wf r -> run_all ops r = (xs, r') -> r_bits r' = r_bits r + sum_ok ops xs.
Proof.
  revert r xs r'; induction ops as [|op ops IH]; intros r xs r' Hw E; cbn [run_all] in E.
  - apply pair_inj in E; destruct E as [<- <-]. cbn. lia.
  - destruct (run_rop op r) as [x r1] eqn:E1. destruct (run_all ops r1) as [ys r2] eqn:E2.
    apply pair_inj in E; destruct E as [<- <-]. destruct (run_rop_frame _ _ _ _ Hw E1) as (W & B & _).
    rewrite (IH _ _ _ W E2), B. cbn [sum_ok]. unfold ok_bits, counted. destruct x; lia.
Qed.

(** ** C06 *)

Lemma short_input op r : reachable r -> quiet (r_s r) -> rop_ok op ->
  (rop_size op <= unread_len (seen r) -> exists x r', run_rop op r = (Ok x, r')) /\
  (unread_len (seen r) < rop_size op -> exists e r', run_rop op r = (Err (Incomplete e), r') /\
     0 < e <= rop_size op /\ ((forall b, r_left r <> Some (LByte b)) -> e = rop_size op)).
Proof.
  intros Hr Hq Hok. apply reachable_wf in Hr. pose proof (run_rop_spec op r Hr Hq Hok) as H.
  rewrite <- (unread_len_canon (seen r)), canon_seen, unread_len_canon by exact Hr.
  pose proof (spec_rop_len op (unread r)) as L.
  destruct (spec_rop op (unread r)) as [[x u']|].
  - destruct H as (r' & E & _). split; [eauto|lia].
  - destruct H as (e & r' & E & _ & He & Hp). split; [lia|]. intros _. exists e, r'. split; [exact E|]. split; [exact He|].
    intros Hn. apply Hp. intros [b Hb]. now apply Hn in Hb.
Qed.

(** ** C07 *)

Lemma more_input ops s more xs r' : (forall k, s_fault s k = None) -> s_pos s <= length (s_data s) ->
  Forall rop_ok ops -> Forall is_read ops ->
  run_session ops (reader_new s) = (Ok xs, r') ->
  exists r2, run_session ops (reader_new (with_more s more)) = (Ok xs, r2) /\ r_bits r2 = r_bits r' /\
    (forall o, unread_string o (seen r2) = unread_string o (seen r') ++ bitstring o more).
Proof.
  intros Hq Hp Hok Hr E.
  pose proof (session_refines ops (reader_new s) (reach_new s) Hq Hok) as H1.
  pose proof (session_refines ops (reader_new (with_more s more)) (reach_new _) Hq Hok) as H2.
  assert (Hs : seen (reader_new (with_more s more)) = (fst (seen (reader_new s)), snd (seen (reader_new s)) ++ more)).
  { unfold seen. cbn [r_rest reader_new r_left r_s fst snd]. f_equal. unfold s_avail. cbn [with_more s_data s_pos].
    rewrite skipn_app. replace (s_pos s - length (s_data s)) with 0 by lia. reflexivity. }
  rewrite Hs in H2. destruct (spec_session ops (seen (reader_new s))) as [[ys u']|] eqn:Es.
  - destruct H1 as (r1 & E1 & B1 & U1). rewrite E in E1. apply pair_inj in E1; destruct E1 as [X <-]. apply ok_inj in X; subst ys.
    rewrite (spec_session_app _ _ _ _ more Hr Es) in H2. destruct H2 as (r2 & E2 & B2 & U2).
    exists r2. split; [exact E2|]. split; [rewrite B1, B2; reflexivity|].
    intros o. rewrite U2, U1. unfold unread_string. cbn [fst snd]. now rewrite bitstring_app, app_assoc.
  - destruct H1 as (e & r1 & E1). rewrite E in E1. discriminate.
Qed.

(** ** C08 *)

Lemma spec_session_ends ops u : 
  match spec_session ops u, spec_session (drop_ends ops) u with
  | Some (xs, u1), Some (ys, u2) => drop_flags xs = ys /\ u1 = u2
  | None, None => True
  | _, _ => False
  end.
Proof.
  revert u; induction ops as [|op ops IH]; intros u; [split; reflexivity|].
  assert (Hgen : is_read op -> drop_ends (op :: ops) = op :: drop_ends ops ->
     (forall x u1, spec_rop op u = Some (x, u1) -> drop_flags [x] = [x]) ->
     match spec_session (op :: ops) u, spec_session (drop_ends (op :: ops)) u with
     | Some (xs, u1), Some (ys, u2) => drop_flags xs = ys /\ u1 = u2
     | None, None => True
     | _, _ => False
     end).
  { intros _ -> Hf. cbn [spec_session]. destruct (spec_rop op u) as [[x u1]|]; [|exact I].
    specialize (Hf x u1 eq_refl). specialize (IH u1).
    destruct (spec_session ops u1) as [[xs u2]|], (spec_session (drop_ends ops) u1) as [[ys u3]|]; cbn [option_map fst snd]; try contradiction; auto.
    destruct IH as [<- <-]. split; [|reflexivity]. unfold drop_flags in *; destruct x; cbn [filter] in *; congruence || reflexivity. }
  destruct op as [n o|n o|n|].
  - apply Hgen; [exact I|reflexivity|]. cbn [spec_rop]. intros x u1.
    destruct (take_bits o n u); cbn; [|discriminate]. intros H; now injection H as <- <-.
  - apply Hgen; [exact I|reflexivity|]. cbn [spec_rop]. intros x u1.
    destruct (take_bits o (8 * n) u); cbn; [|discriminate]. intros H; now injection H as <- <-.
  - apply Hgen; [exact I|reflexivity|]. cbn [spec_rop]. intros x u1.
    destruct (take_bits Msb0 n u); cbn; [|discriminate]. intros H; now injection H as <- <-.
  - change (drop_ends (REnd :: ops)) with (drop_ends ops). cbn [spec_session spec_rop]. specialize (IH u).
    destruct (spec_session ops u) as [[xs u1]|], (spec_session (drop_ends ops) u) as [[ys u2]|]; cbn; try contradiction; auto.
Qed.
Lemma total_drop_ends ops : total (drop_ends ops) = total ops.
Proof.
  induction ops as [|op ops IH]; [reflexivity|]. unfold total in *. destruct op; cbn [drop_ends filter]; fold (drop_ends ops); cbn [map list_sum fold_right]; fold (list_sum (map rop_size ops)); fold (list_sum (map rop_size (drop_ends ops))); rewrite ?IH; reflexivity.
Qed.
Lemma drop_ends_ok ops : Forall rop_ok ops -> Forall rop_ok (drop_ends ops).
Proof.
  intros H. apply Forall_forall. intros x Hx. apply filter_In in Hx. rewrite Forall_forall in H. now apply H.
Qed.
Lemma end_transparent ops r : reachable r -> quiet (r_s r) -> Forall rop_ok ops ->
  match run_session ops r, run_session (drop_ends ops) r with
  | (Ok xs, r1), (Ok ys, r2) => drop_flags xs = ys /\ r_bits r1 = r_bits r2 /\
      (forall o, unread_string o (seen r1) = unread_string o (seen r2))
  | (Err (Incomplete _), _), (Err (Incomplete _), _) => True
  | _, _ => False
  end.
Proof.
  intros Hr Hq Hok. pose proof (session_refines ops r Hr Hq Hok) as H1.
  pose proof (session_refines (drop_ends ops) r Hr Hq (drop_ends_ok _ Hok)) as H2.
  pose proof (spec_session_ends ops (seen r)) as H.
  destruct (spec_session ops (seen r)) as [[xs u1]|], (spec_session (drop_ends ops) (seen r)) as [[ys u2]|]; try contradiction.
  - destruct H as [<- <-]. destruct H1 as (r1 & -> & B1 & U1), H2 as (r2 & -> & B2 & U2).
    split; [reflexivity|]. rewrite total_drop_ends in B2. split; [congruence|]. intros o. now rewrite U1, U2.
  - destruct H1 as (e1 & r1 & ->), H2 as (e2 & r2 & ->). exact I.
Qed.
Lemma end_flag r : reachable r -> quiet (r_s r) -> fst (r_end r) = (unread_len (seen r) =? 0).
Proof.
  intros Hr Hq. apply reachable_wf in Hr. destruct (r_end_spec r Hr Hq) as (r' & -> & _). cbn [fst].
  now rewrite <- (unread_len_canon (unread r)), <- canon_seen, unread_len_canon.
Qed.

(** ** C09 *)

Lemma session_synced ops s xs r : quiet s -> s_pos s = 0 -> s_noseek s = None -> Forall rop_ok ops ->
  run_session ops (reader_new s) = (Ok xs, r) -> r_wf r /\ synced r /\ quiet (r_s r) /\ s_noseek (r_s r) = None.
Proof.
  intros Hq Hp Hn Hok E. pose proof (run_session_spec ops (reader_new s) I Hq Hok) as H.
  destruct (spec_session ops (unread (reader_new s))) as [[ys u']|].
  - destruct H as (r1 & E1 & A & _). rewrite E in E1. apply pair_inj in E1; destruct E1 as [_ <-].
    split; [apply A|]. split; [eapply adv_synced; [exact A|]|]. { unfold synced. cbn. lia. }
    split; [eapply adv_quiet; eassumption|]. rewrite (adv_virt _ _ _ A). cbn [reader_new r_s]. now rewrite Hn.
  - destruct H as (e & r1 & E1 & _). rewrite E in E1. discriminate.
Qed.
Lemma skip_is_read ops s xs r n o l r1 : quiet s -> s_pos s = 0 -> s_noseek s = None -> Forall rop_ok ops ->
  run_session ops (reader_new s) = (Ok xs, r) ->
  (n < 8 \/ forall b, r_left r <> Some (LByte b)) ->
  read_bits n o r = (Ok l, r1) ->
  exists r2, skip_bits n o r = (Ok tt, r2) /\ r_bits r2 = r_bits r1 /\ r_wf r2 /\ r_wf r1 /\ unread r2 = unread r1
   /\ same_source (r_s r1) (r_s r2).
Proof.
  intros Hq Hp Hn Hok E Hs Er. destruct (session_synced _ _ _ _ Hq Hp Hn Hok E) as (W & Y & Q & N).
  pose proof (read_bits_into_spec n o r W Q) as H. unfold read_bits in Er.
  destruct (take_bits o n (unread r)) as [[l' u']|] eqn:T.
  - destruct H as (r1' & E1 & A & U). rewrite Er in E1. apply pair_inj in E1; destruct E1 as [_ <-].
    destruct (skip_bits_spec n o r l' u' W Q N Y) as (r2 & E2 & A2 & U2); [|exact T|].
    { intros [b Hb]. destruct Hs as [|Hs]; [assumption|now apply Hs in Hb]. }
    exists r2. split; [exact E2|]. split; [rewrite (adv_bits _ _ _ A), (adv_bits _ _ _ A2); reflexivity|].
    split; [apply A2|]. split; [apply A|]. split; [congruence|].
    destruct (adv_src _ _ _ A) as (a1 & a2 & a3), (adv_src _ _ _ A2) as (b1 & b2 & b3). repeat split; congruence.
  - destruct H as (r1' & E1 & _). rewrite Er in E1. discriminate.
Qed.
(** The two continuations agree on every later session. *)
Lemma skip_then ops s xs r n o l r1 later : quiet s -> s_pos s = 0 -> s_noseek s = None -> Forall rop_ok ops ->
  run_session ops (reader_new s) = (Ok xs, r) ->
  (n < 8 \/ forall b, r_left r <> Some (LByte b)) ->
  read_bits n o r = (Ok l, r1) -> Forall rop_ok later ->
  exists r2, skip_bits n o r = (Ok tt, r2) /\ r_bits r2 = r_bits r1 /\
    (forall o', unread_string o' (seen r2) = unread_string o' (seen r1)) /\
    match run_session later r1, run_session later r2 with
    | (Ok ys, _), (Ok zs, _) => ys = zs
    | (Err (Incomplete _), _), (Err (Incomplete _), _) => True
    | _, _ => False
    end.
Proof.
  intros Hq Hp Hn Hok E Hs Er Hl.
  destruct (skip_is_read _ _ _ _ _ _ _ _ Hq Hp Hn Hok E Hs Er) as (r2 & E2 & B & W2 & W1 & U & S).
  exists r2. split; [exact E2|]. split; [exact B|].
  assert (Q : quiet (r_s r)) by (now destruct (session_synced _ _ _ _ Hq Hp Hn Hok E) as (_ & _ & ? & _)).
  assert (Q1 : quiet (r_s r1)).
  { destruct (session_synced _ _ _ _ Hq Hp Hn Hok E) as (W & _).
    destruct (read_bits_into_frame _ _ _ _ _ W Er) as (_ & _ & S1 & _). eapply same_source_quiet; eassumption. }
  assert (Q2 : quiet (r_s r2)) by (eapply same_source_quiet; eassumption).
  split. { intros o'. rewrite <- (unread_string_canon o' (seen r2)), <- (unread_string_canon o' (seen r1)), !canon_seen by assumption. now rewrite U. }
  pose proof (run_session_spec later r1 W1 Q1 Hl) as H1. pose proof (run_session_spec later r2 W2 Q2 Hl) as H2.
  rewrite U in H2. destruct (spec_session later (unread r1)) as [[ys u']|].
  - destruct H1 as (? & -> & _), H2 as (? & -> & _). reflexivity.
  - destruct H1 as (? & ? & -> & _), H2 as (? & ? & -> & _). exact I.
Qed.

(** Skips that stay within the buffered bits and one more byte need no seek. *)
Lemma skip_short n o r : reachable r -> quiet (r_s r) ->
  n < 8 + (match r_left r with Some (LBits l) => length l | _ => 0 end) ->
  match read_bits n o r, skip_bits n o r with
  | (Ok _, r1), (Ok _, r2) => r_bits r2 = r_bits r1 /\ unread r2 = unread r1 /\ r_wf r1 /\ r_wf r2
  | (Err (Incomplete _), _), (Err (Incomplete _), _) => True
  | _, _ => False
  end.
Proof.
  intros Hr Hq Hn. apply reachable_wf in Hr. unfold skip_bits, read_bits.
  set (n0 := match r_left r with Some (LBits bits) => Nat.min n (length bits) | _ => 0 end).
  assert (Hn0 : n0 <= n) by (subst n0; destruct (r_left r) as [[]|]; lia).
  assert (Hsmall : n - n0 < 8) by (subst n0; destruct (r_left r) as [[]|]; lia).
  assert (Hfirst : (match r_left r with
      | Some (LBits bits) =>
          let needed := Nat.min n (length bits) in
          let* _ := read_bits_into needed o in
          ret (n - needed)
      | _ => ret n
      end) r = (let* _ := read_bits_into n0 o in ret (n - n0)) r).
  { subst n0. destruct (r_left r) as [[b|l]|]; [|reflexivity|]; cbn; now rewrite Nat.sub_0_r. }
  cbn zeta in *. rewrite (bind_cong _ _ _ _ Hfirst), bind_assoc. clear Hfirst.
  pose proof (read_bits_into_spec n o r Hr Hq) as HR. pose proof (read_bits_into_spec n0 o r Hr Hq) as H0.
  replace n with (n0 + (n - n0)) in HR by lia. rewrite take_bits_add in HR.
  replace (n0 + (n - n0)) with n in HR by lia.
  destruct (take_bits o n0 (unread r)) as [[l1 u1]|].
  - destruct H0 as (r1 & E1 & A1 & U1). rewrite (bind_ok _ _ _ _ _ E1), bind_ret_l.
    destruct (Nat.eqb_spec ((n - n0) / 8) 0) as [_|Hz]; [|lia]. rewrite bind_ret_l.
    replace ((n - n0) mod 8) with (n - n0) by lia.
    pose proof (read_bits_into_spec (n - n0) o r1 (adv_wf _ _ _ A1) (adv_quiet _ _ _ A1 Hq)) as H1.
    rewrite U1 in H1. destruct (take_bits o (n - n0) u1) as [[l2 u2]|].
    + destruct H1 as (r2 & E2 & A2 & U2). destruct HR as (r3 & E3 & A3 & U3). unfold bind. rewrite E2, E3. cbn [ret].
      split; [rewrite (adv_bits _ _ _ A2), (adv_bits _ _ _ A1), (adv_bits _ _ _ A3); lia|]. split; [congruence|].
      split; [apply A3|apply A2].
    + destruct H1 as (r2 & E2 & _). destruct HR as (r3 & E3 & _). unfold bind. rewrite E2, E3. exact I.
  - destruct H0 as (r1 & E1 & _). destruct HR as (r3 & E3 & _). rewrite (bind_err _ _ _ _ _ E1), E3. exact I.
Qed.
Lemma skip_short_seen n o r : reachable r -> quiet (r_s r) ->
  n < 8 + (match r_left r with Some (LBits l) => length l | _ => 0 end) ->
  match read_bits n o r, skip_bits n o r with
  | (Ok _, r1), (Ok _, r2) => r_bits r2 = r_bits r1 /\ (forall o', unread_string o' (seen r2) = unread_string o' (seen r1))
  | (Err (Incomplete _), _), (Err (Incomplete _), _) => True
  | _, _ => False
  end.
Proof.
  intros Hr Hq Hn. pose proof (skip_short n o r Hr Hq Hn) as H.
  destruct (read_bits n o r) as [[?|[]| |] r1], (skip_bits n o r) as [[?|[]| |] r2]; auto.
  destruct H as (B & U & W1 & W2). split; [exact B|]. intros o'.
  rewrite <- (unread_string_canon o' (seen r2)), <- (unread_string_canon o' (seen r1)), !canon_seen by assumption. now rewrite U.
Qed.
