(** Proofs about HashMap and HashSet fields. *)
From Coq Require Import Lia ZifyBool ZifyNat ZifyN Permutation.
From Verif Require Import Base Spec Stream Reader Writer BitsFacts NFacts Prims CodecSpec CodecFacts Containers ContainerSpec ContainerProps Derive DeriveSpec DeriveFacts DeriveSound DeriveProps AttrSpec AttrFacts HashSpec.

Ltac Zify.zify_post_hook ::= Z.div_mod_to_equations.

(** ** Keys *)

Lemma set_or_map k : In k [KSet; KMap] -> hashed k = true.
Proof. intros [<-|[<-|[]]]; reflexivity. Qed.

Lemma distinct_nodup k l : hashed k = true -> distinct k l = true <-> NoDup (map (entry_key k) l).
Proof.
  intros Hk. induction l as [|x l IH]; cbn [distinct map]; [split; [constructor|reflexivity]|]. rewrite Hk. cbn [andb]. split.
  - intros H. apply andb_true_iff in H. destruct H as [H1 H2]. constructor; [|now apply IH]. intros H. apply in_map_iff in H. destruct H as (y & E & Hy).
    apply negb_true_iff in H1. apply not_true_iff_false in H1. apply H1. apply existsb_exists. exists y. split; [exact Hy|]. rewrite E. apply value_eqb_refl.
  - intros H. inversion H as [|? ? N1 N2]; subst. apply andb_true_iff. split; [|now apply IH]. apply negb_true_iff, not_true_is_false. intros E.
    apply existsb_exists in E. destruct E as (y & Hy & E). apply value_eqb_ok in E. apply N1. rewrite E. now apply in_map.
Qed.

(** ** What is kept *)

Lemma insert_spec k m x y : NoDup (map (entry_key k) m) -> In y (insert k m x) <-> y = x \/ In y m /\ entry_key k y <> entry_key k x.
Proof.
  induction m as [|z m IH]; intros H; cbn [insert]; rewrite ?key_of_entry.
  - split; [intros [<-|[]]; now left|intros [->|[[] _]]; now left].
  - cbn [map] in H. inversion H as [|? ? N1 N2]; subst. destruct (value_eqb (entry_key k z) (entry_key k x)) eqn:E.
    + apply value_eqb_ok in E. split.
      * intros [<-|Hy]; [now left|]. right. split; [now right|]. intros F. apply N1. rewrite E, <- F. now apply in_map.
      * intros [->|[[<-|Hy] F]]; [now left|congruence|now right].
    + split.
      * intros [<-|Hy]; [right; split; [now left|intros F; rewrite F, value_eqb_refl in E; discriminate]|].
        apply (IH N2) in Hy. destruct Hy as [->|[Hy F]]; [now left|right; split; [now right|exact F]].
      * intros [->|[[<-|Hy] F]]; [right; apply (IH N2); now left|now left|right; apply (IH N2); right; now split].
Qed.
Theorem collect_holds k l : hashed k = true -> holds_last k l (collect k l).
Proof.
  intros Hk. split; [apply distinct_nodup; [exact Hk|apply collect_is_distinct]|]. unfold collect. rewrite Hk. intros x.
  assert (G : forall m, distinct k m = true -> In x (fold_left (insert k) l m) <->
    (In x m /\ ~ In (entry_key k x) (map (entry_key k) l)) \/ exists before after, l = before ++ x :: after /\ ~ In (entry_key k x) (map (entry_key k) after)).
  { induction l as [|y l IH]; intros m Hm; cbn [fold_left].
    - split; [intros H; left; split; [exact H|intros []]|intros [[H _]|(b & a & E & _)]; [exact H|destruct b; discriminate]].
    - rewrite IH by now apply insert_distinct. rewrite insert_spec by now apply distinct_nodup. cbn [map In]. split.
      + intros [[[->|[Hx Hne]] Hn]|(b & a & -> & Hn)].
        * right. exists [], l. now split.
        * left. split; [exact Hx|]. intros [F|F]; [now apply Hne|now apply Hn].
        * right. exists (y :: b), a. now split.
      + intros [[Hx Hn]|(b & a & E & Hn)].
        * left. split; [right; split; [exact Hx|intros F; apply Hn; now left]|intros F; apply Hn; now right].
        * destruct b as [|z b]; cbn [app] in E; injection E as -> ->.
          -- left. split; [now left|exact Hn].
          -- right. exists b, a. now split. }
  rewrite (G [] eq_refl). cbn [In]. tauto.
Qed.
(** What is kept is determined up to the order. *)
Lemma nodup_keys {A B} (f : A -> B) l : NoDup (map f l) -> NoDup l.
Proof. apply NoDup_map_inv. Qed.
Theorem holds_last_unique k items a b : holds_last k items a -> holds_last k items b -> Permutation a b.
Proof.
  intros [N1 H1] [N2 H2]. apply NoDup_Permutation; [now apply (nodup_keys (entry_key k))|now apply (nodup_keys (entry_key k))|]. intros x. now rewrite H1, H2.
Qed.
(** The model of a HashMap in Containers.v keeps the same entries. *)
Lemma map_of_holds (l : list (value * value)) :
  holds_last KMap (map (fun p => VPair (fst p) (snd p)) l) (map (fun p => VPair (fst p) (snd p)) (map_of value_eqb l)).
Proof.
  assert (He : forall x y, value_eqb x y = true <-> x = y) by (intros x y; split; [apply value_eqb_ok|intros ->; apply value_eqb_refl]).
  assert (HK : forall m : list (value * value), map (entry_key KMap) (map (fun p => VPair (fst p) (snd p)) m) = map fst m) by (intros m; rewrite map_map; reflexivity).
  split; [rewrite HK; now apply map_of_nodup|]. intros x. split.
  - intros H. apply in_map_iff in H. destruct H as ([a b] & <- & H). cbn [fst snd entry_key].
    rewrite <- (find_in value_eqb He a b _ (map_of_nodup value_eqb He l)), map_of_last in H by exact He. revert H. clear HK.
    unfold find_last. induction l as [|[c d] l IH] using rev_ind; [discriminate|]. rewrite rev_app_distr. cbn [rev app find].
    destruct (value_eqb a c) eqn:E.
    + intros H. injection H as ->. apply value_eqb_ok in E. subst c. exists (map (fun p => VPair (fst p) (snd p)) l), []. rewrite map_app. split; [reflexivity|intros []].
    + intros H. destruct (IH H) as (b1 & a1 & E1 & N1). exists b1, (a1 ++ [VPair c d]). rewrite map_app, E1, <- app_assoc. split; [reflexivity|].
      rewrite map_app, in_app_iff. intros [F|[F|[]]]; [now apply N1|]. cbn [entry_key] in F. subst c. rewrite value_eqb_refl in E. discriminate.
  - intros (b & a & E & N). assert (HP : exists c d, x = VPair c d).
    { assert (Hx : In x (map (fun p : value * value => VPair (fst p) (snd p)) l)) by (rewrite E; apply in_elt). apply in_map_iff in Hx. destruct Hx as ([c d] & <- & _). now exists c, d. }
    destruct HP as (c & d & ->). apply in_map_iff. exists (c, d). split; [reflexivity|].
    rewrite <- (find_in value_eqb He c d _ (map_of_nodup value_eqb He l)), map_of_last by exact He. unfold find_last.
    revert b a E N. induction l as [|[c' d'] l IH] using rev_ind; intros b a E N; [destruct b; discriminate|]. rewrite rev_app_distr. cbn [rev app find].
    rewrite map_app in E. cbn [map fst snd] in E. destruct a as [|y a] using rev_ind.
    + apply app_inj_tail in E. destruct E as [_ E]. injection E as <- <-. now rewrite value_eqb_refl.
    + clear IHa. change (b ++ VPair c d :: a ++ [y]) with (b ++ (VPair c d :: a) ++ [y]) in E. rewrite app_assoc in E. apply app_inj_tail in E. destruct E as [E <-].
      rewrite map_app, in_app_iff in N. cbn [map entry_key In] in N. destruct (value_eqb c c') eqn:F; [apply value_eqb_ok in F; subst; tauto|].
      apply (IH b a E). tauto.
Qed.

(** ** Reading *)

Theorem hash_limits cu fuel c pre l k size t tl args r vals r' : In k [KSet; KMap] -> c_endian c = None -> c_order c = None -> all_fields (fun a => a_temp a = false) pre ->
  forward (read_ty cu fuel t None []) ->
  read_ty cu fuel (TStruct c (fapp pre (FCons (limit_only l) (TVec k size t) (TVec k size t) tl))) None args r = (Ok (VRec vals), r') ->
  exists before items kept after r1 r2, vals = before ++ VList kept :: after /\ length before = stored_count pre /\ holds_last k items kept /\
    match limit_number l (ctx_args c args) before (r_bits r1) with Some z => (0 <= z)%Z | None => True end /\
    (limit_small (N.max 1 size) l (ctx_args c args) before (r_bits r1) ->
     limit_met l (ctx_args c args) before (read_ty cu fuel t None []) r1 items r2).
Proof.
  intros Hk%set_or_map He Ho Ht Hf H.
  destruct (limit_field cu fuel c pre l k size t tl args r vals r' He Ho Ht) as (before & items & after & r1 & r2 & E & L & N & M); try assumption.
  - destruct k; [discriminate|discriminate|reflexivity|reflexivity].
  - unfold slot_size. rewrite Hk. lia.
  - exists before, items, (collect k items), after, r1, r2. split; [exact E|]. split; [exact L|]. split; [now apply collect_holds|]. split; [exact N|].
    unfold slot_size in M. rewrite Hk in M. exact M.
Qed.

(** ** Round trips in any order *)

Lemma mod_add_0 g a b : g <> 0 -> a mod g = 0 -> b mod g = 0 -> (a + b) mod g = 0.
Proof. intros Hg Ha Hb. rewrite Nat.add_mod, Ha, Hb by exact Hg. now apply Nat.mod_0_l. Qed.
Lemma encode_movable g o t args items : g <> 0 -> Forall (movable g o t args) items -> exists n, n mod g = 0 /\ forall items', Permutation items items' -> forall pos, pos mod g = 0 ->
  exists es, encode_list (fun pos x => encode SeekSource o no_format t None args pos x) pos items' = Some es /\ length (concat es) = n.
Proof.
  intros Hg H. assert (HL : exists len : value -> nat, forall x, In x items ->
    exists e0, length e0 = len x /\ length e0 mod g = 0 /\ forall pos, pos mod g = 0 -> encode SeekSource o no_format t None args pos x = Some e0).
  { exists (fun x => match encode SeekSource o no_format t None args 0 x with Some e0 => length e0 | None => 0 end).
    intros x Hx. rewrite Forall_forall in H. destruct (H x Hx) as (e0 & H1 & H2). exists e0. rewrite (H2 0 (Nat.mod_0_l g Hg)). split; [reflexivity|]. now split. }
  destruct HL as [len HL]. exists (list_sum (map len items)). split.
  { clear H. induction items as [|x l IH]; [now apply Nat.mod_0_l|]. destruct (HL x (or_introl eq_refl)) as (e0 & L0 & M0 & _).
    specialize (IH (fun y Hy => HL y (or_intror Hy))). unfold list_sum in *. cbn [map fold_right]. apply mod_add_0; [exact Hg|now rewrite <- L0|exact IH]. }
  intros items' HP.
  replace (list_sum (map len items)) with (list_sum (map len items')).
  2:{ apply Permutation_list_sum, Permutation_map. now apply Permutation_sym. }
  assert (HL' : forall x, In x items' -> exists e0, length e0 = len x /\ length e0 mod g = 0 /\ forall pos, pos mod g = 0 -> encode SeekSource o no_format t None args pos x = Some e0).
  { intros x Hx. apply HL. apply (Permutation_in x (Permutation_sym HP)). exact Hx. }
  clear HL H HP. induction items' as [|x l IH]; intros pos Hp; [exists []; split; reflexivity|].
  destruct (HL' x (or_introl eq_refl)) as (e0 & L0 & M0 & E0). destruct (IH (fun y Hy => HL' y (or_intror Hy)) (pos + length e0)) as (es & E1 & L1); [now apply mod_add_0|].
  exists (e0 :: es). cbn [encode_list]. rewrite (E0 pos Hp), E1. split; [reflexivity|]. cbn [concat map]. rewrite app_length, L1, L0. reflexivity.
Qed.

Theorem any_order cu g e ord o k p size t items : In g [1; 2; 4; 8] -> In k [KSet; KMap] -> 0 < prim_bytes p ->
  Forall (movable g o t (opt_list (option_map VEnd e) ++ opt_list (option_map VOrd ord))) items ->
  NoDup (map (entry_key k) items) ->
  (N.of_nat (length items) < 2 ^ N.of_nat (prim_width p))%N -> (N.of_nat (length items) * N.max 1 size <= isize_max)%N ->
  let T := counted k (i_container e ord) p size t in
  let v := fun items => VRec [VNum (N.of_nat (length items)); VList items] in
  exists len, forall items', Permutation items items' ->
    (forall n, update T (VRec [n; VList items']) = Ok (v items')) /\
    exists bytes, to_bytes cu T (v items') = Ok bytes /\ length bytes = len /\
      forall fuel tail, 8 * len <= fuel -> exists rest, from_bytes cu fuel T (bytes ++ tail) 0 = Ok (rest, v items').
Proof.
  intros HG Hk%set_or_map Hp HW HN Hl Hs T v. assert (Hg : g <> 0) by (cbn in HG; lia). destruct (encode_movable g o t _ items Hg HW) as (n & N8 & Hn).
  assert (P8 : prim_width p mod g = 0) by (unfold prim_width; cbn in HG; destruct HG as [<-|[<-|[<-|[<-|[]]]]]; lia).
  exists ((prim_width p + n + 7) / 8). intros items' HP.
  assert (HL : length items' = length items) by (symmetry; now apply Permutation_length).
  destruct (Hn items' HP (prim_width p) P8) as (es & E & L).
  assert (HV : is_vec_u8 (TVec k size t) = false) by (destruct k; [discriminate|discriminate|reflexivity|reflexivity]).
  assert (HZ : slot_size k size = N.max 1 size) by (unfold slot_size; now rewrite Hk).
  assert (HD : distinct k items' = true).
  { apply distinct_nodup; [exact Hk|]. eapply Permutation_NoDup; [|exact HN]. now apply Permutation_map. }
  assert (Hs' : (N.of_nat (length items') * slot_size k size <= isize_max)%N) by now rewrite HL, HZ.
  assert (Hl' : (N.of_nat (length items') < 2 ^ N.of_nat (prim_width p))%N) by now rewrite HL.
  assert (HZ' : slot_size k size <> 0%N) by (rewrite HZ; lia).
  destruct (update_round_trip_in cu e ord o k p size t items' es HV Hp HZ' HD Hl' Hs' E) as (HU & bytes & pad & B & B1 & B2 & B3).
  split; [exact HU|]. exists bytes. split; [exact B|]. rewrite L in *. split; [lia|]. intros fuel tail Hf. apply B3. lia.
Qed.

(** ** Entries that take no input *)

Lemma end_loop_idle {A} (elem : RM A) v r : r_end r = (false, r) -> elem r = (Ok v, r) -> forall fuel acc, end_loop fuel elem acc r = (Diverge, r).
Proof.
  intros He Hv. induction fuel as [|f IH]; intros acc; cbn [end_loop]; [reflexivity|]. rewrite He. unfold bind. rewrite Hv. apply IH.
Qed.
