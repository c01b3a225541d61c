(** Proofs about the memory of arrays. *)
From Coq Require Import Lia.
From Verif Require Import Base Stream Reader Containers Slots SlotSpec.

Definition filled {A} (l : list A) (k : nat) : list (slot A) := map Init l ++ repeat Uninit k.
Lemma filled_items {A} (l : list A) k : init_items (filled l k) = l.
Proof.
  unfold init_items, filled. induction l as [|a l IH]; cbn [map app flat_map]; [|now rewrite IH]. induction k; [reflexivity|exact IHk].
Qed.
Lemma filled_assume {A} (l : list A) : assume_init (filled l 0) = Some l.
Proof. unfold filled. cbn [repeat]. rewrite app_nil_r. induction l as [|a l IH]; [reflexivity|]. cbn [map assume_init]. now rewrite IH. Qed.
Lemma filled_write {A} (l : list A) k a : write_slot (length l) a (filled l (S k)) = filled (l ++ [a]) k.
Proof.
  unfold write_slot, filled. rewrite <- (map_length Init l), firstn_app, firstn_all, Nat.sub_diag, firstn_O, app_nil_r.
  rewrite skipn_app, skipn_all2 by lia. replace (S (length (map Init l)) - length (map Init l)) with 1 by lia. cbn [repeat skipn app].
  now rewrite map_app, <- app_assoc.
Qed.
Lemma filled_drop {A} (l : list A) k : drop_init (length l) (filled l k) = Some (l, repeat Dropped (length l) ++ repeat Uninit k).
Proof. unfold filled. induction l as [|a l IH]; [reflexivity|]. cbn [length map app drop_init repeat]. now rewrite IH. Qed.
Lemma filled_length {A} (l : list A) k : length (filled l k) = length l + k.
Proof. unfold filled. now rewrite app_length, map_length, repeat_length. Qed.
Lemma dropped_items {A} n k : init_items (repeat (@Dropped A) n ++ repeat Uninit k) = [].
Proof. unfold init_items. induction n; cbn [repeat app flat_map]; [|exact IHn]. induction k; [reflexivity|exact IHk]. Qed.

Lemma produced_snoc {A} (elem : RM A) r l r1 a r2 : produced elem r l r1 -> elem r1 = (Ok a, r2) -> produced elem r (l ++ [a]) r2.
Proof. induction 1; intros E; cbn [app]; [econstructor; [exact E|constructor]|econstructor; eauto]. Qed.

Lemma slots_loop_spec {A} (elem : RM A) r0 k : forall l r, produced elem r0 l r ->
  exists res r' l', produced elem r0 (l ++ l') r' /\ length l' <= k /\
  match res with
  | Ok x => x = l ++ l' /\ length l' = k /\ slots_loop k (length l) elem (filled l k) r = (Done (Ok x) [] [], r')
  | Err e => exists r2, elem r' = (Err e, r2) /\ length l' < k /\ slots_loop k (length l) elem (filled l k) r = (Done (Err e) (l ++ l') [], r2)
  | Panic => exists r2, elem r' = (Panic, r2) /\ length l' < k /\ slots_loop k (length l) elem (filled l k) r = (Done Panic [] (l ++ l'), r2)
  | Diverge => exists r2, elem r' = (Diverge, r2) /\ length l' < k /\ slots_loop k (length l) elem (filled l k) r = (Done Diverge [] (l ++ l'), r2)
  end.
Proof.
  induction k as [|k IH]; intros l r H.
  - exists (Ok l), r, []. rewrite app_nil_r. split; [exact H|]. split; [cbn [length]; lia|]. split; [reflexivity|]. split; [reflexivity|]. cbn [slots_loop]. now rewrite filled_assume.
  - cbn [slots_loop]. destruct (elem r) as [[a|e| |] r1] eqn:E.
    + destruct (IH (l ++ [a]) r1 (produced_snoc _ _ _ _ _ _ H E)) as (res & r' & l' & P & L & C). exists res, r', (a :: l').
      rewrite <- app_assoc in P, C. cbn [app] in P, C. cbn [length]. split; [exact P|]. split; [lia|].
      rewrite filled_write. rewrite app_length in C. cbn [length] in C. rewrite Nat.add_1_r in C.
      destruct res as [x|e| |]; [destruct C as (C1 & C2 & C3); split; [exact C1|]; split; [lia|exact C3]|destruct C as (r2 & C1 & C2 & C3); exists r2; split; [exact C1|]; split; [lia|exact C3]..].
    + exists (Err e), r, []. rewrite app_nil_r. split; [exact H|]. split; [cbn [length]; lia|]. exists r1. split; [exact E|]. split; [cbn [length]; lia|].
      rewrite filled_length. replace (length l + S k <? length l) with false by (symmetry; apply Nat.ltb_ge; lia). rewrite filled_drop, dropped_items. reflexivity.
    + exists Panic, r, []. rewrite app_nil_r. split; [exact H|]. split; [cbn [length]; lia|]. exists r1. split; [exact E|]. split; [cbn [length]; lia|]. now rewrite filled_items.
    + exists Diverge, r, []. rewrite app_nil_r. split; [exact H|]. split; [cbn [length]; lia|]. exists r1. split; [exact E|]. split; [cbn [length]; lia|]. now rewrite filled_items.
Qed.

Theorem slots_sound {A} (N : nat) (elem : RM A) r :
  exists res r' l, produced elem r l r' /\
  match res with
  | Ok x => x = l /\ length l = N /\ slots_read N elem r = (Done (Ok x) [] [], r')
  | Err e => exists r2, elem r' = (Err e, r2) /\ length l < N /\ slots_read N elem r = (Done (Err e) l [], r2)
  | Panic => exists r2, elem r' = (Panic, r2) /\ length l < N /\ slots_read N elem r = (Done Panic [] l, r2)
  | Diverge => exists r2, elem r' = (Diverge, r2) /\ length l < N /\ slots_read N elem r = (Done Diverge [] l, r2)
  end.
Proof.
  destruct (slots_loop_spec elem r N [] r (produced_none _ _)) as (res & r' & l & P & _ & C). exists res, r', l. split; [exact P|exact C].
Qed.

Lemma read_array_produced {A} (elem : RM A) l : forall r r' k, produced elem r l r' ->
  read_array (length l + k) elem r =
  match read_array k elem r' with (Ok x, r2) => (Ok (l ++ x), r2) | (Err e, r2) => (Err e, r2) | (Panic, r2) => (Panic, r2) | (Diverge, r2) => (Diverge, r2) end.
Proof.
  induction l as [|a l IH]; intros r r' k H; inversion H; subst.
  - cbn [length Nat.add app]. now destruct (read_array k elem r') as [[] ?].
  - match goal with E : elem r = _, P : produced _ _ _ _ |- _ => rename E into E0; rename P into P0 end.
    cbn [length Nat.add read_array]. unfold bind. rewrite E0, (IH _ _ k P0). now destruct (read_array k elem r') as [[] ?].
Qed.
(** The result is the one of [read_array]. *)
Theorem slots_refine {A} (N : nat) (elem : RM A) r :
  exists drops lost, slots_read N elem r = (Done (fst (read_array N elem r)) drops lost, snd (read_array N elem r)).
Proof.
  destruct (slots_sound N elem r) as (res & r' & l & P & C).
  assert (F : forall k x r2, N = length l + S k -> elem r' = (x, r2) -> (forall a, x <> Ok a) ->
    read_array N elem r = (match x with Ok _ => Panic | Err e => Err e | Panic => Panic | Diverge => Diverge end, r2)).
  { intros k x r2 -> E Hx. rewrite (read_array_produced elem l r r' (S k) P). cbn [read_array]. unfold bind. rewrite E. destruct x; try reflexivity. now destruct (Hx a). }
  destruct res as [x|e| |].
  - destruct C as (-> & L & C). exists [], []. rewrite C. pose proof (read_array_produced elem l r r' 0 P) as E. rewrite Nat.add_0_r, L in E. rewrite E.
    cbn [read_array ret fst snd]. unfold ret. now rewrite app_nil_r.
  - destruct C as (r2 & E & L & C). exists l, []. rewrite C, (F (N - S (length l)) (Err e) r2 ltac:(lia) E ltac:(discriminate)). reflexivity.
  - destruct C as (r2 & E & L & C). exists [], l. rewrite C, (F (N - S (length l)) Panic r2 ltac:(lia) E ltac:(discriminate)). reflexivity.
  - destruct C as (r2 & E & L & C). exists [], l. rewrite C, (F (N - S (length l)) Diverge r2 ltac:(lia) E ltac:(discriminate)). reflexivity.
Qed.
