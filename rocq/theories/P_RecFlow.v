(** Recursive types with padding of whole bytes, C53.

    Vocabulary: [Rec.v] (the model: [rec_from_bytes], [rec_try_from] of the type named [k]
    with room for [depth] nested calls), [RecSpec.v] ([rec_flows], [nested]). *)
From Coq Require Import Lia.
From Verif Require Import Base Stream Reader Writer Prims Containers ContainerSpec Derive DeriveSpec SafeSpec DeriveSafe WSafeSpec FlowSpec Rec RecSpec RecProps RecFlow P_Derive P_Safe.

(** Whatever the input, as [C53_from_bytes_partial], for the types of C49: padding may lead
    past the end of the input, as long as no byte vector of a given length follows at once. *)
Theorem C53_flow_from_bytes_partial : forall defs j ok fuel depth k input bit,
  rec_flows defs ok -> ok k [] true j -> bit < 8 -> 8 * length input + 8 < fuel -> 8 * length input < depth ->
  let x := rec_from_bytes defs fuel depth k input bit in x <> Panic /\ x <> Diverge /\ forall rest v, x = Ok (rest, v) -> nested defs depth k v.
Proof. exact rec_flow_from_bytes. Qed.
Print Assumptions C53_flow_from_bytes_partial.
Theorem C53_flow_try_from_partial : forall defs j ok fuel depth k input,
  rec_flows defs ok -> ok k [] true j -> 8 * length input + 8 < fuel -> 8 * length input < depth ->
  let x := rec_try_from defs fuel depth k input in x <> Panic /\ x <> Diverge /\ forall v, x = Ok v -> nested defs depth k v.
Proof. exact rec_flow_try_from. Qed.
Print Assumptions C53_flow_try_from_partial.
(** On a stack of any size. *)
Theorem C53_flow_values_partial : forall defs j ok fuel depth k input bit, rec_flows defs ok -> ok k [] true j -> bit < 8 ->
  let x := rec_from_bytes defs fuel depth k input bit in x <> Panic /\ forall rest v, x = Ok (rest, v) -> nested defs depth k v.
Proof. exact flow_values_from_bytes. Qed.
Print Assumptions C53_flow_values_partial.
Theorem C53_flow_nesting_partial : forall defs j ok fuel depth k input bit rest v, rec_flows defs ok -> ok k [] true j -> bit < 8 ->
  rec_from_bytes defs fuel depth k input bit = Ok (rest, v) -> nested defs (8 * length input + 1) k v.
Proof. exact flow_shallow_from_bytes. Qed.
Print Assumptions C53_flow_nesting_partial.

(** struct Node { n: u8, #[deku(count = "n")] data: Vec<u8>,
                  #[deku(pad_bytes_after = "2")] m: u8, #[deku(count = "m")] inner: Vec<Node> } *)
Definition Node : ty := TStruct cplain
  (field plain u8 (field (limited (count_of 0) plain) (TVec KVec 1 u8)
  (field (padded 0 16 plain) u8 (field (limited (count_of 2) plain) (TVec KVec 48 (TCustom 0)) FNil)))).
Definition nodes (k : nat) : ty := match k with 0 => Node | _ => TUnit end.
Definition node_at (k : nat) (args : list value) (i j : bool) : Prop := k = 0 /\ args = [] /\ j = false.
Example C53_case_flows : rec_flows nodes node_at.
Proof.
  intros k args i j (-> & -> & ->). split; [reflexivity|]. intros nv cu Hcu. cbn. unfold Node. cbn. split; [exact I|]. split; [exact I|]. exists true. split.
  { split; [discriminate|]. intros o _. split; [|auto]. split; [reflexivity|]. split; [apply Nat.lt_0_1|]. eexists. split; [reflexivity|exact I]. }
  intros v Hv _. destruct v; try contradiction. split; [exact I|]. exists true. split.
  { split; [discriminate|]. intros o _. split; [|auto]. unfold nth_num. cbn. rewrite to_usize_small by lia. rewrite N2Z.id.
    split; [reflexivity|]. split; [change (8 * n <= usize_max)%N; unfold usize_max; lia|].
    intros bs. split; [|now apply DeriveSound.distinct_vec]. apply Forall_map, Forall_forall. intros b _. apply ContainerProps.to_N_lt. }
  intros d Hd _. split; [exact I|]. exists true. split.
  { split; [discriminate|]. intros o _. split; [|auto]. split; [reflexivity|]. split; [apply Nat.lt_0_1|]. eexists. split; [reflexivity|exact I]. }
  intros m Hm _. destruct m as [m| | | | | | | | | | |]; try contradiction. split; [exact I|]. exists false. split; [|intros; exact (fun H => H)].
  split; [discriminate|]. intros o _. split; [|auto]. unfold nth_num. cbn. rewrite to_usize_small by lia. rewrite N2Z.id.
  eexists. split; [reflexivity|]. split; [cbn; unfold isize_max; lia|]. split; [intros []|]. exists false. split; [discriminate|]. split; [|discriminate].
  split; [reflexivity|]. apply Hcu. repeat split.
Qed.
Definition node_bytes : list byte := [x01; x61; x02; xff; xff; x00; x00; xff; xff; x02; x62; x63; x00; xff; xff].
Definition node (data inner : list value) : value := VRec [VNum (N.of_nat (length data)); VList data; VNum (N.of_nat (length inner)); VList inner].
Example C53_case_flow : node_at 0 [] true false /\
  rec_from_bytes nodes 200 150 0 node_bytes 0 = Ok (([], 0), node [VNum 0x61] [node [] []; node [VNum 0x62; VNum 0x63] []]) /\
  (* the input ends in the padding: an error from the first read after it, not a panic *)
  (exists e, rec_from_bytes nodes 200 150 0 [x00; x01; xff] 0 = Err e) /\
  ~ (exists inside ok, rec_safe nodes inside ok /\ ok 0 []).
Proof.
  split; [now repeat split|]. split; [vm_compute; reflexivity|]. split; [eexists; vm_compute; reflexivity|].
  intros (inside & ok & H & H0). destruct (H 0 [] H0) as [_ HS].
  specialize (HS (fun _ _ => True) (fun _ => mkCustom (fun _ r => (Err Parse, r)) (fun _ _ => fail Parse))).
  assert (HB : forall k args, ok k args -> behaves inside false (fun _ : value => True) (fun r : reader => (Err Parse : res value, r))).
  { intros k args _ r x r' _ E. apply MonadFacts.pair_inj in E. destruct E as [<- <-]. split; [discriminate|]. split; discriminate. }
  specialize (HS HB). cbn in HS. destruct HS as (_ & _ & HS). specialize (HS (VNum 0) ltac:(cbn; lia) ltac:(discriminate)).
  destruct HS as [(_ & _ & _ & _ & Ha) HS]. destruct (Ha 0 eq_refl) as [Hi _]. vm_compute in Hi. destruct Hi as [-> _].
  specialize (HS (VList []) ltac:(cbn; repeat split; constructor) ltac:(discriminate)). destruct HS as [(_ & _ & Hp & _) _].
  specialize (Hp (VNum 0) ltac:(cbn; lia) eq_refl). cbn in Hp. lia.
Qed.
