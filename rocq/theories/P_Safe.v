(** Reading untrusted input, C49.

    Vocabulary: [FlowSpec.v] ([flow_type], [flows]) and [SafeSpec.v] ([safe_type], [typed],
    [place]). *)
From Coq Require Import Lia.
From Verif Require Import Base Stream Reader Writer Prims MonadFacts Containers ContainerSpec Derive DeriveSpec SafeSpec DeriveSafe FlowSpec FlowFacts P_Derive.

(** Whatever the input: a value of the type or an error, after a number of steps linear
    in the input.  Missing: types that are not of this kind; see the refutations below. *)
Theorem C49_from_bytes_partial : forall cu fuel t input bit, flow_type cu t -> bit < 8 -> 8 * length input + 8 < fuel ->
  let x := from_bytes cu fuel t input bit in x <> Panic /\ x <> Diverge /\ forall rest v, x = Ok (rest, v) -> typed t v.
Proof. exact flow_from_bytes. Qed.
Print Assumptions C49_from_bytes_partial.
Theorem C49_try_from_partial : forall cu fuel t input, flow_type cu t -> 8 * length input + 8 < fuel ->
  let x := try_from cu fuel t input in x <> Panic /\ x <> Diverge /\ forall v, x = Ok v -> typed t v.
Proof. exact flow_try_from. Qed.
Print Assumptions C49_try_from_partial.
(** From any source that does not fail, seekable or not. *)
Theorem C49_from_reader_partial : forall cu fuel t s bit, flow_type cu t -> (forall j, s_fault s j = None) ->
  s_pos s <= length (s_data s) -> bit < 8 -> 8 * length (s_data s) + 8 < fuel ->
  let x := fst (from_reader cu fuel t s bit) in x <> Panic /\ x <> Diverge /\ forall n v, x = Ok (n, v) -> typed t v.
Proof. exact flow_from_reader. Qed.
Print Assumptions C49_from_reader_partial.
(** In the middle of a read, with any limit and context. *)
Theorem C49_reader_partial : forall cu fuel seeks t lim args i j r, flows cu seeks t lim args i j -> place i r ->
  8 * length (s_data (r_s r)) + 8 < fuel ->
  let '(x, r') := read_ty cu fuel t lim args r in x <> Panic /\ x <> Diverge /\ forall v, x = Ok v -> typed t v /\ place j r'.
Proof. exact flow_reader. Qed.
Print Assumptions C49_reader_partial.
(** A simpler condition: throughout, the source stays inside its input, or throughout
    nothing relies on it. *)
Theorem C49_safe_types : forall cu inside seeks t lim args, safe_ty cu inside seeks t lim args -> flows cu seeks t lim args true inside.
Proof. exact safe_flows. Qed.
Print Assumptions C49_safe_types.
(** Types with counts, bit fields, conditions, padding, enums and assertions are safe ... *)
Definition until (f : list value -> bool) : flimit := FUntil (fun _ _ _ => f).
Definition count_of (k : nat) : flimit := FCount (fun _ fs _ => Z.of_N (nth_num fs k)).
Definition rewinding (a : fattrs) : fattrs :=
  mkF (a_endian a) (a_order a) (a_bits a) (a_bytes a) (a_ctx a) (a_limit a) (a_map a) (a_reader a) (a_writer a) (a_skip a) (a_cond a) (a_default a)
      (a_assert a) (a_assert_eq a) (Some (fun _ _ => Some (SeekStart 0))) (a_magic a) (a_pad_before a) (a_pad_after a) (a_temp a) (a_temp_value a) (a_update a).
Definition skipped (d : value) (a : fattrs) : fattrs :=
  mkF (a_endian a) (a_order a) (a_bits a) (a_bytes a) (a_ctx a) (a_limit a) (a_map a) (a_reader a) (a_writer a) (Some SkipAll) (a_cond a) (fun _ _ _ => d)
      (a_assert a) (a_assert_eq a) (a_seek a) (a_magic a) (a_pad_before a) (a_pad_after a) (a_temp a) (a_temp_value a) (a_update a).
Example C49_case : safe_type no_customs Packet /\ typed Packet packet.
Proof.
  split.
  - exists false. unfold Packet, Kind. cbn. repeat safe_step.
    destruct v1; try contradiction. cbn in H3 |- *. unfold nth_num. cbn. rewrite to_usize_small by lia. rewrite N2Z.id.
    eexists. split; [reflexivity|]. split; [|repeat safe_step]. split; [cbn; unfold isize_max; lia|]. split; [cbn; tauto|discriminate].
  - cbn. repeat split; repeat constructor; lia.
Qed.
(** ... and so are byte vectors with a count, [until], and rewinding at the end:
      struct Record { len: u8, #[deku(count = "len")] name: Vec<u8>,
                      #[deku(until = "|k| k is Kind::A")] kinds: Vec<Kind>, #[deku(seek_rewind)] again: u8 } *)
Definition Record_ : ty :=
  TStruct cplain
    (field plain u8
    (field (limited (count_of 0) plain) (TVec KVec 1 u8)
    (field (limited (until (fun l => value_eqb (last l VUnit) (VVar 0 []))) plain) (TVec KVec 8 Kind)
    (field (rewinding plain) u8 FNil)))).
Example C49_case_seek : safe_type no_customs Record_ /\
  from_bytes no_customs 100 Record_ [x02; x61; x62; x02; x00; x00; x01; x00; x0b; x07; x01] 0 =
  Ok (([x61; x62; x02; x00; x00; x01; x00; x0b; x07; x01], 0),
      VRec [VNum 2; VList [VNum 0x61; VNum 0x62]; VList [VVar 1 [VNum 256]; VVar 2 [VNum 11; VNum 7]; VVar 0 []]; VNum 2]).
Proof.
  split; [|vm_compute; reflexivity].
  exists true. unfold Record_, Kind. cbn. repeat safe_step.
  - destruct v; try contradiction. unfold nth_num. cbn [nth num]. rewrite to_usize_small by lia. rewrite N2Z.id.
    split; [reflexivity|]. split; [change (8 * n <= usize_max)%N; unfold usize_max; lia|].
    intros bs. split; [|now apply DeriveSound.distinct_vec]. apply Forall_map, Forall_forall. intros b _. apply ContainerProps.to_N_lt.
  - split; [exact I|]. split; [reflexivity|discriminate].
Qed.

(** Records with a byte vector, with padding inside, read to the end of the input:
      struct Tlv { #[deku(pad_bytes_after = "2")] tag: u8, len: u8, #[deku(count = "len")] data: Vec<u8> }
      struct Tlvs { #[deku(read_all)] all: Vec<Tlv> } *)
Definition Tlv : ty := TStruct cplain (field (padded 0 16 plain) u8 (field plain u8 (field (limited (count_of 1) plain) (TVec KVec 1 u8) FNil))).
Definition Tlvs : ty := TStruct cplain (field (limited FAll plain) (TVec KVec 32 Tlv) FNil).
Example C49_case_records : forall seeks, flows no_customs seeks Tlvs None [] true true.
Proof.
  intros seeks. unfold Tlvs, Tlv. cbn. split; [exact I|]. split; [exact I|]. exists true. split; [|intros; intro; reflexivity].
  split; [discriminate|]. intros off _. split; [|auto]. exists LEnd. split; [reflexivity|]. split; [exact I|]. split; [reflexivity|].
  exists true. split; [|split; intro; reflexivity]. split; [exact I|]. split; [exact I|]. exists true. split.
  { split; [discriminate|]. intros o _. split; [|auto]. split; [reflexivity|]. split; [apply Nat.lt_0_1|]. eexists. split; [reflexivity|exact I]. }
  intros v Hv _. split; [exact I|]. exists true. split.
  { split; [discriminate|]. intros o _. split; [|auto]. split; [reflexivity|]. split; [apply Nat.lt_0_1|]. eexists. split; [reflexivity|exact I]. }
  intros v' Hv' _. destruct v'; try contradiction. split; [exact I|]. exists true. split; [|intros; intro; reflexivity].
  split; [discriminate|]. intros o _. split; [|auto]. unfold nth_num. cbn. rewrite to_usize_small by lia. rewrite N2Z.id.
  split; [reflexivity|]. split; [change (8 * n <= usize_max)%N; unfold usize_max; lia|].
  intros bs. split; [|now apply DeriveSound.distinct_vec]. apply Forall_map, Forall_forall. intros b _. apply ContainerProps.to_N_lt.
Qed.
Example C49_case_tlv : flow_type no_customs Tlvs /\ ~ safe_type no_customs Tlvs /\
  from_bytes no_customs 100 Tlvs [x07; x00; x00; x02; x61; x62; x08; x00; x00; x00] 0 =
  Ok (([], 0), VRec [VList [VRec [VNum 7; VNum 2; VList [VNum 0x61; VNum 0x62]]; VRec [VNum 8; VNum 0; VList []]]]).
Proof.
  split; [|split; [|vm_compute; reflexivity]].
  - exists true. apply C49_case_records.
  - intros [inside H]. cbn in H. destruct H as (_ & (_ & _ & _ & _ & H) & _). destruct (H 0 eq_refl) as [(l & E & (_ & _ & Hi) & Ht) _].
    injection E as <-. destruct inside; [now apply Hi|]. cbn in Ht. destruct Ht as (_ & _ & Ht).
    specialize (Ht (VNum 0) ltac:(cbn; lia) ltac:(discriminate)). destruct Ht as [_ Ht]. specialize (Ht (VNum 0) ltac:(cbn; lia) ltac:(discriminate)).
    destruct Ht as [(_ & _ & _ & _ & Ht) _]. destruct (Ht 0 eq_refl) as [Hx _]. vm_compute in Hx. destruct Hx. discriminate.
Qed.

(** A count taken from the input: [Vec::with_capacity] panics.
      struct Big { len: u64, #[deku(count = "len")] data: Vec<u16> } *)
Definition CountU64 : ty := TStruct cplain (field plain (TPrim (PU 8)) (field (limited (count_of 0) plain) (TVec KVec 2 u16) FNil)).
Theorem C49_huge_count_refuted : exists input, forall fuel, from_bytes no_customs fuel CountU64 input 0 = Panic.
Proof. exists (repeat xff 8). intros fuel. reflexivity. Qed.
Print Assumptions C49_huge_count_refuted.
(** Elements that take no input: [read_all] never ends.
      struct Marker { #[deku(skip)] seen: u8 }   struct Markers { #[deku(read_all)] all: Vec<Marker> } *)
Definition Marker : ty := TStruct cplain (field (skipped (VNum 0) plain) u8 FNil).
Definition Markers : ty := TStruct cplain (field (limited FAll plain) (TVec KVec 1 Marker) FNil).
Theorem C49_no_progress_refuted : exists input, forall fuel, from_bytes no_customs fuel Markers input 0 = Diverge.
Proof.
  exists [x00].
  assert (H : forall (elem : RM value) fuel acc r, (forall r, elem r = (Ok (VRec [VNum 0]), r)) -> r_left r <> None -> end_loop fuel elem acc r = (Diverge, r)).
  { intros elem fuel acc r He. revert acc. induction fuel as [|f IH]; intros acc H; [reflexivity|]. cbn [end_loop]. unfold r_end.
    destruct (r_left r) eqn:E; [|contradiction]. unfold bind. rewrite He. now apply IH. }
  assert (H0 : forall (elem : RM value) fuel, (forall r, elem r = (Ok (VRec [VNum 0]), r)) -> exists r, end_loop fuel elem [] (reader_new (cursor [x00])) = (Diverge, r)).
  { intros elem [|f] He; [eexists; reflexivity|]. cbn [end_loop]. destruct (r_end (reader_new (cursor [x00]))) as [b r] eqn:Er.
    vm_compute in Er. apply pair_inj in Er. destruct Er as [<- <-]. unfold bind. rewrite He. eexists. apply H; [exact He|discriminate]. }
  intros fuel. cbv -[end_loop reader_new cursor prim_read].
  match goal with |- context [end_loop fuel ?e _ _] => destruct (H0 e fuel (fun r => eq_refl)) as [r Er] end. rewrite Er. reflexivity.
Qed.
Print Assumptions C49_no_progress_refuted.
(** A byte vector with a count after padding beyond the end of the input: an
    underflow.
      struct Pad { #[deku(pad_bytes_after = "2")] len: u8, #[deku(count = "len")] data: Vec<u8> } *)
Definition PadThenCount : ty := TStruct cplain (field (padded 0 16 plain) u8 (field (limited (count_of 0) plain) (TVec KVec 1 u8) FNil)).
Theorem C49_past_end_refuted : exists input, forall fuel, from_bytes no_customs fuel PadThenCount input 0 = Panic.
Proof. exists [x01]. intros fuel. reflexivity. Qed.
Print Assumptions C49_past_end_refuted.
(** Elements that seek back to before the vector: an underflow.
      struct Elem { #[deku(seek_rewind)] x: u8 }
      struct Back { header: u16, #[deku(until = "|_| false")] elems: Vec<Elem> } *)
Definition Back : ty :=
  TStruct cplain (field plain u16 (field (limited (until (fun _ => false)) plain) (TVec KVec 1 (TStruct cplain (field (rewinding plain) u8 FNil))) FNil)).
Theorem C49_seeking_element_refuted : exists input, forall fuel, 0 < fuel -> from_bytes no_customs fuel Back input 0 = Panic.
Proof. exists [x01; x02]. intros [|fuel] H; [lia|]. reflexivity. Qed.
Print Assumptions C49_seeking_element_refuted.
