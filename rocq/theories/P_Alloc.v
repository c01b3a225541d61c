(** Memory asked for while reading, C74.

    Vocabulary: [Alloc.v] (the reads of Derive.v with every request for heap memory
    counted; [memory_from_bytes], [a_from_reader]), [AllocSpec.v] ([counts_up_to],
    [per_byte], [upfront]), [FlowSpec.v] ([flows]). *)
From Coq Require Import Lia.
From Verif Require Import Base Stream Reader Writer Prims MonadFacts Containers ContainerSpec Derive DeriveSpec SafeSpec DeriveSafe FlowSpec FlowFacts Alloc AllocSpec AllocFacts P_Derive P_Safe.

Ltac count_step :=
  match goal with
  | |- _ /\ _ => split
  | |- True => exact I
  | |- _ => progress intros
  | |- _ => discriminate
  end.

(** The reads with requests counted are the reads. *)
Theorem C74_same : forall cu fuel t s bit, fst (a_from_reader cu fuel t s bit) = from_reader cu fuel t s bit.
Proof. exact same_from_reader. Qed.
Print Assumptions C74_same.
(** No more than a fixed amount per byte of input, and for each count what it asks for up
    front, whether the read succeeds or not.  [most = 0]: no counts but those of fields that
    are a [Vec<u8>], and the bound is the input alone.  Missing: types that C49 does
    not cover, types that seek. *)
Theorem C74_from_bytes_partial : forall cu fuel j most t input bit, flows cu false t None [] true j -> counts_up_to most t ->
  bit < 8 -> 8 * length input + 8 < fuel ->
  (memory_from_bytes cu fuel t input bit <= per_byte most t * N.of_nat (length input) + upfront most t)%N.
Proof. exact memory_from_bytes_bound. Qed.
Print Assumptions C74_from_bytes_partial.
(** From any source that does not fail, at any position. *)
Theorem C74_from_reader_partial : forall cu fuel j most t s bit, flows cu false t None [] true j -> counts_up_to most t ->
  (forall n, s_fault s n = None) -> s_pos s <= length (s_data s) -> bit < 8 -> 8 * length (s_data s) + 8 < fuel ->
  (snd (a_from_reader cu fuel t s bit) <= per_byte most t * N.of_nat (length (s_data s) - s_pos s) + upfront most t)%N.
Proof. exact memory_from_reader. Qed.
Print Assumptions C74_from_reader_partial.
(** With no counts, or counts on [Vec<u8>] only, the input alone bounds the memory.
      struct Blob { len: u32, #[deku(count = "len")] data: Vec<u8>,
                    #[deku(until = "|k| k is Kind::A")] kinds: Vec<Kind>, name: CString } *)
Definition Blob : ty :=
  TStruct cplain
    (field plain (TPrim (PU 4))
    (field (limited (count_of 0) plain) (TVec KVec 1 u8)
    (field (limited (until (fun l => value_eqb (last l VUnit) (VVar 0 []))) plain) (TVec KVec 8 Kind)
    (field plain TCString FNil)))).
Example C74_case : flows no_customs false Blob None [] true true /\ counts_up_to 0 Blob /\ per_byte 0 Blob = 64%N /\ upfront 0 Blob = 0%N /\
  let input := [x02; x00; x00; x00; x61; x62; x02; x00; x00; x01; x00; x01; x63; x00] in
  from_bytes no_customs 200 Blob input 0 =
  Ok (([], 0), VRec [VNum 2; VList [VNum 0x61; VNum 0x62]; VList [VVar 1 [VNum 256]; VVar 0 []]; VList [VNum 0x63]]) /\
  memory_from_bytes no_customs 200 Blob input 0 = (2 + 8 * 2 + 2)%N /\
  memory_from_bytes no_customs 200 Blob [xff; xff; xff; xff; x61; x62] 0 = 0%N.
Proof.
  split; [|split].
  - apply safe_flows. unfold Blob, Kind. cbn. repeat safe_step.
    + destruct v; try contradiction. unfold nth_num. cbn [nth num]. rewrite to_usize_small by lia. rewrite N2Z.id.
      split; [reflexivity|]. split; [change (8 * n <= usize_max)%N; unfold usize_max; lia|].
      intros bs. split; [|now apply DeriveSound.distinct_vec]. apply Forall_map, Forall_forall. intros b _. apply ContainerProps.to_N_lt.
    + split; [exact I|]. split; [reflexivity|discriminate].
    + now left.
  - unfold counts_up_to, Blob, Kind. cbn. repeat count_step. destruct (to_usize _); [now left|exact I].
  - repeat (split; [vm_compute; reflexivity|]). reflexivity.
Qed.
(** A count of one byte asks for at most 255 elements.
      struct Samples { len: u8, #[deku(count = "len")] values: Vec<u32>, #[deku(read_all)] rest: Vec<u16> } *)
Definition Samples : ty :=
  TStruct cplain
    (field plain u8
    (field (limited (count_of 0) plain) (TVec KVec 4 u32)
    (field (limited FAll plain) (TVec KVec 2 u16) FNil))).
Example C74_case_count : flows no_customs false Samples None [] true false /\ counts_up_to 255 Samples /\ per_byte 255 Samples = 32%N /\ upfront 255 Samples = 1530%N /\
  memory_from_bytes no_customs 200 Samples [x01; x01; x02; x03; x04; x05; x06; x07; x08] 0 = (4 * 1 + 2 * 2)%N /\
  memory_from_bytes no_customs 200 Samples [xff; x01] 0 = (4 * 255)%N.
Proof.
  split; [|split].
  - apply safe_flows. unfold Samples. cbn. repeat safe_step.
    + destruct v; try contradiction. unfold nth_num. cbn [nth num]. cbn in H. rewrite to_usize_small by lia. rewrite N2Z.id.
      eexists. split; [reflexivity|]. split; [|repeat safe_step]. split; [cbn; unfold isize_max; lia|]. split; [cbn; tauto|discriminate].
    + split; [exact I|]. split; [reflexivity|discriminate].
  - unfold counts_up_to, Samples. cbn. repeat count_step. destruct v; try contradiction. unfold nth_num. cbn [nth num]. cbn in H. rewrite to_usize_small by lia. rewrite N2Z.id.
    right. split; [cbn; lia|exact I].
  - repeat (split; [vm_compute; reflexivity|]). vm_compute. reflexivity.
Qed.

(** The records of C49. *)
Example C74_case_records : flows no_customs false Tlvs None [] true true /\ counts_up_to 0 Tlvs /\ per_byte 0 Tlvs = 264%N /\ upfront 0 Tlvs = 0%N /\
  memory_from_bytes no_customs 100 Tlvs [x07; x00; x00; x02; x61; x62; x08; x00; x00; x00] 0 = (32 * 2 + 2)%N.
Proof.
  split; [apply C49_case_records|]. split; [|repeat (split; [vm_compute; reflexivity|]); vm_compute; reflexivity].
  unfold counts_up_to, Tlvs, Tlv. cbn. repeat count_step. destruct (to_usize _); [now left|exact I].
Qed.

(** The input alone is no bound: the check that a count can be met is made for a field
    that is a [Vec<u8>] only, other collections ask first (vec.rs:68, hashmap.rs:31,
    hashset.rs:30).  Four bytes of input, eight
    gigabytes:
      struct Big { len: u32, #[deku(count = "len")] data: Vec<u16> } *)
Definition counted (t : ty) : ty := TStruct cplain (field plain u32 (field (limited (count_of 0) plain) t FNil)).
Theorem C74_counted_vec_refuted : let t := counted (TVec KVec 2 u16) in safe_type no_customs t /\
  exists input, length input = 4 /\ from_bytes no_customs 100 t input 0 = Err (Incomplete 16) /\ memory_from_bytes no_customs 100 t input 0 = 8589934590%N.
Proof.
  split.
  - exists false. unfold counted. cbn. repeat safe_step. destruct v; try contradiction. unfold nth_num. cbn [nth num]. cbn in H. rewrite to_usize_small by lia. rewrite N2Z.id.
    eexists. split; [reflexivity|]. split; [|repeat safe_step]. split; [cbn; unfold isize_max; lia|]. split; [cbn; tauto|discriminate].
  - exists (repeat xff 4). repeat split.
Qed.
Print Assumptions C74_counted_vec_refuted.
(** Bytes in anything but a [Vec<u8>]: [Box<[u8]>], [HashSet<u8>], [Option<Vec<u8>>] ... *)
Theorem C74_counted_bytes_refuted : exists input, length input = 4 /\
  memory_from_bytes no_customs 100 (counted (TVec KSlice 1 u8)) input 0 = 4294967295%N /\
  memory_from_bytes no_customs 100 (counted (TVec KSet 1 u8)) input 0 = 4294967295%N /\
  memory_from_bytes no_customs 100 (counted (TOption (TVec KVec 1 u8))) input 0 = 4294967295%N.
Proof. exists (repeat xff 4). repeat split. Qed.
Print Assumptions C74_counted_bytes_refuted.
(** ... but not in a [Vec<u8>]. *)
Example C74_vec_u8_case : memory_from_bytes no_customs 100 (counted (TVec KVec 1 u8)) (repeat xff 4) 0 = 0%N.
Proof. reflexivity. Qed.
