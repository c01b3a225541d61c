(** Reading from sources that fail, C79.

    Vocabulary: [SafeSpec.v] ([safe_type], [typed]: the types of C49, the values of a Rust
    type) and [FaultSpec.v] ([steady]: no padding of a byte or more within the elements
    of a vector, and hand-written readers are [enduring]: they read and stop at the first error; [calm n]: no call fails from the [n]-th on). *)
From Coq Require Import Lia.
From Verif Require Import Base Stream Reader Writer Prims Containers ContainerSpec Derive DeriveSpec SafeSpec DeriveSafe FaultSpec FlowSpec FaultSafe Endure P_Derive P_Safe.

(** Whatever the source holds and whichever of its calls fail, with whatever error: a value
    of the type or an error ... *)
Theorem C79_from_reader_partial : forall cu fuel t s bit, safe_type cu t -> steady cu false t -> s_pos s <= length (s_data s) -> bit < 8 ->
  let x := fst (from_reader cu fuel t s bit) in x <> Panic /\ (forall n v, x = Ok (n, v) -> typed t v) /\
  (** ... and it ends if only the first [n] calls can fail. *)
  forall n, calm n s -> 8 * length (s_data s) + 8 + 9 * n < fuel -> x <> Diverge.
Proof. exact fault_from_reader. Qed.
Print Assumptions C79_from_reader_partial.
(** Hand-written readers that read and stop at the first error meet the condition of C49. *)
Theorem C79_hand_written : forall A (good : A -> Prop) m inside seeks, enduring A good m -> behaves inside seeks good m.
Proof. exact enduring_behaves. Qed.
Print Assumptions C79_hand_written.

(** struct Elem { #[deku(pad_bytes_before = "1")] x: u8 }
    struct Sensors { #[deku(bits = 32, endian = "little")] header: u32, #[deku(count = "1")] elems: Vec<Elem> }
    The failed reads of the header are taken for zeros and counted; the padding is seeked
    over, which resets the count to the position of the source; the loop subtracts. *)
Definition failing (ks : list (option (iokind * nat))) (bytes : list byte) : stream := mkStream bytes 0 true None (fun j => nth j ks None) 0.
Definition little (a : fattrs) : fattrs :=
  mkF (Some (fun _ _ => Little)) (a_order a) (a_bits a) (a_bytes a) (a_ctx a) (a_limit a) (a_map a) (a_reader a) (a_writer a) (a_skip a) (a_cond a) (a_default a)
      (a_assert a) (a_assert_eq a) (a_seek a) (a_magic a) (a_pad_before a) (a_pad_after a) (a_temp a) (a_temp_value a) (a_update a).
Definition Sensors : ty :=
  TStruct cplain (field (little (bits 32 plain)) u32
    (field (limited (FCount (fun _ _ _ => 1%Z)) plain) (TVec KVec 1 (TStruct cplain (field (padded 8 0 plain) u8 FNil))) FNil)).
Theorem C79_padding_refuted : safe_type no_customs Sensors /\
  exists ks, forall fuel, fst (from_reader no_customs fuel Sensors (failing ks [x01; x02; x03; x04; x05; x06]) 0) = Panic.
Proof.
  split.
  - exists false. unfold Sensors. cbn. repeat safe_step. split; [cbn; unfold isize_max; lia|]. split; [cbn; tauto|discriminate].
  - exists (repeat (Some (OtherKind 1, 0)) 4). intros fuel. reflexivity.
Qed.
Print Assumptions C79_padding_refuted.
(** The types that C49 follows from field to field are not enough: the source is past its
    end after the seek, and the reads that would tell fail and are taken for zeros.
      #[deku(seek_from_start = "100")]
      struct Far { #[deku(bits = 32, endian = "little")] header: u32, #[deku(count = "1")] data: Vec<u8> } *)
Definition Far : ty :=
  TStruct (mkC (c_endian cplain) (c_order cplain) (c_magic cplain) (Some (fun _ => Some (SeekStart 100))) (c_ctx_default cplain))
    (field (little (bits 32 plain)) u32 (field (limited (FCount (fun _ _ _ => 1%Z)) plain) (TVec KVec 1 u8) FNil)).
Theorem C79_flow_refuted : flow_type no_customs Far /\ steady no_customs false Far /\
  exists ks, forall fuel, fst (from_reader no_customs fuel Far (failing ks [x01; x02]) 0) = Panic.
Proof.
  split; [|split].
  - exists true. unfold Far. cbn. split; [reflexivity|]. split; [exact I|]. exists true. split.
    { split; [discriminate|]. intros o _. split; [|auto]. split; [reflexivity|]. split; [lia|]. eexists. split; [reflexivity|cbn; lia]. }
    intros v Hv _. split; [exact I|]. exists true. split; [|intros; intro; reflexivity].
    split; [discriminate|]. intros o _. split; [|auto]. cbn. split; [reflexivity|]. split; [discriminate|].
    intros bs. split; [|now apply DeriveSound.distinct_vec]. apply Forall_map, Forall_forall. intros b _. apply ContainerProps.to_N_lt.
  - cbn. repeat split; discriminate.
  - exists (None :: repeat (Some (OtherKind 1, 0)) 4). intros fuel. reflexivity.
Qed.
Print Assumptions C79_flow_refuted.
(** If every call fails, [read_all] goes on for ever.
      struct All { #[deku(read_all)] bytes: Vec<u8> } *)
Definition All : ty := TStruct cplain (field (limited FAll plain) (TVec KVec 1 u8) FNil).
Definition dead (bytes : list byte) : stream := mkStream bytes 0 true None (fun _ => Some (OtherKind 1, 0)) 0.
Theorem C79_endless_refuted : safe_type no_customs All /\ steady no_customs false All /\
  forall bytes fuel, fst (from_reader no_customs fuel All (dead bytes) 0) = Diverge.
Proof.
  split; [|split].
  - exists false. unfold All. cbn. repeat safe_step. split; [exact I|]. split; [reflexivity|discriminate].
  - cbn. repeat split; discriminate.
  - intros bytes fuel.
    assert (H : forall (elem : RM value) fuel acc r, (forall r b, r_left r = Some (LByte b) -> exists v, elem r = (Ok v, r_add_bits (r_set_left r None) 8)) ->
      r_left r = None -> (forall j, s_fault (r_s r) j = Some (OtherKind 1, 0)) -> exists r', end_loop fuel elem acc r = (Diverge, r')).
    { intros elem f. induction f as [|f IH]; intros acc r He Hl Hf; [eexists; reflexivity|]. cbn [end_loop]. unfold r_end, r_io, s_read_exact. rewrite Hl, Hf.
      cbn [is_eof]. unfold bind. match goal with |- context [elem ?rr] => destruct (He rr _ eq_refl) as [v Ev] end. rewrite Ev.
      apply IH; [exact He|reflexivity|exact Hf]. }
    cbv -[end_loop reader_new dead prim_read].
    match goal with |- context [end_loop fuel ?e ?a ?r] => destruct (H e fuel a r) as [r' Er] end; [|reflexivity|reflexivity|rewrite Er; reflexivity].
    intros [s l n] b Hb. cbn in Hb. subst l. eexists. reflexivity.
Qed.
Print Assumptions C79_endless_refuted.


(** The record of C49 (a byte vector with a count, [until], rewinding), read from sources
    that fail: the error of the seek; the error of the length; and a failed read of the
    header of [Sensors], without its elements, that is taken for a zero. *)
Definition Header : ty := TStruct cplain (field (little (bits 32 plain)) u32 (field plain u8 FNil)).
Definition ok_then (n : nat) (k : iokind) : list (option (iokind * nat)) := repeat None n ++ [Some (k, 1)].
Example C79_case : safe_type no_customs Record_ /\ steady no_customs false Record_ /\ steady no_customs false Header /\ ~ steady no_customs false Sensors /\
  calm 2 (failing (ok_then 1 NotFound) [x02; x61; x62; x01]) /\
  fst (from_reader no_customs 100 Record_ (failing (ok_then 1 NotFound) [x02; x61; x62; x01]) 0) = Err (Io NotFound) /\
  fst (from_reader no_customs 100 Record_ (failing (ok_then 6 NotFound) [x02; x61; x62; x01]) 0) = Err (Io NotFound) /\
  fst (from_reader no_customs 100 Record_ (failing (ok_then 8 NotFound) [x02; x61; x62; x01]) 0) = Ok (8, VRec [VNum 2; VList [VNum 0x61; VNum 0x62]; VList [VVar 0 []]; VNum 2]) /\
  fst (from_reader no_customs 100 Header (failing (ok_then 1 NotFound) [x01; x02; x03; x04; x05]) 0) = Ok (40, VRec [VNum 0x03020001; VNum 4]).
Proof.
  split; [exact (proj1 C49_case_seek)|]. split; [cbn; repeat split; discriminate|]. split; [cbn; repeat split; discriminate|].
  split; [intros (_ & _ & _ & _ & _ & (_ & H & _) & _); destruct (H eq_refl [] []) as [H0 _]; discriminate H0|].
  split; [intros j Hj; cbn; destruct j as [|[|[|j]]]; try reflexivity; lia|].
  split; [vm_compute; reflexivity|]. split; [vm_compute; reflexivity|]. split; vm_compute; reflexivity.
Qed.

(** With hand-written readers:
      fn u24<R: Read + Seek>(r: &mut Reader<R>) -> Result<u32, DekuError>   reads three bytes
      struct Tag: DekuReader, reads a nibble n, skips n mod 8 bits
      struct Hand { #[deku(reader = "u24(deku::reader)")] x: u32, n: u8, #[deku(count = "n")] data: Vec<u8>, #[deku(count = "2")] tags: Vec<Tag> } *)
Definition u24 : RM value := let* bs := read_bytes 3 3 Msb0 in ret (VNum (from_be bs)).
Definition nibble_and_skip : RM value := let* n := prim_read PU8 (CEB Big 4) in let* _ := skip_bits (N.to_nat n mod 8) Msb0 in ret (VNum n).
Definition tags (k : nat) : custom := mkCustom (fun _ => nibble_and_skip) (fun _ _ => ret tt).
Definition Hand : ty := TStruct cplain (field (by_hand (fun _ _ _ => u24) plain) u32 (field plain u8
  (field (limited (count_of 1) plain) (TVec KVec 1 u8) (field (limited (FCount (fun _ _ _ => 2%Z)) plain) (TVec KVec 1 (TCustom 0)) FNil)))).
Lemma u24_endures : enduring value (typed u32) u24.
Proof.
  apply en_bind with (mid := fun bs => length bs = 3); [apply en_bytes; lia|]. intros bs Hb. apply en_ret. cbn.
  eapply N.lt_trans; [apply (SafeFacts.from_e_lt Big bs 3); exact (Nat.eq_le_incl _ _ Hb)|reflexivity].
Qed.
Lemma tag_endures : enduring value (fun _ => True) nibble_and_skip.
Proof.
  eapply en_bind; [apply en_prim; cbn; lia|]. intros n _. eapply en_bind; [apply en_skip; now apply Nat.mod_upper_bound|]. intros _ _. now apply en_ret.
Qed.
Example C79_case_by_hand : safe_type tags Hand /\ steady tags false Hand /\
  fst (from_reader tags 100 Hand (failing [] [x01; x02; x03; x01; x61; x2f; x10]) 0) = Ok (54, VRec [VNum 0x010203; VNum 1; VList [VNum 0x61]; VList [VNum 2; VNum 12]]) /\
  fst (from_reader tags 100 Hand (failing (ok_then 5 NotFound) [x01; x02; x03; x01; x61; x2f; x10]) 0) = Err (Io NotFound).
Proof.
  split; [|split; [|split; vm_compute; reflexivity]].
  - exists true. unfold Hand. cbn. repeat safe_step.
    + apply enduring_behaves, u24_endures.
    + destruct v0; try contradiction. unfold nth_num. cbn [nth num]. rewrite to_usize_small by lia. rewrite N2Z.id.
      split; [reflexivity|]. split; [change (8 * n <= usize_max)%N; unfold usize_max; lia|].
      intros bs. split; [|now apply DeriveSound.distinct_vec]. apply Forall_map, Forall_forall. intros b _. apply ContainerProps.to_N_lt.
    + split; [cbn; unfold isize_max; lia|]. split; [cbn; tauto|discriminate].
    + apply enduring_behaves, tag_endures.
  - cbn. repeat split; try discriminate; try (intros; discriminate).
    + intros f [= <-] _ _ _. exact u24_endures.
    + intros _. exact tag_endures.
Qed.
