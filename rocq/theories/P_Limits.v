(** Properties of collections of elements of one size, C84.

    Vocabulary: [LimitSpec.v] ([record], [of_size], [starts_known],
    [elements_of], [in_range]),
    [SizeReadSpec.v] ([sized]).  Examples as in [P_Derive.v]. *)
From Coq Require Import Lia.
From Verif Require Import Base Spec Stream Reader Prims Containers Derive SizeSpec SizeReadSpec GrowSpec LimitSpec LimitFacts LimitAny DeriveSpec P_Derive P_SizeRead.

(** If the elements have one size, [count = f], [bits_read = f * SIZE_BITS] and
    [bytes_read = f * SIZE_BYTES] read the same, with the same errors, from every input;
    [f] can use all earlier fields.  Missing: fields before the collection without a size, the [Vec<u8>]
    (false, below). *)
Theorem C84_lengths_partial : forall cu fuel n c before a k size elem after f l input bit,
  starts_known c before -> of_size n a elem -> is_vec_u8 (TVec k size elem) = false -> in_range fuel n (slot_size k size) f -> same_length n f l ->
  from_bytes cu fuel (record c before l a k size elem after) input bit = from_bytes cu fuel (record c before (FCount f) a k size elem after) input bit /\
  try_from cu fuel (record c before l a k size elem after) input = try_from cu fuel (record c before (FCount f) a k size elem after) input.
Proof. exact same_limits. Qed.
Print Assumptions C84_lengths_partial.
(** A vector with a constant count is read like an array. *)
Theorem C84_array_partial : forall cu fuel n len c before a k size elem after input bit,
  starts_known c before -> of_size n a elem -> is_vec_u8 (TVec k size elem) = false -> hashed k = false -> a_limit a = None -> size <> 0%N -> (N.of_nat len * size <= isize_max)%N ->
  from_bytes cu fuel (record c before (FCount (fun _ _ _ => Z.of_nat len)) a k size elem after) input bit = from_bytes cu fuel (record_array c before a len elem after) input bit /\
  try_from cu fuel (record c before (FCount (fun _ _ _ => Z.of_nat len)) a k size elem after) input = try_from cu fuel (record_array c before a len elem after) input.
Proof. exact vec_as_array. Qed.
Print Assumptions C84_array_partial.

(** struct { n: u8 (4 bits), pad 4, v: Vec<Point> of n mod 4 points, last: u8 }
    struct Point { x: u16, y: 12 bits of u16, flag: bool (4 bits) }: 4 bytes *)
Definition Point : ty := TStruct big (field plain u16 (field (bits 12 plain) u16 (field (bits 4 plain) TBool FNil))).
Definition points (l : flimit) : ty := record big (field (padded 0 4 (bits 4 plain)) u8 FNil) l plain KVec 6 Point (field plain u8 FNil).
Definition how_many : expr Z := fun _ fs _ => Z.of_N (num (nth 0 fs VUnit) mod 4).
Definition points_bytes : list byte := [x20; x00; x01; x00; x21; x00; x03; x00; x40; xff].
Example C84_case :
  starts_known big (field (padded 0 4 (bits 4 plain)) u8 FNil) /\ of_size 32 plain Point /\ in_range 3 32 (slot_size KVec 6) how_many /\
  same_length 32 how_many (FBytes (fun ctx fs off => how_many ctx fs off * 4)%Z) /\ same_length 32 how_many (FBits (fun ctx fs off => how_many ctx fs off * 32)%Z) /\
  let v := VRec [VNum 2; VList [VRec [VNum 1; VNum 2; VBool true]; VRec [VNum 3; VNum 4; VBool false]]; VNum 255] in
  from_bytes no_customs 3 (points (FCount how_many)) points_bytes 0 = Ok (([], 0), v) /\
  from_bytes no_customs 3 (points (FBytes (fun ctx fs off => how_many ctx fs off * 4)%Z)) points_bytes 0 = Ok (([], 0), v).
Proof.
  split; [split; [reflexivity|split; [sizes|discriminate]]|]. split; [constructor; sizes|].
  split; [intros ctx fs off; unfold how_many, slot_size, usize_max, isize_max; cbn [hashed]; pose proof (N.mod_upper_bound (num (nth 0 fs VUnit)) 4 ltac:(discriminate)); lia|].
  split; [right; exists 4; split; reflexivity|]. split; [left; reflexivity|]. split; vm_compute; reflexivity.
Qed.
(** The count says two elements, there is one and a half: the same error either way. *)
Example C84_short : exists e, from_bytes no_customs 3 (points (FCount how_many)) (firstn 7 points_bytes) 0 = Err (Incomplete e) /\
  from_bytes no_customs 3 (points (FBits (fun ctx fs off => how_many ctx fs off * 32)%Z)) (firstn 7 points_bytes) 0 = Err (Incomplete e).
Proof. eexists. split; vm_compute; reflexivity. Qed.

(** If the pads inside an element have less than 8 bits each: from every source, also one
    that fails or is not at its start, with anything before the collection: parts without
    a size, seeks, hand-written readers. *)
Theorem C84_lengths_anywhere : forall cu fuel n c before a k size elem after f l s bit,
  elements_of n a elem -> is_vec_u8 (TVec k size elem) = false -> in_range fuel n (slot_size k size) f -> same_length n f l ->
  from_reader cu fuel (record c before l a k size elem after) s bit = from_reader cu fuel (record c before (FCount f) a k size elem after) s bit.
Proof. exact limits_anywhere. Qed.
Print Assumptions C84_lengths_anywhere.
Theorem C84_array_anywhere : forall cu fuel n len c before a k size elem after s bit,
  elements_of n a elem -> is_vec_u8 (TVec k size elem) = false -> hashed k = false -> a_limit a = None -> size <> 0%N -> (N.of_nat len * size <= isize_max)%N ->
  from_reader cu fuel (record c before (FCount (fun _ _ _ => Z.of_nat len)) a k size elem after) s bit = from_reader cu fuel (record_array c before a len elem after) s bit.
Proof. exact array_anywhere. Qed.
Print Assumptions C84_array_anywhere.
(** struct { name: CString, n: u8, v: Vec<Point> of n mod 4 points }, from the second byte
    of a source whose 9th call fails: in the second point. *)
Definition named (l : flimit) : ty := record cplain (field plain TCString (field plain u8 FNil)) l plain KVec 6 Point FNil.
Definition how_many_2nd : expr Z := fun _ fs _ => Z.of_N (num (nth 1 fs VUnit) mod 4).
Definition named_source (fails : option nat) : stream :=
  mkStream [xff; x41; x00; x02; x00; x01; x00; x21; x00; x03; x00; x40] 1 true None (fun k => match fails with Some j => if k =? j then Some (OtherKind 7, 0) else None | None => None end) 0.
Example C84_anywhere_case :
  elements_of 32 plain Point /\ in_range 3 32 (slot_size KVec 6) how_many_2nd /\ same_length 32 how_many_2nd (FBytes (fun ctx fs off => how_many_2nd ctx fs off * 4)%Z) /\
  fst (from_reader no_customs 3 (named (FCount how_many_2nd)) (named_source None) 0) = Ok (88, VRec [VList [VNum 65]; VNum 2; VList [VRec [VNum 1; VNum 2; VBool true]; VRec [VNum 3; VNum 4; VBool false]]]) /\
  fst (from_reader no_customs 3 (named (FBytes (fun ctx fs off => how_many_2nd ctx fs off * 4)%Z)) (named_source (Some 8)) 0) = Err (Io (OtherKind 7)).
Proof.
  split; [constructor; sizes|]. split; [intros ctx fs off; unfold how_many_2nd, slot_size, usize_max, isize_max; cbn [hashed]; pose proof (N.mod_upper_bound (num (nth 1 fs VUnit)) 4 ltac:(discriminate)); lia|].
  split; [right; exists 4; split; reflexivity|]. split; vm_compute; reflexivity.
Qed.
(** Elements with a hand-written reader, Hand of [P_SizeRead.v]: struct { n: u8, v: Vec<Hand> of n mod 4 }. *)
Definition how_many_1st : expr Z := fun _ fs _ => Z.of_N (num (nth 0 fs VUnit) mod 4).
Lemma centi_counts : counts 32 centi.
Proof.
  change (adds 32 centi). apply (d_bind 4 28); [apply d_bits|intros l|reflexivity]. apply (d_bind 4 24); [apply d_skip; lia|intros _|reflexivity].
  apply d_bind0; [apply (d_bytes 3)|intros bs]. destruct (_ <? _)%N; [apply d_fail|apply d_ret].
Qed.
Example C84_case_by_hand : elements_of 40 plain Hand /\ in_range 3 40 (slot_size KVec 8) how_many_1st /\
  same_length 40 how_many_1st (FBytes (fun ctx fs off => how_many_1st ctx fs off * 5)%Z) /\
  fst (from_reader no_customs 3 (record cplain (field plain u8 FNil) (FBytes (fun ctx fs off => how_many_1st ctx fs off * 5)%Z) plain KVec 8 Hand FNil)
    (mkStream [xff; x02; x7f; x00; x01; x00; x05; x10; x00; x00; x02; x06] 1 true None (fun _ => None) 0) 0)
    = Ok (88, VRec [VNum 2; VList [VRec [VNum 2567; VNum 5]; VRec [VNum 21; VNum 6]]]).
Proof.
  split; [|split; [|split; [right; exists 5; split; reflexivity|vm_compute; reflexivity]]].
  2:{ intros ctx fs off; unfold how_many_1st, slot_size, usize_max, isize_max; cbn [hashed]; pose proof (N.mod_upper_bound (num (nth 0 fs VUnit)) 4 ltac:(discriminate)); lia. }
  constructor; try exact (proj1 C83_case_by_hand); sizes. exact centi_counts.
Qed.
(** Padding of a byte is a seek: in a source that is not at its start it moves the count of
    bits on, and the length is never met. *)
Theorem C84_pads_refuted : exists elem f l s, of_size 16 plain elem /\ in_range 3 16 (slot_size KVec 1) f /\ same_length 16 f l /\
  fst (from_reader no_customs 3 (record cplain FNil l plain KVec 1 elem FNil) s 0) <> fst (from_reader no_customs 3 (record cplain FNil (FCount f) plain KVec 1 elem FNil) s 0) /\
  exists v, fst (from_reader no_customs 3 (record cplain FNil (FCount f) plain KVec 1 elem FNil) s 0) = Ok v.
Proof.
  exists (TStruct cplain (field (padded 0 8 plain) u8 FNil)), (fun _ _ _ => 1%Z), (FBits (fun _ _ _ => 1 * 16)%Z), (mkStream [xff; x01; x00; x02; x00] 1 true None (fun _ => None) 0).
  split; [constructor; sizes|]. split; [intros ctx fs off; unfold slot_size, usize_max, isize_max; cbn [hashed]; lia|]. split; [left; reflexivity|].
  split; [vm_compute; discriminate|eexists; vm_compute; reflexivity].
Qed.
Print Assumptions C84_pads_refuted.

(** A [Vec<u8>] with a [count] asks for all its bytes at once. *)
Theorem C84_vec_u8_refuted : exists before a f l input, starts_known cplain before /\ of_size 8 a u8 /\ in_range 3 8 (slot_size KVec 1) f /\ same_length 8 f l /\
  from_bytes no_customs 3 (record cplain before l a KVec 1 u8 FNil) input 0 <> from_bytes no_customs 3 (record cplain before (FCount f) a KVec 1 u8 FNil) input 0.
Proof.
  exists FNil, plain, (fun _ _ _ => 3%Z), (FBytes (fun _ _ _ => 3 * 1)%Z), [x01]. split; [split; [reflexivity|split; [exact I|discriminate]]|]. split; [constructor; sizes|].
  split; [intros ctx fs off; unfold slot_size, usize_max, isize_max; cbn [hashed]; lia|]. split; [right; exists 1; split; reflexivity|]. vm_compute. discriminate.
Qed.
Print Assumptions C84_vec_u8_refuted.
(** A length that ends inside an element is not noticed there: the next elements are read
    too, until one ends at that length or the input is over. *)
Theorem C84_overshoot_refuted : exists input e, 3 <= length input /\
  from_bytes no_customs 5 (record cplain FNil (FBytes (fun _ _ _ => 3)%Z) plain KVec 2 u16 FNil) input 0 = Err (Incomplete e).
Proof. exists [x01; x02; x03; x04], 16. split; [cbn; lia|vm_compute; reflexivity]. Qed.
Print Assumptions C84_overshoot_refuted.
