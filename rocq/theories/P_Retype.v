(** Properties of the integer types of sized fields, C82.

    Vocabulary: [RetypeSpec.v] ([retyped], [room], [nothing], [same_number], [signed_bits]), [Derive.v] (the API),
    [DeriveSpec.v] ([encode]). *)
From Coq Require Import Lia.
From Verif Require Import Base Spec Stream Reader Writer Prims CodecSpec Containers ContainerSpec Derive DeriveSpec DeriveProps P_Derive RetypeSpec RetypeFacts RetypeSigned.

(** Both declarations read the same from every source, with the same end of it, errors and
    panics. *)
Theorem C82_reads : forall cu fuel t t', retyped room nothing t t' ->
  (forall s bit, from_reader cu fuel t' s bit = from_reader cu fuel t s bit) /\
  (forall input bit, from_bytes cu fuel t' input bit = from_bytes cu fuel t input bit) /\
  (forall input, try_from cu fuel t' input = try_from cu fuel t input).
Proof. exact retyped_api. Qed.
Print Assumptions C82_reads.
(** They have the same format ... *)
Theorem C82_format : forall src o ce t t', retyped room_to_write nothing t t' -> forall pos v, encode src o ce t' None [] pos v = encode src o ce t None [] pos v.
Proof. exact retyped_same_format. Qed.
Print Assumptions C82_format.
(** ... and write its values to the same bytes. *)
Theorem C82_writes : forall cu ce o t t' v enc, customs_lawful SeekSource o cu ce -> retyped room_to_write nothing t t' ->
  encode SeekSource o ce t None [] 0 v = Some enc -> exists bytes, to_bytes cu t v = Ok bytes /\ to_bytes cu t' v = Ok bytes.
Proof. exact retyped_same_bytes. Qed.
Print Assumptions C82_writes.

(** struct Header { #[deku(bits = 4)] version: u8, #[deku(bits = 12)] flags: u16, #[deku(bytes = 3)] len: u32,
      #[deku(bits_read = "8", bits = 4)] nibbles: Vec<u16>, op: Op }
    #[deku(id_type = "u8", bits = 3)]
    enum Op { #[deku(id = 1)] A, #[deku(id = 2)] B { #[deku(bits = 13)] x: u16 } }
    with the types in the comment, and with u64, u32, u64, Vec<u32>, id_type u16 and u128. *)
Definition three_bytes (a : fattrs) : fattrs :=
  mkF (a_endian a) (a_order a) (a_bits a) (Some (fun _ _ => 3)) (a_ctx a) (a_limit a) (a_map a) (a_reader a) (a_writer a) (a_skip a) (a_cond a) (a_default a)
      (a_assert a) (a_assert_eq a) (a_seek a) (a_magic a) (a_pad_before a) (a_pad_after a) (a_temp a) (a_temp_value a) (a_update a).
Definition Op (id x : prim) : ty :=
  TEnum (mkE big None None (Some (fun _ _ => 3)) None) (TPrim id)
    (VCons (mkV (SId (VNum 1)) false) FNil
    (VCons (mkV (SId (VNum 2)) false) (field (bits 13 plain) (TPrim x) FNil) VNil)).
Definition Header (version flags len : prim) (size : N) (nibble id x : prim) : ty :=
  TStruct big
    (field (bits 4 plain) (TPrim version)
    (field (bits 12 plain) (TPrim flags)
    (field (three_bytes plain) (TPrim len)
    (field (limited (FBits (fun _ _ _ => 8%Z)) (bits 4 plain)) (TVec KVec size (TPrim nibble))
    (field plain (Op id x) FNil))))).
Definition Small : ty := Header PU8 (PU 2) (PU 4) 2 (PU 2) PU8 (PU 2).
Definition Wide : ty := Header (PU 8) (PU 4) (PU 8) 4 (PU 4) (PU 2) (PU 16).
Definition header : value := VRec [VNum 4; VNum 2748; VNum 66051; VList [VNum 5; VNum 10]; VVar 1 [VNum 8191]].
Definition header_bytes : list byte := [x4a; xbc; x01; x02; x03; x5a; x5f; xff].
Example C82_ex : retyped room_to_write nothing Small Wide /\
  to_bytes no_customs Small header = Ok header_bytes /\ try_from no_customs 99 Wide header_bytes = Ok header.
Proof.
  split; [|split; vm_compute; reflexivity].
  repeat match goal with
    | |- retyped _ nothing _ _ => split; [reflexivity|]
    | |- retyped_fields _ _ (FCons _ _ _ _) _ => split; [reflexivity|split; [reflexivity|split; [|split]]]
    | |- retyped_fields _ _ (field _ _ _) _ => split; [reflexivity|split; [reflexivity|split; [|split]]]
    | |- retyped_fields _ _ FNil _ => exact I
    | |- retyped_variants _ _ VNil _ => exact I
    | |- retyped_variants _ _ (VCons _ _ _) _ => split; [reflexivity|split; [cbn [v_sel]|]]
    | |- retyped _ _ (Op _ _) _ => split; [reflexivity|split]
    | |- retyped _ _ (TVec _ _ _) _ => split; [reflexivity|split; [right; split; [discriminate|split; [discriminate|]]|]]
    | |- retyped _ _ (TPrim _) _ => right
    end.
  all: intros lim args H; lazymatch type of H with
    | by_field _ _ _ _ => destruct H as [(ctx & fs & off & ->) HL]
    | _ = _ /\ (exists l, by_field _ _ _ _) => destruct H as [_ (lm & (ctx & fs & off & ->) & HL)]
    | _ => destruct H as [_ (ctx & ->)] end.
  all: lazymatch goal with
    | |- is_count _ = _ => cbn in HL; destruct lim; [|contradiction]; destruct HL as (c1 & c2 & c3 & [= <-]); reflexivity
    | |- _ => split; [split; [exact I|split; [exact I|eexists; split; [reflexivity|]]]; cbn; lia|intros c n [= <-]; discriminate] end.
Qed.

(** More than 8 bits, big-endian and least significant bit first are read the same, and
    written to different bytes:
      #[deku(bit_order = "lsb", endian = "big")] struct L { #[deku(bits = 16)] x: u16 }   and u32 *)
Definition big_lsb : cattrs := mkC (Some (fun _ _ => Big)) (Some (fun _ _ => Lsb0)) [] None None.
Definition L (p : prim) : ty := TStruct big_lsb (field (bits 16 plain) (TPrim p) FNil).
Theorem C82_big_lsb_refuted : exists t t' v, retyped room nothing t t' /\ (exists enc, encode SeekSource Lsb0 no_format t None [] 0 v = Some enc) /\
  exists a b, to_bytes no_customs t v = Ok a /\ to_bytes no_customs t' v = Ok b /\ a <> b /\
    try_from no_customs 99 t a = Ok v /\ try_from no_customs 99 t' a = Ok v /\ try_from no_customs 99 t' b <> Ok v.
Proof.
  exists (L (PU 2)), (L (PU 4)), (VRec [VNum 4660]). split.
  - split; [reflexivity|]. split; [reflexivity|]. split; [reflexivity|].
    assert (H : retyped room (by_field big_lsb (bits 16 plain)) (TPrim (PU 2)) (TPrim (PU 4))).
    { right. intros lim args [(ctx & fs & off & ->) _]. split; [exact I|split; [exact I|]]. eexists. split; [reflexivity|]. cbn. lia. }
    split; [exact H|]. split; [exact H|exact I].
  - split; [eexists; vm_compute; reflexivity|]. eexists. eexists. split; [vm_compute; reflexivity|]. split; [vm_compute; reflexivity|]. split; [discriminate|].
    split; [vm_compute; reflexivity|]. split; [vm_compute; reflexivity|]. vm_compute. discriminate.
Qed.
Print Assumptions C82_big_lsb_refuted.
(** A count of a [Vec<u8>] is a count of whole bytes, whatever the size of the elements:
      struct V { #[deku(bits = 4, count = "2")] l: Vec<u8> }   and Vec<u16> *)
Definition V (size : N) (p : prim) : ty := TStruct cplain (field (limited (FCount (fun _ _ _ => 2%Z)) (bits 4 plain)) (TVec KVec size (TPrim p)) FNil).
Theorem C82_vec_refuted : exists input, from_bytes no_customs 99 (V 1 PU8) input 0 <> from_bytes no_customs 99 (V 2 (PU 2)) input 0.
Proof. exists [x12; x34]. vm_compute. discriminate. Qed.
Print Assumptions C82_vec_refuted.
(** Without a size the type gives it. *)
Theorem C82_unsized_refuted : exists input, try_from no_customs 99 (TStruct big (field plain u8 FNil)) input <> try_from no_customs 99 (TStruct big (field plain u16 FNil)) input.
Proof. exists [x12; x34]. vm_compute. discriminate. Qed.
Print Assumptions C82_unsized_refuted.

(** ** Signed integers *)

(** A signed integer with [bits = n] is the same number in every type that has room, with
    the same end of the input and the same errors, from every source. *)
Theorem C82_signed_reads : forall wb wb' c n r, signed_bits c n -> 1 <= n <= 8 * wb -> n <= 8 * wb' ->
  snd (prim_read (PI wb') c r) = snd (prim_read (PI wb) c r) /\
  same_number (8 * wb) (8 * wb') (fst (prim_read (PI wb) c r)) (fst (prim_read (PI wb') c r)).
Proof. exact signed_same_read. Qed.
Print Assumptions C82_signed_reads.
(** The same number is written to the same bits, or refused by both. *)
Theorem C82_signed_writes : forall wb wb' e n v v', 1 <= n <= 8 * wb -> n <= 8 * wb' -> (v < 2 ^ N.of_nat (8 * wb))%N -> (v' < 2 ^ N.of_nat (8 * wb'))%N ->
  signed (8 * wb') v' = signed (8 * wb) v ->
  (exists bits, forall a, emits Msb0 a (prim_write (PI wb) (CEB e n) v) bits /\ emits Msb0 a (prim_write (PI wb') (CEB e n) v') bits) \/
  (forall w, writable w -> prim_write (PI wb) (CEB e n) v w = (Err InvalidParam, w) /\ prim_write (PI wb') (CEB e n) v' w = (Err InvalidParam, w)).
Proof. exact signed_same_write. Qed.
Print Assumptions C82_signed_writes.
(** -3 in 5 bits, as an i8 and as an i32; 16 does not fit. *)
Example C82_signed_case : signed_bits (CEB Big 5) 5 /\
  fst (prim_read (PI 1) (CEB Big 5) (reader_new (cursor [xef]))) = Ok 0xfd%N /\
  fst (prim_read (PI 4) (CEB Big 5) (reader_new (cursor [xef]))) = Ok 0xfffffffd%N /\
  signed 8 0xfd = (-3)%Z /\ signed 32 0xfffffffd = (-3)%Z /\
  fst (prim_write (PI 1) (CEB Big 5) 0xfd (writer_new vec_sink)) = Ok tt /\
  w_left (snd (prim_write (PI 1) (CEB Big 5) 0xfd (writer_new vec_sink))) = [true; true; true; false; true] /\
  w_left (snd (prim_write (PI 4) (CEB Big 5) 0xfffffffd (writer_new vec_sink))) = [true; true; true; false; true] /\
  fst (prim_write (PI 1) (CEB Big 5) 16 (writer_new vec_sink)) = Err InvalidParam /\
  fst (prim_write (PI 4) (CEB Big 5) 16 (writer_new vec_sink)) = Err InvalidParam.
Proof. repeat (split; [vm_compute; reflexivity|]). vm_compute. reflexivity. Qed.
(** A size in bytes is another matter: two bytes are -1 in an i16 and 65535 in an i32. *)
Theorem C82_signed_bytes_refuted : exists e n r, n <= 2 /\ n <= 4 /\
  ~ same_number (8 * 2) (8 * 4) (fst (prim_read (PI 2) (CEY e n) r)) (fst (prim_read (PI 4) (CEY e n) r)).
Proof. exists Big, 2, (reader_new (cursor [xff; xff])). split; [lia|]. split; [lia|]. vm_compute. discriminate. Qed.
Print Assumptions C82_signed_bytes_refuted.
(** With a [bit_order], -1 in 8 bits is written by an i8 and refused by an i16. *)
Theorem C82_signed_order_refuted : exists e n v v', n <= 8 /\ n <= 16 /\ signed 16 v' = signed 8 v /\
  fst (prim_write (PI 1) (CEBO e n Msb0) v (writer_new vec_sink)) = Ok tt /\
  fst (prim_write (PI 2) (CEBO e n Msb0) v' (writer_new vec_sink)) = Err InvalidParam.
Proof. exists Big, 8, 0xff%N, 0xffff%N. split; [lia|]. split; [lia|]. split; [reflexivity|]. split; vm_compute; reflexivity. Qed.
Print Assumptions C82_signed_order_refuted.
