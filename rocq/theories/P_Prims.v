(** Properties of the integer codecs, C18-C24.

    Vocabulary: [CodecSpec.v] ([emits], [reads], [layout], [signed], the meaning of
    contexts, sequences of fields).  [prim_read], [prim_write] are the model.
    Values are bit patterns; [PI wb] is the signed type of [wb] bytes. *)
From Coq Require Import Lia.
From Verif Require Import Base Spec Stream Reader Session Writer WSession Prims CodecSpec PrimProps.

Definition new_writer : writer := writer_new vec_sink.
(** Write one value and finalize; read one value from the start of [data]. *)
Definition encoded (p : prim) (c : pctx) (v : N) (data : list byte) : Prop :=
  exists w, (let* _ := prim_write p c v in finalize) new_writer = (Ok tt, w) /\ k_data (w_k w) = data.
Definition decoded (p : prim) (c : pctx) (data : list byte) (v : N) : Prop :=
  exists r, prim_read p c (reader_new (cursor data)) = (Ok v, r).

(** ** C18: unsigned round trips *)

(** Missing: big-endian Lsb0 with [8 < n < width], which is false (C23). *)
Theorem C18_unsigned_codec_partial : forall p c e n o v,
  is_unsigned p -> bits_of_ctx c = Some (e, n, o) -> 1 <= n <= prim_width p ->
  (e = Big -> o = Lsb0 -> n <= 8 \/ n = prim_width p) -> (v < 2 ^ N.of_nat n)%N ->
  (forall a, emits o a (prim_write p c v) (layout e o n v)) /\
  (forall src, reads src o (prim_read p c) (layout e o n v) v).
Proof. intros p c e n o v Hu Hc Hn Hb. exact (prim_u_codec p c e n o v Hu Hc (conj Hn Hb)). Qed.
Print Assumptions C18_unsigned_codec_partial.
Example C18_case : is_unsigned (PU 4) /\ bits_of_ctx (CEBO Little 19 Lsb0) = Some (Little, 19, Lsb0) /\
  1 <= 19 <= prim_width (PU 4) /\ (0x5abcd < 2 ^ N.of_nat 19)%N /\
  encoded (PU 4) (CEBO Little 19 Lsb0) 0x5abcd [xcd; xab; x05] /\ decoded (PU 4) (CEBO Little 19 Lsb0) [xcd; xab; x05] 0x5abcd.
Proof.
  split; [exact I|]. split; [reflexivity|]. split; [cbn; lia|]. split; [reflexivity|].
  split; [eexists; split; vm_compute; reflexivity|]. eexists. vm_compute. reflexivity.
Qed.

(** Every bit pattern of the size is read as some value, and writing that value
    gives the same bits again. *)
Theorem C18_read_then_write_partial : forall p c e n o bits,
  is_unsigned p -> bits_of_ctx c = Some (e, n, o) -> 1 <= n <= prim_width p ->
  (e = Big -> o = Lsb0 -> n <= 8 \/ n = prim_width p) -> length bits = n ->
  exists v, (v < 2 ^ N.of_nat n)%N /\
    (forall src, reads src o (prim_read p c) bits v) /\ (forall a, emits o a (prim_write p c v) bits).
Proof. intros p c e n o bits Hu Hc Hn Hb. exact (prim_u_canonical p c e n o bits Hu Hc (conj Hn Hb)). Qed.
Print Assumptions C18_read_then_write_partial.
Example C18_case_canonical : is_unsigned (PU 2) /\ bits_of_ctx (CEB Big 12) = Some (Big, 12, Msb0) /\
  decoded (PU 2) (CEB Big 12) [xab; xc0] 0xabc /\ encoded (PU 2) (CEB Big 12) 0xabc [xab; xc0].
Proof.
  split; [exact I|]. split; [reflexivity|]. split; [eexists; vm_compute; reflexivity|].
  eexists; split; vm_compute; reflexivity.
Qed.

(** Any sequence of such fields in one bit order, of any types and sizes: write them
    all, finalize, read them back, with anything behind. *)
Theorem C18_sequences_round_trip_partial : forall o fs tail, Forall (field_fits o) fs ->
  exists w r, (let* _ := write_fields fs in finalize) (writer_new vec_sink) = (Ok tt, w) /\
    read_fields (map fst fs) (reader_new (cursor (k_data (w_k w) ++ tail))) = (Ok (map snd fs), r) /\
    r_bits r = fields_bits fs.
Proof. exact fields_roundtrip. Qed.
Print Assumptions C18_sequences_round_trip_partial.
Definition ex_fields : list field :=
  [((PU8, CBO 3 Lsb0), 5%N); ((PU 4, CEBO Little 19 Lsb0), 0x5abcd%N); ((PU 2, CEBO Big 7 Lsb0), 0x51%N); ((PU 8, CBO 64 Lsb0), 0x123456789abcdef0%N)].
Example C18_case_sequence : Forall (field_fits Lsb0) ex_fields /\ fields_bits ex_fields = 93.
Proof.
  split; [|reflexivity]. repeat (apply Forall_cons || apply Forall_nil);
  (split; [exact I|]; do 2 eexists; split; [reflexivity|]; split; [split; [cbn; lia|intros; left; cbn; lia || discriminate]|reflexivity]).
Qed.

(** ** C19: the range check *)

(** Missing: [n = 0], see below. *)
Theorem C19_range_check_exact_partial : forall p c e n o v w,
  is_unsigned p -> bits_of_ctx c = Some (e, n, o) -> 1 <= n ->
  (v < 2 ^ N.of_nat (prim_width p))%N -> writable w ->
  (n <= prim_width p /\ (v < 2 ^ N.of_nat n)%N -> exists w', prim_write p c v w = (Ok tt, w')) /\
  (~ (n <= prim_width p /\ (v < 2 ^ N.of_nat n)%N) -> prim_write p c v w = (Err InvalidParam, w)).
Proof. exact PrimFacts.exact_prim_u. Qed.
Print Assumptions C19_range_check_exact_partial.
Example C19_case : writable new_writer /\ (32 < 2 ^ N.of_nat (prim_width (PU 4)))%N /\
  prim_write (PU 4) (CEBO Big 5 Msb0) 32 new_writer = (Err InvalidParam, new_writer) /\
  encoded (PU 4) (CEBO Big 5 Msb0) 31 [xf8].
Proof.
  split; [split; [reflexivity|split; [reflexivity|cbn; lia]]|]. split; [reflexivity|]. split; [vm_compute; reflexivity|].
  eexists; split; vm_compute; reflexivity.
Qed.
(** Zero bits of the value 0 in big-endian Msb0 order panic. *)
Theorem C19_zero_bits_refuted : exists p c e o w,
  is_unsigned p /\ bits_of_ctx c = Some (e, 0, o) /\ writable w /\ (0 < 2 ^ N.of_nat 0)%N /\
  prim_write p c 0 w = (Panic, w).
Proof.
  exists (PU 2), (CEBO Big 0 Msb0), Big, Msb0, new_writer. split; [exact I|]. split; [reflexivity|].
  split; [split; [reflexivity|split; [reflexivity|cbn; lia]]|]. split; [reflexivity|]. vm_compute. reflexivity.
Qed.
Print Assumptions C19_zero_bits_refuted.

(** ** C20: signed integers *)

Theorem C20_signed_range_exact : forall wb e n v w,
  1 <= wb -> 1 <= n -> (v < 2 ^ N.of_nat (8 * wb))%N -> writable w ->
  (n <= 8 * wb /\ (- 2 ^ (Z.of_nat n - 1) <= signed (8 * wb) v < 2 ^ (Z.of_nat n - 1))%Z ->
     exists w', prim_write (PI wb) (CEB e n) v w = (Ok tt, w')) /\
  (~ (n <= 8 * wb /\ (- 2 ^ (Z.of_nat n - 1) <= signed (8 * wb) v < 2 ^ (Z.of_nat n - 1))%Z) ->
     prim_write (PI wb) (CEB e n) v w = (Err InvalidParam, w)).
Proof. exact prim_i_exact. Qed.
Print Assumptions C20_signed_range_exact.
Theorem C20_signed_codec : forall wb e n v,
  1 <= n <= 8 * wb -> (v < 2 ^ N.of_nat (8 * wb))%N ->
  (- 2 ^ (Z.of_nat n - 1) <= signed (8 * wb) v < 2 ^ (Z.of_nat n - 1))%Z ->
  (forall a, emits Msb0 a (prim_write (PI wb) (CEB e n) v) (layout e Msb0 n v)) /\
  (forall src, reads src Msb0 (prim_read (PI wb) (CEB e n)) (layout e Msb0 n v) v).
Proof. exact prim_i_codec. Qed.
Print Assumptions C20_signed_codec.
(** -5 in 12 bits of an i32. *)
Example C20_case : signed 32 0xfffffffb = (-5)%Z /\ (- 2 ^ (Z.of_nat 12 - 1) <= -5 < 2 ^ (Z.of_nat 12 - 1))%Z /\
  encoded (PI 4) (CEB Little 12) 0xfffffffb [xfb; xf0] /\ decoded (PI 4) (CEB Little 12) [xfb; xf0] 0xfffffffb /\
  signed 32 2048 = 2048%Z /\ prim_write (PI 4) (CEB Little 12) 2048 new_writer = (Err InvalidParam, new_writer).
Proof.
  split; [reflexivity|]. split; [cbn; lia|]. split; [eexists; split; vm_compute; reflexivity|].
  split; [eexists; vm_compute; reflexivity|]. split; [reflexivity|vm_compute; reflexivity].
Qed.
(** Without an [endian] the same holds when the size is not a multiple of 8. *)
Theorem C20_signed_codec_no_endian_partial : forall wb n v,
  1 <= n <= 8 * wb -> n mod 8 <> 0 -> (v < 2 ^ N.of_nat (8 * wb))%N ->
  (- 2 ^ (Z.of_nat n - 1) <= signed (8 * wb) v < 2 ^ (Z.of_nat n - 1))%Z ->
  (forall a, emits Msb0 a (prim_write (PI wb) (CB n) v) (layout Little Msb0 n v)) /\
  (forall src, reads src Msb0 (prim_read (PI wb) (CB n)) (layout Little Msb0 n v) v).
Proof. exact prim_i_codec_le. Qed.
Print Assumptions C20_signed_codec_no_endian_partial.
(** When it is a multiple of 8, the read does not extend the sign: -1 as an i32 with
    [bits = 16] comes back as 65535. *)
Theorem C20_signed_bits16_refuted : exists wb n v data v',
  n <= 8 * wb /\ (- 2 ^ (Z.of_nat n - 1) <= signed (8 * wb) v < 2 ^ (Z.of_nat n - 1))%Z /\
  encoded (PI wb) (CB n) v data /\ decoded (PI wb) (CB n) data v' /\ signed (8 * wb) v' <> signed (8 * wb) v.
Proof.
  exists 4, 16, 0xffffffff%N, [xff; xff], 65535%N. split; [lia|]. split; [cbn; lia|].
  split; [eexists; split; vm_compute; reflexivity|]. split; [eexists; vm_compute; reflexivity|]. cbn. lia.
Qed.
Print Assumptions C20_signed_bits16_refuted.

(** ** C21: signed integers with an explicit order or a byte size *)

(** Missing: negative values and values at or above [2 ^ (n - 1)] in a size below
    the width; see the refutations. *)
Theorem C21_explicit_msb_partial : forall wb e n v,
  1 <= n <= 8 * wb -> (v < 2 ^ N.of_nat (8 * wb))%N ->
  (v < 2 ^ N.of_nat (n - 1))%N \/ n = 8 * wb ->
  (forall a, emits Msb0 a (prim_write (PI wb) (CEBO e n Msb0) v) (layout e Msb0 n v)) /\
  (forall src, reads src Msb0 (prim_read (PI wb) (CEBO e n Msb0)) (layout e Msb0 n v) v).
Proof. exact prim_i_explicit_order. Qed.
Print Assumptions C21_explicit_msb_partial.
Example C21_case : (5 < 2 ^ N.of_nat (4 - 1))%N /\ encoded (PI 1) (CEBO Big 4 Msb0) 5 [x50] /\
  encoded (PI 1) (CEB Big 4) 5 [x50] /\ decoded (PI 1) (CEBO Big 4 Msb0) [x50] 5.
Proof.
  split; [reflexivity|]. split; [eexists; split; vm_compute; reflexivity|].
  split; [eexists; split; vm_compute; reflexivity|eexists; vm_compute; reflexivity].
Qed.
(** -1 fits four bits and is written without [bit_order]; with it, it is rejected. *)
Theorem C21_negative_rejected_refuted : exists v,
  signed 8 v = (-1)%Z /\ encoded (PI 1) (CEB Big 4) v [xf0] /\
  prim_write (PI 1) (CEBO Big 4 Msb0) v new_writer = (Err InvalidParam, new_writer).
Proof.
  exists 255%N. split; [reflexivity|]. split; [eexists; split; vm_compute; reflexivity|]. vm_compute. reflexivity.
Qed.
Print Assumptions C21_negative_rejected_refuted.
(** 15 does not fit four signed bits and is rejected without [bit_order]; with it,
    it is written and comes back as -1. *)
Theorem C21_overflow_accepted_refuted : exists v v',
  signed 8 v = 15%Z /\ prim_write (PI 1) (CEB Big 4) v new_writer = (Err InvalidParam, new_writer) /\
  encoded (PI 1) (CEBO Big 4 Msb0) v [xf0] /\ decoded (PI 1) (CEBO Big 4 Msb0) [xf0] v' /\ signed 8 v' = (-1)%Z.
Proof.
  exists 15%N, 255%N. split; [reflexivity|]. split; [vm_compute; reflexivity|].
  split; [eexists; split; vm_compute; reflexivity|]. split; [eexists; vm_compute; reflexivity|reflexivity].
Qed.
Print Assumptions C21_overflow_accepted_refuted.
(** -1 as an i32 with [bits = 16] and with [bytes = 2]: same bytes, different values. *)
Theorem C21_byte_size_refuted : exists v v',
  signed 32 v = (-1)%Z /\ encoded (PI 4) (CEB Big 16) v [xff; xff] /\ decoded (PI 4) (CEB Big 16) [xff; xff] v /\
  encoded (PI 4) (CEY Big 2) v [xff; xff] /\ decoded (PI 4) (CEY Big 2) [xff; xff] v' /\ signed 32 v' = 65535%Z.
Proof.
  exists 0xffffffff%N, 65535%N. split; [reflexivity|]. split; [eexists; split; vm_compute; reflexivity|].
  split; [eexists; vm_compute; reflexivity|]. split; [eexists; split; vm_compute; reflexivity|].
  split; [eexists; vm_compute; reflexivity|reflexivity].
Qed.
Print Assumptions C21_byte_size_refuted.

(** ** C22: byte sizes *)

(** Missing: values at or above [2 ^ (8 * n)], which lose their high bytes, and Lsb0
    inside a byte. *)
Theorem C22_byte_sized_round_trip_partial : forall p c e n o v,
  bytes_of_ctx (prim_bytes p) c = Some (e, n, o) -> 0 < n <= prim_bytes p -> (v < 2 ^ N.of_nat (8 * n))%N ->
  (forall a, o = Msb0 \/ a = 0 -> emits o a (prim_write p c v) (bitstring o (to_bytes_e e n v))) /\
  (forall src, reads src o (prim_read p c) (bitstring o (to_bytes_e e n v)) v).
Proof. exact prim_bytes_roundtrip. Qed.
Print Assumptions C22_byte_sized_round_trip_partial.
(** For all values: what comes back is the value modulo [2 ^ (8 * n)]. *)
Theorem C22_byte_sized_truncates : forall p c e n o v,
  bytes_of_ctx (prim_bytes p) c = Some (e, n, o) -> 0 < n <= prim_bytes p -> (v < 2 ^ N.of_nat (prim_width p))%N ->
  (forall a, o = Msb0 \/ a = 0 -> emits o a (prim_write p c v) (bitstring o (to_bytes_e e n v))) /\
  (forall src, reads src o (prim_read p c) (bitstring o (to_bytes_e e n v)) (v mod 2 ^ N.of_nat (8 * n))%N).
Proof. exact prim_bytes_codec. Qed.
Print Assumptions C22_byte_sized_truncates.
(** More bytes than the type has: rejected, nothing written. *)
Theorem C22_oversize_write_rejected : forall p c e n o v w,
  p <> PU8 -> bytes_of_ctx (prim_bytes p) c = Some (e, n, o) -> prim_bytes p < n ->
  prim_write p c v w = (Err InvalidParam, w).
Proof. exact bytes_oversize_write. Qed.
Print Assumptions C22_oversize_write_rejected.
Example C22_case : bytes_of_ctx (prim_bytes (PU 4)) (CEY Big 3) = Some (Big, 3, Msb0) /\ (0x123456 < 2 ^ N.of_nat (8 * 3))%N /\
  encoded (PU 4) (CEY Big 3) 0x123456 [x12; x34; x56] /\ decoded (PU 4) (CEY Big 3) [x12; x34; x56] 0x123456 /\
  prim_write (PU 4) (CEY Big 5) 1 new_writer = (Err InvalidParam, new_writer).
Proof.
  split; [reflexivity|]. split; [reflexivity|]. split; [eexists; split; vm_compute; reflexivity|].
  split; [eexists; vm_compute; reflexivity|vm_compute; reflexivity].
Qed.
Theorem C22_high_bytes_lost_refuted : exists p n v data v',
  (v < 2 ^ N.of_nat (prim_width p))%N /\ encoded p (CEY Big n) v data /\ decoded p (CEY Big n) data v' /\ v' <> v.
Proof.
  exists (PU 2), 1, 0x1234%N, [x34], 0x34%N. split; [reflexivity|]. split; [eexists; split; vm_compute; reflexivity|].
  split; [eexists; vm_compute; reflexivity|discriminate].
Qed.
Print Assumptions C22_high_bytes_lost_refuted.
(** A whole [u8] with [bit_order = "lsb"] after four Lsb0 bits does not come back. *)
Definition ex_lsb_misaligned : list field := [((PU8, CBO 4 Lsb0), 5%N); ((PU8, CO Lsb0), 0x12%N); ((PU8, CBO 4 Lsb0), 3%N)].
Theorem C22_lsb0_inside_a_byte_refuted : exists fs w r vs,
  (let* _ := write_fields fs in finalize) new_writer = (Ok tt, w) /\
  read_fields (map fst fs) (reader_new (cursor (k_data (w_k w)))) = (Ok vs, r) /\ vs <> map snd fs.
Proof.
  exists ex_lsb_misaligned. do 3 eexists. split; [vm_compute; reflexivity|]. split; [vm_compute; reflexivity|]. vm_compute. discriminate.
Qed.
Print Assumptions C22_lsb0_inside_a_byte_refuted.

(** ** C23: big-endian Lsb0 *)

(** Missing: [8 < n < width]; see the refutations. *)
Theorem C23_big_lsb0_partial : forall p n v,
  is_unsigned p -> 1 <= n <= 8 \/ n = prim_width p -> 1 <= n <= prim_width p -> (v < 2 ^ N.of_nat n)%N ->
  (forall a, emits Lsb0 a (prim_write p (CEBO Big n Lsb0) v) (layout Big Lsb0 n v)) /\
  (forall src, reads src Lsb0 (prim_read p (CEBO Big n Lsb0)) (layout Big Lsb0 n v) v).
Proof.
  intros p n v Hu Hb Hn. refine (prim_u_codec p (CEBO Big n Lsb0) Big n Lsb0 v Hu eq_refl (conj Hn _)).
  intros _ _. destruct Hb as [[_ Hb]|Hb]; [now left|now right].
Qed.
Print Assumptions C23_big_lsb0_partial.
Example C23_case : encoded (PU 2) (CEBO Big 16 Lsb0) 0x1234 [x12; x34] /\ decoded (PU 2) (CEBO Big 16 Lsb0) [x12; x34] 0x1234 /\
  16 = prim_width (PU 2).
Proof. split; [eexists; split; vm_compute; reflexivity|]. split; [eexists; vm_compute; reflexivity|reflexivity]. Qed.
(** 0xabc in 12 bits is accepted, its low byte is never written. *)
Theorem C23_write_refuted : exists p n v v' data,
  1 <= n <= prim_width p /\ (v < 2 ^ N.of_nat n)%N /\
  encoded p (CEBO Big n Lsb0) v data /\ decoded p (CEBO Big n Lsb0) data v' /\ v' <> v.
Proof.
  exists (PU 2), 12, 0xabc%N. do 2 eexists. split; [cbn; lia|]. split; [reflexivity|].
  split; [eexists; split; vm_compute; reflexivity|]. split; [eexists; vm_compute; reflexivity|]. discriminate.
Qed.
Print Assumptions C23_write_refuted.
(** Two different values are written as the same bytes. *)
Theorem C23_write_not_injective_refuted : exists p n v1 v2 data, v1 <> v2 /\
  (v1 < 2 ^ N.of_nat n)%N /\ (v2 < 2 ^ N.of_nat n)%N /\
  encoded p (CEBO Big n Lsb0) v1 data /\ encoded p (CEBO Big n Lsb0) v2 data.
Proof.
  exists (PU 2), 12, 0xa0c%N, 0xa1c%N. eexists. split; [discriminate|]. split; [reflexivity|]. split; [reflexivity|].
  split; eexists; split; vm_compute; reflexivity.
Qed.
Print Assumptions C23_write_not_injective_refuted.
(** A 12-bit read returns a value that does not fit 12 bits and cannot be written. *)
Theorem C23_read_refuted : exists p n data v,
  decoded p (CEBO Big n Lsb0) data v /\ (2 ^ N.of_nat n <= v)%N /\
  prim_write p (CEBO Big n Lsb0) v new_writer = (Err InvalidParam, new_writer).
Proof.
  exists (PU 2), 12, [xff; xff]. eexists. split; [eexists; vm_compute; reflexivity|]. split; [discriminate|]. vm_compute. reflexivity.
Qed.
Print Assumptions C23_read_refuted.

(** ** C24: oversize reads *)

Theorem C24_oversize_bits_rejected : forall p c e n o r,
  bits_of_ctx c = Some (e, n, o) -> prim_width p < n ->
  p <> PU8 \/ n mod 8 <> 0 \/ (exists e', c = CEB e' n \/ c = CEBO e' n o) ->
  prim_read p c r = (Err Parse, r).
Proof. exact oversize_bits. Qed.
Print Assumptions C24_oversize_bits_rejected.
Theorem C24_oversize_bytes_rejected : forall p c e n o r,
  p <> PU8 -> bytes_of_ctx (prim_bytes p) c = Some (e, n, o) -> prim_bytes p < n ->
  prim_read p c r = (Err Parse, r).
Proof. exact oversize_bytes. Qed.
Print Assumptions C24_oversize_bytes_rejected.
Example C24_case : forall r, prim_read (PI 2) (CEB Big 17) r = (Err Parse, r) /\ prim_read (PU 4) (CB 40) r = (Err Parse, r) /\
  prim_read (PU 4) (CY 5) r = (Err Parse, r).
Proof. intros r. repeat split. Qed.
(** [u8] (excluded from the property): [bits = 16] and [bytes = 2] silently read one byte. *)
Theorem C24_u8_oversize_refuted : exists data r,
  prim_read PU8 (CB 16) (reader_new (cursor data)) = (Ok 255%N, r) /\ r_bits r = 8 /\
  prim_read PU8 (CY 2) (reader_new (cursor data)) = (Ok 255%N, r).
Proof.
  exists [xff; x01]. eexists. split; [vm_compute; reflexivity|]. split; vm_compute; reflexivity.
Qed.
Print Assumptions C24_u8_oversize_refuted.
