(** Properties of [DekuSize] on reading, C83.

    Vocabulary: [Derive.v] ([size_bits] is SIZE_BITS, [size_bytes] is SIZE_BYTES),
    [SizeReadSpec.v] ([sized]).  Examples as in [P_Derive.v] and [P_Size.v]. *)
From Coq Require Import Lia.
From Verif Require Import Base Spec Stream Reader Prims Containers Derive SizeSpec SizeReadSpec SizeReadFacts DeriveSpec P_Derive.
From Verif Require P_Size.

(** Without enums and skipped fields: every message read is SIZE_BITS long, and the rest
    starts right after it.  Missing: fields with [temp], [reader], [cond] or [skip], sizes
    on types other than integers, [u8] with [bits] over 8 (false for each, below). *)
Theorem C83_exact_partial : forall cu fuel t n input bit rest off v, sized true t -> size_bits t = Some n -> from_bytes cu fuel t input bit = Ok ((rest, off), v) ->
  bit + n <= 8 * length input /\ rest = skipn ((bit + n) / 8) input /\ off = (bit + n) mod 8.
Proof. exact takes_size. Qed.
Print Assumptions C83_exact_partial.
(** From a stream: the number of bits returned, and where the stream is left. *)
Theorem C83_position_partial : forall cu fuel t n input bit k v s, sized true t -> size_bits t = Some n -> from_reader cu fuel t (cursor input) bit = (Ok (k, v), s) ->
  k = bit + n /\ s_pos s = (bit + n + 7) / 8.
Proof. exact position_after. Qed.
Print Assumptions C83_position_partial.
(** [try_from] takes inputs of SIZE_BYTES bytes and no others. *)
Theorem C83_try_from_partial : forall cu fuel t n input v, sized true t -> size_bits t = Some n ->
  (try_from cu fuel t input = Ok v <-> n = 8 * length input /\ from_bytes cu fuel t input 0 = Ok (([], 0), v)).
Proof. exact whole_size. Qed.
Print Assumptions C83_try_from_partial.
(** With enums and skipped fields: SIZE_BITS is an upper bound ... *)
Theorem C83_bound_partial : forall cu fuel t n input bit rest off v, sized false t -> size_bits t = Some n -> from_bytes cu fuel t input bit = Ok ((rest, off), v) ->
  exists k, k <= bit + n /\ k <= 8 * length input /\ rest = skipn (k / 8) input /\ off = k mod 8.
Proof. exact takes_at_most. Qed.
Print Assumptions C83_bound_partial.
(** ... and that much input is enough, whatever is in it: no read asks for more. *)
Theorem C83_enough_partial : forall cu fuel t n input bit e, sized false t -> size_bits t = Some n -> bit + n <= 8 * length input ->
  from_bytes cu fuel t input bit <> Err (Incomplete e) /\ (bit = 0 -> try_from cu fuel t input <> Err (Incomplete e)).
Proof. exact size_enough. Qed.
Print Assumptions C83_enough_partial.

Ltac sizes :=
  cbn; repeat match goal with
  | |- _ /\ _ => split
  | |- sized_field _ _ _ _ => constructor
  | |- sized_id _ _ => intro
  | |- constant_size _ => intros ? E; try discriminate; cbn in E; injection E as <-
  | |- constant_pad _ => intros ? E; try discriminate; cbn in E; injection E as <-
  | |- size_on_read _ _ _ => split; [unfold size_on; cbn; first [left; split; reflexivity | right; left; reflexivity | right; right; reflexivity | right; exact I]|cbn]
  | |- no_sizes _ => constructor
  | H : Some _ = Some _ |- _ => injection H as <-
  | |- forall _, _ => intro
  | |- _ => discriminate
  | |- _ => now auto
  | |- _ => lia
  end.
(** Sized { a: 3 bits, b: 3 bytes, c: (u8, [u16; 3]) with pads, 6 bits }: 13 bytes. *)
Definition Header : ty := P_Size.Sized (field (bits 6 plain) u8 FNil).
Definition header_bytes : list byte := [x53; xa0; x12; x34; x50; x20; x20; x40; x60; x81; xff; xff; x3f].
Example C83_case : sized true Header /\ size_bits Header = Some 104 /\ size_bytes Header = Some (Some 13) /\
  (exists v, from_bytes no_customs 0 Header (header_bytes ++ [x01; x02]) 0 = Ok (([x01; x02], 0), v)) /\
  (exists v, try_from no_customs 0 Header header_bytes = Ok v) /\
  from_bytes no_customs 0 Header (x52 :: tl header_bytes) 0 = Err Parse /\
  (exists e, from_bytes no_customs 0 Header (removelast header_bytes) 0 = Err (Incomplete e)).
Proof. split; [sizes|]. split; [reflexivity|]. split; [reflexivity|]. split; [eexists; vm_compute; reflexivity|]. split; [eexists; vm_compute; reflexivity|]. split; [vm_compute; reflexivity|eexists; vm_compute; reflexivity]. Qed.
Example C83_case_bound : sized false Kind /\ size_bits Kind = Some 40 /\
  (exists v, from_bytes no_customs 0 Kind [x01; x02; x03; x04; x05] 0 = Ok (([x02; x03; x04; x05], 0), v)) /\
  (exists v, from_bytes no_customs 0 Kind [x02; x02; x03; x04; x05] 0 = Ok (([], 0), v)).
Proof. split; [sizes|]. split; [reflexivity|]. split; eexists; vm_compute; reflexivity. Qed.

(** fn centi<R: Read + Seek>(r: &mut Reader<R>) -> Result<u32, DekuError>   reads a nibble, skips one, reads three bytes
    struct Hand { #[deku(reader = "centi(deku::reader)")] x: u32, y: u8 }: 5 bytes, exactly. *)
Definition centi : RM value :=
  let* l := read_bits_into 4 Msb0 in let* _ := skip_bits 4 Msb0 in let* bs := read_bytes 3 3 Msb0 in
  if (9 <? bits2N l)%N then fail Parse else ret (VNum (from_be bs * 10 + bits2N l)).
Definition Hand : ty := TStruct cplain (field (by_hand (fun _ _ _ => centi) plain) u32 (field plain u8 FNil)).
Lemma centi_asks : asks true value 32 centi.
Proof.
  apply (as_bind true _ _ 4 28); [apply as_bits|intros l]. apply (as_bind true _ _ 4 24); [apply as_skip|intros _]. apply (as_bind true _ _ 24 0); [apply (as_bytes true 3); lia|intros bs].
  destruct (_ <? _)%N; [now apply as_fail|now apply (as_end true value (Ok _))].
Qed.
Example C83_case_by_hand : sized true Hand /\ size_bits Hand = Some 40 /\
  from_bytes no_customs 0 Hand [x7f; x00; x01; x00; x05; x06] 0 = Ok (([x06], 0), VRec [VNum 2567; VNum 5]) /\
  (exists e, try_from no_customs 0 Hand [x7f; x00; x01; x00] = Err (Incomplete e)).
Proof.
  split; [|split; [reflexivity|split; [vm_compute; reflexivity|eexists; vm_compute; reflexivity]]].
  assert (HA : forall f, a_reader (by_hand (fun _ _ _ => centi) plain) = Some f -> forall n, field_bits (by_hand (fun _ _ _ => centi) plain) u32 = Some n ->
    forall ctx fs off, asks true value n (f ctx fs off)) by (intros f [= <-] n [= <-] _ _ _; exact centi_asks).
  split; [|sizes]. constructor; try exact HA; sizes.
Qed.

(** A [u8] with [bits = 16] and no byte order: SIZE_BITS is 16, one byte is read. *)
Definition WideBits : ty := TStruct cplain (field (bits 16 plain) u8 FNil).
Theorem C83_u8_bits_refuted : exists n input rest v, size_bits WideBits = Some n /\ n = 8 * length input /\ from_bytes no_customs 0 WideBits input 0 = Ok ((rest, 0), v) /\ rest <> [].
Proof. exists 16, [x01; x02], [x02], (VRec [VNum 1]). repeat split; discriminate. Qed.
Print Assumptions C83_u8_bits_refuted.
(** A [temp] field is not in SIZE_BITS but read: SIZE_BYTES of input is not enough. *)
Definition Counted : ty := TStruct cplain (field (temporary (fun _ _ _ => VNum 1) plain) u8 (field plain u8 FNil)).
Theorem C83_temp_refuted : exists n input e, size_bits Counted = Some n /\ n = 8 * length input /\ from_bytes no_customs 0 Counted input 0 = Err (Incomplete e).
Proof. exists 8, [x01], 8. repeat split. Qed.
Print Assumptions C83_temp_refuted.
(** [bits] on a pair is the size of the pair for the derive, and of each part on reading. *)
Definition PairBits : ty := TStruct cplain (field (bits 8 plain) (TPair u8 u8) FNil).
Theorem C83_tuple_bits_refuted : exists n input e, size_bits PairBits = Some n /\ n = 8 * length input /\ from_bytes no_customs 0 PairBits input 0 = Err (Incomplete e).
Proof. exists 8, [x01], 8. repeat split. Qed.
Print Assumptions C83_tuple_bits_refuted.
(** A skipped field counts for the derive. *)
Definition Sometimes : ty := TStruct cplain (field plain u8 (field (only_if (fun _ fs _ => (num (nth 0 fs VUnit) =? 1)%N) (VNum 0) plain) u8 FNil)).
Theorem C83_cond_refuted : exists n input rest v, size_bits Sometimes = Some n /\ n = 8 * length input /\ from_bytes no_customs 0 Sometimes input 0 = Ok ((rest, 0), v) /\ rest <> [].
Proof. exists 16, [x02; x03], [x03], (VRec [VNum 2; VNum 0]). repeat split; discriminate. Qed.
Print Assumptions C83_cond_refuted.
(** A [reader] that takes a byte for a [u32]: SIZE_BITS is that of the type. *)
Definition ShortRead : ty := TStruct cplain (field (by_hand (fun _ _ _ => let* n := prim_read PU8 C0 in ret (VNum n)) plain) u32 FNil).
Theorem C83_reader_refuted : exists n input rest v, size_bits ShortRead = Some n /\ n = 8 * length input /\ from_bytes no_customs 0 ShortRead input 0 = Ok ((rest, 0), v) /\ rest <> [].
Proof. exists 32, [x01; x02; x03; x04]. do 2 eexists. split; [reflexivity|]. split; [reflexivity|]. split; [vm_compute; reflexivity|discriminate]. Qed.
Print Assumptions C83_reader_refuted.
