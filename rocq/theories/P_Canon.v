(** Reading and writing again, C50.

    Vocabulary: [CanonSpec.v] ([rewritable_type], [rewritable], [here]), [SafeSpec.v] ([typed]). *)
From Coq Require Import Lia.
From Verif Require Import Base Spec Stream Reader Session Writer WSession Prims CodecSpec Containers ContainerSpec Derive DeriveSpec SafeSpec CanonSpec CanonProps P_Derive P_Safe.

(** Whatever was read is written with the same bits, the last byte filled up with zeros.
    Missing: types that are not [rewritable_type]; see the refutations below. *)
Theorem C50_read_write_partial : forall cu o fuel t input rest off v, rewritable_type cu o t ->
  from_bytes cu fuel t input 0 = Ok ((rest, off), v) ->
  let n := 8 * (length input - length rest) + off in
  typed t v /\ n <= 8 * length input /\ off < 8 /\ (exists before, input = before ++ rest) /\
  exists out pad, to_bytes cu t v = Ok out /\ pad < 8 /\ bitstring o out = firstn n (bitstring o input) ++ repeat false pad.
Proof. intros cu o fuel t input rest off v H. exact (read_write cu o fuel t H input rest off v). Qed.
Print Assumptions C50_read_write_partial.
(** If whole bytes were read, exactly those are written. *)
Theorem C50_whole_bytes_partial : forall cu o fuel t input rest v, rewritable_type cu o t ->
  from_bytes cu fuel t input 0 = Ok ((rest, 0), v) -> exists out, to_bytes cu t v = Ok out /\ input = out ++ rest.
Proof. intros cu o fuel t input rest v H. exact (read_write_whole cu o fuel t H input rest v). Qed.
Print Assumptions C50_whole_bytes_partial.
Theorem C50_try_from_partial : forall cu o fuel t input v, rewritable_type cu o t ->
  try_from cu fuel t input = Ok v -> to_bytes cu t v = Ok input.
Proof. intros cu o fuel t input v H. exact (try_from_write cu o fuel t H input v). Qed.
Print Assumptions C50_try_from_partial.
(** No two byte strings are read as the same value. *)
Theorem C50_unique_partial : forall cu o fuel t a b v, rewritable_type cu o t ->
  try_from cu fuel t a = Ok v -> try_from cu fuel t b = Ok v -> a = b.
Proof. intros cu o fuel t a b v H. exact (unique_bytes cu o fuel t H a b v). Qed.
Print Assumptions C50_unique_partial.
(** In the middle of a stream, with any limit and context. *)
Theorem C50_middle_partial : forall cu o fuel p q t lim args r v r', rewritable cu o p q t lim args -> here p r ->
  read_ty cu fuel t lim args r = (Ok v, r') ->
  typed t v /\ here q r' /\
  exists enc, unread_string o (seen r) = enc ++ unread_string o (seen r') /\ r_bits r' = r_bits r + length enc /\
    emits_at o (r_bits r) (write_ty cu t args v) enc.
Proof. exact reread_middle. Qed.
Print Assumptions C50_middle_partial.

(** #[deku(endian = "big", magic = b"DK")]
    struct Message {
      #[deku(bits = 4)] version: u8,
      #[deku(bits = 12)] flags: u16,
      #[deku(temp, temp_value = "items.len() as u8")] n: u8,
      #[deku(count = "n")] items: Vec<u16>,
      #[deku(cond = "version > 1")] extra: Option<u8>,
      #[deku(temp, temp_value = "name.len() as u8")] len: u8,
      #[deku(count = "len")] name: Vec<u8>,
      kind: Kind,
      #[deku(read_all)] rest: Vec<u16> } *)
Definition Message : ty :=
  TStruct big_dk
    (field (bits 4 plain) u8
    (field (bits 12 plain) u16
    (field (temporary (fun stored _ _ => VNum (list_len (nth 2 stored VUnit) mod 256)) plain) u8
    (field (limited (FCount (fun _ fs _ => Z.of_N (nth_num fs 2))) plain) (TVec KVec 2 u16)
    (field (only_if (fun _ fs _ => (1 <? nth_num fs 0)%N) VNone plain) (TOption u8)
    (field (temporary (fun stored _ _ => VNum (list_len (nth 4 stored VUnit) mod 256)) plain) u8
    (field (limited (FCount (fun _ fs _ => Z.of_N (nth_num fs 5))) plain) (TVec KVec 1 u8)
    (field plain Kind
    (field (limited FAll plain) (TVec KVec 2 u16)
    FNil))))))))).
Ltac ends_tac := split; [now intros|]; intros ? Hj; try discriminate Hj; injection Hj as <-; eexists; split; reflexivity.
Ltac bits_tac := split; [reflexivity|]; eexists; split; [reflexivity|]; split; [reflexivity|]; split; [cbn; lia|]; split; [auto|]; split; [left; exact I|]; ends_tac.
Ltac bytes_tac := split; [reflexivity|]; eexists; split; [reflexivity|]; split; [cbn; lia|]; split; [auto|]; ends_tac.
Ltac field_tac := split; [reflexivity|]; split; [now left|]; split; [reflexivity|]; split; [reflexivity|]; split; [discriminate|]; split; [intros ? ?; now split; [|split]|]; intros ?.
Ltac read_tac := split; [reflexivity|]; split; [reflexivity|]; cbn.
Ltac next_tac := let v := fresh "v" in let T := fresh "T" in let K := fresh "K" in intros v T K; cbn [a_temp a_temp_value plain bits temporary limited only_if app].
Example C50_case : rewritable_type no_customs Msb0 Message.
Proof.
  exists (AnySource, Some 0). unfold Message. cbn [rewritable]. split; [reflexivity|]. split; [right; now left|].
  unfold field. cbn [fields_rewritable].
  exists (SeekSource, Some 4). split; [field_tac; read_tac; bits_tac|]. next_tac.
  exists (SeekSource, Some 0). split; [field_tac; read_tac; bits_tac|]. next_tac.
  exists (SeekSource, Some 0). split; [field_tac; read_tac; bytes_tac|]. next_tac.
  exists (SeekSource, Some 0). split.
  { field_tac. read_tac. unfold nth_num. cbn [nth]. destruct v1; try contradiction. cbn [num]. unfold to_usize.
    destruct (_ || _)%bool; [exact I|]. split; [reflexivity|]. eexists. exists (SeekSource, Some 0). split; [reflexivity|].
    split; [ends_tac|]. split; [bytes_tac|]. split; [ends_tac|]. discriminate. }
  next_tac.
  exists (SeekSource, Some 0). split.
  { field_tac. cbn [only_if a_cond a_skip plain cond_at option_map is_read is_written]. unfold nth_num. cbn [nth]. destruct (1 <? num v)%N.
    - read_tac. bytes_tac.
    - split; [exact I|]. split; [ends_tac|]. intros _. split; reflexivity. }
  next_tac.
  exists (SeekSource, Some 0). split; [field_tac; read_tac; bytes_tac|]. next_tac.
  exists (SeekSource, Some 0). split.
  { field_tac. read_tac. unfold nth_num. cbn [nth]. destruct v4; try contradiction. cbn [num]. unfold to_usize.
    destruct (_ || _)%bool; [exact I|]. split; [reflexivity|]. split; [ends_tac|]. do 3 eexists. split; reflexivity. }
  next_tac.
  exists (AnySource, Some 0). split.
  { field_tac. read_tac. split; [now left|]. exists (AnySource, Some 0). split; [bytes_tac|]. intros id Hid. destruct id; try contradiction.
    split; [|split; [|split; [|exact I]]].
    - intros M. cbn in M. split; [f_equal; lia|]. split; [ends_tac|exact I].
    - intros M. cbn in M. split; [f_equal; lia|]. exists (AnySource, Some 0). split; [field_tac; read_tac; bytes_tac|]. next_tac.
      split; [ends_tac|]. now split.
    - intros _. split; [reflexivity|]. split; [reflexivity|]. split; [reflexivity|]. split; [reflexivity|].
      exists (AnySource, Some 0). split; [field_tac; read_tac; bytes_tac|]. next_tac. split; [ends_tac|]. now split. }
  next_tac.
  exists (AnySource, Some 0). split.
  { field_tac. read_tac. split; [reflexivity|]. eexists. exists (AnySource, Some 0). split; [reflexivity|]. split; [ends_tac|]. split; [bytes_tac|]. split; [ends_tac|]. reflexivity. }
  next_tac. split; [ends_tac|].
  destruct K2 as (off2 & _ & K2), K5 as (off5 & _ & K5).
  destruct (K2 _ _ _ _ eq_refl eq_refl eq_refl eq_refl eq_refl) as (xs & -> & L2); [discriminate|].
  destruct (K5 _ _ _ _ eq_refl eq_refl eq_refl eq_refl eq_refl) as (ys & -> & L5); [discriminate|].
  destruct v1; try contradiction. destruct v4; try contradiction. unfold nth_num in L2, L5. cbn [nth num] in L2, L5.
  cbn in T1, T4. repeat split; intros _; cbn [nth list_len]; f_equal; rewrite N.mod_small; lia.
Qed.
Definition message_bytes : list byte :=
  [x44; x4b; x2a; xbc; x02; x11; x22; x33; x44; x09; x03; x61; x62; x63; x0c; x77; x01; x02; x03; x04].
Example C50_case_read : try_from no_customs 100 Message message_bytes =
    Ok (VRec [VNum 2; VNum 0xabc; VList [VNum 0x1122; VNum 0x3344]; VSome (VNum 9); VList [VNum 0x61; VNum 0x62; VNum 0x63];
              VVar 2 [VNum 12; VNum 0x77]; VList [VNum 0x102; VNum 0x304]]).
Proof. vm_compute. reflexivity. Qed.
(** Lsb0: struct { #[deku(bits = 3)] a: u8, #[deku(bits = 13)] b: u16, c: u32, #[deku(bits = 2)] d: u8 },
    ending inside a byte. *)
Definition Packed : ty := TStruct little_lsb (field (bits 3 plain) u8 (field (bits 13 plain) u16 (field plain u32 (field (bits 2 plain) u8 FNil)))).
Example C50_case_lsb : rewritable_type no_customs Lsb0 Packed /\
  from_bytes no_customs 9 Packed [x3d; x15; x01; x02; x03; x04; xfe; xff] 0 = Ok (([xfe; xff], 2), VRec [VNum 5; VNum 0x2a7; VNum 0x4030201; VNum 2]) /\
  to_bytes no_customs Packed (VRec [VNum 5; VNum 0x2a7; VNum 0x4030201; VNum 2]) = Ok [x3d; x15; x01; x02; x03; x04; x02].
Proof.
  split; [|split; vm_compute; reflexivity]. exists (SeekSource, Some 2). cbn [Packed rewritable]. split; [reflexivity|]. split; [now left|].
  unfold field. cbn [fields_rewritable].
  exists (SeekSource, Some 3). split; [field_tac; read_tac; bits_tac|]. next_tac.
  exists (SeekSource, Some 0). split; [field_tac; read_tac; bits_tac|]. next_tac.
  exists (SeekSource, Some 0). split; [field_tac; read_tac; bytes_tac|]. next_tac.
  exists (SeekSource, Some 2). split; [field_tac; read_tac; bits_tac|]. next_tac.
  split; [ends_tac|]. repeat split.
Qed.

(** ** Where the bytes change *)

(** Padding is written as zeros: struct { #[deku(bits = 4, pad_bits_after = "4")] a: u8 }. *)
Theorem C50_padding_refuted : exists t input v out,
  t = TStruct cplain (field (padded 0 4 (bits 4 plain)) u8 FNil) /\
  try_from no_customs 9 t input = Ok v /\ to_bytes no_customs t v = Ok out /\ out <> input.
Proof. eexists. exists [x1f]. do 2 eexists. split; [reflexivity|]. split; [vm_compute; reflexivity|]. split; [vm_compute; reflexivity|]. discriminate. Qed.
Print Assumptions C50_padding_refuted.
(** A default variant is written with its own id:
    #[deku(id_type = "u8")] enum E { #[deku(id = 0, default)] A, #[deku(id = 1)] B }. *)
Theorem C50_default_variant_refuted : exists t input v out,
  t = TEnum (mkE cplain None None None None) u8 (VCons (mkV (SId (VNum 0)) true) FNil (VCons (mkV (SId (VNum 1)) false) FNil VNil)) /\
  try_from no_customs 9 t input = Ok v /\ to_bytes no_customs t v = Ok out /\ out <> input.
Proof. eexists. exists [x05]. do 2 eexists. split; [reflexivity|]. split; [vm_compute; reflexivity|]. split; [vm_compute; reflexivity|]. discriminate. Qed.
Print Assumptions C50_default_variant_refuted.
(** [map] applies to reading only: struct { #[deku(map = "|v: u8| Ok(v & 0x7f)")] a: u8 }. *)
Definition mapped (f : value -> value) (a : fattrs) : fattrs :=
  mkF (a_endian a) (a_order a) (a_bits a) (a_bytes a) (a_ctx a) (a_limit a) (Some (fun _ _ _ v => Ok (f v))) (a_reader a) (a_writer a) (a_skip a) (a_cond a) (a_default a)
      (a_assert a) (a_assert_eq a) (a_seek a) (a_magic a) (a_pad_before a) (a_pad_after a) (a_temp a) (a_temp_value a) (a_update a).
Theorem C50_map_refuted : exists t input v out,
  t = TStruct cplain (field (mapped (fun v => VNum (N.land (num v) 0x7f)) plain) u8 FNil) /\
  try_from no_customs 9 t input = Ok v /\ to_bytes no_customs t v = Ok out /\ out <> input.
Proof. eexists. exists [xff]. do 2 eexists. split; [reflexivity|]. split; [vm_compute; reflexivity|]. split; [vm_compute; reflexivity|]. discriminate. Qed.
Print Assumptions C50_map_refuted.
(** A [temp_value] that is not what was read: struct { #[deku(temp, temp_value = "0")] n: u8, b: u8 }. *)
Theorem C50_temp_refuted : exists t input v out,
  t = TStruct cplain (field (temporary (fun _ _ _ => VNum 0) plain) u8 (field plain u8 FNil)) /\
  try_from no_customs 9 t input = Ok v /\ to_bytes no_customs t v = Ok out /\ out <> input.
Proof. eexists. exists [x05; x06]. do 2 eexists. split; [reflexivity|]. split; [vm_compute; reflexivity|]. split; [vm_compute; reflexivity|]. discriminate. Qed.
Print Assumptions C50_temp_refuted.
(** A field that was not read is written: [C28_cond_default_refuted]. *)
Theorem C50_cond_refuted : exists input v out,
  try_from no_customs 9 Cond input = Ok v /\ to_bytes no_customs Cond v = Ok out /\ out <> input.
Proof. exists [x00]. do 2 eexists. split; [vm_compute; reflexivity|]. split; [vm_compute; reflexivity|]. discriminate. Qed.
Print Assumptions C50_cond_refuted.
(** A negative number with a bit order of its own cannot be written:
    struct { #[deku(bits = 4, bit_order = "msb")] a: i8, #[deku(bits = 4)] b: u8 }. *)
Definition ordered (o : order) (a : fattrs) : fattrs :=
  mkF (a_endian a) (Some (fun _ _ => o)) (a_bits a) (a_bytes a) (a_ctx a) (a_limit a) (a_map a) (a_reader a) (a_writer a) (a_skip a) (a_cond a) (a_default a)
      (a_assert a) (a_assert_eq a) (a_seek a) (a_magic a) (a_pad_before a) (a_pad_after a) (a_temp a) (a_temp_value a) (a_update a).
Theorem C50_signed_refuted : exists t input v e,
  t = TStruct cplain (field (ordered Msb0 (bits 4 plain)) (TPrim (PI 1)) (field (bits 4 plain) u8 FNil)) /\
  try_from no_customs 9 t input = Ok v /\ to_bytes no_customs t v = Err e.
Proof. eexists. exists [xf1]. do 2 eexists. split; [reflexivity|]. split; reflexivity. Qed.
Print Assumptions C50_signed_refuted.
(** Bytes in Lsb0 order that start inside a byte:
    #[deku(bit_order = "lsb")] struct { #[deku(bits = 4)] a: u8, b: u16, #[deku(bits = 4)] c: u8 }. *)
Theorem C50_lsb_bytes_refuted : exists t input v x,
  t = TStruct little_lsb (field (bits 4 plain) u8 (field plain u16 (field (bits 4 plain) u8 FNil))) /\
  try_from no_customs 9 t input = Ok v /\ to_bytes no_customs t v = x /\ x <> Ok input.
Proof. eexists. exists [x21; x43; x65]. do 2 eexists. split; [reflexivity|]. split; [vm_compute; reflexivity|]. split; [vm_compute; reflexivity|]. discriminate. Qed.
Print Assumptions C50_lsb_bytes_refuted.
(** A seek leaves out bytes, which are written as zeros:
    struct { a: u8, #[deku(seek_from_current = "1")] b: u8 }. *)
Definition from_here (d : Z) (a : fattrs) : fattrs :=
  mkF (a_endian a) (a_order a) (a_bits a) (a_bytes a) (a_ctx a) (a_limit a) (a_map a) (a_reader a) (a_writer a) (a_skip a) (a_cond a) (a_default a)
      (a_assert a) (a_assert_eq a) (Some (fun _ _ => Some (SeekCurrent d))) (a_magic a) (a_pad_before a) (a_pad_after a) (a_temp a) (a_temp_value a) (a_update a).
Theorem C50_seek_refuted : exists t input v out,
  t = TStruct cplain (field plain u8 (field (from_here 1 plain) u8 FNil)) /\
  try_from no_customs 9 t input = Ok v /\ to_bytes no_customs t v = Ok out /\ out <> input.
Proof. eexists. exists [x01; x02; x03]. do 2 eexists. split; [reflexivity|]. split; [vm_compute; reflexivity|]. split; [vm_compute; reflexivity|]. discriminate. Qed.
Print Assumptions C50_seek_refuted.
