(** Properties of [DekuSize], C32.

    Vocabulary: [Derive.v] ([size_bits] is SIZE_BITS, [size_bytes] is SIZE_BYTES), [SizeSpec.v] ([regular],
    [complete]).  Examples as in [P_Derive.v]. *)
From Coq Require Import Lia.
From Verif Require Import Base Spec Stream Reader Writer Prims Containers Derive DeriveSpec SizeSpec SizeFacts SizeBuffer P_Derive.

(** Every struct without enums inside: SIZE_BITS is what every value writes.  Missing:
    fields with [temp], [skip], [writer], sizes on types other than integers (false
    for each, below). *)
Theorem C32_struct_partial : forall cu t v n bits, regular true t -> complete t v -> size_bits t = Some n -> to_bits cu t v = Ok bits ->
  length bits = n /\ exists bytes, to_bytes cu t v = Ok bytes /\ length bytes = (n + 7) / 8.
Proof. exact struct_size. Qed.
Print Assumptions C32_struct_partial.
(** Every type, enums and skipped fields included: no value writes more. *)
Theorem C32_bound_partial : forall cu t v n bits, regular false t -> complete t v -> size_bits t = Some n -> to_bits cu t v = Ok bits ->
  length bits <= n /\ exists bytes, to_bytes cu t v = Ok bytes /\ length bytes <= (n + 7) / 8.
Proof. exact type_bound. Qed.
Print Assumptions C32_bound_partial.
(** Every variant of an enum writes its size; some variant has the size of the enum. *)
Theorem C32_variant_partial : forall cu e idt vs k v fs l i m x n bits,
  regular_id e idt -> regular true idt -> regular_variants true e idt vs ->
  size_bits (TEnum e idt vs) = Some n -> id_size e idt = Some i -> variants_size e vs = Some m ->
  nth_variant vs k = Some (v, fs) -> variant_size e v fs = Some x -> complete_fields fs l ->
  to_bits cu (TEnum e idt vs) (VVar k l) = Ok bits -> length bits + m = n + x.
Proof. exact variant_exact. Qed.
Print Assumptions C32_variant_partial.
Theorem C32_largest : forall e vs m, variants_size e vs = Some m ->
  (forall k v fs, nth_variant vs k = Some (v, fs) -> exists x, variant_size e v fs = Some x /\ x <= m) /\
  (vs <> VNil -> exists k v fs, nth_variant vs k = Some (v, fs) /\ variant_size e v fs = Some m).
Proof. exact variants_size_max. Qed.
Print Assumptions C32_largest.

(** #[deku(magic = b"S")] struct Sized { #[deku(bits = 3)] a: u8, #[deku(bytes = 3)] b: u32,
      #[deku(pad_bits_before = "5", pad_bits_after = "2")] c: (u8, [u16; 3]), k: Kind }
    with the enum Kind of P_Derive.v. *)
Definition bytes (n : nat) (a : fattrs) : fattrs :=
  mkF (a_endian a) (a_order a) (a_bits a) (Some (fun _ _ => n)) (a_ctx a) (a_limit a) (a_map a) (a_reader a) (a_writer a) (a_skip a) (a_cond a) (a_default a)
      (a_assert a) (a_assert_eq a) (a_seek a) (a_magic a) (a_pad_before a) (a_pad_after a) (a_temp a) (a_temp_value a) (a_update a).
Definition Sized (tl : fields) : ty :=
  TStruct (mkC None None [x53] None None)
    (field (bits 3 plain) u8 (field (bytes 3 plain) u32 (field (padded 5 2 plain) (TPair u8 (TArray 3 u16)) tl))).
Definition sized (tl : list value) : value := VRec ([VNum 5; VNum 0x12345; VPair (VNum 1) (VList [VNum 2; VNum 3; VNum 4])] ++ tl).
Ltac regularity :=
  cbn; repeat match goal with
  | |- _ /\ _ => split
  | |- regular_field _ _ _ => constructor
  | |- constant_size _ => intros ? E; try discriminate; cbn in E; injection E as <-
  | |- constant_pad _ => intros ? E; try discriminate; cbn in E; injection E as <-
  | |- size_on _ _ _ => unfold size_on; cbn; first [left; split; reflexivity | right; left; reflexivity | right; right; reflexivity | right; exact I]
  | |- no_sizes _ => constructor
  | |- forall _, _ => intro
  | |- _ <> _ => discriminate
  | |- _ => discriminate
  | |- _ => now auto
  end.
Example C32_case : regular true (Sized FNil) /\ complete (Sized FNil) (sized []) /\ size_bits (Sized FNil) = Some 98 /\
  exists l, to_bits no_customs (Sized FNil) (sized []) = Ok l /\ length l = 98.
Proof. split; [regularity|]. split; [cbn; intuition; subst; exact I|]. split; [reflexivity|]. eexists. split; vm_compute; reflexivity. Qed.
Example C32_case_bound : let t := Sized (field plain Kind FNil) in
  regular false t /\ size_bits t = Some 138 /\
  (exists l, to_bits no_customs t (sized [VVar 0 []]) = Ok l /\ length l = 106) /\
  (exists l, to_bits no_customs t (sized [VVar 1 [VNum 7]]) = Ok l /\ length l = 138) /\
  (exists l, to_bits no_customs t (sized [VVar 2 [VNum 12; VNum 7]]) = Ok l /\ length l = 114).
Proof. split; [regularity|]. split; [reflexivity|]. repeat split; eexists; (split; [vm_compute; reflexivity|reflexivity]). Qed.
Example C32_case_variant : exists e idt vs, Kind = TEnum e idt vs /\ regular_id e idt /\ regular true idt /\ regular_variants true e idt vs /\
  size_bits Kind = Some 40 /\ id_size e idt = Some 8 /\ variants_size e vs = Some 32.
Proof. do 3 eexists. split; [reflexivity|]. split; [split; [discriminate|]; split; [discriminate|]; left; now split|]. split; [exact I|]. split; [regularity|]. repeat split. Qed.

(** SIZE_BYTES: there is one exactly if SIZE_BITS is a number of whole bytes. *)
Theorem C32_size_bytes : forall t n m, size_bits t = Some n -> (size_bytes t = Some (Some m) <-> n = 8 * m).
Proof. exact bytes_of_bits. Qed.
Print Assumptions C32_size_bytes.
(** The documented use: every value fits a buffer of SIZE_BYTES and fills it; in any
    case SIZE_BYTES is enough. *)
Theorem C32_buffer_partial : forall cu t v m bits, regular true t -> complete t v -> writes_in_order cu t -> size_bytes t = Some (Some m) -> to_bits cu t v = Ok bits ->
  exists bytes, to_bytes cu t v = Ok bytes /\ length bytes = m /\ forall buf, length buf = m -> to_slice cu t v buf = (Ok m, bytes).
Proof. exact buffer_exact. Qed.
Print Assumptions C32_buffer_partial.
Theorem C32_buffer_enough_partial : forall cu t v m bits, regular false t -> complete t v -> writes_in_order cu t -> size_bytes t = Some (Some m) -> to_bits cu t v = Ok bits ->
  exists bytes, to_bytes cu t v = Ok bytes /\ length bytes <= m /\
    forall buf, m <= length buf -> to_slice cu t v buf = (Ok (length bytes), bytes ++ skipn (length bytes) buf).
Proof. exact buffer_enough. Qed.
Print Assumptions C32_buffer_enough_partial.
Example C32_case_buffer : let t := Sized (field (bits 6 plain) u8 FNil) in
  size_bytes t = Some (Some 13) /\ regular true t /\ writes_in_order no_customs t /\
  exists bytes, to_slice no_customs t (sized [VNum 9]) (repeat xff 13) = (Ok 13, bytes) /\ length bytes = 13 /\
  size_bytes (Sized FNil) = Some None /\ size_bytes (TVec KVec 1 u8) = None.
Proof.
  split; [reflexivity|]. split; [regularity|]. split; [cbn; intuition discriminate|]. eexists. split; [vm_compute; reflexivity|]. repeat split.
Qed.

(** struct { #[deku(temp, temp_value = "7")] a: u8, b: u8 }: more is written. *)
Definition WithTemp : ty := TStruct cplain (field (temporary (fun _ _ _ => VNum 7) plain) u8 (field plain u8 FNil)).
Theorem C32_temp_refuted : exists v n l, size_bits WithTemp = Some n /\ to_bits no_customs WithTemp v = Ok l /\ n < length l.
Proof. exists (VRec [VNum 1]). do 2 eexists. split; [vm_compute; reflexivity|]. split; [vm_compute; reflexivity|]. cbn. lia. Qed.
Print Assumptions C32_temp_refuted.
(** struct { #[deku(skip)] a: u8, b: u8 }: less is written. *)
Definition skipped (a : fattrs) : fattrs :=
  mkF (a_endian a) (a_order a) (a_bits a) (a_bytes a) (a_ctx a) (a_limit a) (a_map a) (a_reader a) (a_writer a) (Some SkipAll) (a_cond a) (a_default a)
      (a_assert a) (a_assert_eq a) (a_seek a) (a_magic a) (a_pad_before a) (a_pad_after a) (a_temp a) (a_temp_value a) (a_update a).
Definition WithSkip : ty := TStruct cplain (field (skipped plain) u8 (field plain u8 FNil)).
Theorem C32_skip_refuted : exists v n l, size_bits WithSkip = Some n /\ to_bits no_customs WithSkip v = Ok l /\ length l < n.
Proof. exists (VRec [VNum 1; VNum 2]). do 2 eexists. split; [vm_compute; reflexivity|]. split; [vm_compute; reflexivity|]. cbn. lia. Qed.
Print Assumptions C32_skip_refuted.
(** struct { #[deku(bits = 4)] a: (u8, u8) }: 8 bits are written. *)
Definition PairBits : ty := TStruct cplain (field (bits 4 plain) (TPair u8 u8) FNil).
Theorem C32_tuple_bits_refuted : exists v n l, size_bits PairBits = Some n /\ to_bits no_customs PairBits v = Ok l /\ n < length l.
Proof. exists (VRec [VPair (VNum 1) (VNum 2)]). do 2 eexists. split; [vm_compute; reflexivity|]. split; [vm_compute; reflexivity|]. cbn. lia. Qed.
Print Assumptions C32_tuple_bits_refuted.
(** struct { #[deku(bytes = 2)] a: u8 }: one byte is written. *)
Definition WideByte : ty := TStruct cplain (field (bytes 2 plain) u8 FNil).
Theorem C32_u8_bytes_refuted : exists v n l, size_bits WideByte = Some n /\ to_bits no_customs WideByte v = Ok l /\ length l < n.
Proof. exists (VRec [VNum 1]). do 2 eexists. split; [vm_compute; reflexivity|]. split; [vm_compute; reflexivity|]. cbn. lia. Qed.
Print Assumptions C32_u8_bytes_refuted.
(** A hand-written writer writes what it likes: struct { #[deku(writer = "0u32.to_writer(deku::writer, ())")] a: u8 }. *)
Definition written_by (f : list value -> expr (value -> WM unit)) (a : fattrs) : fattrs :=
  mkF (a_endian a) (a_order a) (a_bits a) (a_bytes a) (a_ctx a) (a_limit a) (a_map a) (a_reader a) (Some f) (a_skip a) (a_cond a) (a_default a)
      (a_assert a) (a_assert_eq a) (a_seek a) (a_magic a) (a_pad_before a) (a_pad_after a) (a_temp a) (a_temp_value a) (a_update a).
Definition Written : ty := TStruct cplain (field (written_by (fun _ _ _ _ _ => prim_write (PU 4) C0 0) plain) u8 FNil).
Theorem C32_writer_refuted : exists v n l, size_bits Written = Some n /\ to_bits no_customs Written v = Ok l /\ n < length l.
Proof. exists (VRec [VNum 1]). do 2 eexists. split; [vm_compute; reflexivity|]. split; [vm_compute; reflexivity|]. cbn. lia. Qed.
Print Assumptions C32_writer_refuted.
(** Unless that is the size of the field: a nibble, four zeros, and three bytes for a [u32]. *)
Definition put_tenths (v : value) : WM unit :=
  match v with
  | VNum n => let* _ := prim_write PU8 (CEB Big 4) (n mod 10) in let* _ := write_bits_order (repeat false 4) Msb0 in write_bytes (be_bytes 3 (n / 10))
  | _ => panic
  end.
Definition Tenths : ty := TStruct cplain (field (written_by (fun _ _ _ _ v => put_tenths v) plain) u32 (field plain u8 FNil)).
Lemma tenths_gives v : gives true 32 (put_tenths v).
Proof. destruct v; try apply gv_panic. apply (gv_seq true 4 28); [apply gv_part|]. apply (gv_seq true 4 24); [apply (gv_bits true (repeat false 4))|]. exact (gv_bytes true (be_bytes 3 (n / 10))). Qed.
Example C32_case_by_hand : regular true Tenths /\ complete Tenths (VRec [VNum 2567; VNum 5]) /\ size_bits Tenths = Some 40 /\
  to_bytes no_customs Tenths (VRec [VNum 2567; VNum 5]) = Ok [x70; x00; x01; x00; x05].
Proof.
  split; [|split; [cbn; auto|split; [reflexivity|vm_compute; reflexivity]]].
  assert (HA : forall f, a_writer (written_by (fun _ _ _ _ v => put_tenths v) plain) = Some f -> forall n, field_bits (written_by (fun _ _ _ _ v => put_tenths v) plain) u32 = Some n ->
    forall stored ctx fs off v, gives true n (f stored ctx fs off v)) by (intros f [= <-] n [= <-] stored ctx fs off v; apply tenths_gives).
  split; [|regularity]. constructor; try exact HA; regularity.
Qed.
