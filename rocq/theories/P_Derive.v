(** Properties of derived containers, C28, C30, C33, C34, C35.

    Vocabulary: [Derive.v] (types, attributes, the API), [DeriveSpec.v] ([encode],
    [chosen], [asserted]), [ContainerSpec.v] ([back_to_back]).  [cu] are the hand-written
    impls, [ce] their formats; [fuel] bounds the loops that have no other bound. *)
From Coq Require Import Lia.
From Verif Require Import Base Spec Stream Reader Session Writer WSession Prims CodecSpec Containers ContainerSpec Derive DeriveSpec DeriveProps.

(** ** Examples

    #[deku(endian = "big", magic = b"DK")]
    struct Packet {
      #[deku(bits = 4)] version: u8,
      #[deku(bits = 12)] flags: u16,
      #[deku(temp, temp_value = "items.len() as u8")] n: u8,
      #[deku(count = "n")] items: Vec<u16>,
      #[deku(cond = "version > 1", pad_bytes_before = "1")] extra: Option<u8>,
      kind: Kind,
      #[deku(assert = "*crc < 16", pad_bits_after = "3", bits = 5)] crc: u8 }
    #[deku(id_type = "u8", endian = "big")]
    enum Kind { #[deku(id = 1)] A, #[deku(id = 2)] B { x: u32 }, #[deku(id_pat = "10..=20")] C { id: u8, y: u8 } } *)
Definition num (v : value) : N := match v with VNum n => n | _ => 0%N end.
Definition nth_num (fs : list value) (k : nat) : N := num (nth k fs VUnit).
Definition u8 : ty := TPrim PU8.
Definition u16 : ty := TPrim (PU 2).
Definition u32 : ty := TPrim (PU 4).
Definition field (a : fattrs) (t : ty) (tl : fields) : fields := FCons a t t tl.
Definition bits (n : nat) (a : fattrs) : fattrs :=
  mkF (a_endian a) (a_order a) (Some (fun _ _ => n)) (a_bytes a) (a_ctx a) (a_limit a) (a_map a) (a_reader a) (a_writer a) (a_skip a) (a_cond a) (a_default a)
      (a_assert a) (a_assert_eq a) (a_seek a) (a_magic a) (a_pad_before a) (a_pad_after a) (a_temp a) (a_temp_value a) (a_update a).
Definition with_ctx (f : expr (list value)) (a : fattrs) : fattrs :=
  mkF (a_endian a) (a_order a) (a_bits a) (a_bytes a) f (a_limit a) (a_map a) (a_reader a) (a_writer a) (a_skip a) (a_cond a) (a_default a)
      (a_assert a) (a_assert_eq a) (a_seek a) (a_magic a) (a_pad_before a) (a_pad_after a) (a_temp a) (a_temp_value a) (a_update a).
Definition limited (l : flimit) (a : fattrs) : fattrs :=
  mkF (a_endian a) (a_order a) (a_bits a) (a_bytes a) (a_ctx a) (Some l) (a_map a) (a_reader a) (a_writer a) (a_skip a) (a_cond a) (a_default a)
      (a_assert a) (a_assert_eq a) (a_seek a) (a_magic a) (a_pad_before a) (a_pad_after a) (a_temp a) (a_temp_value a) (a_update a).
Definition only_if (f : expr bool) (d : value) (a : fattrs) : fattrs :=
  mkF (a_endian a) (a_order a) (a_bits a) (a_bytes a) (a_ctx a) (a_limit a) (a_map a) (a_reader a) (a_writer a) (a_skip a) (Some f) (fun _ _ _ => d)
      (a_assert a) (a_assert_eq a) (a_seek a) (a_magic a) (a_pad_before a) (a_pad_after a) (a_temp a) (a_temp_value a) (a_update a).
Definition asserting (f : expr bool) (a : fattrs) : fattrs :=
  mkF (a_endian a) (a_order a) (a_bits a) (a_bytes a) (a_ctx a) (a_limit a) (a_map a) (a_reader a) (a_writer a) (a_skip a) (a_cond a) (a_default a)
      (Some f) (a_assert_eq a) (a_seek a) (a_magic a) (a_pad_before a) (a_pad_after a) (a_temp a) (a_temp_value a) (a_update a).
Definition by_hand (f : expr (RM value)) (a : fattrs) : fattrs :=
  mkF (a_endian a) (a_order a) (a_bits a) (a_bytes a) (a_ctx a) (a_limit a) (a_map a) (Some f) (a_writer a) (a_skip a) (a_cond a) (a_default a)
      (a_assert a) (a_assert_eq a) (a_seek a) (a_magic a) (a_pad_before a) (a_pad_after a) (a_temp a) (a_temp_value a) (a_update a).
Definition padded (before after : Z) (a : fattrs) : fattrs :=
  mkF (a_endian a) (a_order a) (a_bits a) (a_bytes a) (a_ctx a) (a_limit a) (a_map a) (a_reader a) (a_writer a) (a_skip a) (a_cond a) (a_default a)
      (a_assert a) (a_assert_eq a) (a_seek a) (a_magic a) (Some (fun _ _ => before)) (Some (fun _ _ => after)) (a_temp a) (a_temp_value a) (a_update a).
Definition temporary (f : list value -> expr0 value) (a : fattrs) : fattrs :=
  mkF (a_endian a) (a_order a) (a_bits a) (a_bytes a) (a_ctx a) (a_limit a) (a_map a) (a_reader a) (a_writer a) (a_skip a) (a_cond a) (a_default a)
      (a_assert a) (a_assert_eq a) (a_seek a) (a_magic a) (a_pad_before a) (a_pad_after a) true (Some f) (a_update a).
Definition big : cattrs := mkC (Some (fun _ _ => Big)) None [] None None.
Definition big_dk : cattrs := mkC (Some (fun _ _ => Big)) None [x44; x4b] None None.
Definition list_len (v : value) : N := match v with VList l => N.of_nat (length l) | _ => 0%N end.

Definition Kind : ty :=
  TEnum (mkE big None None None None) u8
    (VCons (mkV (SId (VNum 1)) false) FNil
    (VCons (mkV (SId (VNum 2)) false) (field plain u32 FNil)
    (VCons (mkV (SPat (fun v => (10 <=? num v)%N && (num v <=? 20)%N) None) false) (field plain u8 (field plain u8 FNil))
    VNil))).
Definition Packet : ty :=
  TStruct big_dk
    (field (bits 4 plain) u8
    (field (bits 12 plain) u16
    (field (temporary (fun stored _ _ => VNum (list_len (nth 2 stored VUnit) mod 256)) plain) u8
    (field (limited (FCount (fun _ fs _ => Z.of_N (nth_num fs 2))) plain) (TVec KVec 2 u16)
    (field (only_if (fun _ fs _ => (1 <? nth_num fs 0)%N) VNone (padded 8 0 plain)) (TOption u8)
    (field plain Kind
    (field (asserting (fun _ fs _ => (nth_num fs 6 <? 16)%N) (padded 0 3 (bits 5 plain))) u8
    FNil))))))).
Definition packet : value :=
  VRec [VNum 2; VNum 0xabc; VList [VNum 0x1122; VNum 0x3344]; VSome (VNum 9); VVar 2 [VNum 12; VNum 0x77]; VNum 13].
Definition packet_bytes : list byte :=
  [x44; x4b; x2a; xbc; x02; x11; x22; x33; x44; x00; x09; x0c; x77; x68].

(** ** C28: round trip *)

(** Every type and value with a format: the bytes are the format, and reading them back
    gives the value and leaves exactly what follows.  Missing: formats outside
    [encode] (mixed bit orders, seeks, hand-written readers and writers, [read_all]),
    among them cases where it is false (below). *)
Theorem C28_round_trip_partial : forall cu ce fuel o t v enc,
  customs_lawful SeekSource o cu ce -> encode SeekSource o ce t None [] 0 v = Some enc -> length enc <= fuel ->
  exists bytes pad, to_bytes cu t v = Ok bytes /\ bitstring o bytes = enc ++ repeat false pad /\ pad < 8 /\
    forall tail, from_bytes cu fuel t (bytes ++ tail) 0 = Ok ((skipn (length enc / 8) (bytes ++ tail), length enc mod 8), v).
Proof. intros cu ce fuel o t v enc. exact (round_trip cu fuel o ce t v enc). Qed.
Print Assumptions C28_round_trip_partial.
(** In the middle of a stream of any source that does not fail. *)
Theorem C28_round_trip_stream_partial : forall cu ce fuel o t pos v enc,
  customs_lawful AnySource o cu ce -> encode AnySource o ce t None [] pos v = Some enc -> length enc <= fuel ->
  emits_at o pos (write_ty cu t [] v) enc /\ reads_at AnySource o pos (read_ty cu fuel t None []) enc v.
Proof. intros cu ce fuel o t pos v enc. exact (round_trip_stream cu fuel o ce t pos v enc). Qed.
Print Assumptions C28_round_trip_stream_partial.
Example C28_case : exists enc, encode SeekSource Msb0 no_format Packet None [] 0 packet = Some enc /\ length enc = 112 /\
  customs_lawful SeekSource Msb0 no_customs no_format /\
  to_bytes no_customs Packet packet = Ok packet_bytes /\
  from_bytes no_customs 200 Packet (packet_bytes ++ [xff]) 0 = Ok (([xff], 0), packet).
Proof. eexists. split; [vm_compute; reflexivity|]. split; [reflexivity|]. split; [discriminate|]. split; vm_compute; reflexivity. Qed.
(** In Lsb0 order: struct { #[deku(bits = 3)] a: u8, #[deku(bits = 10)] b: u16 }. *)
Definition little_lsb : cattrs := mkC (Some (fun _ _ => Little)) (Some (fun _ _ => Lsb0)) [] None None.
Definition Lsb : ty := TStruct little_lsb (field (bits 3 plain) u8 (field (bits 10 plain) u16 FNil)).
Example C28_case_lsb : exists enc, encode SeekSource Lsb0 no_format Lsb None [] 0 (VRec [VNum 5; VNum 0x2a7]) = Some enc /\ length enc = 13 /\
  to_bytes no_customs Lsb (VRec [VNum 5; VNum 0x2a7]) = Ok [x3d; x15] /\
  from_bytes no_customs 200 Lsb [x3d; x15] 0 = Ok (([x15], 5), VRec [VNum 5; VNum 0x2a7]).
Proof. eexists. split; [vm_compute; reflexivity|]. split; [reflexivity|]. split; vm_compute; reflexivity. Qed.

(** struct { a: u8, #[deku(cond = "*a == 1", default = "7")] b: u8 }: the field that is
    not read is written. *)
Definition Cond : ty :=
  TStruct cplain (field plain u8 (field (only_if (fun _ fs _ => (nth_num fs 0 =? 1)%N) (VNum 7) plain) u8 FNil)).
Theorem C28_cond_default_refuted : exists v bytes, from_bytes no_customs 9 Cond [x00] 0 = Ok (([], 0), v) /\
  to_bytes no_customs Cond v = Ok bytes /\ from_bytes no_customs 9 Cond bytes 0 = Ok (([x07], 0), v).
Proof. exists (VRec [VNum 0; VNum 7]), [x00; x07]. repeat split; vm_compute; reflexivity. Qed.
Print Assumptions C28_cond_default_refuted.
(** struct { #[deku(bits = 4)] a: u8, #[deku(count = "2")] d: Vec<u8> }: the bytes are
    written most significant bit first and read least significant bit first. *)
Definition Shifted : ty :=
  TStruct cplain (field (bits 4 plain) u8 (field (limited (FCount (fun _ _ _ => 2%Z)) plain) (TVec KVec 1 u8) FNil)).
Theorem C28_misaligned_bytes_refuted : exists v v' bytes rest, to_bytes no_customs Shifted v = Ok bytes /\
  from_bytes no_customs 9 Shifted bytes 0 = Ok (rest, v') /\ v <> v'.
Proof.
  exists (VRec [VNum 1; VList [VNum 0x23; VNum 0x45]]). do 3 eexists.
  split; [vm_compute; reflexivity|]. split; [vm_compute; reflexivity|]. discriminate.
Qed.
Print Assumptions C28_misaligned_bytes_refuted.
(** #[deku(ctx = "t: u8", id = "t")] enum E { #[deku(id_pat = "_")] A { #[deku(pad_bytes_before = "1")] x: u8 } } in
    struct { t: u8, #[deku(ctx = "*t")] e: E }: the padding is not written. *)
Definition ByCtx (a : fattrs) : ty :=
  TStruct cplain (field plain u8 (field (with_ctx (fun _ fs _ => [nth 0 fs VUnit]) plain)
    (TEnum (mkE cplain (Some (fun ctx => nth 0 ctx VUnit)) None None None) TUnit
       (VCons (mkV (SPat (fun _ => true) None) false) (field a u8 FNil) VNil)) FNil)).
Theorem C28_id_pat_with_id_refuted : exists v bytes, to_bytes no_customs (ByCtx (padded 8 0 plain)) v = Ok bytes /\
  from_bytes no_customs 9 (ByCtx (padded 8 0 plain)) bytes 0 = Err (Incomplete 8).
Proof. exists (VRec [VNum 1; VVar 0 [VNum 5]]). eexists. split; vm_compute; reflexivity. Qed.
Print Assumptions C28_id_pat_with_id_refuted.
(** #[deku(id_type = "u16", endian = "big")] enum E { #[deku(id_pat = "_")] A(u16) }: the
    id is read big-endian and written little-endian. *)
Definition StoredId : ty :=
  TEnum (mkE big None None None None) u16 (VCons (mkV (SPat (fun _ => true) None) false) (field plain u16 FNil) VNil).
Theorem C28_stored_id_endian_refuted : exists v v' bytes, to_bytes no_customs StoredId v = Ok bytes /\
  from_bytes no_customs 9 StoredId bytes 0 = Ok (([], 0), v') /\ v <> v'.
Proof. exists (VVar 0 [VNum 0x1234]). do 2 eexists. split; [vm_compute; reflexivity|]. split; [vm_compute; reflexivity|]. discriminate. Qed.
Print Assumptions C28_stored_id_endian_refuted.

(** ** C30: TryFrom *)

Theorem C30_accepts_exactly : forall cu fuel t input v,
  try_from cu fuel t input = Ok v <-> exists off, from_bytes cu fuel t input 0 = Ok (([], off), v).
Proof. intros cu fuel t input v. exact (try_from_ok cu fuel t input v). Qed.
Print Assumptions C30_accepts_exactly.
Theorem C30_too_much_data : forall cu fuel t input rest off v,
  from_bytes cu fuel t input 0 = Ok ((rest, off), v) -> rest <> [] -> try_from cu fuel t input = Err Parse.
Proof. intros cu fuel t input rest off v. exact (try_from_leftover cu fuel t input rest off v). Qed.
Print Assumptions C30_too_much_data.
Theorem C30_fails_with_from_bytes : forall cu fuel t input e,
  from_bytes cu fuel t input 0 = Err e -> exists e', try_from cu fuel t input = Err e'.
Proof. intros cu fuel t input e. exact (try_from_err cu fuel t input e). Qed.
Print Assumptions C30_fails_with_from_bytes.
Example C30_case : try_from no_customs 200 Packet packet_bytes = Ok packet /\
  try_from no_customs 200 Packet (packet_bytes ++ [x01]) = Err Parse /\
  from_bytes no_customs 200 Packet (packet_bytes ++ [x01]) 0 = Ok (([x01], 0), packet).
Proof. repeat split; vm_compute; reflexivity. Qed.
(** The last byte is consumed in part: reported as too much data. *)
Theorem C30_partial_last_byte_refuted : exists t input off v, length input = 2 /\
  from_bytes no_customs 9 t input 0 = Ok (([last input x00], off), v) /\ 0 < off /\ try_from no_customs 9 t input = Err Parse.
Proof. exists Lsb, [x3d; x15], 5. eexists. split; [reflexivity|]. split; [vm_compute; reflexivity|]. split; [lia|vm_compute; reflexivity]. Qed.
Print Assumptions C30_partial_last_byte_refuted.

(** ** C33: dispatch *)

(** [id_reader]: the magic and the id.  Reading continues with the fields of the chosen
    variant; if there is none, the result is [Parse]. *)
Theorem C33_dispatch : forall cu fuel e idt vs args id r r1, id_reader cu fuel e idt args r = (Ok id, r1) ->
  (forall k v fs, chosen vs id k -> nth_variant vs k = Some (v, fs) ->
     read_ty cu fuel (TEnum e idt vs) None args r =
     (let* l := fields_read cu fuel (en_c e) (ctx_args (en_c e) args) fs (if stores_id e v then Some id else None) [] in ret (VVar k l)) r1) /\
  ((forall k, ~ chosen vs id k) -> read_ty cu fuel (TEnum e idt vs) None args r = (Err Parse, r1)).
Proof. exact dispatch. Qed.
Print Assumptions C33_dispatch.
Theorem C33_id_error : forall cu fuel e idt vs args x r r1, id_reader cu fuel e idt args r = (Err x, r1) ->
  read_ty cu fuel (TEnum e idt vs) None args r = (Err x, r1).
Proof. exact dispatch_fails. Qed.
Print Assumptions C33_id_error.
(** A variant is returned only if it is the one chosen, and at most one is. *)
Theorem C33_result_is_chosen : forall cu fuel e idt vs args k l r r', read_ty cu fuel (TEnum e idt vs) None args r = (Ok (VVar k l), r') ->
  exists id r1, id_reader cu fuel e idt args r = (Ok id, r1) /\ chosen vs id k.
Proof. exact dispatch_inv. Qed.
Print Assumptions C33_result_is_chosen.
Theorem C33_chosen_unique : forall vs id j k, chosen vs id j -> chosen vs id k -> j = k.
Proof. exact chosen_unique. Qed.
Print Assumptions C33_chosen_unique.
Example C33_case : exists e vs, Kind = TEnum e u8 vs /\ chosen vs (VNum 12) 2 /\ (forall k, ~ chosen vs (VNum 3) k) /\
  from_bytes no_customs 9 Kind [x0c; x77; x01] 0 = Ok (([x01], 0), VVar 2 [VNum 12; VNum 0x77]) /\
  from_bytes no_customs 9 Kind [x03; x77; x01] 0 = Err Parse.
Proof.
  do 2 eexists. split; [reflexivity|]. split; [apply selected_chosen; vm_compute; reflexivity|]. split; [apply selected_none; vm_compute; reflexivity|].
  split; vm_compute; reflexivity.
Qed.
(** #[deku(id_type = "u8")] enum E { #[deku(id_pat = "0..=9")] A(u8), #[deku(id = 5)] B }: the id
    written for B reads back as A. *)
Definition Overlap : ty :=
  TEnum (mkE cplain None None None None) u8
    (VCons (mkV (SPat (fun v => (num v <=? 9)%N) None) false) (field plain u8 FNil) (VCons (mkV (SId (VNum 5)) false) FNil VNil)).
Theorem C33_overlap_refuted : exists bytes, to_bytes no_customs Overlap (VVar 1 []) = Ok bytes /\
  from_bytes no_customs 9 Overlap bytes 0 = Ok (([], 0), VVar 0 [VNum 5]).
Proof. exists [x05]. split; vm_compute; reflexivity. Qed.
Print Assumptions C33_overlap_refuted.

(** ** C34: magic and padding *)

(** A magic is read successfully exactly when the next bytes, read as [u8], are it. *)
Theorem C34_magic_exact : forall m r r', read_magic m r = (Ok tt, r') <-> back_to_back (prim_read PU8 C0) r (map Byte.to_N m) r'.
Proof. exact magic_read. Qed.
Print Assumptions C34_magic_exact.
Theorem C34_magic_mismatch : forall pre b m x r r1 r2,
  back_to_back (prim_read PU8 C0) r (map Byte.to_N pre) r1 -> prim_read PU8 C0 r1 = (Ok x, r2) -> x <> Byte.to_N b ->
  read_magic (pre ++ b :: m) r = (Err Parse, r2).
Proof. exact magic_mismatch. Qed.
Print Assumptions C34_magic_mismatch.
Theorem C34_magic_short : forall pre b m e r r1 r2,
  back_to_back (prim_read PU8 C0) r (map Byte.to_N pre) r1 -> prim_read PU8 C0 r1 = (Err e, r2) -> read_magic (pre ++ b :: m) r = (Err e, r2).
Proof. exact magic_short. Qed.
Print Assumptions C34_magic_short.
(** Only inputs that start with the magic give a value. *)
Theorem C34_magic_required : forall cu fuel c fs input v rest off, c_seek c = None ->
  from_bytes cu fuel (TStruct c fs) input 0 = Ok ((rest, off), v) -> firstn (length (c_magic c)) input = c_magic c.
Proof. exact magic_required. Qed.
Print Assumptions C34_magic_required.
Theorem C34_magic_required_enum : forall cu fuel e idt vs input v rest off,
  from_bytes cu fuel (TEnum e idt vs) input 0 = Ok ((rest, off), v) -> firstn (length (c_magic (en_c e))) input = c_magic (en_c e).
Proof. exact magic_required_enum. Qed.
Print Assumptions C34_magic_required_enum.
(** Written whole; missing: inside a byte of an Lsb0 stream, where it is false. *)
Theorem C34_magic_written_partial : forall o m pos, o = Msb0 \/ pos mod 8 = 0 -> emits_at o pos (write_magic m) (bitstring o m).
Proof. exact magic_written. Qed.
Print Assumptions C34_magic_written_partial.
(** Padding of [n] bits appends [n] zero bits, and reading it skips [n] bits whatever
    they are.  Missing: whole bytes of padding on sources that cannot seek and
    directly after the check for the end of input, where it is false. *)
Theorem C34_padding_written : forall o n pos, (N.of_nat n <= usize_max)%N ->
  emits_at o pos (write_pad (Some (Z.of_nat n)) (Some o)) (repeat false n).
Proof. exact padding_written. Qed.
Print Assumptions C34_padding_written.
Theorem C34_padding_skipped_partial : forall src o junk pos, (N.of_nat (length junk) <= usize_max)%N -> src = SeekSource \/ length junk < 8 ->
  reads_at src o pos (read_pad (Some (Z.of_nat (length junk))) (Some o)) junk tt.
Proof. exact padding_skipped. Qed.
Print Assumptions C34_padding_skipped_partial.
Example C34_case : exists c fs, Packet = TStruct c fs /\ c_magic c = [x44; x4b] /\
  from_bytes no_customs 200 Packet packet_bytes 0 = Ok (([], 0), packet) /\
  from_bytes no_customs 200 Packet (x44 :: x4c :: skipn 2 packet_bytes) 0 = Err Parse.
Proof. do 2 eexists. split; [reflexivity|]. split; [reflexivity|]. split; vm_compute; reflexivity. Qed.
Example C34_padding_case : (forall pos, emits_at Lsb0 pos (write_pad (Some 1300%Z) (Some Lsb0)) (repeat false 1300)) /\
  from_bytes no_customs 200 Packet (firstn 9 packet_bytes ++ [xee] ++ skipn 10 packet_bytes) 0 = Ok (([], 0), packet).
Proof. split; [intros pos; apply (padding_written Lsb0 1300 pos); discriminate|vm_compute; reflexivity]. Qed.
(** struct Item { #[deku(pad_bytes_before = "1")] x: u8 } in struct { #[deku(read_all)] v: Vec<Item> }:
    the padding of each item is read one byte too long. *)
Definition Items : ty :=
  TStruct cplain (field (limited FAll plain) (TVec KVec 1 (TStruct cplain (field (padded 8 0 plain) u8 FNil))) FNil).
Theorem C34_padding_after_end_check_refuted : exists v bytes, to_bytes no_customs Items v = Ok bytes /\
  from_bytes no_customs 99 Items bytes 0 = Err (Incomplete 8).
Proof. exists (VRec [VList [VRec [VNum 0x11]; VRec [VNum 0x22]]]), [x00; x11; x00; x22]. split; vm_compute; reflexivity. Qed.
Print Assumptions C34_padding_after_end_check_refuted.
(** In an Lsb0 stream inside a byte, what is written is not accepted. *)
Definition magical (m : list byte) (a : fattrs) : fattrs :=
  mkF (a_endian a) (a_order a) (a_bits a) (a_bytes a) (a_ctx a) (a_limit a) (a_map a) (a_reader a) (a_writer a) (a_skip a) (a_cond a) (a_default a)
      (a_assert a) (a_assert_eq a) (a_seek a) m (a_pad_before a) (a_pad_after a) (a_temp a) (a_temp_value a) (a_update a).
Definition LsbMagic : ty := TStruct little_lsb (field (bits 4 plain) u8 (field (magical [x12; x34] (bits 4 plain)) u8 FNil)).
Theorem C34_lsb_magic_refuted : exists v bytes, to_bytes no_customs LsbMagic v = Ok bytes /\ from_bytes no_customs 9 LsbMagic bytes 0 = Err Parse.
Proof. exists (VRec [VNum 5; VNum 6]). eexists. split; vm_compute; reflexivity. Qed.
Print Assumptions C34_lsb_magic_refuted.

(** ** C35: assertions *)

(** Every struct that is read or written, on its own or inside another type. *)
Theorem C35_read : forall cu fuel c fs args l r r', read_ty cu fuel (TStruct c fs) None args r = (Ok (VRec l), r') ->
  asserted (ctx_args c args) fs [] l.
Proof. exact struct_read_asserts. Qed.
Print Assumptions C35_read.
Theorem C35_write : forall cu c fs args l w x w', length l = stored_count fs ->
  write_ty cu (TStruct c fs) args (VRec l) w = (Ok x, w') -> asserted (ctx_args c args) fs [] l.
Proof. exact struct_write_asserts. Qed.
Print Assumptions C35_write.
(** Enums; in a variant that stores its id, the fields after the id. *)
Theorem C35_read_enum : forall cu fuel e idt vs args k l r r' v fs, read_ty cu fuel (TEnum e idt vs) None args r = (Ok (VVar k l), r') ->
  nth_variant vs k = Some (v, fs) ->
  if stores_id e v then
    match fs with
    | FNil => l = []
    | FCons a _ _ tl => a_reader a = None -> a_temp a = false -> exists id l', l = id :: l' /\ asserted (ctx_args (en_c e) args) tl [id] l'
    end
  else asserted (ctx_args (en_c e) args) fs [] l.
Proof. exact enum_read_asserts. Qed.
Print Assumptions C35_read_enum.
(** Missing: variants with a pattern of an enum whose id comes from the context, where
    it is false. *)
Theorem C35_write_enum_partial : forall cu e idt vs args k l w x w' v fs, write_ty cu (TEnum e idt vs) args (VVar k l) w = (Ok x, w') ->
  nth_variant vs k = Some (v, fs) -> length l = stored_count fs ->
  match v_sel v with
  | SPat _ _ =>
      match fs, l with
      | FCons a _ _ tl, id :: l' => a_temp a = false -> asserted (ctx_args (en_c e) args) tl [id] l'
      | _, _ => True
      end
  | _ => asserted (ctx_args (en_c e) args) fs [] l
  end.
Proof. exact enum_write_asserts. Qed.
Print Assumptions C35_write_enum_partial.
Example C35_case : exists c fs, Packet = TStruct c fs /\
  to_bytes no_customs Packet packet = Ok packet_bytes /\
  to_bytes no_customs Packet (VRec [VNum 2; VNum 0xabc; VList []; VNone; VVar 0 []; VNum 16]) = Err Assertion /\
  from_bytes no_customs 200 Packet (firstn 13 packet_bytes ++ [x80]) 0 = Err Assertion.
Proof. do 2 eexists. split; [reflexivity|]. repeat split; vm_compute; reflexivity. Qed.
(** #[deku(assert = "*x < 9")] on the first field of a pattern variant, id from the
    context: checked on reading only. *)
Theorem C35_id_pat_with_id_refuted : exists v bytes, let t := ByCtx (asserting (fun _ fs _ => (nth_num fs 0 <? 9)%N) plain) in
  to_bytes no_customs t v = Ok bytes /\ from_bytes no_customs 9 t bytes 0 = Err Assertion.
Proof. exists (VRec [VNum 1; VVar 0 [VNum 50]]). eexists. split; vm_compute; reflexivity. Qed.
Print Assumptions C35_id_pat_with_id_refuted.
