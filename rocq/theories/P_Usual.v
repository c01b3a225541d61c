(** Declarations as they are usually written, C64: byte orders of whole structs and
    enums, byte orders handed on by [ctx], padding in bytes, discriminants.

    Vocabulary: [InheritSpec.v] ([uty], [written], [resolve], [handed], [usual_type]), [PlainSpec.v] ([ctype],
    [value_fits], [numbers_fit], [wire], [shape]), [Decl.v] ([derive]), [SafeSpec.v] ([typed]). *)
From Coq Require Import Lia.
From Verif Require Import Base Spec Stream Reader Writer Prims Containers Derive DeriveSpec SafeSpec Decl PlainSpec InheritSpec InheritFacts P_Derive.

(** The types of which the theorems below speak are what the derive macros make of the
    declarations. *)
Theorem C64_declared : forall t d tr, written t = Some d -> derive tr true d = Some (utype t).
Proof. intros t d tr. exact (written_declared t d tr). Qed.
Print Assumptions C64_declared.

(** #[deku(endian = "big", magic = b"DK")]
    struct Header {
      version: u8,
      #[deku(pad_bytes_after = "1")] len: u16,
      #[deku(count = "len")] items: Vec<Entry>,
      #[deku(endian = "little")] check: u16,
      #[deku(pad_bits_before = "3", pad_bytes_before = "1", bits = "5")] flags: u8,
      last: Kind,
    }
    #[deku(ctx = "endian: Endian", endian = "endian")]
    struct Entry { x: u16, #[deku(endian = "little")] y: u32 }
    #[deku(id_type = "u16", ctx = "e: Endian", endian = "e", ctx_default = "Endian::Little")]
    #[repr(u16)]
    enum Kind { Ping = 1, Pair(u16, u8) = 0x203, #[deku(id = "7")] Other } *)
Definition uu (p : pattrs) : uattrs := mkU p 0 0.
Definition plain_f (e : option endian) (b : option nat) (k : pkind) : pattrs := mkP e b k [] 0 0.
Definition Entry : uty := UStruct (FromCtx None) []
  (UCons (uu (plain_f None None One)) (UInt (PU 2)) (UCons (uu (plain_f (Some Little) None One)) (UInt (PU 4)) UNil)).
Definition Kind : uty := UEnum (FromCtx (Some Little)) [] (PU 2) None None
  (UVCons ByDiscriminant 1 UNil
  (UVCons ByDiscriminant 0x203 (UCons (uu (plain_f None None One)) (UInt (PU 2)) (UCons (uu (plain_f None None One)) (UInt PU8) UNil))
  (UVCons ById 7 UNil UVNil))).
Definition Header : uty := UStruct (Order Big) [x44; x4b]
  (UCons (uu (plain_f None None One)) (UInt PU8)
  (UCons (mkU (plain_f None None One) 0 1) (UInt (PU 2))
  (UCons (uu (plain_f None None (Many 1 8))) Entry
  (UCons (uu (plain_f (Some Little) None One)) (UInt (PU 2))
  (UCons (mkU (mkP None (Some 5) One [] 3 0) 1 0) (UInt PU8)
  (UCons (uu (plain_f None None One)) Kind UNil)))))).
(** Spelled out. *)
Definition Header' : pty := PStruct [x44; x4b]
  (PCons (mkP (Some Big) None One [] 0 0) (PInt PU8)
  (PCons (mkP (Some Big) None One [] 0 8) (PInt (PU 2))
  (PCons (mkP None None (Many 1 8) [] 0 0)
     (PStruct [] (PCons (mkP (Some Big) None One [] 0 0) (PInt (PU 2)) (PCons (mkP (Some Little) None One [] 0 0) (PInt (PU 4)) PNil)))
  (PCons (mkP (Some Little) None One [] 0 0) (PInt (PU 2))
  (PCons (mkP (Some Big) (Some 5) One [] 11 0) (PInt PU8)
  (PCons (mkP None None One [] 0 0)
     (PEnum [] (PU 2) (Some Big) None
       (PVCons 1 PNil (PVCons 0x203 (PCons (mkP (Some Big) None One [] 0 0) (PInt (PU 2)) (PCons (mkP (Some Big) None One [] 0 0) (PInt PU8) PNil))
       (PVCons 7 PNil PVNil)))) PNil)))))).
Definition header : value := VRec [VNum 1; VNum 1; VList [VRec [VNum 2; VNum 3]]; VNum 4; VNum 5; VVar 1 [VNum 6; VNum 7]].
Definition header_bytes : list byte :=
  [x44; x4b; x01; x00; x01; x00; x00; x02; x03; x00; x00; x00; x04; x00; x00; x05; x02; x03; x00; x06; x07].
(** #[deku(endian = "big")]
    struct Tail { at: (u16, i32), id: NonZeroU16, #[deku(until = "|x: &u16| *x == 0")] codes: Vec<u16>, label: Label }
    #[deku(ctx = "endian: Endian", endian = "endian")]
    struct Label { len: u16, #[deku(count = "len")] text: Vec<(u8, u16)> } *)
Definition Label : uty := UStruct (FromCtx None) []
  (UCons (uu (plain_f None None One)) (UInt (PU 2)) (UCons (uu (plain_f None None (Many 0 4))) (UPair (UInt PU8) (UInt (PU 2))) UNil)).
Definition Tail : uty := UStruct (Order Big) []
  (UCons (uu (plain_f None None One)) (UPair (UInt (PU 2)) (UInt (PI 4)))
  (UCons (uu (plain_f None None One)) (UNonZero (PU 2))
  (UCons (uu (plain_f None None (Until 0 2))) (UInt (PU 2))
  (UCons (uu (plain_f None None One)) Label UNil)))).
(** struct Files { name: CString, tail: Tail } *)
Definition Files : uty := UStruct NoOrder [] (UCons (uu (plain_f None None One)) UText (UCons (uu (plain_f None None One)) Tail UNil)).
Definition files : value := VRec [VList [VNum 0x61]; VRec [VPair (VNum 1) (VNum 0xffffffff); VNum 2; VList [VNum 3; VNum 0]; VRec [VNum 1; VList [VPair (VNum 4) (VNum 5)]]]].
Definition files_bytes : list byte :=
  [x61; x00; x00; x01; xff; xff; xff; xff; x00; x02; x00; x03; x00; x00; x00; x01; x04; x00; x05].
Example C64_declared_case : exists d d', written Header = Some d /\ written Kind = Some d' /\ derive DekuRead true d' = Some (utype Kind) /\ resolve None Header = Header' /\ usual_type Header = true /\ usual_type Files = true.
Proof. do 2 eexists. split; [reflexivity|]. split; [reflexivity|]. split; [now apply written_declared|]. repeat split; reflexivity. Qed.

(** Such a declaration does what the declaration does in which every number has its own
    byte order, all padding is in bits and every variant has an [id]. *)
Theorem C64_spelled_out : forall cu t, handed None None t = true -> let t' := ctype (resolve None t) in
  (forall fuel s bit, from_reader cu fuel (utype t) s bit = from_reader cu fuel t' s bit) /\
  (forall fuel input bit, from_bytes cu fuel (utype t) input bit = from_bytes cu fuel t' input bit) /\
  (forall fuel input, try_from cu fuel (utype t) input = try_from cu fuel t' input) /\
  (forall v, to_bytes cu (utype t) v = to_bytes cu t' v) /\ (forall v, to_bits cu (utype t) v = to_bits cu t' v) /\
  (forall v buf, to_slice cu (utype t) v buf = to_slice cu t' v buf).
Proof. exact resolve_means. Qed.
Print Assumptions C64_spelled_out.
(** Also with arguments: a type that takes a byte order, used on its own. *)
Example C64_spelled_out_case : to_bytes no_customs (utype Header) header = Ok header_bytes /\ to_bytes no_customs (ctype Header') header = Ok header_bytes /\
  try_from no_customs 300 (utype Header) header_bytes = Ok header /\
  to_bytes no_customs (utype Kind) (VVar 1 [VNum 6; VNum 7]) = Ok [x03; x02; x06; x00; x07] /\
  from_bytes no_customs 300 (utype Kind) [x07; x00; x09] 0 = Ok (([x09], 0), VVar 2 []) /\
  to_bytes no_customs (utype Files) files = Ok files_bytes /\ try_from no_customs 300 (utype Files) files_bytes = Ok files /\
  handed None None Entry = false /\ handed (Some Big) None Entry = true.
Proof. repeat split; vm_compute; reflexivity. Qed.

(** So what C57 says of plain declarations holds: a format that is written ... *)
Theorem C64_format : forall cu t v, usual_type t = true -> value_fits None (resolve None t) v = true ->
  let w := wire None None (resolve None t) v in
  to_bits cu (utype t) v = Ok w /\
  exists bytes pad, to_bytes cu (utype t) v = Ok bytes /\ bits_of_bytes bytes = w ++ repeat false pad /\ pad < 8.
Proof. exact usual_format. Qed.
Print Assumptions C64_format.
Example C64_format_case : value_fits None (resolve None Header) header = true /\ wire None None (resolve None Header) header = bits_of_bytes header_bytes /\
  value_fits None (resolve None Files) files = true /\ wire None None (resolve None Files) files = bits_of_bytes files_bytes.
Proof. repeat split; vm_compute; reflexivity. Qed.
(** ... exactly the inputs in this format are accepted ... *)
Theorem C64_exactly : forall cu fuel t input rest off v, usual_type t = true -> 8 * length input + 8 < fuel ->
  (from_bytes cu fuel (utype t) input 0 = Ok ((rest, off), v) <->
   value_fits None (resolve None t) v = true /\ exists w s, bits_of_bytes input = w ++ s /\ agrees (shape None None (resolve None t) v) w /\
     rest = skipn (length w / 8) input /\ off = length w mod 8).
Proof. exact usual_exactly. Qed.
Print Assumptions C64_exactly.
Theorem C64_try_from : forall cu fuel t input v, usual_type t = true -> 8 * length input + 8 < fuel ->
  (try_from cu fuel (utype t) input = Ok v <->
   value_fits None (resolve None t) v = true /\ agrees (shape None None (resolve None t) v) (bits_of_bytes input)).
Proof. exact usual_try. Qed.
Print Assumptions C64_try_from.
(** ... reading never panics, and the errors are these ... *)
Theorem C64_reads_source : forall cu fuel t s bit, usual_type t = true -> (forall j, s_fault s j = None) -> s_pos s <= length (s_data s) ->
  bit < 8 -> 8 * length (s_data s) + 8 < fuel ->
  (exists n v, fst (from_reader cu fuel (utype t) s bit) = Ok (n, v) /\ value_fits None (resolve None t) v = true) \/
  (exists e, fst (from_reader cu fuel (utype t) s bit) = Err e /\
     (e = Parse \/ (exists n, e = Incomplete n) \/ (s_noseek s <> None /\ e = Io (OtherKind 0)))).
Proof. exact usual_reads. Qed.
Print Assumptions C64_reads_source.
(** ... and writing fails exactly for numbers that do not fit their bits. *)
Theorem C64_writes_anything : forall cu t v, usual_type t = true -> typed (utype t) v ->
  let w := wire None None (resolve None t) v in
  if numbers_fit None (resolve None t) v then
    to_bits cu (utype t) v = Ok w /\
    exists bytes pad, to_bytes cu (utype t) v = Ok bytes /\ bits_of_bytes bytes = w ++ repeat false pad /\ pad < 8
  else to_bits cu (utype t) v = Err InvalidParam /\ to_bytes cu (utype t) v = Err InvalidParam.
Proof. exact usual_writes. Qed.
Print Assumptions C64_writes_anything.
Example C64_reads_case :
  try_from no_customs 300 (utype Header) (firstn 14 header_bytes ++ [xff; xe5] ++ skipn 16 header_bytes) = Ok header /\
  try_from no_customs 300 (utype Header) (header_bytes ++ [x00]) = Err Parse /\
  try_from no_customs 300 (utype Header) (firstn 7 header_bytes) = Err (Incomplete 16) /\
  to_bytes no_customs (utype Header) (VRec [VNum 1; VNum 0; VList []; VNum 4; VNum 32; VVar 0 []]) = Err InvalidParam /\
  to_bytes no_customs (utype Header) (VRec [VNum 1; VNum 9; VList []; VNum 4; VNum 31; VVar 0 []]) =
    Ok [x44; x4b; x01; x00; x09; x00; x04; x00; x00; x1f; x00; x01].
Proof. repeat split; vm_compute; reflexivity. Qed.
