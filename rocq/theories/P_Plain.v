(** Plain declarations, C57.

    Vocabulary: [PlainSpec.v] ([pty], [plain_type], [unpadded], [value_fits], [numbers_fit], [wire], [shape], [declaration]),
    [Decl.v] ([derive]), [SafeSpec.v] ([typed]), [NeedSpec.v] ([receive]). *)
From Coq Require Import Lia.
From Verif Require Import Base Spec Stream Reader Writer Prims Containers Derive DeriveSpec SafeSpec NeedSpec Decl PlainSpec PlainProps PlainPad PlainOut.

(** The types of which the theorems below speak are what the derive macros make of the
    declarations. *)
Theorem C57_declared : forall t d tr, declaration t = Some d -> derive tr true d = Some (ctype t).
Proof. exact declared. Qed.
Print Assumptions C57_declared.

(** struct Frame (magic = b"DK") {
      kind: Kind,
      #[deku(endian = "big")] n: u16,
      #[deku(count = "n")] data: Vec<u8>,
      more: bool,
      #[deku(cond = "*more", endian = "big", bits = 24)] extra: Option<i32>,
    }
    enum Kind (id_type = "u8") { #[deku(id = 1)] Ping, #[deku(id = 7)] Point([u16; 2]) } *)
Definition pp (e : option endian) (b : option nat) (k : pkind) : pattrs := mkP e b k [] 0 0.
Definition Kind : pty := PEnum [] PU8 None None (PVCons 1 PNil (PVCons 7 (PCons (pp None None One) (PArray 2 (PInt (PU 2))) PNil) PVNil)).
Definition Frame : pty := PStruct [x44; x4b]
  (PCons (pp None None One) Kind
  (PCons (pp (Some Big) None One) (PInt (PU 2))
  (PCons (pp None None (Many 1 1)) (PInt PU8)
  (PCons (pp None None One) PBool
  (PCons (pp (Some Big) (Some 24) (When 3)) (PInt (PI 4)) PNil))))).
Definition frame : value := VRec [VVar 1 [VList [VNum 258; VNum 3]]; VNum 2; VList [VNum 170; VNum 187]; VBool true; VSome (VNum 0xfffffffe)].
Definition frame_bytes : list byte := [x44; x4b; x07; x02; x01; x03; x00; x00; x02; xaa; xbb; x01; xff; xff; xfe].
(** struct Bits {
      #[deku(bits = 3)] version: u8,
      #[deku(bits = 5)] n: u8,
      #[deku(count = "n", bits = 12, endian = "big")] items: Vec<i16>,
      #[deku(pad_bits_before = 3)] last: Item,
    }
    enum Item (id_type = "u8", bits = 2) { #[deku(id = 0)] None, #[deku(id = 2)] Some { #[deku(bits = 4, pad_bits_after = 9)] x: u8 } } *)
Definition Item (after : nat) : pty := PEnum [] PU8 None (Some 2) (PVCons 0 PNil (PVCons 2 (PCons (mkP None (Some 4) One [] 0 after) (PInt PU8) PNil) PVNil)).
Definition Bits (before after : nat) : pty := PStruct []
  (PCons (pp None (Some 3) One) (PInt PU8)
  (PCons (pp None (Some 5) One) (PInt PU8)
  (PCons (pp (Some Big) (Some 12) (Many 1 2)) (PInt (PI 2))
  (PCons (mkP None None One [] before 0) (Item after) PNil)))).
Definition bitv : value := VRec [VNum 5; VNum 3; VList [VNum 0x7a; VNum 0xfffe; VNum 0xf800]; VVar 1 [VNum 9]].
(** struct Named {
      name: CString,
      #[deku(endian = "big")] pair: (u16, bool),
      #[deku(bits = 4)] id: NonZeroU8,
      #[deku(until = "|x: &u16| *x == 7", endian = "big", bits = 12)] codes: Vec<u16>,
    } *)
Definition Named : pty := PStruct []
  (PCons (pp None None One) PText
  (PCons (pp (Some Big) None One) (PPair (PInt (PU 2)) PBool)
  (PCons (pp None (Some 4) One) (PNonZero PU8)
  (PCons (pp (Some Big) (Some 12) (Until 7 2)) (PInt (PU 2)) PNil)))).
Definition named : value := VRec [VList [VNum 0x41; VNum 0x62]; VPair (VNum 3) (VBool true); VNum 9; VList [VNum 0x123; VNum 0xfff; VNum 7]].
Definition named_bytes : list byte := [x41; x62; x00; x00; x03; x01; x91; x23; xff; xf0; x07].
Example C57_declared_case : exists d, declaration Frame = Some d /\ plain_type Frame = true /\ unpadded Frame = true /\
  plain_type (Bits 3 9) = true /\ plain_type (Bits 0 0) = true /\ unpadded (Bits 0 0) = true /\ unpadded (Bits 3 9) = false /\
  value_fits None Frame frame = true /\ value_fits None (Bits 3 9) bitv = true /\
  plain_type Named = true /\ unpadded Named = true /\ value_fits None Named named = true.
Proof. eexists. repeat split; reflexivity. Qed.

(** Every fitting value is written in the format, the last byte filled up with zeros ... *)
Theorem C57_format : forall cu t v, plain_type t = true -> value_fits None t v = true ->
  to_bits cu (ctype t) v = Ok (wire None None t v) /\
  exists bytes pad, to_bytes cu (ctype t) v = Ok bytes /\ bits_of_bytes bytes = wire None None t v ++ repeat false pad /\ pad < 8.
Proof. exact format. Qed.
Print Assumptions C57_format.
Example C57_format_case : to_bytes no_customs (ctype Frame) frame = Ok frame_bytes /\ bits_of_bytes frame_bytes = wire None None Frame frame /\
  to_bytes no_customs (ctype (Bits 3 9)) bitv = Ok [xa3; x07; xaf; xfe; x80; x01; x48; x00] /\ length (wire None None (Bits 3 9) bitv) = 62 /\
  to_bytes no_customs (ctype Named) named = Ok named_bytes.
Proof. repeat split; vm_compute; reflexivity. Qed.
(** ... and read back from any input that starts with these bits. *)
Theorem C57_read_back : forall cu fuel t v input s, plain_type t = true -> value_fits None t v = true ->
  bits_of_bytes input = wire None None t v ++ s -> length (wire None None t v) <= fuel ->
  let n := length (wire None None t v) in
  from_bytes cu fuel (ctype t) input 0 = Ok ((skipn (n / 8) input, n mod 8), v).
Proof. exact read_back. Qed.
Print Assumptions C57_read_back.
Example C57_read_back_case : from_bytes no_customs 200 (ctype Frame) (frame_bytes ++ [x09]) 0 = Ok (([x09], 0), frame) /\
  from_bytes no_customs 200 (ctype (Bits 3 9)) [xa3; x07; xaf; xfe; x80; x01; x48; x03; x77] 0 = Ok (([x03; x77], 6), bitv).
Proof. repeat split; vm_compute; reflexivity. Qed.
(** No format of a value starts with that of another value. *)
Theorem C57_prefix_free : forall t v v' s s', plain_type t = true -> value_fits None t v = true -> value_fits None t v' = true ->
  wire None None t v ++ s = wire None None t v' ++ s' -> v = v' /\ s = s'.
Proof. exact (prefix_free no_customs). Qed.
Print Assumptions C57_prefix_free.
(** It is necessary that the conditions hold: with an id that is not unique two values
    have the same format. *)
Example C57_prefix_free_case : let Twice := PEnum [] PU8 None None (PVCons 1 PNil (PVCons 1 PNil PVNil)) in
  plain_type Twice = false /\ value_fits None Twice (VVar 0 []) = true /\ value_fits None Twice (VVar 1 []) = true /\
  wire None None Twice (VVar 0 []) = wire None None Twice (VVar 1 []).
Proof. repeat split; reflexivity. Qed.

(** Whatever the input, the result is a fitting value, [Parse] or [Incomplete]. *)
Theorem C57_reads_anything : forall cu fuel t input bit, plain_type t = true -> bit < 8 -> 8 * length input + 8 < fuel ->
  (exists rest off v, from_bytes cu fuel (ctype t) input bit = Ok ((rest, off), v) /\ value_fits None t v = true) \/
  from_bytes cu fuel (ctype t) input bit = Err Parse \/ (exists n, from_bytes cu fuel (ctype t) input bit = Err (Incomplete n)).
Proof. exact reads_bytes. Qed.
Print Assumptions C57_reads_anything.
(** From any source that does not fail; one that cannot seek can say so. *)
Theorem C57_reads_source : forall cu fuel t s bit, plain_type t = true -> (forall j, s_fault s j = None) -> s_pos s <= length (s_data s) ->
  bit < 8 -> 8 * length (s_data s) + 8 < fuel ->
  (exists n v, fst (from_reader cu fuel (ctype t) s bit) = Ok (n, v) /\ value_fits None t v = true) \/
  (exists e, fst (from_reader cu fuel (ctype t) s bit) = Err e /\
     (e = Parse \/ (exists n, e = Incomplete n) \/ (s_noseek s <> None /\ e = Io (OtherKind 0)))).
Proof. exact reads_stream. Qed.
Print Assumptions C57_reads_source.
Example C57_reads_case :
  from_bytes no_customs 200 (ctype Frame) [x44; x4b; x01; x00; x03; x00] 0 = Err (Incomplete 24) /\
  from_bytes no_customs 200 (ctype Frame) [x44; x4b; x02; x00] 0 = Err Parse /\
  from_bytes no_customs 200 (ctype Frame) [x44; x4b; x01; x00; x00; x00; x05] 0 = Ok (([x05], 0), VRec [VVar 0 []; VNum 0; VList []; VBool false; VNone]) /\
  from_bytes no_customs 200 (ctype (Bits 3 9)) [xff; x00] 4 = Err (Incomplete 12).
Proof. repeat split; vm_compute; reflexivity. Qed.

(** Without padding the reader accepts exactly what starts with the format of a fitting
    value, returns that value and consumes exactly its format. *)
Theorem C57_exactly : forall cu fuel t input rest off v, plain_type t = true -> unpadded t = true -> 8 * length input + 8 < fuel ->
  (from_bytes cu fuel (ctype t) input 0 = Ok ((rest, off), v) <->
   value_fits None t v = true /\ let w := wire None None t v in
   (exists s, bits_of_bytes input = w ++ s) /\ rest = skipn (length w / 8) input /\ off = length w mod 8).
Proof. exact read_exactly. Qed.
Print Assumptions C57_exactly.
Theorem C57_rejects : forall cu fuel t input, plain_type t = true -> unpadded t = true -> 8 * length input + 8 < fuel ->
  ((exists v s, value_fits None t v = true /\ bits_of_bytes input = wire None None t v ++ s) <->
   forall e, from_bytes cu fuel (ctype t) input 0 <> Err e).
Proof. exact reads_or_rejects. Qed.
Print Assumptions C57_rejects.
(** [TryFrom] is the inverse of the format. *)
Theorem C57_try_from : forall cu fuel t input v, plain_type t = true -> unpadded t = true -> 8 * length input + 8 < fuel ->
  (try_from cu fuel (ctype t) input = Ok v <-> value_fits None t v = true /\ bits_of_bytes input = wire None None t v).
Proof. exact try_exactly. Qed.
Print Assumptions C57_try_from.
Example C57_exactly_case : try_from no_customs 200 (ctype Frame) frame_bytes = Ok frame /\
  try_from no_customs 200 (ctype Named) named_bytes = Ok named /\ try_from no_customs 200 (ctype Named) (firstn 6 named_bytes ++ [x01; x23]) = Err Parse /\
  try_from no_customs 200 (ctype Named) (firstn 10 named_bytes) = Err (Incomplete 12) /\
  from_bytes no_customs 200 (ctype (Bits 0 0)) [xa1; xff; xeb; x00] 0 = Ok (([x00], 2), VRec [VNum 5; VNum 1; VList [VNum 0xfffe]; VVar 1 [VNum 12]]).
Proof. repeat split; vm_compute; reflexivity. Qed.
(** With padding other bits than zeros are accepted, too. *)
Theorem C57_padding_refuted : exists t input v, plain_type t = true /\ try_from no_customs 200 (ctype t) input = Ok v /\ value_fits None t v = true /\
  bits_of_bytes input <> wire None None t v.
Proof.
  exists (PStruct [] (PCons (mkP None (Some 3) One [] 5 0) (PInt PU8) PNil)), [xff], (VRec [VNum 7]).
  split; [reflexivity|]. split; [vm_compute; reflexivity|]. split; [reflexivity|]. vm_compute. discriminate.
Qed.
Print Assumptions C57_padding_refuted.

(** With padding, too, the accepted inputs are exactly the ones that have the shape of a
    fitting value: [shape] is the format with the bits of padding left open ... *)
Theorem C57_shape : forall t v, wire None None t v = zeros (shape None None t v).
Proof. intros t v. symmetry. exact (written_zeros t v). Qed.
Print Assumptions C57_shape.
Theorem C57_padded_exactly : forall cu fuel t input rest off v, plain_type t = true -> 8 * length input + 8 < fuel ->
  (from_bytes cu fuel (ctype t) input 0 = Ok ((rest, off), v) <->
   value_fits None t v = true /\ exists w s, bits_of_bytes input = w ++ s /\ agrees (shape None None t v) w /\
     rest = skipn (length w / 8) input /\ off = length w mod 8).
Proof. exact padded_exactly. Qed.
Print Assumptions C57_padded_exactly.
Theorem C57_padded_rejects : forall cu fuel t input, plain_type t = true -> 8 * length input + 8 < fuel ->
  ((exists v w s, value_fits None t v = true /\ bits_of_bytes input = w ++ s /\ agrees (shape None None t v) w) <->
   forall e, from_bytes cu fuel (ctype t) input 0 <> Err e).
Proof. exact padded_rejects. Qed.
Print Assumptions C57_padded_rejects.
Theorem C57_padded_try_from : forall cu fuel t input v, plain_type t = true -> 8 * length input + 8 < fuel ->
  (try_from cu fuel (ctype t) input = Ok v <-> value_fits None t v = true /\ agrees (shape None None t v) (bits_of_bytes input)).
Proof. exact padded_try. Qed.
Print Assumptions C57_padded_try_from.
Example C57_padded_case : let Pad := PStruct [] (PCons (mkP None (Some 3) One [x2a] 2 3) (PInt PU8) PNil) in
  plain_type Pad = true /\ unpadded Pad = false /\
  shape None None Pad (VRec [VNum 6]) = sure [false; false; true; false; true; false; true; false] ++ [None; None; Some true; Some true; Some false; None; None; None] /\
  try_from no_customs 200 (ctype Pad) [x2a; xf7] = Ok (VRec [VNum 6]) /\ to_bytes no_customs (ctype Pad) (VRec [VNum 6]) = Ok [x2a; x30] /\
  from_bytes no_customs 200 (ctype Pad) [x2a] 0 = Err (Incomplete 2) /\ from_bytes no_customs 200 (ctype Pad) [x2b; xf7] 0 = Err Parse /\
  from_bytes no_customs 200 (ctype (Bits 3 9)) [xa3; x07; xaf; xfe; x80; x0f; x4b; xff; x77] 0 = Ok (([xff; x77], 6), bitv).
Proof. repeat split; vm_compute; reflexivity. Qed.

(** Any value of the type, fitting or not: if its numbers fit, it is written in the
    format (with the lengths and flags it has), if not, the result is [InvalidParam]. *)
Theorem C57_writes_anything : forall cu t v, plain_type t = true -> typed (ctype t) v ->
  if numbers_fit None t v then
    to_bits cu (ctype t) v = Ok (wire None None t v) /\
    exists bytes pad, to_bytes cu (ctype t) v = Ok bytes /\ bits_of_bytes bytes = wire None None t v ++ repeat false pad /\ pad < 8
  else to_bits cu (ctype t) v = Err InvalidParam /\ to_bytes cu (ctype t) v = Err InvalidParam.
Proof. exact writes_exactly. Qed.
Print Assumptions C57_writes_anything.
Example C57_writes_case : let v n l := VRec [VNum 5; VNum n; VList l; VVar 0 []] in
  typed (ctype (Bits 3 9)) (v 32%N []) /\ numbers_fit None (Bits 3 9) (v 32%N []) = false /\ to_bytes no_customs (ctype (Bits 3 9)) (v 32%N []) = Err InvalidParam /\
  typed (ctype (Bits 3 9)) (v 9%N [VNum 1]) /\ numbers_fit None (Bits 3 9) (v 9%N [VNum 1]) = true /\ value_fits None (Bits 3 9) (v 9%N [VNum 1]) = false /\
  to_bytes no_customs (ctype (Bits 3 9)) (v 9%N [VNum 1]) = Ok [xa9; x00; x10; x00].
Proof.
  split; [repeat split; constructor|]. split; [vm_compute; reflexivity|]. split; [vm_compute; reflexivity|].
  split; [repeat split; repeat constructor|]. repeat split; vm_compute; reflexivity.
Qed.

(** A program that waits for what [Incomplete] asks for gets the same as from the whole
    input at once, after at most as many tries as there are bytes. *)
Theorem C57_receives : forall cu fuel t all have, plain_type t = true -> 8 * length all + 8 < fuel ->
  receive (length all) cu fuel (ctype t) all have = res_map (from_bytes cu fuel (ctype t) all 0) snd.
Proof. exact receives. Qed.
Print Assumptions C57_receives.
Example C57_receives_case : receive 15 no_customs 200 (ctype Frame) frame_bytes 1 = Ok frame.
Proof. vm_compute. reflexivity. Qed.
