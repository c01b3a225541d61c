(** Optimised builds, C72.

    Vocabulary: [Release.v] (the model of an optimised build: [o_from_reader],
    [o_from_bytes], [o_try_from], [o_to_bytes], [o_to_bits], [o_to_slice]); [FlowSpec.v] ([flow_type]) of C49; [PlainSpec.v]
    ([plain_type], [ctype], [value_fits], [wire], [unpadded]) of C57. *)
From Coq Require Import Lia.
From Verif Require Import Base Stream Reader Writer Prims Containers Derive DeriveSpec SafeSpec FlowSpec FlowFacts PlainSpec Release ReleaseFacts ReleaseProps P_Derive P_Safe P_Plain.

(** ** The same unless the debug build panics *)

Theorem C72_reader : forall cu fuel t lim args r, fst (read_ty cu fuel t lim args r) <> Panic ->
  o_read_ty cu fuel t lim args r = read_ty cu fuel t lim args r.
Proof. exact same_read. Qed.
Print Assumptions C72_reader.
(** The result and the state of the source. *)
Theorem C72_from_reader : forall cu fuel t s bit, fst (from_reader cu fuel t s bit) <> Panic ->
  o_from_reader cu fuel t s bit = from_reader cu fuel t s bit.
Proof. exact release_same_reader. Qed.
Print Assumptions C72_from_reader.
Theorem C72_from_bytes : forall cu fuel t input bit,
  (from_bytes cu fuel t input bit <> Panic -> o_from_bytes cu fuel t input bit = from_bytes cu fuel t input bit) /\
  (try_from cu fuel t input <> Panic -> o_try_from cu fuel t input = try_from cu fuel t input).
Proof. exact release_same. Qed.
Print Assumptions C72_from_bytes.
(** In particular an optimised build panics only where the debug build does. *)
Theorem C72_no_new_panics : forall cu fuel t s bit, fst (o_from_reader cu fuel t s bit) = Panic -> fst (from_reader cu fuel t s bit) = Panic.
Proof. exact release_no_new_panics. Qed.
Print Assumptions C72_no_new_panics.
(** Writing. *)
Theorem C72_writer : forall cu t args v w, fst (write_ty cu t args v w) <> Panic -> o_write_ty cu t args v w = write_ty cu t args v w.
Proof. exact same_write. Qed.
Print Assumptions C72_writer.
Theorem C72_to_bytes : forall cu t v buf,
  (to_bytes cu t v <> Panic -> o_to_bytes cu t v = to_bytes cu t v) /\
  (to_bits cu t v <> Panic -> o_to_bits cu t v = to_bits cu t v) /\
  (fst (to_slice cu t v buf) <> Panic -> o_to_slice cu t v buf = to_slice cu t v buf).
Proof. exact release_same_write. Qed.
Print Assumptions C72_to_bytes.
Theorem C72_write_no_new_panics : forall cu t v buf,
  (o_to_bytes cu t v = Panic -> to_bytes cu t v = Panic) /\ (o_to_bits cu t v = Panic -> to_bits cu t v = Panic) /\
  (fst (o_to_slice cu t v buf) = Panic -> fst (to_slice cu t v buf) = Panic).
Proof. exact write_no_new_panics. Qed.
Print Assumptions C72_write_no_new_panics.
Example C72_write_case :
  let v := VRec [VNum 2; VList [VNum 0x61; VNum 0x62]; VList [VVar 1 [VNum 256]; VVar 2 [VNum 11; VNum 7]; VVar 0 []]; VNum 2] in
  o_to_bytes no_customs Record_ v = to_bytes no_customs Record_ v /\ exists b, to_bytes no_customs Record_ v = Ok b /\ 0 < length b.
Proof. cbv zeta. split; [vm_compute; reflexivity|]. eexists. split; [vm_compute; reflexivity|]. cbn [length]. lia. Qed.
Example C72_same_case :
  o_from_bytes no_customs 100 Record_ [x02; x61; x62; x02; x00; x00; x01; x00; x0b; x07; x01] 0 =
  Ok (([x61; x62; x02; x00; x00; x01; x00; x0b; x07; x01], 0),
      VRec [VNum 2; VList [VNum 0x61; VNum 0x62]; VList [VVar 1 [VNum 256]; VVar 2 [VNum 11; VNum 7]; VVar 0 []]; VNum 2]) /\
  fst (o_from_reader no_customs 50 CountU64 (cursor (repeat xff 8)) 0) = Panic.
Proof. split; [vm_compute; reflexivity|reflexivity]. Qed.

(** ** Where the debug build is known not to panic *)

(** The types of C49, on any input: no panic, an end, a value of the type. *)
Theorem C72_safe_from_bytes : forall cu fuel t input bit, flow_type cu t -> bit < 8 -> 8 * length input + 8 < fuel ->
  let x := o_from_bytes cu fuel t input bit in
  x = from_bytes cu fuel t input bit /\ x <> Panic /\ x <> Diverge /\ forall rest v, x = Ok (rest, v) -> typed t v.
Proof. exact safe_release. Qed.
Print Assumptions C72_safe_from_bytes.
Theorem C72_safe_from_reader : forall cu fuel t s bit, flow_type cu t -> (forall j, s_fault s j = None) ->
  s_pos s <= length (s_data s) -> bit < 8 -> 8 * length (s_data s) + 8 < fuel ->
  o_from_reader cu fuel t s bit = from_reader cu fuel t s bit.
Proof. exact safe_release_reader. Qed.
Print Assumptions C72_safe_from_reader.
Example C72_safe_case : flow_type no_customs Record_ /\ flow_type no_customs Tlvs /\ forall j, s_fault (cursor [x00]) j = None.
Proof. split; [exact (safe_flow _ _ (proj1 C49_case_seek))|split; [exact (proj1 C49_case_tlv)|reflexivity]]. Qed.
(** The plain declarations of C57: the format and its exact inverse. *)
Theorem C72_plain_read_back : forall cu fuel t v input s, plain_type t = true -> value_fits None t v = true ->
  bits_of_bytes input = wire None None t v ++ s -> length (wire None None t v) <= fuel ->
  let n := length (wire None None t v) in
  o_from_bytes cu fuel (ctype t) input 0 = Ok ((skipn (n / 8) input, n mod 8), v).
Proof. exact plain_release_back. Qed.
Print Assumptions C72_plain_read_back.
Theorem C72_plain_try_from : forall cu fuel t input v, plain_type t = true -> unpadded t = true -> 8 * length input + 8 < fuel ->
  (o_try_from cu fuel (ctype t) input = Ok v <-> value_fits None t v = true /\ bits_of_bytes input = wire None None t v).
Proof. exact plain_release_try. Qed.
Print Assumptions C72_plain_try_from.
Theorem C72_plain_write : forall cu t v, plain_type t = true -> typed (ctype t) v ->
  if numbers_fit None t v then
    o_to_bits cu (ctype t) v = Ok (wire None None t v) /\
    exists bytes pad, o_to_bytes cu (ctype t) v = Ok bytes /\ bits_of_bytes bytes = wire None None t v ++ repeat false pad /\ pad < 8
  else o_to_bits cu (ctype t) v = Err InvalidParam /\ o_to_bytes cu (ctype t) v = Err InvalidParam.
Proof. exact plain_release_write. Qed.
Print Assumptions C72_plain_write.
Example C72_plain_write_case : o_to_bytes no_customs (ctype Frame) frame = Ok frame_bytes /\ o_to_bytes no_customs (ctype Named) named = Ok named_bytes /\
  o_to_bytes no_customs (ctype (Bits 3 9)) bitv = Ok [xa3; x07; xaf; xfe; x80; x01; x48; x00].
Proof. repeat split; vm_compute; reflexivity. Qed.
Example C72_plain_case : plain_type Frame = true /\ value_fits None Frame frame = true /\ unpadded Named = true /\
  o_try_from no_customs 200 (ctype Frame) frame_bytes = Ok frame /\ o_try_from no_customs 200 (ctype Named) named_bytes = Ok named.
Proof. repeat split; vm_compute; reflexivity. Qed.

(** ** Where it panics *)

(** [bytes_read] is taken modulo 2^61 ... *)
Theorem C72_bytes_read_wraps : forall A fuel size (elem : RM A) n r,
  o_vec_read fuel size elem (LBytes n) r = o_vec_read fuel size elem (LBytes (n mod 2 ^ 61)) r.
Proof. intros A. exact release_wraps. Qed.
Print Assumptions C72_bytes_read_wraps.
Example C72_bytes_read_wraps_case : fst (o_vec_read 9 1 (prim_read PU8 C0) (LBytes (2 ^ 61 + 2)) (reader_new (cursor [x07; x08; x09]))) = Ok [7; 8]%N.
Proof. vm_compute. reflexivity. Qed.
(** ... so a length of 2^61 in the input is accepted, and nothing is read.
      struct Sized { len: u64, #[deku(bytes_read = "len")] data: Vec<u8> } *)
Definition SizedU64 : ty :=
  TStruct cplain (field plain (TPrim (PU 8)) (field (limited (FBytes (fun _ fs _ => Z.of_N (nth_num fs 0))) plain) (TVec KVec 1 u8) FNil)).
Theorem C72_bytes_read_refuted : exists input, let len := (2 ^ 61)%N in
  from_bytes no_customs 50 SizedU64 input 0 = Panic /\
  o_from_bytes no_customs 50 SizedU64 input 0 = Ok (([x01; x02], 0), VRec [VNum len; VList []]).
Proof. exists [x00; x00; x00; x00; x00; x00; x00; x20; x01; x02]. split; vm_compute; reflexivity. Qed.
Print Assumptions C72_bytes_read_refuted.
(** A field of no bits is 0, little-endian; a big-endian one panics in both builds.
      struct { #[deku(bits = 0)] x: i16 } *)
Definition NoBits (e : endian) : ty :=
  TStruct cplain (field (mkF (Some (fun _ _ => e)) None (Some (fun _ _ => 0)) None (a_ctx plain) None None None None None None (a_default plain)
                            None None None [] None None false None None) (TPrim (PI 2)) FNil).
Theorem C72_no_bits_refuted : exists input,
  from_bytes no_customs 50 (NoBits Little) input 0 = Panic /\ o_from_bytes no_customs 50 (NoBits Little) input 0 = Ok ((input, 0), VRec [VNum 0]) /\
  from_bytes no_customs 50 (NoBits Big) input 0 = Panic /\ o_from_bytes no_customs 50 (NoBits Big) input 0 = Panic.
Proof. exists [x01]. repeat split; vm_compute; reflexivity. Qed.
Print Assumptions C72_no_bits_refuted.
(** Writing a byte of no bits panics too; the optimised build writes nothing.
      struct { #[deku(bits = 0)] x: u8, y: u8 } *)
Definition NoBitsU8 : ty :=
  TStruct cplain (field (mkF None None (Some (fun _ _ => 0)) None (a_ctx plain) None None None None None None (a_default plain)
                            None None None [] None None false None None) u8 (field plain u8 FNil)).
Theorem C72_write_no_bits_refuted : exists v, to_bytes no_customs NoBitsU8 v = Panic /\ o_to_bytes no_customs NoBitsU8 v = Ok [x07].
Proof. exists (VRec [VNum 0; VNum 7]). split; vm_compute; reflexivity. Qed.
Print Assumptions C72_write_no_bits_refuted.
(** Past the end of the input the number of bytes left wraps around; the read fails then. *)
Theorem C72_past_end : exists input, forall fuel, from_bytes no_customs fuel PadThenCount input 0 = Panic /\
  o_from_bytes no_customs fuel PadThenCount input 0 = Err (Incomplete 8).
Proof. exists [x01]. intros fuel. split; reflexivity. Qed.
Print Assumptions C72_past_end.
(** The memory is asked for before that, any amount: more than [isize::MAX] panics in this
    build too.
      struct Pad { #[deku(pad_bytes_after = "2")] len: u64, #[deku(count = "len")] data: Vec<u8> } *)
Definition PadThenCountU64 : ty := TStruct cplain (field (padded 0 16 plain) (TPrim (PU 8)) (field (limited (count_of 0) plain) (TVec KVec 1 u8) FNil)).
Theorem C72_past_end_refuted : exists input, forall fuel, o_from_bytes no_customs fuel PadThenCountU64 input 0 = Panic /\
  o_from_bytes no_customs fuel PadThenCountU64 (input ++ [x00; x00]) 0 = Err (Incomplete 0).
Proof. exists [x00; x00; x00; x00; x00; x00; x00; x80]. intros fuel. split; reflexivity. Qed.
Print Assumptions C72_past_end_refuted.
(** Elements that seek back to before the vector: the vector grows for ever. *)
Theorem C72_seeking_element_refuted : exists input, forall fuel, o_from_bytes no_customs fuel Back input 0 = Diverge.
Proof. exists [x01; x02]. exact back_release. Qed.
Print Assumptions C72_seeking_element_refuted.
