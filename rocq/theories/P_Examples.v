(** The declarations of /repo/examples implement the formats they stand for, for every
    input.  The declarations and the formats are in ExampleSpec.v. *)
From Verif Require Import Base Spec Stream Reader Writer Prims Containers Derive Decl DeriveSpec ExampleSpec ExampleProps.

(** Both derive macros accept every declaration, and generate code for the same type. *)
Theorem C62_accepted : forall tr d,
  In d [Ipv4Header; FrameType; Flags; FrameControl; ReadAll; Enums; CatchAll; Flipped; FieldF; Example_] -> derive tr true d = Some (derived d).
Proof. exact accepted. Qed.
Print Assumptions C62_accepted.
Example C62_case_accepted : derive DekuWrite true FieldF = Some (derived FieldF) /\ exists c fs, derived FieldF = TStruct c fs.
Proof. split; [reflexivity|]. do 2 eexists. reflexivity. Qed.

(** 20 bytes or more are read as the header they hold, the rest is left; the value is
    written as the same 20 bytes. *)
Theorem C62_ipv4_parse : forall cu fuel h, 20 <= length h -> 8 * length h + 8 < fuel ->
  from_bytes cu fuel (derived Ipv4Header) h 0 = Ok ((skipn 20 h, 0), ipv4_header h) /\
  to_bytes cu (derived Ipv4Header) (ipv4_header h) = Ok (firstn 20 h).
Proof. exact ipv4_whole. Qed.
Print Assumptions C62_ipv4_parse.
Theorem C62_ipv4_short : forall cu fuel h, length h < 20 -> 8 * length h + 8 < fuel ->
  exists n, from_bytes cu fuel (derived Ipv4Header) h 0 = Err (Incomplete n).
Proof. exact ipv4_cut. Qed.
Print Assumptions C62_ipv4_short.
(** Every header whose fields have the values their width allows is written, as the 20
    bytes that stand for it. *)
Theorem C62_ipv4_build : forall cu l, Forall2 (fun x b => (x < 2 ^ b)%N) l [4; 4; 6; 2; 16; 16; 3; 13; 8; 8; 16; 32; 32]%N ->
  exists h, length h = 20 /\ ipv4_header h = VRec (map VNum l) /\ to_bytes cu (derived Ipv4Header) (VRec (map VNum l)) = Ok h.
Proof. exact ipv4_values. Qed.
Print Assumptions C62_ipv4_build.
Definition ipv4_bytes : list byte := [x45; x00; x00; x4b; x0f; x49; x00; x00; x80; x11; x63; xa5; x91; xfe; xa0; xed; x91; xfd; x02; xcb].
Definition ipv4_fields : list N := [4; 5; 0; 0; 75; 0x0f49; 0; 0; 128; 17; 0x63a5; 0x91fea0ed; 0x91fd02cb]%N.
Example C62_case_ipv4 : ipv4_header ipv4_bytes = VRec (map VNum ipv4_fields) /\
  from_bytes no_customs 200 (derived Ipv4Header) (ipv4_bytes ++ [x99]) 0 = Ok (([x99], 0), VRec (map VNum ipv4_fields)) /\
  to_bytes no_customs (derived Ipv4Header) (VRec (map VNum ipv4_fields)) = Ok ipv4_bytes /\
  from_bytes no_customs 200 (derived Ipv4Header) (firstn 19 ipv4_bytes) 0 = Err (Incomplete 32) /\
  Forall2 (fun x b => (x < 2 ^ b)%N) ipv4_fields [4; 4; 6; 2; 16; 16; 3; 13; 8; 8; 16; 32; 32]%N.
Proof. vm_compute. repeat split. repeat constructor. Qed.

(** Every input of the 802.11 frame control field, bits from the least significant one
    on: a reserved frame type is an error, too few bytes are [Incomplete], anything else
    is read as what it holds and written back. *)
Theorem C62_frame_control : forall cu fuel h, 8 * length h + 8 < fuel ->
  (3 <= at_ h 0 / 64)%N /\ from_bytes cu fuel (derived FrameControl) h 0 = Err Parse \/
  length h < 2 /\ (exists n, from_bytes cu fuel (derived FrameControl) h 0 = Err (Incomplete n)) \/
  (2 <= length h /\ (at_ h 0 / 64 < 3)%N /\ from_bytes cu fuel (derived FrameControl) h 0 = Ok ((skipn 2 h, 0), frame_control h) /\
   to_bytes cu (derived FrameControl) (frame_control h) = Ok (firstn 2 h)).
Proof. exact frame_total. Qed.
Print Assumptions C62_frame_control.
Example C62_case_frame_control :
  let v := VRec [VNum 8; VNum 0; VVar 2 []; VRec (map VNum [1; 0; 0; 0; 0; 0; 1; 0]%N)] in
  frame_control [x88; x41] = v /\ from_bytes no_customs 100 (derived FrameControl) [x88; x41; x07] 0 = Ok (([x07], 0), v) /\
  to_bytes no_customs (derived FrameControl) v = Ok [x88; x41] /\
  from_bytes no_customs 100 (derived FrameControl) [xc8; x41] 0 = Err Parse /\
  from_bytes no_customs 100 (derived FrameControl) [x88] 0 = Err (Incomplete 1).
Proof. vm_compute. repeat split. Qed.

(** [read_all]: every input of an even number of bytes, and no other, is read as its pairs
    and written back. *)
Theorem C62_read_all : forall cu fuel h, length h < fuel ->
  if Nat.even (length h)
  then from_bytes cu fuel (derived ReadAll) h 0 = Ok (([], 0), VRec [VList (pairs h)]) /\ to_bytes cu (derived ReadAll) (VRec [VList (pairs h)]) = Ok h
  else exists n, from_bytes cu fuel (derived ReadAll) h 0 = Err (Incomplete n).
Proof. exact read_all_total. Qed.
Print Assumptions C62_read_all.
Example C62_case_read_all : pairs [xaa; xbb; xcc; xdd] = [VPair (VNum 0xaa) (VNum 0xbb); VPair (VNum 0xcc) (VNum 0xdd)] /\
  from_bytes no_customs 9 (derived ReadAll) [xaa; xbb; xcc; xdd] 0 = Ok (([], 0), VRec [VList (pairs [xaa; xbb; xcc; xdd])]) /\
  from_bytes no_customs 9 (derived ReadAll) [] 0 = Ok (([], 0), VRec [VList []]) /\
  from_bytes no_customs 9 (derived ReadAll) [xaa; xbb; xcc] 0 = Err (Incomplete 8).
Proof. vm_compute. repeat split. Qed.

(** Ids, id patterns, [bytes] and [count] in an enum: every input. *)
Theorem C62_enums : forall cu fuel h, 8 * length h + 8 < fuel ->
  match enums_value h with
  | Some (n, v) => from_bytes cu fuel (derived Enums) h 0 = Ok ((skipn n h, 0), v) /\ to_bytes cu (derived Enums) v = Ok (firstn n h)
  | None => exists n, from_bytes cu fuel (derived Enums) h 0 = Err (Incomplete n)
  end.
Proof. exact enums_total. Qed.
Print Assumptions C62_enums.
Example C62_case_enums : enums_value [x03; x02; x01; x02; x07] = Some (4, VVar 3 [VNum 2; VList [VNum 1; VNum 2]]) /\
  from_bytes no_customs 100 (derived Enums) [x03; x02; x01; x02; x07] 0 = Ok (([x07], 0), VVar 3 [VNum 2; VList [VNum 1; VNum 2]]) /\
  to_bytes no_customs (derived Enums) (VVar 3 [VNum 2; VList [VNum 1; VNum 2]]) = Ok [x03; x02; x01; x02] /\
  enums_value [x03; x02; x01] = None /\ from_bytes no_customs 100 (derived Enums) [x03; x02; x01] 0 = Err (Incomplete 16) /\
  enums_value [x05] = Some (1, VVar 4 [VNum 5]) /\ enums_value [xff] = Some (1, VVar 5 [VNum 255]).
Proof. vm_compute. repeat split. Qed.

(** A default variant: every id is read, the ids of the other variants as those; the
    default is written with its own id. *)
Theorem C62_catch_all_read : forall cu fuel b rest, from_bytes cu fuel (derived CatchAll) (b :: rest) 0 =
  Ok ((rest, 0), VVar (if (Byte.to_N b =? 1)%N then 0 else if (Byte.to_N b =? 2)%N then 1 else 2) []).
Proof. exact catch_all_read. Qed.
Print Assumptions C62_catch_all_read.
Theorem C62_catch_all_write : forall cu k b, nth_error [x01; x02; x03] k = Some b -> to_bytes cu (derived CatchAll) (VVar k []) = Ok [b].
Proof. exact catch_all_written. Qed.
Print Assumptions C62_catch_all_write.
Example C62_case_catch_all : from_bytes no_customs 9 (derived CatchAll) [x0a] 0 = Ok (([], 0), VVar 2 []) /\
  to_bytes no_customs (derived CatchAll) (VVar 2 []) = Ok [x03] /\ nth_error [x01; x02; x03] 2 = Some x03.
Proof. vm_compute. repeat split. Qed.

(** A hand-written reader and writer that use a field before: the second byte is inverted
    if the first is 1, both ways. *)
Theorem C62_custom : forall cu fuel a b rest, let v := VRec [VNum (Byte.to_N a); VNum (flip (Byte.to_N a) (Byte.to_N b))] in
  from_bytes cu fuel (derived Flipped) (a :: b :: rest) 0 = Ok ((rest, 0), v) /\ to_bytes cu (derived Flipped) v = Ok [a; b].
Proof. exact flipped_whole. Qed.
Print Assumptions C62_custom.
Theorem C62_custom_short : forall cu fuel h, length h < 2 -> exists n, from_bytes cu fuel (derived Flipped) h 0 = Err (Incomplete n).
Proof. exact flipped_cut. Qed.
Print Assumptions C62_custom_short.
Example C62_case_custom : from_bytes no_customs 9 (derived Flipped) [x01; x96; x00] 0 = Ok (([x00], 0), VRec [VNum 1; VNum 0x69]) /\
  to_bytes no_customs (derived Flipped) (VRec [VNum 1; VNum 0x69]) = Ok [x01; x96] /\
  from_bytes no_customs 9 (derived Flipped) [x02; x96] 0 = Ok (([], 0), VRec [VNum 2; VNum 0x96]) /\
  from_bytes no_customs 9 (derived Flipped) [x02] 0 = Err (Incomplete 8).
Proof. vm_compute. repeat split. Qed.

(** examples/example.rs: six bytes and the items they announce. *)
Theorem C62_example_parse : forall cu fuel h items rest,
  length h = 6 -> (at_ h 4 mod 64 = 6)%N -> at_ h 5 = N.of_nat (length items) -> 8 * length (h ++ item_bytes items ++ rest) <= fuel ->
  from_bytes cu fuel (derived Example_) (h ++ item_bytes items ++ rest) 0 = Ok ((rest, 0), example_value h items) /\
  to_bytes cu (derived Example_) (example_value h items) = Ok (h ++ item_bytes items).
Proof. exact example_whole. Qed.
Print Assumptions C62_example_parse.
(** [assert_eq] in the nested struct: as soon as the fifth byte is there. *)
Theorem C62_example_assert : forall cu fuel h, 5 <= length h -> (at_ h 4 mod 64 <> 6)%N -> from_bytes cu fuel (derived Example_) h 0 = Err Assertion.
Proof. exact example_bad. Qed.
Print Assumptions C62_example_assert.
(** What is too short for its items is [Incomplete]. *)
Theorem C62_example_short : forall cu fuel h,
  (5 <= length h -> (at_ h 4 mod 64 = 6)%N) -> length h < 6 + 2 * N.to_nat (at_ h 5) -> 8 * length h + 8 < fuel ->
  exists n, from_bytes cu fuel (derived Example_) h 0 = Err (Incomplete n).
Proof. exact example_cut. Qed.
Print Assumptions C62_example_short.
Definition example_bytes : list byte := [xab; xa5; xab; xcd; xc6; x02].
Example C62_case_example :
  let v := VRec [VNum 0xab; VNum 0x52; VNum 1; VNum 0xabcd; VNum 3; VRec [VNum 6]; VNum 2; VList [VNum 0xbeef; VNum 0xc0fe]] in
  let items := [(xbe, xef); (xc0, xfe)] in
  length example_bytes = 6 /\ (at_ example_bytes 4 mod 64 = 6)%N /\ at_ example_bytes 5 = N.of_nat (length items) /\ example_value example_bytes items = v /\
  from_bytes no_customs 200 (derived Example_) (example_bytes ++ [xbe; xef; xc0; xfe; x11]) 0 = Ok (([x11], 0), v) /\
  to_bytes no_customs (derived Example_) v = Ok (example_bytes ++ [xbe; xef; xc0; xfe]) /\
  from_bytes no_customs 200 (derived Example_) [xab; xa5; xab; xcd; xc7] 0 = Err Assertion /\
  from_bytes no_customs 200 (derived Example_) (example_bytes ++ [xbe; xef; xc0]) 0 = Err (Incomplete 16).
Proof. vm_compute. repeat split. Qed.
