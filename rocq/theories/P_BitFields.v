(** C69: structs of bit fields are arithmetic on one number. *)
From Coq Require Import Lia.
From Verif Require Import Base Spec Stream Reader Session Writer Prims CodecSpec Containers Derive DeriveSpec AttrSpec BitFieldSpec BitFields.

(** u8 in 3 bits, u16 in 9 bits, u8 in 4 bits, u32; then u64 in 50 bits. *)
Definition packed : list bfield := [mkB PU8 (Some 3); mkB (PU 2) (Some 9); mkB PU8 (Some 4); mkB (PU 4) None; mkB (PU 8) (Some 50)].
Example packed_ok : Forall b_ok packed /\ whole_aligned 0 packed /\ b_total packed = 98.
Proof. split; [|cbn; repeat split; discriminate || reflexivity]. repeat (apply Forall_cons; [split; [cbn; lia|cbn; auto]|]). constructor. Qed.
Definition packed_bytes : list byte := [x2d; x95; x04; x03; x02; x01; xef; xcd; xab; x89; x67; x45; xfe; xff].

(** With [bit_order = "lsb"] the fields lie in the little-endian number of the bytes one
    above the other, as bit fields of C do on a little-endian machine. *)
Theorem C69_low_read : forall cu fuel e fs input, e = None \/ e = Some Little -> Forall b_ok fs -> whole_aligned 0 fs ->
  b_total fs <= 8 * length input -> b_total fs <= fuel ->
  from_bytes cu fuel (LowFirst e fs) input 0 =
    Ok ((skipn (b_total fs / 8) input, b_total fs mod 8), VRec (cut up 0 fs (number_le input))).
Proof. exact low_read. Qed.
Print Assumptions C69_low_read.
Example low_read_case :
  from_bytes no_customs 100 (LowFirst None packed) packed_bytes 0 =
    Ok (([xfe; xff], 2), VRec [VNum 5; VNum 0x0a5; VNum 9; VNum 0x01020304; VNum 0x24567_89abcdef]) /\
  number_le packed_bytes = 0xfffe_4567_89ab_cdef_01020304_952d%N.
Proof. split; vm_compute; reflexivity. Qed.

(** With [endian = "big"] they lie in the big-endian number one below the other. *)
Theorem C69_high_read : forall cu fuel o fs input, o = None \/ o = Some Msb0 -> Forall b_ok fs ->
  b_total fs <= 8 * length input -> b_total fs <= fuel ->
  from_bytes cu fuel (HighFirst o fs) input 0 =
    Ok ((skipn (b_total fs / 8) input, b_total fs mod 8), VRec (cut (down (8 * length input)) 0 fs (number_be input))).
Proof. exact high_read. Qed.
Print Assumptions C69_high_read.
Example high_read_case :
  from_bytes no_customs 100 (HighFirst None packed) packed_bytes 0 =
    Ok (([xfe; xff], 2), VRec [VNum 1; VNum 0xd9; VNum 5; VNum 0x04030201; VNum 0x3bf36_ae259d17]) /\
  number_be packed_bytes = 0x2d95_04030201_efcd_ab89_6745_feff%N.
Proof. split; vm_compute; reflexivity. Qed.

(** Writing adds the fields up, each shifted to its place. *)
Theorem C69_low_write : forall cu e fs vs, e = None \/ e = Some Little -> Forall b_ok fs -> whole_aligned 0 fs -> all_in_bits fs vs ->
  exists bytes, to_bytes cu (LowFirst e fs) (VRec (map VNum vs)) = Ok bytes /\ length bytes = (b_total fs + 7) / 8 /\
    number_le bytes = join up 0 fs vs.
Proof. exact low_write. Qed.
Print Assumptions C69_low_write.
Example low_write_case :
  to_bytes no_customs (LowFirst (Some Little) packed) (VRec (map VNum [5; 0x0a5; 9; 0x01020304; 0x24567_89abcdef]%N)) = Ok (firstn 12 packed_bytes ++ [x02]).
Proof. vm_compute. reflexivity. Qed.

Theorem C69_high_write : forall cu o fs vs, o = None \/ o = Some Msb0 -> Forall b_ok fs -> all_in_bits fs vs ->
  exists bytes, to_bytes cu (HighFirst o fs) (VRec (map VNum vs)) = Ok bytes /\ length bytes = (b_total fs + 7) / 8 /\
    number_be bytes = join (down (8 * length bytes)) 0 fs vs.
Proof. exact high_write. Qed.
Print Assumptions C69_high_write.
Example high_write_case :
  to_bytes no_customs (HighFirst (Some Msb0) packed) (VRec (map VNum [1; 0xd9; 5; 0x04030201; 0x3bf36_ae259d17]%N)) = Ok (firstn 12 packed_bytes ++ [xc0]).
Proof. vm_compute. reflexivity. Qed.

(** Too few bits, by however little: [Incomplete]. *)
Theorem C69_low_short : forall cu fuel e fs input, e = None \/ e = Some Little -> Forall b_ok fs -> whole_aligned 0 fs ->
  8 * length input < b_total fs -> 8 * length input + 8 < fuel ->
  exists n, from_bytes cu fuel (LowFirst e fs) input 0 = Err (Incomplete n).
Proof. exact low_short. Qed.
Print Assumptions C69_low_short.
Theorem C69_high_short : forall cu fuel o fs input, o = None \/ o = Some Msb0 -> Forall b_ok fs ->
  8 * length input < b_total fs -> 8 * length input + 8 < fuel ->
  exists n, from_bytes cu fuel (HighFirst o fs) input 0 = Err (Incomplete n).
Proof. exact high_short. Qed.
Print Assumptions C69_high_short.
Example short_case :
  from_bytes no_customs 200 (LowFirst None packed) (firstn 12 packed_bytes) 0 = Err (Incomplete 50) /\
  from_bytes no_customs 200 (HighFirst None packed) (firstn 12 packed_bytes) 0 = Err (Incomplete 50).
Proof. split; vm_compute; reflexivity. Qed.

(** A value that has more bits than its field: [InvalidParam], and no output. *)
Theorem C69_low_refused : forall cu e fs vs, e = None \/ e = Some Little -> Forall b_ok fs -> whole_aligned 0 fs ->
  of_types fs vs -> ~ all_in_bits fs vs -> to_bytes cu (LowFirst e fs) (VRec (map VNum vs)) = Err InvalidParam.
Proof. exact low_refused. Qed.
Print Assumptions C69_low_refused.
Theorem C69_high_refused : forall cu o fs vs, o = None \/ o = Some Msb0 -> Forall b_ok fs ->
  of_types fs vs -> ~ all_in_bits fs vs -> to_bytes cu (HighFirst o fs) (VRec (map VNum vs)) = Err InvalidParam.
Proof. exact high_refused. Qed.
Print Assumptions C69_high_refused.
Example refused_case :
  of_types packed [5; 512; 9; 0; 0]%N /\
  to_bytes no_customs (LowFirst None packed) (VRec (map VNum [5; 512; 9; 0; 0]%N)) = Err InvalidParam /\
  to_bytes no_customs (HighFirst None packed) (VRec (map VNum [5; 512; 9; 0; 0]%N)) = Err InvalidParam.
Proof. split; [repeat constructor|]. split; vm_compute; reflexivity. Qed.

(** Without either attribute (little-endian numbers in [Msb0] order) neither number gives
    the fields. *)
Theorem C69_default_neither : exists fs input vs, Forall b_ok fs /\ whole_aligned 0 fs /\
  from_bytes no_customs 100 (TStruct (i_container None None) (b_fields fs)) input 0 = Ok (([], 0), VRec vs) /\
  vs <> cut up 0 fs (number_le input) /\ vs <> cut (down (8 * length input)) 0 fs (number_be input).
Proof.
  exists [mkB (PU 2) (Some 12); mkB PU8 (Some 4)], [x12; x34], [VNum 0x312; VNum 4].
  split; [repeat (apply Forall_cons; [split; [cbn; lia|cbn; auto]|]); constructor|]. split; [cbn; repeat split; discriminate|]. split; [vm_compute; reflexivity|]. split; vm_compute; discriminate.
Qed.
Print Assumptions C69_default_neither.
