(** The tests of tests/*.rs evaluated in the model: tests of the model, not proofs.
    Each example cites the test it repeats. *)
From Verif Require Import Base Stream Reader Writer Prims Containers Derive DeriveSpec.

(** ** Notation for types *)
Definition f_endian (e : endian) (a : fattrs) : fattrs :=
  mkF (Some (fun _ _ => e)) (a_order a) (a_bits a) (a_bytes a) (a_ctx a) (a_limit a) (a_map a) (a_reader a) (a_writer a) (a_skip a) (a_cond a) (a_default a) (a_assert a) (a_assert_eq a) (a_seek a) (a_magic a) (a_pad_before a) (a_pad_after a) (a_temp a) (a_temp_value a) (a_update a).
Definition f_order (o : order) (a : fattrs) : fattrs :=
  mkF (a_endian a) (Some (fun _ _ => o)) (a_bits a) (a_bytes a) (a_ctx a) (a_limit a) (a_map a) (a_reader a) (a_writer a) (a_skip a) (a_cond a) (a_default a) (a_assert a) (a_assert_eq a) (a_seek a) (a_magic a) (a_pad_before a) (a_pad_after a) (a_temp a) (a_temp_value a) (a_update a).
Definition f_bits (n : nat) (a : fattrs) : fattrs :=
  mkF (a_endian a) (a_order a) (Some (fun _ _ => n)) (a_bytes a) (a_ctx a) (a_limit a) (a_map a) (a_reader a) (a_writer a) (a_skip a) (a_cond a) (a_default a) (a_assert a) (a_assert_eq a) (a_seek a) (a_magic a) (a_pad_before a) (a_pad_after a) (a_temp a) (a_temp_value a) (a_update a).
Definition f_bytes (n : expr0 nat) (a : fattrs) : fattrs :=
  mkF (a_endian a) (a_order a) (a_bits a) (Some n) (a_ctx a) (a_limit a) (a_map a) (a_reader a) (a_writer a) (a_skip a) (a_cond a) (a_default a) (a_assert a) (a_assert_eq a) (a_seek a) (a_magic a) (a_pad_before a) (a_pad_after a) (a_temp a) (a_temp_value a) (a_update a).
Definition f_ctx (f : expr (list value)) (a : fattrs) : fattrs :=
  mkF (a_endian a) (a_order a) (a_bits a) (a_bytes a) f (a_limit a) (a_map a) (a_reader a) (a_writer a) (a_skip a) (a_cond a) (a_default a) (a_assert a) (a_assert_eq a) (a_seek a) (a_magic a) (a_pad_before a) (a_pad_after a) (a_temp a) (a_temp_value a) (a_update a).
Definition f_limit (l : flimit) (a : fattrs) : fattrs :=
  mkF (a_endian a) (a_order a) (a_bits a) (a_bytes a) (a_ctx a) (Some l) (a_map a) (a_reader a) (a_writer a) (a_skip a) (a_cond a) (a_default a) (a_assert a) (a_assert_eq a) (a_seek a) (a_magic a) (a_pad_before a) (a_pad_after a) (a_temp a) (a_temp_value a) (a_update a).
Definition f_map (f : value -> res value) (a : fattrs) : fattrs :=
  mkF (a_endian a) (a_order a) (a_bits a) (a_bytes a) (a_ctx a) (a_limit a) (Some (fun _ _ _ => f)) (a_reader a) (a_writer a) (a_skip a) (a_cond a) (a_default a) (a_assert a) (a_assert_eq a) (a_seek a) (a_magic a) (a_pad_before a) (a_pad_after a) (a_temp a) (a_temp_value a) (a_update a).
Definition f_reader (m : expr (RM value)) (a : fattrs) : fattrs :=
  mkF (a_endian a) (a_order a) (a_bits a) (a_bytes a) (a_ctx a) (a_limit a) (a_map a) (Some m) (a_writer a) (a_skip a) (a_cond a) (a_default a) (a_assert a) (a_assert_eq a) (a_seek a) (a_magic a) (a_pad_before a) (a_pad_after a) (a_temp a) (a_temp_value a) (a_update a).
Definition f_writer (m : list value -> expr (value -> WM unit)) (a : fattrs) : fattrs :=
  mkF (a_endian a) (a_order a) (a_bits a) (a_bytes a) (a_ctx a) (a_limit a) (a_map a) (a_reader a) (Some m) (a_skip a) (a_cond a) (a_default a) (a_assert a) (a_assert_eq a) (a_seek a) (a_magic a) (a_pad_before a) (a_pad_after a) (a_temp a) (a_temp_value a) (a_update a).
Definition f_skip (s : skipmode) (a : fattrs) : fattrs :=
  mkF (a_endian a) (a_order a) (a_bits a) (a_bytes a) (a_ctx a) (a_limit a) (a_map a) (a_reader a) (a_writer a) (Some s) (a_cond a) (a_default a) (a_assert a) (a_assert_eq a) (a_seek a) (a_magic a) (a_pad_before a) (a_pad_after a) (a_temp a) (a_temp_value a) (a_update a).
Definition f_cond (f : expr bool) (a : fattrs) : fattrs :=
  mkF (a_endian a) (a_order a) (a_bits a) (a_bytes a) (a_ctx a) (a_limit a) (a_map a) (a_reader a) (a_writer a) (a_skip a) (Some f) (a_default a) (a_assert a) (a_assert_eq a) (a_seek a) (a_magic a) (a_pad_before a) (a_pad_after a) (a_temp a) (a_temp_value a) (a_update a).
Definition f_default (v : value) (a : fattrs) : fattrs :=
  mkF (a_endian a) (a_order a) (a_bits a) (a_bytes a) (a_ctx a) (a_limit a) (a_map a) (a_reader a) (a_writer a) (a_skip a) (a_cond a) (fun _ _ _ => v) (a_assert a) (a_assert_eq a) (a_seek a) (a_magic a) (a_pad_before a) (a_pad_after a) (a_temp a) (a_temp_value a) (a_update a).
Definition f_assert (f : expr bool) (a : fattrs) : fattrs :=
  mkF (a_endian a) (a_order a) (a_bits a) (a_bytes a) (a_ctx a) (a_limit a) (a_map a) (a_reader a) (a_writer a) (a_skip a) (a_cond a) (a_default a) (Some f) (a_assert_eq a) (a_seek a) (a_magic a) (a_pad_before a) (a_pad_after a) (a_temp a) (a_temp_value a) (a_update a).
Definition f_assert_eq (f : expr value) (a : fattrs) : fattrs :=
  mkF (a_endian a) (a_order a) (a_bits a) (a_bytes a) (a_ctx a) (a_limit a) (a_map a) (a_reader a) (a_writer a) (a_skip a) (a_cond a) (a_default a) (a_assert a) (Some f) (a_seek a) (a_magic a) (a_pad_before a) (a_pad_after a) (a_temp a) (a_temp_value a) (a_update a).
Definition f_seek (f : list value -> option seekfrom) (a : fattrs) : fattrs :=
  mkF (a_endian a) (a_order a) (a_bits a) (a_bytes a) (a_ctx a) (a_limit a) (a_map a) (a_reader a) (a_writer a) (a_skip a) (a_cond a) (a_default a) (a_assert a) (a_assert_eq a) (Some (fun _ fs => f fs)) (a_magic a) (a_pad_before a) (a_pad_after a) (a_temp a) (a_temp_value a) (a_update a).
Definition f_magic (m : list byte) (a : fattrs) : fattrs :=
  mkF (a_endian a) (a_order a) (a_bits a) (a_bytes a) (a_ctx a) (a_limit a) (a_map a) (a_reader a) (a_writer a) (a_skip a) (a_cond a) (a_default a) (a_assert a) (a_assert_eq a) (a_seek a) m (a_pad_before a) (a_pad_after a) (a_temp a) (a_temp_value a) (a_update a).
Definition f_before (n : Z) (a : fattrs) : fattrs :=
  mkF (a_endian a) (a_order a) (a_bits a) (a_bytes a) (a_ctx a) (a_limit a) (a_map a) (a_reader a) (a_writer a) (a_skip a) (a_cond a) (a_default a) (a_assert a) (a_assert_eq a) (a_seek a) (a_magic a) (Some (fun _ _ => n)) (a_pad_after a) (a_temp a) (a_temp_value a) (a_update a).
Definition f_after (n : Z) (a : fattrs) : fattrs :=
  mkF (a_endian a) (a_order a) (a_bits a) (a_bytes a) (a_ctx a) (a_limit a) (a_map a) (a_reader a) (a_writer a) (a_skip a) (a_cond a) (a_default a) (a_assert a) (a_assert_eq a) (a_seek a) (a_magic a) (a_pad_before a) (Some (fun _ _ => n)) (a_temp a) (a_temp_value a) (a_update a).
Definition f_temp  (a : fattrs) : fattrs :=
  mkF (a_endian a) (a_order a) (a_bits a) (a_bytes a) (a_ctx a) (a_limit a) (a_map a) (a_reader a) (a_writer a) (a_skip a) (a_cond a) (a_default a) (a_assert a) (a_assert_eq a) (a_seek a) (a_magic a) (a_pad_before a) (a_pad_after a) true (a_temp_value a) (a_update a).
Definition f_temp_value (f : list value -> value) (a : fattrs) : fattrs :=
  mkF (a_endian a) (a_order a) (a_bits a) (a_bytes a) (a_ctx a) (a_limit a) (a_map a) (a_reader a) (a_writer a) (a_skip a) (a_cond a) (a_default a) (a_assert a) (a_assert_eq a) (a_seek a) (a_magic a) (a_pad_before a) (a_pad_after a) true (Some (fun stored _ _ => f stored)) (a_update a).
Definition f_update (f : list value -> res value) (a : fattrs) : fattrs :=
  mkF (a_endian a) (a_order a) (a_bits a) (a_bytes a) (a_ctx a) (a_limit a) (a_map a) (a_reader a) (a_writer a) (a_skip a) (a_cond a) (a_default a) (a_assert a) (a_assert_eq a) (a_seek a) (a_magic a) (a_pad_before a) (a_pad_after a) (a_temp a) (a_temp_value a) (Some f).
Fixpoint fields_of (l : list (fattrs * ty)) : fields :=
  match l with [] => FNil | (a, t) :: tl => FCons a t t (fields_of tl) end.
Definition cat (e : option endian) (o : option order) : cattrs :=
  mkC (option_map (fun x _ _ => x) e) (option_map (fun x _ _ => x) o) [] None None.
Definition le : cattrs := cat (Some Little) None.
Definition be : cattrs := cat (Some Big) None.
Definition lsb : cattrs := cat None (Some Lsb0).
Definition le_lsb : cattrs := cat (Some Little) (Some Lsb0).
Definition be_lsb : cattrs := cat (Some Big) (Some Lsb0).
Definition with_magic (m : list byte) (c : cattrs) : cattrs := mkC (c_endian c) (c_order c) m (c_seek c) (c_ctx_default c).
Definition st (c : cattrs) (l : list (fattrs * ty)) : ty := TStruct c (fields_of l).
Fixpoint variants_of (l : list (vattrs * list (fattrs * ty))) : variants :=
  match l with [] => VNil | (v, fs) :: tl => VCons v (fields_of fs) (variants_of tl) end.
(** [id_type] with an optional width of the id. *)
Definition en (c : cattrs) (n : option nat) (idt : ty) (l : list (vattrs * list (fattrs * ty))) : ty :=
  TEnum (mkE c None None (option_map (fun x _ _ => x) n) None) idt (variants_of l).
(** The id is the first [ctx] argument. *)
Definition en_ctx (c : cattrs) (l : list (vattrs * list (fattrs * ty))) : ty :=
  TEnum (mkE c (Some (fun ctx => nth 0 ctx VUnit)) None None None) TUnit (variants_of l).
Definition id (n : N) : vattrs := mkV (SId (VNum n)) false.
Definition disc (n : N) : vattrs := mkV (SDisc (VNum n)) false.
Definition pat (p : N -> bool) : vattrs := mkV (SPat (fun v => match v with VNum n => p n | _ => false end) None) false.
Definition any : vattrs := mkV (SPat (fun _ => true) None) false.
Definition u8 : ty := TPrim PU8.
Definition u16 : ty := TPrim (PU 2).
Definition u32 : ty := TPrim (PU 4).
Definition u64 : ty := TPrim (PU 8).
Definition i8 : ty := TPrim (PI 1).
Definition i16 : ty := TPrim (PI 2).
Definition vec_u8 : ty := TVec KVec 1 u8.
Definition num (v : value) : N := match v with VNum n => n | _ => 0%N end.
Definition fld (fs : list value) (k : nat) : N := num (nth k fs VUnit).
Definition len (v : value) : N := match v with VList l => N.of_nat (length l) | _ => 0%N end.
Definition nums (l : list N) : value := VRec (map VNum l).
Definition list_of (l : list N) : value := VList (map VNum l).
Definition count (k : nat) : flimit := FCount (fun _ fs _ => Z.of_N (fld fs k)).

Definition parse (t : ty) (b : list byte) : res value := res_map (from_bytes no_customs 2000 t b 0) snd.
Definition try (t : ty) (b : list byte) : res value := try_from no_customs 2000 t b.
Definition out (t : ty) (v : value) : res (list byte) := to_bytes no_customs t v.
(** [try_from] and back. *)
Definition both (t : ty) (b : list byte) (v : value) : Prop := try t b = Ok v /\ out t v = Ok b.
Definition fails {A} (x : res A) : bool := match x with Err _ => true | _ => false end.
Ltac run := repeat split; vm_compute; reflexivity.

(** ** tests/bit_order.rs *)

(** test_bit_order_frame *)
Definition by_ctx : cattrs := mkC None (Some (fun ctx _ => match ctx with [VOrd o] => o | _ => Msb0 end)) [] None None.
Definition FrameType : ty := en by_ctx (Some 2) u8 [(id 0, []); (id 1, []); (id 2, [])].
Definition Flags : ty := st by_ctx (repeat (f_bits 1 plain, u8) 8).
Definition FrameControl : ty := st lsb [(f_bits 4 plain, u8); (f_bits 2 plain, u8); (plain, FrameType); (plain, Flags)].
Example test_bit_order_frame : both FrameControl [x88; x41] (VRec [VNum 8; VNum 0; VVar 2 []; nums [1; 0; 0; 0; 0; 0; 1; 0]%N]).
Proof. run. Qed.
(** test_bit_order_read_greater *)
Definition ReadGreater : ty := st lsb [(f_bits 1 plain, u8); (f_bits 2 plain, u8); (f_bits 4 plain, u8); (f_bits 3 plain, u8); (f_bits 6 plain, u8)].
Example test_bit_order_read_greater : both ReadGreater [x79; xfc] (nums [1; 0; 15; 0; 63]%N).
Proof. run. Qed.
(** test_bit_order_squashfs *)
Definition SquashfsV3 : ty := st lsb [(f_bits 4 plain, u8); (f_bits 12 plain, u16); (plain, u8); (plain, u8); (plain, u32); (plain, u32)].
Definition squashfs : list byte := [x31; x12; x04; x05; x06; x00; x00; x00; x07; x00; x00; x00].
Example test_bit_order_squashfs : try SquashfsV3 squashfs = Ok (nums [1; 0x123; 4; 5; 6; 7]%N).
Proof. run. Qed.
(** test_bit_order_surrounded *)
Definition Surrounded : ty := st cplain [(plain, u8); (plain, SquashfsV3); (plain, u8); (f_order Lsb0 (f_bits 4 plain), u8); (f_bits 4 plain, u8);
  (f_bits 4 plain, u8); (f_order Lsb0 (f_bits 4 plain), u8)].
Example test_bit_order_surrounded : both Surrounded ([xff] ++ squashfs ++ [xff; x0f; x0f])
  (VRec [VNum 0xff; nums [1; 0x123; 4; 5; 6; 7]%N; VNum 0xff; VNum 0xf; VNum 0; VNum 0; VNum 0xf]).
Proof. run. Qed.
(** test_bit_order_enums *)
Definition Choice : ty := en by_ctx (Some 4) u8 [(disc 0, []); (disc 0xf, [])].
Example test_bit_order_enums : both (st lsb [(plain, Choice); (plain, Choice)]) [xf0] (VRec [VVar 0 []; VVar 1 []]).
Proof. run. Qed.
(** test_bit_order_more_first, test_bit_order_lsb_field *)
Definition MoreFirst (c : cattrs) : ty := st c [(f_bits 13 plain, u16); (f_bits 3 plain, u8)].
Example test_bit_order_more_first : both (MoreFirst lsb) [x40; x40] (nums [0x40; 2]%N) /\
  both (st cplain [(f_order Lsb0 (f_bits 13 plain), u16); (f_order Lsb0 (f_bits 3 plain), u8)]) [x40; x40] (nums [0x40; 2]%N).
Proof. run. Qed.
(** test_bit_order_custom_reader_writer *)
Definition custom_read (o : order) : RM value :=
  let* a := prim_read (PU 2) (CBO 13 o) in let* b := prim_read PU8 (CB 3) in ret (VPair (VNum a) (VNum b)).
Definition custom_write (o : order) (v : value) : WM unit :=
  match v with VPair (VNum a) (VNum b) => let* _ := prim_write (PU 2) (CBO 13 o) a in prim_write PU8 (CBO 3 Msb0) b | _ => panic end.
Definition Custom : ty := st cplain (map (fun o => (f_reader (fun _ _ _ => custom_read o) (f_writer (fun _ _ _ _ => custom_write o) plain), TPair u16 u8)) [Lsb0; Msb0]).
Example test_bit_order_custom_reader_writer : both Custom [x00; x3f; x40; x30] (VRec [VPair (VNum 0x1f00) (VNum 1); VPair (VNum 0x640) (VNum 0)]).
Proof. run. Qed.
(** test_bit_order_more_first_be; test_idempotency_multi_byte *)
Example test_bit_order_more_first_be : both (MoreFirst be_lsb) [x10; x81] (nums [0x1001; 4]%N).
Proof. run. Qed.
(** test_bit_order_little *)
Example test_bit_order_little : both (st le_lsb (map (fun n => (f_bits n plain, u16)) [4; 11; 13; 10; 8; 9; 9; 8; 7; 9]))
  [x8b; xf3; xdc; x7b; x94; x38; x98; x42; x78; xb8; x5e] (nums [11; 1848; 6073; 327; 226; 96; 133; 120; 56; 189]%N).
Proof. run. Qed.
(** test_bit_order_13 *)
Example test_bit_order_13 : try (st lsb (map (fun n => (f_bits n plain, u16)) [13; 13; 6])) [x00; x02; x40; x00] = Ok (nums [512; 512; 0]%N).
Proof. run. Qed.
(** test_pad_bits_after, test_pad_bits_before *)
Example test_pad_bits_lsb :
  both (st lsb [(plain, u8); (f_after 10 (f_bits 6 plain), u16); (plain, u8)]) [x13; x35; x00; xff] (nums [0x13; 0x35; 0xff]%N) /\
  both (st lsb [(plain, u8); (f_before 10 (f_bits 6 plain), u16); (plain, u8)]) [x13; x00; x74; xff] (nums [0x13; 0x1d; 0xff]%N).
Proof. run. Qed.
(** test_three_bits_roundtrip; [load_le] of an Msb0 bit slice of 8 bits is the byte. *)
Definition pba : custom := mkCustom
  (fun _ => let* vs := read_array 2 (let* b := read_bits 8 Lsb0 in ret (VNum (bits2N b))) in ret (VList vs))
  (fun _ v => match v with
              | VList [VNum a; VNum b] => write_bits_order (N2bits 16 (256 * b + a)) Lsb0
              | _ => panic
              end).
Definition Three : ty := st cplain [(f_order Lsb0 (f_bits 3 plain), u8); (plain, TCustom 0)].
Example test_three_bits_roundtrip : let v := VRec [VNum 6; list_of [12; 175]%N] in
  to_bytes (fun _ => pba) Three v = Ok [x66; x78; x05] /\
  res_map (from_bytes (fun _ => pba) 20 Three [x66; x78; x05] 0) snd = Ok v.
Proof. run. Qed.
(** test_idempotency *)
Example test_idempotency : both (st be_lsb [(f_bits 8 plain, u16)]) [x01] (nums [1]%N).
Proof. run. Qed.
(** test_invalid_bit_size_1 to 5 *)
Example test_invalid_bit_size : forall c a, In (c, a) [(le, f_bits 31 plain); (le, f_order Msb0 (f_bits 31 plain)); (le, f_order Lsb0 (f_bits 31 plain));
    (be, f_order Msb0 (f_bits 31 plain)); (be, f_order Lsb0 (f_bits 31 plain))] ->
  out (st c [(a, u32); (f_bits 1 plain, TBool)]) (VRec [VNum 0xffffffff; VBool true]) = Err InvalidParam.
Proof. intros c a H. repeat (destruct H as [E|H]; [injection E as <- <-; reflexivity|]). destruct H. Qed.

(** ** tests/test_lsb_le.rs *)

Definition raw : list byte := [xad; xdc; x32; xf1].
Definition packed (l : list (nat * ty)) : ty := st le_lsb (map (fun p => (f_bits (fst p) plain, snd p)) l).
(** test_lsb_le_misaligned_middle, _right, _left, test_lsb_le_aligned_right, _left, _mixed *)
Example test_lsb_le :
  parse (packed [(1, u8); (1, u8); (1, u8); (27, u32); (2, u8)]) raw = Ok (nums [1; 0; 1; 0x6265b95; 3]%N) /\
  parse (packed [(5, u8); (27, u32)]) raw = Ok (nums [0xd; 0x78996e5]%N) /\
  parse (packed [(27, u32); (5, u8)]) raw = Ok (nums [0x132dcad; 0x1e]%N) /\
  parse (packed [(8, u8); (24, u32)]) raw = Ok (nums [0xad; 0xf132dc]%N) /\
  parse (packed [(24, u32); (8, u8)]) raw = Ok (nums [0x32dcad; 0xf1]%N) /\
  parse (packed [(16, u16); (1, u8); (2, u8); (4, u8); (6, u8); (3, u8)]) raw = Ok (nums [0xdcad; 0; 1; 6; 0x22; 7]%N).
Proof. run. Qed.
(** test_lsb_le_misaligned_2 *)
Example test_lsb_le_misaligned_2 : out (packed [(20, u32); (12, u32)]) (nums [0xabc; 0xdef]%N) = Ok [xbc; x0a; xf0; xde] /\
  parse (packed [(20, u32); (12, u32)]) [xbc; x0a; xf0; xde] = Ok (nums [0xabc; 0xdef]%N).
Proof. run. Qed.
(** test_invalid_lsb_bit_split_squashfs_v3: 44 << 19 | 38 *)
Example test_invalid_lsb_bit_split_squashfs_v3 : both (packed [(19, u32); (13, u16)]) [x26; x00; x60; x01] (nums [38; 44]%N).
Proof. run. Qed.
(** test_misaligned_pad_bits_aaelf32_flags: 83886592 is 0x05000200 *)
Example test_misaligned_pad_bits_aaelf32_flags :
  parse (st le_lsb [(f_before 9 (f_bits 1 plain), TBool); (f_bits 1 plain, TBool); (f_before 11 (f_bits 1 plain), TBool); (f_bits 1 plain, TBool); (plain, u8)])
    [x00; x02; x00; x05] = Ok (VRec [VBool true; VBool false; VBool false; VBool false; VNum 5]).
Proof. run. Qed.
(** test_lsb_le_misaligned_3 *)
Example test_lsb_le_misaligned_3 : parse (packed [(1, TBool); (24, u32)]) [xff; x01; x00; x00] = Ok (VRec [VBool true; VNum 255]).
Proof. run. Qed.

(** ** tests/test_regression.rs *)

(** issue_224 *)
Definition Op1 : ty := st cplain [(f_bits 2 plain, u8); (f_bits 4 plain, u8)].
Definition Op2 : ty := st cplain [(f_bits 8 plain, u8); (f_bits 6 plain, u8)].
Definition One : ty := en cplain (Some 2) u8 [(disc 0, []); (disc 1, []); (disc 2, [])].
Definition Two : ty := en cplain (Some 4) u8 [(id 0, [(plain, Op1)]); (id 1, [(plain, Op1)]); (id 2, [(plain, Op2)]); (id 3, [(plain, Op2)])].
Definition Data224 : ty := st cplain [(plain, One); (plain, Two)].
Definition Packet224 : ty := st cplain [(plain, Data224)].
Example issue_224 : map size_bits [Op1; Op2; One; Two; Data224; Packet224] = map Some [6; 14; 2; 18; 20; 20] /\
  map size_bytes [Op1; Op2; One; Two; Data224; Packet224] = repeat (Some None) 6 /\
  (let v := VRec [VRec [VVar 0 []; VVar 2 [nums [1; 2]%N]]] in
   exists b, out Packet224 v = Ok b /\ parse Packet224 b = Ok v).
Proof. repeat split; [vm_compute; reflexivity..|]. eexists. split; vm_compute; reflexivity. Qed.
(** issue_282: 11280317 is 0xac1fbd *)
Definition three_bytes (c : cattrs) : ty := st c [(f_bits 24 plain, u32); (f_bytes (fun _ _ => 3) plain, u32)].
Example issue_282 : size_bytes (three_bytes be) = Some (Some 6) /\
  parse (three_bytes be) [xac; x1f; xbd; xac; x1f; xbd] = Ok (nums [11280317; 11280317]%N) /\
  parse (three_bytes le) [xbd; x1f; xac; xbd; x1f; xac] = Ok (nums [11280317; 11280317]%N).
Proof. run. Qed.
(** test_regression_292 *)
Example test_regression_292 :
  parse (st le [(f_bits 4 plain, u8); (plain, u8); (f_bits 4 plain, u8)]) [x0f; xf0] = Ok (nums [0; 0xff; 0]%N) /\
  parse (st le [(f_bits 4 plain, u8); (f_bits 8 plain, u8); (f_bits 4 plain, u8)]) [x0f; xf0] = Ok (nums [0; 0xff; 0]%N) /\
  parse (st cplain [(f_bits 4 plain, u8); (plain, u8); (f_bits 4 plain, u8)]) [x0f; xf0] = Ok (nums [0; 0xff; 0]%N) /\
  parse (st cplain [(f_before 4 plain, u8); (f_bits 4 plain, u8)]) [x0f; xf0] = Ok (nums [0xff; 0]%N) /\
  parse (st cplain [(f_bits 2 plain, u8); (f_before 2 plain, u8); (f_bits 4 plain, u8)]) [x0f; xf0] = Ok (nums [0; 0xff; 0]%N) /\
  parse (st le [(f_bits 2 plain, u8); (plain, u8); (f_bits 6 plain, u8)]) [xc0; x3f] = Ok (nums [3; 0; 0x3f]%N) /\
  parse (st le [(f_bits 2 plain, u8); (plain, u16); (f_bits 6 plain, u8)]) [xc0; x00; x3f] = Ok (nums [3; 0; 0x3f]%N) /\
  parse (st be [(f_bits 2 plain, u8); (plain, u16); (f_bits 6 plain, u8)]) [xc0; x00; x3f] = Ok (nums [3; 0; 0x3f]%N) /\
  (* -1, 1, -31 in two's complement *)
  parse (st be [(f_bits 2 plain, i8); (plain, i16); (f_bits 6 plain, i8)]) [xc0; x00; x61] = Ok (nums [0xff; 1; 225]%N).
Proof. run. Qed.
(** issue_397 *)
Definition PacketType : ty := en be None u8 [(id 0, [])].
Definition Header : ty := st cplain [(plain, PacketType)].
Definition Payload : ty := TEnum (mkE cplain (Some (fun ctx => match ctx with [VRec [k]] => k | _ => VUnit end)) None None None) TUnit
  (variants_of [(mkV (SId (VVar 0 [])) false, [(plain, u8)])]).
Definition Packet397 : ty := st cplain [(plain, Header); (f_ctx (fun _ fs _ => [nth 0 fs VUnit]) plain, Payload)].
Example issue_397 : map size_bytes [Header; PacketType; Packet397; Payload] = map (fun n => Some (Some n)) [1; 1; 2; 1] /\
  parse Packet397 [x00; x01] = Ok (VRec [VRec [VVar 0 []]; VVar 0 [VNum 1]]).
Proof. run. Qed.
(** issue_533 *)
Definition BitsAndValue : ty := en cplain (Some 1) u8 [(id 0, []); (any, [(plain, u8)])].
Example issue_533 : parse (TPair BitsAndValue BitsAndValue) [x40] = Ok (VPair (VVar 0 []) (VVar 1 [VNum 1])).
Proof. run. Qed.
(** issue_525 *)
Definition from_start (n : nat) : fattrs -> fattrs := f_seek (fun _ => Some (SeekStart n)).
Definition from_current (d : Z) : fattrs -> fattrs := f_seek (fun _ => Some (SeekCurrent d)).
Definition from_end (d : Z) : fattrs -> fattrs := f_seek (fun _ => Some (SeekEnd d)).
Example issue_525 : from_bytes no_customs 20 (st be [(plain, u8); (from_start 2 plain, u8); (plain, u8)]) [x00; x01; x02; x03; x04; x05] 0
  = Ok (([x04; x05], 0), nums [0; 2; 3]%N).
Proof. run. Qed.

(** ** tests/test_seek.rs *)

Definition TestSeek : ty := st cplain
  [(plain, u8); (f_seek (fun fs => Some (SeekCurrent (Z.of_N (fld fs 0)))) plain, u8); (from_current 0 plain, u8);
   (from_start 0 plain, u8); (from_start 2 plain, u8); (from_end (-1) plain, u8)].
Definition seeks (b : list byte) (v : list N) : Prop := parse TestSeek b = Ok (nums v) /\ out TestSeek (nums v) = Ok b.
Example test_seek : seeks [x01; x00; x20; x30] [1; 0x20; 0x30; 1; 0x20; 0x30]%N /\
  seeks [x02; x00; x00; x20; x30] [2; 0x20; 0x30; 2; 0; 0x30]%N /\
  seeks [x00; xff; xaa] [0; 0xff; 0xaa; 0; 0xaa; 0xaa]%N.
Proof. run. Qed.
(** test_seek_ctx_before, test_seek_ctx_start, test_seek_ctx_end, test_seek_ctx_no_seek *)
Definition seek_first (f : list value -> option seekfrom) : ty := st (mkC None None [] (Some f) None) [(plain, u8)].
Definition skips : ty := seek_first (fun ctx => Some (SeekCurrent (Z.of_N (fld ctx 0)))).
Definition seek_ctx (n : N) (b : list byte) (v : N) : Prop :=
  fst (read_ty no_customs 20 skips None [VNum n] (reader_new (cursor b))) = Ok (nums [v]%N) /\
  to_bytes_with (write_ty no_customs skips [VNum n] (nums [v]%N)) = Ok b.
Example test_seek_ctx_before : seek_ctx 1 [x00; x03] 3 /\ seek_ctx 2 [x00; x00; x04] 4.
Proof. run. Qed.
Example test_seek_ctx_start : both (seek_first (fun _ => Some (SeekStart 1))) [x00; x03] (nums [3]%N).
Proof. run. Qed.
Example test_seek_ctx_end : let t := seek_first (fun _ => Some (SeekEnd (-2))) in
  parse t [x00; x03; x00] = Ok (nums [3]%N) /\
  k_data (w_k (snd (write_ty no_customs t [] (nums [3]%N) (writer_new (slice_sink [x00; x00; x00]))))) = [x00; x03; x00].
Proof. run. Qed.
Example test_seek_ctx_no_seek : both (seek_first (fun _ => Some (SeekStart 0))) [x03] (nums [3]%N).
Proof. run. Qed.
(** test_seek_from_start_zero_rewind, test_seek_from_end_rewind, test_seek_from_current_negative_rewind *)
Example test_seek_rewind :
  parse (st cplain [(from_current 1 plain, u8); (from_start 0 plain, u8)]) [xaa; xbb] = Ok (nums [0xbb; 0xaa]%N) /\
  parse (st cplain [(from_end (-1) plain, u8); (from_start 0 plain, u8)]) [xaa; xbb] = Ok (nums [0xbb; 0xaa]%N) /\
  parse (st cplain [(plain, u8); (plain, u8); (from_current (-2) plain, u8)]) [xaa; xbb] = Ok (nums [0xaa; 0xbb; 0xaa]%N).
Proof. run. Qed.

(** ** tests/test_magic.rs *)

Definition deku : list byte := [x64; x65; x6b; x75].
Definition MagicStruct : ty := st (with_magic deku cplain) [].
Definition MagicEnum : ty := en (with_magic deku cplain) None u8 [(id 0, [])].
Example test_magic_struct : both MagicStruct deku (VRec []) /\
  map (try MagicStruct) [[x64; x65; x6b; xde]; [x64; x65; xad; x75]; [x64; xbe; x6b; x75]; [xef; x65; x6b; x75]] = repeat (Err Parse) 4 /\
  try MagicStruct [x64; x65; x6b] = Err (Incomplete 8).
Proof. run. Qed.
Example test_magic_enum : both MagicEnum (deku ++ [x00]) (VVar 0 []) /\
  map (try MagicEnum) [[x64; x65; x6b; xde; x00]; [x64; x65; xad; x75; x00]; [x64; xbe; x6b; x75; x00]; [xef; x65; x6b; x75; x00]; [x64; x65; x6b; x00]]
  = repeat (Err Parse) 5 /\ try MagicEnum [x64; x65; x6b] = Err (Incomplete 8).
Proof. run. Qed.
Example test_struct_magic_field : both (st cplain [(f_magic deku plain, u8)]) (deku ++ [x00]) (nums [0]%N).
Proof. run. Qed.

(** ** tests/test_enum.rs *)

Definition Smoke : ty := en cplain None u8
  [(id 1, [(plain, u8)]); (id 2, [(f_bits 4 plain, u8); (f_bits 4 plain, u8)]); (id 3, [(plain, u8); (f_limit (count 0) plain, vec_u8)]);
   (id 4, [(plain, u8); (f_limit (count 0) plain, vec_u8)]); (any, [(plain, u8); (plain, u8)])].
Example test_enum : both Smoke [x01; xab] (VVar 0 [VNum 0xab]) /\ both Smoke [x02; x69] (VVar 1 [VNum 6; VNum 9]) /\
  both Smoke [x03; x02; xaa; xbb] (VVar 2 [VNum 2; list_of [0xaa; 0xbb]%N]) /\
  both Smoke [x04; x02; xaa; xbb] (VVar 3 [VNum 2; list_of [0xaa; 0xbb]%N]) /\
  both Smoke [xff; x01] (VVar 4 [VNum 0xff; VNum 1]) /\ try Smoke [xff; xff; xff] = Err Parse.
Proof. run. Qed.
Example test_enum_error : try (en cplain None u8 [(id 1, [(plain, u8)])]) [x02; x02] = Err Parse.
Proof. run. Qed.
Definition Discriminants : ty := en cplain None u8 [(disc 0, []); (disc 1, []); (disc 2, [])].
Example test_enum_discriminant : both Discriminants [x00] (VVar 0 []) /\ both Discriminants [x01] (VVar 1 []) /\
  both Discriminants [x02] (VVar 2 []) /\ try Discriminants [x03] = Err Parse /\ size_bytes Discriminants = Some (Some 1).
Proof. run. Qed.
Definition EnumArray : ty := en cplain None (TArray 3 u8)
  [(mkV (SId (list_of [49; 50; 51]%N)) false, []); (mkV (SId (list_of [1; 1; 1]%N)) false, []); (any, [(plain, TArray 3 u8)])].
Example test_enum_array_type : both EnumArray [x31; x32; x33] (VVar 0 []) /\ both EnumArray [x33; x32; x31] (VVar 2 [list_of [51; 50; 49]%N]) /\
  size_bytes EnumArray = Some (Some 3).
Proof. run. Qed.
Definition IdPat : ty := en cplain (Some 3) u8 [(disc 0, []); (disc 1, []); (mkV (SPat (fun _ => true) (Some (VNum 2))) false, [])].
Definition with_rest (t : ty) : ty := st cplain [(plain, t); (f_bits 5 plain, u8)].
Example test_enum_id_pat_with_discriminant : both (with_rest IdPat) [x25] (VRec [VVar 1 []; VNum 5]) /\
  try (with_rest IdPat) [xa5] = Ok (VRec [VVar 2 []; VNum 5]) /\ out (with_rest IdPat) (VRec [VVar 2 []; VNum 5]) = Ok [x45] /\
  size_bits IdPat = Some 3 /\ size_bytes (with_rest IdPat) = Some (Some 1).
Proof. run. Qed.
Definition IdPatStorage : ty := en cplain (Some 3) u8
  [(disc 0, []); (disc 1, []); (mkV (SPat (fun _ => true) (Some (VNum 2))) false, [(plain, u8)])].
Example test_enum_id_pat_with_discriminant_and_storage : both (with_rest IdPatStorage) [x25] (VRec [VVar 1 []; VNum 5]) /\
  both (with_rest IdPatStorage) [xa5] (VRec [VVar 2 [VNum 5]; VNum 5]) /\
  size_bits IdPatStorage = Some 3 /\ size_bytes (with_rest IdPatStorage) = Some (Some 1).
Proof. run. Qed.
Definition between (a b n : N) : bool := ((a <=? n) && (n <=? b))%N.
Definition ByCtx : ty := en_ctx cplain [(pat (between 1 2), [(plain, u8)]); (pat (between 4 5), [(plain, u16)]); (any, [])].
Definition by_first (t : ty) : ty := st cplain [(plain, u8); (f_ctx (fun _ fs _ => [nth 0 fs VUnit]) plain, t)].
Example test_id_pat_with_id : both (by_first ByCtx) [x01; x02] (VRec [VNum 1; VVar 0 [VNum 2]]) /\
  both (by_first ByCtx) [x04; x02; xff] (VRec [VNum 4; VVar 1 [VNum 0xff02]]) /\ both (by_first ByCtx) [x06] (VRec [VNum 6; VVar 2 []]) /\
  size_bytes ByCtx = Some (Some 2) /\ size_bytes (by_first ByCtx) = Some (Some 3).
Proof. run. Qed.
Definition IdPatBits : ty := en cplain (Some 2) u8 [(id 1, [(f_bits 6 plain, u8)]); (any, [(plain, u8); (f_bits 6 plain, u8)])].
Example id_pat_with_id_bits : both IdPatBits [xcf] (VVar 1 [VNum 3; VNum 15]) /\ size_bits IdPatBits = Some 8.
Proof. run. Qed.
Definition ByBool : ty := en_ctx cplain [(mkV (SId (VBool false)) false, [(f_bits 15 plain, u16)]); (mkV (SId (VBool true)) false, [(f_bits 15 plain, u16)])].
Definition LitBool : ty := st cplain [(f_bits 1 plain, TBool); (f_ctx (fun _ fs _ => [nth 0 fs VUnit]) plain, ByBool)].
Example test_litbool_as_id : both LitBool [x80; xff] (VRec [VBool true; VVar 1 [VNum 0x7f01]]) /\
  both LitBool [x00; xff] (VRec [VBool false; VVar 0 [VNum 0x7f01]]) /\
  size_bits LitBool = Some 16 /\ size_bytes LitBool = Some (Some 2) /\ size_bits ByBool = Some 15.
Proof. run. Qed.
Definition VariableEndian : ty := TEnum (mkE le None (Some (fun _ _ => Big)) None None) u16
  (variants_of [(id 1, [(plain, u16)]); (id 2, [(f_endian Big plain, u16)])]).
Example test_variable_endian_enum : both VariableEndian [x00; x01; x01; x00] (VVar 0 [VNum 1]) /\
  both VariableEndian [x00; x02; x01; x00] (VVar 1 [VNum 256]).
Proof. run. Qed.
Definition Body : ty := TEnum (mkE (mkC (Some (fun ctx _ => match ctx with VEnd e :: _ => e | _ => Little end)) None [] None None)
  (Some (fun ctx => nth 1 ctx VUnit)) None None None) TUnit (variants_of [(disc 0, []); (id 1, [(plain, u8)])]).
Definition Message : ty := st le [(plain, u8); (plain, u16); (f_ctx (fun _ fs _ => [nth 0 fs VUnit]) plain, Body)].
Example test_repr_assignment_with_id_via_ctx : parse Message [x00; x01; x00] = Ok (VRec [VNum 0; VNum 1; VVar 0 []]) /\
  parse Message [x01; x02; x00; x03] = Ok (VRec [VNum 1; VNum 2; VVar 1 [VNum 3]]) /\
  size_bytes Body = Some (Some 1) /\ size_bytes Message = Some (Some 4).
Proof. run. Qed.

(** ** tests/test_struct.rs *)

Definition DoubleNested : ty := st cplain [(plain, u16)].
Definition Nested : ty := st cplain [(f_bits 6 plain, u8); (f_bits 2 plain, u8); (plain, DoubleNested)].
Example test_nested_struct_sizes : size_bytes DoubleNested = Some (Some 2) /\ size_bytes Nested = Some (Some 3).
Proof. run. Qed.
Example test_read_too_much_data : try (st cplain [(f_bits 6 plain, u8)]) (repeat x00 100) = Err Parse.
Proof. run. Qed.
Definition Named : ty := st cplain
  [(plain, u8); (f_bits 2 plain, u8); (f_bits 6 plain, u8); (f_bytes (fun _ _ => 2) plain, u16); (f_endian Big plain, u16); (plain, Nested);
   (plain, u8); (f_limit (count 6) plain, vec_u8); (plain, u8)].
Example test_named_struct : both Named [xff; x96; xaa; xbb; xcc; xdd; x96; xcc; xdd; x02; xbe; xef; xff]
  (VRec [VNum 0xff; VNum 2; VNum 22; VNum 0xbbaa; VNum 0xccdd; VRec [VNum 37; VNum 2; VRec [VNum 0xddcc]]; VNum 2; list_of [0xbe; 0xef]%N; VNum 0xff]).
Proof. run. Qed.
Example test_big_endian : both (st cplain [(f_endian Big (f_bytes (fun _ _ => 3) plain), u32)]) [x11; x22; x33] (nums [0x112233]%N) /\
  parse (st cplain [(f_endian Big (f_bytes (fun _ _ => 2) plain), u32)]) [x00; xff; xab; xaa] = Ok (nums [0xff]%N) /\
  out (st cplain [(f_endian Big (f_bytes (fun _ _ => 2) plain), u32)]) (nums [0xff]%N) = Ok [x00; xff].
Proof. run. Qed.
Example test_units : both (st (with_magic [xf0] cplain) []) [xf0] (VRec []).
Proof. run. Qed.
Definition empties (l : flimit) : ty := st cplain [(f_limit l plain, TVec KVec 0 (st cplain []))].
Example test_zst_vec : parse (empties FAll) [] = Ok (VRec [VList []]) /\ parse (empties (FBytes (fun _ _ _ => 1%Z))) [] = Ok (VRec [VList []]).
Proof. run. Qed.

(** ** tests/test_catch_all.rs *)

Definition Basic : ty := en cplain None u8 [(disc 0, []); (disc 1, []); (mkV (SDisc (VNum 2)) true, [])].
Definition Advanced : ty := en cplain None u8 [(id 1, []); (id 2, []); (mkV (SId (VNum 3)) true, [])].
Example test_catch_all : both Basic [x00] (VVar 0 []) /\ both Basic [x02] (VVar 2 []) /\
  try Basic [x0a] = Ok (VVar 2 []) /\ out Basic (VVar 2 []) = Ok [x02] /\
  both Advanced [x01] (VVar 0 []) /\ try Advanced [x0a] = Ok (VVar 2 []) /\ out Advanced (VVar 2 []) = Ok [x03].
Proof. run. Qed.

(** ** tests/test_from_bytes.rs, tests/test_from_reader.rs *)

Definition Nibble : ty := st cplain [(f_bits 4 plain, u8)].
Definition Variants4 : ty := en cplain (Some 4) u8 [(id 6, [(f_bits 4 plain, u8)]); (id 5, [(f_bits 2 plain, u8)])].
Definition at_bit (t : ty) : list byte * nat -> res ((list byte * nat) * value) := fun p => from_bytes no_customs 2000 t (fst p) (snd p).
Example test_from_bytes_struct : at_bit Nibble ([x66; x5a], 0) = Ok (([x66; x5a], 4), nums [6]%N) /\
  at_bit Nibble ([x66; x5a], 4) = Ok (([x5a], 0), nums [6]%N) /\ at_bit Nibble ([x5a], 0) = Ok (([x5a], 4), nums [5]%N) /\
  at_bit Nibble ([x5a], 4) = Ok (([], 0), nums [10]%N).
Proof. run. Qed.
Example test_from_bytes_enum : at_bit Variants4 ([x66; x5a], 0) = Ok (([x5a], 0), VVar 0 [VNum 6]) /\
  at_bit Variants4 ([x5a], 0) = Ok (([x5a], 6), VVar 1 [VNum 2]) /\
  at_bit Variants4 (repeat x00 200 ++ [x66; x5a], 1600) = Ok (([x5a], 0), VVar 0 [VNum 6]).
Proof. run. Qed.
Definition Sneaky : ty := en_ctx cplain [(id 0, []); (id 1, [])].
Example test_from_bytes_short_with_seek :
  parse (st cplain [(plain, u8); (from_current 1 (f_ctx (fun _ fs _ => [nth 0 fs VUnit]) plain), Sneaky)]) [x01] = Err (Incomplete 8).
Proof. run. Qed.
Definition from (t : ty) (b : list byte) (n : nat) : res (nat * value) := fst (from_reader no_customs 2000 t (cursor b) n).
Example test_from_reader : map (from Nibble [x66; x5a]) [0; 4; 8; 12] =
    [Ok (4, nums [6]%N); Ok (8, nums [6]%N); Ok (12, nums [5]%N); Ok (16, nums [10]%N)] /\
  map (from Variants4 [x66; x5a]) [0; 8] = [Ok (8, VVar 0 [VNum 6]); Ok (14, VVar 1 [VNum 2])].
Proof. run. Qed.

(** ** tests/test_to_bits.rs, tests/test_to_slice.rs *)

Example test_to_bits : to_bits no_customs (st cplain [(f_bits 4 plain, u8); (f_bits 4 plain, u8)]) (nums [15; 1]%N) =
    Ok [true; true; true; true; false; false; false; true] /\
  to_bits no_customs (st cplain [(f_bits 4 plain, u8); (f_bits 4 plain, u8); (f_bits 1 plain, u8)]) (nums [15; 1; 1]%N) =
    Ok [true; true; true; true; false; false; false; true; true] /\
  to_bits no_customs (en cplain (Some 4) u8 [(id 10, [])]) (VVar 0 []) = Ok [true; false; true; false].
Proof. run. Qed.
Definition Address : ty := st cplain [(f_endian Big (f_bytes (fun _ _ => 3) plain), u32)].
Definition Unaligned (n : nat) : ty :=
  st cplain [(plain, u8); (f_endian Little (f_bits 3 plain), u8); (plain, u8); (f_endian Little (f_bits n plain), u16); (plain, u8)].
Example test_to_slice : to_slice no_customs Address (nums [0x112233]%N) [x00; x00; x00] = (Ok 3, [x11; x22; x33]) /\
  to_slice no_customs (st cplain [(f_endian Little (f_bits 3 plain), u8)]) (nums [7]%N) [x00] = (Ok 1, [xe0]) /\
  fst (to_slice no_customs Address (nums [0x112233]%N) [x00; x00]) = Err (Io WriteZero).
Proof. run. Qed.
Definition slice_round (n : nat) (b : list byte) (rest : list byte * nat) : Prop :=
  exists v, from_bytes no_customs 20 (Unaligned n) b 0 = Ok (rest, v) /\ to_slice no_customs (Unaligned n) v (repeat x00 5) = (Ok 5, b).
Example test_to_slice_counts : slice_round 13 [x11; x22; x33; x44; x55] ([], 0) /\ slice_round 12 [x11; x22; x33; x44; x54] ([x54], 7).
Proof.
  split; [exists (nums [17; 1; 17; 1178; 0x55]%N)|exists (nums [17; 1; 17; 666; 42]%N)]; vm_compute; split; reflexivity.
Qed.

(** ** tests/test_cstring.rs, tests/test_tuple.rs *)

Example test_cstring : let s := list_of [116; 101; 115; 116]%N in
  parse (st cplain [(plain, TCString)]) [x74; x65; x73; x74; x00] = Ok (VRec [s]) /\
  parse (st cplain [(plain, u8); (f_bytes (fun _ fs => N.to_nat (fld fs 0)) plain, TCString)]) [x05; x74; x65; x73; x74; x00] = Ok (VRec [VNum 5; s]) /\
  parse (st cplain [(f_bytes (fun _ _ => 5) plain, TCString)]) [x74; x65; x73; x74; x00] = Ok (VRec [s]) /\
  parse (st cplain [(f_bytes (fun _ _ => 6) plain, TCString)]) [x74; x65; x73; x74; x00; x00] = Err Parse.
Proof. run. Qed.
Definition TupleEnum : ty := en cplain None u8 [(id 1, [(plain, TPair u8 u16)])].
Example test_tuple : both TupleEnum [x01; xab; xff; xaa] (VVar 0 [VPair (VNum 0xab) (VNum 0xaaff)]) /\ size_bytes TupleEnum = Some (Some 4).
Proof. run. Qed.

(** ** tests/test_deku_id.rs *)

Example test_deku_id : let v := variants_of in
  deku_id (v [(id 1, [(plain, u8)]); (id 16, [(plain, u8)])]) 0 = Ok (VNum 1) /\
  deku_id (v [(id 1, [(plain, u8)]); (id 16, [(plain, u8)])]) 1 = Ok (VNum 16) /\
  deku_id (v [(mkV (SId (VVar 0 [])) false, []); (mkV (SId (VVar 1 [])) false, [])]) 1 = Ok (VVar 1 []) /\
  deku_id (v [(mkV (SId (list_of [49; 50; 51]%N)) false, []); (mkV (SId (list_of [1; 1; 1]%N)) false, [])]) 0 = Ok (list_of [49; 50; 51]%N) /\
  deku_id (v [(disc 1, []); (disc 2, [])]) 1 = Err IdVariantNotFound.
Proof. run. Qed.

(** ** tests/test_attributes *)

(** test_assert.rs, test_assert_eq.rs; the sum of two u8 does not overflow here. *)
Definition Asserting : ty := st cplain [(plain, u8); (f_assert (fun _ fs _ => 3 <=? fld fs 0 + fld fs 1)%N plain, u8)].
Definition AssertEq : ty := st cplain [(plain, u8); (f_assert_eq (fun _ fs _ => nth 0 fs VUnit) plain, u8)].
Example test_assert : both Asserting [x01; x02] (nums [1; 2]%N) /\ try Asserting [x01; x01] = Err Assertion /\
  out Asserting (nums [1; 1]%N) = Err Assertion /\
  both AssertEq [x01; x01] (nums [1; 1]%N) /\ try AssertEq [x01; x02] = Err Assertion /\ out AssertEq (nums [1; 2]%N) = Err Assertion.
Proof. run. Qed.
(** test_cond.rs *)
Definition first_is (n : N) : expr bool := fun _ fs _ => (fld fs 0 =? n)%N.
Definition first_is_not (k : nat) (n : N) : expr bool := fun _ fs _ => negb (fld fs k =? n)%N.
Example test_cond_deku : let t := st cplain [(plain, u8); (f_cond (first_is 1) (f_default VNone plain), TOption u8)] in
  both t [x01; x02] (VRec [VNum 1; VSome (VNum 2)]) /\ both t [x02] (VRec [VNum 2; VNone]).
Proof. run. Qed.
(** test_ctx.rs *)
Definition plus_ctx : fattrs :=
  f_reader (fun ctx _ _ => let* c := prim_read PU8 C0 in ret (VNum (fld ctx 0 + fld ctx 1 + c)))
  (f_writer (fun _ ctx _ _ v => prim_write PU8 C0 (num v - fld ctx 0 - fld ctx 1)) plain).
Example test_ctx_struct :
  both (st cplain [(plain, u8); (plain, u8); (f_ctx (fun _ fs _ => [VNum (fld fs 0 + 1); nth 1 fs VUnit]) plain, st cplain [(plus_ctx, u64)])])
    [x01; x02; x03] (VRec [VNum 1; VNum 2; VRec [VNum 7]]).
Proof. run. Qed.
Definition TopLevel : ty := en (mkC None None [] None (Some [VNum 1; VNum 2])) None u8 [(id 1, [(plus_ctx, u8)])].
Example test_top_level_ctx_enum_default : both TopLevel [x01; x03] (VVar 0 [VNum 6]) /\
  fst (read_ty no_customs 20 TopLevel None [VNum 1; VNum 2] (reader_new (cursor [x01; x03]))) = Ok (VVar 0 [VNum 6]) /\
  to_bytes_with (write_ty no_customs TopLevel [VNum 1; VNum 2] (VVar 0 [VNum 6])) = Ok [x01; x03].
Proof. run. Qed.
Definition two (a b : N) : vattrs := mkV (SId (VPair (VNum a) (VNum b))) false.
Definition EnumId : ty := TEnum (mkE cplain (Some (fun ctx => VPair (nth 0 ctx VUnit) (nth 1 ctx VUnit))) None None None) TUnit
  (variants_of [(two 1 1, [(plain, u8)]); (two 2 2, []); (two 2 3, [(plain, u8)]); (any, [(plain, u8)])]).
Definition EnumJustId : ty := en_ctx cplain [(id 1, [(plain, u8)]); (id 2, [])].
Definition StructEnumId : ty := st cplain [(plain, u8); (f_bytes (fun _ _ => 1) plain, u64);
  (f_ctx (fun _ fs _ => [nth 0 fs VUnit; nth 1 fs VUnit]) plain, EnumId); (f_ctx (fun _ fs _ => [nth 0 fs VUnit]) plain, EnumJustId)].
Example test_struct_enum_ctx_id : both StructEnumId [x01; x01; xab; xab] (VRec [VNum 1; VNum 1; VVar 0 [VNum 0xab]; VVar 0 [VNum 0xab]]) /\
  both StructEnumId [x02; x02] (VRec [VNum 2; VNum 2; VVar 1 []; VVar 1 []]) /\
  both StructEnumId [x02; x03; xcc] (VRec [VNum 2; VNum 3; VVar 2 [VNum 0xcc]; VVar 1 []]) /\
  both StructEnumId [x02; xff; xcc] (VRec [VNum 2; VNum 0xff; VVar 3 [VNum 0xcc]; VVar 1 []]).
Proof. run. Qed.
Example test_ctx_default_struct : let is k := f_cond (fun ctx _ _ => (fld ctx k =? 1)%N) (f_default VNone plain) in
  let t := st (mkC None None [] None (Some [VNum 1; VNum 2])) [(is 0, TOption u8); (is 1, TOption u8)] in
  both t [xff] (VRec [VSome (VNum 0xff); VNone]) /\
  fst (read_ty no_customs 20 t None [VNum 1; VNum 2] (reader_new (cursor [xff]))) = Ok (VRec [VSome (VNum 0xff); VNone]) /\
  to_bytes_with (write_ty no_customs t [VNum 1; VNum 2] (VRec [VSome (VNum 0xff); VNone])) = Ok [xff].
Proof. run. Qed.
Example test_enum_endian_ctx :
  let e := en (mkC (Some (fun ctx _ => match ctx with [VEnd e] => e | _ => Little end)) None [] None None) None u32 [(id 0xdeadbeef, [(plain, u8)])] in
  both (st cplain [(f_endian Big plain, e)]) [xde; xad; xbe; xef; xff] (VRec [VVar 0 [VNum 0xff]]).
Proof. run. Qed.
(** test_map.rs; the mapped value is the list of decimal digits *)
Definition to_string : value -> res value := fun v => Ok (VList [v]).
Example test_map : try (st cplain [(f_map to_string plain, u8); (f_map to_string plain, u8)]) [x01; x02] = Ok (VRec [VList [VNum 1]; VList [VNum 2]]).
Proof. run. Qed.
(** test_skip.rs *)
Definition default5 : fattrs := f_default (VNum 5) plain.
Definition abc (a : fattrs) : ty := st cplain [(plain, u8); (a, u8); (plain, u8)].
Definition ab (a : fattrs) : ty := st cplain [(plain, u8); (a, u8)].
Example test_skip : both (st cplain [(plain, u8); (f_skip SkipAll (f_default VNone plain), TOption u8); (plain, u8)]) [x01; x02] (VRec [VNum 1; VNone; VNum 2]) /\
  both (abc (f_skip SkipAll default5)) [x01; x02] (nums [1; 5; 2]%N) /\
  both (ab (f_skip SkipAll (f_cond (first_is 1) default5))) [x01] (nums [1; 5]%N) /\
  both (ab (f_skip SkipAll (f_cond (first_is 1) default5))) [x02; x03] (nums [2; 3]%N) /\
  try (abc (f_skip SkipRead default5)) [x01; x02] = Ok (nums [1; 5; 2]%N) /\ out (abc (f_skip SkipRead default5)) (nums [1; 5; 2]%N) = Ok [x01; x05; x02] /\
  try (abc (f_skip SkipRead (f_cond (first_is 1) default5))) [x01; x02] = Ok (nums [1; 5; 2]%N) /\
  out (abc (f_skip SkipRead (f_cond (first_is 1) default5))) (nums [1; 5; 2]%N) = Ok [x01; x05; x02] /\
  both (abc (f_skip SkipRead (f_cond (first_is 255) default5))) [x01; x0a; x02] (nums [1; 10; 2]%N) /\
  try (abc (f_skip SkipWrite plain)) [x01; x02; x03] = Ok (nums [1; 2; 3]%N) /\ out (abc (f_skip SkipWrite plain)) (nums [1; 2; 3]%N) = Ok [x01; x03] /\
  try (ab (f_skip SkipWrite (f_cond (first_is 1) plain))) [x01; x02] = Ok (nums [1; 2]%N) /\
  out (ab (f_skip SkipWrite (f_cond (first_is 1) plain))) (nums [1; 2]%N) = Ok [x01] /\
  both (ab (f_skip SkipWrite (f_cond (first_is 1) plain))) [x0a; x02] (nums [10; 2]%N).
Proof. run. Qed.
Example test_both_skip_modes : let t := st cplain [(plain, u8); (f_skip SkipRead (f_default (VNum 100) plain), u8); (f_skip SkipWrite plain, u8); (plain, u8)] in
  try t [x01; x02; x03] = Ok (nums [1; 100; 2; 3]%N) /\ out t (nums [1; 100; 2; 3]%N) = Ok [x01; x64; x03].
Proof. run. Qed.
(** test_temp.rs *)
Definition counted (a : fattrs) : list (fattrs * ty) := [(a, u8); (f_limit (count 0) plain, vec_u8)].
Example test_temp :
  out (st cplain (counted (f_temp_value (fun s => VNum (len (nth 0 s VUnit))) plain))) (VRec [list_of [2]%N]) = Ok [x01; x02] /\
  try (st cplain (counted (f_temp_value (fun _ => VNum 100) plain))) [x02; x02; x03] = Ok (VRec [list_of [2; 3]%N]) /\
  try (st cplain (counted (f_temp plain))) [x01; x02] = Ok (VRec [list_of [2]%N]) /\
  out (st cplain (counted (f_temp plain))) (VRec [list_of [2]%N]) = Ok [x02] /\
  try (en cplain None u8 [(id 0xab, counted (f_temp plain))]) [xab; x01; x02] = Ok (VVar 0 [list_of [2]%N]) /\
  out (en cplain None u8 [(id 0xab, counted (f_temp plain))]) (VVar 0 [list_of [2]%N]) = Ok [xab; x02].
Proof. run. Qed.
Example test_temp_enum_field_write :
  let t := en cplain None u8 [(id 0xab, counted (f_temp_value (fun s => VNum (len (nth 0 s VUnit))) plain)); (id 0xba, [(plain, u8)])] in
  out t (VVar 0 [list_of [2]%N]) = Ok [xab; x01; x02] /\ out t (VVar 1 [VNum 16]) = Ok [xba; x10].
Proof. run. Qed.
(** test_temp_value_with_cond.rs *)
Definition is_some (k : nat) (s : list value) : value := match nth k s VUnit with VSome _ => VNum 1 | _ => VNum 0 end.
Definition bit_of (n : nat) (f : list value -> value) : fattrs := f_bits n (f_temp_value f plain).
Definition payload (k : nat) : fattrs * ty := (f_skip SkipAll (f_cond (first_is_not k 1) (f_default VNone plain)), TOption u32).
Definition Fspec : ty := st be [(bit_of 5 (fun _ => VNum 0), u8); (bit_of 1 (is_some 0), u8); (bit_of 1 (is_some 1), u8); (bit_of 1 (fun _ => VNum 0), u8);
  payload 1; payload 2].
Definition opts (l : list N) : value := VRec (map (fun n => if (n =? 0)%N then VNone else VSome (VNum n)) l).
Definition back (t : ty) (v : value) (b : list byte) : Prop := out t v = Ok b /\ parse t b = Ok v.
Example test_temp_value_with_cond : back Fspec (opts [1; 2]%N) [x06; x00; x00; x00; x01; x00; x00; x00; x02] /\
  back Fspec (opts [0; 2]%N) [x02; x00; x00; x00; x02] /\ back Fspec (opts [1; 0]%N) [x04; x00; x00; x00; x01] /\ back Fspec (opts [0; 0]%N) [x00].
Proof. run. Qed.
Definition bit_if (n : nat) (f : list value -> value) : fattrs := f_skip SkipAll (f_cond (first_is_not 3 1) (f_default (VNum 0) (bit_of n f))).
Definition Fspec2 : ty := st be
  [(bit_of 5 (fun _ => VNum 0), u8); (bit_of 1 (is_some 0), u8); (bit_of 1 (is_some 1), u8);
   (bit_of 1 (fun s => VNum (N.max (num (is_some 2 s)) (num (is_some 3 s)))), u8);
   (bit_if 5 (fun _ => VNum 0), u8); (bit_if 1 (is_some 2), u8); (bit_if 1 (is_some 3), u8); (bit_if 1 (fun _ => VNum 0), u8);
   payload 1; payload 2; payload 5; payload 6].
Example test_temp_value_with_cond_depending_on_skippable_entries :
  back Fspec2 (opts [1; 2; 3; 4]%N) [x07; x06; x00; x00; x00; x01; x00; x00; x00; x02; x00; x00; x00; x03; x00; x00; x00; x04] /\
  back Fspec2 (opts [0; 2; 0; 0]%N) [x02; x00; x00; x00; x02] /\ back Fspec2 (opts [0; 0; 0; 4]%N) [x01; x02; x00; x00; x00; x04] /\
  back Fspec2 (opts [0; 0; 3; 0]%N) [x01; x04; x00; x00; x00; x03] /\
  back Fspec2 (opts [0; 2; 3; 0]%N) [x03; x04; x00; x00; x00; x02; x00; x00; x00; x03].
Proof. run. Qed.
(** test_update.rs; [try_into] of a u8 *)
Definition to_u8 (n : N) : res value := if (n <=? 255)%N then Ok (VNum n) else Err Parse.
Example test_update : update (st cplain [(f_update (fun _ => to_u8 5) plain, u8)]) (nums [1]%N) = Ok (nums [5]%N) /\
  update (st cplain [(f_update (fun s => to_u8 (len (nth 1 s VUnit))) plain, u8); (f_limit (count 0) plain, vec_u8)]) (VRec [VNum 2; list_of [170; 187; 255]%N])
    = Ok (VRec [VNum 3; list_of [170; 187; 255]%N]) /\
  update (st cplain [(f_update (fun _ => to_u8 256) plain, u8)]) (nums [1]%N) = Err Parse.
Proof. run. Qed.
(** test_bitfield_values_range_check.rs; negative numbers in two's complement *)
Definition ranged (e : endian) (pad : Z) (n : nat) (t : ty) : ty := st cplain [(f_bits 1 plain, TBool); (f_endian e (f_before pad (f_bits n plain)), t)].
Definition at_ (n : N) : value := VRec [VBool true; VNum n].
Definition range (t : ty) (b : list byte) (v : N) (good bad : list N) : Prop :=
  both t b (at_ v) /\ forallb (fun n => negb (fails (out t (at_ n)))) good = true /\ forallb (fun n => fails (out t (at_ n))) bad = true.
Example test_range_check :
  range (ranged Big 5 10 u16) [x80; x02] 2 [1023]%N [1024]%N /\ range (ranged Little 5 10 u16) [x80; x08] 2 [1023]%N [1024]%N /\
  range (ranged Big 5 10 i16) [x80; x02] 2 [511; 65024]%N [512; 65023]%N /\ range (ranged Little 5 10 i16) [x80; x08] 2 [511; 65024]%N [512; 65023]%N /\
  range (ranged Big 5 10 i16) [x83; xfe] 65534 [] [] /\ range (ranged Little 5 10 i16) [x83; xfb] 65534 [] [] /\
  range (ranged Big 15 16 u16) [x80; x00; x00; x02] 2 [65535]%N [] /\ range (ranged Little 15 16 u16) [x80; x00; x02; x00] 2 [65535]%N [] /\
  range (ranged Big 15 16 i16) [x80; x00; x00; x02] 2 [32767; 32768]%N [] /\ range (ranged Little 15 16 i16) [x80; x00; x02; x00] 2 [32767; 32768]%N [].
Proof. run. Qed.
(** test_limits *)
Definition by_field (l : expr Z -> flimit) (e : option endian) (t : ty) : ty :=
  st cplain [(plain, u8); ((match e with Some e => f_endian e | None => fun a => a end) (f_limit (l (fun _ fs _ => Z.of_N (fld fs 0))) plain), t)].
Definition vec_u16 : ty := TVec KVec 2 u16.
Example test_bits_read : both (by_field FBits None vec_u8) [x10; xaa; xbb] (VRec [VNum 16; list_of [0xaa; 0xbb]%N]) /\
  try (by_field FBits None vec_u8) [x0f; xaa; xbb] = Err (Incomplete 8) /\ try (by_field FBits None vec_u8) [x11; xaa; xbb] = Err (Incomplete 8) /\
  both (by_field FBits (Some Little) vec_u16) [x10; xaa; xbb] (VRec [VNum 16; list_of [0xbbaa]%N]) /\
  try (by_field FBits (Some Little) vec_u16) [x0f; xaa; xbb] = Err (Incomplete 16) /\ try (by_field FBits (Some Little) vec_u16) [x11; xaa; xbb] = Err (Incomplete 16) /\
  both (by_field FBits (Some Little) vec_u16) [x00] (VRec [VNum 0; list_of []]).
Proof. run. Qed.
Example test_bytes_read : both (by_field FBytes None vec_u8) [x02; xaa; xbb] (VRec [VNum 2; list_of [0xaa; 0xbb]%N]) /\
  try (by_field FBytes None vec_u8) [x03; xaa; xbb] = Err (Incomplete 8) /\
  both (by_field FBytes (Some Little) vec_u16) [x02; xaa; xbb] (VRec [VNum 2; list_of [0xbbaa]%N]) /\
  try (by_field FBytes (Some Little) vec_u16) [x03; xaa; xbb] = Err (Incomplete 16) /\
  both (by_field FBytes (Some Little) vec_u16) [x00] (VRec [VNum 0; list_of []]).
Proof. run. Qed.
Example test_count : both (by_field FCount None vec_u8) [x02; xaa; xbb] (VRec [VNum 2; list_of [0xaa; 0xbb]%N]) /\
  try (by_field FCount None vec_u8) [x03; xaa; xbb] = Err (Incomplete 24) /\ both (by_field FCount None vec_u8) [x00] (VRec [VNum 0; list_of []]) /\
  both (by_field FCount None (TVec KVec 2 (TPair u8 u8))) [x01; xaa; xbb] (VRec [VNum 1; VList [VPair (VNum 0xaa) (VNum 0xbb)]]).
Proof. run. Qed.
Example test_read_all : both (st cplain [(plain, u8); (f_limit FAll plain, vec_u8)]) [xff; xaa; xbb] (VRec [VNum 0xff; list_of [0xaa; 0xbb]%N]) /\
  try (st cplain [(f_bits 40 plain, u64); (plain, u8); (plain, u16); (f_limit FAll plain, vec_u8)])
      [x01; x01; x01; x01; x01; x00; x02; x02; x00; x00; x00] = Ok (VRec [VNum 0x101010101; VNum 0; VNum 0x0202; list_of [0; 0; 0]%N]).
Proof. run. Qed.
Definition Until : ty := st cplain [(plain, u8); (f_limit (FUntil (fun _ fs _ l => (num (last l VUnit) =? fld fs 0)%N)) plain, vec_u8)].
Example test_until : both Until [xbb; xaa; xbb] (VRec [VNum 0xbb; list_of [0xaa; 0xbb]%N]) /\ try Until [xcc; xaa; xbb] = Err (Incomplete 8).
Proof. run. Qed.
(** test_padding *)
Definition two_fields (a b : fattrs) : ty := st cplain [(a, u8); (b, u8)].
Definition pads (t : ty) (b : list byte) (v : list N) (b' : list byte) : Prop := try t b = Ok (nums v) /\ out t (nums v) = Ok b'.
Example test_padding : pads (two_fields (f_bits 2 plain) (f_before 14 plain)) [x80; xaa; xbb] [2; 0xbb]%N [x80; x00; xbb] /\
  pads (two_fields (f_after 14 (f_bits 2 plain)) plain) [x80; xaa; xbb] [2; 0xbb]%N [x80; x00; xbb] /\
  pads (two_fields (f_bits 2 plain) (f_after 2 (f_bits 4 plain))) [x99] [2; 6]%N [x98] /\
  try (two_fields (f_bits 2 plain) (f_after 4 (f_bits 4 plain))) [x99] = Err (Incomplete 2) /\
  try (two_fields (f_bits 2 plain) (f_after (-1) (f_bits 4 plain))) [x99] = Err InvalidParam /\
  out (two_fields (f_bits 2 plain) (f_after (-1) (f_bits 4 plain))) (nums [2; 9]%N) = Err InvalidParam /\
  pads (two_fields (f_bits 2 plain) (f_before 2 (f_bits 4 plain))) [x99] [2; 9]%N [x89] /\
  try (two_fields (f_bits 4 plain) (f_before 6 (f_bits 2 plain))) [x99] = Err (Incomplete 2) /\
  try (two_fields (f_bits 2 plain) (f_before (-1) (f_bits 4 plain))) [x99] = Err InvalidParam /\
  out (two_fields (f_bits 2 plain) (f_before (-1) (f_bits 4 plain))) (nums [2; 9]%N) = Err InvalidParam /\
  pads (two_fields (f_after 16 plain) plain) [xaa; xbb; xcc; xdd] [0xaa; 0xdd]%N [xaa; x00; x00; xdd] /\
  try (two_fields plain (f_after 24 plain)) [xaa; xbb; xcc; xdd] = Err (Incomplete 8) /\
  pads (two_fields plain (f_before 16 plain)) [xaa; xbb; xcc; xdd] [0xaa; 0xdd]%N [xaa; x00; x00; xdd] /\
  try (two_fields plain (f_before 16 plain)) [xaa] = Err (Incomplete 8).
Proof. run. Qed.

(** ** tests/test_size.rs *)

Definition size (t : ty) (n : nat) : Prop := size_bytes t = Some (Some n).
Example test_size : size u8 1 /\ size u16 2 /\ size u32 4 /\ size u64 8 /\ size (TPrim (PU 16)) 16 /\ size i8 1 /\ size TBool 1 /\
  size (TArray 4 u16) 8 /\ size (TArray 10 u32) 40 /\ size (TArray 0 u8) 0 /\ size (TArray 3 (TArray 2 u8)) 6 /\
  size (TPair u8 (TPair u16 u32)) 7 /\ size (st cplain [(plain, u8); (plain, u16); (plain, u32)]) 7 /\
  size (st be [(f_bits 4 plain, u8); (f_bits 4 plain, u8); (plain, u8)]) 2 /\
  size_bits (st be [(f_bits 3 plain, u8); (f_bits 5 plain, u8); (f_bits 6 plain, u8)]) = Some 14 /\
  size (en cplain None u8 [(id 0, []); (id 1, [])]) 1 /\ size (en cplain None u8 [(id 0, [(plain, u8)]); (id 1, [(plain, u32)])]) 5 /\
  size (en cplain None u8 [(id 0, [(plain, u16)]); (id 1, [(plain, u32); (plain, u8)])]) 6.
Proof. run. Qed.
Definition magic (c : cattrs) (m : list byte) : cattrs := with_magic m c.
Definition Level3 : ty := en cplain None u8 [(id 1, [(plain, u16)]); (id 2, [(plain, u32)])].
Definition Level2 : ty := en cplain None u8 [(id 1, [(plain, u8)]); (id 2, [(plain, Level3)])].
Example test_size_more : size Level3 5 /\ size Level2 6 /\ size (en cplain None u8 [(id 1, [(plain, u8)]); (id 2, [(plain, Level2)])]) 7 /\
  size (en cplain (Some 2) u8 [(id 0, [(f_bits 6 plain, u8)]); (id 1, [(f_bits 3 plain, u8); (f_bits 3 plain, u8)])]) 1 /\
  size_bits (en cplain (Some 4) u8 [(id 0, []); (id 1, [(plain, u8)]); (id 2, [(plain, u16); (plain, u8)])]) = Some 28 /\
  size (st (magic cplain deku) [(plain, u8); (plain, u16)]) 7 /\
  size (en (magic cplain deku) None u8 [(id 0, [(plain, u8)]); (id 1, [(plain, u32)])]) 9 /\
  size (st cplain [(f_magic [x48; x44; x52] plain, u8); (plain, u16)]) 6 /\
  size (st (magic cplain [x54; x4f; x50]) [(f_magic [x46; x4c; x44] plain, u8); (plain, u32)]) 11 /\
  size_bits (en (magic cplain [x41; x42]) (Some 4) u8 [(id 0, [(f_bits 4 plain, u8)]); (id 1, [(plain, u8)])]) = Some 28 /\
  size (st cplain [(plain, u8); (f_before 16 plain, u8)]) 4.
Proof. run. Qed.
(** test_with_to_slice *)
Example test_with_to_slice : let t := st be [(plain, u8); (plain, TArray 16 u8); (plain, u16)] in
  let v := VRec [VNum 1; VList (repeat (VNum 255) 16); VNum 0xabcd] in
  let b := [x01] ++ repeat xff 16 ++ [xab; xcd] in
  size t 19 /\ to_slice no_customs t v (repeat x00 19) = (Ok 19, b) /\ parse t b = Ok v.
Proof. run. Qed.
(** tests/test_bit_container_size.rs *)
Definition Container : ty := st be [(f_bits 4 plain, u8); (f_bits 4 plain, u16); (f_endian Little (f_bits 12 plain), u32); (f_bits 9 plain, u32)].
Example test_bit_container_to_big : map (fun l => out Container (nums l)) [[31; 0; 0; 0]; [0; 31; 0; 0]; [0; 0; 8191; 0]; [0; 0; 0; 8191]]%N = repeat (Err InvalidParam) 4.
Proof. run. Qed.
Example test_size_padding : size (st cplain [(f_after 24 plain, u8); (plain, u8)]) 5 /\ size (st cplain [(f_before 8 (f_after 16 plain), u8); (plain, u16)]) 6 /\
  size_bits (st be [(f_bits 4 plain, u8); (f_before 4 (f_bits 4 plain), u8)]) = Some 12 /\ size (st be [(f_after 5 (f_bits 3 plain), u8); (plain, u8)]) 2 /\
  size (st be [(f_before 10 (f_bits 6 plain), u8); (plain, u8)]) 3 /\
  size (st cplain [(f_before 8 plain, u8); (f_after 16 plain, u8); (f_before 8 (f_after 8 plain), u8)]) 8 /\
  size_bits (en be (Some 4) u8 [(id 1, []); (id 2, []); (id 3, []); (id 15, []); (pat (fun n => (n =? 0) || between 4 14 n)%N, [(plain, u8)])]) = Some 4.
Proof. run. Qed.
