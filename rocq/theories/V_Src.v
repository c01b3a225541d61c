(** The unit tests of src/*.rs evaluated in the model: tests of the model, not proofs.
    Each example cites the test it repeats. *)
From Verif Require Import Base Stream Reader Writer Prims Containers.

(** The result, [reader.rest()] and what is left in the cursor. *)
Definition rd {A} (m : RM A) (input : list byte) : res A * list bool * list byte :=
  let '(x, r) := m (reader_new (cursor input)) in (x, r_rest r, s_avail (r_s r)).
(** The result, [writer.rest()] and what is in the vector. *)
Definition wr (m : WM unit) : res unit * list bool * list byte :=
  let '(x, w) := m (writer_new vec_sink) in (x, w_rest w, k_data (w_k w)).
Definition at_end : RM bool := fun r => let '(b, r') := r_end r in (Ok b, r').
Definition offset : RM nat := fun r => (Ok (r_bits r), r).
Definition T := true.
Definition F := false.

(** ** src/reader.rs *)

(** 714-747 test_end *)
Example test_end :
  rd (let* a := at_end in let* _ := read_bytes_const 2 Lsb0 in let* b := at_end in let* n := offset in ret (a, b, n)) [xaa; xbb]
    = (Ok (F, T, 16), [], []) /\
  rd (let* a := at_end in let* _ := read_bits 4 Lsb0 in let* b := at_end in let* _ := read_bits 4 Lsb0 in let* c := at_end in
      let* n := offset in ret (a, b, c, n)) [xaa] = (Ok (F, F, T, 8), [], []) /\
  rd (let* a := at_end in let* _ := read_bytes 1 1 Lsb0 in let* b := at_end in let* n := offset in ret (a, b, n)) [xaa]
    = (Ok (F, T, 8), [], []).
Proof. repeat split. Qed.
(** 760-769 test_inner *)
Example test_inner : rd (let* b := read_bytes 1 1 Lsb0 in let* n := offset in ret (b, n)) [xaa; xbb; xcc] = (Ok ([xaa], 8), [], [xbb; xcc]).
Proof. reflexivity. Qed.
(** 771-887 test_bit_order *)
Fixpoint reads (l : list (nat * order)) : RM (list (list bool)) :=
  match l with [] => ret [] | (n, o) :: tl => let* b := read_bits n o in let* bs := reads tl in ret (b :: bs) end.
Definition a_ := [T; F; T; F]. Definition b_ := [T; F; T; T]. Definition c_ := [T; T; F; F]. Definition d_ := [T; T; F; T].
Example test_bit_order :
  rd (reads [(4, Lsb0); (4, Lsb0)]) [xab] = (Ok [b_; a_], [], []) /\
  rd (reads [(4, Msb0); (4, Msb0)]) [xab] = (Ok [a_; b_], [], []) /\
  rd (reads [(4, Lsb0); (4, Lsb0); (4, Lsb0); (4, Lsb0)]) [xab; xcd] = (Ok [b_; a_; d_; c_], [], []) /\
  rd (reads [(4, Msb0); (4, Msb0); (4, Msb0); (4, Msb0)]) [xab; xcd] = (Ok [a_; b_; c_; d_], [], []) /\
  rd (reads [(4, Lsb0); (4, Lsb0); (4, Msb0); (4, Msb0)]) [xab; xcd] = (Ok [b_; a_; c_; d_], [], []) /\
  rd (reads [(4, Msb0); (4, Msb0); (4, Lsb0); (4, Lsb0)]) [xab; xcd] = (Ok [a_; b_; d_; c_], [], []) /\
  rd (reads [(1, Msb0); (3, Msb0); (4, Msb0)]) [xab] = (Ok [[T]; [F; T; F]; b_], [], []) /\
  rd (reads [(1, Lsb0); (3, Msb0); (4, Msb0)]) [xab] = (Ok [[T]; [T; F; T]; [F; T; F; T]], [], []).
Proof. repeat split. Qed.
(** 889-905 test_long_unaligned_bytes_read *)
Example test_long_unaligned_bytes_read :
  match rd (let* b := read_bits 1 Lsb0 in let* bs := read_bytes (254 * 2) (255 * 2) Lsb0 in ret (b, length bs)) (repeat xff (255 * 2)) with
  | (Ok ([b], n), _, _) => b = T /\ n = 508 | _ => False end.
Proof. vm_compute. split; reflexivity. Qed.
(** 907-937 test_regression_msb0, test_regression_lsb0 *)
Definition with_left (l : list bool) {A} (m : RM A) : RM A := fun r => m (r_set_left r (Some (Reader.LBits l))).
Example test_regression :
  fst (fst (rd (with_left [T; F] (read_bits 17 Msb0)) [x64; x20])) = Ok [T; F; F; T; T; F; F; T; F; F; F; F; T; F; F; F; F] /\
  fst (fst (rd (with_left [T; F] (read_bits 17 Lsb0)) [x64; x20])) = Ok [F; T; F; F; F; F; F; F; T; T; F; F; T; F; F; T; F].
Proof. split; reflexivity. Qed.

(** ** src/writer.rs *)

(** 425-462 test_writer_bits *)
Example test_writer_bits :
  wr (let* _ := write_bytes [xaa] in let* _ := write_bits (byte_bits xbb) in let* _ := write_bits [T; T; T; T] in let* _ := write_bits [F; F; F; T] in
      let* _ := write_bytes [xaa] in let* _ := write_bits [F; F; F; T] in let* _ := write_bits [T; T; T; T] in let* _ := write_bits [F; F; F; T] in
      let* _ := write_bytes [xaa] in write_bits [T; T; T; T])
  = (Ok tt, [], [xaa; xbb; xf1; xaa; x1f; x1a; xaf]).
Proof. reflexivity. Qed.
(** 464-473 test_writer_bytes *)
Example test_writer_bytes : wr (write_bytes [xaa]) = (Ok tt, [], [xaa]).
Proof. reflexivity. Qed.
(** 475-553 test_bit_order *)
Definition two (l1 : list bool) (o1 : order) (l2 : list bool) (o2 : order) : WM unit :=
  let* _ := write_bits_order l1 o1 in let* _ := write_bits_order l2 o2 in finalize.
Example test_write_bit_order :
  wr (two [T; F; T; F] Msb0 [F; T; F; T] Msb0) = (Ok tt, [], [xa5]) /\
  wr (two [T; F; T; F] Lsb0 [F; T; F; T] Lsb0) = (Ok tt, [], [x5a]) /\
  wr (two [T; F; T; F] Msb0 [F; T; F; T] Lsb0) = (Ok tt, [], [xa5]) /\
  wr (two [T; F; T; F; T; F] Msb0 [F; T; F; T; F; T] Msb0) = (Ok tt, [], [xa9; x50]) /\
  wr (two [T; F; T; F; T; F] Lsb0 [F; T; F; T; F; T] Lsb0) = (Ok tt, [], [x6a; x05]) /\
  wr (two [T; F; T; F; T; F] Lsb0 [F; T; F; T; F; T] Msb0) = (Ok tt, [], [x56; xa0]) /\
  wr (two [T; F; T; F; T; F] Msb0 [F; T; F; T; F; T] Lsb0) = (Ok tt, [], [x95; x0a]).
Proof. repeat split. Qed.

(** ** src/impls/primitive.rs *)

(** 1395-1484 TestPrimitive: read and write back, native endian. *)
Definition both (p : prim) (input : list byte) (v : N) : Prop :=
  rd (prim_read p (CE Little)) input = (Ok v, [], []) /\ wr (prim_write p (CE Little) v) = (Ok tt, [], input).
(** The bit pattern of a negative number. *)
Definition neg (bytes : nat) (v : N) : N := (2 ^ (8 * N.of_nat bytes) - v)%N.
Example test_primitive :
  both PU8 [xaa] 0xaa /\ both (PU 2) [xab; xcd] 0xcdab /\ both (PU 4) [xab; xcd; xef; xbe] 0xbeefcdab /\
  both (PU 8) [xab; xcd; xef; xbe; xab; xcd; xfe; xc0] 0xc0fecdabbeefcdab /\
  both (PU 16) [xab; xcd; xef; xbe; xab; xcd; xfe; xc0; xab; xcd; xef; xbe; xab; xcd; xfe; xc0] 0xc0fecdabbeefcdabc0fecdabbeefcdab /\
  both (PI 1) [xfb] (neg 1 5) /\ both (PI 2) [xfd; xfe] (neg 2 259) /\ both (PI 4) [x02; x3f; x01; xef] (neg 4 0x10fec0fe) /\
  both (PI 8) [x02; x3f; x01; xef; x01; x3f; x01; xef] (neg 8 0x10fec0fe10fec0fe) /\
  both (PI 16) [x02; x3f; x01; xef; x01; x3f; x01; xef; x01; x3f; x01; xef; x01; x3f; x01; xef] (neg 16 0x10fec0fe10fec0fe10fec0fe10fec0fe) /\
  both (PU 4) [xa6; x9b; xc4; xbb] 0xbbc49ba6 /\
  both (PU 8) [xfa; x7e; x6a; xbc; x74; x93; x78; xbf] 0xbf789374bc6a7efa.
Proof. repeat split; vm_compute; reflexivity. Qed.
(** 1486-1532 test_bit_read *)
Example test_bit_read :
  rd (prim_read (PU 4) (CEB Little 32)) [xdd; xcc; xbb; xaa] = (Ok 0xaabbccdd%N, [], []) /\
  rd (prim_read (PU 4) (CEB Big 32)) [xdd; xcc; xbb; xaa] = (Ok 0xddccbbaa%N, [], []) /\
  rd (prim_read (PU 4) (CEB Little 12)) [x96; xe0; xcc; xdd] = (Ok 0xe96%N, [F; F; F; F], [xcc; xdd]) /\
  rd (prim_read (PU 4) (CEB Big 12)) [x96; xe0; xcc; xdd] = (Ok 0x96e%N, [F; F; F; F], [xcc; xdd]) /\
  rd (prim_read (PU 4) (CEB Little 6)) [x96] = (Ok 0x25%N, [T; F], []) /\
  fst (fst (rd (prim_read (PU 4) (CEB Little 32)) [])) = Err (Incomplete 32) /\
  fst (fst (rd (prim_read (PU 4) (CEB Little 32)) [xaa; xbb])) = Err (Incomplete 32) /\
  fst (fst (rd (prim_read (PU 4) (CEB Little 64)) [xaa; xbb; xcc; xdd; xaa; xbb; xcc; xdd])) = Err Parse /\
  fst (fst (rd (prim_read (PU 4) (CEB Little 63)) [xaa; xbb; xcc; xdd; xaa; xbb; xcc; xdd])) = Err Parse.
Proof. repeat split. Qed.
(** 1534-1573 test_byte_read *)
Example test_byte_read :
  rd (prim_read (PU 4) (CEY Big 4)) [xdd; xcc; xbb; xaa] = (Ok 0xddccbbaa%N, [], []) /\
  rd (prim_read (PU 4) (CEY Little 4)) [xdd; xcc; xbb; xaa] = (Ok 0xaabbccdd%N, [], []) /\
  rd (prim_read (PU 4) (CEY Big 3)) [xdd; xcc; xbb; xaa] = (Ok 0xddccbb%N, [], [xaa]) /\
  rd (prim_read (PU 4) (CEY Little 3)) [xdd; xcc; xbb; xaa] = (Ok 0xbbccdd%N, [], [xaa]) /\
  fst (fst (rd (prim_read (PU 4) (CEY Little 4)) [])) = Err (Incomplete 32) /\
  fst (fst (rd (prim_read (PU 4) (CEY Little 4)) [xaa; xbb])) = Err (Incomplete 32) /\
  fst (fst (rd (prim_read (PU 4) (CEY Little 8)) [xaa; xbb; xcc; xdd; xaa; xbb; xcc; xdd])) = Err Parse.
Proof. repeat split. Qed.
(** 1575-1602 test_bit_writer *)
Example test_bit_writer :
  wr (prim_write (PU 4) (CE Little) 0xddccbbaa) = (Ok tt, [], [xaa; xbb; xcc; xdd]) /\
  wr (prim_write (PU 4) (CE Big) 0xddccbbaa) = (Ok tt, [], [xdd; xcc; xbb; xaa]) /\
  wr (prim_write (PU 4) (CEB Big 10) 0x03ab) = (Ok tt, [T; T], [xea]) /\
  fst (fst (wr (prim_write (PU 4) (CEB Little 100) 0x03ab))) = Err InvalidParam /\
  fst (fst (wr (prim_write (PU 4) (CEB Little 5) 0x03ab))) = Err InvalidParam.
Proof. repeat split. Qed.
(** 1604-1621 test_byte_writer *)
Example test_byte_writer :
  wr (prim_write (PU 4) (CEY Big 2) 0x00ffabaa) = (Ok tt, [], [xab; xaa]) /\
  fst (fst (wr (prim_write (PU 4) (CEY Little 10) 0x03ab))) = Err InvalidParam.
Proof. repeat split. Qed.
(** 1623-1651 test_bit_read_write *)
Example test_bit_read_write : wr (prim_write (PU 4) (CEB Little 32) 0xaabbccdd) = (Ok tt, [], [xdd; xcc; xbb; xaa]).
Proof. reflexivity. Qed.
(** 1653-1681 TestSignExtending *)
Example test_sign_extend : forall b, In b [1; 2; 4; 8; 16] -> fst (fst (rd (prim_read (PI b) (CEB Little 5)) [xa8])) = Ok (neg b 11).
Proof. intros b [<-|[<-|[<-|[<-|[<-|[]]]]]]; vm_compute; reflexivity. Qed.
(** 1683-1714 TestSignExtendingPanic *)
Example test_sign_extend_panic : forall b, In b [1; 2; 4; 8; 16] -> fst (fst (rd (prim_read (PI b) (CEB Little (8 * b + 1))) [xa8])) = Err Parse.
Proof. intros b [<-|[<-|[<-|[<-|[<-|[]]]]]]; vm_compute; reflexivity. Qed.

(** ** src/impls/vec.rs *)

Definition vec8 (c : pctx) (l : limit N) : RM (list N) := vec_read 100 1 (prim_read PU8 c) l.
Definition is (n : N) (l : list N) : bool := (last l 1 =? n)%N.
(** 244-271 test_vec_reader_no_ctx *)
Example test_vec_reader_no_ctx :
  rd (vec8 C0 (LCount 0)) [xaa] = (Ok [], [], [xaa]) /\ rd (vec8 C0 (LCount 1)) [xaa; xbb] = (Ok [0xaa%N], [], [xbb]) /\
  rd (vec8 C0 (LCount 2)) [xaa; xbb; xcc] = (Ok [0xaa; 0xbb]%N, [], [xcc]) /\
  rd (vec8 C0 (LUntil (is 0))) [xaa; x00; xbb] = (Ok [0xaa; 0]%N, [], [xbb]) /\
  rd (vec8 C0 (LBits 8)) [xaa; xbb] = (Ok [0xaa%N], [], [xbb]).
Proof. repeat split. Qed.
(** 273-320 test_vec_reader *)
Example test_vec_reader :
  rd (vec8 (CEB Little 8) (LCount 0)) [xaa] = (Ok [], [], [xaa]) /\
  rd (vec8 (CEB Little 8) (LCount 1)) [xaa; xbb] = (Ok [0xaa%N], [], [xbb]) /\
  rd (vec8 (CEB Little 8) (LCount 2)) [xaa; xbb; xcc] = (Ok [0xaa; 0xbb]%N, [], [xcc]) /\
  rd (vec8 (CE Little) (LUntil (is 0))) [xaa; x00; xbb] = (Ok [0xaa; 0]%N, [], [xbb]) /\
  rd (vec8 (CE Little) (LBits 8)) [xaa; xbb] = (Ok [0xaa%N], [], [xbb]) /\
  rd (vec8 (CE Little) LEnd) [xaa; xbb] = (Ok [0xaa; 0xbb]%N, [], []) /\
  rd (vec8 (CEB Little 4) LEnd) [xf0; xf0] = (Ok [0xf; 0; 0xf; 0]%N, [], []) /\
  rd (vec8 (CEB Little 6) (LCount 2)) [x69; xe9] = (Ok [0x1a; 0x1e]%N, [T; F; F; T], []) /\
  fst (fst (rd (vec8 (CEB Little 9) (LCount 1)) [])) = Err Parse /\
  fst (fst (rd (vec8 (CEB Little 9) (LCount 1)) [xaa])) = Err Parse /\
  fst (fst (rd (vec8 (CEB Little 8) (LCount 2)) [xaa])) = Err (Incomplete 8) /\
  fst (fst (rd (vec8 (CEB Little 8) (LUntil (fun _ => false))) [xaa])) = Err (Incomplete 8) /\
  fst (fst (rd (vec8 (CEB Little 8) (LBits 16)) [xaa])) = Err (Incomplete 8) /\
  fst (fst (rd (vec8 (CEB Little 9) (LCount 1)) [xaa; xbb])) = Err Parse.
Proof. repeat split. Qed.
(** 322-331 test_vec_write *)
Example test_vec_write : wr (write_list (prim_write (PU 2) (CE Little)) [0xaabb; 0xccdd]%N) = (Ok tt, [], [xbb; xaa; xdd; xcc]).
Proof. reflexivity. Qed.
(** 333-383 test_vec_reader_write *)
Definition vec16 (e : endian) (l : limit N) : RM (list N) := vec_read 100 2 (prim_read (PU 2) (CEB e 16)) l.
Definition vec16_write (e : endian) (l : list N) : WM unit := write_list (prim_write (PU 2) (CEB e 16)) l.
Example test_vec_reader_write :
  let input := [xaa; xbb; xcc; xdd] in
  rd (vec16 Little (LCount 2)) input = (Ok [0xbbaa; 0xddcc]%N, [], []) /\ wr (vec16_write Little [0xbbaa; 0xddcc]%N) = (Ok tt, [], input) /\
  rd (vec16 Big (LCount 2)) input = (Ok [0xaabb; 0xccdd]%N, [], []) /\ wr (vec16_write Big [0xaabb; 0xccdd]%N) = (Ok tt, [], input) /\
  rd (vec16 Little (LUntil (is 0xbbaa))) input = (Ok [0xbbaa%N], [], [xcc; xdd]) /\ wr (vec16_write Little [0xbbaa%N]) = (Ok tt, [], [xaa; xbb]) /\
  rd (vec16 Big (LUntil (is 0xaabb))) input = (Ok [0xaabb%N], [], [xcc; xdd]) /\
  rd (vec16 Little (LBits 16)) input = (Ok [0xbbaa%N], [], [xcc; xdd]) /\ rd (vec16 Big (LBits 16)) input = (Ok [0xaabb%N], [], [xcc; xdd]).
Proof. repeat split. Qed.
(** 385-455 read_exact_tests *)
Example read_exact_tests :
  rd (read_exact_vec 4) [xaa; xbb; xcc; xdd] = (Ok [xaa; xbb; xcc; xdd], [], []) /\
  rd (read_exact_vec 2) [xaa; xbb; xcc; xdd] = (Ok [xaa; xbb], [], [xcc; xdd]) /\
  fst (fst (rd (read_exact_vec 10) [xaa; xbb])) = Err (Incomplete 80) /\
  fst (fst (rd (read_exact_vec 1) [])) = Err (Incomplete 8) /\
  fst (fst (rd (read_exact_vec 0) [xaa])) = Ok [].
Proof. repeat split. Qed.

(** ** The other src/impls/*.rs *)

(** bool.rs:64-109 *)
Example test_bool :
  rd (read_bool C0) [x00] = (Ok false, [], []) /\ rd (read_bool C0) [x01] = (Ok true, [], []) /\ fst (fst (rd (read_bool C0) [x02])) = Err Parse /\
  fst (fst (rd (read_bool (CB 2)) [x40])) = Ok true /\ wr (write_bool (CB 1) true) = (Ok tt, [T], []) /\
  wr (write_bool C0 true) = (Ok tt, [], [x01]) /\ wr (write_bool C0 false) = (Ok tt, [], [x00]).
Proof. repeat split. Qed.
(** cstring.rs:80-144 *)
Definition test := [0x74; 0x65; 0x73; 0x74]%N.
Example test_cstring_count :
  rd (read_cstring_bytes 5) [x74; x65; x73; x74; x00] = (Ok test, [], []) /\ rd (read_cstring 100) [x74; x65; x73; x74; x00] = (Ok test, [], []) /\
  rd (read_cstring_bytes 5) [x74; x65; x73; x74; x00; x61] = (Ok test, [], [x61]) /\
  rd (read_cstring 100) [x74; x65; x73; x74; x00; x61] = (Ok test, [], [x61]) /\
  fst (fst (rd (read_cstring_bytes 4) [x74; x65; x73; x74])) = Err Parse /\
  fst (fst (rd (read_cstring_bytes 5) [x74; x65; x73; x74])) = Err (Incomplete 8) /\
  fst (fst (rd (read_cstring 100) [x74; x65; x73; x74])) = Err (Incomplete 8) /\
  wr (write_cstring C0 test) = (Ok tt, [], [x74; x65; x73; x74; x00]).
Proof. repeat split. Qed.
(** hashset.rs:228-281; the list is in no particular order. *)
Definition set8 (c : pctx) (l : limit (N * unit)) : RM (list N) := let* m := set_read 100 N.eqb (prim_read PU8 c) l in ret (map fst m).
Example test_hashset_read :
  rd (set8 (CEB Little 8) (LCount 0)) [xaa] = (Ok [], [], [xaa]) /\ rd (set8 (CEB Little 8) (LCount 1)) [xaa; xbb] = (Ok [0xaa%N], [], [xbb]) /\
  rd (set8 (CEB Little 8) (LCount 2)) [xaa; xbb; xcc] = (Ok [0xbb; 0xaa]%N, [], [xcc]) /\
  rd (set8 (CE Little) (LUntil (fun l => (fst (last l (1, tt)) =? 0)%N))) [xaa; x00; xbb] = (Ok [0; 0xaa]%N, [], [xbb]) /\
  rd (set8 (CE Little) (LBits 0)) [xaa; xbb] = (Ok [], [], [xaa; xbb]) /\ rd (set8 (CE Little) (LBytes 0)) [xaa; xbb] = (Ok [], [], [xaa; xbb]) /\
  rd (set8 (CE Little) (LBits 8)) [xaa; xbb] = (Ok [0xaa%N], [], [xbb]) /\ rd (set8 (CE Little) LEnd) [xaa; xbb] = (Ok [0xbb; 0xaa]%N, [], []) /\
  rd (set8 (CE Little) (LBytes 1)) [xaa; xbb] = (Ok [0xaa%N], [], [xbb]) /\ rd (set8 (CE Little) (LCount 1)) [xaa; xbb] = (Ok [0xaa%N], [], [xbb]) /\
  rd (set8 (CEB Little 6) (LCount 2)) [x69; xe9] = (Ok [0x1e; 0x1a]%N, [T; F; F; T], []) /\
  fst (fst (rd (set8 (CEB Little 9) (LCount 1)) [])) = Err Parse /\ fst (fst (rd (set8 (CEB Little 8) (LCount 2)) [xaa])) = Err (Incomplete 8) /\
  fst (fst (rd (set8 (CEB Little 8) (LUntil (fun _ => false))) [xaa])) = Err (Incomplete 8) /\
  fst (fst (rd (set8 (CEB Little 8) (LBits 16)) [xaa])) = Err (Incomplete 8).
Proof. repeat split. Qed.
(** hashmap.rs:273-336 *)
Definition map8 (c : pctx) (l : limit (N * N)) : RM (list (N * N)) := map_read 100 N.eqb (read_pair (prim_read PU8 c) (prim_read PU8 c)) l.
Example test_hashmap_read :
  rd (map8 (CEB Little 8) (LCount 0)) [xaa] = (Ok [], [], [xaa]) /\
  rd (map8 (CEB Little 8) (LCount 1)) [x01; xaa; x02; xbb] = (Ok [(1, 0xaa)]%N, [], [x02; xbb]) /\
  rd (map8 (CEB Little 8) (LCount 2)) [x01; xaa; x02; xbb; xbb] = (Ok [(2, 0xbb); (1, 0xaa)]%N, [], [xbb]) /\
  rd (map8 (CE Little) (LUntil (fun l => let kv := last l (1, 1)%N in (fst kv =? 0)%N && (snd kv =? 0)%N))) [x01; xaa; x00; x00; xbb] = (Ok [(0, 0); (1, 0xaa)]%N, [], [xbb]) /\
  rd (map8 (CE Little) (LBits 0)) [x01; xaa; xbb] = (Ok [], [], [x01; xaa; xbb]) /\ rd (map8 (CE Little) (LBytes 0)) [x01; xaa; xbb] = (Ok [], [], [x01; xaa; xbb]) /\
  rd (map8 (CE Little) (LBits 16)) [x01; xaa; xbb] = (Ok [(1, 0xaa)]%N, [], [xbb]) /\ rd (map8 (CE Little) LEnd) [x01; xaa] = (Ok [(1, 0xaa)]%N, [], []) /\
  rd (map8 (CE Little) (LBytes 2)) [x01; xaa; xbb] = (Ok [(1, 0xaa)]%N, [], [xbb]) /\
  rd (map8 (CEB Little 6) (LCount 2)) [x04; xf0; x80] = (Ok [(2, 0); (1, 0xf)]%N, [], []) /\
  fst (fst (rd (map8 (CEB Little 9) (LCount 1)) [xaa])) = Err Parse /\ fst (fst (rd (map8 (CEB Little 8) (LCount 2)) [xaa])) = Err (Incomplete 8) /\
  fst (fst (rd (map8 (CEB Little 8) (LUntil (fun _ => false))) [xaa])) = Err (Incomplete 8) /\
  fst (fst (rd (map8 (CEB Little 8) (LBits 16)) [xaa])) = Err (Incomplete 8) /\
  wr (map_write (prim_write PU8 (CE Little)) (prim_write (PU 2) (CE Little)) [(0x23, 0xccdd); (0x11, 0xaabb)]%N) = (Ok tt, [], [x23; xdd; xcc; x11; xbb; xaa]).
Proof. repeat split. Qed.
(** ipaddr.rs:90-138; 145.254.160.237 is 0x91fea0ed. *)
Example test_ip :
  rd (read_ipv4 (CE Little)) [xed; xa0; xfe; x91] = (Ok 0x91fea0ed%N, [], []) /\ rd (read_ipv4 (CE Big)) [x91; xfe; xa0; xed] = (Ok 0x91fea0ed%N, [], []) /\
  wr (write_ip (CE Little) (V4 0x91fea0ed)) = (Ok tt, [], [xed; xa0; xfe; x91]) /\
  rd (read_ipv6 (CE Little)) [xff; x02; x0a; xc0; xff; xff; x00; x00; x00; x00; x00; x00; x00; x00; x00; x00] = (Ok 0xffffc00a02ff%N, [], []) /\
  rd (read_ipv6 (CE Big)) [x00; x00; x00; x00; x00; x00; x00; x00; x00; x00; xff; xff; xc0; x0a; x02; xff] = (Ok 0xffffc00a02ff%N, [], []) /\
  wr (write_ip (CE Little) (V6 0xffffc00a02ff)) = (Ok tt, [], [xff; x02; x0a; xc0; xff; xff; x00; x00; x00; x00; x00; x00; x00; x00; x00; x00]).
Proof. repeat split; vm_compute; reflexivity. Qed.
(** nonzero.rs:87-102, option.rs:33-49, unit.rs:33-48 *)
Example test_small :
  rd (read_nonzero PU8 C0) [xff] = (Ok 0xff%N, [], []) /\ fst (fst (rd (read_nonzero PU8 C0) [x00])) = Err Parse /\
  wr (write_nonzero PU8 C0 0xff) = (Ok tt, [], [xff]) /\
  rd (read_option (prim_read (PU 4) (CE Little))) [x01; x02; x03; x04] = (Ok (Some 0x04030201%N), [], []) /\
  wr (write_option (write_bool C0) (Some true)) = (Ok tt, [], [x01]) /\
  rd read_unit [xff] = (Ok tt, [], [xff]) /\ wr (write_unit tt) = (Ok tt, [], []).
Proof. repeat split. Qed.
(** slice.rs:112-163, tuple.rs:112-126 *)
Example test_array :
  rd (read_array 2 (prim_read (PU 2) (CE Little))) [xdd; xcc; xbb; xaa] = (Ok [0xccdd; 0xaabb]%N, [], []) /\
  rd (read_array 2 (prim_read (PU 2) (CE Big))) [xdd; xcc; xbb; xaa] = (Ok [0xddcc; 0xbbaa]%N, [], []) /\
  fst (fst (rd (read_array 2 (prim_read (PU 2) (CE Big))) [xdd; xcc])) = Err (Incomplete 16) /\
  wr (write_list (prim_write (PU 2) (CE Little)) [0xddcc; 0xbbaa]%N) = (Ok tt, [], [xcc; xdd; xaa; xbb]) /\
  wr (write_list (write_list (prim_write (PU 2) (CE Big))) [[0xddcc; 0xbbaa]; [0x9988; 0x7766]]%N) = (Ok tt, [], [xdd; xcc; xbb; xaa; x99; x88; x77; x66]) /\
  wr (write_pair (write_bool C0) (prim_write (PU 4) C0) (true, 0x829824%N)) = (Ok tt, [], [x01; x24; x98; x82; x00]).
Proof. repeat split. Qed.
