(** What deku::bit_offset and deku::byte_offset stand for, C63.

    Vocabulary: [Derive.v] (the attributes, [from_bytes], [to_bits]), [AttrSpec.v]
    ([fapp], [all_fields], [stored_count]), [OffsetSpec.v] ([at_offset], [lead],
    [telling], [own_value], [set_fields], [no_pattern]), [DeriveSpec.v] ([writes_in_order]). *)
From Coq Require Import Lia.
From Verif Require Import Base Spec Stream Reader Writer Prims Containers Derive DeriveSpec AttrSpec OffsetSpec OffsetProps P_Derive P_Attrs P_Streams.

(** ** Reading *)

(** In the expressions of any field of any struct the offset is the number of bits of the
    input in front of the value of the field: what remains when only the fields before it
    and its own magic and padding are read tells how many these are. *)
Theorem C63_input : forall cu fuel c pre a t wire tl input bit rest off v,
  from_bytes cu fuel (TStruct c (fapp pre (FCons (lead a) TUnit TUnit FNil))) input bit = Ok ((rest, off), v) ->
  from_bytes cu fuel (TStruct c (fapp pre (FCons a t wire tl))) input bit =
  from_bytes cu fuel (TStruct c (fapp pre (FCons (at_offset (8 * (length input - length rest) + off) a) t wire tl))) input bit.
Proof. exact input_offset. Qed.
Print Assumptions C63_input.

(** The same with any reader and context, so in nested types too: the offset counts from
    where the reader started ([Reader::bits_read]), not from the start of the struct. *)
Theorem C63_reader : forall cu fuel c pre a t wire tl lim args r v r1,
  read_ty cu fuel (TStruct c (fapp pre (FCons (lead a) TUnit TUnit FNil))) lim args r = (Ok v, r1) ->
  read_ty cu fuel (TStruct c (fapp pre (FCons a t wire tl))) lim args r =
  read_ty cu fuel (TStruct c (fapp pre (FCons (at_offset (r_bits r1) a) t wire tl))) lim args r.
Proof. exact read_offset. Qed.
Print Assumptions C63_reader.

(** The same for the fields of a variant of an enum; the id and the magic in front of them
    count.  (The first field of a variant with [id_pat] holds the id and has no
    expressions.) *)
Theorem C63_variant_input : forall cu fuel e idt vs k pre a t wire tl input bit rest off v, pre <> FNil \/ no_pattern vs k ->
  from_bytes cu fuel (TEnum e idt (set_fields vs k (fapp pre (FCons (lead a) TUnit TUnit FNil)))) input bit = Ok ((rest, off), v) ->
  from_bytes cu fuel (TEnum e idt (set_fields vs k (fapp pre (FCons a t wire tl)))) input bit =
  from_bytes cu fuel (TEnum e idt (set_fields vs k (fapp pre (FCons (at_offset (8 * (length input - length rest) + off) a) t wire tl)))) input bit.
Proof. exact input_variant_offset. Qed.
Print Assumptions C63_variant_input.
Theorem C63_variant_reader : forall cu fuel e idt vs k pre a t wire tl lim args r v r1, pre <> FNil \/ no_pattern vs k ->
  read_ty cu fuel (TEnum e idt (set_fields vs k (fapp pre (FCons (lead a) TUnit TUnit FNil)))) lim args r = (Ok v, r1) ->
  read_ty cu fuel (TEnum e idt (set_fields vs k (fapp pre (FCons a t wire tl)))) lim args r =
  read_ty cu fuel (TEnum e idt (set_fields vs k (fapp pre (FCons (at_offset (r_bits r1) a) t wire tl)))) lim args r.
Proof. exact read_variant_offset. Qed.
Print Assumptions C63_variant_reader.
(** enum (id_type = "u8") { #[deku(id = 1)] Empty,
      #[deku(id = 2)] Data { x: u16, #[deku(count = "6 - deku::byte_offset")] rest: Vec<u8> } } *)
Definition Rest : fattrs := limited (FCount (fun _ _ off => 6 - Z.of_nat (off / 8))%Z) plain.
Definition Choices : variants := VCons (mkV (SId (VNum 1)) false) FNil (VCons (mkV (SId (VNum 2)) false) FNil VNil).
Definition Chosen (a : fattrs) (t : ty) : ty := TEnum (mkE cplain None None None None) u8 (set_fields Choices 1 (fapp (field plain u16 FNil) (FCons a t t FNil))).
Example C63_case_variant : let input := [x02; x01; x00; x07; x08; x09; x0a] in
  no_pattern Choices 1 /\ from_bytes no_customs 99 (Chosen (lead Rest) TUnit) input 0 = Ok (([x07; x08; x09; x0a], 0), VVar 1 [VNum 1; VUnit]) /\
  from_bytes no_customs 99 (Chosen Rest (TVec KVec 1 u8)) input 0 = Ok (([x0a], 0), VVar 1 [VNum 1; VList [VNum 7; VNum 8; VNum 9]]).
Proof. split; [intros v fs E; injection E as <- <-; exact I|]. vm_compute. repeat split. Qed.

(** A skipped field whose default is the offset holds the number of bits read. *)
Theorem C63_told : forall cu fuel c pre t wire input bit rest off l,
  from_bytes cu fuel (TStruct c pre) input bit = Ok ((rest, off), VRec l) ->
  from_bytes cu fuel (TStruct c (fapp pre (FCons telling t wire FNil))) input bit =
  Ok ((rest, off), VRec (l ++ [VNum (N.of_nat (8 * (length input - length rest) + off))])).
Proof. exact told. Qed.
Print Assumptions C63_told.

(** A nibble, a byte, a nibble of padding and the rest of a message of six bytes. *)
Definition Body : fattrs := padded 4 0 (limited (FCount (fun _ _ off => 6 - Z.of_nat (off / 8))%Z) plain).
Definition Sized : ty := TStruct cplain (fapp (field (bits 4 plain) u8 (field plain u8 FNil)) (FCons Body (TVec KVec 1 u8) (TVec KVec 1 u8) FNil)).
Example C63_case_input : let input := [xa1; x2f; x01; x02; x03; x04; x05; x06] in
  from_bytes no_customs 9 (TStruct cplain (fapp (field (bits 4 plain) u8 (field plain u8 FNil)) (FCons (lead Body) TUnit TUnit FNil))) input 0 =
    Ok (([x01; x02; x03; x04; x05; x06], 0), VRec [VNum 10; VNum 18; VUnit]) /\
  from_bytes no_customs 9 Sized input 0 = Ok (([x05; x06], 0), VRec [VNum 10; VNum 18; VList [VNum 1; VNum 2; VNum 3; VNum 4]]).
Proof. vm_compute. repeat split. Qed.
Example C63_case_told : let input := [xa1; x2f; x01] in
  from_bytes no_customs 9 (TStruct cplain (field (bits 4 plain) u8 (field (bits 3 plain) u8 FNil))) input 4 = Ok (([x2f; x01], 3), VRec [VNum 1; VNum 1]) /\
  from_bytes no_customs 9 (TStruct cplain (field (bits 4 plain) u8 (field (bits 3 plain) u8 (field telling u8 FNil)))) input 4 = Ok (([x2f; x01], 3), VRec [VNum 1; VNum 1; VNum 11]).
Proof. vm_compute. repeat split. Qed.

(** The struct of the documentation (src/lib.rs:452-464), #[deku(ctx = "size: u32")] with
    #[deku(count = "size as usize - deku::byte_offset")] behind a byte, holds [size - 1]
    bytes only if it is first in the input. *)
Definition EncodedString : ty :=
  TStruct cplain (field plain u8 (field (limited (FCount (fun ctx _ off => Z.of_N (nth_num ctx 0) - Z.of_nat (off / 8))%Z) plain) (TVec KVec 1 u8) FNil)).
Theorem C63_nested_refuted : exists size input, let encoded := with_ctx (fun _ _ _ => [VNum size]) plain in
  from_bytes no_customs 9 (TStruct cplain (field encoded EncodedString FNil)) input 0 =
    Ok ((skipn 4 input, 0), VRec [VRec [VNum 1; VList [VNum 2; VNum 3; VNum 4]]]) /\
  from_bytes no_customs 9 (TStruct cplain (field plain u8 (field encoded EncodedString FNil))) (x09 :: input) 0 =
    Ok ((skipn 3 input, 0), VRec [VNum 9; VRec [VNum 1; VList [VNum 2; VNum 3]]]).
Proof. exists 4%N, [x01; x02; x03; x04; x05]. vm_compute. repeat split. Qed.
Print Assumptions C63_nested_refuted.

(** After a seek the offset is the position in the input. *)
Definition FromFour (f : nat -> bool) : ty :=
  TStruct (seeking (SeekStart 4) cplain) (field plain u8 (field (asserting (fun _ _ off => f off) plain) u8 FNil)).
Example C63_case_seek : from_bytes no_customs 9 (FromFour (fun off => off =? 40)) [x00; x01; x02; x03; x04; x05; x06] 0 = Ok (([x06], 0), VRec [VNum 4; VNum 5]).
Proof. vm_compute. reflexivity. Qed.

(** ** Writing *)

(** The offset is the number of bits in front of the value that are in whole bytes. *)
Theorem C63_output : forall cu c pre a t wire tl before v after bits, all_fields own_value pre -> length before = stored_count pre -> a_temp a = false ->
  writes_in_order cu (TStruct c (fapp pre (FCons (lead a) TUnit TUnit FNil))) ->
  to_bits cu (TStruct c (fapp pre (FCons (lead a) TUnit TUnit FNil))) (VRec (before ++ [VUnit])) = Ok bits ->
  to_bits cu (TStruct c (fapp pre (FCons a t wire tl))) (VRec (before ++ v :: after)) =
  to_bits cu (TStruct c (fapp pre (FCons (at_offset (8 * (length bits / 8)) a) t wire tl))) (VRec (before ++ v :: after)) /\
  to_bytes cu (TStruct c (fapp pre (FCons a t wire tl))) (VRec (before ++ v :: after)) =
  to_bytes cu (TStruct c (fapp pre (FCons (at_offset (8 * (length bits / 8)) a) t wire tl))) (VRec (before ++ v :: after)).
Proof. exact output_offset. Qed.
Print Assumptions C63_output.

Theorem C63_variant_output : forall cu e idt vs k pre a t wire tl before v after bits, pre <> FNil \/ no_pattern vs k ->
  all_fields own_value pre -> length before = stored_count pre -> a_temp a = false ->
  writes_in_order cu (TEnum e idt (set_fields vs k (fapp pre (FCons (lead a) TUnit TUnit FNil)))) ->
  to_bits cu (TEnum e idt (set_fields vs k (fapp pre (FCons (lead a) TUnit TUnit FNil)))) (VVar k (before ++ [VUnit])) = Ok bits ->
  to_bits cu (TEnum e idt (set_fields vs k (fapp pre (FCons a t wire tl)))) (VVar k (before ++ v :: after)) =
  to_bits cu (TEnum e idt (set_fields vs k (fapp pre (FCons (at_offset (8 * (length bits / 8)) a) t wire tl)))) (VVar k (before ++ v :: after)) /\
  to_bytes cu (TEnum e idt (set_fields vs k (fapp pre (FCons a t wire tl)))) (VVar k (before ++ v :: after)) =
  to_bytes cu (TEnum e idt (set_fields vs k (fapp pre (FCons (at_offset (8 * (length bits / 8)) a) t wire tl)))) (VVar k (before ++ v :: after)).
Proof. exact output_variant_offset. Qed.
Print Assumptions C63_variant_output.
Example C63_case_variant_output : let a := asserting (fun _ _ off => off =? 24) plain in
  writes_in_order no_customs (Chosen (lead a) TUnit) /\
  to_bits no_customs (Chosen (lead a) TUnit) (VVar 1 ([VNum 258] ++ [VUnit])) = Ok (bits_of_bytes [x02; x02; x01]) /\
  to_bytes no_customs (Chosen a u8) (VVar 1 ([VNum 258] ++ [VNum 9])) = Ok [x02; x02; x01; x09].
Proof. split; [conditions|]. vm_compute. repeat split. Qed.

Definition third_byte (off : nat) : bool := off =? 16.
Example C63_case_output : let low := asserting (fun _ _ off => third_byte off) (padded 4 0 (bits 4 plain)) in
  to_bits no_customs (TStruct cplain (fapp (field (bits 4 plain) u8 (field plain u8 FNil)) (FCons (lead low) TUnit TUnit FNil))) (VRec ([VNum 10; VNum 18] ++ [VUnit])) =
    Ok (bits_of_bytes [xa1; x20]) /\
  to_bits no_customs (TStruct cplain (fapp (field (bits 4 plain) u8 (field plain u8 FNil)) (FCons low u8 u8 FNil))) (VRec ([VNum 10; VNum 18] ++ [VNum 5])) =
    Ok (bits_of_bytes [xa1; x20] ++ [false; true; false; true]).
Proof. vm_compute. repeat split. Qed.

(** So inside a byte it is not the bit offset, and an expression that holds for what was
    read may not hold when it is written again; deku::byte_offset agrees. *)
Theorem C63_write_refuted : exists input v,
  let Nibbles f := TStruct cplain (field (bits 4 plain) u8 (field (asserting (fun _ _ off => f off) (bits 4 plain)) u8 FNil)) in
  from_bytes no_customs 9 (Nibbles (fun off => off =? 4)) input 0 = Ok (([], 0), v) /\
  to_bytes no_customs (Nibbles (fun off => off =? 4)) v = Err Assertion /\
  to_bytes no_customs (Nibbles (fun off => off =? 0)) v = Ok input /\
  from_bytes no_customs 9 (Nibbles (fun off => off / 8 =? 0)) input 0 = Ok (([], 0), v) /\
  to_bytes no_customs (Nibbles (fun off => off / 8 =? 0)) v = Ok input.
Proof. exists [x5a], (VRec [VNum 5; VNum 10]). vm_compute. repeat split. Qed.
Print Assumptions C63_write_refuted.

(** Nor is it, or deku::byte_offset, the position in the output after a seek. *)
Theorem C63_write_seek_refuted : exists input v,
  from_bytes no_customs 9 (FromFour (fun off => off / 8 =? 5)) input 0 = Ok (([], 0), v) /\
  to_bytes no_customs (FromFour (fun off => off / 8 =? 5)) v = Err Assertion /\
  to_bytes no_customs (FromFour (fun off => off / 8 =? 1)) v = Ok input.
Proof. exists [x00; x00; x00; x00; x04; x05], (VRec [VNum 4; VNum 5]). vm_compute. repeat split. Qed.
Print Assumptions C63_write_seek_refuted.
