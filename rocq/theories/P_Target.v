(** Machines of different byte orders, C70. *)
From Verif Require Import Base Spec Stream Reader Writer Prims Containers Derive DeriveSpec Decl PlainSpec Target TargetSpec TargetProps.

(** On a little-endian machine everything is as in the other theorems. *)
Theorem C70_little : forall cu fuel t,
  (forall s bit, t_from_reader Little cu fuel t s bit = from_reader cu fuel t s bit) /\
  (forall input bit, t_from_bytes Little cu fuel t input bit = from_bytes cu fuel t input bit) /\
  (forall input, t_try_from Little cu fuel t input = try_from cu fuel t input).
Proof. exact little_input. Qed.
Print Assumptions C70_little.
Theorem C70_little_output : forall cu t v,
  t_to_bytes Little cu t v = to_bytes cu t v /\ t_to_bits Little cu t v = to_bits cu t v /\
  forall buf, t_to_slice Little cu t v buf = to_slice cu t v buf.
Proof. exact little_output. Qed.
Print Assumptions C70_little_output.

(** If every number is a single byte or has its byte order given, two machines read the
    same from the same source ... *)
Theorem C70_portable : forall cu e1 e2 fuel t, portable t -> api_readers cu t ->
  (forall s bit, (forall k, s_fault s k = None) -> t_from_reader e1 cu fuel t s bit = t_from_reader e2 cu fuel t s bit) /\
  (forall input bit, t_from_bytes e1 cu fuel t input bit = t_from_bytes e2 cu fuel t input bit) /\
  (forall input, t_try_from e1 cu fuel t input = t_try_from e2 cu fuel t input).
Proof. exact portable_input. Qed.
Print Assumptions C70_portable.
(** ... and write the same. *)
Theorem C70_portable_output : forall cu e1 e2 t v, portable t ->
  t_to_bytes e1 cu t v = t_to_bytes e2 cu t v /\ t_to_bits e1 cu t v = t_to_bits e2 cu t v /\
  forall buf, t_to_slice e1 cu t v buf = t_to_slice e2 cu t v buf.
Proof. exact portable_output. Qed.
Print Assumptions C70_portable_output.

(** struct Message (endian = "big") {
      length: u16,
      kind: i8,
      #[deku(count = "length", endian = "little")] items: Vec<u16>
    } *)
Definition no_attr : fattrs := fattrs_of (field_decl (mkP None None One [] 0 0)) VNone.
Definition items_attr : fattrs := fattrs_of (field_decl (mkP (Some Little) None (Many 0 2) [] 0 0)) VNone.
Definition container (e : option endian) : cattrs := mkC (option_map (fun e _ _ => e) e) None [] None None.
Definition Message : ty :=
  TStruct (container (Some Big)) (FCons no_attr (TPrim (PU 2)) (TPrim (PU 2)) (FCons no_attr (TPrim (PI 1)) (TPrim (PI 1))
    (FCons items_attr (TVec KVec 2 (TPrim (PU 2))) (TVec KVec 2 (TPrim (PU 2))) FNil))).
Definition message : value := VRec [VNum 2; VNum 255; VList [VNum 0x1234; VNum 0x5678]].
Example C70_portable_case :
  portable Message /\ api_readers no_customs Message /\
  t_from_bytes Big no_customs 100 Message [x00; x02; xff; x34; x12; x78; x56; x99] 0 = Ok (([x99], 0), message) /\
  t_to_bytes Big no_customs Message message = Ok [x00; x02; xff; x34; x12; x78; x56].
Proof.
  split; [|split; [|split; vm_compute; reflexivity]].
  - assert (H : forall p e l, single_byte p (VEnd e :: l) \/ gives_order (VEnd e :: l)) by (intros p e l; right; exists e; now left).
    repeat split; apply H.
  - repeat split; intros f H; discriminate H.
Qed.

(** Without byte orders they differ. *)
Theorem C70_machine_dependent_refuted : exists t v input,
  t_to_bytes Little no_customs t v = Ok input /\ t_to_bytes Big no_customs t v <> Ok input /\
  t_try_from Little no_customs 100 t input = Ok v /\ t_try_from Big no_customs 100 t input <> Ok v.
Proof.
  exists (TStruct (container None) (FCons no_attr (TPrim (PU 2)) (TPrim (PU 2)) FNil)), (VRec [VNum 1]), [x01; x00].
  repeat split; vm_compute; discriminate || reflexivity.
Qed.
Print Assumptions C70_machine_dependent_refuted.
(** The byte order of an enum is not that of an id stored by [id_pat] (see C28): it is
    written in the order of the machine, and what a big-endian machine writes is not
    what it reads. *)
Theorem C70_stored_id_refuted : exists e input v,
  en_c e = container (Some Little) /\
  let t := TEnum e (TPrim (PU 2)) (VCons (mkV (SPat (fun _ => true) None) false) (FCons no_attr (TPrim (PU 2)) (TPrim (PU 2)) FNil) VNil) in
  t_try_from Little no_customs 100 t input = Ok v /\ t_to_bytes Little no_customs t v = Ok input /\
  t_try_from Big no_customs 100 t input = Ok v /\ t_to_bytes Big no_customs t v <> Ok input.
Proof.
  exists (mkE (container (Some Little)) None None None None), [x01; x00], (VVar 0 [VNum 1]).
  repeat split; vm_compute; discriminate || reflexivity.
Qed.
Print Assumptions C70_stored_id_refuted.

(** ** Plain declarations

    Without byte orders, a declaration on a machine is the declaration with the byte
    order of the machine filled in; that is portable ... *)
Theorem C70_spelled : forall e0 t, plain_type t = true -> apart t = true ->
  plain_type (spelled e0 t) = true /\ portable (ctype (spelled e0 t)) /\ unpadded (spelled e0 t) = unpadded t /\
  forall v, value_fits None (spelled e0 t) v = value_fits None t v.
Proof. exact spelled_kept. Qed.
Print Assumptions C70_spelled.
(** ... writes the same on any machine ... *)
Theorem C70_spelled_output : forall cu e0 e1 t v, plain_type t = true -> apart t = true ->
  t_to_bytes e0 cu (ctype t) v = t_to_bytes e1 cu (ctype (spelled e0 t)) v /\
  t_to_bits e0 cu (ctype t) v = t_to_bits e1 cu (ctype (spelled e0 t)) v /\
  forall buf, t_to_slice e0 cu (ctype t) v buf = t_to_slice e1 cu (ctype (spelled e0 t)) v buf.
Proof. exact spelled_output. Qed.
Print Assumptions C70_spelled_output.
(** ... and reads the same, with the same errors. *)
Theorem C70_spelled_input : forall cu e0 e1 fuel t, plain_type t = true -> apart t = true ->
  (forall s bit, (forall k, s_fault s k = None) ->
     fst (t_from_reader e0 cu fuel (ctype t) s bit) = fst (t_from_reader e1 cu fuel (ctype (spelled e0 t)) s bit)) /\
  (forall input bit, t_from_bytes e0 cu fuel (ctype t) input bit = t_from_bytes e1 cu fuel (ctype (spelled e0 t)) input bit) /\
  (forall input, t_try_from e0 cu fuel (ctype t) input = t_try_from e1 cu fuel (ctype (spelled e0 t)) input).
Proof. exact spelled_input. Qed.
Print Assumptions C70_spelled_input.
(** The format (C57) on any machine. *)
Theorem C70_format : forall cu e0 t v, plain_type t = true -> apart t = true -> value_fits None t v = true ->
  t_to_bits e0 cu (ctype t) v = Ok (wire None None (spelled e0 t) v) /\
  exists bytes pad, t_to_bytes e0 cu (ctype t) v = Ok bytes /\
    bits_of_bytes bytes = wire None None (spelled e0 t) v ++ repeat false pad /\ pad < 8.
Proof. exact machine_format. Qed.
Print Assumptions C70_format.
Theorem C70_try_from : forall cu e0 fuel t input v, plain_type t = true -> apart t = true -> unpadded t = true -> 8 * length input + 8 < fuel ->
  (t_try_from e0 cu fuel (ctype t) input = Ok v <-> value_fits None t v = true /\ bits_of_bytes input = wire None None (spelled e0 t) v).
Proof. exact machine_try. Qed.
Print Assumptions C70_try_from.

(** struct Packet {
      count: u16,
      #[deku(count = "count")] marks: Vec<[u16; 2]>,
      #[deku(bits = 24)] size: u32,
      kind: Kind,
      #[deku(endian = "big")] crc: u16
    }
    #[deku(id_type = "u16")]
    enum Kind { #[deku(id = "258")] Data(NonZeroU16), #[deku(id = "1")] End } *)
Definition one (e : option endian) (b : option nat) (k : pkind) : pattrs := mkP e b k [] 0 0.
Definition Kind : pty := PEnum [] (PU 2) None None (PVCons 258 (PCons (one None None One) (PNonZero (PU 2)) PNil) (PVCons 1 PNil PVNil)).
Definition Packet : pty :=
  PStruct [] (PCons (one None None One) (PInt (PU 2)) (PCons (one None None (Many 0 4)) (PArray 2 (PInt (PU 2)))
    (PCons (one None (Some 24) One) (PInt (PU 4)) (PCons (one None None One) Kind (PCons (one (Some Big) None One) (PInt (PU 2)) PNil))))).
Definition packet : value := VRec [VNum 1; VList [VList [VNum 0x1234; VNum 0x5678]]; VNum 0xabcdef; VVar 0 [VNum 7]; VNum 0x0102].
Definition big_packet : list byte := [x00; x01; x12; x34; x56; x78; xab; xcd; xef; x01; x02; x00; x07; x01; x02].
Definition little_packet : list byte := [x01; x00; x34; x12; x78; x56; xef; xcd; xab; x02; x01; x07; x00; x01; x02].
Example C70_spelled_case :
  plain_type Packet = true /\ apart Packet = true /\ unpadded Packet = true /\ value_fits None Packet packet = true /\
  t_to_bytes Big no_customs (ctype Packet) packet = Ok big_packet /\ t_try_from Big no_customs 300 (ctype Packet) big_packet = Ok packet /\
  t_to_bytes Little no_customs (ctype Packet) packet = Ok little_packet /\
  t_try_from Little no_customs 300 (ctype (spelled Big Packet)) big_packet = Ok packet /\
  bits_of_bytes big_packet = wire None None (spelled Big Packet) packet.
Proof. repeat split; vm_compute; reflexivity. Qed.
