(** Messages put one behind another, C81.

    Vocabulary: [DeriveSpec.v] ([encode]: the format of a type) and [PrefixSpec.v]
    ([message]: the bytes of a value that the format has a place for). *)
From Coq Require Import Lia.
From Verif Require Import Base Stream Reader Writer CodecSpec Containers ContainerSpec Derive DeriveSpec PrefixSpec PrefixFacts P_Derive.

(** No message starts with the message of another value, and one value has one message. *)
Theorem C81_prefix : forall cu ce o t v w a b s s', customs_lawful SeekSource o cu ce -> message cu ce o t v a -> message cu ce o t w b ->
  a ++ s = b ++ s' -> v = w /\ a = b /\ s = s'.
Proof. exact prefix_free_messages. Qed.
Print Assumptions C81_prefix.
(** So there is one way to take messages put one behind another apart, if they are not
    empty. *)
Theorem C81_one_reading : forall cu ce o t, customs_lawful SeekSource o cu ce -> forall vs ws as_ bs,
  Forall2 (message cu ce o t) vs as_ -> Forall2 (message cu ce o t) ws bs -> ~ In [] as_ -> ~ In [] bs ->
  concat as_ = concat bs -> vs = ws /\ as_ = bs.
Proof. exact one_reading. Qed.
Print Assumptions C81_one_reading.
Theorem C81_empty_refuted : exists t vs ws as_ bs, Forall2 (message no_customs no_format Msb0 t) vs as_ /\ Forall2 (message no_customs no_format Msb0 t) ws bs /\
  concat as_ = concat bs /\ vs <> ws.
Proof.
  exists (TStruct cplain FNil), [], [VRec []], [], [[]]. split; [constructor|]. split; [|split; [reflexivity|discriminate]].
  constructor; [|constructor]. split; [eexists|]; vm_compute; reflexivity.
Qed.
Print Assumptions C81_empty_refuted.
(** A vector that takes all of the input has no end of its own:
      struct Rest { #[deku(read_all)] bytes: Vec<u8> } *)
Definition Rest : ty := TStruct cplain (field (limited FAll plain) (TVec KVec 1 u8) FNil).
Theorem C81_read_all_refuted : exists v w a s, to_bytes no_customs Rest v = Ok a /\ to_bytes no_customs Rest w = Ok (a ++ s) /\
  try_from no_customs 99 Rest a = Ok v /\ try_from no_customs 99 Rest (a ++ s) = Ok w /\ v <> w.
Proof.
  exists (VRec [VList [VNum 1]]), (VRec [VList [VNum 1; VNum 2]]), [x01], [x02].
  split; [vm_compute; reflexivity|]. split; [vm_compute; reflexivity|]. split; [vm_compute; reflexivity|]. split; [vm_compute; reflexivity|]. discriminate.
Qed.
Print Assumptions C81_read_all_refuted.

(** Lists of packets of [P_Derive.v], and of names of different lengths that end with a
    zero byte and 4 unused bits:
      struct Name { #[deku(bits = 4)] kind: u8, name: CString } *)
Definition Name : ty := TStruct cplain (field (bits 4 plain) u8 (field plain TCString FNil)).
Definition a_name (k : N) (s : list N) : value := VRec [VNum k; VList (map VNum s)].
Example C81_case : customs_lawful SeekSource Msb0 no_customs no_format /\
  Forall2 (message no_customs no_format Msb0 Packet) [packet; packet] [packet_bytes; packet_bytes] /\ ~ In [] [packet_bytes; packet_bytes] /\
  Forall2 (message no_customs no_format Msb0 Name) [a_name 1 []; a_name 2 [0x61; 0x62]%N; a_name 3 [0x63]%N] [[x10; x00]; [x26; x16; x20; x00]; [x36; x30; x00]].
Proof.
  split; [discriminate|]. split; [repeat constructor; try (eexists; vm_compute; reflexivity)|]. split; [intros [E|[E|[]]]; discriminate E|].
  repeat constructor; try (eexists; vm_compute; reflexivity); vm_compute; reflexivity.
Qed.
