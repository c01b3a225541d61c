(** More fields at the end, C78.

    Vocabulary: [GrowSpec.v] ([longer]: the new version of a struct or enum has more fields
    at the end; [grown_value]: a value with more fields; [right_number]: a value with as many
    fields as the declaration keeps). *)
From Verif Require Import Base Spec Stream Reader Session Writer WSession Prims CodecSpec Containers ContainerSpec Derive DeriveSpec GrowSpec GrowFacts P_Derive P_Streams P_Msgs.

(** Reading, from any source, failing ones included: where the old version fails, the new one
    fails alike and at the same place; where the new version reads a value, the old version
    reads the old part of it. *)
Theorem C78_from_reader : forall cu fuel t t' s bit, longer t t' ->
  match from_reader cu fuel t s bit with
  | (Ok (_, v), _) => match from_reader cu fuel t' s bit with (Ok (_, v'), _) => grown_value v v' | _ => True end
  | x => from_reader cu fuel t' s bit = x
  end.
Proof. exact longer_from_reader. Qed.
Print Assumptions C78_from_reader.
Theorem C78_from_bytes : forall cu fuel t t' input bit p v p' v', longer t t' ->
  from_bytes cu fuel t input bit = Ok (p, v) -> from_bytes cu fuel t' input bit = Ok (p', v') -> grown_value v v'.
Proof. exact longer_from_bytes. Qed.
Print Assumptions C78_from_bytes.

(** Writing: the whole bytes of the old message are the first bytes of the new one; an error
    of the old part stays. *)
Theorem C78_to_bytes : forall cu t t' v v', longer t t' -> writes_in_order cu t' -> right_number t v -> grown_value v v' ->
  match to_bytes cu t v with
  | Ok bytes => forall bits bytes', to_bits cu t v = Ok bits -> to_bytes cu t' v' = Ok bytes' ->
      length bits / 8 <= length bytes' /\ firstn (length bits / 8) bytes' = firstn (length bits / 8) bytes
  | x => to_bytes cu t' v' = x
  end.
Proof. exact longer_to_bytes. Qed.
Print Assumptions C78_to_bytes.

(** struct Old { #[deku(bits = 4)] a: u8, #[deku(bits = 12)] b: u16 }; the new version has
    also c: u8 and #[deku(count = "c")] d: Vec<u8>. *)
Definition Old : ty := TStruct big (field (bits 4 plain) u8 (field (bits 12 plain) u16 FNil)).
Definition New : ty := TStruct big (field (bits 4 plain) u8 (field (bits 12 plain) u16
  (field plain u8 (field (limited (FCount (fun _ fs _ => Z.of_N (nth_num fs 2))) plain) (TVec KVec 1 u8) FNil)))).
Definition old_value : value := VRec [VNum 1; VNum 0x234].
Definition new_value : value := VRec [VNum 1; VNum 0x234; VNum 2; VList [VNum 0x56; VNum 0x78]].
Example C78_case : longer Old New /\ writes_in_order no_customs New /\ right_number Old old_value /\ grown_value old_value new_value /\
  to_bytes no_customs Old old_value = Ok [x12; x34] /\ to_bytes no_customs New new_value = Ok [x12; x34; x02; x56; x78] /\
  from_bytes no_customs 100 Old [x12; x34; x02; x56; x78] 0 = Ok (([x02; x56; x78], 0), old_value) /\
  from_bytes no_customs 100 New [x12; x34; x02; x56; x78] 0 = Ok (([], 0), new_value) /\
  from_bytes no_customs 100 New [x12; x34] 0 = Err (Incomplete 8).
Proof.
  split.
  { refine (longer_struct big (field (bits 4 plain) u8 (field (bits 12 plain) u16 FNil)) (field plain u8 (field (limited (FCount (fun _ fs _ => Z.of_N (nth_num fs 2))) plain) (TVec KVec 1 u8) FNil)) _).
    repeat split; discriminate. }
  split; [conditions|]. split; [reflexivity|]. split; [exists [VNum 2; VList [VNum 0x56; VNum 0x78]]; reflexivity|].
  split; [vm_compute; reflexivity|]. split; [vm_compute; reflexivity|]. split; [vm_compute; reflexivity|].
  split; vm_compute; reflexivity.
Qed.

(** [TryFrom] of the old version refuses new messages. *)
Theorem C78_try_from_refuted : exists t t' v' bytes, longer t t' /\ to_bytes no_customs t' v' = Ok bytes /\
  try_from no_customs 100 t' bytes = Ok v' /\ try_from no_customs 100 t bytes = Err Parse.
Proof.
  exists Old, New, new_value, [x12; x34; x02; x56; x78]. split; [exact (proj1 C78_case)|].
  split; [vm_compute; reflexivity|]. split; vm_compute; reflexivity.
Qed.
Print Assumptions C78_try_from_refuted.
(** Inside another struct the new fields are taken for what follows. *)
Theorem C78_nested_refuted : exists t t' v' bytes rest v, longer t t' /\
  let inside := fun t => TStruct big (field plain t (field plain u8 FNil)) in
  to_bytes no_customs (inside t') v' = Ok bytes /\ from_bytes no_customs 100 (inside t) bytes 0 = Ok (rest, v) /\
  v' = VRec [new_value; VNum 9] /\ v = VRec [old_value; VNum 2].
Proof.
  exists Old, New, (VRec [new_value; VNum 9]), [x12; x34; x02; x56; x78; x09], ([x56; x78; x09], 0), (VRec [old_value; VNum 2]).
  split; [exact (proj1 C78_case)|]. cbv zeta. split; [vm_compute; reflexivity|]. split; [vm_compute; reflexivity|]. split; reflexivity.
Qed.
Print Assumptions C78_nested_refuted.
