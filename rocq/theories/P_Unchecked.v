(** Assertions only refuse, C76.

    Vocabulary: [UncheckedSpec.v] ([unchecked t]: the declaration [t] without the [assert] and
    [assert_eq] attributes of any field at any depth; [own_unchecked]: of the fields
    themselves; [passes]: the assertions hold of these values), [Derive.v] (the API). *)
From Coq Require Import Lia.
From Verif Require Import Base Spec Stream Reader Session Prims Containers ContainerSpec Derive DeriveSpec SafeSpec UncheckedSpec UncheckedFacts P_Derive P_Safe.

(** Reading from any source, failing ones included: the result, the number of bits and the
    state of the source are those without the assertions, or the error is [Assertion]. *)
Theorem C76_from_reader : forall cu fuel t s bit,
  from_reader cu fuel t s bit = from_reader cu fuel (unchecked t) s bit \/ fst (from_reader cu fuel t s bit) = Err Assertion.
Proof. exact unchecked_reader. Qed.
Print Assumptions C76_from_reader.
Theorem C76_from_bytes : forall cu fuel t input bit,
  from_bytes cu fuel t input bit = from_bytes cu fuel (unchecked t) input bit \/ from_bytes cu fuel t input bit = Err Assertion.
Proof. exact unchecked_from_bytes. Qed.
Print Assumptions C76_from_bytes.
Theorem C76_try_from : forall cu fuel t input,
  try_from cu fuel t input = try_from cu fuel (unchecked t) input \/ try_from cu fuel t input = Err Assertion.
Proof. exact unchecked_try_from. Qed.
Print Assumptions C76_try_from.
(** In the middle of a read, with any limit and context. *)
Theorem C76_reader : forall cu fuel t lim args r,
  read_ty cu fuel t lim args r = read_ty cu fuel (unchecked t) lim args r \/ fst (read_ty cu fuel t lim args r) = Err Assertion.
Proof. intros cu fuel. exact (proj1 (types_filter cu fuel)). Qed.
Print Assumptions C76_reader.
(** Writing. *)
Theorem C76_to_bytes : forall cu t v, to_bytes cu t v = to_bytes cu (unchecked t) v \/ to_bytes cu t v = Err Assertion.
Proof. exact unchecked_to_bytes. Qed.
Print Assumptions C76_to_bytes.
Theorem C76_to_slice : forall cu t v buf, to_slice cu t v buf = to_slice cu (unchecked t) v buf \/ fst (to_slice cu t v buf) = Err Assertion.
Proof. exact unchecked_to_slice. Qed.
Print Assumptions C76_to_slice.
Theorem C76_to_bits : forall cu t v, to_bits cu t v = to_bits cu (unchecked t) v \/ to_bits cu t v = Err Assertion.
Proof. exact unchecked_to_bits. Qed.
Print Assumptions C76_to_bits.
Theorem C76_writer : forall cu t args v w,
  write_ty cu t args v w = write_ty cu (unchecked t) args v w \/ fst (write_ty cu t args v w) = Err Assertion.
Proof. intros cu. exact (proj1 (writes_filter cu)). Qed.
Print Assumptions C76_writer.
(** The other way: values that pass the assertions of a struct are not refused by them. *)
Theorem C76_passes : forall cu fuel c fs args l r r', read_ty cu fuel (TStruct c (own_unchecked fs)) None args r = (Ok (VRec l), r') ->
  passes (ctx_args c args) fs [] l -> read_ty cu fuel (TStruct c fs) None args r = (Ok (VRec l), r').
Proof. exact struct_passes. Qed.
Print Assumptions C76_passes.
Theorem C76_write_passes : forall cu c fs args l w, passes (ctx_args c args) fs [] l ->
  write_ty cu (TStruct c fs) args (VRec l) w = write_ty cu (TStruct c (own_unchecked fs)) args (VRec l) w.
Proof. exact struct_write_passes. Qed.
Print Assumptions C76_write_passes.

(** The checksum of [Packet] of [P_Derive.v] has to be less than 16. *)
Example C76_case : let last13 := firstn 13 packet_bytes in
  from_bytes no_customs 200 Packet (last13 ++ [x80]) 0 = Err Assertion /\
  from_bytes no_customs 200 (unchecked Packet) (last13 ++ [x80]) 0 =
    Ok (([], 0), VRec [VNum 2; VNum 0xabc; VList [VNum 0x1122; VNum 0x3344]; VSome (VNum 9); VVar 2 [VNum 12; VNum 0x77]; VNum 16]) /\
  from_bytes no_customs 200 Packet packet_bytes 0 = from_bytes no_customs 200 (unchecked Packet) packet_bytes 0 /\
  from_bytes no_customs 200 Packet packet_bytes 0 = Ok (([], 0), packet).
Proof. cbv zeta. split; [vm_compute; reflexivity|]. split; [vm_compute; reflexivity|]. split; vm_compute; reflexivity. Qed.
Definition packet16 : value := VRec [VNum 2; VNum 0xabc; VList [VNum 0x1122; VNum 0x3344]; VSome (VNum 9); VVar 2 [VNum 12; VNum 0x77]; VNum 16].
Example C76_case_write : to_bytes no_customs Packet packet16 = Err Assertion /\
  to_bytes no_customs (unchecked Packet) packet16 = Ok (firstn 13 packet_bytes ++ [x80]).
Proof. split; vm_compute; reflexivity. Qed.
Example C76_case_passes : exists c fs l, Packet = TStruct c fs /\ packet = VRec l /\ passes (ctx_args c []) fs [] l /\
  ~ passes (ctx_args c []) fs [] (firstn 5 l ++ [VNum 16]).
Proof.
  do 3 eexists. split; [reflexivity|]. split; [reflexivity|]. split.
  - cbn. repeat (split; [intros; reflexivity|]). exact I.
  - cbn. intros (_ & _ & H). destruct (H VUnit) as (_ & _ & _ & _ & K & _). specialize (K 0). vm_compute in K. discriminate.
Qed.
