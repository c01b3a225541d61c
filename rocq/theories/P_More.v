(** Input that arrives in pieces, C48.

    Vocabulary: [MoreSpec.v] ([blind_to_end], [unaffected]), [AwaitSpec.v] ([awaits]: hand-written
    readers that return at the first error). *)
From Coq Require Import Lia.
From Verif Require Import Base Stream Reader Writer Prims Containers Derive DeriveSpec MoreSpec MoreFacts NeedSpec AwaitSpec AwaitFacts P_Derive.

(** A value read from the input available so far is the value read from any longer
    input, and the same is left over. *)
Theorem C48_success : forall cu fuel t input more bit rest k v, blind_to_end more cu t ->
  from_bytes cu fuel t input bit = Ok ((rest, k), v) -> from_bytes cu fuel t (input ++ more) bit = Ok ((rest ++ more, k), v).
Proof. exact more_success. Qed.
Print Assumptions C48_success.
(** Only [Incomplete] can be cured by more input. *)
Theorem C48_failure : forall cu fuel t input more bit e, blind_to_end more cu t -> (forall n, e <> Incomplete n) ->
  from_bytes cu fuel t input bit = Err e -> from_bytes cu fuel t (input ++ more) bit = Err e.
Proof. exact more_failure. Qed.
Print Assumptions C48_failure.
(** The same for a reader in any state on any source, failing ones included. *)
Theorem C48_reader : forall more cu fuel t lim args, blind_to_end more cu t -> lim <> Some LEnd ->
  unaffected more (read_ty cu fuel t lim args).
Proof. exact derived_more. Qed.
Print Assumptions C48_reader.
(** Once something other than [Incomplete] has been returned, all longer inputs agree. *)
Theorem C48_decided : forall cu fuel t input more1 more2 bit x, (forall m, blind_to_end m cu t) ->
  from_bytes cu fuel t input bit = x -> (forall n, x <> Err (Incomplete n)) -> x <> Panic -> x <> Diverge ->
  match from_bytes cu fuel t (input ++ more1) bit, from_bytes cu fuel t (input ++ more2) bit with
  | Ok (_, v1), Ok (_, v2) => v1 = v2
  | Err e1, Err e2 => e1 = e2
  | _, _ => False
  end.
Proof. exact more_decided. Qed.
Print Assumptions C48_decided.
Example C48_case : (forall more, blind_to_end more no_customs Packet) /\
  (exists n, from_bytes no_customs 50 Packet (firstn 13 packet_bytes) 0 = Err (Incomplete n)) /\
  from_bytes no_customs 50 Packet packet_bytes 0 = Ok (([], 0), packet) /\
  from_bytes no_customs 50 Packet (packet_bytes ++ [x01; x02]) 0 = Ok (([x01; x02], 0), packet) /\
  from_bytes no_customs 50 Packet [x44; x4c] 0 = Err Parse.
Proof.
  split; [|repeat split; try (vm_compute; reflexivity); eexists; vm_compute; reflexivity].
  intros more. unfold blind_to_end. cbn. repeat split; auto; discriminate.
Qed.

(** Hand-written readers that return at the first error and do not ask for the end are
    unaffected, as [blind_to_end] wants them. *)
Theorem C48_by_hand : forall A m, awaits A m -> forall more, unaffected more m.
Proof. exact awaits_unaffected. Qed.
Print Assumptions C48_by_hand.
(** struct Framed { tag: u8, body: Body }, where Body reads its length in four bits, skips four, and
    reads that many bytes by hand. *)
Definition body_read : RM value :=
  let* l := read_bits_into 4 Msb0 in let* _ := skip_bits 4 Msb0 in
  let* bs := read_bytes (N.to_nat (bits2N l)) 15 Msb0 in if (14 <? bits2N l)%N then fail Parse else ret (VNum (from_be bs)).
Definition bodies (k : nat) : custom := mkCustom (fun _ => body_read) (fun _ _ => ret tt).
Definition Framed : ty := TStruct cplain (field plain u8 (field plain (TCustom 0) FNil)).
Lemma body_awaits : awaits value body_read.
Proof.
  apply aw_bind; [apply aw_bits|intros l]. apply aw_bind; [apply aw_skip|intros _]. apply aw_bind; [apply aw_bytes|intros bs].
  destruct (_ <? _)%N; [now apply (aw_end value (Err Parse))|now apply (aw_end value (Ok _))].
Qed.
Example C48_case_by_hand : (forall more, blind_to_end more bodies Framed) /\
  (exists n, from_bytes bodies 9 Framed [x01; x20; x03] 0 = Err (Incomplete n)) /\
  from_bytes bodies 9 Framed [x01; x20; x03; x04] 0 = Ok (([], 0), VRec [VNum 1; VNum 772]) /\
  from_bytes bodies 9 Framed [x01; x20; x03; x04; x05] 0 = Ok (([x05], 0), VRec [VNum 1; VNum 772]).
Proof.
  split; [|split; [eexists; vm_compute; reflexivity|split; vm_compute; reflexivity]].
  intros more. unfold blind_to_end. cbn. repeat split; auto; try discriminate; intros; now apply C48_by_hand, body_awaits.
Qed.
(** One that asks [end()] is affected. *)
Definition ends_here : RM value := fun r => let '(b, r') := r_end r in (Ok (VBool b), r').
Theorem C48_end_call_refuted : exists more r, ~ unaffected more ends_here /\ fst (ends_here r) = Ok (VBool true) /\ fst (ends_here (r_more more r)) = Ok (VBool false).
Proof.
  exists [x01], (reader_new (cursor [])). split; [|split; reflexivity]. intros H. specialize (H (reader_new (cursor []))). vm_compute in H. discriminate.
Qed.
Print Assumptions C48_end_call_refuted.
(** So is one that takes [Incomplete] for an answer: if let Ok(n) = u16::from_reader_with_ctx(..) { n } else { 0 }. *)
Definition or_zero : RM value := fun r => match prim_read (PU 2) C0 r with (Ok n, r') => (Ok (VNum n), r') | (Err _, r') => (Ok (VNum 0), r') | (Panic, r') => (Panic, r') | (Diverge, r') => (Diverge, r') end.
Theorem C48_catch_refuted : exists more r, ~ unaffected more or_zero /\ fst (or_zero r) = Ok (VNum 0) /\ fst (or_zero (r_more more r)) = Ok (VNum 513).
Proof.
  exists [x02], (reader_new (cursor [x01])). split; [|split; reflexivity]. intros H. specialize (H (reader_new (cursor [x01]))). vm_compute in H. discriminate.
Qed.
Print Assumptions C48_catch_refuted.

(** The exceptions are real: the end of input is part of what [read_all] and
    [seek_from_end] read. *)
Theorem C48_read_all_refuted : exists t input more v rest, from_bytes no_customs 9 t input 0 = Ok (rest, v) /\
  forall rest', from_bytes no_customs 9 t (input ++ more) 0 <> Ok (rest', v).
Proof.
  exists (TStruct cplain (field (limited FAll plain) (TVec KSlice 1 u8) FNil)), [x01], [x02], (VRec [VList [VNum 1]]), ([], 0).
  split; [vm_compute; reflexivity|]. intros rest'. vm_compute. discriminate.
Qed.
Print Assumptions C48_read_all_refuted.
Theorem C48_seek_end_refuted : exists t input more v rest, from_bytes no_customs 9 t input 0 = Ok (rest, v) /\
  forall rest', from_bytes no_customs 9 t (input ++ more) 0 <> Ok (rest', v).
Proof.
  exists (TStruct (mkC None None [] (Some (fun _ => Some (SeekEnd (-1)))) None) (field plain u8 FNil)), [x01], [x02], (VRec [VNum 1]), ([], 0).
  split; [vm_compute; reflexivity|]. intros rest'. vm_compute. discriminate.
Qed.
Print Assumptions C48_seek_end_refuted.
