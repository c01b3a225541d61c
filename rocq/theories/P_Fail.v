(** Sinks that fail, C77.

    Vocabulary: [FailSpec.v] ([all_calls_succeeded], [last_call_failed]: the calls of the sink
    between two of its states), [MsgSpec.v] ([send]: [to_writer], then [finalize]),
    [Stream.v] ([overlay]; a sink with its contents, position, size and the calls that fail,
    each with an error and the number of bytes it takes before). *)
From Coq Require Import Lia.
From Verif Require Import Base Spec Stream Reader Session Writer WSession Prims CodecSpec Containers ContainerSpec Derive DeriveSpec MsgSpec MsgsOut FailSpec FailFacts P_Derive P_Streams P_Msgs.

(** Whatever calls of the sink fail: it holds a prefix of the bytes of [to_bytes] over what was
    there.  Either all of them, the result is [Ok] and no call failed; or the result is the
    error of a failed call, after which no call was made; or the sink has a fixed size, is
    full, and the error is [WriteZero].  If [to_bytes] has an error, this is the result or
    again one of the last two. *)
Theorem C77_send : forall k cu t v, writes_in_order cu t -> (k_fixed k = true -> k_pos k <= length (k_data k)) ->
  let '(x, k') := send cu t v k in
  let stopped := fun n => exists e, x = Err (Io e) /\
    (last_call_failed k k' e \/ (k_fixed k = true /\ all_calls_succeeded k k' /\ e = WriteZero /\ n = length (k_data k) - k_pos k)) in
  match to_bytes cu t v with
  | Ok bytes => exists n, k_data k' = overlay (k_data k) (k_pos k) (firstn n bytes) /\
      ((x = Ok tt /\ n = length bytes /\ k_pos k' = k_pos k + n /\ all_calls_succeeded k k') \/ (n <= length bytes /\ stopped n))
  | y => x = res_map y (fun _ => tt) \/ stopped (length (k_data k) - k_pos k)
  end.
Proof. exact send_any. Qed.
Print Assumptions C77_send.

(** Two bytes of four are stored, the third call fails after taking nothing. *)
Definition failing (e : iokind) (j n : nat) (k : sink) : sink :=
  {| k_data := k_data k; k_pos := k_pos k; k_fixed := k_fixed k; k_noseek := k_noseek k;
     k_fault := fun i => if i =? j then Some (e, n) else k_fault k i; k_calls := k_calls k |}.
Definition Four : ty := TStruct big (field (bits 4 plain) u8 (field (bits 12 plain) u16 (field plain u16 FNil))).
Example C77_case : writes_in_order no_customs Four /\
  to_bytes no_customs Four (VRec [VNum 1; VNum 0x234; VNum 0x5678]) = Ok [x12; x34; x56; x78] /\
  (let '(x, k) := send no_customs Four (VRec [VNum 1; VNum 0x234; VNum 0x5678]) (failing (OtherKind 7) 2 1 (sink_at 1 false (repeat xee 6))) in
   x = Err (Io (OtherKind 7)) /\ k_data k = [xee; x12; x34; x56; xee; xee] /\ k_calls k = 3) /\
  (let '(x, k) := send no_customs Four (VRec [VNum 1; VNum 0x234; VNum 0x5678]) (failing (OtherKind 7) 3 1 (sink_at 1 false (repeat xee 6))) in
   x = Ok tt /\ k_data k = [xee; x12; x34; x56; x78; xee] /\ k_calls k = 3).
Proof. split; [conditions|]. split; [vm_compute; reflexivity|]. split; vm_compute; repeat split. Qed.
