(** Properties of the reader, C01-C10.

    Vocabulary: [Spec.v] (bit strings, sessions and what they must return),
    [Session.v] (running a session on the model; [reachable]; [seen]). *)
From Coq Require Import Lia Permutation.
From Verif Require Import Base Spec Stream Reader Session ReaderFacts FastRead SessionFacts FaultFacts ReaderProps.

(** A concrete session used in the examples: 3 bytes, unaligned reads, an end
    check in the middle. *)
Definition ex_data : list byte := [xb5; x3c; x0f].
Definition ex_ops (o : order) : list rop := [RBits 3 o; REnd; RBits 7 o; RBytes 1 o; RBits 6 o].

(** ** C01, C02: one bit order *)

Theorem C01_msb0_reads_follow_input : forall ops r xs r',
  reachable r -> (forall k, s_fault (r_s r) k = None) ->
  Forall (rop_in_order Msb0) ops ->
  run_session ops r = (Ok xs, r') ->
  length xs = length ops /\
  map (@length bool) (out_strings Msb0 ops xs) = map rop_size ops /\
  concat (out_strings Msb0 ops xs) = firstn (total ops) (unread_string Msb0 (seen r)) /\
  unread_string Msb0 (seen r') = skipn (total ops) (unread_string Msb0 (seen r)) /\
  total ops <= length (unread_string Msb0 (seen r)).
Proof. exact (one_order_session Msb0). Qed.
Print Assumptions C01_msb0_reads_follow_input.
Example C01_case : exists r', run_session (ex_ops Msb0 ++ []) (reader_new (cursor ex_data)) =
  (Ok [OBits [true; false; true]; OFlag false; OBits [true; false; true; false; true; false; false];
       OBytes [xf0]; OBits [false; false; true; true; true; true]], r') /\
  Forall (rop_in_order Msb0) (ex_ops Msb0) /\
  unread_string Msb0 (seen (reader_new (cursor ex_data))) = bitstring Msb0 ex_data.
Proof. eexists. split; [vm_compute; reflexivity|]. split; [repeat constructor|reflexivity]. Qed.

Theorem C02_lsb0_reads_follow_input : forall ops r xs r',
  reachable r -> (forall k, s_fault (r_s r) k = None) ->
  Forall (rop_in_order Lsb0) ops ->
  run_session ops r = (Ok xs, r') ->
  length xs = length ops /\
  map (@length bool) (out_strings Lsb0 ops xs) = map rop_size ops /\
  concat (out_strings Lsb0 ops xs) = firstn (total ops) (unread_string Lsb0 (seen r)) /\
  unread_string Lsb0 (seen r') = skipn (total ops) (unread_string Lsb0 (seen r)) /\
  total ops <= length (unread_string Lsb0 (seen r)).
Proof. exact (one_order_session Lsb0). Qed.
Print Assumptions C02_lsb0_reads_follow_input.
Example C02_case : exists r', run_session (ex_ops Lsb0) (reader_new (cursor ex_data)) =
  (Ok [OBits [true; false; true]; OFlag false; OBits [false; false; true; false; true; true; false];
       OBytes [xcf]; OBits [false; false; false; false; true; true]], r') /\
  Forall (rop_in_order Lsb0) (ex_ops Lsb0).
Proof. eexists. split; [vm_compute; reflexivity|]. repeat constructor. Qed.

(** ** C03: orders mixed freely *)

(** The reader is exactly the double-ended-queue reader of [Spec.v]: same
    results, same remaining input, and it fails exactly when the queue is short. *)
Theorem C03_mixed_orders_refine : forall ops r,
  reachable r -> (forall k, s_fault (r_s r) k = None) -> Forall rop_ok ops ->
  match spec_session ops (seen r) with
  | Some (xs, u') => exists r', run_session ops r = (Ok xs, r') /\ r_bits r' = r_bits r + total ops /\
      (forall o, unread_string o (seen r') = unread_string o u')
  | None => exists e r', run_session ops r = (Err (Incomplete e), r')
  end.
Proof. exact session_refines. Qed.
Print Assumptions C03_mixed_orders_refine.

(** No bit is lost or delivered twice. *)
Theorem C03_mixed_orders_conserve : forall ops r xs r',
  reachable r -> (forall k, s_fault (r_s r) k = None) ->
  run_session ops r = (Ok xs, r') ->
  Permutation (unread_bits (seen r)) (all_delivered ops xs ++ unread_bits (seen r')).
Proof. exact session_conserves. Qed.
Print Assumptions C03_mixed_orders_conserve.
Example C03_case : let ops := [RBits 2 Msb0; RBits 3 Lsb0; RBits 4 Msb0; RBytes 1 Lsb0; RBits 1 Msb0] in
  Forall rop_ok ops /\
  exists r', run_session ops (reader_new (cursor ex_data)) =
   (Ok [OBits [true; false]; OBits [true; false; true]; OBits [true; true; false; false];
        OBytes [xbc]; OBits [false]], r') /\ r_rest r' = [false; false; false; true; true; true].
Proof. split; [repeat constructor|]. eexists. split; vm_compute; reflexivity. Qed.

(** ** C04: the integer fast path *)

Theorem C04_fast_path_is_generic : forall amt r,
  reachable r -> (forall k, s_fault (r_s r) k = None) -> 1 <= amt <= 64 ->
  read_bits_uint_msb0 amt r = (let* l := read_bits amt Msb0 in ret (bits2N l)) r.
Proof. intros amt r Hr Hq Ha. exact (fast_read_generic amt r (reachable_wf r Hr) Hq Ha). Qed.
Print Assumptions C04_fast_path_is_generic.
Example C04_case : exists r', read_bits_uint_msb0 11 (snd (run_rop (RBits 3 Msb0) (reader_new (cursor ex_data))))
  = (Ok 1359%N, r') /\ r_rest r' = [false; false].
Proof. eexists. split; vm_compute; reflexivity. Qed.

(** ** C05: bits_read *)

(** Also on failing sources, and for callers that carry on after an error. *)
Theorem C05_bits_read_exact : forall ops r xs r',
  reachable r -> run_all ops r = (xs, r') ->
  r_bits r' = r_bits r + sum_ok ops xs.
Proof. intros ops r xs r' Hr. exact (run_all_bits ops r xs r' (reachable_wf r Hr)). Qed.
Print Assumptions C05_bits_read_exact.
Example C05_case : exists xs r',
  run_all [RBits 3 Lsb0; RBytes 9 Msb0; REnd; RBits 2 Msb0; RUint 5] (reader_new (cursor ex_data)) = (xs, r') /\
  xs = [Ok (OBits [true; false; true]); Err (Incomplete 72); Ok (OFlag true); Err (Incomplete 2); Err (Incomplete 5)] /\
  r_bits r' = 3.
Proof. eexists. eexists. split; [vm_compute; reflexivity|]. split; reflexivity. Qed.

(** ** C06: short input *)

(** Partial: byte reads of length zero are excluded ([rop_ok]), see below. *)
Theorem C06_short_input_partial : forall op r,
  reachable r -> (forall k, s_fault (r_s r) k = None) -> rop_ok op ->
  (rop_size op <= unread_len (seen r) -> exists x r', run_rop op r = (Ok x, r')) /\
  (unread_len (seen r) < rop_size op -> exists e r', run_rop op r = (Err (Incomplete e), r') /\
     0 < e <= rop_size op /\ ((forall b, r_left r <> Some (LByte b)) -> e = rop_size op)).
Proof. exact short_input. Qed.
Print Assumptions C06_short_input_partial.
Example C06_case : let r := snd (run_rop (RBits 3 Msb0) (reader_new (cursor ex_data))) in
  reachable r /\ unread_len (seen r) = 21 /\
  fst (run_rop (RBits 22 Msb0) r) = Err (Incomplete 22) /\ (exists l, fst (run_rop (RBits 21 Msb0) r) = Ok l).
Proof.
  split; [apply reach_rop, reach_new|]. repeat split; try (vm_compute; reflexivity). eexists. vm_compute. reflexivity.
Qed.
(** A peeked byte makes the reported size smaller than the request. *)
Example C06_peeked_size : let r := snd (run_rop REnd (reader_new (cursor [x00]))) in
  fst (run_rop (RBytes 3 Msb0) r) = Err (Incomplete 16).
Proof. vm_compute. reflexivity. Qed.

(** Reading zero bytes after [end()] panics although no input is needed. *)
Theorem C06_zero_byte_read_refuted : exists r o,
  reachable r /\ (forall k, s_fault (r_s r) k = None) /\
  rop_size (RBytes 0 o) <= unread_len (seen r) /\ fst (run_rop (RBytes 0 o) r) = Panic.
Proof.
  exists (snd (run_rop REnd (reader_new (cursor [x00])))), Msb0.
  split; [apply reach_rop, reach_new|]. split; [reflexivity|]. split; vm_compute; [repeat constructor|reflexivity].
Qed.
Print Assumptions C06_zero_byte_read_refuted.

(** ** C07: appended input *)

Theorem C07_appended_input : forall ops s more xs r',
  (forall k, s_fault s k = None) -> s_pos s <= length (s_data s) ->
  Forall rop_ok ops -> Forall is_read ops ->
  run_session ops (reader_new s) = (Ok xs, r') ->
  exists r2, run_session ops (reader_new (with_more s more)) = (Ok xs, r2) /\ r_bits r2 = r_bits r' /\
    (forall o, unread_string o (seen r2) = unread_string o (seen r') ++ bitstring o more).
Proof. exact more_input. Qed.
Print Assumptions C07_appended_input.
Example C07_case : let ops := [RBits 5 Lsb0; RUint 9; RBytes 1 Lsb0; RBits 2 Msb0] in
  Forall rop_ok ops /\ Forall is_read ops /\
  exists xs r', run_session ops (reader_new (cursor ex_data)) = (Ok xs, r') /\ seen r' = ([], []).
Proof.
  split; [repeat constructor; lia|]. split; [repeat constructor|]. eexists. eexists. split; vm_compute; reflexivity.
Qed.

(** ** C08: end() *)

Theorem C08_end_flag : forall r, reachable r -> (forall k, s_fault (r_s r) k = None) ->
  fst (r_end r) = (unread_len (seen r) =? 0).
Proof. exact end_flag. Qed.
Print Assumptions C08_end_flag.

(** Partial: the continuation consists of reads of at least one bit or byte; skips
    and zero-byte reads are refuted below; after a failure the reported size may
    differ ([C06_peeked_size]). *)
Theorem C08_end_transparent_partial : forall ops r,
  reachable r -> (forall k, s_fault (r_s r) k = None) -> Forall rop_ok ops ->
  match run_session ops r, run_session (drop_ends ops) r with
  | (Ok xs, r1), (Ok ys, r2) => drop_flags xs = ys /\ r_bits r1 = r_bits r2 /\
      (forall o, unread_string o (seen r1) = unread_string o (seen r2))
  | (Err (Incomplete _), _), (Err (Incomplete _), _) => True
  | _, _ => False
  end.
Proof. exact end_transparent. Qed.
Print Assumptions C08_end_transparent_partial.
Example C08_case : let ops := [REnd; RBits 8 Lsb0; REnd; RUint 4; REnd; RBytes 1 Lsb0; RBits 4 Msb0; REnd] in
  Forall rop_ok ops /\
  exists r', run_session ops (reader_new (cursor ex_data)) =
    (Ok [OFlag false; OBits (byte_bits xb5); OFlag false; ONum 3; OFlag false; OBytes [xfc]; OBits [false; false; false; false];
         OFlag true], r').
Proof. split; [repeat constructor; lia|]. eexists. vm_compute. reflexivity. Qed.

(** [end()] changes a later skip: the peeked byte is not counted. *)
Theorem C08_end_then_skip_refuted : exists data n o,
  let r := reader_new (cursor data) in
  fst ((let* _ := skip_bits n o in read_bytes 1 1 o) r) <>
  fst ((let* _ := run_rop REnd in let* _ := skip_bits n o in read_bytes 1 1 o) r) /\
  8 * length data >= n + 8.
Proof. exists [x01; x02; x03], 8, Msb0. split; [vm_compute; discriminate|cbn; lia]. Qed.
Print Assumptions C08_end_then_skip_refuted.
(** [end()] changes a later read of zero bytes into a panic. *)
Theorem C08_end_then_empty_read_refuted : exists data o,
  let r := reader_new (cursor data) in
  fst (run_session [RBytes 0 o] r) = Ok [OBytes []] /\ fst (run_session [REnd; RBytes 0 o] r) = Panic.
Proof. exists [x01], Msb0. split; vm_compute; reflexivity. Qed.
Print Assumptions C08_end_then_empty_read_refuted.

(** ** C09: skipping *)

(** Partial: a seekable source read from position 0, enough input, and no whole
    byte skipped while a byte is peeked; each condition is needed, see below. *)
Theorem C09_skip_is_read_partial : forall ops s xs r n o l r1 later,
  (forall k, s_fault s k = None) -> s_pos s = 0 -> s_noseek s = None -> Forall rop_ok ops ->
  run_session ops (reader_new s) = (Ok xs, r) ->
  (n < 8 \/ forall b, r_left r <> Some (LByte b)) ->
  read_bits n o r = (Ok l, r1) -> Forall rop_ok later ->
  exists r2, skip_bits n o r = (Ok tt, r2) /\ r_bits r2 = r_bits r1 /\
    (forall o', unread_string o' (seen r2) = unread_string o' (seen r1)) /\
    match run_session later r1, run_session later r2 with
    | (Ok ys, _), (Ok zs, _) => ys = zs
    | (Err (Incomplete _), _), (Err (Incomplete _), _) => True
    | _, _ => False
    end.
Proof. exact skip_then. Qed.
Print Assumptions C09_skip_is_read_partial.
Example C09_case : exists r r1 r2 l, run_session [RBits 3 Lsb0] (reader_new (cursor ex_data)) = (Ok [OBits [true; false; true]], r) /\
  read_bits 18 Lsb0 r = (Ok l, r1) /\ skip_bits 18 Lsb0 r = (Ok tt, r2) /\ r_rest r2 = [false; false; false].
Proof. do 4 eexists. split; [vm_compute; reflexivity|]. split; [vm_compute; reflexivity|]. split; vm_compute; reflexivity. Qed.

(** Skips of less than a byte beyond the buffered bits behave like reads on every
    source, also when the input is short. *)
Theorem C09_short_skip_partial : forall n o r, reachable r -> (forall k, s_fault (r_s r) k = None) ->
  n < 8 + (match r_left r with Some (LBits l) => length l | _ => 0 end) ->
  match read_bits n o r, skip_bits n o r with
  | (Ok _, r1), (Ok _, r2) => r_bits r2 = r_bits r1 /\ (forall o', unread_string o' (seen r2) = unread_string o' (seen r1))
  | (Err (Incomplete _), _), (Err (Incomplete _), _) => True
  | _, _ => False
  end.
Proof. exact skip_short_seen. Qed.
Print Assumptions C09_short_skip_partial.

(** Enough input, seekable source, but a byte was peeked. *)
Theorem C09_skip_peeked_refuted : exists data n o l r1 r2,
  let r := snd (r_end (reader_new (cursor data))) in
  read_bits n o r = (Ok l, r1) /\ skip_bits n o r = (Ok tt, r2) /\
  unread_string Msb0 (seen r1) <> unread_string Msb0 (seen r2) /\ r_bits r1 <> r_bits r2.
Proof.
  exists [x01; x02; x03], 8, Msb0. do 3 eexists. split; [vm_compute; reflexivity|]. split; [vm_compute; reflexivity|].
  split; vm_compute; discriminate.
Qed.
Print Assumptions C09_skip_peeked_refuted.
(** Not enough input: whole bytes are skipped successfully past the end. *)
Theorem C09_skip_past_end_refuted : exists data n o,
  let r := reader_new (cursor data) in
  fst (read_bits n o r) = Err (Incomplete n) /\ fst (skip_bits n o r) = Ok tt.
Proof. exists [], 8, Msb0. split; vm_compute; reflexivity. Qed.
Print Assumptions C09_skip_past_end_refuted.
(** A source without seeking: reading works, skipping fails. *)
Theorem C09_skip_noseek_refuted : exists s n o l r1,
  s_noseek s = Some 0 /\ s_pos s = 0 /\ (forall k, s_fault s k = None) /\
  read_bits n o (reader_new s) = (Ok l, r1) /\ exists k, fst (skip_bits n o (reader_new s)) = Err (Io k).
Proof.
  exists (s_virt (cursor [x01; x02]) (Some 0)), 8, Msb0. do 2 eexists. split; [reflexivity|]. split; [reflexivity|]. split; [reflexivity|].
  split; [vm_compute; reflexivity|]. eexists. vm_compute. reflexivity.
Qed.
Print Assumptions C09_skip_noseek_refuted.
(** A source already advanced: the count of bits read jumps. *)
Theorem C09_skip_offset_refuted : exists s n o l r1 r2,
  s_noseek s = None /\ (forall k, s_fault s k = None) /\
  read_bits n o (reader_new s) = (Ok l, r1) /\ skip_bits n o (reader_new s) = (Ok tt, r2) /\ r_bits r1 = 8 /\ r_bits r2 = 16.
Proof.
  exists (s_goto (cursor [x01; x02]) 1), 8, Msb0. do 3 eexists. repeat split; vm_compute; reflexivity.
Qed.
Print Assumptions C09_skip_offset_refuted.
(** After a read that failed in the middle of a byte, a skip panics. *)
Theorem C09_skip_after_failure_refuted : exists data,
  let r := snd (run_all [RBits 3 Msb0; RBits 90 Msb0] (reader_new (cursor data))) in
  fst (skip_bits 8 Msb0 r) = Panic.
Proof. exists [x01; x02; x03]. vm_compute. reflexivity. Qed.
Print Assumptions C09_skip_after_failure_refuted.

(** ** C10: failing sources *)

(** Whatever the source does, if none of the transfers of a session failed then
    the session behaves exactly as on a source that never fails. *)
Theorem C10_no_fault_no_effect : forall ops r x r',
  run_session ops r = (x, r') ->
  (forall k, s_calls (r_s r) <= k < s_calls (r_s r') -> s_fault (r_s r) k = None) ->
  run_session ops (r_without_faults r) = (x, r_without_faults r').
Proof. intros ops. exact (tr_same _ (run_session_tracked ops)). Qed.
Print Assumptions C10_no_fault_no_effect.

(** Partial: for the operations and states of [reports_faults] every transfer
    error ends the call with that error (end of input as Incomplete). *)
Theorem C10_fault_reported_partial : forall op r x r' k e m,
  reports_faults op r -> run_rop op r = (x, r') ->
  s_calls (r_s r) <= k < s_calls (r_s r') -> s_fault (r_s r) k = Some (e, m) ->
  exists d, x = Err d /\ (if is_eof e then exists n, d = Incomplete n else d = Io e).
Proof.
  intros op r x r' k e m H1 H2 H3 H4.
  exact (run_rop_strict op r x r' e H1 H2 (ex_intro _ k (conj H3 (ex_intro _ m H4)))).
Qed.
Print Assumptions C10_fault_reported_partial.

(** A source that fails once, at its [k]-th call. *)
Definition fails_at (k : nat) (e : iokind) (s : stream) : stream :=
  {| s_data := s_data s; s_pos := s_pos s; s_eat := s_eat s; s_noseek := s_noseek s;
     s_fault := fun j => if j =? k then Some (e, 0) else None; s_calls := s_calls s |}.
Example C10_case : let r := reader_new (fails_at 1 NotFound (cursor ex_data)) in
  reports_faults (RUint 12) r /\ fst (run_rop (RUint 12) r) = Err (Io NotFound) /\
  s_calls (r_s (snd (run_rop (RUint 12) r))) = 2.
Proof. repeat split; vm_compute; reflexivity. Qed.

(** A bit read turns the failed transfer of a whole byte into zero bits. *)
Theorem C10_bit_read_refuted : exists s op x r',
  run_rop op (reader_new s) = (Ok x, r') /\
  (exists k, s_calls s <= k < s_calls (r_s r') /\ s_fault s k = Some (OtherKind 1, 0)) /\
  x <> OBits (bitstring Msb0 (firstn 2 (s_data s))) /\ op = RBits 16 Msb0 /\ 2 <= length (s_data s).
Proof.
  exists (fails_at 0 (OtherKind 1) (cursor ex_data)), (RBits 16 Msb0). do 2 eexists.
  split; [vm_compute; reflexivity|]. split; [exists 0; split; [cbn; lia|reflexivity]|].
  split; [vm_compute; discriminate|]. split; [reflexivity|cbn; lia].
Qed.
Print Assumptions C10_bit_read_refuted.
(** [end()] turns a failed transfer into a byte that was never there. *)
Theorem C10_end_refuted : exists s x r',
  s_data s = [] /\ run_session [REnd; RBytes 1 Msb0] (reader_new s) = (Ok x, r') /\ x = [OFlag false; OBytes [x00]].
Proof.
  exists (fails_at 0 (OtherKind 1) (cursor [])). do 2 eexists.
  split; [reflexivity|]. split; vm_compute; reflexivity.
Qed.
Print Assumptions C10_end_refuted.
