(** The buffer of unread and unwritten bits, C42.

    Vocabulary: [BBV.v] (the buffer as an array and a length), [BBVSpec.v] (a bounded
    list), [BBVSession.v] (readers and writers on top of the array). *)
From Verif Require Import Base Spec Stream Reader Writer Prims Session WSession BBV BBVSpec BBVSession BBVFacts.

(** Whatever is done to a buffer, it answers as a list of at most [cap] bits and panics
    exactly when the list would not fit or an index is out of range. *)
Theorem C42_buffer : forall cap ops,
  match v_run (v_new cap) ops with
  | Ok v => exists l, l_run cap [] ops = Some l /\ answers cap v l
  | Panic => l_run cap [] ops = None
  | _ => False
  end.
Proof. exact buffer_histories. Qed.
Print Assumptions C42_buffer.
(** The bits split off stay in the array and are invisible. *)
Example C42_case_buffer :
  let ops := [BExtend (repeat true 7); BSplitLeft 3; BPush false; BInsert 1 false] in
  exists v, v_run (v_new 8) ops = Ok v /\ v_arr v = [true; false; true; true; false; true; true; true] /\
            l_run 8 [] ops = Some [true; false; true; true; false].
Proof. eexists. split; [vm_compute; reflexivity|]. split; reflexivity. Qed.
Example C42_case_buffer_panic : v_run (v_new 8) [BExtend (repeat true 5); BSplitRight 5] = Panic.
Proof. reflexivity. Qed.

(** No history of calls on a reader, failing ones included, depends on the stale bits
    of the array: same results, same unread bits, same I/O, same [bits_read]. *)
Theorem C42_reader : forall s hs, a_run hs (a_new s) = h_run hs (reader_new s).
Proof. exact reader_histories. Qed.
Print Assumptions C42_reader.
Example C42_case_reader :
  let hs := [HRead (RBits 3 Lsb0); HRead (RUint 9); HRead REnd; HSkip 2 Msb0; HRead (RBytes 1 Msb0); HSeek (SeekStart 1)] in
  map (fun x => fst (fst (fst x))) (a_run hs (a_new (cursor [xa5; x5a; xff]))) =
  [HOut (Ok (OBits [true; false; true])); HOut (Ok (ONum 0x145)); HOut (Ok (OFlag false)); HUnit (Ok tt); HOut (Ok (OBytes [xbf])); HPos (IoOk 1)].
Proof. vm_compute. reflexivity. Qed.

(** The same for writers. *)
Theorem C42_writer : forall k hs, aw_run hs (aw_new k) = wh_run hs (writer_new k).
Proof. exact writer_histories. Qed.
Print Assumptions C42_writer.
Example C42_case_writer :
  let hs := [WHWrite (WBits [true; true; true] Msb0); WHSeek (SeekStart 0); WHWrite (WUint 5 3); WHWrite (WBits [true] Lsb0);
             WHWrite (WBytes [x12]); WHFinalize] in
  map (fun x => (snd (fst (fst (fst x))), k_data (snd (fst x)))) (aw_run hs (aw_new vec_sink)) =
  [([true; true; true], []); ([], []); ([true; false; true], []); ([true; false; true; true], []); ([true; false; true; true], [x12]); ([], [x12; xb0])].
Proof. vm_compute. reflexivity. Qed.

(** The padding steps of the integer conversions in [Prims.v] are runs of the list;
    with [C42_buffer] they are runs of the array. *)
Theorem C42_conversions : forall cap k i l, length l <= cap ->
  or_panic (l_run cap l (repeat (BInsert i false) k)) = bbv_inserts cap k i l /\
  or_panic (l_run cap l (repeat (BPush false) k)) = bbv_pushes cap k l.
Proof. exact (fun cap k i l H => conj (inserts_run cap i k l) (pushes_run cap k l H)). Qed.
Print Assumptions C42_conversions.
Example C42_case_conversions : bbv_inserts 16 3 2 [true; true; true] = Ok [true; true; false; false; false; true] /\
  bbv_pushes 8 6 [true; true; true] = Panic.
Proof. split; reflexivity. Qed.

(** Both ways of filling a buffer, bit by bit or at once. *)
Theorem C42_from : forall cap l,
  match v_pushes (v_new cap) l, v_from cap l with
  | Ok v, Ok v' => answers cap v l /\ answers cap v' l
  | Panic, Panic => cap < length l
  | _, _ => False
  end.
Proof. exact from_bools. Qed.
Print Assumptions C42_from.
Example C42_case_from : exists v, v_pushes (v_new 8) [true; false; true] = Ok v /\ v_from 8 [true; false; true] = Ok v.
Proof. eexists. split; vm_compute; reflexivity. Qed.
