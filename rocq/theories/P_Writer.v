(** Properties of the writer, C11-C17.

    Vocabulary: [Spec.v] (calls, the bits they write, the schedules that fit),
    [WSession.v] (running calls on the model; [w_reachable]; [stored]; [w_view]). *)
From Coq Require Import Lia Permutation.
From Verif Require Import Base Spec Stream Reader Session Writer WSession WriterProps.

Definition T := true.
Definition F := false.
Definition new_writer : writer := writer_new vec_sink.

(** ** C11: Msb0 writes *)

Theorem C11_msb0_writes_concatenate : forall ops w,
  w_reachable w -> w_ord w = Msb0 -> Forall wop_ok ops -> Forall wop_in_msb0 ops ->
  exists w' bs, run_wsession ops w = (Ok tt, w') /\ stored w w' bs /\ length (w_rest w') < 8 /\
    bitstring Msb0 bs ++ w_rest w' = w_rest w ++ written ops.
Proof. exact msb0_concat. Qed.
Print Assumptions C11_msb0_writes_concatenate.
Definition ex_w11 : list wop := [WBits [T; F; T] Msb0; WBytes [x3c]; WUint 0x1ab 9; WBits [T; T] Msb0].
Example C11_case : Forall wop_ok ex_w11 /\ Forall wop_in_msb0 ex_w11 /\ w_reachable new_writer /\
  exists w', run_wsession ex_w11 new_writer = (Ok tt, w') /\
    k_data (w_k w') = [xa7; x9a] /\ w_rest w' = [T; F; T; T; T; T] /\ w_bits w' = 16.
Proof.
  split; [repeat constructor; cbn; lia|]. split; [repeat constructor|]. split; [now constructor|].
  eexists. split; [vm_compute; reflexivity|]. repeat split.
Qed.

(** ** C12: Lsb0 writes *)

(** Missing for the full statement: a first Lsb0 write of more than 8 bits on a
    writer whose pending order is still Msb0 (a fresh one). *)
Theorem C12_lsb0_writes_concatenate_partial : forall ls w,
  w_reachable w ->
  w_ord w = Lsb0 \/ (w_rest w = [] /\ match ls with [] => True | l :: _ => length l <= 8 end) ->
  exists w' bs, run_wsession (map (fun l => WBits l Lsb0) ls) w = (Ok tt, w') /\ stored w w' bs /\ length (w_rest w') < 8 /\
    bitstring Lsb0 bs ++ rev (w_rest w') = rev (w_rest w) ++ concat (map (@rev bool) ls).
Proof. exact lsb0_concat. Qed.
Print Assumptions C12_lsb0_writes_concatenate_partial.
Definition ex_l12 : list bool := [T; F; T; F; T; F; T; T; T; T; F; F].
Example C12_case : exists w', run_wsession (map (fun l => WBits l Lsb0) [[T; F; T]; ex_l12]) new_writer = (Ok tt, w') /\
  k_data (w_k w') = [xe5] /\ w_rest w' = [T; F; T; F; T; F; T] /\ w_ord w' = Lsb0 /\
  w_reachable new_writer /\ w_rest new_writer = [].
Proof. eexists. split; [vm_compute; reflexivity|]. repeat split; now constructor. Qed.

(** The same first write on a fresh writer: 0xABC comes out as AB, then C. *)
Theorem C12_lsb0_first_write_refuted : exists l w',
  run_wsession [WBits l Lsb0] (writer_new vec_sink) = (Ok tt, w') /\
  bitstring Lsb0 (k_data (w_k w')) ++ rev (w_rest w') <> rev l.
Proof. exists ex_l12. eexists. split; [vm_compute; reflexivity|]. vm_compute. discriminate. Qed.
Print Assumptions C12_lsb0_first_write_refuted.

(** ** C13: no panics, bits conserved *)

Theorem C13_writer_total_and_conserving : forall ops w,
  w_reachable w -> Forall wop_ok ops ->
  exists w' bs, run_wsession ops w = (Ok tt, w') /\ stored w w' bs /\ length (w_rest w') < 8 /\
    Permutation (bits_of_bytes bs ++ w_rest w') (w_rest w ++ written ops).
Proof. exact writer_total. Qed.
Print Assumptions C13_writer_total_and_conserving.
Definition ex_w13 : list wop := [WBits [T; F; T] Msb0; WBits ex_l12 Lsb0; WBytes [x3c]; WUint 0x5a5 11].
Example C13_case : Forall wop_ok ex_w13 /\
  exists w', run_wsession ex_w13 new_writer = (Ok tt, w') /\
    k_data (w_k w') = [xb5; x3c; x79; x69] /\ w_rest w' = [F; T] /\ w_bits w' = 32.
Proof. split; [repeat constructor; cbn; lia|]. eexists. split; [vm_compute; reflexivity|]. repeat split. Qed.

(** [w_reachable] has sinks that accept everything.  After an I/O error the next
    write can panic: the pending byte stays full. *)
Theorem C13_after_io_error_refuted : exists k ops xs w',
  run_wall ops (writer_new k) = (xs, w') /\ Forall wop_ok ops /\ In Panic xs.
Proof.
  exists (mkSink [] 0 false None (fun j => if j =? 0 then Some (OtherKind 1, 0) else None) 0),
    [WBits (repeat T 7) Msb0; WBits [T; F] Msb0; WBits [T] Msb0]. eexists. eexists.
  split; [vm_compute; reflexivity|]. split; [repeat constructor|]. cbn. auto.
Qed.
Print Assumptions C13_after_io_error_refuted.

(** ** C14: the integer fast path *)

Theorem C14_write_fast_path_is_generic : forall v amt w,
  w_reachable w -> w_ord w = Msb0 -> 1 <= amt <= 64 ->
  exists w1 w2, write_bits_uint_msb0 v amt w = (Ok tt, w1) /\ write_bits (N2bits amt v) w = (Ok tt, w2) /\
    w_view w1 = w_view w2.
Proof. exact fast_is_generic. Qed.
Print Assumptions C14_write_fast_path_is_generic.
Example C14_case : exists w0 w1, run_wop (WBits [T; F; T; T; F] Msb0) new_writer = (Ok tt, w0) /\ w_reachable w0 /\
  write_bits_uint_msb0 0x1234567 23 w0 = (Ok tt, w1) /\ w_view w1 = ([xb2; x34; x56], 3, [F; T; T; T], Msb0, 24).
Proof.
  eexists. eexists. split; [vm_compute; reflexivity|]. split.
  - pose proof (wreach_wop (WBits [T; F; T; T; F] Msb0) new_writer) as H. apply H; [now constructor|exact I].
  - split; [vm_compute; reflexivity|]. vm_compute. reflexivity.
Qed.

(** ** C15: finalize *)

Theorem C15_finalize_pads : forall w,
  w_reachable w ->
  exists w', finalize w = (Ok tt, w') /\ w_rest w' = [] /\ w_ord w' = w_ord w /\ finalize w' = (Ok tt, w') /\
    match w_rest w with
    | [] => w' = w
    | p => exists b, stored w w' [b] /\
        byte_bits b = match w_ord w with
                      | Msb0 => p ++ repeat false (8 - length p)
                      | Lsb0 => repeat false (8 - length p) ++ p
                      end
    end.
Proof. exact finalize_pads. Qed.
Print Assumptions C15_finalize_pads.
Example C15_case :
  (exists w', write_out [WBits [T; F; T] Msb0] new_writer = (Ok tt, w') /\ k_data (w_k w') = [xa0]) /\
  (exists w', write_out [WBits [T; F; T] Lsb0] new_writer = (Ok tt, w') /\ k_data (w_k w') = [x05]).
Proof. split; eexists; (split; [vm_compute; reflexivity|reflexivity]). Qed.

(** ** C16, C17: round trips *)

(** Everything written in Msb0 (bit strings, bytes, integers) reads back; only the
    padding, less than a byte, is left. *)
Theorem C16_msb0_round_trip : forall ops,
  Forall wop_readable ops -> Forall wop_in_msb0 ops ->
  exists w, write_out ops (writer_new vec_sink) = (Ok tt, w) /\
  exists r, run_session (map read_of ops) (reader_new (cursor (k_data (w_k w)))) = (Ok (map value_of ops), r) /\
    unread_len (seen r) < 8.
Proof. exact msb0_round_trip. Qed.
Print Assumptions C16_msb0_round_trip.
Example C16_case : Forall wop_readable ex_w11 /\ Forall wop_in_msb0 ex_w11.
Proof. split; repeat constructor; cbn; (lia || discriminate). Qed.

(** Missing: a first write of more than 8 bits (see the refutation). *)
Theorem C16_lsb0_round_trip_partial : forall l ls,
  length l <= 8 ->
  exists w, write_out (map (fun l => WBits l Lsb0) (l :: ls)) (writer_new vec_sink) = (Ok tt, w) /\
  exists r, run_session (map (fun l => RBits (length l) Lsb0) (l :: ls)) (reader_new (cursor (k_data (w_k w))))
      = (Ok (map OBits (l :: ls)), r) /\ unread_len (seen r) < 8.
Proof. exact lsb0_round_trip. Qed.
Print Assumptions C16_lsb0_round_trip_partial.
Example C16_lsb0_case : exists w, write_out (map (fun l => WBits l Lsb0) [[T; F; T]; ex_l12]) new_writer = (Ok tt, w) /\
  k_data (w_k w) = [xe5; x55].
Proof. eexists. split; vm_compute; reflexivity. Qed.

Theorem C16_lsb0_first_write_refuted : exists l w x r,
  write_out [WBits l Lsb0] (writer_new vec_sink) = (Ok tt, w) /\
  run_session [RBits (length l) Lsb0] (reader_new (cursor (k_data (w_k w)))) = (Ok [OBits x], r) /\ x <> l.
Proof.
  exists ex_l12. eexists. eexists. eexists. split; [vm_compute; reflexivity|]. split; [vm_compute; reflexivity|]. discriminate.
Qed.
Print Assumptions C16_lsb0_first_write_refuted.

(** Missing: schedules that do not fit (see [fits] in [Spec.v]): a change of bit
    order that neither happens at a byte boundary with at most 8 bits nor completes
    the pending byte. *)
Theorem C17_mixed_round_trip_partial : forall ops,
  Forall wop_readable ops -> fits Msb0 0 ops = true ->
  exists w, write_out ops (writer_new vec_sink) = (Ok tt, w) /\
  exists r, run_session (map read_of ops) (reader_new (cursor (k_data (w_k w)))) = (Ok (map value_of ops), r) /\
    unread_len (seen r) < 8.
Proof. exact mixed_round_trip. Qed.
Print Assumptions C17_mixed_round_trip_partial.
Definition ex_w17 : list wop :=
  [WBits [T; F; T] Msb0; WBits [F; T; T; F; T] Lsb0; WBits ex_l12 Lsb0; WBits [T; F; F; T] Msb0; WBits [T; F] Msb0;
   WBytes [x3c; x5a]; WUint 0x35 6; WBits [T; T; T; T; F; F; F] Lsb0].
Example C17_case : Forall wop_readable ex_w17 /\ fits Msb0 0 ex_w17 = true.
Proof. split; [repeat constructor; cbn; (lia || discriminate)|reflexivity]. Qed.

Theorem C17_mixed_round_trip_refuted : exists a b w x y r,
  write_out [WBits a Msb0; WBits b Lsb0] (writer_new vec_sink) = (Ok tt, w) /\
  run_session [RBits (length a) Msb0; RBits (length b) Lsb0] (reader_new (cursor (k_data (w_k w)))) = (Ok [OBits x; OBits y], r) /\
  x <> a.
Proof.
  exists [T; F; T], [T; F]. do 4 eexists. split; [vm_compute; reflexivity|]. split; [vm_compute; reflexivity|]. discriminate.
Qed.
Print Assumptions C17_mixed_round_trip_refuted.
