(** Sources and sinks that take their bytes in pieces, C80.

    Vocabulary: [Chunks.v] ([raw], [dest]: sources that implement [read] and sinks that
    implement [write], with std's [read_exact] and [write_all] on top of them; [prog],
    [wprog]: programs that make these calls; [run], [wrun]: with the sources and sinks of
    [Stream.v], which answer at once; [run_raw], [wrun_raw]: with those of std),
    [ChunkSpec.v] ([patient]: interruptions end; [reliable]: no other errors; [at_once],
    [all_at_once]: the same bytes at the same place), [CodeSpec.v] ([read_code],
    [write_code]: hand-written code that uses the methods of [Reader] and [Writer]), [MsgSpec.v] ([send]: [to_writer], then
    [finalize]). *)
From Coq Require Import Lia.
From Verif Require Import Base Stream Reader Writer Prims Derive DeriveSpec MsgSpec Chunks ChunkSpec ProgRead ProgWrite CodeSpec ProgHand P_Derive P_Streams.

(** Reading and writing a type, hand-written code aside, is such a program. *)
Theorem C80_read_program : forall cu fuel t bit, reader_derived t -> exists p, forall s, from_reader cu fuel t s bit = run p s.
Proof. exact read_program. Qed.
Print Assumptions C80_read_program.
Theorem C80_write_program : forall cu t v, writer_derived t -> exists p, forall k, send cu t v k = wrun p k.
Proof. exact write_program. Qed.
Print Assumptions C80_write_program.

(** So is hand-written code that uses the methods of [Reader] and [Writer], whatever it does
    with their results, as a type of its own anywhere in a derived one. *)
Theorem C80_read_by_hand : forall cu fuel t bit, (forall k args, read_code value (cu_read (cu k) args)) -> reader_by_types t ->
  exists p, forall s, from_reader cu fuel t s bit = run p s.
Proof. exact hand_read_program. Qed.
Print Assumptions C80_read_by_hand.
Theorem C80_write_by_hand : forall cu t v, (forall k args x, write_code unit (cu_write (cu k) args x)) -> writer_by_types t ->
  exists p, forall k, send cu t v k = wrun p k.
Proof. exact hand_write_program. Qed.
Print Assumptions C80_write_by_hand.

(** It gets from a source that gives its bytes in pieces, with interruptions, what it gets
    from one that gives them at once, and leaves it at the same place. *)
Theorem C80_read_pieces : forall cu fuel t bit p, (forall s, from_reader cu fuel t s bit = run p s) ->
  forall b d, patient b (d_read d) -> reliable (d_read d) (d_seek d) ->
  exists x d' n, run_raw b p d = (Some x, d') /\ from_reader cu fuel t (at_once d (fun _ => None) 0) bit = (x, at_once d' (fun _ => None) n).
Proof. exact read_pieces. Qed.
Print Assumptions C80_read_pieces.
Theorem C80_write_pieces : forall cu t v p, (forall k, send cu t v k = wrun p k) ->
  forall b e, patient b (e_write e) -> reliable (e_write e) (e_seek e) ->
  exists x e' n, wrun_raw b p e = (Some x, e') /\ send cu t v (all_at_once e (fun _ => None) 0) = (x, all_at_once e' (fun _ => None) n).
Proof. exact write_pieces. Qed.
Print Assumptions C80_write_pieces.

(** Failing sources and sinks, and every program that makes these calls: there are errors
    of whole calls that have the same effect, so that what is proved of the failing sources
    and sinks of [Stream.v] holds of those of std. *)
Theorem C80_failing_sources : forall A (p : prog A) b d, patient b (d_read d) ->
  exists x d' f n, run_raw b p d = (Some x, d') /\ run p (at_once d f 0) = (x, at_once d' f n) /\ (reliable (d_read d) (d_seek d) -> forall j, f j = None).
Proof. exact @prog_pieces. Qed.
Print Assumptions C80_failing_sources.
Theorem C80_failing_sinks : forall A (p : wprog A) b e, patient b (e_write e) ->
  exists x e' f n, wrun_raw b p e = (Some x, e') /\ wrun p (all_at_once e f 0) = (x, all_at_once e' f n) /\ (reliable (e_write e) (e_seek e) -> forall j, f j = None).
Proof. exact @wprog_pieces. Qed.
Print Assumptions C80_failing_sinks.

(** The packet of [P_Derive.v] over a connection that gives a byte at a time and is
    interrupted before every one of them; and into one that takes three at a time. *)
Definition drip (j : nat) : answer := if Nat.even j then Interrupts else Gives 0.
Definition gulp (j : nat) : answer := if Nat.even j then Interrupts else Gives 2.
Lemma drip_patient : patient 1 drip /\ patient 1 gulp.
Proof.
  split; intros j; (destruct (Nat.even j) eqn:E; [exists 1|exists 0]); (split; [lia|]); unfold drip, gulp; rewrite ?Nat.add_1_r, ?Nat.even_succ, <- ?Nat.negb_even, ?Nat.add_0_r, E; discriminate.
Qed.
Lemma drip_reliable : reliable drip (fun _ => None) /\ reliable gulp (fun _ => None).
Proof. split; (split; [|reflexivity]); intros j k; unfold drip, gulp; destruct (Nat.even j); discriminate. Qed.
Example C80_case : reader_derived Packet /\ writer_derived Packet /\
  (exists p, (forall s, from_reader no_customs 99 Packet s 0 = run p s) /\
     exists d', run_raw 1 p (mkRaw (packet_bytes ++ [xff; xee]) 0 None drip 0 (fun _ => None) 0) = (Some (Ok (112, packet)), d') /\ d_pos d' = 14) /\
  (exists p, (forall k, send no_customs Packet packet k = wrun p k) /\
     exists e', wrun_raw 1 p (mkDest [] 0 false None gulp 0 (fun _ => None) 0) = (Some (Ok tt), e') /\ e_data e' = packet_bytes).
Proof.
  assert (HR : reader_derived Packet) by (unfold Packet; cbn; repeat split).
  assert (HW : writer_derived Packet) by (unfold Packet; cbn; repeat split).
  split; [exact HR|]. split; [exact HW|]. split.
  - destruct (C80_read_program no_customs 99 Packet 0 HR) as [p Hp]. exists p. split; [exact Hp|].
    set (d := mkRaw (packet_bytes ++ [xff; xee]) 0 None drip 0 (fun _ => None) 0).
    destruct (C80_read_pieces _ _ _ _ p Hp 1 d (proj1 drip_patient) (proj1 drip_reliable)) as (x & d' & n & E1 & E2).
    exists d'. rewrite E1. replace x with (fst (from_reader no_customs 99 Packet (at_once d (fun _ => None) 0) 0)) by (rewrite E2; reflexivity).
    replace (d_pos d') with (s_pos (snd (from_reader no_customs 99 Packet (at_once d (fun _ => None) 0) 0))) by (rewrite E2; reflexivity).
    split; [apply (f_equal (fun y => (Some y, d')))|]; vm_compute; reflexivity.
  - destruct (C80_write_program no_customs Packet packet HW) as [p Hp]. exists p. split; [exact Hp|].
    set (e := mkDest [] 0 false None gulp 0 (fun _ => None) 0).
    destruct (C80_write_pieces _ _ _ p Hp 1 e (proj2 drip_patient) (proj2 drip_reliable)) as (x & e' & n & E1 & E2).
    exists e'. rewrite E1. replace x with (fst (send no_customs Packet packet (all_at_once e (fun _ => None) 0))) by (rewrite E2; reflexivity).
    replace (e_data e') with (k_data (snd (send no_customs Packet packet (all_at_once e (fun _ => None) 0)))) by (rewrite E2; reflexivity).
    split; [apply (f_equal (fun y => (Some y, e')))|]; vm_compute; reflexivity.
Qed.

(** struct Late { a: u8, t: Tail }, where Tail is a number written by hand: two bytes, and 7
    if they are not there; it is read one byte at a time, and on writing goes back over a. *)
Definition tail_read : RM value := fun r => let '(x, r') := prim_read (PU 2) (CE Big) r in (match x with Ok n => ret (VNum n) | _ => ret (VNum 7) end) r'.
Definition tail_write (v : value) : WM unit := fun w =>
  let '(x, w') := lift_io (w_seek (SeekStart 0)) w in (match x with Ok _ => prim_write (PU 2) (CE Big) (num v) | _ => fail Parse end) w'.
Definition late (k : nat) : custom := mkCustom (fun _ => tail_read) (fun _ => tail_write).
Definition Late : ty := TStruct cplain (field plain u8 (field plain (TCustom 0) FNil)).
Lemma late_codes : (forall k args, read_code value (cu_read (late k) args)) * (forall k args x, write_code unit (cu_write (late k) args x)).
Proof.
  split; intros.
  - apply (rc_then N value (prim_read (PU 2) (CE Big)) (fun x => match x with Ok n => ret (VNum n) | _ => ret (VNum 7) end)); [apply rc_prim|]. intros []; apply (rc_end value (Ok _)).
  - apply (wc_then nat unit (lift_io (w_seek (SeekStart 0))) (fun y => match y with Ok _ => prim_write (PU 2) (CE Big) (num x) | _ => fail Parse end)); [apply wc_seek|].
    intros []; [apply wc_prim|apply (wc_end unit (Err _))..].
Qed.
Example C80_case_by_hand : reader_by_types Late /\ writer_by_types Late /\
  (exists p, (forall s, from_reader late 9 Late s 0 = run p s) /\
     (exists d', run_raw 1 p (mkRaw [x05; x01; x02] 0 None drip 0 (fun _ => None) 0) = (Some (Ok (24, VRec [VNum 5; VNum 258])), d')) /\
     (exists d', run_raw 1 p (mkRaw [x05; x01] 0 None drip 0 (fun _ => None) 0) = (Some (Ok (8, VRec [VNum 5; VNum 7])), d'))) /\
  (exists p, (forall k, send late Late (VRec [VNum 5; VNum 258]) k = wrun p k) /\
     exists e', wrun_raw 1 p (mkDest [] 0 false None gulp 0 (fun _ => None) 0) = (Some (Ok tt), e') /\ e_data e' = [x01; x02]).
Proof.
  assert (HR : reader_by_types Late) by (unfold Late; cbn; repeat split).
  assert (HW : writer_by_types Late) by (unfold Late; cbn; repeat split).
  split; [exact HR|]. split; [exact HW|]. split.
  - destruct (C80_read_by_hand late 9 Late 0 (fst late_codes) HR) as [p Hp]. exists p. split; [exact Hp|].
    split.
    + set (d := mkRaw [x05; x01; x02] 0 None drip 0 (fun _ => None) 0).
      destruct (C80_read_pieces _ _ _ _ p Hp 1 d (proj1 drip_patient) (proj1 drip_reliable)) as (x & d' & n & E1 & E2).
      exists d'. rewrite E1. replace x with (fst (from_reader late 9 Late (at_once d (fun _ => None) 0) 0)) by (rewrite E2; reflexivity).
      apply (f_equal (fun y => (Some y, d'))). vm_compute. reflexivity.
    + set (d := mkRaw [x05; x01] 0 None drip 0 (fun _ => None) 0).
      destruct (C80_read_pieces _ _ _ _ p Hp 1 d (proj1 drip_patient) (proj1 drip_reliable)) as (x & d' & n & E1 & E2).
      exists d'. rewrite E1. replace x with (fst (from_reader late 9 Late (at_once d (fun _ => None) 0) 0)) by (rewrite E2; reflexivity).
      apply (f_equal (fun y => (Some y, d'))). vm_compute. reflexivity.
  - destruct (C80_write_by_hand late Late (VRec [VNum 5; VNum 258]) (snd late_codes) HW) as [p Hp]. exists p. split; [exact Hp|].
    set (e := mkDest [] 0 false None gulp 0 (fun _ => None) 0).
    destruct (C80_write_pieces _ _ _ p Hp 1 e (proj2 drip_patient) (proj2 drip_reliable)) as (x & e' & n & E1 & E2).
    exists e'. rewrite E1. replace x with (fst (send late Late (VRec [VNum 5; VNum 258]) (all_at_once e (fun _ => None) 0))) by (rewrite E2; reflexivity).
    replace (e_data e') with (k_data (snd (send late Late (VRec [VNum 5; VNum 258]) (all_at_once e (fun _ => None) 0)))) by (rewrite E2; reflexivity).
    split; [apply (f_equal (fun y => (Some y, e')))|]; vm_compute; reflexivity.
Qed.
