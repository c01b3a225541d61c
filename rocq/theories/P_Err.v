(** Where errors come from, C58.

    Vocabulary: [ErrSpec.v] ([has], [derived_read], [derived_write] and the causes). *)
From Coq Require Import Lia.
From Verif Require Import Base Spec Stream Reader Writer Prims Containers Derive DeriveSpec ErrSpec ErrRead ErrWrite P_Derive P_Size P_Safe.

(** struct Trouble {
      #[deku(assert = "*a < 3")] a: u8,
      #[deku(pad_bytes_before = "a - 1")] n: u8,
      #[deku(seek_from_current = "-n")] c: u8,
      #[deku(map = "|d: u8| if d == 0 { Err(DekuError::IdVariantNotFound) } else { Ok(d) }")] d: u8,
      #[deku(bits = 4)] e: u8,
    } *)
Definition at_field (k : nat) : expr0 Z := fun _ fs => Z.of_N (nth_num fs k).
Definition seeking (f : expr0 (option seekfrom)) (a : fattrs) : fattrs :=
  mkF (a_endian a) (a_order a) (a_bits a) (a_bytes a) (a_ctx a) (a_limit a) (a_map a) (a_reader a) (a_writer a) (a_skip a) (a_cond a)
      (a_default a) (a_assert a) (a_assert_eq a) (Some f) (a_magic a) (a_pad_before a) (a_pad_after a) (a_temp a) (a_temp_value a) (a_update a).
Definition mapped (f : value -> res value) (a : fattrs) : fattrs :=
  mkF (a_endian a) (a_order a) (a_bits a) (a_bytes a) (a_ctx a) (a_limit a) (Some (fun _ _ _ => f)) (a_reader a) (a_writer a) (a_skip a) (a_cond a)
      (a_default a) (a_assert a) (a_assert_eq a) (a_seek a) (a_magic a) (a_pad_before a) (a_pad_after a) (a_temp a) (a_temp_value a) (a_update a).
Definition padded_by (f : expr0 Z) (a : fattrs) : fattrs :=
  mkF (a_endian a) (a_order a) (a_bits a) (a_bytes a) (a_ctx a) (a_limit a) (a_map a) (a_reader a) (a_writer a) (a_skip a) (a_cond a)
      (a_default a) (a_assert a) (a_assert_eq a) (a_seek a) (a_magic a) (Some f) (a_pad_after a) (a_temp a) (a_temp_value a) (a_update a).
Definition updated (f : list value -> res value) (a : fattrs) : fattrs :=
  mkF (a_endian a) (a_order a) (a_bits a) (a_bytes a) (a_ctx a) (a_limit a) (a_map a) (a_reader a) (a_writer a) (a_skip a) (a_cond a)
      (a_default a) (a_assert a) (a_assert_eq a) (a_seek a) (a_magic a) (a_pad_before a) (a_pad_after a) (a_temp a) (a_temp_value a) (Some f).
Definition Trouble : ty := TStruct cplain
  (field (asserting (fun _ fs _ => (nth_num fs 0 <? 3)%N) plain) u8
  (field (padded_by (fun ctx fs => (8 * (at_field 0 ctx fs - 1))%Z) plain) u8
  (field (seeking (fun ctx fs => Some (SeekCurrent (- at_field 1 ctx fs)%Z)) plain) u8
  (field (mapped (fun v => if (num v =? 0)%N then Err IdVariantNotFound else Ok v) plain) u8
  (field (bits 4 plain) u8 FNil))))).
Definition failing (s : stream) : stream := mkStream (s_data s) (s_pos s) (s_eat s) (s_noseek s) (fun k => if k =? 2 then Some (OtherKind 7, 1) else None) (s_calls s).

(** Every error of reading has its cause in the declaration, in a function the declaration
    names, or in the source: no [Assertion] without an assertion that can fail, no
    [InvalidParam] without padding of an impossible size, no [Io] unless the source
    reported it or refused a seek that is asked for, never [IdVariantNotFound]. *)
Theorem C58_from_reader : forall cu fuel t s bit e s', derived_read t -> bit < 8 \/ s_noseek s = None ->
  from_reader cu fuel t s bit = (Err e, s') -> read_cause t s s' e.
Proof. exact from_reader_cause. Qed.
Print Assumptions C58_from_reader.
(** All of them occur. *)
Example C58_from_reader_case : derived_read Trouble /\
  fst (from_reader no_customs 9 Trouble (cursor [x03]) 0) = Err Assertion /\
  fst (from_reader no_customs 9 Trouble (cursor [x00; x00]) 0) = Err InvalidParam /\
  fst (from_reader no_customs 9 Trouble (cursor [x01; x09; x00]) 0) = Err (Io InvalidInput) /\
  fst (from_reader no_customs 9 Trouble (cursor [x01; x00; x05; x00]) 0) = Err IdVariantNotFound /\
  fst (from_reader no_customs 9 Trouble (cursor [x01; x00; x05]) 0) = Err (Incomplete 8) /\
  fst (from_reader no_customs 9 Trouble (s_virt (cursor [x02; x00; x00]) (Some 0)) 0) = Err (Io (OtherKind 0)) /\
  fst (from_reader no_customs 9 Trouble (failing (cursor [x01; x00; x05; x06; x07])) 0) = Err (Io (OtherKind 7)) /\
  fst (from_reader no_customs 9 Trouble (cursor [x01; x00; x05; x06; x70]) 0) = Ok (36, VRec [VNum 1; VNum 0; VNum 5; VNum 6; VNum 7]).
Proof.
  split; [unfold derived_read, Trouble, hand_read; cbn; intuition congruence|]. repeat split; vm_compute; reflexivity.
Qed.
(** From a byte slice there is nothing but the declaration. *)
Theorem C58_from_bytes : forall cu fuel t input bit e, derived_read t ->
  from_bytes cu fuel t input bit = Err e -> slice_cause t e.
Proof. exact from_bytes_cause. Qed.
Print Assumptions C58_from_bytes.
Theorem C58_try_from : forall cu fuel t input e, derived_read t -> try_from cu fuel t input = Err e -> slice_cause t e.
Proof. exact try_from_cause. Qed.
Print Assumptions C58_try_from.
(** struct Quiet { #[deku(endian = "big")] n: u16, #[deku(count = "n")] l: Vec<Option<u16>>, b: bool }: only [Incomplete] and [Parse]. *)
Definition Quiet : ty := TStruct big (field plain u16 (field (limited (count_of 0) plain) (TVec KSlice 4 (TOption u16)) (field plain TBool FNil))).
Example C58_slice_case : derived_read Quiet /\ (forall e, slice_cause Quiet e -> e = Parse \/ exists n, e = Incomplete n) /\
  try_from no_customs 9 Quiet [x00; x01; x00] = Err (Incomplete 16) /\ try_from no_customs 9 Quiet [x00; x01; x00; x07; x02] = Err Parse /\
  try_from no_customs 9 Quiet [x00; x01; x00; x07; x01] = Ok (VRec [VNum 1; VList [VSome (VNum 7)]; VBool true]).
Proof.
  split; [unfold derived_read, Quiet, hand_read; cbn; intuition congruence|]. split; [|repeat split; vm_compute; reflexivity].
  assert (Q : forall rd F N, has rd F N Quiet -> (exists a t, (a = plain \/ a = limited (count_of 0) plain) /\ F a t) \/ N (Struct big)).
  { intros rd F N H. unfold Quiet, field in H. cbn in H. destruct rd; decompose [or] H; try contradiction; eauto 6. }
  intros e [H|H]; [destruct e; eauto; try contradiction; [..|destruct H as [_ H]]|]; apply Q in H; (destruct H as [(a & t & Ha & H)|H]; [|now destruct H]); exfalso.
  - destruct H as (f & ? & ? & [E|E] & _), Ha as [-> | ->]; discriminate.
  - destruct H as [(f & ? & ? & ? & E & _)|H], Ha as [-> | ->]; try discriminate; now apply H.
  - destruct Ha as [-> | ->]; now apply H.
  - destruct H as (f & ? & ? & ? & ? & H & _), Ha as [-> | ->]; discriminate.
Qed.

(** Every error of writing likewise: no [Assertion] without an assertion that can fail, no
    [InvalidParam] without a declared size or padding of an impossible size, no [Io]
    unless the sink reported it, is full, or refused a seek that is asked for; never
    [Incomplete], [Parse] or [IdVariantNotFound]. *)
Theorem C58_to_writer : forall cu t v k e w, derived_write t ->
  (let* _ := write_ty cu t [] v in finalize) (writer_new k) = (Err e, w) -> write_cause t k (w_k w) e.
Proof. exact to_writer_cause. Qed.
Print Assumptions C58_to_writer.
Theorem C58_to_bytes : forall cu t v e, derived_write t -> to_bytes cu t v = Err e -> vec_cause t e.
Proof. exact to_bytes_cause. Qed.
Print Assumptions C58_to_bytes.
Theorem C58_to_bits : forall cu t v e, derived_write t -> to_bits cu t v = Err e -> vec_cause t e.
Proof. exact to_bits_cause. Qed.
Print Assumptions C58_to_bits.
Theorem C58_to_slice : forall cu t v buf e buf', derived_write t -> to_slice cu t v buf = (Err e, buf') -> vec_cause t e \/ e = Io WriteZero.
Proof. exact to_slice_cause. Qed.
Print Assumptions C58_to_slice.
Example C58_write_case : derived_write Trouble /\
  to_bytes no_customs Trouble (VRec [VNum 3; VNum 0; VNum 5; VNum 6; VNum 7]) = Err Assertion /\
  to_bytes no_customs Trouble (VRec [VNum 0; VNum 0; VNum 5; VNum 6; VNum 7]) = Err InvalidParam /\
  to_bytes no_customs Trouble (VRec [VNum 1; VNum 9; VNum 5; VNum 6; VNum 7]) = Err (Io InvalidInput) /\
  to_bits no_customs Trouble (VRec [VNum 1; VNum 0; VNum 5; VNum 6; VNum 16]) = Err InvalidParam /\
  to_slice no_customs Trouble (VRec [VNum 1; VNum 0; VNum 5; VNum 6; VNum 7]) [xaa; xaa] = (Err (Io WriteZero), [x01; x00]) /\
  to_bytes no_customs Trouble (VRec [VNum 1; VNum 0; VNum 5; VNum 6; VNum 7]) = Ok [x01; x00; x05; x06; x70].
Proof.
  split; [unfold derived_write, Trouble, hand_written; cbn; intuition congruence|]. repeat split; vm_compute; reflexivity.
Qed.
(** A type with none of that cannot fail to be written to memory: to a Vec at all, to a
    slice only for its size. *)
Theorem C58_writes : forall cu t,
  ~ has false (fun a t => hand_written a t \/ can_assert a t \/ bad_pad a t \/ field_sized a t \/ seeks a t) (fun n => any_custom n \/ id_sized n \/ struct_seeks n) t ->
  (forall v e, to_bytes cu t v <> Err e) /\ (forall v e, to_bits cu t v <> Err e) /\
  (forall v buf e buf', to_slice cu t v buf = (Err e, buf') -> e = Io WriteZero).
Proof. exact never_fails. Qed.
Print Assumptions C58_writes.
Example C58_writes_case :
  ~ has false (fun a t => hand_written a t \/ can_assert a t \/ bad_pad a t \/ field_sized a t \/ seeks a t) (fun n => any_custom n \/ id_sized n \/ struct_seeks n) Quiet /\
  to_bytes no_customs Quiet (VRec [VNum 1; VList [VSome (VNum 7)]; VBool true]) = Ok [x00; x01; x00; x07; x01] /\
  to_slice no_customs Quiet (VRec [VNum 1; VList [VSome (VNum 7)]; VBool true]) [xaa; xaa; xaa] = (Err (Io WriteZero), [x00; x01; x00]).
Proof.
  split; [|split; vm_compute; reflexivity].
  intros H. unfold Quiet, field in H. cbn -[hand_written can_assert bad_pad field_sized seeks] in H.
  assert (P : forall a t, (a = plain \/ a = limited (count_of 0) plain) -> ~ (hand_written a t \/ can_assert a t \/ bad_pad a t \/ field_sized a t \/ seeks a t)).
  { intros a t [-> | ->] [X|[[(f & ? & ? & ? & E & _)|X]|[(f & ? & ? & [E|E] & _)|[[X|[X|(? & ? & ? & n & [[]|[]])]]|X]]]]; try discriminate; now apply X. }
  destruct H as [H|[H|[[]|[H|[[]|[H|[[]|[]]]]]]]]; [|revert H; apply P; auto..]. cbn in H. intuition congruence.
Qed.
(** [update] fails only with the error of an [update] expression of its own fields,
    [deku_id] only with [IdVariantNotFound]. *)
Theorem C58_update : forall t v e, update t v = Err e -> update_cause t v e.
Proof. exact update_errs. Qed.
Print Assumptions C58_update.
(** #[deku(update = "u8::try_from(self.l.len())?")] n: u8, with a list that is too long:
    the error of the conversion is [Parse]. *)
Definition Counted : ty := TStruct cplain
  (field (updated (fun fs => let n := list_len (nth 1 fs VUnit) in if (n <? 256)%N then Ok (VNum n) else Err Parse) plain) u8 (field (limited (count_of 0) plain) (TVec KVec 1 u8) FNil)).
Example C58_update_case : update Counted (VRec [VNum 9; VList (repeat (VNum 0) 256)]) = Err Parse /\
  update Counted (VRec [VNum 9; VList [VNum 1; VNum 2]]) = Ok (VRec [VNum 2; VList [VNum 1; VNum 2]]) /\ forall v, ~ update_cause Counted v InvalidParam.
Proof.
  split; [vm_compute; reflexivity|]. split; [vm_compute; reflexivity|]. intros v H. unfold update_cause, Counted, field in H. cbn [some_field] in H.
  destruct H as [(f & fs & E & H)|[(f & fs & E & _)|[]]]; [|discriminate]. injection E as <-. destruct (_ <? _)%N in H; discriminate.
Qed.
Theorem C58_deku_id : forall vs k e, deku_id vs k = Err e -> e = IdVariantNotFound.
Proof. exact deku_id_errs. Qed.
Print Assumptions C58_deku_id.
Example C58_deku_id_case : exists vs, deku_id vs 0 = Ok (VNum 7) /\ deku_id vs 1 = Err IdVariantNotFound.
Proof. exists (VCons (mkV (SId (VNum 7)) false) FNil (VCons (mkV (SPat (fun _ => true) None) false) (field plain u8 FNil) VNil)). split; reflexivity. Qed.
