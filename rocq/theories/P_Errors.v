(** Errors as std::io::Error, C67.

    Vocabulary: [Errors.v] (the model: [to_io], [from_io], [cause], [need_bytes]),
    [ErrSpec.v] ([derived_read], [has], [reported], the causes of errors). *)
From Verif Require Import Base Stream Reader Writer Prims Containers Derive DeriveSpec ErrSpec NeedSpec Errors ErrorProps P_Derive P_Err.

(** What a program that sees the kind of the io::Error only can conclude.  From a slice:
    [UnexpectedEof] is an input that is too short, [InvalidData] one that is wrong,
    [InvalidInput] a size or position that cannot be. *)
Theorem C67_from_bytes : forall cu fuel t input bit e, derived_read t -> (forall e, ~ has true (map_fails e) nowhere t) ->
  from_bytes cu fuel t input bit = Err e ->
  match io_kind (to_io e) with
  | UnexpectedEof => exists n, e = Incomplete n
  | InvalidData => e = Parse \/ e = Assertion /\ has true can_assert nowhere t
  | InvalidInput => e = InvalidParam /\ has true bad_pad nowhere t \/ e = Io InvalidInput /\ has true seeks struct_seeks t
  | _ => False
  end.
Proof. exact bytes_kind. Qed.
Print Assumptions C67_from_bytes.
(** From any source: that, or the source reported an error of this kind (or it cannot
    seek). *)
Theorem C67_from_reader : forall cu fuel t s bit e s', derived_read t -> (forall e, ~ has true (map_fails e) nowhere t) -> bit < 8 \/ s_noseek s = None ->
  from_reader cu fuel t s bit = (Err e, s') ->
  reported s s' (io_kind (to_io e)) \/
  match io_kind (to_io e) with
  | UnexpectedEof => exists n, e = Incomplete n
  | InvalidData => e = Parse \/ e = Assertion /\ has true can_assert nowhere t
  | InvalidInput => e = InvalidParam /\ has true bad_pad nowhere t \/ e = Io InvalidInput /\ has true seeks struct_seeks t
  | OtherKind n => n = 0 /\ s_noseek s <> None
  | _ => False
  end.
Proof. exact reader_kind. Qed.
Print Assumptions C67_from_reader.
(** struct { #[deku(assert = "*a < 3")] a: u8, #[deku(pad_bits_before = "8 * (a - 1)")] b: u8, #[deku(seek_from_current = "-b")] c: u8, #[deku(bits = 4)] d: u8 } *)
Definition Kinds : ty := TStruct cplain
  (field (asserting (fun _ fs _ => (nth_num fs 0 <? 3)%N) plain) u8
  (field (padded_by (fun ctx fs => (8 * (at_field 0 ctx fs - 1))%Z) plain) u8
  (field (seeking (fun ctx fs => Some (SeekCurrent (- at_field 1 ctx fs)%Z)) plain) u8
  (field (bits 4 plain) u8 FNil)))).
Definition kind_of {A} (x : res A) : option iokind := match x with Err e => Some (io_kind (to_io e)) | _ => None end.
Example C67_reads_case : derived_read Kinds /\ (forall e, ~ has true (map_fails e) nowhere Kinds) /\
  kind_of (from_bytes no_customs 9 Kinds [x01; x00; x05] 0) = Some UnexpectedEof /\
  kind_of (from_bytes no_customs 9 Kinds [x03] 0) = Some InvalidData /\
  kind_of (from_bytes no_customs 9 Kinds [x00; x00] 0) = Some InvalidInput /\
  kind_of (from_bytes no_customs 9 Kinds [x01; x09; x00] 0) = Some InvalidInput /\
  kind_of (fst (from_reader no_customs 9 Kinds (s_virt (cursor [x02; x00; x00]) (Some 0)) 0)) = Some (OtherKind 0) /\
  kind_of (fst (from_reader no_customs 9 Kinds (failing (cursor [x01; x00; x05; x06; x07])) 0)) = Some (OtherKind 7).
Proof.
  split; [unfold derived_read, Kinds, hand_read; cbn; intuition congruence|]. split.
  - intros e. unfold Kinds, map_fails, nowhere. cbn. intros H. repeat (destruct H as [H|H]; try contradiction); destruct H as (f & ? & ? & ? & ? & H & _); discriminate.
  - repeat split; vm_compute; reflexivity.
Qed.

(** On writing. *)
Theorem C67_to_bytes : forall cu t v e, derived_write t -> to_bytes cu t v = Err e ->
  match io_kind (to_io e) with
  | InvalidData => e = Assertion /\ has false can_assert nowhere t
  | InvalidInput => e = InvalidParam /\ has false (fun a t => bad_pad a t \/ field_sized a t) id_sized t \/ e = Io InvalidInput /\ has false seeks struct_seeks t
  | _ => False
  end.
Proof. exact vec_kind. Qed.
Print Assumptions C67_to_bytes.
(** [WriteZero] is a slice that is too short. *)
Theorem C67_to_slice : forall cu t v buf e buf', derived_write t -> to_slice cu t v buf = (Err e, buf') ->
  match io_kind (to_io e) with
  | InvalidData => e = Assertion /\ has false can_assert nowhere t
  | InvalidInput => e = InvalidParam /\ has false (fun a t => bad_pad a t \/ field_sized a t) id_sized t \/ e = Io InvalidInput /\ has false seeks struct_seeks t
  | WriteZero => e = Io WriteZero
  | _ => False
  end.
Proof. exact slice_kind. Qed.
Print Assumptions C67_to_slice.
Example C67_writes_case : derived_write Kinds /\
  kind_of (to_bytes no_customs Kinds (VRec [VNum 3; VNum 0; VNum 5; VNum 7])) = Some InvalidData /\
  kind_of (to_bytes no_customs Kinds (VRec [VNum 1; VNum 0; VNum 5; VNum 16])) = Some InvalidInput /\
  kind_of (to_bytes no_customs Kinds (VRec [VNum 1; VNum 9; VNum 5; VNum 7])) = Some InvalidInput /\
  kind_of (fst (to_slice no_customs Kinds (VRec [VNum 1; VNum 0; VNum 5; VNum 7]) [xaa; xaa])) = Some WriteZero.
Proof.
  split; [unfold derived_write, Kinds, hand_written; cbn; intuition congruence|]. repeat split; vm_compute; reflexivity.
Qed.

(** The error is not lost in the io::Error ([get_ref]) where there is std; the kind is the
    same without.  An io::Error that becomes an error of deku again, as at the end of a
    [?] in a hand-written reader, is [Io] with the kind: the same only if it was [Io]. *)
Theorem C67_wrapped : forall e, io_inner (to_io e) = Some e /\ io_kind (to_io_nostd e) = io_kind (to_io e) /\
  from_io (to_io e) = Io (io_kind (to_io e)) /\ (from_io (to_io e) = e <-> exists k, e = Io k).
Proof. exact wrapped. Qed.
Print Assumptions C67_wrapped.
(** So a failed assertion looks like a value that cannot be parsed, and what is missing
    in an inner value cannot be asked for. *)
Theorem C67_there_and_back_refuted : exists e e' n, e <> e' /\ to_io e <> to_io e' /\ from_io (to_io e) = from_io (to_io e') /\
  from_io (to_io (Incomplete n)) <> Incomplete n.
Proof. exists Parse, Assertion, 8. repeat split; discriminate. Qed.
Print Assumptions C67_there_and_back_refuted.

(** [NeedSize::byte_size] is the least number of bytes that has the bits. *)
Theorem C67_need : forall bits, bits <= 8 * need_bytes bits /\ forall k, bits <= 8 * k -> need_bytes bits <= k.
Proof. exact need_bytes_least. Qed.
Print Assumptions C67_need.
(** It is the size the theorems about [Incomplete] use (C55). *)
Theorem C67_need_size : forall bits, need_bytes bits = byte_size bits.
Proof. exact need_bytes_size. Qed.
Print Assumptions C67_need_size.
Example C67_need_case : need_bytes 0 = 0 /\ need_bytes 1 = 1 /\ need_bytes 8 = 1 /\ need_bytes 9 = 2.
Proof. repeat split. Qed.

(** A program that reports an error and its causes, as [Error::cause] gives them, does not
    come to an end: an error is its own cause.  ([Error::source] gives none.) *)
Fixpoint nth_cause (n : nat) (e : derr) : option derr :=
  match n with O => Some e | S m => match cause e with Some e' => nth_cause m e' | None => None end end.
Theorem C67_cause_refuted : exists e, forall n, nth_cause n e <> None.
Proof. exists Parse. induction n as [|n IH]; [discriminate|exact IH]. Qed.
Print Assumptions C67_cause_refuted.
