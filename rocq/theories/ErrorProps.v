(** Proofs about the conversions of errors. *)
From Coq Require Import Lia ZifyBool ZifyNat.
From Verif Require Import Base Stream Reader Writer Prims Containers Derive ErrSpec ErrRead ErrWrite NeedSpec Errors.

Ltac Zify.zify_post_hook ::= Z.div_mod_to_equations.

Theorem need_bytes_least bits : bits <= 8 * need_bytes bits /\ forall k, bits <= 8 * k -> need_bytes bits <= k.
Proof. unfold need_bytes. destruct (Nat.eqb_spec (bits mod 8) 0); split; try intros k; lia. Qed.
Theorem need_bytes_size bits : need_bytes bits = byte_size bits.
Proof. unfold need_bytes, byte_size. destruct (Nat.eqb_spec (bits mod 8) 0); lia. Qed.

Theorem bytes_kind cu fuel t input bit e : derived_read t -> (forall e, ~ has true (map_fails e) nowhere t) ->
  from_bytes cu fuel t input bit = Err e ->
  match io_kind (to_io e) with
  | UnexpectedEof => exists n, e = Incomplete n
  | InvalidData => e = Parse \/ e = Assertion /\ has true can_assert nowhere t
  | InvalidInput => e = InvalidParam /\ has true bad_pad nowhere t \/ e = Io InvalidInput /\ has true seeks struct_seeks t
  | _ => False
  end.
Proof.
  intros Hd Hm E. apply (from_bytes_cause cu fuel t input bit e Hd) in E. destruct E as [E|E]; [|now destruct (Hm e)].
  destruct e as [n| | | | |k]; cbn [to_io io_kind]; cbn in E; auto; [now exists n|]. destruct E as [-> E]. auto.
Qed.
Theorem reader_kind cu fuel t s bit e s' : derived_read t -> (forall e, ~ has true (map_fails e) nowhere t) -> bit < 8 \/ s_noseek s = None ->
  from_reader cu fuel t s bit = (Err e, s') ->
  reported s s' (io_kind (to_io e)) \/
  match io_kind (to_io e) with
  | UnexpectedEof => exists n, e = Incomplete n
  | InvalidData => e = Parse \/ e = Assertion /\ has true can_assert nowhere t
  | InvalidInput => e = InvalidParam /\ has true bad_pad nowhere t \/ e = Io InvalidInput /\ has true seeks struct_seeks t
  | OtherKind n => n = 0 /\ s_noseek s <> None
  | _ => False
  end.
Proof.
  intros Hd Hm Hb E. apply (from_reader_cause cu fuel t s bit e s' Hd Hb) in E. destruct E as [E|E]; [|now destruct (Hm e)].
  destruct e as [n| | | | |k]; cbn [to_io io_kind]; cbn in E; [right; now exists n|right; now left|right; left; now split|right; right; now split|contradiction|].
  destruct E as [E|E]; [now left|]. right. destruct (s_noseek s) as [x|]; destruct E as [-> E]; [split; [reflexivity|discriminate]|auto].
Qed.
Theorem slice_kind cu t v buf e buf' : derived_write t -> to_slice cu t v buf = (Err e, buf') ->
  match io_kind (to_io e) with
  | InvalidData => e = Assertion /\ has false can_assert nowhere t
  | InvalidInput => e = InvalidParam /\ has false (fun a t => bad_pad a t \/ field_sized a t) id_sized t \/ e = Io InvalidInput /\ has false seeks struct_seeks t
  | WriteZero => e = Io WriteZero
  | _ => False
  end.
Proof.
  intros Hd E. apply (to_slice_cause cu t v buf e buf' Hd) in E. destruct E as [E| ->]; [|reflexivity].
  destruct e as [n| | | | |k]; cbn [to_io io_kind]; cbn in E; try contradiction; auto. destruct E as [-> E]. auto.
Qed.
Theorem vec_kind cu t v e : derived_write t -> to_bytes cu t v = Err e ->
  match io_kind (to_io e) with
  | InvalidData => e = Assertion /\ has false can_assert nowhere t
  | InvalidInput => e = InvalidParam /\ has false (fun a t => bad_pad a t \/ field_sized a t) id_sized t \/ e = Io InvalidInput /\ has false seeks struct_seeks t
  | _ => False
  end.
Proof.
  intros Hd E. apply (to_bytes_cause cu t v e Hd) in E.
  destruct e as [n| | | | |k]; cbn [to_io io_kind]; cbn in E; try contradiction; auto. destruct E as [-> E]. auto.
Qed.
Theorem wrapped e : io_inner (to_io e) = Some e /\ io_kind (to_io_nostd e) = io_kind (to_io e) /\
  from_io (to_io e) = Io (io_kind (to_io e)) /\ (from_io (to_io e) = e <-> exists k, e = Io k).
Proof.
  split; [reflexivity|]. split; [now destruct e|]. split; [reflexivity|]. split.
  - intros <-. eexists. reflexivity.
  - intros [k ->]. reflexivity.
Qed.
