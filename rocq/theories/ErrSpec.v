(** Where errors come from: the vocabulary of C58.  No proofs here. *)
From Verif Require Import Base Stream Reader Writer Prims Containers Derive.

(** ** Parts of a type *)

(** Whether a type has, at any depth, a field with [F] (of the attributes and the declared
    type) or a type with [N].  Reading goes through the type that is read (the argument
    of [map]), writing through the declared one. *)
Inductive node : Type := Struct (c : cattrs) | Enum (e : eattrs) | Custom (k : nat).
Section Has.
Variables (reading : bool) (F : fattrs -> ty -> Prop) (N : node -> Prop).
Fixpoint has (t : ty) : Prop :=
  match t with
  | TOption t | TArray _ t | TVec _ _ t => has t
  | TPair a b => has a \/ has b
  | TStruct c fs => N (Struct c) \/ fields_have fs
  | TEnum e idt vs => N (Enum e) \/ has idt \/ variants_have vs
  | TCustom k => N (Custom k)
  | _ => False
  end
with fields_have (fs : fields) : Prop :=
  match fs with
  | FNil => False
  | FCons a t wire tl => F a t \/ (if reading then has wire else has t) \/ fields_have tl
  end
with variants_have (vs : variants) : Prop :=
  match vs with
  | VNil => False
  | VCons _ fs tl => fields_have fs \/ variants_have tl
  end.
End Has.

(** Hand-written code: the attributes [reader] and [writer], hand-written impls. *)
Definition hand_read (a : fattrs) (t : ty) : Prop := a_reader a <> None.
Definition hand_written (a : fattrs) (t : ty) : Prop := a_writer a <> None.
Definition nowhere (n : node) : Prop := False.
Definition any_custom (n : node) : Prop := match n with Custom _ => True | _ => False end.
Definition derived_read (t : ty) : Prop := ~ has true hand_read any_custom t.
Definition derived_write (t : ty) : Prop := ~ has false hand_written any_custom t.

(** An assertion that can fail. *)
Definition can_assert (a : fattrs) (t : ty) : Prop :=
  (exists f ctx fs off, a_assert a = Some f /\ f ctx fs off = false) \/ a_assert_eq a <> None.
(** Padding, and padding of a size that is no usize. *)
Definition pads (a : fattrs) (t : ty) : Prop := a_pad_before a <> None \/ a_pad_after a <> None.
Definition bad_pad (a : fattrs) (t : ty) : Prop :=
  exists f ctx fs, (a_pad_before a = Some f \/ a_pad_after a = Some f) /\ ~ (0 <= f ctx fs < 2 ^ 64)%Z.
(** A seek attribute; a [Vec<u8>] with a count. *)
Definition seeks (a : fattrs) (t : ty) : Prop := a_seek a <> None.
Definition struct_seeks (n : node) : Prop := match n with Struct c => c_seek c <> None | _ => False end.
Definition counts_bytes (a : fattrs) (t : ty) : Prop := is_vec_u8 t = true /\ exists f, a_limit a = Some (FCount f).
(** A size: [bits], [bytes] or in the arguments of [ctx]; of the id of an enum. *)
Definition sized (args : list value) : Prop := exists n, In (VBits n) args \/ In (VBytes n) args.
Definition field_sized (a : fattrs) (t : ty) : Prop := a_bits a <> None \/ a_bytes a <> None \/ exists ctx fs off, sized (a_ctx a ctx fs off).
Definition id_sized (n : node) : Prop := match n with Enum e => en_bits e <> None \/ en_bytes e <> None | _ => False end.
(** A [map] function that returns the error [e]; an [update] expression that does. *)
Definition map_fails (e : derr) (a : fattrs) (t : ty) : Prop := exists f ctx fs off v, a_map a = Some f /\ f ctx fs off v = Err e.
Definition update_fails (e : derr) (a : fattrs) (t : ty) : Prop := exists f fs, a_update a = Some f /\ f fs = Err e.

(** ** Causes of errors *)

(** The source reported the error [k] in one of the calls between two states. *)
Definition reported (s s' : stream) (k : iokind) : Prop := exists j n, s_calls s <= j < s_calls s' /\ s_fault s j = Some (k, n).
(** An error of reading the type [t] from the source [s] that is left as [s']. *)
Definition read_cause (t : ty) (s s' : stream) (e : derr) : Prop :=
  match e with
  | Incomplete _ | Parse => True
  | Assertion => has true can_assert nowhere t
  | InvalidParam => has true bad_pad nowhere t
  | IdVariantNotFound => False
  | Io k =>
      reported s s' k \/
      match s_noseek s with
      | None => k = InvalidInput /\ has true seeks struct_seeks t
      | Some _ => k = OtherKind 0 /\ has true (fun a t => seeks a t \/ pads a t \/ counts_bytes a t) struct_seeks t
      end
  end \/ has true (map_fails e) nowhere t.
(** An error of reading the type [t] from a byte slice. *)
Definition slice_cause (t : ty) (e : derr) : Prop :=
  match e with
  | Incomplete _ | Parse => True
  | Assertion => has true can_assert nowhere t
  | InvalidParam => has true bad_pad nowhere t
  | IdVariantNotFound => False
  | Io k => k = InvalidInput /\ has true seeks struct_seeks t
  end \/ has true (map_fails e) nowhere t.
(** An error of writing a value of the type [t] to the sink [k] that is left as [k']. *)
Definition sink_reported (k k' : sink) (x : iokind) : Prop := exists j n, k_calls k <= j < k_calls k' /\ k_fault k j = Some (x, n).
Definition write_cause (t : ty) (k k' : sink) (e : derr) : Prop :=
  match e with
  | Incomplete _ | Parse | IdVariantNotFound => False
  | Assertion => has false can_assert nowhere t
  | InvalidParam => has false (fun a t => bad_pad a t \/ field_sized a t) id_sized t
  | Io x =>
      sink_reported k k' x \/ (x = WriteZero /\ k_fixed k = true) \/
      (x = match k_noseek k with None => InvalidInput | Some _ => OtherKind 0 end /\ has false seeks struct_seeks t)
  end.
(** An error of writing a value of the type [t] to a Vec; to a slice. *)
Definition vec_cause (t : ty) (e : derr) : Prop :=
  match e with
  | Incomplete _ | Parse | IdVariantNotFound => False
  | Assertion => has false can_assert nowhere t
  | InvalidParam => has false (fun a t => bad_pad a t \/ field_sized a t) id_sized t
  | Io x => x = InvalidInput /\ has false seeks struct_seeks t
  end.
(** An error of [update]: a field of the struct, or of the variant. *)
Fixpoint some_field (F : fattrs -> ty -> Prop) (fs : fields) : Prop :=
  match fs with FNil => False | FCons a t _ tl => F a t \/ some_field F tl end.
Definition update_cause (t : ty) (v : value) (e : derr) : Prop :=
  match t, v with
  | TStruct _ fs, _ => some_field (update_fails e) fs
  | TEnum _ _ vs, VVar k _ => match nth_variant vs k with Some (_, fs) => some_field (update_fails e) fs | None => False end
  | _, _ => False
  end.
