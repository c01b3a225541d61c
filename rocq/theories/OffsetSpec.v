(** What deku::bit_offset stands for: the vocabulary of C63. *)
From Verif Require Import Base Spec Stream Reader Writer Prims Containers Derive.

(** The attributes [a] with [n] for deku::bit_offset (and [n / 8] for
    deku::byte_offset) in every expression. *)
Definition at_offset (n : nat) (a : fattrs) : fattrs :=
  {| a_endian := a_endian a; a_order := a_order a; a_bits := a_bits a; a_bytes := a_bytes a;
     a_ctx := fun ctx fs _ => a_ctx a ctx fs n;
     a_limit := option_map (fun l => match l with
                                     | FCount f => FCount (fun ctx fs _ => f ctx fs n)
                                     | FBytes f => FBytes (fun ctx fs _ => f ctx fs n)
                                     | FBits f => FBits (fun ctx fs _ => f ctx fs n)
                                     | FUntil f => FUntil (fun ctx fs _ => f ctx fs n)
                                     | FAll => FAll
                                     end) (a_limit a);
     a_map := option_map (fun f ctx fs _ => f ctx fs n) (a_map a);
     a_reader := option_map (fun f ctx fs _ => f ctx fs n) (a_reader a);
     a_writer := option_map (fun f st ctx fs _ => f st ctx fs n) (a_writer a);
     a_skip := a_skip a;
     a_cond := option_map (fun f ctx fs _ => f ctx fs n) (a_cond a);
     a_default := fun ctx fs _ => a_default a ctx fs n;
     a_assert := option_map (fun f ctx fs _ => f ctx fs n) (a_assert a);
     a_assert_eq := option_map (fun f ctx fs _ => f ctx fs n) (a_assert_eq a);
     a_seek := a_seek a; a_magic := a_magic a; a_pad_before := a_pad_before a; a_pad_after := a_pad_after a;
     a_temp := a_temp a; a_temp_value := a_temp_value a; a_update := a_update a |}.
(** A field of type () with only what comes before the value of a field with the
    attributes [a]: its seek, its magic and its padding. *)
Definition lead (a : fattrs) : fattrs :=
  {| a_endian := None; a_order := a_order a; a_bits := None; a_bytes := None; a_ctx := fun _ _ _ => [];
     a_limit := None; a_map := None; a_reader := None; a_writer := None; a_skip := None; a_cond := None;
     a_default := fun _ _ _ => VUnit; a_assert := None; a_assert_eq := None; a_seek := a_seek a; a_magic := a_magic a;
     a_pad_before := a_pad_before a; a_pad_after := None; a_temp := false; a_temp_value := None; a_update := None |}.
(** #[deku(skip, default = "deku::bit_offset")]. *)
Definition telling : fattrs :=
  {| a_endian := None; a_order := None; a_bits := None; a_bytes := None; a_ctx := fun _ _ _ => [];
     a_limit := None; a_map := None; a_reader := None; a_writer := None; a_skip := Some SkipAll; a_cond := None;
     a_default := fun _ _ off => VNum (N.of_nat off); a_assert := None; a_assert_eq := None; a_seek := None; a_magic := [];
     a_pad_before := None; a_pad_after := None; a_temp := false; a_temp_value := None; a_update := None |}.
(** Written without a look at later fields: not temporary, and a hand-written writer
    does not use the whole value. *)
Definition own_value (a : fattrs) : Prop :=
  a_temp a = false /\ forall f, a_writer a = Some f -> forall st st', f st = f st'.
(** The variants with other fields in the [k]-th. *)
Fixpoint set_fields (vs : variants) (k : nat) (fs : fields) : variants :=
  match vs, k with
  | VNil, _ => VNil
  | VCons v _ tl, O => VCons v fs tl
  | VCons v gs tl, S k' => VCons v gs (set_fields tl k' fs)
  end.
(** The [k]-th variant is not chosen by [id_pat], whose first field holds the id. *)
Definition no_pattern (vs : variants) (k : nat) : Prop :=
  forall v fs, nth_variant vs k = Some (v, fs) -> match v_sel v with SPat _ _ => False | _ => True end.
