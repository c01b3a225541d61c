(** Two versions of a format, C75: enum variants added at the end.

    Vocabulary: [CompatSpec.v] ([extends grown t t']: the declaration [t'] is [t] with
    variants added at the end of enums, at any depth; with [grown], the elements of
    vectors may need more memory), [Derive.v] (the API), [SafeSpec.v] ([typed]: the values
    of the Rust type), [FlowSpec.v] ([flow_type]: the types that C49 shows to be free of
    panics). *)
From Coq Require Import Lia.
From Verif Require Import Base Spec Stream Reader Session Prims Containers ContainerSpec Derive DeriveSpec SafeSpec DeriveSafe FlowSpec FlowFacts CompatSpec CompatFacts P_Derive P_Safe.

(** Whatever the input and wherever the old version starts, the new one does the same, or the
    old one refuses with [Parse]. *)
Theorem C75_from_reader : forall cu fuel t t' s bit, extends false t t' ->
  from_reader cu fuel t' s bit = from_reader cu fuel t s bit \/ fst (from_reader cu fuel t s bit) = Err Parse.
Proof. exact compat_reader_same. Qed.
Print Assumptions C75_from_reader.
Theorem C75_try_from : forall cu fuel t t' input, extends false t t' ->
  try_from cu fuel t' input = try_from cu fuel t input \/ try_from cu fuel t input = Err Parse.
Proof. exact compat_try_from_same. Qed.
Print Assumptions C75_try_from.
(** Old messages: what the old version reads, the new version reads, to the same value and
    with the same rest.  If the elements have grown in memory, a vector may be too large for
    the memory; not so for the types of C49. *)
Theorem C75_old_messages : forall cu fuel grown t t' input bit x, extends grown t t' -> from_bytes cu fuel t input bit = Ok x ->
  grown = false \/ (flow_type cu t' /\ bit < 8 /\ 8 * length input + 8 < fuel) -> from_bytes cu fuel t' input bit = Ok x.
Proof. exact compat_backward. Qed.
Print Assumptions C75_old_messages.
(** New messages: what the new version reads, the old version reads alike or refuses; it
    never takes a message for another one. *)
Theorem C75_new_messages : forall cu fuel grown t t' input bit x, extends grown t t' -> from_bytes cu fuel t' input bit = Ok x ->
  from_bytes cu fuel t input bit = Ok x \/ from_bytes cu fuel t input bit = Err Parse.
Proof. exact compat_forward. Qed.
Print Assumptions C75_new_messages.
(** A message with a new variant anywhere in it is refused. *)
Theorem C75_new_variant : forall cu fuel grown t t' input bit rest v, extends grown t t' -> flow_type cu t -> bit < 8 -> 8 * length input + 8 < fuel ->
  from_bytes cu fuel t' input bit = Ok (rest, v) -> ~ typed t v -> from_bytes cu fuel t input bit = Err Parse.
Proof. exact compat_refused. Qed.
Print Assumptions C75_new_variant.
(** Writing: the values of the old version are values of the new one and are written alike,
    whatever has been written before. *)
Theorem C75_values : forall grown t t' v, extends grown t t' -> typed t v -> typed t' v.
Proof. intros grown. exact (proj1 (compat_typed grown)). Qed.
Print Assumptions C75_values.
Theorem C75_writer : forall cu grown t t' args v w, extends grown t t' ->
  fst (write_ty cu t args v w) <> Panic -> write_ty cu t' args v w = write_ty cu t args v w.
Proof. intros cu grown. exact (compat_writer grown cu). Qed.
Print Assumptions C75_writer.
Theorem C75_to_bytes : forall cu grown t t' v, extends grown t t' -> to_bytes cu t v <> Panic -> to_bytes cu t' v = to_bytes cu t v.
Proof. intros cu grown. exact (compat_to_bytes grown cu). Qed.
Print Assumptions C75_to_bytes.
Theorem C75_to_slice : forall cu grown t t' v buf, extends grown t t' -> fst (to_slice cu t v buf) <> Panic -> to_slice cu t' v buf = to_slice cu t v buf.
Proof. intros cu grown. exact (compat_to_slice grown cu). Qed.
Print Assumptions C75_to_slice.
Theorem C75_to_bits : forall cu grown t t' v, extends grown t t' -> to_bits cu t v <> Panic -> to_bits cu t' v = to_bits cu t v.
Proof. intros cu grown. exact (compat_to_bits grown cu). Qed.
Print Assumptions C75_to_bits.
Theorem C75_update : forall grown t t' v, extends grown t t' -> update t v <> Panic -> update t' v = update t v.
Proof. exact compat_update. Qed.
Print Assumptions C75_update.
Theorem C75_deku_id : forall grown e idt vs e' idt' vs' k, extends grown (TEnum e idt vs) (TEnum e' idt' vs') -> nth_variant vs k <> None ->
  deku_id vs' k = deku_id vs k.
Proof. intros grown e idt vs e' idt' vs' k (_ & _ & H). exact (compat_deku_id grown vs false vs' k H). Qed.
Print Assumptions C75_deku_id.

(** Kind of [P_Derive.v] with two variants more, and a list of them:
      enum Kind2 { .. as Kind .., #[deku(id = 3)] D { a: u64, b: u64 }, #[deku(id_pat = "_")] Other { id: u8 } }
      struct Kinds { n: u8, #[deku(count = "n")] kinds: Vec<Kind> } *)
Definition Kind2 : ty :=
  TEnum (mkE big None None None None) u8
    (VCons (mkV (SId (VNum 1)) false) FNil
    (VCons (mkV (SId (VNum 2)) false) (field plain u32 FNil)
    (VCons (mkV (SPat (fun v => (10 <=? num v)%N && (num v <=? 20)%N) None) false) (field plain u8 (field plain u8 FNil))
    (VCons (mkV (SId (VNum 3)) false) (field plain (TPrim (PU 8)) (field plain (TPrim (PU 8)) FNil))
    (VCons (mkV (SPat (fun _ => true) None) false) (field plain u8 FNil)
    VNil))))).
Definition KindsOf (size : N) (kind : ty) : ty :=
  TStruct cplain (field plain u8 (field (limited (count_of 0) plain) (TVec KVec size kind) FNil)).
Definition Kinds : ty := KindsOf 8 Kind.
Definition Kinds2 : ty := KindsOf 24 Kind2.
Example C75_case : extends false Kind Kind2 /\ extends true Kinds Kinds2 /\ extends false (KindsOf 24 Kind) Kinds2.
Proof. cbn. repeat split; try reflexivity; lia. Qed.
Example C75_case_safe : flow_type no_customs Kinds /\ flow_type no_customs Kinds2.
Proof.
  split; apply safe_flow; exists false; unfold Kinds, Kinds2, KindsOf, Kind, Kind2; cbn; repeat safe_step;
    destruct v; try contradiction; unfold nth_num; cbn [nth num]; rewrite to_usize_small by lia; rewrite N2Z.id;
    (eexists; split; [reflexivity|]); (split; [|repeat safe_step]); (split; [cbn; unfold isize_max; lia|]); (split; [cbn; tauto|discriminate]).
Qed.
(** An old message and a new one. *)
Example C75_case_read :
  from_bytes no_customs 100 Kinds [x02; x01; x0c; x07; xee] 0 = Ok (([xee], 0), VRec [VNum 2; VList [VVar 0 []; VVar 2 [VNum 12; VNum 7]]]) /\
  from_bytes no_customs 100 Kinds2 [x02; x01; x0c; x07; xee] 0 = Ok (([xee], 0), VRec [VNum 2; VList [VVar 0 []; VVar 2 [VNum 12; VNum 7]]]) /\
  from_bytes no_customs 100 Kinds2 [x02; x01; x0d; x63; xee] 0 = Ok (([xee], 0), VRec [VNum 2; VList [VVar 0 []; VVar 2 [VNum 13; VNum 0x63]]]) /\
  from_bytes no_customs 100 Kinds2 [x02; x01; x63; xee] 0 = Ok (([xee], 0), VRec [VNum 2; VList [VVar 0 []; VVar 4 [VNum 0x63]]]) /\
  from_bytes no_customs 100 Kinds [x02; x01; x63; xee] 0 = Err Parse /\
  ~ typed Kinds (VRec [VNum 2; VList [VVar 0 []; VVar 4 [VNum 0x63]]]).
Proof.
  do 5 (split; [vm_compute; reflexivity|]). cbn. intros (_ & (F & _) & _). inversion F as [|? ? _ F']; subst. now inversion F'.
Qed.
Example C75_case_write : let v := VRec [VNum 2; VList [VVar 0 []; VVar 2 [VNum 12; VNum 7]]] in
  to_bytes no_customs Kinds v = Ok [x02; x01; x0c; x07] /\ to_bytes no_customs Kinds2 v = Ok [x02; x01; x0c; x07].
Proof. split; reflexivity. Qed.

(** With a [default] variant it is not so: an id that the old version gave to the default
    variant belongs to the added one, and the same bytes are two different messages.
      enum Fallback { #[deku(id = 1)] A, #[deku(id = 2, default)] Unknown { x: u8 } }   + #[deku(id = 3)] New { y: u8 } *)
Definition FallbackOf (more : variants) : ty :=
  TEnum (mkE cplain None None None None) u8
    (VCons (mkV (SId (VNum 1)) false) FNil (VCons (mkV (SId (VNum 2)) true) (field plain u8 FNil) more)).
Theorem C75_default_refuted : exists new input rest v v', v <> v' /\ forall fuel,
  from_bytes no_customs fuel (FallbackOf VNil) input 0 = Ok (rest, v) /\ from_bytes no_customs fuel (FallbackOf new) input 0 = Ok (rest, v').
Proof.
  exists (VCons (mkV (SId (VNum 3)) false) (field plain u8 FNil) VNil), [x03; x07], ([], 0), (VVar 1 [VNum 7]), (VVar 2 [VNum 7]).
  split; [discriminate|]. intros fuel. split; reflexivity.
Qed.
Print Assumptions C75_default_refuted.
(** Nor if the variant is put in front of one whose pattern includes its id. *)
Definition RangeOf (front : variants -> variants) : ty :=
  TEnum (mkE cplain None None None None) u8
    (VCons (mkV (SId (VNum 1)) false) FNil (front (VCons (mkV (SPat (fun _ => true) None) false) (field plain u8 FNil) VNil))).
Theorem C75_in_front_refuted : exists v, forall fuel,
  from_bytes no_customs fuel (RangeOf (fun vs => vs)) [x03] 0 = Ok (([], 0), VVar 1 [VNum 3]) /\
  from_bytes no_customs fuel (RangeOf (VCons v FNil)) [x03] 0 = Ok (([], 0), VVar 1 []).
Proof. exists (mkV (SId (VNum 3)) false). intros fuel. split; reflexivity. Qed.
Print Assumptions C75_in_front_refuted.
