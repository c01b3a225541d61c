(** Properties of [deku_id], C51.

    Vocabulary: [Derive.v] ([deku_id], [read_ty], [write_ty], selectors), [DeriveSpec.v]
    ([matches_at], [default_at]), [DeriveProps.v] ([id_reader]: magic, then the id). *)
From Verif Require Import Base Stream Reader Writer MonadFacts Prims Containers Derive DeriveSpec DeriveProps P_Derive IdFacts.

(** It is the id that the variant declares, and an error for every other variant. *)
Theorem C51_declared : forall vs k x, deku_id vs k = Ok x <-> exists v fs, nth_variant vs k = Some (v, fs) /\ v_sel v = SId x.
Proof. exact deku_id_ok. Qed.
Print Assumptions C51_declared.
Theorem C51_otherwise : forall vs k, (forall x, deku_id vs k <> Ok x) -> deku_id vs k = Err IdVariantNotFound.
Proof. exact deku_id_err. Qed.
Print Assumptions C51_otherwise.
(** It is what was read in front of the variant, unless the variant is the default and
    the id that was read matches no variant. *)
Theorem C51_read_partial : forall cu fuel e idt vs args k l r r' x,
  read_ty cu fuel (TEnum e idt vs) None args r = (Ok (VVar k l), r') -> deku_id vs k = Ok x ->
  exists id r1, id_reader cu fuel e idt args r = (Ok id, r1) /\ (id = x \/ (default_at vs k /\ forall j, ~ matches_at vs id j)).
Proof. exact deku_id_read. Qed.
Print Assumptions C51_read_partial.
(** It is what is written in front of the fields, on every sink. *)
Theorem C51_written : forall cu e idt vs args k l x w, en_id e = None -> deku_id vs k = Ok x ->
  exists v fs, nth_variant vs k = Some (v, fs) /\
  write_ty cu (TEnum e idt vs) args (VVar k l) w =
  (let* _ := write_magic (c_magic (en_c e)) in
   let* _ := write_ty cu idt (id_args e (ctx_args (en_c e) args)) x in
   fields_write cu (en_c e) (ctx_args (en_c e) args) fs None l l []) w.
Proof. exact deku_id_written. Qed.
Print Assumptions C51_written.
Example C51_case : exists e vs, Kind = TEnum e u8 vs /\ en_id e = None /\ deku_id vs 1 = Ok (VNum 2) /\ deku_id vs 2 = Err IdVariantNotFound /\
  to_bytes no_customs Kind (VVar 1 [VNum 7]) = Ok [x02; x00; x00; x00; x07] /\
  from_bytes no_customs 9 Kind [x02; x00; x00; x00; x07] 0 = Ok (([], 0), VVar 1 [VNum 7]).
Proof. do 2 eexists. split; [reflexivity|]. repeat split; vm_compute; reflexivity. Qed.

(** #[repr(u8)] #[deku(id_type = "u8")] enum Plain { A = 1, B = 2 }: ids are read and
    written, yet [deku_id] gives an error. *)
Definition plain_variants : variants := VCons (mkV (SDisc (VNum 1)) false) FNil (VCons (mkV (SDisc (VNum 2)) false) FNil VNil).
Theorem C51_discriminant_refuted : exists v b k, to_bytes no_customs (TEnum (mkE big None None None None) u8 plain_variants) v = Ok b /\
  from_bytes no_customs 9 (TEnum (mkE big None None None None) u8 plain_variants) b 0 = Ok (([], 0), v) /\ v = VVar k [] /\
  deku_id plain_variants k = Err IdVariantNotFound.
Proof. exists (VVar 1 []), [x02], 1. repeat split; vm_compute; reflexivity. Qed.
Print Assumptions C51_discriminant_refuted.
(** #[deku(id = 1)] A, #[deku(id = 2, default)] B { x: u8 }: id 9 is read, [deku_id] says 2. *)
Definition default_variants : variants := VCons (mkV (SId (VNum 1)) false) FNil (VCons (mkV (SId (VNum 2)) true) (field plain u8 FNil) VNil).
Theorem C51_default_refuted : exists k, from_bytes no_customs 9 (TEnum (mkE big None None None None) u8 default_variants) [x09; x2a] 0 = Ok (([], 0), VVar k [VNum 42]) /\
  deku_id default_variants k = Ok (VNum 2).
Proof. exists 1. split; vm_compute; reflexivity. Qed.
Print Assumptions C51_default_refuted.
