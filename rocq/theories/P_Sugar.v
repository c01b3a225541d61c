(** [endian], [bits], [bytes] and [bit_order] are [ctx] written differently, C71.

    Vocabulary: [SugarSpec.v] ([spelled]: the type with these attributes written out as
    [ctx]; [only_ctx]: none of them is left; [spellable]: what can be written out;
    [spelled_struct], [padding_spellable]: the same for a declaration). *)
From Verif Require Import Base Stream Reader Writer Prims Containers Derive DeriveSpec Decl SugarSpec Sugar P_Derive P_Decl.

(** ** Examples *)

Definition const0 {A} (x : A) : option (expr0 A) := Some (fun _ _ => x).
Definition sized (e : option endian) (o : option order) (b : option nat) (pad : option Z) (arg : list value) : fattrs :=
  mkF (match e with Some x => const0 x | None => None end) (match o with Some x => const0 x | None => None end)
    (match b with Some x => const0 x | None => None end) None (fun _ _ _ => arg) None None None None None None (fun _ _ _ => VUnit)
    None None None [] (match pad with Some x => const0 x | None => None end) None false None None.
Definition c_with (e : option endian) (o : option order) : cattrs :=
  mkC (match e with Some x => const0 x | None => None end) (match o with Some x => const0 x | None => None end) [] None None.
Definition u16 : ty := TPrim (PU 2).
(** #[deku(endian = "big")] struct { #[deku(bits = 12)] a: u16, b: [u16; 1], #[deku(endian = "little", bits = 4)] c: u8 } *)
Definition sugared : ty :=
  TStruct (c_with (Some Big) None)
    (FCons (sized None None (Some 12) None []) u16 u16 (FCons (sized None None None None []) (TArray 1 u16) (TArray 1 u16)
      (FCons (sized (Some Little) None (Some 4) None []) u8 u8 FNil))).
Definition id_enum (e : option endian) : ty :=
  TEnum (mkE (c_with e None) None None None None) u16
    (VCons (mkV (SId (VNum 1)) false) (FCons (sized None None None None []) u16 u16 FNil)
      (VCons (mkV (SPat (fun _ => true) None) false) (FCons (sized None None None None []) u16 u16 FNil) VNil)).

(** ** Written out *)

Theorem C71_written_out : forall t, only_ctx (spelled t) = true.
Proof. exact (proj1 spelled_only_ctx). Qed.
Print Assumptions C71_written_out.
Example C71_written_out_case : only_ctx sugared = false /\ spelled sugared =
  TStruct (c_with None None)
    (FCons (mkF None None None None (fun _ _ _ => [VEnd Big; VBits 12]) None None None None None None (fun _ _ _ => VUnit) None None None [] None None false None None) u16 u16
    (FCons (mkF None None None None (fun _ _ _ => [VEnd Big]) None None None None None None (fun _ _ _ => VUnit) None None None [] None None false None None) (TArray 1 u16) (TArray 1 u16)
    (FCons (mkF None None None None (fun _ _ _ => [VEnd Little; VBits 4]) None None None None None None (fun _ _ _ => VUnit) None None None [] None None false None None) u8 u8 FNil))).
Proof. split; reflexivity. Qed.

(** Reading is the same: with any arguments and from any state of the reader, and so
    through the API. *)
Theorem C71_reading_partial : forall cu fuel t, spellable t = true ->
  (forall lim args r, read_ty cu fuel (spelled t) lim args r = read_ty cu fuel t lim args r) /\
  (forall s bit, from_reader cu fuel (spelled t) s bit = from_reader cu fuel t s bit) /\
  (forall input bit, from_bytes cu fuel (spelled t) input bit = from_bytes cu fuel t input bit) /\
  (forall input, try_from cu fuel (spelled t) input = try_from cu fuel t input).
Proof. exact spelled_reads. Qed.
Print Assumptions C71_reading_partial.
(** Writing is the same. *)
Theorem C71_writing_partial : forall cu t v, spellable t = true ->
  (forall args w, write_ty cu (spelled t) args v w = write_ty cu t args v w) /\
  to_bytes cu (spelled t) v = to_bytes cu t v /\
  (forall buf, to_slice cu (spelled t) v buf = to_slice cu t v buf) /\
  to_bits cu (spelled t) v = to_bits cu t v.
Proof. exact spelled_writes. Qed.
Print Assumptions C71_writing_partial.
(** Updating and the ids of variants do not look at these attributes. *)
Theorem C71_update : forall t v, update (spelled t) v = update t v.
Proof. exact spelled_update. Qed.
Print Assumptions C71_update.
Theorem C71_deku_id : forall e vs k, deku_id (spelled_variants e vs) k = deku_id vs k.
Proof. exact spelled_deku_id. Qed.
Print Assumptions C71_deku_id.
Example C71_spelled_case : spellable sugared = true /\ spellable (id_enum None) = true /\
  try_from no_customs 50 (spelled sugared) [x12; x34; x56; x78] = Ok (VRec [VNum 0x123; VList [VNum 0x4567]; VNum 8]) /\
  to_bytes no_customs (spelled sugared) (VRec [VNum 0x123; VList [VNum 0x4567]; VNum 8]) = Ok [x12; x34; x56; x78] /\
  deku_id (spelled_variants (mkE (c_with None None) None None None None) (VCons (mkV (SId (VNum 1)) false) FNil VNil)) 0 = Ok (VNum 1).
Proof. repeat split. Qed.

(** ** Declarations *)

(** A struct with these attributes, and the one with [ctx] instead: if the first is
    accepted, so is the second, and the two are used alike, also inside other types and
    with any arguments. *)
Theorem C71_declaration_partial : forall tr feat c ms t, derive tr feat (DStruct c ms) = Some t -> forallb (padding_spellable c) ms = true ->
  exists t', derive tr feat (spelled_struct c ms) = Some t' /\
    (forall cu fuel lim args r, read_ty cu fuel t' lim args r = read_ty cu fuel t lim args r) /\
    (forall cu args v w, write_ty cu t' args v w = write_ty cu t args v w) /\
    (forall v, update t' v = update t v).
Proof. exact (fun tr feat c => spelled_derive c tr feat). Qed.
Print Assumptions C71_declaration_partial.
(** The two examples of the documentation. *)
Definition with_ctx (l : expr (list value)) : fdecl :=
  mkFd None None None None None None None None false None (Some l) None None None None None None None None
       false None None None None None false None None None None.
Definition with_sizes (e : option endian_lit) (o : option order_lit) (b : option nat) (l : option (expr (list value))) (pad : option Z) : fdecl :=
  mkFd e o (option_map (fun n _ _ => n) b) None None None None None false None l None None None None (option_map (fun n _ _ => n) pad) None None None
       false None None None None None false None None None None.
Definition c_big : cdecl := mkCd (Some EBig) None false None None false None None None None None None None None None.
Example C71_declaration_case :
  let ms := [mkM bare_field u16 u16 (VNum 0); mkM (with_sizes None None (Some 5) (Some (fun _ fs _ => [nth 0 fs VUnit])) None) u16 u16 (VNum 0)] in
  derive DekuRead true (DStruct c_big ms) <> None /\ forallb (padding_spellable c_big) ms = true /\
  spelled_struct cbare [a_u8 (with_sizes (Some EBig) None (Some 1) None None)] = DStruct cbare [a_u8 (with_ctx (fun _ _ _ => [VEnd Big; VBits 1]))] /\
  spelled_struct c_big ms = DStruct cbare [mkM (with_ctx (fun _ _ _ => [VEnd Big])) u16 u16 (VNum 0);
                                           mkM (with_ctx (fun _ fs _ => [VEnd Big; VBits 5; nth 0 fs VUnit])) u16 u16 (VNum 0)].
Proof. repeat split. discriminate. Qed.

(** ** Where they are not the same *)

(** The size: DekuSize looks at [bits], not at [ctx]. *)
Theorem C71_size_refuted : exists t, spellable t = true /\ size_bits t = Some 4 /\ size_bits (spelled t) = Some 8 /\
  from_bytes no_customs 50 (spelled t) [x12] 0 = Ok (([x12], 4), VRec [VNum 1]).
Proof. exists (TStruct (c_with None None) (FCons (sized None None (Some 4) None []) u8 u8 FNil)). repeat split. Qed.
Print Assumptions C71_size_refuted.
(** Padding: it follows [bit_order] and nothing else. *)
Theorem C71_padding_refuted : exists t, only_ctx t = false /\
  try_from no_customs 50 t [x12] = Ok (VRec [VNum 1]) /\ try_from no_customs 50 (spelled t) [x12] = Ok (VRec [VNum 2]).
Proof. exists (TStruct (c_with None None) (FCons (sized None (Some Lsb0) (Some 4) (Some 4%Z) []) u8 u8 FNil)). repeat split. Qed.
Print Assumptions C71_padding_refuted.
(** A stored id: it is written without the byte order of the enum (finding 25). *)
Theorem C71_stored_id_refuted : exists t v,
  to_bytes no_customs t v = Ok [x02; x00] /\ to_bytes no_customs (spelled t) v = Ok [x00; x02] /\
  try_from no_customs 50 t [x00; x02] = Ok v /\ try_from no_customs 50 (spelled t) [x00; x02] = Ok v.
Proof. exists (id_enum (Some Big)), (VVar 1 [VNum 2]). repeat split. Qed.
Print Assumptions C71_stored_id_refuted.
