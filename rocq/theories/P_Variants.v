(** Readers and writers on the variants of an enum, C65.

    Vocabulary: [Variants.v] (the model), [VariantSpec.v] ([uncoded], [codes_lawful],
    [enum_format], the enum of the examples), [DeriveSpec.v] ([chosen], [encode]),
    [DeriveProps.v] ([id_reader]: the magic and the id). *)
From Verif Require Import Base Spec Stream Reader Session Writer WSession Prims CodecSpec Containers ContainerSpec Derive DeriveSpec DeriveProps Variants VariantSpec VariantProps P_Derive.

(** ** Reading *)

(** The id is read as for every enum.  If the variant that is chosen has a reader, the
    result is what the reader gives from there on, whatever that is; if not, it is what the
    derived impl of the enum gives without any readers and writers. *)
Theorem C65_reads : forall cu code fuel e idt vs args id r r1, id_reader cu fuel e idt args r = (Ok id, r1) ->
  (forall k f, chosen vs id k -> vc_read (code k) = Some f ->
     cu_read (enum_impls cu code fuel e idt vs) args r = f (ctx_args (en_c e) args) r1) /\
  (forall k, chosen vs id k -> vc_read (code k) = None ->
     cu_read (enum_impls cu code fuel e idt vs) args r = read_ty cu fuel (TEnum e idt vs) None args r) /\
  ((forall k, ~ chosen vs id k) -> cu_read (enum_impls cu code fuel e idt vs) args r = (Err Parse, r1)).
Proof. exact coded_reads. Qed.
Print Assumptions C65_reads.
Theorem C65_id_fails : forall cu code fuel e idt vs args x r r1, id_reader cu fuel e idt args r = (Err x, r1) ->
  cu_read (enum_impls cu code fuel e idt vs) args r = (Err x, r1).
Proof. exact coded_reads_fail. Qed.
Print Assumptions C65_id_fails.

Definition Flipped : nat -> custom := with_enum no_customs flip_code 50 flip_attrs u8 flip_variants.
Example C65_reads_case :
  from_bytes Flipped 50 (TCustom 0) [x01; xf0; x77] 0 = Ok (([x77], 0), VVar 0 [VNum 15]) /\
  from_bytes Flipped 50 (TCustom 0) [x02; x12; x34; x77] 0 = Ok (([x77], 0), VVar 1 [VNum 0x1234]) /\
  from_bytes Flipped 50 (TCustom 0) [x03; x77] 0 = Err Parse /\
  from_bytes Flipped 50 (TCustom 0) [] 0 = Err (Incomplete 8).
Proof. repeat split; vm_compute; reflexivity. Qed.

(** ** Writing *)

(** The magic, and then exactly what the writer of the variant writes: the id is left to
    it.  A variant without a writer is written as by the derived impl. *)
Theorem C65_writes : forall cu code fuel e idt vs args k l w v fs, nth_variant vs k = Some (v, fs) ->
  (forall f, vc_write (code k) = Some f ->
     cu_write (enum_impls cu code fuel e idt vs) args (VVar k l) w =
     (let* _ := write_magic (c_magic (en_c e)) in f (ctx_args (en_c e) args) l) w) /\
  (vc_write (code k) = None ->
     cu_write (enum_impls cu code fuel e idt vs) args (VVar k l) w = write_ty cu (TEnum e idt vs) args (VVar k l) w).
Proof. intros cu code fuel. exact (coded_writes cu code). Qed.
Print Assumptions C65_writes.
Example C65_writes_case :
  to_bytes Flipped (TCustom 0) (VVar 0 [VNum 15]) = Ok [x01; xf0] /\
  to_bytes Flipped (TCustom 0) (VVar 1 [VNum 0x1234]) = Ok [x02; x12; x34].
Proof. repeat split; vm_compute; reflexivity. Qed.

(** Without readers and writers it is the enum of [Derive.v], so all that is said about
    that is about this one. *)
Theorem C65_conservative : forall cu code fuel e idt vs, (forall k, uncoded code k) ->
  (forall args r, cu_read (enum_impls cu code fuel e idt vs) args r = read_ty cu fuel (TEnum e idt vs) None args r) /\
  (forall args k l w, cu_write (enum_impls cu code fuel e idt vs) args (VVar k l) w = write_ty cu (TEnum e idt vs) args (VVar k l) w).
Proof. exact uncoded_impls. Qed.
Print Assumptions C65_conservative.
Example C65_conservative_case : forall k, uncoded (fun _ => mkVc None None) k.
Proof. split; reflexivity. Qed.

(** ** Round trip *)

(** Where the writer writes an id that selects the variant, in the form of the id type, and
    then what the reader of the variant reads, every value of every type that has the enum
    in it (as [TCustom 0]) comes back, and the bytes are the format. *)
Theorem C65_round_trip : forall cu ce code form fuel o e idt vs t v enc,
  customs_lawful SeekSource o cu ce -> codes_lawful SeekSource o code form ->
  encode SeekSource o (with_format SeekSource o ce code form e idt vs) t None [] 0 v = Some enc -> length enc <= fuel ->
  let cu' := with_enum cu code fuel e idt vs in
  exists bytes pad, to_bytes cu' t v = Ok bytes /\ bitstring o bytes = enc ++ repeat false pad /\ pad < 8 /\
    forall tail, from_bytes cu' fuel t (bytes ++ tail) 0 = Ok ((skipn (length enc / 8) (bytes ++ tail), length enc mod 8), v).
Proof. exact coded_round_trip. Qed.
Print Assumptions C65_round_trip.
(** struct { #[deku(bits = 3)] a: u8, e: E, #[deku(count = "*a")] l: Vec<E> }. *)
Definition Holder : ty :=
  TStruct cplain (field (bits 3 plain) u8 (field plain (TCustom 0)
    (field (limited (FCount (fun _ fs _ => Z.of_N (nth_num fs 0))) plain) (TVec KVec 16 (TCustom 0)) FNil))).
Example C65_round_trip_case : codes_lawful SeekSource Msb0 flip_code (flip_form SeekSource Msb0) /\
  exists enc, encode SeekSource Msb0 (with_format SeekSource Msb0 no_format flip_code (flip_form SeekSource Msb0) flip_attrs u8 flip_variants)
                Holder None [] 0 (VRec [VNum 2; VVar 0 [VNum 15]; VList [VVar 1 [VNum 0x1234]; VVar 0 [VNum 0]]]) = Some enc /\ length enc = 59.
Proof. split; [exact (flip_lawful SeekSource Msb0)|]. eexists. split; [vm_compute; reflexivity|reflexivity]. Qed.

(** That the writer and the reader of a variant are inverse to each other, as those of a
    field have to be, is not enough: the reader starts behind the id, the writer in front of
    it.  The value comes back as another variant. *)
Definition Same : nat -> custom :=
  with_enum no_customs same_code 50 flip_attrs u8
    (VCons (mkV (SId (VNum 1)) false) (field plain u8 FNil) (VCons (mkV (SId (VNum 2)) false) FNil VNil)).
Theorem C65_inverse_refuted :
  (forall pos n, (n < 256)%N -> exists b, emits_at Msb0 pos (same_write [] [VNum n]) b /\ reads_at SeekSource Msb0 pos (same_read []) b (VVar 0 [VNum n])) /\
  exists v v' bytes, to_bytes Same (TCustom 0) v = Ok bytes /\ from_bytes Same 50 (TCustom 0) bytes 0 = Ok (([], 0), v') /\ v <> v'.
Proof.
  split; [exact same_inverse|]. exists (VVar 0 [VNum 2]), (VVar 1 []), [x02].
  split; [vm_compute; reflexivity|]. split; [vm_compute; reflexivity|discriminate].
Qed.
Print Assumptions C65_inverse_refuted.

(** ** deku_id *)

Theorem C65_deku_id : forall code vs k v fs, nth_variant vs k = Some (v, fs) ->
  (vc_read (code k) = None -> enum_deku_id code vs k = deku_id vs k) /\
  (vc_read (code k) <> None -> enum_deku_id code vs k = Err IdVariantNotFound).
Proof. exact (coded_deku_id no_customs). Qed.
Print Assumptions C65_deku_id.
(** So a value that was read by the id 1 is said to have none. *)
Theorem C65_deku_id_refuted : exists input rest k l,
  from_bytes Flipped 50 (TCustom 0) input 0 = Ok (rest, VVar k l) /\ selected flip_variants (VNum (to_N (nth 0 input x00))) = Some k /\
  deku_id flip_variants k = Ok (VNum 1) /\ enum_deku_id flip_code flip_variants k = Err IdVariantNotFound.
Proof. exists [x01; xf0], ([], 0), 0, [VNum 15]. repeat split; vm_compute; reflexivity. Qed.
Print Assumptions C65_deku_id_refuted.
