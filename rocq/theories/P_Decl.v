(** Checking and meaning of the attributes, C56.

    Vocabulary: [DeclSpec.v] ([decl_ok], [becomes], [limit_written], [seek_written],
    [padding_written], [until_alone], [read_all_alone], [no_bits]). *)
From Verif Require Import Base Stream Reader Writer Prims Containers Derive DeriveSpec Decl DeclSpec DeclFacts P_Derive.

(** ** Examples of declarations *)
(** No attributes, and one or two of them. *)
Definition bare_field : fdecl :=
  mkFd None None None None None None None None false None None None None None None None None None None
       false None None None None None false None None None None.
Definition size_attrs (bits bytes : option (expr0 nat)) : fdecl :=
  mkFd None None bits bytes None None None None false None None None None None None None None None None
       false None None None None None false None None None None.
Definition limit_attrs (count bits_read bytes_read : option (expr Z)) (until : option (expr (list value -> bool))) (read_all : bool) : fdecl :=
  mkFd None None None None count bits_read bytes_read until read_all None None None None None None None None None None
       false None None None None None false None None None None.
Definition seek_attrs (rewind : bool) (current end_ start : option (expr0 Z)) : fdecl :=
  mkFd None None None None None None None None false None None None None None None None None None None
       false None None None None None rewind current end_ start None.
Definition pad_attrs (bits bytes : option (expr0 Z)) : fdecl :=
  mkFd None None None None None None None None false None None None None None None bits bytes None None
       false None None None None None false None None None None.
Definition cbare : cdecl := mkCd None None false None None false None None None None None None None None None.
Definition id_u8 : cdecl := mkCd None None false None None false None None None None (Some u8) None None None None.
Definition id_u8_repr (p : prim) : cdecl := mkCd None None false None None false None None None None (Some u8) None None None (Some p).
Definition a_u8 (f : fdecl) : member := mkM f u8 u8 (VNum 0).
Definition a_vec (f : fdecl) : member := mkM f (TVec KVec 1 u8) (TVec KVec 1 u8) (VList []).
Definition is_zero (v : value) : bool := value_eqb v (VNum 0).
Definition with_id (n : N) : vdecl := mkVd (Some (IdVal (VNum n))) None false VUnit None.
Definition with_pat (p : value -> bool) : vdecl := mkVd None (Some p) false VUnit None.
Definition with_disc (n : N) : vdecl := mkVd None None true (VNum n) None.
Definition bare_variant : vdecl := mkVd None None false VUnit None.
Definition n_bytes (k : nat) : expr Z := fun _ _ _ => Z.of_nat k.
Definition last_is_zero : expr (list value -> bool) := fun _ _ _ l => is_zero (last l (VNum 1)).

(** ** Which declarations are accepted *)

(** Exactly those that follow the rules. *)
Theorem C56_accepted : forall tr feat d, derive tr feat d <> None <-> decl_ok tr feat d.
Proof. exact derive_ok. Qed.
Print Assumptions C56_accepted.
Example C56_accepted_case :
  derive DekuRead true (DStruct cbare [a_u8 (size_attrs (Some (fun _ _ => 4)) None); a_vec (limit_attrs (Some (n_bytes 2)) None None None false)]) <> None /\
  derive DekuRead true (DStruct cbare [a_u8 (size_attrs (Some (fun _ _ => 4)) (Some (fun _ _ => 1)))]) = None /\
  derive DekuRead false (DStruct cbare [a_u8 (size_attrs (Some (fun _ _ => 4)) None)]) = None /\
  derive DekuRead true (DStruct id_u8 [a_u8 bare_field]) = None /\
  derive DekuRead true (DEnum id_u8 [(with_id 1, []); (with_pat is_zero, [a_u8 bare_field])]) <> None /\
  derive DekuRead true (DEnum id_u8 [(with_id 1, []); (with_pat is_zero, [a_u8 (size_attrs None (Some (fun _ _ => 1)))])]) = None /\
  derive DekuRead true (DEnum id_u8 [(with_disc 1, []); (bare_variant, [])]) = None /\
  derive DekuRead true (DEnum (id_u8_repr (PU 2)) [(with_disc 1, []); (bare_variant, [])]) = None /\
  derive DekuRead true (DEnum (id_u8_repr PU8) [(with_disc 1, []); (bare_variant, [])]) <> None.
Proof. repeat split; try reflexivity; discriminate. Qed.

(** The two macros read the same meaning out of a declaration that both accept. *)
Theorem C56_read_write : forall feat d t t', derive DekuRead feat d = Some t -> derive DekuWrite feat d = Some t' -> t = t'.
Proof. exact read_write_same. Qed.
Print Assumptions C56_read_write.
(** A pattern without a field for the id is accepted for reading only. *)
Example C56_read_write_case : let d := DEnum id_u8 [(with_id 1, [a_vec (limit_attrs None None (Some (n_bytes 3)) None false)]); (with_pat is_zero, [a_u8 bare_field])] in
  derive DekuRead true d <> None /\ derive DekuWrite true d = derive DekuRead true d /\
  derive DekuRead true (DEnum id_u8 [(with_pat is_zero, [])]) <> None /\ derive DekuWrite true (DEnum id_u8 [(with_pat is_zero, [])]) = None.
Proof. repeat split; try reflexivity; discriminate. Qed.

(** The feature `bits` changes nothing for declarations that do not use it ... *)
Theorem C56_without_bits : forall tr d t, (forall m, In m (members d) -> no_bits (m_attrs m)) -> absent (k_bits (container d)) ->
  derive tr true d = Some t -> derive tr false d = Some t.
Proof. exact without_bits. Qed.
Print Assumptions C56_without_bits.
(** ... and what is accepted without it is accepted with it, provided [read_all] stands
    alone. *)
Theorem C56_with_bits_partial : forall tr d t, (forall m, In m (members d) -> read_all_alone (m_attrs m)) ->
  derive tr false d = Some t -> derive tr true d = Some t.
Proof. exact with_bits. Qed.
Print Assumptions C56_with_bits_partial.
Example C56_features_case : let d := DStruct cbare [a_vec (limit_attrs None None None None true); a_u8 (size_attrs None (Some (fun _ _ => 1)))] in
  (forall m, In m (members d) -> no_bits (m_attrs m) /\ read_all_alone (m_attrs m)) /\ absent (k_bits (container d)) /\
  derive DekuWrite true d <> None /\ derive DekuWrite false d <> None.
Proof.
  split; [|repeat split; discriminate]. cbn. intros m [<-|[<-|[]]]; (split; [repeat split|]); intros H; repeat split; discriminate.
Qed.
(** The check of [read_all] is compiled only with `bits`: without it the attribute is
    accepted beside [count] and ignored. *)
Theorem C56_with_bits_refuted : exists d t, derive DekuRead false d = Some t /\ derive DekuRead true d = None /\
  from_bytes no_customs 50 t [x01; x02; x03] 0 = Ok (([x02; x03], 0), VRec [VList [VNum 1]]).
Proof.
  exists (DStruct cbare [a_vec (limit_attrs (Some (n_bytes 1)) None None None true)]). eexists.
  repeat split; vm_compute; reflexivity.
Qed.
Print Assumptions C56_with_bits_refuted.

(** ** What the attributes do *)

(** The limit of a field is the one that is written, if [until] is not written beside
    another. *)
Theorem C56_limit_partial : forall tr d t m a, derive tr true d = Some t -> becomes d t m a -> until_alone (m_attrs m) ->
  forall l, a_limit a = Some l <-> limit_written (m_attrs m) l.
Proof. exact limit_used. Qed.
Print Assumptions C56_limit_partial.
Example C56_limit_case : let m := a_vec (limit_attrs None (Some (n_bytes 24)) None None false) in
  let d := DStruct cbare [a_u8 bare_field; m] in
  exists t a, derive DekuRead true d = Some t /\ becomes d t m a /\ until_alone (m_attrs m) /\ a_limit a = Some (FBits (n_bytes 24)).
Proof. eexists. eexists. split; [reflexivity|]. split; [exists 1; split; reflexivity|]. split; [intros H; now elim H|reflexivity]. Qed.
(** [until] beside [count] or [bytes_read] is accepted and does nothing, [bits_read]
    beside [until] likewise. *)
Theorem C56_limit_refuted : exists m1 m2 m3,
  given (d_until (m_attrs m1)) /\ given (d_until (m_attrs m2)) /\ given (d_bits_read (m_attrs m3)) /\
  derive DekuRead true (DStruct cbare [m1]) = derive DekuRead true (DStruct cbare [a_vec (limit_attrs (Some (n_bytes 3)) None None None false)]) /\
  derive DekuRead true (DStruct cbare [m2]) = derive DekuRead true (DStruct cbare [a_vec (limit_attrs None None (Some (n_bytes 3)) None false)]) /\
  derive DekuRead true (DStruct cbare [m3]) = derive DekuRead true (DStruct cbare [a_vec (limit_attrs None None None (Some last_is_zero) false)]) /\
  derive DekuRead true (DStruct cbare [m1]) <> None /\ derive DekuRead true (DStruct cbare [m2]) <> None /\ derive DekuRead true (DStruct cbare [m3]) <> None.
Proof.
  exists (a_vec (limit_attrs (Some (n_bytes 3)) None None (Some last_is_zero) false)),
         (a_vec (limit_attrs None None (Some (n_bytes 3)) (Some last_is_zero) false)),
         (a_vec (limit_attrs None (Some (n_bytes 8)) None (Some last_is_zero) false)).
  repeat split; try reflexivity; discriminate.
Qed.
Print Assumptions C56_limit_refuted.

(** The seek before a field is the one that is written. *)
Theorem C56_seek : forall tr feat d t m a ctx fs s, derive tr feat d = Some t -> becomes d t m a ->
  (option_map (fun f => f ctx fs) (a_seek a) = Some s <-> seek_written (m_attrs m) ctx fs s).
Proof. exact seek_used. Qed.
Print Assumptions C56_seek.
Example C56_seek_case : let m := a_u8 (seek_attrs false None (Some (fun _ _ => (-2)%Z)) None) in let d := DStruct cbare [m] in
  exists t a, derive DekuWrite false d = Some t /\ becomes d t m a /\ seek_written (m_attrs m) [] [] (Some (SeekEnd (-2))) /\
  derive DekuWrite false (DStruct cbare [a_u8 (seek_attrs true None (Some (fun _ _ => (-2)%Z)) None)]) = None.
Proof.
  eexists. eexists. split; [reflexivity|]. split; [exists 0; split; reflexivity|]. split; [|reflexivity].
  right. left. eexists. split; [reflexivity|]. left. split; [split; vm_compute; [discriminate|reflexivity]|reflexivity].
Qed.
(** On a struct itself several seeks are accepted and only one is used; on an enum a seek is
    accepted and not used. *)
Definition seeking (c : cdecl) (rewind : bool) (start : option Z) : cdecl :=
  mkCd (k_endian c) (k_order c) (k_ctx c) (k_ctx_default c) (k_magic c) rewind None None (option_map (fun z _ => z) start)
       (k_id c) (k_id_type c) (k_id_endian c) (k_bits c) (k_bytes c) (k_repr c).
Theorem C56_container_seek_refuted :
  derive DekuRead true (DStruct (seeking cbare true (Some 1%Z)) [a_u8 bare_field]) =
    derive DekuRead true (DStruct (seeking cbare false (Some 1%Z)) [a_u8 bare_field]) /\
  derive DekuRead true (DStruct (seeking cbare true (Some 1%Z)) [a_u8 bare_field]) <> None /\
  exists t, derive DekuRead true (DEnum (seeking id_u8 false (Some 2%Z)) [(with_id 1, []); (with_id 3, [])]) = Some t /\
  from_bytes no_customs 50 t [x01; x02; x03] 0 = Ok (([x02; x03], 0), VVar 0 []).
Proof. split; [reflexivity|]. split; [discriminate|]. eexists. split; reflexivity. Qed.
Print Assumptions C56_container_seek_refuted.

(** Padding in bits and in bytes adds up. *)
Theorem C56_padding : forall tr feat d t m a ctx fs, derive tr feat d = Some t -> becomes d t m a ->
  eval0 (a_pad_before a) ctx fs = padding_written (d_pad_bits_before (m_attrs m)) (d_pad_bytes_before (m_attrs m)) ctx fs /\
  eval0 (a_pad_after a) ctx fs = padding_written (d_pad_bits_after (m_attrs m)) (d_pad_bytes_after (m_attrs m)) ctx fs.
Proof. exact padding_used. Qed.
Print Assumptions C56_padding.
Example C56_padding_case : let m := a_u8 (pad_attrs (Some (fun _ _ => 3%Z)) (Some (fun _ _ => 2%Z))) in
  padding_written (d_pad_bits_before (m_attrs m)) (d_pad_bytes_before (m_attrs m)) [] [] = Some 19%Z /\
  exists t a, derive DekuRead true (DStruct cbare [m]) = Some t /\ becomes (DStruct cbare [m]) t m a.
Proof. split; [reflexivity|]. eexists. eexists. split; [reflexivity|]. exists 0. split; reflexivity. Qed.

(** The arguments of a field: its own byte order or that of the struct or enum, its size,
    its own bit order or that of the struct or enum, and what it hands down. *)
Theorem C56_arguments : forall tr feat d t m a c, derive tr feat d = Some t -> becomes d t m a -> container_of t c ->
  forall ctx fs off, field_args c a ctx fs off = args_written (container d) (m_attrs m) ctx fs off.
Proof. exact args_used. Qed.
Print Assumptions C56_arguments.
Theorem C56_id_arguments : forall tr feat c vs e idt vs', derive tr feat (DEnum c vs) = Some (TEnum e idt vs') ->
  forall ctx, id_args e ctx = id_args_written c ctx.
Proof. exact id_args_used. Qed.
Print Assumptions C56_id_arguments.
Definition ordered : cdecl := mkCd (Some EBig) (Some OLsb) false None None false None None None None None None None None None.
Example C56_arguments_case : let m := a_u8 (mkFd (Some ELittle) None (Some (fun _ _ => 4)) None None None None None false None None None None None None
    None None None None false None None None None None false None None None None) in
  let d := DStruct ordered [a_u8 bare_field; m] in
  exists c fs a, derive DekuRead true d = Some (TStruct c fs) /\ becomes d (TStruct c fs) m a /\
  args_written ordered (m_attrs m) [] [] 0 = [VEnd Little; VBits 4; VOrd Lsb0] /\
  args_written ordered bare_field [] [] 0 = [VEnd Big; VOrd Lsb0].
Proof. do 3 eexists. split; [reflexivity|]. split; [exists 1; split; reflexivity|]. split; reflexivity. Qed.

(** The other expressions are used as they are written. *)
Theorem C56_expressions : forall tr feat d t m a, derive tr feat d = Some t -> becomes d t m a ->
  let f := m_attrs m in
  a_map a = d_map f /\ a_reader a = d_reader f /\ a_writer a = d_writer f /\ a_skip a = d_skip f /\ a_cond a = d_cond f /\
  a_assert a = d_assert f /\ a_assert_eq a = d_assert_eq f /\ a_temp_value a = d_temp_value f /\ a_update a = d_update f /\
  (forall m, d_magic f = Some m -> a_magic a = m) /\ (d_magic f = None -> a_magic a = []) /\
  (forall g, d_default f = Some g -> a_default a = g) /\ (d_default f = None -> forall ctx fs off, a_default a ctx fs off = m_default m).
Proof. exact rest_used. Qed.
Print Assumptions C56_expressions.

(** What is read has a value for each field without [temp]. *)
Theorem C56_values : forall feat d t cu fuel input bit rest v, derive DekuRead feat d = Some t ->
  from_bytes cu fuel t input bit = Ok (rest, v) -> value_shape d v.
Proof. exact values_read. Qed.
Print Assumptions C56_values.
Definition temp_field : fdecl :=
  mkFd None None None None None None None None false None None None None None None None None None None
       true None None None None None false None None None None.
Example C56_values_case : let d := DEnum id_u8 [(with_id 1, []); (with_id 2, [a_u8 temp_field; a_u8 bare_field])] in
  exists t, derive DekuRead true d = Some t /\
  from_bytes no_customs 50 t [x02; x03; x04; x05] 0 = Ok (([x05], 0), VVar 1 [VNum 4]) /\ value_shape d (VVar 1 [VNum 4]) /\
  ~ value_shape d (VVar 1 [VNum 3; VNum 4]).
Proof.
  eexists. split; [reflexivity|]. split; [vm_compute; reflexivity|]. split; [do 2 eexists; split; reflexivity|].
  intros (x & ms & E & L). cbn [nth_error] in E. injection E as _ <-. discriminate L.
Qed.

(** An attribute for the elements of a counted [Vec<u8>] is used on writing only: what is
    read cannot be written. *)
Theorem C56_vec_u8_bits_refuted : exists d t v, derive DekuRead true d = Some t /\ derive DekuWrite true d = Some t /\
  from_bytes no_customs 50 t [x12; x34] 0 = Ok (([], 0), v) /\ to_bytes no_customs t v = Err InvalidParam.
Proof.
  exists (DStruct cbare [a_vec (mkFd None None (Some (fun _ _ => 4)) None (Some (n_bytes 2)) None None None false None None None None None None
    None None None None false None None None None None false None None None None)]).
  eexists. exists (VRec [VList [VNum 0x12; VNum 0x34]]). split; [reflexivity|]. split; [reflexivity|]. split; reflexivity.
Qed.
Print Assumptions C56_vec_u8_bits_refuted.

(** ** Ids *)

(** Every variant of an enum that is accepted for writing has an id to write: with a writer
    of ids that succeeds, writing the id succeeds. *)
Theorem C56_id_written : forall feat c vs e idt vs' k v fs ctx w, derive DekuWrite feat (DEnum c vs) = Some (TEnum e idt vs') ->
  nth_error (variant_list vs') k = Some (v, fs) -> write_id e v fs ctx (fun _ _ => ret tt) w = (Ok tt, w).
Proof. exact id_written. Qed.
Print Assumptions C56_id_written.
Example C56_id_written_case : exists e idt vs', let d := DEnum (id_u8_repr PU8) [(with_disc 7, []); (with_pat is_zero, [])] in
  derive DekuWrite true d = Some (TEnum e idt vs') /\ length (variant_list vs') = 2 /\
  to_bytes no_customs (TEnum e idt vs') (VVar 0 []) = Ok [x07].
Proof. eexists. eexists. eexists. repeat split; vm_compute; reflexivity. Qed.
(** The field that stores the id of an [id_pat] variant has no attributes, so none is lost
    by giving it the id instead of reading it. *)
Theorem C56_id_storage : forall feat c vs t m a ms v, derive DekuRead feat (DEnum c vs) = Some t -> absent (k_id c) ->
  In (v, m :: ms) vs -> given (v_pat v) -> absent (d_reader (m_attrs m)) -> becomes (DEnum c vs) t m a ->
  forall ctx fs off, a_default a ctx fs off = m_default m /\
    a = mkF None None None None (fun _ _ _ => []) None None None None None None (a_default a) None None None [] None None false None None.
Proof. exact storage_plain. Qed.
Print Assumptions C56_id_storage.
Example C56_id_storage_case : let m := a_u8 bare_field in let vs := [(with_pat is_zero, [m])] in
  exists t a, derive DekuRead true (DEnum id_u8 vs) = Some t /\ absent (k_id id_u8) /\ In (with_pat is_zero, [m]) vs /\
  given (v_pat (with_pat is_zero)) /\ becomes (DEnum id_u8 vs) t m a.
Proof.
  eexists. eexists. split; [reflexivity|]. split; [reflexivity|]. split; [now left|]. split; [discriminate|].
  exists 0, 0. do 4 eexists. repeat split; reflexivity.
Qed.
(** A discriminant is used as id only if the id is read with the type of the
    representation. *)
Theorem C56_discriminant : forall feat c vs e idt vs' k v fs x, derive DekuRead feat (DEnum c vs) = Some (TEnum e idt vs') ->
  absent (k_id c) -> nth_error (variant_list vs') k = Some (v, fs) -> v_sel v = SDisc x -> exists p, k_repr c = Some p /\ idt = TPrim p.
Proof. exact discriminant_type. Qed.
Print Assumptions C56_discriminant.
Example C56_discriminant_case : exists e idt vs' v, derive DekuRead true (DEnum (id_u8_repr PU8) [(with_disc 7, [])]) = Some (TEnum e idt vs') /\
  nth_error (variant_list vs') 0 = Some (v, FNil) /\ v_sel v = SDisc (VNum 7) /\
  from_bytes no_customs 50 (TEnum e idt vs') [x07] 0 = Ok (([], 0), VVar 0 []).
Proof. do 4 eexists. repeat split; vm_compute; reflexivity. Qed.
