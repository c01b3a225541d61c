(** Fields changed in place, C85.

    Vocabulary: [PatchSpec.v] ([with_field], [ignored_by], [ignored_above], [outside]),
    [PrefixSpec.v] ([message]), [SizeSpec.v] ([regular_fields], [complete]).  [Packet] as in
    [P_Derive.v]. *)
From Coq Require Import Lia.
From Verif Require Import Base Stream Reader Writer Prims CodecSpec Containers ContainerSpec Derive DeriveSpec SizeSpec PrefixSpec GrowSpec PatchSpec PatchFacts P_Derive.

(** Two values that differ in one field, which has a size: the messages are as long as
    each other, and all bytes that have no bit of the field (with its magic and padding) are the
    same.  [p]: the bits of the fields before it.  The other fields need no size, but must not
    use the field, those before it not even by [temp_value].  For types and values with a
    format as in C28 (no [reader], [writer], [seek]). *)
Theorem C85_patch : forall cu ce o c before a t wire after l x x' m b b' p n,
  customs_lawful SeekSource o cu ce ->
  let T := with_field c before a t wire after in
  message cu ce o T (VRec (l ++ x :: m)) b -> message cu ce o T (VRec (l ++ x' :: m)) b' ->
  length l = kept before -> names_old (kept before) before -> to_bits cu (TStruct c before) (VRec l) = Ok p ->
  regular_fields true (FCons a t wire FNil) -> fields_size (FCons a t wire FNil) false = Some n -> complete t x -> complete t x' ->
  ignored_above (count before) c -> ignored_by (count before) (kept before) after ->
  length b' = length b /\ forall i, outside (length p) n i -> nth_error b' i = nth_error b i.
Proof. exact patched. Qed.
Print Assumptions C85_patch.

(** The second field of [Packet], 12 bits from bit 20 on.  The fields after it are a
    [temp] with a [temp_value], a vector, an optional field, an enum and an asserted one. *)
Definition behind : fields :=
  (field (temporary (fun stored _ _ => VNum (list_len (nth 2 stored VUnit) mod 256)) plain) u8
  (field (limited (FCount (fun _ fs _ => Z.of_N (nth_num fs 2))) plain) (TVec KVec 2 u16)
  (field (only_if (fun _ fs _ => (1 <? nth_num fs 0)%N) VNone (padded 8 0 plain)) (TOption u8)
  (field plain Kind
  (field (asserting (fun _ fs _ => (nth_num fs 6 <? 16)%N) (padded 0 3 (bits 5 plain))) u8
  FNil))))).
Definition rest_of_packet : list value := [VList [VNum 0x1122; VNum 0x3344]; VSome (VNum 9); VVar 2 [VNum 12; VNum 0x77]; VNum 13].
Ltac regularity := cbn; repeat match goal with
  | |- _ /\ _ => split
  | |- regular_field _ _ _ => constructor
  | |- constant_size _ => intros ? E; try discriminate; cbn in E; injection E as <-
  | |- constant_pad _ => intros ? E; try discriminate; cbn in E; injection E as <-
  | |- size_on _ _ _ => right; first [now left|exact I]
  | |- no_sizes _ => constructor
  | |- forall _, _ => intro
  | |- _ => discriminate
  | |- _ => now auto
  end.
Lemma nth_other i j l l' : same_but i l l' -> i <> j -> nth j l VUnit = nth j l' VUnit.
Proof.
  intros (a & x & y & b & <- & -> & ->) H. destruct (Nat.lt_ge_cases j (length a)); [now rewrite !app_nth1|]. rewrite !app_nth2 by assumption.
  destruct (j - length a) eqn:E; [lia|reflexivity].
Qed.
Example C85_case : customs_lawful SeekSource Msb0 no_customs no_format /\
  Packet = with_field big_dk (field (bits 4 plain) u8 FNil) (bits 12 plain) u16 u16 behind /\
  message no_customs no_format Msb0 Packet (VRec ([VNum 2] ++ VNum 0xabc :: rest_of_packet)) packet_bytes /\
  message no_customs no_format Msb0 Packet (VRec ([VNum 2] ++ VNum 0xd0e :: rest_of_packet)) [x44; x4b; x2d; x0e; x02; x11; x22; x33; x44; x00; x09; x0c; x77; x68] /\
  names_old 1 (field (bits 4 plain) u8 FNil) /\ (exists p, to_bits no_customs (TStruct big_dk (field (bits 4 plain) u8 FNil)) (VRec [VNum 2]) = Ok p /\ length p = 20) /\
  regular_fields true (field (bits 12 plain) u16 FNil) /\ fields_size (field (bits 12 plain) u16 FNil) false = Some 12 /\
  ignored_above 1 big_dk /\ ignored_by 1 1 behind /\ (forall i, outside 20 12 i <-> i <> 2 /\ i <> 3).
Proof.
  split; [discriminate|]. split; [reflexivity|]. split; [split; [eexists|]; vm_compute; reflexivity|]. split; [split; [eexists|]; vm_compute; reflexivity|].
  split; [split; [split; discriminate|exact I]|]. split; [eexists; split; [vm_compute; reflexivity|reflexivity]|]. split; [regularity|].
  split; [reflexivity|]. split; [intros fs fs' _ ctx; split; reflexivity|]. split.
  { cbn [behind ignored_by field]. repeat match goal with |- _ /\ _ => split | |- True => exact I end; intros fs fs' S ctx off;
      pose proof (nth_other _ 0 _ _ S ltac:(discriminate)) as E0; pose proof (nth_other _ 2 _ _ S ltac:(discriminate)) as E2; pose proof (nth_other _ 6 _ _ S ltac:(discriminate)) as E6;
      repeat match goal with |- _ /\ _ => split end; try reflexivity; cbn [option_map a_limit limited a_cond only_if a_assert asserting plain eval_limit]; unfold nth_num; rewrite ?E0, ?E2, ?E6; try reflexivity.
    intros st st' S'. cbn [a_temp_value temporary plain option_map]. rewrite (nth_other _ 2 _ _ S') by discriminate. reflexivity. }
  intros i. unfold outside. lia.
Qed.

(** The last field of [Packet], 5 bits and padding, after parts without a size; a [temp_value]
    before it uses another field. *)
Definition in_front : fields :=
  (field (bits 4 plain) u8
  (field (bits 12 plain) u16
  (field (temporary (fun stored _ _ => VNum (list_len (nth 2 stored VUnit) mod 256)) plain) u8
  (field (limited (FCount (fun _ fs _ => Z.of_N (nth_num fs 2))) plain) (TVec KVec 2 u16)
  (field (only_if (fun _ fs _ => (1 <? nth_num fs 0)%N) VNone (padded 8 0 plain)) (TOption u8)
  (field plain Kind FNil)))))).
Definition last_attrs : fattrs := asserting (fun _ fs _ => (nth_num fs 6 <? 16)%N) (padded 0 3 (bits 5 plain)).
Definition front_values : list value := [VNum 2; VNum 0xabc; VList [VNum 0x1122; VNum 0x3344]; VSome (VNum 9); VVar 2 [VNum 12; VNum 0x77]].
Example C85_last : Packet = with_field big_dk in_front last_attrs u8 u8 FNil /\
  message no_customs no_format Msb0 Packet (VRec (front_values ++ [VNum 13])) packet_bytes /\
  message no_customs no_format Msb0 Packet (VRec (front_values ++ [VNum 2])) (firstn 13 packet_bytes ++ [x10]) /\
  length front_values = kept in_front /\ names_old (kept in_front) in_front /\
  (exists p, to_bits no_customs (TStruct big_dk in_front) (VRec front_values) = Ok p /\ length p = 104) /\
  regular_fields true (field last_attrs u8 FNil) /\ fields_size (field last_attrs u8 FNil) false = Some 8.
Proof.
  split; [reflexivity|]. split; [split; [eexists|]; vm_compute; reflexivity|]. split; [split; [eexists|]; vm_compute; reflexivity|]. split; [reflexivity|]. split.
  { cbn [in_front names_old field kept]. unfold names_first. repeat match goal with |- _ /\ _ => split | |- True => exact I end; intros f E; try discriminate E.
    injection E as <-. intros l more ctx fs L. rewrite app_nth1; [reflexivity|]. rewrite L. cbn. lia. }
  split; [eexists; split; [vm_compute; reflexivity|reflexivity]|]. split; [regularity|reflexivity].
Qed.

(** A field behind that uses the patched one can move or change. *)
Definition pad_by_first (a : fattrs) : fattrs :=
  mkF (a_endian a) (a_order a) (a_bits a) (a_bytes a) (a_ctx a) (a_limit a) (a_map a) (a_reader a) (a_writer a) (a_skip a) (a_cond a) (a_default a)
      (a_assert a) (a_assert_eq a) (a_seek a) (a_magic a) (Some (fun _ fs => Z.of_N (8 * nth_num fs 0))) (a_pad_after a) (a_temp a) (a_temp_value a) (a_update a).
Theorem C85_used_refuted : exists T x x' m b b', T = with_field cplain FNil plain u8 u8 (field (pad_by_first plain) u8 FNil) /\
  message no_customs no_format Msb0 T (VRec (x :: m)) b /\ message no_customs no_format Msb0 T (VRec (x' :: m)) b' /\ length b' <> length b /\ nth_error b' 1 <> nth_error b 1.
Proof.
  eexists. exists (VNum 0), (VNum 2), [VNum 7], [x00; x07], [x02; x00; x00; x07]. split; [reflexivity|].
  split; [split; [eexists|]; vm_compute; reflexivity|]. split; [split; [eexists|]; vm_compute; reflexivity|]. split; [discriminate|cbn; discriminate].
Qed.
Print Assumptions C85_used_refuted.
(** A byte order that depends on the field: as long, but other bytes change. *)
Theorem C85_endian_refuted : exists after T x x' m b b', T = with_field cplain FNil plain u8 u8 after /\
  message no_customs no_format Msb0 T (VRec (x :: m)) b /\ message no_customs no_format Msb0 T (VRec (x' :: m)) b' /\ length b' = length b /\ nth_error b' 1 <> nth_error b 1.
Proof.
  exists (field (mkF (Some (fun _ fs => if (nth_num fs 0 =? 0)%N then Little else Big)) None None None (fun _ _ _ => []) None None None None None None (fun _ _ _ => VUnit) None None None [] None None false None None) u16 FNil).
  eexists. exists (VNum 0), (VNum 1), [VNum 7], [x00; x07; x00], [x01; x00; x07]. split; [reflexivity|].
  split; [split; [eexists|]; vm_compute; reflexivity|]. split; [split; [eexists|]; vm_compute; reflexivity|]. split; [reflexivity|cbn; discriminate].
Qed.
Print Assumptions C85_endian_refuted.
