(** Hand-written types in round trips, C28.

    Vocabulary: [SpellSpec.v] ([customs_spell]: hand-written readers and writers of a format,
    step by step), [DeriveSpec.v] ([encode], [customs_lawful]). *)
From Coq Require Import Lia.
From Verif Require Import Base Spec Stream Reader Session Writer WSession Prims MonadFacts CodecSpec Containers ContainerSpec Derive DeriveSpec SpellSpec SpellFacts P_Derive.

(** Hand-written types that follow a format step by step are lawful, as the round trips want
    them. *)
Theorem C28_by_hand : forall src o cu ce, customs_spell src o cu ce -> customs_lawful src o cu ce.
Proof. exact customs_spell_lawful. Qed.
Print Assumptions C28_by_hand.

(** Number, hand-written: a byte 0 and a u8, or a byte 1 and a u16, big-endian, that does not fit into a u8.
      struct Line { #[deku(bits = 4)] a: u8, number: Number, #[deku(bits = 4)] b: u8 } *)
Definition wide : list value := [VEnd Big].
Definition number_read : RM value :=
  let* k := read_ty no_customs 0 u8 None [] in
  if value_eqb k (VNum 0) then read_ty no_customs 0 u8 None []
  else let* n := read_ty no_customs 0 u16 None wide in lift (if value_eqb k (VNum 1) && (256 <=? num n)%N then Ok n else Err Parse).
Definition number_write (v : value) : WM unit :=
  if (num v <? 256)%N then let* _ := write_ty no_customs u8 [] (VNum 0) in write_ty no_customs u8 [] v
  else let* _ := write_ty no_customs u8 [] (VNum 1) in write_ty no_customs u16 wide v.
Definition numbers (k : nat) : custom := mkCustom (fun _ => number_read) (fun _ => number_write).
Definition number_format (src : source) (k : nat) (args : list value) (pos : nat) (v : value) : option (list bool) :=
  let wide_ := negb (num v <? 256)%N in
  match encode src Msb0 no_format u8 None [] pos (VNum (if wide_ then 1 else 0)) with
  | Some a => match encode src Msb0 no_format (if wide_ then u16 else u8) None (if wide_ then wide else []) (pos + length a) v with
              | Some b => Some (a ++ b)
              | None => None
              end
  | None => None
  end.
Definition Line : ty := TStruct cplain (field (bits 4 plain) u8 (field plain (TCustom 0) (field (bits 4 plain) u8 FNil))).
Lemma numbers_spell src : customs_spell src Msb0 numbers (number_format src).
Proof.
  intros k args pos v enc E. unfold number_format in E. destruct (encode _ _ _ u8 None [] pos _) as [a|] eqn:Ea; [|discriminate].
  destruct (encode _ _ _ _ _ _ _ v) as [b|] eqn:Eb; [|discriminate]. injection E as <-. cbn [numbers cu_read cu_write]. unfold number_read, number_write.
  destruct (num v <? 256)%N eqn:L; cbn [negb] in *.
  - eapply sp_bind; [apply (sp_prim src Msb0 no_customs 0 PU8); exact Ea|]. apply (sp_prim src Msb0 no_customs 0 PU8). exact Eb.
  - eapply sp_bind; [apply (sp_prim src Msb0 no_customs 0 PU8); exact Ea|]. cbn [value_eqb N.eqb]. eapply sp_check; [apply (sp_prim src Msb0 no_customs 0 (PU 2)); exact Eb|].
    apply N.ltb_ge in L. apply N.leb_le in L. rewrite L. reflexivity.
Qed.
Example C28_case_by_hand : customs_lawful SeekSource Msb0 numbers (number_format SeekSource) /\
  (exists enc, encode SeekSource Msb0 (number_format SeekSource) Line None [] 0 (VRec [VNum 5; VNum 515; VNum 7]) = Some enc /\ length enc = 32) /\
  to_bytes numbers Line (VRec [VNum 5; VNum 515; VNum 7]) = Ok [x50; x10; x20; x37] /\
  from_bytes numbers 99 Line [x50; x10; x20; x37; xff] 0 = Ok (([xff], 0), VRec [VNum 5; VNum 515; VNum 7]).
Proof.
  split; [apply C28_by_hand, numbers_spell|]. split; [eexists; split; vm_compute; reflexivity|]. split; vm_compute; reflexivity.
Qed.
