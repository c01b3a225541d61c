(** Hand-written types that are read and written again, C50.

    Vocabulary: [MirrorSpec.v] ([mirrors]: hand-written readers and the writers that go with
    them), [CanonSpec.v] ([faithful], [rewritable_type]). *)
From Coq Require Import Lia.
From Verif Require Import Base Spec Stream Reader Session Writer WSession Prims MonadFacts CodecSpec Containers ContainerSpec Derive DeriveSpec SafeSpec CanonSpec MirrorSpec MirrorFacts P_Derive P_Canon.

(** What such a reader accepts, the writer gives back bit for bit, as [rewritable] wants it. *)
Theorem C50_by_hand : forall o A (good : A -> Prop) m wr p q, mirrors o A good m wr p q -> faithful o p q good m wr.
Proof. exact mirrors_faithful. Qed.
Print Assumptions C50_by_hand.

(** struct Entry { #[deku(bits = 4)] a: u8, #[deku(bits = 4)] b: u8, len: Short }, where Short is hand-written: a byte
    0 and a u8, or a byte 1 and a u16 that does not fit into a u8. *)
Definition short_read : RM value :=
  let* k := prim_read PU8 C0 in
  if (k =? 0)%N then let* n := prim_read PU8 C0 in lift (Ok (VNum n))
  else if (k =? 1)%N then let* n := prim_read (PU 2) (CE Big) in lift (if (n <? 256)%N then Err Parse else Ok (VNum n))
  else fail Parse.
Definition short_write (v : value) : WM unit :=
  if (nth_num [v] 0 <? 256)%N then let* _ := prim_write PU8 C0 0 in prim_write PU8 C0 (nth_num [v] 0)
  else let* _ := prim_write PU8 C0 1 in prim_write (PU 2) (CE Big) (nth_num [v] 0).
Definition shorts (k : nat) : custom := mkCustom (fun _ => short_read) (fun _ => short_write).
Definition Entry : ty := TStruct cplain (field (bits 4 plain) u8 (field (bits 4 plain) u8 (field plain (TCustom 0) FNil))).
Lemma short_mirrors s : mirrors Msb0 value (fun _ => True) short_read short_write (s, Some 0) (s, Some 0).
Proof.
  assert (E : ends (s, Some 0) (s, Some 0) 0) by (split; [auto|intros j Hj; exists j; split; [exact Hj|now rewrite Nat.add_0_r]]).
  eapply mi_bind with (k := (s, Some 0)) (w2 := fun k v => if (k =? 0)%N then prim_write PU8 C0 (nth_num [v] 0) else prim_write (PU 2) (CE Big) (nth_num [v] 0))
    (good2 := fun k v => (k = 0 /\ nth_num [v] 0 < 256 \/ k = 1 /\ 256 <= nth_num [v] 0)%N).
  - apply (mi_prim Msb0 PU8 C0). cbn. repeat split; auto; try lia; apply E.
  - intros k _. destruct (k =? 0)%N eqn:E0; [|destruct (k =? 1)%N eqn:E1; [|apply mi_fail]].
    + apply N.eqb_eq in E0. eapply mi_check; [apply (mi_prim Msb0 PU8 C0 (s, Some 0) (s, Some 0)); cbn; repeat split; auto; try lia; apply E|].
      intros n b Hn Eb. injection Eb as <-. cbn in *. split; [left; split; [exact E0|exact Hn]|reflexivity].
    + apply N.eqb_eq in E1. eapply mi_check; [apply (mi_prim Msb0 (PU 2) (CE Big) (s, Some 0) (s, Some 0)); cbn; repeat split; auto; try lia; apply E|].
      intros n b Hn Eb. destruct (n <? 256)%N eqn:En; [discriminate|]. injection Eb as <-. apply N.ltb_ge in En. split; [right; split; [exact E1|exact En]|reflexivity].
  - intros k v _ Hk. split; [exact I|]. intros w. unfold short_write.
    destruct Hk as [[-> Hk]|[-> Hk]]; [apply N.ltb_lt in Hk|apply N.ltb_ge in Hk]; rewrite Hk; reflexivity.
Qed.
Example C50_case_by_hand : rewritable_type shorts Msb0 Entry /\
  try_from shorts 9 Entry [x5a; x01; x02; x03] = Ok (VRec [VNum 5; VNum 10; VNum 515]) /\
  to_bytes shorts Entry (VRec [VNum 5; VNum 10; VNum 515]) = Ok [x5a; x01; x02; x03] /\
  try_from shorts 9 Entry [x5a; x01; x00; x03] = Err Parse.
Proof.
  split; [|repeat split; vm_compute; reflexivity].
  exists (SeekSource, Some 0). cbn [Entry rewritable]. split; [reflexivity|]. split; [now left|].
  unfold field. cbn [fields_rewritable].
  exists (SeekSource, Some 4). split; [field_tac; read_tac; bits_tac|]. next_tac.
  exists (SeekSource, Some 0). split; [field_tac; read_tac; bits_tac|]. next_tac.
  exists (SeekSource, Some 0). split; [field_tac; read_tac; split; [reflexivity|apply C50_by_hand, short_mirrors]|]. next_tac.
  split; [ends_tac|]. repeat split.
Qed.
