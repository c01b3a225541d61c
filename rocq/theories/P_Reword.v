(** Declarations that say the same in other words, C88.

    Vocabulary: [RewordSpec.v] ([reworded]: a list of rewordings, of any part of a type and
    one after another; [lasting]: no field is [temp]).  Examples as in [P_Derive.v]. *)
From Verif Require Import Base Stream Reader Writer Prims Containers Derive DeriveSpec P_Derive RewordSpec RewordFacts.

(** Reworded types are read alike: with any arguments and from any state of the reader,
    and so through the API from every source, with the same errors. *)
Theorem C88_reading : forall cu fuel t t', reworded t t' ->
  (forall lim args r, read_ty cu fuel t' lim args r = read_ty cu fuel t lim args r) /\
  (forall s bit, from_reader cu fuel t' s bit = from_reader cu fuel t s bit) /\
  (forall input bit, from_bytes cu fuel t' input bit = from_bytes cu fuel t input bit) /\
  (forall input, try_from cu fuel t' input = try_from cu fuel t input).
Proof. exact reworded_reads. Qed.
Print Assumptions C88_reading.
(** They are written alike, *)
Theorem C88_writing : forall cu t t' v, reworded t t' ->
  (forall args w, write_ty cu t' args v w = write_ty cu t args v w) /\
  to_bytes cu t' v = to_bytes cu t v /\
  (forall buf, to_slice cu t' v buf = to_slice cu t v buf) /\
  to_bits cu t' v = to_bits cu t v.
Proof. exact reworded_writes. Qed.
Print Assumptions C88_writing.
(** updated alike, *)
Theorem C88_update : forall t t' v, reworded t t' -> update t' v = update t v.
Proof. exact reworded_update. Qed.
Print Assumptions C88_update.
(** and have the same size if no field is [temp]. *)
Theorem C88_size_partial : forall t t', reworded t t' -> lasting t = true -> size_bits t' = size_bits t /\ size_bytes t' = size_bytes t.
Proof. exact reworded_size. Qed.
Print Assumptions C88_size_partial.

(** #[deku(magic = b"DK")] struct { #[deku(bits = 4, pad_bits_after = 4)] a: u8, #[deku(assert_eq = "7", cond = "true")] b: u8,
      #[deku(skip, cond = "false")] c: [Inner; 1] }
    struct Inner { x: u8, #[deku(skip(read), cond = "*x == 0", default = "9", map = "|v| Ok(v)")] y: u8 }
    and the same in other words. *)
Definition yes (b : bool) : expr bool := fun _ _ _ => b.
Definition is_zero : expr bool := fun _ fs _ => value_eqb (nth 0 fs VUnit) (VNum 0).
Definition same : expr (value -> res value) := fun _ _ _ v => Ok v.
Definition Inner : ty := TStruct cplain (field plain u8 (field (skipping (Some SkipRead) (Some is_zero) (fun _ _ _ => VNum 9) (mapping (Some same) plain)) u8 FNil)).
Definition Inner' : ty := TStruct cplain (field plain u8 (field (skipping None (Some (fun ctx fs off => negb (is_zero ctx fs off))) (fun _ _ _ => VNum 9) (mapping None plain)) u8 FNil)).
Definition seven : expr value := fun _ _ _ => VNum 7.
Definition Outer : ty := TStruct (starting [x44; x4b] cplain)
  (field (padding_after (Some (fun _ _ => 4%Z)) (led_by [] None (bits 4 plain))) u8
  (field (led_by [] None (skipping None (Some (yes true)) (fun _ _ _ => VUnit) (asserting None (Some seven) plain))) u8
  (field (skipping (Some SkipAll) (Some (yes false)) (fun _ _ _ => VUnit) plain) (TArray 1 Inner) FNil))).
Definition Outer' : ty := TStruct (starting [] cplain)
  (field (padding_after None (led_by [x44; x4b] None (bits 4 plain))) u8
  (field (led_by [] (Some (fun _ _ => 4%Z)) (skipping None None (fun _ _ _ => VNum 1) (asserting (Some (and_equal None seven)) None plain))) u8
  (field (skipping None None (fun _ _ _ => VNum 2) plain) (TArray 1 Inner') FNil))).
Example C88_case : reworded Outer Outer' /\ lasting Outer = true /\
  (let v := VRec [VNum 5; VNum 7; VList [VRec [VNum 0; VNum 9]]] in
   try_from no_customs 9 Outer' [x44; x4b; x50; x07; x00] = Ok v /\ to_bytes no_customs Outer' v = Ok [x44; x4b; x50; x07; x00; x09]) /\
  try_from no_customs 9 Outer' [x44; x4b; x50; x07; x01; x02] = Ok (VRec [VNum 5; VNum 7; VList [VRec [VNum 1; VNum 2]]]) /\
  try_from no_customs 9 Outer' [x44; x4b; x50; x06; x01; x02] = Err Assertion /\ size_bits Outer' = Some 48.
Proof.
  assert (I : reworded Inner Inner').
  { apply rw_struct, rf_parts; [apply rw_refl|apply rw_refl|]. eapply rf_trans; [apply rf_skip_read|].
    exact (rf_map true cplain same (skipping None (Some (fun ctx fs off => negb (is_zero ctx fs off))) (fun _ _ _ => VNum 9) plain) u8 u8 FNil (fun _ _ _ _ => eq_refl)). }
  split; [|repeat split].
  eapply rw_trans; [apply (rw_magic cplain [x44; x4b] None (padding_after (Some (fun _ _ => 4%Z)) (bits 4 plain))); reflexivity|].
  apply rw_struct. eapply rf_trans; [apply (rf_pad (starting [] cplain) (Some (fun _ _ => 4%Z)) (led_by [x44; x4b] None (bits 4 plain)) u8 u8
    (skipping None (Some (yes true)) (fun _ _ _ => VUnit) (asserting None (Some seven) plain))); [reflexivity|intros; reflexivity]|].
  apply rf_parts; [apply rw_refl|apply rw_refl|].
  set (p := led_by [] (Some (fun _ _ => 4%Z)) plain).
  eapply rf_trans; [apply (rf_cond_true true (starting [] cplain) (yes true) (fun _ _ _ => VUnit) (fun _ _ _ => VNum 1) (asserting None (Some seven) p)); intros ctx fs off; reflexivity|].
  eapply rf_trans; [apply (rf_assert_eq true (starting [] cplain) None seven (skipping None None (fun _ _ _ => VNum 1) p))|].
  apply rf_parts; [apply rw_refl|apply rw_refl|].
  eapply rf_trans; [apply (rf_skip_never true (starting [] cplain) (yes false) (fun _ _ _ => VUnit) (fun _ _ _ => VNum 2) plain); intros ctx fs off; reflexivity|].
  apply rf_parts; [apply rw_array, I|apply rw_array, I|apply rf_refl].
Qed.

(** ** What is not the same *)

(** [cond = "false"] is not [skip]: the field is not read, but it is written. *)
Theorem C88_cond_skip_refuted : exists c f d a t v, always false f /\
  let s := TStruct c (FCons (skipping None (Some f) d a) t t FNil) in let s' := TStruct c (FCons (skipping (Some SkipAll) None d a) t t FNil) in
  try_from no_customs 9 s [] = Ok v /\ try_from no_customs 9 s' [] = Ok v /\ to_bytes no_customs s v = Ok [x09] /\ to_bytes no_customs s' v = Ok [].
Proof. exists cplain, (yes false), (fun _ _ _ => VNum 9), plain, u8, (VRec [VNum 9]). split; [intros ctx fs off; reflexivity|]. repeat split. Qed.
Print Assumptions C88_cond_skip_refuted.
(** Padding after a field is before the [magic] of the next one, padding before that one is
    behind it. *)
Theorem C88_pad_magic_refuted : exists c p m a b t v,
  let s := TStruct c (FCons (padding_after p a) t t (FCons (led_by m None b) t t FNil)) in let s' := TStruct c (FCons (padding_after None a) t t (FCons (led_by m p b) t t FNil)) in
  to_bytes no_customs s v = Ok [x01; x00; x44; x02] /\ to_bytes no_customs s' v = Ok [x01; x44; x00; x02] /\
  try_from no_customs 9 s [x01; x00; x44; x02] = Ok v /\ try_from no_customs 9 s' [x01; x00; x44; x02] = Err Parse.
Proof. exists cplain, (Some (fun _ _ => 8%Z)), [x44], plain, plain, u8, (VRec [VNum 1; VNum 2]). repeat split. Qed.
Print Assumptions C88_pad_magic_refuted.
(** Padding is in the bit order of its own field. *)
Theorem C88_pad_order_refuted : exists c p a b t, a_seek b = None /\
  try_from no_customs 9 (TStruct c (FCons (padding_after p a) t t (FCons (led_by [] None b) t t FNil))) [x12] <>
  try_from no_customs 9 (TStruct c (FCons (padding_after None a) t t (FCons (led_by [] p b) t t FNil))) [x12].
Proof.
  exists cplain, (Some (fun _ _ => 2%Z)), (bits 4 plain),
    (mkF None (Some (fun _ _ => Lsb0)) (Some (fun _ _ => 2)) None (fun _ _ _ => []) None None None None None None (fun _ _ _ => VUnit) None None None [] None None false None None), u8.
  split; [reflexivity|]. vm_compute. discriminate.
Qed.
Print Assumptions C88_pad_order_refuted.
(** The magic of a [temp] field is not counted in the size, that of the struct is. *)
Theorem C88_size_refuted : exists t t' v, reworded t t' /\ size_bits t = Some 24 /\ size_bits t' = Some 8 /\
  to_bytes no_customs t v = Ok [x44; x4b; x01; x02] /\ to_bytes no_customs t' v = Ok [x44; x4b; x01; x02].
Proof.
  set (a := temporary (fun _ _ _ => VNum 1) plain). exists (TStruct (starting [x44; x4b] cplain) (field (led_by [] None a) u8 (field plain u8 FNil))), (TStruct (starting [] cplain) (field (led_by [x44; x4b] None a) u8 (field plain u8 FNil))), (VRec [VNum 2]).
  split; [apply rw_magic; reflexivity|]. repeat split.
Qed.
Print Assumptions C88_size_refuted.
