(** Enums with the variants in another order, C86.

    Vocabulary: [ReorderSpec.v] ([reordered], [apart], [renamed]).  [Kind] as in [P_Derive.v]:
    the model numbers the variants in the order of the declaration, [renamed] gives the same
    variant its new number. *)
From Coq Require Import Lia.
From Verif Require Import Base Stream Reader Writer Prims Containers Derive DeriveSpec ReorderSpec ReorderFacts P_Derive.

(** Reading: the same values, rests, errors and panics, on every source. *)
Theorem C86_from_reader : forall s r e idt vs vs', reordered s r vs vs' -> apart vs -> forall cu fuel st bit,
  from_reader cu fuel (TEnum e idt vs') st bit =
  (let '(x, st') := from_reader cu fuel (TEnum e idt vs) st bit in (res_map x (fun '(n, v) => (n, renamed s v)), st')).
Proof. intros s r e idt vs vs' HR HA cu fuel. exact (from_reader_there s r vs vs' HR HA cu fuel e idt). Qed.
Print Assumptions C86_from_reader.
Theorem C86_from_bytes : forall s r e idt vs vs', reordered s r vs vs' -> apart vs -> forall cu fuel input bit,
  from_bytes cu fuel (TEnum e idt vs') input bit = res_map (from_bytes cu fuel (TEnum e idt vs) input bit) (fun '(p, v) => (p, renamed s v)).
Proof. intros s r e idt vs vs' HR HA cu fuel. exact (from_bytes_there s r vs vs' HR HA cu fuel e idt). Qed.
Print Assumptions C86_from_bytes.
Theorem C86_try_from : forall s r e idt vs vs', reordered s r vs vs' -> apart vs -> forall cu fuel input,
  try_from cu fuel (TEnum e idt vs') input = res_map (try_from cu fuel (TEnum e idt vs) input) (renamed s).
Proof. intros s r e idt vs vs' HR HA cu fuel. exact (try_from_there s r vs vs' HR HA cu fuel e idt). Qed.
Print Assumptions C86_try_from.
(** Writing, [deku_id], [update] and [SIZE_BITS]: the same, also if ids overlap. *)
Theorem C86_written : forall cu s r e idt vs vs' k l buf, reordered s r vs vs' -> nth_variant vs k <> None ->
  to_bytes cu (TEnum e idt vs') (VVar (s k) l) = to_bytes cu (TEnum e idt vs) (VVar k l) /\
  to_bits cu (TEnum e idt vs') (VVar (s k) l) = to_bits cu (TEnum e idt vs) (VVar k l) /\
  to_slice cu (TEnum e idt vs') (VVar (s k) l) buf = to_slice cu (TEnum e idt vs) (VVar k l) buf.
Proof. exact written_there. Qed.
Print Assumptions C86_written.
Theorem C86_deku_id : forall s r vs vs' k, reordered s r vs vs' -> nth_variant vs k <> None -> deku_id vs' (s k) = deku_id vs k.
Proof. exact id_there. Qed.
Print Assumptions C86_deku_id.
Theorem C86_update : forall s r e idt vs vs' k l, reordered s r vs vs' -> nth_variant vs k <> None ->
  update (TEnum e idt vs') (VVar (s k) l) = res_map (update (TEnum e idt vs) (VVar k l)) (renamed s).
Proof. exact update_there. Qed.
Print Assumptions C86_update.
Theorem C86_size : forall s r e idt vs vs', reordered s r vs vs' -> size_bits (TEnum e idt vs') = size_bits (TEnum e idt vs).
Proof. exact size_there. Qed.
Print Assumptions C86_size.

(** [Kind] with a default variant, and the same with the variants rotated. *)
Definition id_1 := mkV (SId (VNum 1)) false.
Definition id_2 := mkV (SId (VNum 2)) true.
Definition id_10_20 := mkV (SPat (fun v => (10 <=? num v)%N && (num v <=? 20)%N) None) false.
Definition two_bytes : fields := field plain u8 (field plain u8 FNil).
Definition kinds : variants := VCons id_1 FNil (VCons id_2 (field plain u32 FNil) (VCons id_10_20 two_bytes VNil)).
Definition kinds' : variants := VCons id_10_20 two_bytes (VCons id_1 FNil (VCons id_2 (field plain u32 FNil) VNil)).
Definition forth (k : nat) : nat := match k with 0 => 1 | 1 => 2 | 2 => 0 | k => k end.
Definition back (k : nat) : nat := match k with 0 => 2 | 1 => 0 | 2 => 1 | k => k end.
Definition kind_attrs : eattrs := mkE big None None None None.
Example C86_case : reordered forth back kinds kinds' /\ apart kinds /\
  try_from no_customs 0 (TEnum kind_attrs u8 kinds) [x0c; x77] = Ok (VVar 2 [VNum 12; VNum 0x77]) /\
  try_from no_customs 0 (TEnum kind_attrs u8 kinds') [x0c; x77] = Ok (VVar 0 [VNum 12; VNum 0x77]) /\
  try_from no_customs 0 (TEnum kind_attrs u8 kinds) [x63; x00; x00; x01; x02] = Ok (VVar 1 [VNum 0x102]) /\
  try_from no_customs 0 (TEnum kind_attrs u8 kinds') [x63; x00; x00; x01; x02] = Ok (VVar 2 [VNum 0x102]).
Proof.
  split; [split; intros [|[|[|k]]] v N; cbn in N; try discriminate; split; (exact N || reflexivity)|]. split.
  { assert (X : forall id (v : N), matches (SId (VNum v)) id = true -> id = VNum v). { intros id v M. cbn in M. destruct id; try discriminate. apply N.eqb_eq in M. now subst. }
    intros [|[|[|i]]] [|[|[|j]]] v fs w gs D N N'; cbn in N, N'; try discriminate; try congruence; injection N as <- <-; injection N' as <- <-; (split; [|now intros]); intros id M;
      try (apply X in M; subst id; reflexivity); cbn in M |- *; destruct id; try reflexivity; cbn in *; lia. }
  repeat split; vm_compute; reflexivity.
Qed.

(** Where two variants match an id, the order decides. *)
Definition pattern (lo hi : N) : vattrs := mkV (SPat (fun v => (lo <=? num v)%N && (num v <=? hi)%N) None) false.
Theorem C86_overlap_refuted : exists s r vs vs' input k l, reordered s r vs vs' /\
  try_from no_customs 0 (TEnum kind_attrs u8 vs) input = Ok (VVar k l) /\ try_from no_customs 0 (TEnum kind_attrs u8 vs') input <> Ok (VVar (s k) l).
Proof.
  exists (fun k => match k with 0 => 1 | 1 => 0 | k => k end), (fun k => match k with 0 => 1 | 1 => 0 | k => k end).
  exists (VCons (pattern 0 9) (field plain u8 FNil) (VCons (pattern 5 20) (field plain u8 FNil) VNil)), (VCons (pattern 5 20) (field plain u8 FNil) (VCons (pattern 0 9) (field plain u8 FNil) VNil)), [x07], 0, [VNum 7].
  split; [split; intros [|[|k]] v N; cbn in N; try discriminate; split; (exact N || reflexivity)|]. split; [reflexivity|vm_compute; discriminate].
Qed.
Print Assumptions C86_overlap_refuted.
