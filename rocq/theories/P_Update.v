(** [update] of plain declarations, C68.

    Vocabulary: [PlainSpec.v] ([pty], [plain_type], [value_fits], [wire]), [UpdateSpec.v] ([updating_decl], [updating_type],
    [but_counts], [counts_right], [lengths_fit]), [Decl.v] ([derive]), [SafeSpec.v] ([typed]), [Derive.v] ([update]). *)
From Coq Require Import Lia.
From Verif Require Import Base Spec Stream Reader Writer Prims Containers Derive DeriveSpec SafeSpec Decl PlainSpec UpdateSpec UpdateFacts P_Derive.

(** The types of which the theorems below speak are what the derive macros make of
    declarations in which every count has [update = "self.x.len()"]. *)
Theorem C68_declared : forall t d tr, updating_decl t = Some d -> derive tr true d = Some (updating_type t).
Proof. exact updating_declared. Qed.
Print Assumptions C68_declared.

(** struct Packet {
      #[deku(update = "self.names.len()")] n: u8,
      more: bool,
      #[deku(bits = 4, update = "self.codes.len()")] m: u8,
      #[deku(bits = 4)] kind: u8,
      #[deku(count = "n")] names: Vec<Name>,
      #[deku(count = "m", endian = "big")] codes: Vec<u16>,
      #[deku(cond = "*more")] last: Option<u8>,
    }
    struct Name { len: u8, #[deku(count = "len")] chars: Vec<(u8, u8)> } *)
Definition pp (b : option nat) (k : pkind) : pattrs := mkP None b k [] 0 0.
Definition Name : pty := PStruct [] (PCons (pp None One) (PInt PU8) (PCons (pp None (Many 0 2)) (PPair (PInt PU8) (PInt PU8)) PNil)).
Definition Packet : pty := PStruct []
  (PCons (pp None One) (PInt PU8)
  (PCons (pp None One) PBool
  (PCons (pp (Some 4) One) (PInt PU8)
  (PCons (pp (Some 4) One) (PInt PU8)
  (PCons (pp None (Many 0 24)) Name
  (PCons (mkP (Some Big) None (Many 2 2) [] 0 0) (PInt (PU 2))
  (PCons (pp None (When 1)) (PInt PU8) PNil))))))).
(** [n] and [m] are the counts, [l] the length in the only name. *)
Definition packet (n m l : N) (more : bool) : value :=
  VRec [VNum n; VBool more; VNum m; VNum 5; VList [VRec [VNum l; VList [VPair (VNum 7) (VNum 8)]]]; VList [VNum 0x102; VNum 0x304]; if more then VSome (VNum 9) else VNone].
Example C68_declared_case : exists d, updating_decl Packet = Some d /\ plain_type Packet = true /\ container Packet = true /\
  (forall n m l more, (n < 256)%N -> (m < 256)%N -> (l < 256)%N -> typed (ctype Packet) (packet n m l more)) /\
  (forall more, value_fits None Packet (packet 1 2 1 more) = true).
Proof.
  eexists. split; [reflexivity|]. split; [reflexivity|]. split; [reflexivity|]. split; [|now intros []].
  intros n m l more Hn Hm Hl. cbn. repeat split; auto; try (repeat constructor; cbn; auto; lia); destruct more; cbn; auto; lia.
Qed.

(** [update] sets the counts to the lengths and nothing else ... *)
Theorem C68_update : forall t v v', plain_type t = true -> container t = true -> typed (ctype t) v ->
  (update (updating_type t) v = Ok v' <-> typed (ctype t) v' /\ but_counts t v v' /\ counts_right t v').
Proof. exact update_ok. Qed.
Print Assumptions C68_update.
(** ... and fails exactly if one of the lengths does not fit the type of its count. *)
Theorem C68_total : forall t v, plain_type t = true -> container t = true -> typed (ctype t) v ->
  (lengths_fit t v -> exists v', update (updating_type t) v = Ok v') /\ (~ lengths_fit t v -> update (updating_type t) v = Err Parse).
Proof. exact update_total. Qed.
Print Assumptions C68_total.
Theorem C68_again : forall t v v', plain_type t = true -> container t = true -> typed (ctype t) v -> update (updating_type t) v = Ok v' ->
  update (updating_type t) v' = Ok v'.
Proof. exact update_again. Qed.
Print Assumptions C68_again.
Example C68_update_case : update (updating_type Packet) (packet 77 0 1 true) = Ok (packet 1 2 1 true) /\ but_counts Packet (packet 77 0 1 true) (packet 1 2 1 true) /\
  counts_right Packet (packet 1 2 1 true) /\
  (let Short := PStruct [] (PCons (pp None One) (PInt PU8) (PCons (pp None (Many 0 2)) (PInt (PU 2)) PNil)) in
   ~ lengths_fit Short (VRec [VNum 0; VList (repeat (VNum 7) 256)]) /\ lengths_fit Short (VRec [VNum 0; VList (repeat (VNum 7) 255)])).
Proof.
  split; [reflexivity|]. split.
  { split; [exact I|]. split; [reflexivity|]. intros [|[|[|[|[|[|[|k]]]]]]] H; try reflexivity; discriminate. }
  split.
  { intros [|[|[|k]]] i H; try discriminate; injection H as <-; reflexivity. }
  split.
  - intros H. specialize (H 0 1 PU8 eq_refl eq_refl). vm_compute in H. discriminate.
  - intros [|k] i p H1 H2; [|destruct k; discriminate]. injection H1 as <-. injection H2 as <-. vm_compute. reflexivity.
Qed.

(** Reading and writing are those of the declaration without [update]. *)
Theorem C68_wire : forall cu t,
  (forall fuel s bit, from_reader cu fuel (updating_type t) s bit = from_reader cu fuel (ctype t) s bit) /\
  (forall fuel input bit, from_bytes cu fuel (updating_type t) input bit = from_bytes cu fuel (ctype t) input bit) /\
  (forall fuel input, try_from cu fuel (updating_type t) input = try_from cu fuel (ctype t) input) /\
  (forall v, to_bytes cu (updating_type t) v = to_bytes cu (ctype t) v) /\ (forall v, to_bits cu (updating_type t) v = to_bits cu (ctype t) v) /\
  (forall v buf, to_slice cu (updating_type t) v buf = to_slice cu (ctype t) v buf).
Proof. exact updating_means. Qed.
Print Assumptions C68_wire.
(** So a value that is right but for its counts is repaired: [update] gives the value with
    the right counts, which is written and read back. *)
Theorem C68_repairs : forall cu fuel t v v', plain_type t = true -> container t = true -> typed (ctype t) v -> value_fits None t v' = true -> but_counts t v v' ->
  update (updating_type t) v = Ok v' /\
  exists bytes, to_bytes cu (updating_type t) v' = Ok bytes /\
    (length (wire None None t v') <= fuel -> forall tail, exists rest, from_bytes cu fuel (updating_type t) (bytes ++ tail) 0 = Ok (rest, v')).
Proof. exact update_repairs. Qed.
Print Assumptions C68_repairs.
Example C68_repairs_case : to_bytes no_customs (updating_type Packet) (packet 1 2 1 true) = Ok [x01; x01; x25; x01; x07; x08; x01; x02; x03; x04; x09] /\
  from_bytes no_customs 300 (updating_type Packet) [x01; x01; x25; x01; x07; x08; x01; x02; x03; x04; x09; xff] 0 = Ok (([xff], 0), packet 1 2 1 true) /\
  (** without [update] something else is read *)
  from_bytes no_customs 300 (updating_type Packet) [x01; x01; x15; x01; x07; x08; x01; x02; x03; x04; x09] 0 =
    Ok (([x04; x09], 0), VRec [VNum 1; VBool true; VNum 1; VNum 5; VList [VRec [VNum 1; VList [VPair (VNum 7) (VNum 8)]]]; VList [VNum 0x102]; VSome (VNum 3)]) /\
  to_bytes no_customs (updating_type Packet) (packet 1 1 1 true) = Ok [x01; x01; x15; x01; x07; x08; x01; x02; x03; x04; x09].
Proof. repeat split; vm_compute; reflexivity. Qed.
(** False of counts that are not in the struct itself: [update] does not reach the structs
    it is made of, so that the value sent is not the one received. *)
Theorem C68_nested_refuted : exists t v, plain_type t = true /\ container t = true /\ typed (ctype t) v /\ numbers_fit None t v = true /\
  update (updating_type t) v = Ok v /\ exists bytes rest v', to_bytes no_customs (updating_type t) v = Ok bytes /\
    from_bytes no_customs 300 (updating_type t) bytes 0 = Ok (rest, v') /\ v' <> v.
Proof.
  exists (PStruct [] (PCons (pp None One) Name (PCons (pp None One) (PArray 2 (PInt PU8)) PNil))), (VRec [VRec [VNum 0; VList [VPair (VNum 7) (VNum 8)]]; VList [VNum 1; VNum 2]]).
  do 3 (split; [repeat (cbn; try split; repeat constructor)|]). do 2 (split; [reflexivity|]). do 3 eexists.
  split; [vm_compute; reflexivity|]. split; [vm_compute; reflexivity|discriminate].
Qed.
Print Assumptions C68_nested_refuted.
