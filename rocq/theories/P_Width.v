(** Targets whose [usize] is narrower than 64 bits, C87.

    Vocabulary: [Width.v] (the model of such a target: [n_from_reader], [n_from_bytes],
    [n_try_from], [n_to_bytes], [n_to_bits], [n_to_slice]); [WidthSpec.v] ([sensible],
    [bits32], [bits64], [refused], [within], [pads_fit]); [FlowSpec.v] ([flow_type]) of C49. *)
From Coq Require Import Lia.
From Verif Require Import Base Stream Reader Writer Prims Containers Derive DeriveSpec SafeSpec SafeFacts DeriveSafe FlowSpec FlowFacts Width WidthSpec WidthFacts WidthFlow WidthWrite P_Derive P_Safe.

(** ** The same, or refused *)

(** From any source: the same result and the same state of the source, or a panic, [Parse]
    or [InvalidParam]. *)
Theorem C87_from_reader : forall m cu fuel t s bit, sensible m ->
  n_from_reader m cu fuel t s bit = from_reader cu fuel t s bit \/ refused (fst (n_from_reader m cu fuel t s bit)).
Proof. intros m cu fuel t s bit H. exact (narrow_from_reader m cu fuel H t s bit). Qed.
Print Assumptions C87_from_reader.
(** In the middle of a read, with any limit and context. *)
Theorem C87_reader : forall m cu fuel t lim args r, sensible m ->
  n_read_ty m cu fuel t lim args r = read_ty cu fuel t lim args r \/ refused (fst (n_read_ty m cu fuel t lim args r)).
Proof. intros m cu fuel t lim args r H. exact (narrow_reader m cu fuel H t lim args r). Qed.
Print Assumptions C87_reader.
Theorem C87_from_bytes : forall m cu fuel t input bit, sensible m ->
  (n_from_bytes m cu fuel t input bit = from_bytes cu fuel t input bit \/ refused (n_from_bytes m cu fuel t input bit)) /\
  (n_try_from m cu fuel t input = try_from cu fuel t input \/ refused (n_try_from m cu fuel t input)).
Proof. intros m cu fuel t input bit H. exact (conj (narrow_from_bytes m cu fuel H t input bit) (narrow_try_from m cu fuel H t input)). Qed.
Print Assumptions C87_from_bytes.
(** Whatever the narrow target reads, a 64-bit target reads alike. *)
Theorem C87_read_alike : forall m cu fuel t input bit, sensible m ->
  (forall x, n_from_bytes m cu fuel t input bit = Ok x -> from_bytes cu fuel t input bit = Ok x) /\
  (forall x, n_try_from m cu fuel t input = Ok x -> try_from cu fuel t input = Ok x).
Proof. intros m cu fuel t input bit H. exact (narrow_ok m cu fuel H t input bit). Qed.
Print Assumptions C87_read_alike.
(** Writing: the same, or [InvalidParam]. *)
Theorem C87_written : forall m cu t v buf, sensible m ->
  (n_to_bytes m cu t v = to_bytes cu t v \/ n_to_bytes m cu t v = Err InvalidParam) /\
  (n_to_bits m cu t v = to_bits cu t v \/ n_to_bits m cu t v = Err InvalidParam) /\
  (n_to_slice m cu t v buf = to_slice cu t v buf \/ fst (n_to_slice m cu t v buf) = Err InvalidParam).
Proof. intros m cu t v buf H. exact (narrow_written m cu H t v buf). Qed.
Print Assumptions C87_written.
Example C87_case : sensible bits32 /\
  n_from_bytes bits32 no_customs 100 Record_ [x02; x61; x62; x02; x00; x00; x01; x00; x0b; x07; x01] 0 =
  from_bytes no_customs 100 Record_ [x02; x61; x62; x02; x00; x00; x01; x00; x0b; x07; x01] 0 /\
  exists x, n_from_bytes bits32 no_customs 100 Record_ [x02; x61; x62; x02; x00; x00; x01; x00; x0b; x07; x01] 0 = Ok x.
Proof. split; [exact bits32_sensible|]. split; [vm_compute; reflexivity|]. eexists. vm_compute. reflexivity. Qed.
(** Pointers of half the size: an element of 24 bytes on a 64-bit target has 12. *)
Example C87_pointers : sensible (mkTarget 32 (fun n => (n / 2 + n mod 2)%N)).
Proof.
  split; [cbn; lia|]. intros n. change (2 ^ (64 - tg_bits (mkTarget 32 (fun n => (n / 2 + n mod 2)%N))))%N with 4294967296%N. cbn [tg_size].
  pose proof (N.div_mod n 2 ltac:(lia)). pose proof (N.mod_lt n 2 ltac:(lia)). lia.
Qed.

(** ** The model of a 64-bit target is the case of 64 bits *)

Theorem C87_wide : forall cu fuel t,
  (forall s bit, n_from_reader bits64 cu fuel t s bit = from_reader cu fuel t s bit) /\
  (forall lim args r, n_read_ty bits64 cu fuel t lim args r = read_ty cu fuel t lim args r) /\
  (forall args v w, n_write_ty bits64 cu t args v w = write_ty cu t args v w).
Proof.
  intros cu fuel t.
  exact (conj (wide_from_reader cu fuel t) (conj (wide_reader cu fuel t) (wide_writer cu t))).
Qed.
Print Assumptions C87_wide.

(** ** The same, if the numbers fit

    Types safe in the sense of C49 whose counts, lengths and paddings fit the narrow
    target whatever the values of the fields before them are: nothing differs ... *)
Theorem C87_fits_from_reader : forall m cu fuel t s bit, sensible m -> flow_type cu t -> within m t None [] -> (forall j, s_fault s j = None) ->
  s_pos s <= length (s_data s) -> bit < 8 -> 8 * length (s_data s) + 8 < fuel -> n_from_reader m cu fuel t s bit = from_reader cu fuel t s bit.
Proof. exact same_from_reader. Qed.
Print Assumptions C87_fits_from_reader.
Theorem C87_fits_from_bytes : forall m cu fuel t input bit, sensible m -> flow_type cu t -> within m t None [] -> bit < 8 -> 8 * length input + 8 < fuel ->
  n_from_bytes m cu fuel t input bit = from_bytes cu fuel t input bit /\ n_try_from m cu fuel t input = try_from cu fuel t input.
Proof. exact same_from_bytes. Qed.
Print Assumptions C87_fits_from_bytes.
(** ... and the narrow target does not panic either. *)
Theorem C87_fits_no_panic : forall m cu fuel t input bit, sensible m -> flow_type cu t -> within m t None [] -> bit < 8 -> 8 * length input + 8 < fuel ->
  let x := n_from_bytes m cu fuel t input bit in x <> Panic /\ x <> Diverge /\ forall rest v, x = Ok (rest, v) -> typed t v.
Proof. exact narrow_safe. Qed.
Print Assumptions C87_fits_no_panic.
(** A value whose paddings fit is written alike. *)
Theorem C87_fits_written : forall m cu t v buf, sensible m -> pads_fit m t [] v ->
  n_to_bytes m cu t v = to_bytes cu t v /\ n_to_bits m cu t v = to_bits cu t v /\ n_to_slice m cu t v buf = to_slice cu t v buf.
Proof. exact written_fits. Qed.
Print Assumptions C87_fits_written.
(** struct Padded { n: u16, #[deku(pad_bits_before = "n")] x: u8 } on 16 bits. *)
Definition Padded : ty := TStruct cplain (field plain u16
  (field (mkF None None None None (fun _ _ _ => []) None None None None None None (fun _ _ _ => VUnit) None None None [] (Some (fun _ fs => Z.of_N (nth_num fs 0))) None false None None) u8 FNil)).
Example C87_fits_written_case : pads_fit (mkTarget 16 (fun n => n)) Padded [] (VRec [VNum 16; VNum 7]) /\
  n_to_bytes (mkTarget 16 (fun n => n)) no_customs Padded (VRec [VNum 16; VNum 7]) = Ok [x10; x00; x00; x00; x07].
Proof. split; [|vm_compute; reflexivity]. cbn -[n_usize_max]. change (n_usize_max (mkTarget 16 (fun n => n))) with 65535%N. unfold nth_num. cbn. repeat split; lia. Qed.

(** Lengths of one byte, on 16 and on 32 bits; a length of two bytes with elements of 16
    bytes, on 32 bits:
      struct Names { len: u16, #[deku(count = "len")] data: Vec<Kind> } *)
Definition bits16 : target := mkTarget 16 (fun n => n).
Definition CountU16 : ty := TStruct cplain (field plain u16 (field (limited (count_of 0) plain) (TVec KVec 16 Kind) FNil)).
Ltac numbers :=
  repeat match goal with
  | |- _ /\ _ => split
  | |- True => exact I
  | |- forall _, _ => intro
  end;
  try match goal with
  | |- context [nth_num (?v :: _) 0] =>
      destruct v; try contradiction; unfold nth_num; cbn [nth num]; rewrite to_usize_small by lia; rewrite N2Z.id
  end.
Example C87_fits_case : sensible bits16 /\ within bits16 Record_ None [] /\ within bits32 CountU16 None [] /\
  flow_type no_customs Record_ /\ flow_type no_customs CountU16.
Proof.
  split; [|split; [|split; [|split]]].
  - split; [cbn; lia|]. intros n. change (2 ^ (64 - tg_bits bits16))%N with 281474976710656%N. cbn [tg_size bits16]. lia.
  - cbn -[N.pow N.mul n_usize_max n_isize_max]. numbers. cbn [number_within].
    change (n_usize_max bits16) with 65535%N. lia.
  - cbn -[N.pow N.mul n_usize_max n_isize_max]. numbers. cbn [number_within vec_within slot_size hashed tg_size bits32].
    change (n_usize_max bits32) with 4294967295%N. change (n_isize_max bits32) with 2147483647%N. numbers; lia.
  - apply safe_flow. apply C49_case_seek.
  - apply safe_flow. exists true. unfold CountU16, Kind. cbn. repeat safe_step.
    destruct v; try contradiction. unfold nth_num. cbn. rewrite to_usize_small by lia. rewrite N2Z.id.
    eexists. split; [reflexivity|]. split; [|repeat safe_step]. split; [cbn; unfold isize_max; lia|]. split; [cbn; tauto|discriminate].
Qed.

(** ** Numbers that do not fit are refused, not truncated *)

(** A count or a length, from any source. *)
Theorem C87_limit_refused : forall m cu fuel c a f l t wire tl s, c_seek c = None -> c_magic c = [] -> a_reader a = None -> a_skip a = None -> a_cond a = None ->
  a_seek a = None -> a_magic a = [] -> a_pad_before a = None -> a_limit a = Some l -> l = FCount f \/ l = FBytes f \/ l = FBits f ->
  (forall ctx fs off, (Z.of_N (n_usize_max m) < f ctx fs off)%Z) ->
  fst (n_from_reader m cu fuel (TStruct c (FCons a t wire tl)) s 0) = Err Parse.
Proof. exact limit_refused. Qed.
Print Assumptions C87_limit_refused.
(** A padding. *)
Theorem C87_pad_refused : forall m cu fuel c a p t wire tl s, c_seek c = None -> c_magic c = [] -> a_seek a = None -> a_magic a = [] ->
  a_pad_before a = Some p -> (forall ctx fs, (Z.of_N (n_usize_max m) < p ctx fs)%Z) ->
  fst (n_from_reader m cu fuel (TStruct c (FCons a t wire tl)) s 0) = Err InvalidParam /\
  forall l, n_to_bytes m cu (TStruct c (FCons a t wire tl)) (VRec l) = Err InvalidParam.
Proof. exact pad_refused. Qed.
Print Assumptions C87_pad_refused.
(** 2^32 on 32 bits, beside the 64-bit target: there the elements are missing. *)
Definition FourG : ty := TStruct cplain (field (limited (FCount (fun _ _ _ => 4294967296%Z)) plain) (TVec KVec 2 u16) FNil).
Example C87_limit_refused_case : (Z.of_N (n_usize_max bits32) < 4294967296)%Z /\
  n_from_bytes bits32 no_customs 9 FourG [x01] 0 = Err Parse /\ from_bytes no_customs 9 FourG [x01] 0 = Err (Incomplete 16).
Proof. repeat split. Qed.
Definition FarPad : ty := TStruct cplain (field (padded 65536 0 plain) u8 FNil).
Example C87_pad_refused_case : (Z.of_N (n_usize_max (mkTarget 16 (fun n => n))) < 65536)%Z /\
  n_from_bytes (mkTarget 16 (fun n => n)) no_customs 9 FarPad [x01] 0 = Err InvalidParam /\ n_to_bytes (mkTarget 16 (fun n => n)) no_customs FarPad (VRec [VNum 1]) = Err InvalidParam.
Proof. repeat split. Qed.

(** ** Where the difference shows

    A count of four bytes: on a 32-bit target [Vec::with_capacity] panics; on a 64-bit
    target the input is too short.
      struct Big { len: u32, #[deku(count = "len")] data: Vec<u16> } *)
Definition CountU32 : ty := TStruct cplain (field plain u32 (field (limited (count_of 0) plain) (TVec KVec 2 u16) FNil)).
Theorem C87_count_refuted : exists input, forall fuel,
  n_from_bytes bits32 no_customs fuel CountU32 input 0 = Panic /\ exists n, from_bytes no_customs fuel CountU32 input 0 = Err (Incomplete n).
Proof.
  exists (repeat xff 4). intros fuel. split; [reflexivity|]. exists 16.
  reflexivity.
Qed.
Print Assumptions C87_count_refuted.
(** Bytes: the check of the length of the input computes the number of bits first.
      struct Blob { len: u32, #[deku(count = "len")] data: Vec<u8> } *)
Definition BytesU32 : ty := TStruct cplain (field plain u32 (field (limited (count_of 0) plain) (TVec KVec 1 u8) FNil)).
Theorem C87_bytes_refuted : exists input, forall fuel,
  n_from_bytes bits32 no_customs fuel BytesU32 input 0 = Panic /\ exists n, from_bytes no_customs fuel BytesU32 input 0 = Err (Incomplete n).
Proof.
  exists (repeat xff 4). intros fuel. split; [reflexivity|]. exists (N.to_nat 34359738360). reflexivity.
Qed.
Print Assumptions C87_bytes_refuted.
