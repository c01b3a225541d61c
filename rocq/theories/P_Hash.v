(** HashMap and HashSet as fields of derived types, C61.

    Vocabulary: [Derive.v] ([TVec] with [KSet] or [KMap]), [DeriveSpec.v] ([entry_key]), [AttrSpec.v]
    ([limit_only], [limit_met], [counted]), [HashSpec.v] ([holds_last],
    [movable]).  That such fields are read and written like all others is part of the
    theorems about all derived types (C28 to C60). *)
From Coq Require Import Lia Permutation.
From Verif Require Import Base Spec Stream Reader Writer Prims CodecSpec Containers ContainerSpec Safety Derive DeriveSpec AttrSpec HashSpec HashProps P_Derive P_Attrs.

(** ** Reading *)

(** The elements read are those a Vec with the same limit would get (C47).  They are all
    inserted: of several entries with one key the last is kept. *)
Theorem C61_limits : forall cu fuel c pre l k size t tl args r vals r', In k [KSet; KMap] ->
  c_endian c = None -> c_order c = None -> all_fields (fun a => a_temp a = false) pre ->
  forward (read_ty cu fuel t None []) ->
  read_ty cu fuel (TStruct c (fapp pre (FCons (limit_only l) (TVec k size t) (TVec k size t) tl))) None args r = (Ok (VRec vals), r') ->
  exists before items kept after r1 r2, vals = before ++ VList kept :: after /\ length before = stored_count pre /\ holds_last k items kept /\
    match limit_number l (ctx_args c args) before (r_bits r1) with Some z => (0 <= z)%Z | None => True end /\
    (limit_small (N.max 1 size) l (ctx_args c args) before (r_bits r1) ->
     limit_met l (ctx_args c args) before (read_ty cu fuel t None []) r1 items r2).
Proof. exact hash_limits. Qed.
Print Assumptions C61_limits.
(** Up to the order there is one such collection. *)
Theorem C61_unique : forall k items a b, holds_last k items a -> holds_last k items b -> Permutation a b.
Proof. exact holds_last_unique. Qed.
Print Assumptions C61_unique.
(** struct { n: u8, #[deku(count = "n")] map: HashMap<u8, u16> } *)
Definition Ports (l : flimit) : ty :=
  TStruct cplain (fapp (FCons plain u8 u8 FNil) (FCons (limit_only l) (TVec KMap 4 (TPair u8 u16)) (TVec KMap 4 (TPair u8 u16)) FNil)).
Example C61_case : forward (read_ty no_customs 9 (TPair u8 u16) None []) /\
  let input := [x03; x01; xaa; x00; x02; xbb; x00; x01; xcc; x00; x09] in
  from_bytes no_customs 9 (Ports (FCount (fun _ fs _ => num_at fs 0))) input 0 =
    Ok (([x09], 0), VRec [VNum 3; VList [VPair (VNum 1) (VNum 0xcc); VPair (VNum 2) (VNum 0xbb)]]) /\
  from_bytes no_customs 9 (Ports (FBytes (fun _ fs _ => 2 * num_at fs 0)%Z)) input 0 =
    Ok (([x01; xcc; x00; x09], 0), VRec [VNum 3; VList [VPair (VNum 1) (VNum 0xaa); VPair (VNum 2) (VNum 0xbb)]]) /\
  from_bytes no_customs 9 (Ports (FUntil (fun _ _ _ vs => value_eqb (last vs VUnit) (VPair (VNum 1) (VNum 0xcc))))) input 0 =
    Ok (([x09], 0), VRec [VNum 3; VList [VPair (VNum 1) (VNum 0xcc); VPair (VNum 2) (VNum 0xbb)]]) /\
  holds_last KMap [VPair (VNum 1) (VNum 0xaa); VPair (VNum 2) (VNum 0xbb); VPair (VNum 1) (VNum 0xcc)]
    [VPair (VNum 1) (VNum 0xcc); VPair (VNum 2) (VNum 0xbb)].
Proof.
  split.
  - apply mono_forward. cbn [read_ty u8 u16]. apply mono_bind; [|intros v; apply mono_bind; [|intros y; apply mono_ret]].
    + apply mono_bind; [apply mono_prim|intros n; apply mono_ret].
    + apply mono_bind; [apply mono_prim|intros n; apply mono_ret].
  - cbv zeta. split; [vm_compute; reflexivity|]. split; [vm_compute; reflexivity|]. split; [vm_compute; reflexivity|].
    exact (collect_holds KMap [VPair (VNum 1) (VNum 0xaa); VPair (VNum 2) (VNum 0xbb); VPair (VNum 1) (VNum 0xcc)] eq_refl).
Qed.

(** ** Round trip *)

(** struct { #[deku(update = "items.len()")] n: P, #[deku(count = "n")] items: HashMap<K, V> }
    or a HashSet: the entries are written in an order that is up to the hasher.  In every
    order they take the same number of bytes and are read back, if what an entry takes
    does not depend on where it stands. *)
Theorem C61_any_order : forall cu g e ord o k p size t items, In g [1; 2; 4; 8] -> In k [KSet; KMap] -> 0 < prim_bytes p ->
  Forall (movable g o t (opt_list (option_map VEnd e) ++ opt_list (option_map VOrd ord))) items ->
  NoDup (map (entry_key k) items) ->
  (N.of_nat (length items) < 2 ^ N.of_nat (prim_width p))%N -> (N.of_nat (length items) * N.max 1 size <= isize_max)%N ->
  let T := counted k (i_container e ord) p size t in
  let v := fun items => VRec [VNum (N.of_nat (length items)); VList items] in
  exists len, forall items', Permutation items items' ->
    (forall n, update T (VRec [n; VList items']) = Ok (v items')) /\
    exists bytes, to_bytes cu T (v items') = Ok bytes /\ length bytes = len /\
      forall fuel tail, 8 * len <= fuel -> exists rest, from_bytes cu fuel T (bytes ++ tail) 0 = Ok (rest, v items').
Proof. exact any_order. Qed.
Print Assumptions C61_any_order.
Definition two_ports : list value := [VPair (VNum 1) (VNum 0xaa); VPair (VNum 2) (VNum 0xbb)].
Example C61_case_order : In 8 [1; 2; 4; 8] /\ Forall (movable 8 Msb0 (TPair u8 u16) []) two_ports /\ NoDup (map (entry_key KMap) two_ports) /\
  let T := counted KMap (i_container None None) PU8 4 (TPair u8 u16) in
  to_bytes no_customs T (VRec [VNum 2; VList two_ports]) = Ok [x02; x01; xaa; x00; x02; xbb; x00] /\
  to_bytes no_customs T (VRec [VNum 2; VList (rev two_ports)]) = Ok [x02; x02; xbb; x00; x01; xaa; x00].
Proof.
  split; [cbn; tauto|]. split; [|split; [|split; vm_compute; reflexivity]].
  - repeat constructor; (eexists; split; [shelve|intros pos Hp; cbn -[Nat.modulo]; reflexivity]). Unshelve. all: reflexivity.
  - repeat constructor; cbn; intuition discriminate.
Qed.

(** HashSet of struct { #[deku(bits = 3)] a: u8, #[deku(bits = 2)] b: u8 }: entries of 5
    bits, which begin anywhere in a byte. *)
Definition Five : ty := TStruct cplain (field (bits 3 plain) u8 (field (bits 2 plain) u8 FNil)).
Definition three_fives : list value := [VRec [VNum 7; VNum 0]; VRec [VNum 0; VNum 3]; VRec [VNum 5; VNum 1]].
Example C61_case_order_bits : In 1 [1; 2; 4; 8] /\ Forall (movable 1 Msb0 Five []) three_fives /\ NoDup (map (entry_key KSet) three_fives) /\
  let T := counted KSet (i_container None None) PU8 2 Five in
  to_bytes no_customs T (VRec [VNum 3; VList three_fives]) = Ok [x03; xe0; xea] /\
  to_bytes no_customs T (VRec [VNum 3; VList (rev three_fives)]) = Ok [x03; xa8; xf8] /\
  from_bytes no_customs 40 T [x03; xa8; xf8] 0 = Ok (([xf8], 7), VRec [VNum 3; VList (rev three_fives)]).
Proof.
  split; [cbn; tauto|]. split; [|split; [|repeat split; vm_compute; reflexivity]].
  - repeat constructor; (eexists; split; [shelve|intros pos Hp; vm_compute; reflexivity]). Unshelve. all: reflexivity.
  - repeat constructor; cbn; intuition discriminate.
Qed.

(** ** What does not hold *)

(** Entries that depend on where they stand: HashSet of
    struct { a: u8, #[deku(cond = "deku::bit_offset < 20")] b: Option<u8> }. *)
Definition Placed : ty :=
  TStruct cplain (field plain u8 (field (only_if (fun _ _ off => off <? 20) VNone plain) (TOption u8) FNil)).
Theorem C61_offset_refuted : exists a b bytes bytes', let T := counted KSet (i_container None None) PU8 3 Placed in
  to_bytes no_customs T (VRec [VNum 2; VList [a; b]]) = Ok bytes /\ from_bytes no_customs 40 T bytes 0 = Ok (([], 0), VRec [VNum 2; VList [a; b]]) /\
  to_bytes no_customs T (VRec [VNum 2; VList [b; a]]) = Ok bytes' /\ length bytes' = length bytes /\
  exists v, from_bytes no_customs 40 T bytes' 0 = Ok (([], 0), v) /\ v <> VRec [VNum 2; VList [b; a]] /\ v <> VRec [VNum 2; VList [a; b]].
Proof.
  exists (VRec [VNum 1; VSome (VNum 5)]), (VRec [VNum 2; VNone]), [x02; x01; x05; x02], [x02; x02; x01; x05]. cbv zeta.
  split; [vm_compute; reflexivity|]. split; [vm_compute; reflexivity|]. split; [vm_compute; reflexivity|]. split; [reflexivity|].
  eexists. split; [vm_compute; reflexivity|]. split; discriminate.
Qed.
Print Assumptions C61_offset_refuted.

(** A count read from the input is not the number of entries if a key comes twice, and the
    value that has been read is written as something that cannot be read. *)
Theorem C61_duplicates_refuted : exists input v bytes,
  from_bytes no_customs 9 (counted KSet (i_container None None) PU8 1 u8) input 0 = Ok (([], 0), v) /\
  to_bytes no_customs (counted KSet (i_container None None) PU8 1 u8) v = Ok bytes /\ bytes <> input /\
  forall fuel, 0 < fuel -> exists n, from_bytes no_customs fuel (counted KSet (i_container None None) PU8 1 u8) bytes 0 = Err (Incomplete n).
Proof.
  exists [x02; x07; x07], (VRec [VNum 2; VList [VNum 7]]), [x02; x07]. split; [vm_compute; reflexivity|]. split; [vm_compute; reflexivity|].
  split; [discriminate|]. intros fuel Hf. exists 8. vm_compute. reflexivity.
Qed.
Print Assumptions C61_duplicates_refuted.

(** struct Unit; struct { #[deku(read_all)] set: HashSet<Unit> } is read for ever as soon
    as there is a byte; a Vec is empty at once. *)
Definition Units (k : store) : ty := TStruct cplain (field (limited FAll plain) (TVec k 0 (TStruct cplain FNil)) FNil).
Theorem C61_zero_sized_refuted : exists input, forall fuel, from_bytes no_customs fuel (Units KSet) input 0 = Diverge /\
  from_bytes no_customs fuel (Units KVec) input 0 = Ok ((input, 0), VRec [VList []]).
Proof.
  exists [x01]. intros fuel. split; [|vm_compute; reflexivity].
  assert (H : forall f acc r, r_end r = (false, r) -> end_loop f (read_ty no_customs fuel (TStruct cplain FNil) None []) acc r = (Diverge, r)).
  { intros f acc r H. apply (end_loop_idle _ (VRec [])); [exact H|reflexivity]. }
  destruct fuel as [|fuel]; [reflexivity|].
  specialize (H fuel [VRec []] (snd (r_end (reader_new (cursor [x01])))) eq_refl). vm_compute in H. vm_compute. rewrite H. reflexivity.
Qed.
Print Assumptions C61_zero_sized_refuted.
