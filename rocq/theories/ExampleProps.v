(** Proofs about the declarations in /repo/examples. *)
From Coq Require Import Lia ZifyBool ZifyNat ZifyN.
From Verif Require Import MonadFacts Base Spec Stream Reader Session Writer Prims CodecSpec Containers Derive Decl DeriveSpec DeriveFacts DeriveSound DeriveProps AttrSpec AttrFacts
  BitsFacts CodecFacts PrimFacts ContainerFacts ContainerProps MoreSpec MoreFacts SafeSpec DeriveSafe RecProps ExampleSpec.
Ltac Zify.zify_post_hook ::= Z.div_mod_to_equations.

(** ** Whole and cut off inputs *)

Section Any.
Variables (cu : nat -> custom) (fuel : nat).

Lemma formatted o t v n h : encode SeekSource o no_format t None [] 0 v = Some (bitstring o (firstn n h)) -> n <= length h -> 8 * length h <= fuel ->
  from_bytes cu fuel t h 0 = Ok ((skipn n h, 0), v) /\ to_bytes cu t v = Ok (firstn n h).
Proof.
  intros E Hn Hf. assert (HL : length (bitstring o (firstn n h)) = 8 * n) by (rewrite bitstring_length, firstn_length; lia). split.
  - rewrite (from_bytes_at cu fuel o no_format t h 0 [] _ (bitstring o (skipn n h)) v (lawful_upto _ _ _ _ _ (any_customs cu SeekSource o)) E); auto; [| lia |].
    + rewrite HL. cbn [Nat.add]. rewrite Nat.mul_comm, Nat.div_mul, Nat.mod_mul by lia. reflexivity.
    + cbn [app]. now rewrite <- bitstring_app, firstn_skipn.
  - destruct (round_trip_upto cu fuel o no_format t v _ (lawful_upto _ _ _ _ _ (any_customs cu SeekSource o)) E) as (bytes & pad & E1 & E2 & Hp & _); [lia|].
    rewrite E1. f_equal. assert (pad = 0).
    { apply (f_equal (@length bool)) in E2. rewrite app_length, HL, bitstring_length, repeat_length in E2. lia. }
    subst pad. rewrite app_nil_r in E2. now apply bitstring_inj in E2.
Qed.
Lemma cut_off t h more rest k v fuel' : safe_type cu t -> (forall m, blind_to_end m cu t) -> 8 * length h + 8 < fuel ->
  from_bytes cu fuel' t (h ++ more) 0 = Ok ((rest, k), v) -> length rest < length more -> exists n, from_bytes cu fuel t h 0 = Err (Incomplete n).
Proof.
  intros Hs Hb Hf E Hl. destruct (safe_from_bytes cu fuel t h 0 Hs) as (H1 & H2 & _); [lia|exact Hf|].
  assert (E' : from_bytes cu (Nat.max fuel fuel') t (h ++ more) 0 = Ok ((rest, k), v)).
  { rewrite <- E. apply more_fuel; [lia|]. now rewrite E. }
  assert (Em : from_bytes cu (Nat.max fuel fuel') t h 0 = from_bytes cu fuel t h 0) by (apply more_fuel; [lia|exact H2]).
  destruct (from_bytes cu fuel t h 0) as [[[r k'] v']|e| |] eqn:Eh; try contradiction.
  - rewrite (more_success cu _ t h more 0 r k' v' (Hb more) Em) in E'. injection E' as <- _ _. rewrite app_length in Hl. lia.
  - assert (Hc : (exists n, e = Incomplete n) \/ forall n, e <> Incomplete n) by (destruct e; try (right; discriminate); left; eauto).
    destruct Hc as [(n & ->)|Hc]; [eauto|]. rewrite (more_failure cu _ t h more 0 e (Hb more) Hc Em) in E'. discriminate.
Qed.
End Any.

(** ** Bytes *)

Lemma at_lt h i : (at_ h i < 256)%N.
Proof. unfold at_. destruct (nth i h x00); reflexivity. Qed.
Lemma byte_cases (P : byte -> bool) : forallb (fun n => match Byte.of_N (N.of_nat n) with Some b => P b | None => true end) (seq 0 256) = true -> forall b, P b = true.
Proof.
  intros H b. rewrite forallb_forall in H. specialize (H (N.to_nat (Byte.to_N b))). rewrite N2Nat.id, Byte.of_to_N in H.
  apply H, in_seq. pose proof (Byte.to_N_bounded b). lia.
Qed.

Lemma be_cat k m x y : (y < 2 ^ N.of_nat (8 * m))%N -> be_bytes (k + m) (x * 2 ^ N.of_nat (8 * m) + y) = be_bytes k x ++ be_bytes m y.
Proof.
  intros H. rewrite be_app. rewrite N.div_add_l by (apply N.pow_nonzero; discriminate). rewrite (N.div_small y) by exact H. rewrite N.add_0_r. f_equal.
  rewrite <- be_mod. rewrite N.add_comm, N.mod_add by (apply N.pow_nonzero; discriminate). apply be_mod.
Qed.
Lemma be2 a b : be_bytes 2 (Byte.to_N a * 256 + Byte.to_N b) = [a; b].
Proof.
  change 256%N with (2 ^ N.of_nat (8 * 1))%N. change 2%nat with (1 + 1)%nat at 1. rewrite be_cat by apply to_N_lt. now rewrite !be_1_byte.
Qed.
Lemma be16_bytes h i : be_bytes 2 (be16 h i) = [nth i h x00; nth (i + 1) h x00].
Proof. apply be2. Qed.
Lemma be16_lt h i : (be16 h i < 65536)%N.
Proof. unfold be16. pose proof (at_lt h i). pose proof (at_lt h (i + 1)). lia. Qed.
Lemma be32_bytes h i : be_bytes 4 (be32 h i) = [nth i h x00; nth (i + 1) h x00; nth (i + 2) h x00; nth (i + 2 + 1) h x00].
Proof.
  unfold be32. change 65536%N with (2 ^ N.of_nat (8 * 2))%N. change 4%nat with (2 + 2)%nat. rewrite be_cat by apply be16_lt. now rewrite !be16_bytes.
Qed.
Lemma be32_lt h i : (be32 h i < 4294967296)%N.
Proof. unfold be32. pose proof (be16_lt h i). pose proof (be16_lt h (i + 2)). lia. Qed.
(** A list of known length. *)
Lemma firstn_seq n h : n <= length h -> firstn n h = map (fun i => nth i h x00) (seq 0 n).
Proof.
  revert h. induction n as [|n IH]; intros h H; [reflexivity|]. destruct h as [|b h]; [cbn in H; lia|]. cbn [firstn seq map nth].
  f_equal. rewrite <- seq_shift, map_map. apply IH. cbn in H. lia.
Qed.

(** ** Ipv4Header *)

Definition ipv4_fields (h : list byte) : list ifield :=
  [mkI PU8 None None (InBits 4) (at_ h 0 / 16); mkI PU8 None None (InBits 4) (at_ h 0 mod 16);
   mkI PU8 None None (InBits 6) (at_ h 1 / 4); mkI PU8 None None (InBits 2) (at_ h 1 mod 4);
   mkI (PU 2) None None Whole (be16 h 2); mkI (PU 2) None None Whole (be16 h 4);
   mkI PU8 None None (InBits 3) (at_ h 6 / 32); mkI (PU 2) None None (InBits 13) (be16 h 6 mod 8192);
   mkI PU8 None None Whole (at_ h 8); mkI PU8 None None Whole (at_ h 9); mkI (PU 2) None None Whole (be16 h 10);
   mkI (PU 4) None None Whole (be32 h 12); mkI (PU 4) None None Whole (be32 h 16)].
Lemma ipv4_type h : derived Ipv4Header = TStruct (i_container (Some Big) None) (i_fields (ipv4_fields h)).
Proof. reflexivity. Qed.
Lemma ipv4_fit h : all_fit (Some Big) None Msb0 0 (ipv4_fields h).
Proof.
  pose proof (at_lt h) as A. pose proof (be16_lt h) as B. pose proof (be32_lt h) as C. unfold ipv4_fields. cbn [all_fit].
  assert (D : forall x, (x < 256 -> x / 16 < 16 /\ x mod 16 < 16 /\ x / 4 < 64 /\ x mod 4 < 4 /\ x / 32 < 8)%N) by (intros; lia).
  assert (D' : (be16 h 6 mod 8192 < 8192)%N) by (apply N.mod_lt; discriminate).
  repeat match goal with |- _ /\ _ => split | |- True => exact I end;
    unfold i_fits, i_bits; cbn [i_type i_size i_val i_endian i_order prim_width prim_bytes];
    (split; [cbn; lia|]);
    (split; [first [exact (A _)|exact (B _)|exact (C _)|exact D'|
       match goal with |- (at_ _ ?i / _ < _)%N => destruct (D _ (A i)) as (? & ? & ? & ? & ?); assumption
                     | |- (at_ _ ?i mod _ < _)%N => destruct (D _ (A i)) as (? & ? & ? & ? & ?); assumption end]|]);
    (split; [now left|]); split; try exact I; try (right; split; reflexivity); split; try reflexivity; discriminate.
Qed.
Lemma wire_4_4 h i : layout Big Msb0 4 (at_ h i / 16) ++ layout Big Msb0 4 (at_ h i mod 16) = bits_of_bytes [nth i h x00].
Proof. unfold at_. destruct (nth i h x00); reflexivity. Qed.
Lemma wire_6_2 h i : layout Big Msb0 6 (at_ h i / 4) ++ layout Big Msb0 2 (at_ h i mod 4) = bits_of_bytes [nth i h x00].
Proof. unfold at_. destruct (nth i h x00); reflexivity. Qed.
Lemma wire_whole k v : layout Big Msb0 (8 * k) v = bits_of_bytes (be_bytes k v).
Proof. unfold layout. rewrite Nat.mul_comm, Nat.div_mul, Nat.mod_mul by lia. reflexivity. Qed.
Lemma wire_8 h i : layout Big Msb0 8 (at_ h i) = bits_of_bytes [nth i h x00].
Proof. change 8 with (8 * 1). rewrite wire_whole. unfold at_. now rewrite be_1_byte. Qed.
Lemma wire_16 h i : layout Big Msb0 16 (be16 h i) = bits_of_bytes [nth i h x00; nth (i + 1) h x00].
Proof. change 16 with (8 * 2). now rewrite wire_whole, be16_bytes. Qed.
Lemma wire_32 h i : layout Big Msb0 32 (be32 h i) = bits_of_bytes [nth i h x00; nth (i + 1) h x00; nth (i + 2) h x00; nth (i + 2 + 1) h x00].
Proof. change 32 with (8 * 4). now rewrite wire_whole, be32_bytes. Qed.
Lemma wire_3_13 h i : layout Big Msb0 3 (at_ h i / 32) ++ layout Big Msb0 13 (be16 h i mod 8192) = bits_of_bytes [nth i h x00; nth (i + 1) h x00].
Proof.
  unfold layout. change (13 / 8) with 1. change (13 mod 8) with 5. change (3 / 8) with 0. change (3 mod 8) with 3. change (2 ^ N.of_nat (8 * 1))%N with 256%N.
  assert (E1 : (be16 h i mod 8192 / 256 = at_ h i mod 32)%N) by (unfold be16; pose proof (at_lt h (i + 1)); lia).
  assert (E2 : be_bytes 1 (be16 h i mod 8192) = [nth (i + 1) h x00]).
  { rewrite <- be_mod. change (2 ^ N.of_nat (8 * 1))%N with 256%N.
    replace (be16 h i mod 8192 mod 256)%N with (at_ h (i + 1)) by (unfold be16; pose proof (at_lt h (i + 1)); lia). apply be_1_byte. }
  rewrite E1, E2. unfold at_. destruct (nth i h x00); reflexivity.
Qed.
Lemma ipv4_wire h : 20 <= length h -> concat (map (i_wire (Some Big) Msb0) (ipv4_fields h)) = bits_of_bytes (firstn 20 h).
Proof.
  intros H. rewrite firstn_seq by exact H. unfold ipv4_fields. cbn [map concat]. unfold i_wire. cbn [i_endian i_val i_bits i_size i_type inherit].
  change (prim_width (PU 2)) with 16. change (prim_width (PU 4)) with 32. change (prim_width PU8) with 8.
  rewrite !(app_assoc (layout Big Msb0 4 _)), !(app_assoc (layout Big Msb0 6 _)), !(app_assoc (layout Big Msb0 3 _)).
  rewrite wire_4_4, wire_6_2, wire_3_13, !wire_16, !wire_32, !wire_8. cbn [map concat seq bits_of_bytes Nat.add app]. rewrite ?app_nil_r.
  unfold bits_of_bytes. cbn [flat_map map concat]. rewrite ?app_nil_r, <- ?app_assoc. reflexivity.
Qed.
Lemma ipv4_encode h : 20 <= length h -> encode SeekSource Msb0 no_format (derived Ipv4Header) None [] 0 (ipv4_header h) = Some (bits_of_bytes (firstn 20 h)).
Proof.
  intros H. rewrite (ipv4_type h). change (ipv4_header h) with (VRec (i_values (ipv4_fields h))).
  rewrite encode_struct. cbn [i_container c_seek c_magic encode_magic length]. change (mkC _ _ _ _ _) with (i_container (Some Big) None).
  rewrite (encode_i_fields SeekSource Msb0 no_format (Some Big) None _ (ipv4_fields h) _ _ _ (ipv4_fit h)). cbn [app]. now rewrite ipv4_wire.
Qed.
Lemma ipv4_safe cu : safe_type cu (derived Ipv4Header).
Proof. exists false. cbn. repeat safe_step. Qed.
Lemma ipv4_blind cu m : blind_to_end m cu (derived Ipv4Header).
Proof. unfold blind_to_end. cbn. repeat split; auto; discriminate. Qed.
Theorem ipv4_whole cu fuel h : 20 <= length h -> 8 * length h + 8 < fuel ->
  from_bytes cu fuel (derived Ipv4Header) h 0 = Ok ((skipn 20 h, 0), ipv4_header h) /\ to_bytes cu (derived Ipv4Header) (ipv4_header h) = Ok (firstn 20 h).
Proof. intros H Hf. apply (formatted cu fuel Msb0 (derived Ipv4Header) _ 20 h (ipv4_encode h H)); lia. Qed.
Theorem ipv4_cut cu fuel h : length h < 20 -> 8 * length h + 8 < fuel -> exists n, from_bytes cu fuel (derived Ipv4Header) h 0 = Err (Incomplete n).
Proof.
  intros H Hf. assert (HL : length (h ++ repeat x00 20) = length h + 20) by (rewrite app_length, repeat_length; reflexivity).
  destruct (ipv4_whole cu 400 (h ++ repeat x00 20)) as [E _]; [lia|lia|].
  apply (cut_off cu fuel _ h _ _ _ _ _ (ipv4_safe cu) (ipv4_blind cu) Hf E). rewrite skipn_length, HL, repeat_length. lia.
Qed.
Definition ipv4_listed (l : list N) : list ifield :=
  let n i := nth i l 0%N in
  [mkI PU8 None None (InBits 4) (n 0); mkI PU8 None None (InBits 4) (n 1); mkI PU8 None None (InBits 6) (n 2); mkI PU8 None None (InBits 2) (n 3);
   mkI (PU 2) None None Whole (n 4); mkI (PU 2) None None Whole (n 5); mkI PU8 None None (InBits 3) (n 6); mkI (PU 2) None None (InBits 13) (n 7);
   mkI PU8 None None Whole (n 8); mkI PU8 None None Whole (n 9); mkI (PU 2) None None Whole (n 10);
   mkI (PU 4) None None Whole (n 11); mkI (PU 4) None None Whole (n 12)].
Theorem ipv4_values cu l : Forall2 (fun x b => x < 2 ^ b)%N l [4; 4; 6; 2; 16; 16; 3; 13; 8; 8; 16; 32; 32]%N ->
  exists h, length h = 20 /\ ipv4_header h = VRec (map VNum l) /\ to_bytes cu (derived Ipv4Header) (VRec (map VNum l)) = Ok h.
Proof.
  intros H. repeat match goal with H : Forall2 _ _ (_ :: _) |- _ => inversion H; clear H; subst | H : Forall2 _ _ [] |- _ => inversion H; clear H; subst end.
  match goal with |- exists h, _ /\ _ = VRec (map VNum ?l) /\ _ => set (L := l) end.
  assert (F : all_fit (Some Big) None Msb0 0 (ipv4_listed L)).
  { unfold ipv4_listed, L. cbn [nth all_fit]. repeat match goal with |- _ /\ _ => split | |- True => exact I end;
    unfold i_fits, i_bits; cbn [i_type i_size i_val i_endian i_order prim_width prim_bytes];
    (split; [cbn; lia|]); (split; [assumption|]);
    (split; [now left|]); split; try exact I; try (right; split; reflexivity); split; try reflexivity; discriminate. }
  destruct (struct_layout cu 200 (Some Big) None Msb0 (ipv4_listed L) F) as (bytes & pad & E1 & E2 & Hp & E3); [vm_compute; lia|].
  change (TStruct (i_container (Some Big) None) (i_fields (ipv4_listed L))) with (derived Ipv4Header) in *.
  change (VRec (i_values (ipv4_listed L))) with (VRec (map VNum L)) in *.
  assert (HL : length bytes = 20).
  { apply (f_equal (@length bool)) in E2. rewrite bitstring_length, app_length, (wires_fuel _ _ _ _ _ F), repeat_length in E2.
    change (list_sum (map i_bits (ipv4_listed L))) with 160 in E2. lia. }
  exists bytes. split; [exact HL|]. split; [|exact E1]. destruct (E3 []) as (rest & E). rewrite app_nil_r in E.
  destruct (ipv4_whole cu 200 bytes) as [E' _]; [lia|lia|]. rewrite E' in E. apply ok_inj in E. apply pair_inj in E. exact (proj2 E).
Qed.

(** ** Encoding field by field *)

Section Step.
Variables (o : order).
Notation enc := (encode SeekSource o no_format).
Notation encs := (encode_fields SeekSource o no_format).
Lemma encode_step c ctx a t wire tl stored v todo acc pos e es : a_temp a = false ->
  encode_field SeekSource o c a (is_vec_u8 t) (writes_nothing t v) ctx acc pos v (fun lim args p => enc t lim args p v) (fun lim args p => enc wire lim args p v) = Some e ->
  encs c ctx tl None stored todo (acc ++ [v]) (pos + length e) = Some es ->
  encs c ctx (FCons a t wire tl) None stored (v :: todo) acc pos = Some (e ++ es).
Proof.
  intros Ht He Hes. rewrite encode_cons. rewrite Ht. cbn [length Nat.eqb negb guard]. unfold field_value, field_rest. rewrite Ht. cbn [hd List.tl]. cbv zeta.
  rewrite He. now rewrite Hes.
Qed.
End Step.
Lemma agree_refl x : agree x x = x.
Proof. apply agree_same. Qed.

(** ** FrameControl *)

Definition frame_c : cattrs := cattrs_of (top None (Some OLsb) false None None None).
Definition low (b : byte) (from n : nat) : list bool := firstn n (skipn from (bitstring Lsb0 [b])).
Lemma low_length b from n : from + n <= 8 -> length (low b from n) = n.
Proof. intros H. unfold low. rewrite firstn_length, skipn_length, bitstring_length. cbn [length]. lia. Qed.
Lemma frame_1 acc b : encode_field SeekSource Lsb0 frame_c (fattrs_of (f_bits 4) VUnit) (is_vec_u8 u8) (writes_nothing u8 (VNum (Byte.to_N b mod 16))) [] acc 0 (VNum (Byte.to_N b mod 16))
  (fun lim args p => encode SeekSource Lsb0 no_format u8 lim args p (VNum (Byte.to_N b mod 16)))
  (fun lim args p => encode SeekSource Lsb0 no_format u8 lim args p (VNum (Byte.to_N b mod 16))) = Some (low b 0 4).
Proof. destruct b; vm_compute; reflexivity. Qed.
Lemma frame_2 acc b : encode_field SeekSource Lsb0 frame_c (fattrs_of (f_bits 2) VUnit) (is_vec_u8 u8) (writes_nothing u8 (VNum (Byte.to_N b / 16 mod 4))) [] acc 4 (VNum (Byte.to_N b / 16 mod 4))
  (fun lim args p => encode SeekSource Lsb0 no_format u8 lim args p (VNum (Byte.to_N b / 16 mod 4)))
  (fun lim args p => encode SeekSource Lsb0 no_format u8 lim args p (VNum (Byte.to_N b / 16 mod 4))) = Some (low b 4 2).
Proof. destruct b; vm_compute; reflexivity. Qed.
Lemma frame_3 acc b : (Byte.to_N b / 64 < 3)%N -> let v := VVar (N.to_nat (Byte.to_N b / 64)) [] in
  encode_field SeekSource Lsb0 frame_c (fattrs_of f_none VUnit) (is_vec_u8 (derived FrameType)) (writes_nothing (derived FrameType) v) [] acc 6 v
  (fun lim args p => encode SeekSource Lsb0 no_format (derived FrameType) lim args p v)
  (fun lim args p => encode SeekSource Lsb0 no_format (derived FrameType) lim args p v) = Some (low b 6 2).
Proof. destruct b; try (intros H; vm_compute; reflexivity); vm_compute; discriminate. Qed.
Lemma frame_4 acc b : let v := VRec (map (fun i => VNum (bit (Byte.to_N b) i)) (seq 0 8)) in
  encode_field SeekSource Lsb0 frame_c (fattrs_of f_none VUnit) (is_vec_u8 (derived Flags)) (writes_nothing (derived Flags) v) [] acc 8 v
  (fun lim args p => encode SeekSource Lsb0 no_format (derived Flags) lim args p v)
  (fun lim args p => encode SeekSource Lsb0 no_format (derived Flags) lim args p v) = Some (bitstring Lsb0 [b]).
Proof. destruct b; vm_compute; reflexivity. Qed.
Lemma frame_encode h : 2 <= length h -> (at_ h 0 / 64 < 3)%N ->
  encode SeekSource Lsb0 no_format (derived FrameControl) None [] 0 (frame_control h) = Some (bitstring Lsb0 (firstn 2 h)).
Proof.
  intros H H3. rewrite firstn_seq by exact H. cbn [seq map]. unfold frame_control, at_ in *.
  set (b := nth 0 h x00) in *. set (b' := nth 1 h x00) in *.
  change (derived FrameControl) with (TStruct frame_c (FCons (fattrs_of (f_bits 4) VUnit) u8 u8 (FCons (fattrs_of (f_bits 2) VUnit) u8 u8
    (FCons (fattrs_of f_none VUnit) (derived FrameType) (derived FrameType) (FCons (fattrs_of f_none VUnit) (derived Flags) (derived Flags) FNil))))).
  rewrite encode_struct. replace (c_seek frame_c) with (None : option (list value -> option seekfrom)) by reflexivity. change (c_magic frame_c) with (@nil byte). cbn [encode_magic length Nat.add].
  change (ctx_args frame_c []) with (@nil value).
  rewrite (encode_step Lsb0 frame_c [] _ _ _ _ _ _ _ [] 0 (low b 0 4) (low b 4 2 ++ low b 6 2 ++ bitstring Lsb0 [b'] ++ [])); [| reflexivity | apply frame_1 |].
  - change [b; b'] with ([b] ++ [b']). rewrite bitstring_app, app_nil_r. cbn [app]. rewrite !app_assoc. do 2 f_equal. clearbody b. clear. destruct b; reflexivity.
  - apply encode_step; [reflexivity|apply frame_2|]. apply encode_step; [reflexivity|exact (frame_3 _ b H3)|].
    rewrite !low_length by lia. cbn [Nat.add]. apply encode_step; [reflexivity|apply (frame_4 _ b')|]. reflexivity.
Qed.
Lemma frame_safe cu : safe_type cu (derived FrameControl).
Proof. exists false. cbn. repeat safe_step. Qed.
Lemma frame_blind cu m : blind_to_end m cu (derived FrameControl).
Proof. unfold blind_to_end. cbn. repeat split; auto; discriminate. Qed.
Theorem frame_whole cu fuel h : 2 <= length h -> (at_ h 0 / 64 < 3)%N -> 8 * length h + 8 < fuel ->
  from_bytes cu fuel (derived FrameControl) h 0 = Ok ((skipn 2 h, 0), frame_control h) /\ to_bytes cu (derived FrameControl) (frame_control h) = Ok (firstn 2 h).
Proof. intros H H3 Hf. apply (formatted cu fuel Lsb0 (derived FrameControl) _ 2 h (frame_encode h H H3)); lia. Qed.
Theorem frame_cut cu fuel h : length h < 2 -> (at_ h 0 / 64 < 3)%N -> 8 * length h + 8 < fuel -> exists n, from_bytes cu fuel (derived FrameControl) h 0 = Err (Incomplete n).
Proof.
  intros H H3 Hf. assert (HL : length (h ++ repeat x00 2) = length h + 2) by (rewrite app_length, repeat_length; reflexivity).
  destruct (frame_whole cu 400 (h ++ repeat x00 2)) as [E _]; [lia| |lia|].
  { destruct h as [|b h]; [reflexivity|exact H3]. }
  apply (cut_off cu fuel _ h _ _ _ _ _ (frame_safe cu) (frame_blind cu) Hf E). rewrite skipn_length, HL, repeat_length. lia.
Qed.
Theorem frame_reserved cu fuel h : (3 <= at_ h 0 / 64)%N -> 8 * length h + 8 < fuel -> from_bytes cu fuel (derived FrameControl) h 0 = Err Parse.
Proof.
  intros H Hf. destruct h as [|b h]; [vm_compute in H; congruence|]. change (b :: h) with ([b] ++ h).
  apply more_failure; [apply frame_blind|discriminate|]. unfold at_ in H. cbn [nth] in H.
  destruct b; try (vm_compute in H; congruence); vm_compute; reflexivity.
Qed.

(** ** ReadAll *)

Lemma two_at_a_time (P : list byte -> Prop) : P [] -> (forall a, P [a]) -> (forall a b l, P l -> P (a :: b :: l)) -> forall l, P l.
Proof.
  intros H0 H1 H2 l. enough (P l /\ forall a, P (a :: l)) by tauto. induction l as [|b l [IH1 IH2]]; [auto|]. split; [apply IH2|]. auto.
Qed.
Definition byte_read : RM value := let* n := prim_read PU8 C0 in ret (VNum n).
Definition pair_read : RM value := let* x := byte_read in let* y := byte_read in ret (VPair x y).
Lemma byte_reads src b : reads src Msb0 byte_read (byte_bits b) (VNum (Byte.to_N b)).
Proof.
  unfold byte_read. rewrite <- (app_nil_r (byte_bits b)). eapply reads_bind; [|apply reads_ret].
  pose proof (reads_byte src C0 Little Msb0 b eq_refl) as H. replace (bitstring Msb0 [b]) with (byte_bits b) in H by (destruct b; reflexivity). exact H.
Qed.
Lemma byte_fails src : runs_short src byte_read 8.
Proof.
  intros r Hr Hl. destruct (byte_short src C0 Little Msb0 eq_refl r Hr Hl) as (e & r' & E). exists e, r'. unfold byte_read, bind. now rewrite E.
Qed.
Lemma pair_reads src a b : reads src Msb0 pair_read (byte_bits a ++ byte_bits b) (VPair (VNum (Byte.to_N a)) (VNum (Byte.to_N b))).
Proof.
  unfold pair_read. eapply reads_bind; [apply byte_reads|]. rewrite <- (app_nil_r (byte_bits b)). eapply reads_bind; [apply byte_reads|apply reads_ret].
Qed.
Lemma pairs_loop h : forall fuel acc r, length h < 2 * fuel -> readable AnySource r -> unread_string Msb0 (seen r) = bits_of_bytes h ->
  if Nat.even (length h) then exists r', end_loop fuel pair_read acc r = (Ok (acc ++ pairs h), r') /\ r_bits r' = r_bits r + 8 * length h
  else exists n r', end_loop fuel pair_read acc r = (Err (Incomplete n), r').
Proof.
  induction h as [|a|a b h IH] using two_at_a_time; intros fuel acc r Hf Hr Hu; (destruct fuel as [|fuel]; [lia|]);
    destruct (end_readable r Hr) as (r1 & E & R1 & U1 & B1); cbn [end_loop]; rewrite E, <- (ReaderFacts.unread_string_length Msb0), Hu.
  - cbn. exists r1. rewrite app_nil_r. split; [reflexivity|lia].
  - replace (length (bits_of_bytes [a]) =? 0) with false by (destruct a; reflexivity). cbn [Nat.even length]. cbv iota.
    specialize (U1 Msb0). rewrite Hu in U1. change (bits_of_bytes [a]) with (byte_bits a ++ []) in U1.
    destruct (byte_reads AnySource a r1 [] R1 U1) as (r2 & E2 & R2 & U2 & _).
    assert (HL : unread_len (seen r2) < 8) by (rewrite <- (ReaderFacts.unread_string_length Msb0), U2; cbn; lia).
    destruct (byte_fails AnySource r2 R2 HL) as (n & r3 & E3). exists n, r3. unfold bind, pair_read, bind. now rewrite E2, E3.
  - specialize (U1 Msb0). rewrite Hu in U1. change (bits_of_bytes (a :: b :: h)) with (byte_bits a ++ byte_bits b ++ bits_of_bytes h) in U1 |- *.
    rewrite app_assoc in U1. destruct (pair_reads AnySource a b r1 _ R1 U1) as (r2 & E2 & R2 & U2 & B2 & _).
    replace (length (byte_bits a ++ byte_bits b ++ bits_of_bytes h) =? 0) with false by (rewrite !app_length, byte_bits_length; reflexivity).
    assert (Hf' : length h < 2 * fuel) by (cbn [length] in Hf; lia).
    specialize (IH fuel (acc ++ [VPair (VNum (Byte.to_N a)) (VNum (Byte.to_N b))]) r2 Hf' R2 U2). change (Nat.even (length (a :: b :: h))) with (Nat.even (length h)).
    destruct (Nat.even (length h)).
    + destruct IH as (r' & E' & B'). exists r'. cbv iota. unfold bind. rewrite E2, E', <- app_assoc. split; [reflexivity|].
      rewrite app_length, !byte_bits_length in B2. cbn [length]. lia.
    + destruct IH as (n & r' & E'). exists n, r'. cbv iota. unfold bind. now rewrite E2, E'.
Qed.
Lemma read_all_read cu fuel r : read_ty cu fuel (derived ReadAll) None [] r = (let* vs := end_loop fuel pair_read [] in ret (VRec [VList vs])) r.
Proof.
  lazy -[end_loop prim_read]. destruct (end_loop fuel _ [] r) as [[] ?]; reflexivity.
Qed.
Lemma pair_emits cu pos a b : emits_at Msb0 pos (write_ty cu (TPair u8 u8) [] (VPair (VNum (Byte.to_N a)) (VNum (Byte.to_N b)))) (byte_bits a ++ byte_bits b).
Proof.
  assert (E : forall p b, encode SeekSource Msb0 no_format u8 None [] p (VNum (Byte.to_N b)) = Some (byte_bits b)) by (intros p []; reflexivity).
  assert (E2 : encode SeekSource Msb0 no_format (TPair u8 u8) None [] pos (VPair (VNum (Byte.to_N a)) (VNum (Byte.to_N b))) = Some (byte_bits a ++ byte_bits b)).
  { transitivity (let? e := encode SeekSource Msb0 no_format u8 None [] pos (VNum (Byte.to_N a)) in
                  let? f := encode SeekSource Msb0 no_format u8 None [] (pos + length e) (VNum (Byte.to_N b)) in Some (e ++ f)); [reflexivity|].
    rewrite E, E. reflexivity. }
  exact (proj1 (encode_sound SeekSource Msb0 cu no_format 16 (lawful_upto _ _ _ _ _ (any_customs cu SeekSource Msb0)) _ _ _ _ _ _ E2)).
Qed.
Lemma pairs_emit cu h : forall pos, Nat.even (length h) = true -> emits_at Msb0 pos (write_list (write_ty cu (TPair u8 u8) []) (pairs h)) (bits_of_bytes h).
Proof.
  induction h as [|a|a b h IH] using two_at_a_time; intros pos H; [apply emits_at_ret|discriminate|]. cbn [pairs write_list].
  change (bits_of_bytes (a :: b :: h)) with (byte_bits a ++ byte_bits b ++ bits_of_bytes h). rewrite app_assoc. apply emits_at_bind; [apply pair_emits|]. now apply IH.
Qed.
Lemma read_all_write cu l w : write_ty cu (derived ReadAll) [] (VRec [VList l]) w = write_list (write_ty cu (TPair u8 u8) []) l w.
Proof.
  lazy -[write_list prim_write]. repeat change (@write_list ?A ?f [] ?s) with (@Ok unit tt, s). cbv iota beta.
  repeat change (@write_list ?A ?f [] ?s) with (@Ok unit tt, s). cbv iota beta. destruct (write_list _ l w) as [[[]| | |] ?]; reflexivity.
Qed.
Theorem read_all_even cu fuel h : Nat.even (length h) = true -> length h < fuel ->
  from_bytes cu fuel (derived ReadAll) h 0 = Ok (([], 0), VRec [VList (pairs h)]) /\ to_bytes cu (derived ReadAll) (VRec [VList (pairs h)]) = Ok h.
Proof.
  intros H Hf. split.
  - pose proof (pairs_loop h fuel [] (reader_new (cursor h)) ltac:(lia) (readable_new AnySource h)) as HL. rewrite H in HL.
    destruct HL as (r' & E & B); [reflexivity|]. unfold from_bytes, from_reader. cbn [Nat.eqb]. unfold bind at 1. cbn [ret]. unfold bind at 1.
    rewrite read_all_read. unfold bind. rewrite E. cbn [ret app]. change (r_bits (reader_new (cursor h))) with 0 in B.
    rewrite B. cbn [Nat.add]. rewrite (Nat.mul_comm 8), Nat.div_mul, Nat.mod_mul, Nat.leb_refl, skipn_all by lia. reflexivity.
  - assert (HE : emits_at Msb0 0 (write_ty cu (derived ReadAll) [] (VRec [VList (pairs h)])) (bits_of_bytes h)).
    { eapply emits_at_ext; [intros w; symmetry; apply read_all_write|]. now apply pairs_emit. }
    destruct (emits_at_out Msb0 _ _ HE) as (bytes & pad & E1 & E2 & Hp). change (to_bytes cu (derived ReadAll) (VRec [VList (pairs h)]) = Ok bytes) in E1.
    rewrite E1. f_equal. assert (pad = 0).
    { apply (f_equal (@length bool)) in E2. rewrite app_length, bitstring_length, bits_of_bytes_length, repeat_length in E2. lia. }
    subst pad. rewrite app_nil_r in E2. exact (bitstring_inj Msb0 _ _ E2).
Qed.
Theorem read_all_odd cu fuel h : Nat.even (length h) = false -> length h < fuel -> exists n, from_bytes cu fuel (derived ReadAll) h 0 = Err (Incomplete n).
Proof.
  intros H Hf. pose proof (pairs_loop h fuel [] (reader_new (cursor h)) ltac:(lia) (readable_new AnySource h)) as HL. rewrite H in HL.
  destruct HL as (n & r' & E); [reflexivity|]. exists n. unfold from_bytes, from_reader. cbn [Nat.eqb]. unfold bind at 1. cbn [ret]. unfold bind at 1.
  rewrite read_all_read. unfold bind. now rewrite E.
Qed.

(** ** CatchAll *)

Lemma catch_all_blind cu m : blind_to_end m cu (derived CatchAll).
Proof. unfold blind_to_end. cbn. repeat split; auto; discriminate. Qed.
Theorem catch_all_read cu fuel b rest : from_bytes cu fuel (derived CatchAll) (b :: rest) 0 =
  Ok ((rest, 0), VVar (if (Byte.to_N b =? 1)%N then 0 else if (Byte.to_N b =? 2)%N then 1 else 2) []).
Proof. change (b :: rest) with ([b] ++ rest). apply (more_success cu fuel (derived CatchAll) [b] rest 0 []); [apply catch_all_blind|]. destruct b; vm_compute; reflexivity. Qed.
Theorem catch_all_write cu : to_bytes cu (derived CatchAll) (VVar 0 []) = Ok [x01] /\ to_bytes cu (derived CatchAll) (VVar 1 []) = Ok [x02] /\
  to_bytes cu (derived CatchAll) (VVar 2 []) = Ok [x03].
Proof. repeat split; vm_compute; reflexivity. Qed.

(** ** Fields of integers *)

Definition fe (o : order) (c : cattrs) (a : fattrs) (t : ty) (ctx acc : list value) (pos : nat) (v : value) : option (list bool) :=
  encode_field SeekSource o c a (is_vec_u8 t) (writes_nothing t v) ctx acc pos v
    (fun lim args p => encode SeekSource o no_format t lim args p v) (fun lim args p => encode SeekSource o no_format t lim args p v).
Lemma fe_num f ctx acc pos : i_fits None None Msb0 pos f -> fe Msb0 cplain (i_attrs f) (TPrim (i_type f)) ctx acc pos (VNum (i_val f)) = Some (i_wire None Msb0 f).
Proof. intros H. exact (encode_i_field SeekSource Msb0 no_format None None f ctx acc pos _ _ H). Qed.
Lemma wire_byte b : layout Little Msb0 8 (Byte.to_N b) = byte_bits b.
Proof. destruct b; reflexivity. Qed.
Lemma fe_byte ctx acc pos b : fe Msb0 cplain (fattrs_of f_none VUnit) u8 ctx acc pos (VNum (Byte.to_N b)) = Some (byte_bits b).
Proof.
  rewrite <- (wire_byte b). apply (fe_num (mkI PU8 None None Whole (Byte.to_N b))). unfold i_fits, i_bits. cbn [i_type i_size i_val i_endian i_order].
  split; [cbn; lia|]. split; [exact (to_N_lt b)|]. split; [now left|]. split; [right; split; reflexivity|exact I].
Qed.
Lemma fe_bits n ctx acc pos v : 1 <= n <= 8 -> (v < 2 ^ N.of_nat n)%N -> fe Msb0 cplain (fattrs_of (f_bits n) VUnit) u8 ctx acc pos (VNum v) = Some (layout Little Msb0 n v).
Proof.
  intros H H'. apply (fe_num (mkI PU8 None None (InBits n) v)). unfold i_fits, i_bits. cbn [i_type i_size i_val i_endian i_order].
  split; [cbn; lia|]. split; [exact H'|]. split; [now left|]. split; [split; [reflexivity|discriminate]|exact I].
Qed.
Lemma fe_le2 ctx acc pos a b :
  fe Msb0 cplain (fattrs_of (attrs None None (Some 2) None None false None None None) VUnit) u32 ctx acc pos (VNum (Byte.to_N a + Byte.to_N b * 256)) = Some (bits_of_bytes [a; b]).
Proof.
  assert (E : i_wire None Msb0 (mkI (PU 4) None None (InBytes 2) (Byte.to_N a + Byte.to_N b * 256)) = bits_of_bytes [a; b]).
  { unfold i_wire, i_bits. cbn [i_endian i_size i_val inherit]. unfold layout. change (8 * 2 / 8) with 2. change ((8 * 2) mod 8) with 0. cbn [N2bits orient].
    unfold le_bytes. rewrite N.add_comm, be2. cbn [rev app]. unfold bitstring. rewrite ?app_nil_r. reflexivity. }
  rewrite <- E. apply (fe_num (mkI (PU 4) None None (InBytes 2) (Byte.to_N a + Byte.to_N b * 256))). unfold i_fits, i_bits. cbn [i_type i_size i_val i_endian i_order].
  split; [cbn; lia|]. split; [change (2 ^ N.of_nat (8 * 2))%N with 65536%N; pose proof (to_N_lt a); pose proof (to_N_lt b); lia|].
  split; [now left|]. split; [right; split; reflexivity|]. intros [H|H]; destruct (H eq_refl).
Qed.
Lemma fe_be2 ctx acc pos a b :
  fe Msb0 cplain (fattrs_of (attrs (Some EBig) None None None None false None None None) VUnit) u16 ctx acc pos (VNum (Byte.to_N a * 256 + Byte.to_N b)) = Some (bits_of_bytes [a; b]).
Proof.
  assert (E : i_wire None Msb0 (mkI (PU 2) (Some Big) None Whole (Byte.to_N a * 256 + Byte.to_N b)) = bits_of_bytes [a; b]).
  { unfold i_wire, i_bits. cbn [i_endian i_size i_val inherit i_type]. change (prim_width (PU 2)) with (8 * 2). rewrite wire_whole, be2. reflexivity. }
  rewrite <- E. apply (fe_num (mkI (PU 2) (Some Big) None Whole (Byte.to_N a * 256 + Byte.to_N b))). unfold i_fits, i_bits. cbn [i_type i_size i_val i_endian i_order].
  split; [cbn; lia|]. split; [change (2 ^ N.of_nat (prim_width (PU 2)))%N with 65536%N; pose proof (to_N_lt a); pose proof (to_N_lt b); lia|].
  split; [now left|]. split; [right; split; reflexivity|exact I].
Qed.
(** Vectors with a count. *)
Lemma encode_bytes_list f pos bs : (forall p b, f p (VNum (Byte.to_N b)) = Some (byte_bits b)) ->
  encode_list f pos (map (fun b => VNum (Byte.to_N b)) bs) = Some (map byte_bits bs).
Proof. intros H. revert pos. induction bs as [|b bs IH]; intros pos; [reflexivity|]. cbn [map encode_list]. now rewrite H, IH. Qed.
Lemma enc_u8 pos b : encode SeekSource Msb0 no_format u8 None [] pos (VNum (Byte.to_N b)) = Some (byte_bits b).
Proof. destruct b; reflexivity. Qed.
Lemma enc_be16 pos a b : encode SeekSource Msb0 no_format u16 None [VEnd Big] pos (VNum (Byte.to_N a * 256 + Byte.to_N b)) = Some (bits_of_bytes [a; b]).
Proof.
  change (encode_prim Msb0 pos (PU 2) (CE Big) (Byte.to_N a * 256 + Byte.to_N b) = Some (bits_of_bytes [a; b])).
  unfold encode_prim. cbn [bits_of_ctx bytes_of_ctx prim_bytes]. cbn [Nat.leb order_eqb andb orb].
  replace (Byte.to_N a * 256 + Byte.to_N b <? 2 ^ N.of_nat (8 * 2))%N with true by (symmetry; apply N.ltb_lt; change (2 ^ N.of_nat (8 * 2))%N with 65536%N; pose proof (to_N_lt a); pose proof (to_N_lt b); lia).
  cbn [andb guard]. unfold encode_bytes. cbn [order_eqb orb guard to_bytes_e]. now rewrite be2.
Qed.
Lemma concat_byte_bits bs : concat (map byte_bits bs) = bits_of_bytes bs.
Proof. unfold bits_of_bytes. now rewrite flat_map_concat_map. Qed.
Lemma byte_values_of bs : byte_values (bytes_value bs) = Some bs.
Proof.
  unfold bytes_value, byte_values. f_equal. rewrite map_map. rewrite <- (map_id bs) at 2. apply map_ext. intros []; reflexivity.
Qed.
Lemma enc_vec_u8 pos n bs : n = N.of_nat (length bs) -> (n < 256)%N ->
  encode SeekSource Msb0 no_format (TVec KVec 1 u8) (Some (LCount n)) [] pos (bytes_value bs) = Some (bits_of_bytes bs).
Proof.
  intros Hn Hl. rewrite <- concat_byte_bits.
  transitivity (let? es := encode_list (fun p x => encode SeekSource Msb0 no_format u8 None [] p x) pos (map (fun b => VNum (Byte.to_N b)) bs) in
     guard (negb (slot_size KVec 1 =? 0)%N && stops (slot_size KVec 1) (LCount n) (map (fun b => VNum (Byte.to_N b)) bs) es && distinct KVec (map (fun b => VNum (Byte.to_N b)) bs)) (Some (concat es)));
    [reflexivity|].
  rewrite encode_bytes_list by (intros; apply enc_u8). change (slot_size KVec 1) with 1%N. cbn [stops]. rewrite (distinct_vec KVec) by reflexivity. rewrite map_length.
  replace (n =? N.of_nat (length bs))%N with true by lia. replace (n * 1 <=? isize_max)%N with true by (unfold isize_max; lia). reflexivity.
Qed.

(** ** Enums *)

Lemma encode_id_variant o e ctx enc_id sel x d fs tl l pos i f : en_id e = None -> sel x = true -> enc_id (id_args e ctx) pos x = Some i ->
  encode_fields SeekSource o no_format (en_c e) ctx fs None l l [] (pos + length i) = Some f ->
  encode_variant SeekSource o no_format e ctx enc_id sel (VCons (mkV (SId x) d) fs tl) 0 l pos = Some (i ++ f).
Proof. intros H1 H2 H3 H4. rewrite encode_variant_0, H1. cbn [v_sel]. cbv zeta. now rewrite H2, H3, H4. Qed.
Definition enums_c : eattrs := eattrs_of (top None None false (Some u8) None None).
Definition enums_vs : variants := match derived Enums with TEnum _ _ vs => vs | _ => VNil end.
Lemma enums_type : derived Enums = TEnum enums_c u8 enums_vs.
Proof. reflexivity. Qed.
Lemma enums_encode id k l enc : nth_error [x00; x01; x02; x03] k = Some id ->
  (forall fs v, nth_variant enums_vs k = Some (v, fs) -> encode_fields SeekSource Msb0 no_format cplain [] fs None l l [] 8 = Some enc) ->
  encode SeekSource Msb0 no_format (derived Enums) None [] 0 (VVar k l) = Some (byte_bits id ++ enc).
Proof.
  intros Hk He. rewrite enums_type, encode_enum. change (c_magic (en_c enums_c)) with (@nil byte). cbn [encode_magic length Nat.add].
  change (ctx_args (en_c enums_c) []) with (@nil value).
  destruct k as [|[|[|[|k]]]]; [..|destruct k; discriminate]; injection Hk as <-; specialize (He _ _ eq_refl); erewrite encode_variant_nth by reflexivity;
    (erewrite encode_id_variant; [cbn [app]; reflexivity|reflexivity|reflexivity|reflexivity|exact He]).
Qed.
Lemma enums_var2 a b : encode SeekSource Msb0 no_format (derived Enums) None [] 0 (VVar 1 [VNum (Byte.to_N a + Byte.to_N b * 256)]) = Some (bits_of_bytes [x01; a; b]).
Proof.
  change (bits_of_bytes [x01; a; b]) with (byte_bits x01 ++ bits_of_bytes [a; b]). apply enums_encode; [reflexivity|]. intros fs v H. injection H as _ <-.
  rewrite <- (app_nil_r (bits_of_bytes [a; b])). apply encode_step; [reflexivity|apply fe_le2|reflexivity].
Qed.
Lemma enums_var3 a b : encode SeekSource Msb0 no_format (derived Enums) None [] 0 (VVar 2 [VNum (Byte.to_N a); VNum (Byte.to_N b)]) = Some (bits_of_bytes [x02; a; b]).
Proof.
  change (bits_of_bytes [x02; a; b]) with (byte_bits x02 ++ byte_bits a ++ byte_bits b ++ []). apply enums_encode; [reflexivity|]. intros fs v H. injection H as _ <-.
  apply encode_step; [reflexivity|apply fe_byte|]. apply encode_step; [reflexivity|apply fe_byte|reflexivity].
Qed.
Definition counting : fattrs := fattrs_of (attrs None None None (Some (fun _ fs _ => first fs)) None false None None None) VUnit.
Lemma fe_counted n bs pos : N.of_nat (length bs) = Byte.to_N n -> pos mod 8 = 0 ->
  fe Msb0 cplain counting (TVec KVec 1 u8) [] [VNum (Byte.to_N n)] pos (bytes_value bs) = Some (bits_of_bytes bs).
Proof.
  intros Hn Hp. pose proof (to_N_lt n) as Hl.
  transitivity (let? body := match eval_limit (FCount (fun _ fs _ => first fs)) [] [VNum (Byte.to_N n)] (pos + 0 + 0) with
                | Ok (LCount m) =>
                    let? out := byte_values (bytes_value bs) in
                    guard (aligned (pos + 0 + 0))
                      (agree (encode SeekSource Msb0 no_format (TVec KVec 1 u8) (Some (LCount m)) [] (pos + 0 + 0) (bytes_value bs)) (Some (bitstring Msb0 out)))
                | Ok lim => agree (encode SeekSource Msb0 no_format (TVec KVec 1 u8) (Some lim) [] (pos + 0 + 0) (bytes_value bs)) (encode SeekSource Msb0 no_format (TVec KVec 1 u8) (Some lim) [] (pos + 0 + 0) (bytes_value bs))
                | _ => None
                end in Some (body ++ [])); [reflexivity|].
  cbn [eval_limit first]. rewrite to_usize_small by lia. cbn [res_map]. rewrite N2Z.id, byte_values_of, !Nat.add_0_r.
  rewrite (enc_vec_u8 pos (Byte.to_N n) bs) by auto. unfold aligned. rewrite Hp. cbn [Nat.eqb guard]. change (bitstring Msb0 bs) with (bits_of_bytes bs). rewrite agree_same. now rewrite app_nil_r.
Qed.
Lemma enums_var4 n bs : N.of_nat (length bs) = Byte.to_N n ->
  encode SeekSource Msb0 no_format (derived Enums) None [] 0 (VVar 3 [VNum (Byte.to_N n); bytes_value bs]) = Some (bits_of_bytes (x03 :: n :: bs)).
Proof.
  intros Hn. change (bits_of_bytes (x03 :: n :: bs)) with (byte_bits x03 ++ byte_bits n ++ bits_of_bytes bs). rewrite <- (app_nil_r (bits_of_bytes bs)).
  apply enums_encode; [reflexivity|]. intros fs v H. injection H as _ <-.
  apply encode_step; [reflexivity|apply fe_byte|]. apply encode_step; [reflexivity| |reflexivity]. rewrite byte_bits_length. now apply (fe_counted n bs 16).
Qed.
Lemma enums_safe cu : safe_type cu (derived Enums).
Proof.
  exists true. cbn. repeat safe_step.
  destruct v as [n| | | | | | | | | | |]; try contradiction.
  rewrite to_usize_small by lia. rewrite N2Z.id.
  split; [reflexivity|]. split; [destruct n; lia|].
  intros bs. split; [|now apply DeriveSound.distinct_vec].
  apply Forall_map, Forall_forall. intros b _. apply ContainerProps.to_N_lt.
Qed.
Lemma enums_blind cu m : blind_to_end m cu (derived Enums).
Proof. unfold blind_to_end. cbn. repeat split; auto; discriminate. Qed.
Definition is_ (x b : byte) : {b = x} + {Byte.to_N b <> Byte.to_N x}.
Proof.
  destruct (N.eq_dec (Byte.to_N b) (Byte.to_N x)) as [E|E]; [left|right; exact E]. apply (f_equal Byte.of_N) in E. rewrite !Byte.of_to_N in E. congruence.
Defined.
Lemma enums_one cu fuel b rest v : from_bytes cu fuel (derived Enums) [b] 0 = Ok (([], 0), v) -> from_bytes cu fuel (derived Enums) (b :: rest) 0 = Ok ((rest, 0), v).
Proof. intros E. change (b :: rest) with ([b] ++ rest). apply (more_success cu fuel (derived Enums) [b] rest 0 []); [apply enums_blind|exact E]. Qed.
Lemma enums_whole cu fuel h n v : 8 * length h + 8 < fuel -> enums_value h = Some (n, v) ->
  from_bytes cu fuel (derived Enums) h 0 = Ok ((skipn n h, 0), v) /\ to_bytes cu (derived Enums) v = Ok (firstn n h).
Proof.
  intros Hf E. destruct h as [|b tl]; [discriminate|]. unfold enums_value in E. cbv zeta in E.
  destruct (is_ x01 b) as [->|N1]; [|destruct (is_ x02 b) as [->|N2]; [|destruct (is_ x03 b) as [->|N3]]]; cbn [Byte.to_N] in *.
  - change (match 2 <=? length tl with true => Some (3, VVar 1 [VNum (le16 tl 0)]) | false => None end = Some (n, v)) in E.
    destruct tl as [|p [|q tl]]; try discriminate. injection E as <- <-. change (le16 (p :: q :: tl) 0) with (Byte.to_N p + Byte.to_N q * 256)%N.
    apply (formatted cu fuel Msb0 (derived Enums) _ 3 (x01 :: p :: q :: tl)); [apply enums_var2|cbn; lia|lia].
  - change (match 2 <=? length tl with true => Some (3, VVar 2 [VNum (at_ tl 0); VNum (at_ tl 1)]) | false => None end = Some (n, v)) in E.
    destruct tl as [|p [|q tl]]; try discriminate. injection E as <- <-.
    apply (formatted cu fuel Msb0 (derived Enums) _ 3 (x02 :: p :: q :: tl)); [apply enums_var3|cbn; lia|lia].
  - change (match tl with n0 :: data => if S (N.to_nat (Byte.to_N n0)) <=? length tl
        then Some (S (S (N.to_nat (Byte.to_N n0))), VVar 3 [VNum (Byte.to_N n0); bytes_value (firstn (N.to_nat (Byte.to_N n0)) data)]) else None | [] => None end = Some (n, v)) in E.
    destruct tl as [|p data]; [discriminate|]. destruct (S (N.to_nat (Byte.to_N p)) <=? length (p :: data)) eqn:El; [|discriminate].
    injection E as <- <-. cbn [length] in El.
    apply (formatted cu fuel Msb0 (derived Enums) _ (S (S (N.to_nat (Byte.to_N p)))) (x03 :: p :: data)); [|cbn [length]; lia|lia].
    cbn [firstn]. apply enums_var4. rewrite firstn_length. lia.
  - assert (HE : n = 1 /\ exists v', v = v' /\ Some (1, v') = (if (Byte.to_N b =? 0)%N then Some (1, VVar 0 []) else if (Byte.to_N b <=? 6)%N then Some (1, VVar 4 [VNum (Byte.to_N b)]) else Some (1, VVar 5 [VNum (Byte.to_N b)]))).
    { replace (Byte.to_N b =? 1)%N with false in E by lia. replace (Byte.to_N b =? 2)%N with false in E by lia. replace (Byte.to_N b =? 3)%N with false in E by lia.
      cbn [Nat.leb] in E. destruct (Byte.to_N b =? 0)%N; [|destruct (Byte.to_N b <=? 6)%N]; injection E as <- <-; split; eauto. }
    destruct HE as (-> & v' & -> & E'). cbn [skipn firstn]. split.
    + apply enums_one. destruct b; try (exfalso; vm_compute in N1, N2, N3; congruence); injection E' as ->; vm_compute; reflexivity.
    + destruct b; try (exfalso; vm_compute in N1, N2, N3; congruence); injection E' as ->; vm_compute; reflexivity.
Qed.
Lemma enums_cut cu fuel h : 8 * length h + 8 < fuel -> enums_value h = None -> exists k, from_bytes cu fuel (derived Enums) h 0 = Err (Incomplete k).
Proof.
  intros Hf E. destruct h as [|b tl]; [eexists; vm_compute; reflexivity|].
  assert (Hx : exists n v, enums_value ((b :: tl) ++ repeat x00 256) = Some (n, v) /\ length (b :: tl) < n).
  { unfold enums_value in *. cbv zeta in *. cbn [app]. rewrite app_length. 
    destruct (is_ x01 b) as [->|N1]; [|destruct (is_ x02 b) as [->|N2]; [|destruct (is_ x03 b) as [->|N3]]]; cbn [Byte.to_N] in *.
    - destruct tl as [|p [|q tl]]; [| |discriminate]; do 2 eexists; (split; [reflexivity|cbn; lia]).
    - destruct tl as [|p [|q tl]]; [| |discriminate]; do 2 eexists; (split; [reflexivity|cbn; lia]).
    - change (match tl with n0 :: data => if S (N.to_nat (Byte.to_N n0)) <=? length tl
        then Some (S (S (N.to_nat (Byte.to_N n0))), VVar 3 [VNum (Byte.to_N n0); bytes_value (firstn (N.to_nat (Byte.to_N n0)) data)]) else None | [] => None end = None) in E.
      destruct tl as [|p data]; [do 2 eexists; split; [reflexivity|cbn; lia]|].
      destruct (S (N.to_nat (Byte.to_N p)) <=? length (p :: data)) eqn:El; [discriminate|]. cbn [length] in El. pose proof (to_N_lt p).
      do 2 eexists. split.
      + change (Byte.to_N x03 =? 0)%N with false. change (Byte.to_N x03 =? 1)%N with false. change (Byte.to_N x03 =? 2)%N with false. change (Byte.to_N x03 =? 3)%N with true.
        cbv iota. cbn [app]. rewrite repeat_length.
        replace (S (N.to_nat (Byte.to_N p)) <=? length (p :: data) + 256) with true by (cbn [length]; lia). reflexivity.
      + cbn [length]. lia.
    - exfalso. replace (Byte.to_N b =? 1)%N with false in E by lia. replace (Byte.to_N b =? 2)%N with false in E by lia. replace (Byte.to_N b =? 3)%N with false in E by lia.
      cbn [Nat.leb] in E. destruct (Byte.to_N b =? 0)%N; [|destruct (Byte.to_N b <=? 6)%N]; discriminate. }
  destruct Hx as (n & v & Ex & Hn). destruct (enums_whole cu (8 * length ((b :: tl) ++ repeat x00 256) + 9) ((b :: tl) ++ repeat x00 256) n v) as [Er _]; [lia|exact Ex|].
  apply (cut_off cu fuel _ (b :: tl) _ _ _ _ _ (enums_safe cu) (enums_blind cu) Hf Er). rewrite skipn_length, app_length, repeat_length. lia.
Qed.

(** ** Flipped *)

Lemma flipped_read cu fuel r : read_ty cu fuel (derived Flipped) None [] r =
  (let* a := prim_read PU8 C0 in let* b := prim_read PU8 (CB 8) in ret (VRec [VNum a; VNum (flip a b)])) r.
Proof.
  lazy -[prim_read flip]. destruct (prim_read PU8 C0 r) as [[a| | |] r1]; try reflexivity. destruct (prim_read PU8 (CB 8) r1) as [[] ?]; reflexivity.
Qed.
Lemma flipped_write cu a b w : write_ty cu (derived Flipped) [] (VRec [VNum a; VNum b]) w = (let* _ := prim_write PU8 C0 a in prim_write PU8 (CB 8) (flip a b)) w.
Proof.
  lazy -[prim_write flip]. destruct (prim_write PU8 C0 a w) as [[[]| | |] r1]; try reflexivity. destruct (prim_write PU8 (CB 8) (flip a b) r1) as [[[]| | |] ?]; reflexivity.
Qed.
Lemma byte_layout b : layout Little Msb0 8 (Byte.to_N b) = byte_bits b.
Proof. destruct b; reflexivity. Qed.
Lemma flipped_reads src a b : reads src Msb0 (let* a := prim_read PU8 C0 in let* b := prim_read PU8 (CB 8) in ret (VRec [VNum a; VNum (flip a b)]))
  (byte_bits a ++ byte_bits b) (VRec [VNum (Byte.to_N a); VNum (flip (Byte.to_N a) (Byte.to_N b))]).
Proof.
  eapply reads_bind.
  - pose proof (reads_byte src C0 Little Msb0 a eq_refl) as H. replace (bitstring Msb0 [a]) with (byte_bits a) in H by (destruct a; reflexivity). exact H.
  - rewrite <- (app_nil_r (byte_bits b)). eapply reads_bind; [|apply reads_ret]. rewrite <- byte_layout.
    refine (proj2 (PrimProps.prim_u_codec PU8 (CB 8) Little 8 Msb0 (Byte.to_N b) _ _ _ _) src); [exact I|reflexivity|split; [cbn; lia|discriminate]|apply to_N_lt].
Qed.
Lemma flipped_emits pos a b : emits_at Msb0 pos (let* _ := prim_write PU8 C0 (Byte.to_N a) in prim_write PU8 (CB 8) (Byte.to_N b)) (byte_bits a ++ byte_bits b).
Proof.
  apply emits_at_bind; apply emits_at_all; intros n.
  - replace (byte_bits a) with (bitstring Msb0 [a]) by (destruct a; reflexivity).
    refine (ContainerSpec.lw_write _ _ _ _ _ _ _ (ContainerProps.lawful_byte false SeekSource C0 Little Msb0 a eq_refl _) n _); discriminate.
  - rewrite <- byte_layout.
    refine (proj1 (PrimProps.prim_u_codec PU8 (CB 8) Little 8 Msb0 (Byte.to_N b) _ _ _ _) n); [exact I|reflexivity|split; [cbn; lia|discriminate]|apply to_N_lt].
Qed.
Lemma flip_twice a b : flip (Byte.to_N a) (flip (Byte.to_N a) (Byte.to_N b)) = Byte.to_N b.
Proof. unfold flip. pose proof (to_N_lt b). destruct (Byte.to_N a =? 1)%N; lia. Qed.
Theorem flipped_whole cu fuel a b rest : let v := VRec [VNum (Byte.to_N a); VNum (flip (Byte.to_N a) (Byte.to_N b))] in
  from_bytes cu fuel (derived Flipped) (a :: b :: rest) 0 = Ok ((rest, 0), v) /\ to_bytes cu (derived Flipped) v = Ok [a; b].
Proof.
  intros v. split.
  - destruct (from_reader_at cu fuel SeekSource Msb0 (derived Flipped) (cursor (a :: b :: rest)) 0 [] (byte_bits a ++ byte_bits b) (bits_of_bytes rest) v) as (s' & E); auto.
    + apply reads_at_of. intros r tail Hr Hu. rewrite flipped_read. now apply flipped_reads.
    + apply readable_new.
    + cbn [app]. rewrite <- app_assoc. reflexivity.
    + unfold from_bytes. rewrite E. rewrite app_length, !byte_bits_length. reflexivity.
  - assert (HE : emits_at Msb0 0 (write_ty cu (derived Flipped) [] v) (bits_of_bytes [a; b])).
    { eapply emits_at_ext; [intros w; symmetry; apply flipped_write|]. rewrite flip_twice. change (bits_of_bytes [a; b]) with (byte_bits a ++ byte_bits b ++ []). rewrite app_nil_r. apply flipped_emits. }
    destruct (emits_at_out Msb0 _ _ HE) as (bytes & pad & E1 & E2 & Hp). change (to_bytes cu (derived Flipped) v = Ok bytes) in E1.
    rewrite E1. f_equal. assert (pad = 0).
    { apply (f_equal (@length bool)) in E2. rewrite app_length, bitstring_length, bits_of_bytes_length, repeat_length in E2. cbn [length] in E2. lia. }
    subst pad. rewrite app_nil_r in E2. exact (bitstring_inj Msb0 _ _ E2).
Qed.
Theorem flipped_cut cu fuel h : length h < 2 -> exists n, from_bytes cu fuel (derived Flipped) h 0 = Err (Incomplete n).
Proof.
  intros H. destruct h as [|a [|b h]]; [eexists; vm_compute; reflexivity| |cbn in H; lia]. destruct a; eexists; vm_compute; reflexivity.
Qed.

(** ** Example_ *)

Definition item_value (p : byte * byte) : value := VNum (Byte.to_N (fst p) * 256 + Byte.to_N (snd p)).
Lemma encode_items pos items :
  encode_list (fun p x => encode SeekSource Msb0 no_format u16 None [VEnd Big] p x) pos (map item_value items) = Some (map (fun p => bits_of_bytes [fst p; snd p]) items).
Proof. revert pos. induction items as [|[a b] l IH]; intros pos; [reflexivity|]. cbn [map encode_list]. unfold item_value at 1. cbn [fst snd]. now rewrite enc_be16, IH. Qed.
Lemma concat_items items : concat (map (fun p => bits_of_bytes [fst p; snd p]) items) = bits_of_bytes (item_bytes items).
Proof.
  induction items as [|[a b] l IH]; [reflexivity|]. cbn [map concat fst snd]. rewrite IH. change (item_bytes ((a, b) :: l)) with ([a; b] ++ item_bytes l). now rewrite bits_of_bytes_app.
Qed.
Lemma enc_items pos n items : n = N.of_nat (length items) -> (n < 256)%N ->
  encode SeekSource Msb0 no_format (TVec KVec 2 u16) (Some (LCount n)) [VEnd Big] pos (VList (map item_value items)) = Some (bits_of_bytes (item_bytes items)).
Proof.
  intros Hn Hl. rewrite <- concat_items.
  transitivity (let? es := encode_list (fun p x => encode SeekSource Msb0 no_format u16 None [VEnd Big] p x) pos (map item_value items) in
     guard (negb (slot_size KVec 2 =? 0)%N && stops (slot_size KVec 2) (LCount n) (map item_value items) es && distinct KVec (map item_value items)) (Some (concat es)));
    [reflexivity|].
  rewrite encode_items. change (slot_size KVec 2) with 2%N. cbn [stops]. rewrite (distinct_vec KVec) by reflexivity. rewrite map_length.
  replace (n =? N.of_nat (length items))%N with true by lia. replace (n * 2 <=? isize_max)%N with true by (unfold isize_max; lia). reflexivity.
Qed.
Definition counted_items : fattrs :=
  fattrs_of (attrs (Some EBig) None None (Some (fun _ fs _ => match nth 6 fs VUnit with VNum n => Z.of_N n | _ => 0%Z end)) None false None None None) VUnit.
Lemma fe_items n items pos acc : N.of_nat (length items) = Byte.to_N n -> nth 6 acc VUnit = VNum (Byte.to_N n) ->
  fe Msb0 cplain counted_items (TVec KVec 2 u16) [] acc pos (VList (map item_value items)) = Some (bits_of_bytes (item_bytes items)).
Proof.
  intros Hn Ha. pose proof (to_N_lt n) as Hl.
  transitivity (let? body := match eval_limit (FCount (fun _ fs _ => match nth 6 fs VUnit with VNum n => Z.of_N n | _ => 0%Z end)) [] acc (pos + 0 + 0) with
                | Ok (LCount m) => agree (encode SeekSource Msb0 no_format (TVec KVec 2 u16) (Some (LCount m)) [VEnd Big] (pos + 0 + 0) (VList (map item_value items)))
                                  (encode SeekSource Msb0 no_format (TVec KVec 2 u16) (Some (LCount m)) [VEnd Big] (pos + 0 + 0) (VList (map item_value items)))
                | Ok lim => agree (encode SeekSource Msb0 no_format (TVec KVec 2 u16) (Some lim) [VEnd Big] (pos + 0 + 0) (VList (map item_value items)))
                                  (encode SeekSource Msb0 no_format (TVec KVec 2 u16) (Some lim) [VEnd Big] (pos + 0 + 0) (VList (map item_value items)))
                | _ => None
                end in Some (body ++ [])); [reflexivity|].
  cbn [eval_limit]. rewrite Ha, to_usize_small by lia. cbn [res_map]. rewrite N2Z.id, agree_same, (enc_items _ (Byte.to_N n) items) by auto. now rewrite app_nil_r.
Qed.
Lemma fe_f acc : fe Msb0 cplain (fattrs_of f_none VUnit) (derived FieldF) [] acc 34 (VRec [VNum 6]) = Some [false; false; false; true; true; false].
Proof. vm_compute. reflexivity. Qed.
Lemma split_7_1 b : layout Little Msb0 7 (Byte.to_N b / 2) ++ layout Little Msb0 1 (Byte.to_N b mod 2) = byte_bits b.
Proof. destruct b; reflexivity. Qed.
Lemma split_2_6 b : (Byte.to_N b mod 64 = 6)%N -> layout Little Msb0 2 (Byte.to_N b / 64) ++ [false; false; false; true; true; false] = byte_bits b.
Proof. destruct b; try (intros H; vm_compute in H; discriminate); reflexivity. Qed.
Lemma example_encode a b c d e n items : (Byte.to_N e mod 64 = 6)%N -> N.of_nat (length items) = Byte.to_N n ->
  encode SeekSource Msb0 no_format (derived Example_) None [] 0 (example_value [a; b; c; d; e; n] items) = Some (bits_of_bytes ([a; b; c; d; e; n] ++ item_bytes items)).
Proof.
  intros He Hn. unfold example_value, be16, at_. cbn [nth Nat.add]. rewrite He. fold item_value. change (fun p : byte * byte => VNum (Byte.to_N (fst p) * 256 + Byte.to_N (snd p))) with item_value.
  change (derived Example_) with (TStruct cplain (FCons (fattrs_of f_none VUnit) u8 u8 (FCons (fattrs_of (f_bits 7) VUnit) u8 u8 (FCons (fattrs_of (f_bits 1) VUnit) u8 u8
    (FCons (fattrs_of (attrs (Some EBig) None None None None false None None None) VUnit) u16 u16 (FCons (fattrs_of (f_bits 2) VUnit) u8 u8
    (FCons (fattrs_of f_none VUnit) (derived FieldF) (derived FieldF) (FCons (fattrs_of f_none VUnit) u8 u8 (FCons counted_items (TVec KVec 2 u16) (TVec KVec 2 u16) FNil))))))))).
  rewrite encode_struct. change (c_seek cplain) with (None : option (list value -> option seekfrom)). change (c_magic cplain) with (@nil byte). cbn [encode_magic length Nat.add].
  change (ctx_args cplain []) with (@nil value).
  pose proof (to_N_lt b). pose proof (to_N_lt e).
  erewrite (encode_step Msb0 cplain [] _ u8 u8 _ _ _ _ [] 0 (byte_bits a)); [|reflexivity|apply fe_byte|].
  2: { rewrite byte_bits_length. cbn [Nat.add]. apply encode_step; [reflexivity|apply fe_bits; [lia|change (2 ^ N.of_nat 7)%N with 128%N; lia]|]. rewrite layout_length. cbn [Nat.add].
       apply encode_step; [reflexivity|apply fe_bits; [lia|change (2 ^ N.of_nat 1)%N with 2%N; lia]|]. rewrite layout_length. cbn [Nat.add].
       apply encode_step; [reflexivity|apply fe_be2|]. rewrite bits_of_bytes_length. cbn [length Nat.mul Nat.add].
       apply encode_step; [reflexivity|apply fe_bits; [lia|change (2 ^ N.of_nat 2)%N with 4%N; lia]|]. rewrite layout_length. cbn [Nat.add].
       apply encode_step; [reflexivity|apply fe_f|]. cbn [length Nat.add].
       apply encode_step; [reflexivity|apply fe_byte|]. rewrite byte_bits_length. cbn [Nat.add].
       apply encode_step; [reflexivity|apply (fe_items n); [exact Hn|reflexivity]|]. reflexivity. }
  f_equal. rewrite bits_of_bytes_app. change (bits_of_bytes [a; b; c; d; e; n]) with (byte_bits a ++ byte_bits b ++ byte_bits c ++ byte_bits d ++ byte_bits e ++ byte_bits n ++ []).
  rewrite <- (split_7_1 b), <- (split_2_6 e He). change (bits_of_bytes [c; d]) with (byte_bits c ++ byte_bits d ++ []). rewrite !app_nil_r. now rewrite <- !app_assoc.
Qed.
(** A struct whose field is rejected, after fields that can be read. *)
Definition num_read (p : prim) (c : pctx) : RM value := let* n := prim_read p c in ret (VNum n).
Lemma num_reads src p c e n v : is_unsigned p -> bits_of_ctx c = Some (e, n, Msb0) -> 1 <= n <= prim_width p -> (v < 2 ^ N.of_nat n)%N ->
  reads src Msb0 (num_read p c) (layout e Msb0 n v) (VNum v).
Proof.
  intros Hu Hc Hn Hv. unfold num_read. rewrite <- (app_nil_r (layout e Msb0 n v)). eapply reads_bind; [|apply reads_ret].
  refine (proj2 (PrimProps.prim_u_codec p c e n Msb0 v Hu Hc (conj Hn _) Hv) src). discriminate.
Qed.
Lemma whole_reads src p c e n v : bytes_of_ctx (prim_bytes p) c = Some (e, n, Msb0) -> 0 < n <= prim_bytes p -> (v < 2 ^ N.of_nat (8 * n))%N ->
  reads src Msb0 (num_read p c) (bitstring Msb0 (to_bytes_e e n v)) (VNum v).
Proof.
  intros Hc Hn Hv. unfold num_read. rewrite <- (app_nil_r (bitstring _ _)). eapply reads_bind; [|apply reads_ret].
  refine (ContainerSpec.lw_read _ _ _ _ _ _ _ (ContainerProps.lawful_prim_bytes false src p c e n Msb0 v Hc Hn Hv _)). discriminate.
Qed.
Lemma past cu fuel src a t tl ctx acc m e x rest err : (forall r, read_field cplain a (is_vec_u8 t) ctx acc (fun lim args => read_ty cu fuel t lim args) r = m r) ->
  reads src Msb0 m e x -> ContainerSpec.rejects src Msb0 (fields_read cu fuel cplain ctx tl None (acc ++ [x])) rest err ->
  ContainerSpec.rejects src Msb0 (fields_read cu fuel cplain ctx (FCons a t t tl) None acc) (e ++ rest) err.
Proof.
  intros Hm H1 H2 r l Hr Hu. rewrite <- app_assoc in Hu. destruct (H1 r _ Hr Hu) as (r1 & E1 & R1 & U1 & _).
  destruct (H2 r1 _ R1 U1) as (r2 & E2). exists r2. rewrite read_cons. cbv match. unfold bind. rewrite Hm, E1, E2. reflexivity.
Qed.
Lemma field_num cu fuel acc r : read_field cplain (fattrs_of f_none VUnit) false [] acc (fun lim args => read_ty cu fuel u8 lim args) r = num_read PU8 C0 r.
Proof. lazy -[prim_read]. destruct (prim_read PU8 C0 r) as [[] ?]; reflexivity. Qed.
Lemma field_bits cu fuel n acc r : read_field cplain (fattrs_of (f_bits n) VUnit) false [] acc (fun lim args => read_ty cu fuel u8 lim args) r = num_read PU8 (CB n) r.
Proof. lazy -[prim_read]. destruct (prim_read PU8 (CB n) r) as [[] ?]; reflexivity. Qed.
Lemma field_big cu fuel acc r : read_field cplain (fattrs_of (attrs (Some EBig) None None None None false None None None) VUnit) false [] acc
  (fun lim args => read_ty cu fuel u16 lim args) r = num_read (PU 2) (CE Big) r.
Proof. lazy -[prim_read]. destruct (prim_read (PU 2) (CE Big) r) as [[] ?]; reflexivity. Qed.
Lemma field_f cu fuel acc r : read_field cplain (fattrs_of f_none VUnit) false [] acc (fun lim args => read_ty cu fuel (derived FieldF) lim args) r =
  (let* n := prim_read PU8 (CB 6) in if (n =? 6)%N then ret (VRec [VNum n]) else fail Assertion) r.
Proof. lazy -[prim_read N.eqb]. destruct (prim_read PU8 (CB 6) r) as [[x| | |] ?]; try reflexivity. destruct (x =? 6)%N; reflexivity. Qed.
Lemma split_2_6' b : layout Little Msb0 2 (Byte.to_N b / 64) ++ layout Little Msb0 6 (Byte.to_N b mod 64) = byte_bits b.
Proof. destruct b; reflexivity. Qed.
Lemma whole_byte b : bitstring Msb0 (to_bytes_e Little 1 (Byte.to_N b)) = byte_bits b.
Proof. destruct b; reflexivity. Qed.
Lemma whole_be2 a b : bitstring Msb0 (to_bytes_e Big 2 (Byte.to_N a * 256 + Byte.to_N b)) = bits_of_bytes [a; b].
Proof. cbn [to_bytes_e]. now rewrite be2. Qed.
Definition example_fields : fields := match derived Example_ with TStruct _ fs => fs | _ => FNil end.
Lemma example_rejects cu fuel src a b c d e : (Byte.to_N e mod 64 <> 6)%N ->
  ContainerSpec.rejects src Msb0 (fields_read cu fuel cplain [] example_fields None []) (bits_of_bytes [a; b; c; d; e]) Assertion.
Proof.
  intros He. pose proof (to_N_lt b). pose proof (to_N_lt c). pose proof (to_N_lt d). pose proof (to_N_lt e).
  replace (bits_of_bytes [a; b; c; d; e]) with (byte_bits a ++ layout Little Msb0 7 (Byte.to_N b / 2) ++ layout Little Msb0 1 (Byte.to_N b mod 2) ++
    bits_of_bytes [c; d] ++ layout Little Msb0 2 (Byte.to_N e / 64) ++ layout Little Msb0 6 (Byte.to_N e mod 64)).
  2: { rewrite split_2_6', (app_assoc (layout Little Msb0 7 _)), split_7_1. unfold bits_of_bytes. cbn [flat_map]. now rewrite !app_nil_r, <- !app_assoc. }
  unfold example_fields. cbn [derived derive].
  eapply past; [apply field_num|rewrite <- whole_byte; apply (whole_reads src PU8 C0 Little 1); [reflexivity|cbn; lia|apply to_N_lt]|].
  eapply past; [apply field_bits|apply (num_reads src PU8 (CB 7) Little 7); [exact I|reflexivity|cbn; lia|change (2 ^ N.of_nat 7)%N with 128%N; lia]|].
  eapply past; [apply field_bits|apply (num_reads src PU8 (CB 1) Little 1); [exact I|reflexivity|cbn; lia|change (2 ^ N.of_nat 1)%N with 2%N; lia]|].
  eapply past; [apply field_big|rewrite <- whole_be2; apply (whole_reads src (PU 2) (CE Big) Big 2); [reflexivity|cbn; lia|change (2 ^ N.of_nat (8 * 2))%N with 65536%N; lia]|].
  eapply past; [apply field_bits|apply (num_reads src PU8 (CB 2) Little 2); [exact I|reflexivity|cbn; lia|change (2 ^ N.of_nat 2)%N with 4%N; lia]|].
  intros r rest Hr Hu.
  assert (HR : reads src Msb0 (prim_read PU8 (CB 6)) (layout Little Msb0 6 (Byte.to_N e mod 64)) (Byte.to_N e mod 64)%N).
  { refine (proj2 (PrimProps.prim_u_codec PU8 (CB 6) Little 6 Msb0 _ I eq_refl (conj _ _) _) src); [cbn; lia|discriminate|change (2 ^ N.of_nat 6)%N with 64%N; lia]. }
  destruct (HR r rest Hr Hu) as (r1 & E1 & _). exists r1. rewrite read_cons. cbv match. unfold bind at 1. rewrite field_f. unfold bind. rewrite E1.
  replace (Byte.to_N e mod 64 =? 6)%N with false by lia. reflexivity.
Qed.
Lemma example_type : derived Example_ = TStruct cplain example_fields.
Proof. reflexivity. Qed.
Theorem example_bad cu fuel h : 5 <= length h -> (at_ h 4 mod 64 <> 6)%N -> from_bytes cu fuel (derived Example_) h 0 = Err Assertion.
Proof.
  intros H He. destruct h as [|a [|b [|c [|d [|e h]]]]]; try (cbn in H; lia). unfold at_ in He. cbn [nth] in He.
  destruct (example_rejects cu fuel SeekSource a b c d e He (reader_new (cursor (a :: b :: c :: d :: e :: h))) (bits_of_bytes h)) as (r' & E).
  - apply readable_new.
  - change (bits_of_bytes (a :: b :: c :: d :: e :: h) = bits_of_bytes [a; b; c; d; e] ++ bits_of_bytes h). now rewrite <- bits_of_bytes_app.
  - unfold from_bytes, from_reader. cbn [Nat.eqb]. unfold bind at 1. cbn [ret]. unfold bind at 1. rewrite example_type, read_struct.
    change (c_seek cplain) with (None : option (list value -> option seekfrom)). change (c_magic cplain) with (@nil byte). change (ctx_args cplain []) with (@nil value).
    unfold bind. cbn [option_map read_seek read_magic ret]. rewrite E. reflexivity.
Qed.
Lemma item_bytes_length items : length (item_bytes items) = 2 * length items.
Proof. induction items as [|[a b] l IH]; [reflexivity|]. change (item_bytes ((a, b) :: l)) with (a :: b :: item_bytes l). cbn [length]. lia. Qed.
Lemma items_of l : Nat.even (length l) = true -> exists items, item_bytes items = l.
Proof.
  induction l as [|a|a b l IH] using two_at_a_time; intros H; [now exists []|discriminate|]. destruct (IH H) as (items & <-). now exists ((a, b) :: items).
Qed.
Theorem example_whole cu fuel h items rest : length h = 6 -> (at_ h 4 mod 64 = 6)%N -> at_ h 5 = N.of_nat (length items) -> 8 * length (h ++ item_bytes items ++ rest) <= fuel ->
  from_bytes cu fuel (derived Example_) (h ++ item_bytes items ++ rest) 0 = Ok ((rest, 0), example_value h items) /\
  to_bytes cu (derived Example_) (example_value h items) = Ok (h ++ item_bytes items).
Proof.
  intros H He Hn Hf. destruct h as [|a [|b [|c [|d [|e [|n [|x h]]]]]]]; try (cbn in H; lia). unfold at_ in He, Hn. cbn [nth] in He, Hn.
  set (hd := [a; b; c; d; e; n]) in *. rewrite app_assoc in *. pose proof (item_bytes_length items) as HL.
  assert (HF : firstn (6 + 2 * length items) ((hd ++ item_bytes items) ++ rest) = hd ++ item_bytes items).
  { replace (6 + 2 * length items) with (length (hd ++ item_bytes items) + 0) by (rewrite app_length, HL; cbn [hd length]; lia). now rewrite firstn_app_2, app_nil_r. }
  assert (HS : skipn (6 + 2 * length items) ((hd ++ item_bytes items) ++ rest) = rest).
  { replace (6 + 2 * length items) with (length (hd ++ item_bytes items)) by (rewrite app_length, HL; cbn [hd length]; lia). now rewrite skipn_app, skipn_all, Nat.sub_diag. }
  destruct (formatted cu fuel Msb0 (derived Example_) (example_value hd items) (6 + 2 * length items) ((hd ++ item_bytes items) ++ rest)) as [E1 E2];
    [|rewrite !app_length, HL; cbn [hd length]; lia|exact Hf|now rewrite HS in E1; rewrite HF in E2].
  rewrite HF. apply example_encode; auto.
Qed.
Lemma example_safe cu : safe_type cu (derived Example_).
Proof.
  exists false. cbn. repeat safe_step.
  destruct v5 as [n| | | | | | | | | | |]; try contradiction.
  rewrite to_usize_small by lia. rewrite N2Z.id. eexists. split; [reflexivity|].
  split; [split; [unfold ContainerSpec.limit_fits, isize_max; lia|split; [reflexivity|discriminate]]|]. split; [reflexivity|]. split; [lia|]. eexists. split; [reflexivity|]. exact I.
Qed.
Lemma example_blind cu m : blind_to_end m cu (derived Example_).
Proof. unfold blind_to_end. cbn. repeat split; auto; discriminate. Qed.
Theorem example_cut cu fuel h : (5 <= length h -> (at_ h 4 mod 64 = 6)%N) -> length h < 6 + 2 * N.to_nat (at_ h 5) -> 8 * length h + 8 < fuel ->
  exists n, from_bytes cu fuel (derived Example_) h 0 = Err (Incomplete n).
Proof.
  intros He Hl Hf.
  assert (Hx : exists more hd items rest, h ++ more = hd ++ item_bytes items ++ rest /\ length hd = 6 /\ (at_ hd 4 mod 64 = 6)%N /\ at_ hd 5 = N.of_nat (length items) /\ length rest < length more).
  { destruct (Nat.le_gt_cases 6 (length h)) as [H6|H6].
    - destruct h as [|a [|b [|c [|d [|e [|n h]]]]]]; try (cbn in H6; lia). specialize (He ltac:(cbn [length]; lia)). unfold at_ in *. cbn [nth] in *. cbn [length] in Hl.
      set (k := N.to_nat (Byte.to_N n)) in *.
      destruct (items_of (h ++ repeat x00 (2 * k - length h))) as (items & E).
      { rewrite app_length, repeat_length. replace (length h + (2 * k - length h)) with (2 * k) by lia. apply Nat.even_spec. now exists k. }
      exists (repeat x00 (2 * k - length h)), [a; b; c; d; e; n], items, []. rewrite E, app_nil_r. repeat split; auto.
      + apply (f_equal (@length byte)) in E. rewrite item_bytes_length, app_length, repeat_length in E. cbn [nth]. lia.
      + cbn [length]. rewrite repeat_length. lia.
    - destruct h as [|a [|b [|c [|d [|e [|n h]]]]]]; [| | | | |specialize (He ltac:(cbn [length]; lia))|cbn in H6; lia].
      + exists [x00; x00; x00; x00; x06; x00], [x00; x00; x00; x00; x06; x00], [], []. repeat split; cbn; lia.
      + exists [x00; x00; x00; x06; x00], [a; x00; x00; x00; x06; x00], [], []. repeat split; cbn; lia.
      + exists [x00; x00; x06; x00], [a; b; x00; x00; x06; x00], [], []. repeat split; cbn; lia.
      + exists [x00; x06; x00], [a; b; c; x00; x06; x00], [], []. repeat split; cbn; lia.
      + exists [x06; x00], [a; b; c; d; x06; x00], [], []. repeat split; cbn; lia.
      + exists [x00], [a; b; c; d; e; x00], [], []. repeat split; auto. }
  destruct Hx as (more & hd & items & rest & Ex & H6 & H64 & Hn & Hr).
  destruct (example_whole cu (8 * length (hd ++ item_bytes items ++ rest)) hd items rest H6 H64 Hn (le_n _)) as [E _]. rewrite <- Ex in E.
  exact (cut_off cu fuel _ h more _ _ _ _ (example_safe cu) (example_blind cu) Hf E Hr).
Qed.

(** ** The macros accept the declarations *)

Theorem accepted tr d : In d [Ipv4Header; FrameType; Flags; FrameControl; ReadAll; Enums; CatchAll; Flipped; FieldF; Example_] -> derive tr true d = Some (derived d).
Proof. intros H. repeat (destruct H as [<-|H]; [destruct tr; reflexivity|]). destruct H. Qed.

(** ** Every input *)

Theorem frame_total cu fuel h : 8 * length h + 8 < fuel ->
  (3 <= at_ h 0 / 64)%N /\ from_bytes cu fuel (derived FrameControl) h 0 = Err Parse \/
  length h < 2 /\ (exists n, from_bytes cu fuel (derived FrameControl) h 0 = Err (Incomplete n)) \/
  (2 <= length h /\ (at_ h 0 / 64 < 3)%N /\ from_bytes cu fuel (derived FrameControl) h 0 = Ok ((skipn 2 h, 0), frame_control h) /\
   to_bytes cu (derived FrameControl) (frame_control h) = Ok (firstn 2 h)).
Proof.
  intros Hf. destruct (N.le_gt_cases 3 (at_ h 0 / 64)) as [H|H]; [left; split; [exact H|now apply frame_reserved]|right].
  destruct (Nat.le_gt_cases 2 (length h)) as [H2|H2]; [right|left; split; [exact H2|now apply frame_cut]]. split; [exact H2|]. split; [exact H|]. now apply frame_whole.
Qed.
Theorem read_all_total cu fuel h : length h < fuel ->
  if Nat.even (length h)
  then from_bytes cu fuel (derived ReadAll) h 0 = Ok (([], 0), VRec [VList (pairs h)]) /\ to_bytes cu (derived ReadAll) (VRec [VList (pairs h)]) = Ok h
  else exists n, from_bytes cu fuel (derived ReadAll) h 0 = Err (Incomplete n).
Proof. intros Hf. destruct (Nat.even (length h)) eqn:E; [now apply read_all_even|now apply read_all_odd]. Qed.
Theorem enums_total cu fuel h : 8 * length h + 8 < fuel ->
  match enums_value h with
  | Some (n, v) => from_bytes cu fuel (derived Enums) h 0 = Ok ((skipn n h, 0), v) /\ to_bytes cu (derived Enums) v = Ok (firstn n h)
  | None => exists n, from_bytes cu fuel (derived Enums) h 0 = Err (Incomplete n)
  end.
Proof. intros Hf. destruct (enums_value h) as [[n v]|] eqn:E; [now apply enums_whole|now apply enums_cut]. Qed.
Theorem catch_all_written cu k b : nth_error [x01; x02; x03] k = Some b -> to_bytes cu (derived CatchAll) (VVar k []) = Ok [b].
Proof.
  destruct (catch_all_write cu) as (H0 & H1 & H2). intros E. destruct k as [|[|[|k]]]; [injection E as <-..|destruct k; discriminate]; assumption.
Qed.
