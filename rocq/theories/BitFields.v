(** Proofs for C69. *)
From Coq Require Import Lia.
From Verif Require Import Base Spec BitsFacts MonadFacts ReaderFacts Stream Reader Session Writer WSession Prims CodecSpec CodecFacts PrimFacts Containers Derive DeriveSpec DeriveFacts DeriveSound DeriveProps AttrSpec AttrFacts ContainerSpec SafeSpec DeriveSafe MoreSpec MoreFacts RecProps MsgSpec Msgs ExampleProps BitFieldSpec.

(** ** Numbers *)

Lemma number_le_bits bs : bits2N (rev (bitstring Lsb0 bs)) = number_le bs.
Proof.
  induction bs as [|b bs IH]; [reflexivity|]. rewrite bitstring_cons, rev_app_distr, bits2N_app, IH. cbn [orient number_le]. rewrite rev_involutive, byte_bits_length, <- byte_to_N_bits.
  change (2 ^ N.of_nat 8)%N with 256%N. lia.
Qed.
Lemma number_be_from bs : forall x, fold_left (fun x b => (256 * x + Byte.to_N b)%N) bs x = (x * 2 ^ N.of_nat (8 * length bs) + bits2N (bitstring Msb0 bs))%N.
Proof.
  induction bs as [|b bs IH]; intros x; [cbn; lia|]. cbn [fold_left]. rewrite IH, bitstring_cons, bits2N_app, bitstring_length. cbn [orient length].
  rewrite <- byte_to_N_bits. replace (8 * S (length bs)) with (8 + 8 * length bs) by lia. rewrite Nat2N.inj_add, N.pow_add_r. change (2 ^ N.of_nat 8)%N with 256%N. lia.
Qed.
Lemma number_be_bits bs : bits2N (bitstring Msb0 bs) = number_be bs.
Proof. unfold number_be. rewrite number_be_from. lia. Qed.
Lemma string_low bs : bitstring Lsb0 bs = rev (N2bits (8 * length bs) (number_le bs)).
Proof. rewrite <- number_le_bits, <- (bitstring_length Lsb0), <- (rev_length (bitstring Lsb0 bs)), N2bits_bits2N. now rewrite rev_involutive. Qed.
Lemma string_high bs : bitstring Msb0 bs = N2bits (8 * length bs) (number_be bs).
Proof. now rewrite <- number_be_bits, <- (bitstring_length Msb0), N2bits_bits2N. Qed.

(** ** Fields with values *)

Lemma Forall2_length {A B} (R : A -> B -> Prop) l m : Forall2 R l m -> length l = length m.
Proof. induction 1; cbn; congruence. Qed.
Fixpoint with_values (fs : list bfield) (vs : list N) : list ifield :=
  match fs, vs with
  | f :: tl, v :: vs' => mkI (b_type f) None None (b_isize f) v :: with_values tl vs'
  | _, _ => []
  end.
Lemma with_fields : forall fs vs, length vs = length fs -> i_fields (with_values fs vs) = b_fields fs.
Proof. induction fs as [|f fs IH]; intros [|v vs] H; try discriminate; [reflexivity|]. cbn [with_values i_fields b_fields i_type]. f_equal. apply IH. now injection H. Qed.
Lemma with_vals : forall fs vs, length vs = length fs -> i_values (with_values fs vs) = map VNum vs.
Proof. unfold i_values. induction fs as [|f fs IH]; intros [|v vs] H; try discriminate; [reflexivity|]. cbn [with_values map i_val]. f_equal. apply IH. now injection H. Qed.
Lemma with_bits f v : i_bits (mkI (b_type f) None None (b_isize f) v) = b_size f.
Proof. unfold i_bits, b_isize, b_size. cbn. now destruct (b_bits f). Qed.
Lemma with_total : forall fs vs, length vs = length fs -> list_sum (map i_bits (with_values fs vs)) = b_total fs.
Proof.
  unfold b_total. induction fs as [|f fs IH]; intros [|v vs] H; try discriminate; [reflexivity|]. cbn [with_values map list_sum fold_right]. rewrite with_bits.
  f_equal. apply IH. now injection H.
Qed.

Inductive mode : option endian -> option order -> order -> Prop :=
| LowNone : mode None (Some Lsb0) Lsb0
| LowLittle : mode (Some Little) (Some Lsb0) Lsb0
| HighNone : mode (Some Big) None Msb0
| HighMsb : mode (Some Big) (Some Msb0) Msb0.
Definition wire_of (o : order) (n : nat) (v : N) : list bool := match o with Lsb0 => rev (N2bits n v) | Msb0 => N2bits n v end.
Lemma mode_wire e ord o f v : mode e ord o -> i_wire e o (mkI (b_type f) None None (b_isize f) v) = wire_of o (b_size f) v.
Proof. intros M. unfold i_wire. rewrite with_bits. cbn [i_endian i_val]. destruct M; cbn [inherit wire_of]; auto using layout_le_lsb, layout_be_msb. Qed.
Definition o_aligned (o : order) (off : nat) (fs : list bfield) : Prop := match o with Lsb0 => whole_aligned off fs | Msb0 => True end.
Lemma fit_values e ord o : mode e ord o -> forall fs vs off, Forall b_ok fs -> o_aligned o off fs -> all_in_bits fs vs -> all_fit e ord o off (with_values fs vs).
Proof.
  intros M fs vs off K A F. revert off A. induction F as [|f v fs vs Hv F IH]; intros off A; [exact I|]. inversion K as [|? ? [Hn Hu] K']; subst.
  cbn [with_values all_fit]. rewrite with_bits. split.
  - unfold i_fits. rewrite with_bits. cbn [i_val i_type i_size i_order i_endian]. split; [exact Hn|]. split; [exact Hv|]. unfold b_isize, b_size in *. unfold o_aligned in A. cbn [whole_aligned] in A.
    destruct (b_bits f) as [n|] eqn:E.
    + destruct Hu as [Hu|Hu]; [discriminate|]. split; [now left|]. split; [|exact I]. destruct M; cbn [inherit]; split; try reflexivity; discriminate.
    + split; [right; right; reflexivity|]. split; [|exact I]. destruct M; cbn [inherit]; [left; now apply A|left; now apply A|right; auto|right; auto].
  - apply IH; [exact K'|]. destruct o; [exact I|]. now destruct A.
Qed.
Definition string_of (o : order) (fs : list bfield) (vs : list N) : list bool := concat (map (fun p => wire_of o (b_size (fst p)) (snd p)) (combine fs vs)).
Lemma string_values e ord o : mode e ord o -> forall fs vs, length vs = length fs -> concat (map (i_wire e o) (with_values fs vs)) = string_of o fs vs.
Proof.
  intros M. unfold string_of. induction fs as [|f fs IH]; intros [|v vs] H; try discriminate; [reflexivity|]. cbn [with_values map concat combine fst snd]. rewrite (mode_wire e ord o f v M).
  f_equal. apply IH. now injection H.
Qed.
Lemma wire_of_length o n v : length (wire_of o n v) = n.
Proof. destruct o; cbn [wire_of]; rewrite ?rev_length; apply N2bits_length. Qed.
Lemma string_length o : forall fs vs, length vs = length fs -> length (string_of o fs vs) = b_total fs.
Proof.
  unfold string_of, b_total. induction fs as [|f fs IH]; intros [|v vs] H; try discriminate; [reflexivity|]. cbn [map concat combine fst snd list_sum fold_right].
  rewrite app_length, wire_of_length. f_equal. apply IH. now injection H.
Qed.
Lemma bf_encode e ord o fs vs : mode e ord o -> Forall b_ok fs -> o_aligned o 0 fs -> all_in_bits fs vs ->
  encode SeekSource o no_format (TStruct (i_container e ord) (b_fields fs)) None [] 0 (VRec (map VNum vs)) = Some (string_of o fs vs).
Proof.
  intros M K A F. pose proof (fit_values e ord o M fs vs 0 K A F) as H. pose proof (Forall2_length _ _ _ F) as HL. symmetry in HL.
  rewrite <- (with_fields fs vs HL), <- (with_vals fs vs HL), <- (string_values e ord o M fs vs HL).
  rewrite encode_struct. cbn [i_container c_seek c_magic encode_magic length]. change (mkC _ _ _ _ _) with (i_container e ord).
  rewrite (encode_i_fields SeekSource o no_format e ord _ _ _ _ _ H). reflexivity.
Qed.

(** ** Cutting *)

Definition nums_of (place : nat -> nat -> nat) := fix go (off : nat) (fs : list bfield) (x : N) : list N :=
  match fs with
  | [] => []
  | f :: tl => ((x / 2 ^ N.of_nat (place off (b_size f))) mod 2 ^ N.of_nat (b_size f))%N :: go (off + b_size f) tl x
  end.
Lemma cut_nums place fs x : forall off, cut place off fs x = map VNum (nums_of place off fs x).
Proof. induction fs as [|f fs IH]; intros off; [reflexivity|]. cbn [cut nums_of map]. now rewrite IH. Qed.
Lemma nums_in place fs x : forall off, all_in_bits fs (nums_of place off fs x).
Proof. induction fs as [|f fs IH]; intros off; [constructor|]. cbn [nums_of]. constructor; [apply N.mod_lt, N.pow_nonzero; discriminate|apply IH]. Qed.
Lemma total_cons f fs : b_total (f :: fs) = b_size f + b_total fs.
Proof. reflexivity. Qed.
Lemma cut_low : forall fs off m x, b_total fs <= m ->
  exists rest, rev (N2bits m (x / 2 ^ N.of_nat off)) = string_of Lsb0 fs (nums_of up off fs x) ++ rest.
Proof.
  induction fs as [|f fs IH]; intros off m x H; [eexists; reflexivity|]. rewrite total_cons in H. cbn [nums_of]. unfold string_of. cbn [combine map concat fst snd]. unfold up at 1.
  replace m with ((m - b_size f) + b_size f) by lia. rewrite N2bits_add, rev_app_distr, N.div_div by (apply N.pow_nonzero; discriminate).
  rewrite <- N.pow_add_r, <- Nat2N.inj_add. destruct (IH (off + b_size f) (m - b_size f) x) as [rest E]; [lia|].
  exists rest. rewrite E. cbn [wire_of]. rewrite N2bits_mod, <- app_assoc. reflexivity.
Qed.
Lemma cut_high w x : forall fs off, b_total fs <= w - off ->
  exists rest, N2bits (w - off) x = string_of Msb0 fs (nums_of (down w) off fs x) ++ rest.
Proof.
  induction fs as [|f fs IH]; intros off H; [eexists; reflexivity|]. rewrite total_cons in H. cbn [nums_of]. unfold string_of. cbn [combine map concat fst snd]. unfold down at 1.
  assert (Hs : N2bits (w - off) x = N2bits (b_size f) (x / 2 ^ N.of_nat (w - (off + b_size f))) ++ N2bits (w - (off + b_size f)) x)
    by (rewrite <- N2bits_add; f_equal; lia).
  rewrite Hs. destruct (IH (off + b_size f)) as [rest E]; [lia|].
  exists rest. rewrite E. cbn [wire_of]. rewrite N2bits_mod, <- app_assoc. replace (w - off - b_size f) with (w - (off + b_size f)) by lia. reflexivity.
Qed.

(** ** Joining *)

Lemma string_cons o f fs v vs : string_of o (f :: fs) (v :: vs) = wire_of o (b_size f) v ++ string_of o fs vs.
Proof. reflexivity. Qed.
Lemma join_low : forall fs vs off, all_in_bits fs vs -> (bits2N (rev (string_of Lsb0 fs vs)) * 2 ^ N.of_nat off = join up off fs vs)%N.
Proof.
  intros fs vs off F. revert off. induction F as [|f v fs vs Hv F IH]; intros off; [reflexivity|]. rewrite string_cons. cbn [join]. unfold wire_of. unfold up at 1.
  rewrite rev_app_distr, rev_involutive, bits2N_app, bits2N_N2bits, N2bits_length, N.mod_small by exact Hv.
  rewrite <- IH. rewrite Nat2N.inj_add, N.pow_add_r. ring.
Qed.
Lemma join_high w : forall fs vs off, all_in_bits fs vs -> off + b_total fs <= w ->
  (bits2N (string_of Msb0 fs vs) * 2 ^ N.of_nat (w - off - b_total fs) = join (down w) off fs vs)%N.
Proof.
  intros fs vs off F. revert off. induction F as [|f v fs vs Hv F IH]; intros off H; [cbn; lia|]. rewrite total_cons in *. rewrite string_cons. cbn [join]. unfold wire_of. unfold down at 1.
  rewrite bits2N_app, bits2N_N2bits, N.mod_small by exact Hv. rewrite <- IH by lia.
  rewrite string_length by (symmetry; exact (Forall2_length _ _ _ F)).
  replace (w - (off + b_size f) - b_total fs) with (w - off - (b_size f + b_total fs)) by lia.
  replace (w - off - b_size f) with (b_total fs + (w - off - (b_size f + b_total fs))) by lia. rewrite Nat2N.inj_add, N.pow_add_r. ring.
Qed.

(** ** Safe and not dependent on the end *)

Lemma bf_args e ord f ctx acc off : field_args (i_container e ord) (i_attrs (mkI (b_type f) None None (b_isize f) 0)) ctx acc off =
  args_of e (b_bits f) None ord [].
Proof. rewrite i_args. cbn [i_endian i_order i_size spelled]. unfold b_isize. now destruct (b_bits f). Qed.
Lemma bf_sized e ord o f : mode e ord o -> b_ok f -> exists c, pctx_of (args_of e (b_bits f) None ord []) = Some c /\ sized c.
Proof.
  intros M [Hn _]. unfold b_size in Hn. destruct (b_bits f), M; eexists; (split; [reflexivity|]); cbn; try exact I; lia.
Qed.
Lemma bf_safe_fields cu e ord o ctx : mode e ord o -> forall fs acc, Forall b_ok fs -> fields_safe cu true true (i_container e ord) ctx (b_fields fs) None acc.
Proof.
  intros M. induction fs as [|f fs IH]; intros acc K; [exact I|]. inversion K as [|? ? Hk K']; subst. cbn [b_fields fields_safe_in]. cbn [i_attrs a_reader]. split; [|intros v _ _; apply IH; exact K'].
  unfold field_safe_in. cbn [i_attrs a_seek a_pad_before a_pad_after a_reader a_limit a_map option_map eval0 seek_safe]. unfold pad_safe, takes_default. cbn [a_skip a_cond].
  split; [exact I|]. split; [intros _; exact I|]. split; [intros v _ _; exact I|]. split; [discriminate|]. intros off _. split; [|auto].
  change (mkF _ _ _ _ _ _ _ _ _ _ _ _ _ _ _ _ _ _ _ _ _) with (i_attrs (mkI (b_type f) None None (b_isize f) 0)). rewrite bf_args. cbn [safe_ty_in].
  split; [reflexivity|]. split; [|exact (bf_sized e ord o f M Hk)]. destruct Hk as [Hk _]. unfold prim_width in Hk. lia.
Qed.
Lemma bf_safe cu e ord o fs : mode e ord o -> Forall b_ok fs -> safe_ty cu true true (TStruct (i_container e ord) (b_fields fs)) None [].
Proof. intros M K. split; [exact I|]. exact (bf_safe_fields cu e ord o _ M fs [] K). Qed.
Lemma bf_blind cu m e ord fs : blind_to_end m cu (TStruct (i_container e ord) (b_fields fs)).
Proof.
  unfold blind_to_end. cbn [every]. split; [discriminate|]. induction fs as [|f fs IH]; cbn; [exact I|]. repeat split; auto; discriminate.
Qed.

Lemma bf_in_place cu e ord fs : in_place False cu (TStruct (i_container e ord) (b_fields fs)).
Proof.
  unfold in_place. cbn [every]. split; [right; reflexivity|]. induction fs as [|f fs IH]; cbn; [exact I|]. repeat split; auto; try discriminate. right. intros p [H|H]; discriminate.
Qed.

(** ** Input that ends early *)

Lemma within cu fuel t input rest k v : safe_ty cu true true t None [] -> in_place False cu t -> 8 * length input + 8 < fuel ->
  from_bytes cu fuel t input 0 = Ok ((rest, k), v) -> k = 0 \/ rest <> [].
Proof.
  intros Hs Hi Hf E. unfold from_bytes in E. destruct (from_reader cu fuel t (cursor input) 0) as [[[n w]|e| |] s'] eqn:Er; try discriminate E.
  assert (Hp : s_pos s' = bytes_for n).
  { pose proof (from_reader_position cu fuel t (cursor input) 0 False n w s') as P. destruct P as (_ & P & _); auto; try tauto; [intros j; reflexivity|lia]. }
  unfold from_reader in Er. cbn [Nat.eqb] in Er. unfold bind, ret in Er.
  destruct (read_ty cu fuel t None [] (reader_new (cursor input))) as [x r'] eqn:Et.
  assert (Hq : quiet (cursor input)) by (intros j; reflexivity).
  destruct (proj1 (all_run fuel true _ cu) t true None [] Hs _ x r' (place_new true (cursor input) Hq (fun _ => Nat.le_0_l _)) Hf Et) as (_ & _ & K).
  destruct x as [u|e| |]; try discriminate Er. apply pair_inj in Er. destruct Er as [Er <-]. apply ok_inj, pair_inj in Er. destruct Er as [<- <-].
  destruct (K u eq_refl) as (_ & (_ & _ & _ & _ & _ & Hin) & Hd & _). destruct (Hin eq_refl) as [Hin' _]. rewrite Hd in Hin'. cbn [reader_new r_s cursor s_data] in Hin'.
  rewrite Hp in Hin'. unfold bytes_for in Hin'. destruct (_ <=? _) eqn:Eb; [|discriminate E]. apply ok_inj, pair_inj in E. destruct E as [E _]. apply pair_inj in E. destruct E as [<- <-].
  destruct (Nat.eq_dec (r_bits r' mod 8) 0) as [|Hne]; [now left|]. right. intros H. apply (f_equal (@length byte)) in H. rewrite skipn_length in H. cbn [length] in H. lia.
Qed.
Lemma cut_inside cu fuel fuel' t h more total v : safe_ty cu true true t None [] -> in_place False cu t -> (forall m, blind_to_end m cu t) -> 8 * length h + 8 < fuel ->
  8 * length h < total <= 8 * length (h ++ more) -> from_bytes cu fuel' t (h ++ more) 0 = Ok ((skipn (total / 8) (h ++ more), total mod 8), v) ->
  exists n, from_bytes cu fuel t h 0 = Err (Incomplete n).
Proof.
  intros Hs Hi Hb Hf Ht E. destruct (safe_from_bytes cu fuel t h 0 (ex_intro _ true Hs)) as (H1 & H2 & _); [lia|exact Hf|].
  assert (E' : from_bytes cu (Nat.max fuel fuel') t (h ++ more) 0 = Ok ((skipn (total / 8) (h ++ more), total mod 8), v)).
  { rewrite <- E. apply more_fuel; [lia|]. now rewrite E. }
  assert (Em : from_bytes cu (Nat.max fuel fuel') t h 0 = from_bytes cu fuel t h 0) by (apply more_fuel; [lia|exact H2]).
  destruct (from_bytes cu fuel t h 0) as [[[r k'] v']|e| |] eqn:Eh; try contradiction.
  - exfalso. rewrite (more_success cu _ t h more 0 r k' v' (Hb more) Em) in E'. apply ok_inj, pair_inj in E'. destruct E' as [E' _]. apply pair_inj in E'. destruct E' as [Er Ek].
    apply (f_equal (@length byte)) in Er. rewrite skipn_length, !app_length in *. destruct (within cu fuel t h r k' v' Hs Hi Hf Eh) as [->|Hr]; [lia|]. destruct r; [congruence|]. cbn [length] in Er. lia.
  - assert (Hc : (exists n, e = Incomplete n) \/ forall n, e <> Incomplete n) by (destruct e; try (right; discriminate); left; eauto).
    destruct Hc as [(n & ->)|Hc]; [eauto|]. rewrite (more_failure cu _ t h more 0 e (Hb more) Hc Em) in E'. discriminate.
Qed.

(** ** The theorems *)

Section Api.
Variables (cu : nat -> custom) (fuel : nat).
Lemma bf_read e ord o fs vs input rest : mode e ord o -> Forall b_ok fs -> o_aligned o 0 fs -> all_in_bits fs vs -> b_total fs <= fuel ->
  bitstring o input = string_of o fs vs ++ rest ->
  from_bytes cu fuel (TStruct (i_container e ord) (b_fields fs)) input 0 = Ok ((skipn (b_total fs / 8) input, b_total fs mod 8), VRec (map VNum vs)).
Proof.
  intros M K A F Hf HB. pose proof (Forall2_length _ _ _ F) as HL. symmetry in HL.
  rewrite (from_bytes_at cu fuel o no_format _ input 0 [] (string_of o fs vs) rest (VRec (map VNum vs)) (lawful_upto _ _ _ _ _ (any_customs cu SeekSource o)) (bf_encode e ord o fs vs M K A F)); auto.
  - rewrite Nat.add_0_l, string_length by exact HL. reflexivity.
  - rewrite string_length by exact HL. exact Hf.
Qed.
Lemma bf_write e ord o fs vs : mode e ord o -> Forall b_ok fs -> o_aligned o 0 fs -> all_in_bits fs vs ->
  exists bytes pad, to_bytes cu (TStruct (i_container e ord) (b_fields fs)) (VRec (map VNum vs)) = Ok bytes /\
    bitstring o bytes = string_of o fs vs ++ repeat false pad /\ pad < 8 /\ 8 * length bytes = b_total fs + pad.
Proof.
  intros M K A F. destruct (round_trip cu (length (string_of o fs vs)) o no_format _ _ _ (any_customs cu _ _) (bf_encode e ord o fs vs M K A F) (le_n _)) as (bytes & pad & E1 & E2 & E3 & _).
  exists bytes, pad. split; [exact E1|]. split; [exact E2|]. split; [exact E3|]. apply (f_equal (@length bool)) in E2. rewrite bitstring_length, app_length, repeat_length, string_length in E2; [exact E2|].
  symmetry. exact (Forall2_length _ _ _ F).
Qed.

Theorem low_read e fs input : e = None \/ e = Some Little -> Forall b_ok fs -> whole_aligned 0 fs -> b_total fs <= 8 * length input -> b_total fs <= fuel ->
  from_bytes cu fuel (LowFirst e fs) input 0 = Ok ((skipn (b_total fs / 8) input, b_total fs mod 8), VRec (cut up 0 fs (number_le input))).
Proof.
  intros He K A Hl Hf. destruct (cut_low fs 0 (8 * length input) (number_le input) Hl) as [rest E]. rewrite N.div_1_r, <- string_low in E. rewrite cut_nums.
  refine (bf_read e (Some Lsb0) Lsb0 fs _ input rest _ K A _ Hf E); [destruct He; subst e; constructor|apply nums_in].
Qed.
Theorem high_read o fs input : o = None \/ o = Some Msb0 -> Forall b_ok fs -> b_total fs <= 8 * length input -> b_total fs <= fuel ->
  from_bytes cu fuel (HighFirst o fs) input 0 = Ok ((skipn (b_total fs / 8) input, b_total fs mod 8), VRec (cut (down (8 * length input)) 0 fs (number_be input))).
Proof.
  intros He K Hl Hf. destruct (cut_high (8 * length input) (number_be input) fs 0) as [rest E]; [lia|]. rewrite Nat.sub_0_r, <- string_high in E. rewrite cut_nums.
  refine (bf_read (Some Big) o Msb0 fs _ input rest _ K I _ Hf E); [destruct He; subst o; constructor|apply nums_in].
Qed.
Theorem low_write e fs vs : e = None \/ e = Some Little -> Forall b_ok fs -> whole_aligned 0 fs -> all_in_bits fs vs ->
  exists bytes, to_bytes cu (LowFirst e fs) (VRec (map VNum vs)) = Ok bytes /\ length bytes = (b_total fs + 7) / 8 /\ number_le bytes = join up 0 fs vs.
Proof.
  intros He K A F. destruct (bf_write e (Some Lsb0) Lsb0 fs vs) as (bytes & pad & E1 & E2 & E3 & E4); auto; [destruct He; subst e; constructor|].
  exists bytes. split; [exact E1|]. split; [lia|]. rewrite <- number_le_bits, E2, rev_app_distr, <- (join_low fs vs 0 F), rev_repeat, bits2N_app, bits2N_false. cbn. lia.
Qed.
Theorem high_write o fs vs : o = None \/ o = Some Msb0 -> Forall b_ok fs -> all_in_bits fs vs ->
  exists bytes, to_bytes cu (HighFirst o fs) (VRec (map VNum vs)) = Ok bytes /\ length bytes = (b_total fs + 7) / 8 /\ number_be bytes = join (down (8 * length bytes)) 0 fs vs.
Proof.
  intros He K F. destruct (bf_write (Some Big) o Msb0 fs vs) as (bytes & pad & E1 & E2 & E3 & E4); auto; [destruct He; subst o; constructor|exact I|].
  exists bytes. split; [exact E1|]. split; [lia|]. rewrite <- number_be_bits, E2, bits2N_app, bits2N_false, repeat_length, <- (join_high _ fs vs 0 F) by lia.
  replace (8 * length bytes - 0 - b_total fs) with pad by lia. lia.
Qed.

End Api.

Lemma fill fs (input : list byte) : 8 * length input < b_total fs -> exists more, 8 * length input < b_total fs <= 8 * length (input ++ more).
Proof. intros H. exists (repeat x00 (b_total fs)). rewrite app_length, repeat_length. lia. Qed.
Theorem low_short cu fuel e fs input : e = None \/ e = Some Little -> Forall b_ok fs -> whole_aligned 0 fs -> 8 * length input < b_total fs -> 8 * length input + 8 < fuel ->
  exists n, from_bytes cu fuel (LowFirst e fs) input 0 = Err (Incomplete n).
Proof.
  intros He K A Hs Hf. destruct (fill fs input Hs) as [more H].
  assert (M : mode e (Some Lsb0) Lsb0) by (destruct He; subst e; constructor).
  exact (cut_inside cu fuel (b_total fs) _ input more _ _ (bf_safe cu e _ _ fs M K) (bf_in_place cu _ _ fs) (fun m => bf_blind cu m _ _ fs) Hf H (low_read cu (b_total fs) e fs _ He K A (proj2 H) (le_n _))).
Qed.
Theorem high_short cu fuel o fs input : o = None \/ o = Some Msb0 -> Forall b_ok fs -> 8 * length input < b_total fs -> 8 * length input + 8 < fuel ->
  exists n, from_bytes cu fuel (HighFirst o fs) input 0 = Err (Incomplete n).
Proof.
  intros He K Hs Hf. destruct (fill fs input Hs) as [more H].
  assert (M : mode (Some Big) o Msb0) by (destruct He; subst o; constructor).
  exact (cut_inside cu fuel (b_total fs) _ input more _ _ (bf_safe cu _ o _ fs M K) (bf_in_place cu _ _ fs) (fun m => bf_blind cu m _ _ fs) Hf H (high_read cu (b_total fs) o fs _ He K (proj2 H) (le_n _))).
Qed.

(** ** Values that do not fit *)

Section Refused.
Variable cu : nat -> custom.
Lemma bf_write_field e ord f stored ctx acc v w :
  write_field (i_container e ord) (i_attrs (mkI (b_type f) None None (b_isize f) 0)) stored ctx acc (VNum v) (fun args x => write_ty cu (TPrim (b_type f)) args x) w =
  (let* _ := write_ty cu (TPrim (b_type f)) (args_of e (b_bits f) None ord []) (VNum v) in ret tt) w.
Proof.
  unfold write_field. cbn [i_attrs a_seek a_magic a_pad_before a_pad_after option_map eval0 write_seek]. unfold asserts, field_write_tokens, field_write_func. cbn [a_assert a_assert_eq a_skip a_cond a_writer a_temp].
  change (mkF _ _ _ _ _ _ _ _ _ _ _ _ _ _ _ _ _ _ _ _ _) with (i_attrs (mkI (b_type f) None None (b_isize f) 0)).
  unfold write_magic, write_pad, check. cbn [bind ret]. unfold bind, ret at 1. cbn. now rewrite bf_args.
Qed.
Lemma bf_unfit e ord o f v w : mode e ord o -> b_ok f -> (v < 2 ^ N.of_nat (prim_width (b_type f)))%N -> ~ (v < 2 ^ N.of_nat (b_size f))%N -> writable w ->
  write_ty cu (TPrim (b_type f)) (args_of e (b_bits f) None ord []) (VNum v) w = (Err InvalidParam, w).
Proof.
  intros M [Hn Hu] Hv Hx W. cbn [write_ty]. unfold with_pctx. unfold b_size in *. destruct (b_bits f) as [n|] eqn:Eb; [|contradiction]. destruct Hu as [Hu|Hu]; [discriminate|].
  assert (H : exists c e', pctx_of (args_of e (Some n) None ord []) = Some c /\ bits_of_ctx c = Some (e', n, o)) by (destruct M; do 2 eexists; split; reflexivity).
  destruct H as (c & e' & -> & Hc). refine (proj2 (exact_prim_u _ c e' n o v w Hu Hc (proj1 Hn) Hv W) _). tauto.
Qed.
Lemma bf_fit e ord o pos f v : mode e ord o -> b_ok f -> o_aligned o pos [f] -> (v < 2 ^ N.of_nat (b_size f))%N ->
  emits_at o pos (write_ty cu (TPrim (b_type f)) (args_of e (b_bits f) None ord []) (VNum v)) (wire_of o (b_size f) v).
Proof.
  intros M K A Hv. destruct (fit_values e ord o M [f] [v] pos) as [H _]; [now constructor|exact A|now constructor|].
  pose proof (encode_i e ord o pos _ [] [] 0 H) as E. rewrite i_args in E. cbn [i_endian i_order i_size spelled i_val i_type] in E.
  rewrite (mode_wire e ord o f v M) in E.
  refine (proj1 (encode_sound SeekSource o cu no_format 0 (lawful_upto _ _ _ _ _ (any_customs cu _ _)) (TPrim (b_type f)) None _ pos (VNum v) _ _)).
  cbn [encode]. rewrite <- E. unfold b_isize. now destruct (b_bits f).
Qed.
Lemma bf_refused e ord o ctx stored : mode e ord o -> forall fs vs pos acc w, Forall b_ok fs -> o_aligned o pos fs -> of_types fs vs -> ~ all_in_bits fs vs ->
  writable w -> in_order o w -> w_at pos w ->
  exists w', fields_write cu (i_container e ord) ctx (b_fields fs) None stored (map VNum vs) acc w = (Err InvalidParam, w').
Proof.
  intros M fs vs pos acc w K A F. revert pos acc w K A. induction F as [|f v fs vs Hv F IH]; intros pos acc w K A N W O P; [destruct N; constructor|].
  inversion K as [|? ? Hk K']; subst. cbn [b_fields map]. 
  match goal with |- exists w', ?g w = _ => change (exists w', (let* _ := write_field (i_container e ord) (i_attrs (mkI (b_type f) None None (b_isize f) 0)) stored ctx acc (VNum v) (fun args x => write_ty cu (TPrim (b_type f)) args x) in
    fields_write cu (i_container e ord) ctx (b_fields fs) None stored (map VNum vs) (acc ++ [VNum v])) w = (Err InvalidParam, w')) end.
  unfold bind at 1. rewrite bf_write_field. unfold bind at 1.
  assert (D : (v < 2 ^ N.of_nat (b_size f))%N \/ ~ (v < 2 ^ N.of_nat (b_size f))%N) by lia. destruct D as [D|D].
  - assert (A1 : o_aligned o pos [f]) by (destruct o; [exact I|]; cbn in *; tauto).
    assert (A2 : o_aligned o (pos + b_size f) fs) by (destruct o; [exact I|]; cbn in *; tauto).
    destruct (bf_fit e ord o pos f v M Hk A1 D w W O P) as (w1 & bs & E & S & W1 & O1 & Q). rewrite E. cbn [ret].
    pose proof (w_at_next _ _ _ _ _ _ P S W1 Q) as P1. rewrite wire_of_length in P1.
    apply (IH _ (acc ++ [VNum v]) w1 K' A2); auto. intros H. apply N. now constructor.
  - rewrite (bf_unfit e ord o f v w M Hk Hv D W). eauto.
Qed.
Lemma bf_refused_bytes e ord o fs vs : mode e ord o -> Forall b_ok fs -> o_aligned o 0 fs -> of_types fs vs -> ~ all_in_bits fs vs ->
  to_bytes cu (TStruct (i_container e ord) (b_fields fs)) (VRec (map VNum vs)) = Err InvalidParam.
Proof.
  intros M K A F N. unfold to_bytes, to_bytes_with. destruct (fresh_writer o) as [W O].
  destruct (bf_refused e ord o (ctx_args (i_container e ord) []) (map VNum vs) M fs vs 0 [] (writer_new vec_sink) K A F N W O) as (w' & E); [split; reflexivity|].
  change (write_ty cu (TStruct (i_container e ord) (b_fields fs)) [] (VRec (map VNum vs))) with
    (let* _ := ret tt in let* _ := write_magic [] in fields_write cu (i_container e ord) (ctx_args (i_container e ord) []) (b_fields fs) None (map VNum vs) (map VNum vs) []).
  assert (EM : write_magic [] (writer_new vec_sink) = (Ok tt, writer_new vec_sink)) by reflexivity. unfold bind, ret at 1. cbn beta iota. rewrite EM, E. reflexivity.
Qed.
Theorem low_refused e fs vs : e = None \/ e = Some Little -> Forall b_ok fs -> whole_aligned 0 fs -> of_types fs vs -> ~ all_in_bits fs vs ->
  to_bytes cu (LowFirst e fs) (VRec (map VNum vs)) = Err InvalidParam.
Proof. intros He K A F N. apply (bf_refused_bytes e (Some Lsb0) Lsb0); auto. destruct He; subst e; constructor. Qed.
Theorem high_refused o fs vs : o = None \/ o = Some Msb0 -> Forall b_ok fs -> of_types fs vs -> ~ all_in_bits fs vs ->
  to_bytes cu (HighFirst o fs) (VRec (map VNum vs)) = Err InvalidParam.
Proof. intros He K F N. apply (bf_refused_bytes (Some Big) o Msb0); auto; [destruct He; subst o; constructor|exact I]. Qed.
End Refused.
