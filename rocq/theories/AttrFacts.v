(** Proofs about single attributes. *)
From Coq Require Import Lia ZifyBool ZifyNat ZifyN.
From Verif Require Import Base Spec Stream Reader Writer BitsFacts NFacts ReaderFacts FastRead MonadFacts ReaderOps Session SessionFacts ReaderProps WSession WriterFacts WriterProps.
From Verif Require Import Prims CodecSpec CodecFacts PrimFacts PrimProps Containers ContainerSpec ContainerFacts ContainerProps Derive DeriveSpec DeriveFacts DeriveSound DeriveProps AttrSpec.
Ltac Zify.zify_post_hook ::= Z.div_mod_to_equations.

(** ** Layout *)

Lemma order_eqb_refl o : order_eqb o o = true.
Proof. now destruct o. Qed.
Lemma endian_eqb_refl e : endian_eqb e e = true.
Proof. now destruct e. Qed.
Lemma list_eqb_refl {A} (eqb : A -> A -> bool) l : (forall x, In x l -> eqb x x = true) -> list_eqb eqb l l = true.
Proof. induction l as [|x l IH]; intros H; cbn [list_eqb]; [reflexivity|]. rewrite (H x (or_introl eq_refl)). cbn. apply IH. intros y Hy. apply H. now right. Qed.
Lemma bits_eqb_refl l : bits_eqb l l = true.
Proof. apply list_eqb_refl. intros [] _; reflexivity. Qed.
Lemma agree_same x : agree x x = x.
Proof. destruct x; cbn [agree]; [|reflexivity]. rewrite bits_eqb_refl. reflexivity. Qed.

Lemma layout_bytes e o k v : layout e o (8 * k) v = bitstring o (to_bytes_e e k v).
Proof.
  unfold layout. assert (H1 : 8 * k / 8 = k) by lia. assert (H2 : (8 * k) mod 8 = 0) by lia. rewrite H1, H2.
  assert (H3 : orient o (N2bits 0 (v / 2 ^ N.of_nat (8 * k))) = []) by (destruct o; reflexivity).
  rewrite H3. destruct e; cbn [to_bytes_e app]; [now rewrite app_nil_r|reflexivity].
Qed.
Lemma encode_bits_ok o pos p c e n v : bits_of_ctx c = Some (e, n, o) -> 1 <= n <= prim_width p -> (v < 2 ^ N.of_nat n)%N ->
  (is_unsigned p \/ (v < 2 ^ N.of_nat (n - 1))%N \/ n = prim_width p) ->
  (e = Big -> o = Lsb0 -> n <= 8 \/ n = prim_width p) -> encode_prim o pos p c v = Some (layout e o n v).
Proof.
  intros Hc Hn Hv Hs Hb. unfold encode_prim. rewrite Hc. unfold guard.
  assert (H1 : (endian_eqb e Little || order_eqb o Msb0 || (n <=? 8) || (n =? prim_width p))%bool = true).
  { destruct e; [reflexivity|]. destruct o; [reflexivity|]. cbn [endian_eqb order_eqb orb]. destruct (Hb eq_refl eq_refl); lia. }
  assert (H2 : holds p c n v = true).
  { unfold holds. destruct p as [|wb|wb]; try (now apply N.ltb_lt).
    assert (Hle : (2 ^ N.of_nat n <= 2 ^ N.of_nat (8 * wb))%N) by (apply N.pow_le_mono_r; [lia|]; unfold prim_width, prim_bytes in Hn; lia).
    apply andb_true_intro. split; [apply N.ltb_lt; lia|]. apply orb_true_intro. left. apply orb_true_intro.
    destruct Hs as [[]|[Hs|Hs]]; [left; now apply N.ltb_lt|right]. unfold prim_width, prim_bytes in Hs. lia. }
  rewrite order_eqb_refl, H1, H2. destruct (Nat.leb_spec 1 n); [|lia]. destruct (Nat.leb_spec n (prim_width p)); [|lia]. reflexivity.
Qed.
Lemma encode_bytes_ok o o' pos p c e n v : bits_of_ctx c = None -> bytes_of_ctx (prim_bytes p) c = Some (e, n, o') ->
  1 <= 8 * n <= prim_width p -> (v < 2 ^ N.of_nat (8 * n))%N -> pos mod 8 = 0 \/ (o = Msb0 /\ o' = Msb0) ->
  encode_prim o pos p c v = Some (layout e o (8 * n) v).
Proof.
  intros Hc Hy Hn Hv Ha. unfold encode_prim. rewrite Hc, Hy, layout_bytes. unfold prim_width in Hn. unfold encode_bytes, guard, aligned.
  destruct (Nat.leb_spec 1 n); [|lia]. destruct (Nat.leb_spec n (prim_bytes p)); [|lia]. destruct (N.ltb_spec v (2 ^ N.of_nat (8 * n))); [|lia].
  destruct Ha as [Ha|[-> ->]].
  - rewrite Ha, Nat.eqb_refl, !Bool.orb_true_r. reflexivity.
  - reflexivity.
Qed.

Lemma eval_const {A} (x : option A) ctx fs : eval0 (match x with Some e => Some (fun _ _ => e) | None => None end) ctx fs = x.
Proof. now destruct x. Qed.
Lemma i_args e ord f ctx fs off :
  field_args (i_container e ord) (i_attrs f) ctx fs off =
  args_of (spelled (i_endian f) e) (match i_size f with InBits n => Some n | _ => None end)
    (match i_size f with InBytes n => Some n | _ => None end) (spelled (i_order f) ord) [].
Proof. destruct f as [p [x|] [y|] [|n|n] v], e, ord; reflexivity. Qed.
Lemma encode_i e ord o pos f ctx fs off : i_fits e ord o pos f ->
  encode_num o pos (i_type f) None (field_args (i_container e ord) (i_attrs f) ctx fs off) (i_val f) = Some (i_wire e o f).
Proof.
  rewrite i_args. destruct f as [p fe fo s v]. unfold i_fits, i_wire, i_bits. cbn [i_type i_endian i_order i_size i_val].
  intros (Hn & Hv & Hs & Ho & Hi). unfold encode_num.
  destruct s as [|n|n].
  - assert (exists c, pctx_of (args_of (spelled fe e) None None (spelled fo ord) []) = Some c /\ bits_of_ctx c = None /\
      bytes_of_ctx (prim_bytes p) c = Some (inherit fe e Little, prim_bytes p, inherit fo ord Msb0)) as (c & Ec & Eb & Ey).
    { destruct fe, e, fo, ord; eexists; (split; [reflexivity|split; reflexivity]). }
    rewrite Ec. exact (encode_bytes_ok o _ pos p c _ _ v Eb Ey Hn Hv Ho).
  - destruct Ho as [Ho Hb].
    assert (exists c, pctx_of (args_of (spelled fe e) (Some n) None (spelled fo ord) []) = Some c /\
      bits_of_ctx c = Some (inherit fe e Little, n, inherit fo ord Msb0)) as (c & Ec & Eb).
    { destruct fe, e, fo, ord; eexists; split; reflexivity. }
    rewrite Ec. rewrite Ho in Eb. exact (encode_bits_ok o pos p c _ n v Eb Hn Hv Hs Hb).
  - assert (exists c, pctx_of (args_of (spelled fe e) None (Some n) (spelled fo ord) []) = Some c /\ bits_of_ctx c = None /\
      bytes_of_ctx (prim_bytes p) c = Some (inherit fe e Little, n, inherit fo ord Msb0)) as (c & Ec & Eb & Ey).
    { destruct fe, e, fo, ord; try (eexists; split; [reflexivity|split; reflexivity]);
        exfalso; (destruct Hi as [Hi|Hi]; [unfold given; first [left; discriminate|right; discriminate]|now apply Hi|now apply Hi]). }
    rewrite Ec. exact (encode_bytes_ok o _ pos p c _ _ v Eb Ey Hn Hv Ho).
Qed.
Lemma field_args_off e ord f ctx fs i j : field_args (i_container e ord) (i_attrs f) ctx fs i = field_args (i_container e ord) (i_attrs f) ctx fs j.
Proof. now rewrite !i_args. Qed.
Lemma args_eqb_refl e ord f ctx fs i : list_eqb value_eqb (field_args (i_container e ord) (i_attrs f) ctx fs i) (field_args (i_container e ord) (i_attrs f) ctx fs i) = true.
Proof.
  rewrite i_args. apply list_eqb_refl. intros x Hx. unfold args_of in Hx. rewrite !in_app_iff in Hx.
  destruct Hx as [Hx|[Hx|[Hx|[Hx|[]]]]].
  - destruct (spelled (i_endian f) e) as [y|]; [|destruct Hx]. destruct Hx as [<-|[]]. apply endian_eqb_refl.
  - destruct (i_size f); try destruct Hx; [subst x; apply Nat.eqb_refl|destruct H].
  - destruct (i_size f); try destruct Hx; [subst x; apply Nat.eqb_refl|destruct H].
  - destruct (spelled (i_order f) ord) as [y|]; [|destruct Hx]. destruct Hx as [<-|[]]. apply order_eqb_refl.
Qed.
Lemma i_wire_length e o f : length (i_wire e o f) = i_bits f.
Proof. apply layout_length. Qed.

Section Layout.
Variables (cu : nat -> custom) (src : source) (o : order) (ce : nat -> list value -> nat -> value -> option (list bool)).
Lemma encode_i_field e ord f ctx fs pos stored nothing : i_fits e ord o pos f ->
  encode_field src o (i_container e ord) (i_attrs f) stored nothing ctx fs pos (VNum (i_val f))
    (fun lim args p => encode src o ce (TPrim (i_type f)) lim args p (VNum (i_val f)))
    (fun lim args p => encode src o ce (TPrim (i_type f)) lim args p (VNum (i_val f))) = Some (i_wire e o f).
Proof.
  intros H. unfold encode_field. cbn [i_attrs a_seek a_reader a_writer a_magic a_pad_before a_pad_after eval0 option_map encode_magic encode_pad length app].
  unfold assertions. cbn [i_attrs a_assert a_assert_eq andb guard a_cond option_map a_skip is_read is_written a_map a_limit].
  rewrite (field_args_off e ord f ctx fs (8 * ((pos + 0 + 0) / 8)) (pos + 0 + 0)), args_eqb_refl. cbn [andb].
  cbn [encode]. rewrite agree_same, !Nat.add_0_r, (encode_i e ord o pos f ctx fs pos H). cbn. now rewrite ?app_nil_r.
Qed.
Lemma encode_i_fields e ord ctx : forall fs stored acc pos, all_fit e ord o pos fs ->
  encode_fields src o ce (i_container e ord) ctx (i_fields fs) None stored (i_values fs) acc pos = Some (concat (map (i_wire e o) fs)).
Proof.
  induction fs as [|f fs IH]; intros stored acc pos H; [reflexivity|]. destruct H as [H1 H2].
  cbn [i_fields i_values map concat]. rewrite encode_cons. cbn [i_attrs a_temp length Nat.eqb negb guard]. unfold field_value, field_rest. cbn [a_temp hd tl].
  change (mkF _ _ _ _ _ _ _ _ _ _ _ _ _ _ _ _ _ _ _ _ _) with (i_attrs f). cbv zeta.
  rewrite (encode_i_field e ord f ctx acc pos _ _ H1). rewrite i_wire_length. change (map (fun f => VNum (i_val f)) fs) with (i_values fs).
  rewrite (IH stored _ _ H2). reflexivity.
Qed.
End Layout.

Lemma wires_fuel e o pos ord fs : all_fit e ord o pos fs -> length (concat (map (i_wire e o) fs)) = list_sum (map i_bits fs).
Proof.
  intros _. induction fs as [|f fs IH]; [reflexivity|]. cbn [map concat list_sum fold_right]. rewrite app_length, i_wire_length, IH. reflexivity.
Qed.
Lemma no_customs_lawful src o : customs_lawful src o no_customs no_format.
Proof. intros k args pos v enc H. discriminate. Qed.

Section LayoutApi.
Variables (cu : nat -> custom) (fuel : nat).
Lemma any_customs src o : customs_lawful src o cu no_format.
Proof. intros k args pos v enc H. discriminate. Qed.
Theorem struct_layout e ord o fs : all_fit e ord o 0 fs -> list_sum (map i_bits fs) <= fuel ->
  exists bytes pad, to_bytes cu (TStruct (i_container e ord) (i_fields fs)) (VRec (i_values fs)) = Ok bytes /\
    bitstring o bytes = concat (map (i_wire e o) fs) ++ repeat false pad /\ pad < 8 /\
    forall tail, exists rest, from_bytes cu fuel (TStruct (i_container e ord) (i_fields fs)) (bytes ++ tail) 0 = Ok (rest, VRec (i_values fs)).
Proof.
  intros H Hf.
  assert (E : encode SeekSource o no_format (TStruct (i_container e ord) (i_fields fs)) None [] 0 (VRec (i_values fs)) = Some (concat (map (i_wire e o) fs))).
  { rewrite encode_struct. cbn [i_container c_seek c_magic encode_magic length]. change (mkC _ _ _ _ _) with (i_container e ord).
    rewrite (encode_i_fields SeekSource o no_format e ord _ fs _ _ _ H). reflexivity. }
  rewrite <- (wires_fuel e o 0 ord fs H) in Hf.
  destruct (round_trip cu fuel o no_format _ _ _ (any_customs _ _) E Hf) as (bytes & pad & E1 & E2 & E3 & E4).
  exists bytes, pad. split; [exact E1|]. split; [exact E2|]. split; [exact E3|]. intros tail. eexists. exact (E4 tail).
Qed.
End LayoutApi.

(** *** Enums *)

Lemma encode_variant_nth src o ce e ctx enc_id sel l pos : forall vs k v fs, nth_variant vs k = Some (v, fs) ->
  encode_variant src o ce e ctx enc_id sel vs k l pos = encode_variant src o ce e ctx enc_id sel (VCons v fs VNil) 0 l pos.
Proof.
  induction vs as [|v0 fs0 tl IH]; intros k v fs H; [destruct k; discriminate|].
  destruct k as [|k]; cbn [nth_variant] in H; [injection H as <- <-; reflexivity|]. exact (IH k v fs H).
Qed.
Lemma chosen_selects vs id k : chosen vs id k -> selects vs id k = true.
Proof.
  intros H. unfold selects. destruct (selected vs id) as [j|] eqn:E.
  - apply selected_chosen in E. rewrite (chosen_unique vs id j k E H). apply Nat.eqb_refl.
  - exfalso. exact (proj1 (selected_none vs id) E k H).
Qed.

Lemma i_id_args e ord f ctx : i_order f = None -> id_args (i_enum_attrs e ord f) ctx = field_args (i_container e ord) (i_attrs f) ctx [] 0.
Proof. intros H. destruct f as [p [x|] fo s v]; cbn [i_order] in H; subst fo; destruct e, ord; reflexivity. Qed.

Theorem enum_layout cu fuel e ord o f vs k sel d fs : i_order f = None -> chosen vs (VNum (i_val f)) k ->
  nth_variant vs k = Some (mkV sel d, i_fields fs) -> sel = SId (VNum (i_val f)) \/ sel = SDisc (VNum (i_val f)) ->
  all_fit e ord o 0 (f :: fs) -> list_sum (map i_bits (f :: fs)) <= fuel ->
  let t := TEnum (i_enum_attrs e ord f) (TPrim (i_type f)) vs in
  exists bytes pad, to_bytes cu t (VVar k (i_values fs)) = Ok bytes /\
    bitstring o bytes = concat (map (i_wire e o) (f :: fs)) ++ repeat false pad /\ pad < 8 /\
    forall tail, exists rest, from_bytes cu fuel t (bytes ++ tail) 0 = Ok (rest, VVar k (i_values fs)).
Proof.
  intros Ho Hc Hn Hs H Hf t. rewrite <- (wires_fuel e o 0 ord (f :: fs) H) in Hf.
  assert (E : encode SeekSource o no_format t None [] 0 (VVar k (i_values fs)) = Some (concat (map (i_wire e o) (f :: fs)))).
  { subst t. rewrite encode_enum. cbn [i_enum_attrs en_c i_container c_magic encode_magic length].
    change (mkC _ _ _ _ _) with (i_container e ord). change (mkE _ _ _ _ _) with (i_enum_attrs e ord f).
    rewrite (encode_variant_nth _ _ _ _ _ _ _ _ _ _ _ _ _ Hn), encode_variant_0. cbn [v_sel]. destruct H as [H1 H2].
    destruct Hs as [->| ->]; cbn [i_enum_attrs en_id en_c]; change (mkE _ _ _ _ _) with (i_enum_attrs e ord f);
      rewrite (chosen_selects _ _ _ Hc); cbn [guard]; rewrite (i_id_args e ord f _ Ho); cbn [encode];
      rewrite Nat.add_0_l, (encode_i e ord o 0 f _ [] 0 H1), i_wire_length, (encode_i_fields SeekSource o no_format e ord _ fs _ _ _ H2); reflexivity. }
  destruct (round_trip cu fuel o no_format _ _ _ (any_customs cu _ _) E Hf) as (bytes & pad & E1 & E2 & E3 & E4).
  exists bytes, pad. split; [exact E1|]. split; [exact E2|]. split; [exact E3|]. intros tail. eexists. exact (E4 tail).
Qed.

(** *** Container attributes written out *)

Section Spelled.
Variables (cu : nat -> custom) (fuel : nat).
Definition spell (c : cattrs) (a : fattrs) : fattrs :=
  mkF (spelled (a_endian a) (c_endian c)) (spelled (a_order a) (c_order c)) (a_bits a) (a_bytes a) (a_ctx a) (a_limit a)
    (a_map a) (a_reader a) (a_writer a) (a_skip a) (a_cond a) (a_default a) (a_assert a) (a_assert_eq a) (a_seek a)
    (a_magic a) (a_pad_before a) (a_pad_after a) (a_temp a) (a_temp_value a) (a_update a).
(** [c'] has the same layout attributes or none. *)
Definition weaker (c c' : cattrs) : Prop :=
  (c_endian c' = c_endian c \/ c_endian c' = None) /\ (c_order c' = c_order c \/ c_order c' = None).
Lemma read_field_spell c c' a b ctx fs rd : weaker c c' -> read_field c' (spell c a) b ctx fs rd = read_field c a b ctx fs rd.
Proof.
  destruct c as [ce co cm cs cd], c' as [ce' co' cm' cs' cd'], a as [ae ao]. intros [H1 H2]. cbn in H1, H2.
  destruct H1 as [->| ->], H2 as [->| ->]; destruct ae, ao, ce, co; reflexivity.
Qed.
Lemma write_field_spell c c' a st ctx fs v wr : weaker c c' -> write_field c' (spell c a) st ctx fs v wr = write_field c a st ctx fs v wr.
Proof.
  destruct c as [ce co cm cs cd], c' as [ce' co' cm' cs' cd'], a as [ae ao]. intros [H1 H2]. cbn in H1, H2.
  destruct H1 as [->| ->], H2 as [->| ->]; destruct ae, ao, ce, co; reflexivity.
Qed.
Lemma read_spelled c c' ctx : weaker c c' -> forall fs id acc r,
  fields_read cu fuel c' ctx (spell_out c fs) id acc r = fields_read cu fuel c ctx fs id acc r.
Proof.
  intros Hw. induction fs as [|a t wire tl IH]; intros id acc r; [reflexivity|]. cbn [spell_out]. fold (spell c a). rewrite !read_cons.
  rewrite (read_field_spell c c' a _ _ _ _ Hw). apply bind_ext. intros v r1 _. apply bind_cong. apply IH.
Qed.
Lemma write_spelled c c' ctx st : weaker c c' -> forall fs id todo acc w,
  fields_write cu c' ctx (spell_out c fs) id st todo acc w = fields_write cu c ctx fs id st todo acc w.
Proof.
  intros Hw. induction fs as [|a t wire tl IH]; intros id todo acc w; [reflexivity|]. cbn [spell_out]. fold (spell c a). rewrite !write_cons.
  rewrite (write_field_spell c c' a _ _ _ _ _ Hw). apply bind_ext. intros v r1 _. apply IH.
Qed.
Lemma weaker_refl c : weaker c c.
Proof. split; now left. Qed.
Lemma weaker_without c : weaker c (without_layout c).
Proof. split; now right. Qed.
Theorem struct_spelled c fs args : 
  (forall lim r, read_ty cu fuel (TStruct (without_layout c) (spell_out c fs)) lim args r = read_ty cu fuel (TStruct c fs) lim args r) /\
  (forall v w, write_ty cu (TStruct (without_layout c) (spell_out c fs)) args v w = write_ty cu (TStruct c fs) args v w).
Proof.
  split.
  - intros lim r. rewrite !read_struct. change (ctx_args (without_layout c) args) with (ctx_args c args). cbn [without_layout c_seek c_magic].
    apply bind_ext. intros _ r1 _. apply bind_ext. intros _ r2 _. apply bind_cong. apply (read_spelled c (without_layout c) _ (weaker_without c)).
  - intros v w. destruct v; try reflexivity. rewrite !write_struct. change (ctx_args (without_layout c) args) with (ctx_args c args). cbn [without_layout c_seek c_magic].
    apply bind_ext. intros _ r1 _. apply bind_ext. intros _ r2 _. apply (write_spelled c (without_layout c) _ _ (weaker_without c)).
Qed.
Lemma variants_read_spelled e ctx id : forall vs k d d' r,
  match d, d' with Some m, Some m' => forall r, m r = m' r | None, None => True | _, _ => False end ->
  variants_read cu fuel e ctx id (spell_out_variants (en_c e) vs) k d r = variants_read cu fuel e ctx id vs k d' r.
Proof.
  induction vs as [|v fs tl IH]; intros k d d' r Hd.
  - cbn [spell_out_variants variants_read]. destruct d, d'; try destruct Hd; auto.
  - cbn [spell_out_variants]. rewrite !read_variant. cbv zeta.
    assert (HB : forall i r, (let* l := fields_read cu fuel (en_c e) ctx (spell_out (en_c e) fs) i [] in ret (VVar k l)) r =
                             (let* l := fields_read cu fuel (en_c e) ctx fs i [] in ret (VVar k l)) r).
    { intros i r0. apply bind_cong. apply (read_spelled (en_c e) (en_c e) _ (weaker_refl _)). }
    destruct (matches (v_sel v) id); [apply HB|]. apply IH.
    destruct d, d'; try destruct Hd; auto. destruct (v_default v); [intros r0; apply HB|exact I].
Qed.
Lemma variant_write_spelled e ctx wid l : forall vs k w,
  variant_write cu e ctx wid (spell_out_variants (en_c e) vs) k l w = variant_write cu e ctx wid vs k l w.
Proof.
  induction vs as [|v fs tl IH]; intros k w; [reflexivity|]. cbn [spell_out_variants]. destruct k as [|k]; [|apply IH].
  rewrite !write_variant_0.
  assert (HI : write_id e v (spell_out (en_c e) fs) ctx wid = write_id e v fs ctx wid) by (destruct fs; reflexivity).
  rewrite HI. apply bind_ext. intros _ w1 _. apply (write_spelled (en_c e) (en_c e) _ _ (weaker_refl _)).
Qed.
Theorem enum_spelled e idt vs args : 
  (forall lim r, read_ty cu fuel (TEnum e idt (spell_out_variants (en_c e) vs)) lim args r = read_ty cu fuel (TEnum e idt vs) lim args r) /\
  (forall v w, write_ty cu (TEnum e idt (spell_out_variants (en_c e) vs)) args v w = write_ty cu (TEnum e idt vs) args v w).
Proof.
  split.
  - intros lim r. rewrite !read_enum. apply bind_ext. intros _ r1 _. apply bind_ext. intros id r2 _. now apply variants_read_spelled.
  - intros v w. destruct v; try reflexivity. rewrite !write_enum. apply bind_ext. intros _ r1 _. apply variant_write_spelled.
Qed.

(** ** Context *)

Definition same_layout (c c' : cattrs) : Prop := c_endian c' = c_endian c /\ c_order c' = c_order c.
Lemma read_same c c' ctx : same_layout c c' -> forall fs id acc r, fields_read cu fuel c' ctx fs id acc r = fields_read cu fuel c ctx fs id acc r.
Proof.
  intros [H1 H2]. destruct c as [ce co cm cs cd], c' as [ce' co' cm' cs' cd']. cbn in H1, H2. subst.
  induction fs as [|a t wire tl IH]; intros id acc r; [reflexivity|]. rewrite !read_cons. apply bind_ext. intros v r1 _. apply bind_cong. apply IH.
Qed.
Lemma write_same c c' ctx st : same_layout c c' -> forall fs id todo acc w, fields_write cu c' ctx fs id st todo acc w = fields_write cu c ctx fs id st todo acc w.
Proof.
  intros [H1 H2]. destruct c as [ce co cm cs cd], c' as [ce' co' cm' cs' cd']. cbn in H1, H2. subst.
  induction fs as [|a t wire tl IH]; intros id todo acc w; [reflexivity|]. rewrite !write_cons. apply bind_ext. intros v r1 _. apply IH.
Qed.
Lemma same_without c : same_layout (without_default c) c.
Proof. split; reflexivity. Qed.
Lemma ctx_args_without c args : ctx_args (without_default c) args = args.
Proof. now destruct args. Qed.
Lemma struct_ctx c fs args d : ctx_args c args = d ->
  (forall lim r, read_ty cu fuel (TStruct c fs) lim args r = read_ty cu fuel (TStruct (without_default c) fs) lim d r) /\
  (forall v w, write_ty cu (TStruct c fs) args v w = write_ty cu (TStruct (without_default c) fs) d v w).
Proof.
  intros <-. split.
  - intros lim r. rewrite !read_struct, ctx_args_without. cbn [without_default c_seek c_magic].
    apply bind_ext. intros _ r1 _. apply bind_ext. intros _ r2 _. apply bind_cong. apply (read_same _ _ _ (same_without c)).
  - intros v w. destruct v; try reflexivity. rewrite !write_struct, ctx_args_without. cbn [without_default c_seek c_magic].
    apply bind_ext. intros _ r1 _. apply bind_ext. intros _ r2 _. apply (write_same _ _ _ _ (same_without c)).
Qed.
Lemma variants_read_without e ctx id : forall vs k d d' r,
  match d, d' with Some m, Some m' => forall r, m r = m' r | None, None => True | _, _ => False end ->
  variants_read cu fuel e ctx id vs k d r = variants_read cu fuel (enum_without_default e) ctx id vs k d' r.
Proof.
  induction vs as [|v fs tl IH]; intros k d d' r Hd.
  - cbn [variants_read]. destruct d, d'; try destruct Hd; auto.
  - rewrite !read_variant. cbv zeta. change (stores_id (enum_without_default e) v) with (stores_id e v).
    assert (HB : forall i r, (let* l := fields_read cu fuel (en_c e) ctx fs i [] in ret (VVar k l)) r =
                             (let* l := fields_read cu fuel (en_c (enum_without_default e)) ctx fs i [] in ret (VVar k l)) r).
    { intros i r0. apply bind_cong. apply (read_same _ _ _ (same_without (en_c e))). }
    destruct (matches (v_sel v) id); [apply HB|]. apply IH.
    destruct d, d'; try destruct Hd; auto. destruct (v_default v); [intros r0; apply HB|exact I].
Qed.
Lemma variant_write_without e ctx wid l : forall vs k w,
  variant_write cu e ctx wid vs k l w = variant_write cu (enum_without_default e) ctx wid vs k l w.
Proof.
  induction vs as [|v fs tl IH]; intros k w; [reflexivity|]. destruct k as [|k]; [|apply IH].
  rewrite !write_variant_0. change (write_id (enum_without_default e) v fs ctx wid) with (write_id e v fs ctx wid).
  apply bind_ext. intros _ w1 _. apply (write_same _ _ _ _ (same_without (en_c e))).
Qed.
Lemma enum_ctx e idt vs args d : ctx_args (en_c e) args = d ->
  (forall lim r, read_ty cu fuel (TEnum e idt vs) lim args r = read_ty cu fuel (TEnum (enum_without_default e) idt vs) lim d r) /\
  (forall v w, write_ty cu (TEnum e idt vs) args v w = write_ty cu (TEnum (enum_without_default e) idt vs) d v w).
Proof.
  intros <-. split.
  - intros lim r. rewrite !read_enum. cbn [enum_without_default en_c en_id]. rewrite ctx_args_without. cbn [without_default c_magic].
    apply bind_ext. intros _ r1 _. change (id_args (mkE _ _ _ _ _)) with (id_args e). apply bind_ext. intros id r2 _. now apply variants_read_without.
  - intros v w. destruct v; try reflexivity. rewrite !write_enum. cbn [enum_without_default en_c]. rewrite ctx_args_without. cbn [without_default c_magic].
    apply bind_ext. intros _ r1 _. apply variant_write_without.
Qed.
Lemma args_default c d : c_ctx_default c = Some d -> ctx_args c [] = d.
Proof. unfold ctx_args. now intros ->. Qed.
Lemma args_given c args : args <> [] -> ctx_args c args = args.
Proof. destruct args; [congruence|reflexivity]. Qed.

(** Passing the context to a field. *)
Lemma fields_read_app c ctx gs : forall fs acc, all_fields (fun a => a_temp a = false) fs -> forall r l r',
  fields_read cu fuel c ctx (fapp fs gs) None acc r = (Ok l, r') <->
  exists l1 l2 r1, fields_read cu fuel c ctx fs None acc r = (Ok l1, r1) /\ fields_read cu fuel c ctx gs None (acc ++ l1) r1 = (Ok l2, r') /\ l = l1 ++ l2.
Proof.
  induction fs as [|a t wire tl IH]; intros acc Ht r l r'.
  - cbn [fapp fields_read]. split.
    + intros H. exists [], l, r. rewrite app_nil_r. auto.
    + intros (l1 & l2 & r1 & H1 & H2 & ->). apply pair_inj in H1. destruct H1 as [H1 <-]. apply ok_inj in H1. subst l1. rewrite app_nil_r in H2. exact H2.
  - destruct Ht as [Ha Ht]. cbn [fapp]. rewrite !read_cons, Ha. split.
    + intros H. apply bind_inv in H. destruct H as (v & r1 & Hv & H). apply bind_inv in H. destruct H as (vs & r2 & Hvs & H).
      apply pair_inj in H. destruct H as [H <-]. apply ok_inj in H. subst l.
      apply (IH _ Ht) in Hvs. destruct Hvs as (l1 & l2 & r3 & H1 & H2 & ->). exists (v :: l1), l2, r3.
      split; [rewrite (bind_ok _ _ _ _ _ Hv), (bind_ok _ _ _ _ _ H1); reflexivity|]. split; [|reflexivity]. rewrite <- app_assoc in H2. exact H2.
    + intros (l1 & l2 & r1 & H1 & H2 & ->). apply bind_inv in H1. destruct H1 as (v & r2 & Hv & H1). apply bind_inv in H1. destruct H1 as (vs & r3 & Hvs & H1).
      apply pair_inj in H1. destruct H1 as [H1 <-]. apply ok_inj in H1. subst l1.
      rewrite (bind_ok _ _ _ _ _ Hv). rewrite (bind_ok _ _ _ (vs ++ l2) r'); [reflexivity|].
      apply (IH _ Ht). exists vs, l2, r3. split; [exact Hvs|]. split; [rewrite <- app_assoc; exact H2|reflexivity].
Qed.
Lemma read_field_ctx c f b ctx fs rd r : c_endian c = None -> c_order c = None ->
  read_field c (ctx_only f) b ctx fs rd r = rd None (f ctx fs (r_bits r)) r.
Proof.
  destruct c as [ce co cm cs cd]. cbn [c_endian c_order]. intros -> ->. unfold read_field.
  cbn [ctx_only a_seek a_magic a_pad_before a_pad_after option_map read_seek read_magic eval0 read_pad].
  rewrite !bind_ret_l. unfold field_read_tokens, field_read_normal, field_read_func. cbn [ctx_only a_skip a_cond a_reader a_limit a_map].
  unfold field_args, field_order, args_of. cbn [ctx_only c_endian c_order a_endian a_order a_bits a_bytes a_ctx or_else eval0 option_map opt_list app].
  unfold bind, asserts. cbn [ctx_only a_assert a_assert_eq]. destruct (rd None (f ctx fs (r_bits r)) r) as [[]]; reflexivity.
Qed.
Lemma fields_read_count c ctx : forall pre acc r l r', all_fields (fun a => a_temp a = false) pre ->
  fields_read cu fuel c ctx pre None acc r = (Ok l, r') -> length l = stored_count pre.
Proof.
  induction pre as [|a t0 w tl0 IH]; intros acc r l r' Ht H1.
  - cbn [fields_read] in H1. apply pair_inj in H1. destruct H1 as [H1 _]. apply ok_inj in H1. subst l. reflexivity.
  - rewrite read_cons in H1. destruct Ht as [Ha Ht]. rewrite Ha in H1. apply bind_inv in H1. destruct H1 as (v1 & r7 & _ & H1). apply bind_inv in H1.
    destruct H1 as (vs & r8 & H1 & H2). apply pair_inj in H2. destruct H2 as [H2 _]. apply ok_inj in H2. subst l. cbn [stored_count length]. rewrite Ha. f_equal. exact (IH _ _ _ _ Ht H1).
Qed.
Theorem ctx_passed c pre f t tl args r l r' : c_endian c = None -> c_order c = None -> all_fields (fun a => a_temp a = false) pre ->
  read_ty cu fuel (TStruct c (fapp pre (FCons (ctx_only f) t t tl))) None args r = (Ok (VRec l), r') ->
  exists before v after r1 r2, l = before ++ v :: after /\ length before = stored_count pre /\
    read_ty cu fuel t None (f (ctx_args c args) before (r_bits r1)) r1 = (Ok v, r2).
Proof.
  intros He Ho Ht H. rewrite read_struct in H. apply bind_inv in H. destruct H as (? & r1 & _ & H). apply bind_inv in H. destruct H as (? & r2 & _ & H).
  apply bind_inv in H. destruct H as (vs & r3 & Hvs & H). apply pair_inj in H. destruct H as [H <-]. apply ok_inj in H. injection H as <-.
  apply (fields_read_app _ _ _ _ _ Ht) in Hvs. destruct Hvs as (l1 & l2 & r4 & H1 & H2 & ->).
  rewrite read_cons in H2. apply bind_inv in H2. destruct H2 as (v & r5 & Hv & H2). apply bind_inv in H2. destruct H2 as (vs & r6 & Hvs & H2).
  cbn [ctx_only a_temp] in H2. apply pair_inj in H2. destruct H2 as [H2 _]. apply ok_inj in H2. subst l2.
  cbn [ctx_only a_reader] in Hv. change (mkF _ _ _ _ _ _ _ _ _ _ _ _ _ _ _ _ _ _ _ _ _) with (ctx_only f) in Hv. rewrite (read_field_ctx c f _ _ _ _ _ He Ho) in Hv.
  exists l1, v, vs, r4, r5. split; [reflexivity|]. split; [|exact Hv]. exact (fields_read_count _ _ _ _ _ _ _ Ht H1).
Qed.

Lemma write_field_ctx c f st ctx fs v wr w : c_endian c = None -> c_order c = None ->
  write_field c (ctx_only f) st ctx fs v wr w = wr (f ctx fs (w_bits w)) v w.
Proof.
  destruct c as [ce co cm cs cd]. cbn [c_endian c_order]. intros -> ->. unfold write_field.
  cbn [ctx_only a_seek a_magic a_pad_before a_pad_after option_map write_seek eval0 write_pad]. unfold write_magic. cbn [map write_list].
  rewrite !bind_ret_l. unfold field_write_tokens, field_write_func. cbn [ctx_only a_skip a_cond a_writer a_temp].
  unfold field_args, field_order, args_of. cbn [ctx_only c_endian c_order a_endian a_order a_bits a_bytes a_ctx or_else eval0 option_map opt_list app].
  unfold bind, asserts. cbn [ctx_only a_assert a_assert_eq]. unfold bind, ret. destruct (wr (f ctx fs (w_bits w)) v w) as [[[]|e| |] w1]; reflexivity.
Qed.
Lemma fields_write_app c ctx gs st : forall fs todo acc, all_fields (fun a => a_temp a = false) fs -> stored_count fs <= length todo -> forall w w',
  fields_write cu c ctx (fapp fs gs) None st todo acc w = (Ok tt, w') ->
  exists w1, fields_write cu c ctx gs None st (skipn (stored_count fs) todo) (acc ++ firstn (stored_count fs) todo) w1 = (Ok tt, w').
Proof.
  induction fs as [|a t wire fs IH]; intros todo acc Ht Hl w w' H.
  - exists w. cbn [stored_count skipn firstn]. rewrite app_nil_r. exact H.
  - destruct Ht as [Ha Ht]. cbn [fapp] in H. rewrite write_cons in H. apply bind_inv in H. destruct H as (? & w1 & _ & H).
    cbn [stored_count] in *. rewrite Ha in *. destruct todo as [|v todo]; [cbn [length] in Hl; lia|]. unfold field_value, field_rest in H. rewrite Ha in H. cbn [hd tl] in H.
    cbn [length] in Hl. destruct (IH todo (acc ++ [v]) Ht ltac:(lia) _ _ H) as (w2 & H2). exists w2. cbn [skipn firstn]. rewrite <- app_assoc in H2. exact H2.
Qed.
Theorem ctx_passed_write c pre f t tl args before v after w w' : c_endian c = None -> c_order c = None -> all_fields (fun a => a_temp a = false) pre ->
  length before = stored_count pre ->
  write_ty cu (TStruct c (fapp pre (FCons (ctx_only f) t t tl))) args (VRec (before ++ v :: after)) w = (Ok tt, w') ->
  exists w1 w2, write_ty cu t (f (ctx_args c args) before (w_bits w1)) v w1 = (Ok tt, w2).
Proof.
  intros He Ho Ht Hl H. rewrite write_struct in H. apply bind_inv in H. destruct H as (? & w1 & _ & H). apply bind_inv in H. destruct H as (? & w2 & _ & H).
  apply fields_write_app in H; [|exact Ht|rewrite app_length; lia]. destruct H as (w3 & H).
  rewrite <- Hl, skipn_app, firstn_app, Nat.sub_diag, skipn_all, firstn_all in H. cbn [skipn firstn app] in H. rewrite app_nil_r in H. rewrite write_cons in H.
  apply bind_inv in H. destruct H as ([] & w4 & H & _). rewrite (write_field_ctx c f _ _ _ _ _ _ He Ho) in H.
  exists w3, w4. exact H.
Qed.

(** ** Temporary fields *)

Definition keep (a : fattrs) : fattrs :=
  mkF (a_endian a) (a_order a) (a_bits a) (a_bytes a) (a_ctx a) (a_limit a)
    (a_map a) (a_reader a) (a_writer a) (a_skip a) (a_cond a) (a_default a) (a_assert a) (a_assert_eq a) (a_seek a)
    (a_magic a) (a_pad_before a) (a_pad_after a) false None (a_update a).
Lemma kept_read c ctx : forall fs id acc r,
  fields_read cu fuel c ctx fs id acc r = (let* vs := fields_read cu fuel c ctx (kept fs) id acc in ret (stored_of fs vs)) r.
Proof.
  induction fs as [|a t wire tl IH]; intros id acc r; [reflexivity|]. cbn [kept]. fold (keep a). rewrite !read_cons, bind_assoc.
  change (a_reader (keep a)) with (a_reader a).
  change (read_field c (keep a)) with (read_field c a). apply bind_ext. intros v r1 _.
  rewrite bind_assoc. unfold bind at 1. rewrite IH. unfold bind. destruct (fields_read cu fuel c ctx (kept tl) None (acc ++ [v]) r1) as [[vs|e| |] r2]; try reflexivity.
Qed.
Theorem struct_kept_read c fs lim args r :
  read_ty cu fuel (TStruct c fs) lim args r =
  (let* v := read_ty cu fuel (TStruct c (kept fs)) lim args in
   ret (match v with VRec vs => VRec (stored_of fs vs) | _ => v end)) r.
Proof.
  rewrite !read_struct. rewrite !bind_assoc. apply bind_ext. intros _ r1 _. rewrite bind_assoc. apply bind_ext. intros _ r2 _. rewrite bind_assoc.
  unfold bind. rewrite kept_read. unfold bind. destruct (fields_read cu fuel c (ctx_args c args) (kept fs) None [] r2) as [[vs|e| |] r3]; reflexivity.
Qed.
Lemma bind_both {S A B} (m1 m2 : ST S A) (f g : A -> ST S B) s : m1 s = m2 s -> (forall a s', f a s' = g a s') -> bind m1 f s = bind m2 g s.
Proof. intros H1 H2. unfold bind. rewrite H1. destruct (m2 s) as [[]]; auto. Qed.
Lemma kept_write c ctx st st' : forall fs todo acc vs, filled st ctx fs todo acc vs -> all_fields (fun a => a_writer a = None) fs -> forall id w,
  fields_write cu c ctx fs id st todo acc w = fields_write cu c ctx (kept fs) id st' vs acc w.
Proof.
  induction 1 as [acc|a t wire fs v l acc vs Ha HF IH|a t wire fs f l acc vs Ha Hf HF IH]; intros HW id w; [reflexivity| |]; destruct HW as [Hw HW];
    cbn [kept]; fold (keep a); rewrite !write_cons; unfold field_value, field_rest; rewrite Ha; cbn [keep a_temp hd tl].
  - apply bind_both; [|intros ? ?; apply (IH HW)]. destruct id; [reflexivity|]. unfold write_field.
    apply bind_ext. intros _ w1 _. apply bind_ext. intros _ w2 _. apply bind_ext. intros _ w3 _. apply bind_ext. intros _ w4 _.
    apply bind_cong. unfold field_write_tokens, field_write_func. cbn [keep a_skip a_cond a_writer a_temp]. rewrite Ha, Hw. reflexivity.
  - rewrite Hf. apply bind_both; [|intros ? ?; apply (IH HW)]. destruct id; [reflexivity|]. unfold write_field.
    apply bind_ext. intros _ w1 _. apply bind_ext. intros _ w2 _. apply bind_ext. intros _ w3 _. apply bind_ext. intros _ w4 _.
    apply bind_cong. unfold field_write_tokens, field_write_func. cbn [keep a_skip a_cond a_writer a_temp]. rewrite Ha, Hw, Hf. reflexivity.
Qed.
Theorem struct_kept_write c fs args l vs w : filled l (ctx_args c args) fs l [] vs -> all_fields (fun a => a_writer a = None) fs ->
  write_ty cu (TStruct c fs) args (VRec l) w = write_ty cu (TStruct c (kept fs)) args (VRec vs) w.
Proof.
  intros HF HW. rewrite !write_struct. apply bind_ext. intros _ w1 _. apply bind_ext. intros _ w2 _. exact (kept_write _ _ _ _ _ _ _ _ HF HW None w2).
Qed.
End Spelled.

(** ** Updates *)

Lemma updates_ok : forall fs pre todo l, length todo = length (updates_of fs) ->
  update_fields fs pre todo = Ok l <->
  exists l', l = pre ++ l' /\ length l' = length todo /\
    forall i u, nth_error (updates_of fs) i = Some u ->
      match u with
      | None => nth_error l' i = nth_error todo i
      | Some f => exists x, f (pre ++ firstn i l' ++ skipn i todo) = Ok x /\ nth_error l' i = Some x
      end.
Proof.
  induction fs as [|a t wire fs IH]; intros pre todo l Hl; cbn [updates_of update_fields] in *.
  - destruct todo; [|discriminate]. split.
    + intros H. apply ok_inj in H. exists []. rewrite app_nil_r in *. split; [now symmetry|]. split; [reflexivity|]. intros [|i] u H1; discriminate.
    + intros (l' & -> & H & _). destruct l'; [reflexivity|discriminate].
  - destruct (a_temp a) eqn:Ha; [now apply IH|]. destruct todo as [|v todo]; [discriminate|]. cbn [length] in Hl. apply eq_add_S in Hl.
    assert (HC : forall x, update_fields fs (pre ++ [x]) todo = Ok l <->
      exists l', l = pre ++ x :: l' /\ length l' = length todo /\
        forall i u, nth_error (updates_of fs) i = Some u ->
          match u with
          | None => nth_error l' i = nth_error todo i
          | Some f => exists y, f (pre ++ x :: firstn i l' ++ skipn i todo) = Ok y /\ nth_error l' i = Some y
          end).
    { intros x. rewrite (IH (pre ++ [x]) todo l Hl). split; intros (l' & -> & H1 & H2); exists l'; (split; [now rewrite <- app_assoc|]); (split; [exact H1|]);
        intros i u Hu; specialize (H2 i u Hu); destruct u; [|exact H2| |exact H2]; destruct H2 as (y & Hy & Hn); exists y; rewrite <- app_assoc in *; auto. }
    assert (HT : forall x, (exists l', l = pre ++ x :: l' /\ length l' = length todo /\
        forall i u, nth_error (updates_of fs) i = Some u ->
          match u with
          | None => nth_error l' i = nth_error todo i
          | Some f => exists y, f (pre ++ x :: firstn i l' ++ skipn i todo) = Ok y /\ nth_error l' i = Some y
          end) <->
      exists l', l = pre ++ x :: l' /\ length (x :: l') = length (v :: todo) /\
        forall i u, nth_error (updates_of fs) i = Some u ->
          match u with
          | None => nth_error (x :: l') (S i) = nth_error (v :: todo) (S i)
          | Some f => exists y, f (pre ++ firstn (S i) (x :: l') ++ skipn (S i) (v :: todo)) = Ok y /\ nth_error (x :: l') (S i) = Some y
          end).
    { intros x. split; intros (l' & H1 & H2 & H3); exists l'; (split; [exact H1|]); (split; [cbn [length] in *; lia|exact H3]). }
    destruct (a_update a) as [f|] eqn:Hu.
    + split.
      * intros H. unfold res_bind in H. destruct (f (pre ++ v :: todo)) as [x|e| |] eqn:Ef; try discriminate.
        apply HC, HT in H. destruct H as (l' & H1 & H2 & H3). exists (x :: l'). split; [exact H1|]. split; [exact H2|].
        intros [|i] u Hi; cbn [nth_error] in Hi; [|exact (H3 i u Hi)]. injection Hi as <-. exists x. split; [exact Ef|reflexivity].
      * intros (l' & H1 & H2 & H3). destruct (H3 0 (Some f) eq_refl) as (x & Hx & Hn). cbn [firstn skipn app] in Hx. rewrite Hx. cbn [res_bind].
        destruct l' as [|y l']; [discriminate|]. cbn [nth_error] in Hn. injection Hn as ->. apply HC, HT. exists l'. split; [exact H1|]. split; [exact H2|].
        intros i u Hi. exact (H3 (S i) u Hi).
    + split.
      * intros H. apply HC, HT in H. destruct H as (l' & H1 & H2 & H3). exists (v :: l'). split; [exact H1|]. split; [exact H2|].
        intros [|i] u Hi; cbn [nth_error] in Hi; [|exact (H3 i u Hi)]. injection Hi as <-. reflexivity.
      * intros (l' & H1 & H2 & H3). pose proof (H3 0 None eq_refl) as Hn. destruct l' as [|y l']; [discriminate|]. cbn [nth_error] in Hn. injection Hn as ->.
        apply HC, HT. exists l'. split; [exact H1|]. split; [exact H2|]. intros i u Hi. exact (H3 (S i) u Hi).
Qed.
Lemma updates_err : forall fs pre todo e, length todo = length (updates_of fs) -> update_fields fs pre todo = Err e ->
  exists i f l', nth_error (updates_of fs) i = Some (Some f) /\ length l' = i /\ f (pre ++ l' ++ skipn i todo) = Err e.
Proof.
  induction fs as [|a t wire fs IH]; intros pre todo e Hl H; cbn [updates_of update_fields] in *; [discriminate|].
  destruct (a_temp a) eqn:Ha; [now apply IH|]. destruct todo as [|v todo]; [discriminate|]. cbn [length] in Hl. apply eq_add_S in Hl.
  assert (HC : forall x, update_fields fs (pre ++ [x]) todo = Err e ->
    exists i f l', nth_error (a_update a :: updates_of fs) i = Some (Some f) /\ length l' = i /\ f (pre ++ l' ++ skipn i (v :: todo)) = Err e).
  { intros x Hx. destruct (IH _ _ _ Hl Hx) as (i & f & l' & H1 & H2 & H3). exists (S i), f, (x :: l'). split; [exact H1|]. split; [cbn [length]; lia|].
    rewrite <- app_assoc in H3. exact H3. }
  destruct (a_update a) as [f|] eqn:Hu; [|now apply (HC v)].
  unfold res_bind in H. destruct (f (pre ++ v :: todo)) as [x|e'| |] eqn:Ef; try discriminate; [now apply (HC x)|].
  injection H as <-. exists 0, f, []. split; [reflexivity|]. split; [reflexivity|exact Ef].
Qed.
Lemma updated_fields fs l l' : length l = length (updates_of fs) -> update_fields fs [] l = Ok l' <-> updated (updates_of fs) l l'.
Proof.
  intros Hl. rewrite (updates_ok fs [] l l' Hl). unfold updated. cbn [app]. split.
  - intros (l0 & -> & H). exact H.
  - intros H. exists l'. split; [reflexivity|exact H].
Qed.
Theorem update_struct c fs l l' : length l = length (updates_of fs) ->
  update (TStruct c fs) (VRec l) = Ok (VRec l') <-> updated (updates_of fs) l l'.
Proof.
  intros Hl. rewrite <- (updated_fields fs l l' Hl). cbn [update]. unfold res_map. destruct (update_fields fs [] l) as [x|e| |]; try (split; discriminate).
  split; intros H; injection H as <-; reflexivity.
Qed.
Theorem update_enum e idt vs k v fs l l' : nth_variant vs k = Some (v, fs) -> length l = length (updates_of fs) ->
  update (TEnum e idt vs) (VVar k l) = Ok (VVar k l') <-> updated (updates_of fs) l l'.
Proof.
  intros Hk Hl. rewrite <- (updated_fields fs l l' Hl). cbn [update]. rewrite Hk. unfold res_map. destruct (update_fields fs [] l) as [x|e0| |]; try (split; discriminate).
  split; intros H; injection H as <-; reflexivity.
Qed.
Theorem update_fails c fs l e : length l = length (updates_of fs) -> update (TStruct c fs) (VRec l) = Err e ->
  exists i f l', nth_error (updates_of fs) i = Some (Some f) /\ length l' = i /\ f (l' ++ skipn i l) = Err e.
Proof.
  intros Hl H. cbn [update] in H. unfold res_map in H. destruct (update_fields fs [] l) as [x|e0| |] eqn:E; try discriminate. injection H as ->.
  exact (updates_err fs [] l e Hl E).
Qed.
Theorem update_idempotent us l l' : length l = length us -> (forall i f, nth_error us i = Some (Some f) -> independent us f) ->
  updated us l l' -> updated us l' l'.
Proof.
  intros Hl HI [Hn HU]. split; [reflexivity|]. intros i u Hu. specialize (HU i u Hu) as HUi. destruct u as [f|]; [|reflexivity].
  destruct HUi as (x & Hx & Hx'). exists x. split; [|exact Hx']. rewrite <- Hx.
  assert (Hi : i < length us) by (apply nth_error_Some; congruence).
  apply (HI i f Hu); [rewrite app_length, firstn_length, skipn_length; lia|rewrite app_length, firstn_length, skipn_length; lia|].
  intros j Hj. rewrite firstn_skipn.
  destruct (Nat.lt_ge_cases j i) as [Hji|Hji].
  - rewrite nth_error_app1 by (rewrite firstn_length; lia). rewrite <- (firstn_skipn i l') at 1. rewrite nth_error_app1 by (rewrite firstn_length; lia). reflexivity.
  - rewrite nth_error_app2 by (rewrite firstn_length; lia). rewrite firstn_length, Nat.min_l by lia.
    specialize (HU j None Hj). cbn in HU. rewrite HU. rewrite <- (firstn_skipn i l) at 1. rewrite nth_error_app2 by (rewrite firstn_length; lia).
    rewrite firstn_length, Nat.min_l by lia. reflexivity.
Qed.
Lemma counted_encode e ord o k p size t items es :
  is_vec_u8 (TVec k size t) = false -> 0 < prim_bytes p -> slot_size k size <> 0%N -> distinct k items = true ->
  (N.of_nat (length items) < 2 ^ N.of_nat (prim_width p))%N -> (N.of_nat (length items) * slot_size k size <= isize_max)%N ->
  encode_list (fun pos x => encode SeekSource o no_format t None (opt_list (option_map VEnd e) ++ opt_list (option_map VOrd ord)) pos x) (prim_width p) items = Some es ->
  exists enc, encode SeekSource o no_format (counted k (i_container e ord) p size t) None [] 0 (VRec [VNum (N.of_nat (length items)); VList items]) = Some enc /\
    length enc = prim_width p + length (concat es).
Proof.
  intros Ht Hp Hz Hd Hl Hs He.
  set (f := mkI p None None Whole (N.of_nat (length items))).
  assert (HF : i_fits e ord o 0 f).
  { unfold i_fits, i_bits, f. cbn [i_size i_type i_val]. unfold prim_width in *. split; [lia|]. split; [exact Hl|]. split; [right; now right|]. split; [left; reflexivity|exact I]. }
  exists (i_wire e o f ++ concat es). split; [|rewrite app_length, i_wire_length; reflexivity].
  unfold counted. rewrite encode_struct. cbn [i_container c_seek c_magic encode_magic length]. change (mkC _ _ _ _ _) with (i_container e ord).
    rewrite encode_cons. cbn [updating a_temp length Nat.eqb negb guard]. unfold field_value, field_rest. cbn [updating a_temp hd tl]. cbv zeta.
    match goal with |- context [encode_field SeekSource o (i_container e ord) ?a ?s ?nt ?ctx ?fs ?pos _ ?x ?y] =>
      change (encode_field SeekSource o (i_container e ord) a s nt ctx fs pos (VNum (N.of_nat (length items))) x y) with
        (encode_field SeekSource o (i_container e ord) (i_attrs f) s nt ctx fs pos (VNum (i_val f))
    (fun lim args p => encode SeekSource o no_format (TPrim (i_type f)) lim args p (VNum (i_val f)))
    (fun lim args p => encode SeekSource o no_format (TPrim (i_type f)) lim args p (VNum (i_val f)))) end.
    change (0 + 0) with 0. rewrite (encode_i_field SeekSource o no_format e ord f _ _ _ _ _ HF), i_wire_length.
    rewrite encode_cons. cbn [counting a_temp length Nat.eqb negb guard]. unfold field_value, field_rest. cbn [counting a_temp hd tl]. cbv zeta.
    unfold encode_field. cbn [counting a_seek a_reader a_writer a_magic a_pad_before a_pad_after eval0 option_map encode_magic encode_pad length app].
    unfold assertions. cbn [counting a_assert a_assert_eq andb guard a_cond option_map a_skip is_read is_written a_map a_limit].
    assert (HA : forall off, field_args (i_container e ord) (counting (fun _ fs _ => num_at fs 0)) (ctx_args (i_container e ord) []) [VNum (N.of_nat (length items))] off =
      opt_list (option_map VEnd e) ++ opt_list (option_map VOrd ord)).
    { intros off. destruct e, ord; reflexivity. }
    change (mkF _ _ _ _ _ _ _ _ _ _ _ _ _ _ _ _ _ _ _ _ _) with (counting (fun _ fs _ => num_at fs 0)). rewrite !HA.
    replace (list_eqb value_eqb (opt_list (option_map VEnd e) ++ opt_list (option_map VOrd ord)) (opt_list (option_map VEnd e) ++ opt_list (option_map VOrd ord))) with true
      by (destruct e as [[]|], ord as [[]|]; reflexivity).
    unfold eval_limit. cbn [num_at nth]. unfold num_at. cbn [nth]. unfold to_usize.
    assert (HU : (N.of_nat (length items) <= usize_max)%N) by (unfold isize_max, usize_max in *; nia).
    replace ((Z.of_N (N.of_nat (length items)) <? 0)%Z || (Z.of_N usize_max <? Z.of_N (N.of_nat (length items)))%Z)%bool with false by lia.
    rewrite N2Z.id. cbn [andb].
    rewrite Ht.
    rewrite agree_same. cbn [encode]. rewrite !Nat.add_0_r. unfold i_bits, f at 1. cbn [i_size i_type]. rewrite Nat.add_0_l.
    change (prim_width (i_type f)) with (prim_width p).
    rewrite He. unfold stops. rewrite Hd, andb_true_r, N.eqb_refl. destruct (N.eqb_spec (slot_size k size) 0) as [?|_]; [contradiction|].
    destruct (N.leb_spec (N.of_nat (length items) * slot_size k size) isize_max); [|lia]. cbn. now rewrite !app_nil_r.
Qed.
Theorem update_round_trip_in cu e ord o k p size t items es :
  is_vec_u8 (TVec k size t) = false -> 0 < prim_bytes p -> slot_size k size <> 0%N -> distinct k items = true ->
  (N.of_nat (length items) < 2 ^ N.of_nat (prim_width p))%N -> (N.of_nat (length items) * slot_size k size <= isize_max)%N ->
  encode_list (fun pos x => encode SeekSource o no_format t None (opt_list (option_map VEnd e) ++ opt_list (option_map VOrd ord)) pos x) (prim_width p) items = Some es ->
  let T := counted k (i_container e ord) p size t in
  let v := VRec [VNum (N.of_nat (length items)); VList items] in
  (forall n, update T (VRec [n; VList items]) = Ok v) /\
  exists bytes pad, to_bytes cu T v = Ok bytes /\ 8 * length bytes = prim_width p + length (concat es) + pad /\ pad < 8 /\
    forall fuel tail, prim_width p + length (concat es) <= fuel -> exists rest, from_bytes cu fuel T (bytes ++ tail) 0 = Ok (rest, v).
Proof.
  intros Ht Hp Hz Hd Hl Hs He T v. split.
  { intros n. subst T v. unfold counted. cbn [update update_fields updating a_temp a_update app len_update]. apply N.ltb_lt in Hl. rewrite Hl. cbn [res_bind counting a_temp a_update app res_map]. reflexivity. }
  destruct (counted_encode e ord o k p size t items es Ht Hp Hz Hd Hl Hs He) as (enc & E & L). fold T v in E.
  destruct (round_trip cu (length enc) o no_format _ _ _ (any_customs cu _ _) E (Nat.le_refl _)) as (bytes & pad & E1 & E2 & E3 & _).
  exists bytes, pad. split; [exact E1|]. split; [|split; [exact E3|]].
  - apply (f_equal (@length bool)) in E2. rewrite bitstring_length, app_length, repeat_length, L in E2. exact E2.
  - intros fuel tail Hf. rewrite <- L in Hf. destruct (round_trip cu fuel o no_format _ _ _ (any_customs cu _ _) E Hf) as (bytes' & pad' & F1 & _ & _ & F4).
    rewrite E1 in F1. injection F1 as <-. eexists. exact (F4 tail).
Qed.
Theorem update_round_trip cu fuel e ord o p size t items es :
  (forall q, t = TPrim q -> q <> PU8) -> 0 < prim_bytes p -> size <> 0%N ->
  (N.of_nat (length items) < 2 ^ N.of_nat (prim_width p))%N -> (N.of_nat (length items) * size <= isize_max)%N ->
  encode_list (fun pos x => encode SeekSource o no_format t None (opt_list (option_map VEnd e) ++ opt_list (option_map VOrd ord)) pos x) (prim_width p) items = Some es ->
  prim_width p + length (concat es) <= fuel ->
  let T := counted KVec (i_container e ord) p size t in
  let v := VRec [VNum (N.of_nat (length items)); VList items] in
  (forall n, update T (VRec [n; VList items]) = Ok v) /\
  exists bytes, to_bytes cu T v = Ok bytes /\ forall tail, exists rest, from_bytes cu fuel T (bytes ++ tail) 0 = Ok (rest, v).
Proof.
  intros Ht Hp Hz Hl Hs He Hf T v.
  destruct (update_round_trip_in cu e ord o KVec p size t items es) as (H1 & bytes & pad & H2 & _ & _ & H3); try assumption.
  - destruct t as [q| | | | | | | | | | |]; try reflexivity; destruct q; try reflexivity; exfalso; exact (Ht PU8 eq_refl eq_refl).
  - now apply distinct_vec.
  - split; [exact H1|]. exists bytes. split; [exact H2|]. intros tail. now apply H3.
Qed.

(** ** Limits *)

Section Limits.
Variables (cu : nat -> custom) (fuel : nat).
Lemma first_stop_ext {A} (elem : RM A) p q r vs r' : (forall b l, p b l = q b l) -> first_stop elem p r vs r' -> first_stop elem q r vs r'.
Proof.
  intros H (H1 & H2 & H3 & H4). split; [exact H1|]. split; [exact H2|]. split; [now rewrite <- H|]. intros vs1 vs2 r1 E N1 N2 B. rewrite <- H. eapply H4; eauto.
Qed.
Lemma eval_limit_ok l ctx fs off lim : eval_limit l ctx fs off = Ok lim ->
  match limit_number l ctx fs off with Some z => (0 <= z <= Z.of_N usize_max)%Z | None => True end /\
  lim = match l with
        | FCount f => LCount (Z.to_N (f ctx fs off)) | FBytes f => LBytes (Z.to_N (f ctx fs off))
        | FUntil p => LUntil (p ctx fs off) | FAll => LEnd | FBits f => LBits (Z.to_N (f ctx fs off))
        end.
Proof.
  assert (HU : forall f k, match to_usize (f ctx fs off) with Some n => Ok (k n) | None => Err Parse end = Ok lim ->
    (0 <= f ctx fs off <= Z.of_N usize_max)%Z /\ lim = k (Z.to_N (f ctx fs off))).
  { intros f k. unfold to_usize. destruct ((f ctx fs off <? 0)%Z || (Z.of_N usize_max <? f ctx fs off)%Z)%bool eqn:E; [discriminate|].
    intros H. apply ok_inj in H. split; [lia|now symmetry]. }
  destruct l as [f|f|p| |f]; cbn [eval_limit limit_number]; intros H; try (now apply HU in H); split; try exact I; apply ok_inj in H; now symmetry.
Qed.
Lemma limit_met_ok size l ctx fs elem r vs r' lim : forward elem -> size <> 0%N -> limit_small size l ctx fs (r_bits r) ->
  eval_limit l ctx fs (r_bits r) = Ok lim -> vec_read fuel size elem lim r = (Ok vs, r') -> limit_met l ctx fs elem r vs r'.
Proof.
  intros Hf Hz Hs He Hv. apply eval_limit_ok in He. destruct He as [Hn ->]. destruct l as [f|f|p| |f]; cbn [limit_number limit_small limit_met] in *.
  - apply count_ok in Hv; [|exact Hf|exact Hz|]. { destruct Hv as [H1 H2]. split; [lia|exact H1]. } nia.
  - destruct (Z.eqb_spec (f ctx fs (r_bits r)) 0) as [E|E].
    + rewrite E in Hv. cbn in Hv. apply pair_inj in Hv. destruct Hv as [Hv <-]. apply ok_inj in Hv. split; [now symmetry|reflexivity].
    + assert (HE : exists fuel, vec_read fuel size elem (LBytes (Z.to_N (f ctx fs (r_bits r)))) r = (Ok vs, r')) by (eexists; exact Hv).
      apply limit_ok in HE; [|exact Hf|exact Hz|cbn [proper_limit]; try split; lia]. refine (first_stop_ext _ _ _ _ _ _ _ HE). intros b l. cbn [stop_of]. lia.
  - assert (HE : exists fuel, vec_read fuel size elem (LUntil (p ctx fs (r_bits r))) r = (Ok vs, r')) by (eexists; exact Hv).
    apply limit_ok in HE; [|exact Hf|exact Hz|exact I]. exact HE.
  - apply (end_ok elem size r vs r' Hz). eexists. exact Hv.
  - destruct (Z.eqb_spec (f ctx fs (r_bits r)) 0) as [E|E].
    + rewrite E in Hv. cbn in Hv. apply pair_inj in Hv. destruct Hv as [Hv <-]. apply ok_inj in Hv. split; [now symmetry|reflexivity].
    + assert (HE : exists fuel, vec_read fuel size elem (LBits (Z.to_N (f ctx fs (r_bits r)))) r = (Ok vs, r')) by (eexists; exact Hv).
      apply limit_ok in HE; [|exact Hf|exact Hz|cbn [proper_limit]; try split; lia]. refine (first_stop_ext _ _ _ _ _ _ _ HE). intros b l. cbn [stop_of]. lia.
Qed.
Lemma read_field_limit c l ctx fs rd r : c_endian c = None -> c_order c = None ->
  read_field c (limit_only l) false ctx fs rd r = (let* lim := lift (eval_limit l ctx fs (r_bits r)) in rd (Some lim) []) r.
Proof.
  destruct c as [ce co cm cs cd]. cbn [c_endian c_order]. intros -> ->. unfold read_field.
  cbn [limit_only a_seek a_magic a_pad_before a_pad_after option_map read_seek read_magic eval0 read_pad].
  rewrite !bind_ret_l. unfold field_read_tokens, field_read_normal, field_read_func. cbn [limit_only a_skip a_cond a_reader a_limit a_map].
  unfold field_args, field_order, args_of. cbn [limit_only c_endian c_order a_endian a_order a_bits a_bytes a_ctx or_else eval0 option_map opt_list app].
  unfold bind, asserts, lift. cbn [limit_only a_assert a_assert_eq]. destruct (eval_limit l ctx fs (r_bits r)) as [lim|e| |]; try reflexivity.
  destruct (rd (Some lim) [] r) as [[]]; reflexivity.
Qed.
Theorem limit_field c pre l b size t tl args r vals r' : c_endian c = None -> c_order c = None -> all_fields (fun a => a_temp a = false) pre ->
  is_vec_u8 (TVec b size t) = false -> forward (read_ty cu fuel t None []) -> slot_size b size <> 0%N ->
  read_ty cu fuel (TStruct c (fapp pre (FCons (limit_only l) (TVec b size t) (TVec b size t) tl))) None args r = (Ok (VRec vals), r') ->
  exists before items after r1 r2, vals = before ++ VList (collect b items) :: after /\ length before = stored_count pre /\
    match limit_number l (ctx_args c args) before (r_bits r1) with Some z => (0 <= z)%Z | None => True end /\
    (limit_small (slot_size b size) l (ctx_args c args) before (r_bits r1) ->
     limit_met l (ctx_args c args) before (read_ty cu fuel t None []) r1 items r2).
Proof.
  intros He Ho Ht Hb Hf Hz H. rewrite read_struct in H. apply bind_inv in H. destruct H as (? & r1 & _ & H). apply bind_inv in H. destruct H as (? & r2 & _ & H).
  apply bind_inv in H. destruct H as (vs & r3 & Hvs & H). apply pair_inj in H. destruct H as [H <-]. apply ok_inj in H. injection H as <-.
  apply (fields_read_app _ _ _ _ _ _ _ Ht) in Hvs. destruct Hvs as (l1 & l2 & r4 & H1 & H2 & ->).
  rewrite read_cons in H2. apply bind_inv in H2. destruct H2 as (v & r5 & Hv & H2). apply bind_inv in H2. destruct H2 as (vs & r6 & Hvs & H2).
  cbn [limit_only a_temp] in H2. apply pair_inj in H2. destruct H2 as [H2 _]. apply ok_inj in H2. subst l2.
  rewrite Hb in Hv. cbn [app] in Hv. rewrite (read_field_limit c l _ _ _ _ He Ho) in Hv. apply bind_inv in Hv. destruct Hv as (lim & r7 & HL & Hv).
  unfold lift in HL. apply pair_inj in HL. destruct HL as [HL <-]. cbn [read_ty] in Hv. apply bind_inv in Hv. destruct Hv as (items & r8 & Hi & Hv).
  apply pair_inj in Hv. destruct Hv as [Hv <-]. apply ok_inj in Hv. subst v.
  exists l1, items, vs, r4, r8. split; [reflexivity|]. split; [exact (fields_read_count _ _ _ _ _ _ _ _ _ Ht H1)|]. split.
  - apply eval_limit_ok in HL. destruct HL as [HL _]. destruct (limit_number l (ctx_args c args) l1 (r_bits r4)); [lia|exact I].
  - intros Hs. exact (limit_met_ok (slot_size b size) l _ _ _ _ _ _ _ Hf Hz Hs HL Hi).
Qed.
(** A number that is negative or too large is an error, and nothing is read. *)
Theorem limit_bad c l b size t tl args r : c_seek c = None -> c_magic c = [] -> c_endian c = None -> c_order c = None ->
  is_vec_u8 (TVec b size t) = false ->
  match limit_number l (ctx_args c args) [] (r_bits r) with Some z => (z < 0 \/ Z.of_N usize_max < z)%Z | None => False end ->
  read_ty cu fuel (TStruct c (FCons (limit_only l) (TVec b size t) (TVec b size t) tl)) None args r = (Err Parse, r).
Proof.
  intros Hs Hm He Ho Hb Hl. rewrite read_struct, Hs, Hm. cbn [option_map read_seek read_magic]. rewrite !bind_ret_l. apply bind_err. rewrite read_cons. apply bind_err.
  rewrite Hb. change (a_reader (limit_only l)) with (@None (expr (RM value))). rewrite (read_field_limit c l _ _ _ _ He Ho). apply bind_err. unfold lift.
  assert (HE : eval_limit l (ctx_args c args) [] (r_bits r) = Err Parse); [|now rewrite HE].
  destruct l as [f|f|p| |f]; cbn [limit_number eval_limit] in *; try contradiction; unfold to_usize;
    destruct ((f (ctx_args c args) [] (r_bits r) <? 0)%Z || (Z.of_N usize_max <? f (ctx_args c args) [] (r_bits r))%Z)%bool eqn:E; try reflexivity; lia.
Qed.
End Limits.
