(** Proofs about plain declarations: writing any value of the type, and the errors. *)
From Coq Require Import Lia ZifyBool ZifyNat ZifyN.
From Verif Require Import Base Spec Stream Reader Writer BitsFacts MonadFacts Prims PrimFacts PrimProps NFacts CodecSpec CodecFacts Containers Derive DeriveSpec DeriveFacts DeriveSound DeriveProps SafeSpec Decl PlainSpec PlainFacts PlainSafe PlainProps ErrSpec ErrRead ErrWrite.
Ltac Zify.zify_post_hook ::= Z.div_mod_to_equations.

(** ** Writing *)

Section Out.
Variable cu : nat -> custom.

(** [m] appends the bits if [b] holds and fails with [InvalidParam] if not. *)
Definition rejects (pos : nat) (m : WM unit) : Prop :=
  forall w, writable w -> in_order Msb0 w -> w_at pos w -> exists w', m w = (Err InvalidParam, w').
Definition outcome (m : WM unit) (b : bool) (enc : list bool) : Prop :=
  forall pos, if b then emits_at Msb0 pos m enc else rejects pos m.
Lemma outcome_emits m enc : (forall pos, emits_at Msb0 pos m enc) -> outcome m true enc.
Proof. intros H pos. apply H. Qed.
Lemma outcome_ext m m' b enc : (forall w, m w = m' w) -> outcome m b enc -> outcome m' b enc.
Proof.
  intros E H pos. specialize (H pos). destruct b; [exact (emits_at_ext _ _ _ _ _ E H)|]. intros w W O A. rewrite <- E. now apply H.
Qed.
Lemma outcome_bind m (f : unit -> WM unit) b b' enc enc' : outcome m b enc -> outcome (f tt) b' enc' -> outcome (bind m f) (b && b') (enc ++ enc').
Proof.
  intros H H' pos. specialize (H pos). destruct b; cbn [andb].
  - specialize (H' (pos + length enc)). destruct b'; [now apply emits_at_bind|].
    intros w W O A. destruct (H w W O A) as (w1 & bs & E & S & W1 & O1 & Q).
    destruct (H' w1 W1 O1 (w_at_next _ _ _ _ _ _ A S W1 Q)) as (w2 & E2). exists w2. rewrite (bind_ok _ _ _ _ _ E). exact E2.
  - intros w W O A. destruct (H w W O A) as (w1 & E). exists w1. unfold bind. now rewrite E.
Qed.
Lemma outcome_first m (f : unit -> WM unit) b' enc enc' : (forall pos, emits_at Msb0 pos m enc) -> outcome (f tt) b' enc' -> outcome (bind m f) b' (enc ++ enc').
Proof. intros H H'. exact (outcome_bind m f true b' enc enc' (outcome_emits _ _ H) H'). Qed.
Lemma outcome_last m (f : unit -> WM unit) b enc enc' : outcome m b enc -> (forall pos, emits_at Msb0 pos (f tt) enc') -> outcome (bind m f) b (enc ++ enc').
Proof. intros H H'. rewrite <- (Bool.andb_true_r b). apply outcome_bind; [exact H|now apply outcome_emits]. Qed.
Lemma outcome_list (wr : value -> WM unit) fit (enc : value -> list bool) l : (forall v, In v l -> outcome (wr v) (fit v) (enc v)) -> outcome (write_list wr l) (forallb fit l) (concat (map enc l)).
Proof.
  induction l as [|v l IH]; intros H; [exact (fun pos => emits_at_ret Msb0 pos)|]. cbn [write_list forallb map concat].
  apply outcome_bind; [apply H; now left|]. apply IH. intros x Hx. apply H. now right.
Qed.
Lemma magic_emits m pos : emits_at Msb0 pos (write_magic m) (bits_of_bytes m).
Proof. apply write_magic_bytes, encode_magic_msb. Qed.

Lemma num_outcome whole p e b n : num_plain whole p e b = true -> (n < 2 ^ N.of_nat (prim_width p))%N ->
  outcome (write_ty cu (TPrim p) (pargs e b) (VNum n)) (num_fits p b n) (num_wire p e b n).
Proof.
  intros P H pos. destruct (num_fits p b n) eqn:F.
  - pose proof (encode_plain_num whole p e b n pos P F) as E.
    refine (proj1 (encode_sound SeekSource Msb0 cu no_format 0 (lawful_upto _ _ _ _ _ (no_format_lawful cu _ _)) (TPrim p) None (pargs e b) pos (VNum n) _ _)). exact E.
  - intros w W O _. exists w. change (with_pctx None (pargs e b) (fun c => prim_write p c n) w = (Err InvalidParam, w)).
    unfold with_pctx. rewrite pargs_pctx. unfold num_fits in F.
    assert (F1 : (n <? 2 ^ N.of_nat (prim_width p))%N = true) by lia. rewrite F1 in F. cbn [andb] in F.
    destruct b as [k|]; [|discriminate]. unfold num_plain in P.
    apply andb_true_iff in P. destruct P as [P0 P]. apply andb_true_iff in P. destruct P as [P P4]. apply andb_true_iff in P. destruct P as [P P3].
    apply andb_true_iff in P. destruct P as [P1 P2].
    destruct (unsigned p) eqn:U.
    + refine (proj2 (exact_prim_u p (pcontext e (Some k)) (byte_order e) k Msb0 n w _ (pcontext_bits e k) _ H W) _); [now destruct p|lia|lia].
    + destruct p as [|wb|wb]; try discriminate.
      assert (X : prim_write (PI wb) (pcontext e (Some k)) n = prim_write (PI wb) (CEB (byte_order e) k) n) by now destruct e.
      rewrite X. change (prim_width (PI wb)) with (8 * wb) in *. change (prim_bytes (PI wb)) with wb in *.
      refine (proj2 (prim_i_exact wb (byte_order e) k n w _ _ H W) _); lia.
Qed.
Lemma bool_outcome whole e b x : num_plain whole PU8 e b = true -> outcome (write_ty cu TBool (pargs e b) (VBool x)) true (num_wire PU8 e b (if x then 1 else 0)%N).
Proof.
  intros P.
  assert (F : num_fits PU8 b (if x then 1 else 0) = true).
  { unfold num_plain in P. unfold num_fits. cbn [unsigned]. change (prim_width PU8) with 8 in *.
    assert (H : ((if x then 1 else 0) < 2)%N) by (destruct x; lia). apply andb_true_iff. split; [destruct x; reflexivity|].
    destruct b as [k|]; [|reflexivity]. bsplit. assert ((2 ^ 1 <= 2 ^ N.of_nat k)%N) by (apply N.pow_le_mono_r; lia). lia. }
  pose proof (num_outcome whole PU8 e b (if x then 1 else 0)%N P) as X. rewrite F in X.
  refine (outcome_ext _ _ _ _ _ (X _)); [intros w; now destruct x|destruct x; reflexivity].
Qed.

Lemma kind_outcome (k : pkind) t t' args fit enc v :
  (forall x, typed t' x -> outcome (write_ty cu t' args x) (fit x) (enc x)) -> t = holding k t' -> typed t v ->
  outcome (write_ty cu t args v)
    match k, v with One, _ => fit v | Many _ _, VList xs | Until _ _, VList xs => forallb fit xs | When _, VSome x => fit x | _, _ => true end
    match k, v with One, _ => enc v | Many _ _, VList xs | Until _ _, VList xs => concat (map enc xs) | When _, VSome x => enc x | _, _ => [] end.
Proof.
  intros H -> T. destruct k as [|j size|j|j size]; cbn [holding] in *; [now apply H| | |].
  - destruct v; try contradiction. destruct T as [T _]. cbn [write_ty]. apply outcome_list. intros x Hx. apply H. rewrite Forall_forall in T. now apply T.
  - destruct v; try contradiction; cbn [write_ty]; [now apply H|]. exact (fun pos => emits_at_ret Msb0 pos).
  - destruct v; try contradiction. destruct T as [T _]. cbn [write_ty]. apply outcome_list. intros x Hx. apply H. rewrite Forall_forall in T. now apply T.
Qed.
Lemma field_outcome whole m a ctx acc stored v wr b enc : pad_plain whole (p_before a) = true -> pad_plain whole (p_after a) = true ->
  outcome (wr (pargs (p_endian a) (p_bits a)) v) b enc ->
  outcome (write_field (pc m) (attrs a) stored ctx acc v wr) b
    (bits_of_bytes (p_magic a) ++ repeat false (p_before a) ++ enc ++ repeat false (p_after a)).
Proof.
  intros PB PA H. unfold write_field. rewrite at_seek, at_magic, at_before, at_after. cbn [option_map].
  refine (outcome_first (write_seek None) _ b [] _ (fun pos => emits_at_ret Msb0 pos) _).
  apply outcome_first; [intros pos; apply magic_emits|].
  apply outcome_first. { intros pos. exact (proj1 (encode_pad_sound SeekSource Msb0 pos _ _ _ (encode_pad_msb m a _ whole PB ctx acc acc))). }
  refine (outcome_ext (let* _ := wr (pargs (p_endian a) (p_bits a)) v in write_pad (eval0 (pad_of (pad (p_after a)) None) ctx (acc ++ [v])) (field_order (pc m) (attrs a) ctx acc)) _ _ _ _ _).
  { intros w. unfold asserts, field_write_tokens, field_write_func. rewrite at_assert, at_assert_eq, at_skip, at_writer, at_temp, at_args. reflexivity. }
  apply outcome_last; [exact H|]. intros pos. exact (proj1 (encode_pad_sound SeekSource Msb0 pos _ _ _ (encode_pad_msb m a _ whole PA ctx acc (acc ++ [v])))).
Qed.

Lemma plain_outcome whole :
  (forall t e b, plain_in whole t e b = true -> forall v, typed (ctype t) v -> outcome (write_ty cu (ctype t) (pargs e b) v) (numbers_fit b t v) (wire e b t v)) /\
  (forall fs done m ctx, fields_plain whole done fs = true -> forall stored l acc, fields_typed (cfields fs) l ->
     outcome (fields_write cu (pc m) ctx (cfields fs) None stored l acc) (field_numbers_fit fs l) (fields_wire fs l)) /\
  (forall vs m p e b ctx, variants_plain whole vs = true -> num_plain whole p e b = true -> unsigned p = true ->
     (forall x, In x (ids vs) -> (x < 2 ^ N.of_nat (num_bits p b))%N) ->
     forall k l, variant_typed (cvariants vs) k l ->
     outcome (variant_write cu (eattrs_of (enum_decl m p e b)) ctx (fun args x => write_ty cu (TPrim p) args x) (cvariants vs) k l)
       (variant_numbers_fit vs k l) (num_wire p e b (nth k (ids vs) 0%N) ++ variant_wire vs k l)).
Proof.
  apply plain_ind.
  - intros p e b P v T. destruct v; try contradiction. exact (num_outcome whole p e b n P T).
  - intros e b P v T. destruct v; try contradiction. exact (bool_outcome whole e b b0 P).
  - intros n t IH e b P v T. destruct v; try contradiction. destruct T as [_ T]. cbn [ctype write_ty numbers_fit wire]. apply outcome_list. intros x Hx. apply IH; [exact P|].
    rewrite Forall_forall in T. now apply T.
  - intros m fs IH e b P v T. destruct v; try contradiction. cbn [plain_in] in P. apply andb_true_iff in P. destruct P as [_ P].
    cbn [ctype]. rewrite write_struct.
    refine (outcome_first (write_seek None) _ _ [] _ (fun pos => emits_at_ret Msb0 pos) _).
    change (c_magic (cattrs_of (struct_decl m))) with (match magic_attr m with Some x => x | None => [] end). rewrite magic_attr_ok.
    refine (outcome_first _ _ _ _ _ (fun pos => magic_emits m pos) _). exact (IH [] m _ P _ _ _ T).
  - intros m p e' b' vs IH e b P v T. destruct v; try contradiction. cbn [plain_in] in P.
    apply andb_true_iff in P. destruct P as [P P7]. apply andb_true_iff in P. destruct P as [P P6]. apply andb_true_iff in P. destruct P as [P P5].
    apply andb_true_iff in P. destruct P as [P P4]. apply andb_true_iff in P. destruct P as [P P3].
    cbn [ctype]. rewrite write_enum.
    change (c_magic (en_c (eattrs_of (enum_decl m p e' b')))) with (match magic_attr m with Some x => x | None => [] end). rewrite magic_attr_ok.
    refine (outcome_first _ _ _ _ _ (fun pos => magic_emits m pos) _). apply IH; try assumption. rewrite forallb_forall in P5. intros x Hx. specialize (P5 x Hx). lia.
  - intros p e b P v T. destruct v; try contradiction. exact (num_outcome whole p e b n P (proj2 T)).
  - intros s IHs t IHt e b P v T. destruct v; try contradiction. destruct T as [T1 T2]. cbn [plain_in] in P. apply andb_true_iff in P. destruct P as [P1 P2].
    cbn [ctype write_ty numbers_fit wire]. apply outcome_bind; [now apply IHs|now apply IHt].
  - intros e b P v T. destruct v; try contradiction. change (numbers_fit b PText (VList l)) with true. apply outcome_emits. intros pos.
    assert (F : value_fits b PText (VList l) = true).
    { apply forallb_forall. intros x Hx. unfold typed in T. cbn [ctype typed_in] in T. rewrite Forall_forall in T. specialize (T x Hx). destruct x; try contradiction. cbn. lia. }
    destruct (proj1 (plain_encode no_format false) PText e b P (VList l) pos F ltac:(discriminate)) as [E _].
    exact (proj1 (encode_sound SeekSource Msb0 cu no_format 0 (lawful_upto _ _ _ _ _ (no_format_lawful cu _ _)) _ _ _ _ _ _ E)).
  - intros done m ctx _ stored l acc _ pos. apply emits_at_ret.
  - intros a t IHt tl IHtl done m ctx P stored l acc T. cbn [fields_plain] in P.
    apply andb_true_iff in P. destruct P as [P P5]. apply andb_true_iff in P. destruct P as [P P4]. apply andb_true_iff in P. destruct P as [P P3].
    apply andb_true_iff in P. destruct P as [P1 P2].
    change (match l with v :: l' => typed (holding (p_kind a) (ctype t)) v /\ fields_typed (cfields tl) l' | [] => False end) in T.
    destruct l as [|v l]; [destruct T|]. destruct T as [T1 T2].
    change (cfields (PCons a t tl)) with (FCons (attrs a) (holding (p_kind a) (ctype t)) (holding (p_kind a) (ctype t)) (cfields tl)).
    rewrite write_cons. change (field_value (attrs a) stored (v :: l) ctx acc) with v. change (field_rest (attrs a) (v :: l)) with l.
    pose proof (kind_outcome (p_kind a) _ (ctype t) (pargs (p_endian a) (p_bits a)) (numbers_fit (p_bits a) t) (wire (p_endian a) (p_bits a) t) v (IHt _ _ P1) eq_refl T1) as K.
    pose proof (field_outcome whole m a ctx acc stored v (fun args x => write_ty cu (holding (p_kind a) (ctype t)) args x) _ _ P3 P4 K) as FO.
    pose proof (outcome_bind _ (fun _ => fields_write cu (pc m) ctx (cfields tl) None stored l (acc ++ [v])) _ _ _ _ FO (IHtl _ m ctx P5 stored l (acc ++ [v]) T2)) as G.
    cbn [field_numbers_fit fields_wire]. rewrite <- !app_assoc in G. exact G.
  - intros m p e b ctx _ _ _ _ k l T. destruct T.
  - intros id fs IHfs tl IHtl m p e b ctx P PN U HI k l T. cbn [variants_plain] in P. apply andb_true_iff in P. destruct P as [P1 P2].
    destruct k as [|k].
    + cbn [cvariants]. rewrite write_variant_0. cbn [variant_numbers_fit variant_wire ids nth].
      refine (outcome_first _ _ _ _ _ _ (IHfs [] m _ P1 _ _ _ T)). intros pos.
      unfold write_id. cbn [v_sel en_id eattrs_of enum_decl k_id]. rewrite id_pargs.
      assert (F : num_fits p b id = true).
      { specialize (HI id (or_introl eq_refl)). unfold num_plain in PN. unfold num_fits, num_bits in *. rewrite U.
        destruct b as [n|]; [|lia]. bsplit. assert (2 ^ N.of_nat n <= 2 ^ N.of_nat (prim_width p))%N by (apply N.pow_le_mono_r; lia). lia. }
      pose proof (num_outcome whole p e b id PN (num_fits_type _ _ _ F) pos) as X. rewrite F in X. exact X.
    + exact (IHtl m p e b ctx P2 PN U (fun x Hx => HI x (or_intror Hx)) k l T).
Qed.

Theorem writes_exactly t v : plain_type t = true -> typed (ctype t) v ->
  if numbers_fit None t v then
    to_bits cu (ctype t) v = Ok (wire None None t v) /\
    exists bytes pad, to_bytes cu (ctype t) v = Ok bytes /\ bits_of_bytes bytes = wire None None t v ++ repeat false pad /\ pad < 8
  else to_bits cu (ctype t) v = Err InvalidParam /\ to_bytes cu (ctype t) v = Err InvalidParam.
Proof.
  intros P T.
  assert (O : outcome (write_ty cu (ctype t) [] v) (numbers_fit None t v) (wire None None t v)).
  { unfold plain_type in P. apply orb_prop in P. destruct P as [P|P]; exact (proj1 (plain_outcome _) t None None P v T). }
  specialize (O 0). destruct (numbers_fit None t v).
  - split; [exact (emits_at_bits _ _ O)|]. destruct (emits_at_out Msb0 _ _ O) as (bytes & pad & E & HB & Hp). rewrite bitstring_msb in HB. exists bytes, pad. auto.
  - destruct (fresh_writer Msb0) as [Hw Ho]. destruct (O _ Hw Ho) as (w' & E); [split; reflexivity|].
    split; [unfold to_bits, to_bits_with|unfold to_bytes, to_bytes_with]; unfold bind; rewrite E; reflexivity.
Qed.
End Out.

(** ** Errors *)

Lemma plain_lacks (reading whole : bool) (F : fattrs -> ty -> Prop) (N : node -> Prop) :
  (forall a t, pad_plain whole (p_before a) = true -> pad_plain whole (p_after a) = true -> ~ F (attrs a) t) ->
  (forall m, ~ N (Struct (cattrs_of (struct_decl m)))) -> (forall m p e b, ~ N (Enum (eattrs_of (enum_decl m p e b)))) ->
  (forall t e b, plain_in whole t e b = true -> ~ has reading F N (ctype t)) /\
  (forall fs done, fields_plain whole done fs = true -> ~ fields_have reading F N (cfields fs)) /\
  (forall vs, variants_plain whole vs = true -> ~ variants_have reading F N (cvariants vs)).
Proof.
  intros HF HS HE. apply plain_ind.
  - intros p e b _ X. exact X.
  - intros e b _ X. exact X.
  - intros n t IH e b P. exact (IH e b P).
  - intros m fs IH e b P [X|X]; [exact (HS m X)|]. cbn [plain_in] in P. apply andb_true_iff in P. destruct P as [_ P]. exact (IH [] P X).
  - intros m p e' b' vs IH e b P [X|[X|X]]; [exact (HE _ _ _ _ X)|exact X|]. cbn [plain_in] in P. apply andb_true_iff in P. destruct P as [_ P]. exact (IH P X).
  - intros p e b _ X. exact X.
  - intros s IHs t IHt e b P [X|X]; cbn [plain_in] in P; apply andb_true_iff in P; destruct P as [P1 P2]; [exact (IHs e b P1 X)|exact (IHt e b P2 X)].
  - intros e b _ X. exact X.
  - intros done _ X. exact X.
  - intros a t IHt tl IHtl done P X. cbn [fields_plain] in P.
    apply andb_true_iff in P. destruct P as [P P5]. apply andb_true_iff in P. destruct P as [P P4]. apply andb_true_iff in P. destruct P as [P P3].
    apply andb_true_iff in P. destruct P as [P1 P2].
    change (F (attrs a) (holding (p_kind a) (ctype t)) \/ (if reading then has reading F N (holding (p_kind a) (ctype t)) else has reading F N (holding (p_kind a) (ctype t))) \/ fields_have reading F N (cfields tl)) in X.
    destruct X as [X|[X|X]]; [exact (HF _ _ P3 P4 X)| |exact (IHtl _ P5 X)].
    assert (Y : has reading F N (holding (p_kind a) (ctype t))) by (destruct reading; exact X). clear X.
    destruct (p_kind a); cbn [holding] in Y; exact (IHt _ _ P1 Y).
  - intros _ X. exact X.
  - intros id fs IHfs tl IHtl P X. cbn [variants_plain] in P. apply andb_true_iff in P. destruct P as [P1 P2].
    destruct X as [X|X]; [exact (IHfs [] P1 X)|exact (IHtl P2 X)].
Qed.
Lemma plain_type_lacks reading (F : fattrs -> ty -> Prop) (N : node -> Prop) t : plain_type t = true ->
  (forall a t, (N.of_nat (p_before a) <= usize_max)%N -> (N.of_nat (p_after a) <= usize_max)%N -> ~ F (attrs a) t) ->
  (forall m, ~ N (Struct (cattrs_of (struct_decl m)))) -> (forall m p e b, ~ N (Enum (eattrs_of (enum_decl m p e b)))) ->
  ~ has reading F N (ctype t).
Proof.
  intros P HF HS HE.
  assert (PP : forall whole n, pad_plain whole n = true -> (N.of_nat n <= usize_max)%N).
  { intros [|] n H; unfold pad_plain in H; [|lia]. apply Nat.eqb_eq in H. subst n. apply N.le_0_l. }
  unfold plain_type in P. apply orb_prop in P.
  destruct P as [P|P]; refine (proj1 (plain_lacks reading _ F N _ HS HE) t None None P); intros a u PB PA; apply HF; eapply PP; eassumption.
Qed.
Lemma plain_derived t : plain_type t = true -> derived_read (ctype t).
Proof.
  intros P. apply (plain_type_lacks true hand_read any_custom t P); [|intros m X; exact X|intros m p e b X; exact X].
  intros a u _ _ X. exact (X (at_reader a)).
Qed.
Lemma pad_not_bad n f ctx fs : (N.of_nat n <= usize_max)%N -> pad_of (pad n) None = Some f -> (0 <= f ctx fs < 2 ^ 64)%Z.
Proof.
  intros H E. destruct n as [|n]; [discriminate|]. cbn [pad pad_of option_map] in E. injection E as <-. unfold const.
  change usize_max with (2 ^ 64 - 1)%N in H. lia.
Qed.
Lemma plain_bad_pad reading t : plain_type t = true -> ~ has reading bad_pad nowhere (ctype t).
Proof.
  intros P. apply (plain_type_lacks reading _ _ t P); [|intros m X; exact X|intros m p e b X; exact X].
  intros a u PB PA (f & ctx & fs & [E|E] & H); apply H; [exact (pad_not_bad _ f ctx fs PB E)|exact (pad_not_bad _ f ctx fs PA E)].
Qed.
Lemma plain_map reading e t : plain_type t = true -> ~ has reading (map_fails e) nowhere (ctype t).
Proof.
  intros P. apply (plain_type_lacks reading _ _ t P); [|intros m X; exact X|intros m p e' b X; exact X].
  intros a u _ _ (f & ctx & fs & off & v & E & _). rewrite at_map in E. discriminate.
Qed.
Lemma plain_assert reading t : plain_type t = true -> ~ has reading can_assert nowhere (ctype t).
Proof.
  intros P. apply (plain_type_lacks reading _ _ t P); [|intros m X; exact X|intros m p e b X; exact X].
  intros a u _ _ [(f & ctx & fs & off & E & _)|E]; [rewrite at_assert in E; discriminate|exact (E (at_assert_eq a))].
Qed.
Lemma plain_seeks reading t : plain_type t = true -> ~ has reading seeks struct_seeks (ctype t).
Proof.
  intros P. apply (plain_type_lacks reading _ _ t P); [|intros m X; apply X; reflexivity|intros m p e b X; exact X].
  intros a u _ _ E. exact (E (at_seek a)).
Qed.

Section Errors.
Variable cu : nat -> custom.
Theorem bytes_errors fuel t input bit e : plain_type t = true -> from_bytes cu fuel (ctype t) input bit = Err e -> e = Parse \/ exists n, e = Incomplete n.
Proof.
  intros P E. apply from_bytes_cause in E; [|now apply plain_derived]. destruct E as [E|E]; [|now apply plain_map in E].
  destruct e; eauto; exfalso.
  all: first [exact (plain_assert true t P E)|exact (plain_bad_pad true t P E)|exact (plain_seeks true t P (proj2 E))|exact E].
Qed.
Theorem source_errors fuel t s bit e : plain_type t = true -> (forall j, s_fault s j = None) -> bit < 8 ->
  fst (from_reader cu fuel (ctype t) s bit) = Err e -> e = Parse \/ (exists n, e = Incomplete n) \/ (s_noseek s <> None /\ e = Io (OtherKind 0)).
Proof.
  intros P Hq Hb E. destruct (from_reader cu fuel (ctype t) s bit) as [x s'] eqn:ER. cbn [fst] in E. subst x.
  apply from_reader_cause in ER; [|now apply plain_derived|now left]. destruct ER as [E|E]; [|now apply plain_map in E].
  destruct e; eauto.
  1-3: exfalso; first [exact (plain_assert true t P E)|exact (plain_bad_pad true t P E)|exact E].
  destruct E as [(j & n & _ & E)|E]; [rewrite Hq in E; discriminate|]. destruct (s_noseek s).
  - right. right. split; [discriminate|]. now destruct E as [-> _].
  - exfalso. exact (plain_seeks true t P (proj2 E)).
Qed.
Theorem reads_bytes fuel t input bit : plain_type t = true -> bit < 8 -> 8 * length input + 8 < fuel ->
  (exists rest off v, from_bytes cu fuel (ctype t) input bit = Ok ((rest, off), v) /\ value_fits None t v = true) \/
  from_bytes cu fuel (ctype t) input bit = Err Parse \/ (exists n, from_bytes cu fuel (ctype t) input bit = Err (Incomplete n)).
Proof.
  intros P Hb Hf. destruct (reads_anything cu fuel t input bit P Hb Hf) as [H|(e & E)]; [now left|right].
  destruct (bytes_errors fuel t input bit e P E) as [->|[n ->]]; eauto.
Qed.
Theorem reads_stream fuel t s bit : plain_type t = true -> (forall j, s_fault s j = None) -> s_pos s <= length (s_data s) -> bit < 8 -> 8 * length (s_data s) + 8 < fuel ->
  (exists n v, fst (from_reader cu fuel (ctype t) s bit) = Ok (n, v) /\ value_fits None t v = true) \/
  (exists e, fst (from_reader cu fuel (ctype t) s bit) = Err e /\ (e = Parse \/ (exists n, e = Incomplete n) \/ (s_noseek s <> None /\ e = Io (OtherKind 0)))).
Proof.
  intros P Hq Hp Hb Hf. destruct (reads_source cu fuel t s bit P Hq Hp Hb Hf) as [H|(e & E)]; [now left|right].
  exists e. split; [exact E|]. exact (source_errors fuel t s bit e P Hq Hb E).
Qed.
End Errors.
