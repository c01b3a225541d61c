(** Proofs about UpdateSpec.v. *)
From Coq Require Import Lia ZifyBool ZifyNat ZifyN.
From Verif Require Import Base Spec Stream Reader Writer Prims MonadFacts CodecSpec Containers Derive DeriveSpec DeriveSound AttrSpec AttrFacts SafeSpec Decl PlainSpec PlainFacts PlainRead PlainProps PlainPad InheritFacts UpdateSpec.

(** ** The declarations are accepted *)

Lemma upd_members_fields all fs : forall k, fields_of (members_upd all k fs) = fields_upd all k fs.
Proof. induction fs as [|a t tl IH]; intros k; [reflexivity|]. cbn [members_upd fields_of fields_upd m_attrs m_default m_ty m_wire]. now rewrite IH. Qed.
Lemma upd_members_ok all fs : forall k, members_valid true (members_upd all k fs) = true.
Proof.
  induction fs as [|a t tl IH]; intros k; [reflexivity|]. unfold members_valid in *. cbn [members_upd forallb m_attrs]. rewrite IH, Bool.andb_true_r.
  destruct a as [e [b|] [] m p q], (update_at all k t); reflexivity.
Qed.
Lemma upd_variants_members c hd vs : variants_of c hd (vmembers_upd vs) = Some (variants_upd vs).
Proof. induction vs as [|id fs vs IH]; [reflexivity|]. cbn [vmembers_upd variants_of]. unfold selector_of. cbn [variant_decl v_id]. now rewrite IH, upd_members_fields. Qed.
Lemma upd_write_variants_members c hd vs : write_variants_of c hd (vmembers_upd vs) = variants_upd vs.
Proof. induction vs as [|id fs vs IH]; [reflexivity|]. cbn [vmembers_upd write_variants_of]. unfold selector_of. cbn [variant_decl v_id]. now rewrite IH, upd_members_fields. Qed.
Lemma upd_vmembers_all (P : vdecl * list member -> bool) vs : (forall id fs, P (variant_decl id, members_upd fs 0 fs) = true) -> forallb P (vmembers_upd vs) = true.
Proof. intros H. induction vs as [|id fs vs IH]; [reflexivity|]. cbn [vmembers_upd forallb]. now rewrite H, IH. Qed.
Lemma upd_no_defaults vs : list_sum (map (fun p => b2n (default_of (fst p))) (vmembers_upd vs)) = 0.
Proof. induction vs as [|id fs tl IH]; [reflexivity|exact IH]. Qed.
Theorem updating_declared t d tr : updating_decl t = Some d -> derive tr true d = Some (updating_type t).
Proof.
  destruct t as [p| |n t|m fs|m p e b vs|p|s t|]; try discriminate; intros E; injection E as <-; unfold derive.
  - rewrite upd_members_ok, upd_members_fields. reflexivity.
  - rewrite (upd_vmembers_all _ vs) by (intros; cbn [fst snd]; now rewrite upd_members_ok).
    assert (C : container_valid true true (enum_decl m p e b) = true) by (destruct b; reflexivity). rewrite C. cbn [andb k_id_type enum_decl].
    destruct tr.
    + rewrite (upd_vmembers_all _ vs) by reflexivity. rewrite upd_no_defaults. cbn [andb Nat.leb]. now rewrite upd_variants_members.
    + rewrite (upd_vmembers_all _ vs) by reflexivity. now rewrite upd_write_variants_members.
Qed.

(** ** Reading and writing are not touched *)

Section Same.
Variables (cu : nat -> custom) (fuel : nat).
Lemma upd_fields_read all c ctx fs : forall k id acc r, fields_read cu fuel c ctx (fields_upd all k fs) id acc r = fields_read cu fuel c ctx (cfields fs) id acc r.
Proof.
  induction fs as [|a t tl IH]; intros k id acc r; [reflexivity|]. cbn [fields_upd cfields]. rewrite !read_cons.
  apply bind_ext. intros v r1 _. apply bind_cong. apply IH.
Qed.
Lemma upd_variants_read e ctx id vs : forall k d r, variants_read cu fuel e ctx id (variants_upd vs) k d r = variants_read cu fuel e ctx id (cvariants vs) k d r.
Proof.
  assert (G : forall vs k d d' r, match d, d' with Some m, Some m' => forall r, m r = m' r | None, None => True | _, _ => False end ->
    variants_read cu fuel e ctx id (variants_upd vs) k d r = variants_read cu fuel e ctx id (cvariants vs) k d' r).
  { clear vs. induction vs as [|i fs tl IH]; intros k d d' r H.
    - cbn [variants_upd cvariants variants_read]. destruct d, d'; try contradiction; [apply H|reflexivity].
    - cbn [variants_upd cvariants]. rewrite !read_variant. cbv zeta.
      assert (B : forall r, (let* l := fields_read cu fuel (en_c e) ctx (fields_upd fs 0 fs) (if stores_id e (mkV (SId (VNum i)) false) then Some id else None) [] in ret (VVar k l)) r =
        (let* l := fields_read cu fuel (en_c e) ctx (cfields fs) (if stores_id e (mkV (SId (VNum i)) false) then Some id else None) [] in ret (VVar k l)) r)
        by (intros r0; apply bind_cong, upd_fields_read).
      destruct (matches _ id); [apply B|]. apply IH. destruct d, d'; try contradiction; [exact H|exact I]. }
  intros k d r. apply G. now destruct d.
Qed.
Lemma upd_fields_write all c ctx fs : forall k id st todo acc w, fields_write cu c ctx (fields_upd all k fs) id st todo acc w = fields_write cu c ctx (cfields fs) id st todo acc w.
Proof.
  induction fs as [|a t tl IH]; intros k id st todo acc w; [reflexivity|]. cbn [fields_upd cfields]. rewrite !write_cons.
  apply bind_ext. intros v w1 _. apply IH.
Qed.
Lemma upd_variant_write e ctx wid vs : forall k l w, variant_write cu e ctx wid (variants_upd vs) k l w = variant_write cu e ctx wid (cvariants vs) k l w.
Proof.
  induction vs as [|i fs tl IH]; intros k l w; [reflexivity|]. cbn [variants_upd cvariants]. destruct k as [|k]; [|exact (IH k l w)].
  rewrite !write_variant_0. apply (bind_ext (write_id e (mkV (SId (VNum i)) false) (cfields fs) ctx wid)). intros v w1 _. apply upd_fields_write.
Qed.
Lemma upd_read t lim args r : read_ty cu fuel (updating_type t) lim args r = read_ty cu fuel (ctype t) lim args r.
Proof.
  destruct t as [p| |n t|m fs|m p e b vs|p|s t|]; try reflexivity; cbn [updating_type ctype].
  - rewrite !read_struct. apply bind_ext. intros _ r1 _. apply bind_ext. intros _ r2 _. apply bind_cong, upd_fields_read.
  - rewrite !read_enum. apply bind_ext. intros _ r1 _. apply bind_ext. intros id r2 _. apply upd_variants_read.
Qed.
Lemma upd_write t args v w : write_ty cu (updating_type t) args v w = write_ty cu (ctype t) args v w.
Proof.
  destruct t as [p| |n t|m fs|m p e b vs|p|s t|]; try reflexivity; cbn [updating_type ctype]; destruct v; try reflexivity.
  - rewrite !write_struct. apply bind_ext. intros _ r1 _. apply bind_ext. intros _ r2 _. apply upd_fields_write.
  - rewrite !write_enum. apply bind_ext. intros _ r1 _. apply upd_variant_write.
Qed.
End Same.
Theorem updating_means cu t : means cu (updating_type t) (ctype t).
Proof.
  assert (R : forall fuel r, read_ty cu fuel (updating_type t) None [] r = read_ty cu fuel (ctype t) None [] r) by (intros; apply upd_read).
  assert (W : forall v w, write_ty cu (updating_type t) [] v w = write_ty cu (ctype t) [] v w) by (intros; apply upd_write).
  assert (F : forall fuel s bit, from_reader cu fuel (updating_type t) s bit = from_reader cu fuel (ctype t) s bit).
  { intros fuel s bit. unfold from_reader. erewrite (bind_ext _ _ (fun _ => let* v := read_ty cu fuel (ctype t) None [] in fun r => (Ok (r_bits r, v), r))); [reflexivity|].
    intros _ r _. apply bind_cong, R. }
  split; [exact F|]. split; [intros; unfold from_bytes; now rewrite F|]. split; [intros; unfold try_from; now rewrite F|].
  split; [|split]; intros v; [unfold to_bytes, to_bytes_with|unfold to_bits, to_bits_with; now rewrite W|intros buf; unfold to_slice, to_slice_with]; now rewrite (bind_cong _ _ _ _ (W v _)).
Qed.

(** ** Counts of plain declarations *)

Fixpoint types_of (fs : pfields) : list (pkind * pty) := match fs with PNil => [] | PCons a t tl => (p_kind a, t) :: types_of tl end.
Definition slots (fs : pfields) : list slot := map (fun x => slot_of (fst x) (snd x)) (types_of fs).
Lemma updates_upd all fs : forall k0 k, nth_error (updates_of (fields_upd all k0 fs)) k = option_map (fun x => update_at all (k0 + k) (snd x)) (nth_error (types_of fs) k).
Proof.
  induction fs as [|a t tl IH]; intros k0 k; [now destruct k|]. cbn [fields_upd updates_of types_of]. change (a_temp _) with false. change (a_update _) with (update_at all k0 t).
  destruct k as [|k]; cbn [nth_error option_map snd]; [now rewrite Nat.add_0_r|]. rewrite IH. now replace (S k0 + k) with (k0 + S k) by lia.
Qed.
Lemma updates_length all fs : forall k0, length (updates_of (fields_upd all k0 fs)) = length (types_of fs).
Proof. induction fs as [|a t tl IH]; intros k0; [reflexivity|]. cbn [fields_upd updates_of types_of length]. change (a_temp _) with false. cbn [length]. now rewrite IH. Qed.
Lemma counted_slot whole fs : forall done i k, fields_plain whole done fs = true -> counted_by fs (length done) k = Some i ->
  exists p size t, nth_error (done ++ slots fs) k = Some (SNum p) /\ k < i /\ length done <= i /\ nth_error (types_of fs) (i - length done) = Some (Many k size, t).
Proof.
  induction fs as [|a t tl IH]; intros done i k P C; [discriminate|]. cbn [fields_plain] in P.
  apply andb_true_iff in P. destruct P as [P P5]. apply andb_true_iff in P. destruct P as [P P4]. apply andb_true_iff in P. destruct P as [P P3].
  apply andb_true_iff in P. destruct P as [P1 P2].
  assert (REC : counted_by tl (S (length done)) k = Some i -> exists p size t', nth_error (done ++ slots (PCons a t tl)) k = Some (SNum p) /\ k < i /\ length done <= i /\
      nth_error (types_of (PCons a t tl)) (i - length done) = Some (Many k size, t')).
  { intros C'. destruct (IH (done ++ [slot_of (p_kind a) t]) i k P5) as (p & size & t' & H1 & H2 & H3 & H4); [rewrite app_length; cbn [length]; now replace (length done + 1) with (S (length done)) by lia|].
    rewrite app_length in H3, H4. cbn [length] in H3, H4. exists p, size, t'. rewrite <- app_assoc in H1. split; [exact H1|]. split; [exact H2|]. split; [lia|].
    replace (i - length done) with (S (i - (length done + 1))) by lia. exact H4. }
  cbn [counted_by] in C. destruct (p_kind a) as [|j size|j|j size] eqn:EK; try (now apply REC).
  destruct (Nat.eqb_spec j k) as [->|]; [|now apply REC]. injection C as <-. unfold kind_plain in P2. rewrite EK in P2.
  destruct (nth_error done k) as [[p| |]|] eqn:E; try discriminate. exists p, size, t.
  assert (Hk : k < length done) by (apply nth_error_Some; congruence).
  split; [now rewrite nth_error_app1|]. split; [exact Hk|]. split; [lia|]. rewrite Nat.sub_diag. cbn [types_of nth_error]. now rewrite EK.
Qed.
Lemma slot_int fs : forall k p, nth_error (slots fs) k = Some (SNum p) -> nth_error (types_of fs) k = Some (One, PInt p) /\ int_at fs k = Some p.
Proof.
  induction fs as [|a t tl IH]; intros k p H; [now destruct k|]. destruct k as [|k].
  - unfold slots in H. cbn [types_of map nth_error fst snd] in H. unfold slot_of in H. cbn [types_of nth_error int_at]. destruct (p_kind a), t; try discriminate. now injection H as ->.
  - destruct (IH k p H) as [H1 H2]. split; [exact H1|]. cbn [int_at]. now destruct t.
Qed.
(** A count is an integer before what it counts, and what is counted is no count. *)
Lemma count_facts whole fs k i : fields_plain whole [] fs = true -> counted_by fs 0 k = Some i ->
  exists p, nth_error (types_of fs) k = Some (One, PInt p) /\ int_at fs k = Some p /\ k < i /\ i < length (types_of fs) /\ counted_by fs 0 i = None /\
    exists size t, nth_error (types_of fs) i = Some (Many k size, t).
Proof.
  intros P C. destruct (counted_slot whole fs [] i k P C) as (p & size & t & H1 & H2 & _ & H4). rewrite Nat.sub_0_r in H4. destruct (slot_int fs k p H1) as [H5 H6].
  exists p. split; [exact H5|]. split; [exact H6|]. split; [exact H2|]. split; [apply nth_error_Some; congruence|]. split; [|eauto].
  destruct (counted_by fs 0 i) as [j|] eqn:C2; [|reflexivity]. destruct (counted_slot whole fs [] j i P C2) as (q & ? & ? & X & _). destruct (slot_int fs i q X). congruence.
Qed.

(** ** Values *)

Lemma typed_length fs : forall l, fields_typed (cfields fs) l -> length l = length (types_of fs).
Proof.
  induction fs as [|a t tl IH]; intros l T; [now rewrite T|]. cbn [cfields] in T. rewrite fields_typed_cons in T. change (a_temp _) with false in T. cbn iota in T.
  destruct l as [|v l]; [destruct T|]. destruct T as [_ T]. cbn [length types_of]. now rewrite (IH l T).
Qed.
Lemma typed_nth fs : forall l k kd t, fields_typed (cfields fs) l -> nth_error (types_of fs) k = Some (kd, t) -> typed (holding kd (ctype t)) (nth k l VUnit).
Proof.
  induction fs as [|a t tl IH]; intros l k kd t' T H; [now destruct k|]. cbn [cfields] in T. rewrite fields_typed_cons in T. change (a_temp _) with false in T. cbn iota in T.
  destruct l as [|v l]; [destruct T|]. destruct T as [T1 T2]. destruct k as [|k]; [|exact (IH l k kd t' T2 H)]. cbn [types_of nth_error] in H. now injection H as <- <-.
Qed.
Lemma typed_from fs : forall l, length l = length (types_of fs) -> (forall k kd t, nth_error (types_of fs) k = Some (kd, t) -> typed (holding kd (ctype t)) (nth k l VUnit)) ->
  fields_typed (cfields fs) l.
Proof.
  induction fs as [|a t tl IH]; intros l HL H; [now destruct l|]. cbn [cfields]. rewrite fields_typed_cons. change (a_temp _) with false. cbn iota.
  destruct l as [|v l]; [discriminate|]. split; [exact (H 0 _ _ eq_refl)|]. apply IH; [now injection HL|]. intros k. exact (H (S k)).
Qed.
Lemma nth_same {A} (l l' : list A) k d : length l = length l' -> (nth_error l k = nth_error l' k <-> nth k l d = nth k l' d).
Proof.
  intros HL. destruct (Nat.lt_ge_cases k (length l)) as [H|H].
  - rewrite (nth_error_nth' l d H), (nth_error_nth' l' d) by lia. split; [now intros [= ->]|now intros ->].
  - rewrite !nth_overflow by lia. replace (nth_error l k) with (@None A) by (symmetry; now apply nth_error_None). replace (nth_error l' k) with (@None A) by (symmetry; apply nth_error_None; lia). tauto.
Qed.
Lemma nth_skipn {A} n (l : list A) i d : nth i (skipn n l) d = nth (n + i) l d.
Proof. revert l. induction n as [|n IH]; intros l; [reflexivity|]. destruct l as [|x l]; [now destruct i|]. apply IH. Qed.
Lemma len_at_mixed l l' k i : k < i -> length l' = length l -> len_at (firstn k l' ++ skipn k l) i = len_at l i.
Proof.
  intros H HL. unfold len_at. destruct (Nat.lt_ge_cases k (length l)) as [Hk|Hk].
  - rewrite app_nth2; rewrite firstn_length_le by lia; [|lia]. rewrite nth_skipn. now replace (k + (i - k)) with i by lia.
  - rewrite skipn_all2, app_nil_r by lia. rewrite !nth_overflow; [reflexivity|lia|rewrite firstn_length; lia].
Qed.
Section Fields.
Variables (whole : bool) (fs : pfields).
Hypothesis P : fields_plain whole [] fs = true.
Definition but (l l' : list value) : Prop := length l = length l' /\ forall k, is_count fs k = false -> nth k l VUnit = nth k l' VUnit.
Definition right (l : list value) : Prop := forall k i, counted_by fs 0 k = Some i -> nth k l VUnit = VNum (len_at l i).
Definition small (l : list value) : Prop := forall k i p, counted_by fs 0 k = Some i -> int_at fs k = Some p -> (len_at l i < 2 ^ N.of_nat (prim_width p))%N.
Lemma but_len l l' k i : but l l' -> counted_by fs 0 k = Some i -> len_at l i = len_at l' i.
Proof. intros [_ H] C. destruct (count_facts whole fs k i P C) as (p & _ & _ & _ & _ & N & _). unfold len_at. rewrite (H i); [reflexivity|]. unfold is_count. now rewrite N. Qed.
Lemma upd_ok l l' : fields_typed (cfields fs) l -> (update_fields (fields_upd fs 0 fs) [] l = Ok l' <-> fields_typed (cfields fs) l' /\ but l l' /\ right l').
Proof.
  intros T. pose proof (typed_length _ _ T) as HL. rewrite updated_fields by now rewrite updates_length. split.
  - intros [HL' H].
    assert (HU : forall k kd t, nth_error (types_of fs) k = Some (kd, t) -> match update_at fs k t with
        None => nth_error l' k = nth_error l k | Some f => exists x, f (firstn k l' ++ skipn k l) = Ok x /\ nth_error l' k = Some x end).
    { intros k kd t E. apply (H k). rewrite updates_upd, E. reflexivity. }
    assert (B : but l l').
    { split; [now symmetry|]. intros k N. apply (nth_same l l' k VUnit); [now symmetry|]. symmetry. unfold is_count in N. destruct (nth_error (types_of fs) k) as [[kd t]|] eqn:E.
      - specialize (HU k kd t E). unfold update_at in HU. destruct (counted_by fs 0 k); [discriminate|]. destruct t; exact HU.
      - apply nth_error_None in E. replace (nth_error l k) with (@None value) by (symmetry; apply nth_error_None; lia). apply nth_error_None. lia. }
    assert (R : right l' /\ small l).
    { assert (X : forall k i, counted_by fs 0 k = Some i -> exists p, int_at fs k = Some p /\ nth k l' VUnit = VNum (len_at l i) /\ (len_at l i < 2 ^ N.of_nat (prim_width p))%N).
      { intros k i C. destruct (count_facts whole fs k i P C) as (p & E1 & E2 & E3 & _). exists p. split; [exact E2|]. specialize (HU k _ _ E1). unfold update_at in HU. rewrite C in HU.
        destruct HU as (x & Hx & Hn). unfold len_into in Hx. rewrite (len_at_mixed l l' k i E3 HL') in Hx. destruct (len_at l i <? _)%N eqn:EL; [|discriminate].
        apply ok_inj in Hx. subst x. split; [now apply nth_error_nth|]. now apply N.ltb_lt. }
      split; [intros k i C; destruct (X k i C) as (p & _ & E & _); now rewrite <- (but_len l l' k i B C)|].
      intros k i p C E. destruct (X k i C) as (q & E' & _ & E2). now replace p with q by congruence. }
    destruct R as [R S]. split; [|split; assumption]. apply typed_from; [lia|]. intros k kd t E.
    destruct (is_count fs k) eqn:N.
    + unfold is_count in N. destruct (counted_by fs 0 k) as [i|] eqn:C; [|discriminate]. destruct (count_facts whole fs k i P C) as (p & E1 & E2 & _).
      rewrite E in E1. injection E1 as -> ->. rewrite (R k i C), <- (but_len l l' k i B C). exact (S k i p C E2).
    + rewrite <- (proj2 B k N). now apply (typed_nth fs l k kd t T).
  - intros (T' & B & R). pose proof (typed_length _ _ T') as HL'. split; [lia|]. intros k u H. rewrite updates_upd in H. destruct (nth_error (types_of fs) k) as [[kd t]|] eqn:E; [|discriminate].
    injection H as <-. cbn [snd Nat.add]. destruct (counted_by fs 0 k) as [i|] eqn:C.
    + destruct (count_facts whole fs k i P C) as (p & E1 & E2 & E3 & _). rewrite E in E1. injection E1 as -> ->. unfold update_at. rewrite C.
      pose proof (typed_nth fs l' k _ _ T' E) as TK. rewrite (R k i C) in TK. cbn [holding ctype typed_in] in TK.
      exists (VNum (len_at l i)). unfold len_into. rewrite (len_at_mixed l l' k i E3) by lia. rewrite (but_len l l' k i B C). rewrite (proj2 (N.ltb_lt _ _) TK).
      split; [reflexivity|]. rewrite (nth_error_nth' l' VUnit) by (rewrite HL'; apply nth_error_Some; congruence). now rewrite (R k i C).
    + unfold update_at. rewrite C. assert (X : nth_error l' k = nth_error l k) by (symmetry; apply (nth_same l l' k VUnit (proj1 B)), (proj2 B); unfold is_count; now rewrite C).
      destruct t; exact X.
Qed.
Lemma upd_no_panic all gs : forall k pre todo, length todo = length (types_of gs) ->
  (exists l, update_fields (fields_upd all k gs) pre todo = Ok l) \/ update_fields (fields_upd all k gs) pre todo = Err Parse.
Proof.
  induction gs as [|a t tl IH]; intros k pre todo HL; [left; eexists; reflexivity|]. cbn [fields_upd update_fields]. change (a_temp _) with false. change (a_update _) with (update_at all k t). cbn iota.
  destruct todo as [|v todo]; [discriminate|]. injection HL as HL. destruct (update_at all k t) as [f|] eqn:E; [|now apply IH].
  assert (X : forall s, (exists n, f s = Ok n) \/ f s = Err Parse).
  { intros s. unfold update_at in E. destruct t; try discriminate. destruct (counted_by all 0 k); [|discriminate]. injection E as <-. unfold len_into. destruct (_ <? _)%N; eauto. }
  destruct (X (pre ++ v :: todo)) as [[n ->]| ->]; [|now right]. cbn [res_bind]. now apply IH.
Qed.
Lemma upd_total l : fields_typed (cfields fs) l ->
  (small l -> exists l', update_fields (fields_upd fs 0 fs) [] l = Ok l') /\ (~ small l -> update_fields (fields_upd fs 0 fs) [] l = Err Parse).
Proof.
  intros T. pose proof (typed_length _ _ T) as HL. destruct (upd_no_panic fs fs 0 [] l HL) as [[l' E]|E]; (split; [intros S|intros S]).
  - eauto.
  - exfalso. apply S. pose proof (proj1 (upd_ok l l' T) E) as (T' & B & R). intros k i p C E2.
    destruct (count_facts whole fs k i P C) as (q & E1 & E2' & _). replace p with q by congruence. pose proof (typed_nth fs l' k _ _ T' E1) as TK. rewrite (R k i C) in TK.
    rewrite (but_len l l' k i B C). exact TK.
  - exfalso. assert (HU : length l = length (updates_of (fields_upd fs 0 fs))) by now rewrite updates_length. destruct (updates_err _ [] l Parse HU E) as (k & f & l' & E1 & E2 & E3). rewrite updates_upd in E1.
    destruct (nth_error (types_of fs) k) as [[kd t]|] eqn:ET; [|discriminate]. cbn [option_map snd Nat.add] in E1. injection E1 as E1. unfold update_at in E1.
    destruct t; try discriminate. destruct (counted_by fs 0 k) as [i|] eqn:C; [|discriminate]. injection E1 as <-. destruct (count_facts whole fs k i P C) as (q & Q1 & Q2 & Q3 & Q4 & _).
    rewrite ET in Q1. injection Q1 as -> ->. unfold len_into in E3. cbn [app] in E3.
    assert (LE : len_at (l' ++ skipn k l) i = len_at l i).
    { unfold len_at. rewrite app_nth2 by lia. rewrite E2, nth_skipn. now replace (k + (i - k)) with i by lia. }
    rewrite LE in E3. specialize (S k i q C Q2). rewrite (proj2 (N.ltb_lt _ _) S) in E3. discriminate.
  - exact E.
Qed.
End Fields.

(** ** The fields of a struct or variant *)

Lemma nth_plain whole vs : forall k l, variants_plain whole vs = true -> variant_typed (cvariants vs) k l ->
  fields_plain whole [] (nth_fields vs k) = true /\ fields_typed (cfields (nth_fields vs k)) l /\
  (forall l', variant_typed (cvariants vs) k l' <-> fields_typed (cfields (nth_fields vs k)) l') /\
  exists v, nth_variant (variants_upd vs) k = Some (v, fields_upd (nth_fields vs k) 0 (nth_fields vs k)).
Proof.
  induction vs as [|id fs tl IH]; intros k l P T; [destruct T|]. cbn [variants_plain] in P. apply andb_true_iff in P. destruct P as [P1 P2]. destruct k as [|k].
  - cbn [nth_fields cvariants variant_typed_in variants_upd nth_variant] in *. split; [exact P1|]. split; [exact T|]. split; [reflexivity|]. eexists. reflexivity.
  - exact (IH k l P2 T).
Qed.
(** What is updated: the fields, and the value made of them. *)
Lemma decompose t v : plain_type t = true -> container t = true -> typed (ctype t) v ->
  exists whole fs l (mk : list value -> value), fields_plain whole [] fs = true /\ fields_typed (cfields fs) l /\ v = mk l /\ parts t v = (fs, l) /\
    (forall l', parts t (mk l') = (fs, l')) /\ (forall l', fields_typed (cfields fs) l' <-> typed (ctype t) (mk l')) /\
    (forall l l', mk l = mk l' -> l = l') /\
    (forall v', typed (ctype t) v' -> match v, v' with VVar k _, VVar k' _ => k = k' | _, _ => True end -> exists l', v' = mk l') /\
    (forall l', match v, mk l' with VVar k _, VVar k' _ => k = k' | _, _ => True end) /\
    update (updating_type t) v = res_map (update_fields (fields_upd fs 0 fs) [] l) mk.
Proof.
  intros P C T.
  assert (Q : exists whole, plain_in whole t None None = true) by (unfold plain_type in P; apply orb_prop in P; destruct P; eauto). destruct Q as [whole Q].
  destruct t as [p| |n t|m fs|m p e b vs|p|s t|]; try discriminate; cbn [plain_in] in Q.
  - apply andb_true_iff in Q. destruct Q as [_ Q]. destruct v as [z|z|z|z z2|z| |l|k l|z|z|z|z]; try contradiction. exists whole, fs, l, VRec.
    split; [exact Q|]. split; [exact T|]. split; [reflexivity|]. split; [reflexivity|]. split; [reflexivity|]. split; [reflexivity|]. split; [now intros ? ? [= ->]|].
    split; [intros [] H; try contradiction; eauto|]. split; [reflexivity|]. reflexivity.
  - apply andb_true_iff in Q. destruct Q as [_ Q]. destruct v as [z|z|z|z z2|z| |l|k l|z|z|z|z]; try contradiction. cbn [ctype typed_in] in T. fold (variant_typed (cvariants vs) k l) in T.
    destruct (nth_plain whole vs k l Q T) as (P1 & P2 & P3 & va & P4). exists whole, (nth_fields vs k), l, (VVar k).
    split; [exact P1|]. split; [exact P2|]. split; [reflexivity|]. split; [reflexivity|]. split; [reflexivity|]. split; [intros l'; now rewrite <- P3|]. split; [now intros ? ? [= ->]|].
    split; [intros [] H; try contradiction; intros ->; eauto|]. split; [reflexivity|]. cbn [updating_type update]. now rewrite P4.
Qed.
Theorem update_ok t v v' : plain_type t = true -> container t = true -> typed (ctype t) v ->
  (update (updating_type t) v = Ok v' <-> typed (ctype t) v' /\ but_counts t v v' /\ counts_right t v').
Proof.
  intros P C T. destruct (decompose t v P C T) as (whole & fs & l & mk & Q & TF & EV & EP & MP & MT & MI & MK & MS & ->).
  unfold res_map. split.
  - intros E. destruct (update_fields _ [] l) as [l'| | |] eqn:EU; try discriminate. apply ok_inj in E. subst v'.
    apply (upd_ok whole fs Q l l' TF) in EU. destruct EU as (T' & [B1 B2] & R). split; [now apply MT|]. split.
    + split; [apply MS|]. rewrite EP, MP. split; [exact B1|exact B2].
    + unfold counts_right. rewrite MP. exact R.
  - intros (T' & [B0 B] & R). destruct (MK v' T' B0) as [l' ->]. unfold counts_right in R. rewrite MP in R. rewrite EP, MP in B.
    assert (EU : update_fields (fields_upd fs 0 fs) [] l = Ok l') by (apply (upd_ok whole fs Q l l' TF); split; [now apply MT|split; [exact B|exact R]]). now rewrite EU.
Qed.
Theorem update_total t v : plain_type t = true -> container t = true -> typed (ctype t) v ->
  (lengths_fit t v -> exists v', update (updating_type t) v = Ok v') /\ (~ lengths_fit t v -> update (updating_type t) v = Err Parse).
Proof.
  intros P C T. destruct (decompose t v P C T) as (whole & fs & l & mk & Q & TF & EV & EP & MP & MT & MI & MK & MS & ->).
  unfold lengths_fit. rewrite EP. cbn [fst snd]. destruct (upd_total whole fs Q l TF) as [H1 H2]. split.
  - intros S. destruct (H1 S) as [l' ->]. eexists. reflexivity.
  - intros S. now rewrite (H2 S).
Qed.

(** ** Fitting values *)

Lemma fit_right whole fs : forall done acc l i k, fields_plain whole done fs = true -> before done acc -> fields_fit fs acc l = true -> counted_by fs (length acc) k = Some i ->
  count_at (acc ++ l) k = len_at (acc ++ l) i.
Proof.
  induction fs as [|a t tl IH]; intros done acc l i k P B F C; [discriminate|]. destruct l as [|v l]; [discriminate|]. rewrite fields_fit_cons in F. apply andb_true_iff in F. destruct F as [F1 F2].
  cbn [fields_plain] in P.
  apply andb_true_iff in P. destruct P as [P P5]. apply andb_true_iff in P. destruct P as [P P4]. apply andb_true_iff in P. destruct P as [P P3].
  apply andb_true_iff in P. destruct P as [P1 P2].
  assert (REC : counted_by tl (S (length acc)) k = Some i -> count_at (acc ++ v :: l) k = len_at (acc ++ v :: l) i).
  { intros C'. pose proof (IH (done ++ [slot_of (p_kind a) t]) (acc ++ [v]) l i k P5) as X. rewrite <- app_assoc in X. apply X; [|exact F2|rewrite app_length; cbn [length]; now replace (length acc + 1) with (S (length acc)) by lia].
    exact (before_snoc _ _ _ _ _ B (body_typed _ _ _ _ F1)). }
  cbn [counted_by] in C. unfold body_fits in F1. unfold kind_plain in P2. destruct (p_kind a) as [|j size|j|j size] eqn:EK; try (now apply REC).
  destruct (Nat.eqb_spec j k) as [->|]; [|now apply REC]. injection C as <-. destruct v; try discriminate. apply andb_true_iff in F1. destruct F1 as [F1 _].
  assert (Hk : k < length acc).
  { destruct B as [<- _]. apply nth_error_Some. destruct (nth_error done k); [discriminate|discriminate P2]. }
  unfold len_at, count_at. rewrite app_nth1 by exact Hk. rewrite app_nth2, Nat.sub_diag by lia. cbn [nth]. apply N.eqb_eq in F1. symmetry. exact F1.
Qed.
Lemma fits_counts_right t v : plain_type t = true -> container t = true -> value_fits None t v = true -> counts_right t v.
Proof.
  intros P C F. pose proof (proj1 plain_typed t None v F) as T. destruct (decompose t v P C T) as (whole & fs & l & mk & Q & TF & EV & EP & MP & _). unfold counts_right. rewrite EP. cbn [fst snd].
  assert (FF : fields_fit fs [] l = true).
  { clear - EP F C. destruct t as [p| |n t|m gs|m p e b vs|p|s t|]; try discriminate; destruct v as [z|z|z|z z2|z| |l0|k l0|z|z|z|z]; try discriminate; cbn [parts] in EP; injection EP as <- <-; cbn [value_fits] in F; [exact F|].
    clear C. revert k F. induction vs as [|id gs tl IH]; intros k F; [discriminate|]. destruct k as [|k]; [exact F|exact (IH k F)]. }
  intros k i CB. pose proof (fit_right whole fs [] [] l i k Q before_nil FF CB) as X. cbn [app] in X. destruct (count_facts whole fs k i Q CB) as (p & E1 & _).
  pose proof (typed_nth fs l k _ _ TF E1) as TK. unfold count_at in X. destruct (nth k l VUnit); try contradiction. now rewrite X.
Qed.
Theorem update_repairs cu fuel t v v' : plain_type t = true -> container t = true -> typed (ctype t) v -> value_fits None t v' = true -> but_counts t v v' ->
  update (updating_type t) v = Ok v' /\
  exists bytes, to_bytes cu (updating_type t) v' = Ok bytes /\ (length (wire None None t v') <= fuel -> forall tail, exists rest, from_bytes cu fuel (updating_type t) (bytes ++ tail) 0 = Ok (rest, v')).
Proof.
  intros P C T F B. split.
  - apply update_ok; try assumption. split; [exact (proj1 plain_typed t None v' F)|]. split; [exact B|]. now apply fits_counts_right.
  - destruct (updating_means cu t) as (_ & R & _ & W & _). rewrite (W v'). destruct (format cu t v' P F) as (_ & bytes & pad & E & HB & _). exists bytes. split; [exact E|].
    intros HF tail. rewrite R. eexists. apply (read_back cu fuel t v' (bytes ++ tail) (repeat false pad ++ bits_of_bytes tail) P F); [|exact HF].
    unfold bits_of_bytes in *. now rewrite flat_map_app, HB, <- app_assoc.
Qed.
Theorem update_again t v v' : plain_type t = true -> container t = true -> typed (ctype t) v -> update (updating_type t) v = Ok v' ->
  update (updating_type t) v' = Ok v'.
Proof.
  intros P C T E. apply (update_ok t v v' P C T) in E. destruct E as (T' & _ & R). apply update_ok; try assumption. split; [exact T'|]. split; [|exact R].
  split; [now destruct v'|]. split; reflexivity.
Qed.
