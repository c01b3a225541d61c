From Coq Require Import Lia ZifyBool ZifyNat ZifyN.
From Verif Require Import Base MonadFacts Spec Stream Reader Session Writer WSession Prims CodecSpec
  BitsFacts NFacts ReaderFacts ReaderOps FastRead SessionFacts WriterFacts WriterProps CodecFacts PrimFacts Containers ContainerSpec Derive DeriveSpec DeriveSound DeriveProps Sugar RetypeSpec.
From Verif Require FaultSafe.
Ltac Zify.zify_post_hook ::= Z.div_mod_to_equations.

(** ** A number *)

Lemma from_be_zeros m l : from_be (repeat x00 m ++ l) = from_be l.
Proof.
  unfold from_be. rewrite bits_of_bytes_app. replace (bits_of_bytes (repeat x00 m)) with (repeat false (8 * m)).
  - rewrite bits2N_app. replace (bits2N (repeat false (8 * m))) with 0%N; [lia|]. generalize (8 * m). intros k. rewrite <- N2bits_0, bits2N_N2bits. symmetry. apply N.mod_0_l, pow2_nz.
  - induction m as [|m IH]; [reflexivity|]. replace (8 * S m) with (8 + 8 * m) by lia. rewrite repeat_app, IH. reflexivity.
Qed.
Lemma from_le_zeros m l : from_le (l ++ repeat x00 m) = from_le l.
Proof. unfold from_le. rewrite rev_app_distr, rev_repeat. apply from_be_zeros. Qed.
Lemma bytes_zeros m : bytes_of_bits (repeat false (8 * m)) = repeat x00 m.
Proof. rewrite <- N2bits_0. apply be_0. Qed.

(** The value does not depend on the type. *)
Definition u_value (e : endian) (o : order) (bits : list bool) : N :=
  let len := length bits in
  let pad := 8 * ceil8 len - len in
  match e, o with
  | Big, Msb0 => bits2N bits
  | Little, Msb0 => from_le (bytes_of_bits (firstn (len - (8 - pad)) bits ++ repeat false pad ++ skipn (len - (8 - pad)) bits))
  | _, Lsb0 => from_e e (map byte_of_bits (rchunks8 (repeat false pad ++ bits)))
  end.
Lemma u_of_value wb e n o bits : length bits = n -> 1 <= n <= 8 * wb -> u_of_bits wb e n o bits = Ok (u_value e o bits).
Proof.
  intros Hl Hn. unfold u_of_bits, u_value. rewrite Hl.
  pose proof (nat_in n wb (proj2 Hn)) as Hc. replace (8 * wb <? n + (8 * ceil8 n - n)) with false by (unfold ceil8 in *; lia).
  assert (NE : bits <> []) by (intros ->; cbn in Hl; lia).
  set (pad := 8 * ceil8 n - n) in *. assert (Hp : pad < 8 /\ n + pad = 8 * ceil8 n) by (unfold pad, ceil8; lia).
  destruct ((pad =? 0) && (n =? 8 * wb) && negb (order_eqb o Lsb0)) eqn:Ef.
  - destruct o; [|cbn [order_eqb negb] in Ef; lia]. assert (P0 : pad = 0) by lia. rewrite P0. destruct e; cbn [from_e].
    + cbn [repeat app]. now rewrite firstn_skipn.
    + unfold from_be. rewrite bits_bytes_of_bits by lia. reflexivity.
  - destruct e, o.
    + replace (n <? 8 - pad) with false by lia. set (i := n - (8 - pad)).
      assert (Li : length (firstn i bits) = i) by (rewrite firstn_length; unfold i; lia).
      assert (EI : bbv_inserts (8 * wb) pad i bits = Ok (firstn i bits ++ repeat false pad ++ skipn i bits)).
      { rewrite <- (firstn_skipn i bits) at 1. rewrite <- Li at 1. apply inserts_at; [rewrite firstn_skipn; unfold ceil8 in *; lia|].
        intros E. apply (f_equal (@length bool)) in E. rewrite skipn_length in E. cbn [length] in E. unfold i in E. lia. }
      rewrite EI.
      cbn [res_bind]. set (b1 := firstn i bits ++ repeat false pad ++ skipn i bits).
      assert (L1 : length b1 = 8 * ceil8 n) by (unfold b1; rewrite !app_length, repeat_length, firstn_length, skipn_length; unfold i; lia).
      unfold bbv_pushes. rewrite L1. replace (_ <=? _) with true by lia. cbn [res_bind].
      replace (8 * wb - 8 * ceil8 n) with (8 * (wb - ceil8 n)) by lia. rewrite bytes_of_bits_app by lia. rewrite bytes_zeros, from_le_zeros. reflexivity.
    + rewrite Nat.eqb_refl. cbn [negb]. rewrite inserts_front by (try (left; exact NE); lia). cbn [res_bind].
      set (ch := map byte_of_bits _). assert (Lc : length ch = ceil8 n).
      { unfold ch. rewrite rchunks8_whole by (rewrite app_length, repeat_length; lia). rewrite rev_length, bytes_of_bits_length, app_length, repeat_length; lia. }
      rewrite Nat.sub_0_r, firstn_all2 by lia. cbn [repeat app from_e]. now rewrite from_le_zeros.
    + replace (0 <? n) with true by lia. reflexivity.
    + rewrite Nat.eqb_refl. cbn [negb]. rewrite inserts_front by (try (left; exact NE); lia). cbn [res_bind].
      set (ch := map byte_of_bits _). assert (Lc : length ch = ceil8 n).
      { unfold ch. rewrite rchunks8_whole by (rewrite app_length, repeat_length; lia). rewrite rev_length, bytes_of_bits_length, app_length, repeat_length; lia. }
      replace (wb - (wb - ceil8 n)) with (ceil8 n) by lia. rewrite firstn_all2 by lia. rewrite Lc, Nat.sub_diag. cbn [repeat from_e]. rewrite app_nil_r. now rewrite from_be_zeros.
Qed.

Definition returns {A} (Q : A -> Prop) (m : RM A) : Prop := forall r v r', m r = (Ok v, r') -> Q v.
Lemma returns_bind {A B} (P : A -> Prop) (Q : B -> Prop) (m : RM A) (f : A -> RM B) : returns P m -> (forall a, P a -> returns Q (f a)) -> returns Q (bind m f).
Proof. intros H F r v r'. unfold bind. destruct (m r) as [[a|e| |] r1] eqn:E; try discriminate. intros E'. exact (F a (H _ _ _ E) _ _ _ E'). Qed.
Lemma returns_ret {A} (Q : A -> Prop) a : Q a -> returns Q (ret a).
Proof. intros H r v r' E. injection E as <- _. exact H. Qed.
Lemma returns_any {A} (m : RM A) : returns (fun _ => True) m.
Proof. intros r v r' _. exact I. Qed.
Lemma fill_length k d : returns (fun bs => length bs = k) (fill_slots d k).
Proof.
  induction k as [|k IH]; cbn [fill_slots]; [now apply returns_ret|]. intros r v r'. destruct (r_io 1 r) as [[b|e] r1].
  - exact (returns_bind _ (fun bs => length bs = S k) _ _ IH (fun a Ha => returns_ret _ (hd x00 b :: a) (f_equal S Ha)) r1 v r').
  - destruct (is_eof e); [discriminate|]. exact (returns_bind _ (fun bs => length bs = S k) _ _ IH (fun a Ha => returns_ret _ (x00 :: a) (f_equal S Ha)) r1 v r').
Qed.
Lemma concat_bits bs : length (concat (map byte_bits bs)) = 8 * length bs.
Proof. induction bs as [|b bs IH]; [reflexivity|]. cbn [map concat length]. rewrite app_length, IH, byte_bits_length. lia. Qed.
Lemma concat_rev_bits bs : length (concat (rev (map byte_bits bs))) = 8 * length bs.
Proof. rewrite <- map_rev, concat_bits, rev_length. reflexivity. Qed.
Lemma bits_length n o : returns (fun bits => length bits = n) (read_bits_into n o).
Proof.
  unfold read_bits_into. destruct (Nat.eqb_spec n 0) as [->|Hn]; [now apply returns_ret|]. intros r. set (prev := left_bits (r_left r)). generalize (r_set_left r None).
  match goal with |- forall r0 v r', ?m r0 = _ -> _ => change (returns (fun bits => length bits = n) m) end.
  apply returns_bind with (P := fun bits => length bits = n).
  - destruct (Nat.compare_spec n (length prev)) as [E|L|G].
    + eapply returns_bind; [apply returns_any|]. intros _ _. now apply returns_ret.
    + eapply returns_bind; [apply returns_any|]. intros _ _. destruct o; (eapply returns_bind; [apply returns_any|]); intros _ _; apply returns_ret; rewrite ?firstn_length, ?skipn_length; lia.
    + destruct o; [unfold read_greater_msb|unfold read_greater_lsb]; cbv zeta; (eapply returns_bind; [apply fill_length|]); cbv beta; intros bs Lb;
        destruct (Nat.eqb_spec ((n - length prev) mod 8) 0) as [Z|Z].
      all: try (apply returns_ret; rewrite app_length, ?concat_bits, ?concat_rev_bits; lia).
      all: eapply returns_bind; [apply returns_any|]; intros b _; eapply returns_bind; [apply returns_any|]; intros _ _; apply returns_ret;
        rewrite !app_length, ?concat_bits, ?concat_rev_bits, ?firstn_length, ?skipn_length, ?byte_bits_length; lia.
  - intros a Ha. eapply returns_bind; [apply returns_any|]. intros _ _. now apply returns_ret.
Qed.
Lemma uint_small n : 1 <= n <= 64 -> returns (fun v => (v < 2 ^ N.of_nat n)%N) (read_bits_uint_msb0 n).
Proof.
  intros Hn. unfold read_bits_uint_msb0. eapply returns_bind; [apply returns_any|]. intros _ _ r.
  match goal with |- forall v r', (let '(a, h) := ?x in _) = _ -> _ => destruct x as [acc0 have0] end.
  generalize (r_set_left r None). match goal with |- forall r0 v r', ?m r0 = _ -> _ => change (returns (fun v => (v < 2 ^ N.of_nat n)%N) m) end.
  eapply returns_bind; [apply returns_any|]. intros [acc have] _. cbv zeta. eapply returns_bind; [apply returns_any|]. intros _ _. eapply returns_bind; [apply returns_any|]. intros _ _.
  apply returns_ret. replace (N.shiftr (2 ^ 64 - 1) (N.of_nat (64 - n))) with (N.ones (N.of_nat n)).
  - rewrite N.land_ones. apply N.mod_lt, pow2_nz.
  - change (2 ^ 64 - 1)%N with (N.ones 64). apply N.bits_inj. intros i. rewrite N.shiftr_spec by lia.
    destruct (N.ltb_spec i (N.of_nat n)); [rewrite !N.ones_spec_low by lia; reflexivity|rewrite !N.ones_spec_high by lia; reflexivity].
Qed.

(** ** Reading a number *)

Lemma q_after {A B} (Q : A -> Prop) (m : RM A) (f g : A -> RM B) : returns Q m -> (forall a, Q a -> eqv (f a) (g a)) -> eqv (bind m f) (bind m g).
Proof. intros H F r. unfold bind. destruct (m r) as [[a|e| |] r1] eqn:E; auto. apply F. exact (H _ _ _ E). Qed.
Lemma u_bits_same wb wb' e n o : 1 <= n -> n <= 8 * wb -> n <= 8 * wb' -> eqv (read_u_bits wb e n o) (read_u_bits wb' e n o).
Proof.
  intros H1 H2 H3. unfold read_u_bits. replace (8 * wb <? n) with false by lia. replace (8 * wb' <? n) with false by lia. cbv zeta.
  assert (HS : eqv (let* bits := read_bits_into n o in lift (u_of_bits wb e n o bits)) (let* bits := read_bits_into n o in lift (u_of_bits wb' e n o bits))).
  { eapply q_after; [apply bits_length|]. intros bits Hb. cbv beta in Hb. rewrite !u_of_value by (try exact Hb; lia). apply q_refl. }
  destruct e, o; try exact HS. destruct ((0 <? n) && (n <=? 64)) eqn:E64; [|exact HS].
  eapply q_after; [apply uint_small; lia|]. intros v Hv. cbv beta in Hv. unfold wrap. rewrite !N.mod_small; [apply q_refl| |].
  - eapply pow2_small; [|exact Hv]. lia.
  - eapply pow2_small; [|exact Hv]. lia.
Qed.
Lemma bytes_same n b b' o : 1 <= n -> n <= b -> n <= b' -> eqv (read_bytes n b o) (read_bytes n b' o).
Proof.
  intros H1 H2 H3 r. unfold read_bytes, read_bytes_leftover. replace (b <? n) with false by lia. replace (b' <? n) with false by lia.
  destruct (r_left r) as [[x|x]|]; try reflexivity. replace (b =? 0) with false by lia. replace (b' =? 0) with false by lia.
  replace (b <? n - 1) with false by lia. replace (b' <? n - 1) with false by lia. reflexivity.
Qed.
Lemma sized_same wb wb' e n o : 1 <= n -> n <= wb -> n <= wb' -> eqv (read_bytes_sized wb e n o) (read_bytes_sized wb' e n o).
Proof.
  intros H1 H2 H3. unfold read_bytes_sized. replace (wb <? n) with false by lia. replace (wb' <? n) with false by lia.
  apply q_bind; [now apply bytes_same|]. intros bs. destruct e; rewrite ?from_le_zeros, ?from_be_zeros; apply q_refl.
Qed.
Lemma one_byte_len o : returns (fun bs => length bs = 1) (read_bytes 1 1 o).
Proof.
  intros r v r'. unfold read_bytes, read_bytes_leftover. cbn [Nat.ltb Nat.leb]. destruct (r_left r) as [[b|l]|].
  - cbn. intros E. injection E as <- _. reflexivity.
  - revert r v r'. change (returns (fun bs => length bs = 1) (read_bytes_bits 1 o)).
    unfold read_bytes_bits. eapply returns_bind; [apply bits_length|]. intros bits Hb. cbv beta in Hb. cbv zeta. apply returns_ret. destruct o; rewrite ?rev_length, bytes_of_bits_length, Hb; reflexivity.
  - destruct (r_io 1 r) as [[bs|e] r1] eqn:E; [|discriminate]. intros E'. injection E' as <- _. now apply FaultSafe.exact_length in E.
Qed.
Lemma u8_sized e o wb : 1 <= wb -> eqv (read_u8_bytes o) (read_bytes_sized wb e 1 o).
Proof.
  intros H. intros r. rewrite (sized_same wb 1 e 1 o) by lia. revert r. unfold read_u8_bytes, read_bytes_const, read_bytes_sized.
  change (1 <? 1) with false. eapply q_after; [apply one_byte_len|]. intros bs Hb. cbv beta in Hb. destruct bs as [|b [|]]; try discriminate. destruct e; apply q_refl.
Qed.
Lemma eyo_same p q e n o : is_unsigned p -> is_unsigned q -> 1 <= n -> n <= prim_bytes p -> n <= prim_bytes q -> eqv (read_eyo p e n o) (read_eyo q e n o).
Proof.
  intros Hp Hq H1 H2 H3. destruct p as [|wb|wb], q as [|wb'|wb']; try contradiction; cbn [read_eyo prim_bytes] in *.
  - apply q_refl.
  - replace n with 1 by lia. apply u8_sized. lia.
  - replace n with 1 by lia. intros r. symmetry. apply u8_sized. lia.
  - now apply sized_same.
Qed.
Lemma ebo_same p q e n o : is_unsigned p -> is_unsigned q -> 1 <= n -> n <= prim_width p -> n <= prim_width q -> eqv (read_ebo p e n o) (read_ebo q e n o).
Proof.
  unfold prim_width. intros Hp Hq H1 H2 H3. destruct p as [|wb|wb], q as [|wb'|wb']; try contradiction; cbn [read_ebo prim_bytes] in *; now apply u_bits_same.
Qed.
Lemma room_reads p q args : room p q args -> exists c, pctx_of args = Some c /\ eqv (prim_read p c) (prim_read q c).
Proof.
  intros (Hp & Hq & c & Ec & H). exists c. split; [exact Ec|].
  destruct c; cbn [bits_of_ctx bytes_of_ctx] in H; cbn [prim_read]; unfold prim_width in *; try lia;
    try (destruct (Nat.eqb_spec (n mod 8) 0)); (apply eyo_same || apply ebo_same); unfold prim_width; try assumption; lia.
Qed.

(** ** Reading *)

Lemma field_read_given c a u ctx fs rd rd' : (forall lim args, by_field c a lim args -> eqv (rd' lim args) (rd lim args)) -> eqv (read_field c a u ctx fs rd') (read_field c a u ctx fs rd).
Proof.
  intros H. unfold read_field. apply q_bind; [apply q_refl|intros _]. apply q_bind; [apply q_refl|intros _]. apply q_bind; [apply q_refl|intros _].
  intros r. cbv zeta. generalize (r_bits r). intros off. revert r. apply q_bind.
  - assert (HF : eqv (field_read_func c a u ctx fs off rd') (field_read_func c a u ctx fs off rd)).
    { unfold field_read_func. destruct (a_reader a); [apply q_refl|]. cbv zeta.
      assert (HG : forall lim, match a_limit a, lim with None, None => True | Some l, Some x => exists ctx fs off, eval_limit l ctx fs off = Ok x | _, _ => False end ->
        by_field c a lim (field_args c a ctx fs off)) by (intros lim Hl; split; [now exists ctx, fs, off|exact Hl]).
      destruct (a_limit a) as [l|]; [|now apply H, HG]. intros r. unfold bind, lift. destruct (eval_limit l ctx fs off) as [x|e| |] eqn:El; try reflexivity.
      assert (HX : eqv (rd' (Some x) (field_args c a ctx fs off)) (rd (Some x) (field_args c a ctx fs off))) by (apply H, HG; now exists ctx, fs, off).
      destruct u; [|apply HX]. destruct x; try apply HX. reflexivity. }
    assert (HN : eqv (field_read_normal a ctx fs off (field_read_func c a u ctx fs off rd')) (field_read_normal a ctx fs off (field_read_func c a u ctx fs off rd))).
    { unfold field_read_normal. apply q_bind; [exact HF|]. intros v. apply q_refl. }
    unfold field_read_tokens. destruct (a_skip a) as [[]|], (a_cond a) as [f|]; try destruct (f _ _ _); auto using @q_refl.
  - intros v. apply q_refl.
Qed.
Lemma vec_resized {A} f s s' (m : RM A) lim : s <> 0%N -> s' <> 0%N -> (forall n, lim <> LCount n) -> eqv (vec_read f s' m lim) (vec_read f s m lim).
Proof.
  intros H H' Hc. destruct lim as [n|p|n|n|]; cbn [vec_read]; unfold vec_with_predicate, vec_to_end; replace (s =? 0)%N with false by lia; replace (s' =? 0)%N with false by lia; try apply q_refl.
  now destruct (Hc n).
Qed.
Lemma retyped_read cu fuel :
  (forall t G t', retyped room G t t' -> forall lim args, G lim args -> eqv (read_ty cu fuel t' lim args) (read_ty cu fuel t lim args)) /\
  (forall fs c fs', retyped_fields room c fs fs' -> forall ctx id acc, eqv (fields_read cu fuel c ctx fs' id acc) (fields_read cu fuel c ctx fs id acc)) /\
  (forall vs e vs', retyped_variants room e vs vs' -> forall ctx id k d d', match d, d' with None, None => True | Some m, Some m' => eqv m' m | _, _ => False end ->
     eqv (variants_read cu fuel e ctx id vs' k d') (variants_read cu fuel e ctx id vs k d)).
Proof.
  apply types_ind.
  - intros p G [] H lim args HG; cbn [retyped] in H; try contradiction. cbn [read_ty]. destruct H as [<-|H]; [apply q_refl|].
    destruct (room_reads _ _ _ (H _ _ HG)) as (c & Ec & Er). unfold with_pctx. rewrite Ec. destruct lim; [apply q_refl|]. apply q_bind; [intros r; symmetry; apply Er|]. intros v. apply q_refl.
  - intros G [] H lim args HG; cbn [retyped] in H; try contradiction. apply q_refl.
  - intros p G [] H lim args HG; cbn [retyped] in H; try contradiction. cbn [read_ty]. destruct H as [<-|H]; [apply q_refl|].
    destruct (room_reads _ _ _ (H _ _ HG)) as (c & Ec & Er). unfold with_pctx. rewrite Ec. destruct lim; [apply q_refl|]. apply q_bind; [|intros v; apply q_refl].
    unfold read_nonzero. apply q_bind; [intros r; symmetry; apply Er|]. intros v. apply q_refl.
  - intros G [] H lim args HG; cbn [retyped] in H; try contradiction. apply q_refl.
  - intros G [] H lim args HG; cbn [retyped] in H; try contradiction. apply q_refl.
  - intros t IH G [] H lim args HG; cbn [retyped] in H; try contradiction. cbn [read_ty]. apply q_bind; [exact (IH _ _ H _ _ HG)|]. intros v. apply q_refl.
  - intros a IHa b IHb G [] H lim args HG; cbn [retyped] in H; try contradiction. destruct H as [Ha Hb]. cbn [read_ty].
    apply q_bind; [exact (IHa _ _ Ha _ _ HG)|]. intros v. apply q_bind; [exact (IHb _ _ Hb _ _ HG)|]. intros w. apply q_refl.
  - intros n t IH G [] H lim args HG; cbn [retyped] in H; try contradiction. destruct H as [<- H]. cbn [read_ty].
    apply q_bind; [apply q_array; exact (IH _ _ H _ _ HG)|]. intros v. apply q_refl.
  - intros k s t IH G [] H lim args HG; cbn [retyped] in H; try contradiction. destruct H as (<- & Hs & H). cbn [read_ty]. destruct lim as [l|]; [|apply q_refl].
    apply q_bind; [|intros v; apply q_refl]. assert (HE : eqv (read_ty cu fuel t0 None args) (read_ty cu fuel t None args)) by (apply (IH _ _ H); split; [reflexivity|now exists (Some l)]).
    intros r. rewrite (q_vec fuel _ _ _ l HE r). destruct Hs as [<-|(N1 & N2 & Hc)]; [reflexivity|]. apply vec_resized; auto. intros n ->. specialize (Hc _ _ HG). discriminate.
  - intros c fs IH G [] H lim args HG; cbn [retyped] in H; try contradiction. destruct H as [<- H]. cbn [read_ty]. cbv zeta.
    apply q_bind; [apply q_refl|intros _]. apply q_bind; [apply q_refl|intros _]. apply q_bind; [apply (IH _ _ H)|]. intros v. apply q_refl.
  - intros e idt IHi vs IHv G [] H lim args HG; cbn [retyped] in H; try contradiction. destruct H as (<- & Hi & H). cbn [read_ty]. cbv zeta.
    apply q_bind; [apply q_refl|intros _]. apply q_bind.
    + destruct (en_id e); [apply q_refl|]. apply (IHi _ _ Hi). split; [reflexivity|now eexists].
    + intros id. now apply (IHv _ _ H).
  - intros k G [] H lim args HG; cbn [retyped] in H; try contradiction. subst. apply q_refl.
  - intros c [] H ctx id acc; cbn [retyped_fields] in H; try contradiction. apply q_refl.
  - intros a t IHt w IHw tl IHtl c [|a' t' w' tl'] H ctx id acc; cbn [retyped_fields] in H; try contradiction. destruct H as (<- & Hu & Ht & Hw & Htl). cbn [fields_read].
    apply q_bind.
    + rewrite <- Hu. assert (HR : eqv (read_field c a (is_vec_u8 t) ctx acc (fun lim args => read_ty cu fuel w' lim args)) (read_field c a (is_vec_u8 t) ctx acc (fun lim args => read_ty cu fuel w lim args)))
        by (apply field_read_given; intros lim args HG; exact (IHw _ _ Hw _ _ HG)).
      destruct id; [destruct (a_reader a)|]; auto using @q_refl.
    + intros v. apply q_bind; [apply (IHtl _ _ Htl)|]. intros vs. apply q_refl.
  - intros e [] H ctx id k d d' Hd; cbn [retyped_variants] in H; try contradiction. cbn [variants_read]. destruct d, d'; try contradiction; auto using @q_refl.
  - intros v fs IHf tl IHtl e [|v' fs' tl'] H ctx id k d d' Hd; cbn [retyped_variants] in H; try contradiction. destruct H as (<- & Hf & Htl). cbn [variants_read]. cbv zeta.
    assert (HB : eqv (let* l := fields_read cu fuel (en_c e) ctx fs' (if stores_id e v then Some id else None) [] in ret (VVar k l))
      (let* l := fields_read cu fuel (en_c e) ctx fs (if stores_id e v then Some id else None) [] in ret (VVar k l))).
    { apply q_bind; [|intros l; apply q_refl]. destruct (v_sel v); first [exact (IHf _ _ Hf _ _ _)|subst; apply q_refl]. }
    destruct (matches (v_sel v) id); [exact HB|]. apply (IHtl _ _ Htl). destruct d, d'; try contradiction; auto. destruct (v_default v); auto.
Qed.

(** ** The format *)

Lemma room_format o p q args : room_to_write p q args -> forall pos lim n, encode_num o pos q lim args n = encode_num o pos p lim args n.
Proof.
  intros ((Hp & Hq & c & Ec & H) & H4) pos lim n. unfold encode_num. destruct lim; [reflexivity|]. rewrite Ec. unfold encode_prim.
  assert (HB : bits_of_ctx c = None -> forall e m o', bytes_of_ctx 0 c = Some (e, m, o') -> 1 <= m -> forall wb, bytes_of_ctx wb c = Some (e, m, o')).
  { intros _ e m o' E Hm wb. destruct c; cbn in E |- *; try discriminate; try (injection E as <- <- <-; lia); exact E. }
  destruct (bits_of_ctx c) as [[[e m] o']|] eqn:Eb.
  - destruct H as (H1 & H2 & H3). replace (m <=? prim_width q) with true by lia. replace (m <=? prim_width p) with true by lia.
    assert (HH : holds q c m n = holds p c m n) by (destruct p, q; try contradiction; reflexivity). rewrite HH.
    destruct (order_eqb o o') eqn:Eo; [|reflexivity]. assert (o = o') by (destruct o, o'; try discriminate; reflexivity). subst o'.
    destruct (endian_eqb e Little) eqn:Ee; [reflexivity|]. destruct (order_eqb o Msb0) eqn:Em; [reflexivity|].
    assert (m <= 8) by (apply (H4 c m Ec); destruct e, o; try discriminate; exact Eb). replace (m <=? 8) with true by lia. reflexivity.
  - destruct (bytes_of_ctx 0 c) as [[[e m] o']|]; [|contradiction]. destruct H as (H1 & H2 & H3). rewrite !(HB eq_refl e m o' eq_refl H1).
    replace (m <=? prim_bytes q) with true by lia. replace (m <=? prim_bytes p) with true by lia. reflexivity.
Qed.
Lemma encode_list_ext f g : (forall p x, f p x = g p x) -> forall l pos, encode_list f pos l = encode_list g pos l.
Proof. intros H. induction l as [|x l IH]; intros pos; [reflexivity|]. cbn [encode_list]. rewrite H. destruct (g pos x) as [e|]; [|reflexivity]. cbn. now rewrite IH. Qed.
Lemma retyped_nothing G t t' v : retyped room_to_write G t t' -> writes_nothing t' v = writes_nothing t v.
Proof. destruct t, t'; cbn [retyped]; intros H; try contradiction; reflexivity. Qed.
Lemma encode_field_given src o c a u nth ctx fs pos v et et' ew ew' :
  (forall lim args p, by_field c a lim args -> et' lim args p = et lim args p) -> (forall lim args p, by_field c a lim args -> ew' lim args p = ew lim args p) ->
  encode_field src o c a u nth ctx fs pos v et' ew' = encode_field src o c a u nth ctx fs pos v et ew.
Proof.
  intros Ht Hw. unfold encode_field. destruct (a_seek a), (a_reader a), (a_writer a); try reflexivity.
  destruct (encode_magic o pos (a_magic a)) as [m|]; [|reflexivity].
  match goal with |- match ?x with _ => _ end = _ => destruct x as [b|]; [|reflexivity] end. cbv zeta.
  match goal with |- match ?x with _ => _ end = match ?y with _ => _ end => replace x with y; [reflexivity|] end. f_equal.
  destruct (is_read _ _), (is_written _ _); try reflexivity. f_equal.
  assert (HG : forall lim, match a_limit a, lim with None, None => True | Some l, Some x => exists ctx fs off, eval_limit l ctx fs off = Ok x | _, _ => False end ->
    forall off, by_field c a lim (field_args c a ctx fs off)) by (intros lim Hl off; split; [now exists ctx, fs, off|exact Hl]).
  destruct (a_limit a) as [l|]; [|rewrite Ht, Hw by (now apply HG); reflexivity].
  destruct (eval_limit l ctx fs _) as [x|e| |] eqn:El; try reflexivity.
  assert (HX : forall off, by_field c a (Some x) (field_args c a ctx fs off)) by (intros off; apply HG; eauto).
  destruct x; [destruct u|..]; rewrite ?Ht, ?Hw by apply HX; reflexivity.
Qed.
Lemma same_selected e vs vs' : retyped_variants room_to_write e vs vs' -> forall id k, selects vs' id k = selects vs id k.
Proof.
  intros H id k. unfold selects, selected.
  assert (HM : forall vs vs', retyped_variants room_to_write e vs vs' -> forall j, first_match vs' id j = first_match vs id j /\ first_default vs' j = first_default vs j).
  { clear. induction vs as [|v fs tl IH]; intros [|v' fs' tl'] H j; cbn [retyped_variants] in H; try contradiction; [auto|]. destruct H as (<- & _ & H).
    cbn [first_match first_default]. destruct (IH _ H (S j)) as [-> ->]. auto. }
  destruct (HM _ _ H 0) as [-> ->]. reflexivity.
Qed.
Lemma encode_variant_eq src o ce e ctx en sel v fs tl l pos :
  encode_variant src o ce e ctx en sel (VCons v fs tl) 0 l pos =
  (let with_id (x : value) :=
        guard (sel x)
          (let? i := en (id_args e ctx) pos x in
           let? f := encode_fields src o ce (en_c e) ctx fs None l l [] (pos + length i) in
           Some (i ++ f)) in
      match en_id e, v_sel v with
      | Some f, s =>
          guard (sel (f ctx))
            (encode_fields src o ce (en_c e) ctx fs (match s with SPat _ _ => Some (stored_id_args e ctx) | _ => None end) l l [] pos)
      | None, SId x | None, SDisc x => with_id x
      | None, SPat _ d =>
          match fs, l with
          | FNil, _ => let? x := d in with_id x
          | FCons a t _ tl, x :: rest =>
              match a_reader a with
              | None =>
                  guard (negb (a_temp a) && sel x)
                    (let? i := agree (encode src o ce t None (stored_id_args e ctx) pos x) (en (id_args e ctx) pos x) in
                     let? f := encode_fields src o ce (en_c e) ctx tl None l rest [x] (pos + length i) in
                     Some (i ++ f))
              | Some _ => None
              end
          | _, _ => None
          end
      end).
Proof. reflexivity. Qed.
Lemma retyped_format src o ce :
  (forall t G t', retyped room_to_write G t t' -> forall lim args pos v, G lim args -> encode src o ce t' lim args pos v = encode src o ce t lim args pos v) /\
  (forall fs c fs', retyped_fields room_to_write c fs fs' -> forall ctx stored todo acc pos, encode_fields src o ce c ctx fs' None stored todo acc pos = encode_fields src o ce c ctx fs None stored todo acc pos) /\
  (forall vs e vs', retyped_variants room_to_write e vs vs' -> forall ctx en en' sel sel' k l pos, (forall p x, en' (id_args e ctx) p x = en (id_args e ctx) p x) -> (forall x, sel' x = sel x) ->
     encode_variant src o ce e ctx en' sel' vs' k l pos = encode_variant src o ce e ctx en sel vs k l pos).
Proof.
  apply types_ind.
  - intros p G [] H lim args pos v HG; cbn [retyped] in H; try contradiction. cbn [encode]. destruct H as [<-|H]; [reflexivity|]. destruct v; try reflexivity. apply room_format. exact (H _ _ HG).
  - intros G [] H lim args pos v HG; cbn [retyped] in H; try contradiction. reflexivity.
  - intros p G [] H lim args pos v HG; cbn [retyped] in H; try contradiction. cbn [encode]. destruct H as [<-|H]; [reflexivity|]. destruct v; try reflexivity. f_equal. apply room_format. exact (H _ _ HG).
  - intros G [] H lim args pos v HG; cbn [retyped] in H; try contradiction. reflexivity.
  - intros G [] H lim args pos v HG; cbn [retyped] in H; try contradiction. reflexivity.
  - intros t IH G [] H lim args pos v HG; cbn [retyped] in H; try contradiction. cbn [encode]. destruct v; try reflexivity. exact (IH _ _ H _ _ _ _ HG).
  - intros a IHa b IHb G [] H lim args pos v HG; cbn [retyped] in H; try contradiction. destruct H as [Ha Hb]. cbn [encode]. destruct v; try reflexivity.
    rewrite (IHa _ _ Ha _ _ _ _ HG). destruct (encode src o ce a lim args pos v1); [|reflexivity]. now rewrite (IHb _ _ Hb _ _ _ _ HG).
  - intros n t IH G [] H lim args pos v HG; cbn [retyped] in H; try contradiction. destruct H as [<- H]. cbn [encode]. destruct v; try reflexivity.
    rewrite (encode_list_ext _ (fun p x => encode src o ce t lim args p x)) by (intros p x; exact (IH _ _ H _ _ _ _ HG)). reflexivity.
  - intros k s t IH G [] H lim args pos v HG; cbn [retyped] in H; try contradiction. destruct H as (<- & Hs & H). cbn [encode]. destruct v; try reflexivity. destruct lim as [lm|]; [|reflexivity].
    rewrite (encode_list_ext _ (fun p x => encode src o ce t None args p x)) by (intros p x; apply (IH _ _ H); split; [reflexivity|now exists (Some lm)]).
    destruct (encode_list _ _ _) as [es|]; [|reflexivity]. destruct Hs as [<-|(N1 & N2 & Hc)]; [reflexivity|].
    replace (slot_size k size =? 0)%N with false by lia. replace (slot_size k s =? 0)%N with false by lia. specialize (Hc _ _ HG). destruct lm; try discriminate; reflexivity.
  - intros c fs IH G [] H lim args pos v HG; cbn [retyped] in H; try contradiction. destruct H as [<- H]. cbn [encode]. destruct v; try reflexivity. destruct lim, (c_seek c); try reflexivity.
    destruct (encode_magic o pos (c_magic c)); [|reflexivity]. now rewrite (IH _ _ H).
  - intros e idt IHi vs IHv G [] H lim args pos v HG; cbn [retyped] in H; try contradiction. destruct H as (<- & Hi & H). cbn [encode]. destruct v; try reflexivity. destruct lim; [reflexivity|].
    destruct (encode_magic o pos (c_magic (en_c e))); [|reflexivity].
    rewrite (IHv _ _ H _ (fun args p x => encode src o ce idt None args p x) _ (fun id => selects vs id k)); [reflexivity| |].
    + intros p x. apply (IHi _ _ Hi). split; [reflexivity|now eexists].
    + intros x. exact (same_selected _ _ _ H x k).
  - intros k G [] H lim args pos v HG; cbn [retyped] in H; try contradiction. now subst.
  - intros c [] H ctx stored todo acc pos; cbn [retyped_fields] in H; try contradiction. reflexivity.
  - intros a t IHt w IHw tl IHtl c [|a' t' w' tl'] H ctx stored todo acc pos; cbn [retyped_fields] in H; try contradiction. destruct H as (<- & Hu & Ht & Hw & Htl). cbn [encode_fields]. f_equal. cbv zeta.
    rewrite <- Hu, (retyped_nothing _ _ _ _ Ht). rewrite (encode_field_given src o c a _ _ ctx acc pos _ (fun lim args p => encode src o ce t lim args p (field_value a stored todo ctx acc)) _
      (fun lim args p => encode src o ce w lim args p (field_value a stored todo ctx acc)))
      by (intros lim args p HG; first [exact (IHt _ _ Ht _ _ _ _ HG)|exact (IHw _ _ Hw _ _ _ _ HG)]).
    destruct (encode_field _ _ _ _ _ _ _ _ _ _ _ _); [|reflexivity]. now rewrite (IHtl _ _ Htl).
  - intros e [] H; cbn [retyped_variants] in H; try contradiction. intros. reflexivity.
  - intros v fs IHf tl IHtl e [|v' fs' tl'] H ctx en en' sel sel' k l pos He Hs; cbn [retyped_variants] in H; try contradiction. destruct H as (<- & Hf & Htl). destruct k as [|k]; [|exact (IHtl _ _ Htl _ _ _ _ _ _ _ _ He Hs)]. rewrite !encode_variant_eq. cbv zeta.
    destruct (v_sel v) eqn:Ev.
    1,3: assert (HW : forall x, encode_fields src o ce (en_c e) ctx fs' None l l [] x = encode_fields src o ce (en_c e) ctx fs None l l [] x) by (intros x; exact (IHf _ _ Hf _ _ _ _ _));
      rewrite ?Hs; destruct (en_id e) as [f|]; rewrite ?Hs, ?HW, ?He; [reflexivity|]; f_equal; destruct (en (id_args e ctx) pos _); [|reflexivity]; now rewrite HW.
    subst fs'. destruct (en_id e) as [f|]; [now rewrite Hs|]. destruct fs as [|a]; [destruct disc; [|reflexivity]|destruct l as [|x rest]; [reflexivity|]; destruct (a_reader a); [reflexivity|]]; now rewrite Hs, He.
Qed.

(** ** The API *)

Theorem retyped_api cu fuel t t' : retyped room nothing t t' ->
  (forall s bit, from_reader cu fuel t' s bit = from_reader cu fuel t s bit) /\
  (forall input bit, from_bytes cu fuel t' input bit = from_bytes cu fuel t input bit) /\
  (forall input, try_from cu fuel t' input = try_from cu fuel t input).
Proof.
  intros H. pose proof (proj1 (retyped_read cu fuel) _ _ _ H None [] (conj eq_refl eq_refl)) as E.
  assert (HR : forall s bit, from_reader cu fuel t' s bit = from_reader cu fuel t s bit).
  { intros s bit. unfold from_reader.
    assert (Q : eqv (let* _ := if bit =? 0 then ret tt else skip_bits bit Msb0 in let* v := read_ty cu fuel t' None [] in fun r => (Ok (r_bits r, v), r))
      (let* _ := if bit =? 0 then ret tt else skip_bits bit Msb0 in let* v := read_ty cu fuel t None [] in fun r => (Ok (r_bits r, v), r))).
    { apply q_bind; [apply q_refl|intros _]. apply q_bind; [exact E|]. intros v. apply q_refl. }
    now rewrite Q. }
  split; [exact HR|]. split; intros; unfold from_bytes, try_from; now rewrite !HR.
Qed.
Theorem retyped_same_format src o ce t t' : retyped room_to_write nothing t t' -> forall pos v, encode src o ce t' None [] pos v = encode src o ce t None [] pos v.
Proof. intros H pos v. exact (proj1 (retyped_format src o ce) _ _ _ H None [] pos v (conj eq_refl eq_refl)). Qed.
Theorem retyped_same_bytes cu ce o t t' v enc : customs_lawful SeekSource o cu ce -> retyped room_to_write nothing t t' ->
  encode SeekSource o ce t None [] 0 v = Some enc -> exists bytes, to_bytes cu t v = Ok bytes /\ to_bytes cu t' v = Ok bytes.
Proof.
  intros Hcu H He. pose proof He as He'. rewrite <- (retyped_same_format SeekSource o ce t t' H) in He'.
  destruct (round_trip cu _ o ce t v enc Hcu He (le_n _)) as (b & pad & E & HB & Hp & _).
  destruct (round_trip cu _ o ce t' v enc Hcu He' (le_n _)) as (b' & pad' & E' & HB' & Hp' & _).
  exists b. split; [exact E|]. rewrite E'. f_equal. apply (bitstring_inj o). rewrite HB, HB'. do 2 f_equal.
  apply (f_equal (@length bool)) in HB. apply (f_equal (@length bool)) in HB'. rewrite bitstring_length, app_length, repeat_length in HB, HB'. lia.
Qed.
