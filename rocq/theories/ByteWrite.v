(** Writing in the build without bits. *)
From Coq Require Import Lia ZifyBool ZifyNat ZifyN.
From Verif Require Import Base MonadFacts Spec Stream Reader Writer BitsFacts WriterFacts Prims Containers Derive DeriveSpec DeriveFacts DeriveSound DeriveClosed ByteBuild ByteSpec.
Ltac Zify.zify_post_hook ::= Z.div_mod_to_equations.

(** The writers of the two builds, between fields. *)
Definition ksame (k1 k2 : sink) : Prop :=
  k_data k1 = k_data k2 /\ k_pos k1 = k_pos k2 /\ k_fixed k1 = k_fixed k2 /\ k_noseek k1 = None /\ k_noseek k2 = None /\
  (forall n, k_fault k1 n = None) /\ (forall n, k_fault k2 n = None).
Definition wsame (w1 w2 : writer) : Prop :=
  ksame (w_k w1) (w_k w2) /\ w_left w1 = [] /\ w_left w2 = [] /\ w_bits w1 = w_bits w2.
Definition wagree {A} (m1 m2 : WM A) : Prop :=
  forall w1 w2, wsame w1 w2 -> fst (m1 w1) = fst (m2 w2) /\ wsame (snd (m1 w1)) (snd (m2 w2)).

Lemma wa_lift {A} (x : res A) : wagree (lift x) (lift x).
Proof. intros w1 w2 H. now split. Qed.
Lemma wa_ret {A} (a : A) : wagree (ret a) (ret a).
Proof. exact (wa_lift (Ok a)). Qed.
Lemma wa_fail {A} e : wagree (fail (A:=A) e) (fail e).
Proof. exact (wa_lift (Err e)). Qed.
Lemma wa_panic {A} : wagree (panic (A:=A)) panic.
Proof. exact (wa_lift Panic). Qed.
Lemma wa_bind {A B} (m1 m2 : WM A) (f1 f2 : A -> WM B) : wagree m1 m2 -> (forall a, wagree (f1 a) (f2 a)) -> wagree (bind m1 f1) (bind m2 f2).
Proof.
  intros M F w1 w2 H. destruct (M w1 w2 H) as [E S]. unfold bind. destruct (m1 w1) as [x1 v1], (m2 w2) as [x2 v2]. cbn [fst snd] in *. subst x2.
  destruct x1; [now apply F|now split|now split|now split].
Qed.

(** One call for all bytes or one for each. *)
Lemma each_all bs : forall k1 k2 w1 w2, ksame k1 k2 ->
  let '(x1, v1) := w_write_each bs (w_set_k w1 k1) in
  let '(x2, v2) := w_write_all bs (w_set_k w2 k2) in
  x1 = x2 /\ ksame (w_k v1) (w_k v2) /\ v1 = w_set_k w1 (w_k v1) /\ v2 = w_set_k w2 (w_k v2).
Proof.
  induction bs as [|b bs IH]; intros k1 k2 w1 w2 H; pose proof H as (Hd & Hp & Hf & Hn1 & Hn2 & Hq1 & Hq2).
  - cbn [w_write_each]. unfold ret, w_write_all, k_write_all. cbn [w_k w_set_k]. rewrite Hq2. cbn [length].
    replace (k_fixed k2 && (length (k_data k2) - k_pos k2 <? 0)) with false by (destruct (k_fixed k2); cbn; lia).
    cbn [w_k w_set_k]. split; [reflexivity|]. split; [|now split]. unfold ksame, k_store. rewrite overlay_nil. cbn [k_virt k_set k_tick k_data k_pos k_fixed k_noseek k_fault length].
    rewrite Hn1, Hn2. cbn [option_map]. rewrite Nat.add_0_r. repeat split; auto.
  - cbn [w_write_each]. unfold bind. unfold w_write_all at 1. cbn [w_k w_set_k]. unfold k_write_all. rewrite Hq1. cbn [length].
    destruct (k_fixed k1 && (length (k_data k1) - k_pos k1 <? 1)) eqn:E1.
    + assert (Hz : length (k_data k1) - k_pos k1 = 0) by lia. rewrite Hz. cbn [firstn].
      unfold w_write_all, k_write_all. cbn [w_k w_set_k]. rewrite Hq2, <- Hf. cbn [length].
      assert (E2 : k_fixed k1 && (length (k_data k2) - k_pos k2 <? S (length bs)) = true) by (apply andb_true_iff in E1; destruct E1 as [-> E1]; rewrite <- Hd, <- Hp; cbn [andb]; lia). rewrite E2. rewrite <- Hd, <- Hp, Hz. cbn [firstn w_k w_set_k].
      split; [reflexivity|]. split; [|now split]. unfold ksame, k_store. rewrite !overlay_nil. cbn [k_virt k_set k_tick k_data k_pos k_fixed k_noseek k_fault length].
      rewrite !Nat.add_0_r. repeat split; auto.
    + set (k1' := k_virt (k_store [b] (k_tick k1)) (option_map (fun v => v + 1) (k_noseek k1))).
      set (k2' := k_virt (k_store [b] (k_tick k2)) (option_map (fun v => v + 1) (k_noseek k2))).
      assert (H' : ksame k1' k2').
      { unfold ksame, k1', k2', k_store. cbn [k_virt k_set k_tick k_data k_pos k_fixed k_noseek k_fault]. rewrite Hn1, Hn2, Hd, Hp, Hf. cbn [option_map]. repeat split; auto. }
      specialize (IH k1' k2' w1 w2 H'). change (w_set_k (w_set_k w1 k1) k1') with (w_set_k w1 k1').
      destruct (w_write_each bs (w_set_k w1 k1')) as [x1 v1]. unfold w_write_all, k_write_all in *. cbn [w_k w_set_k] in *.
      rewrite Hq2 in *. change (k_fault k2' (k_calls k2')) with (k_fault k2 (k_calls k2')) in IH. rewrite Hq2 in IH.
      change (k_fixed k2') with (k_fixed k2) in IH. change (k_pos k2') with (k_pos k2 + 1) in IH. cbn [length].
      assert (HL : k_fixed k2 = true -> length (k_data k2') = length (k_data k2) /\ k_pos k2 < length (k_data k2)).
      { intros F. assert (k_pos k2 < length (k_data k2)) by (rewrite <- Hf in F; rewrite F in E1; cbn [andb] in E1; rewrite <- Hd, <- Hp; lia). split; [|assumption].
        unfold k2', k_store. cbn [k_virt k_set k_tick k_data k_pos]. rewrite overlay_cons by discriminate. rewrite !app_length, firstn_length, repeat_length, skipn_length. cbn [length]. lia. }
      assert (EC : k_fixed k2 && (length (k_data k2) - k_pos k2 <? S (length bs)) = k_fixed k2 && (length (k_data k2') - (k_pos k2 + 1) <? length bs)).
      { destruct (k_fixed k2); cbn [andb]; [|reflexivity]. destruct (HL eq_refl) as [-> HL2]. lia. }
      rewrite EC. assert (ST : forall c, k_store c (k_tick k2') = k_set (k_tick k2') (k_data (k_store (b :: c) (k_tick k2))) (k_pos (k_store (b :: c) (k_tick k2)))).
      { intros c. unfold k2', k_store. cbn [k_virt k_set k_tick k_data k_pos length]. rewrite overlay_app. cbn [app]. f_equal. lia. }
      destruct (k_fixed k2) eqn:F2; cbn [andb] in *.
      * destruct (HL eq_refl) as [HL1 HL2]. destruct (length (k_data k2') - (k_pos k2 + 1) <? length bs) eqn:EB.
        -- destruct IH as (-> & HS & V1 & _). split; [reflexivity|]. cbn [w_k w_set_k] in *. split; [|split; [exact V1|reflexivity]].
           replace (length (k_data k2) - k_pos k2) with (S (length (k_data k2') - (k_pos k2 + 1))) by lia. cbn [firstn]. rewrite ST in HS.
           unfold ksame in *. cbn [k_virt k_set k_tick k_data k_pos k_fixed k_noseek k_fault k_store] in *. tauto.
        -- destruct IH as (-> & HS & V1 & _). split; [reflexivity|]. cbn [w_k w_set_k] in *. split; [|split; [exact V1|reflexivity]]. rewrite ST in HS.
           unfold ksame in *. cbn [k_virt k_set k_tick k_data k_pos k_fixed k_noseek k_fault k_store] in *. rewrite Hn2. cbn [option_map]. tauto.
      * destruct IH as (-> & HS & V1 & _). split; [reflexivity|]. cbn [w_k w_set_k] in *. split; [|split; [exact V1|reflexivity]]. rewrite ST in HS.
        unfold ksame in *. cbn [k_virt k_set k_tick k_data k_pos k_fixed k_noseek k_fault k_store] in *. rewrite Hn2. cbn [option_map]. tauto.
Qed.

Lemma chunks_zeros k : map byte_of_bits (chunks8 (repeat false (8 * k))) = repeat x00 k.
Proof.
  induction k as [|k IH]; [reflexivity|]. replace (8 * S k) with (8 + 8 * k) by lia. rewrite repeat_app. cbn [repeat app chunks8 map]. now rewrite IH.
Qed.
Lemma rev_zeros k : rev (repeat x00 k) = repeat x00 k.
Proof. induction k as [|k IH]; [reflexivity|]. cbn [repeat rev]. rewrite IH. now rewrite <- repeat_cons. Qed.
Lemma rchunks_zeros k : map byte_of_bits (rchunks8 (repeat false (8 * k))) = repeat x00 k.
Proof.
  unfold rchunks8. rewrite repeat_length. replace ((8 * k) mod 8) with 0 by lia. cbn [skipn]. now rewrite map_rev, chunks_zeros, rev_zeros.
Qed.
(** Whole bytes of zeros with nothing pending. *)
Lemma zeros_agree k o : wagree (write_bits_order (repeat false (8 * k)) o) (write_bytes (repeat x00 k)).
Proof.
  intros w1 w2 (Hk & L1 & L2 & Hb).
  assert (HR : chunks8_rem (repeat false (8 * k)) = []) by (unfold chunks8_rem; rewrite repeat_length; apply skipn_all2; rewrite repeat_length; lia).
  assert (HQ : rchunks8_rem (repeat false (8 * k)) = []) by (unfold rchunks8_rem; rewrite repeat_length; now replace ((8 * k) mod 8) with 0 by lia).
  destruct w1 as [k1 l1 o1 b1], w2 as [k2 l2 o2 b2]. cbn [w_k w_left w_bits] in *. subst l1 l2 b2.
  pose proof (each_all (repeat x00 k) k1 k2 (mkWriter k1 [] Msb0 b1) (mkWriter k2 [] o2 b1) Hk) as HE.
  unfold w_set_k in HE at 1 2. cbn [w_left w_ord w_bits] in HE.
  unfold write_bytes. cbn [w_left length Nat.eqb negb].
  assert (HB : length (repeat false (8 * k)) - 0 = length (repeat x00 k) * 8) by (rewrite !repeat_length; lia).
  unfold write_bits_order. cbn [w_ord]. destruct o1, o;
    unfold write_msb_msb, write_msb_lsb, write_lsb_msb, write_lsb_lsb, get, take_left, assert_, bind, ret, left_extend, flush_full, wleft, wmod, w_set_left, w_set_ord, w_add_bits;
    cbn [w_left w_ord w_bits w_k order_eqb length Nat.ltb Nat.leb Nat.eqb w_set_left w_set_ord app Nat.add firstn skipn Nat.min Nat.sub];
    rewrite ?HR, ?HQ, ?chunks_zeros, ?rchunks_zeros; cbn [length Nat.eqb];
    destruct (w_write_each (repeat x00 k) (mkWriter k1 [] Msb0 b1)) as [x1 v1], (w_write_all (repeat x00 k) (mkWriter k2 [] o2 b1)) as [x2 v2];
    destruct HE as (-> & HS & V1 & V2); rewrite V1, V2; unfold w_set_k, panic; destruct x2 as [[]|e| |]; cbn; (split; [reflexivity|]); (split; [exact HS|]); repeat split; auto.
  all: cbn [w_bits]; rewrite !repeat_length; lia.
Qed.

Lemma pad_loop_agree o : forall k f1 f2, 8 * k <= f1 -> k <= f2 -> wagree (pad_loop f1 (8 * k) o) (b_pad_loop f2 k).
Proof.
  induction k as [k IH] using lt_wf_ind. intros f1 f2 H1 H2. destruct k as [|k]; [destruct f1, f2; apply wa_ret|].
  destruct f1 as [|f1]; [lia|]. destruct f2 as [|f2]; [lia|].
  replace (pad_loop (S f1) (8 * S k) o) with
    (let* _ := write_bits_order (repeat false (Nat.min 512 (8 * S k))) o in pad_loop f1 (8 * S k - Nat.min 512 (8 * S k)) o)
    by (replace (8 * S k) with (S (7 + 8 * k)) by lia; reflexivity).
  cbn [b_pad_loop]. replace (Nat.min 512 (8 * S k)) with (8 * Nat.min 64 (S k)) by lia.
  apply wa_bind; [apply zeros_agree|intros _]. replace (8 * S k - 8 * Nat.min 64 (S k)) with (8 * (S k - Nat.min 64 (S k))) by lia. apply IH; lia.
Qed.
Lemma to_usize_eighth z : (z mod 8 = 0)%Z -> (z <= Z.of_N usize_max)%Z ->
  match to_usize z, to_usize (z / 8) with Some n, Some m => N.to_nat n = 8 * N.to_nat m | None, None => True | _, _ => False end.
Proof.
  intros H8 Hm. unfold to_usize. destruct (Z.ltb_spec z 0) as [Hz|Hz]; destruct (Z.ltb_spec (z / 8) 0) as [Hy|Hy]; cbn [orb]; try lia.
  destruct (Z.ltb_spec (Z.of_N usize_max) z); [lia|]. destruct (Z.ltb_spec (Z.of_N usize_max) (z / 8)); lia.
Qed.
Lemma pad_agree p ctx fs o : whole_bytes p -> wagree (write_pad (eval0 p ctx fs) o) (b_write_pad (eval0 p ctx fs)).
Proof.
  intros H. destruct p as [f|]; [|apply wa_ret]. cbn [eval0 option_map write_pad b_write_pad]. destruct (H ctx fs) as [H8 Hm].
  pose proof (to_usize_eighth _ H8 Hm) as HU. destruct (to_usize (f ctx fs)) as [n|], (to_usize (f ctx fs / 8)) as [m|]; try contradiction; [|apply wa_fail].
  rewrite HU. intros w1 w2. apply pad_loop_agree; lia.
Qed.

(** Integers. *)
Lemma wa_bytes bs : wagree (write_bytes bs) (write_bytes bs).
Proof.
  intros w1 w2 ((Hd & Hp & Hf & Hn1 & Hn2 & Hq1 & Hq2) & L1 & L2 & Hb). unfold write_bytes. rewrite L1, L2. cbn [length Nat.eqb negb]. unfold bind, w_write_all, k_write_all, wmod.
  rewrite Hq1, Hq2, Hn1, Hn2, <- Hd, <- Hp, <- Hf. destruct (_ && _); cbn; (split; [reflexivity|]); unfold wsame, ksame, k_store; cbn; rewrite <- ?Hd, <- ?Hp, <- ?Hf, ?Hb; repeat split; auto.
Qed.
Lemma wa_prim p c v : byte_pctx c = true -> wagree (prim_write p c v) (prim_write p c v).
Proof.
  intros H. assert (HY : forall e n, wagree (write_eyo p e n v) (write_eyo p e n v)).
  { intros e n. unfold write_eyo, write_bytes_sized. destruct p; [apply wa_bytes| |]; (destruct (_ <? n); [apply wa_fail|apply wa_bytes]). }
  destruct c; try discriminate H; cbn [prim_write]; auto; apply wa_bytes.
Qed.
Lemma wa_list {A} (f1 f2 : A -> WM unit) l : (forall x, wagree (f1 x) (f2 x)) -> wagree (write_list f1 l) (write_list f2 l).
Proof. intros H. induction l as [|x l IH]; cbn [write_list]; [apply wa_ret|]. apply wa_bind; auto. Qed.
Lemma wa_magic m : wagree (write_magic m) (write_magic m).
Proof. apply wa_list. intros x. now apply wa_prim. Qed.
Lemma wa_seek s : wagree (write_seek s) (write_seek s).
Proof.
  destruct s as [[t|]|]; cbn [write_seek]; [|apply wa_panic|apply wa_ret]. apply wa_bind; [|intros; apply wa_ret].
  intros w1 w2 ((Hd & Hp & Hf & Hn1 & Hn2 & Hq1 & Hq2) & L1 & L2 & Hb). unfold lift_io, w_seek, k_seek. cbn [w_k w_set_ord w_set_left].
  rewrite Hq1, Hq2, Hn1, Hn2, <- Hd, <- Hp. destruct (seek_target _ _ _); cbn; (split; [reflexivity|]); unfold wsame, ksame; cbn; rewrite <- ?Hd, <- ?Hp, <- ?Hf, ?Hb; repeat split; auto.
Qed.

(** Contexts. *)
Lemma no_bits_pctx args c : no_bit_size args -> pctx_of args = Some c -> byte_pctx c = true.
Proof.
  intros H E. destruct (byte_pctx c) eqn:B; [reflexivity|exfalso]. unfold pctx_of in E.
  repeat match type of E with match ?x with _ => _ end = _ => destruct x; try discriminate E end; injection E as <-; try discriminate B;
    match goal with H : no_bit_size ?l |- _ => match l with context [VBits ?n] => apply (H n); cbn; tauto end end.
Qed.
Lemma no_bits_args e bytes o ctx : no_bit_size ctx -> no_bit_size (args_of e None bytes o ctx).
Proof.
  intros H n. unfold args_of. cbn [option_map opt_list app]. rewrite !in_app_iff. destruct e, bytes, o; cbn; intuition (try discriminate); eapply H; eassumption.
Qed.
Lemma no_bits_field c a ctx fs off : field_in_bytes a -> no_bit_size (field_args c a ctx fs off).
Proof. intros H. unfold field_args. rewrite (fb_bits a H). apply no_bits_args. apply (fb_ctx a H). Qed.
Lemma no_bits_nil : no_bit_size [].
Proof. intros n []. Qed.
Lemma no_bits_id e ctx : en_bits e = None -> no_bit_size (id_args e ctx) /\ no_bit_size (stored_id_args e ctx).
Proof. intros H. unfold id_args, stored_id_args. rewrite H. split; apply no_bits_args, no_bits_nil. Qed.

Lemma wa_asserts a ctx fs off v : wagree (asserts a ctx fs off v) (asserts a ctx fs off v).
Proof.
  unfold asserts, check. apply wa_bind; [destruct (a_assert a) as [f|]; [destruct (f _ _ _)|]|intros _; destruct (a_assert_eq a) as [f|]; [destruct (value_eqb _ _)|]];
    auto using wa_ret, wa_fail.
Qed.
Lemma wa_hand A (m : WM A) : writes_bytes A m -> wagree m m.
Proof.
  induction 1 as [A x|A B m f _ Hm _ Hf|bs|p c n Hc|s|A f _ H|A m1 m2 He _ H].
  - apply wa_lift.
  - now apply wa_bind.
  - apply wa_bytes.
  - now apply wa_prim.
  - apply wa_seek.
  - intros w1 w2 S. pose proof S as (_ & _ & _ & <-). now apply H.
  - intros w1 w2 S. rewrite <- !He. now apply H.
Qed.
Lemma wa_field c a stored ctx fs v w1 w2 : field_in_bytes a -> writer_in_bytes a -> (forall args, no_bit_size args -> wagree (w1 args v) (w2 args v)) ->
  wagree (write_field c a stored ctx fs v w1) (b_write_field c a stored ctx fs v w2).
Proof.
  intros Ha Hw H. unfold write_field, b_write_field. apply wa_bind; [apply wa_seek|intros _]. apply wa_bind; [apply wa_magic|intros _].
  apply wa_bind; [apply pad_agree, (fb_before a Ha)|intros _]. intros x1 x2 S. pose proof S as (_ & _ & _ & <-). revert x1 x2 S.
  assert (HF : forall off, wagree (let* _ := asserts a ctx fs off v in let* _ := field_write_tokens a ctx fs off (field_write_func c a stored ctx fs off v w1) in
       write_pad (eval0 (a_pad_after a) ctx (fs ++ [v])) (field_order c a ctx fs))
     (let* _ := asserts a ctx fs off v in let* _ := field_write_tokens a ctx fs off (field_write_func c a stored ctx fs off v w2) in
       b_write_pad (eval0 (a_pad_after a) ctx (fs ++ [v])))).
  { intros off. apply wa_bind; [apply wa_asserts|intros _]. apply wa_bind; [|intros _; apply pad_agree, (fb_after a Ha)].
    assert (HF : wagree (field_write_func c a stored ctx fs off v w1) (field_write_func c a stored ctx fs off v w2)).
    { unfold field_write_func. pose proof (H _ (no_bits_field c a ctx fs off Ha)).
      destruct (a_writer a) as [f|] eqn:Ew; [apply wa_hand, (Hw f Ew)|]. destruct (a_temp a); [destruct (a_temp_value a)|]; auto using wa_ret. }
    unfold field_write_tokens. destruct (a_skip a) as [[]|], (a_cond a) as [f|]; try destruct (f _ _ _); auto using wa_ret. }
  intros x1 x2 S. apply HF. exact S.
Qed.
Lemma wa_pctx args (k1 k2 : pctx -> WM unit) : no_bit_size args -> (forall c, byte_pctx c = true -> wagree (k1 c) (k2 c)) -> wagree (with_pctx None args k1) (b_with_pctx None args k2).
Proof.
  intros Hg H. unfold b_with_pctx, with_pctx. destruct (pctx_of args) as [c|] eqn:E; [|apply wa_panic]. rewrite (no_bits_pctx _ _ Hg E). apply H. eapply no_bits_pctx; eassumption.
Qed.
Lemma no_bits_ctx c args : container_in_bytes c -> no_bit_size args -> no_bit_size (ctx_args c args).
Proof. unfold container_in_bytes, ctx_args. intros Hc H. destruct args; [|exact H]. destruct (c_ctx_default c); [exact Hc|exact H]. Qed.

Section Write.
Variable cu : nat -> custom.
Notation E := (every container_in_bytes (fun e => en_bits e = None /\ container_in_bytes (en_c e)) (fun _ a _ => field_in_bytes a /\ writer_in_bytes a) (fun k => forall args v, no_bit_size args -> writes_bytes unit (cu_write (cu k) args v))).
Notation EF := (every_field container_in_bytes (fun e => en_bits e = None /\ container_in_bytes (en_c e)) (fun _ a _ => field_in_bytes a /\ writer_in_bytes a) (fun k => forall args v, no_bit_size args -> writes_bytes unit (cu_write (cu k) args v))).
Notation EV := (every_variant container_in_bytes (fun e => en_bits e = None /\ container_in_bytes (en_c e)) (fun _ a _ => field_in_bytes a /\ writer_in_bytes a) (fun k => forall args v, no_bit_size args -> writes_bytes unit (cu_write (cu k) args v))).
Theorem write_builds :
  (forall t, E t -> forall args v, no_bit_size args -> wagree (write_ty cu t args v) (b_write_ty cu t args v)) /\
  (forall fs c, EF c fs -> forall ctx id stored todo acc, (forall args, id = Some args -> no_bit_size args) ->
     wagree (fields_write cu c ctx fs id stored todo acc) (b_fields_write cu c ctx fs id stored todo acc)) /\
  (forall vs e, EV (en_c e) vs -> en_bits e = None -> forall ctx w1 w2 k l, (forall args x, no_bit_size args -> wagree (w1 args x) (w2 args x)) ->
     wagree (variant_write cu e ctx w1 vs k l) (b_variant_write cu e ctx w2 vs k l)).
Proof.
  apply types_ind.
  - intros p _ args v Hg. cbn [write_ty b_write_ty]. destruct v; try apply wa_panic. apply wa_pctx; [exact Hg|]. intros c Hc. apply wa_prim. exact Hc.
  - intros _ args v Hg. cbn [write_ty b_write_ty]. destruct v; try apply wa_panic. apply wa_pctx; [exact Hg|]. intros c Hc. unfold write_bool. apply wa_prim. exact Hc.
  - intros p _ args v Hg. cbn [write_ty b_write_ty]. destruct v; try apply wa_panic. apply wa_pctx; [exact Hg|]. intros c Hc. apply wa_prim. exact Hc.
  - intros _ args v _. apply wa_ret.
  - intros _ args v Hg. cbn [write_ty b_write_ty]. destruct v; try apply wa_panic. apply wa_pctx; [exact Hg|]. intros c Hc. unfold write_cstring. apply wa_list. intros x. now apply wa_prim.
  - intros t IH H args v Hg. cbn [write_ty b_write_ty]. destruct v; try apply wa_panic; [now apply IH|apply wa_ret].
  - intros a IHa b IHb [Ha Hb] args v Hg. cbn [write_ty b_write_ty]. destruct v; try apply wa_panic. apply wa_bind; [now apply IHa|intros _; now apply IHb].
  - intros n t IH H args v Hg. cbn [write_ty b_write_ty]. destruct v; try apply wa_panic. apply wa_list. intros x. now apply IH.
  - intros pl size t IH H args v Hg. cbn [write_ty b_write_ty]. destruct v; try apply wa_panic. apply wa_list. intros x. now apply IH.
  - intros c fs IH [Hc Hf] args v Hg. destruct v; try apply wa_panic. rewrite write_struct.
    change (b_write_ty cu (TStruct c fs) args (VRec fs0)) with
      (let* _ := write_seek (option_map (fun f => f (ctx_args c args)) (c_seek c)) in let* _ := write_magic (c_magic c) in b_fields_write cu c (ctx_args c args) fs None fs0 fs0 []).
    apply wa_bind; [apply wa_seek|intros _]. apply wa_bind; [apply wa_magic|intros _]. apply IH; [exact Hf|discriminate].
  - intros e idt IHi vs IHv ((Hb & Hc) & Hi & Hv) args v Hg. destruct v; try apply wa_panic. rewrite write_enum.
    match goal with |- wagree _ (b_write_ty cu (TEnum e idt vs) args (VVar ?k ?l)) => change (b_write_ty cu (TEnum e idt vs) args (VVar k l)) with
      (let* _ := write_magic (c_magic (en_c e)) in b_variant_write cu e (ctx_args (en_c e) args) (fun args x => b_write_ty cu idt args x) vs k l) end.
    apply wa_bind; [apply wa_magic|intros _]. apply IHv; [exact Hv|exact Hb|]. intros args' x Hg'. now apply IHi.
  - intros k H args v Hg. apply wa_hand. exact (H args v Hg).
  - intros c _ ctx id stored todo acc _. apply wa_ret.
  - intros a t IHt wire IHw tl IHtl c ((Ha & Hw') & Ht & Hw & Htl) ctx id stored todo acc Hid. rewrite write_cons.
    change (b_fields_write cu c ctx (FCons a t wire tl) id stored todo acc) with
      (let* _ := match id with
                | Some args => b_write_ty cu t args (field_value a stored todo ctx acc)
                | None => b_write_field c a stored ctx acc (field_value a stored todo ctx acc) (fun args x => b_write_ty cu t args x)
                end in b_fields_write cu c ctx tl None stored (field_rest a todo) (acc ++ [field_value a stored todo ctx acc])).
    apply wa_bind; [|intros _; apply IHtl; [exact Htl|discriminate]].
    destruct id as [args|]; [apply IHt; [exact Ht|now apply Hid]|]. apply wa_field; [exact Ha|exact Hw'|]. intros args Hg. now apply IHt.
  - intros e _ _ ctx w1 w2 k l _. apply wa_panic.
  - intros v fs IHf vs IHv e [Hf Hv] He ctx w1 w2 k l Hw. destruct k as [|k]; [|exact (IHv e Hv He ctx w1 w2 k l Hw)]. rewrite write_variant_0.
    change (b_variant_write cu e ctx w2 (VCons v fs vs) 0 l) with
      (let* _ := write_id e v fs ctx w2 in b_fields_write cu (en_c e) ctx fs (match v_sel v with SPat _ _ => Some (stored_id_args e ctx) | _ => None end) l l []).
    destruct (no_bits_id e ctx He) as [G1 G2].
    apply wa_bind; [|intros _; apply IHf; [exact Hf|]; intros args Hs; destruct (v_sel v); try discriminate; injection Hs as <-; exact G2].
    unfold write_id. destruct (en_id e); [apply wa_ret|]. destruct (v_sel v) as [x|p d|x]; try now apply Hw.
    destruct (no_fields fs); [|apply wa_ret]. destruct d; [now apply Hw|apply wa_panic].
Qed.

Lemma finalize_empty w : w_left w = [] -> exists w', finalize w = (Ok tt, w') /\ w_k w' = w_k w /\ w_bits w' = w_bits w.
Proof.
  intros L. destruct w as [k l o b]. cbn in L. subst l. exists (mkWriter k [] o b). split; [|now split]. unfold finalize. cbn. destruct o; cbn; unfold bind, wmod, w_set_ord, w_set_left, w_add_bits; cbn; rewrite ?Nat.add_0_r; reflexivity.
Qed.
Lemma to_with_builds t v k : written_in_bytes cu t -> k_noseek k = None -> (forall n, k_fault k n = None) ->
  let '(x1, w1) := (let* _ := write_ty cu t [] v in finalize) (writer_new k) in
  let '(x2, w2) := b_write_ty cu t [] v (writer_new k) in
  x1 = x2 /\ k_data (w_k w1) = k_data (w_k w2) /\ w_bits w1 = w_bits w2.
Proof.
  intros H Hn Hq. destruct (proj1 write_builds t H [] v no_bits_nil (writer_new k) (writer_new k)) as [X S]; [repeat split; auto|].
  unfold bind. destruct (write_ty cu t [] v (writer_new k)) as [x1 w1], (b_write_ty cu t [] v (writer_new k)) as [x2 w2]. cbn [fst snd] in *. subst x2.
  destruct S as ((Hd & _) & L1 & _ & Hb). destruct x1 as [[]|e| |]; auto. destruct (finalize_empty w1 L1) as (w' & -> & -> & ->). auto.
Qed.
Theorem to_bytes_builds t v : written_in_bytes cu t -> b_to_bytes cu t v = to_bytes cu t v.
Proof.
  intros H. pose proof (to_with_builds t v vec_sink H eq_refl (fun _ => eq_refl)) as E. unfold b_to_bytes, to_bytes, to_bytes_with.
  match type of E with let '(x1, w1) := ?a in _ => destruct a as [x1 w1] end. destruct (b_write_ty cu t [] v (writer_new vec_sink)) as [x2 w2]. destruct E as (-> & -> & _). reflexivity.
Qed.
Theorem to_slice_builds t v buf : written_in_bytes cu t -> b_to_slice cu t v buf = to_slice cu t v buf.
Proof.
  intros H. pose proof (to_with_builds t v (slice_sink buf) H eq_refl (fun _ => eq_refl)) as E. unfold b_to_slice, to_slice, to_slice_with.
  match type of E with let '(x1, w1) := ?a in _ => destruct a as [x1 w1] end. destruct (b_write_ty cu t [] v (writer_new (slice_sink buf))) as [x2 w2]. destruct E as (-> & -> & ->). reflexivity.
Qed.
End Write.
