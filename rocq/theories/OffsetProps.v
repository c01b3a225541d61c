(** deku::bit_offset: C63. *)
From Coq Require Import Lia ZifyBool ZifyNat ZifyN.
From Verif Require Import Base Spec Stream Reader Writer BitsFacts MonadFacts WSession WriterFacts WriterProps Prims CodecSpec CodecFacts Containers
  Derive DeriveSpec DeriveFacts DeriveSound StreamProps AttrSpec AttrFacts OffsetSpec.
Ltac Zify.zify_post_hook ::= Z.div_mod_to_equations.

Section Offsets.
Variables (cu : nat -> custom) (fuel : nat).

(** ** Reading *)

Lemma field_order_at c n a : field_order c (at_offset n a) = field_order c a.
Proof. reflexivity. Qed.
Lemma field_order_lead c a : field_order c (lead a) = field_order c a.
Proof. reflexivity. Qed.
Lemma field_args_at c n a ctx fs off : field_args c (at_offset n a) ctx fs off = field_args c a ctx fs n.
Proof. reflexivity. Qed.
Lemma read_func_at c n a b ctx fs off rd : field_read_func c (at_offset n a) b ctx fs off rd = field_read_func c a b ctx fs n rd.
Proof. unfold field_read_func. cbn [at_offset a_reader a_limit]. destruct (a_reader a); [reflexivity|]. now destruct (a_limit a) as [[]|]. Qed.
Lemma read_normal_at n a ctx fs off m : field_read_normal (at_offset n a) ctx fs off m = field_read_normal a ctx fs n m.
Proof. unfold field_read_normal. cbn [at_offset a_map]. now destruct (a_map a). Qed.
Lemma read_tokens_at n a ctx fs off m : field_read_tokens (at_offset n a) ctx fs off m = field_read_tokens a ctx fs n m.
Proof. unfold field_read_tokens. cbn [at_offset a_skip a_cond a_default]. now destruct (a_skip a) as [[]|], (a_cond a). Qed.
Lemma asserts_at {S} n a ctx fs off v : asserts (S := S) (at_offset n a) ctx fs off v = asserts a ctx fs n v.
Proof. unfold asserts. cbn [at_offset a_assert a_assert_eq]. now destruct (a_assert a), (a_assert_eq a). Qed.

Definition head_read (c : cattrs) (a : fattrs) (ctx fs : list value) : RM unit :=
  let* _ := read_seek (option_map (fun f => f ctx fs) (a_seek a)) in
  let* _ := read_magic (a_magic a) in
  read_pad (eval0 (a_pad_before a) ctx fs) (field_order c a ctx fs).
Definition body_read (c : cattrs) (a : fattrs) b ctx fs rd (off : nat) : RM value :=
  let* v := field_read_tokens a ctx fs off (field_read_normal a ctx fs off (field_read_func c a b ctx fs off rd)) in
  let* _ := asserts a ctx fs off v in
  let* _ := read_pad (eval0 (a_pad_after a) ctx (fs ++ [v])) (field_order c a ctx fs) in
  ret v.
Lemma read_field_split c a b ctx fs rd r : read_field c a b ctx fs rd r =
  (let* _ := head_read c a ctx fs in fun r => body_read c a b ctx fs rd (r_bits r) r) r.
Proof.
  unfold read_field, head_read. rewrite bind_assoc. apply bind_ext. intros _ r1 _. now rewrite bind_assoc.
Qed.
Lemma body_read_at c n a b ctx fs rd off r : body_read c (at_offset n a) b ctx fs rd off r = body_read c a b ctx fs rd n r.
Proof.
  unfold body_read. rewrite read_func_at, read_normal_at, read_tokens_at. apply bind_ext. intros v r1 _. now rewrite asserts_at.
Qed.
Lemma read_field_at c n a b ctx fs rd r : (forall r1, head_read c a ctx fs r = (Ok tt, r1) -> r_bits r1 = n) ->
  read_field c a b ctx fs rd r = read_field c (at_offset n a) b ctx fs rd r.
Proof.
  intros H. rewrite !read_field_split. change (head_read c (at_offset n a)) with (head_read c a). apply bind_ext. intros [] r1 E.
  rewrite body_read_at. now rewrite (H r1 E).
Qed.
Lemma read_lead c a b ctx fs lim r : read_field c (lead a) b ctx fs (fun _ args => read_ty cu fuel TUnit lim args) r =
  (let* _ := head_read c a ctx fs in ret VUnit) r.
Proof. rewrite read_field_split. change (head_read c (lead a)) with (head_read c a). apply bind_ext. intros [] r1 _. reflexivity. Qed.
Lemma fields_read_at c ctx a t wire tl : forall pre id acc r l r1, pre <> FNil \/ id = None ->
  fields_read cu fuel c ctx (fapp pre (FCons (lead a) TUnit TUnit FNil)) id acc r = (Ok l, r1) ->
  fields_read cu fuel c ctx (fapp pre (FCons a t wire tl)) id acc r =
  fields_read cu fuel c ctx (fapp pre (FCons (at_offset (r_bits r1) a) t wire tl)) id acc r.
Proof.
  induction pre as [|a0 t0 w0 pre IH]; intros id acc r l r1 HI H; cbn [fapp] in *; rewrite !read_cons in *.
  - destruct HI as [HI| ->]; [now destruct HI|].
    apply bind_inv in H. destruct H as (v & r2 & H & E). cbn [lead a_reader] in H.
    change (fun lim args => read_ty cu fuel TUnit lim args) with (fun (_ : option (limit value)) args => read_ty cu fuel TUnit None args) in H.
    change (mkF _ _ _ _ _ _ _ _ _ _ _ _ _ _ _ _ _ _ _ _ _) with (lead a) in H. rewrite read_lead in H. apply bind_inv in H. destruct H as ([] & r3 & H & E3).
    apply pair_inj in E3. destruct E3 as [_ <-]. apply pair_inj in E. destruct E as [_ <-].
    apply bind_cong. cbn [at_offset a_reader]. change (mkF _ _ _ _ _ _ _ _ _ _ _ _ _ _ _ _ _ _ _ _ _) with (at_offset (r_bits r3) a).
    apply read_field_at. intros r4 E. rewrite H in E. apply pair_inj in E. now destruct E as [_ <-].
  - apply bind_inv in H. destruct H as (v & r2 & H & E). apply bind_inv in E. destruct E as (vs & r3 & E & E3). apply pair_inj in E3. destruct E3 as [_ <-].
    apply bind_ext. intros v' r2' H'. rewrite H in H'. apply pair_inj in H'. destruct H' as [H' <-]. apply ok_inj in H'. subst v'.
    apply bind_cong. exact (IH _ _ _ _ _ (or_intror eq_refl) E).
Qed.
Theorem read_offset c pre a t wire tl lim args r v r1 :
  read_ty cu fuel (TStruct c (fapp pre (FCons (lead a) TUnit TUnit FNil))) lim args r = (Ok v, r1) ->
  read_ty cu fuel (TStruct c (fapp pre (FCons a t wire tl))) lim args r =
  read_ty cu fuel (TStruct c (fapp pre (FCons (at_offset (r_bits r1) a) t wire tl))) lim args r.
Proof.
  rewrite !read_struct. intros H. apply bind_inv in H. destruct H as ([] & r2 & E2 & H). apply bind_inv in H. destruct H as ([] & r3 & E3 & H).
  apply bind_inv in H. destruct H as (vs & r4 & E4 & H). apply pair_inj in H. destruct H as [_ <-].
  rewrite !(bind_ok _ _ _ _ _ E2), !(bind_ok _ _ _ _ _ E3). apply bind_cong. exact (fields_read_at _ _ _ _ _ _ _ _ _ _ _ _ (or_intror eq_refl) E4).
Qed.
Lemma from_bytes_bits t input bit rest off v : from_bytes cu fuel t input bit = Ok ((rest, off), v) ->
  exists s, from_reader cu fuel t (cursor input) bit = (Ok (8 * (length input - length rest) + off, v), s).
Proof.
  unfold from_bytes. destruct (from_reader cu fuel t (cursor input) bit) as [[[n v']|e| |] s]; try discriminate.
  destruct (Nat.leb_spec (n / 8) (length input)) as [L|]; [|discriminate]. intros H. apply ok_inj in H. apply pair_inj in H. destruct H as [H <-]. apply pair_inj in H. destruct H as [<- <-].
  exists s. rewrite skipn_length. do 3 f_equal. lia.
Qed.
Lemma input_offset_of t1 t2 (t3 : nat -> ty) input bit rest off v :
  (forall r v1 r1, read_ty cu fuel t1 None [] r = (Ok v1, r1) -> read_ty cu fuel t2 None [] r = read_ty cu fuel (t3 (r_bits r1)) None [] r) ->
  from_bytes cu fuel t1 input bit = Ok ((rest, off), v) ->
  from_bytes cu fuel t2 input bit = from_bytes cu fuel (t3 (8 * (length input - length rest) + off)) input bit.
Proof.
  intros HR H. apply from_bytes_bits in H. destruct H as (s & H).
  enough (E : from_reader cu fuel t2 (cursor input) bit = from_reader cu fuel (t3 (8 * (length input - length rest) + off)) (cursor input) bit) by (unfold from_bytes; now rewrite E).
  unfold from_reader in *.
  match type of H with (let '(_, _) := ?m in _) = _ => destruct m as [x r] eqn:Em end. apply pair_inj in H. destruct H as [-> <-].
  apply bind_inv in Em. destruct Em as ([] & r1 & E1 & Em). apply bind_inv in Em. destruct Em as (v1 & r2 & E2 & Em). apply pair_inj in Em. destruct Em as [Em <-].
  apply ok_inj in Em. apply pair_inj in Em. destruct Em as [<- <-].
  rewrite !(bind_ok _ _ _ _ _ E1). pose proof (HR _ _ _ E2) as X. unfold bind. now rewrite X.
Qed.
Theorem input_offset c pre a t wire tl input bit rest off v :
  from_bytes cu fuel (TStruct c (fapp pre (FCons (lead a) TUnit TUnit FNil))) input bit = Ok ((rest, off), v) ->
  from_bytes cu fuel (TStruct c (fapp pre (FCons a t wire tl))) input bit =
  from_bytes cu fuel (TStruct c (fapp pre (FCons (at_offset (8 * (length input - length rest) + off) a) t wire tl))) input bit.
Proof.
  apply (input_offset_of _ _ (fun n => TStruct c (fapp pre (FCons (at_offset n a) t wire tl)))). intros r v1 r1. apply read_offset.
Qed.
(** Variants. *)
Lemma default_same e ctx id : forall vs k d1 d2 d3 r v r1,
  match d1, d2, d3 with
  | Some m1, Some m2, Some m3 => m1 r = (Ok v, r1) -> m2 r = m3 r
  | None, None, None => True
  | _, _, _ => False
  end ->
  variants_read cu fuel e ctx id vs k d1 r = (Ok v, r1) -> variants_read cu fuel e ctx id vs k d2 r = variants_read cu fuel e ctx id vs k d3 r.
Proof.
  induction vs as [|v0 fs tl IH]; intros k d1 d2 d3 r v r1 H E.
  - cbn [variants_read] in *. destruct d1, d2, d3; try contradiction; [now apply H|reflexivity].
  - rewrite !read_variant in *. cbv zeta in *. destruct (matches (v_sel v0) id); [reflexivity|].
    refine (IH _ _ _ _ _ _ _ _ E). destruct d1, d2, d3; try contradiction; [exact H|]. destruct (v_default v0); [reflexivity|exact I].
Qed.
Lemma variants_read_at e ctx id a t wire tl pre : forall vs k0 k d1 r v r1, pre <> FNil \/ no_pattern vs k ->
  variants_read cu fuel e ctx id (set_fields vs k (fapp pre (FCons (lead a) TUnit TUnit FNil))) k0 d1 r = (Ok v, r1) ->
  variants_read cu fuel e ctx id (set_fields vs k (fapp pre (FCons a t wire tl))) k0 d1 r =
  variants_read cu fuel e ctx id (set_fields vs k (fapp pre (FCons (at_offset (r_bits r1) a) t wire tl))) k0 d1 r.
Proof.
  induction vs as [|v0 gs vs IH]; intros k0 k d1 r v r1 HN E; [now destruct k|]. destruct k as [|k]; cbn [set_fields] in *.
  - rewrite !read_variant in *. cbv zeta in *.
    assert (HI : pre <> FNil \/ (if stores_id e v0 then Some id else None) = None).
    { destruct HN as [HN|HN]; [now left|right]. specialize (HN v0 gs eq_refl). unfold stores_id. destruct (en_id e); [reflexivity|]. now destruct (v_sel v0). }
    assert (B : forall v r1, (let* l := fields_read cu fuel (en_c e) ctx (fapp pre (FCons (lead a) TUnit TUnit FNil)) (if stores_id e v0 then Some id else None) [] in ret (VVar k0 l)) r = (Ok v, r1) ->
      (let* l := fields_read cu fuel (en_c e) ctx (fapp pre (FCons a t wire tl)) (if stores_id e v0 then Some id else None) [] in ret (VVar k0 l)) r =
      (let* l := fields_read cu fuel (en_c e) ctx (fapp pre (FCons (at_offset (r_bits r1) a) t wire tl)) (if stores_id e v0 then Some id else None) [] in ret (VVar k0 l)) r).
    { intros v' r1' X. apply bind_inv in X. destruct X as (l & r2 & X & Y). apply pair_inj in Y. destruct Y as [_ <-]. apply bind_cong. exact (fields_read_at _ _ _ _ _ _ _ _ _ _ _ _ HI X). }
    destruct (matches (v_sel v0) id); [exact (B _ _ E)|].
    refine (default_same _ _ _ _ _ _ _ _ _ _ _ _ E). destruct d1; [reflexivity|]. destruct (v_default v0); [exact (B _ _)|exact I].
  - rewrite !read_variant in *. cbv zeta in *. destruct (matches (v_sel v0) id); [reflexivity|]. exact (IH _ _ _ _ _ _ HN E).
Qed.
Theorem read_variant_offset e idt vs k pre a t wire tl lim args r v r1 : pre <> FNil \/ no_pattern vs k ->
  read_ty cu fuel (TEnum e idt (set_fields vs k (fapp pre (FCons (lead a) TUnit TUnit FNil)))) lim args r = (Ok v, r1) ->
  read_ty cu fuel (TEnum e idt (set_fields vs k (fapp pre (FCons a t wire tl)))) lim args r =
  read_ty cu fuel (TEnum e idt (set_fields vs k (fapp pre (FCons (at_offset (r_bits r1) a) t wire tl)))) lim args r.
Proof.
  intros HN. rewrite !read_enum. intros H. apply bind_inv in H. destruct H as ([] & r2 & E2 & H). apply bind_inv in H. destruct H as (x & r3 & E3 & H).
  rewrite !(bind_ok _ _ _ _ _ E2), !(bind_ok _ _ _ _ _ E3). exact (variants_read_at _ _ _ _ _ _ _ _ _ _ _ _ _ _ _ HN H).
Qed.
Theorem input_variant_offset e idt vs k pre a t wire tl input bit rest off v : pre <> FNil \/ no_pattern vs k ->
  from_bytes cu fuel (TEnum e idt (set_fields vs k (fapp pre (FCons (lead a) TUnit TUnit FNil)))) input bit = Ok ((rest, off), v) ->
  from_bytes cu fuel (TEnum e idt (set_fields vs k (fapp pre (FCons a t wire tl)))) input bit =
  from_bytes cu fuel (TEnum e idt (set_fields vs k (fapp pre (FCons (at_offset (8 * (length input - length rest) + off) a) t wire tl)))) input bit.
Proof.
  intros HN. apply (input_offset_of _ _ (fun n => TEnum e idt (set_fields vs k (fapp pre (FCons (at_offset n a) t wire tl))))). intros r v1 r1. now apply read_variant_offset.
Qed.
(** A field that takes the offset. *)
Lemma fields_read_tell c ctx t wire : forall pre acc r l r1,
  fields_read cu fuel c ctx pre None acc r = (Ok l, r1) ->
  fields_read cu fuel c ctx (fapp pre (FCons telling t wire FNil)) None acc r = (Ok (l ++ [VNum (N.of_nat (r_bits r1))]), r1).
Proof.
  induction pre as [|a0 t0 w0 pre IH]; intros acc r l r1 H; cbn [fapp] in *.
  - cbn [fields_read] in H. apply pair_inj in H. destruct H as [H <-]. apply ok_inj in H. subst l. rewrite read_cons. reflexivity.
  - rewrite !read_cons in *. apply bind_inv in H. destruct H as (v & r2 & H & E). apply bind_inv in E. destruct E as (vs & r3 & E & E3). apply pair_inj in E3. destruct E3 as [E3 <-]. apply ok_inj in E3. subst l.
    rewrite (bind_ok _ _ _ _ _ H), (bind_ok _ _ _ _ _ (IH _ _ _ _ E)). now destruct (a_temp a0).
Qed.
Theorem told c pre t wire input bit rest off l :
  from_bytes cu fuel (TStruct c pre) input bit = Ok ((rest, off), VRec l) ->
  from_bytes cu fuel (TStruct c (fapp pre (FCons telling t wire FNil))) input bit =
  Ok ((rest, off), VRec (l ++ [VNum (N.of_nat (8 * (length input - length rest) + off))])).
Proof.
  intros H. pose proof (from_bytes_bits _ _ _ _ _ _ H) as (s & E).
  enough (X : from_reader cu fuel (TStruct c (fapp pre (FCons telling t wire FNil))) (cursor input) bit =
    (Ok (8 * (length input - length rest) + off, VRec (l ++ [VNum (N.of_nat (8 * (length input - length rest) + off))])), s)).
  { unfold from_bytes in *. rewrite X. rewrite E in H. destruct (_ <=? _); [|discriminate]. apply ok_inj in H. apply pair_inj in H. destruct H as [H _]. now rewrite H. }
  clear H. unfold from_reader in *.
  match type of E with (let '(_, _) := ?m in _) = _ => destruct m as [x r] eqn:Em end. apply pair_inj in E. destruct E as [-> <-].
  apply bind_inv in Em. destruct Em as ([] & r1 & E1 & Em). apply bind_inv in Em. destruct Em as (v1 & r2 & E2 & Em). apply pair_inj in Em. destruct Em as [Em <-].
  apply ok_inj in Em. apply pair_inj in Em. destruct Em as [<- ->].
  rewrite !(bind_ok _ _ _ _ _ E1). rewrite read_struct in E2.
  apply bind_inv in E2. destruct E2 as ([] & r3 & E3 & E2). apply bind_inv in E2. destruct E2 as ([] & r4 & E4 & E2). apply bind_inv in E2. destruct E2 as (l' & r5 & E5 & E2).
  apply pair_inj in E2. destruct E2 as [E2 <-]. apply ok_inj in E2. injection E2 as <-.
  rewrite (bind_ok _ _ _ (VRec (l' ++ [VNum (N.of_nat (r_bits r5))])) r5); [reflexivity|].
  rewrite read_struct, (bind_ok _ _ _ _ _ E3), (bind_ok _ _ _ _ _ E4). now rewrite (bind_ok _ _ _ _ _ (fields_read_tell _ _ _ _ _ _ _ _ _ E5)).
Qed.

(** ** Writing *)

Lemma write_func_at c n a st ctx fs off v wr : field_write_func c (at_offset n a) st ctx fs off v wr = field_write_func c a st ctx fs n v wr.
Proof. unfold field_write_func. cbn [at_offset a_writer a_temp a_temp_value]. now destruct (a_writer a). Qed.
Lemma write_tokens_at n a ctx fs off m : field_write_tokens (at_offset n a) ctx fs off m = field_write_tokens a ctx fs n m.
Proof. unfold field_write_tokens. cbn [at_offset a_skip a_cond]. now destruct (a_skip a) as [[]|], (a_cond a). Qed.
Definition head_write (c : cattrs) (a : fattrs) (ctx fs : list value) : WM unit :=
  let* _ := write_seek (option_map (fun f => f ctx fs) (a_seek a)) in
  let* _ := write_magic (a_magic a) in
  write_pad (eval0 (a_pad_before a) ctx fs) (field_order c a ctx fs).
Definition body_write (c : cattrs) (a : fattrs) st ctx fs v wr (off : nat) : WM unit :=
  let* _ := asserts a ctx fs off v in
  let* _ := field_write_tokens a ctx fs off (field_write_func c a st ctx fs off v wr) in
  write_pad (eval0 (a_pad_after a) ctx (fs ++ [v])) (field_order c a ctx fs).
Lemma write_field_split c a st ctx fs v wr w : write_field c a st ctx fs v wr w =
  (let* _ := head_write c a ctx fs in fun w => body_write c a st ctx fs v wr (w_bits w) w) w.
Proof. unfold write_field, head_write. rewrite bind_assoc. apply bind_ext. intros _ w1 _. now rewrite bind_assoc. Qed.
Lemma write_field_at c n a st ctx fs v wr w : (forall w1, head_write c a ctx fs w = (Ok tt, w1) -> w_bits w1 = n) ->
  write_field c a st ctx fs v wr w = write_field c (at_offset n a) st ctx fs v wr w.
Proof.
  intros H. rewrite !write_field_split. change (head_write c (at_offset n a)) with (head_write c a). apply bind_ext. intros [] w1 E.
  unfold body_write. rewrite asserts_at, write_tokens_at, write_func_at. now rewrite (H w1 E).
Qed.
Lemma write_lead c a st ctx fs v args w : write_field c (lead a) st ctx fs v (fun _ x => write_ty cu TUnit args x) w = head_write c a ctx fs w.
Proof.
  rewrite write_field_split. change (head_write c (lead a)) with (head_write c a). unfold bind at 1. destruct (head_write c a ctx fs w) as [[[]|e| |] w1]; reflexivity.
Qed.
Lemma write_own c a st st' ctx fs v wr : own_value a -> write_field c a st ctx fs v wr = write_field c a st' ctx fs v wr.
Proof.
  intros [_ H]. unfold write_field, field_write_func. destruct (a_writer a) as [f|]; [|reflexivity]. now rewrite (H f eq_refl st st').
Qed.
Lemma fields_write_before c ctx gs st st' : forall pre id before todo acc w, pre <> FNil \/ id = None -> all_fields own_value pre -> length before = stored_count pre ->
  fields_write cu c ctx (fapp pre gs) id st (before ++ todo) acc w =
  (let* _ := fields_write cu c ctx pre id st' before acc in fields_write cu c ctx gs None st todo (acc ++ before)) w.
Proof.
  induction pre as [|a t wire pre IH]; intros id before todo acc w HI Ho Hl; cbn [fapp].
  - destruct HI as [HI| ->]; [now destruct HI|]. destruct before; [|discriminate]. cbn [fields_write]. rewrite bind_ret_l, app_nil_r. reflexivity.
  - destruct Ho as [Ha Ho]. cbn [stored_count] in Hl. rewrite !write_cons. unfold field_value, field_rest. destruct Ha as [Ha Hw]. rewrite Ha in *.
    destruct before as [|v before]; [discriminate|]. cbn [app hd tl] in *. rewrite (write_own c a st st') by (split; assumption).
    rewrite bind_assoc. apply bind_ext. intros [] w1 _. rewrite IH; [|now right|exact Ho|now injection Hl]. now rewrite <- app_assoc.
Qed.
Lemma fields_write_at c ctx pre a t wire tl id before v after w w1 : pre <> FNil \/ id = None ->
  all_fields own_value pre -> length before = stored_count pre -> a_temp a = false ->
  fields_write cu c ctx (fapp pre (FCons (lead a) TUnit TUnit FNil)) id (before ++ [VUnit]) (before ++ [VUnit]) [] w = (Ok tt, w1) ->
  fields_write cu c ctx (fapp pre (FCons a t wire tl)) id (before ++ v :: after) (before ++ v :: after) [] w =
  fields_write cu c ctx (fapp pre (FCons (at_offset (w_bits w1) a) t wire tl)) id (before ++ v :: after) (before ++ v :: after) [] w.
Proof.
  intros HI Ho Hl Ht H.
  rewrite (fields_write_before _ _ _ _ before) in H by assumption. rewrite !(fields_write_before _ _ _ _ before) by assumption.
  apply bind_inv in H. destruct H as ([] & w4 & E4 & H). rewrite !(bind_ok _ _ _ _ _ E4). cbn [app] in *. rewrite !write_cons in *.
  apply bind_inv in H. destruct H as ([] & w5 & E5 & H). apply pair_inj in H. destruct H as [_ <-].
  change (fun args x => write_ty cu TUnit args x) with (fun (_ : list value) x => write_ty cu TUnit [] x) in E5. rewrite write_lead in E5.
  change (field_value (at_offset (w_bits w5) a)) with (field_value a). change (field_rest (at_offset (w_bits w5) a)) with (field_rest a).
  apply bind_cong. apply write_field_at. intros w6 E6. rewrite E5 in E6. apply pair_inj in E6. now destruct E6 as [_ <-].
Qed.
Theorem write_offset c pre a t wire tl args before v after w w1 : all_fields own_value pre -> length before = stored_count pre -> a_temp a = false ->
  write_ty cu (TStruct c (fapp pre (FCons (lead a) TUnit TUnit FNil))) args (VRec (before ++ [VUnit])) w = (Ok tt, w1) ->
  write_ty cu (TStruct c (fapp pre (FCons a t wire tl))) args (VRec (before ++ v :: after)) w =
  write_ty cu (TStruct c (fapp pre (FCons (at_offset (w_bits w1) a) t wire tl))) args (VRec (before ++ v :: after)) w.
Proof.
  intros Ho Hl Ht. rewrite !write_struct. intros H. apply bind_inv in H. destruct H as ([] & w2 & E2 & H). apply bind_inv in H. destruct H as ([] & w3 & E3 & H).
  rewrite !(bind_ok _ _ _ _ _ E2), !(bind_ok _ _ _ _ _ E3). apply fields_write_at; try assumption. now right.
Qed.
Lemma variant_write_at e ctx wid pre a t wire tl before v after : forall vs k w w1, pre <> FNil \/ no_pattern vs k ->
  all_fields own_value pre -> length before = stored_count pre -> a_temp a = false ->
  variant_write cu e ctx wid (set_fields vs k (fapp pre (FCons (lead a) TUnit TUnit FNil))) k (before ++ [VUnit]) w = (Ok tt, w1) ->
  variant_write cu e ctx wid (set_fields vs k (fapp pre (FCons a t wire tl))) k (before ++ v :: after) w =
  variant_write cu e ctx wid (set_fields vs k (fapp pre (FCons (at_offset (w_bits w1) a) t wire tl))) k (before ++ v :: after) w.
Proof.
  induction vs as [|v0 gs vs IH]; intros k w w1 HN Ho Hl Ht H; [now destruct k|]. destruct k as [|k]; cbn [set_fields] in *.
  - rewrite !write_variant_0 in *. apply bind_inv in H. destruct H as ([] & w2 & E & H).
    assert (W : forall f, write_id e v0 (fapp pre (FCons f t wire tl)) ctx wid = write_id e v0 (fapp pre (FCons (lead a) TUnit TUnit FNil)) ctx wid) by (intros f; now destruct pre).
    rewrite !W, !(bind_ok _ _ _ _ _ E). apply fields_write_at; try assumption.
    destruct HN as [HN|HN]; [now left|right]. specialize (HN v0 gs eq_refl). now destruct (v_sel v0).
  - exact (IH k w w1 HN Ho Hl Ht H).
Qed.
Theorem write_variant_offset e idt vs k pre a t wire tl args before v after w w1 : pre <> FNil \/ no_pattern vs k ->
  all_fields own_value pre -> length before = stored_count pre -> a_temp a = false ->
  write_ty cu (TEnum e idt (set_fields vs k (fapp pre (FCons (lead a) TUnit TUnit FNil)))) args (VVar k (before ++ [VUnit])) w = (Ok tt, w1) ->
  write_ty cu (TEnum e idt (set_fields vs k (fapp pre (FCons a t wire tl)))) args (VVar k (before ++ v :: after)) w =
  write_ty cu (TEnum e idt (set_fields vs k (fapp pre (FCons (at_offset (w_bits w1) a) t wire tl)))) args (VVar k (before ++ v :: after)) w.
Proof.
  intros HN Ho Hl Ht. rewrite !write_enum. intros H. apply bind_inv in H. destruct H as ([] & w2 & E2 & H).
  rewrite !(bind_ok _ _ _ _ _ E2). now apply variant_write_at.
Qed.
End Offsets.
Lemma output_offset_of cu t1 v1 t2 (t3 : nat -> ty) v bits :
  (forall w w1, write_ty cu t1 [] v1 w = (Ok tt, w1) -> write_ty cu t2 [] v w = write_ty cu (t3 (w_bits w1)) [] v w) ->
  writes_in_order cu t1 -> to_bits cu t1 v1 = Ok bits ->
  to_bits cu t2 v = to_bits cu (t3 (8 * (length bits / 8))) v /\ to_bytes cu t2 v = to_bytes cu (t3 (8 * (length bits / 8))) v.
Proof.
  intros HR HW H. unfold to_bits, to_bits_with in H.
  pose proof (derived_appends cu _ [] v1 HW (writer_new vec_sink) fresh_good) as [G (bs & A)].
  destruct (write_ty cu t1 [] v1 (writer_new vec_sink)) as [x w1] eqn:E.
  destruct x as [[]| | |]; try discriminate. cbn [snd res_map] in *. apply ok_inj in H. subst bits.
  destruct A as [[Ed Ep _ _ _] Eb]. destruct G as [_ G].
  assert (Hd : k_data (w_k w1) = bs) by (rewrite Ed; exact (overlay_end [] bs)).
  assert (HB : 8 * (length (bits_of_bytes (k_data (w_k w1)) ++ w_left w1) / 8) = w_bits w1).
  { rewrite Hd, app_length, bits_of_bytes_length, Eb. cbn [writer_new w_bits]. lia. }
  rewrite HB. pose proof (HR _ _ E) as X.
  unfold to_bits, to_bits_with, to_bytes, to_bytes_with. unfold bind. now rewrite X.
Qed.
Theorem output_offset cu c pre a t wire tl before v after bits : all_fields own_value pre -> length before = stored_count pre -> a_temp a = false ->
  writes_in_order cu (TStruct c (fapp pre (FCons (lead a) TUnit TUnit FNil))) ->
  to_bits cu (TStruct c (fapp pre (FCons (lead a) TUnit TUnit FNil))) (VRec (before ++ [VUnit])) = Ok bits ->
  to_bits cu (TStruct c (fapp pre (FCons a t wire tl))) (VRec (before ++ v :: after)) =
  to_bits cu (TStruct c (fapp pre (FCons (at_offset (8 * (length bits / 8)) a) t wire tl))) (VRec (before ++ v :: after)) /\
  to_bytes cu (TStruct c (fapp pre (FCons a t wire tl))) (VRec (before ++ v :: after)) =
  to_bytes cu (TStruct c (fapp pre (FCons (at_offset (8 * (length bits / 8)) a) t wire tl))) (VRec (before ++ v :: after)).
Proof.
  intros Ho Hl Ht. apply (output_offset_of cu _ _ _ (fun n => TStruct c (fapp pre (FCons (at_offset n a) t wire tl)))). intros w w1. now apply write_offset.
Qed.
Theorem output_variant_offset cu e idt vs k pre a t wire tl before v after bits : pre <> FNil \/ no_pattern vs k ->
  all_fields own_value pre -> length before = stored_count pre -> a_temp a = false ->
  writes_in_order cu (TEnum e idt (set_fields vs k (fapp pre (FCons (lead a) TUnit TUnit FNil)))) ->
  to_bits cu (TEnum e idt (set_fields vs k (fapp pre (FCons (lead a) TUnit TUnit FNil)))) (VVar k (before ++ [VUnit])) = Ok bits ->
  to_bits cu (TEnum e idt (set_fields vs k (fapp pre (FCons a t wire tl)))) (VVar k (before ++ v :: after)) =
  to_bits cu (TEnum e idt (set_fields vs k (fapp pre (FCons (at_offset (8 * (length bits / 8)) a) t wire tl)))) (VVar k (before ++ v :: after)) /\
  to_bytes cu (TEnum e idt (set_fields vs k (fapp pre (FCons a t wire tl)))) (VVar k (before ++ v :: after)) =
  to_bytes cu (TEnum e idt (set_fields vs k (fapp pre (FCons (at_offset (8 * (length bits / 8)) a) t wire tl)))) (VVar k (before ++ v :: after)).
Proof.
  intros HN Ho Hl Ht. apply (output_offset_of cu _ _ _ (fun n => TEnum e idt (set_fields vs k (fapp pre (FCons (at_offset n a) t wire tl))))).
  intros w w1. now apply write_variant_offset.
Qed.
