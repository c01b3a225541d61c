(** Proofs about plain declarations: the wire format. *)
From Coq Require Import Lia ZifyBool ZifyNat ZifyN.
From Verif Require Import Base Spec Stream Reader Writer BitsFacts NFacts Prims CodecSpec CodecFacts PrimFacts Containers ContainerSpec Derive DeriveSpec DeriveFacts DeriveSound SafeSpec AttrFacts SizeFacts Decl PlainSpec.
Ltac Zify.zify_post_hook ::= Z.div_mod_to_equations.

Scheme pty_mut := Induction for pty Sort Prop
  with pfields_mut := Induction for pfields Sort Prop
  with pvariants_mut := Induction for pvariants Sort Prop.
Combined Scheme plain_ind from pty_mut, pfields_mut, pvariants_mut.

Ltac bsplit :=
  repeat match goal with
  | H : (_ && _)%bool = true |- _ => apply andb_true_iff in H; destruct H
  end.

(** ** Contexts *)

Definition pargs (e : option endian) (b : option nat) : list value := args_of e b None None [].
Definition pcontext (e : option endian) (b : option nat) : pctx :=
  match e, b with None, None => C0 | Some x, None => CE x | None, Some n => CB n | Some x, Some n => CEB x n end.
Lemma pargs_pctx e b : pctx_of (pargs e b) = Some (pcontext e b).
Proof. now destruct e, b. Qed.
Lemma pcontext_bits e n : bits_of_ctx (pcontext e (Some n)) = Some (byte_order e, n, Msb0).
Proof. now destruct e. Qed.
Lemma pcontext_none e : bits_of_ctx (pcontext e None) = None.
Proof. now destruct e. Qed.
Lemma pcontext_bytes wb e : bytes_of_ctx wb (pcontext e None) = Some (byte_order e, wb, Msb0).
Proof. now destruct e. Qed.
Lemma field_pargs m a ctx fs off : field_args (cattrs_of (struct_decl m)) (fattrs_of (field_decl a) VNone) ctx fs off = pargs (p_endian a) (p_bits a).
Proof. destruct a as [[[]|] [n|] k mg b f]; reflexivity. Qed.
Lemma field_pargs_enum m p e b a ctx fs off :
  field_args (en_c (eattrs_of (enum_decl m p e b))) (fattrs_of (field_decl a) VNone) ctx fs off = pargs (p_endian a) (p_bits a).
Proof. destruct a as [[[]|] [n|] k mg x f]; reflexivity. Qed.
Lemma id_pargs m p e b ctx : id_args (eattrs_of (enum_decl m p e b)) ctx = pargs e b.
Proof. destruct e as [[]|], b; reflexivity. Qed.
Lemma pargs_eqb e b : list_eqb value_eqb (pargs e b) (pargs e b) = true.
Proof. destruct e as [[]|], b as [n|]; cbn; rewrite ?Nat.eqb_refl; reflexivity. Qed.
Lemma pargs_none e b : none e = true -> none b = true -> pargs e b = [] /\ e = None /\ b = None.
Proof. destruct e, b; try discriminate. auto. Qed.
Lemma magic_attr_ok m : match magic_attr m with Some x => x | None => [] end = m.
Proof. now destruct m. Qed.

(** ** Integers *)

Lemma num_fits_type p b n : num_fits p b n = true -> (n < 2 ^ N.of_nat (prim_width p))%N.
Proof. unfold num_fits. intros H. bsplit. lia. Qed.
Lemma encode_plain_num whole p e b n pos : num_plain whole p e b = true -> num_fits p b n = true ->
  encode_num Msb0 pos p None (pargs e b) n = Some (num_wire p e b n).
Proof.
  intros H F. unfold encode_num. rewrite pargs_pctx. unfold num_plain in H. apply andb_true_iff in H. destruct H as [Hw H].
  unfold num_wire. destruct b as [k|].
  - apply andb_true_iff in H. destruct H as [H H4]. apply andb_true_iff in H. destruct H as [H H3]. apply andb_true_iff in H. destruct H as [H1 H2].
    unfold encode_prim. rewrite pcontext_bits. unfold guard.
    assert (Hh : holds p (pcontext e (Some k)) k n = true).
    { unfold num_fits in F. apply andb_true_iff in F. destruct F as [F1 F2]. unfold holds.
      destruct p as [|wb|wb]; cbn [unsigned] in *; try exact F2.
      change (prim_width (PI wb)) with (8 * wb) in *. rewrite F1. apply andb_true_iff in F2. destruct F2 as [F2 F3]. cbn [andb orb] in *.
      destruct e as [x|]; cbn [pcontext].
      + rewrite F2, F3. apply Bool.orb_true_r.
      + cbn [none negb] in H3. rewrite Bool.orb_false_r in H3. apply orb_prop in H3. destruct H3 as [H3|H3].
        * rewrite H3. rewrite Bool.orb_true_r. reflexivity.
        * rewrite H3, F2, F3. apply Bool.orb_true_r. }
    rewrite Hh, Bool.orb_true_r. cbn [order_eqb andb orb]. rewrite H1, H2. reflexivity.
  - rewrite (encode_bytes_ok Msb0 Msb0 pos p _ (byte_order e) (prim_bytes p) n (pcontext_none e) (pcontext_bytes _ e)).
    + rewrite layout_bytes, bitstring_msb. reflexivity.
    + unfold prim_width. lia.
    + exact (num_fits_type p None n F).
    + right. auto.
Qed.
Lemma num_wire_length p e b n : length (num_wire p e b n) = num_bits p b.
Proof. destruct b; cbn [num_wire num_bits]; [apply layout_length|]. rewrite bits_of_bytes_length, to_bytes_e_length. reflexivity. Qed.
Lemma num_whole p e b : num_plain true p e b = true -> num_bits p b mod 8 = 0.
Proof. unfold num_plain, num_bits, prim_width. destruct b; [|lia]. intros H. bsplit. cbn in *. lia. Qed.
Lemma encode_magic_msb pos m : encode_magic Msb0 pos m = Some (bits_of_bytes m).
Proof. destruct m; [reflexivity|]. unfold encode_magic, encode_bytes, guard. cbn [order_eqb orb]. now rewrite bitstring_msb. Qed.
Lemma encode_pad_msb m a n whole : pad_plain whole n = true ->
  forall ctx fs acc, encode_pad SeekSource Msb0 (eval0 (pad_of (pad n) None) ctx acc) (field_order (cattrs_of (struct_decl m)) (fattrs_of (field_decl a) VNone) ctx fs) =
    Some (repeat false n).
Proof.
  intros H ctx fs acc. destruct n as [|n]; [reflexivity|]. cbn [pad pad_of eval0 option_map const encode_pad].
  unfold pad_plain in H. destruct whole; [discriminate|]. unfold guard, const. change (order_eqb Msb0 _) with true.
  destruct (Z.leb_spec 0 (Z.of_nat (S n))); [|lia]. destruct (Z.leb_spec (Z.of_nat (S n)) (Z.of_N usize_max)); [|lia].
  cbn [andb orb seekable]. now rewrite Nat2Z.id.
Qed.

(** ** Types of values *)

Lemma fields_typed_cons a t wire tl l : fields_typed (FCons a t wire tl) l =
  (if a_temp a then fields_typed tl l else match l with v :: l' => typed t v /\ fields_typed tl l' | [] => False end).
Proof. reflexivity. Qed.
Lemma plain_typed :
  (forall t b v, value_fits b t v = true -> typed (ctype t) v) /\
  (forall fs acc l, fields_fit fs acc l = true -> fields_typed (cfields fs) l) /\
  (forall vs k l, variant_fits vs k l = true -> variant_typed (cvariants vs) k l).
Proof.
  apply plain_ind.
  - intros p b [n|x|l|x y|x| |l|k l|e|n|n|o] H; try discriminate. exact (num_fits_type p b n H).
  - intros b [n|x|l|x y|x| |l|k l|e|n|n|o] H; try discriminate. exact I.
  - intros n t IH b [m|x|l|x y|x| |l|k l|e|m|m|o] H; try discriminate. cbn [value_fits] in H. bsplit. cbn [ctype typed_in]. split; [lia|].
    rewrite forallb_forall in H0. apply Forall_forall. intros x Hx. exact (IH b x (H0 x Hx)).
  - intros m fs IH b [n|x|l|x y|x| |l|k l|e|n|n|o] H; try discriminate. exact (IH [] l H).
  - intros m p e b' vs IH b [n|x|l|x y|x| |l|k l|e0|n|n|o] H; try discriminate. exact (IH k l H).
  - intros p b [n|x|l|x y|x| |l|k l|e|n|n|o] H; try discriminate. cbn [value_fits] in H. bsplit. cbn [ctype typed_in].
    match goal with F : num_fits p b n = true |- _ => pose proof (num_fits_type p b n F) end. lia.
  - intros s IHs t IHt b [n|z|l|x y|z| |l|k l|e|n|n|o] H; try discriminate. cbn [value_fits] in H. apply andb_true_iff in H. destruct H as [H1 H2].
    exact (conj (IHs b x H1) (IHt b y H2)).
  - intros b [n|x|l|x y|x| |l|k l|e|n|n|o] H; try discriminate. change (forallb is_char l = true) in H. cbn [ctype typed_in].
    rewrite forallb_forall in H. apply Forall_forall. intros x Hx. specialize (H x Hx). unfold is_char in H. destruct x; try discriminate. lia.
  - intros acc [|v l] H; [reflexivity|discriminate].
  - intros a t IHt tl IHtl acc [|v l] H; [discriminate|]. cbn [cfields]. rewrite fields_typed_cons. cbn [fattrs_of a_temp field_decl d_temp].
    change (fields_fit (PCons a t tl) acc (v :: l)) with
      (match p_kind a, v with
       | One, _ => value_fits (p_bits a) t v
       | Many k _, VList xs => (N.of_nat (length xs) =? count_at acc k)%N && forallb (value_fits (p_bits a) t) xs
       | When k, VSome x => flag_at acc k && value_fits (p_bits a) t x
       | When k, VNone => negb (flag_at acc k)
       | Until n _, VList xs => up_to n xs && forallb (value_fits (p_bits a) t) xs
       | _, _ => false
       end && fields_fit tl (acc ++ [v]) l) in H.
    apply andb_true_iff in H. destruct H as [H1 H2]. split; [|exact (IHtl _ l H2)]. clear H2 IHtl.
    destruct (p_kind a) as [|k size|k|i size]; cbn [holding].
    + exact (IHt _ v H1).
    + destruct v as [n|x|xs|x y|x| |xs|j xs|e|n|n|o]; try discriminate. apply andb_true_iff in H1. destruct H1 as [_ H1].
      rewrite forallb_forall in H1. cbn [typed_in]. split; [|now apply distinct_vec]; apply Forall_forall. intros x Hx. exact (IHt _ x (H1 x Hx)).
    + destruct v as [n|x|xs|x y|x| |xs|j xs|e|n|n|o]; try discriminate.
      * apply andb_true_iff in H1. destruct H1 as [_ H1]. exact (IHt _ x H1).
      * exact I.
    + destruct v as [n|x|xs|x y|x| |xs|j xs|e|n|n|o]; try discriminate. apply andb_true_iff in H1. destruct H1 as [_ H1].
      rewrite forallb_forall in H1. cbn [typed_in]. split; [|now apply distinct_vec]; apply Forall_forall. intros x Hx. exact (IHt _ x (H1 x Hx)).
  - intros [|k] l H; discriminate.
  - intros id fs IHfs tl IHtl [|k] l H; [exact (IHfs [] l H)|exact (IHtl k l H)].
Qed.
Lemma fields_fit_cons a t tl acc v l : fields_fit (PCons a t tl) acc (v :: l) =
  (match p_kind a, v with
   | One, _ => value_fits (p_bits a) t v
   | Many k _, VList xs => (N.of_nat (length xs) =? count_at acc k)%N && forallb (value_fits (p_bits a) t) xs
   | When k, VSome x => flag_at acc k && value_fits (p_bits a) t x
   | When k, VNone => negb (flag_at acc k)
   | Until n _, VList xs => up_to n xs && forallb (value_fits (p_bits a) t) xs
   | _, _ => false
   end && fields_fit tl (acc ++ [v]) l).
Proof. reflexivity. Qed.
Lemma fields_plain_cons whole done a t tl : fields_plain whole done (PCons a t tl) =
  (plain_in whole t (p_endian a) (p_bits a) && kind_plain whole done a t &&
   pad_plain whole (p_before a) && pad_plain whole (p_after a) && fields_plain whole (done ++ [slot_of (p_kind a) t]) tl).
Proof. reflexivity. Qed.
Lemma fields_wire_cons a t tl v l : fields_wire (PCons a t tl) (v :: l) =
  bits_of_bytes (p_magic a) ++ repeat false (p_before a) ++
  match p_kind a, v with
  | One, _ => wire (p_endian a) (p_bits a) t v
  | Many _ _, VList xs | Until _ _, VList xs => concat (map (wire (p_endian a) (p_bits a) t) xs)
  | When _, VSome x => wire (p_endian a) (p_bits a) t x
  | _, _ => []
  end ++ repeat false (p_after a) ++ fields_wire tl l.
Proof. reflexivity. Qed.

(** What is known of the fields before. *)
Definition before (done : list slot) (acc : list value) : Prop :=
  length done = length acc /\ forall k p, nth_error done k = Some (SNum p) -> (count_at acc k < 2 ^ N.of_nat (prim_width p))%N.
Lemma before_nil : before [] [].
Proof. split; [reflexivity|]. intros [|k] p; discriminate. Qed.
Lemma before_snoc done acc k t v : before done acc -> typed (holding k (ctype t)) v -> before (done ++ [slot_of k t]) (acc ++ [v]).
Proof.
  intros [HL HB] T. split; [rewrite !app_length; cbn; lia|]. intros j p E. unfold count_at.
  destruct (Nat.lt_ge_cases j (length done)) as [Hj|Hj].
  - rewrite nth_error_app1 in E by lia. rewrite app_nth1 by lia. exact (HB j p E).
  - rewrite nth_error_app2 in E by lia. destruct (j - length done) as [|i] eqn:Ej; [|destruct i; discriminate].
    cbn in E. injection E as E. assert (j = length acc) as -> by lia. rewrite nth_middle.
    destruct k as [|k size|k|i size], t as [q| | | | | | |]; try discriminate. cbn in E. injection E as ->. cbn [holding ctype] in T.
    destruct v; try contradiction. exact T.
Qed.

(** ** The format *)

Definition pc (m : list byte) : cattrs := cattrs_of (struct_decl m).
Definition at_byte (whole : bool) (pos : nat) : Prop := whole = true -> pos mod 8 = 0.
Lemma at_byte_add whole a b : at_byte whole a -> at_byte whole b -> at_byte whole (a + b).
Proof. intros Ha Hb W. specialize (Ha W). specialize (Hb W). lia. Qed.
Lemma at_byte_bytes whole m : at_byte whole (length (bits_of_bytes m)).
Proof. intros _. rewrite bits_of_bytes_length. lia. Qed.
Lemma at_byte_pad whole n : pad_plain whole n = true -> at_byte whole (length (repeat false n)).
Proof. intros H ->. cbn in H. rewrite repeat_length. apply Nat.eqb_eq in H. subst. reflexivity. Qed.

Lemma encode_list_all (f : nat -> value -> option (list bool)) w whole l :
  (forall pos x, In x l -> at_byte whole pos -> f pos x = Some (w x) /\ at_byte whole (length (w x))) ->
  forall pos, at_byte whole pos -> encode_list f pos l = Some (map w l) /\ at_byte whole (length (concat (map w l))).
Proof.
  induction l as [|x l IH]; intros H pos A; [split; [reflexivity|intros _; reflexivity]|].
  destruct (H pos x (or_introl eq_refl) A) as [E L].
  destruct (IH (fun q y Hy => H q y (or_intror Hy)) (pos + length (w x)) (at_byte_add _ _ _ A L)) as [E2 L2].
  cbn [encode_list map concat]. rewrite E, E2. split; [reflexivity|]. rewrite app_length. now apply at_byte_add.
Qed.

Lemma first_match_ids vs : forall k j, no_repeat (ids vs) = true -> k < length (ids vs) ->
  first_match (cvariants vs) (VNum (nth k (ids vs) 0%N)) j = Some (j + k).
Proof.
  induction vs as [|id fs tl IH]; intros k j D L; cbn [ids length] in L; [lia|]. cbn [ids no_repeat] in D. bsplit.
  cbn [cvariants first_match v_sel matches ids value_eqb]. destruct k as [|k]; cbn [nth].
  - rewrite N.eqb_refl. f_equal. lia.
  - destruct (N.eqb_spec (nth k (ids tl) 0%N) id) as [E|E].
    + exfalso. apply negb_true_iff in H. assert (X : existsb (N.eqb id) (ids tl) = true); [|congruence].
      apply existsb_exists. exists id. split; [rewrite <- E; apply nth_In; lia|apply N.eqb_refl].
    + rewrite IH by (trivial; lia). f_equal. lia.
Qed.
Lemma variant_fits_len vs : forall k l, variant_fits vs k l = true -> k < length (ids vs).
Proof.
  induction vs as [|id fs tl IH]; intros [|k] l H; try discriminate; cbn [ids length]; [lia|]. specialize (IH k l H). lia.
Qed.
Lemma selects_ids vs k l : no_repeat (ids vs) = true -> variant_fits vs k l = true -> selects (cvariants vs) (VNum (nth k (ids vs) 0%N)) k = true.
Proof. intros D F. apply variant_fits_len in F. unfold selects, selected. rewrite first_match_ids by assumption. cbn. apply Nat.eqb_refl. Qed.

Lemma eval_count k size done acc ctx whole a t : p_kind a = Many k size -> kind_plain whole done a t = true -> before done acc ->
  forall off, eval_limit (FCount (fun _ fs _ => Z.of_N (count_at fs k))) ctx acc off = Ok (LCount (count_at acc k)) /\
  (count_at acc k * size <= isize_max)%N /\ size <> 0%N /\ (8 * count_at acc k <= usize_max)%N.
Proof.
  intros K P [_ B] off. unfold kind_plain in P. rewrite K in P. bsplit. destruct (nth_error done k) as [[p| |]|] eqn:E; try discriminate. bsplit.
  specialize (B k p E). assert (S0 : size <> 0%N) by lia.
  assert (M : (2 ^ N.of_nat (prim_width p) * size <= isize_max)%N) by lia.
  assert (W : (2 ^ N.of_nat (prim_width p) <= 2 ^ 56)%N).
  { apply N.pow_le_mono_r; [lia|]. destruct (N.le_gt_cases (N.of_nat (prim_width p)) 56) as [Hw|Hw]; [exact Hw|exfalso].
    assert (X1 : (64 <= N.of_nat (prim_width p))%N) by (unfold prim_width in *; lia).
    assert (X2 : (2 ^ 64 <= 2 ^ N.of_nat (prim_width p))%N) by (apply N.pow_le_mono_r; lia).
    assert (X3 : (isize_max < 2 ^ 64)%N) by reflexivity. clear - M S0 X2 X3.
    generalize dependent (2 ^ N.of_nat (prim_width p))%N. intros w M X2. assert (w * 1 <= w * size)%N by (apply N.mul_le_mono_l; lia). lia. }
  assert (C : (8 * count_at acc k <= usize_max)%N).
  { assert (8 * 2 ^ 56 <= usize_max)%N by (vm_compute; discriminate). lia. }
  split; [|split; [|split]]; [|clear - M B; generalize dependent (2 ^ N.of_nat (prim_width p))%N; intros w M B; assert (count_at acc k * size <= w * size)%N by (apply N.mul_le_mono_r; lia); lia|exact S0|exact C].
  cbn [eval_limit]. unfold to_usize. clear - C. destruct (Z.ltb_spec (Z.of_N (count_at acc k)) 0); [lia|].
  destruct (Z.ltb_spec (Z.of_N usize_max) (Z.of_N (count_at acc k))); [lia|]. cbn [orb]. now rewrite N2Z.id.
Qed.

Lemma encode_vec ce size t l args pos : encode SeekSource Msb0 ce (TVec KVec size t) (Some (LCount (N.of_nat (length l)))) args pos (VList l) =
  (let? es := encode_list (fun p x => encode SeekSource Msb0 ce t None args p x) pos l in
   guard (negb (size =? 0)%N && ((N.of_nat (length l) * size <=? isize_max)%N)) (Some (concat es))).
Proof.
  change (encode SeekSource Msb0 ce (TVec KVec size t) (Some (LCount (N.of_nat (length l)))) args pos (VList l)) with
    (let? es := encode_list (fun p x => encode SeekSource Msb0 ce t None args p x) pos l in
     guard (negb (size =? 0)%N && stops size (LCount (N.of_nat (length l))) l es && distinct KVec l) (Some (concat es))).
  unfold stops. rewrite N.eqb_refl, (distinct_vec KVec l eq_refl), andb_true_r. reflexivity.
Qed.
(** A counted [Vec<u8>]. *)
Lemma byte_wires e l : forallb (value_fits None (PInt PU8)) l = true ->
  Some (concat (map (wire e None (PInt PU8)) l)) = option_map (bitstring Msb0) (byte_values (VList l)).
Proof.
  cbn [byte_values option_map]. intros H. f_equal. induction l as [|x l IH]; [reflexivity|]. cbn [forallb] in H. apply andb_true_iff in H. destruct H as [H1 H2].
  cbn [map concat]. rewrite bitstring_cons, <- IH by exact H2. f_equal. destruct x; try discriminate.
  cbn [wire num_wire prim_bytes]. rewrite to_bytes_1, be_bits. unfold orient. rewrite byte_of_N_byte_bits. reflexivity.
Qed.

(** A [Vec] read until an element. *)
Lemma encode_vec_until ce size t l args pos n : encode SeekSource Msb0 ce (TVec KVec size t) (Some (LUntil (fun l => is_num n (last l VUnit)))) args pos (VList l) =
  (let? es := encode_list (fun p x => encode SeekSource Msb0 ce t None args p x) pos l in
   guard (negb (size =? 0)%N && (negb (length l =? 0) && is_num n (last l VUnit) && forallb (fun i => negb (is_num n (last (firstn i l) VUnit))) (seq 1 (length l - 1))) && no_empty es) (Some (concat es))).
Proof.
  change (encode SeekSource Msb0 ce (TVec KVec size t) (Some (LUntil (fun l => is_num n (last l VUnit)))) args pos (VList l)) with
    (let? es := encode_list (fun p x => encode SeekSource Msb0 ce t None args p x) pos l in
     guard (negb (size =? 0)%N && stops size (LUntil (fun l => is_num n (last l VUnit))) l es && distinct KVec l) (Some (concat es))).
  destruct (encode_list _ pos l) as [es|]; [|reflexivity]. f_equal. unfold stops. rewrite (distinct_vec KVec l eq_refl), andb_true_r.
  destruct (negb (size =? 0)%N), (negb (length l =? 0)), (no_empty es), (is_num n (last l VUnit)), (forallb _ _); reflexivity.
Qed.
Lemma up_to_stops n l : up_to n l = true ->
  negb (length l =? 0) && is_num n (last l VUnit) && forallb (fun i => negb (is_num n (last (firstn i l) VUnit))) (seq 1 (length l - 1)) = true.
Proof.
  induction l as [|x l IH]; [discriminate|]. cbn [up_to]. destruct (is_num n x) eqn:E.
  - destruct l; [|discriminate]. intros _. cbn. now rewrite E.
  - destruct l as [|y l]; [discriminate|]. intros H. specialize (IH H). apply andb_true_iff in IH. destruct IH as [IH I3]. apply andb_true_iff in IH. destruct IH as [I1 I2].
    apply andb_true_iff. split; [exact I2|]. rewrite forallb_forall in *. intros i Hi. apply in_seq in Hi. cbn [length] in *.
    destruct i as [|[|i]]; [lia|cbn; now rewrite E|]. specialize (I3 (S i)). rewrite in_seq in I3. exact (I3 ltac:(lia)).
Qed.

(** Strings. *)
Lemma text_wire_bytes l : forallb is_char l = true -> text_wire l = bits_of_bytes (map (fun x => match x with VNum n => byte_of_N n | _ => x00 end) l ++ [x00]).
Proof.
  induction l as [|x l IH]; [reflexivity|]. cbn [forallb]. intros H. apply andb_true_iff in H. destruct H as [H1 H2]. unfold text_wire in *. cbn [app map concat].
  rewrite IH by exact H2. destruct x; try discriminate. cbn [char_wire num_wire prim_bytes]. rewrite to_bytes_1, be_bits. cbn [bits_of_bytes flat_map]. now rewrite byte_of_N_byte_bits.
Qed.

(** One field; [body] is what is between the paddings. *)
Definition body_wire (a : pattrs) (t : pty) (v : value) : list bool :=
  match p_kind a, v with
  | One, _ => wire (p_endian a) (p_bits a) t v
  | Many _ _, VList xs | Until _ _, VList xs => concat (map (wire (p_endian a) (p_bits a) t) xs)
  | When _, VSome x => wire (p_endian a) (p_bits a) t x
  | _, _ => []
  end.
Definition body_fits (a : pattrs) (t : pty) (acc : list value) (v : value) : bool :=
  match p_kind a, v with
  | One, _ => value_fits (p_bits a) t v
  | Many k _, VList xs => (N.of_nat (length xs) =? count_at acc k)%N && forallb (value_fits (p_bits a) t) xs
  | When k, VSome x => flag_at acc k && value_fits (p_bits a) t x
  | When k, VNone => negb (flag_at acc k)
  | Until n _, VList xs => up_to n xs && forallb (value_fits (p_bits a) t) xs
  | _, _ => false
  end.
Lemma num_plain_bits whole p e b : num_plain whole p e b = true -> num_bits p b <> 0.
Proof. unfold num_plain, num_bits, prim_width. intros H. bsplit. destruct b; [bsplit|]; lia. Qed.
Lemma plain_bits whole t e b : plain_in whole t e b = true -> forall p, t = PInt p -> num_bits p b <> 0.
Proof. intros P p ->. exact (num_plain_bits whole p e b P). Qed.
Definition encodes ce (whole : bool) (t : pty) (e : option endian) (b : option nat) : Prop :=
  forall v pos, value_fits b t v = true -> at_byte whole pos ->
  encode SeekSource Msb0 ce (ctype t) None (pargs e b) pos v = Some (wire e b t v) /\ at_byte whole (length (wire e b t v)).

Lemma encode_plain_field ce whole m a t done ctx acc v pos :
  encodes ce whole t (p_endian a) (p_bits a) -> (forall p, t = PInt p -> num_bits p (p_bits a) <> 0) -> kind_plain whole done a t = true -> pad_plain whole (p_before a) = true ->
  pad_plain whole (p_after a) = true -> before done acc -> at_byte whole pos -> body_fits a t acc v = true ->
  let T := holding (p_kind a) (ctype t) in
  encode_field SeekSource Msb0 (pc m) (fattrs_of (field_decl a) VNone) (is_vec_u8 T) (writes_nothing T v) ctx acc pos v
    (fun lim args p => encode SeekSource Msb0 ce T lim args p v) (fun lim args p => encode SeekSource Msb0 ce T lim args p v) =
  Some (bits_of_bytes (p_magic a) ++ repeat false (p_before a) ++ body_wire a t v ++ repeat false (p_after a)) /\
  at_byte whole (length (body_wire a t v)).
Proof.
  intros HE HN HK PB PA HB AP HF T. unfold encode_field.
  change (a_seek (fattrs_of (field_decl a) VNone)) with (@None (expr0 (option seekfrom))).
  change (a_reader (fattrs_of (field_decl a) VNone)) with (@None (expr (RM value))).
  change (a_writer (fattrs_of (field_decl a) VNone)) with (@None (list value -> expr (value -> WM unit))).
  change (a_magic (fattrs_of (field_decl a) VNone)) with (match magic_attr (p_magic a) with Some x => x | None => [] end).
  rewrite magic_attr_ok, encode_magic_msb. cbv beta iota.
  change (a_pad_before (fattrs_of (field_decl a) VNone)) with (pad_of (pad (p_before a)) None).
  change (a_pad_after (fattrs_of (field_decl a) VNone)) with (pad_of (pad (p_after a)) None).
  unfold pc. rewrite (encode_pad_msb m a _ _ PB ctx acc acc). cbv beta iota zeta. fold (pc m).
  set (q := pos + length (bits_of_bytes (p_magic a)) + length (repeat false (p_before a))).
  assert (AQ : at_byte whole q) by (unfold q; apply at_byte_add; [apply at_byte_add; [exact AP|apply at_byte_bytes]|now apply at_byte_pad]).
  change (assertions (fattrs_of (field_decl a) VNone) ctx acc q v) with true.
  change (assertions (fattrs_of (field_decl a) VNone) ctx acc (8 * (q / 8)) v) with true. cbn [andb guard].
  change (a_skip (fattrs_of (field_decl a) VNone)) with (@None skipmode).
  change (a_map (fattrs_of (field_decl a) VNone)) with (@None (expr (value -> res value))). cbv beta iota.
  unfold pc. rewrite !field_pargs, pargs_eqb. fold (pc m). cbn [andb guard].
  change (a_cond (fattrs_of (field_decl a) VNone)) with (match p_kind a with When k => Some (fun (_ fs : list value) (_ : nat) => flag_at fs k) | _ => None end).
  change (a_limit (fattrs_of (field_decl a) VNone)) with
    (limit_of (field_decl a)). unfold limit_of, field_decl at 1 2 3 4 5. cbn [d_count d_bytes_read d_until d_read_all d_bits_read option_map].
  unfold pc at 1. rewrite (encode_pad_msb m a _ _ PA ctx acc (acc ++ [v])).
  match goal with |- match ?x with Some _ => _ | None => _ end = _ /\ _ =>
    assert (X : x = Some (body_wire a t v) /\ at_byte whole (length (body_wire a t v))); [|destruct X as [-> X]; split; [reflexivity|exact X]] end.
  unfold body_fits in HF. unfold body_wire. unfold T. destruct (p_kind a) as [|k size|k|i size] eqn:EK; cbn [holding option_map is_read is_written].
  - rewrite agree_same. exact (HE v q HF AQ).
  - destruct v as [n|x|xs|x y|x| |xs|j xs|e|n|n|o]; try discriminate. apply andb_true_iff in HF. destruct HF as [HL HF]. apply N.eqb_eq in HL.
    destruct (eval_count k size done acc ctx whole a t EK HK HB q) as (EL & HS & S0 & _). rewrite EL, <- HL. rewrite <- HL in HS. rewrite agree_same, encode_vec.
    rewrite forallb_forall in HF.
    destruct (encode_list_all (fun p x => encode SeekSource Msb0 ce (ctype t) None (pargs (p_endian a) (p_bits a)) p x) (wire (p_endian a) (p_bits a) t) whole xs
      (fun pos x Hx A => HE x pos (HF x Hx) A) q AQ) as [E1 E2].
    rewrite E1. split; [|exact E2]. assert (G : negb (size =? 0)%N && (N.of_nat (length xs) * size <=? isize_max)%N = true) by lia. rewrite G. cbn [guard].
    destruct (is_vec_u8 (TVec KVec size (ctype t))) eqn:EV; [|reflexivity].
    destruct t as [[| |]| | | | | | |]; try discriminate. unfold kind_plain in HK. rewrite EK in HK. apply andb_true_iff in HK. destruct HK as [_ HK].
    apply andb_true_iff in HK. destruct HK as [-> HK]. destruct (p_bits a); [discriminate|].
    assert (HW := byte_wires (p_endian a) xs (proj2 (forallb_forall _ _) HF)). destruct (byte_values (VList xs)) as [bs|]; [|discriminate].
    cbn [option_map] in HW. cbn [seekable order_eqb orb andb]. unfold aligned. rewrite (AQ eq_refl). cbn [Nat.eqb guard]. rewrite HW. apply agree_same.
  - destruct v as [n|x|xs|x y|x| |xs|j xs|e|n|n|o]; try discriminate.
    + apply andb_true_iff in HF. destruct HF as [-> HF]. rewrite agree_same. exact (HE x q HF AQ).
    + apply negb_true_iff in HF. rewrite HF. split; [reflexivity|]. intros _. reflexivity.
  - destruct v as [n|x|xs|x y|x| |xs|j xs|e|n|n|o]; try discriminate. apply andb_true_iff in HF. destruct HF as [HU HF]. rewrite forallb_forall in HF.
    destruct (encode_list_all (fun p x => encode SeekSource Msb0 ce (ctype t) None (pargs (p_endian a) (p_bits a)) p x) (wire (p_endian a) (p_bits a) t) whole xs
      (fun pos x Hx A => HE x pos (HF x Hx) A) q AQ) as [E1 E2].
    split; [|exact E2]. cbn [eval_limit]. rewrite agree_same, encode_vec_until, E1. unfold kind_plain in HK. rewrite EK in HK. destruct t as [p| | | | | | |]; try discriminate.
    rewrite HK, (up_to_stops i xs HU). cbn [andb].
    assert (NE : no_empty (map (wire (p_endian a) (p_bits a) (PInt p)) xs) = true).
    { apply forallb_forall. intros w Hw. apply in_map_iff in Hw. destruct Hw as (x & <- & Hx). specialize (HF x Hx). destruct x; try discriminate.
      cbn [wire]. rewrite num_wire_length. apply negb_true_iff, Nat.eqb_neq. exact (HN p eq_refl). }
    rewrite NE. reflexivity.
Qed.

Lemma plain_encode ce whole :
  (forall t e b, plain_in whole t e b = true -> encodes ce whole t e b) /\
  (forall fs done acc l stored m ctx pos, fields_plain whole done fs = true -> fields_fit fs acc l = true -> before done acc -> at_byte whole pos ->
     encode_fields SeekSource Msb0 ce (pc m) ctx (cfields fs) None stored l acc pos = Some (fields_wire fs l) /\ at_byte whole (length (fields_wire fs l))) /\
  (forall vs m p e b k l sel ctx pos, variants_plain whole vs = true -> variant_fits vs k l = true -> num_plain whole p e b = true ->
     num_fits p b (nth k (ids vs) 0%N) = true -> sel (VNum (nth k (ids vs) 0%N)) = true -> at_byte whole pos ->
     encode_variant SeekSource Msb0 ce (eattrs_of (enum_decl m p e b)) ctx (fun args q x => encode SeekSource Msb0 ce (TPrim p) None args q x) sel (cvariants vs) k l pos =
       Some (num_wire p e b (nth k (ids vs) 0%N) ++ variant_wire vs k l) /\
     at_byte whole (length (num_wire p e b (nth k (ids vs) 0%N) ++ variant_wire vs k l))).
Proof.
  apply plain_ind.
  - intros p e b P [n|x|l|x y|x| |l|k l|e'|n|n|o] pos F A; try discriminate. cbn [ctype encode wire]. split; [now apply (encode_plain_num whole)|].
    intros ->. rewrite num_wire_length. exact (num_whole p e b P).
  - intros e b P [n|x|l|x y|x| |l|k l|e'|n|n|o] pos F A; try discriminate. cbn [ctype encode wire]. split.
    + apply (encode_plain_num whole); [exact P|]. unfold num_fits. cbn [unsigned prim_width prim_bytes]. cbn [plain_in num_plain] in P.
      apply andb_true_intro. split; [destruct x; reflexivity|]. destruct b as [n|]; [|reflexivity]. unfold num_plain in P.
      apply andb_true_iff in P. destruct P as [_ P]. apply andb_true_iff in P. destruct P as [P _]. apply andb_true_iff in P. destruct P as [P _].
      apply andb_true_iff in P. destruct P as [P _].
      apply N.ltb_lt. assert (G : (2 ^ 1 <= 2 ^ N.of_nat n)%N) by (apply N.pow_le_mono_r; lia). change (2 ^ 1)%N with 2%N in G. destruct x; lia.
    + intros ->. rewrite num_wire_length. exact (num_whole PU8 e b P).
  - intros n t IH e b P [m|x|l|x y|x| |l|k l|e'|m|m|o] pos F A; try discriminate. cbn [value_fits] in F. apply andb_true_iff in F. destruct F as [FL F].
    rewrite forallb_forall in F.
    destruct (encode_list_all (fun p x => encode SeekSource Msb0 ce (ctype t) None (pargs e b) p x) (wire e b t) whole l
      (fun pos x Hx A => IH e b P x pos (F x Hx) A) pos A) as [E1 E2].
    change (encode SeekSource Msb0 ce (ctype (PArray n t)) None (pargs e b) pos (VList l)) with
      (guard (length l =? n) (let? es := encode_list (fun p x => encode SeekSource Msb0 ce (ctype t) None (pargs e b) p x) pos l in Some (concat es))).
    rewrite FL, E1. split; [reflexivity|exact E2].
  - intros m fs IH e b P [n|x|l|x y|x| |l|k l|e'|n|n|o] pos F A; try discriminate. cbn [plain_in] in P. bsplit.
    destruct (pargs_none e b) as (-> & -> & ->); [assumption..|].
    cbn [ctype]. rewrite encode_struct. change (c_seek (cattrs_of (struct_decl m))) with (@None (list value -> option seekfrom)).
    change (c_magic (cattrs_of (struct_decl m))) with (match magic_attr m with Some x => x | None => [] end). cbv beta iota.
    rewrite magic_attr_ok, encode_magic_msb.
    destruct (IH [] [] l l m (ctx_args (pc m) []) (pos + length (bits_of_bytes m)) ltac:(assumption) F before_nil) as [E1 E2].
    { apply at_byte_add; [exact A|apply at_byte_bytes]. }
    fold (pc m). rewrite E1. split; [reflexivity|]. cbn [wire]. fold fields_wire. rewrite app_length. apply at_byte_add; [apply at_byte_bytes|exact E2].
  - intros m p e' b' vs IH e b P [n|x|l|x y|x| |l|k l|e1|n|n|o] pos F A; try discriminate. cbn [plain_in] in P.
    apply andb_true_iff in P. destruct P as [P P7]. apply andb_true_iff in P. destruct P as [P P6]. apply andb_true_iff in P. destruct P as [P P5].
    apply andb_true_iff in P. destruct P as [P P4]. apply andb_true_iff in P. destruct P as [P P3]. apply andb_true_iff in P. destruct P as [P1 P2].
    destruct (pargs_none e b P1 P2) as (-> & -> & ->). change (value_fits None (PEnum m p e' b' vs) (VVar k l)) with (variant_fits vs k l) in F.
    cbn [ctype]. rewrite encode_enum.
    change (c_magic (en_c (eattrs_of (enum_decl m p e' b')))) with (match magic_attr m with Some x => x | None => [] end). cbv beta iota.
    rewrite magic_attr_ok, encode_magic_msb.
    assert (NF : num_fits p b' (nth k (ids vs) 0%N) = true).
    { rewrite forallb_forall in P5. assert (HI := P5 _ (nth_In (ids vs) 0%N (variant_fits_len vs k l F))). unfold num_fits. rewrite P4.
      unfold num_bits in HI. destruct b' as [j|]; [|now rewrite HI]. rewrite HI, Bool.andb_true_r.
      unfold num_plain in P3. bsplit. apply N.ltb_lt in HI. apply N.ltb_lt. eapply N.lt_le_trans; [exact HI|]. apply N.pow_le_mono_r; [lia|]. clear HI. lia. }
    destruct (IH m p e' b' k l (fun id => selects (cvariants vs) id k) (ctx_args (en_c (eattrs_of (enum_decl m p e' b'))) []) (pos + length (bits_of_bytes m))
      P7 F P3 NF (selects_ids vs k l P6 F)) as [E1 E2].
    { apply at_byte_add; [exact A|apply at_byte_bytes]. }
    rewrite E1. split; [reflexivity|]. cbn [wire]. fold variant_wire. rewrite app_length. apply at_byte_add; [apply at_byte_bytes|exact E2].
  - intros p e b P [n|x|l|x y|x| |l|k l|e'|n|n|o] pos F A; try discriminate. cbn [value_fits] in F. apply andb_true_iff in F. destruct F as [F1 F2].
    cbn [ctype encode wire]. rewrite F1. cbn [guard]. split; [now apply (encode_plain_num whole)|]. intros ->. rewrite num_wire_length. exact (num_whole p e b P).
  - intros s IHs t IHt e b P [n|z|l|x y|z| |l|k l|e'|n|n|o] pos F A; try discriminate. cbn [plain_in] in P. apply andb_true_iff in P. destruct P as [P1 P2].
    cbn [value_fits] in F. apply andb_true_iff in F. destruct F as [F1 F2]. destruct (IHs e b P1 x pos F1 A) as [E1 L1].
    destruct (IHt e b P2 y (pos + length (wire e b s x)) F2 (at_byte_add _ _ _ A L1)) as [E2 L2].
    change (encode SeekSource Msb0 ce (ctype (PPair s t)) None (pargs e b) pos (VPair x y)) with
      (let? u := encode SeekSource Msb0 ce (ctype s) None (pargs e b) pos x in
       let? v := encode SeekSource Msb0 ce (ctype t) None (pargs e b) (pos + length u) y in Some (u ++ v)).
    rewrite E1, E2. split; [reflexivity|]. cbn [wire]. rewrite app_length. now apply at_byte_add.
  - intros e b P [n|x|l|x y|x| |l|k l|e'|n|n|o] pos F A; try discriminate. cbn [plain_in] in P. apply andb_true_iff in P. destruct P as [P1 P2].
    destruct (pargs_none e b P1 P2) as (-> & -> & ->). change (forallb is_char l = true) in F. cbn [ctype wire encode byte_values].
    split; [|intros _; rewrite text_wire_bytes by exact F; rewrite bits_of_bytes_length; lia].
    fold is_char. rewrite F. cbn [andb guard]. rewrite text_wire_bytes by exact F. unfold encode_bytes. cbn [order_eqb orb guard]. now rewrite bitstring_msb.
  - intros done acc [|v l] stored m ctx pos P F B A; [|discriminate]. split; [reflexivity|intros _; reflexivity].
  - intros a t IHt tl IHtl done acc [|v l] stored m ctx pos P F B A; [discriminate|]. rewrite fields_plain_cons in P. rewrite fields_fit_cons in F.
    apply andb_true_iff in P. destruct P as [P P5]. apply andb_true_iff in P. destruct P as [P P4]. apply andb_true_iff in P. destruct P as [P P3].
    apply andb_true_iff in P. destruct P as [P1 P2]. apply andb_true_iff in F. destruct F as [F1 F2].
    destruct (encode_plain_field ce whole m a t done ctx acc v pos (IHt _ _ P1) (plain_bits _ _ _ _ P1) P2 P3 P4 B A F1) as [E1 E2].
    assert (T : typed (holding (p_kind a) (ctype t)) v).
    { assert (X := proj1 (proj2 plain_typed) (PCons a t PNil) acc [v]). rewrite fields_fit_cons, F1 in X. specialize (X eq_refl). cbn [cfields] in X.
      rewrite fields_typed_cons in X. exact (proj1 X). }
    cbn [cfields]. rewrite encode_cons. change (a_temp (fattrs_of (field_decl a) VNone)) with false. cbn [length Nat.eqb negb guard].
    change (field_value (fattrs_of (field_decl a) VNone) stored (v :: l) ctx acc) with v.
    change (field_rest (fattrs_of (field_decl a) VNone) (v :: l)) with l. cbv zeta. rewrite E1.
    set (w := bits_of_bytes (p_magic a) ++ _). assert (AW : at_byte whole (length w)).
    { unfold w. rewrite !app_length. repeat apply at_byte_add; [apply at_byte_bytes|now apply at_byte_pad|exact E2|now apply at_byte_pad]. }
    destruct (IHtl _ (acc ++ [v]) l stored m ctx (pos + length w) P5 F2 (before_snoc _ _ _ _ _ B T) (at_byte_add _ _ _ A AW)) as [E3 E4].
    rewrite E3, fields_wire_cons. fold (body_wire a t v). split; [|].
    + f_equal. unfold w. now rewrite <- !app_assoc.
    + replace (length _) with (length w + length (fields_wire tl l)) by (unfold w; rewrite !app_length; lia). now apply at_byte_add.
  - intros m p e b [|k] l sel ctx pos P F; discriminate.
  - intros id fs IHfs tl IHtl m p e b [|k] l sel ctx pos P F N1 N2 SE A.
    + cbn [variants_plain] in P. apply andb_true_iff in P. destruct P as [P1 P2]. cbn [cvariants]. rewrite encode_variant_0.
      change (en_id (eattrs_of (enum_decl m p e b))) with (@None (list value -> value)). cbn [v_sel]. cbv beta iota zeta.
      cbn [ids nth] in *. rewrite SE. cbn [guard]. rewrite id_pargs. cbn [encode]. rewrite (encode_plain_num whole) by assumption.
      assert (AI : at_byte whole (length (num_wire p e b id))) by (intros ->; rewrite num_wire_length; exact (num_whole p e b N1)).
      destruct (IHfs [] [] l l m ctx (pos + length (num_wire p e b id)) P1 F before_nil (at_byte_add _ _ _ A AI)) as [E1 E2].
      change (en_c (eattrs_of (enum_decl m p e b))) with (pc m). rewrite E1. split; [reflexivity|]. cbn [variant_wire]. rewrite app_length. now apply at_byte_add.
    + cbn [variants_plain] in P. apply andb_true_iff in P. destruct P as [P1 P2]. exact (IHtl m p e b k l sel ctx pos P2 F N1 N2 SE A).
Qed.
