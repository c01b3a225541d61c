(** Proofs about plain declarations: with padding. *)
From Coq Require Import Lia ZifyBool ZifyNat ZifyN.
From Verif Require Import Base Spec Stream Reader Session Writer WSession Prims BitsFacts NFacts MonadFacts ReaderFacts ReaderOps SessionFacts CodecSpec CodecFacts Containers ContainerSpec ContainerFacts ContainerProps Safety PrimFacts Derive DeriveSpec DeriveFacts DeriveSound DeriveProps SafeSpec SafeFacts DeriveSafe CanonSpec CanonFacts CanonDerive Place Decl PlainSpec PlainFacts PlainSafe PlainRead PlainProps.
Ltac Zify.zify_post_hook ::= Z.div_mod_to_equations.

(** ** Shapes *)

Lemma zeros_app a b : zeros (a ++ b) = zeros a ++ zeros b.
Proof. apply map_app. Qed.
Lemma zeros_sure l : zeros (sure l) = l.
Proof. unfold zeros, sure. rewrite map_map. apply map_id. Qed.
Lemma zeros_unknown n : zeros (unknown n) = repeat false n.
Proof. induction n as [|n IH]; [reflexivity|]. cbn. now f_equal. Qed.
Lemma zeros_concat {A} (f : A -> list (option bool)) (g : A -> list bool) l : (forall x, zeros (f x) = g x) -> zeros (concat (map f l)) = concat (map g l).
Proof. intros H. induction l as [|x l IH]; [reflexivity|]. cbn [map concat]. now rewrite zeros_app, H, IH. Qed.
Lemma fields_shape_cons a t tl v l : fields_shape (PCons a t tl) (v :: l) =
  sure (bits_of_bytes (p_magic a)) ++ unknown (p_before a) ++
  match p_kind a, v with
  | One, _ => shape (p_endian a) (p_bits a) t v
  | Many _ _, VList xs | Until _ _, VList xs => concat (map (shape (p_endian a) (p_bits a) t) xs)
  | When _, VSome x => shape (p_endian a) (p_bits a) t x
  | _, _ => []
  end ++ unknown (p_after a) ++ fields_shape tl l.
Proof. reflexivity. Qed.
Lemma shape_zeros :
  (forall t e b v, zeros (shape e b t v) = wire e b t v) /\
  (forall fs l, zeros (fields_shape fs l) = fields_wire fs l) /\
  (forall vs k l, zeros (variant_shape vs k l) = variant_wire vs k l).
Proof.
  apply plain_ind.
  - intros p e b []; try reflexivity. apply zeros_sure.
  - intros e b []; try reflexivity. apply zeros_sure.
  - intros n t IH e b []; try reflexivity. apply zeros_concat. auto.
  - intros m fs IH e b []; try reflexivity. cbn [shape wire]. fold fields_shape fields_wire. now rewrite zeros_app, zeros_sure, IH.
  - intros m p e' b' vs IH e b []; try reflexivity. cbn [shape wire]. fold variant_shape variant_wire. now rewrite !zeros_app, !zeros_sure, IH.
  - intros p e b []; try reflexivity. apply zeros_sure.
  - intros s IHs t IHt e b []; try reflexivity. cbn [shape wire]. now rewrite zeros_app, IHs, IHt.
  - intros e b []; try reflexivity. apply zeros_sure.
  - reflexivity.
  - intros a t IHt tl IHtl [|v l]; [reflexivity|]. rewrite fields_shape_cons, fields_wire_cons, !zeros_app, zeros_sure, !zeros_unknown, IHtl.
    do 2 f_equal. f_equal. destruct (p_kind a); [apply IHt| | |]; destruct v; try reflexivity; [now apply zeros_concat|apply IHt|now apply zeros_concat].
  - intros [|k] l; reflexivity.
  - intros id fs IHfs tl IHtl [|k] l; [apply IHfs|apply IHtl].
Qed.
Theorem written_zeros t v : zeros (shape None None t v) = wire None None t v.
Proof. apply (proj1 shape_zeros). Qed.

Lemma agrees_app a b w : agrees (a ++ b) w -> exists w1 w2, w = w1 ++ w2 /\ agrees a w1 /\ agrees b w2.
Proof. intros H. apply Forall2_app_inv_l in H. destruct H as (w1 & w2 & H1 & H2 & ->). eauto. Qed.
Lemma agrees_join a b w1 w2 : agrees a w1 -> agrees b w2 -> agrees (a ++ b) (w1 ++ w2).
Proof. apply Forall2_app. Qed.
Lemma sure_app a b : sure (a ++ b) = sure a ++ sure b.
Proof. apply map_app. Qed.
Lemma sure_concat {A} (f : A -> list (option bool)) (g : A -> list bool) l : (forall x, f x = sure (g x)) -> concat (map f l) = sure (concat (map g l)).
Proof. intros H. induction l as [|x l IH]; [reflexivity|]. cbn [map concat]. now rewrite sure_app, H, IH. Qed.
Lemma agrees_sure l w : agrees (sure l) w <-> w = l.
Proof.
  revert w. induction l as [|x l IH]; intros w; cbn [sure map].
  - split; [intros H; now inversion H|intros ->; constructor].
  - split.
    + intros H. inversion H as [|? y ? w' H1 H2]; subst. apply IH in H2. now subst.
    + intros ->. constructor; [reflexivity|]. now apply IH.
Qed.
Lemma agrees_unknown n w : agrees (unknown n) w <-> length w = n.
Proof.
  revert w. induction n as [|n IH]; intros w; cbn [unknown repeat].
  - split; [intros H; now inversion H|]. destruct w; [constructor|discriminate].
  - split.
    + intros H. inversion H as [|? y ? w' H1 H2]; subst. apply IH in H2. now cbn; f_equal.
    + destruct w as [|y w]; [discriminate|]. intros [= H]. constructor; [exact I|]. now apply IH.
Qed.
Lemma agrees_length s w : agrees s w -> length w = length s.
Proof. induction 1 as [|x y s w _ _ IH]; [reflexivity|]. cbn. now rewrite IH. Qed.
Lemma agrees_zeros s : agrees s (zeros s).
Proof. induction s as [|[x|] s IH]; constructor; auto. Qed.
Lemma agrees_concat {A} (f : A -> list (option bool)) l : forall w, agrees (concat (map f l)) w ->
  exists ws, w = concat ws /\ Forall2 (fun x y => agrees (f x) y) l ws.
Proof.
  induction l as [|x l IH]; intros w H; cbn [map concat] in H.
  - inversion H. exists []. split; [reflexivity|constructor].
  - apply agrees_app in H. destruct H as (w1 & w2 & -> & H1 & H2). destruct (IH w2 H2) as (ws & -> & H). exists (w1 :: ws). split; [reflexivity|now constructor].
Qed.

(** ** What agrees is accepted *)

Section Accept.
Variables (cu : nat -> custom) (fuel : nat).
Notation reads_to m w v := (forall pos, reads_at SeekSource Msb0 pos m w v).

Lemma num_accepted whole p e b n : num_plain whole p e b = true -> num_fits p b n = true -> reads_to (prim_read p (pcontext e b)) (num_wire p e b n) n.
Proof.
  intros P F pos. pose proof (encode_plain_num whole p e b n pos P F) as E. unfold encode_num in E. rewrite pargs_pctx in E.
  exact (proj2 (encode_prim_sound SeekSource Msb0 pos p _ n _ E)).
Qed.
Lemma magic_accepted m : reads_to (read_magic m) (bits_of_bytes m) tt.
Proof. intros pos. apply read_magic_bytes. apply encode_magic_msb. Qed.
Lemma pad_accepted m a n ctx fs acc w whole : pad_plain whole n = true -> length w = n ->
  reads_to (read_pad (eval0 (pad_of (pad n) None) ctx acc) (field_order (pc m) (attrs a) ctx fs)) w tt.
Proof.
  intros P L pos. apply (proj2 (encode_pad_sound SeekSource Msb0 pos _ _ _ (encode_pad_msb m a n whole P ctx fs acc))). now rewrite repeat_length.
Qed.
Lemma array_accepted (rd : RM value) l ws : Forall2 (fun v w => reads_to rd w v) l ws -> reads_to (read_array (length l) rd) (concat ws) l.
Proof.
  induction 1 as [|v w l ws H _ IH]; intros pos; [apply reads_at_ret|]. cbn [length read_array concat]. apply reads_at_bind with (a := v); [apply H|].
  apply reads_at_map with (f := fun vs => v :: vs). apply IH.
Qed.
Lemma loop_accepted (rd : RM value) n l ws : Forall2 (fun v w => reads_to rd w v) l ws -> l <> [] ->
  forall acc pos start, start <= pos -> N.of_nat (length acc + length l) = n ->
  reads_at SeekSource Msb0 pos (vec_loop (length l) rd (fun _ acc => (N.of_nat (length acc) =? n)%N) start acc) (concat ws) (acc ++ l).
Proof.
  induction 1 as [|v w l ws H HL IH]; intros Hn acc pos start Hs Hl; [congruence|]. cbn [length vec_loop concat]. apply reads_at_bind with (a := v); [apply H|].
  eapply reads_at_ext; [|apply (reads_at_off SeekSource Msb0 (pos + length w) (fun b => if b <? start then lift Panic
    else if (N.of_nat (length (acc ++ [v])) =? n)%N then ret (acc ++ [v]) else vec_loop (length l) rd (fun _ acc => (N.of_nat (length acc) =? n)%N) start (acc ++ [v])))].
  { intros r. cbv beta. destruct (_ <? _); [reflexivity|]. now destruct (_ =? _)%N. }
  replace (pos + length w <? start) with false by lia. cbn [length] in Hl. rewrite app_length. cbn [length]. destruct l as [|v' l].
  - inversion HL; subst. cbn [length concat] in *. replace (N.of_nat (length acc + 1) =? _)%N with true by lia. apply reads_at_ret.
  - cbn [length] in *. replace (N.of_nat (length acc + 1) =? n)%N with false by lia. replace (acc ++ v :: v' :: l) with ((acc ++ [v]) ++ v' :: l) by now rewrite <- app_assoc.
    apply IH; [discriminate|lia|]. rewrite app_length. cbn [length]. lia.
Qed.
Lemma vec_accepted (rd : RM value) size l ws : Forall2 (fun v w => reads_to rd w v) l ws -> size <> 0%N -> (N.of_nat (length l) * size <= isize_max)%N ->
  reads_to (vec_read fuel size rd (LCount (N.of_nat (length l)))) (concat ws) l.
Proof.
  intros H Hz Hc pos. cbn [vec_read]. destruct l as [|v l]; [inversion H; apply reads_at_ret|].
  replace (N.of_nat (length (v :: l)) =? 0)%N with false by (cbn [length]; lia). unfold vec_with_predicate. replace (size =? 0)%N with false by lia.
  replace (isize_max <? N.of_nat (length (v :: l)) * size)%N with false by lia. rewrite Nat2N.id.
  apply (reads_at_off SeekSource Msb0 pos (fun b => vec_loop (length (v :: l)) rd (fun _ acc => (N.of_nat (length acc) =? N.of_nat (length (v :: l)))%N) b [])).
  apply (loop_accepted rd _ (v :: l) ws H); [discriminate|lia|reflexivity].
Qed.

Definition body_shape (a : pattrs) (t : pty) (v : value) : list (option bool) :=
  match p_kind a, v with
  | One, _ => shape (p_endian a) (p_bits a) t v
  | Many _ _, VList xs | Until _ _, VList xs => concat (map (shape (p_endian a) (p_bits a) t) xs)
  | When _, VSome x => shape (p_endian a) (p_bits a) t x
  | _, _ => []
  end.
Definition accepts (t : pty) : Prop := forall e b v w, plain_in false t e b = true -> value_fits b t v = true -> agrees (shape e b t v) w -> length w <= fuel ->
  reads_to (read_ty cu fuel (ctype t) None (pargs e b)) w v.
Lemma Forall2_in_lengths {A B} (R R' : A -> list B -> Prop) l l' : Forall2 R l l' ->
  (forall x y, In x l -> length y <= length (concat l') -> R x y -> R' x y) -> Forall2 R' l l'.
Proof.
  induction 1 as [|x y l l' H _ IH]; intros HR; constructor.
  - apply HR; [now left|cbn [concat]; rewrite app_length; lia|exact H].
  - apply IH. intros a b Ha Hb. apply HR; [now right|]. cbn [concat]. rewrite app_length. lia.
Qed.
Lemma Forall2_in {A B} (R R' : A -> B -> Prop) l l' : Forall2 R l l' -> (forall x y, In x l -> R x y -> R' x y) -> Forall2 R' l l'.
Proof. induction 1 as [|x y l l' H _ IH]; intros HR; constructor; [apply HR; [now left|exact H]|]. apply IH. intros a b Ha. apply HR. now right. Qed.

Lemma field_accepted m a t done ctx acc v w : accepts t ->
  plain_in false t (p_endian a) (p_bits a) = true -> kind_plain false done a t = true -> pad_plain false (p_before a) = true -> pad_plain false (p_after a) = true ->
  before done acc -> body_fits a t acc v = true -> agrees (sure (bits_of_bytes (p_magic a)) ++ unknown (p_before a) ++ body_shape a t v ++ unknown (p_after a)) w -> length w <= fuel ->
  reads_to (read_field (pc m) (attrs a) (is_vec_u8 (holding (p_kind a) (ctype t))) ctx acc (fun lim args => read_ty cu fuel (holding (p_kind a) (ctype t)) lim args)) w v.
Proof.
  intros IH P1 P2 P3 P4 B F HA Hf pos. apply agrees_app in HA. destruct HA as (w1 & w' & -> & A1 & HA). apply agrees_app in HA. destruct HA as (w2 & w'' & -> & A2 & HA).
  apply agrees_app in HA. destruct HA as (w3 & w4 & -> & A3 & A4). apply agrees_sure in A1. apply agrees_unknown in A2, A4. subst w1.
  assert (Hf3 : length w3 <= fuel) by (rewrite !app_length in Hf; lia).
  unfold read_field. rewrite at_seek, at_magic, at_before, at_after.
  apply reads_at_nil_bind with (a := tt); [apply reads_at_ret|]. apply reads_at_bind with (a := tt); [apply magic_accepted|].
  apply reads_at_bind with (a := tt); [exact (pad_accepted m a _ ctx acc acc w2 _ P3 A2 _)|].
  apply (reads_at_off SeekSource Msb0 _ (fun off =>
    let* v := field_read_tokens (attrs a) ctx acc off
      (field_read_normal (attrs a) ctx acc off (field_read_func (pc m) (attrs a) (is_vec_u8 (holding (p_kind a) (ctype t))) ctx acc off
         (fun lim args => read_ty cu fuel (holding (p_kind a) (ctype t)) lim args))) in
    let* _ := asserts (attrs a) ctx acc off v in
    let* _ := read_pad (eval0 (pad_of (pad (p_after a)) None) ctx (acc ++ [v])) (field_order (pc m) (attrs a) ctx acc) in
    ret v)).
  generalize (pos + length (bits_of_bytes (p_magic a)) + length w2). intros off.
  apply reads_at_bind with (a := v).
  2:{ apply reads_at_nil_bind with (a := tt).
      { unfold asserts. rewrite at_assert, at_assert_eq. apply reads_at_nil_bind with (a := tt); apply reads_at_ret. }
      apply reads_at_bind_nil with (a := tt); [exact (pad_accepted m a _ ctx acc (acc ++ [v]) w4 _ P4 A4 _)|apply reads_at_ret]. }
  unfold field_read_tokens, field_read_normal, field_read_func. rewrite at_skip, at_cond, at_map, at_reader, at_limit, at_args, at_default.
  unfold body_fits in F. unfold body_shape in A3. destruct (p_kind a) as [|k size|k|i size] eqn:EK; cbn [holding].
  - apply reads_at_map with (f := fun v => v). now apply IH.
  - destruct v as [n|x|xs|x y|x| |xs|j xs|e|n|n|o]; try discriminate. apply andb_true_iff in F. destruct F as [FL F]. apply N.eqb_eq in FL. rewrite forallb_forall in F.
    apply reads_at_map with (f := fun v => v). destruct (eval_count k size done acc ctx false a t EK P2 B off) as (-> & E1 & E2 & E3). rewrite <- FL in *.
    apply agrees_concat in A3. destruct A3 as (ws & -> & A3).
    eapply reads_at_ext; [intros r; symmetry; unfold lift; apply (bind_ret_l (LCount (N.of_nat (length xs))) _ r)|].
    destruct (is_vec_u8 (TVec KVec size (ctype t))) eqn:EV.
    + unfold kind_plain in P2. rewrite EK in P2. destruct t as [[| |]| | | | | | |]; try discriminate. apply andb_true_iff in P2. destruct P2 as [_ P2]. discriminate.
    + change (reads_at SeekSource Msb0 off (let* vs := vec_read fuel size (read_ty cu fuel (ctype t) None (pargs (p_endian a) (p_bits a))) (LCount (N.of_nat (length xs))) in ret (VList vs)) (concat ws) (VList xs)).
      apply reads_at_map. apply vec_accepted; [|exact E2|exact E1]. apply (Forall2_in_lengths _ _ _ _ A3). intros x y Hx Hl Hy. apply (IH _ _ x y P1 (F x Hx) Hy). lia.
  - destruct v as [n|x|xs|x y|x| |xs|j xs|e|n|n|o]; try discriminate.
    + apply andb_true_iff in F. destruct F as [-> F]. apply reads_at_map with (f := fun v => v).
      change (reads_at SeekSource Msb0 off (let* v := read_ty cu fuel (ctype t) None (pargs (p_endian a) (p_bits a)) in ret (VSome v)) w3 (VSome x)).
      apply reads_at_map. now apply IH.
    + apply negb_true_iff in F. rewrite F. inversion A3. apply reads_at_ret.
  - destruct v as [n|x|xs|x y|x| |xs|j xs|e|n|n|o]; try discriminate. apply andb_true_iff in F. destruct F as [FU F].
    apply reads_at_map with (f := fun v => v). cbn [eval_limit]. unfold kind_plain in P2. rewrite EK in P2. destruct t as [p| | | | | | |]; try discriminate.
    set (lim := LUntil (fun l => is_num i (last l VUnit))).
    eapply reads_at_ext; [intros r; symmetry; unfold lift; apply (bind_ret_l lim _ r)|].
    apply (reads_at_ext _ _ _ (read_ty cu fuel (TVec KVec size (TPrim p)) (Some lim) (pargs (p_endian a) (p_bits a)))).
    { intros r. now destruct (is_vec_u8 (TVec KVec size (ctype (PInt p)))). }
    rewrite forallb_forall in F. assert (A : w3 = concat (map (wire (p_endian a) (p_bits a) (PInt p)) xs)).
    { apply agrees_sure. rewrite <- (sure_concat (shape (p_endian a) (p_bits a) (PInt p)) (wire (p_endian a) (p_bits a) (PInt p))); [exact A3|now intros []]. }
    apply (encode_sound SeekSource Msb0 cu no_format fuel (lawful_upto _ _ _ _ _ (no_format_lawful cu _ _))); [|exact Hf3]. unfold lim. rewrite encode_vec_until.
    destruct (encode_list_all (fun p0 x => encode SeekSource Msb0 no_format (TPrim p) None (pargs (p_endian a) (p_bits a)) p0 x) (wire (p_endian a) (p_bits a) (PInt p)) false xs
      (fun pos x Hx A => proj1 (plain_encode no_format false) (PInt p) _ _ P1 x pos (F x Hx) A) off ltac:(discriminate)) as [E1 _].
    rewrite E1, P2, (up_to_stops i xs FU). cbn [andb].
    assert (NE : no_empty (map (wire (p_endian a) (p_bits a) (PInt p)) xs) = true).
    { apply forallb_forall. intros w Hw. apply in_map_iff in Hw. destruct Hw as (x & <- & Hx). specialize (F x Hx). destruct x; try discriminate.
      cbn [wire]. rewrite num_wire_length. apply negb_true_iff, Nat.eqb_neq. exact (num_plain_bits _ _ _ _ P1). }
    rewrite NE. cbn [guard]. now rewrite A.
Qed.
Lemma plain_accepted :
  (forall t, accepts t) /\
  (forall fs done acc l m ctx w, fields_plain false done fs = true -> fields_fit fs acc l = true -> before done acc -> agrees (fields_shape fs l) w -> length w <= fuel ->
     reads_to (fields_read cu fuel (pc m) ctx (cfields fs) None acc) w l) /\
  (forall vs m p e b ctx k l j w, variants_plain false vs = true -> no_repeat (ids vs) = true -> variant_fits vs k l = true -> agrees (variant_shape vs k l) w -> length w <= fuel ->
     reads_to (variants_read cu fuel (eattrs_of (enum_decl m p e b)) ctx (VNum (nth k (ids vs) 0%N)) (cvariants vs) j None) w (VVar (j + k) l)).
Proof.
  apply plain_ind.
  - intros p e b [n|x|l|x y|x| |l|k l|e'|n|n|o] w P F A Hf pos; try discriminate. cbn [shape] in A. apply agrees_sure in A. subst w.
    cbn [ctype read_ty]. unfold with_pctx. rewrite pargs_pctx. apply reads_at_map. exact (num_accepted false p e b n P F pos).
  - intros e b [n|x|l|x y|x| |l|k l|e'|n|n|o] w P F A Hf pos; try discriminate. cbn [shape] in A. apply agrees_sure in A. subst w.
    cbn [ctype read_ty]. unfold with_pctx. rewrite pargs_pctx. apply reads_at_map. unfold read_bool.
    apply reads_at_bind_nil with (a := if x then 1%N else 0%N); [|destruct x; apply reads_at_ret].
    apply (num_accepted false); [exact P|]. unfold num_fits. apply andb_true_intro. split; [destruct x; reflexivity|]. destruct b as [n|]; [|reflexivity].
    cbn [plain_in] in P. unfold num_plain in P. apply andb_true_iff in P. destruct P as [_ P]. apply andb_true_iff in P. destruct P as [P _]. apply andb_true_iff in P. destruct P as [P _].
    apply andb_true_iff in P. destruct P as [P _]. cbn [unsigned].
    apply N.ltb_lt. assert (G : (2 ^ 1 <= 2 ^ N.of_nat n)%N) by (apply N.pow_le_mono_r; lia). change (2 ^ 1)%N with 2%N in G. destruct x; lia.
  - intros n t IH e b [m|x|l|x y|x| |l|k l|e'|m|m|o] w P F A Hf pos; try discriminate. cbn [value_fits] in F. apply andb_true_iff in F. destruct F as [FL F].
    apply Nat.eqb_eq in FL. subst n. rewrite forallb_forall in F. cbn [shape] in A. apply agrees_concat in A. destruct A as (ws & -> & A). cbn [ctype read_ty].
    apply reads_at_map. apply array_accepted. apply (Forall2_in_lengths _ _ _ _ A). intros x y Hx Hl Hy. apply (IH e b x y P (F x Hx) Hy). lia.
  - intros m fs IH e b [n|x|l|x y|x| |l|k l|e'|n|n|o] w P F A Hf pos; try discriminate. cbn [plain_in] in P. apply andb_true_iff in P. destruct P as [_ P].
    cbn [shape] in A. fold fields_shape in A. apply agrees_app in A. destruct A as (w1 & w2 & -> & A1 & A2). apply agrees_sure in A1. subst w1.
    cbn [ctype]. rewrite read_struct. change (c_magic (cattrs_of (struct_decl m))) with (match magic_attr m with Some x => x | None => [] end). rewrite magic_attr_ok.
    apply reads_at_nil_bind with (a := tt); [apply reads_at_ret|]. apply reads_at_bind with (a := tt); [apply magic_accepted|]. apply reads_at_map.
    apply (IH [] [] l m _ w2 P F before_nil A2). rewrite app_length in Hf. lia.
  - intros m p e' b' vs IH e b [n|x|l|x y|x| |l|k l|e1|n|n|o] w P F A Hf pos; try discriminate. cbn [plain_in] in P.
    apply andb_true_iff in P. destruct P as [P P7]. apply andb_true_iff in P. destruct P as [P P6]. apply andb_true_iff in P. destruct P as [P P5].
    apply andb_true_iff in P. destruct P as [P P4]. apply andb_true_iff in P. destruct P as [P P3].
    change (value_fits b (PEnum m p e' b' vs) (VVar k l)) with (variant_fits vs k l) in F.
    cbn [shape] in A. fold variant_shape in A. apply agrees_app in A. destruct A as (w1 & w' & -> & A1 & A). apply agrees_app in A. destruct A as (w2 & w3 & -> & A2 & A3).
    apply agrees_sure in A1, A2. subst w1 w2. cbn [ctype]. rewrite read_enum.
    change (c_magic (en_c (eattrs_of (enum_decl m p e' b')))) with (match magic_attr m with Some x => x | None => [] end). rewrite magic_attr_ok.
    apply reads_at_bind with (a := tt); [apply magic_accepted|].
    change (en_id (eattrs_of (enum_decl m p e' b'))) with (@None (list value -> value)). cbv beta iota.
    apply reads_at_bind with (a := VNum (nth k (ids vs) 0%N)).
    + rewrite id_pargs. cbn [read_ty]. unfold with_pctx. rewrite pargs_pctx. apply reads_at_map. apply (num_accepted false); [exact P3|].
      rewrite forallb_forall in P5. assert (HI := P5 _ (nth_In (ids vs) 0%N (variant_fits_len vs k l F))). unfold num_fits. rewrite P4.
      unfold num_bits in HI. destruct b' as [j|]; [|now rewrite HI]. rewrite HI, Bool.andb_true_r.
      unfold num_plain in P3. bsplit. apply N.ltb_lt in HI. apply N.ltb_lt. eapply N.lt_le_trans; [exact HI|]. apply N.pow_le_mono_r; [lia|]. clear HI. lia.
    + apply (IH m p e' b' _ k l 0 w3 P7 P6 F A3). rewrite !app_length in Hf. lia.
  - intros p e b [n|x|l|x y|x| |l|k l|e'|n|n|o] w P F A Hf pos; try discriminate. cbn [value_fits] in F. apply andb_true_iff in F. destruct F as [F1 F2].
    cbn [shape] in A. apply agrees_sure in A. subst w. cbn [ctype read_ty]. unfold with_pctx. rewrite pargs_pctx. apply reads_at_map. unfold read_nonzero.
    apply reads_at_bind_nil with (a := n); [exact (num_accepted false p e b n P F2 pos)|]. apply negb_true_iff in F1. rewrite F1. apply reads_at_ret.
  - intros s IHs t IHt e b [n|z|l|x y|z| |l|k l|e'|n|n|o] w P F A Hf pos; try discriminate. cbn [plain_in] in P. apply andb_true_iff in P. destruct P as [P1 P2].
    cbn [value_fits] in F. apply andb_true_iff in F. destruct F as [F1 F2]. cbn [shape] in A. apply agrees_app in A. destruct A as (w1 & w2 & -> & A1 & A2).
    rewrite app_length in Hf. cbn [ctype read_ty]. apply reads_at_bind with (a := x); [apply (IHs e b x w1 P1 F1 A1); lia|].
    apply reads_at_map with (f := fun y => VPair x y). apply (IHt e b y w2 P2 F2 A2). lia.
  - intros e b [n|x|l|x y|x| |l|k l|e'|n|n|o] w P F A Hf pos; try discriminate. change (agrees (sure (wire e b PText (VList l))) w) in A. apply agrees_sure in A. subst w.
    destruct (proj1 (plain_encode no_format false) PText e b P (VList l) pos F ltac:(discriminate)) as [E _].
    exact (proj2 (encode_sound SeekSource Msb0 cu no_format fuel (lawful_upto _ _ _ _ _ (no_format_lawful cu _ _)) _ _ _ _ _ _ E) Hf).
  - intros done acc [|v l] m ctx w P F B A Hf pos; [|discriminate]. inversion A. apply reads_at_ret.
  - intros a t IHt tl IHtl done acc [|v l] m ctx w P F B A Hf pos; [discriminate|]. rewrite fields_plain_cons in P. rewrite fields_fit_cons in F. fold (body_fits a t acc v) in F.
    apply andb_true_iff in P. destruct P as [P P5]. apply andb_true_iff in P. destruct P as [P P4]. apply andb_true_iff in P. destruct P as [P P3].
    apply andb_true_iff in P. destruct P as [P1 P2]. apply andb_true_iff in F. destruct F as [F1 F2].
    rewrite fields_shape_cons in A. fold (body_shape a t v) in A. rewrite (app_assoc (body_shape a t v)), (app_assoc (unknown (p_before a))), (app_assoc (sure _)) in A.
    apply agrees_app in A. destruct A as (w1 & w2 & -> & A1 & A2). rewrite app_length in Hf. cbn [cfields]. rewrite read_cons.
    apply reads_at_bind with (a := v); [exact (field_accepted m a t done ctx acc v w1 IHt P1 P2 P3 P4 B F1 A1 ltac:(lia) pos)|].
    rewrite at_temp. apply reads_at_map with (f := fun vs => v :: vs). apply (IHtl _ (acc ++ [v]) l m ctx w2 P5 F2 (before_snoc _ _ _ _ _ B (body_typed _ _ _ _ F1)) A2). lia.
  - intros m p e b ctx [|k] l j w P D F; discriminate.
  - intros id fs IHfs tl IHtl m p e b ctx k l j w P D F A Hf pos. cbn [variants_plain] in P. apply andb_true_iff in P. destruct P as [P1 P2].
    cbn [ids no_repeat] in D. apply andb_true_iff in D. destruct D as [D1 D2]. cbn [cvariants]. rewrite read_variant. cbv zeta.
    destruct k as [|k]; cbn [ids nth v_sel matches value_eqb].
    + rewrite N.eqb_refl, Nat.add_0_r. change (stores_id (eattrs_of (enum_decl m p e b)) (mkV (SId (VNum id)) false)) with false.
      apply reads_at_map with (f := fun l => VVar j l). exact (IHfs [] [] l m ctx w P1 F before_nil A Hf pos).
    + destruct (N.eqb_spec (nth k (ids tl) 0%N) id) as [E|E].
      * exfalso. apply negb_true_iff in D1. assert (X : existsb (N.eqb id) (ids tl) = true); [|congruence].
        apply existsb_exists. exists id. split; [rewrite <- E; apply nth_In; exact (variant_fits_len tl k l F)|apply N.eqb_refl].
      * replace (j + S k) with (S j + k) by lia. exact (IHtl m p e b ctx k l (S j) w P2 D2 F A Hf pos).
Qed.
End Accept.

(** ** What is accepted agrees *)

Section Exact.
Variables (cu : nat -> custom) (fuel : nat) (input : list byte).

Definition pl (r : reader) : Prop := placed input false r /\ ~ peeked r.
Definition piece (a b : nat) : list bool := firstn (b - a) (skipn a (bits_of_bytes input)).
(** Unless it has gone past the end of the input (where padding can lead), the reader
    has passed bits of which [R] holds. *)
Definition shapes {A} (g : A -> Prop) (R : A -> list bool -> Prop) (m : RM A) : Prop :=
  forall r v r', pl r -> m r = (Ok v, r') ->
    pl r' /\ r_bits r <= r_bits r' /\ g v /\ (r_bits r' <= 8 * length input -> R v (piece (r_bits r) (r_bits r'))).

Lemma piece_nil a : piece a a = [].
Proof. unfold piece. now rewrite Nat.sub_diag. Qed.
Lemma piece_app a b c : a <= b -> b <= c -> piece a b ++ piece b c = piece a c.
Proof.
  intros H1 H2. unfold piece. replace (c - a) with ((b - a) + (c - b)) by lia. replace (skipn b (bits_of_bytes input)) with (skipn (b - a) (skipn a (bits_of_bytes input))).
  - generalize (skipn a (bits_of_bytes input)). intros l. generalize (c - b). intros k. generalize (b - a). intros j. clear.
    revert l. induction j as [|j IH]; intros l; [reflexivity|]. destruct l as [|x l]; [cbn; now rewrite firstn_nil|]. cbn. now rewrite IH.
  - rewrite skipn_skipn. f_equal. lia.
Qed.
Lemma piece_length a b : a <= b -> b <= 8 * length input -> length (piece a b) = b - a.
Proof. intros H1 H2. unfold piece. rewrite firstn_length, skipn_length, bits_of_bytes_length. lia. Qed.

Lemma shapes_ret {A} (g : A -> Prop) (R : A -> list bool -> Prop) v : g v -> R v [] -> shapes g R (ret v).
Proof.
  intros H1 H2 r v' r' Hp E. apply pair_inj in E. destruct E as [E <-]. apply ok_inj in E. subst v'. split; [exact Hp|]. split; [lia|]. split; [exact H1|].
  intros _. now rewrite piece_nil.
Qed.
Lemma shapes_fail {A} (g : A -> Prop) R e : shapes g R (fail e).
Proof. intros r v r' _ E. discriminate. Qed.
Lemma shapes_ext {A} (g : A -> Prop) R m m' : (forall r, m r = m' r) -> shapes g R m' -> shapes g R m.
Proof. intros H H' r v r' Hp E. rewrite H in E. eauto. Qed.
Lemma shapes_weak {A} (g g' : A -> Prop) (R R' : A -> list bool -> Prop) m : shapes g R m -> (forall v, g v -> g' v) -> (forall v w, g v -> R v w -> R' v w) -> shapes g' R' m.
Proof. intros H H1 H2 r v r' Hp E. destruct (H r v r' Hp E) as (P & B & G & K). split; [exact P|]. split; [exact B|]. split; auto. Qed.
Lemma shapes_bind {A B} (g1 : A -> Prop) R1 (g2 : A -> B -> Prop) R2 (g : B -> Prop) (R : B -> list bool -> Prop) (m : RM A) (f : A -> RM B) :
  shapes g1 R1 m -> (forall a, g1 a -> shapes (g2 a) (R2 a) (f a)) -> (forall a b, g1 a -> g2 a b -> g b) ->
  (forall a b x y, g1 a -> g2 a b -> R1 a x -> R2 a b y -> R b (x ++ y)) -> shapes g R (bind m f).
Proof.
  intros H1 H2 HG HR r v r' Hp E. apply bind_inv in E. destruct E as (a & r1 & E1 & E2). destruct (H1 r a r1 Hp E1) as (P1 & B1 & G1 & K1).
  destruct (H2 a G1 r1 v r' P1 E2) as (P2 & B2 & G2 & K2). split; [exact P2|]. split; [lia|]. split; [eauto|]. intros Hl.
  rewrite <- (piece_app (r_bits r) (r_bits r1) (r_bits r')) by lia. apply (HR a v _ _ G1 G2); [apply K1; lia|now apply K2].
Qed.
Lemma shapes_map {A B} (g1 : A -> Prop) R1 (g : B -> Prop) (R : B -> list bool -> Prop) (m : RM A) (f : A -> B) :
  shapes g1 R1 m -> (forall a, g1 a -> g (f a)) -> (forall a x, g1 a -> R1 a x -> R (f a) x) -> shapes g R (let* a := m in ret (f a)).
Proof.
  intros H HG HR. eapply shapes_bind with (g2 := fun a b => b = f a) (R2 := fun a b w => w = []); [exact H|intros a _; now apply shapes_ret| |].
  - intros a b G ->. auto.
  - intros a b x y G -> X ->. rewrite app_nil_r. auto.
Qed.
(** One that leaves everything in place. *)
Lemma shapes_then {A B} (g1 : A -> Prop) (g : B -> Prop) R (m : RM A) (f : A -> RM B) : shapes g1 (fun _ w => w = []) m ->
  (forall a, g1 a -> shapes g R (f a)) -> shapes g R (bind m f).
Proof. intros H1 H2. eapply shapes_bind with (g2 := fun _ => g) (R2 := fun _ => R); [exact H1|exact H2|auto|]. intros a b x y _ _ -> Y. exact Y. Qed.
Lemma shapes_at {A} (g : A -> Prop) R (f : nat -> RM A) : (forall off, shapes g R (f off)) -> shapes g R (fun r => f (r_bits r) r).
Proof. intros H r v r' Hp E. exact (H (r_bits r) r v r' Hp E). Qed.

Lemma pl_left r : pl r -> r_rest r = left_bits (r_left r).
Proof. intros _. unfold r_rest. now destruct (r_left r) as [[]|]. Qed.
Lemma pl_place r : pl r -> place false r.
Proof.
  intros H. pose proof (pl_left r H) as HL. destruct H as [(Hw & Hq & Hn & (Hd & He) & Hs & Ha & Hc) Hp]. split; [exact Hq|]. split; [exact Hw|]. rewrite HL. unfold synced in Hs.
  split; [lia|]. split; [intros _; lia|]. split; [|discriminate]. intros Hl. destruct Hc as [Hc|[Hc _]]; [|congruence].
  apply (f_equal (@length bool)) in Hc. rewrite skipn_length, bitstring_length, ReaderFacts.unread_string_length in Hc. rewrite Hd. unfold unread in Hc.
  unfold r_wf in Hw. destruct (r_left r) as [[b|l]|]; [| |congruence]; unfold unread_len in Hc; cbn [fst snd length left_bits] in *; rewrite ?byte_bits_length, s_avail_length, Hd in *; lia.
Qed.
Lemma pl_unread r : pl r -> r_bits r <= 8 * length input -> unread_string Msb0 (seen r) = skipn (r_bits r) (bits_of_bytes input).
Proof.
  intros [(Hw & Hq & Hn & Hd & Hs & Ha & Hc) Hp] Hl. rewrite seen_unread, <- bitstring_msb. destruct Hc as [Hc|[_ Hc]]; [exact Hc|lia].
Qed.
Lemma pl_passed r r' enc : pl r -> pl r' -> unread_string Msb0 (seen r) = enc ++ unread_string Msb0 (seen r') -> r_bits r' = r_bits r + length enc ->
  r_bits r' <= 8 * length input -> piece (r_bits r) (r_bits r') = enc.
Proof.
  intros P P' U B Hl. rewrite (pl_unread r P) in U by lia. unfold piece. rewrite U. replace (r_bits r' - r_bits r) with (length enc) by lia.
  rewrite firstn_app, Nat.sub_diag, firstn_all. cbn [firstn]. apply app_nil_r.
Qed.

Lemma shapes_num whole p e b : num_plain whole p e b = true ->
  shapes (fun n => num_fits p b n = true) (fun n w => w = num_wire p e b n) (prim_read p (pcontext e b)).
Proof.
  intros P r n r' Hp E. pose proof (pl_place r Hp) as Hpl. pose proof (num_read_fits false whole p e b r n r' P Hpl E) as F.
  assert (Hp' : pl r').
  { destruct Hp as [H1 H2]. destruct (keeps_prim input false p (pargs e b) _ ltac:(destruct e, b; repeat constructor) (pargs_pctx e b) r n r' H1 E) as [P' K']. split; [exact P'|exact (K' H2)]. }
  split; [exact Hp'|].
  destruct (num_sized _ _ _ _ P) as (Hs & _ & Hpb).
  destruct (num_rewritable false p e b (sp false) (num_plain_weak _ _ _ _ P) (starts_sp false)) as (_ & c & Hc & Hok).
  rewrite pargs_pctx in Hc. injection Hc as <-.
  assert (Hr : readable AnySource r) by (destruct Hpl as (H1 & H2 & _); split; [exact H1|split; [|exact I]]; exact H2).
  assert (Ha : r_at (r_bits r) r) by (destruct Hpl as (_ & _ & H & _); split; [reflexivity|exact H]).
  destruct (takes_prim p _ Hpb Hs r n r' Hr E) as [_ HT].
  set (bits := firstn (prim_size p (pcontext e b)) (unread_string Msb0 (seen r))).
  assert (Hl : length bits = prim_size p (pcontext e b)) by (unfold bits; rewrite firstn_length, unread_string_length; lia).
  destruct (prim_onto Msb0 (sp false) (sp false) p _ (r_bits r) bits Hok ltac:(discriminate) Hl) as (v0 & Hv0 & Ev).
  destruct (encode_prim_sound AnySource Msb0 (r_bits r) p _ v0 bits Ev) as [_ HR].
  destruct (known_read AnySource Msb0 (prim_read p (pcontext e b)) r n r' bits (skipn (prim_size p (pcontext e b)) (unread_string Msb0 (seen r))) v0 Hr Ha) as (-> & _ & U & B);
    [unfold bits; now rewrite firstn_skipn|exact HR|exact E|].
  split; [lia|]. split; [exact F|]. intros Hlen. rewrite (pl_passed r r' bits Hp Hp' U B Hlen).
  pose proof (encode_plain_num whole p e b v0 (r_bits r) P F) as E2. unfold encode_num in E2. rewrite pargs_pctx, Ev in E2. now injection E2.
Qed.
Lemma shapes_magic m : shapes (fun _ => True) (fun _ w => w = bits_of_bytes m) (read_magic m).
Proof.
  induction m as [|x m IH]; cbn [read_magic]; [now apply shapes_ret|].
  eapply shapes_bind with (g2 := fun _ _ => True) (R2 := fun n _ w => n = Byte.to_N x /\ w = bits_of_bytes m); [exact (shapes_num false PU8 None None eq_refl)| |auto|].
  - intros n _. destruct (N.eqb_spec n (Byte.to_N x)) as [->|]; [|apply shapes_fail]. eapply shapes_weak; [exact IH|auto|]. auto.
  - intros n [] y z _ _ -> [-> ->]. cbn [num_wire prim_bytes byte_order]. rewrite to_bytes_1, be_bits. change (8 * 1) with 8. now rewrite <- byte_bits_N.
Qed.
Lemma shapes_skip n : shapes (fun _ => True) (fun _ w => length w = n) (skip_bits n Msb0).
Proof.
  intros r [] r' Hp E.
  assert (Hm : r_bits r <= r_bits r').
  { pose proof (runs_skip (9 + 8 * length (s_data (r_s r))) false false n Msb0 ltac:(discriminate) r (Ok tt) r' (pl_place r Hp) ltac:(lia) E) as (_ & _ & K).
    destruct (K tt eq_refl) as (_ & _ & _ & K'). exact (proj2 (K' eq_refl)). }
  destruct Hp as [P Hk]. assert (Hp' : pl r') by (destruct (keeps_skip input false n Msb0 eq_refl r tt r' P E) as [P' K']; split; [exact P'|exact (K' Hk)]).
  split; [exact Hp'|]. split; [exact Hm|]. split; [exact I|]. intros Hl. rewrite piece_length by lia.
  destruct (take_bits Msb0 n (unread r)) as [[l u']|] eqn:T.
  - pose proof P as (Hw & Hq & Hn & _ & Hs & _). destruct (skip_bits_spec n Msb0 r l u' Hw Hq Hn Hs ltac:(intros X; contradiction) T) as (r1 & E1 & A & _).
    rewrite E in E1. apply pair_inj in E1. destruct E1 as [_ <-]. pose proof (adv_bits _ _ _ A). lia.
  - destruct (skip_over input false n Msb0 r r' P Hk T E) as (_ & _ & X). lia.
Qed.
Lemma shapes_pad m a n ctx fs acc : shapes (fun _ => True) (fun _ w => length w = n) (read_pad (eval0 (pad_of (pad n) None) ctx acc) (field_order (pc m) (attrs a) ctx fs)).
Proof.
  destruct n as [|n]; [now apply shapes_ret|]. cbn [pad pad_of eval0 option_map const read_pad]. unfold const, to_usize. destruct (_ || _)%bool; [apply shapes_fail|].
  change (field_order (pc m) (attrs a) ctx fs) with (@None order). rewrite Z_N_nat, Nat2Z.id. exact (shapes_skip (S n)).
Qed.
Lemma shapes_bb {A} (g : A -> Prop) (f : A -> list (option bool)) (m : RM A) : shapes g (fun v w => agrees (f v) w) m ->
  forall r l r', pl r -> back_to_back m r l r' -> pl r' /\ r_bits r <= r_bits r' /\ Forall g l /\
    (r_bits r' <= 8 * length input -> agrees (concat (map f l)) (piece (r_bits r) (r_bits r'))).
Proof.
  intros H r l r' Hp HB. induction HB as [r|r v r1 l r' E _ IH].
  - split; [exact Hp|]. split; [lia|]. split; [constructor|]. intros _. rewrite piece_nil. constructor.
  - destruct (H r v r1 Hp E) as (P1 & B1 & G1 & K1). destruct (IH P1) as (P2 & B2 & G2 & K2). split; [exact P2|]. split; [lia|]. split; [now constructor|].
    intros Hl. rewrite <- (piece_app (r_bits r) (r_bits r1) (r_bits r')) by lia. apply agrees_join; [apply K1; lia|now apply K2].
Qed.
Lemma shapes_array {A} (g : A -> Prop) (f : A -> list (option bool)) n (m : RM A) : shapes g (fun v w => agrees (f v) w) m ->
  shapes (fun l => length l = n /\ Forall g l) (fun l w => agrees (concat (map f l)) w) (read_array n m).
Proof.
  intros H r l r' Hp E. apply array_bb in E. destruct E as [E L]. destruct (shapes_bb g f m H r l r' Hp E) as (P & B & G & K). auto.
Qed.
Lemma shapes_vec {A} (g : A -> Prop) (f : A -> list (option bool)) size n (m : RM A) : shapes g (fun v w => agrees (f v) w) m -> size <> 0%N ->
  shapes (fun l => N.of_nat (length l) = n /\ Forall g l) (fun l w => agrees (concat (map f l)) w) (vec_read fuel size m (LCount n)).
Proof.
  intros H Hz r l r' Hp E. pose proof (count_len cu m fuel size n r l r' E Hz) as L. cbn [vec_read] in E. destruct (N.eqb_spec n 0) as [->|Hn].
  - destruct l; [|discriminate]. apply pair_inj in E. destruct E as [_ <-]. split; [exact Hp|]. split; [lia|]. split; [split; [reflexivity|constructor]|].
    intros _. rewrite piece_nil. constructor.
  - unfold vec_with_predicate in E. destruct (N.eqb_spec size 0); [contradiction|]. destruct (isize_max <? n * size)%N; [discriminate|].
    destruct (loop_bb m _ _ _ _ _ _ _ E) as (l' & -> & Hb & _). destruct (shapes_bb g f m H r _ r' Hp Hb) as (P & B & G & K). auto.
Qed.

Lemma shapes_until (g : value -> Prop) (f : value -> list (option bool)) size n (m : RM value) : shapes g (fun v w => agrees (f v) w) m -> size <> 0%N ->
  shapes (fun l => up_to n l = true /\ Forall g l) (fun l w => agrees (concat (map f l)) w) (vec_read fuel size m (LUntil (fun l => is_num n (last l VUnit)))).
Proof.
  intros H Hz r l r' Hp E. pose proof (until_up_to m n size fuel r l r' Hz E) as U. cbn [vec_read] in E. unfold vec_with_predicate in E. destruct (N.eqb_spec size 0); [contradiction|].
  destruct (loop_bb m _ _ _ _ _ _ _ E) as (l' & -> & Hb & _). destruct (shapes_bb g f m H r _ r' Hp Hb) as (P & B & G & K). auto.
Qed.
Lemma shapes_text : shapes (fun s => forallb is_char (map VNum s) = true) (fun s w => w = text_wire (map VNum s)) (read_cstring fuel).
Proof.
  intros r s r' Hp E. unfold read_cstring in E. apply bind_inv in E. destruct E as (l & r1 & E1 & E2).
  unfold to_cstring in E2. destruct (from_vec_with_nul l) as [s'|] eqn:En; [|discriminate]. apply pair_inj in E2. destruct E2 as [E2 <-]. apply ok_inj in E2. subst s'.
  cbn [vec_read] in E1. unfold vec_with_predicate in E1. cbn [N.eqb] in E1. destruct (loop_bb _ _ _ _ _ _ _ _ E1) as (l' & -> & Hb & _).
  pose proof (shapes_num false PU8 None None eq_refl) as HN.
  assert (HS : shapes (fun n => num_fits PU8 None n = true) (fun n w => agrees (sure (num_wire PU8 None None n)) w) (prim_read PU8 C0)).
  { eapply shapes_weak; [exact HN|auto|]. intros n w _ ->. now apply agrees_sure. }
  destruct (shapes_bb _ _ _ HS r _ r1 Hp Hb) as (P & B & G & K). split; [exact P|]. split; [exact B|]. cbn [app] in *.
  pose proof (from_nul_inv _ _ En) as [-> Hs]. split.
  - apply forallb_forall. intros x Hx. apply in_map_iff in Hx. destruct Hx as (n & <- & Hn). rewrite Forall_forall in Hs, G. specialize (Hs n Hn).
    specialize (G n (in_or_app _ _ _ (or_introl Hn))). apply num_fits_type in G. change (2 ^ N.of_nat (prim_width PU8))%N with 256%N in G. cbn. lia.
  - intros Hl. specialize (K Hl). rewrite (sure_concat _ (num_wire PU8 None None)) in K by reflexivity. apply agrees_sure in K. rewrite K.
    unfold text_wire. change [VNum 0] with (map VNum [0%N]). rewrite <- map_app, map_map. reflexivity.
Qed.

Definition exact_ty (t : pty) : Prop := forall e b, plain_in false t e b = true ->
  shapes (fun v => value_fits b t v = true) (fun v w => agrees (shape e b t v) w) (read_ty cu fuel (ctype t) None (pargs e b)).
Lemma shapes_field m a t done ctx acc : exact_ty t -> plain_in false t (p_endian a) (p_bits a) = true -> kind_plain false done a t = true -> before done acc ->
  shapes (fun v => body_fits a t acc v = true)
    (fun v w => agrees (sure (bits_of_bytes (p_magic a)) ++ unknown (p_before a) ++ body_shape a t v ++ unknown (p_after a)) w)
    (read_field (pc m) (attrs a) (is_vec_u8 (holding (p_kind a) (ctype t))) ctx acc (fun lim args => read_ty cu fuel (holding (p_kind a) (ctype t)) lim args)).
Proof.
  intros IH P1 P2 B. unfold read_field. rewrite at_seek, at_magic, at_before, at_after.
  eapply shapes_then with (g1 := fun _ => True); [now apply shapes_ret|]. intros _ _.
  eapply shapes_bind with (g2 := fun _ v => body_fits a t acc v = true) (R2 := fun _ v w => agrees (unknown (p_before a) ++ body_shape a t v ++ unknown (p_after a)) w);
    [apply shapes_magic| |auto|intros ? v x y _ _ -> Y; apply agrees_join; [now apply agrees_sure|exact Y]]. intros _ _.
  eapply shapes_bind with (g2 := fun _ v => body_fits a t acc v = true) (R2 := fun _ v w => agrees (body_shape a t v ++ unknown (p_after a)) w);
    [apply shapes_pad| |auto|intros ? v x y _ _ X Y; apply agrees_join; [now apply agrees_unknown|exact Y]]. intros _ _.
  apply (shapes_at _ _ (fun off =>
    let* v := field_read_tokens (attrs a) ctx acc off
      (field_read_normal (attrs a) ctx acc off (field_read_func (pc m) (attrs a) (is_vec_u8 (holding (p_kind a) (ctype t))) ctx acc off
         (fun lim args => read_ty cu fuel (holding (p_kind a) (ctype t)) lim args))) in
    let* _ := asserts (attrs a) ctx acc off v in
    let* _ := read_pad (eval0 (pad_of (pad (p_after a)) None) ctx (acc ++ [v])) (field_order (pc m) (attrs a) ctx acc) in
    ret v)). intros off.
  eapply shapes_bind with (g1 := fun v => body_fits a t acc v = true) (R1 := fun v w => agrees (body_shape a t v) w)
    (g2 := fun v v' => v' = v) (R2 := fun v v' w => agrees (unknown (p_after a)) w).
  2:{ intros v _. eapply shapes_then with (g1 := fun _ => True).
      { unfold asserts. rewrite at_assert, at_assert_eq. eapply shapes_then with (g1 := fun _ => True); [now apply shapes_ret|]. intros _ _. now apply shapes_ret. }
      intros _ _. eapply shapes_map; [apply shapes_pad|reflexivity|]. intros ? w _ W. now apply agrees_unknown. }
  2:{ now intros v v' F ->. }
  2:{ intros v v' x y _ -> X Y. now apply agrees_join. }
  unfold field_read_tokens, field_read_normal, field_read_func. rewrite at_skip, at_cond, at_map, at_reader, at_limit, at_args, at_default.
  assert (BR : forall (mm : RM value) (g : value -> Prop) R, shapes g R mm -> shapes g R (let* v := mm in ret v)).
  { intros mm g R H. eapply shapes_map; [exact H|auto|auto]. }
  unfold body_fits, body_shape. destruct (p_kind a) as [|k size|k|i size] eqn:EK; cbn [holding].
  - apply BR. now apply IH.
  - apply BR. destruct (eval_count k size done acc ctx false a t EK P2 B off) as (-> & E1 & E2 & E3).
    eapply shapes_ext; [intros r; unfold lift; apply (bind_ret_l (LCount (count_at acc k)) _ r)|].
    destruct (is_vec_u8 (TVec KVec size (ctype t))) eqn:EV.
    + unfold kind_plain in P2. rewrite EK in P2. destruct t as [[| |]| | | | | | |]; try discriminate. apply andb_true_iff in P2. destruct P2 as [_ P2]. discriminate.
    + change (shapes (fun v => match v with VList xs => (N.of_nat (length xs) =? count_at acc k)%N && forallb (value_fits (p_bits a) t) xs | _ => false end = true)
        (fun v w => agrees (match v with VList xs => concat (map (shape (p_endian a) (p_bits a) t) xs) | _ => [] end) w)
        (let* vs := vec_read fuel size (read_ty cu fuel (ctype t) None (pargs (p_endian a) (p_bits a))) (LCount (count_at acc k)) in ret (VList vs))).
      eapply shapes_map; [exact (shapes_vec _ _ size (count_at acc k) _ (IH _ _ P1) E2)| |].
      * intros xs [L F]. rewrite L, N.eqb_refl. apply forallb_forall. now apply Forall_forall.
      * intros xs w _ W. exact W.
  - destruct (flag_at acc k).
    + apply BR. change (shapes (fun v => match v with VSome x => true && value_fits (p_bits a) t x | VNone => negb true | _ => false end = true)
        (fun v w => agrees (match v with VSome x => shape (p_endian a) (p_bits a) t x | _ => [] end) w)
        (let* v := read_ty cu fuel (ctype t) None (pargs (p_endian a) (p_bits a)) in ret (VSome v))).
      eapply shapes_map; [exact (IH _ _ P1)|intros v H; exact H|intros v w _ W; exact W].
    + apply shapes_ret; [reflexivity|constructor].
  - apply BR. cbn [eval_limit]. unfold kind_plain in P2. rewrite EK in P2. assert (Hz : size <> 0%N) by (destruct t as [p| | | | | | |]; try discriminate; lia).
    set (lim := LUntil (fun l => is_num i (last l VUnit))).
    eapply shapes_ext; [intros r; unfold lift; apply (bind_ret_l lim _ r)|].
    apply (shapes_ext _ _ _ (let* vs := vec_read fuel size (read_ty cu fuel (ctype t) None (pargs (p_endian a) (p_bits a))) lim in ret (VList vs))).
    { intros r. now destruct (is_vec_u8 (TVec KVec size (ctype t))). }
    eapply shapes_map; [exact (shapes_until _ _ size i _ (IH _ _ P1) Hz)| |].
    + intros xs [U F]. rewrite U. apply forallb_forall. now apply Forall_forall.
    + intros xs w _ W. exact W.
Qed.
Lemma plain_exact :
  (forall t, exact_ty t) /\
  (forall fs done acc m ctx, fields_plain false done fs = true -> before done acc ->
     shapes (fun l => fields_fit fs acc l = true) (fun l w => agrees (fields_shape fs l) w) (fields_read cu fuel (pc m) ctx (cfields fs) None acc)) /\
  (forall vs m p e b ctx id k, variants_plain false vs = true ->
     shapes (fun v => exists j l, v = VVar (k + j) l /\ variant_fits vs j l = true /\ nth j (ids vs) 0%N = id)
       (fun v w => forall j l, v = VVar (k + j) l -> agrees (variant_shape vs j l) w)
       (variants_read cu fuel (eattrs_of (enum_decl m p e b)) ctx (VNum id) (cvariants vs) k None)).
Proof.
  apply plain_ind.
  - intros p e b P. cbn [ctype read_ty]. unfold with_pctx. rewrite pargs_pctx. eapply shapes_map; [exact (shapes_num false p e b P)|intros n H; exact H|].
    intros n w _ ->. now apply agrees_sure.
  - intros e b P. cbn [ctype read_ty]. unfold with_pctx. rewrite pargs_pctx. unfold read_bool.
    eapply shapes_map with (g1 := fun _ => True) (R1 := fun (x : bool) w => w = num_wire PU8 e b (if x then 1%N else 0%N)); [|reflexivity|intros x w _ ->; now apply agrees_sure].
    eapply shapes_bind with (g2 := fun _ _ => True) (R2 := fun n (x : bool) w => w = [] /\ n = if x then 1%N else 0%N); [exact (shapes_num false PU8 e b P)| |auto|].
    + intros n _. destruct (N.eqb_spec n 1); [apply shapes_ret; auto|]. destruct (N.eqb_spec n 0); [apply shapes_ret; auto|apply shapes_fail].
    + intros n x y z _ _ -> [-> ->]. now rewrite app_nil_r.
  - intros n t IH e b P. cbn [ctype read_ty]. eapply shapes_map; [exact (shapes_array _ _ n _ (IH e b P))| |].
    + intros l [L F]. cbn [value_fits]. rewrite L, Nat.eqb_refl. apply forallb_forall. now apply Forall_forall.
    + intros l w _ W. exact W.
  - intros m fs IH e b P. cbn [plain_in] in P. apply andb_true_iff in P. destruct P as [_ P]. cbn [ctype]. rewrite read_struct.
    change (c_magic (cattrs_of (struct_decl m))) with (match magic_attr m with Some x => x | None => [] end). rewrite magic_attr_ok.
    eapply shapes_then with (g1 := fun _ => True); [now apply shapes_ret|]. intros _ _.
    eapply shapes_bind with (g2 := fun _ v => value_fits b (PStruct m fs) v = true) (R2 := fun _ v w => exists l, v = VRec l /\ agrees (fields_shape fs l) w); [apply shapes_magic| |auto|].
    + intros _ _. eapply shapes_map; [exact (IH [] [] m _ P before_nil)|intros l H; exact H|]. intros l w _ W. eauto.
    + intros ? v x y _ _ -> (l & -> & Y). cbn [shape]. fold fields_shape. apply agrees_join; [now apply agrees_sure|exact Y].
  - intros m p e' b' vs IH e b P. cbn [plain_in] in P.
    apply andb_true_iff in P. destruct P as [P P7]. apply andb_true_iff in P. destruct P as [P P6]. apply andb_true_iff in P. destruct P as [P P5].
    apply andb_true_iff in P. destruct P as [P P4]. apply andb_true_iff in P. destruct P as [P P3].
    cbn [ctype]. rewrite read_enum.
    change (c_magic (en_c (eattrs_of (enum_decl m p e' b')))) with (match magic_attr m with Some x => x | None => [] end). rewrite magic_attr_ok.
    change (en_id (eattrs_of (enum_decl m p e' b'))) with (@None (list value -> value)). cbv beta iota. rewrite id_pargs.
    eapply shapes_bind with (g2 := fun _ v => value_fits b (PEnum m p e' b' vs) v = true)
      (R2 := fun _ v w => exists k l, v = VVar k l /\ agrees (sure (num_wire p e' b' (nth k (ids vs) 0%N)) ++ variant_shape vs k l) w); [apply shapes_magic| |auto|].
    + intros _ _.
      eapply shapes_bind with (g1 := fun id => exists n, id = VNum n) (R1 := fun id w => forall n, id = VNum n -> w = num_wire p e' b' n)
        (g2 := fun id v => exists k l, v = VVar k l /\ variant_fits vs k l = true /\ id = VNum (nth k (ids vs) 0%N))
        (R2 := fun _ v w => forall k l, v = VVar k l -> agrees (variant_shape vs k l) w).
      * cbn [read_ty]. unfold with_pctx. rewrite pargs_pctx. eapply shapes_map; [exact (shapes_num false p e' b' P3)|eauto|]. intros n w _ -> n' [= <-]. reflexivity.
      * intros id (n & ->). eapply shapes_weak; [exact (IH m p e' b' _ n 0 P7)| |].
        -- intros v (j & l & -> & F & <-). cbn [Nat.add]. eauto.
        -- intros v w _ W. exact W.
      * intros id v _ (k & l & -> & F & _). exact F.
      * intros id v x y _ (k & l & -> & F & ->) X Y. exists k, l. split; [reflexivity|]. apply agrees_join; [apply agrees_sure; now apply X|now apply Y].
    + intros ? v x y _ _ -> (k & l & -> & Y). cbn [shape]. fold variant_shape. apply agrees_join; [now apply agrees_sure|exact Y].
  - intros p e b P. cbn [ctype read_ty]. unfold with_pctx. rewrite pargs_pctx. unfold read_nonzero.
    eapply shapes_map with (g1 := fun n => negb (n =? 0)%N && num_fits p b n = true) (R1 := fun n w => w = num_wire p e b n); [|intros n H; exact H|intros n w _ ->; now apply agrees_sure].
    eapply shapes_bind with (g2 := fun n n' => n' = n /\ (n =? 0)%N = false) (R2 := fun _ _ w => w = []); [exact (shapes_num false p e b P)| | |].
    + intros n _. destruct (n =? 0)%N eqn:E0; [apply shapes_fail|]. apply shapes_ret; auto.
    + intros n n' F [-> E0]. now rewrite E0.
    + intros n n' y z _ [-> _] -> ->. now rewrite app_nil_r.
  - intros s IHs t IHt e b P. cbn [plain_in] in P. apply andb_true_iff in P. destruct P as [P1 P2]. cbn [ctype read_ty].
    eapply shapes_bind with (g2 := fun x v => exists y, v = VPair x y /\ value_fits b t y = true) (R2 := fun x v w => forall y, v = VPair x y -> agrees (shape e b t y) w);
      [exact (IHs e b P1)| | |].
    + intros x _. eapply shapes_map; [exact (IHt e b P2)|eauto|]. intros y w _ W y' [= <-]. exact W.
    + intros x v F (y & -> & G). cbn [value_fits]. now rewrite F.
    + intros x v w1 w2 _ (y & -> & _) W1 W2. cbn [shape]. apply agrees_join; [exact W1|now apply W2].
  - intros e b P. cbn [plain_in] in P. apply andb_true_iff in P. destruct P as [P1 P2]. destruct (pargs_none e b P1 P2) as (-> & -> & ->). cbn [ctype read_ty].
    eapply shapes_map; [exact shapes_text|intros l H; exact H|]. intros l w _ ->. cbn [shape]. now apply agrees_sure.
  - intros. apply shapes_ret; [reflexivity|constructor].
  - intros a t IHt tl IHtl done acc m ctx P B. rewrite fields_plain_cons in P.
    apply andb_true_iff in P. destruct P as [P P5]. apply andb_true_iff in P. destruct P as [P P4]. apply andb_true_iff in P. destruct P as [P P3].
    apply andb_true_iff in P. destruct P as [P1 P2]. cbn [cfields]. rewrite read_cons, at_temp.
    eapply shapes_bind with (g2 := fun v l => exists l', l = v :: l' /\ fields_fit tl (acc ++ [v]) l' = true) (R2 := fun v l w => forall l', l = v :: l' -> agrees (fields_shape tl l') w);
      [exact (shapes_field m a t done ctx acc IHt P1 P2 B)| | |].
    + intros v Hv. eapply shapes_map; [exact (IHtl _ (acc ++ [v]) m ctx P5 (before_snoc _ _ _ _ _ B (body_typed _ _ _ _ Hv)))|eauto|].
      intros l w _ W l' [= <-]. exact W.
    + intros v l Hv (l' & -> & F). rewrite fields_fit_cons. fold (body_fits a t acc v). now rewrite Hv.
    + intros v l x y _ (l' & -> & F) X Y. rewrite fields_shape_cons. fold (body_shape a t v).
      rewrite (app_assoc (body_shape a t v)), (app_assoc (unknown (p_before a))), (app_assoc (sure _)). apply agrees_join; [exact X|now apply Y].
  - intros. apply shapes_fail.
  - intros id fs IHfs tl IHtl m p e b ctx x k P. cbn [variants_plain] in P. apply andb_true_iff in P. destruct P as [P1 P2].
    cbn [cvariants]. rewrite read_variant. cbv zeta. cbn [v_sel matches value_eqb]. destruct (N.eqb_spec x id) as [->|].
    + change (stores_id (eattrs_of (enum_decl m p e b)) (mkV (SId (VNum id)) false)) with false.
      eapply shapes_map; [exact (IHfs [] [] m ctx P1 before_nil)| |].
      * intros l H. exists 0, l. rewrite Nat.add_0_r. split; [reflexivity|]. split; [exact H|reflexivity].
      * intros l w _ W j l' [= E <-]. assert (j = 0) as -> by lia. exact W.
    + eapply shapes_weak; [exact (IHtl m p e b ctx x (S k) P2)| |].
      * intros v (j & l & -> & F & E). exists (S j), l. split; [f_equal; lia|]. split; [exact F|exact E].
      * intros v w (j & l & -> & _) W j' l' [= E <-]. destruct j' as [|j']; [lia|]. apply W. f_equal. lia.
Qed.

Lemma pl_end r : pl r -> r_bits r / 8 <= length input -> r_bits r <= 8 * length input.
Proof.
  intros [(Hw & Hq & Hn & Hd & Hs & Ha & Hc) Hp] H. destruct (Nat.le_gt_cases (r_bits r) (8 * length input)) as [G|G]; [exact G|exfalso].
  assert (L : r_left r = None).
  { destruct Hc as [Hc|[L _]]; [|exact L]. rewrite skipn_all2 in Hc by (rewrite bitstring_length; lia). unfold unread in Hc.
    unfold r_wf in Hw. destruct (r_left r) as [[c|[|x l]]|] eqn:L; [exfalso; apply Hp; now exists c|cbn in Hw; lia|discriminate|reflexivity]. }
  unfold synced in Hs. rewrite L in Hs. cbn in Hs. lia.
Qed.
Lemma exact_bits t rest off v : plain_in false t None None = true -> from_bytes cu fuel (ctype t) input 0 = Ok ((rest, off), v) ->
  value_fits None t v = true /\ exists w s, bits_of_bytes input = w ++ s /\ agrees (shape None None t v) w /\ rest = skipn (length w / 8) input /\ off = length w mod 8.
Proof.
  intros P E. unfold from_bytes, from_reader in E. cbn [Nat.eqb] in E. rewrite bind_ret_l in E.
  destruct (bind _ _ _) as [[[b x]|e| |] r'] eqn:E1 in E; try discriminate. apply bind_inv in E1. destruct E1 as (v1 & r1 & E1 & E2).
  apply pair_inj in E2. destruct E2 as [E2 _]. apply ok_inj, pair_inj in E2. destruct E2 as [<- <-].
  destruct (Nat.leb_spec (r_bits r1 / 8) (length input)) as [Hl|] in E; [|discriminate]. apply ok_inj, pair_inj in E. destruct E as [E ->]. apply pair_inj in E. destruct E as [<- <-].
  assert (P0 : pl (reader_new (cursor input))) by (split; [apply fresh_placed|apply fresh_unpeeked]).
  destruct (proj1 plain_exact t None None P _ _ _ P0 E1) as (P1 & _ & F & K). split; [exact F|].
  pose proof (pl_end r1 P1 Hl) as Hr. specialize (K Hr). change (r_bits (reader_new (cursor input))) with 0 in K.
  exists (piece 0 (r_bits r1)), (skipn (r_bits r1) (bits_of_bytes input)). rewrite (piece_length 0 (r_bits r1)) by lia. rewrite Nat.sub_0_r.
  split; [unfold piece; cbn [skipn]; now rewrite Nat.sub_0_r, firstn_skipn|]. split; [exact K|]. split; reflexivity.
Qed.
End Exact.

(** ** Both *)

Lemma whole_unpadded :
  (forall t e b, plain_in true t e b = true -> unpadded t = true) /\
  (forall fs done, fields_plain true done fs = true -> fields_unpadded fs = true) /\
  (forall vs, variants_plain true vs = true -> variants_unpadded vs = true).
Proof.
  apply plain_ind; try reflexivity.
  - intros n t IH e b P. exact (IH e b P).
  - intros m fs IH e b P. cbn [plain_in] in P. apply andb_true_iff in P. destruct P as [_ P]. exact (IH [] P).
  - intros m p e' b' vs IH e b P. cbn [plain_in] in P. apply andb_true_iff in P. destruct P as [_ P]. exact (IH P).
  - intros s IHs t IHt e b P. cbn [plain_in] in P. apply andb_true_iff in P. destruct P as [P1 P2].
    change (unpadded s && unpadded t = true). now rewrite (IHs _ _ P1), (IHt _ _ P2).
  - intros a t IHt tl IHtl done P. rewrite fields_plain_cons in P.
    apply andb_true_iff in P. destruct P as [P P5]. apply andb_true_iff in P. destruct P as [P P4]. apply andb_true_iff in P. destruct P as [P P3].
    apply andb_true_iff in P. destruct P as [P1 P2].
    change (unpadded t && (p_before a =? 0) && (p_after a =? 0) && fields_unpadded tl = true). cbn [pad_plain] in P3, P4. rewrite (IHt _ _ P1), P3, P4, (IHtl _ P5). reflexivity.
  - intros id fs IHfs tl IHtl P. cbn [variants_plain] in P. apply andb_true_iff in P. destruct P as [P1 P2].
    change (fields_unpadded fs && variants_unpadded tl = true). now rewrite (IHfs _ P1), (IHtl P2).
Qed.
Lemma unpadded_shape :
  (forall t e b v, unpadded t = true -> shape e b t v = sure (wire e b t v)) /\
  (forall fs l, fields_unpadded fs = true -> fields_shape fs l = sure (fields_wire fs l)) /\
  (forall vs k l, variants_unpadded vs = true -> variant_shape vs k l = sure (variant_wire vs k l)).
Proof.
  apply plain_ind.
  - intros p e b [] _; reflexivity.
  - intros e b [] _; reflexivity.
  - intros n t IH e b [] U; try reflexivity. apply sure_concat. intros x. now apply IH.
  - intros m fs IH e b [] U; try reflexivity. cbn [shape wire]. fold fields_shape fields_wire. rewrite sure_app. f_equal. now apply IH.
  - intros m p e' b' vs IH e b [] U; try reflexivity. cbn [shape wire]. fold variant_shape variant_wire. rewrite !sure_app. do 2 f_equal. now apply IH.
  - intros p e b [] _; reflexivity.
  - intros s IHs t IHt e b [] U; try reflexivity. change (unpadded s && unpadded t = true) in U. apply andb_true_iff in U. destruct U as [U1 U2].
    cbn [shape wire]. now rewrite sure_app, IHs, IHt.
  - intros e b [] _; reflexivity.
  - reflexivity.
  - intros a t IHt tl IHtl [|v l] U; [reflexivity|].
    change (unpadded t && (p_before a =? 0) && (p_after a =? 0) && fields_unpadded tl = true) in U.
    apply andb_true_iff in U. destruct U as [U U4]. apply andb_true_iff in U. destruct U as [U U3]. apply andb_true_iff in U. destruct U as [U1 U2]. apply Nat.eqb_eq in U2, U3.
    rewrite fields_shape_cons, fields_wire_cons, !sure_app, (IHtl l U4), U2, U3. cbn [unknown repeat app sure map]. fold sure. rewrite ?app_nil_l. f_equal. f_equal.
    destruct (p_kind a); [now apply IHt| | |]; destruct v; try reflexivity; [apply sure_concat; intros x; now apply IHt|now apply IHt|apply sure_concat; intros x; now apply IHt].
  - intros [|k] l _; reflexivity.
  - intros id fs IHfs tl IHtl k l U. change (fields_unpadded fs && variants_unpadded tl = true) in U. apply andb_true_iff in U. destruct U as [U1 U2].
    destruct k as [|k]; [now apply IHfs|now apply IHtl].
Qed.

Section Both.
Variables (cu : nat -> custom) (fuel : nat).

Theorem padded_exactly t input rest off v : plain_type t = true -> 8 * length input + 8 < fuel ->
  (from_bytes cu fuel (ctype t) input 0 = Ok ((rest, off), v) <->
   value_fits None t v = true /\ exists w s, bits_of_bytes input = w ++ s /\ agrees (shape None None t v) w /\
     rest = skipn (length w / 8) input /\ off = length w mod 8).
Proof.
  intros P Hf. unfold plain_type in P. apply orb_prop in P. destruct P as [P|P].
  - pose proof (proj1 whole_unpadded t None None P) as U. rewrite (read_exactly cu fuel t input rest off v) by (trivial; unfold plain_type; now rewrite P). cbv zeta.
    rewrite (proj1 unpadded_shape t None None v U). split.
    + intros (F & (s & E) & R & O). split; [exact F|]. exists (wire None None t v), s. split; [exact E|]. split; [now apply agrees_sure|auto].
    + intros (F & w & s & E & A & R & O). apply agrees_sure in A. subst w. split; [exact F|]. split; [eauto|auto].
  - split; [now apply exact_bits|]. intros (F & w & s & E & A & -> & ->).
    assert (Hw : length w <= fuel) by (apply (f_equal (@length bool)) in E; rewrite bits_of_bytes_length, app_length in E; lia).
    pose proof (proj1 (plain_accepted cu fuel) t None None v w P F A Hw 0) as HR.
    destruct (from_reader_at cu fuel SeekSource Msb0 (ctype t) (cursor input) 0 [] w s v HR eq_refl (or_introl eq_refl) (readable_new SeekSource input)) as (s' & E').
    { change (s_avail (cursor input)) with input. now rewrite bitstring_msb. }
    unfold from_bytes. rewrite E'. apply (f_equal (@length bool)) in E. rewrite bits_of_bytes_length, app_length in E.
    cbn [Nat.add]. destruct (Nat.leb_spec (length w / 8) (length input)); [reflexivity|lia].
Qed.
Theorem padded_try t input v : plain_type t = true -> 8 * length input + 8 < fuel ->
  (try_from cu fuel (ctype t) input = Ok v <-> value_fits None t v = true /\ agrees (shape None None t v) (bits_of_bytes input)).
Proof.
  intros P Hf. rewrite try_from_ok. split.
  - intros (off & E). apply (padded_exactly t input [] off v P Hf) in E. destruct E as (F & w & s & E & A & R & _). split; [exact F|].
    assert (s = []); [|subst s; now rewrite E, app_nil_r]. apply length_zero_iff_nil.
    apply (f_equal (@length bool)) in E. rewrite app_length, bits_of_bytes_length in E. apply (f_equal (@length byte)) in R. rewrite skipn_length in R. cbn [length] in R. lia.
  - intros [F A]. exists 0. apply (padded_exactly t input [] 0 v P Hf). split; [exact F|]. exists (bits_of_bytes input), []. rewrite bits_of_bytes_length.
    split; [now rewrite app_nil_r|]. split; [exact A|]. split; [symmetry; apply skipn_all2; lia|lia].
Qed.
Theorem padded_rejects t input : plain_type t = true -> 8 * length input + 8 < fuel ->
  ((exists v w s, value_fits None t v = true /\ bits_of_bytes input = w ++ s /\ agrees (shape None None t v) w) <-> forall e, from_bytes cu fuel (ctype t) input 0 <> Err e).
Proof.
  intros P Hf. split.
  - intros (v & w & s & F & E & A) e X.
    assert (Y : from_bytes cu fuel (ctype t) input 0 = Ok ((skipn (length w / 8) input, length w mod 8), v)) by (apply padded_exactly; eauto 10). congruence.
  - intros H. destruct (reads_anything cu fuel t input 0 P ltac:(lia) Hf) as [(rest & off & v & E & F)|(e & E)]; [|now destruct (H e)].
    apply (padded_exactly t input rest off v P Hf) in E. destruct E as (_ & w & s & E & A & _). exists v, w, s. auto.
Qed.
End Both.
