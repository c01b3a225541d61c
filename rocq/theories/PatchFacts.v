From Coq Require Import Lia ZifyBool ZifyNat ZifyN.
From Verif Require Import Base MonadFacts Spec Stream Reader Writer WSession BitsFacts WriterFacts WriterProps Prims CodecSpec Containers ContainerSpec Derive DeriveSpec DeriveFacts DeriveSound DeriveProps
  SizeSpec SizeFacts PrefixSpec GrowSpec PatchSpec.
Ltac Zify.zify_post_hook ::= Z.div_mod_to_equations.

Lemma same_snoc i l l' v : same_but i l l' -> same_but i (l ++ [v]) (l' ++ [v]).
Proof. intros (a & x & y & b & L & -> & ->). exists a, x, y, (b ++ [v]). split; [exact L|]. rewrite <- !app_assoc. split; reflexivity. Qed.

Section Ignored.
Variables (src : source) (o : order) (ce : nat -> list value -> nat -> value -> option (list bool)) (i j : nat) (c : cattrs).
Hypothesis (HC : ignored_above i c).

Lemma order_ignored a fs fs' ctx : ignores i j a -> same_but i fs fs' -> field_order c a ctx fs = field_order c a ctx fs'.
Proof.
  intros H S. destruct (H _ _ S ctx 0) as (_ & E & _). destruct (HC _ _ S ctx) as [_ E']. unfold field_order, or_else. destruct (a_order a); [exact E|exact E'].
Qed.
Lemma args_ignored a fs fs' ctx off : ignores i j a -> same_but i fs fs' -> field_args c a ctx fs off = field_args c a ctx fs' off.
Proof.
  intros H S. unfold field_args. rewrite (order_ignored a fs fs' ctx H S). destruct (H _ _ S ctx off) as (E1 & _ & E3 & E4 & E5 & _). rewrite E3, E4, E5. f_equal.
  destruct (HC _ _ S ctx) as [E' _]. unfold or_else. destruct (a_endian a); [exact E1|exact E'].
Qed.
Lemma field_ignored a vec nothing ctx fs fs' pos v et ew : ignores i j a -> same_but i fs fs' ->
  encode_field src o c a vec nothing ctx fs pos v et ew = encode_field src o c a vec nothing ctx fs' pos v et ew.
Proof.
  intros H S. unfold encode_field. destruct (a_seek a); [reflexivity|]. destruct (a_reader a); [reflexivity|]. destruct (a_writer a); [reflexivity|].
  match goal with |- context [match ?z with Some _ => _ | None => None end] => destruct z as [m|]; [|reflexivity] end. rewrite (order_ignored a fs fs' ctx H S).
  destruct (H _ _ S ctx 0) as (_ & _ & _ & _ & _ & _ & _ & _ & _ & _ & _ & Eb & _). rewrite Eb. match goal with |- context [match ?z with Some _ => _ | None => None end] => destruct z as [b|]; [|reflexivity] end. cbv zeta.
  destruct (H _ _ (same_snoc _ _ _ v S) ctx 0) as (_ & _ & _ & _ & _ & _ & _ & _ & _ & _ & _ & _ & Ea & _). rewrite Ea.
  assert (HA : forall off, assertions a ctx fs off v = assertions a ctx fs' off v).
  { intros off. unfold assertions. destruct (H _ _ S ctx off) as (_ & _ & _ & _ & _ & _ & _ & _ & _ & _ & E1 & _). destruct (H _ _ (same_snoc _ _ _ v S) ctx off) as (_ & _ & _ & _ & _ & _ & _ & _ & _ & E2 & _).
    destruct (a_assert a), (a_assert_eq a); cbn [option_map] in E1, E2; try (injection E1 as E1); try (injection E2 as E2); now rewrite ?E1, ?E2. }
  rewrite !HA.
  assert (HD : forall off, option_map (fun f : expr bool => f ctx fs off) (a_cond a) = option_map (fun f : expr bool => f ctx fs' off) (a_cond a)) by (intros off; apply (H _ _ S ctx off)).
  rewrite !HD. rewrite !(args_ignored a fs fs' ctx _ H S).
  assert (HE : forall off, a_default a ctx fs off = a_default a ctx fs' off) by (intros off; apply (H _ _ S ctx off)). rewrite HE.
  set (p := pos + length m + length b). destruct (H _ _ S ctx p) as (_ & _ & _ & _ & _ & El & Em & _). specialize (Em v).
  assert (EM : match a_map a with None => true | Some f => match f ctx fs p v with Ok v' => value_eqb v v' | _ => false end end =
               match a_map a with None => true | Some f => match f ctx fs' p v with Ok v' => value_eqb v v' | _ => false end end).
  { destruct (a_map a); [|reflexivity]. cbn [option_map] in Em. injection Em as Em. now rewrite Em. }
  rewrite EM. destruct (a_limit a) as [l|]; [|reflexivity]. cbn [option_map] in El. injection El as El. rewrite El. reflexivity.
Qed.
Lemma fields_ignored ctx : forall fs st st' todo acc acc' pos, ignored_by i j fs -> same_but j st st' -> same_but i acc acc' ->
  encode_fields src o ce c ctx fs None st todo acc pos = encode_fields src o ce c ctx fs None st' todo acc' pos.
Proof.
  induction fs as [|a t wire tl IH]; intros st st' todo acc acc' pos H Ss Sa; [reflexivity|]. destruct H as [Ha Htl]. rewrite !encode_cons. cbv zeta.
  assert (EV : field_value a st todo ctx acc = field_value a st' todo ctx acc').
  { unfold field_value. destruct (a_temp a); [|reflexivity]. destruct (Ha _ _ Sa ctx 0) as (_ & _ & _ & _ & _ & _ & _ & _ & _ & _ & _ & _ & _ & E). specialize (E _ _ Ss).
    destruct (a_temp_value a); [|reflexivity]. cbn [option_map] in E. now injection E. }
  rewrite EV, (field_ignored a _ _ ctx acc acc' pos _ _ _ Ha Sa). f_equal. destruct (encode_field _ _ _ _ _ _ _ _ _ _ _ _) as [e|]; [|reflexivity].
  rewrite (IH st st' (field_rest a todo) (acc ++ [field_value a st' todo ctx acc']) (acc' ++ [field_value a st' todo ctx acc']) (pos + length e) Htl Ss (same_snoc _ _ _ _ Sa)). reflexivity.
Qed.
End Ignored.

(** ** Fields in front *)

Section Split.
Variables (src : source) (o : order) (ce : nat -> list value -> nat -> value -> option (list bool)).
Fixpoint seen_after (ctx : list value) (fs : fields) (st todo acc : list value) : list value :=
  match fs with FNil => acc | FCons a _ _ tl => seen_after ctx tl st (field_rest a todo) (acc ++ [field_value a st todo ctx acc]) end.
Lemma seen_length ctx : forall fs st todo acc, length (seen_after ctx fs st todo acc) = length acc + count fs.
Proof. induction fs as [|a t wire tl IH]; intros st todo acc; cbn [seen_after count]; [lia|]. rewrite IH, app_length. cbn [length]. lia. Qed.
Lemma split_fields c ctx gs n st more : length st = n -> forall before, names_old n before -> forall l m acc pos enc, length l = kept before ->
  encode_fields src o ce c ctx (append before gs) None (st ++ more) (l ++ m) acc pos = Some enc ->
  exists p q, enc = p ++ q /\ encode_fields src o ce c ctx before None st l acc pos = Some p /\
    encode_fields src o ce c ctx gs None (st ++ more) m (seen_after ctx before st l acc) (pos + length p) = Some q.
Proof.
  intros LS. induction before as [|a t wire tl IH]; intros N l m acc pos enc L E; cbn [kept] in L.
  - destruct l; [|discriminate]. exists [], enc. split; [reflexivity|]. split; [reflexivity|]. cbn [append app length seen_after] in *. now rewrite Nat.add_0_r.
  - destruct N as [[_ Na] N]. cbn [append] in E. rewrite encode_cons in E. apply guard_inv in E. destruct E as [G E]. cbv zeta in E.
    assert (V : field_value a (st ++ more) (l ++ m) ctx acc = field_value a st l ctx acc).
    { unfold field_value. destruct (a_temp a); [|destruct l; [discriminate|reflexivity]]. destruct (a_temp_value a) as [f|]; [|reflexivity]. now apply Na. }
    assert (V' : exists l', field_rest a (l ++ m) = l' ++ m /\ field_rest a l = l' /\ length l' = kept tl).
    { unfold field_rest. destruct (a_temp a); [exists l; auto|]. destruct l as [|x l]; [discriminate|]. injection L as L. exists l. auto. }
    destruct V' as (l' & V1 & V2 & V3). rewrite V, V1 in E.
    match type of E with match ?z with _ => _ end = _ => destruct z as [e|] eqn:Ee; [|discriminate] end.
    match type of E with match ?z with _ => _ end = _ => destruct z as [es|] eqn:Ees; [|discriminate] end. injection E as <-.
    destruct (IH N l' m _ _ es V3 Ees) as (p & q & -> & Hp & Hq). exists (e ++ p), q. split; [now rewrite app_assoc|]. split.
    + rewrite encode_cons. cbv zeta. rewrite V2, Ee, Hp.
      replace (if a_temp a then match a_temp_value a with Some _ => true | None => false end else negb (length l =? 0)) with true; [reflexivity|].
      symmetry. destruct (a_temp a); [exact G|]. destruct l; [discriminate|reflexivity].
    + cbn [seen_after]. rewrite V2, app_length, Nat.add_assoc. exact Hq.
Qed.
End Split.

(** ** Lengths *)

Lemma orient_length o l : length (orient o l) = length l.
Proof. destruct o; [reflexivity|apply rev_length]. Qed.
Lemma fields_length cu ce o c ctx fs st todo acc pos enc n : customs_lawful SeekSource o cu ce ->
  encode_fields SeekSource o ce c ctx fs None st todo acc pos = Some enc ->
  regular_fields true fs -> complete_fields fs todo -> fields_size fs false = Some n -> length enc = n.
Proof.
  intros Hc E R C S. destruct (proj1 (proj1 (proj2 (types_sound SeekSource o cu ce 0 (lawful_upto _ _ _ _ _ Hc))) fs) _ _ _ _ _ _ _ _ E) as [HW _].
  assert (P : puts true n (fields_write cu c ctx fs None st todo acc)) by (apply (proj1 (proj2 (puts_all cu true)) fs R); assumption).
  set (w0 := mkWriter vec_sink (repeat false (pos mod 8)) o (8 * (pos / 8))).
  assert (L0 : length (w_left w0) = pos mod 8) by apply repeat_length.
  assert (G0 : w_good w0) by (split; [split; reflexivity|lia]).
  destruct (HW w0) as (w1 & bs & E1 & (D1 & P1 & B1) & _ & _ & X); [split; [reflexivity|split; [reflexivity|unfold w_rest; lia]]|destruct o; cbn; auto|split; [reflexivity|exact L0]|].
  destruct (P _ _ G0 E1) as (_ & bs' & [A _] & L & _). specialize (L eq_refl).
  apply (f_equal (@length bool)) in X. rewrite !app_length, bitstring_length, !orient_length in X.
  pose proof (em_pos _ _ _ A) as P2. cbn [w0 w_k vec_sink k_pos Nat.add] in P1, P2. unfold w_rest in X. lia.
Qed.
Lemma bits_length cu ce o t v enc bits : customs_lawful SeekSource o cu ce -> encode SeekSource o ce t None [] 0 v = Some enc -> to_bits cu t v = Ok bits -> length bits = length enc.
Proof.
  intros Hc E B. destruct (encode_sound SeekSource o cu ce 0 (lawful_upto _ _ _ _ _ Hc) _ _ _ _ _ _ E) as [HW _].
  set (w0 := writer_new vec_sink).
  destruct (HW w0) as (w1 & bs & E1 & (D1 & P1 & B1) & _ & _ & X); [split; [reflexivity|split; [reflexivity|cbn; lia]]|destruct o; cbn; auto|split; reflexivity|].
  unfold to_bits, to_bits_with in B. fold w0 in B. rewrite E1 in B. cbn [res_map] in B. apply ok_inj in B. subst bits.
  apply (f_equal (@length bool)) in X. rewrite !app_length, bitstring_length, !orient_length in X. unfold w_rest in X. cbn [w0 writer_new w_k w_left vec_sink k_data k_pos length Nat.add] in *.
  rewrite overlay_empty in D1. rewrite app_length, bits_of_bytes_length, D1. lia.
Qed.

Lemma window {A} (a b : list A) k n : k + n <= length a -> firstn n (skipn k (a ++ b)) = firstn n (skipn k a).
Proof. intros H. rewrite skipn_app, firstn_app, skipn_length. replace (n - (length a - k)) with 0 by lia. cbn [firstn]. apply app_nil_r. Qed.
Lemma byte_window o b b' i : length b = length b' -> firstn 8 (skipn (8 * i) (bitstring o b)) = firstn 8 (skipn (8 * i) (bitstring o b')) -> nth_error b' i = nth_error b i.
Proof.
  intros L H. rewrite !bitstring_skipn in H. change 8 with (8 * 1) in H. rewrite !bitstring_firstn in H. apply bitstring_inj in H.
  revert b b' L H. induction i as [|i IH]; intros [|x b] [|y b'] L H; try discriminate; try reflexivity.
  - cbn in H. injection H as ->. reflexivity.
  - cbn [nth_error]. apply IH; [now injection L|exact H].
Qed.

Theorem patched cu ce o c before a t wire after l x x' m b b' p n :
  customs_lawful SeekSource o cu ce ->
  let T := with_field c before a t wire after in
  message cu ce o T (VRec (l ++ x :: m)) b -> message cu ce o T (VRec (l ++ x' :: m)) b' ->
  length l = kept before -> names_old (kept before) before -> to_bits cu (TStruct c before) (VRec l) = Ok p ->
  regular_fields true (FCons a t wire FNil) -> fields_size (FCons a t wire FNil) false = Some n -> complete t x -> complete t x' ->
  ignored_above (count before) c -> ignored_by (count before) (kept before) after ->
  length b' = length b /\ forall i, outside (length p) n i -> nth_error b' i = nth_error b i.
Proof.
  intros Hcu T [(enc & E) EB] [(enc' & E') EB'] L NO Hb Rf Sf Cx Cx' HC HI. set (k := count before) in *.
  assert (Ta : a_temp a = false) by (destruct Rf as (H & _); exact (rf_temp _ _ _ H)).
  set (acc := seen_after (ctx_args c []) before l l []).
  assert (S1 : forall y e, complete t y -> encode SeekSource o ce T None [] 0 (VRec (l ++ y :: m)) = Some e ->
    exists g s f q, e = (g ++ s) ++ f ++ q /\ length f = n /\ length (g ++ s) = length p /\
      encode_magic o 0 (c_magic c) = Some g /\ encode_fields SeekSource o ce c (ctx_args c []) before None l l [] (0 + length g) = Some s /\
      encode_fields SeekSource o ce c (ctx_args c []) after None (l ++ y :: m) m (acc ++ [y]) (0 + length g + length s + length f) = Some q).
  { intros y e Cy Ee. unfold T, with_field in Ee. rewrite encode_struct in Ee. destruct (c_seek c) eqn:Ec; [discriminate|].
    destruct (encode_magic o 0 (c_magic c)) as [g|] eqn:Eg; [|discriminate].
    match type of Ee with match ?z with _ => _ end = _ => destruct z as [e1|] eqn:Ef; [|discriminate] end. injection Ee as <-.
    destruct (split_fields SeekSource o ce c _ _ _ l (y :: m) L before NO l (y :: m) [] _ e1 L Ef) as (s & q & -> & Hp & Hq). fold acc in Hq.
    rewrite encode_cons in Hq. apply guard_inv in Hq. destruct Hq as [_ Hq]. cbv zeta in Hq. unfold field_value, field_rest in Hq. rewrite Ta in Hq. cbn [hd List.tl] in Hq.
    match type of Hq with match ?z with _ => _ end = _ => destruct z as [f|] eqn:Eff; [|discriminate] end.
    match type of Hq with match ?z with _ => _ end = _ => destruct z as [q1|] eqn:Eq; [|discriminate] end. injection Hq as <-.
    exists g, s, f, q1. split; [now rewrite app_assoc|]. split; [|split; [|split; [reflexivity|split; [exact Hp|exact Eq]]]].
    - apply (fields_length cu ce o c (ctx_args c []) (FCons a t wire FNil) (l ++ y :: m) [y] acc (0 + length g + length s) f n); [exact Hcu| |exact Rf|split; [exact Cy|exact I]|exact Sf].
      rewrite encode_cons. cbv zeta. unfold field_value, field_rest. rewrite Ta. cbn [hd List.tl length Nat.eqb negb guard]. rewrite Eff. cbn. now rewrite app_nil_r.
    - symmetry. apply (bits_length cu ce o (TStruct c before) (VRec l)); [exact Hcu| |exact Hb]. rewrite encode_struct, Ec, Eg, Hp. reflexivity. }
  destruct (S1 x enc Cx E) as (g & s & f & q & -> & Lf & Lp & Eg & Ep & Eq). destruct (S1 x' enc' Cx' E') as (g' & s' & f' & q' & -> & Lf' & _ & Eg' & Ep' & Eq'). clear S1.
  rewrite Eg in Eg'. injection Eg' as <-. rewrite Ep in Ep'. injection Ep' as <-.
  assert (q' = q) as ->.
  { rewrite Lf' in Eq'. rewrite Lf in Eq.
    rewrite (fields_ignored SeekSource o ce k (kept before) c HC (ctx_args c []) after (l ++ x :: m) (l ++ x' :: m) m (acc ++ [x]) (acc ++ [x'])) in Eq;
      [|exact HI|exists l, x, x', m; auto|exists acc, x, x', []; split; [unfold acc; now rewrite seen_length|split; reflexivity]].
    rewrite Eq in Eq'. now injection Eq'. }
  set (front := g ++ s) in *. clearbody front.
  destruct (round_trip cu _ o ce _ _ _ Hcu E (le_n _)) as (b1 & pad & E1 & B1 & P1 & _). rewrite EB in E1. injection E1 as <-.
  destruct (round_trip cu _ o ce _ _ _ Hcu E' (le_n _)) as (b2 & pad' & E2 & B2 & P2 & _). rewrite EB' in E2. injection E2 as <-.
  pose proof (f_equal (@length bool) B1) as L1. pose proof (f_equal (@length bool) B2) as L2. rewrite !app_length, bitstring_length, repeat_length in L1, L2.
  assert (pad' = pad) as -> by lia. assert (LL : length b' = length b) by lia. split; [exact LL|].
  intros i Ho. apply (byte_window o); [now symmetry|]. rewrite B1, B2, <- !app_assoc. destruct Ho as [Ho|Ho].
  - rewrite (window front (f ++ _)), (window front (f' ++ _)) by lia. reflexivity.
  - rewrite !(app_assoc front).
    assert (W : forall u v w : list bool, length u = length p + n -> length v = length u -> skipn (8 * i) (u ++ w) = skipn (8 * i) (v ++ w)).
    { intros u v w A B. rewrite !skipn_app, (skipn_all2 u), (skipn_all2 v) by lia. now rewrite B. }
    rewrite (W (front ++ f) (front ++ f')); [reflexivity| |]; rewrite !app_length; lia.
Qed.
