From Coq Require Import Lia ZifyBool ZifyNat ZifyN.
From Verif Require Import Base MonadFacts Spec Stream Reader Session Prims CodecSpec BitsFacts NFacts ReaderFacts ReaderOps
  Containers ContainerSpec Derive DeriveSpec DeriveSound SizeSpec SizeFacts SizeReadSpec SizeReadFacts GrowSpec LimitSpec.
Ltac Zify.zify_post_hook ::= Z.div_mod_to_equations.

(** Equal from every [ok] reader. *)
Definition same {A} (m1 m2 : RM A) : Prop := forall r, ok r -> m1 r = m2 r.
Lemma s_refl {A} (m : RM A) : same m m.
Proof. intros r _. reflexivity. Qed.
Lemma s_bind {A B} n (m : RM A) (f g : A -> RM B) : takes false n m -> (forall a, same (f a) (g a)) -> same (bind m f) (bind m g).
Proof.
  intros M F r H. unfold bind. destruct (m r) as [x r1] eqn:E. destruct x as [a|e| |]; auto. destruct (M _ _ _ H E) as [M1 _]. destruct (M1 a eq_refl) as (H1 & _). now apply F.
Qed.
Lemma s_first {A B} (m1 m2 : RM A) (f : A -> RM B) : same m1 m2 -> same (bind m1 f) (bind m2 f).
Proof. intros M r H. unfold bind. now rewrite (M r H). Qed.
Lemma s_see {A} (f g : reader -> RM A) : (forall r, same (f r) (g r)) -> same (fun r => f r r) (fun r => g r r).
Proof. intros F r. exact (F r r). Qed.

(** The loops. *)
Lemma loops {A} n (elem : RM A) c stop1 stop2 : 0 < n -> takes true n elem ->
  (forall bits acc, stop1 bits acc = (length acc =? c)) -> (forall bits acc, stop2 bits acc = (bits =? c * n)) ->
  forall m start acc r f1 f2, ok r -> r_bits r = start + n * length acc -> c = length acc + S m -> S m <= f1 -> S m <= f2 ->
  vec_loop f1 elem stop1 start acc r = vec_loop f2 elem stop2 start acc r.
Proof.
  intros Hn HT H1 H2. induction m as [|m IH]; intros start acc r f1 f2 G B C F1 F2; (destruct f1 as [|f1]; [lia|]); (destruct f2 as [|f2]; [lia|]); cbn [vec_loop]; unfold bind;
    (destruct (elem r) as [x r1] eqn:E; destruct x as [v|e| |]; auto); destruct (HT _ _ _ G E) as [T _]; destruct (T v eq_refl) as (G1 & _ & k & B1 & _ & X); rewrite (X eq_refl) in B1;
    (destruct (Nat.ltb_spec (r_bits r1) start); [reflexivity|]); rewrite H1, H2, app_length; cbn [length].
  - destruct (Nat.eqb_spec (length acc + 1) c); [|lia]. destruct (Nat.eqb_spec (r_bits r1 - start) (c * n)); [reflexivity|]. exfalso. apply n0. subst c. rewrite B1, B. nia.
  - destruct (Nat.eqb_spec (length acc + 1) c); [lia|]. destruct (Nat.eqb_spec (r_bits r1 - start) (c * n)) as [Q|]; [exfalso; rewrite B1, B in Q; subst c; nia|].
    apply IH; auto; rewrite ?app_length; cbn [length]; nia.
Qed.
Lemma limits {A} n (elem : RM A) fuel size c : 0 < n -> takes true n elem -> N.to_nat c <= fuel -> (c * size <= isize_max)%N -> (c * N.of_nat n <= usize_max)%N ->
  same (vec_read fuel size elem (LCount c)) (vec_read fuel size elem (LBits (c * N.of_nat n))) /\
  (forall b, n = 8 * b -> same (vec_read fuel size elem (LCount c)) (vec_read fuel size elem (LBytes (c * N.of_nat b)))).
Proof.
  intros Hn HT HF HS HU. unfold vec_read.
  assert (Z : (c =? 0)%N = false -> forall bits (stop2 : nat -> list A -> bool), (forall x acc, stop2 x acc = (x =? N.to_nat c * n)) -> bits = (c * N.of_nat n)%N -> same (fun r => vec_with_predicate (N.to_nat c) size (Some c) elem (fun _ acc => (N.of_nat (length acc) =? c)%N) r)
     (vec_with_predicate fuel size None elem stop2)).
  { intros Z bits stop2 H2 Hb r G. unfold vec_with_predicate. destruct (size =? 0)%N; [reflexivity|]. destruct (N.ltb_spec isize_max (c * size)); [lia|].
    apply (loops n elem (N.to_nat c) _ _ Hn HT) with (m := N.to_nat c - 1); auto; try (cbn [length]; lia). }
  split; [|intros b ->].
  - destruct (N.eqb_spec c 0) as [->|C]; [cbn [N.mul]; rewrite N.eqb_refl; apply s_refl|]. destruct (N.eqb_spec (c * N.of_nat n) 0); [nia|].
    eapply Z; [lia| |reflexivity]. intros x acc. apply Bool.eq_iff_eq_true. rewrite N.eqb_eq, Nat.eqb_eq. nia.
  - destruct (N.ltb_spec usize_max (c * N.of_nat b * 8)); [nia|]. destruct (N.eqb_spec c 0) as [->|C]; [cbn [N.mul]; rewrite N.eqb_refl; apply s_refl|]. destruct (N.eqb_spec (c * N.of_nat b * 8) 0); [nia|].
    eapply Z; [lia| |reflexivity]. intros x acc. apply Bool.eq_iff_eq_true. rewrite N.eqb_eq, Nat.eqb_eq. nia.
Qed.

(** The field. *)
Lemma to_usize_some z x : to_usize z = Some x -> Z.of_N x = z.
Proof. unfold to_usize. destruct (_ || _) eqn:B; [discriminate|]. intros E. injection E as <-. lia. Qed.
Lemma to_usize_mul z k : (0 < k)%Z -> (z * k <= Z.of_N usize_max)%Z -> to_usize (z * k) = option_map (fun x => (x * Z.to_N k)%N) (to_usize z).
Proof.
  intros Hk Hz. unfold to_usize. destruct (Z.ltb_spec z 0) as [Z0|Z0].
  - destruct (Z.ltb_spec (z * k) 0); [reflexivity|nia].
  - destruct (Z.ltb_spec (z * k) 0); [nia|]. destruct (Z.ltb_spec (Z.of_N usize_max) z); [nia|]. destruct (Z.ltb_spec (Z.of_N usize_max) (z * k)); [lia|]. cbn [orb option_map]. f_equal. lia.
Qed.

Section Field.
Variables (cu : nat -> custom) (fuel n : nat) (a : fattrs) (k : store) (size : N) (elem : ty) (f : expr Z).
Hypothesis (OS : of_size n a elem) (V : is_vec_u8 (TVec k size elem) = false) (R : in_range fuel n (slot_size k size) f).

Lemma elem_takes c ctx fs off : takes true n (read_ty cu fuel elem None (field_args c a ctx fs off)).
Proof.
  clear R V. unfold field_args. rewrite (eval_constant _ _ _ (os_bits _ _ _ OS)), (eval_constant _ _ _ (os_bytes _ _ _ OS)).
  eapply t_args; [exact (proj1 (takes_all cu fuel true) elem (os_sized _ _ _ OS))|apply OS|intros Hp; now apply (os_ctx _ _ _ OS)|].
  pose proof (os_own _ _ _ OS) as H. unfold own_size. destruct (const_size (a_bits a)); [now subst|]. destruct (const_size (a_bytes a)); [subst; f_equal; lia|exact H].
Qed.
Lemma same_func l c ctx fs off : same_length n f l ->
  same (field_read_func c (limit_to (FCount f) a) false ctx fs off (fun lim args => read_ty cu fuel (TVec k size elem) lim args))
       (field_read_func c (limit_to l a) false ctx fs off (fun lim args => read_ty cu fuel (TVec k size elem) lim args)).
Proof.
  intros HL. unfold field_read_func. cbn [limit_to a_reader a_limit]. rewrite (os_reader _ _ _ OS). cbv zeta.
  change (field_args c (limit_to (FCount f) a) ctx fs off) with (field_args c a ctx fs off). change (field_args c (limit_to l a) ctx fs off) with (field_args c a ctx fs off).
  destruct (R ctx fs off) as (R1 & R2 & R3). pose proof (os_positive _ _ _ OS) as P.
  destruct HL as [->|(b & Hb & ->)]; cbn [eval_limit].
  - rewrite to_usize_mul by lia. destruct (to_usize (f ctx fs off)) as [x|] eqn:E; [|apply s_refl]. apply to_usize_some in E. cbn [option_map].
    intros r G. unfold bind at 1 2. cbn [lift]. cbn [read_ty]. apply s_first; [|exact G].
    replace (Z.to_N (Z.of_nat n)) with (N.of_nat n) by lia. apply (proj1 (limits n _ fuel (slot_size k size) x P (elem_takes c ctx fs off) ltac:(lia) ltac:(lia) ltac:(nia))).
  - rewrite to_usize_mul by lia. destruct (to_usize (f ctx fs off)) as [x|] eqn:E; [|apply s_refl]. apply to_usize_some in E. cbn [option_map].
    intros r G. unfold bind at 1 2. cbn [lift]. cbn [read_ty]. apply s_first; [|exact G].
    replace (Z.to_N (Z.of_nat b)) with (N.of_nat b) by lia. apply (proj2 (limits n _ fuel (slot_size k size) x P (elem_takes c ctx fs off) ltac:(lia) ltac:(lia) ltac:(nia)) b Hb).
Qed.
Lemma same_field l c ctx fs : same_length n f l ->
  same (read_field c (limit_to (FCount f) a) false ctx fs (fun lim args => read_ty cu fuel (TVec k size elem) lim args))
       (read_field c (limit_to l a) false ctx fs (fun lim args => read_ty cu fuel (TVec k size elem) lim args)).
Proof.
  intros HL. unfold read_field. cbn [limit_to a_seek a_magic a_pad_before a_pad_after]. rewrite (os_seek _ _ _ OS). cbn [option_map read_seek].
  eapply s_bind; [apply t_ret|intros _]. eapply s_bind; [apply t_magic|intros _]. eapply s_bind; [apply t_pad, OS|intros _].
  intros r G. cbv zeta. apply s_first; [|exact G]. unfold field_read_tokens, field_read_normal. cbv zeta. cbn [limit_to a_skip a_cond a_map].
  generalize (r_bits r). intros off.
  assert (HN : same (let* v := field_read_func c (limit_to (FCount f) a) false ctx fs off (fun lim args => read_ty cu fuel (TVec k size elem) lim args) in match a_map a with Some g => lift (g ctx fs off v) | None => ret v end)
                    (let* v := field_read_func c (limit_to l a) false ctx fs off (fun lim args => read_ty cu fuel (TVec k size elem) lim args) in match a_map a with Some g => lift (g ctx fs off v) | None => ret v end)).
  { apply s_first. now apply same_func. }
  destruct (a_skip a) as [[]|], (a_cond a) as [g|]; try destruct (g _ _ _); first [exact HN|apply s_refl].
Qed.
Lemma same_fields l c ctx after : same_length n f l -> forall before, sized_fields false before -> forall m, fields_size before false = Some m -> forall acc,
  same (fields_read cu fuel c ctx (append before (FCons (limit_to (FCount f) a) (TVec k size elem) (TVec k size elem) after)) None acc)
       (fields_read cu fuel c ctx (append before (FCons (limit_to l a) (TVec k size elem) (TVec k size elem) after)) None acc).
Proof.
  intros HL. induction before as [|b t wire tl IH]; intros HS m Hm acc; cbn [append].
  - rewrite !read_cons, V. apply s_first. now apply same_field.
  - rewrite !read_cons. destruct HS as (Sb & Sw & Stl). cbn [fields_size orb] in Hm. destruct (a_seek b) eqn:Es; [discriminate|]. rewrite (sf_temp _ _ _ _ Sb) in Hm.
    fold (own_size t (const_size (a_bits b)) (const_size (a_bytes b))) in Hm. destruct (own_size t _ _) as [x|] eqn:Eo; [|discriminate]. destruct (fields_size tl false) as [y|]; [|discriminate].
    eapply s_bind; [eapply t_field; [exact (proj1 (takes_all cu fuel false) wire Sw)|exact Sb|exact Es|exact Eo]|intros v]. apply s_first. eapply IH; [exact Stl|reflexivity].
Qed.
End Field.
Theorem same_limits cu fuel n c before a k size elem after f l input bit :
  starts_known c before -> of_size n a elem -> is_vec_u8 (TVec k size elem) = false -> in_range fuel n (slot_size k size) f -> same_length n f l ->
  from_bytes cu fuel (record c before l a k size elem after) input bit = from_bytes cu fuel (record c before (FCount f) a k size elem after) input bit /\
  try_from cu fuel (record c before l a k size elem after) input = try_from cu fuel (record c before (FCount f) a k size elem after) input.
Proof.
  intros (Sc & Sf & Sn) OS V R HL. destruct (fields_size before false) as [m|] eqn:Em; [|congruence].
  assert (H : forall bit, from_reader cu fuel (record c before l a k size elem after) (cursor input) bit = from_reader cu fuel (record c before (FCount f) a k size elem after) (cursor input) bit).
  { intros b. unfold from_reader.
    enough (X : same (let* _ := if b =? 0 then ret tt else skip_bits b Msb0 in let* v := read_ty cu fuel (record c before (FCount f) a k size elem after) None [] in fun r => (Ok (r_bits r, v), r))
                     (let* _ := if b =? 0 then ret tt else skip_bits b Msb0 in let* v := read_ty cu fuel (record c before l a k size elem after) None [] in fun r => (Ok (r_bits r, v), r)))
      by (now rewrite (X _ (ok_new input))).
    eapply s_bind with (n := b); [destruct (Nat.eqb_spec b 0) as [->|]; [apply t_ret|apply t_skip]|intros _]. apply s_first. unfold record. rewrite !read_struct, Sc. cbn [option_map read_seek].
    eapply s_bind; [apply t_ret|intros _]. eapply s_bind; [apply t_magic|intros _]. apply s_first. eapply same_fields; eassumption. }
  unfold from_bytes, try_from. rewrite !H. split; reflexivity.
Qed.

(** Arrays. *)
Lemma array_loop {A} n (elem : RM A) c stop : takes true n elem -> (forall bits acc, stop bits acc = (length acc =? c)) ->
  forall m start acc r, ok r -> start <= r_bits r -> c = length acc + S m ->
  vec_loop (S m) elem stop start acc r = (let* l := read_array (S m) elem in ret (acc ++ l)) r.
Proof.
  intros HT HS. induction m as [|m IH]; intros start acc r G B C; cbn [read_array].
  - cbn [vec_loop]. unfold bind. destruct (elem r) as [x r1] eqn:E. destruct x as [v|e| |]; auto. destruct (HT _ _ _ G E) as [T _]. destruct (T v eq_refl) as (G1 & _ & k & B1 & _). cbn [ret].
    destruct (Nat.ltb_spec (r_bits r1) start); [lia|]. rewrite HS, app_length. cbn [length]. destruct (Nat.eqb_spec (length acc + 1) c); [reflexivity|lia].
  - change (vec_loop (S (S m)) elem stop start acc r) with (bind elem (fun v r => if r_bits r <? start then (Panic, r) else if stop (r_bits r - start) (acc ++ [v]) then (Ok (acc ++ [v]), r) else vec_loop (S m) elem stop start (acc ++ [v]) r) r).
    rewrite bind_assoc. unfold bind at 1. unfold bind at 1. destruct (elem r) as [x r1] eqn:E. destruct x as [v|e| |]; auto. destruct (HT _ _ _ G E) as [T _]. destruct (T v eq_refl) as (G1 & _ & k & B1 & _).
    destruct (Nat.ltb_spec (r_bits r1) start); [lia|]. rewrite HS, app_length. cbn [length]. destruct (Nat.eqb_spec (length acc + 1) c); [lia|].
    rewrite (IH start (acc ++ [v]) r1 G1 ltac:(lia) ltac:(rewrite app_length; cbn [length]; lia)). rewrite bind_assoc.
    transitivity ((let* x := read_array (S m) elem in let* l := ret (v :: x) in ret (acc ++ l)) r1); [|reflexivity].
    unfold bind, ret. destruct (read_array (S m) elem r1) as [y r2]. destruct y; auto. now rewrite <- app_assoc.
Qed.
Lemma vec_array {A} n (elem : RM A) fuel size c : takes true n elem -> size <> 0%N -> (N.of_nat c * size <= isize_max)%N ->
  same (vec_read fuel size elem (LCount (N.of_nat c))) (read_array c elem).
Proof.
  intros HT HS HC r G. unfold vec_read. destruct (N.eqb_spec (N.of_nat c) 0) as [Z|Z]; [assert (c = 0) by lia; subst c; reflexivity|].
  unfold vec_with_predicate. destruct (N.eqb_spec size 0); [lia|]. destruct (N.ltb_spec isize_max (N.of_nat c * size)); [lia|]. rewrite Nat2N.id. destruct c as [|m]; [lia|].
  rewrite (array_loop n elem (S m) _ HT); auto; [|intros _ acc; lia]. unfold bind. destruct (read_array _ _ r) as [[l| | |] r1]; reflexivity.
Qed.
Section Array.
Variables (cu : nat -> custom) (fuel n len : nat) (a : fattrs) (k : store) (size : N) (elem : ty).
Hypothesis (OS : of_size n a elem) (V : is_vec_u8 (TVec k size elem) = false) (Z0 : size <> 0%N) (K : hashed k = false) (L : a_limit a = None)
  (R : (N.of_nat len * size <= isize_max)%N).

Lemma array_func c ctx fs off :
  same (field_read_func c (limit_to (FCount (fun _ _ _ => Z.of_nat len)) a) false ctx fs off (fun lim args => read_ty cu fuel (TVec k size elem) lim args))
       (field_read_func c a false ctx fs off (fun lim args => read_ty cu fuel (TArray len elem) lim args)).
Proof.
  unfold field_read_func. cbn [limit_to a_reader a_limit]. rewrite (os_reader _ _ _ OS), L. cbv zeta.
  change (field_args c (limit_to (FCount (fun _ _ _ => Z.of_nat len)) a) ctx fs off) with (field_args c a ctx fs off). cbn [eval_limit].
  assert (HU : (Z.of_nat len <= Z.of_N usize_max)%Z) by (unfold isize_max, usize_max in *; nia).
  unfold to_usize. destruct (Z.ltb_spec (Z.of_nat len) 0); [lia|]. destruct (Z.ltb_spec (Z.of_N usize_max) (Z.of_nat len)); [lia|]. cbn [orb].
  intros r G. unfold bind at 1. cbn [lift read_ty]. unfold slot_size, collect. rewrite K. replace (Z.to_N (Z.of_nat len)) with (N.of_nat len) by lia.
  apply s_first; [|exact G]. apply vec_array with (n := n); auto. exact (elem_takes cu fuel n a elem OS c ctx fs off).
Qed.
Lemma array_field c ctx fs :
  same (read_field c (limit_to (FCount (fun _ _ _ => Z.of_nat len)) a) false ctx fs (fun lim args => read_ty cu fuel (TVec k size elem) lim args))
       (read_field c a false ctx fs (fun lim args => read_ty cu fuel (TArray len elem) lim args)).
Proof.
  unfold read_field. cbn [limit_to a_seek a_magic a_pad_before a_pad_after]. rewrite (os_seek _ _ _ OS). cbn [option_map read_seek].
  eapply s_bind; [apply t_ret|intros _]. eapply s_bind; [apply t_magic|intros _]. eapply s_bind; [apply t_pad, OS|intros _].
  intros r G. cbv zeta. apply s_first; [|exact G]. unfold field_read_tokens, field_read_normal. cbv zeta. cbn [limit_to a_skip a_cond a_map].
  generalize (r_bits r). intros off. pose proof (array_func c ctx fs off) as HN. apply (s_first _ _ (fun v => match a_map a with Some g => lift (g ctx fs off v) | None => ret v end)) in HN.
  destruct (a_skip a) as [[]|], (a_cond a) as [g|]; try destruct (g _ _ _); first [exact HN|apply s_refl].
Qed.
Lemma array_fields c ctx after : forall before, sized_fields false before -> forall m, fields_size before false = Some m -> forall acc,
  same (fields_read cu fuel c ctx (append before (FCons (limit_to (FCount (fun _ _ _ => Z.of_nat len)) a) (TVec k size elem) (TVec k size elem) after)) None acc)
       (fields_read cu fuel c ctx (append before (FCons a (TArray len elem) (TArray len elem) after)) None acc).
Proof.
  induction before as [|b t wire tl IH]; intros HS m Hm acc; cbn [append].
  - rewrite !read_cons, V. apply s_first. apply array_field.
  - rewrite !read_cons. destruct HS as (Sb & Sw & Stl). cbn [fields_size orb] in Hm. destruct (a_seek b) eqn:Es; [discriminate|]. rewrite (sf_temp _ _ _ _ Sb) in Hm.
    fold (own_size t (const_size (a_bits b)) (const_size (a_bytes b))) in Hm. destruct (own_size t _ _) as [x|] eqn:Eo; [|discriminate]. destruct (fields_size tl false) as [y|]; [|discriminate].
    eapply s_bind; [eapply t_field; [exact (proj1 (takes_all cu fuel false) wire Sw)|exact Sb|exact Es|exact Eo]|intros v]. apply s_first. eapply IH; [exact Stl|reflexivity].
Qed.
End Array.
Theorem vec_as_array cu fuel n len c before a k size elem after input bit :
  starts_known c before -> of_size n a elem -> is_vec_u8 (TVec k size elem) = false -> hashed k = false -> a_limit a = None -> size <> 0%N -> (N.of_nat len * size <= isize_max)%N ->
  from_bytes cu fuel (record c before (FCount (fun _ _ _ => Z.of_nat len)) a k size elem after) input bit = from_bytes cu fuel (record_array c before a len elem after) input bit /\
  try_from cu fuel (record c before (FCount (fun _ _ _ => Z.of_nat len)) a k size elem after) input = try_from cu fuel (record_array c before a len elem after) input.
Proof.
  intros (Sc & Sf & Sn) OS V K L Z0 R. destruct (fields_size before false) as [m|] eqn:Em; [|congruence].
  assert (H : forall bit, from_reader cu fuel (record c before (FCount (fun _ _ _ => Z.of_nat len)) a k size elem after) (cursor input) bit = from_reader cu fuel (record_array c before a len elem after) (cursor input) bit).
  { intros b. unfold from_reader.
    enough (X : same (let* _ := if b =? 0 then ret tt else skip_bits b Msb0 in let* v := read_ty cu fuel (record c before (FCount (fun _ _ _ => Z.of_nat len)) a k size elem after) None [] in fun r => (Ok (r_bits r, v), r))
                     (let* _ := if b =? 0 then ret tt else skip_bits b Msb0 in let* v := read_ty cu fuel (record_array c before a len elem after) None [] in fun r => (Ok (r_bits r, v), r)))
      by (now rewrite (X _ (ok_new input))).
    eapply s_bind with (n := b); [destruct (Nat.eqb_spec b 0) as [->|]; [apply t_ret|apply t_skip]|intros _]. apply s_first. unfold record, record_array. rewrite !read_struct, Sc. cbn [option_map read_seek].
    eapply s_bind; [apply t_ret|intros _]. eapply s_bind; [apply t_magic|intros _]. apply s_first. eapply array_fields; eassumption. }
  unfold from_bytes, try_from. rewrite !H. split; reflexivity.
Qed.
