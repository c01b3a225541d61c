(** Proofs about collections of elements of one size, wherever they start: the number of
    bits a successful read adds to the reader's count, from any reader. *)
From Coq Require Import Lia ZifyBool ZifyNat ZifyN.
From Verif Require Import Base MonadFacts Spec Stream Reader Session Prims CodecSpec BitsFacts NFacts ReaderFacts ReaderOps
  Containers ContainerSpec Derive DeriveSpec DeriveSound SizeSpec SizeFacts SizeReadSpec SizeReadFacts GrowSpec LimitSpec LimitFacts.
Ltac Zify.zify_post_hook ::= Z.div_mod_to_equations.

Definition adds {A} (n : nat) (m : RM A) : Prop := forall r a r', m r = (Ok a, r') -> r_bits r' = r_bits r + n.

Lemma d_lift {A} (x : res A) : adds 0 (lift x).
Proof. intros r a r' E. apply pair_inj in E. destruct E as [_ <-]. lia. Qed.
Lemma d_ret {A} (a : A) : adds 0 (ret a).
Proof. apply (d_lift (Ok a)). Qed.
Lemma d_fail {A} n e : adds n (fail (A:=A) e).
Proof. intros r a r' E. discriminate. Qed.
Lemma d_panic {A} n : adds n (panic (A:=A)).
Proof. intros r a r' E. discriminate. Qed.
Lemma d_bind {A B} x y n (m : RM A) (f : A -> RM B) : adds x m -> (forall v, adds y (f v)) -> n = x + y -> adds n (bind m f).
Proof.
  intros M F -> r a r' E. unfold bind in E. destruct (m r) as [[v|e| |] r1] eqn:E1; try discriminate. apply M in E1. apply F in E. lia.
Qed.
Lemma d_bind0 {A B} n (m : RM A) (f : A -> RM B) : adds n m -> (forall v, adds 0 (f v)) -> adds n (bind m f).
Proof. intros M F. eapply d_bind; [exact M|exact F|lia]. Qed.
Lemma d_0bind {A B} n (m : RM A) (f : A -> RM B) : adds 0 m -> (forall v, adds n (f v)) -> adds n (bind m f).
Proof. intros M F. eapply d_bind; [exact M|exact F|reflexivity]. Qed.
Lemma d_see {A} n (f : reader -> RM A) : (forall r, adds n (f r)) -> adds n (fun r => f r r).
Proof. intros F r. exact (F r r). Qed.
Lemma d_keep (f : reader -> reader) : (forall r, r_bits (f r) = r_bits r) -> adds 0 (modify f).
Proof. intros H r a r' E. injection E as _ <-. rewrite H. lia. Qed.
Lemma d_add n : adds n (modify (fun r => r_add_bits r n)).
Proof. intros r a r' E. injection E as _ <-. reflexivity. Qed.
Lemma d_assert b : adds 0 (assert_ b).
Proof. unfold assert_. destruct b; [apply d_ret|apply d_panic]. Qed.
Lemma io_bits n r x r' : r_io n r = (x, r') -> r_bits r' = r_bits r.
Proof. unfold r_io. destruct (s_read_exact n (r_s r)) as [y s]. intros [= _ <-]. reflexivity. Qed.
(** From the reader with the buffer taken out. *)
Lemma d_taken {A} n (f : reader -> RM A) : (forall r, adds n (f r)) -> adds n (fun r => f r (r_set_left r None)).
Proof. intros F r a r' E. apply F in E. exact E. Qed.

Lemma d_slots d k : adds 0 (fill_slots d k).
Proof.
  induction k as [|k IH]; cbn [fill_slots]; [apply d_ret|]. intros r a r' E. destruct (r_io 1 r) as [[bs|e] r1] eqn:I; apply io_bits in I.
  - assert (H : adds 0 (let* l := fill_slots d k in ret (hd x00 bs :: l))) by (apply d_bind0; [exact IH|intros; apply d_ret]). apply H in E. lia.
  - destruct (is_eof e); [discriminate|]. assert (H : adds 0 (let* l := fill_slots d k in ret (x00 :: l))) by (apply d_bind0; [exact IH|intros; apply d_ret]). apply H in E. lia.
Qed.
Lemma d_rem d : adds 0 (read_rem_byte d).
Proof. unfold read_rem_byte. intros r a r' E. destruct (r_io 1 r) as [[bs|e] r1] eqn:I; apply io_bits in I; [injection E as _ <-; lia|discriminate]. Qed.
Lemma d_bits n o : adds n (read_bits_into n o).
Proof.
  unfold read_bits_into. destruct (Nat.eqb_spec n 0) as [->|]; [apply d_ret|]. cbv zeta.
  apply (d_taken n (fun r => let* dst := _ in let* _ := modify (fun r => r_add_bits r n) in ret dst)). intros r.
  apply d_0bind; [|intros dst; apply d_bind0; [apply d_add|intros; apply d_ret]].
  destruct (n ?= length (left_bits (r_left r))).
  - apply d_0bind; [apply d_assert|intros; apply d_ret].
  - apply d_0bind; [apply d_assert|intros _]. destruct o; (apply d_0bind; [apply d_keep; reflexivity|intros; apply d_ret]).
  - unfold read_greater_lsb, read_greater_msb. destruct o; (apply d_0bind; [apply d_slots|intros bs]); (destruct (_ =? 0); [apply d_ret|]);
      (apply d_0bind; [apply d_rem|intros b]); (apply d_0bind; [apply d_keep; reflexivity|intros; apply d_ret]).
Qed.
Lemma d_loop amt : forall fuel acc have, adds 0 (uint_loop fuel amt acc have).
Proof.
  induction fuel as [|fuel IH]; intros acc have; cbn [uint_loop]; (destruct (_ <=? _); [apply d_ret|]); [intros r a r' E; discriminate|].
  intros r a r' E. destruct (r_io 1 r) as [[bs|e] r1] eqn:I; apply io_bits in I; [apply IH in E; lia|discriminate].
Qed.
Lemma d_uint n : adds n (read_bits_uint_msb0 n).
Proof.
  unfold read_bits_uint_msb0. apply d_0bind; [apply d_assert|intros _].
  intros r a r' E. destruct (match r_left r with Some (LByte b) => _ | Some (Reader.LBits _) => _ | None => _ end) as [acc have].
  match type of E with ?m _ = _ => enough (H : adds n m) by (apply H in E; exact E) end.
  apply d_0bind; [apply d_loop|intros [acc' have']]. cbv zeta. apply d_0bind; [destruct (_ =? 0); [apply d_ret|apply d_keep; reflexivity]|intros _].
  apply d_bind0; [apply d_add|intros; apply d_ret].
Qed.
Lemma d_bytes n b o : adds (8 * n) (read_bytes n b o).
Proof.
  intros r a r' E. unfold read_bytes in E. destruct (r_left r) as [[x|l]|].
  - unfold read_bytes_leftover in E. destruct (b =? 0); [discriminate|]. match type of E with ?m _ = _ => enough (H : adds (8 * n) m) by (apply H in E; exact E) end.
    apply d_0bind; [apply d_keep; reflexivity|intros _]. destruct (n =? 0); [apply d_panic|]. cbv zeta.
    destruct (_ =? 0); [rewrite Nat.mul_comm; apply d_bind0; [apply d_add|intros; apply d_ret]|]. destruct (_ <? _); [apply d_fail|]. destruct (_ <? _); [apply d_panic|].
    intros r0 a0 r0' E0. destruct (r_io (n - 1) r0) as [[bs|e] r1] eqn:I; apply io_bits in I; [injection E0 as _ <-; cbn; lia|discriminate].
  - destruct (_ <? _); [discriminate|]. assert (H : adds (8 * n) (read_bytes_bits n o)) by (unfold read_bytes_bits; apply d_bind0; [apply d_bits|intros; apply d_ret]). now apply H in E.
  - destruct (_ <? _); [discriminate|]. destruct (r_io n r) as [[bs|e] r1] eqn:I; apply io_bits in I; [injection E as _ <-; cbn; lia|discriminate].
Qed.
Lemma d_skip n o : n < 8 -> adds n (skip_bits n o).
Proof.
  intros Hn. unfold skip_bits. cbv zeta. apply d_see with (f := fun r => let* amt := match r_left r with Some (Reader.LBits bits) => _ | _ => ret n end in _). intros r.
  set (k := match r_left r with Some (Reader.LBits bits) => Nat.min n (length bits) | _ => 0 end).
  assert (Hk : k <= n) by (subst k; destruct (r_left r) as [[|]|]; lia).
  intros r0 a r' E. unfold bind at 1 in E. match type of E with (let (_, _) := ?x in _) = _ => destruct x as [[amt|e| |] r1] eqn:E1; try discriminate end.
  assert (H : amt = n - k /\ r_bits r1 = r_bits r0 + k).
  { subst k. destruct (r_left r) as [[x|l]|]; [injection E1 as <- <-; lia| |injection E1 as <- <-; lia].
    unfold bind in E1. destruct (read_bits_into (Nat.min n (length l)) o r0) as [[y|e| |] r2] eqn:E2; try discriminate. apply d_bits in E2. injection E1 as <- <-. lia. }
  destruct H as [-> H]. destruct (Nat.eqb_spec ((n - k) / 8) 0); [|lia].
  unfold bind at 1, ret at 1 in E. match type of E with ?m _ = _ => enough (G : adds (n - k) m) by (apply G in E; lia) end.
  replace (n - k) with ((n - k) mod 8) at 1 by lia. apply d_bind0; [apply d_bits|intros; apply d_ret].
Qed.

Lemma d_prim p c : (p = PU8 -> match c with CB n | CBO n _ => 1 <= n <= 8 | _ => True end) -> adds (wsize p c) (prim_read p c).
Proof.
  intros HP.
  assert (HY : forall e n o, adds (8 * match p with PU8 => 1 | _ => n end) (read_eyo p e n o)).
  { intros e n o. unfold read_eyo, read_u8_bytes, read_bytes_sized, read_bytes_const. destruct p; [|destruct (Nat.ltb_spec wb n); [apply d_fail|]..];
      (apply d_bind0; [apply d_bytes|intros; apply d_ret]). }
  assert (HU : forall wb e n o, adds n (read_u_bits wb e n o)).
  { intros wb e n o. unfold read_u_bits. destruct (_ <? n); [apply d_fail|]. cbv zeta.
    assert (SL : adds n (let* bits := read_bits_into n o in lift (u_of_bits wb e n o bits))) by (apply d_bind0; [apply d_bits|intros; apply d_lift]).
    destruct e, o; auto. destruct ((0 <? n) && (n <=? 64)) eqn:B; auto. apply d_bind0; [apply d_uint|intros; apply d_ret]. }
  assert (HO : forall e n o, adds n (read_ebo p e n o)).
  { intros e n o. unfold read_ebo. destruct p; auto. unfold read_i_bits. destruct (_ <? n); [apply d_fail|]. apply d_bind0; [apply d_bits|intros; apply d_lift]. }
  assert (HE : forall e, adds (prim_width p) (read_e p e)) by (intros; unfold read_e, read_bytes_const; apply d_bind0; [apply d_bytes|intros; apply d_ret]).
  assert (HB : forall e n o, (p = PU8 -> 1 <= n <= 8) -> n mod 8 = 0 -> adds n (read_eyo p e (n / 8) o)).
  { intros e n o H1 H8. replace n with (8 * match p with PU8 => 1 | _ => n / 8 end) at 1; [apply HY|]. destruct p; [specialize (H1 eq_refl)|..]; lia. }
  assert (HW : forall e o, adds (prim_width p) (read_eyo p e (prim_bytes p) o)).
  { intros e o. replace (prim_width p) with (8 * match p with PU8 => 1 | _ => prim_bytes p end) by (destruct p; cbn; lia). apply HY. }
  destruct c; cbn [prim_read wsize]; auto; destruct (Nat.eqb_spec (n mod 8) 0); auto.
Qed.
Lemma d_magic m : adds (8 * length m) (read_magic m).
Proof.
  induction m as [|b m IH]; cbn [read_magic length]; [apply d_ret|]. eapply d_bind with (x := 8) (y := 8 * length m); [apply (d_prim PU8 C0); auto| |lia].
  intros x. destruct (_ =? _)%N; [exact IH|apply d_fail].
Qed.
Lemma d_pad p ctx fs o : constant_pad p -> const_pad p < 8 -> adds (const_pad p) (read_pad (eval0 p ctx fs) o).
Proof.
  intros H. destruct p as [f|]; cbn [eval0 option_map read_pad const_pad]; [|intros _; apply d_ret]. rewrite (H f eq_refl ctx fs). intros L.
  destruct (to_usize _) as [n|] eqn:E; [|apply d_fail]. unfold to_usize in E. destruct (_ || _) eqn:B in E; [discriminate|]. injection E as <-.
  rewrite Z_N_nat. now apply d_skip.
Qed.
Lemma d_asserts a ctx fs off v : adds 0 (asserts a ctx fs off v).
Proof.
  unfold asserts, check. apply d_0bind; [|intros _].
  - destruct (a_assert a) as [f|]; [destruct (f _ _ _)|]; try apply d_ret; apply d_fail.
  - destruct (a_assert_eq a) as [f|]; [destruct (value_eqb _ _)|]; try apply d_ret; apply d_fail.
Qed.
Lemma d_bool c : match c with CB n | CBO n _ => 1 <= n <= 8 | _ => True end -> adds (wsize PU8 c) (read_bool c).
Proof.
  intros H. unfold read_bool. apply d_bind0; [apply d_prim; auto|intros x].
  destruct (x =? 1)%N; [apply d_ret|]. destruct (x =? 0)%N; [apply d_ret|apply d_fail].
Qed.
Lemma d_array {A} n k (m : RM A) : adds n m -> adds (n * k) (read_array k m).
Proof.
  intros H. induction k as [|k IH]; cbn [read_array]; [rewrite Nat.mul_0_r; apply d_ret|].
  eapply d_bind with (x := n) (y := n * k); [exact H|intros x|lia]. apply d_bind0; [exact IH|intros; apply d_ret].
Qed.

Section Derived.
Variables (cu : nat -> custom) (fuel : nat).
Definition ty_adds (t : ty) : Prop :=
  sized true t -> short_pads t -> forall n, size_bits t = Some n -> forall args, (passes_args t = true -> no_sizes args) -> adds n (read_ty cu fuel t None args).
Definition fields_adds (fs : fields) : Prop :=
  sized_fields true fs -> fields_short_pads fs -> forall n, fields_size fs false = Some n -> forall c ctx acc, adds n (fields_read cu fuel c ctx fs None acc).

Lemma d_num p args n c : pctx_of args = Some c -> wsize p c = n -> (p = PU8 -> match c with CB n | CBO n _ => 1 <= n <= 8 | _ => True end) ->
  adds n (read_ty cu fuel (TPrim p) None args).
Proof. intros E <- H. cbn [read_ty]. unfold with_pctx. rewrite E. apply d_bind0; [apply d_prim, H|intros; apply d_ret]. Qed.
Lemma d_truth args n c : pctx_of args = Some c -> wsize PU8 c = n -> match c with CB n | CBO n _ => 1 <= n <= 8 | _ => True end ->
  adds n (read_ty cu fuel TBool None args).
Proof. intros E <- H. cbn [read_ty]. unfold with_pctx. rewrite E. apply d_bind0; [apply d_bool, H|intros; apply d_ret]. Qed.
Lemma d_args t e bits bytes o ctx n : ty_adds t -> sized true t -> short_pads t -> size_on_read t bits bytes -> (passes_args t = true -> no_sizes ctx) ->
  own_size t bits bytes = Some n -> adds n (read_ty cu fuel t None (args_of e bits bytes o ctx)).
Proof.
  intros HT Sz Sh [[[-> ->]|HS] HR] HC HO.
  - apply HT; [exact Sz|exact Sh|exact HO|]. intros Hp. apply no_sizes_args. auto.
  - assert (HN : forall p c, size_on (TPrim p) bits bytes -> no_sizes ctx -> pctx_of (args_of e bits bytes o ctx) = Some c -> own_size (TPrim p) bits bytes = Some n -> wsize p c = n).
    { intros p c Hs Hc E Ho. rewrite (wsize_args p _ _ _ _ _ _ Hc E). unfold own_size in Ho. destruct bits as [k|]; [now injection Ho as <-|].
      destruct bytes as [k|]; [|now injection Ho as <-]. injection Ho as <-. destruct Hs as [[_ Hs]|Hs]; [discriminate|]. destruct p; [destruct Hs as [|Hs]; [discriminate|injection Hs as ->]; reflexivity|lia|lia]. }
    destruct t as [p| | | | | | | | | | |]; try contradiction; specialize (HC eq_refl);
      (destruct (pctx_of (args_of e bits bytes o ctx)) as [c|] eqn:E; [|cbn [read_ty]; unfold with_pctx; rewrite E; apply d_panic]).
    + eapply d_num; [exact E|apply HN; auto; right; exact HS|]. intros ->. eapply size_args; eauto.
    + eapply d_truth; [exact E|apply (HN PU8); auto; right; exact HS|]. eapply size_args; eauto.
Qed.
Lemma d_field c a t wire vec ctx fs n : ty_adds wire -> sized true wire -> short_pads wire -> sized_field true a t wire ->
  (forall f, a_reader a = Some f -> forall n, field_bits a t = Some n -> forall ctx fs off, counts n (f ctx fs off)) -> a_seek a = None ->
  const_pad (a_pad_before a) < 8 -> const_pad (a_pad_after a) < 8 ->
  own_size t (const_size (a_bits a)) (const_size (a_bytes a)) = Some n ->
  adds (8 * length (a_magic a) + const_pad (a_pad_before a) + n + const_pad (a_pad_after a))
    (read_field c a vec ctx fs (fun lim args => read_ty cu fuel wire lim args)).
Proof.
  intros HT Sz Sh R Hd Hs P1 P2 HO. unfold read_field. rewrite Hs. cbn [option_map read_seek].
  assert (HW : own_size wire (const_size (a_bits a)) (const_size (a_bytes a)) = Some n).
  { rewrite <- HO. unfold own_size. destruct (a_bits a) as [f|] eqn:B1; [reflexivity|]. destruct (a_bytes a) as [f|] eqn:B2; [reflexivity|]. cbn. exact (sf_wire _ _ _ _ R B1 B2). }
  apply d_0bind; [apply d_ret|intros _].
  eapply d_bind with (y := const_pad (a_pad_before a) + n + const_pad (a_pad_after a)); [apply d_magic|intros _|lia].
  eapply d_bind with (y := n + const_pad (a_pad_after a)); [apply d_pad; [apply R|exact P1]|intros _|lia].
  apply d_see with (f := fun r => let* v := field_read_tokens a ctx fs (r_bits r) (field_read_normal a ctx fs (r_bits r) (field_read_func c a vec ctx fs (r_bits r) (fun lim args => read_ty cu fuel wire lim args))) in
     let* _ := asserts a ctx fs (r_bits r) v in let* _ := read_pad (eval0 (a_pad_after a) ctx (fs ++ [v])) (field_order c a ctx fs) in ret v).
  intros r. generalize (r_bits r) as off. intros off.
  eapply d_bind with (y := const_pad (a_pad_after a)); [|intros v|reflexivity].
  2:{ apply d_0bind; [apply d_asserts|intros _]. apply d_bind0; [apply d_pad; [apply R|exact P2]|intros; apply d_ret]. }
  assert (HF : adds n (field_read_normal a ctx fs off (field_read_func c a vec ctx fs off (fun lim args => read_ty cu fuel wire lim args)))).
  { unfold field_read_normal. apply d_bind0; [|intros v].
    - unfold field_read_func. destruct (a_reader a) as [f|] eqn:Er; [exact (Hd f eq_refl n HO ctx fs off)|]. rewrite (sf_limit _ _ _ _ R). cbv zeta. unfold field_args.
      rewrite (eval_constant _ _ _ (sf_bits _ _ _ _ R)), (eval_constant _ _ _ (sf_bytes _ _ _ _ R)). eapply d_args; try eassumption; [apply R|]. intros Hp. now apply (sf_ctx _ _ _ _ R).
    - destruct (a_map a) as [f|] eqn:Em; [|apply d_ret]. apply d_lift. }
  pose proof (sf_read _ _ _ _ R eq_refl) as Hr. unfold field_read_tokens. cbv zeta. destruct (a_skip a) as [[]|], (a_cond a) as [f|]; try contradiction; auto.
Qed.
Theorem adds_all : (forall t, ty_adds t) /\ (forall fs, fields_adds fs) /\ (forall vs : variants, True).
Proof.
  apply types_ind; unfold ty_adds; try discriminate.
  - intros p _ _ n E args Hg. cbn [size_bits] in E. injection E as <-. specialize (Hg eq_refl). destruct (pctx_of args) as [c|] eqn:E; [|cbn [read_ty]; unfold with_pctx; rewrite E; apply d_panic].
    eapply d_num; [exact E|now apply (wsize_plain p args)|]. intros _. now apply (plain_args args).
  - intros _ _ n E args Hg. cbn [size_bits] in E. injection E as <-. specialize (Hg eq_refl). destruct (pctx_of args) as [c|] eqn:E; [|cbn [read_ty]; unfold with_pctx; rewrite E; apply d_panic].
    eapply d_truth; [exact E|now apply (wsize_plain PU8 args)|]. now apply (plain_args args).
  - intros a IHa b IHb [Ha Hb] [Pa Pb] n E args Hg. cbn [read_ty size_bits passes_args] in *. destruct (size_bits a) as [x|] eqn:Ea, (size_bits b) as [y|] eqn:Eb; try discriminate. injection E as <-.
    apply d_bind with (x := x) (y := y); [apply IHa; auto; intros Hp; apply Hg; now rewrite Hp| |reflexivity]. intros u.
    apply d_bind0; [apply IHb; auto; intros Hp; apply Hg; rewrite Hp; apply orb_true_r|intros; apply d_ret].
  - intros k t IH H P n E args Hg. cbn [read_ty size_bits passes_args] in *. destruct (size_bits t) as [x|] eqn:Et; [|discriminate]. injection E as <-.
    apply d_bind0; [apply d_array, IH; auto|intros; apply d_ret].
  - intros c fs IH H P n E args Hg. rewrite read_struct. cbn [size_bits] in E. destruct (c_seek c); [discriminate|].
    destruct (fields_size fs false) as [m|] eqn:Ef; [|discriminate]. injection E as <-. cbn [option_map read_seek].
    apply d_0bind; [apply d_ret|intros _]. apply d_bind with (x := 8 * length (c_magic c)) (y := m); [apply d_magic|intros _|reflexivity].
    apply d_bind0; [apply (IH H P); exact Ef|intros; apply d_ret].
  - intros e idt _ vs _ (Hx & _). discriminate.
  - intros _ _ n E c ctx acc. injection E as <-. apply d_ret.
  - intros a t _ wire IHw tl IHtl (Ra & Rw & Rtl) (Pd & P1 & P2 & Pw & Ptl) n E c ctx acc. rewrite read_cons. cbn [fields_size] in E.
    destruct (a_seek a) eqn:Es; [discriminate|]. cbn [orb] in E. rewrite (sf_temp _ _ _ _ Ra) in E. cbn [orb] in E. fold (own_size t (const_size (a_bits a)) (const_size (a_bytes a))) in E.
    destruct (own_size t (const_size (a_bits a)) (const_size (a_bytes a))) as [x|] eqn:Eo; [|discriminate]. destruct (fields_size tl false) as [y|] eqn:Ey; [|discriminate]. injection E as <-.
    eapply d_bind with (y := y); [eapply d_field; eassumption|intros v|reflexivity]. apply d_bind0; [apply IHtl; [exact Rtl|exact Ptl|exact Ey]|intros; apply d_ret].
  - exact I.
  - intros; exact I.
Qed.
End Derived.

(** ** The loops *)
Lemma loops_any {A} n (elem : RM A) c stop1 stop2 : 0 < n -> adds n elem ->
  (forall bits acc, stop1 bits acc = (length acc =? c)) -> (forall bits acc, stop2 bits acc = (bits =? c * n)) ->
  forall m start acc r f1 f2, r_bits r = start + n * length acc -> c = length acc + S m -> S m <= f1 -> S m <= f2 ->
  vec_loop f1 elem stop1 start acc r = vec_loop f2 elem stop2 start acc r.
Proof.
  intros Hn HT H1 H2. induction m as [|m IH]; intros start acc r f1 f2 B C F1 F2; (destruct f1 as [|f1]; [lia|]); (destruct f2 as [|f2]; [lia|]); cbn [vec_loop]; unfold bind;
    (destruct (elem r) as [x r1] eqn:E; destruct x as [v|e| |]; auto); apply HT in E; rename E into B1;
    (destruct (Nat.ltb_spec (r_bits r1) start); [reflexivity|]); rewrite H1, H2, app_length; cbn [length].
  - destruct (Nat.eqb_spec (length acc + 1) c); [|lia]. destruct (Nat.eqb_spec (r_bits r1 - start) (c * n)) as [|n0]; [reflexivity|]. exfalso. apply n0. subst c. rewrite B1, B. nia.
  - destruct (Nat.eqb_spec (length acc + 1) c); [lia|]. destruct (Nat.eqb_spec (r_bits r1 - start) (c * n)) as [Q|]; [exfalso; rewrite B1, B in Q; subst c; nia|].
    apply IH; auto; rewrite ?app_length; cbn [length]; nia.
Qed.
Lemma limits_any {A} n (elem : RM A) fuel size c : 0 < n -> adds n elem -> N.to_nat c <= fuel -> (c * size <= isize_max)%N -> (c * N.of_nat n <= usize_max)%N -> forall r,
  vec_read fuel size elem (LCount c) r = vec_read fuel size elem (LBits (c * N.of_nat n)) r /\
  (forall b, n = 8 * b -> vec_read fuel size elem (LCount c) r = vec_read fuel size elem (LBytes (c * N.of_nat b)) r).
Proof.
  intros Hn HT HF HS HU r. unfold vec_read.
  assert (Z : (c =? 0)%N = false -> forall (stop2 : nat -> list A -> bool), (forall x acc, stop2 x acc = (x =? N.to_nat c * n)) -> vec_with_predicate (N.to_nat c) size (Some c) elem (fun _ acc => (N.of_nat (length acc) =? c)%N) r =
     vec_with_predicate fuel size None elem stop2 r).
  { intros Z stop2 H2. unfold vec_with_predicate. destruct (size =? 0)%N; [reflexivity|]. destruct (N.ltb_spec isize_max (c * size)); [lia|].
    apply (loops_any n elem (N.to_nat c) _ _ Hn HT) with (m := N.to_nat c - 1); auto; try (cbn [length]; lia). }
  split; [|intros b ->].
  - destruct (N.eqb_spec c 0) as [->|C]; [cbn [N.mul]; now rewrite N.eqb_refl|]. destruct (N.eqb_spec (c * N.of_nat n) 0); [nia|].
    apply Z; [lia|]. intros x acc. apply Bool.eq_iff_eq_true. rewrite N.eqb_eq, Nat.eqb_eq. nia.
  - destruct (N.ltb_spec usize_max (c * N.of_nat b * 8)); [nia|]. destruct (N.eqb_spec c 0) as [->|C]; [cbn [N.mul]; now rewrite N.eqb_refl|]. destruct (N.eqb_spec (c * N.of_nat b * 8) 0); [nia|].
    apply Z; [lia|]. intros x acc. apply Bool.eq_iff_eq_true. rewrite N.eqb_eq, Nat.eqb_eq. nia.
Qed.
Lemma array_any {A} n (elem : RM A) c stop : adds n elem -> (forall bits acc, stop bits acc = (length acc =? c)) ->
  forall m start acc r, start <= r_bits r -> c = length acc + S m ->
  vec_loop (S m) elem stop start acc r = (let* l := read_array (S m) elem in ret (acc ++ l)) r.
Proof.
  intros HT HS. induction m as [|m IH]; intros start acc r B C; cbn [read_array].
  - cbn [vec_loop]. unfold bind. destruct (elem r) as [x r1] eqn:E. destruct x as [v|e| |]; auto. apply HT in E. cbn [ret].
    destruct (Nat.ltb_spec (r_bits r1) start); [lia|]. rewrite HS, app_length. cbn [length]. destruct (Nat.eqb_spec (length acc + 1) c); [reflexivity|lia].
  - change (vec_loop (S (S m)) elem stop start acc r) with (bind elem (fun v r => if r_bits r <? start then (Panic, r) else if stop (r_bits r - start) (acc ++ [v]) then (Ok (acc ++ [v]), r) else vec_loop (S m) elem stop start (acc ++ [v]) r) r).
    rewrite bind_assoc. unfold bind at 1. unfold bind at 1. destruct (elem r) as [x r1] eqn:E. destruct x as [v|e| |]; auto. apply HT in E.
    destruct (Nat.ltb_spec (r_bits r1) start); [lia|]. rewrite HS, app_length. cbn [length]. destruct (Nat.eqb_spec (length acc + 1) c); [lia|].
    rewrite (IH start (acc ++ [v]) r1 ltac:(lia) ltac:(rewrite app_length; cbn [length]; lia)). rewrite bind_assoc.
    transitivity ((let* x := read_array (S m) elem in let* l := ret (v :: x) in ret (acc ++ l)) r1); [|reflexivity].
    unfold bind, ret. destruct (read_array (S m) elem r1) as [y r2]. destruct y; auto. now rewrite <- app_assoc.
Qed.
Lemma vec_array_any {A} n (elem : RM A) fuel size c : adds n elem -> size <> 0%N -> (N.of_nat c * size <= isize_max)%N -> forall r,
  vec_read fuel size elem (LCount (N.of_nat c)) r = read_array c elem r.
Proof.
  intros HT HS HC r. unfold vec_read. destruct (N.eqb_spec (N.of_nat c) 0) as [Z|Z]; [assert (c = 0) by lia; subst c; reflexivity|].
  unfold vec_with_predicate. destruct (N.eqb_spec size 0); [lia|]. destruct (N.ltb_spec isize_max (N.of_nat c * size)); [lia|]. rewrite Nat2N.id. destruct c as [|m]; [lia|].
  rewrite (array_any n elem (S m) _ HT); auto; [|intros _ acc; lia]. unfold bind. destruct (read_array _ _ r) as [[l| | |] r1]; reflexivity.
Qed.

(** ** The field and the struct *)
Definition eq_all {A} (m1 m2 : RM A) : Prop := forall r, m1 r = m2 r.
Lemma e_refl {A} (m : RM A) : eq_all m m.
Proof. intros r. reflexivity. Qed.
Lemma e_bind {A B} (m : RM A) (f g : A -> RM B) : (forall a, eq_all (f a) (g a)) -> eq_all (bind m f) (bind m g).
Proof. intros F r. unfold bind. destruct (m r) as [x r1]. destruct x as [a|e| |]; auto. apply F. Qed.
Lemma e_first {A B} (m1 m2 : RM A) (f : A -> RM B) : eq_all m1 m2 -> eq_all (bind m1 f) (bind m2 f).
Proof. intros M r. unfold bind. now rewrite (M r). Qed.

Lemma el_adds cu fuel n a elem c ctx fs off : elements_of n a elem -> adds n (read_ty cu fuel elem None (field_args c a ctx fs off)).
Proof.
  intros OS. unfold field_args. rewrite (eval_constant _ _ _ (el_bits _ _ _ OS)), (eval_constant _ _ _ (el_bytes _ _ _ OS)).
  eapply d_args; [exact (proj1 (adds_all cu fuel) elem)|apply OS|apply OS|apply OS|intros Hp; now apply (el_ctx _ _ _ OS)|].
  pose proof (el_own _ _ _ OS) as H. unfold own_size. destruct (const_size (a_bits a)); [now subst|]. destruct (const_size (a_bytes a)); [subst; f_equal; lia|exact H].
Qed.
(** Fields that differ in what they are and how they are limited, with readers that agree. *)
Section Swap.
Variables (cu : nat -> custom) (fuel : nat) (a1 a2 : fattrs) (t1 t2 : ty).
Hypothesis (V1 : is_vec_u8 t1 = false) (V2 : is_vec_u8 t2 = false) (SA : forall l, limit_to l a1 = limit_to l a2)
  (SF : forall c ctx fs off, eq_all (field_read_func c a1 false ctx fs off (fun lim args => read_ty cu fuel t1 lim args)) (field_read_func c a2 false ctx fs off (fun lim args => read_ty cu fuel t2 lim args))).
Lemma swap_field c ctx fs : eq_all (read_field c a1 false ctx fs (fun lim args => read_ty cu fuel t1 lim args)) (read_field c a2 false ctx fs (fun lim args => read_ty cu fuel t2 lim args)).
Proof.
  pose proof (SA (FCount (fun _ _ _ => 0%Z))) as H. clear SA. destruct a1 as [x0 x1 x2 x3 x4 x5 x6 x7 x8 x9 x10 x11 x12 x13 x14 x15 x16 x17 x18 x19 x20], a2 as [y0 y1 y2 y3 y4 y5 y6 y7 y8 y9 y10 y11 y12 y13 y14 y15 y16 y17 y18 y19 y20]. unfold limit_to in H.
  cbn [a_endian a_order a_bits a_bytes a_ctx a_map a_reader a_writer a_skip a_cond a_default a_assert a_assert_eq a_seek a_magic a_pad_before a_pad_after a_temp a_temp_value a_update] in H.
  injection H. intros. subst. clear H. unfold read_field. cbn [a_seek a_magic a_pad_before a_pad_after].
  apply e_bind; intros _. apply e_bind; intros _. apply e_bind; intros _.
  intros r. cbv zeta. specialize (SF c ctx fs (r_bits r)). revert SF. generalize (r_bits r) as off. intros off SF. revert r.
  apply e_first. unfold field_read_tokens, field_read_normal. cbn [a_skip a_cond a_default a_map]. cbv zeta.
  destruct y9 as [[]|], y10 as [g|]; try destruct (g _ _ _); first [apply e_first, SF|apply e_refl].
Qed.
Lemma swap_fields c ctx after : forall before acc,
  eq_all (fields_read cu fuel c ctx (append before (FCons a1 t1 t1 after)) None acc) (fields_read cu fuel c ctx (append before (FCons a2 t2 t2 after)) None acc).
Proof.
  induction before as [|b t wire tl IH]; intros acc; cbn [append]; rewrite !read_cons.
  - rewrite V1, V2. replace (a_temp a1) with (a_temp a2); [apply e_first, swap_field|]. symmetry. exact (f_equal a_temp (SA (FCount (fun _ _ _ => 0%Z)))).
  - apply e_bind; intros v. apply e_first, IH.
Qed.
Lemma swap_struct c before after s bit :
  from_reader cu fuel (TStruct c (append before (FCons a1 t1 t1 after))) s bit = from_reader cu fuel (TStruct c (append before (FCons a2 t2 t2 after))) s bit.
Proof.
  unfold from_reader.
  enough (X : eq_all (let* _ := if bit =? 0 then ret tt else skip_bits bit Msb0 in let* v := read_ty cu fuel (TStruct c (append before (FCons a1 t1 t1 after))) None [] in fun r => (Ok (r_bits r, v), r))
                     (let* _ := if bit =? 0 then ret tt else skip_bits bit Msb0 in let* v := read_ty cu fuel (TStruct c (append before (FCons a2 t2 t2 after))) None [] in fun r => (Ok (r_bits r, v), r)))
    by (now rewrite X).
  apply e_bind; intros _. apply e_first. intros r. rewrite !read_struct. revert r. apply e_bind; intros _. apply e_bind; intros _. apply e_first, swap_fields.
Qed.
End Swap.
Theorem limits_anywhere cu fuel n c before a k size elem after f l s bit :
  elements_of n a elem -> is_vec_u8 (TVec k size elem) = false -> in_range fuel n (slot_size k size) f -> same_length n f l ->
  from_reader cu fuel (record c before l a k size elem after) s bit = from_reader cu fuel (record c before (FCount f) a k size elem after) s bit.
Proof.
  intros OS V R HL. symmetry. unfold record. apply swap_struct; auto. clear c before after. intros c ctx fs off.
  unfold field_read_func. cbn [limit_to a_reader a_limit]. rewrite (el_reader _ _ _ OS). cbv zeta.
  change (field_args c (limit_to (FCount f) a) ctx fs off) with (field_args c a ctx fs off). change (field_args c (limit_to l a) ctx fs off) with (field_args c a ctx fs off).
  destruct (R ctx fs off) as (R1 & R2 & R3). pose proof (el_positive _ _ _ OS) as P. pose proof (el_adds cu fuel n a elem c ctx fs off OS) as HA.
  destruct HL as [->|(b & Hb & ->)]; cbn [eval_limit].
  - rewrite to_usize_mul by lia. destruct (to_usize (f ctx fs off)) as [x|] eqn:E; [|apply e_refl]. apply to_usize_some in E. cbn [option_map].
    intros r. unfold bind at 1 2. cbn [lift]. cbn [read_ty]. apply e_first. intros r0.
    replace (Z.to_N (Z.of_nat n)) with (N.of_nat n) by lia. apply (proj1 (limits_any n _ fuel (slot_size k size) x P HA ltac:(lia) ltac:(lia) ltac:(nia) r0)).
  - rewrite to_usize_mul by lia. destruct (to_usize (f ctx fs off)) as [x|] eqn:E; [|apply e_refl]. apply to_usize_some in E. cbn [option_map].
    intros r. unfold bind at 1 2. cbn [lift]. cbn [read_ty]. apply e_first. intros r0.
    replace (Z.to_N (Z.of_nat b)) with (N.of_nat b) by lia. apply (proj2 (limits_any n _ fuel (slot_size k size) x P HA ltac:(lia) ltac:(lia) ltac:(nia) r0) b Hb).
Qed.
Theorem array_anywhere cu fuel n len c before a k size elem after s bit :
  elements_of n a elem -> is_vec_u8 (TVec k size elem) = false -> hashed k = false -> a_limit a = None -> size <> 0%N -> (N.of_nat len * size <= isize_max)%N ->
  from_reader cu fuel (record c before (FCount (fun _ _ _ => Z.of_nat len)) a k size elem after) s bit = from_reader cu fuel (record_array c before a len elem after) s bit.
Proof.
  intros OS V K L Z0 R. unfold record, record_array. apply swap_struct; auto. clear c before after. intros c ctx fs off.
  unfold field_read_func. cbn [limit_to a_reader a_limit]. rewrite (el_reader _ _ _ OS), L. cbv zeta.
  change (field_args c (limit_to (FCount (fun _ _ _ => Z.of_nat len)) a) ctx fs off) with (field_args c a ctx fs off). cbn [eval_limit].
  assert (HU : (Z.of_nat len <= Z.of_N usize_max)%Z) by (unfold isize_max, usize_max in *; nia).
  unfold to_usize. destruct (Z.ltb_spec (Z.of_nat len) 0); [lia|]. destruct (Z.ltb_spec (Z.of_N usize_max) (Z.of_nat len)); [lia|]. cbn [orb].
  intros r. unfold bind at 1. cbn [lift read_ty]. unfold slot_size, collect. rewrite K. replace (Z.to_N (Z.of_nat len)) with (N.of_nat len) by lia.
  apply e_first. intros r0. apply vec_array_any with (n := n); auto. now apply el_adds.
Qed.
