(** How many bits the writers of derived types write. *)
From Coq Require Import Lia ZifyBool ZifyNat ZifyN Permutation.
From Verif Require Import Base Spec Stream Reader Writer WSession MonadFacts BitsFacts WriterFacts WriterProps Prims PrimFacts CodecFacts Containers Derive DeriveSpec DeriveSound SizeSpec.
Ltac Zify.zify_post_hook ::= Z.div_mod_to_equations.

(** [m] writes [n] bits, or at most [n]. *)
Definition puts (exact : bool) (n : nat) (m : WM unit) : Prop :=
  forall w w', w_good w -> m w = (Ok tt, w') ->
  w_good w' /\ exists bs, wadv w w' bs /\
    (exact = true -> 8 * length bs + length (w_left w') = length (w_left w) + n) /\
    8 * length bs + length (w_left w') <= length (w_left w) + n.
Lemma puts_of n (m : WM unit) ex : (forall w, w_good w -> exists w' bs, m w = (Ok tt, w') /\ wadv w w' bs /\ w_good w' /\
    8 * length bs + length (w_left w') = length (w_left w) + n) -> puts ex n m.
Proof.
  intros H w w' G E. destruct (H w G) as (w1 & bs & E1 & A & G1 & L). rewrite E1 in E. apply pair_inj in E. destruct E as [_ <-].
  split; [exact G1|]. exists bs. split; [exact A|]. lia.
Qed.
Lemma puts_ext ex n m1 m2 : (forall w, m1 w = m2 w) -> puts ex n m1 -> puts ex n m2.
Proof. intros E H w w' G. rewrite <- E. now apply H. Qed.
Lemma puts_ret ex : puts ex 0 (ret tt).
Proof. apply puts_of. intros w G. exists w, []. split; [reflexivity|]. split; [apply wadv_refl|]. split; [exact G|cbn; lia]. Qed.
Lemma puts_none ex n (m : WM unit) : (forall w w', m w <> (Ok tt, w')) -> puts ex n m.
Proof. intros H w w' _ E. now apply H in E. Qed.
Lemma puts_fail ex n e : puts ex n (fail e).
Proof. now apply puts_none. Qed.
Lemma puts_panic ex n : puts ex n panic.
Proof. now apply puts_none. Qed.
Lemma puts_bind ex a b m1 m2 : puts ex a m1 -> puts ex b m2 -> puts ex (a + b) (let* _ := m1 in m2).
Proof.
  intros H1 H2 w w' G E. apply bind_inv in E. destruct E as ([] & w1 & E1 & E2).
  destruct (H1 _ _ G E1) as (G1 & b1 & A1 & X1 & Y1). destruct (H2 _ _ G1 E2) as (G2 & b2 & A2 & X2 & Y2).
  split; [exact G2|]. exists (b1 ++ b2). split; [exact (wadv_app _ _ _ _ _ A1 A2)|]. rewrite app_length. split; [|lia].
  intros He. specialize (X1 He). specialize (X2 He). lia.
Qed.
Lemma puts_seq ex a b n m1 m2 : puts ex a m1 -> puts ex b m2 -> n = a + b -> puts ex n (let* _ := m1 in m2).
Proof. intros H1 H2 ->. now apply puts_bind. Qed.
Lemma puts_more a b m : a <= b -> puts false a m -> puts false b m.
Proof. intros L H w w' G E. destruct (H w w' G E) as (G1 & bs & A & _ & Y). split; [exact G1|]. exists bs. split; [exact A|]. split; [discriminate|lia]. Qed.

Lemma puts_weaken ex a b m : ex = false -> a <= b -> puts ex a m -> puts ex b m.
Proof. intros ->. apply puts_more. Qed.

Lemma perm_length bs (left' left bits : list bool) : Permutation (bits_of_bytes bs ++ left') (left ++ bits) ->
  8 * length bs + length left' = length left + length bits.
Proof. intros P. apply Permutation_length in P. rewrite !app_length, bits_of_bytes_length in P. lia. Qed.
Lemma puts_bits ex l o : puts ex (length l) (write_bits_order l o).
Proof.
  apply puts_of. intros w G. destruct (write_bits_order_ok l o w G) as (w' & bs & E & A & G' & _ & P & _).
  exists w', bs. split; [exact E|]. split; [exact A|]. split; [exact G'|]. now apply perm_length.
Qed.
Lemma puts_bits_n ex n l o : length l = n -> puts ex n (write_bits_order l o).
Proof. intros <-. apply puts_bits. Qed.
Lemma puts_bytes ex n bs : n = 8 * length bs -> puts ex n (write_bytes bs).
Proof.
  intros ->. apply puts_of. intros w G. destruct (write_bytes_ok bs w G) as (w' & bs' & E & A & G' & _ & _ & P & _).
  exists w', bs'. split; [exact E|]. split; [exact A|]. split; [exact G'|]. apply perm_length in P. now rewrite bits_of_bytes_length in P.
Qed.
Lemma puts_chunks ex o cs n : n <= 8 * length cs -> puts ex n (write_chunks cs n o).
Proof.
  revert n. induction cs as [|c cs IH]; intros n H; cbn [write_chunks].
  - cbn in H. replace n with 0 by lia. apply puts_ret.
  - cbn [length] in H. destruct (Nat.ltb_spec n 8) as [L|L].
    + apply puts_bits_n. rewrite skipn_length, byte_bits_length. lia.
    + apply puts_seq with (a := 8) (b := n - 8); [apply puts_bits_n, byte_bits_length|apply IH; lia|lia].
Qed.
Lemma puts_fast ex v n w w' : w_good w -> w_ord w = Msb0 -> write_bits_uint_msb0 v n w = (Ok tt, w') ->
  w_good w' /\ exists bs, wadv w w' bs /\
    (ex = true -> 8 * length bs + length (w_left w') = length (w_left w) + n) /\
    8 * length bs + length (w_left w') <= length (w_left w) + n.
Proof.
  intros G O E. assert (Hn : 1 <= n <= 64).
  { unfold write_bits_uint_msb0 in E. apply bind_inv in E. destruct E as (x & w1 & E & _). unfold assert_ in E. destruct (_ && _) eqn:B; [lia|discriminate]. }
  destruct (fast_write_ok v n w G O Hn) as (w1 & bs & E1 & A & G1 & _ & S). rewrite E1 in E. apply pair_inj in E. destruct E as [_ <-].
  split; [exact G1|]. exists bs. split; [exact A|]. apply (f_equal (@length bool)) in S. rewrite !app_length, bitstring_length, N2bits_length in S. lia.
Qed.

(** The bits an integer takes. *)
Definition wsize (p : prim) (c : pctx) : nat :=
  match c with
  | C0 | CE _ | CO _ | CEO _ _ => prim_width p
  | CY n | CEY _ n | CEYO _ n _ => 8 * match p with PU8 => 1 | _ => n end
  | CB n | CBO n _ | CEB _ n | CEBO _ n _ => n
  end.
Lemma to_bytes_e_length e wb v : length (to_bytes_e e wb v) = wb.
Proof. destruct e; cbn [to_bytes_e]; [apply le_length|apply be_length]. Qed.
Lemma puts_u8_bits ex n o v : puts ex n (write_u8_bits n o v).
Proof.
  intros w w' G E. unfold write_u8_bits in E. destruct (_ && _ && _) eqn:F.
  - destruct ((n <? 8) && _); [discriminate|]. eapply puts_fast; [exact G| |exact E]. destruct (w_ord w); [reflexivity|]. destruct o; discriminate.
  - destruct (Nat.ltb_spec 8 n) as [|H]; [discriminate|]. destruct (too_big_be _ _ _); [discriminate|].
    apply (puts_bits_n ex n (skipn (8 - n) (N2bits 8 v)) o); [rewrite skipn_length, N2bits_length; lia|exact G|exact E].
Qed.
Lemma puts_ebo ex wb e n o v : puts ex n (write_ebo_generic wb e n o v).
Proof.
  unfold write_ebo_generic. destruct (Nat.ltb_spec (8 * wb) n) as [|H]; [apply puts_fail|].
  assert (HB : puts ex n (write_bits_order (skipn (8 * wb - n) (bits_of_bytes (to_bytes_e e wb v))) o)).
  { apply puts_bits_n. rewrite skipn_length, bits_of_bytes_length, to_bytes_e_length. lia. }
  assert (HC : puts ex n (write_chunks (to_bytes_e e wb v) n o)) by (apply puts_chunks; rewrite to_bytes_e_length; lia).
  destruct e.
  - destruct (too_big_le _ _ _); [apply puts_fail|exact HC].
  - destruct o.
    + intros w w' G E. destruct (_ && _) eqn:F.
      * destruct (n <? _); [discriminate|]. eapply puts_fast; [exact G| |exact E]. destruct (w_ord w); [reflexivity|]. apply andb_true_iff in F. destruct F; discriminate.
      * destruct (too_big_be _ _ _); [discriminate|]. now apply HB.
    + destruct (too_big_be _ _ _); [apply puts_fail|]. destruct (n <=? 8); [exact HB|exact HC].
Qed.
Lemma puts_u_eb ex wb e n v : puts ex n (write_u_eb wb e n v).
Proof.
  unfold write_u_eb. destruct (Nat.ltb_spec (8 * wb) n) as [|H]; [apply puts_fail|]. destruct e.
  - destruct (too_big_le _ _ _); [apply puts_fail|]. apply puts_chunks. rewrite le_length. lia.
  - destruct (too_big_be _ _ _); [apply puts_fail|]. apply puts_bits_n. rewrite skipn_length, N2bits_length. lia.
Qed.
Lemma puts_i_eb ex wb e n v : puts ex n (write_i_eb wb e n v).
Proof.
  unfold write_i_eb. destruct (Nat.ltb_spec (8 * wb) n) as [|H]; [apply puts_fail|]. destruct e.
  - match goal with |- puts _ _ (if ?b then _ else _) => destruct b end; [apply puts_fail|]. apply puts_chunks. rewrite le_length. lia.
  - match goal with |- puts _ _ (if ?b then _ else _) => destruct b end; [apply puts_fail|]. apply puts_bits_n. rewrite skipn_length, N2bits_length. lia.
Qed.
Lemma puts_sized ex wb e n v : puts ex (8 * n) (write_bytes_sized wb e n v).
Proof.
  unfold write_bytes_sized. destruct (Nat.ltb_spec wb n) as [|H]; [apply puts_fail|]. apply puts_bytes.
  destruct e; [rewrite firstn_length, le_length|rewrite skipn_length, be_length]; lia.
Qed.
Theorem puts_prim ex p c v : puts ex (wsize p c) (prim_write p c v).
Proof.
  assert (H1 : forall e, puts ex (prim_width p) (write_e p e v)).
  { intros e. apply puts_bytes. rewrite to_bytes_e_length. reflexivity. }
  assert (H2 : forall e n, puts ex (8 * match p with PU8 => 1 | _ => n end) (write_eyo p e n v)).
  { intros e n. destruct p as [|wb|wb]; cbn [write_eyo]; [|apply puts_sized..]. apply puts_bytes. now rewrite be_length. }
  assert (H3 : forall e, puts ex (prim_width p) (write_eyo p e (prim_bytes p) v)).
  { intros e. replace (prim_width p) with (8 * match p with PU8 => 1 | _ => prim_bytes p end) by (now destruct p). apply H2. }
  assert (H4 : forall e n, puts ex n (write_eb p e n v)) by (intros e n; destruct p; [apply puts_u8_bits|apply puts_u_eb|apply puts_i_eb]).
  assert (H5 : forall e n o, puts ex n (write_ebo p e n o v)) by (intros e n o; destruct p; [apply puts_u8_bits|apply puts_ebo..]).
  destruct c; cbn [wsize prim_write]; auto.
Qed.
Lemma wsize_plain p args c : no_sizes args -> pctx_of args = Some c -> wsize p c = prim_width p.
Proof.
  intros H E. destruct args as [|x [|y [|z [|]]]]; cbn in E.
  - now injection E as <-.
  - destruct x; try discriminate; injection E as <-; inversion H; try discriminate; reflexivity.
  - destruct x, y; try discriminate; injection E as <-; inversion H as [|? ? Hx Hy]; inversion Hy; try discriminate; reflexivity.
  - destruct x, y, z; try discriminate; injection E as <-; inversion H as [|? ? Hx Hy]; inversion Hy; discriminate.
  - destruct x, y, z; discriminate.
Qed.
Lemma wsize_args p e bits bytes o ctx c : no_sizes ctx -> pctx_of (args_of e bits bytes o ctx) = Some c ->
  wsize p c = match bits, bytes with
              | Some n, _ => n
              | None, Some n => 8 * match p with PU8 => 1 | _ => n end
              | None, None => prim_width p
              end.
Proof.
  intros H E. destruct bits as [n|].
  - unfold args_of in E. destruct e, bytes, o, ctx as [|x [|y [|]]]; cbn in E; try discriminate; try (now injection E as <-);
      destruct x; try discriminate; try (now injection E as <-); try (inversion H; discriminate); try (destruct y; discriminate).
  - destruct bytes as [n|].
    + unfold args_of in E. destruct e, o, ctx as [|x [|y [|]]]; cbn in E; try discriminate; try (now injection E as <-);
        destruct x; try discriminate; try (now injection E as <-); try (inversion H; discriminate); try (destruct y; discriminate).
    + eapply wsize_plain; [|exact E]. unfold args_of. destruct e, o; cbn; repeat (constructor; [reflexivity|]); exact H.
Qed.

(** ** Derived types *)

Lemma puts_list {A} ex n (f : A -> WM unit) l : (forall x, In x l -> puts ex n (f x)) -> puts ex (n * length l) (write_list f l).
Proof.
  induction l as [|x l IH]; intros H; cbn [write_list length]; [rewrite Nat.mul_0_r; apply puts_ret|].
  apply puts_seq with (a := n) (b := n * length l); [apply H; now left|apply IH; intros y Hy; apply H; now right|lia].
Qed.
Lemma puts_magic ex m : puts ex (8 * length m) (write_magic m).
Proof. unfold write_magic. rewrite <- (map_length Byte.to_N m). apply puts_list. intros x _. apply (puts_prim ex PU8 C0). Qed.
Lemma puts_pad_loop ex o f n : n <= f -> puts ex n (pad_loop f n o).
Proof.
  revert n. induction f as [|f IH]; intros [|n] H; cbn [pad_loop]; try apply puts_ret; [lia|].
  set (c := Nat.min 512 (S n)). apply puts_seq with (a := c) (b := S n - c); [apply puts_bits_n, repeat_length|apply IH; subst c; lia|subst c; lia].
Qed.
Lemma puts_pad ex p ctx fs o : constant_pad p -> puts ex (const_pad p) (write_pad (eval0 p ctx fs) o).
Proof.
  intros H. destruct p as [f|]; cbn [eval0 option_map write_pad const_pad]; [|apply puts_ret]. rewrite (H f eq_refl ctx fs).
  destruct (to_usize _) as [n|] eqn:E; [|apply puts_fail]. unfold to_usize in E. destruct (_ || _) eqn:B in E; [discriminate|]. injection E as <-.
  eapply puts_ext; [reflexivity|]. rewrite Z_N_nat. apply puts_pad_loop. lia.
Qed.
Lemma puts_asserts ex a ctx fs off v : puts ex 0 (asserts a ctx fs off v).
Proof.
  unfold asserts, check. apply puts_seq with (a := 0) (b := 0); [| |reflexivity].
  - destruct (a_assert a) as [f|]; [destruct (f _ _ _)|]; auto using puts_ret, puts_fail.
  - destruct (a_assert_eq a) as [f|]; [destruct (value_eqb _ _)|]; auto using puts_ret, puts_fail.
Qed.
Lemma puts_zero n m : puts false 0 m -> puts false n m.
Proof. apply puts_more. lia. Qed.

Lemma puts_gives ex n m : gives ex n m -> puts ex n m.
Proof.
  induction 1 as [|n e|n|a b m1 m2 _ H1 _ H2|l o|bs|p c v H|p e n v|n k m Hx L _ H|n f _ H|n m1 m2 He _ H].
  - apply puts_ret.
  - apply puts_fail.
  - apply puts_panic.
  - now apply puts_bind.
  - apply puts_bits.
  - now apply puts_bytes.
  - destruct H as [->|[e ->]]; [apply (puts_prim ex p C0)|apply (puts_prim ex p (CE e))].
  - apply (puts_prim ex p (CEB e n)).
  - eapply puts_weaken; eassumption.
  - intros w. apply H.
  - eapply puts_ext; eassumption.
Qed.
Definition own_size (t : ty) (bits bytes : option nat) : option nat :=
  match bits, bytes with
  | Some n, _ => Some n
  | None, Some n => Some (n * 8)
  | None, None => size_bits t
  end.

Lemma eval_constant p ctx fs : constant_size p -> eval0 p ctx fs = const_size p.
Proof. unfold const_size, eval0. destruct p as [f|]; intros H; [cbn; f_equal; exact (H f eq_refl ctx fs)|reflexivity]. Qed.

Section Derived.
Variables (cu : nat -> custom) (ex : bool).

Definition ty_puts (t : ty) : Prop :=
  forall n, size_bits t = Some n -> forall args v, (passes_args t = true -> no_sizes args) -> complete t v -> puts ex n (write_ty cu t args v).

Lemma no_sizes_args e o ctx : no_sizes ctx -> no_sizes (args_of e None None o ctx).
Proof. intros H. unfold args_of. destruct e, o; cbn; repeat (constructor; [reflexivity|]); exact H. Qed.
Lemma puts_args t e bits bytes o ctx v n : ty_puts t -> size_on t bits bytes -> (passes_args t = true -> no_sizes ctx) ->
  own_size t bits bytes = Some n -> complete t v -> puts ex n (write_ty cu t (args_of e bits bytes o ctx) v).
Proof.
  intros HT [[-> ->]|HS] HC HO Hv.
  - apply HT; [exact HO| |exact Hv]. intros Hp. apply no_sizes_args. auto.
  - destruct t as [p| | | | | | | | | | |]; try contradiction; specialize (HC eq_refl); cbn [write_ty]; destruct v; try apply puts_panic;
      unfold with_pctx; (destruct (pctx_of _) as [c|] eqn:E; [|apply puts_panic]).
    + apply (wsize_args p) in E; [|exact HC]. replace n with (wsize p c); [apply puts_prim|]. rewrite E. unfold own_size in HO.
      destruct bits as [k|]; [now injection HO as <-|]. destruct bytes as [k|]; [|now injection HO as <-]. injection HO as <-.
      destruct p; [destruct HS as [|HS]; [discriminate|injection HS as ->]; reflexivity|lia|lia].
    + apply (wsize_args PU8) in E; [|exact HC]. unfold write_bool. replace n with (wsize PU8 c); [apply puts_prim|]. rewrite E. unfold own_size in HO.
      destruct bits as [k|]; [now injection HO as <-|]. destruct bytes as [k|]; [|now injection HO as <-]. injection HO as <-.
      destruct HS as [|HS]; [discriminate|injection HS as ->]; reflexivity.
Qed.

Lemma puts_field c a t stored ctx fs v n : ty_puts t -> regular_field ex a t -> a_seek a = None -> complete t v ->
  own_size t (const_size (a_bits a)) (const_size (a_bytes a)) = Some n ->
  puts ex (8 * length (a_magic a) + const_pad (a_pad_before a) + n + const_pad (a_pad_after a))
    (write_field c a stored ctx fs v (fun args x => write_ty cu t args x)).
Proof.
  intros HT R Hs Hv HO. unfold write_field. rewrite Hs. cbn [option_map write_seek].
  apply puts_seq with (a := 0) (b := 8 * length (a_magic a) + const_pad (a_pad_before a) + n + const_pad (a_pad_after a)); [apply puts_ret| |reflexivity].
  apply puts_seq with (a := 8 * length (a_magic a)) (b := const_pad (a_pad_before a) + n + const_pad (a_pad_after a)); [apply puts_magic| |lia].
  apply puts_seq with (a := const_pad (a_pad_before a)) (b := n + const_pad (a_pad_after a)); [apply puts_pad, R| |lia].
  intros w w' G. revert G. generalize (w_bits w) as off. intros off G. revert w w' G.
  match goal with |- forall w w', _ -> ?m w = _ -> _ => change (puts ex (n + const_pad (a_pad_after a)) m) end.
  apply puts_seq with (a := 0) (b := n + const_pad (a_pad_after a)); [apply puts_asserts| |reflexivity].
  apply puts_bind; [|apply puts_pad, R].
  assert (HF : puts ex n (field_write_func c a stored ctx fs off v (fun args x => write_ty cu t args x))).
  { unfold field_write_func. destruct (a_writer a) as [f|] eqn:Ew; [apply puts_gives, (rf_writer _ _ _ R f Ew); exact HO|]. rewrite (rf_temp _ _ _ R). cbv zeta. unfold field_args. rewrite (eval_constant _ _ _ (rf_bits _ _ _ R)), (eval_constant _ _ _ (rf_bytes _ _ _ R)). eapply puts_args; try eassumption; [apply R|].
    intros Hp. now apply (rf_ctx _ _ _ R). }
  assert (HZ : a_skip a = Some SkipAll \/ a_skip a = Some SkipWrite -> puts ex n (ret tt)).
  { intros Hk. destruct ex; [|apply puts_zero, puts_ret]. destruct (rf_skip _ _ _ R eq_refl). destruct Hk; contradiction. }
  unfold field_write_tokens. destruct (a_skip a) as [[]|], (a_cond a) as [f|]; try destruct (f _ _ _); auto.
Qed.

Definition fields_puts (fs : fields) : Prop :=
  regular_fields ex fs ->
  (forall n, fields_size fs false = Some n -> forall c ctx stored todo acc, complete_fields fs todo -> puts ex n (fields_write cu c ctx fs None stored todo acc)) /\
  (forall a t wire tl, fs = FCons a t wire tl -> forall n k args, fields_size fs true = Some n ->
     (forall v, complete t v -> puts ex k (write_ty cu t args v)) ->
     forall c ctx stored todo acc, complete_fields fs todo -> puts ex (k + n) (fields_write cu c ctx fs (Some args) stored todo acc)) /\
  (forall a t wire tl, fs = FCons a t wire tl -> ty_puts t).
Definition variants_puts (vs : variants) : Prop :=
  forall e idt i, regular_variants ex e idt vs -> regular_id e idt -> id_size e idt = Some i ->
  forall ctx, (forall x, en_id e = None -> complete idt x -> puts ex i (write_ty cu idt (id_args e ctx) x) /\ puts ex i (write_ty cu idt (stored_id_args e ctx) x)) ->
  forall k v fs n l, nth_variant vs k = Some (v, fs) -> variant_size e v fs = Some n -> complete_fields fs l ->
  puts ex (i + n) (variant_write cu e ctx (fun args x => write_ty cu idt args x) vs k l).

Theorem puts_all : (forall t, regular ex t -> ty_puts t) /\ (forall fs, fields_puts fs) /\ (forall vs, variants_puts vs).
Proof.
  apply types_ind; unfold ty_puts.
  - intros p _ n E args v Hg _. cbn [write_ty size_bits] in *. injection E as <-. destruct v; try apply puts_panic. unfold with_pctx.
    destruct (pctx_of args) as [c|] eqn:E; [|apply puts_panic]. rewrite <- (wsize_plain p args c); [apply puts_prim|now apply Hg|exact E].
  - intros _ n E args v Hg _. cbn [write_ty size_bits] in *. injection E as <-. destruct v; try apply puts_panic. unfold with_pctx.
    destruct (pctx_of args) as [c|] eqn:E; [|apply puts_panic]. change 8 with (prim_width PU8). rewrite <- (wsize_plain PU8 args c); [apply puts_prim|now apply Hg|exact E].
  - discriminate.
  - discriminate.
  - discriminate.
  - discriminate.
  - intros a IHa b IHb [Ha Hb] n E args v Hg Hv. cbn [write_ty size_bits passes_args] in *. destruct (size_bits a) as [x|] eqn:Ea, (size_bits b) as [y|] eqn:Eb; try discriminate. injection E as <-.
    destruct v; try apply puts_panic. destruct Hv as [Hv1 Hv2].
    apply puts_bind; [apply IHa; auto; intros Hp; apply Hg; now rewrite Hp|apply IHb; auto; intros Hp; apply Hg; rewrite Hp; apply orb_true_r].
  - intros k t IH H n E args v Hg Hv. cbn [write_ty size_bits passes_args] in *. destruct (size_bits t) as [x|] eqn:Et; [|discriminate]. injection E as <-.
    destruct v; try apply puts_panic. destruct Hv as [<- Hv]. apply puts_list. intros y Hy. apply IH; auto.
  - discriminate.
  - intros c fs IH H n E args v Hg Hv. destruct v; try apply puts_panic. rewrite write_struct. cbn [size_bits complete] in *. destruct (c_seek c); [discriminate|].
    destruct (fields_size fs false) as [m|] eqn:Ef; [|discriminate]. injection E as <-. cbn [option_map write_seek].
    apply puts_seq with (a := 0) (b := 8 * length (c_magic c) + m); [apply puts_ret| |reflexivity]. apply puts_bind; [apply puts_magic|]. now apply (proj1 (IH H)).
  - intros e idt IHi vs IHv (Hx & Hr & Hi & Hvs) n E args v Hg Hv. destruct v as [| | | | | | |k l| | | |]; try apply puts_panic. rewrite write_enum. cbn [size_bits complete] in *.
    destruct (c_seek (en_c e)); [discriminate|].
    match type of E with match ?a with _ => _ end = _ => destruct a as [i|] eqn:Ei; [|discriminate] end.
    destruct (variants_size e vs) as [m|] eqn:Em; [|discriminate]. injection E as <-.
    rewrite <- Nat.add_assoc. apply puts_bind; [apply puts_magic|].
    assert (Hid : id_size e idt = Some i).
    { unfold id_size. unfold regular_id in Hr. destruct (en_id e); [destruct Hr as [B1 B2]; rewrite B1, B2 in Ei; cbn [const_size eval0 option_map] in Ei |- *; exact Ei|].
      destruct (const_size (en_bits e)); [exact Ei|]. destruct (const_size (en_bytes e)); [rewrite <- Ei; f_equal; lia|exact Ei]. }
    assert (HV : forall k v fs, nth_variant vs k = Some (v, fs) -> exists x, variant_size e v fs = Some x /\ x <= m).
    { clear - Em. revert m Em. induction vs as [|v fs tl IH]; intros m Em k v' fs' Hn; [destruct k; discriminate|]. cbn [variants_size] in Em.
      destruct (fields_size fs (stores_id e v && negb (no_fields fs))) as [x|] eqn:Ex; [|discriminate].
      destruct (variants_size e tl) as [y|] eqn:Ey; [|discriminate]. injection Em as <-. destruct k as [|k]; cbn [nth_variant] in Hn.
      - injection Hn as <- <-. exists x. split; [exact Ex|lia].
      - destruct (IH y eq_refl k v' fs' Hn) as (x' & E' & L). exists x'. split; [exact E'|lia]. }
    destruct (nth_variant vs k) as [[v fs]|] eqn:En.
    + destruct (HV k v fs En) as (x & Ex & Lx). apply (puts_weaken ex (i + x) (i + m)); [exact Hx|lia|].
      eapply IHv; try eassumption.
      * intros y Ey Hy. assert (Ho : own_size idt (const_size (en_bits e)) (const_size (en_bytes e)) = Some i).
        { unfold id_size in Hid. rewrite Ey in Hid. unfold own_size. destruct (const_size (en_bits e)); [exact Hid|]. destruct (const_size (en_bytes e)); [rewrite <- Hid; f_equal; lia|exact Hid]. }
        unfold regular_id in Hr. rewrite Ey in Hr. destruct Hr as (K1 & K2 & Hr).
        split; unfold id_args, stored_id_args; rewrite (eval_constant _ _ _ K1), (eval_constant _ _ _ K2); (eapply puts_args; [exact (IHi Hi)|exact Hr|intros _; constructor|exact Ho|exact Hy]).
      * clear - Hv En. revert k Hv En. induction vs as [|v' fs' tl IH]; intros [|k] Hv En; cbn [nth_variant complete_variant] in *; try discriminate; [now injection En as <- <-|eauto].
    + apply puts_none. intros w w'. enough (X : variant_write cu e (ctx_args (en_c e) args) (fun args x => write_ty cu idt args x) vs k l = panic) by (rewrite X; discriminate).
      clear - En. revert k En. induction vs as [|v' fs' tl IH]; intros k En; [reflexivity|]. destruct k as [|k]; [discriminate|]. exact (IH k En).
  - discriminate.
  - intros _. split; [|split; discriminate]. intros n E c ctx stored todo acc _. injection E as <-. apply puts_ret.
  - intros a t IHt wire _ tl IHtl (Ra & Rt & Rtl). destruct (IHtl Rtl) as [IH _]. specialize (IHt Rt). split; [|split].
    + intros n E c ctx stored todo acc [H1 H2]. rewrite write_cons. cbn [fields_size] in E. destruct (a_seek a) eqn:Es; [discriminate|].
      rewrite (rf_temp _ _ _ Ra) in E. cbn [orb] in E. fold (own_size t (const_size (a_bits a)) (const_size (a_bytes a))) in E.
      destruct (own_size t (const_size (a_bits a)) (const_size (a_bytes a))) as [x|] eqn:Eo; [|discriminate]. destruct (fields_size tl false) as [y|] eqn:Ey; [|discriminate]. injection E as <-.
      unfold field_value, field_rest. rewrite (rf_temp _ _ _ Ra). apply puts_bind; [now apply puts_field|]. now apply IH.
    + intros a' t' wire' tl' Eq n k args E HK c ctx stored todo acc [H1 H2]. injection Eq as <- <- _ <-. rewrite write_cons. cbn [fields_size] in E. destruct (a_seek a); [discriminate|].
      unfold field_value, field_rest. rewrite (rf_temp _ _ _ Ra). apply puts_bind; [now apply HK|]. now apply IH.
    + intros a' t' wire' tl' Eq. injection Eq as <- <- _ _. exact IHt.
  - intros e idt i _ _ _ ctx _ k v fs n l Hn. destruct k; discriminate.
  - intros v fs IHf vs IHv e idt i (Rv & Rf & Rvs) Rid Ei ctx Hid k v' fs' n l Hn En Hl. destruct k as [|k]; [|exact (IHv e idt i Rvs Rid Ei ctx Hid k v' fs' n l Hn En Hl)].
    injection Hn as <- <-. rewrite write_variant_0. destruct (IHf Rf) as (F1 & F2 & F3). unfold variant_size, stores_id in En. unfold regular_variant in Rv. unfold write_id.
    destruct (en_id e) as [f|] eqn:Ee.
    + assert (i = 0) by (unfold id_size in Ei; rewrite Ee in Ei; now injection Ei). subst i. apply puts_bind; [apply puts_ret|].
      destruct (v_sel v) as [x|p d|x]; cbn [andb] in En; [now apply F1| |now apply F1]. destruct fs as [|a t wire tl]; [exact (F1 n En (en_c e) ctx l l [] Hl)|].
      destruct Rv as (B1 & B2 & B3). destruct Rf as (Ra & Rt & Rtl). pose proof En as En'. cbn [fields_size] in En'. destruct (a_seek a) eqn:Es; [discriminate|].
      rewrite (rf_temp _ _ _ Ra), B1, B2 in En'. cbn [orb const_size eval0 option_map] in En'. destruct (size_bits t) as [x|] eqn:Ex; [|discriminate]. destruct (fields_size tl false) as [y|] eqn:Ey; [|discriminate].
      injection En' as <-.
      assert (HP : puts ex (x + y) (fields_write cu (en_c e) ctx (FCons a t wire tl) (Some (stored_id_args e ctx)) l l [])).
      { eapply F2; [reflexivity|cbn [fields_size]; rewrite Es; exact Ey| |exact Hl]. intros z Hz. eapply F3; [reflexivity|exact Ex| |exact Hz].
        intros _. unfold regular_id in Rid. rewrite Ee in Rid. destruct Rid as [D1 D2]. unfold stored_id_args. rewrite D1, D2. cbn [eval0 option_map]. apply no_sizes_args. constructor. }
      destruct (Bool.bool_dec ex true) as [Hx|Hx].
      * destruct (B3 Hx) as (M1 & M2 & M3). rewrite M1, M2, M3. match goal with |- puts _ ?k _ => replace k with (x + y) by (cbn; lia) end. exact HP.
      * eapply puts_weaken; [now destruct ex| |exact HP]. lia.
    + specialize (Hid). assert (HI : forall x, complete idt x -> puts ex i (write_ty cu idt (id_args e ctx) x)) by (intros x Hx; now apply Hid).
      assert (HS : forall x, complete idt x -> puts ex i (write_ty cu idt (stored_id_args e ctx) x)) by (intros x Hx; now apply Hid).
      destruct (v_sel v) as [x|p d|x]; cbn [andb] in En.
      * apply puts_bind; [now apply HI|now apply F1].
      * destruct fs as [|a t wire tl]; cbn [no_fields negb] in *.
        -- apply puts_bind; [|exact (F1 n En (en_c e) ctx l l [] Hl)]. destruct d as [x|]; [apply HI; now apply Rv|apply puts_panic].
        -- subst t. apply puts_seq with (a := 0) (b := i + n); [apply puts_ret| |reflexivity]. eapply F2; [reflexivity|exact En|exact HS|exact Hl].
      * apply puts_bind; [now apply HI|now apply F1].
Qed.
End Derived.

(** ** From a fresh writer *)

Lemma fresh_size ex n m bits : puts ex n m -> to_bits_with m = Ok bits ->
  (ex = true -> length bits = n) /\ length bits <= n /\ exists bytes, to_bytes_with m = Ok bytes /\ length bytes = (length bits + 7) / 8.
Proof.
  intros H E. unfold to_bits_with in E. destruct (m (writer_new vec_sink)) as [[[]|e| |] w] eqn:Em; try discriminate. apply ok_inj in E.
  assert (G0 : w_good (writer_new vec_sink)) by (split; [split; reflexivity|cbn; lia]).
  destruct (H _ _ G0 Em) as (G & bs & [A _] & X & Y). cbn [writer_new w_k w_left length Nat.add] in *.
  pose proof (em_data _ _ _ A) as D. cbn [vec_sink k_data k_pos] in D. rewrite overlay_empty in D.
  assert (L : length bits = 8 * length bs + length (w_left w)) by (rewrite <- E, app_length, bits_of_bytes_length, D; lia).
  split; [lia|]. split; [lia|]. unfold to_bytes_with. rewrite (bind_ok _ _ _ _ _ Em). destruct (w_left w) as [|b p] eqn:El.
  - rewrite (finalize_nil w El). cbn [res_map]. eexists. split; [reflexivity|]. cbn [length] in L. rewrite D. lia.
  - destruct (finalize_pad w G) as (w2 & E2 & [A2 _] & _); [congruence|]. rewrite E2. cbn [res_map]. eexists. split; [reflexivity|].
    pose proof (em_data _ _ _ A2) as D2. rewrite D, (em_pos _ _ _ A) in D2. cbn [vec_sink k_pos Nat.add] in D2.
    rewrite D2. cbn [overlay]. rewrite !app_length, firstn_length, repeat_length, skipn_length. cbn [length]. pose proof G as [_ G2]. rewrite El in G2. cbn [length] in *. lia.
Qed.
Theorem struct_size cu t v n bits : regular true t -> complete t v -> size_bits t = Some n -> to_bits cu t v = Ok bits ->
  length bits = n /\ exists bytes, to_bytes cu t v = Ok bytes /\ length bytes = (n + 7) / 8.
Proof.
  intros R C S E. destruct (fresh_size true n (write_ty cu t [] v) bits) as (X & _ & bytes & Y & Z); [|exact E|].
  - apply (proj1 (puts_all cu true)); auto. constructor.
  - specialize (X eq_refl). split; [exact X|]. exists bytes. split; [exact Y|]. now rewrite Z, X.
Qed.
Theorem type_bound cu t v n bits : regular false t -> complete t v -> size_bits t = Some n -> to_bits cu t v = Ok bits ->
  length bits <= n /\ exists bytes, to_bytes cu t v = Ok bytes /\ length bytes <= (n + 7) / 8.
Proof.
  intros R C S E. destruct (fresh_size false n (write_ty cu t [] v) bits) as (_ & X & bytes & Y & Z); [|exact E|].
  - apply (proj1 (puts_all cu false)); auto. constructor.
  - split; [exact X|]. exists bytes. split; [exact Y|]. rewrite Z. lia.
Qed.
Lemma variants_size_max e vs m : variants_size e vs = Some m ->
  (forall k v fs, nth_variant vs k = Some (v, fs) -> exists x, variant_size e v fs = Some x /\ x <= m) /\
  (vs <> VNil -> exists k v fs, nth_variant vs k = Some (v, fs) /\ variant_size e v fs = Some m).
Proof.
  revert m. induction vs as [|v fs tl IH]; intros m Em; cbn [variants_size] in Em; [split; [intros [] ? ?; discriminate|congruence]|].
  destruct (fields_size fs (stores_id e v && negb (no_fields fs))) as [x|] eqn:Ex; [|discriminate].
  destruct (variants_size e tl) as [y|] eqn:Ey; [|discriminate]. injection Em as <-. destruct (IH y eq_refl) as [H1 H2]. split.
  - intros [|k] v' fs' Hn; cbn [nth_variant] in Hn.
    + injection Hn as <- <-. exists x. split; [exact Ex|lia].
    + destruct (H1 k v' fs' Hn) as (x' & E' & L). exists x'. split; [exact E'|lia].
  - intros _. destruct (Nat.le_gt_cases y x) as [L|L].
    + exists 0, v, fs. split; [reflexivity|]. unfold variant_size. rewrite Ex. f_equal. lia.
    + destruct tl as [|v2 fs2 tl2]; [injection Ey as <-; lia|]. destruct H2 as (k & v' & fs' & A & B); [discriminate|].
      exists (S k), v', fs'. split; [exact A|]. rewrite B. f_equal. lia.
Qed.
(** An enum whose size is [n]: a variant writes [n] bits less the difference to the
    largest. *)
Theorem variant_exact cu e idt vs k v fs l i m x n bits :
  regular_id e idt -> regular true idt -> regular_variants true e idt vs ->
  size_bits (TEnum e idt vs) = Some n -> id_size e idt = Some i -> variants_size e vs = Some m ->
  nth_variant vs k = Some (v, fs) -> variant_size e v fs = Some x -> complete_fields fs l ->
  to_bits cu (TEnum e idt vs) (VVar k l) = Ok bits -> length bits + m = n + x.
Proof.
  intros Rid Ridt Rvs En Hid Em Hn Ex Hl E.
  assert (Nn : n = 8 * length (c_magic (en_c e)) + i + m).
  { cbn [size_bits] in En. destruct (c_seek (en_c e)); [discriminate|]. rewrite Em in En. unfold id_size in Hid. unfold regular_id in Rid.
    destruct (en_id e); [destruct Rid as [B1 B2]; rewrite B1, B2 in En; cbn [const_size eval0 option_map] in En; injection En as <-; injection Hid as <-; lia|].
    destruct (const_size (en_bits e)); [injection En as <-; injection Hid as <-; lia|]. destruct (const_size (en_bytes e)); [injection En as <-; injection Hid as <-; lia|].
    rewrite Hid in En. injection En as <-. lia. }
  destruct (fresh_size true (8 * length (c_magic (en_c e)) + (i + x)) (write_ty cu (TEnum e idt vs) [] (VVar k l)) bits) as (X & _); [|exact E|specialize (X eq_refl); lia].
  rewrite write_enum. apply puts_bind; [apply puts_magic|]. destruct (puts_all cu true) as (P1 & _ & P3). eapply P3; try eassumption.
  intros y Ey Hy. assert (Ho : own_size idt (const_size (en_bits e)) (const_size (en_bytes e)) = Some i).
  { unfold id_size in Hid. rewrite Ey in Hid. unfold own_size. destruct (const_size (en_bits e)); [exact Hid|]. destruct (const_size (en_bytes e)); [rewrite <- Hid; f_equal; lia|exact Hid]. }
  unfold regular_id in Rid. rewrite Ey in Rid. destruct Rid as (K1 & K2 & Rid).
  split; unfold id_args, stored_id_args; rewrite (eval_constant _ _ _ K1), (eval_constant _ _ _ K2); (eapply puts_args; [exact (P1 idt Ridt)|exact Rid|intros _; constructor|exact Ho|exact Hy]).
Qed.
