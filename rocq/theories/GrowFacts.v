(** Proofs for C78. *)
From Coq Require Import Lia.
From Verif Require Import Base MonadFacts Spec Stream Reader Session Writer WSession WriterFacts Prims Containers Derive DeriveSpec DeriveSound DeriveClosed StreamProps BitsFacts GrowSpec.

(** ** Reading *)
Definition goes_on (m m' : RM value) : Prop := forall r,
  match m r with
  | (Ok v, _) => match m' r with (Ok v', _) => grown_value v v' | _ => True end
  | x => m' r = x
  end.
Section Reading.
Variables (cu : nat -> custom) (fuel : nat).
Lemma read_append c ctx gs : forall fs id acc r, (id <> None -> fs <> FNil) ->
  match fields_read cu fuel c ctx fs id acc r with
  | (Ok vs, r1) => exists acc', fields_read cu fuel c ctx (append fs gs) id acc r = (let* ws := fields_read cu fuel c ctx gs None acc' in ret (vs ++ ws)) r1
  | x => fields_read cu fuel c ctx (append fs gs) id acc r = x
  end.
Proof.
  induction fs as [|a t wire tl IH]; intros id acc r Hid.
  - assert (id = None) as -> by (destruct id; [destruct Hid; congruence|reflexivity]). cbn [append]. exists acc.
    change (fields_read cu fuel c ctx FNil None acc r) with (Ok (@nil value), r).
    cbn [app]. unfold bind, ret. now destruct (fields_read cu fuel c ctx gs None acc r) as [[]?].
  - cbn [append]. rewrite !read_cons.
    set (m := match id, a_reader a with Some x, None => ret x | _, _ => read_field c a (is_vec_u8 t) ctx acc (fun lim args => read_ty cu fuel wire lim args) end).
    destruct (m r) as [[v|e| |] r1] eqn:Em;
      [|rewrite !(bind_err _ _ _ _ _ Em); reflexivity|rewrite !(bind_panic _ _ _ _ Em); reflexivity|rewrite !(bind_diverge _ _ _ _ Em); reflexivity].
    rewrite !(bind_ok _ _ _ _ _ Em). specialize (IH None (acc ++ [v]) r1 ltac:(congruence)).
    destruct (fields_read cu fuel c ctx tl None (acc ++ [v]) r1) as [[vs|e| |] r2] eqn:Et.
    + rewrite (bind_ok _ _ _ _ _ Et). destruct IH as [acc' IH]. exists acc'. unfold bind at 1. rewrite IH. unfold bind, ret.
      destruct (fields_read cu fuel c ctx gs None acc' r2) as [[ws|e| |] r3]; try reflexivity. now destruct (a_temp a).
    + rewrite (bind_err _ _ _ _ _ Et). now rewrite (bind_err _ _ _ _ _ IH).
    + rewrite (bind_panic _ _ _ _ Et). now rewrite (bind_panic _ _ _ _ IH).
    + rewrite (bind_diverge _ _ _ _ Et). now rewrite (bind_diverge _ _ _ _ IH).
Qed.
Lemma goes_on_after {A} (m : RM A) f g : (forall a, goes_on (f a) (g a)) -> goes_on (bind m f) (bind m g).
Proof.
  intros H r. destruct (m r) as [[a|e| |] r1] eqn:Em.
  - rewrite !(bind_ok _ _ _ _ _ Em). apply H.
  - now rewrite !(bind_err _ _ _ _ _ Em).
  - now rewrite !(bind_panic _ _ _ _ Em).
  - now rewrite !(bind_diverge _ _ _ _ Em).
Qed.
Lemma goes_on_fields c ctx fs gs id (k : list value -> value) : (id <> None -> fs <> FNil) -> (forall l more, grown_value (k l) (k (l ++ more))) ->
  goes_on (let* l := fields_read cu fuel c ctx fs id [] in ret (k l)) (let* l := fields_read cu fuel c ctx (append fs gs) id [] in ret (k l)).
Proof.
  intros Hid Hk r. pose proof (read_append c ctx gs fs id [] r Hid) as H.
  destruct (fields_read cu fuel c ctx fs id [] r) as [[vs|e| |] r1] eqn:E.
  - rewrite (bind_ok _ _ _ _ _ E). destruct H as [acc' H]. unfold bind at 1. rewrite H. unfold ret at 1, bind.
    destruct (fields_read cu fuel c ctx gs None acc' r1) as [[ws|e| |] r2]; cbn; auto.
  - rewrite (bind_err _ _ _ _ _ E). now rewrite (bind_err _ _ _ _ _ H).
  - rewrite (bind_panic _ _ _ _ E). now rewrite (bind_panic _ _ _ _ H).
  - rewrite (bind_diverge _ _ _ _ E). now rewrite (bind_diverge _ _ _ _ H).
Qed.
Lemma goes_on_variants e ctx id vs vs' : longer_variants vs vs' -> forall k d d',
  match d, d' with Some m, Some m' => goes_on m m' | None, None => True | _, _ => False end ->
  goes_on (variants_read cu fuel e ctx id vs k d) (variants_read cu fuel e ctx id vs' k d').
Proof.
  induction 1 as [|v fs gs vs vs' Hs Hn _ IH]; intros k d d' Hd.
  - destruct d as [m|], d' as [m'|]; try contradiction; [exact Hd|]. intros r. reflexivity.
  - rewrite !read_variant.
    assert (B : goes_on (let* l := fields_read cu fuel (en_c e) ctx fs (if stores_id e v then Some id else None) [] in ret (VVar k l))
              (let* l := fields_read cu fuel (en_c e) ctx (append fs gs) (if stores_id e v then Some id else None) [] in ret (VVar k l))).
    { apply goes_on_fields; [|cbn; eauto]. unfold stores_id. destruct (en_id e), (v_sel v); auto; congruence. }
    cbv zeta. destruct (matches (v_sel v) id); [exact B|]. apply IH.
    destruct d as [m|], d' as [m'|]; try contradiction; [exact Hd|]. destruct (v_default v); [exact B|exact I].
Qed.
Theorem longer_read t t' args : longer t t' -> goes_on (read_ty cu fuel t None args) (read_ty cu fuel t' None args).
Proof.
  destruct 1 as [c fs gs Hn|e idt vs vs' H].
  - rewrite !read_struct. apply goes_on_after. intros _. apply goes_on_after. intros _.
    apply goes_on_fields; [congruence|cbn; eauto].
  - rewrite !read_enum. apply goes_on_after. intros _. apply goes_on_after. intros id. now apply goes_on_variants.
Qed.
Theorem longer_from_reader t t' s bit : longer t t' ->
  match from_reader cu fuel t s bit with
  | (Ok (_, v), _) => match from_reader cu fuel t' s bit with (Ok (_, v'), _) => grown_value v v' | _ => True end
  | x => from_reader cu fuel t' s bit = x
  end.
Proof.
  intros H. unfold from_reader. set (m := if bit =? 0 then ret tt else skip_bits bit Msb0).
  destruct (m (reader_new s)) as [[[]|e| |] r1] eqn:Em.
  - rewrite !(bind_ok _ _ _ _ _ Em). pose proof (longer_read t t' [] H r1) as G. unfold bind.
    destruct (read_ty cu fuel t None [] r1) as [[v|e| |] r2]; cbn in G |- *.
    + destruct (read_ty cu fuel t' None [] r1) as [[v'|e| |] r3]; cbn; auto.
    + now rewrite G.
    + now rewrite G.
    + now rewrite G.
  - rewrite !(bind_err _ _ _ _ _ Em). reflexivity.
  - rewrite !(bind_panic _ _ _ _ Em). reflexivity.
  - rewrite !(bind_diverge _ _ _ _ Em). reflexivity.
Qed.
Theorem longer_from_bytes t t' input bit p v p' v' : longer t t' ->
  from_bytes cu fuel t input bit = Ok (p, v) -> from_bytes cu fuel t' input bit = Ok (p', v') -> grown_value v v'.
Proof.
  intros H E E'. pose proof (longer_from_reader t t' (cursor input) bit H) as G. unfold from_bytes in E, E'.
  destruct (from_reader cu fuel t (cursor input) bit) as [[[n x]|e| |] s1]; try discriminate.
  destruct (from_reader cu fuel t' (cursor input) bit) as [[[n' x']|e| |] s2]; try discriminate.
  destruct (n / 8 <=? length input); [|discriminate]. destruct (n' / 8 <=? length input); [|discriminate].
  injection E as _ <-. injection E' as _ <-. exact G.
Qed.
End Reading.

(** ** Writing *)
Section Writing.
Variable cu : nat -> custom.
(** [m'] does what [m] does and then writes more, or fails. *)
Definition writes_on (m m' : WM unit) : Prop := forall w,
  match m w with (Ok _, w1) => exists more : WM unit, appends more /\ m' w = more w1 | x => m' w = x end.
Lemma writes_on_after {A} (m : WM A) f g : (forall a, writes_on (f a) (g a)) -> writes_on (bind m f) (bind m g).
Proof.
  intros H w. destruct (m w) as [[a|e| |] w1] eqn:Em.
  - rewrite !(bind_ok _ _ _ _ _ Em). apply H.
  - now rewrite !(bind_err _ _ _ _ _ Em).
  - now rewrite !(bind_panic _ _ _ _ Em).
  - now rewrite !(bind_diverge _ _ _ _ Em).
Qed.
Lemma writes_on_eq (m : WM unit) : writes_on m m.
Proof. intros w. destruct (m w) as [[[]|e| |] w1] eqn:E; auto. exists (ret tt). split; [apply (appends_lift (Ok tt))|reflexivity]. Qed.
Definition in_order_fields (c : cattrs) (fs : fields) : Prop :=
  every_field (fun c => c_seek c = None) (fun _ => True)
    (fun _ a _ => a_seek a = None /\ forall f, a_writer a = Some f -> forall st ctx fs off v, writer_program (f st ctx fs off v))
    (fun k => forall args v, writer_program (cu_write (cu k) args v)) c fs.
Lemma fields_appends c fs ctx stored todo acc : in_order_fields c fs -> appends (fields_write cu c ctx fs None stored todo acc).
Proof.
  intros H. refine (fst (snd (closed_write_all cu _ _ _ _ (fun _ => True) (@appends unit) True _ _ _ _ _ _ _ _ _ _ _ _ _ _ _)) fs c H ctx None stored todo acc _); intros; auto; try discriminate.
  - eapply appends_ext; eassumption.
  - apply appends_lift.
  - apply appends_bind; auto.
  - intros w Hw. now apply H1.
  - apply appends_prim.
  - apply appends_prim.
  - apply appends_bits.
  - destruct H0 as [H0 _]. congruence.
  - congruence.
  - destruct H0 as [_ H0]. now apply program_appends, H0.
  - now apply program_appends.
Qed.
Lemma same_after {A B} (m : WM A) (f g : A -> WM B) w : (forall a w', f a w' = g a w') -> bind m f w = bind m g w.
Proof. intros H. unfold bind. destruct (m w) as [[a|e| |] w']; auto. Qed.
Lemma value_first n a l more todo ctx acc : names_first n a -> length l = n -> (a_temp a = false -> todo <> []) ->
  field_value a (l ++ more) (todo ++ more) ctx acc = field_value a l todo ctx acc.
Proof.
  intros [_ H] Hl Ht. unfold field_value. destruct (a_temp a).
  - destruct (a_temp_value a) as [f|] eqn:E; [|reflexivity]. now apply (H f eq_refl).
  - destruct todo; [now destruct Ht|reflexivity].
Qed.
Lemma func_first n c a l more ctx acc off v wr : names_first n a -> length l = n ->
  field_write_func c a (l ++ more) ctx acc off v wr = field_write_func c a l ctx acc off v wr.
Proof.
  intros [H _] Hl. unfold field_write_func. destruct (a_writer a) as [f|] eqn:E; [|reflexivity]. now apply (H f eq_refl).
Qed.
Lemma field_first n c a l more ctx acc v wr w : names_first n a -> length l = n ->
  write_field c a (l ++ more) ctx acc v wr w = write_field c a l ctx acc v wr w.
Proof.
  intros H Hl. unfold write_field. apply same_after. intros _ w1. apply same_after. intros _ w2. apply same_after. intros _ w3.
  cbv zeta. now rewrite (func_first n).
Qed.
Lemma write_append n c ctx gs l more : length l = n -> forall fs id todo acc w, names_old n fs -> length todo = kept fs -> (id <> None -> fs <> FNil) ->
  match fields_write cu c ctx fs id l todo acc w with
  | (Ok _, w1) => exists acc', fields_write cu c ctx (append fs gs) id (l ++ more) (todo ++ more) acc w = fields_write cu c ctx gs None (l ++ more) more acc' w1
  | x => fields_write cu c ctx (append fs gs) id (l ++ more) (todo ++ more) acc w = x
  end.
Proof.
  intros Hl. induction fs as [|a t wire tl IH]; intros id todo acc w Hn Ht Hid.
  - assert (id = None) as -> by (destruct id; [destruct Hid; congruence|reflexivity]).
    destruct todo; [|discriminate]. exists acc. reflexivity.
  - destruct Hn as [Ha Hn]. cbn [append]. rewrite !write_cons. cbn [kept] in Ht.
    rewrite (value_first n) by (auto; intros E; rewrite E in Ht; now destruct todo).
    assert (E : field_rest a (todo ++ more) = field_rest a todo ++ more).
    { unfold field_rest. destruct (a_temp a); [reflexivity|]. destruct todo; [discriminate|reflexivity]. }
    rewrite E. set (v := field_value a l todo ctx acc).
    set (m := match id with Some args => write_ty cu t args v | None => write_field c a l ctx acc v (fun args x => write_ty cu t args x) end).
    set (m' := match id with Some args => write_ty cu t args v | None => write_field c a (l ++ more) ctx acc v (fun args x => write_ty cu t args x) end).
    assert (Em' : m' w = m w). { unfold m, m'. destruct id; [reflexivity|]. now apply (field_first n). }
    assert (L : length (field_rest a todo) = kept tl). { unfold field_rest. destruct (a_temp a); [exact Ht|]. destruct todo; [discriminate|]. now injection Ht. }
    destruct (m w) as [[u|e| |] w1] eqn:Em.
    + rewrite (bind_ok _ _ _ _ _ Em), (bind_ok _ _ _ _ _ Em'). apply IH; [exact Hn|exact L|congruence].
    + now rewrite (bind_err _ _ _ _ _ Em), (bind_err _ _ _ _ _ Em').
    + now rewrite (bind_panic _ _ _ _ Em), (bind_panic _ _ _ _ Em').
    + now rewrite (bind_diverge _ _ _ _ Em), (bind_diverge _ _ _ _ Em').
Qed.
Lemma append_fields c fs gs : in_order_fields c (append fs gs) -> in_order_fields c gs.
Proof. induction fs as [|a t wire tl IH]; [auto|]. intros (_ & _ & _ & H). now apply IH. Qed.
Lemma append_old c fs gs : in_order_fields c (append fs gs) -> in_order_fields c fs.
Proof. induction fs as [|a t wire tl IH]; [intros _; exact I|]. intros (H1 & H2 & H3 & H). now repeat split; try apply IH. Qed.
Lemma writes_on_fields c ctx fs gs id l more : names_old (kept fs) fs -> length l = kept fs -> (id <> None -> fs <> FNil) -> in_order_fields c gs ->
  writes_on (fields_write cu c ctx fs id l l []) (fields_write cu c ctx (append fs gs) id (l ++ more) (l ++ more) []).
Proof.
  intros Hn Hl Hid Hg w. pose proof (write_append (kept fs) c ctx gs l more Hl fs id l [] w Hn Hl Hid) as H.
  destruct (fields_write cu c ctx fs id l l [] w) as [[u|e| |] w1]; auto. destruct H as [acc' H].
  eexists. split; [|exact H]. now apply fields_appends.
Qed.
Lemma writes_on_variant e ctx wid vs vs' : longer_variants vs vs' -> every_variant (fun c => c_seek c = None) (fun _ => True)
    (fun _ a _ => a_seek a = None /\ forall f, a_writer a = Some f -> forall st ctx fs off v, writer_program (f st ctx fs off v))
    (fun k => forall args v, writer_program (cu_write (cu k) args v)) (en_c e) vs' -> forall k l more, length l = variant_kept vs k ->
  writes_on (variant_write cu e ctx wid vs k l) (variant_write cu e ctx wid vs' k (l ++ more)).
Proof.
  induction 1 as [|v fs gs vs vs' Hs Hn _ IH]; intros Hw k l more Hl; [apply writes_on_eq|].
  destruct Hw as [Hf Hw]. destruct k as [|k]; [|exact (IH Hw k l more Hl)]. rewrite !write_variant_0.
  assert (E : write_id e v (append fs gs) ctx wid = write_id e v fs ctx wid).
  { unfold write_id. destruct (en_id e), (v_sel v); try reflexivity. destruct fs; [now destruct Hs|reflexivity]. }
  rewrite E. apply writes_on_after. intros _. apply writes_on_fields; auto; [|exact (append_fields _ _ _ Hf)].
  destruct (v_sel v); auto; congruence.
Qed.
Theorem longer_write t t' args v v' : longer t t' -> writes_in_order cu t' -> right_number t v -> grown_value v v' ->
  writes_on (write_ty cu t args v) (write_ty cu t' args v').
Proof.
  intros [c fs gs Hn|e idt vs vs' H] Hw Hr Hv; destruct v, v'; try contradiction; cbn [right_number grown_value] in Hr, Hv.
  - destruct Hv as [more ->]. destruct Hw as [_ Hw]. rewrite !write_struct. apply writes_on_after. intros _. apply writes_on_after. intros _.
    apply writes_on_fields; auto. exact (append_fields _ _ _ Hw).
  - destruct Hv as [-> [more ->]]. destruct Hw as (_ & _ & Hw). rewrite !write_enum. apply writes_on_after. intros _. now apply writes_on_variant.
Qed.
Lemma longer_in_order t t' : longer t t' -> writes_in_order cu t' -> writes_in_order cu t.
Proof.
  intros [c fs gs _|e idt vs vs' H].
  - intros [Hc Hf]. split; [exact Hc|exact (append_old _ _ _ Hf)].
  - intros (He & Hi & Hv). split; [exact He|]. split; [exact Hi|]. clear -H Hv.
    induction H as [|v fs gs vs vs' _ _ _ IH]; [exact I|]. destruct Hv as [Hf Hv]. split; [exact (append_old _ _ _ Hf)|now apply IH].
Qed.
Theorem longer_to_bytes t t' v v' : longer t t' -> writes_in_order cu t' -> right_number t v -> grown_value v v' ->
  match to_bytes cu t v with
  | Ok bytes => forall bits bytes', to_bits cu t v = Ok bits -> to_bytes cu t' v' = Ok bytes' ->
      length bits / 8 <= length bytes' /\ firstn (length bits / 8) bytes' = firstn (length bits / 8) bytes
  | x => to_bytes cu t' v' = x
  end.
Proof.
  intros Ht Hw Hr Hv. pose proof (longer_write t t' [] v v' Ht Hw Hr Hv (writer_new vec_sink)) as G.
  destruct (derived_appends cu t [] v (longer_in_order t t' Ht Hw) (writer_new vec_sink) fresh_good) as [Hg (bs & [[Ed Ep _ _ _] Eb])].
  unfold to_bytes, to_bytes_with, to_bits, to_bits_with.
  destruct (write_ty cu t [] v (writer_new vec_sink)) as [[[]|e| |] w] eqn:Em; cbn [snd] in *.
  - rewrite (bind_ok _ _ _ _ _ Em). cbn [writer_new w_k vec_sink k_data k_pos w_bits] in Ed, Ep, Eb. rewrite overlay_empty in Ed.
    destruct (appends_finalize w Hg) as (w' & Ef & _ & _ & [[Fd _ _ _ _] _]). rewrite Ef. cbn [res_map].
    rewrite Ep, Nat.add_0_l, <- Ed, overlay_end in Fd. intros bits bytes' E. injection E as <-. destruct G as (more & Ha & G).
    assert (Hbind : (let* _ := write_ty cu t' [] v' in finalize) (writer_new vec_sink) = (let* _ := more in finalize) w).
    { unfold bind. now rewrite G. }
    rewrite Hbind. assert (Hb : appends (let* _ := more in finalize)).
    { apply appends_bind; [exact Ha|]. intros _ w2 H2. destruct (appends_finalize w2 H2) as (w3 & -> & G3 & _ & A3). eauto. }
    destruct (Hb w Hg) as [_ (b2 & [[Gd _ _ _ _] _])]. destruct ((let* _ := more in finalize) w) as [x w2]. cbn [snd] in Gd.
    rewrite Ep, Nat.add_0_l, <- Ed, overlay_end in Gd. intros E. destruct x; [|discriminate..]. cbn [res_map] in E. injection E as <-.
    assert (L : length (bits_of_bytes (k_data (w_k w)) ++ w_left w) / 8 = length (k_data (w_k w))).
    { rewrite app_length, bits_of_bytes_length. destruct Hg as [_ Hl]. symmetry. apply (Nat.div_unique _ 8 _ (length (w_left w))); lia. }
    rewrite L, Gd, Fd. rewrite app_length. split; [lia|]. now rewrite !firstn_app, Nat.sub_diag, !firstn_O, !firstn_all.
  - rewrite (bind_err _ _ _ _ _ Em), (bind_err _ _ _ _ _ G). reflexivity.
  - rewrite (bind_panic _ _ _ _ Em), (bind_panic _ _ _ _ G). reflexivity.
  - rewrite (bind_diverge _ _ _ _ Em), (bind_diverge _ _ _ _ G). reflexivity.
Qed.
End Writing.
