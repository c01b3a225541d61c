(** Adding variants: the old version refuses a message or agrees with the new one. *)
From Coq Require Import Lia.
From Verif Require Import Base Spec Stream Reader Session Writer Prims MonadFacts Containers Derive DeriveSpec DeriveSound DeriveProps SafeSpec FlowSpec FlowFacts CompatSpec.

Section Reading.
Variable grown : bool.
(** [m] of the old version, [m'] of the new one. *)
Definition agrees {S A} (m m' : ST S A) : Prop :=
  forall s, m' s = m s \/ fst (m s) = Err Parse \/ (grown = true /\ fst (m' s) = Panic).
Lemma a_refl {S A} (m : ST S A) : agrees m m.
Proof. intros s. now left. Qed.
Lemma a_bind {S A B} (m m' : ST S A) (f f' : A -> ST S B) : agrees m m' -> (forall a, agrees (f a) (f' a)) -> agrees (bind m f) (bind m' f').
Proof.
  intros Hm Hf s. unfold bind. destruct (Hm s) as [E|[E|[G E]]].
  - rewrite E. destruct (m s) as [[a|e| |] s1]; try (now left). apply Hf.
  - right; left. destruct (m s) as [[a|e| |] s1]; cbn [fst] in E; try discriminate. now inversion E.
  - right; right. split; [exact G|]. destruct (m' s) as [[a|e| |] s1]; cbn [fst] in E; try discriminate. reflexivity.
Qed.
Lemma a_parse {S A} (m : ST S A) : agrees (fail Parse) m.
Proof. intros s. right; left. reflexivity. Qed.

Lemma a_vec_loop {A} f : forall (el el' : RM A) stop start acc, agrees el el' -> agrees (vec_loop f el stop start acc) (vec_loop f el' stop start acc).
Proof.
  induction f as [|f IH]; intros el el' stop start acc He; [apply a_refl|]. cbn [vec_loop].
  apply a_bind; [exact He|]. intros v r. destruct (_ <? _); [now left|]. destruct (stop _ _); [now left|]. apply IH, He.
Qed.
Lemma a_end_loop {A} f : forall (el el' : RM A) acc, agrees el el' -> agrees (end_loop f el acc) (end_loop f el' acc).
Proof.
  induction f as [|f IH]; intros el el' acc He; [apply a_refl|]. cbn [end_loop]. intros r. destruct (r_end r) as [[] r1]; [now left|].
  refine (a_bind el el' _ _ He _ r1). intros v. apply IH, He.
Qed.
Lemma same_zero size size' : same_room grown size size' -> (size' =? 0)%N = (size =? 0)%N.
Proof. unfold same_room. destruct grown; intros H; [|now subst]. lia. Qed.
Lemma room_le size size' : same_room grown size size' -> (size <= size')%N /\ (grown = false -> size = size').
Proof. unfold same_room. destruct grown; intros H; [|subst; split; [lia|reflexivity]]. split; [lia|discriminate]. Qed.
Lemma a_pred {A} f size size' cap (el el' : RM A) stop : same_room grown size size' -> agrees el el' ->
  agrees (vec_with_predicate f size cap el stop) (vec_with_predicate f size' cap el' stop).
Proof.
  intros Hs He r. unfold vec_with_predicate. rewrite (same_zero _ _ Hs). destruct (size =? 0)%N; [now left|].
  destruct (room_le _ _ Hs) as [Hle Heq].
  destruct (match cap with Some c => (isize_max <? c * size')%N | None => false end) eqn:E'.
  - destruct grown eqn:G; [right; right; now split|]. rewrite (Heq eq_refl), E'. now left.
  - assert (E : match cap with Some c => (isize_max <? c * size)%N | None => false end = false).
    { destruct cap as [c|]; [|reflexivity]. apply N.ltb_ge in E'. apply N.ltb_ge. refine (N.le_trans _ _ _ _ E'). now apply N.mul_le_mono_l. }
    rewrite E. now apply a_vec_loop.
Qed.
Lemma a_vec {A} f size size' (el el' : RM A) lim : same_room grown size size' -> agrees el el' -> agrees (vec_read f size el lim) (vec_read f size' el' lim).
Proof.
  intros Hs He. destruct lim; cbn [vec_read].
  - destruct (n =? 0)%N; [apply a_refl|]. intros r. now apply a_pred.
  - now apply a_pred.
  - destruct (_ <? _)%N; [apply a_refl|]. destruct (_ =? 0)%N; [apply a_refl|]. now apply a_pred.
  - destruct (_ =? 0)%N; [apply a_refl|]. now apply a_pred.
  - unfold vec_to_end. rewrite (same_zero _ _ Hs). destruct (_ =? 0)%N; [apply a_refl|]. now apply a_end_loop.
Qed.
Lemma same_slot k size size' : same_room grown size size' -> same_room grown (slot_size k size) (slot_size k size').
Proof. unfold same_room, slot_size. destruct grown; [|intros ->; reflexivity]. destruct (hashed k); lia. Qed.
Lemma a_array {A} n (el el' : RM A) : agrees el el' -> agrees (read_array n el) (read_array n el').
Proof.
  intros He. induction n as [|n IH]; cbn [read_array]; [apply a_refl|]. apply a_bind; [exact He|]. intros v.
  apply a_bind; [exact IH|]. intros vs. apply a_refl.
Qed.
Ltac at_agree := let s := fresh "s" in intros s; cbv beta; lazymatch goal with |- ?m' s = ?m s \/ _ => refine ((_ : agrees m m') s) end.
Lemma a_field c a b ctx acc rd rd' : (forall lim args, agrees (rd lim args) (rd' lim args)) ->
  agrees (read_field c a b ctx acc rd) (read_field c a b ctx acc rd').
Proof.
  intros H. unfold read_field. do 3 (apply a_bind; [apply a_refl|]; intros _).
  at_agree. set (off := r_bits s). apply a_bind; [|intros v; apply a_refl].
  assert (HF : agrees (field_read_func c a b ctx acc off rd) (field_read_func c a b ctx acc off rd')).
  { unfold field_read_func. destruct (a_reader a); [apply a_refl|]. destruct (a_limit a); [|apply H]. apply a_bind; [apply a_refl|].
    intros lim. destruct b, lim; try apply H; apply a_refl. }
  assert (HN : agrees (field_read_normal a ctx acc off (field_read_func c a b ctx acc off rd)) (field_read_normal a ctx acc off (field_read_func c a b ctx acc off rd'))).
  { unfold field_read_normal. apply a_bind; [exact HF|]. intros v. apply a_refl. }
  unfold field_read_tokens. destruct (a_skip a) as [[]|], (a_cond a) as [g|]; try exact HN; try apply a_refl; destruct (g ctx acc off); try exact HN; apply a_refl.
Qed.
Lemma vec_u8_extends t t' : extends grown t t' -> is_vec_u8 t' = is_vec_u8 t.
Proof.
  destruct t as [| | | | | | | |k size a| | |], t' as [| | | | | | | |k' size' a'| | |]; cbn [extends]; try contradiction; try reflexivity.
  intros (<- & _ & H). destruct k; try reflexivity. cbn [is_vec_u8]. destruct a, a'; cbn [extends] in H; try contradiction; try reflexivity. now subst.
Qed.
Definition body_agrees (default : bool) (d d' : option (RM value)) : Prop :=
  match d, d' with Some m, Some m' => default = true /\ agrees m m' | None, None => default = false | _, _ => False end.
Section Types.
Variables (cu : nat -> custom) (f : nat).
Theorem types_agree :
  (forall t t' lim args, extends grown t t' -> agrees (read_ty cu f t lim args) (read_ty cu f t' lim args)) /\
  (forall fs fs' c ctx id acc, fields_extend grown fs fs' -> agrees (fields_read cu f c ctx fs id acc) (fields_read cu f c ctx fs' id acc)) /\
  (forall vs vs' default e ctx id k d d', variants_extend grown default vs vs' -> body_agrees default d d' ->
     agrees (variants_read cu f e ctx id vs k d) (variants_read cu f e ctx id vs' k d')).
Proof.
  apply types_ind.
  - intros p [] lim args H; cbn [extends] in H; try contradiction. subst. apply a_refl.
  - intros [] lim args H; cbn [extends] in H; try contradiction. apply a_refl.
  - intros p [] lim args H; cbn [extends] in H; try contradiction. subst. apply a_refl.
  - intros [] lim args H; cbn [extends] in H; try contradiction. apply a_refl.
  - intros [] lim args H; cbn [extends] in H; try contradiction. apply a_refl.
  - intros t IH [] lim args H; cbn [extends] in H; try contradiction. cbn [read_ty]. apply a_bind; [auto|]. intros; apply a_refl.
  - intros a IHa b IHb [] lim args H; cbn [extends] in H; try contradiction. destruct H. cbn [read_ty].
    apply a_bind; [auto|]. intros x. apply a_bind; [auto|]. intros; apply a_refl.
  - intros n t IH [] lim args H; cbn [extends] in H; try contradiction. destruct H as [<- H]. cbn [read_ty].
    apply a_bind; [|intros; apply a_refl]. apply a_array. auto.
  - intros k size t IH [] lim args H; cbn [extends] in H; try contradiction. destruct H as (<- & Hs & H). cbn [read_ty].
    destruct lim; [|apply a_refl]. apply a_bind; [|intros; apply a_refl]. apply a_vec; [now apply same_slot|auto].
  - intros c fs IH [] lim args H; cbn [extends] in H; try contradiction. destruct H as [<- H]. rewrite !read_struct.
    do 2 (apply a_bind; [apply a_refl|]; intros). apply a_bind; [auto|]. intros; apply a_refl.
  - intros e idt IHi vs IH [] lim args H; cbn [extends] in H; try contradiction. destruct H as (<- & <- & H). rewrite !read_enum.
    apply a_bind; [apply a_refl|]. intros _. apply a_bind; [apply a_refl|]. intros id. eapply IH; [exact H|reflexivity].
  - intros k [] lim args H; cbn [extends] in H; try contradiction. subst. apply a_refl.
  - intros [] c ctx id acc H; cbn [fields_extend] in H; try contradiction. apply a_refl.
  - intros a t IHt wire IHw tl IH [] c ctx id acc H; cbn [fields_extend] in H; try contradiction. destruct H as (<- & Ht & Hw & H).
    cbn [fields_read]. rewrite (vec_u8_extends _ _ Ht). apply a_bind.
    + destruct id; [destruct (a_reader a)|]; try apply a_refl; apply a_field; intros; auto.
    + intros v. apply a_bind; [auto|]. intros; apply a_refl.
  - intros vs' default e ctx id k d d' H Hd. destruct d as [m|], d' as [m'|]; cbn [body_agrees] in Hd; try contradiction.
    + destruct Hd as [-> Hd]. cbn [variants_extend] in H. subst. exact Hd.
    + apply a_parse.
  - intros v fs IHf tl IH [|v' fs' tl'] default e ctx id k d d' H Hd; cbn [variants_extend] in H; try contradiction. destruct H as (<- & Hf & H).
    cbn [variants_read].
    assert (HB : agrees (let* l := fields_read cu f (en_c e) ctx fs (if stores_id e v then Some id else None) [] in ret (VVar k l))
                        (let* l := fields_read cu f (en_c e) ctx fs' (if stores_id e v then Some id else None) [] in ret (VVar k l))).
    { apply a_bind; [auto|]. intros; apply a_refl. }
    destruct (matches _ _); [exact HB|]. apply IH with (1 := H). destruct d, d'; cbn in Hd |- *; try contradiction.
    + destruct Hd as [-> Hd]. now split.
    + subst. cbn. destruct (v_default v); cbn; [now split|reflexivity].
Qed.
End Types.

Lemma compat_reader cu fuel t t' s bit : extends grown t t' ->
  from_reader cu fuel t' s bit = from_reader cu fuel t s bit \/ fst (from_reader cu fuel t s bit) = Err Parse \/
  (grown = true /\ fst (from_reader cu fuel t' s bit) = Panic).
Proof.
  intros H. unfold from_reader.
  assert (G : agrees (let* _ := if bit =? 0 then ret tt else skip_bits bit Msb0 in let* v := read_ty cu fuel t None [] in fun r => (Ok (r_bits r, v), r))
                     (let* _ := if bit =? 0 then ret tt else skip_bits bit Msb0 in let* v := read_ty cu fuel t' None [] in fun r => (Ok (r_bits r, v), r))).
  { apply a_bind; [apply a_refl|]. intros _. apply a_bind; [now apply types_agree|]. intros v. apply a_refl. }
  specialize (G (reader_new s)). destruct ((let* _ := _ in let* v := read_ty cu fuel t None [] in _) (reader_new s)) as [x r].
  destruct ((let* _ := _ in let* v := read_ty cu fuel t' None [] in _) (reader_new s)) as [x' r']. cbn [fst] in *.
  destruct G as [G|[G|G]]; [left; now inversion G|right; now left|right; now right].
Qed.
Lemma compat_from_bytes cu fuel t t' input bit : extends grown t t' ->
  from_bytes cu fuel t' input bit = from_bytes cu fuel t input bit \/ from_bytes cu fuel t input bit = Err Parse \/
  (grown = true /\ from_bytes cu fuel t' input bit = Panic).
Proof.
  intros H. unfold from_bytes. destruct (compat_reader cu fuel t t' (cursor input) bit H) as [E|[E|[G E]]].
  - rewrite E. now left.
  - right; left. destruct (from_reader cu fuel t (cursor input) bit) as [[[]|e| |] s]; cbn [fst] in E; try discriminate. now inversion E.
  - right; right. split; [exact G|]. destruct (from_reader cu fuel t' (cursor input) bit) as [[[]|e| |] s]; cbn [fst] in E; try discriminate. reflexivity.
Qed.
Lemma compat_try_from cu fuel t t' input : extends grown t t' ->
  try_from cu fuel t' input = try_from cu fuel t input \/ try_from cu fuel t input = Err Parse \/
  (grown = true /\ try_from cu fuel t' input = Panic).
Proof.
  intros H. unfold try_from. destruct (compat_reader cu fuel t t' (cursor input) 0 H) as [E|[E|[G E]]].
  - rewrite E. now left.
  - right; left. destruct (from_reader cu fuel t (cursor input) 0) as [[[]|e| |] s]; cbn [fst] in E; try discriminate. now inversion E.
  - right; right. split; [exact G|]. destruct (from_reader cu fuel t' (cursor input) 0) as [[[]|e| |] s]; cbn [fst] in E; try discriminate. reflexivity.
Qed.
End Reading.

(** Writing *)
Section Writing.
Variable grown : bool.
Definition keeps {S A} (m m' : ST S A) : Prop := forall s, m' s = m s \/ fst (m s) = Panic.
Lemma k_refl {S A} (m : ST S A) : keeps m m.
Proof. intros s. now left. Qed.
Lemma k_bind {S A B} (m m' : ST S A) (f f' : A -> ST S B) : keeps m m' -> (forall a, keeps (f a) (f' a)) -> keeps (bind m f) (bind m' f').
Proof.
  intros Hm Hf s. unfold bind. destruct (Hm s) as [E|E].
  - rewrite E. destruct (m s) as [[a|e| |] s1]; try (now left). apply Hf.
  - right. destruct (m s) as [[a|e| |] s1]; cbn [fst] in E; try discriminate. reflexivity.
Qed.
Lemma k_list {A} (f f' : A -> WM unit) l : (forall x, keeps (f x) (f' x)) -> keeps (write_list f l) (write_list f' l).
Proof. intros H. induction l as [|x l IH]; cbn [write_list]; [apply k_refl|]. apply k_bind; auto. Qed.
Ltac at_keep := let s := fresh "s" in intros s; cbv beta; lazymatch goal with |- ?m' s = ?m s \/ _ => refine ((_ : keeps m m') s) end.
Lemma k_field c a stored ctx acc v wr wr' : (forall args x, keeps (wr args x) (wr' args x)) ->
  keeps (write_field c a stored ctx acc v wr) (write_field c a stored ctx acc v wr').
Proof.
  intros H. unfold write_field. do 3 (apply k_bind; [apply k_refl|]; intros).
  at_keep. apply k_bind; [apply k_refl|]. intros. apply k_bind; [|intros; apply k_refl].
  assert (HF : keeps (field_write_func c a stored ctx acc (w_bits s) v wr) (field_write_func c a stored ctx acc (w_bits s) v wr')).
  { unfold field_write_func. destruct (a_writer a); [apply k_refl|]. destruct (a_temp a); [destruct (a_temp_value a); [auto|apply k_refl]|auto]. }
  unfold field_write_tokens. destruct (a_skip a) as [[]|], (a_cond a) as [g|]; try exact HF; try apply k_refl; destruct (g ctx acc _); try exact HF; apply k_refl.
Qed.
Lemma k_panic {S A} (m : ST S A) : keeps panic m.
Proof. intros s. now right. Qed.
Lemma no_fields_extend fs fs' : fields_extend grown fs fs' -> no_fields fs' = no_fields fs.
Proof. destruct fs, fs'; cbn; try contradiction; reflexivity. Qed.
Section Types.
Variable cu : nat -> custom.
Theorem writes_keep :
  (forall t t' args v, extends grown t t' -> keeps (write_ty cu t args v) (write_ty cu t' args v)) /\
  (forall fs fs' c ctx id stored todo acc, fields_extend grown fs fs' ->
     keeps (fields_write cu c ctx fs id stored todo acc) (fields_write cu c ctx fs' id stored todo acc)) /\
  (forall vs vs' default e ctx wid k l, variants_extend grown default vs vs' ->
     keeps (variant_write cu e ctx wid vs k l) (variant_write cu e ctx wid vs' k l)).
Proof.
  apply types_ind.
  - intros p [] args v H; cbn [extends] in H; try contradiction. subst. apply k_refl.
  - intros [] args v H; cbn [extends] in H; try contradiction. apply k_refl.
  - intros p [] args v H; cbn [extends] in H; try contradiction. subst. apply k_refl.
  - intros [] args v H; cbn [extends] in H; try contradiction. apply k_refl.
  - intros [] args v H; cbn [extends] in H; try contradiction. apply k_refl.
  - intros t IH [] args v H; cbn [extends] in H; try contradiction. cbn [write_ty]. destruct v; try apply k_refl. auto.
  - intros a IHa b IHb [] args v H; cbn [extends] in H; try contradiction. destruct H. cbn [write_ty]. destruct v; try apply k_refl. apply k_bind; auto.
  - intros n t IH [] args v H; cbn [extends] in H; try contradiction. destruct H as [<- H]. cbn [write_ty]. destruct v; try apply k_refl. apply k_list. auto.
  - intros k size t IH [] args v H; cbn [extends] in H; try contradiction. destruct H as (<- & _ & H). cbn [write_ty]. destruct v; try apply k_refl. apply k_list. auto.
  - intros c fs IH [] args v H; cbn [extends] in H; try contradiction. destruct H as [<- H]. cbn [write_ty]. destruct v; try apply k_refl.
    do 2 (apply k_bind; [apply k_refl|]; intros). apply IH. exact H.
  - intros e idt IHi vs IH [] args v H; cbn [extends] in H; try contradiction. destruct H as (<- & <- & H). cbn [write_ty]. destruct v; try apply k_refl.
    apply k_bind; [apply k_refl|]. intros. eapply IH. exact H.
  - intros k [] args v H; cbn [extends] in H; try contradiction. subst. apply k_refl.
  - intros [] c ctx id stored todo acc H; cbn [fields_extend] in H; try contradiction. apply k_refl.
  - intros a t IHt wire IHw tl IH [] c ctx id stored todo acc H; cbn [fields_extend] in H; try contradiction. destruct H as (<- & Ht & _ & H).
    cbn [fields_write]. apply k_bind; [|intros; auto]. destruct id; [auto|]. apply k_field. auto.
  - intros vs' default e ctx wid k l _. apply k_panic.
  - intros v fs IHf tl IH [|v' fs' tl'] default e ctx wid k l H; cbn [variants_extend] in H; try contradiction. destruct H as (<- & Hf & H).
    cbn [variant_write]. destruct k; [|eapply IH; exact H]. apply k_bind; [|intros; auto]. unfold write_id. rewrite (no_fields_extend _ _ Hf). apply k_refl.
Qed.
End Types.
Lemma compat_writer cu t t' args v w : extends grown t t' -> fst (write_ty cu t args v w) <> Panic -> write_ty cu t' args v w = write_ty cu t args v w.
Proof. intros H N. destruct (proj1 (writes_keep cu) t t' args v H w) as [E|E]; [exact E|contradiction]. Qed.
Lemma compat_to_bytes cu t t' v : extends grown t t' -> to_bytes cu t v <> Panic -> to_bytes cu t' v = to_bytes cu t v.
Proof.
  intros H N. unfold to_bytes, to_bytes_with in *.
  assert (G : keeps (let* _ := write_ty cu t [] v in finalize) (let* _ := write_ty cu t' [] v in finalize)).
  { apply k_bind; [now apply writes_keep|]. intros. apply k_refl. }
  destruct (G (writer_new vec_sink)) as [E|E]; [now rewrite E|].
  destruct ((let* _ := write_ty cu t [] v in finalize) (writer_new vec_sink)) as [x w]. cbn [fst] in E. subst. now destruct N.
Qed.
Lemma compat_to_slice cu t t' v buf : extends grown t t' -> fst (to_slice cu t v buf) <> Panic -> to_slice cu t' v buf = to_slice cu t v buf.
Proof.
  intros H N. unfold to_slice, to_slice_with in *.
  assert (G : keeps (let* _ := write_ty cu t [] v in finalize) (let* _ := write_ty cu t' [] v in finalize)).
  { apply k_bind; [now apply writes_keep|]. intros. apply k_refl. }
  destruct (G (writer_new (slice_sink buf))) as [E|E]; [now rewrite E|].
  destruct ((let* _ := write_ty cu t [] v in finalize) (writer_new (slice_sink buf))) as [x w]. cbn [fst] in E. subst. now destruct N.
Qed.
Lemma compat_to_bits cu t t' v : extends grown t t' -> to_bits cu t v <> Panic -> to_bits cu t' v = to_bits cu t v.
Proof.
  intros H N. unfold to_bits, to_bits_with in *. destruct (proj1 (writes_keep cu) t t' [] v H (writer_new vec_sink)) as [E|E]; [now rewrite E|].
  destruct (write_ty cu t [] v (writer_new vec_sink)) as [x w]. cbn [fst] in E. subst. now destruct N.
Qed.
Lemma compat_update_fields fs : forall fs' pre todo, fields_extend grown fs fs' -> update_fields fs' pre todo = update_fields fs pre todo.
Proof.
  induction fs as [|a t wire tl IH]; intros [|a' t' wire' tl'] pre todo H; cbn [fields_extend] in H; try contradiction; [reflexivity|].
  destruct H as (<- & _ & _ & H). cbn [update_fields]. destruct (a_temp a); [now apply IH|]. destruct todo as [|v rest]; [reflexivity|].
  destruct (a_update a) as [g|]; [|now apply IH]. destruct (g _) as [v'| | |]; cbn [res_bind]; try reflexivity. now apply IH.
Qed.
Lemma nth_extends vs : forall default vs' k v fs, variants_extend grown default vs vs' -> nth_variant vs k = Some (v, fs) ->
  exists fs', nth_variant vs' k = Some (v, fs') /\ fields_extend grown fs fs'.
Proof.
  induction vs as [|w fs tl IH]; intros default [|w' fs' tl'] k v gs H E; cbn [nth_variant variants_extend] in *; try discriminate; try contradiction.
  destruct H as (<- & Hf & H). destruct k as [|k]; [|eapply IH; eassumption]. inversion E; subst. exists fs'. now split.
Qed.
Lemma compat_update t t' v : extends grown t t' -> update t v <> Panic -> update t' v = update t v.
Proof.
  destruct t, t'; cbn [extends]; try contradiction; intros H N; try reflexivity.
  - destruct H as [<- H]. destruct v; try reflexivity. cbn [update]. now rewrite (compat_update_fields _ _ _ _ H).
  - destruct H as (<- & <- & H). destruct v; try reflexivity. cbn [update] in *. destruct (nth_variant vs k) as [[w gs]|] eqn:E; [|contradiction].
    destruct (nth_extends _ _ _ _ _ _ H E) as (gs' & -> & Hf). now rewrite (compat_update_fields _ _ _ _ Hf).
Qed.
Lemma compat_deku_id vs : forall default vs' k, variants_extend grown default vs vs' -> nth_variant vs k <> None -> deku_id vs' k = deku_id vs k.
Proof.
  induction vs as [|w fs tl IH]; intros default [|w' fs' tl'] k H N; cbn [nth_variant deku_id variants_extend] in *; try contradiction.
  destruct H as (<- & Hf & H). destruct k as [|k]; [reflexivity|]. eapply IH; eassumption.
Qed.
Lemma compat_typed : (forall t t' v, extends grown t t' -> typed t v -> typed t' v) /\
  (forall fs fs' l, fields_extend grown fs fs' -> fields_typed fs l -> fields_typed fs' l) /\
  (forall vs vs' default k l, variants_extend grown default vs vs' -> variant_typed vs k l -> variant_typed vs' k l).
Proof.
  apply types_ind.
  - intros p [] v H; cbn [extends] in H; try contradiction. now subst.
  - intros [] v H; cbn [extends] in H; try contradiction. auto.
  - intros p [] v H; cbn [extends] in H; try contradiction. now subst.
  - intros [] v H; cbn [extends] in H; try contradiction. auto.
  - intros [] v H; cbn [extends] in H; try contradiction. auto.
  - intros t IH [] v H; cbn [extends] in H; try contradiction. destruct v; cbn [typed_in]; eauto.
  - intros a IHa b IHb [] v H; cbn [extends] in H; try contradiction. destruct H, v; cbn [typed_in]; try tauto. intros []. split; eauto.
  - intros n t IH [] v H; cbn [extends] in H; try contradiction. destruct H as [<- H], v; cbn [typed_in]; try tauto. intros [L F]. split; [exact L|].
    eapply Forall_impl; [|exact F]. intros x. now apply IH.
  - intros k size t IH [] v H; cbn [extends] in H; try contradiction. destruct H as (<- & _ & H), v; cbn [typed_in]; try tauto. intros [F D]. split; [|exact D].
    eapply Forall_impl; [|exact F]. intros x. now apply IH.
  - intros c fs IH [] v H; cbn [extends] in H; try contradiction. destruct H as [<- H], v; cbn [typed_in]; try tauto. now apply IH.
  - intros e idt IHi vs IH [] v H; cbn [extends] in H; try contradiction. destruct H as (<- & <- & H), v; cbn [typed_in]; try tauto. eapply IH; exact H.
  - intros k [] v H; cbn [extends] in H; try contradiction. now subst.
  - intros [] l H; cbn [fields_extend] in H; try contradiction. auto.
  - intros a t IHt wire IHw tl IH [] l H; cbn [fields_extend] in H; try contradiction. destruct H as (<- & Ht & _ & H). cbn [fields_typed_in].
    destruct (a_temp a); [now apply IH|]. destruct l; [tauto|]. intros [A B]. split; [exact (IHt _ _ Ht A)|exact (IH _ _ H B)].
  - intros vs' default k l _ [].
  - intros v fs IHf tl IH [|v' fs' tl'] default k l H; cbn [variants_extend] in H; try contradiction. destruct H as (<- & Hf & H).
    cbn [variant_typed_in]. destruct k; [now apply IHf|]. eapply IH; exact H.
Qed.
End Writing.

(** Readers that never panic. *)
Lemma compat_backward cu fuel grown t t' input bit x : extends grown t t' -> from_bytes cu fuel t input bit = Ok x ->
  grown = false \/ (flow_type cu t' /\ bit < 8 /\ 8 * length input + 8 < fuel) -> from_bytes cu fuel t' input bit = Ok x.
Proof.
  intros H E G. destruct (compat_from_bytes grown cu fuel t t' input bit H) as [K|[K|[K P]]]; [congruence|congruence|].
  destruct G as [G|(F & Hb & Hf)]; [congruence|]. destruct (flow_from_bytes cu fuel t' input bit F Hb Hf) as (N & _). contradiction.
Qed.
Lemma compat_forward cu fuel grown t t' input bit x : extends grown t t' -> from_bytes cu fuel t' input bit = Ok x ->
  from_bytes cu fuel t input bit = Ok x \/ from_bytes cu fuel t input bit = Err Parse.
Proof. intros H E. destruct (compat_from_bytes grown cu fuel t t' input bit H) as [K|[K|[K P]]]; [left; congruence|now right|congruence]. Qed.
Lemma compat_refused cu fuel grown t t' input bit rest v : extends grown t t' -> flow_type cu t -> bit < 8 -> 8 * length input + 8 < fuel ->
  from_bytes cu fuel t' input bit = Ok (rest, v) -> ~ typed t v -> from_bytes cu fuel t input bit = Err Parse.
Proof.
  intros H F Hb Hf E N. destruct (compat_forward cu fuel grown t t' input bit _ H E) as [K|K]; [|exact K].
  destruct (flow_from_bytes cu fuel t input bit F Hb Hf) as (_ & _ & T). destruct N. eapply T, K.
Qed.
Lemma compat_reader_same cu fuel t t' s bit : extends false t t' ->
  from_reader cu fuel t' s bit = from_reader cu fuel t s bit \/ fst (from_reader cu fuel t s bit) = Err Parse.
Proof. intros H. destruct (compat_reader false cu fuel t t' s bit H) as [E|[E|[E _]]]; [now left|now right|discriminate]. Qed.
Lemma compat_try_from_same cu fuel t t' input : extends false t t' ->
  try_from cu fuel t' input = try_from cu fuel t input \/ try_from cu fuel t input = Err Parse.
Proof. intros H. destruct (compat_try_from false cu fuel t t' input H) as [E|[E|[E _]]]; [now left|now right|discriminate]. Qed.
