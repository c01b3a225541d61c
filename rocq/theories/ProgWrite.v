(** Derived writers are programs that use their sink through [write_all] and [seek]. *)
From Coq Require Import Lia ZifyBool ZifyNat ZifyN.
From Verif Require Import Base MonadFacts Spec Stream Reader Writer Prims Containers Derive DeriveSpec DeriveSound DeriveClosed MsgSpec Chunks ChunkSpec ChunkFacts.

Fixpoint wprog_bind {A B} (p : wprog A) (f : A -> wprog B) : wprog B :=
  match p with
  | WDone a => f a
  | Write n k => Write n (fun x => wprog_bind (k x) f)
  | WSeek w k => WSeek w (fun x => wprog_bind (k x) f)
  end.
Lemma wrun_bind {A B} (p : wprog A) (f : A -> wprog B) : forall s, wrun (wprog_bind p f) s = let '(a, s') := wrun p s in wrun (f a) s'.
Proof.
  induction p as [a|n k IH|w k IH]; intros s; cbn [wprog_bind wrun]; [reflexivity| |].
  - destruct (k_write_all n s) as [x s']. apply IH.
  - destruct (k_seek w s) as [x s']. apply IH.
Qed.

Definition wends {A} (y : (res A * list bool * order * nat) * sink) : res A * writer :=
  let '((x, l, o, b), k) := y in (x, mkWriter k l o b).
Definition is_wprog {A} (m : WM A) : Type :=
  forall l o b, { p : wprog (res A * list bool * order * nat) | forall k, m (mkWriter k l o b) = wends (wrun p k) }.

Lemma h_ext {A} (m1 m2 : WM A) : (forall w, m1 w = m2 w) -> is_wprog m1 -> is_wprog m2.
Proof. intros E M l o b. destruct (M l o b) as [p H]. exists p. intros k. rewrite <- E. apply H. Qed.
Lemma h_lift {A} (x : res A) : is_wprog (lift x).
Proof. intros l o b. exists (WDone (x, l, o, b)). reflexivity. Qed.
Lemma h_ret {A} (a : A) : is_wprog (ret a).
Proof. exact (h_lift (Ok a)). Qed.
Lemma h_fail {A} e : is_wprog (fail (A:=A) e).
Proof. exact (h_lift (Err e)). Qed.
Lemma h_panic {A} : is_wprog (panic (A:=A)).
Proof. exact (h_lift Panic). Qed.
Lemma h_assert b : is_wprog (assert_ b).
Proof. destruct b; [apply h_ret|apply h_panic]. Qed.
Lemma h_bind {A B} (m : WM A) (f : A -> WM B) : is_wprog m -> (forall a, is_wprog (f a)) -> is_wprog (bind m f).
Proof.
  intros M F l o b. destruct (M l o b) as [p H].
  exists (wprog_bind p (fun y => let '(x, l', o', b') := y in
     match x with Ok a => proj1_sig (F a l' o' b') | Err e => WDone (Err e, l', o', b') | Panic => WDone (Panic, l', o', b') | Diverge => WDone (Diverge, l', o', b') end)).
  intros k. rewrite wrun_bind. unfold bind. rewrite H. destruct (wrun p k) as [[[[x l'] o'] b'] k']. cbn [wends]. destruct x as [a|e| |]; try reflexivity.
  apply (proj2_sig (F a l' o' b')).
Qed.
Lemma h_see {A} (f : writer -> WM A) : (forall w, is_wprog (f w)) ->
  (forall w1 w2, w_left w1 = w_left w2 -> w_ord w1 = w_ord w2 -> w_bits w1 = w_bits w2 -> f w1 = f w2) -> is_wprog (fun w => f w w).
Proof.
  intros F E l o b. destruct (F (mkWriter vec_sink l o b) l o b) as [p H]. exists p. intros k.
  rewrite (E (mkWriter k l o b) (mkWriter vec_sink l o b) eq_refl eq_refl eq_refl). apply H.
Qed.
Lemma h_get {A} (f : writer -> WM A) : (forall w, is_wprog (f w)) ->
  (forall w1 w2, w_left w1 = w_left w2 -> w_ord w1 = w_ord w2 -> w_bits w1 = w_bits w2 -> f w1 = f w2) -> is_wprog (bind get f).
Proof. exact (h_see f). Qed.
Lemma h_left : is_wprog wleft.
Proof. intros l o b. exists (WDone (Ok l, l, o, b)). reflexivity. Qed.
Lemma h_take : is_wprog take_left.
Proof. intros l o b. exists (WDone (Ok l, [], Msb0, b)). reflexivity. Qed.
Lemma h_add n : is_wprog (wmod (fun w => w_add_bits w n)).
Proof. intros l o b. exists (WDone (Ok tt, l, o, b + n)). reflexivity. Qed.
Lemma h_ord o' : is_wprog (wmod (fun w => w_set_ord w o')).
Proof. intros l o b. exists (WDone (Ok tt, l, o', b)). reflexivity. Qed.
Lemma h_setleft l' : is_wprog (wmod (fun w => w_set_left w l')).
Proof. intros l o b. exists (WDone (Ok tt, l', o, b)). reflexivity. Qed.
Lemma h_reset : is_wprog (wmod (fun w => w_set_ord (w_set_left w []) Msb0)).
Proof. intros l o b. exists (WDone (Ok tt, [], Msb0, b)). reflexivity. Qed.
Lemma h_write_all buf : is_wprog (w_write_all buf).
Proof.
  intros l o b. exists (Write buf (fun x => match x with IoOk _ => WDone (Ok tt, l, o, b) | IoErr e => WDone (Err (Io e), l, o, b) end)).
  intros k. cbn [wrun]. unfold w_write_all. cbn [w_k]. destruct (k_write_all buf k) as [[u|e] k']; reflexivity.
Qed.
Lemma h_seek t : is_wprog (lift_io (w_seek t)).
Proof.
  intros l o b. exists (WSeek t (fun x => match x with IoOk p => WDone (Ok p, [], Msb0, b) | IoErr e => WDone (Err (Io e), [], Msb0, b) end)).
  intros k. cbn [wrun]. unfold lift_io, w_seek. cbn [w_set_ord w_set_left w_k]. destruct (k_seek t k) as [[u|e] k']; reflexivity.
Qed.
Lemma h_write_each bs : is_wprog (w_write_each bs).
Proof. induction bs as [|b bs IH]; cbn [w_write_each]; [apply h_ret|]. apply h_bind; [apply h_write_all|auto]. Qed.
Lemma h_extend bs : is_wprog (left_extend bs).
Proof.
  eapply h_ext; [|apply (h_see (fun w => if length (w_left w) + length bs <=? 8 then (fun w' => (Ok tt, w_set_left w' (w_left w ++ bs))) else panic))].
  - intros w. unfold left_extend. now destruct (_ <=? 8).
  - intros w. destruct (_ <=? 8); [|apply h_panic]. apply h_setleft.
  - intros w1 w2 -> _ _. reflexivity.
Qed.
Lemma h_flush : is_wprog flush_full.
Proof.
  eapply h_ext; [|apply (h_see (fun w => if length (w_left w) =? 8 then
      (let* _ := w_write_all [byte_of_bits (w_left w)] in
       let* _ := wmod (fun w => w_add_bits w 8) in
       wmod (fun w => w_set_ord (w_set_left w []) Msb0)) else ret tt))].
  - intros w. unfold flush_full. now destruct (_ =? 8).
  - intros w. destruct (_ =? 8); [|apply h_ret]. apply h_bind; [apply h_write_all|intros []]. apply h_bind; [apply h_add|intros []].
    apply h_reset.
  - intros w1 w2 -> _ _. reflexivity.
Qed.

Ltac step := lazymatch goal with
  | |- is_wprog (bind get _) => apply h_get; [intros ?|intros ? ? E1 E2 E3; rewrite ?E1, ?E2, ?E3; reflexivity]
  | |- is_wprog (bind _ _) => apply h_bind; [|intros ?]
  | |- is_wprog (ret _) => apply h_ret
  | |- is_wprog (fail _) => apply h_fail
  | |- is_wprog panic => apply h_panic
  | |- is_wprog (assert_ _) => apply h_assert
  | |- is_wprog (w_write_all _) => apply h_write_all
  | |- is_wprog (w_write_each _) => apply h_write_each
  | |- is_wprog wleft => apply h_left
  | |- is_wprog (left_extend _) => apply h_extend
  | |- is_wprog take_left => apply h_take
  | |- is_wprog flush_full => apply h_flush
  | |- is_wprog (wmod (fun w => w_add_bits w _)) => apply h_add
  | |- is_wprog (wmod (fun w => w_set_ord w _)) => apply h_ord
  | |- is_wprog (wmod (fun w => w_set_left w _)) => apply h_setleft
  | |- is_wprog (if ?b then _ else _) => destruct b
  | |- is_wprog (match ?x with (_, _) => _ end) => destruct x
  end.
Ltac go := repeat step.

Lemma h_msb_msb bits : is_wprog (write_msb_msb bits).
Proof. unfold write_msb_msb. cbv zeta. go. Qed.
Lemma h_msb_lsb bits : is_wprog (write_msb_lsb bits).
Proof. unfold write_msb_lsb. cbv zeta. go. Qed.
Lemma h_lsb_msb bits : is_wprog (write_lsb_msb bits).
Proof. unfold write_lsb_msb. cbv zeta. go. Qed.
Lemma h_lsb_lsb bits : is_wprog (write_lsb_lsb bits).
Proof. unfold write_lsb_lsb. cbv zeta. go. Qed.
Lemma h_bits bits o : is_wprog (write_bits_order bits o).
Proof.
  eapply h_ext; [|apply (h_see (fun w => match w_ord w, o with
    | Msb0, Msb0 => write_msb_msb bits | Msb0, Lsb0 => write_msb_lsb bits
    | Lsb0, Msb0 => write_lsb_msb bits | Lsb0, Lsb0 => write_lsb_lsb bits end))].
  - intros w. unfold write_bits_order. destruct (w_ord w), o; reflexivity.
  - intros w. destruct (w_ord w), o; auto using h_msb_msb, h_msb_lsb, h_lsb_msb, h_lsb_lsb.
  - intros w1 w2 _ -> _. reflexivity.
Qed.
Lemma h_bytes buf : is_wprog (write_bytes buf).
Proof.
  eapply h_ext; [|apply (h_see (fun w => if negb (length (w_left w) =? 0) then write_bits (bits_of_bytes buf) else
     (let* _ := w_write_all buf in wmod (fun w => w_add_bits w (length buf * 8)))))].
  - intros w. unfold write_bytes. now destruct (negb _).
  - intros w. destruct (negb _); [apply h_bits|go].
  - intros w1 w2 -> _ _. reflexivity.
Qed.
Lemma h_finalize : is_wprog finalize.
Proof.
  eapply h_ext; [|apply (h_see (fun w => if length (w_left w) <? 8 then write_bits_order (repeat false ((8 - length (w_left w)) mod 8)) (w_ord w) else panic))].
  - intros w. unfold finalize. now destruct (_ <? 8).
  - intros w. destruct (_ <? 8); [apply h_bits|apply h_panic].
  - intros w1 w2 -> -> _. reflexivity.
Qed.
Lemma h_uint v n : is_wprog (write_bits_uint_msb0 v n).
Proof. unfold write_bits_uint_msb0. cbv zeta. go. Qed.
Lemma h_chunks cs : forall n o, is_wprog (write_chunks cs n o).
Proof.
  induction cs as [|c cs IH]; intros n o; cbn [write_chunks]; [apply h_ret|]. destruct (_ <? 8); [apply h_bits|]. apply h_bind; [apply h_bits|auto].
Qed.
Lemma h_ebo wb en n o v : is_wprog (write_ebo_generic wb en n o v).
Proof.
  unfold write_ebo_generic. cbv zeta. destruct (_ <? n); [apply h_fail|]. destruct en, o; try (destruct (too_big_le _ _ _); [apply h_fail|apply h_chunks]).
  - eapply h_ext; [|apply (h_see (fun wr => if (n <=? 64) && order_eqb (w_ord wr) Msb0 then
        if n <? significant (to_bytes_e Big wb v) then fail InvalidParam
        else write_bits_uint_msb0 (from_be (skipn (length (to_bytes_e Big wb v) - 8) (to_bytes_e Big wb v))) n
      else if too_big_be (8 * wb) n v then fail InvalidParam
      else write_bits_order (skipn (8 * wb - n) (bits_of_bytes (to_bytes_e Big wb v))) Msb0))].
    + intros w. cbv beta. destruct (_ && _); [destruct (n <? _)|destruct (too_big_be _ _ _)]; reflexivity.
    + intros w. destruct (_ && _); [destruct (n <? _)|destruct (too_big_be _ _ _)]; auto using h_fail, h_uint, h_bits.
    + intros w1 w2 _ -> _. reflexivity.
  - destruct (too_big_be _ _ _); [apply h_fail|]. destruct (_ <=? 8); [apply h_bits|apply h_chunks].
Qed.
Lemma h_u8 n o v : is_wprog (write_u8_bits n o v).
Proof.
  eapply h_ext; [|apply (h_see (fun wr => if order_eqb o Msb0 && order_eqb (w_ord wr) Msb0 && (n <=? 8) then
      if (n <? 8) && negb (N.shiftr v (N.of_nat n) =? 0)%N then fail InvalidParam
      else write_bits_uint_msb0 v n
    else if 8 <? n then fail InvalidParam
    else if too_big_be 8 n v then fail InvalidParam
    else write_bits_order (skipn (8 - n) (N2bits 8 v)) o))].
  - intros w. unfold write_u8_bits. destruct (_ && _ && _); [destruct (_ && _)|destruct (8 <? n); [|destruct (too_big_be _ _ _)]]; reflexivity.
  - intros w. destruct (_ && _ && _); [destruct (_ && _)|destruct (8 <? n); [|destruct (too_big_be _ _ _)]]; auto using h_fail, h_uint, h_bits.
  - intros w1 w2 _ -> _. reflexivity.
Qed.
Lemma h_prim p c v : is_wprog (prim_write p c v).
Proof.
  assert (HS : forall wb en n, is_wprog (write_bytes_sized wb en n v)) by (intros; unfold write_bytes_sized; destruct (_ <? n); [apply h_fail|apply h_bytes]).
  assert (HY : forall en n, is_wprog (write_eyo p en n v)) by (intros; unfold write_eyo; destruct p; auto using h_bytes).
  assert (HE : forall en, is_wprog (write_e p en v)) by (intros; apply h_bytes).
  assert (HO : forall en n o, is_wprog (write_ebo p en n o v)) by (intros; unfold write_ebo; destruct p; auto using h_u8, h_ebo).
  assert (HB : forall en n, is_wprog (write_eb p en n v)).
  { intros. unfold write_eb. destruct p; [apply h_u8| |].
    - unfold write_u_eb. cbv zeta. destruct (_ <? n); [apply h_fail|]. destruct en; [destruct (too_big_le _ _ _)|destruct (too_big_be _ _ _)];
        auto using h_fail, h_chunks, h_bits; apply h_bits.
    - unfold write_i_eb. cbv zeta. destruct (_ <? n); [apply h_fail|].
      destruct en; (match goal with |- is_wprog (if ?b then _ else _) => destruct b end); auto using h_fail, h_chunks, h_bits; apply h_bits. }
  destruct c; cbn [prim_write]; auto.
Qed.

Theorem derived_wprog cu t args v : writer_derived t -> is_wprog (write_ty cu t args v).
Proof.
  intros H. refine (closed_write cu _ _ _ _ (fun _ => True) (@is_wprog unit) True _ _ _ _ _ _ _ _ _ _ _ _ _ _ _ t args v H I).
  - intros m1 m2. apply h_ext.
  - intros x. apply h_lift.
  - intros m n M N. apply h_bind; auto.
  - intros f _ F. apply (h_see (fun w => f (w_bits w))); [auto|]. intros w1 w2 _ _ ->. reflexivity.
  - intros. apply h_prim.
  - intros. apply h_prim.
  - auto.
  - auto.
  - auto.
  - intros. apply h_bits.
  - intros. apply h_bind; [apply h_seek|intros _; apply h_ret].
  - intros. apply h_bind; [apply h_seek|intros _; apply h_ret].
  - intros c a t0 f stored ctx fs off x Hr Hf. rewrite Hr in Hf. discriminate.
  - intros k a x [].
  - intros. now left.
Qed.
Theorem send_prog cu t v : writer_derived t -> { p : wprog (res unit) | forall k, send cu t v k = wrun p k }.
Proof.
  intros H. assert (HM : is_wprog (let* _ := write_ty cu t [] v in finalize)) by (apply h_bind; [now apply derived_wprog|intros _; apply h_finalize]).
  destruct (HM [] Msb0 0) as [p Hp]. exists (wprog_bind p (fun y => WDone (fst (fst (fst y))))). intros k. rewrite wrun_bind. unfold send, writer_new. rewrite Hp.
  destruct (wrun p k) as [[[[x l] o] b] k']. reflexivity.
Qed.

(** ** In pieces *)
Theorem wprog_pieces {A} (p : wprog A) b e : patient b (e_write e) ->
  exists x e' f n, wrun_raw b p e = (Some x, e') /\ wrun p (all_at_once e f 0) = (x, all_at_once e' f n) /\ (reliable (e_write e) (e_seek e) -> forall j, f j = None).
Proof.
  intros Hp. destruct (wrun_ends b p e Hp) as (x & e' & E). destruct (wrun_at_once b p e 0 x e' E) as (h & n & Hh & Hr).
  exists x, e', h, n. split; [exact E|]. split; [apply Hr; intros j _; reflexivity|exact Hh].
Qed.
Theorem write_pieces cu t v p : (forall k, send cu t v k = wrun p k) -> forall b e, patient b (e_write e) -> reliable (e_write e) (e_seek e) ->
  exists x e' n, wrun_raw b p e = (Some x, e') /\ send cu t v (all_at_once e (fun _ => None) 0) = (x, all_at_once e' (fun _ => None) n).
Proof.
  intros Hs b e Hp HR. destruct (wrun_ends b p e Hp) as (x & e' & E). destruct (wrun_at_once b p e 0 x e' E) as (h & n & Hh & Hr).
  exists x, e', n. split; [exact E|]. rewrite Hs. apply Hr. intros j _. now rewrite Hh.
Qed.
Theorem write_program cu t v : writer_derived t -> exists p, forall k, send cu t v k = wrun p k.
Proof. intros H. destruct (send_prog cu t v H) as [p Hp]. now exists p. Qed.
