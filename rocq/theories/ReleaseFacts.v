(** An optimised build does what the debug build does, unless that panics. *)
From Coq Require Import Lia ZifyBool ZifyNat ZifyN.
From Verif Require Import Base MonadFacts Stream Reader Writer Prims Containers Derive DeriveSpec DeriveSound DeriveFacts CanonFacts Release.

Definition agrees {A} (x y : res A) : Prop := x = Panic \/ y = x.
Definition ag {S A} (m m' : ST S A) : Prop := forall r, fst (m r) = Panic \/ m' r = m r.

Lemma g_refl {S A} (m : ST S A) : ag m m.
Proof. intros r. now right. Qed.
Lemma g_panic {S A} (m' : ST S A) : ag panic m'.
Proof. intros r. now left. Qed.
Lemma g_bind {S A B} (m m' : ST S A) (f f' : A -> ST S B) : ag m m' -> (forall a, ag (f a) (f' a)) -> ag (bind m f) (bind m' f').
Proof.
  intros H F r. unfold bind. destruct (H r) as [E|E].
  - destruct (m r) as [[] ?]; try discriminate E. now left.
  - rewrite E. destruct (m r) as [[a|e| |] r']; auto. apply F.
Qed.
Lemma g_lift {S A} (x y : res A) : agrees x y -> @ag S A (lift x) (lift y).
Proof. intros [-> | ->] r; [now left|now right]. Qed.
Lemma g_assert {S A} b (f : unit -> ST S A) m' : ag (f tt) m' -> ag (bind (assert_ b) f) m'.
Proof. intros H r. destruct b; [apply H|now left]. Qed.

(** ** Reader *)

Lemma g_skip n o : ag (skip_bits n o) (o_skip_bits n o).
Proof.
  intros r. unfold skip_bits, o_skip_bits.
  assert (K : forall amt, ag (let* _ := (if amt / 8 =? 0 then ret tt else fun r => if negb (r_bits r mod 8 =? 0) then (Panic, r)
                                         else (let* _ := lift_io (r_seek (SeekCurrent (Z.of_nat (amt / 8)))) in ret tt) r) in
                              let* _ := read_bits_into (amt mod 8) o in ret tt)
                             (let* _ := (if amt / 8 =? 0 then ret tt else let* _ := lift_io (r_seek (SeekCurrent (Z.of_nat (amt / 8)))) in ret tt) in
                              let* _ := read_bits_into (amt mod 8) o in ret tt)).
  { intros amt. apply g_bind; [|intros _; apply g_refl]. destruct (amt / 8 =? 0); [apply g_refl|]. intros r1. destruct (negb _); [now left|now right]. }
  apply (g_bind _ _ _ _ (g_refl _) K).
Qed.
Lemma g_bytes_leftover n m b : ag (read_bytes_leftover n m b) (o_read_bytes_leftover n m b).
Proof.
  unfold o_read_bytes_leftover. destruct (negb (m =? 0) && (n =? 0)) eqn:E; [|apply g_refl]. apply andb_prop in E. destruct E as [E1 E2].
  unfold read_bytes_leftover. apply negb_true_iff in E1. rewrite E1, E2. apply g_bind; [apply g_refl|intros _; apply g_panic].
Qed.
Lemma g_bytes n m o : ag (read_bytes n m o) (o_read_bytes n m o).
Proof. intros r. unfold o_read_bytes, read_bytes. destruct (r_left r) as [[b|l]|] eqn:E; [apply g_bytes_leftover|now right|now right]. Qed.

(** ** Integers *)

Lemma g_u_of_bits wb e n o bits : agrees (u_of_bits wb e n o bits) (o_u_of_bits wb e n o bits).
Proof.
  unfold agrees, u_of_bits, o_u_of_bits. cbv zeta. destruct (8 * wb <? length bits + _) eqn:E; [now left|].
  replace (8 * wb <? length bits) with false by lia. destruct (_ && _); [now right|].
  destruct e, o; try (now right).
  - destruct (length bits <? _); [now left|now right].
  - destruct (negb (n =? length bits)); [now left|now right].
  - destruct (negb (n =? length bits)); [now left|now right].
Qed.
Lemma g_sign w n v : agrees (sign_extend w n v) (Ok (o_sign_extend w n v)).
Proof.
  unfold agrees, sign_extend, o_sign_extend. cbv zeta. destruct (w <=? w - n) eqn:E; [now left|]. right. rewrite (Nat.mod_small (w - n) w) by lia. reflexivity.
Qed.
Lemma g_u_bits wb e n o : ag (read_u_bits wb e n o) (o_read_u_bits wb e n o).
Proof.
  unfold read_u_bits, o_read_u_bits. destruct (8 * wb <? n); [apply g_refl|]. cbv zeta.
  assert (S : ag (let* bits := read_bits_into n o in lift (u_of_bits wb e n o bits)) (let* bits := read_bits_into n o in lift (o_u_of_bits wb e n o bits))).
  { apply g_bind; [apply g_refl|]. intros bits. apply g_lift, g_u_of_bits. }
  destruct e, o; try exact S. destruct (_ && _); [apply g_refl|exact S].
Qed.
Lemma g_i_bits wb e n o : ag (read_i_bits wb e n o) (o_read_i_bits wb e n o).
Proof.
  unfold read_i_bits, o_read_i_bits. destruct (8 * wb <? n); [apply g_refl|]. apply g_bind; [apply g_refl|]. intros bits. apply g_lift.
  destruct (g_u_of_bits wb e n o bits) as [E|E]; [left; now rewrite E|]. rewrite E. destruct (u_of_bits wb e n o bits) as [v|x| |]; try (now right). apply g_sign.
Qed.
Lemma g_sized wb e n o : ag (read_bytes_sized wb e n o) (o_read_bytes_sized wb e n o).
Proof. unfold read_bytes_sized, o_read_bytes_sized. destruct (wb <? n); [apply g_refl|]. apply g_bind; [apply g_bytes|]. intros bs. apply g_refl. Qed.
Lemma g_eyo p e n o : ag (read_eyo p e n o) (o_read_eyo p e n o).
Proof. destruct p; [apply g_refl|apply g_sized|apply g_sized]. Qed.
Lemma g_ebo p e n o : ag (read_ebo p e n o) (o_read_ebo p e n o).
Proof. destruct p; [apply g_u_bits|apply g_u_bits|apply g_i_bits]. Qed.
Lemma g_prim p c : ag (prim_read p c) (o_prim_read p c).
Proof. destruct c; cbn [prim_read o_prim_read]; try destruct (_ =? 0); auto using @g_refl, g_eyo, g_ebo. Qed.
Lemma g_bool c : ag (read_bool c) (o_read_bool c).
Proof. apply g_bind; [apply g_prim|]. intros v. apply g_refl. Qed.
Lemma g_nonzero p c : ag (read_nonzero p c) (o_read_nonzero p c).
Proof. apply g_bind; [apply g_prim|]. intros v. apply g_refl. Qed.

(** ** Vec *)

Lemma sub_no_wrap a b : b <= a -> usize_sub (N.of_nat a) (N.of_nat b) = N.of_nat (a - b).
Proof. unfold usize_sub. intros H. replace (_ <=? _)%N with true by lia. lia. Qed.
Lemma mul_no_wrap n : (usize_max <? n)%N = false -> usize n = n.
Proof. unfold usize_max, usize. intros H. apply N.mod_small. change (2 ^ 64)%N with 18446744073709551616%N in *. lia. Qed.
Lemma g_loop {A} (m m' : RM A) stop stop' start : ag m m' -> (forall n l, stop' (N.of_nat n) l = stop n l) -> forall f acc,
  ag (vec_loop f m stop start acc) (o_vec_loop f m' stop' start acc).
Proof.
  intros H S. induction f as [|f IH]; intros acc; cbn [vec_loop o_vec_loop]; [apply g_refl|]. apply g_bind; [exact H|]. intros v r. cbv beta.
  destruct (r_bits r <? start) eqn:E; [now left|]. rewrite sub_no_wrap by lia. rewrite S. destruct (stop _ _); [now right|]. apply IH.
Qed.
Lemma g_pred {A} f size cap (m m' : RM A) stop stop' : ag m m' -> (forall n l, stop' (N.of_nat n) l = stop n l) ->
  ag (vec_with_predicate f size cap m stop) (o_vec_with_predicate f size cap m' stop').
Proof.
  intros H S. unfold vec_with_predicate, o_vec_with_predicate. destruct (size =? 0)%N; [apply g_refl|].
  match goal with |- ag (if ?b then _ else _) _ => destruct b end; [apply g_refl|]. intros r. now apply g_loop.
Qed.
Lemma g_end_loop {A} (m m' : RM A) : ag m m' -> forall f acc, ag (end_loop f m acc) (end_loop f m' acc).
Proof.
  intros H. induction f as [|f IH]; intros acc; cbn [end_loop]; [apply g_refl|]. intros r. destruct (r_end r) as [[] r']; [now right|].
  revert r'. apply g_bind; [exact H|]. intros v. apply IH.
Qed.
Lemma g_vec {A} f size (m m' : RM A) lim : ag m m' -> ag (vec_read f size m lim) (o_vec_read f size m' lim).
Proof.
  intros H. destruct lim as [n|p|n|n|]; cbn [vec_read o_vec_read].
  - destruct (n =? 0)%N; [apply g_refl|]. intros r. now apply g_pred.
  - now apply g_pred.
  - destruct (usize_max <? n * 8)%N eqn:E; [apply g_panic|]. rewrite (mul_no_wrap _ E). destruct (n * 8 =? 0)%N; [apply g_refl|]. now apply g_pred.
  - destruct (n =? 0)%N; [apply g_refl|]. now apply g_pred.
  - unfold vec_to_end. destruct (size =? 0)%N; [apply g_refl|]. now apply g_end_loop.
Qed.
Lemma g_array {A} n (m m' : RM A) : ag m m' -> ag (read_array n m) (read_array n m').
Proof. intros H. induction n as [|n IH]; cbn [read_array]; [apply g_refl|]. apply g_bind; [exact H|]. intros v. apply g_bind; [exact IH|]. intros vs. apply g_refl. Qed.
Lemma g_exact n : ag (read_exact_vec n) (o_read_exact_vec n).
Proof.
  unfold read_exact_vec, o_read_exact_vec. apply g_bind; [apply g_refl|]. intros pos. apply g_bind; [apply g_refl|]. intros en. apply g_bind; [apply g_refl|]. intros _.
  destruct (en <? pos) eqn:E; [apply g_panic|]. rewrite sub_no_wrap by lia. cbn [andb]. destruct (_ <? n)%N; [|intros r; apply g_bytes].
  destruct (usize_max <? n * 8)%N eqn:E8; [apply g_panic|]. rewrite (mul_no_wrap _ E8). apply g_refl.
Qed.
Lemma g_cstring f : ag (read_cstring f) (o_read_cstring f).
Proof. apply g_bind; [apply g_vec, g_refl|]. intros l. apply g_refl. Qed.
Lemma g_cstring_bytes n : ag (read_cstring_bytes n) (o_read_cstring_bytes n).
Proof. apply g_bind; [apply g_vec, g_refl|]. intros l. apply g_refl. Qed.

(** ** Derived code *)

Lemma g_pad p o : ag (read_pad p o) (o_read_pad p o).
Proof. destruct p as [z|]; cbn [read_pad o_read_pad]; [|apply g_refl]. destruct (to_usize z); [|apply g_refl]. intros r. apply g_skip. Qed.
Lemma g_field c a u ctx fs rd rd' : (forall lim args, ag (rd lim args) (rd' lim args)) -> ag (read_field c a u ctx fs rd) (o_read_field c a u ctx fs rd').
Proof.
  intros H. unfold read_field, o_read_field. apply g_bind; [apply g_refl|intros _]. apply g_bind; [apply g_refl|intros _]. apply g_bind; [apply g_pad|intros _].
  intros r. cbv zeta. generalize (r_bits r). intros off. revert r. apply g_bind.
  - assert (HF : ag (field_read_func c a u ctx fs off rd) (o_field_read_func c a u ctx fs off rd')).
    { unfold field_read_func, o_field_read_func. destruct (a_reader a); [apply g_refl|]. cbv zeta. destruct (a_limit a) as [l|]; [|apply H].
      apply g_bind; [apply g_refl|]. intros lim. destruct u; [|apply H]. destruct lim; try apply H. apply g_bind; [apply g_exact|]. intros bs. apply g_refl. }
    assert (HN : ag (field_read_normal a ctx fs off (field_read_func c a u ctx fs off rd)) (field_read_normal a ctx fs off (o_field_read_func c a u ctx fs off rd'))).
    { apply g_bind; [exact HF|]. intros v. apply g_refl. }
    unfold field_read_tokens. destruct (a_skip a) as [[]|], (a_cond a) as [f|]; try destruct (f _ _ _); auto using @g_refl.
  - intros v. apply g_bind; [apply g_refl|intros _]. apply g_bind; [apply g_pad|]. intros _. apply g_refl.
Qed.
Lemma g_pctx {S A} lim args (k k' : pctx -> ST S A) : (forall c, ag (k c) (k' c)) -> ag (with_pctx lim args k) (with_pctx lim args k').
Proof. intros H. unfold with_pctx. destruct lim; [apply g_refl|]. destruct (pctx_of args); [apply H|apply g_refl]. Qed.
Lemma o_struct cu fuel c fs lim args : o_read_ty cu fuel (TStruct c fs) lim args =
  (let* _ := read_seek (option_map (fun f => f (ctx_args c args)) (c_seek c)) in
   let* _ := read_magic (c_magic c) in
   let* vs := o_fields_read cu fuel c (ctx_args c args) fs None [] in
   ret (VRec vs)).
Proof. reflexivity. Qed.
Lemma o_enum cu fuel e idt vs lim args : o_read_ty cu fuel (TEnum e idt vs) lim args =
  (let* _ := read_magic (c_magic (en_c e)) in
   let* id := match en_id e with Some f => ret (f (ctx_args (en_c e) args)) | None => o_read_ty cu fuel idt None (id_args e (ctx_args (en_c e) args)) end in
   o_variants_read cu fuel e (ctx_args (en_c e) args) id vs 0 None).
Proof. reflexivity. Qed.
Lemma o_cons cu fuel c ctx a t wire tl id acc : o_fields_read cu fuel c ctx (FCons a t wire tl) id acc =
  (let* v := match id, a_reader a with
             | Some x, None => ret x
             | _, _ => o_read_field c a (is_vec_u8 t) ctx acc (fun lim args => o_read_ty cu fuel wire lim args)
             end in
   let* vs := o_fields_read cu fuel c ctx tl None (acc ++ [v]) in
   ret (if a_temp a then vs else v :: vs)).
Proof. reflexivity. Qed.
Lemma o_variant cu fuel e ctx id v fs tl k d : o_variants_read cu fuel e ctx id (VCons v fs tl) k d =
  (let body := let* l := o_fields_read cu fuel (en_c e) ctx fs (if stores_id e v then Some id else None) [] in ret (VVar k l) in
   if matches (v_sel v) id then body
   else o_variants_read cu fuel e ctx id tl (S k) (match d with Some _ => d | None => if v_default v then Some body else None end)).
Proof. reflexivity. Qed.

(** ** Writer *)

Lemma g_left {A} (f : list bool -> WM A) m' : (forall l, ag (f l) m') -> ag (bind wleft f) m'.
Proof. intros H w. exact (H (w_left w) w). Qed.
Ltac g_step :=
  match goal with
  | |- ag (if ?b then _ else _) (if ?b then _ else _) => destruct b
  | |- ag (bind (assert_ (order_eqb _ _)) _) _ => apply g_bind; [apply g_refl|intro]
  | |- ag (bind (assert_ _) _) _ => apply g_assert
  | |- ag (bind wleft _) _ => apply g_left; intro
  | |- ag (bind _ _) (bind _ _) => apply g_bind; [first [apply g_refl|idtac]|intro]
  | |- ag _ _ => apply g_refl
  end.
Lemma g_msb_msb bits : ag (write_msb_msb bits) (o_write_msb_msb bits).
Proof. unfold write_msb_msb, o_write_msb_msb. repeat (cbv zeta; g_step). Qed.
Lemma g_msb_lsb bits : ag (write_msb_lsb bits) (o_write_msb_lsb bits).
Proof.
  unfold write_msb_lsb, o_write_msb_lsb. do 3 g_step. cbv beta. g_step.
  match goal with |- ag (let '(_, _) := ?x in _) _ => destruct x as [[[b1 b2] b3] b4] end.
  repeat (cbv zeta; g_step).
Qed.
Lemma g_lsb_msb bits : ag (write_lsb_msb bits) (o_write_lsb_msb bits).
Proof.
  unfold write_lsb_msb, o_write_lsb_msb. do 3 g_step. cbv beta. g_step.
  match goal with |- ag (let '(_, _) := ?x in _) _ => destruct x as [b1 b2] end.
  repeat (cbv zeta; g_step).
Qed.
Lemma g_lsb_lsb bits : ag (write_lsb_lsb bits) (o_write_lsb_lsb bits).
Proof. unfold write_lsb_lsb, o_write_lsb_lsb. repeat (cbv zeta; g_step). Qed.
Lemma g_bits_order bits o : ag (write_bits_order bits o) (o_write_bits_order bits o).
Proof. intros w. unfold write_bits_order, o_write_bits_order. destruct (w_ord w), o; [apply g_msb_msb|apply g_msb_lsb|apply g_lsb_msb|apply g_lsb_lsb]. Qed.
Lemma g_write_bytes l : ag (write_bytes l) (o_write_bytes l).
Proof. intros w. unfold write_bytes, o_write_bytes. destruct (negb _); [apply g_bits_order|now right]. Qed.
Lemma g_finalize : ag finalize o_finalize.
Proof. intros w. unfold finalize, o_finalize. destruct (_ <? 8); [apply g_bits_order|now left]. Qed.
Lemma g_uint v n : ag (write_bits_uint_msb0 v n) (o_write_bits_uint_msb0 v n).
Proof.
  intros w. unfold write_bits_uint_msb0, o_write_bits_uint_msb0. destruct ((1 <=? n) && (n <=? 64)) eqn:E; [|now left].
  rewrite (Nat.mod_small (64 - n) 64) by lia. apply (g_bind get get); [apply g_refl|]. intros a. apply g_assert, g_refl.
Qed.

Lemma g_chunks l : forall n o, ag (write_chunks l n o) (o_write_chunks l n o).
Proof. induction l as [|c l IH]; intros n o; cbn [write_chunks o_write_chunks]; [apply g_refl|]. destruct (n <? 8); [apply g_bits_order|]. apply g_bind; [apply g_bits_order|]. intros _. apply IH. Qed.
Lemma g_write_generic wb e n o v : ag (write_ebo_generic wb e n o v) (o_write_ebo_generic wb e n o v).
Proof.
  unfold write_ebo_generic, o_write_ebo_generic. cbv zeta. destruct (_ <? n); [apply g_refl|]. destruct e, o.
  - destruct (too_big_le _ _ _); [apply g_refl|apply g_chunks].
  - destruct (too_big_le _ _ _); [apply g_refl|apply g_chunks].
  - intros w. destruct (_ && _).
    + destruct (_ <? significant _); [now right|apply g_uint].
    + destruct (too_big_be _ _ _); [now right|apply g_bits_order].
  - destruct (too_big_be _ _ _); [apply g_refl|]. destruct (n <=? 8); [apply g_bits_order|apply g_chunks].
Qed.
Lemma g_write_u8 n o v : ag (write_u8_bits n o v) (o_write_u8_bits n o v).
Proof.
  intros w. unfold write_u8_bits, o_write_u8_bits. destruct (_ && _ && _).
  - destruct (_ && _); [now right|apply g_uint].
  - destruct (8 <? n); [now right|]. destruct (too_big_be _ _ _); [now right|apply g_bits_order].
Qed.
Lemma g_write_u wb e n v : ag (write_u_eb wb e n v) (o_write_u_eb wb e n v).
Proof.
  unfold write_u_eb, o_write_u_eb. cbv zeta. destruct (_ <? n); [apply g_refl|]. destruct e.
  - destruct (too_big_le _ _ _); [apply g_refl|apply g_chunks].
  - destruct (too_big_be _ _ _); [apply g_refl|apply g_bits_order].
Qed.
Lemma g_write_i wb e n v : ag (write_i_eb wb e n v) (o_write_i_eb wb e n v).
Proof.
  unfold write_i_eb, o_write_i_eb. cbv zeta. destruct (_ <? n); [apply g_refl|]. destruct e.
  - match goal with |- ag (if ?b then _ else _) _ => destruct b end; [apply g_refl|apply g_chunks].
  - match goal with |- ag (if ?b then _ else _) _ => destruct b end; [apply g_refl|apply g_bits_order].
Qed.
Lemma g_write_sized wb e n v : ag (write_bytes_sized wb e n v) (o_write_bytes_sized wb e n v).
Proof. unfold write_bytes_sized, o_write_bytes_sized. destruct (wb <? n); [apply g_refl|apply g_write_bytes]. Qed.
Lemma g_write_prim p c v : ag (prim_write p c v) (o_prim_write p c v).
Proof.
  assert (HY : forall e n, ag (write_eyo p e n v) (o_write_eyo p e n v)) by (intros e n; destruct p; [apply g_write_bytes|apply g_write_sized|apply g_write_sized]).
  assert (HB : forall e n, ag (write_eb p e n v) (o_write_eb p e n v)) by (intros e n; destruct p; [apply g_write_u8|apply g_write_u|apply g_write_i]).
  assert (HO : forall e n o, ag (write_ebo p e n o v) (o_write_ebo p e n o v)) by (intros e n o; destruct p; [apply g_write_u8|apply g_write_generic|apply g_write_generic]).
  destruct c; cbn [prim_write o_prim_write]; auto; apply g_write_bytes.
Qed.
Lemma g_write_list {A} (f f' : A -> WM unit) : (forall x, ag (f x) (f' x)) -> forall l, ag (write_list f l) (write_list f' l).
Proof. intros H. induction l as [|x l IH]; cbn [write_list]; [apply g_refl|]. apply g_bind; [apply H|]. intros _. exact IH. Qed.
Lemma g_write_magic m : ag (write_magic m) (o_write_magic m).
Proof. apply g_write_list. intros x. apply g_write_prim. Qed.
Lemma g_pad_loop f : forall n o, ag (pad_loop f n o) (o_pad_loop f n o).
Proof. induction f as [|f IH]; intros [|n] o; try apply g_refl. cbn [pad_loop o_pad_loop]. apply g_bind; [apply g_bits_order|]. intros _. apply IH. Qed.
Lemma g_write_pad p o : ag (write_pad p o) (o_write_pad p o).
Proof. destruct p as [z|]; cbn [write_pad o_write_pad]; [|apply g_refl]. destruct (to_usize z); [|apply g_refl]. intros w. apply g_pad_loop. Qed.
Lemma g_write_field c a stored ctx fs v wr wr' : (forall args x, ag (wr args x) (wr' args x)) -> ag (write_field c a stored ctx fs v wr) (o_write_field c a stored ctx fs v wr').
Proof.
  intros H. unfold write_field, o_write_field. apply g_bind; [apply g_refl|intros _]. apply g_bind; [apply g_write_magic|intros _]. apply g_bind; [apply g_write_pad|intros _].
  intros w. cbv zeta. generalize (w_bits w). intros off. revert w. apply g_bind; [apply g_refl|intros _]. apply g_bind; [|intros _; apply g_write_pad].
  assert (HF : ag (field_write_func c a stored ctx fs off v wr) (field_write_func c a stored ctx fs off v wr')).
  { unfold field_write_func. destruct (a_writer a); [apply g_refl|]. destruct (a_temp a); [|apply H]. destruct (a_temp_value a); [apply H|apply g_refl]. }
  unfold field_write_tokens. destruct (a_skip a) as [[]|], (a_cond a) as [f|]; try destruct (f _ _ _); auto using @g_refl.
Qed.

Section Same.
Variables (cu : nat -> custom) (fuel : nat).
Theorem release_reads :
  (forall t lim args, ag (read_ty cu fuel t lim args) (o_read_ty cu fuel t lim args)) /\
  (forall fs c ctx id acc, ag (fields_read cu fuel c ctx fs id acc) (o_fields_read cu fuel c ctx fs id acc)) /\
  (forall vs e ctx id k d d', match d, d' with Some m, Some m' => ag m m' | None, None => True | _, _ => False end ->
     ag (variants_read cu fuel e ctx id vs k d) (o_variants_read cu fuel e ctx id vs k d')).
Proof.
  apply types_ind.
  - intros p lim args. apply g_pctx. intros c. apply g_bind; [apply g_prim|]. intros v. apply g_refl.
  - intros lim args. apply g_pctx. intros c. apply g_bind; [apply g_bool|]. intros v. apply g_refl.
  - intros p lim args. apply g_pctx. intros c. apply g_bind; [apply g_nonzero|]. intros v. apply g_refl.
  - intros lim args. apply g_refl.
  - intros lim args. cbn [read_ty o_read_ty]. destruct lim; [apply g_refl|]. destruct args as [|[] [|]]; try apply g_refl.
    + apply g_bind; [apply g_cstring|]. intros v. apply g_refl.
    + apply g_bind; [apply g_cstring_bytes|]. intros v. apply g_refl.
  - intros t IH lim args. cbn [read_ty o_read_ty]. apply g_bind; [apply IH|]. intros v. apply g_refl.
  - intros a IHa b IHb lim args. cbn [read_ty o_read_ty]. apply g_bind; [apply IHa|]. intros v. apply g_bind; [apply IHb|]. intros w. apply g_refl.
  - intros n t IH lim args. cbn [read_ty o_read_ty]. apply g_bind; [apply g_array, IH|]. intros v. apply g_refl.
  - intros k s t IH lim args. cbn [read_ty o_read_ty]. destruct lim as [l|]; [|apply g_refl]. apply g_bind; [apply g_vec, IH|]. intros v. apply g_refl.
  - intros c fs IH lim args. rewrite read_struct, o_struct. apply g_bind; [apply g_refl|intros _]. apply g_bind; [apply g_refl|intros _].
    apply g_bind; [apply IH|]. intros v. apply g_refl.
  - intros e idt IHi vs IHv lim args. rewrite read_enum, o_enum. apply g_bind; [apply g_refl|intros _]. apply g_bind.
    + destruct (en_id e); [apply g_refl|apply IHi].
    + intros id. now apply IHv.
  - intros k lim args. apply g_refl.
  - intros c ctx id acc. apply g_refl.
  - intros a t IHt wire IHw tl IHtl c ctx id acc. rewrite read_cons, o_cons. apply g_bind.
    + destruct id as [v|]; [|apply g_field; exact IHw]. destruct (a_reader a); [apply g_field; exact IHw|apply g_refl].
    + intros v. apply g_bind; [apply IHtl|]. intros vs. apply g_refl.
  - intros e ctx id k d d' Hd. cbn [variants_read o_variants_read]. destruct d, d'; try contradiction; [exact Hd|apply g_refl].
  - intros v fs IHf vs IHv e ctx id k d d' Hd. rewrite read_variant, o_variant. cbv zeta.
    assert (B : ag (let* l := fields_read cu fuel (en_c e) ctx fs (if stores_id e v then Some id else None) [] in ret (VVar k l))
      (let* l := o_fields_read cu fuel (en_c e) ctx fs (if stores_id e v then Some id else None) [] in ret (VVar k l))).
    { apply g_bind; [apply IHf|]. intros l. apply g_refl. }
    destruct (matches (v_sel v) id); [exact B|]. apply IHv. destruct d, d'; try contradiction; [exact Hd|]. destruct (v_default v); [exact B|exact I].
Qed.

Theorem release_writes :
  (forall t args v, ag (write_ty cu t args v) (o_write_ty cu t args v)) /\
  (forall fs, match fs with FCons _ t _ _ => forall args v, ag (write_ty cu t args v) (o_write_ty cu t args v) | FNil => True end /\
     forall c id ctx stored todo acc, ag (fields_write cu c ctx fs id stored todo acc) (o_fields_write cu c ctx fs id stored todo acc)) /\
  (forall vs e ctx wid wid' k l, (forall args x, ag (wid args x) (wid' args x)) -> ag (variant_write cu e ctx wid vs k l) (o_variant_write cu e ctx wid' vs k l)).
Proof.
  apply types_ind.
  - intros p args v. destruct v; try apply g_refl. apply g_pctx. intros c. apply g_write_prim.
  - intros args v. destruct v; try apply g_refl. apply g_pctx. intros c. unfold write_bool, o_write_bool. apply g_write_prim.
  - intros p args v. destruct v; try apply g_refl. apply g_pctx. intros c. apply g_write_prim.
  - intros args v. apply g_refl.
  - intros args v. destruct v; try apply g_refl. apply g_pctx. intros c. unfold write_cstring, o_write_cstring. apply g_write_list. intros x. apply g_write_prim.
  - intros t IH args v. destruct v; try apply g_refl. apply IH.
  - intros a IHa b IHb args v. destruct v; try apply g_refl. apply g_bind; [apply IHa|]. intros _. apply IHb.
  - intros n t IH args v. destruct v; try apply g_refl. apply g_write_list. intros x. apply IH.
  - intros k s t IH args v. destruct v; try apply g_refl. apply g_write_list. intros x. apply IH.
  - intros c fs [_ IH] args v. destruct v; try apply g_refl. rewrite write_struct. cbn [o_write_ty]. cbv zeta.
    apply g_bind; [apply g_refl|intros _]. apply g_bind; [apply g_write_magic|intros _]. apply IH.
  - intros e idt IHi vs IHv args v. destruct v; try apply g_refl. rewrite write_enum. cbn [o_write_ty]. apply g_bind; [apply g_write_magic|intros _]. apply IHv. exact IHi.
  - intros k args v. apply g_refl.
  - split; [exact I|]. intros c id ctx stored todo acc. apply g_refl.
  - intros a t IHt wire _ tl [_ IHtl]. split; [exact IHt|]. intros c id ctx stored todo acc. rewrite write_cons. cbn [o_fields_write]. cbv zeta. apply g_bind; [|intros _; apply IHtl].
    destruct id as [args|]; [apply IHt|]. apply g_write_field. exact IHt.
  - intros e ctx wid wid' k l _. apply g_refl.
  - intros v fs [IHt IHf] vs IHv e ctx wid wid' k l Hw. destruct k as [|k]; [|now apply IHv]. rewrite write_variant_0. cbn [o_variant_write]. apply g_bind; [|intros _; apply IHf].
    unfold write_id. destruct (en_id e); [apply g_refl|]. destruct (v_sel v) as [x|? d|x]; [apply Hw| |apply Hw]. destruct (no_fields fs); [|apply g_refl].
    destruct d; [apply Hw|apply g_refl].
Qed.

(** ** The API *)

Theorem release_from_reader t s bit : fst (from_reader cu fuel t s bit) = Panic \/ o_from_reader cu fuel t s bit = from_reader cu fuel t s bit.
Proof.
  unfold from_reader, o_from_reader.
  assert (G : ag (let* _ := if bit =? 0 then ret tt else skip_bits bit Msb0 in let* v := read_ty cu fuel t None [] in fun r => (Ok (r_bits r, v), r))
    (let* _ := if bit =? 0 then ret tt else o_skip_bits bit Msb0 in let* v := o_read_ty cu fuel t None [] in fun r => (Ok (r_bits r, v), r))).
  { apply g_bind; [destruct (bit =? 0); [apply g_refl|apply g_skip]|intros _]. apply g_bind; [apply release_reads|]. intros v. apply g_refl. }
  destruct (G (reader_new s)) as [E|E].
  - left. destruct (bind _ _ (reader_new s)) as [x r]. exact E.
  - right. now rewrite E.
Qed.
Theorem release_from_bytes t input bit : agrees (from_bytes cu fuel t input bit) (o_from_bytes cu fuel t input bit).
Proof.
  unfold agrees, from_bytes, o_from_bytes. destruct (release_from_reader t (cursor input) bit) as [E|E]; [|rewrite E; now right].
  destruct (from_reader _ _ _ _ _) as [[] ?]; try discriminate E. now left.
Qed.
Theorem release_try_from t input : agrees (try_from cu fuel t input) (o_try_from cu fuel t input).
Proof.
  unfold agrees, try_from, o_try_from. destruct (release_from_reader t (cursor input) 0) as [E|E]; [|rewrite E; now right].
  destruct (from_reader _ _ _ _ _) as [[] ?]; try discriminate E. now left.
Qed.
Theorem release_to_bytes t v : agrees (to_bytes cu t v) (o_to_bytes cu t v).
Proof.
  unfold agrees, to_bytes, o_to_bytes, to_bytes_with.
  destruct (g_bind _ _ _ _ (proj1 release_writes t [] v) (fun _ => g_finalize) (writer_new vec_sink)) as [E|E]; [|rewrite E; now right].
  destruct (bind _ _ (writer_new vec_sink)) as [x w]. cbn [fst] in E. subst x. now left.
Qed.
Theorem release_to_slice t v buf : fst (to_slice cu t v buf) = Panic \/ o_to_slice cu t v buf = to_slice cu t v buf.
Proof.
  unfold to_slice, o_to_slice, to_slice_with.
  destruct (g_bind _ _ _ _ (proj1 release_writes t [] v) (fun _ => g_finalize) (writer_new (slice_sink buf))) as [E|E]; [|rewrite E; now right].
  destruct (bind _ _ (writer_new (slice_sink buf))) as [x w]. cbn [fst] in E. subst x. now left.
Qed.
Theorem release_to_bits t v : agrees (to_bits cu t v) (o_to_bits cu t v).
Proof.
  unfold agrees, to_bits, o_to_bits, to_bits_with.
  destruct (proj1 release_writes t [] v (writer_new vec_sink)) as [E|E]; [|rewrite E; now right].
  destruct (write_ty cu t [] v (writer_new vec_sink)) as [x w]. cbn [fst] in E. subst x. now left.
Qed.
End Same.
Theorem release_same_reader cu fuel t s bit : fst (from_reader cu fuel t s bit) <> Panic -> o_from_reader cu fuel t s bit = from_reader cu fuel t s bit.
Proof. destruct (release_from_reader cu fuel t s bit); [contradiction|auto]. Qed.
Theorem release_same cu fuel t input bit :
  (from_bytes cu fuel t input bit <> Panic -> o_from_bytes cu fuel t input bit = from_bytes cu fuel t input bit) /\
  (try_from cu fuel t input <> Panic -> o_try_from cu fuel t input = try_from cu fuel t input).
Proof. split; intros H; [destruct (release_from_bytes cu fuel t input bit)|destruct (release_try_from cu fuel t input)]; auto; contradiction. Qed.
Theorem release_same_write cu t v buf :
  (to_bytes cu t v <> Panic -> o_to_bytes cu t v = to_bytes cu t v) /\
  (to_bits cu t v <> Panic -> o_to_bits cu t v = to_bits cu t v) /\
  (fst (to_slice cu t v buf) <> Panic -> o_to_slice cu t v buf = to_slice cu t v buf).
Proof.
  split; [|split]; intros H; [destruct (release_to_bytes cu t v)|destruct (release_to_bits cu t v)|destruct (release_to_slice cu t v buf)]; auto; contradiction.
Qed.
Theorem release_no_new_panics cu fuel t s bit : fst (o_from_reader cu fuel t s bit) = Panic -> fst (from_reader cu fuel t s bit) = Panic.
Proof. intros H. destruct (release_from_reader cu fuel t s bit) as [E|E]; [exact E|]. now rewrite <- E. Qed.
Theorem release_wraps {A} fuel size (elem : RM A) n r : o_vec_read fuel size elem (LBytes n) r = o_vec_read fuel size elem (LBytes (n mod 2 ^ 61)) r.
Proof.
  cbn [o_vec_read]. replace (usize (n mod 2 ^ 61 * 8)) with (usize (n * 8)); [reflexivity|].
  unfold usize. change (2 ^ 64)%N with (2 ^ 61 * 8)%N. rewrite !N.mul_mod_distr_r by discriminate. now rewrite N.mod_mod by discriminate.
Qed.
