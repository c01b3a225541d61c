(** Hand-written readers and writers are programs that use their source and sink through
    [read_exact], [write_all] and [seek]. *)
From Coq Require Import Lia.
From Verif Require Import Base MonadFacts Stream Reader Writer Prims Containers Derive DeriveSpec DeriveClosed MsgSpec Chunks ChunkSpec ChunkFacts ProgRead ProgWrite CodeSpec.

Lemma g_then {A B} (m : RM A) (f : res A -> RM B) : is_prog m -> (forall x, is_prog (f x)) -> is_prog (fun r => let '(x, r') := m r in f x r').
Proof.
  intros M F l b. destruct (M l b) as [p H]. exists (prog_bind p (fun y => let '(x, l', b') := y in proj1_sig (F x l' b'))).
  intros s. rewrite run_bind, H. destruct (run p s) as [[[x l'] b'] s']. cbn [ends]. apply (proj2_sig (F x l' b')).
Qed.
Lemma g_at_end : is_prog (fun r => let '(b, r') := r_end r in (Ok b, r')).
Proof.
  eapply g_ext; [|apply (g_see (fun l => match l with
    | Some _ => ret false
    | None => fun r => let '(x, r') := r_io 1 r in
        match x with
        | IoErr k => if is_eof k then ret true else let* _ := modify (fun r => r_set_left r (Some (LByte x00))) in ret false
        | IoOk bs => let* _ := modify (fun r => r_set_left r (Some (LByte (hd x00 bs)))) in ret false
        end r' end))].
  - intros r. unfold r_end. cbv beta. destruct (r_left r); [reflexivity|]. destruct (r_io 1 r) as [[bs|k] r']; [reflexivity|]. now destruct (is_eof k).
  - intros [l|]; [apply g_ret|]. apply (g_io 1 (fun x => match x with
        | IoErr k => if is_eof k then ret true else let* _ := modify (fun r => r_set_left r (Some (LByte x00))) in ret false
        | IoOk bs => let* _ := modify (fun r => r_set_left r (Some (LByte (hd x00 bs)))) in ret false
        end)). intros [bs|k]; [|destruct (is_eof k); [apply g_ret|]]; (apply g_bind; [apply g_left|intros _; apply g_ret]).
Qed.
Lemma read_code_prog A m : read_code A m -> is_prog m.
Proof.
  induction 1.
  - apply g_lift.
  - now apply g_then.
  - apply g_bits_into.
  - apply g_bytes.
  - apply g_prim.
  - apply g_skip.
  - apply g_seek.
  - apply g_at_end.
  - now apply g_off.
  - now apply derived_prog.
  - eapply g_ext; [|eassumption]. intros r. symmetry. auto.
Qed.
Theorem hand_prog cu fuel t lim args : (forall k a, read_code value (cu_read (cu k) a)) -> reader_by_types t -> is_prog (read_ty cu fuel t lim args).
Proof.
  intros HC H. refine (closed_read cu fuel _ _ _ _ (fun _ => True) (fun A m => is_prog m) True True _ _ _ _ _ _ _ _ _ _ _ _ _ _ _ _ _ _ _ t lim args H _ I).
  - intros A m1 m2 E. apply g_ext. intros r. now rewrite E.
  - intros A x. apply g_lift.
  - intros A B m f. apply g_bind.
  - intros A f _. apply g_off.
  - intros. apply g_prim.
  - apply g_prim.
  - auto.
  - auto.
  - intros A elem size l _. apply g_vec.
  - apply g_cstring.
  - apply g_cstring_bytes.
  - intros. apply g_exact.
  - intros. apply g_skip.
  - intros. apply g_seek.
  - intros. apply g_seek.
  - intros c a t0 f ctx fs off Hr Hf. rewrite Hr in Hf. discriminate.
  - intros k a _ _. apply read_code_prog, HC.
  - auto.
  - now left.
  - intros _. exact I.
Qed.
Theorem hand_read_program cu fuel t bit : (forall k a, read_code value (cu_read (cu k) a)) -> reader_by_types t -> exists p, forall s, from_reader cu fuel t s bit = run p s.
Proof.
  intros HC H. set (m := let* _ := if bit =? 0 then ret tt else skip_bits bit Msb0 in
     let* v := read_ty cu fuel t None [] in fun r => (Ok (r_bits r, v), r)).
  assert (HM : is_prog m).
  { apply g_bind; [destruct (bit =? 0); [apply g_ret|apply g_skip]|]. intros _. apply g_bind; [now apply hand_prog|]. intros v.
    apply (g_off (fun b => ret (b, v))). intros b. apply g_ret. }
  destruct (HM None 0) as [p Hp]. exists (prog_bind p (fun y => Done (fst (fst y)))). intros s. rewrite run_bind. unfold from_reader.
  change (reader_new s) with (mkReader s None 0). fold m. rewrite Hp. destruct (run p s) as [[[x l] b] s']. reflexivity.
Qed.

Lemma h_then {A B} (m : WM A) (f : res A -> WM B) : is_wprog m -> (forall x, is_wprog (f x)) -> is_wprog (fun w => let '(x, w') := m w in f x w').
Proof.
  intros M F l o b. destruct (M l o b) as [p H]. exists (wprog_bind p (fun y => let '(x, l', o', b') := y in proj1_sig (F x l' o' b'))).
  intros k. rewrite wrun_bind, H. destruct (wrun p k) as [[[[x l'] o'] b'] k']. cbn [wends]. apply (proj2_sig (F x l' o' b')).
Qed.
Lemma write_code_prog A m : write_code A m -> is_wprog m.
Proof.
  induction 1.
  - apply h_lift.
  - now apply h_then.
  - apply h_bits.
  - apply h_bytes.
  - apply h_prim.
  - apply h_seek.
  - apply (h_see (fun w => f (w_bits w))); [auto|]. intros w1 w2 _ _ ->. reflexivity.
  - now apply derived_wprog.
  - eapply h_ext; eassumption.
Qed.
Theorem hand_wprog cu t args v : (forall k a x, write_code unit (cu_write (cu k) a x)) -> writer_by_types t -> is_wprog (write_ty cu t args v).
Proof.
  intros HC H. refine (closed_write cu _ _ _ _ (fun _ => True) (@is_wprog unit) True _ _ _ _ _ _ _ _ _ _ _ _ _ _ _ t args v H I).
  - intros m1 m2. apply h_ext.
  - intros x. apply h_lift.
  - intros m n M N. apply h_bind; auto.
  - intros f _ F. apply (h_see (fun w => f (w_bits w))); [auto|]. intros w1 w2 _ _ ->. reflexivity.
  - intros. apply h_prim.
  - intros. apply h_prim.
  - auto.
  - auto.
  - auto.
  - intros. apply h_bits.
  - intros. apply h_bind; [apply h_seek|intros _; apply h_ret].
  - intros. apply h_bind; [apply h_seek|intros _; apply h_ret].
  - intros c a t0 f stored ctx fs off x Hr Hf. rewrite Hr in Hf. discriminate.
  - intros k a x _ _. apply write_code_prog, HC.
  - intros. now left.
Qed.
Theorem hand_write_program cu t v : (forall k a x, write_code unit (cu_write (cu k) a x)) -> writer_by_types t -> exists p, forall k, send cu t v k = wrun p k.
Proof.
  intros HC H. assert (HM : is_wprog (let* _ := write_ty cu t [] v in finalize)) by (apply h_bind; [now apply hand_wprog|intros _; apply h_finalize]).
  destruct (HM [] Msb0 0) as [p Hp]. exists (wprog_bind p (fun y => WDone (fst (fst (fst y))))). intros k. rewrite wrun_bind. unfold send, writer_new. rewrite Hp.
  destruct (wrun p k) as [[[[x l] o] b] k']. reflexivity.
Qed.
