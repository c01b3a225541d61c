(** The size in [Incomplete]. *)
From Coq Require Import Lia ZifyBool ZifyNat ZifyN.
From Verif Require Import Base MonadFacts Spec Stream Reader Session Writer Prims Containers Derive DeriveSpec DeriveSound DeriveClosed MoreSpec MoreFacts ReaderFacts SessionFacts ReaderProps FastRead NeedSpec SafeSpec DeriveSafe FlowSpec FlowFacts.
Ltac Zify.zify_post_hook ::= Z.div_mod_to_equations.

(** ** It is never 0 *)
Lemma k_lift {A} (x : res A) : x <> Err (Incomplete 0) -> asks (lift x).
Proof. intros H r y r' T E. apply pair_inj in E. destruct E as [<- <-]. split; [exact T|]. intros n ->. destruct n; [now elim H|lia]. Qed.
Lemma k_ret {A} (a : A) : asks (ret a).
Proof. apply (k_lift (Ok a)). discriminate. Qed.
Lemma k_fail {A} e : e <> Incomplete 0 -> asks (fail (A:=A) e).
Proof. intros H. apply (k_lift (Err e)). intros E. injection E. exact H. Qed.
Lemma k_panic {A} : asks (panic (A:=A)).
Proof. apply (k_lift Panic). discriminate. Qed.
Lemma k_diverge {A} : asks (diverge (A:=A)).
Proof. apply (k_lift Diverge). discriminate. Qed.
Lemma k_assert b : asks (assert_ b).
Proof. destruct b; [apply k_ret|apply k_panic]. Qed.
Lemma k_ext {A} (m1 m2 : RM A) : (forall r, m1 r = m2 r) -> asks m1 -> asks m2.
Proof. intros E H r x r' T. rewrite <- E. now apply H. Qed.
Lemma k_bind {A B} (m : RM A) (f : A -> RM B) : asks m -> (forall a, asks (f a)) -> asks (bind m f).
Proof.
  intros M F r x r' T. unfold bind. destruct (m r) as [y r1] eqn:E. destruct (M _ _ _ T E) as [T1 P1]. destruct y; intros E2; [now apply (F _ _ _ _ T1 E2)| | |];
    injection E2 as <- <-; (split; [exact T1|]); intros n En; try discriminate En. injection En as ->. now apply P1.
Qed.
Lemma k_st {A} (f : reader -> RM A) : (forall r, asks (f r)) -> asks (fun r => f r r).
Proof. intros H r. apply (H r r). Qed.
Lemma k_modify f : (forall r, r_s (f r) = r_s r) -> asks (modify f).
Proof. intros H r x r' T E. injection E as <- <-. split; [now rewrite H|discriminate]. Qed.
Lemma k_io {A} n (k : iores (list byte) -> RM A) : (forall bs, asks (k (IoOk bs))) -> (forall e, (e = UnexpectedEof -> 0 < n) -> asks (k (IoErr e))) ->
  asks (fun r => let '(x, r') := r_io n r in k x r').
Proof.
  intros HO HE r x r' T. unfold r_io, s_read_exact. pose proof (T (s_calls (r_s r))) as Tc. destruct (s_fault (r_s r) (s_calls (r_s r))) as [[e m]|].
  - specialize (Tc m). apply HE; [congruence|exact T].
  - destruct (n <=? length (s_avail (r_s r))) eqn:El; [apply HO; exact T|]. apply HE; [lia|]. destruct (s_eat _); exact T.
Qed.
Lemma eof_is e : is_eof e = true -> e = UnexpectedEof.
Proof. destruct e; try discriminate. reflexivity. Qed.
Lemma eof_err e n : (e = UnexpectedEof -> 0 < n) -> (if is_eof e then Incomplete n else Io e) <> Incomplete 0.
Proof. intros H. destruct (is_eof e) eqn:E; [|discriminate]. specialize (H (eof_is e E)). intros X. injection X. lia. Qed.

Lemma k_fill n k : 0 < n -> asks (fill_slots n k).
Proof.
  intros Hn. induction k as [|k IH]; cbn [fill_slots]; [apply k_ret|].
  eapply k_ext; [|apply (k_io 1 (fun x => match x with
    | IoErr e => if is_eof e then fail (Incomplete n) else (let* bs := fill_slots n k in ret (x00 :: bs))
    | IoOk bs0 => let* bs := fill_slots n k in ret (hd x00 bs0 :: bs) end))].
  - intros r. cbv beta. destruct (r_io 1 r) as [[bs|e] r']; [reflexivity|]. now destruct (is_eof e).
  - intros bs. apply k_bind; [exact IH|intros; apply k_ret].
  - intros e _. destruct (is_eof e); [apply k_fail; intros X; injection X; lia|apply k_bind; [exact IH|intros; apply k_ret]].
Qed.
Lemma k_rem n : 0 < n -> asks (read_rem_byte n).
Proof.
  intros Hn. eapply k_ext; [|apply (k_io 1 (fun x => match x with IoErr e => fail (if is_eof e then Incomplete n else Io e) | IoOk bs => ret (hd x00 bs) end))].
  - intros r. cbv beta. unfold read_rem_byte. now destruct (r_io 1 r) as [[bs|e] r'].
  - intros; apply k_ret.
  - intros. apply k_fail, eof_err. auto.
Qed.
Lemma k_bits n o : asks (read_bits_into n o).
Proof.
  unfold read_bits_into. destruct (Nat.eqb_spec n 0); [apply k_ret|]. intros r0 x r' T.
  assert (HM : asks (let* dst := match n ?= length (left_bits (r_left r0)) with
       | Lt => let* _ := assert_ (length (left_bits (r_left r0)) <=? 8) in
           match o with
           | Lsb0 => let* _ := modify (fun r => r_set_left r (Some (Reader.LBits (firstn (length (left_bits (r_left r0)) - n) (left_bits (r_left r0)))))) in
               ret (skipn (length (left_bits (r_left r0)) - n) (left_bits (r_left r0)))
           | Msb0 => let* _ := modify (fun r => r_set_left r (Some (Reader.LBits (skipn n (left_bits (r_left r0)))))) in ret (firstn n (left_bits (r_left r0)))
           end
       | Eq => let* _ := assert_ (length (left_bits (r_left r0)) <=? 8) in ret (left_bits (r_left r0))
       | Gt => match o with Lsb0 => read_greater_lsb n (left_bits (r_left r0)) | Msb0 => read_greater_msb n (left_bits (r_left r0)) end
       end in let* _ := modify (fun r => r_add_bits r n) in ret dst)).
  { apply k_bind; [|intros; apply k_bind; [now apply k_modify|intros; apply k_ret]]. destruct (_ ?= _); [apply k_bind; [apply k_assert|intros; apply k_ret]| |].
    - apply k_bind; [apply k_assert|intros _]. destruct o; (apply k_bind; [now apply k_modify|intros; apply k_ret]).
    - destruct o; unfold read_greater_lsb, read_greater_msb; cbv zeta; (apply k_bind; [apply k_fill; lia|intros bs]); (destruct (_ =? 0); [apply k_ret|]);
        (apply k_bind; [apply k_rem; lia|intros b]); (apply k_bind; [now apply k_modify|intros; apply k_ret]). }
  intros E. exact (HM (r_set_left r0 None) _ _ T E).
Qed.
Lemma k_uint amt : asks (read_bits_uint_msb0 amt).
Proof.
  assert (HL : 0 < amt -> forall fuel acc have, asks (uint_loop fuel amt acc have)).
  { intros Ha. induction fuel as [|f IH]; intros acc have; cbn [uint_loop]; (destruct (amt <=? have); [apply k_ret|]); [apply k_diverge|].
    eapply k_ext; [|apply (k_io 1 (fun x => match x with
      | IoErr e => fail (if is_eof e then Incomplete amt else Io e)
      | IoOk bs => uint_loop f amt (N.lor (wrap 128 (N.shiftl acc 8)) (Byte.to_N (hd x00 bs))) (have + 8) end))].
    - intros r. cbv beta. now destruct (r_io 1 r) as [[bs|e] r'].
    - intros. apply IH.
    - intros. apply k_fail, eof_err. auto. }
  unfold read_bits_uint_msb0. destruct (Nat.eq_dec amt 0) as [->|Ha]; [exact k_panic|]. apply k_bind; [apply k_assert|intros _].
  intros r x r' T E. match type of E with (let '(acc, have) := ?p in _) = _ => destruct p as [acc have] end.
  match type of E with ?m ?r0 = _ => assert (HM : asks m) end; [|exact (HM (r_set_left r None) _ _ T E)].
  apply k_bind; [apply HL; lia|]. intros [acc' have']. cbv zeta. apply k_bind; [|intros; apply k_bind; [now apply k_modify|intros; apply k_ret]].
  destruct (_ =? 0); [apply k_ret|now apply k_modify].
Qed.
Lemma k_bytes amt len o : asks (read_bytes amt len o).
Proof.
  apply (k_ext (fun r => (match r_left r with
    | None => if len <? amt then panic else fun r => let '(x, r') := r_io amt r in (match x with
        | IoErr e => fail (if is_eof e then Incomplete (amt * 8) else Io e)
        | IoOk bs => let* _ := modify (fun r => r_add_bits r (amt * 8)) in ret bs end) r'
    | Some (LByte b) => read_bytes_leftover amt len b
    | Some (Reader.LBits _) => if len <? amt then panic else read_bytes_bits amt o end) r)).
  - intros r. unfold read_bytes. destruct (r_left r) as [[b|bits]|]; auto; destruct (len <? amt); auto. now destruct (r_io amt r) as [[bs|e] r'].
  - apply (k_st (fun r0 => match r_left r0 with None => _ | Some (LByte b) => _ | Some (Reader.LBits _) => _ end)). intros r0.
    destruct (r_left r0) as [[b|bits]|].
    + unfold read_bytes_leftover. destruct (len =? 0); [apply k_panic|]. apply k_bind; [now apply k_modify|intros _]. destruct (amt =? 0); [apply k_panic|]. cbv zeta.
      destruct (amt - 1 =? 0) eqn:Er; [apply k_bind; [now apply k_modify|intros; apply k_ret]|]. destruct (_ <? _); [apply k_fail; intros X; injection X; lia|].
      destruct (_ <? _); [apply k_panic|].
      eapply k_ext; [|apply (k_io (amt - 1) (fun x => match x with
        | IoErr e => fail (if is_eof e then Incomplete ((amt - 1) * 8) else Io e)
        | IoOk bs => let* _ := modify (fun r => r_add_bits r (amt * 8)) in ret (b :: bs) end))].
      * intros r. cbv beta. now destruct (r_io _ r) as [[bs|e] r'].
      * intros. apply k_bind; [now apply k_modify|intros; apply k_ret].
      * intros. apply k_fail, eof_err. lia.
    + destruct (len <? amt); [apply k_panic|]. unfold read_bytes_bits. apply k_bind; [apply k_bits|intros; apply k_ret].
    + destruct (len <? amt); [apply k_panic|]. apply (k_io amt (fun x => match x with
        | IoErr e => fail (if is_eof e then Incomplete (amt * 8) else Io e)
        | IoOk bs => let* _ := modify (fun r => r_add_bits r (amt * 8)) in ret bs end)).
      * intros. apply k_bind; [now apply k_modify|intros; apply k_ret].
      * intros e He. apply k_fail, eof_err. intros X. specialize (He X). lia.
Qed.
Lemma tick_end w s : true_end s -> true_end (snd (s_seek w s)).
Proof. intros T. unfold s_seek. destruct (s_fault _ _) as [[? ?]|]; [exact T|]. destruct (s_noseek s); [destruct (noseek_target _ _); exact T|]. destruct (seek_target _ _ _); exact T. Qed.
Lemma k_seek w : asks (lift_io (r_seek w)).
Proof.
  intros r x r' T. unfold lift_io, r_seek. pose proof (tick_end w (r_s (r_set_left r None)) T) as T2. destruct (s_seek w (r_s (r_set_left r None))) as [[p|k] s]; intros E; injection E as <- <-;
    (split; [exact T2|discriminate]).
Qed.
Lemma k_inner w : asks (inner_seek w).
Proof.
  intros r x r' T. unfold inner_seek, lift_io. pose proof (tick_end w (r_s r) T) as T2. destruct (s_seek w (r_s r)) as [[p|k] s]; intros E; injection E as <- <-;
    (split; [exact T2|discriminate]).
Qed.
Lemma k_skip n o : asks (skip_bits n o).
Proof.
  apply (k_st (fun r0 => let* amt := match r_left r0 with Some (Reader.LBits bits) => _ | _ => _ end in _)). intros r0. apply k_bind.
  - destruct (r_left r0) as [[b|bits]|]; [apply k_ret| |apply k_ret]. apply k_bind; [apply k_bits|intros; apply k_ret].
  - intros amt. cbv zeta. apply k_bind; [|intros; apply k_bind; [apply k_bits|intros; apply k_ret]]. destruct (_ =? 0); [apply k_ret|].
    intros r x r' T. destruct (negb _); [intros E; injection E as <- <-; now split|].
    assert (HM : asks (let* _ := lift_io (r_seek (SeekCurrent (Z.of_nat (amt / 8)))) in ret tt)) by (apply k_bind; [apply k_seek|intros; apply k_ret]). exact (HM r x r' T).
Qed.
Lemma k_prim p c : asks (prim_read p c).
Proof.
  assert (HS : forall wb e n o, asks (read_bytes_sized wb e n o)).
  { intros. unfold read_bytes_sized. destruct (_ <? n); [now apply k_fail|]. apply k_bind; [apply k_bytes|intros; apply k_ret]. }
  assert (HY : forall e n o, asks (read_eyo p e n o)).
  { intros. unfold read_eyo, read_u8_bytes. destruct p; auto. apply k_bind; [apply k_bytes|intros; apply k_ret]. }
  assert (HI : forall cap k i l, bbv_inserts cap k i l <> Err (Incomplete 0)).
  { intros cap. induction k as [|k IH]; intros; cbn [bbv_inserts]; [discriminate|]. destruct (_ && _); [apply IH|discriminate]. }
  assert (HR : forall A B (x : res A) (f : A -> res B), x <> Err (Incomplete 0) -> (forall a, f a <> Err (Incomplete 0)) -> res_bind x f <> Err (Incomplete 0)).
  { intros A B [a|e| |] f Hx Hf; cbn [res_bind]; [apply Hf|intros X; injection X as ->; now elim Hx|discriminate|discriminate]. }
  assert (HB : forall wb e n o l, u_of_bits wb e n o l <> Err (Incomplete 0)).
  { intros. unfold u_of_bits, bbv_pushes. cbv zeta. destruct (_ <? _); [discriminate|]. destruct (_ && _); [discriminate|].
    destruct e, o.
    - destruct (_ <? _); [discriminate|]. apply HR; [apply HI|intros]. apply HR; [destruct (_ <=? _); discriminate|discriminate].
    - destruct (negb _); [discriminate|]. apply HR; [apply HI|discriminate].
    - destruct (_ <? _); [discriminate|]. apply HR; [apply HI|intros]. apply HR; [apply HI|discriminate].
    - destruct (negb _); [discriminate|]. apply HR; [apply HI|discriminate]. }
  assert (HU : forall wb e n o, asks (read_u_bits wb e n o)).
  { intros. unfold read_u_bits. destruct (_ <? n); [now apply k_fail|]. cbv zeta.
    assert (SL : asks (let* bits := read_bits_into n o in lift (u_of_bits wb e n o bits))) by (apply k_bind; [apply k_bits|intros; apply k_lift, HB]).
    destruct e, o; auto. destruct (_ && _); auto. apply k_bind; [apply k_uint|intros; apply k_ret]. }
  assert (HO : forall e n o, asks (read_ebo p e n o)).
  { intros. unfold read_ebo. destruct p; auto. unfold read_i_bits. destruct (_ <? n); [now apply k_fail|].
    apply k_bind; [apply k_bits|intros; apply k_lift, HR; [apply HB|]]. intros v. unfold sign_extend. cbv zeta. destruct (_ <=? _); discriminate. }
  assert (HE : forall e, asks (read_e p e)) by (intros; unfold read_e; apply k_bind; [apply k_bytes|intros; apply k_ret]).
  destruct c; cbn [prim_read]; auto; destruct (_ =? 0); auto.
Qed.
Lemma k_vec_loop {A} (elem : RM A) stop start : asks elem -> forall fuel acc, asks (vec_loop fuel elem stop start acc).
Proof.
  intros E. induction fuel as [|f IH]; intros acc; cbn [vec_loop]; [apply k_diverge|]. apply k_bind; [exact E|]. intros v r x r' T.
  destruct (_ <? _); [intros X; injection X as <- <-; now split|]. destruct (stop _ _); [intros X; injection X as <- <-; now split|]. now apply IH.
Qed.
Lemma k_end_loop {A} (elem : RM A) : asks elem -> forall fuel acc, asks (end_loop fuel elem acc).
Proof.
  intros E. induction fuel as [|f IH]; intros acc; cbn [end_loop]; [apply k_diverge|].
  assert (HE : asks (let* v := elem in end_loop f elem (acc ++ [v]))) by (apply k_bind; auto).
  intros r x r' T. assert (T1 : true_end (r_s (snd (r_end r)))).
  { unfold r_end. destruct (r_left r); [exact T|]. assert (TI : true_end (r_s (snd (r_io 1 r)))).
    { unfold r_io, s_read_exact. destruct (s_fault _ _) as [[? ?]|]; [exact T|]. destruct (_ <=? _); [exact T|]. destruct (s_eat _); exact T. }
    destruct (r_io 1 r) as [[bs|k] r1]; [exact TI|]. destruct (is_eof k); exact TI. }
  destruct (r_end r) as [[|] r1]; [intros X; injection X as <- <-; now split|]. now apply HE.
Qed.
Lemma k_vec {A} fuel size (elem : RM A) lim : asks elem -> asks (vec_read fuel size elem lim).
Proof.
  intros E. assert (HP : forall f cap stop, asks (vec_with_predicate f size cap elem stop)).
  { intros. unfold vec_with_predicate. destruct (size =? 0)%N; [apply k_ret|]. match goal with |- asks (if ?b then _ else _) => destruct b end; [apply k_panic|].
    intros r. now apply k_vec_loop. }
  destruct lim as [n|p|n|n|]; cbn [vec_read].
  - destruct (n =? 0)%N; [apply k_ret|apply HP].
  - apply HP.
  - destruct (_ <? _)%N; [apply k_panic|]. destruct (_ =? 0)%N; [apply k_ret|apply HP].
  - destruct (n =? 0)%N; [apply k_ret|apply HP].
  - unfold vec_to_end. destruct (size =? 0)%N; [apply k_ret|now apply k_end_loop].
Qed.
Lemma k_exact n : asks (read_exact_vec n).
Proof.
  unfold read_exact_vec. apply k_bind; [apply k_inner|]. intros pos. apply k_bind; [apply k_inner|]. intros end_. apply k_bind; [apply k_inner|]. intros _.
  destruct (_ <? _); [apply k_panic|]. destruct (_ <? n)%N eqn:E; [|apply k_bytes]. destruct (usize_max <? _)%N; [apply k_panic|].
  apply (k_fail (A := list byte)). intros X. injection X. lia.
Qed.
Lemma k_cstring fuel : asks (read_cstring fuel).
Proof.
  unfold read_cstring. apply k_bind; [apply k_vec, k_prim|]. intros l. unfold to_cstring. destruct (from_vec_with_nul l); [apply k_ret|now apply k_fail].
Qed.
Lemma k_cstring_bytes n : asks (read_cstring_bytes n).
Proof.
  unfold read_cstring_bytes. apply k_bind; [apply k_vec, k_prim|]. intros l. unfold to_cstring. destruct (from_vec_with_nul l); [apply k_ret|now apply k_fail].
Qed.
Theorem read_asks cu fuel t lim args : asking cu t -> asks (read_ty cu fuel t lim args).
Proof.
  intros H. refine (closed_read_map cu fuel _ _ _ _ (fun _ => True) (fun A m => asks m) True True _ _ _ _ _ _ _ _ _ _ _ _ _ _ _ _ _ _ _ _ t lim args H _ I); auto.
  - intros A m1 m2. apply k_ext.
  - intros A x Hx. apply k_lift, Hx.
  - intros c a t0 f ctx fs off v [_ Hm] Hf. apply k_lift. now apply (Hm f Hf).
  - intros A B m f. apply k_bind.
  - intros A f _ Hf. now apply (k_st (fun r0 => f (r_bits r0))).
  - intros. apply k_prim.
  - apply k_prim.
  - intros A elem size l _. apply k_vec.
  - apply k_cstring.
  - apply k_cstring_bytes.
  - intros. apply k_exact.
  - intros. apply k_skip.
  - intros. apply k_seek.
  - intros. apply k_seek.
  - intros c a t0 f ctx fs off [Hr _] Hf. now apply (Hr f Hf).
  - intros _. exact I.
Qed.
Lemma from_reader_asks cu fuel t s bit n : asking cu t -> true_end s -> fst (from_reader cu fuel t s bit) = Err (Incomplete n) -> 0 < n.
Proof.
  intros H T. unfold from_reader.
  set (m := let* _ := if bit =? 0 then ret tt else skip_bits bit Msb0 in
     let* v := read_ty cu fuel t None [] in fun r => (Ok (r_bits r, v), r)).
  assert (HM : asks m).
  { apply k_bind; [destruct (bit =? 0); [apply k_ret|apply k_skip]|]. intros _. apply k_bind; [now apply read_asks|]. intros v.
    apply (k_st (fun r => ret (r_bits r, v))). intros r. apply k_ret. }
  destruct (m (reader_new s)) as [x r] eqn:E. cbn [fst]. apply (HM (reader_new s) x r T E).
Qed.
Lemma from_bytes_asks cu fuel t input bit n : asking cu t -> from_bytes cu fuel t input bit = Err (Incomplete n) -> 0 < n.
Proof.
  intros H. unfold from_bytes. assert (T : true_end (cursor input)) by (intros k; discriminate). pose proof (from_reader_asks cu fuel t (cursor input) bit) as HR.
  destruct (from_reader cu fuel t (cursor input) bit) as [[[b v]|e| |] s]; cbn [fst] in HR; try discriminate.
  - destruct (_ <=? _) eqn:El; [discriminate|]. intros X. apply (f_equal (fun x => match x with Err (Incomplete n) => n | _ => 0 end)) in X. lia.
  - intros X. injection X as ->. now apply HR.
Qed.
Lemma try_from_asks cu fuel t input n : asking cu t -> try_from cu fuel t input = Err (Incomplete n) -> 0 < n.
Proof.
  intros H. unfold try_from. assert (T : true_end (cursor input)) by (intros k; discriminate). pose proof (from_reader_asks cu fuel t (cursor input) 0) as HR.
  destruct (from_reader cu fuel t (cursor input) 0) as [[[b v]|e| |] s]; cbn [fst] in HR; try discriminate.
  - destruct (_ <? _) eqn:El; [discriminate|]. destruct (length input <? _) eqn:E2; [|discriminate].
    intros X. apply (f_equal (fun x => match x with Err (Incomplete n) => n | _ => 0 end)) in X. lia.
  - intros X. injection X as ->. now apply HR.
Qed.

(** ** Waiting for it *)
Lemma receive_stable tries cu fuel t all have : (forall m, blind_to_end m cu t) -> asking cu t ->
  (forall k, from_bytes cu fuel t (firstn k all) 0 <> Panic) -> (forall k, from_bytes cu fuel t (firstn k all) 0 <> Diverge) ->
  length all <= tries + have -> receive tries cu fuel t all have = res_map (from_bytes cu fuel t all 0) snd.
Proof.
  intros HB HA HP HD. revert have. induction tries as [|k IH]; intros have Hl; cbn [receive].
  - rewrite (firstn_all2 all) by lia. replace (length all <=? have) with true by lia. destruct (from_bytes cu fuel t all 0) as [a|[]| |]; reflexivity.
  - pose proof (HP have) as P1. pose proof (HD have) as D1. pose proof (firstn_skipn have all) as S1.
    destruct (from_bytes cu fuel t (firstn have all) 0) as [[[rest j] v]|e| |] eqn:E; try congruence.
    + apply (more_success _ _ _ _ (skipn have all) _ _ _ _ (HB _)) in E. rewrite S1 in E. now rewrite E.
    + assert (HE : (forall n, e <> Incomplete n) -> Err e = res_map (from_bytes cu fuel t all 0) snd).
      { intros He. apply (more_failure _ _ _ _ (skipn have all) _ _ (HB _) He) in E. rewrite S1 in E. now rewrite E. }
      destruct e as [n| | | | |]; try (apply HE; discriminate). destruct (length all <=? have) eqn:El.
      * rewrite firstn_all2 in E by lia. now rewrite E.
      * apply IH. pose proof (from_bytes_asks cu fuel t _ 0 n HA E). unfold byte_size. lia.
Qed.
Theorem receive_all cu fuel t all have : flow_type cu t -> (forall m, blind_to_end m cu t) -> asking cu t -> 8 * length all + 8 < fuel ->
  receive (length all) cu fuel t all have = res_map (from_bytes cu fuel t all 0) snd.
Proof.
  intros HS HB HA Hf. assert (HL : forall k, 8 * length (firstn k all) + 8 < fuel) by (intros k; rewrite firstn_length; lia).
  apply receive_stable; auto; [| |lia]; intros k; apply (flow_from_bytes cu fuel t (firstn k all) 0 HS); auto; lia.
Qed.

(** ** It is enough *)
Lemma enough op r more e r' : reachable r -> inside r -> rop_ok op -> run_rop op r = (Err (Incomplete e), r') -> e <= 8 * length more ->
  exists x r2, run_rop op (r_more more r) = (Ok x, r2).
Proof.
  intros Hr [Hq Hp] Hok E He. apply reachable_wf in Hr. pose proof (run_rop_spec op r Hr Hq Hok) as H1.
  pose proof (spec_rop_len op (unread r)) as L1. destruct (spec_rop op (unread r)) as [[x u]|]; [destruct H1 as (r1 & E1 & _); congruence|].
  destruct H1 as (e1 & r1 & E1 & _ & _ & Hn). rewrite E in E1. injection E1 as <- <-.
  assert (Hw : r_wf (r_more more r)) by exact Hr.
  pose proof (run_rop_spec op (r_more more r) Hw Hq Hok) as H2. pose proof (spec_rop_len op (unread (r_more more r))) as L2.
  assert (LU : unread_len (unread (r_more more r)) = unread_len (unread r) + 8 * length more).
  { assert (LA : length (s_avail (with_more (r_s r) more)) = length (s_avail (r_s r)) + length more).
    { unfold s_avail. cbn [with_more s_data s_pos]. rewrite skipn_app, app_length, !skipn_length. lia. }
    unfold unread, unread_len. cbn [r_more r_left r_s]. destruct (r_left r) as [[b|l]|]; cbn [fst snd length]; rewrite LA; lia. }
  assert (LE : rop_size op <= e + unread_len (unread r)).
  { destruct (r_left r) as [[b|l]|] eqn:El.
    - destruct op as [n o|n o|n|]; cbn [run_rop rop_size] in *.
      + pose proof (read_bits_into_spec n o r Hr Hq) as H. unfold bind, read_bits in E. destruct (take_bits o n (unread r)) as [[l u]|].
        * destruct H as (r3 & H & _). rewrite H in E. discriminate.
        * destruct H as (r3 & H & _). rewrite H in E. injection E as <- _. lia.
      + unfold bind, read_bytes in E. rewrite El in E. unfold read_bytes_leftover in E. replace (n =? 0) with false in E by lia.
        rewrite (bind_ok _ _ _ tt (r_set_left r None)) in E by reflexivity. cbv zeta in E. destruct (n - 1 =? 0) eqn:E1; [discriminate E|].
        replace (n <? n - 1) with false in E by lia. replace (n <? n) with false in E by lia. unfold unread, unread_len. rewrite El. cbn [fst snd length].
        destruct (r_io (n - 1) (r_set_left r None)) as [[bs|k] r3]; [discriminate E|]. destruct (is_eof k); [|discriminate E].
        apply (f_equal fst) in E. cbn [fst] in E. apply (f_equal (fun x => match x with Err (Incomplete n) => n | _ => 0 end)) in E. lia.
      + pose proof (read_bits_into_spec n Msb0 r Hr Hq) as H. unfold bind in E. rewrite fast_read_generic in E by assumption. unfold bind in E.
        destruct (take_bits Msb0 n (unread r)) as [[l u]|].
        * destruct H as (r3 & H & _). rewrite H in E. discriminate.
        * destruct H as (r3 & H & _). rewrite H in E. injection E as <- _. lia.
      + lia.
    - rewrite Hn; [lia|]. intros [b Hb]. congruence.
    - rewrite Hn; [lia|]. intros [b Hb]. congruence. }
  destruct (spec_rop op (unread (r_more more r))) as [[x u]|]; [|lia]. destruct H2 as (r2 & E2 & _). eauto.
Qed.
