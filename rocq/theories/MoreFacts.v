(** More input behind a source does not change what has been read. *)
From Coq Require Import Lia ZifyBool ZifyNat ZifyN.
From Verif Require Import Base MonadFacts Spec Stream Reader Session Writer Prims Containers Derive DeriveSpec DeriveSound DeriveClosed MoreSpec.
Ltac Zify.zify_post_hook ::= Z.div_mod_to_equations.

Section More.
Variable more : list byte.
Notation R := (r_more more).
Notation asim := (unaffected more).

Lemma a_ext {A} (m1 m2 : RM A) : (forall r, m1 r = m2 r) -> asim m1 -> asim m2.
Proof. intros E H r. rewrite <- !E. apply H. Qed.
Lemma a_lift {A} (x : res A) : asim (lift x).
Proof. intros r. destruct x as [a|[]| |]; cbn; auto. Qed.
Lemma a_ret {A} (a : A) : asim (ret a).
Proof. exact (a_lift (Ok a)). Qed.
Lemma a_fail {A} e : asim (fail (A:=A) e).
Proof. exact (a_lift (Err e)). Qed.
Lemma a_panic {A} : asim (panic (A:=A)).
Proof. exact (a_lift Panic). Qed.
Lemma a_diverge {A} : asim (diverge (A:=A)).
Proof. exact (a_lift Diverge). Qed.
Lemma a_assert b : asim (assert_ b).
Proof. destruct b; [apply a_ret|apply a_panic]. Qed.
Lemma a_bind {A B} (m : RM A) (f : A -> RM B) : asim m -> (forall a, asim (f a)) -> asim (bind m f).
Proof.
  intros M F r. specialize (M r). unfold bind. destruct (m r) as [[a|e| |] r']; [rewrite M; apply F| |exact I|].
  - destruct e; auto; destruct (m (R r)) as [x r2]; cbn [fst] in M; now subst x.
  - destruct (m (R r)) as [x r2]; cbn [fst] in M; now subst x.
Qed.
Lemma a_see {A} (f : option leftover -> RM A) : (forall l, asim (f l)) -> asim (fun r => f (r_left r) r).
Proof. intros F r. apply (F (r_left r) r). Qed.
Lemma a_off {A} (f : nat -> RM A) : (forall n, asim (f n)) -> asim (fun r => f (r_bits r) r).
Proof. intros F r. apply (F (r_bits r) r). Qed.
Lemma a_modify f : (forall r, f (R r) = R (f r)) -> asim (modify f).
Proof. intros H r. cbn. unfold modify. now rewrite H. Qed.
Lemma a_left l : asim (modify (fun r => r_set_left r l)).
Proof. now apply a_modify. Qed.
Lemma a_add n : asim (modify (fun r => r_add_bits r n)).
Proof. now apply a_modify. Qed.
Lemma a_drop {A} (m : RM A) : asim m -> asim (fun r => m (r_set_left r None)).
Proof. intros M r. apply (M (r_set_left r None)). Qed.

Lemma avail_more s : s_avail (with_more s more) = s_avail s ++ skipn (s_pos s - length (s_data s)) more.
Proof. unfold s_avail. cbn. apply skipn_app. Qed.
Lemma io_more n r : (exists r', r_io n r = (IoErr UnexpectedEof, r')) \/
  (exists x r', r_io n r = (x, r') /\ r_io n (R r) = (x, R r')) \/
  1 < n /\ exists e r1 r2, r_io n r = (IoErr e, r1) /\ r_io n (R r) = (IoErr e, r2).
Proof.
  unfold r_io, s_read_exact. cbn [r_more r_s]. rewrite avail_more. cbn. destruct (s_fault (r_s r) (s_calls (r_s r))) as [[k m]|].
  { right. destruct (Nat.le_gt_cases n 1) as [H|H]; [left|right; split; [exact H|]; do 3 eexists; split; reflexivity].
    replace (Nat.min m (n - 1)) with 0 by lia. eexists. eexists. split; reflexivity. }
  destruct (n <=? length (s_avail (r_s r))) eqn:E; [|left; eexists; reflexivity]. right. left. rewrite app_length.
  replace (n <=? length (s_avail (r_s r)) + _) with true by lia. eexists. eexists. split; [reflexivity|].
  rewrite firstn_app. replace (n - length (s_avail (r_s r))) with 0 by lia. now rewrite app_nil_r.
Qed.
(** The error of a call for more than a byte, which may have taken some, is passed on. *)
Lemma a_io {A} n (k : iores (list byte) -> RM A) : (forall r, exists i r', k (IoErr UnexpectedEof) r = (Err (Incomplete i), r')) ->
  (1 < n -> forall e, exists d, k (IoErr e) = fail d) -> (forall x, asim (k x)) ->
  asim (fun r => let '(x, r') := r_io n r in k x r').
Proof.
  intros HE HF K r. destruct (io_more n r) as [[r' ->]|[(x & r' & -> & ->)|(Hn & e & r1 & r2 & -> & ->)]]; [destruct (HE r') as (i & r2 & ->); exact I|apply K|].
  destruct (HF Hn e) as [d ->]. unfold fail. now destruct d.
Qed.
Ltac eofs := intros; cbn [is_eof]; eexists; eexists; reflexivity.

Lemma a_fill n k : asim (fill_slots n k).
Proof.
  induction k as [|k IH]; cbn [fill_slots]; [apply a_ret|].
  eapply a_ext; [|apply (a_io 1 (fun x => match x with
    | IoErr e => if is_eof e then fail (Incomplete n) else (let* bs := fill_slots n k in ret (x00 :: bs))
    | IoOk bs0 => let* bs := fill_slots n k in ret (hd x00 bs0 :: bs) end))]; [|eofs|intros; first [lia|eexists; reflexivity]|].
  - intros r. cbv beta. destruct (r_io 1 r) as [[bs|e] r']; [reflexivity|]. now destruct (is_eof e).
  - intros [bs|e]; [|destruct (is_eof e); [apply a_fail|]]; (apply a_bind; [exact IH|intros ?; apply a_ret]).
Qed.
Lemma a_rem n : asim (read_rem_byte n).
Proof.
  eapply a_ext; [|apply (a_io 1 (fun x => match x with IoErr e => fail (if is_eof e then Incomplete n else Io e) | IoOk bs => ret (hd x00 bs) end))]; [|eofs|intros; first [lia|eexists; reflexivity]|].
  - intros r. cbv beta. unfold read_rem_byte. now destruct (r_io 1 r) as [[bs|e] r'].
  - intros [bs|e]; [apply a_ret|apply a_fail].
Qed.
Lemma a_greater n o prev : asim (match o with Lsb0 => read_greater_lsb n prev | Msb0 => read_greater_msb n prev end).
Proof.
  destruct o; unfold read_greater_lsb, read_greater_msb; cbv zeta; (apply a_bind; [apply a_fill|intros bs]);
    (destruct (_ =? 0); [apply a_ret|]); (apply a_bind; [apply a_rem|intros b]); (apply a_bind; [apply a_left|intros _]); apply a_ret.
Qed.
Lemma a_bits_into n o : asim (read_bits_into n o).
Proof.
  unfold read_bits_into. destruct (n =? 0); [apply a_ret|]. cbv zeta.
  apply (a_see (fun l r => (let* dst := match n ?= length (left_bits l) with
       | Lt => let* _ := assert_ (length (left_bits l) <=? 8) in
           match o with
           | Lsb0 => let* _ := modify (fun r => r_set_left r (Some (Reader.LBits (firstn (length (left_bits l) - n) (left_bits l))))) in
               ret (skipn (length (left_bits l) - n) (left_bits l))
           | Msb0 => let* _ := modify (fun r => r_set_left r (Some (Reader.LBits (skipn n (left_bits l))))) in ret (firstn n (left_bits l))
           end
       | Eq => let* _ := assert_ (length (left_bits l) <=? 8) in ret (left_bits l)
       | Gt => match o with Lsb0 => read_greater_lsb n (left_bits l) | Msb0 => read_greater_msb n (left_bits l) end
       end in let* _ := modify (fun r => r_add_bits r n) in ret dst) (r_set_left r None))).
  intros l. apply a_drop. apply a_bind; [|intros dst; apply a_bind; [apply a_add|intros _; apply a_ret]].
  destruct (n ?= _); [| |apply a_greater]; (apply a_bind; [apply a_assert|intros _]); [apply a_ret|].
  destruct o; (apply a_bind; [apply a_left|intros _; apply a_ret]).
Qed.
Lemma a_uint_loop fuel amt : forall acc have, asim (uint_loop fuel amt acc have).
Proof.
  induction fuel as [|f IH]; intros acc have; cbn [uint_loop]; (destruct (amt <=? have); [apply a_ret|]); [apply a_diverge|].
  eapply a_ext; [|apply (a_io 1 (fun x => match x with
    | IoErr e => fail (if is_eof e then Incomplete amt else Io e)
    | IoOk bs => uint_loop f amt (N.lor (wrap 128 (N.shiftl acc 8)) (Byte.to_N (hd x00 bs))) (have + 8) end))]; [|eofs|intros; first [lia|eexists; reflexivity]|].
  - intros r. cbv beta. now destruct (r_io 1 r) as [[bs|e] r'].
  - intros [bs|e]; [apply IH|apply a_fail].
Qed.
Lemma a_uint amt : asim (read_bits_uint_msb0 amt).
Proof.
  unfold read_bits_uint_msb0. apply a_bind; [apply a_assert|intros _].
  set (start := fun l : option leftover => match l with
      | Some (LByte b) => (Byte.to_N b, 8)
      | Some (Reader.LBits bits) => if length bits =? 0 then (0%N, 0) else (N.shiftr (as_msb0_byte bits) (N.of_nat (8 - length bits)), length bits)
      | None => (0%N, 0) end).
  set (body := fun p : N * nat => let '(acc, have) := p in
     let rest := have - amt in
     let value := N.land (wrap 64 (N.shiftr acc (N.of_nat rest))) (N.shiftr (2 ^ 64 - 1) (N.of_nat (64 - amt))) in
     let* _ := if rest =? 0 then ret tt
       else let tail := wrap 8 (N.land acc (N.shiftl 1 (N.of_nat rest) - 1)) in
         let b := wrap 8 (N.shiftl tail (N.of_nat (8 - rest))) in
         modify (fun r => r_set_left r (Some (Reader.LBits (firstn rest (N2bits 8 b))))) in
     let* _ := modify (fun r => r_add_bits r amt) in ret value).
  eapply a_ext; [|apply (a_see (fun l r => (let* p := uint_loop amt amt (fst (start l)) (snd (start l)) in body p) (r_set_left r None)))].
  - intros r. cbv beta. cbv beta. fold (start (r_left r)). destruct (start (r_left r)). reflexivity.
  - intros l. apply a_drop. apply a_bind; [apply a_uint_loop|]. intros [acc have]. unfold body. cbv zeta.
    apply a_bind; [|intros _; apply a_bind; [apply a_add|intros _; apply a_ret]]. destruct (_ =? 0); [apply a_ret|apply a_left].
Qed.
Lemma a_bytes_leftover amt len b : asim (read_bytes_leftover amt len b).
Proof.
  unfold read_bytes_leftover. destruct (len =? 0); [apply a_panic|]. apply a_bind; [apply a_left|intros _].
  destruct (amt =? 0); [apply a_panic|]. cbv zeta. destruct (_ =? 0); [apply a_bind; [apply a_add|intros _; apply a_ret]|].
  destruct (_ <? _); [apply a_fail|]. destruct (_ <? _); [apply a_panic|].
  eapply a_ext; [|apply (a_io (amt - 1) (fun x => match x with
    | IoErr e => fail (if is_eof e then Incomplete ((amt - 1) * 8) else Io e)
    | IoOk bs => let* _ := modify (fun r => r_add_bits r (amt * 8)) in ret (b :: bs) end))]; [|eofs|intros; first [lia|eexists; reflexivity]|].
  - intros r. cbv beta. now destruct (r_io _ r) as [[bs|e] r'].
  - intros [bs|e]; [|apply a_fail]. apply a_bind; [apply a_add|intros _; apply a_ret].
Qed.
Lemma a_bytes amt len o : asim (read_bytes amt len o).
Proof.
  eapply a_ext; [|apply (a_see (fun l => match l with
    | None => if len <? amt then panic else fun r => let '(x, r') := r_io amt r in (match x with
        | IoErr e => fail (if is_eof e then Incomplete (amt * 8) else Io e)
        | IoOk bs => let* _ := modify (fun r => r_add_bits r (amt * 8)) in ret bs end) r'
    | Some (LByte b) => read_bytes_leftover amt len b
    | Some (Reader.LBits _) => if len <? amt then panic else read_bytes_bits amt o end))].
  - intros r. cbv beta. unfold read_bytes. destruct (r_left r) as [[b|bits]|]; auto; destruct (len <? amt); auto. now destruct (r_io amt r) as [[bs|e] r'].
  - intros [[b|bits]|]; [apply a_bytes_leftover| |]; (destruct (len <? amt); [apply a_panic|]).
    + unfold read_bytes_bits. apply a_bind; [apply a_bits_into|intros; apply a_ret].
    + apply a_io; [eofs|intros; eexists; reflexivity|]. intros [bs|e]; [|apply a_fail]. apply a_bind; [apply a_add|intros _; apply a_ret].
Qed.
Lemma seek_more w s : not_from_end (Some w) -> fst (s_seek w (with_more s more)) = fst (s_seek w s) /\
  snd (s_seek w (with_more s more)) = with_more (snd (s_seek w s)) more.
Proof.
  intros H. unfold s_seek. cbn. destruct (s_fault s (s_calls s)) as [[? ?]|]; [now split|]. destruct (s_noseek s) as [v|].
  - destruct (noseek_target v w); now split.
  - destruct w; [| |contradiction]; cbn [seek_target]; [now split|]. destruct (_ <? 0)%Z; now split.
Qed.
Lemma a_seek w : not_from_end (Some w) -> asim (lift_io (r_seek w)).
Proof.
  intros H r. unfold lift_io, r_seek. cbn [r_set_left r_s r_more]. destruct (seek_more w (r_s r) H) as [E1 E2].
  destruct (s_seek w (r_s r)) as [[p|k] s], (s_seek w (with_more (r_s r) more)) as [x2 s2]; cbn [fst snd] in *; subst; reflexivity.
Qed.
Lemma a_inner w : not_from_end (Some w) -> asim (inner_seek w).
Proof.
  intros H r. unfold inner_seek, lift_io. cbn [r_s r_more]. destruct (seek_more w (r_s r) H) as [E1 E2].
  destruct (s_seek w (r_s r)) as [[p|k] s], (s_seek w (with_more (r_s r) more)) as [x2 s2]; cbn [fst snd] in *; subst; reflexivity.
Qed.
Lemma a_skip n o : asim (skip_bits n o).
Proof.
  assert (HT : forall m, asim (let bytes_amt := m / 8 in let bits_amt := m mod 8 in
     let* _ := if bytes_amt =? 0 then ret tt else fun r => if negb (r_bits r mod 8 =? 0) then (Panic, r)
         else (let* _ := lift_io (r_seek (SeekCurrent (Z.of_nat bytes_amt))) in ret tt) r in
     let* _ := read_bits_into bits_amt o in ret tt)).
  { intros m. cbv zeta. apply a_bind; [|intros _; apply a_bind; [apply a_bits_into|intros; apply a_ret]].
    destruct (_ =? 0); [apply a_ret|]. apply (a_off (fun b r => if negb (b mod 8 =? 0) then (Panic, r) else _ r)). intros b.
    destruct (negb _); [apply a_panic|]. apply a_bind; [now apply a_seek|intros _; apply a_ret]. }
  eapply a_ext; [|apply (a_see (fun l => match l with
     | Some (Reader.LBits bits) => let* _ := read_bits_into (Nat.min n (length bits)) o in
        (let bytes_amt := (n - Nat.min n (length bits)) / 8 in let bits_amt := (n - Nat.min n (length bits)) mod 8 in
         let* _ := if bytes_amt =? 0 then ret tt else fun r => if negb (r_bits r mod 8 =? 0) then (Panic, r)
           else (let* _ := lift_io (r_seek (SeekCurrent (Z.of_nat bytes_amt))) in ret tt) r in
         let* _ := read_bits_into bits_amt o in ret tt)
     | _ => let bytes_amt := n / 8 in let bits_amt := n mod 8 in
         let* _ := if bytes_amt =? 0 then ret tt else fun r => if negb (r_bits r mod 8 =? 0) then (Panic, r)
           else (let* _ := lift_io (r_seek (SeekCurrent (Z.of_nat bytes_amt))) in ret tt) r in
         let* _ := read_bits_into bits_amt o in ret tt end))].
  - intros r. cbv beta. unfold skip_bits. destruct (r_left r) as [[b|bits]|]; auto. now rewrite bind_assoc.
  - intros [[b|bits]|]; [apply HT| |apply HT]. apply a_bind; [apply a_bits_into|intros _]. apply HT.
Qed.
Lemma a_prim p c : asim (prim_read p c).
Proof.
  assert (HS : forall wb e n o, asim (read_bytes_sized wb e n o)).
  { intros. unfold read_bytes_sized. destruct (_ <? n); [apply a_fail|]. apply a_bind; [apply a_bytes|intros; apply a_ret]. }
  assert (HY : forall e n o, asim (read_eyo p e n o)).
  { intros. unfold read_eyo, read_u8_bytes. destruct p; auto. apply a_bind; [apply a_bytes|intros; apply a_ret]. }
  assert (HU : forall wb e n o, asim (read_u_bits wb e n o)).
  { intros. unfold read_u_bits. destruct (_ <? n); [apply a_fail|]. cbv zeta.
    assert (SL : asim (let* bits := read_bits_into n o in lift (u_of_bits wb e n o bits))) by (apply a_bind; [apply a_bits_into|intros; apply a_lift]).
    destruct e, o; auto. destruct (_ && _); auto. apply a_bind; [apply a_uint|intros; apply a_ret]. }
  assert (HO : forall e n o, asim (read_ebo p e n o)).
  { intros. unfold read_ebo. destruct p; auto. unfold read_i_bits. destruct (_ <? n); [apply a_fail|].
    apply a_bind; [apply a_bits_into|intros; apply a_lift]. }
  assert (HE : forall e, asim (read_e p e)) by (intros; unfold read_e; apply a_bind; [apply a_bytes|intros; apply a_ret]).
  destruct c; cbn [prim_read]; auto; destruct (_ =? 0); auto.
Qed.
Lemma a_vec_loop {A} (elem : RM A) stop start : asim elem -> forall fuel acc, asim (vec_loop fuel elem stop start acc).
Proof.
  intros E. induction fuel as [|f IH]; intros acc; cbn [vec_loop]; [apply a_diverge|]. apply a_bind; [exact E|]. intros v.
  apply (a_off (fun b r => if b <? start then (Panic, r) else if stop (b - start) (acc ++ [v]) then (Ok (acc ++ [v]), r) else _ r)).
  intros b. destruct (b <? start); [apply a_panic|]. destruct (stop _ _); [apply a_ret|apply IH].
Qed.
Lemma a_vec {A} fuel size (elem : RM A) lim : lim <> LEnd -> asim elem -> asim (vec_read fuel size elem lim).
Proof.
  intros HL E. assert (HP : forall f cap stop, asim (vec_with_predicate f size cap elem stop)).
  { intros. unfold vec_with_predicate. destruct (size =? 0)%N; [apply a_ret|].
    match goal with |- unaffected _ (if ?b then _ else _) => destruct b end; [apply a_panic|].
    apply (a_off (fun b r => vec_loop f elem stop b [] r)). intros b. now apply a_vec_loop. }
  destruct lim as [n|p|n|n|]; cbn [vec_read].
  - destruct (n =? 0)%N; [apply a_ret|]. eapply a_ext; [|apply HP]. reflexivity.
  - apply HP.
  - destruct (_ <? _)%N; [apply a_panic|]. destruct (_ =? 0)%N; [apply a_ret|apply HP].
  - destruct (n =? 0)%N; [apply a_ret|apply HP].
  - congruence.
Qed.
Lemma a_exact n : asim (read_exact_vec n).
Proof.
  unfold read_exact_vec. apply a_bind; [now apply a_inner|]. intros pos r.
  assert (E : (exists k, fst (s_seek (SeekEnd 0) (r_s r)) = IoErr k /\ fst (s_seek (SeekEnd 0) (with_more (r_s r) more)) = IoErr k) \/
    s_seek (SeekEnd 0) (r_s r) = (IoOk (length (s_data (r_s r))), s_goto (s_tick (r_s r)) (length (s_data (r_s r)))) /\
    s_seek (SeekEnd 0) (with_more (r_s r) more) = (IoOk (length (s_data (r_s r)) + length more),
       s_goto (s_tick (with_more (r_s r) more)) (length (s_data (r_s r)) + length more)) /\ s_noseek (r_s r) = None).
  { unfold s_seek. cbn. destruct (s_fault (r_s r) (s_calls (r_s r))) as [[k ?]|]; [left; now exists k|]. destruct (s_noseek (r_s r)); [left; now exists (OtherKind 0)|].
    right. rewrite app_length. replace (_ <? 0)%Z with false by lia. replace (_ <? 0)%Z with false by lia.
    rewrite !Z.add_0_r, !Nat2Z.id. auto. }
  destruct E as [(k & E1 & E2)|(E1 & E2 & En)].
  - unfold bind, inner_seek, lift_io. cbn [r_s r_more].
    destruct (s_seek _ (r_s r)) as [x1 s1], (s_seek _ (with_more _ _)) as [x2 s2]. cbn [fst snd] in *. now subst.
  - match goal with |- match ?m0 with _ => _ end => match m0 with ?m r => set (tail := m) end end.
    set (last := fun d : nat => if d <? pos then panic
      else if (N.of_nat (d - pos) <? n)%N then
        if (usize_max <? n * 8)%N then panic else fun r => (Err (Incomplete (N.to_nat (n * 8))), r)
      else fun r => read_bytes (N.to_nat n) (N.to_nat n) Lsb0 r).
    set (s1 := s_goto (s_tick (s_tick (r_s r))) pos).
    assert (T : forall r0 d, s_noseek (r_s r0) = None -> s_seek (SeekEnd 0) (r_s r0) = (IoOk d, s_goto (s_tick (r_s r0)) d) ->
       tail r0 = match s_fault (r_s r0) (S (s_calls (r_s r0))) with
                 | Some (k, _) => (Err (Io k), r_set_s r0 (s_tick (s_goto (s_tick (r_s r0)) d)))
                 | None => last d (r_set_s r0 (s_goto (s_tick (s_tick (r_s r0))) pos)) end).
    { intros r0 d H0 H1. unfold tail. unfold bind, inner_seek, lift_io. rewrite H1. unfold s_seek. cbn [r_s r_set_s s_goto s_tick s_fault s_calls s_noseek].
      rewrite H0. destruct (s_fault (r_s r0) (S (s_calls (r_s r0)))) as [[? ?]|]; reflexivity. }
    rewrite (T r _ En E1). pose proof (T (R r) _ En E2) as T2. cbn [r_s r_more] in T2. cbn [with_more s_fault s_calls] in T2. fold s1.
    destruct (s_fault (r_s r) (S (s_calls (r_s r)))) as [[k ?]|] eqn:Ef; [now rewrite T2|].
    unfold last in *. destruct (length (s_data (r_s r)) <? pos) eqn:Ep; [exact I|]. replace (_ + _ <? pos) with false in T2 by lia.
    destruct (N.of_nat (length (s_data (r_s r)) - pos) <? n)%N eqn:En2; [destruct (_ <? _)%N; exact I|]. replace (_ <? n)%N with false in T2 by lia.
    pose proof (a_bytes (N.to_nat n) (N.to_nat n) Lsb0 (r_set_s r s1)) as HB. rewrite T2. exact HB.
Qed.
Lemma a_cstring fuel : asim (read_cstring fuel).
Proof.
  unfold read_cstring. apply a_bind; [apply a_vec; [discriminate|apply a_prim]|]. intros l. unfold to_cstring. destruct (from_vec_with_nul l); [apply a_ret|apply a_fail].
Qed.
Lemma a_cstring_bytes n : asim (read_cstring_bytes n).
Proof.
  unfold read_cstring_bytes. apply a_bind; [apply a_vec; [discriminate|apply a_prim]|]. intros l. unfold to_cstring. destruct (from_vec_with_nul l); [apply a_ret|apply a_fail].
Qed.

Theorem derived_more cu fuel t lim args : blind_to_end more cu t -> lim <> Some LEnd -> asim (read_ty cu fuel t lim args).
Proof.
  intros H HL. refine (closed_read cu fuel _ _ _ _ (fun _ => True) (fun A m => asim m) True False _ _ _ _ _ _ _ _ _ _ _ _ _ _ _ _ _ _ _ t lim args H _ I).
  - intros A m1 m2. apply a_ext.
  - intros A x. apply a_lift.
  - intros A B m f. apply a_bind.
  - intros A f _. apply a_off.
  - intros. apply a_prim.
  - apply a_prim.
  - auto.
  - auto.
  - intros A elem size l Hl. apply a_vec. exact Hl.
  - apply a_cstring.
  - apply a_cstring_bytes.
  - intros. apply a_exact.
  - intros. apply a_skip.
  - intros c a t0 f w (Hs & _ & _) Hf (ctx & fs & E). apply a_seek. rewrite <- E. now apply Hs.
  - intros c f w Hs Hf (ctx & E). apply a_seek. rewrite <- E. now apply Hs.
  - intros c a t0 f ctx fs off (_ & _ & Hr) Hf. now apply (Hr f Hf).
  - intros k a Hk _. apply Hk.
  - intros c a t0 (_ & Hn & _) E. now elim Hn.
  - now left.
  - exact HL.
Qed.
End More.

(** ** [from_bytes] *)
Lemma from_reader_more cu fuel t input more bit : blind_to_end more cu t ->
  match from_reader cu fuel t (cursor input) bit with
  | (Err (Incomplete _), _) | (Panic, _) => True
  | (x, _) => fst (from_reader cu fuel t (cursor (input ++ more)) bit) = x
  end.
Proof.
  intros H. unfold from_reader.
  set (m := let* _ := if bit =? 0 then ret tt else skip_bits bit Msb0 in
     let* v := read_ty cu fuel t None [] in fun r => (Ok (r_bits r, v), r)).
  assert (HM : unaffected more m).
  { apply a_bind; [destruct (bit =? 0); [apply a_ret|apply a_skip]|]. intros _. apply a_bind; [now apply derived_more|]. intros v.
    apply (a_off more (fun b => ret (b, v))). intros b. apply a_ret. }
  specialize (HM (reader_new (cursor input))). change (r_more more (reader_new (cursor input))) with (reader_new (cursor (input ++ more))) in HM.
  destruct (m (reader_new (cursor input))) as [[a|e| |] r']; [now rewrite HM| |exact I|].
  - destruct e; try exact I; destruct (m (reader_new (cursor (input ++ more)))); cbn in *; now subst.
  - destruct (m (reader_new (cursor (input ++ more)))); cbn in *; now subst.
Qed.
Theorem more_success cu fuel t input more bit rest k v : blind_to_end more cu t ->
  from_bytes cu fuel t input bit = Ok ((rest, k), v) -> from_bytes cu fuel t (input ++ more) bit = Ok ((rest ++ more, k), v).
Proof.
  intros H. pose proof (from_reader_more cu fuel t input more bit H) as HM. unfold from_bytes.
  destruct (from_reader cu fuel t (cursor input) bit) as [[[n x]|e| |] s]; try discriminate.
  destruct (from_reader cu fuel t (cursor (input ++ more)) bit) as [y s']. cbn [fst] in HM. subst y.
  destruct (n / 8 <=? length input) eqn:E; [|discriminate]. intros HE. apply ok_inj in HE. apply pair_inj in HE. destruct HE as [HE <-]. apply pair_inj in HE. destruct HE as [<- <-].
  rewrite app_length. replace (n / 8 <=? _) with true by lia. rewrite skipn_app. replace (n / 8 - length input) with 0 by lia. reflexivity.
Qed.
Theorem more_failure cu fuel t input more bit e : blind_to_end more cu t -> (forall n, e <> Incomplete n) ->
  from_bytes cu fuel t input bit = Err e -> from_bytes cu fuel t (input ++ more) bit = Err e.
Proof.
  intros H He. pose proof (from_reader_more cu fuel t input more bit H) as HM. unfold from_bytes.
  destruct (from_reader cu fuel t (cursor input) bit) as [[[n x]|e'| |] s]; try discriminate.
  - destruct (n / 8 <=? length input); [discriminate|]. intros E. injection E as <-. now elim (He (8 * (n / 8 - length input))).
  - intros E. injection E as ->. destruct (from_reader cu fuel t (cursor (input ++ more)) bit) as [y s']. cbn [fst] in HM. destruct e; try now subst y. exfalso. eapply He. reflexivity.
Qed.
(** Incrementally: [Incomplete] until enough has arrived, then one answer for good. *)
Theorem more_decided cu fuel t input more1 more2 bit x : (forall m, blind_to_end m cu t) ->
  from_bytes cu fuel t input bit = x -> (forall n, x <> Err (Incomplete n)) -> x <> Panic -> x <> Diverge ->
  match from_bytes cu fuel t (input ++ more1) bit, from_bytes cu fuel t (input ++ more2) bit with
  | Ok (_, v1), Ok (_, v2) => v1 = v2
  | Err e1, Err e2 => e1 = e2
  | _, _ => False
  end.
Proof.
  intros H Hx Hi Hp Hd. destruct x as [[[rest k] v]|e| |]; try congruence.
  - now rewrite (more_success _ _ _ _ more1 _ _ _ _ (H _) Hx), (more_success _ _ _ _ more2 _ _ _ _ (H _) Hx).
  - assert (He : forall n, e <> Incomplete n) by (intros n ->; now apply (Hi n)).
    now rewrite (more_failure _ _ _ _ more1 _ _ (H _) He Hx), (more_failure _ _ _ _ more2 _ _ (H _) He Hx).
Qed.
