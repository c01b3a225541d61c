(** Derived readers are programs that use their source through [read_exact] and [seek]. *)
From Coq Require Import Lia ZifyBool ZifyNat ZifyN.
From Verif Require Import Base MonadFacts Spec Stream Reader Prims Containers Derive DeriveSpec DeriveSound DeriveClosed Chunks ChunkSpec ChunkFacts.

Fixpoint prog_bind {A B} (p : prog A) (f : A -> prog B) : prog B :=
  match p with
  | Done a => f a
  | Read n k => Read n (fun x => prog_bind (k x) f)
  | Seek w k => Seek w (fun x => prog_bind (k x) f)
  end.
Lemma run_bind {A B} (p : prog A) (f : A -> prog B) : forall s, run (prog_bind p f) s = let '(a, s') := run p s in run (f a) s'.
Proof.
  induction p as [a|n k IH|w k IH]; intros s; cbn [prog_bind run]; [reflexivity| |].
  - destruct (s_read_exact n s) as [x s']. apply IH.
  - destruct (s_seek w s) as [x s']. apply IH.
Qed.

(** A program for every content of the buffer and every number of bits read. *)
Definition ends {A} (y : (res A * option leftover * nat) * stream) : res A * reader :=
  let '((x, l, b), s) := y in (x, mkReader s l b).
Definition is_prog {A} (m : RM A) : Type :=
  forall l b, { p : prog (res A * option leftover * nat) | forall s, m (mkReader s l b) = ends (run p s) }.

Lemma g_ext {A} (m1 m2 : RM A) : (forall r, m2 r = m1 r) -> is_prog m1 -> is_prog m2.
Proof. intros E M l b. destruct (M l b) as [p H]. exists p. intros s. rewrite E. apply H. Qed.
Lemma g_lift {A} (x : res A) : is_prog (lift x).
Proof. intros l b. exists (Done (x, l, b)). reflexivity. Qed.
Lemma g_ret {A} (a : A) : is_prog (ret a).
Proof. exact (g_lift (Ok a)). Qed.
Lemma g_fail {A} e : is_prog (fail (A:=A) e).
Proof. exact (g_lift (Err e)). Qed.
Lemma g_panic {A} : is_prog (panic (A:=A)).
Proof. exact (g_lift Panic). Qed.
Lemma g_diverge {A} : is_prog (diverge (A:=A)).
Proof. exact (g_lift Diverge). Qed.
Lemma g_assert b : is_prog (assert_ b).
Proof. destruct b; [apply g_ret|apply g_panic]. Qed.
Lemma g_bind {A B} (m : RM A) (f : A -> RM B) : is_prog m -> (forall a, is_prog (f a)) -> is_prog (bind m f).
Proof.
  intros M F l b. destruct (M l b) as [p H].
  exists (prog_bind p (fun y => let '(x, l', b') := y in
     match x with Ok a => proj1_sig (F a l' b') | Err e => Done (Err e, l', b') | Panic => Done (Panic, l', b') | Diverge => Done (Diverge, l', b') end)).
  intros s. rewrite run_bind. unfold bind. rewrite H. destruct (run p s) as [[[x l'] b'] s']. cbn [ends]. destruct x as [a|e| |]; try reflexivity.
  apply (proj2_sig (F a l' b')).
Qed.
Lemma g_see {A} (f : option leftover -> RM A) : (forall l, is_prog (f l)) -> is_prog (fun r => f (r_left r) r).
Proof. intros F l b. destruct (F l l b) as [p H]. exists p. exact H. Qed.
Lemma g_off {A} (f : nat -> RM A) : (forall n, is_prog (f n)) -> is_prog (fun r => f (r_bits r) r).
Proof. intros F l b. destruct (F b l b) as [p H]. exists p. exact H. Qed.
Lemma g_left l : is_prog (modify (fun r => r_set_left r l)).
Proof. intros l' b. exists (Done (Ok tt, l, b)). reflexivity. Qed.
Lemma g_add n : is_prog (modify (fun r => r_add_bits r n)).
Proof. intros l b. exists (Done (Ok tt, l, b + n)). reflexivity. Qed.
Lemma g_drop {A} (m : RM A) : is_prog m -> is_prog (fun r => m (r_set_left r None)).
Proof. intros M l b. destruct (M None b) as [p H]. exists p. exact H. Qed.
Lemma g_io {A} n (k : iores (list byte) -> RM A) : (forall x, is_prog (k x)) -> is_prog (fun r => let '(x, r') := r_io n r in k x r').
Proof.
  intros K l b. exists (Read n (fun x => proj1_sig (K x l b))). intros s. cbn [run]. unfold r_io. cbn [r_s]. destruct (s_read_exact n s) as [x s'].
  apply (proj2_sig (K x l b)).
Qed.
Lemma g_seek w : is_prog (lift_io (r_seek w)).
Proof.
  intros l b. exists (Seek w (fun x => match x with IoOk p => Done (Ok p, None, 8 * p) | IoErr k => Done (Err (Io k), None, b) end)).
  intros s. cbn [run]. unfold lift_io, r_seek. cbn [r_set_left r_s]. destruct (s_seek w s) as [[p|k] s']; reflexivity.
Qed.
Lemma g_inner w : is_prog (inner_seek w).
Proof.
  intros l b. exists (Seek w (fun x => match x with IoOk p => Done (Ok p, l, b) | IoErr k => Done (Err (Io k), l, b) end)).
  intros s. cbn [run]. unfold inner_seek, lift_io. cbn [r_s]. destruct (s_seek w s) as [[p|k] s']; reflexivity.
Qed.
Lemma g_fill n k : is_prog (fill_slots n k).
Proof.
  induction k as [|k IH]; cbn [fill_slots]; [apply g_ret|].
  eapply g_ext; [|apply (g_io 1 (fun x => match x with
    | IoErr e => if is_eof e then fail (Incomplete n) else (let* bs := fill_slots n k in ret (x00 :: bs))
    | IoOk bs0 => let* bs := fill_slots n k in ret (hd x00 bs0 :: bs) end))]; [|].
  - intros r. cbv beta. destruct (r_io 1 r) as [[bs|e] r']; [reflexivity|]. now destruct (is_eof e).
  - intros [bs|e]; [|destruct (is_eof e); [apply g_fail|]]; (apply g_bind; [exact IH|intros ?; apply g_ret]).
Qed.
Lemma g_rem n : is_prog (read_rem_byte n).
Proof.
  eapply g_ext; [|apply (g_io 1 (fun x => match x with IoErr e => fail (if is_eof e then Incomplete n else Io e) | IoOk bs => ret (hd x00 bs) end))]; [|].
  - intros r. cbv beta. unfold read_rem_byte. now destruct (r_io 1 r) as [[bs|e] r'].
  - intros [bs|e]; [apply g_ret|apply g_fail].
Qed.
Lemma g_greater n o prev : is_prog (match o with Lsb0 => read_greater_lsb n prev | Msb0 => read_greater_msb n prev end).
Proof.
  destruct o; unfold read_greater_lsb, read_greater_msb; cbv zeta; (apply g_bind; [apply g_fill|intros bs]);
    (destruct (_ =? 0); [apply g_ret|]); (apply g_bind; [apply g_rem|intros b]); (apply g_bind; [apply g_left|intros _]); apply g_ret.
Qed.
Lemma g_bits_into n o : is_prog (read_bits_into n o).
Proof.
  unfold read_bits_into. destruct (n =? 0); [apply g_ret|]. cbv zeta.
  apply (g_see (fun l r => (let* dst := match n ?= length (left_bits l) with
       | Lt => let* _ := assert_ (length (left_bits l) <=? 8) in
           match o with
           | Lsb0 => let* _ := modify (fun r => r_set_left r (Some (Reader.LBits (firstn (length (left_bits l) - n) (left_bits l))))) in
               ret (skipn (length (left_bits l) - n) (left_bits l))
           | Msb0 => let* _ := modify (fun r => r_set_left r (Some (Reader.LBits (skipn n (left_bits l))))) in ret (firstn n (left_bits l))
           end
       | Eq => let* _ := assert_ (length (left_bits l) <=? 8) in ret (left_bits l)
       | Gt => match o with Lsb0 => read_greater_lsb n (left_bits l) | Msb0 => read_greater_msb n (left_bits l) end
       end in let* _ := modify (fun r => r_add_bits r n) in ret dst) (r_set_left r None))).
  intros l. apply g_drop. apply g_bind; [|intros dst; apply g_bind; [apply g_add|intros _; apply g_ret]].
  destruct (n ?= _); [| |apply g_greater]; (apply g_bind; [apply g_assert|intros _]); [apply g_ret|].
  destruct o; (apply g_bind; [apply g_left|intros _; apply g_ret]).
Qed.
Lemma g_uint_loop fuel amt : forall acc have, is_prog (uint_loop fuel amt acc have).
Proof.
  induction fuel as [|f IH]; intros acc have; cbn [uint_loop]; (destruct (amt <=? have); [apply g_ret|]); [apply g_diverge|].
  eapply g_ext; [|apply (g_io 1 (fun x => match x with
    | IoErr e => fail (if is_eof e then Incomplete amt else Io e)
    | IoOk bs => uint_loop f amt (N.lor (wrap 128 (N.shiftl acc 8)) (Byte.to_N (hd x00 bs))) (have + 8) end))]; [|].
  - intros r. cbv beta. now destruct (r_io 1 r) as [[bs|e] r'].
  - intros [bs|e]; [apply IH|apply g_fail].
Qed.
Lemma g_uint amt : is_prog (read_bits_uint_msb0 amt).
Proof.
  unfold read_bits_uint_msb0. apply g_bind; [apply g_assert|intros _].
  set (start := fun l : option leftover => match l with
      | Some (LByte b) => (Byte.to_N b, 8)
      | Some (Reader.LBits bits) => if length bits =? 0 then (0%N, 0) else (N.shiftr (as_msb0_byte bits) (N.of_nat (8 - length bits)), length bits)
      | None => (0%N, 0) end).
  set (body := fun p : N * nat => let '(acc, have) := p in
     let rest := have - amt in
     let value := N.land (wrap 64 (N.shiftr acc (N.of_nat rest))) (N.shiftr (2 ^ 64 - 1) (N.of_nat (64 - amt))) in
     let* _ := if rest =? 0 then ret tt
       else let tail := wrap 8 (N.land acc (N.shiftl 1 (N.of_nat rest) - 1)) in
         let b := wrap 8 (N.shiftl tail (N.of_nat (8 - rest))) in
         modify (fun r => r_set_left r (Some (Reader.LBits (firstn rest (N2bits 8 b))))) in
     let* _ := modify (fun r => r_add_bits r amt) in ret value).
  eapply g_ext; [|apply (g_see (fun l r => (let* p := uint_loop amt amt (fst (start l)) (snd (start l)) in body p) (r_set_left r None)))].
  - intros r. cbv beta. cbv beta. fold (start (r_left r)). destruct (start (r_left r)). reflexivity.
  - intros l. apply g_drop. apply g_bind; [apply g_uint_loop|]. intros [acc have]. unfold body. cbv zeta.
    apply g_bind; [|intros _; apply g_bind; [apply g_add|intros _; apply g_ret]]. destruct (_ =? 0); [apply g_ret|apply g_left].
Qed.
Lemma g_bytes_leftover amt len b : is_prog (read_bytes_leftover amt len b).
Proof.
  unfold read_bytes_leftover. destruct (len =? 0); [apply g_panic|]. apply g_bind; [apply g_left|intros _].
  destruct (amt =? 0); [apply g_panic|]. cbv zeta. destruct (_ =? 0); [apply g_bind; [apply g_add|intros _; apply g_ret]|].
  destruct (_ <? _); [apply g_fail|]. destruct (_ <? _); [apply g_panic|].
  eapply g_ext; [|apply (g_io (amt - 1) (fun x => match x with
    | IoErr e => fail (if is_eof e then Incomplete ((amt - 1) * 8) else Io e)
    | IoOk bs => let* _ := modify (fun r => r_add_bits r (amt * 8)) in ret (b :: bs) end))]; [|].
  - intros r. cbv beta. now destruct (r_io _ r) as [[bs|e] r'].
  - intros [bs|e]; [|apply g_fail]. apply g_bind; [apply g_add|intros _; apply g_ret].
Qed.
Lemma g_bytes amt len o : is_prog (read_bytes amt len o).
Proof.
  eapply g_ext; [|apply (g_see (fun l => match l with
    | None => if len <? amt then panic else fun r => let '(x, r') := r_io amt r in (match x with
        | IoErr e => fail (if is_eof e then Incomplete (amt * 8) else Io e)
        | IoOk bs => let* _ := modify (fun r => r_add_bits r (amt * 8)) in ret bs end) r'
    | Some (LByte b) => read_bytes_leftover amt len b
    | Some (Reader.LBits _) => if len <? amt then panic else read_bytes_bits amt o end))].
  - intros r. cbv beta. unfold read_bytes. destruct (r_left r) as [[b|bits]|]; auto; destruct (len <? amt); auto. now destruct (r_io amt r) as [[bs|e] r'].
  - intros [[b|bits]|]; [apply g_bytes_leftover| |]; (destruct (len <? amt); [apply g_panic|]).
    + unfold read_bytes_bits. apply g_bind; [apply g_bits_into|intros; apply g_ret].
    + apply g_io. intros [bs|e]; [|apply g_fail]. apply g_bind; [apply g_add|intros _; apply g_ret].
Qed.
Lemma g_skip n o : is_prog (skip_bits n o).
Proof.
  assert (HT : forall m, is_prog (let bytes_amt := m / 8 in let bits_amt := m mod 8 in
     let* _ := if bytes_amt =? 0 then ret tt else fun r => if negb (r_bits r mod 8 =? 0) then (Panic, r)
         else (let* _ := lift_io (r_seek (SeekCurrent (Z.of_nat bytes_amt))) in ret tt) r in
     let* _ := read_bits_into bits_amt o in ret tt)).
  { intros m. cbv zeta. apply g_bind; [|intros _; apply g_bind; [apply g_bits_into|intros; apply g_ret]].
    destruct (_ =? 0); [apply g_ret|]. apply (g_off (fun b r => if negb (b mod 8 =? 0) then (Panic, r) else _ r)). intros b.
    destruct (negb _); [apply g_panic|]. apply g_bind; [apply g_seek|intros _; apply g_ret]. }
  eapply g_ext; [|apply (g_see (fun l => match l with
     | Some (Reader.LBits bits) => let* _ := read_bits_into (Nat.min n (length bits)) o in
        (let bytes_amt := (n - Nat.min n (length bits)) / 8 in let bits_amt := (n - Nat.min n (length bits)) mod 8 in
         let* _ := if bytes_amt =? 0 then ret tt else fun r => if negb (r_bits r mod 8 =? 0) then (Panic, r)
           else (let* _ := lift_io (r_seek (SeekCurrent (Z.of_nat bytes_amt))) in ret tt) r in
         let* _ := read_bits_into bits_amt o in ret tt)
     | _ => let bytes_amt := n / 8 in let bits_amt := n mod 8 in
         let* _ := if bytes_amt =? 0 then ret tt else fun r => if negb (r_bits r mod 8 =? 0) then (Panic, r)
           else (let* _ := lift_io (r_seek (SeekCurrent (Z.of_nat bytes_amt))) in ret tt) r in
         let* _ := read_bits_into bits_amt o in ret tt end))].
  - intros r. cbv beta. unfold skip_bits. destruct (r_left r) as [[b|bits]|]; auto. now rewrite bind_assoc.
  - intros [[b|bits]|]; [apply HT| |apply HT]. apply g_bind; [apply g_bits_into|intros _]. apply HT.
Qed.
Lemma g_prim p c : is_prog (prim_read p c).
Proof.
  assert (HS : forall wb e n o, is_prog (read_bytes_sized wb e n o)).
  { intros. unfold read_bytes_sized. destruct (_ <? n); [apply g_fail|]. apply g_bind; [apply g_bytes|intros; apply g_ret]. }
  assert (HY : forall e n o, is_prog (read_eyo p e n o)).
  { intros. unfold read_eyo, read_u8_bytes. destruct p; auto. apply g_bind; [apply g_bytes|intros; apply g_ret]. }
  assert (HU : forall wb e n o, is_prog (read_u_bits wb e n o)).
  { intros. unfold read_u_bits. destruct (_ <? n); [apply g_fail|]. cbv zeta.
    assert (SL : is_prog (let* bits := read_bits_into n o in lift (u_of_bits wb e n o bits))) by (apply g_bind; [apply g_bits_into|intros; apply g_lift]).
    destruct e, o; auto. destruct (_ && _); auto. apply g_bind; [apply g_uint|intros; apply g_ret]. }
  assert (HO : forall e n o, is_prog (read_ebo p e n o)).
  { intros. unfold read_ebo. destruct p; auto. unfold read_i_bits. destruct (_ <? n); [apply g_fail|].
    apply g_bind; [apply g_bits_into|intros; apply g_lift]. }
  assert (HE : forall e, is_prog (read_e p e)) by (intros; unfold read_e; apply g_bind; [apply g_bytes|intros; apply g_ret]).
  destruct c; cbn [prim_read]; auto; destruct (_ =? 0); auto.
Qed.
Lemma g_vec_loop {A} (elem : RM A) stop start : is_prog elem -> forall fuel acc, is_prog (vec_loop fuel elem stop start acc).
Proof.
  intros E. induction fuel as [|f IH]; intros acc; cbn [vec_loop]; [apply g_diverge|]. apply g_bind; [exact E|]. intros v.
  apply (g_off (fun b r => if b <? start then (Panic, r) else if stop (b - start) (acc ++ [v]) then (Ok (acc ++ [v]), r) else _ r)).
  intros b. destruct (b <? start); [apply g_panic|]. destruct (stop _ _); [apply g_ret|apply IH].
Qed.
Lemma g_end_loop {A} (elem : RM A) : is_prog elem -> forall fuel acc, is_prog (end_loop fuel elem acc).
Proof.
  intros E. induction fuel as [|f IH]; intros acc; cbn [end_loop]; [apply g_diverge|].
  assert (HE : is_prog (let* v := elem in end_loop f elem (acc ++ [v]))) by (apply g_bind; [exact E|auto]).
  set (put := fun b : byte => let* _ := modify (fun r => r_set_left r (Some (LByte b))) in let* v := elem in end_loop f elem (acc ++ [v])).
  assert (HB : forall b, is_prog (put b)) by (intros b; apply g_bind; [apply g_left|intros _; exact HE]).
  set (more := fun x : iores (list byte) => match x with IoErr k => if is_eof k then ret acc else put x00 | IoOk bs => put (hd x00 bs) end).
  apply g_ext with (m1 := fun r => (fun l => match l with
    | Some _ => let* v := elem in end_loop f elem (acc ++ [v])
    | None => fun r => let '(x, r') := r_io 1 r in more x r' end) (r_left r) r).
  - intros r. unfold r_end, more, put. destruct (r_left r); [reflexivity|]. destruct (r_io 1 r) as [[bs|k] r']; [reflexivity|]. now destruct (is_eof k).
  - apply (g_see (fun l => match l with Some _ => let* v := elem in end_loop f elem (acc ++ [v]) | None => fun r => let '(x, r') := r_io 1 r in more x r' end)).
    intros [l|]; [exact HE|]. apply (g_io 1 more). intros [bs|k]; unfold more; [apply HB|]. destruct (is_eof k); [apply g_ret|apply HB].
Qed.
Lemma g_vec {A} fuel size (elem : RM A) lim : is_prog elem -> is_prog (vec_read fuel size elem lim).
Proof.
  intros E. assert (HP : forall f cap stop, is_prog (vec_with_predicate f size cap elem stop)).
  { intros. unfold vec_with_predicate. destruct (size =? 0)%N; [apply g_ret|].
    match goal with |- is_prog (if ?b then _ else _) => destruct b end; [apply g_panic|].
    apply (g_off (fun b r => vec_loop f elem stop b [] r)). intros b. now apply g_vec_loop. }
  destruct lim as [n|p|n|n|]; cbn [vec_read].
  - destruct (n =? 0)%N; [apply g_ret|]. eapply g_ext; [|apply HP]. reflexivity.
  - apply HP.
  - destruct (_ <? _)%N; [apply g_panic|]. destruct (_ =? 0)%N; [apply g_ret|apply HP].
  - destruct (n =? 0)%N; [apply g_ret|apply HP].
  - unfold vec_to_end. destruct (size =? 0)%N; [apply g_ret|now apply g_end_loop].
Qed.
Lemma g_exact n : is_prog (read_exact_vec n).
Proof.
  unfold read_exact_vec. apply g_bind; [apply g_inner|intros pos]. apply g_bind; [apply g_inner|intros end_]. apply g_bind; [apply g_inner|intros _].
  destruct (_ <? _); [apply g_panic|]. destruct (_ <? _)%N; [destruct (_ <? _)%N; [apply g_panic|]; exact (g_fail _)|]. exact (g_bytes _ _ _).
Qed.
Lemma g_cstring fuel : is_prog (read_cstring fuel).
Proof.
  unfold read_cstring. apply g_bind; [apply g_vec; apply g_prim|]. intros l. unfold to_cstring. destruct (from_vec_with_nul l); [apply g_ret|apply g_fail].
Qed.
Lemma g_cstring_bytes n : is_prog (read_cstring_bytes n).
Proof.
  unfold read_cstring_bytes. apply g_bind; [apply g_vec; apply g_prim|]. intros l. unfold to_cstring. destruct (from_vec_with_nul l); [apply g_ret|apply g_fail].
Qed.


Theorem derived_prog cu fuel t lim args : reader_derived t -> is_prog (read_ty cu fuel t lim args).
Proof.
  intros H. refine (closed_read cu fuel _ _ _ _ (fun _ => True) (fun A m => is_prog m) True True _ _ _ _ _ _ _ _ _ _ _ _ _ _ _ _ _ _ _ t lim args H _ I).
  - intros A m1 m2 E. apply g_ext. intros r. now rewrite E.
  - intros A x. apply g_lift.
  - intros A B m f. apply g_bind.
  - intros A f _. apply g_off.
  - intros. apply g_prim.
  - apply g_prim.
  - auto.
  - auto.
  - intros A elem size l _. apply g_vec.
  - apply g_cstring.
  - apply g_cstring_bytes.
  - intros. apply g_exact.
  - intros. apply g_skip.
  - intros. apply g_seek.
  - intros. apply g_seek.
  - intros c a t0 f ctx fs off Hr Hf. rewrite Hr in Hf. discriminate.
  - intros k a [].
  - auto.
  - now left.
  - intros _. exact I.
Qed.
Theorem from_reader_prog cu fuel t bit : reader_derived t -> { p : prog (res (nat * value)) | forall s, from_reader cu fuel t s bit = run p s }.
Proof.
  intros H. set (m := let* _ := if bit =? 0 then ret tt else skip_bits bit Msb0 in
     let* v := read_ty cu fuel t None [] in fun r => (Ok (r_bits r, v), r)).
  assert (HM : is_prog m).
  { apply g_bind; [destruct (bit =? 0); [apply g_ret|apply g_skip]|]. intros _. apply g_bind; [now apply derived_prog|]. intros v.
    apply (g_off (fun b => ret (b, v))). intros b. apply g_ret. }
  destruct (HM None 0) as [p Hp]. exists (prog_bind p (fun y => Done (fst (fst y)))). intros s. rewrite run_bind. unfold from_reader.
  change (reader_new s) with (mkReader s None 0). fold m. rewrite Hp. destruct (run p s) as [[[x l] b] s']. reflexivity.
Qed.

(** ** In pieces *)
Theorem prog_pieces {A} (p : prog A) b d : patient b (d_read d) ->
  exists x d' f n, run_raw b p d = (Some x, d') /\ run p (at_once d f 0) = (x, at_once d' f n) /\ (reliable (d_read d) (d_seek d) -> forall j, f j = None).
Proof.
  intros Hp. destruct (run_ends b p d Hp) as (x & d' & E). destruct (run_at_once b p d 0 x d' E) as (h & n & Hh & Hr).
  exists x, d', h, n. split; [exact E|]. split; [apply Hr; intros j _; reflexivity|exact Hh].
Qed.
Theorem read_pieces cu fuel t bit p : (forall s, from_reader cu fuel t s bit = run p s) -> forall b d, patient b (d_read d) -> reliable (d_read d) (d_seek d) ->
  exists x d' n, run_raw b p d = (Some x, d') /\ from_reader cu fuel t (at_once d (fun _ => None) 0) bit = (x, at_once d' (fun _ => None) n).
Proof.
  intros Hs b d Hp HR. destruct (run_ends b p d Hp) as (x & d' & E). destruct (run_at_once b p d 0 x d' E) as (h & n & Hh & Hr).
  exists x, d', n. split; [exact E|]. rewrite Hs. apply Hr. intros j _. now rewrite Hh.
Qed.
Theorem read_program cu fuel t bit : reader_derived t -> exists p, forall s, from_reader cu fuel t s bit = run p s.
Proof. intros H. destruct (from_reader_prog cu fuel t bit H) as [p Hp]. now exists p. Qed.
