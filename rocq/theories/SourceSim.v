(** Two runs of one reader program on related sources. *)
From Coq Require Import Lia ZifyBool ZifyNat ZifyN.
From Verif Require Import Base MonadFacts Spec Stream Reader Session Prims Containers.
Ltac Zify.zify_post_hook ::= Z.div_mod_to_equations.

(** The first reader has read [8 * d] bits more. *)
Section Sim.
Variables (Rel : stream -> stream -> Prop) (d : nat).
Hypothesis Rel_read : forall n s1 s2, Rel s1 s2 ->
  fst (s_read_exact n s1) = fst (s_read_exact n s2) /\ Rel (snd (s_read_exact n s1)) (snd (s_read_exact n s2)).

Definition rrel (r1 r2 : reader) : Prop :=
  Rel (r_s r1) (r_s r2) /\ r_left r1 = r_left r2 /\ r_bits r1 = r_bits r2 + 8 * d.
Definition rsim {A} (m : RM A) : Prop :=
  forall r1 r2, rrel r1 r2 -> fst (m r1) = fst (m r2) /\ rrel (snd (m r1)) (snd (m r2)).

Lemma rsim_ext {A} (m1 m2 : RM A) : (forall r, m1 r = m2 r) -> rsim m1 -> rsim m2.
Proof. intros E H r1 r2. rewrite <- !E. apply H. Qed.
Lemma rsim_lift {A} (x : res A) : rsim (lift x).
Proof. intros r1 r2 H. now split. Qed.
Lemma rsim_ret {A} (a : A) : rsim (ret a).
Proof. exact (rsim_lift (Ok a)). Qed.
Lemma rsim_fail {A} e : rsim (fail (A:=A) e).
Proof. exact (rsim_lift (Err e)). Qed.
Lemma rsim_panic {A} : rsim (panic (A:=A)).
Proof. exact (rsim_lift Panic). Qed.
Lemma rsim_diverge {A} : rsim (diverge (A:=A)).
Proof. exact (rsim_lift Diverge). Qed.
Lemma rsim_assert b : rsim (assert_ b).
Proof. destruct b; [apply rsim_ret|apply rsim_panic]. Qed.
Lemma rsim_try {A B} (m : RM A) (k : res A -> RM B) : rsim m -> (forall x, rsim (k x)) -> rsim (fun r => let '(x, r') := m r in k x r').
Proof.
  intros M K r1 r2 H. destruct (M r1 r2 H) as [E R]. destruct (m r1) as [x1 v1], (m r2) as [x2 v2]. cbn [fst snd] in *. subst x2. now apply K.
Qed.
Lemma rsim_bind {A B} (m : RM A) (f : A -> RM B) : rsim m -> (forall a, rsim (f a)) -> rsim (bind m f).
Proof.
  intros M F. eapply rsim_ext; [|apply (rsim_try m (fun x => match x with Ok a => f a | Err e => fail e | Panic => panic | Diverge => diverge end) M)].
  - intros r. cbv beta. unfold bind. destruct (m r) as [[] r']; reflexivity.
  - intros [a|e| |]; auto using rsim_fail, rsim_panic, rsim_diverge.
Qed.
Lemma rsim_see {A} (f : option leftover -> RM A) : (forall l, rsim (f l)) -> rsim (fun r => f (r_left r) r).
Proof. intros F r1 r2 H. pose proof H as (_ & E & _). rewrite E. now apply F. Qed.
Lemma rsim_modify f : (forall r1 r2, rrel r1 r2 -> rrel (f r1) (f r2)) -> rsim (modify f).
Proof. intros H r1 r2 R. split; [reflexivity|]. now apply H. Qed.
Lemma rrel_left r1 r2 l : rrel r1 r2 -> rrel (r_set_left r1 l) (r_set_left r2 l).
Proof. intros (A & B & C). now repeat split. Qed.
Lemma rrel_add r1 r2 n : rrel r1 r2 -> rrel (r_add_bits r1 n) (r_add_bits r2 n).
Proof. intros (A & B & C). repeat split; auto. cbn. lia. Qed.
Lemma rsim_left l : rsim (modify (fun r => r_set_left r l)).
Proof. apply rsim_modify. intros r1 r2. apply rrel_left. Qed.
Lemma rsim_add n : rsim (modify (fun r => r_add_bits r n)).
Proof. apply rsim_modify. intros r1 r2. apply rrel_add. Qed.
Lemma rsim_io {A} n (k : iores (list byte) -> RM A) : (forall x, rsim (k x)) -> rsim (fun r => let '(x, r') := r_io n r in k x r').
Proof.
  intros K r1 r2 (R & L & B). unfold r_io. destruct (Rel_read n _ _ R) as [E R'].
  destruct (s_read_exact n (r_s r1)) as [x1 s1], (s_read_exact n (r_s r2)) as [x2 s2]. cbn [fst snd] in *. subst x2. apply K. now repeat split.
Qed.
(** Start by dropping the buffered bits. *)
Lemma rsim_drop {A} (m : RM A) : rsim m -> rsim (fun r => m (r_set_left r None)).
Proof. intros M r1 r2 R. apply M. now apply rrel_left. Qed.

Lemma rsim_fill n k : rsim (fill_slots n k).
Proof.
  induction k as [|k IH]; cbn [fill_slots]; [apply rsim_ret|].
  eapply rsim_ext; [|apply (rsim_io 1 (fun x => match x with
    | IoErr e => if is_eof e then fail (Incomplete n) else (let* bs := fill_slots n k in ret (x00 :: bs))
    | IoOk bs0 => let* bs := fill_slots n k in ret (hd x00 bs0 :: bs) end))].
  - intros r. cbv beta. destruct (r_io 1 r) as [[bs|e] r']; [reflexivity|]. now destruct (is_eof e).
  - intros [bs|e]; [|destruct (is_eof e); [apply rsim_fail|]]; (apply rsim_bind; [exact IH|intros ?; apply rsim_ret]).
Qed.
Lemma rsim_rem n : rsim (read_rem_byte n).
Proof.
  eapply rsim_ext; [|apply (rsim_io 1 (fun x => match x with IoErr e => fail (if is_eof e then Incomplete n else Io e) | IoOk bs => ret (hd x00 bs) end))].
  - intros r. cbv beta. unfold read_rem_byte. now destruct (r_io 1 r) as [[bs|e] r'].
  - intros [bs|e]; [apply rsim_ret|apply rsim_fail].
Qed.
Lemma rsim_greater n o prev : rsim (match o with Lsb0 => read_greater_lsb n prev | Msb0 => read_greater_msb n prev end).
Proof.
  destruct o; unfold read_greater_lsb, read_greater_msb; cbv zeta; (apply rsim_bind; [apply rsim_fill|intros bs]);
    (destruct (_ =? 0); [apply rsim_ret|]); (apply rsim_bind; [apply rsim_rem|intros b]); (apply rsim_bind; [apply rsim_left|intros _]); apply rsim_ret.
Qed.
Lemma rsim_bits_into n o : rsim (read_bits_into n o).
Proof.
  unfold read_bits_into. destruct (n =? 0); [apply rsim_ret|]. cbv zeta.
  apply (rsim_see (fun l r => (let* dst := match n ?= length (left_bits l) with
       | Lt => let* _ := assert_ (length (left_bits l) <=? 8) in
           match o with
           | Lsb0 => let* _ := modify (fun r => r_set_left r (Some (Reader.LBits (firstn (length (left_bits l) - n) (left_bits l))))) in
               ret (skipn (length (left_bits l) - n) (left_bits l))
           | Msb0 => let* _ := modify (fun r => r_set_left r (Some (Reader.LBits (skipn n (left_bits l))))) in ret (firstn n (left_bits l))
           end
       | Eq => let* _ := assert_ (length (left_bits l) <=? 8) in ret (left_bits l)
       | Gt => match o with Lsb0 => read_greater_lsb n (left_bits l) | Msb0 => read_greater_msb n (left_bits l) end
       end in let* _ := modify (fun r => r_add_bits r n) in ret dst) (r_set_left r None))).
  intros l. apply rsim_drop. apply rsim_bind; [|intros dst; apply rsim_bind; [apply rsim_add|intros _; apply rsim_ret]].
  destruct (n ?= _); [| |apply rsim_greater]; (apply rsim_bind; [apply rsim_assert|intros _]); [apply rsim_ret|].
  destruct o; (apply rsim_bind; [apply rsim_left|intros _; apply rsim_ret]).
Qed.
Lemma rsim_uint_loop fuel amt : forall acc have, rsim (uint_loop fuel amt acc have).
Proof.
  induction fuel as [|f IH]; intros acc have; cbn [uint_loop]; (destruct (amt <=? have); [apply rsim_ret|]); [apply rsim_diverge|].
  eapply rsim_ext; [|apply (rsim_io 1 (fun x => match x with
    | IoErr e => fail (if is_eof e then Incomplete amt else Io e)
    | IoOk bs => uint_loop f amt (N.lor (wrap 128 (N.shiftl acc 8)) (Byte.to_N (hd x00 bs))) (have + 8) end))].
  - intros r. cbv beta. now destruct (r_io 1 r) as [[bs|e] r'].
  - intros [bs|e]; [apply IH|apply rsim_fail].
Qed.
Lemma rsim_uint amt : rsim (read_bits_uint_msb0 amt).
Proof.
  unfold read_bits_uint_msb0. apply rsim_bind; [apply rsim_assert|intros _].
  set (start := fun l : option leftover => match l with
      | Some (LByte b) => (Byte.to_N b, 8)
      | Some (Reader.LBits bits) => if length bits =? 0 then (0%N, 0) else (N.shiftr (as_msb0_byte bits) (N.of_nat (8 - length bits)), length bits)
      | None => (0%N, 0) end).
  set (body := fun p : N * nat => let '(acc, have) := p in
     let rest := have - amt in
     let value := N.land (wrap 64 (N.shiftr acc (N.of_nat rest))) (N.shiftr (2 ^ 64 - 1) (N.of_nat (64 - amt))) in
     let* _ := if rest =? 0 then ret tt
       else let tail := wrap 8 (N.land acc (N.shiftl 1 (N.of_nat rest) - 1)) in
         let b := wrap 8 (N.shiftl tail (N.of_nat (8 - rest))) in
         modify (fun r => r_set_left r (Some (Reader.LBits (firstn rest (N2bits 8 b))))) in
     let* _ := modify (fun r => r_add_bits r amt) in ret value).
  eapply rsim_ext; [|apply (rsim_see (fun l r => (let* p := uint_loop amt amt (fst (start l)) (snd (start l)) in body p) (r_set_left r None)))].
  - intros r. cbv beta. cbv beta. fold (start (r_left r)). destruct (start (r_left r)). reflexivity.
  - intros l. apply rsim_drop. apply rsim_bind; [apply rsim_uint_loop|]. intros [acc have]. unfold body. cbv zeta.
    apply rsim_bind; [|intros _; apply rsim_bind; [apply rsim_add|intros _; apply rsim_ret]]. destruct (_ =? 0); [apply rsim_ret|apply rsim_left].
Qed.
Lemma rsim_bytes_leftover amt len b : rsim (read_bytes_leftover amt len b).
Proof.
  unfold read_bytes_leftover. destruct (len =? 0); [apply rsim_panic|]. apply rsim_bind; [apply rsim_left|intros _].
  destruct (amt =? 0); [apply rsim_panic|]. cbv zeta. destruct (_ =? 0); [apply rsim_bind; [apply rsim_add|intros _; apply rsim_ret]|].
  destruct (_ <? _); [apply rsim_fail|]. destruct (_ <? _); [apply rsim_panic|].
  eapply rsim_ext; [|apply (rsim_io (amt - 1) (fun x => match x with
    | IoErr e => fail (if is_eof e then Incomplete ((amt - 1) * 8) else Io e)
    | IoOk bs => let* _ := modify (fun r => r_add_bits r (amt * 8)) in ret (b :: bs) end))].
  - intros r. cbv beta. now destruct (r_io _ r) as [[bs|e] r'].
  - intros [bs|e]; [|apply rsim_fail]. apply rsim_bind; [apply rsim_add|intros _; apply rsim_ret].
Qed.
Lemma rsim_bytes amt len o : rsim (read_bytes amt len o).
Proof.
  eapply rsim_ext; [|apply (rsim_see (fun l => match l with
    | None => if len <? amt then panic else fun r => let '(x, r') := r_io amt r in (match x with
        | IoErr e => fail (if is_eof e then Incomplete (amt * 8) else Io e)
        | IoOk bs => let* _ := modify (fun r => r_add_bits r (amt * 8)) in ret bs end) r'
    | Some (LByte b) => read_bytes_leftover amt len b
    | Some (Reader.LBits _) => if len <? amt then panic else read_bytes_bits amt o end))].
  - intros r. cbv beta. unfold read_bytes. destruct (r_left r) as [[b|bits]|]; auto; destruct (len <? amt); auto. now destruct (r_io amt r) as [[bs|e] r'].
  - intros [[b|bits]|]; [apply rsim_bytes_leftover| |]; (destruct (len <? amt); [apply rsim_panic|]).
    + unfold read_bytes_bits. apply rsim_bind; [apply rsim_bits_into|intros; apply rsim_ret].
    + apply rsim_io. intros [bs|e]; [|apply rsim_fail]. apply rsim_bind; [apply rsim_add|intros _; apply rsim_ret].
Qed.
Lemma rsim_end : rsim (fun r => let '(b, r') := r_end r in (Ok b, r')).
Proof.
  eapply rsim_ext; [|apply (rsim_see (fun l => match l with
    | Some _ => ret false
    | None => fun r => let '(x, r') := r_io 1 r in (match x with
        | IoErr k => if is_eof k then ret true else let* _ := modify (fun r => r_set_left r (Some (LByte x00))) in ret false
        | IoOk bs => let* _ := modify (fun r => r_set_left r (Some (LByte (hd x00 bs)))) in ret false end) r' end))].
  - intros r. cbv beta. unfold r_end. destruct (r_left r); [reflexivity|]. destruct (r_io 1 r) as [[bs|e] r']; [reflexivity|]. now destruct (is_eof e).
  - intros [l|]; [apply rsim_ret|]. apply rsim_io. intros [bs|e]; [|destruct (is_eof e); [apply rsim_ret|]];
      (apply rsim_bind; [apply rsim_left|intros _; apply rsim_ret]).
Qed.
Lemma rsim_rop op : rsim (run_rop op).
Proof.
  destruct op; cbn [run_rop].
  - apply rsim_bind; [apply rsim_bits_into|intros; apply rsim_ret].
  - apply rsim_bind; [apply rsim_bytes|intros; apply rsim_ret].
  - apply rsim_bind; [apply rsim_uint|intros; apply rsim_ret].
  - eapply rsim_ext; [|apply (rsim_bind _ (fun b => ret (OFlag b)) rsim_end); intros; apply rsim_ret]. intros r. unfold bind. now destruct (r_end r).
Qed.

(** *** Skipping *)

Lemma rsim_skip_short n o : n < 8 -> rsim (skip_bits n o).
Proof.
  intros Hn. assert (HT : forall m, m <= n -> rsim (let bytes_amt := m / 8 in let bits_amt := m mod 8 in
     let* _ := if bytes_amt =? 0 then ret tt else fun r => if negb (r_bits r mod 8 =? 0) then (Panic, r)
         else (let* _ := lift_io (r_seek (SeekCurrent (Z.of_nat bytes_amt))) in ret tt) r in
     let* _ := read_bits_into bits_amt o in ret tt)).
  { intros m Hm. cbv zeta. replace (m / 8 =? 0) with true by lia. apply rsim_bind; [apply rsim_ret|intros _].
    apply rsim_bind; [apply rsim_bits_into|intros; apply rsim_ret]. }
  eapply rsim_ext; [|apply (rsim_see (fun l => match l with
     | Some (Reader.LBits bits) => let* _ := read_bits_into (Nat.min n (length bits)) o in
        (let bytes_amt := (n - Nat.min n (length bits)) / 8 in let bits_amt := (n - Nat.min n (length bits)) mod 8 in
         let* _ := if bytes_amt =? 0 then ret tt else fun r => if negb (r_bits r mod 8 =? 0) then (Panic, r)
           else (let* _ := lift_io (r_seek (SeekCurrent (Z.of_nat bytes_amt))) in ret tt) r in
         let* _ := read_bits_into bits_amt o in ret tt)
     | _ => let bytes_amt := n / 8 in let bits_amt := n mod 8 in
         let* _ := if bytes_amt =? 0 then ret tt else fun r => if negb (r_bits r mod 8 =? 0) then (Panic, r)
           else (let* _ := lift_io (r_seek (SeekCurrent (Z.of_nat bytes_amt))) in ret tt) r in
         let* _ := read_bits_into bits_amt o in ret tt end))].
  - intros r. cbv beta. unfold skip_bits. destruct (r_left r) as [[b|bits]|]; auto. now rewrite bind_assoc.
  - intros [[b|bits]|]; [apply HT; lia| |apply HT; lia]. apply rsim_bind; [apply rsim_bits_into|intros _]. apply HT. lia.
Qed.
Hypothesis Rel_skip : forall n s1 s2, Rel s1 s2 ->
  match fst (s_seek (SeekCurrent (Z.of_nat n)) s1), fst (s_seek (SeekCurrent (Z.of_nat n)) s2) with
  | IoOk p1, IoOk p2 => p1 = p2 + d
  | IoErr e1, IoErr e2 => e1 = e2
  | _, _ => False
  end /\ Rel (snd (s_seek (SeekCurrent (Z.of_nat n)) s1)) (snd (s_seek (SeekCurrent (Z.of_nat n)) s2)).
Lemma rsim_seek_on n : rsim (let* _ := lift_io (r_seek (SeekCurrent (Z.of_nat n))) in ret tt).
Proof.
  intros r1 r2 (R & L & B). unfold bind, lift_io, r_seek. cbn [r_set_left r_s]. destruct (Rel_skip n _ _ R) as [E R'].
  destruct (s_seek _ (r_s r1)) as [[p1|e1] s1], (s_seek _ (r_s r2)) as [[p2|e2] s2]; cbn [fst snd] in *; try contradiction; subst; cbn [fst snd ret];
    (split; [reflexivity|]); repeat split; cbn; auto. lia.
Qed.
Lemma rsim_skip n o : rsim (skip_bits n o).
Proof.
  assert (HT : forall m, rsim (let bytes_amt := m / 8 in let bits_amt := m mod 8 in
     let* _ := if bytes_amt =? 0 then ret tt else fun r => if negb (r_bits r mod 8 =? 0) then (Panic, r)
         else (let* _ := lift_io (r_seek (SeekCurrent (Z.of_nat bytes_amt))) in ret tt) r in
     let* _ := read_bits_into bits_amt o in ret tt)).
  { intros m. cbv zeta. apply rsim_bind; [|intros _; apply rsim_bind; [apply rsim_bits_into|intros; apply rsim_ret]].
    destruct (_ =? 0); [apply rsim_ret|]. intros r1 r2 R. pose proof R as (_ & _ & B). replace (r_bits r1 mod 8) with (r_bits r2 mod 8) by lia.
    destruct (negb _); [now split|]. now apply rsim_seek_on. }
  eapply rsim_ext; [|apply (rsim_see (fun l => match l with
     | Some (Reader.LBits bits) => let* _ := read_bits_into (Nat.min n (length bits)) o in
        (let bytes_amt := (n - Nat.min n (length bits)) / 8 in let bits_amt := (n - Nat.min n (length bits)) mod 8 in
         let* _ := if bytes_amt =? 0 then ret tt else fun r => if negb (r_bits r mod 8 =? 0) then (Panic, r)
           else (let* _ := lift_io (r_seek (SeekCurrent (Z.of_nat bytes_amt))) in ret tt) r in
         let* _ := read_bits_into bits_amt o in ret tt)
     | _ => let bytes_amt := n / 8 in let bits_amt := n mod 8 in
         let* _ := if bytes_amt =? 0 then ret tt else fun r => if negb (r_bits r mod 8 =? 0) then (Panic, r)
           else (let* _ := lift_io (r_seek (SeekCurrent (Z.of_nat bytes_amt))) in ret tt) r in
         let* _ := read_bits_into bits_amt o in ret tt end))].
  - intros r. cbv beta. unfold skip_bits. destruct (r_left r) as [[b|bits]|]; auto. now rewrite bind_assoc.
  - intros [[b|bits]|]; [apply HT| |apply HT]. apply rsim_bind; [apply rsim_bits_into|intros _]. apply HT.
Qed.
End Sim.

Section Codecs.
Variables (Rel : stream -> stream -> Prop) (d : nat).
Hypothesis Rel_read : forall n s1 s2, Rel s1 s2 ->
  fst (s_read_exact n s1) = fst (s_read_exact n s2) /\ Rel (snd (s_read_exact n s1)) (snd (s_read_exact n s2)).
Notation rsim := (rsim Rel d).

Lemma rsim_prim p c : rsim (prim_read p c).
Proof.
  assert (HS : forall wb e n o, rsim (read_bytes_sized wb e n o)).
  { intros. unfold read_bytes_sized. destruct (_ <? n); [apply rsim_fail|]. apply rsim_bind; [now apply rsim_bytes|intros; apply rsim_ret]. }
  assert (HY : forall e n o, rsim (read_eyo p e n o)).
  { intros. unfold read_eyo, read_u8_bytes. destruct p; auto. apply rsim_bind; [now apply rsim_bytes|intros; apply rsim_ret]. }
  assert (HU : forall wb e n o, rsim (read_u_bits wb e n o)).
  { intros. unfold read_u_bits. destruct (_ <? n); [apply rsim_fail|]. cbv zeta.
    assert (SL : rsim (let* bits := read_bits_into n o in lift (u_of_bits wb e n o bits))) by (apply rsim_bind; [now apply rsim_bits_into|intros; apply rsim_lift]).
    destruct e, o; auto. destruct (_ && _); auto. apply rsim_bind; [now apply rsim_uint|intros; apply rsim_ret]. }
  assert (HO : forall e n o, rsim (read_ebo p e n o)).
  { intros. unfold read_ebo. destruct p; auto. unfold read_i_bits. destruct (_ <? n); [apply rsim_fail|].
    apply rsim_bind; [now apply rsim_bits_into|intros; apply rsim_lift]. }
  assert (HE : forall e, rsim (read_e p e)) by (intros; unfold read_e; apply rsim_bind; [now apply rsim_bytes|intros; apply rsim_ret]).
  destruct c; cbn [prim_read]; auto; destruct (_ =? 0); auto.
Qed.
Lemma rsim_vec_loop {A} (elem : RM A) stop : rsim elem -> forall fuel s1 s2 acc r1 r2, s1 = s2 + 8 * d -> rrel Rel d r1 r2 ->
  fst (vec_loop fuel elem stop s1 acc r1) = fst (vec_loop fuel elem stop s2 acc r2) /\
  rrel Rel d (snd (vec_loop fuel elem stop s1 acc r1)) (snd (vec_loop fuel elem stop s2 acc r2)).
Proof.
  intros E. induction fuel as [|f IH]; intros s1 s2 acc r1 r2 Hs R; cbn [vec_loop]; [now split|]. unfold bind.
  destruct (E r1 r2 R) as [X Y]. destruct (elem r1) as [x1 v1], (elem r2) as [x2 v2]. cbn [fst snd] in *. subst x2.
  destruct x1 as [a|e| |]; auto. pose proof Y as (_ & _ & B). replace (r_bits v1 <? s1) with (r_bits v2 <? s2) by lia.
  destruct (r_bits v2 <? s2); [now split|]. replace (r_bits v1 - s1) with (r_bits v2 - s2) by lia.
  destruct (stop _ _); [now split|]. now apply IH.
Qed.
Lemma rsim_end_loop {A} (elem : RM A) : rsim elem -> forall fuel acc, rsim (end_loop fuel elem acc).
Proof.
  intros E. induction fuel as [|f IH]; intros acc; cbn [end_loop]; [apply rsim_diverge|].
  eapply rsim_ext; [|apply (rsim_bind Rel d _ (fun b : bool => if b then ret acc else (let* v := elem in end_loop f elem (acc ++ [v]))) (rsim_end Rel d Rel_read))].
  - intros r. cbv beta. unfold bind at 1. destruct (r_end r) as [[] r']; reflexivity.
  - intros []; [apply rsim_ret|]. apply rsim_bind; [exact E|auto].
Qed.
Lemma rsim_vec {A} fuel size (elem : RM A) lim : rsim elem -> rsim (vec_read fuel size elem lim).
Proof.
  intros E. assert (HP : forall f cap stop, rsim (vec_with_predicate f size cap elem stop)).
  { intros. unfold vec_with_predicate. destruct (size =? 0)%N; [apply rsim_ret|].
    match goal with |- SourceSim.rsim _ _ (if ?b then _ else _) => destruct b end; [apply rsim_panic|].
    intros r1 r2 R. apply rsim_vec_loop; [exact E| |exact R]. apply R. }
  destruct lim as [n|p|n|n|]; cbn [vec_read].
  - destruct (n =? 0)%N; [apply rsim_ret|]. eapply rsim_ext; [|apply HP]. reflexivity.
  - apply HP.
  - destruct (_ <? _)%N; [apply rsim_panic|]. destruct (_ =? 0)%N; [apply rsim_ret|apply HP].
  - destruct (n =? 0)%N; [apply rsim_ret|apply HP].
  - unfold vec_to_end. destruct (size =? 0)%N; [apply rsim_ret|now apply rsim_end_loop].
Qed.
Lemma rsim_cstring fuel : rsim (read_cstring fuel).
Proof.
  unfold read_cstring. apply rsim_bind; [apply rsim_vec, rsim_prim|]. intros l. unfold to_cstring. destruct (from_vec_with_nul l); [apply rsim_ret|apply rsim_fail].
Qed.
Lemma rsim_cstring_bytes n : rsim (read_cstring_bytes n).
Proof.
  unfold read_cstring_bytes. apply rsim_bind; [apply rsim_vec, rsim_prim|]. intros l. unfold to_cstring. destruct (from_vec_with_nul l); [apply rsim_ret|apply rsim_fail].
Qed.
End Codecs.
