(** Errors of reading: lemmas behind C58. *)
From Coq Require Import Lia ZifyBool ZifyNat ZifyN.
From Verif Require Import Base MonadFacts Stream Reader Writer Prims Containers Derive DeriveSpec DeriveSound ErrSpec.
Ltac Zify.zify_post_hook ::= Z.div_mod_to_equations.

(** ** Operations and their errors *)

Definition noseek (r : reader) : bool := match s_noseek (r_s r) with Some _ => true | None => false end.
Record step (r r' : reader) : Prop := {
  st_fault : s_fault (r_s r') = s_fault (r_s r);
  st_calls : s_calls (r_s r) <= s_calls (r_s r');
  st_noseek : noseek r' = noseek r
}.
(** [Q] (of: whether the source is a [NoSeek], and the error) or reported by the source. *)
Definition blamed {A} (Q : bool -> derr -> Prop) (m : RM A) : Prop := forall r x r', m r = (x, r') ->
  step r r' /\ forall e, x = Err e -> Q (noseek r) e \/ exists k, e = Io k /\ reported (r_s r) (r_s r') k.

Lemma step_refl r : step r r.
Proof. split; auto. Qed.
Lemma step_trans a b c : step a b -> step b c -> step a c.
Proof. intros [F1 C1 N1] [F2 C2 N2]. split; [congruence|lia|congruence]. Qed.
Lemma step_same r r' : r_s r' = r_s r -> step r r'.
Proof. intros H. split; unfold noseek; now rewrite H. Qed.
Lemma reported_l a b c k : step a b -> step b c -> reported (r_s a) (r_s b) k -> reported (r_s a) (r_s c) k.
Proof. intros H1 H2 (j & n & Hj & E). exists j, n. split; [|exact E]. pose proof (st_calls _ _ H2). lia. Qed.
Lemma reported_r a b c k : step a b -> step b c -> reported (r_s b) (r_s c) k -> reported (r_s a) (r_s c) k.
Proof. intros H1 H2 (j & n & Hj & E). exists j, n. rewrite (st_fault _ _ H1) in E. split; [|exact E]. pose proof (st_calls _ _ H1). lia. Qed.

Section Combinators.
Variable Q : bool -> derr -> Prop.
Lemma blamed_same {A} (m : RM A) : (forall r, r_s (snd (m r)) = r_s r) -> (forall r e, fst (m r) <> Err e) -> blamed Q m.
Proof.
  intros H1 H2 r x r' E. specialize (H1 r). specialize (H2 r). rewrite E in H1, H2. cbn in H1, H2. split; [now apply step_same|]. intros e ->. now destruct (H2 e).
Qed.
Lemma blamed_ret {A} (a : A) : blamed Q (ret a).
Proof. now apply blamed_same. Qed.
Lemma blamed_panic {A} : blamed Q (@panic _ A).
Proof. now apply blamed_same. Qed.
Lemma blamed_diverge {A} : blamed Q (@diverge _ A).
Proof. now apply blamed_same. Qed.
Lemma blamed_assert b : blamed Q (assert_ b).
Proof. destruct b; [apply blamed_ret|apply blamed_panic]. Qed.
Lemma blamed_modify f : (forall r, r_s (f r) = r_s r) -> blamed Q (modify f).
Proof. intros H. now apply blamed_same. Qed.
Lemma blamed_fail {A} e : (forall ns, Q ns e) -> blamed Q (@fail _ A e).
Proof. intros H r x r' E. apply pair_inj in E. destruct E as [<- <-]. split; [apply step_refl|]. intros e' [= <-]. auto. Qed.
Lemma blamed_lift {A} (x : res A) : (forall e, x = Err e -> forall ns, Q ns e) -> blamed Q (lift x).
Proof. intros H r y r' E. apply pair_inj in E. destruct E as [<- <-]. split; [apply step_refl|]. intros e' E'. left. now apply H. Qed.
Lemma blamed_bind {A B} (m : RM A) (f : A -> RM B) : blamed Q m -> (forall a, blamed Q (f a)) -> blamed Q (bind m f).
Proof.
  intros Hm Hf r x r' E. unfold bind in E. destruct (m r) as [y r1] eqn:E1. destruct (Hm _ _ _ E1) as [S1 K1].
  destruct y as [a|e| |]; try (apply pair_inj in E; destruct E as [<- <-]; split; [exact S1|]; intros e' E'; try discriminate; injection E' as <-; exact (K1 e eq_refl)).
  destruct (Hf a _ _ _ E) as [S2 K2]. split; [exact (step_trans _ _ _ S1 S2)|]. intros e He. destruct (K2 e He) as [X|(k & -> & X)].
  - left. now rewrite (st_noseek _ _ S1) in X.
  - right. exists k. split; [reflexivity|]. exact (reported_r _ _ _ _ S1 S2 X).
Qed.
Lemma blamed_at {A B} (g : reader -> B) (m : B -> RM A) : (forall b, blamed Q (m b)) -> blamed Q (fun r => m (g r) r).
Proof. intros H r x r' E. exact (H (g r) r x r' E). Qed.
Lemma blamed_pre {A} (f : reader -> reader) (m : RM A) : (forall r, r_s (f r) = r_s r) -> blamed Q m -> blamed Q (fun r => m (f r)).
Proof.
  intros Hf H r x r' E. destruct (H _ _ _ E) as [S1 K]. assert (S0 : step r (f r)) by now apply step_same. split; [exact (step_trans _ _ _ S0 S1)|].
  intros e He. rewrite <- (st_noseek _ _ S0), <- (Hf r). now apply K.
Qed.
Lemma blamed_if {A} (b : bool) (m n : RM A) : blamed Q m -> blamed Q n -> blamed Q (if b then m else n).
Proof. now destruct b. Qed.
End Combinators.
Lemma blamed_weak {A} (Q Q' : bool -> derr -> Prop) (m : RM A) : (forall ns e, Q ns e -> Q' ns e) -> blamed Q m -> blamed Q' m.
Proof. intros HQ H r x r' E. destruct (H r x r' E) as [S1 K]. split; [exact S1|]. intros e He. destruct (K e He); auto. Qed.
Lemma blamed_ext {A} Q (m n : RM A) : (forall r, n r = m r) -> blamed Q m -> blamed Q n.
Proof. intros He H r x r' E. rewrite He in E. exact (H r x r' E). Qed.

(** ** The reader *)

Definition Short (ns : bool) (e : derr) : Prop := exists n, e = Incomplete n.
Definition Bad (ns : bool) (e : derr) : Prop := Short ns e \/ e = Parse.

Lemma io_step n r x r' : r_io n r = (x, r') -> step r r' /\ forall k, x = IoErr k -> k = UnexpectedEof \/ reported (r_s r) (r_s r') k.
Proof.
  unfold r_io, s_read_exact. intros E. destruct (s_fault (r_s r) (s_calls (r_s r))) as [[f fm]|] eqn:Ef.
  - apply pair_inj in E. destruct E as [<- <-]. split; [split; cbn; auto|]. intros k [= <-]. right. exists (s_calls (r_s r)), fm. cbn. split; [lia|exact Ef].
  - destruct (n <=? length (s_avail (r_s r))).
    + apply pair_inj in E. destruct E as [<- <-]. split; [split; cbn; auto; unfold noseek; cbn; now destruct (s_noseek (r_s r))|discriminate].
    + apply pair_inj in E. destruct E as [<- <-]. split; [destruct (s_eat (r_s r)); split; cbn; auto|]. intros k [= <-]. now left.
Qed.
(** Every error of a read is turned into [Incomplete] or passed on. *)
Lemma blamed_io {A} n (f : list byte -> RM A) (g : iokind -> RM A) :
  (forall bs, blamed Short (f bs)) ->
  (forall k, (exists d, forall r, g k r = (Err (if is_eof k then Incomplete d else Io k), r)) \/ (blamed Short (g k))) ->
  blamed Short (fun r => match r_io n r with (IoErr k, r') => g k r' | (IoOk bs, r') => f bs r' end).
Proof.
  intros Hf Hg r x r' E. destruct (r_io n r) as [[bs|k] r1] eqn:E1; destruct (io_step _ _ _ _ E1) as [S1 K1].
  - destruct (Hf bs _ _ _ E) as [S2 K2]. split; [exact (step_trans _ _ _ S1 S2)|]. intros e He. destruct (K2 e He) as [X|(k & -> & X)]; [left; exact X|].
    right. exists k. split; [reflexivity|]. exact (reported_r _ _ _ _ S1 S2 X).
  - destruct (Hg k) as [[d Hd]|Hb].
    + rewrite Hd in E. apply pair_inj in E. destruct E as [<- <-]. split; [exact S1|]. intros e [= <-]. destruct (is_eof k) eqn:Ek; [left; unfold Short; eauto|].
      destruct (K1 k eq_refl) as [->|X]; [discriminate|]. right. eauto.
    + destruct (Hb _ _ _ E) as [S2 K2]. split; [exact (step_trans _ _ _ S1 S2)|]. intros e He. destruct (K2 e He) as [X|(k' & -> & X)]; [left; exact X|].
      right. exists k'. split; [reflexivity|]. exact (reported_r _ _ _ _ S1 S2 X).
Qed.
Lemma blamed_fill d k : blamed Short (fill_slots d k).
Proof.
  induction k as [|k IH]; [apply blamed_ret|]. cbn [fill_slots].
  refine (blamed_ext _ (fun r => match r_io 1 r with
     | (IoErr e, r') => (if is_eof e then fail (Incomplete d) else let* bs := fill_slots d k in ret (x00 :: bs)) r'
     | (IoOk bs0, r') => (let* bs := fill_slots d k in ret (hd x00 bs0 :: bs)) r' end) _ _ _).
  - intros r. destruct (r_io 1 r) as [[|e] r1]; [reflexivity|]. now destruct (is_eof e).
  - apply blamed_io.
    + intros bs. apply blamed_bind; [exact IH|]. intros. apply blamed_ret.
    + intros e. right. destruct (is_eof e); [apply blamed_fail; intros; unfold Short; eauto|]. apply blamed_bind; [exact IH|]. intros. apply blamed_ret.
Qed.
Lemma blamed_rem d : blamed Short (read_rem_byte d).
Proof.
  unfold read_rem_byte. refine (blamed_io 1 (fun bs => ret (hd x00 bs)) (fun e r => (Err (if is_eof e then Incomplete d else Io e), r)) _ _).
  - intros. apply blamed_ret.
  - intros k. left. exists d. reflexivity.
Qed.
Lemma blamed_bits n o : blamed Short (read_bits_into n o).
Proof.
  unfold read_bits_into. destruct (n =? 0); [apply blamed_ret|].
  apply (blamed_at Short (fun r => left_bits (r_left r)) (fun prev r =>
    (let* dst :=
       match n ?= length prev with
       | Lt => let* _ := assert_ (length prev <=? 8) in
           match o with
           | Lsb0 => let at_ := length prev - n in
               let* _ := modify (fun r => r_set_left r (Some (Reader.LBits (firstn at_ prev)))) in ret (skipn at_ prev)
           | Msb0 => let* _ := modify (fun r => r_set_left r (Some (Reader.LBits (skipn n prev)))) in ret (firstn n prev)
           end
       | Eq => let* _ := assert_ (length prev <=? 8) in ret prev
       | Gt => match o with Lsb0 => read_greater_lsb n prev | Msb0 => read_greater_msb n prev end
       end in
     let* _ := modify (fun r => r_add_bits r n) in ret dst) (r_set_left r None))). intros prev.
  apply (blamed_pre Short (fun r => r_set_left r None)); [reflexivity|].
  apply blamed_bind; [|intros; apply blamed_bind; [now apply blamed_modify|intros; apply blamed_ret]].
  destruct (n ?= length prev).
  - apply blamed_bind; [apply blamed_assert|intros; apply blamed_ret].
  - apply blamed_bind; [apply blamed_assert|intros _]. destruct o; (apply blamed_bind; [now apply blamed_modify|intros; apply blamed_ret]).
  - destruct o; unfold read_greater_lsb, read_greater_msb; cbv zeta; (apply blamed_bind; [apply blamed_fill|intros bs]);
      (apply blamed_if; [apply blamed_ret|]); (apply blamed_bind; [apply blamed_rem|intros b]); (apply blamed_bind; [now apply blamed_modify|intros; apply blamed_ret]).
Qed.
Lemma blamed_uint_loop amt f : forall acc have, blamed Short (uint_loop f amt acc have).
Proof.
  induction f as [|f IH]; intros acc have; cbn [uint_loop]; (destruct (amt <=? have); [apply blamed_ret|]); [apply blamed_diverge|].
  refine (blamed_io 1 (fun bs => uint_loop f amt (N.lor (wrap 128 (N.shiftl acc 8)) (Byte.to_N (hd x00 bs))) (have + 8)) (fun e r => (Err (if is_eof e then Incomplete amt else Io e), r)) _ _).
  - intros. apply IH.
  - intros k. left. exists amt. reflexivity.
Qed.
Lemma blamed_uint amt : blamed Short (read_bits_uint_msb0 amt).
Proof.
  unfold read_bits_uint_msb0. apply blamed_bind; [apply blamed_assert|intros _].
  intros r x r' E. destruct (match r_left r with Some (LByte b) => (Byte.to_N b, 8) | _ => _ end) as [acc0 have0] in E.
  match type of E with ?m (r_set_left r None) = _ => assert (H : blamed Short m); [|exact (blamed_pre Short (fun r => r_set_left r None) m (fun _ => eq_refl) H r x r' E)] end.
  apply blamed_bind; [apply blamed_uint_loop|]. intros [acc have]. cbv zeta.
  apply blamed_bind; [apply blamed_if; [apply blamed_ret|now apply blamed_modify]|]. intros _. apply blamed_bind; [now apply blamed_modify|intros; apply blamed_ret].
Qed.
Lemma blamed_io_add n amt : forall f, blamed Short (fun r => match r_io n r with
  | (IoErr e, r') => (Err (if is_eof e then Incomplete amt else Io e), r')
  | (IoOk bs, r') => (Ok (f bs : list byte), r_add_bits r' amt)
  end).
Proof.
  intros f. refine (blamed_io n (fun bs r => (Ok (f bs), r_add_bits r amt)) (fun e r => (Err (if is_eof e then Incomplete amt else Io e), r)) _ _).
  - intros. now apply blamed_same.
  - intros k. left. exists amt. reflexivity.
Qed.
Lemma blamed_bytes amt len o : blamed Short (read_bytes amt len o).
Proof.
  intros r x r' E. unfold read_bytes in E. destruct (r_left r) as [[b|l]|].
    + revert r x r' E. change (blamed Short (read_bytes_leftover amt len b)).
      unfold read_bytes_leftover. apply blamed_if; [apply blamed_panic|]. apply blamed_bind; [now apply blamed_modify|intros _].
      apply blamed_if; [apply blamed_panic|]. cbv zeta. apply blamed_if; [apply blamed_bind; [now apply blamed_modify|intros; apply blamed_ret]|].
      apply blamed_if; [apply blamed_fail; intros; unfold Short; eauto|]. apply blamed_if; [apply blamed_panic|].
      refine (blamed_io (amt - 1) (fun bs r => (Ok (b :: bs), r_add_bits r (amt * 8))) (fun e r => (Err (if is_eof e then Incomplete ((amt - 1) * 8) else Io e), r)) _ _).
      * intros. now apply blamed_same.
      * intros k. left. exists ((amt - 1) * 8). reflexivity.
    + destruct (len <? amt); [exact (blamed_panic Short r x r' E)|]. revert r x r' E. change (blamed Short (read_bytes_bits amt o)). unfold read_bytes_bits. apply blamed_bind; [apply blamed_bits|intros; apply blamed_ret].
    + destruct (len <? amt); [exact (blamed_panic Short r x r' E)|]. revert r x r' E. exact (blamed_io_add amt (amt * 8) (fun bs => bs)).
Qed.

(** ** Seeking *)

Definition refused (ns : bool) (e : derr) : Prop := e = Io (if ns then OtherKind 0 else InvalidInput).
Lemma seek_step w s x s' : s_seek w s = (x, s') ->
  s_fault s' = s_fault s /\ s_calls s <= s_calls s' /\ (match s_noseek s' with Some _ => true | None => false end = match s_noseek s with Some _ => true | None => false end) /\
  forall k, x = IoErr k -> reported s s' k \/
    match s_noseek s with Some v => k = OtherKind 0 /\ noseek_target v w = None | None => k = InvalidInput /\ seek_target (s_pos s) (length (s_data s)) w = None end.
Proof.
  unfold s_seek. intros E. destruct (s_fault s (s_calls s)) as [[f fm]|] eqn:Ef.
  - apply pair_inj in E. destruct E as [<- <-]. cbn. split; [reflexivity|]. split; [lia|]. split; [reflexivity|]. intros k [= <-]. left. exists (s_calls s), fm. cbn. split; [lia|exact Ef].
  - destruct (s_noseek s) as [v|] eqn:Ev.
    + destruct (noseek_target v w) eqn:Et; apply pair_inj in E; destruct E as [<- <-]; cbn; rewrite Ev; (split; [reflexivity|]); (split; [lia|]); (split; [reflexivity|]); [discriminate|].
      intros k [= <-]. auto.
    + destruct (seek_target _ _ w) eqn:Et; apply pair_inj in E; destruct E as [<- <-]; cbn; rewrite Ev; (split; [reflexivity|]); (split; [lia|]); (split; [reflexivity|]); [discriminate|].
      intros k [= <-]. auto.
Qed.
(** [on_cursor]: whether the seek can fail on a source that can seek. *)
Definition refused_at (on_cursor : bool) (ns : bool) (e : derr) : Prop := (ns = true \/ on_cursor = true) /\ refused ns e.
Definition forward (w : seekfrom) : Prop := match w with SeekStart _ => True | SeekCurrent d | SeekEnd d => (0 <= d)%Z end.
Lemma forward_target pos len w : forward w -> seek_target pos len w <> None.
Proof.
  destruct w as [n|d|d]; cbn; intros H; [discriminate| |].
  - destruct (Z.ltb_spec (Z.of_nat pos + d) 0); [lia|discriminate].
  - destruct (Z.ltb_spec (Z.of_nat len + d) 0); [lia|discriminate].
Qed.
Lemma blamed_r_seek c w : c = true \/ forward w -> blamed (refused_at c) (lift_io (r_seek w)).
Proof.
  intros Hc r x r' E. unfold lift_io, r_seek in E. destruct (s_seek w (r_s (r_set_left r None))) as [y s] eqn:Es. apply seek_step in Es. destruct Es as (H1 & H2 & H3 & H4).
  cbn [r_s r_set_left] in *. destruct y as [p|k].
  - apply pair_inj in E. destruct E as [<- <-]. split; [split; assumption|discriminate].
  - apply pair_inj in E. destruct E as [<- <-]. split; [split; assumption|]. intros e [= <-]. destruct (H4 k eq_refl) as [X|X]; [right; eauto|left].
    unfold refused_at, refused, noseek. destruct (s_noseek (r_s r)); destruct X as [-> X]; [auto|]. destruct Hc as [->|Hc]; [auto|]. now apply forward_target in X.
Qed.
Lemma blamed_inner c w : c = true \/ forward w -> blamed (refused_at c) (inner_seek w).
Proof.
  intros Hc r x r' E. unfold inner_seek, lift_io in E. destruct (s_seek w (r_s r)) as [y s] eqn:Es. apply seek_step in Es. destruct Es as (H1 & H2 & H3 & H4).
  destruct y as [p|k].
  - apply pair_inj in E. destruct E as [<- <-]. split; [split; assumption|discriminate].
  - apply pair_inj in E. destruct E as [<- <-]. split; [split; assumption|]. intros e [= <-]. destruct (H4 k eq_refl) as [X|X]; [right; eauto|left].
    unfold refused_at, refused, noseek. destruct (s_noseek (r_s r)); destruct X as [-> X]; [auto|]. destruct Hc as [->|Hc]; [auto|]. now apply forward_target in X.
Qed.
Definition Skip (ns : bool) (e : derr) : Prop := Short ns e \/ refused_at false ns e.
Lemma skip_short {A} (m : RM A) : blamed Short m -> blamed Skip m.
Proof. apply blamed_weak. now left. Qed.
Lemma skip_seek {A} (m : RM A) : blamed (refused_at false) m -> blamed Skip m.
Proof. apply blamed_weak. now right. Qed.
Lemma blamed_guard {A} Q (b : reader -> bool) (m : RM A) : blamed Q m -> blamed Q (fun r => if b r then (Panic, r) else m r).
Proof. intros H r x r' E. destruct (b r); [exact (blamed_panic Q r x r' E)|exact (H r x r' E)]. Qed.
Lemma blamed_skip n o : blamed Skip (skip_bits n o).
Proof.
  intros r x r' E. unfold skip_bits in E. cbv zeta in E.
  match type of E with ?m r = _ => assert (H : blamed Skip m); [|exact (H r x r' E)] end. apply blamed_bind.
  - destruct (r_left r) as [[b|l]|]; [apply blamed_ret| |apply blamed_ret]. apply blamed_bind; [apply skip_short, blamed_bits|intros; apply blamed_ret].
  - intros amt. apply blamed_bind.
    + apply blamed_if; [apply blamed_ret|]. apply blamed_guard. apply blamed_bind; [|intros; apply blamed_ret]. apply skip_seek, blamed_r_seek. right. cbn. lia.
    + intros _. apply blamed_bind; [apply skip_short, blamed_bits|intros; apply blamed_ret].
Qed.

(** ** Integers and containers *)

Lemma bad_short {A} (m : RM A) : blamed Short m -> blamed Bad m.
Proof. apply blamed_weak. now left. Qed.
Lemma blamed_parse {A} : blamed Bad (@fail _ A Parse).
Proof. apply blamed_fail. now right. Qed.
Definition no_err {A} (x : res A) : Prop := forall e, x <> Err e.
Lemma no_err_bind {A B} (x : res A) (f : A -> res B) : no_err x -> (forall a, no_err (f a)) -> no_err (res_bind x f).
Proof. intros H1 H2. destruct x; cbn; [apply H2| |discriminate|discriminate]. now destruct (H1 e). Qed.
Lemma inserts_ok cap i k : forall l, no_err (bbv_inserts cap k i l).
Proof. induction k as [|k IH]; intros l; cbn [bbv_inserts]; [discriminate|]. destruct (_ && _); [apply IH|discriminate]. Qed.
Lemma pushes_ok cap k l : no_err (bbv_pushes cap k l).
Proof. unfold bbv_pushes. destruct (_ <=? _); discriminate. Qed.
Lemma of_bits_ok wb e n o bits : no_err (u_of_bits wb e n o bits).
Proof.
  unfold u_of_bits. cbv zeta. destruct (8 * wb <? _); [discriminate|]. destruct (_ && _ && _); [discriminate|]. destruct e, o.
  - destruct (_ <? _); [discriminate|]. apply no_err_bind; [apply inserts_ok|]. intros b1. apply no_err_bind; [apply pushes_ok|]. discriminate.
  - destruct (negb _); [discriminate|]. apply no_err_bind; [apply inserts_ok|]. discriminate.
  - destruct (0 <? n); [discriminate|]. apply no_err_bind; [apply inserts_ok|]. intros b1. apply no_err_bind; [apply inserts_ok|]. discriminate.
  - destruct (negb _); [discriminate|]. apply no_err_bind; [apply inserts_ok|]. discriminate.
Qed.
Lemma sign_ok w n v : no_err (sign_extend w n v).
Proof. unfold sign_extend. cbv zeta. destruct (_ <=? _); discriminate. Qed.
Lemma blamed_u_bits wb e n o : blamed Bad (read_u_bits wb e n o).
Proof.
  assert (HS : blamed Bad (let* bits := read_bits_into n o in lift (u_of_bits wb e n o bits))).
  { apply blamed_bind; [apply bad_short, blamed_bits|]. intros bits. apply blamed_lift. intros x E. now destruct (of_bits_ok _ _ _ _ _ _ E). }
  unfold read_u_bits. apply blamed_if; [apply blamed_parse|]. cbv zeta. destruct e, o; try exact HS. apply blamed_if; [|exact HS].
  apply blamed_bind; [apply bad_short, blamed_uint|intros; apply blamed_ret].
Qed.
Lemma blamed_i_bits wb e n o : blamed Bad (read_i_bits wb e n o).
Proof.
  unfold read_i_bits. apply blamed_if; [apply blamed_parse|]. apply blamed_bind; [apply bad_short, blamed_bits|]. intros bits. apply blamed_lift. intros x E.
  destruct (u_of_bits wb e n o bits) as [v|y| |] eqn:Eu; try discriminate; cbn [res_bind] in E; [now destruct (sign_ok _ _ _ _ E)|now destruct (of_bits_ok _ _ _ _ _ _ Eu)].
Qed.
Lemma blamed_prim p c : blamed Bad (prim_read p c).
Proof.
  assert (HB : forall a b o f, blamed Bad (let* bs := read_bytes a b o in ret (f bs : N))) by (intros; apply blamed_bind; [apply bad_short, blamed_bytes|intros; apply blamed_ret]).
  assert (HY : forall e n o, blamed Bad (read_eyo p e n o)).
  { intros e n o. unfold read_eyo. destruct p; [exact (HB 1 1 o _)| |]; unfold read_bytes_sized; (apply blamed_if; [apply blamed_parse|apply HB]). }
  assert (HO : forall e n o, blamed Bad (read_ebo p e n o)).
  { intros e n o. unfold read_ebo. destruct p; [apply blamed_u_bits|apply blamed_u_bits|apply blamed_i_bits]. }
  assert (HE : forall e, blamed Bad (read_e p e)) by (intros; apply HB).
  destruct c; cbn [prim_read]; auto; apply blamed_if; auto.
Qed.
Section Loops.
Variable Q : bool -> derr -> Prop.
Lemma blamed_array {A} n (m : RM A) : blamed Q m -> blamed Q (read_array n m).
Proof. intros H. induction n as [|n IH]; [apply blamed_ret|]. cbn [read_array]. apply blamed_bind; [exact H|]. intros. apply blamed_bind; [exact IH|]. intros. apply blamed_ret. Qed.
Lemma blamed_loop {A} (m : RM A) stop start f : blamed Q m -> forall acc, blamed Q (vec_loop f m stop start acc).
Proof.
  intros H. induction f as [|f IH]; intros acc; [apply blamed_diverge|]. cbn [vec_loop]. apply blamed_bind; [exact H|]. intros v. apply blamed_guard.
  intros r x r' E. destruct (stop _ _); [exact (blamed_ret Q _ r x r' E)|exact (IH _ r x r' E)].
Qed.
Lemma blamed_pred {A} f size cap (m : RM A) stop : blamed Q m -> blamed Q (vec_with_predicate f size cap m stop).
Proof.
  intros H. unfold vec_with_predicate. apply blamed_if; [apply blamed_ret|]. apply blamed_if; [apply blamed_panic|].
  apply (blamed_at Q r_bits (fun b => vec_loop f m stop b [])). intros. now apply blamed_loop.
Qed.
Lemma blamed_end {A} f (m : RM A) : blamed Q m -> forall acc, blamed Q (end_loop f m acc).
Proof.
  intros H. induction f as [|f IH]; intros acc; [apply blamed_diverge|]. cbn [end_loop].
  assert (HE : blamed Q (fun r => let '(e, r1) := r_end r in (Ok e, r1))).
  { intros r x r' E. unfold r_end in E. destruct (r_left r); [apply pair_inj in E; destruct E as [<- <-]; split; [apply step_refl|discriminate]|].
    destruct (r_io 1 r) as [[bs|k] r1] eqn:E1; destruct (io_step _ _ _ _ E1) as [S1 _]; [|destruct (is_eof k)]; apply pair_inj in E; destruct E as [<- <-]; (split; [|discriminate]);
      try exact S1; (eapply step_trans; [exact S1|now apply step_same]). }
  refine (blamed_ext Q (let* e := fun r => let '(e, r1) := r_end r in (Ok e, r1) in if e then ret acc else let* v := m in end_loop f m (acc ++ [v])) _ _ _).
  - intros r. unfold bind. destruct (r_end r) as [[] r1]; reflexivity.
  - apply blamed_bind; [exact HE|]. intros e. apply blamed_if; [apply blamed_ret|]. apply blamed_bind; [exact H|]. intros. apply IH.
Qed.
Lemma blamed_vec {A} f size (m : RM A) lim : blamed Q m -> blamed Q (vec_read f size m lim).
Proof.
  intros H. destruct lim; cbn [vec_read].
  - apply blamed_if; [apply blamed_ret|]. now apply blamed_pred.
  - now apply blamed_pred.
  - apply blamed_if; [apply blamed_panic|]. apply blamed_if; [apply blamed_ret|]. now apply blamed_pred.
  - apply blamed_if; [apply blamed_ret|]. now apply blamed_pred.
  - unfold vec_to_end. apply blamed_if; [apply blamed_ret|]. now apply blamed_end.
Qed.
End Loops.
Lemma blamed_exact n : blamed Skip (read_exact_vec n).
Proof.
  unfold read_exact_vec. apply blamed_bind; [apply skip_seek, blamed_inner; right; cbn; lia|]. intros pos.
  apply blamed_bind; [apply skip_seek, blamed_inner; right; cbn; lia|]. intros end_. apply blamed_bind; [apply skip_seek, blamed_inner; right; cbn; lia|]. intros _.
  apply blamed_if; [apply blamed_panic|]. apply blamed_if.
  - apply blamed_if; [apply blamed_panic|]. apply (blamed_fail Skip). left. unfold Short. eauto.
  - apply skip_short. exact (blamed_bytes _ _ _).
Qed.
Lemma blamed_bool c : blamed Bad (read_bool c).
Proof. unfold read_bool. apply blamed_bind; [apply blamed_prim|]. intros v. apply blamed_if; [apply blamed_ret|]. apply blamed_if; [apply blamed_ret|apply blamed_parse]. Qed.
Lemma blamed_nonzero p c : blamed Bad (read_nonzero p c).
Proof. unfold read_nonzero. apply blamed_bind; [apply blamed_prim|]. intros v. apply blamed_if; [apply blamed_parse|apply blamed_ret]. Qed.
Lemma blamed_cstring l : blamed Bad (to_cstring l).
Proof. unfold to_cstring. destruct (from_vec_with_nul l); [apply blamed_ret|apply blamed_parse]. Qed.
Lemma blamed_magic m : blamed Bad (read_magic m).
Proof.
  induction m as [|b m IH]; [apply blamed_ret|]. cbn [read_magic]. apply blamed_bind; [apply blamed_prim|]. intros x. apply blamed_if; [exact IH|apply blamed_parse].
Qed.
Definition Pad (p : option Z) (ns : bool) (e : derr) : Prop :=
  Short ns e \/ (exists z, p = Some z) /\ refused_at false ns e \/ (e = InvalidParam /\ exists z, p = Some z /\ to_usize z = None).
Lemma blamed_padding p o : blamed (Pad p) (read_pad p o).
Proof.
  destruct p as [z|]; cbn [read_pad]; [|apply blamed_ret]. destruct (to_usize z) as [n|] eqn:E.
  - refine (blamed_weak Skip _ _ _ (blamed_skip (N.to_nat n) _)). intros ns e [H|H]; [now left|]. right. left. eauto.
  - apply blamed_fail. intros ns. right. right. eauto.
Qed.
Definition Seek (s : option (option seekfrom)) (ns : bool) (e : derr) : Prop := s <> None /\ refused ns e.
Lemma blamed_seek s : blamed (Seek s) (read_seek s).
Proof.
  destruct s as [[w|]|]; cbn [read_seek]; [|apply blamed_panic|apply blamed_ret]. apply blamed_bind; [|intros; apply blamed_ret].
  refine (blamed_weak (refused_at true) _ _ _ (blamed_r_seek true w (or_introl eq_refl))). intros ns e [_ H]. split; [discriminate|exact H].
Qed.

(** ** Derived types *)

Lemma blamed_lifted {A B} (Q : bool -> derr -> Prop) (x : res A) (k : A -> RM B) : (forall e, x = Err e -> forall ns, Q ns e) -> (forall y, x = Ok y -> blamed Q (k y)) -> blamed Q (bind (lift x) k).
Proof.
  intros He Hk. destruct x as [y|e| |].
  - exact (Hk y eq_refl).
  - exact (blamed_fail Q e (He e eq_refl)).
  - exact (blamed_panic Q).
  - exact (blamed_diverge Q).
Qed.

Definition search : Type := (fattrs -> ty -> Prop) -> (node -> Prop) -> Prop.
Definition cause (h : search) (ns : bool) (e : derr) : Prop :=
  match e with
  | Incomplete _ | Parse => True
  | Assertion => h can_assert nowhere
  | InvalidParam => h bad_pad nowhere
  | IdVariantNotFound => False
  | Io k =>
      if ns then k = OtherKind 0 /\ h (fun a t => seeks a t \/ pads a t \/ counts_bytes a t) struct_seeks
      else k = InvalidInput /\ h seeks struct_seeks
  end \/ h (map_fails e) nowhere.
Lemma cause_mono (h h' : search) ns e : (forall F C, h F C -> h' F C) -> cause h ns e -> cause h' ns e.
Proof.
  intros H [X|X]; [left|right; auto]. destruct e; cbn in *; auto. destruct ns; destruct X; auto.
Qed.
Lemma cause_bad h ns e : Bad ns e -> cause h ns e.
Proof. intros [(n & ->)| ->]; now left. Qed.
Lemma cause_skip (h : search) ns e : h (fun a t => seeks a t \/ pads a t \/ counts_bytes a t) struct_seeks -> Skip ns e -> cause h ns e.
Proof. intros H [(n & ->)|[[X|X] ->]]; left; cbn; auto; [|discriminate]. subst ns. auto. Qed.
Lemma usize_none z : to_usize z = None -> ~ (0 <= z < 2 ^ 64)%Z.
Proof.
  unfold to_usize. destruct ((z <? 0)%Z || (Z.of_N usize_max <? z)%Z) eqn:E; [|discriminate]. intros _. apply orb_prop in E. change (Z.of_N usize_max) with (2 ^ 64 - 1)%Z in E. lia.
Qed.

Section Types.
Variables (cu : nat -> custom) (fuel : nat).

Section Field.
Variables (a : fattrs) (t : ty) (h : search).
Hypothesis sub : forall (F : fattrs -> ty -> Prop) (C : node -> Prop), F a t -> h F C.
Let causes := cause h.

Lemma blamed_pad_of p ctx fs o : (exists f, p = Some f /\ (a_pad_before a = Some f \/ a_pad_after a = Some f)) \/ p = None -> blamed causes (read_pad (eval0 p ctx fs) o).
Proof.
  intros Hp. refine (blamed_weak (Pad (eval0 p ctx fs)) _ _ _ (blamed_padding _ o)). intros ns e H.
  destruct Hp as [(f & -> & Hf)| ->]; [|destruct H as [(n & ->)|[[(z & X) _]|[_ (z & X & _)]]]; [left; exact I|discriminate|discriminate]].
  assert (Hpad : pads a t) by (unfold pads; destruct Hf as [-> | ->]; [left|right]; discriminate).
  destruct H as [(n & ->)|[[_ [[X|X] ->]]|[-> (z & [= <-] & Hz)]]]; [left; exact I| |discriminate|].
  - subst ns. left. split; [reflexivity|]. apply sub. auto.
  - left. apply sub. exists f, ctx, fs. split; [exact Hf|]. now apply usize_none.
Qed.
Lemma blamed_field c vec ctx fs rd : a_reader a = None -> vec = is_vec_u8 t -> (forall lim args, blamed causes (rd lim args)) ->
  blamed causes (read_field c a vec ctx fs rd).
Proof.
  intros Hr Hv Hrd. unfold read_field. apply blamed_bind.
  { refine (blamed_weak (Seek _) _ _ _ (blamed_seek _)). intros ns e [X ->]. left. assert (Hs : seeks a t) by (unfold seeks; destruct (a_seek a); [discriminate|contradiction]).
    destruct ns; (split; [reflexivity|]); apply sub; auto. }
  intros _. apply blamed_bind; [refine (blamed_weak Bad _ _ _ (blamed_magic _)); intros; now apply cause_bad|]. intros _.
  apply blamed_bind; [apply blamed_pad_of; destruct (a_pad_before a); eauto|]. intros _.
  apply (blamed_at causes r_bits (fun off =>
    let* v := field_read_tokens a ctx fs off (field_read_normal a ctx fs off (field_read_func c a vec ctx fs off rd)) in
    let* _ := asserts a ctx fs off v in
    let* _ := read_pad (eval0 (a_pad_after a) ctx (fs ++ [v])) (field_order c a ctx fs) in ret v)). intros off.
  apply blamed_bind; [|intros v; apply blamed_bind; [|intros _; apply blamed_bind; [apply blamed_pad_of; destruct (a_pad_after a); eauto|intros; apply blamed_ret]]].
  - assert (HN : blamed causes (field_read_normal a ctx fs off (field_read_func c a vec ctx fs off rd))).
    { unfold field_read_normal. apply blamed_bind.
      - unfold field_read_func. rewrite Hr. destruct (a_limit a) as [l|] eqn:El; [|apply Hrd]. apply blamed_lifted.
        + intros e E ns. left. unfold eval_limit in E. destruct l; try discriminate; (destruct (to_usize _); [discriminate|injection E as <-; exact I]).
        + intros lim E. destruct vec; [|apply Hrd]. destruct lim as [n| | | |]; try apply Hrd.
          apply blamed_bind; [|intros; apply blamed_ret]. refine (blamed_weak Skip _ _ _ (blamed_exact n)). intros ns e. apply cause_skip. apply sub. right. right. split; [now symmetry|].
          unfold eval_limit in E. destruct l; try discriminate; try (destruct (to_usize _); discriminate). eauto.
      - intros v. destruct (a_map a) as [f|] eqn:Em; [|apply blamed_ret]. apply blamed_lift. intros e E ns. right. apply sub. exists f, ctx, fs, off, v. auto. }
    unfold field_read_tokens. destruct (a_skip a) as [[| |]|], (a_cond a); first [exact HN|apply blamed_ret|apply blamed_if; first [exact HN|apply blamed_ret]].
  - unfold asserts. apply blamed_bind.
    + destruct (a_assert a) as [f|] eqn:Ea; [|apply blamed_ret]. unfold check. destruct (f ctx (fs ++ [v]) off) eqn:Ef; [apply blamed_ret|]. apply blamed_fail. intros ns. left. apply sub. left. eauto 8.
    + intros _. destruct (a_assert_eq a) as [f|] eqn:Ea; [|apply blamed_ret]. unfold check. apply blamed_if; [apply blamed_ret|]. apply blamed_fail. intros ns. left. apply sub. right. rewrite Ea. discriminate.
Qed.
End Field.

Definition in_ty (t : ty) : search := fun F C => has true F C t.
Definition in_fields (fs : fields) : search := fun F C => fields_have true F C fs.
Definition in_variants (vs : variants) : search := fun F C => variants_have true F C vs.

Lemma blamed_types :
  (forall t, derived_read t -> forall lim args, blamed (cause (in_ty t)) (read_ty cu fuel t lim args)) /\
  (forall fs, ~ fields_have true hand_read any_custom fs ->
     forall c ctx id acc, blamed (cause (in_fields fs)) (fields_read cu fuel c ctx fs id acc)) /\
  (forall vs, ~ variants_have true hand_read any_custom vs ->
     forall (h : search), (forall F C, in_variants vs F C -> h F C) ->
     forall e ctx id k default, (forall m, default = Some m -> blamed (cause h) m) ->
     blamed (cause h) (variants_read cu fuel e ctx id vs k default)).
Proof.
  assert (HP : forall lim args h A (k : pctx -> RM A), (forall c, blamed Bad (k c)) -> blamed (cause h) (with_pctx lim args k)).
  { intros lim args h A k H. unfold with_pctx. destruct lim; [apply blamed_panic|]. destruct (pctx_of args); [|apply blamed_panic].
    refine (blamed_weak Bad _ _ _ (H _)). intros; now apply cause_bad. }
  apply types_ind; unfold derived_read; cbn [has fields_have variants_have].
  - intros p _ lim args. cbn [read_ty]. apply HP. intros. apply blamed_bind; [apply blamed_prim|intros; apply blamed_ret].
  - intros _ lim args. cbn [read_ty]. apply HP. intros. apply blamed_bind; [apply blamed_bool|intros; apply blamed_ret].
  - intros p _ lim args. cbn [read_ty]. apply HP. intros. apply blamed_bind; [apply blamed_nonzero|intros; apply blamed_ret].
  - intros. apply blamed_ret.
  - intros _ lim args. cbn [read_ty]. refine (blamed_weak Bad _ _ _ _); [intros; now apply cause_bad|].
    destruct lim; [apply blamed_panic|]. destruct args as [|[] [|]]; try apply blamed_panic; (apply blamed_bind; [|intros; apply blamed_ret]).
    + unfold read_cstring. apply blamed_bind; [|intros; apply blamed_cstring]. apply blamed_vec. apply blamed_prim.
    + unfold read_cstring_bytes. apply blamed_bind; [|intros; apply blamed_cstring]. apply blamed_vec. apply blamed_prim.
  - intros t IH Hd lim args. cbn [read_ty]. apply blamed_bind; [apply (IH Hd)|intros; apply blamed_ret].
  - intros t IHt u IHu Hd lim args. cbn [read_ty]. apply blamed_bind; [|intros; apply blamed_bind; [|intros; apply blamed_ret]].
    + refine (blamed_weak _ _ _ _ (IHt _ lim args)); [|tauto]. intros ns e. apply cause_mono. intros F C. now left.
    + refine (blamed_weak _ _ _ _ (IHu _ lim args)); [|tauto]. intros ns e. apply cause_mono. intros F C. now right.
  - intros n t IH Hd lim args. cbn [read_ty]. apply blamed_bind; [apply blamed_array, (IH Hd)|intros; apply blamed_ret].
  - intros pl size t IH Hd lim args. cbn [read_ty]. destruct lim; [|apply blamed_panic]. apply blamed_bind; [apply blamed_vec, (IH Hd)|intros; apply blamed_ret].
  - intros c fs IH Hd lim args. rewrite read_struct. cbv zeta. apply blamed_bind.
    { refine (blamed_weak (Seek _) _ _ _ (blamed_seek _)). intros ns e [X ->]. left. assert (Hs : struct_seeks (Struct c)) by (unfold struct_seeks; destruct (c_seek c); [discriminate|contradiction]).
      destruct ns; (split; [reflexivity|]); now left. }
    intros _. apply blamed_bind; [refine (blamed_weak Bad _ _ _ (blamed_magic _)); intros; now apply cause_bad|]. intros _.
    apply blamed_bind; [|intros; apply blamed_ret]. refine (blamed_weak _ _ _ _ (IH _ _ _ _ _)); [|tauto]. intros ns e. apply cause_mono. intros F C. now right.
  - intros e idt IHid vs IH Hd lim args. rewrite read_enum. cbv zeta.
    apply blamed_bind; [refine (blamed_weak Bad _ _ _ (blamed_magic _)); intros; now apply cause_bad|]. intros _. apply blamed_bind.
    + destruct (en_id e); [apply blamed_ret|]. refine (blamed_weak _ _ _ _ (IHid _ _ _)); [|tauto]. intros ns x. apply cause_mono. intros F C. right. now left.
    + intros id. apply IH; [tauto| |discriminate]. intros F C. right. now right.
  - intros k Hd. destruct Hd. exact I.
  - intros. apply blamed_ret.
  - intros a t _ w IHw tl IHtl Hd c ctx id acc. rewrite read_cons. apply blamed_bind; [|intros; apply blamed_bind; [|intros; apply blamed_ret]].
    + assert (Hr : a_reader a = None) by (destruct (a_reader a) eqn:E; [destruct Hd; left; unfold hand_read; rewrite E; discriminate|reflexivity]).
      assert (HF : blamed (cause (in_fields (FCons a t w tl))) (read_field c a (is_vec_u8 t) ctx acc (fun lim args => read_ty cu fuel w lim args))).
      { apply (blamed_field a t); [now left|exact Hr|reflexivity|]. intros lim args. refine (blamed_weak _ _ _ _ (IHw _ lim args)); [|tauto]. intros ns x. apply cause_mono. intros F C. right. now left. }
      destruct id; [rewrite Hr; apply blamed_ret|exact HF].
    + refine (blamed_weak _ _ _ _ (IHtl _ _ _ _ _)); [|tauto]. intros ns x. apply cause_mono. intros F C. right. now right.
  - intros _ h Hh e ctx id k default Hdef. cbn [variants_read]. destruct default as [m|]; [now apply Hdef|]. apply blamed_fail. now left.
  - intros v fs IHf tl IHtl Hd h Hh e ctx id k default Hdef. rewrite read_variant.
    assert (HB : blamed (cause h) (let* l := fields_read cu fuel (en_c e) ctx fs (if stores_id e v then Some id else None) [] in ret (VVar k l))).
    { apply blamed_bind; [|intros; apply blamed_ret]. refine (blamed_weak _ _ _ _ (IHf _ _ _ _ _)); [|tauto]. intros ns x. apply cause_mono. intros F C X. apply Hh. now left. }
    cbv zeta. destruct (matches (v_sel v) id); [exact HB|]. apply IHtl; [tauto|intros F C X; apply Hh; now right|].
    intros m E. destruct default; [now apply Hdef|]. destruct (v_default v); [|discriminate]. now injection E as <-.
Qed.
End Types.

(** ** The API *)

Lemma blamed_skip_small n o : n < 8 -> blamed Short (skip_bits n o).
Proof.
  intros Hn r x r' E. unfold skip_bits in E. cbv zeta in E.
  assert (HK : forall amt, amt < 8 -> blamed Short (
    let* _ := if amt / 8 =? 0 then ret tt
              else fun r => if negb (r_bits r mod 8 =? 0) then (Panic, r) else (let* _ := lift_io (r_seek (SeekCurrent (Z.of_nat (amt / 8)))) in ret tt) r in
    let* _ := read_bits_into (amt mod 8) o in ret tt)).
  { intros amt Ha. rewrite (Nat.div_small amt 8) by exact Ha. cbn [Nat.eqb]. apply blamed_bind; [apply blamed_ret|]. intros _.
    apply blamed_bind; [apply blamed_bits|intros; apply blamed_ret]. }
  destruct (r_left r) as [[b|l]|].
  - rewrite bind_ret_l in E. exact (HK n Hn r x r' E).
  - match type of E with ?m r = _ => assert (H : blamed Short m); [|exact (H r x r' E)] end.
    match goal with |- blamed _ (bind (bind ?m ?f) ?k) => refine (blamed_ext Short (bind m (fun a => bind (f a) k)) _ _ _) end.
    + intros q. unfold bind. now destruct (read_bits_into _ o q) as [[]].
    + apply blamed_bind; [apply blamed_bits|]. intros bits. refine (blamed_ext Short _ _ (fun q => bind_ret_l _ _ q) _). apply HK. lia.
  - rewrite bind_ret_l in E. exact (HK n Hn r x r' E).
Qed.

Section Api.
Variables (cu : nat -> custom) (fuel : nat).
Lemma from_reader_cause t s bit e s' : derived_read t -> bit < 8 \/ s_noseek s = None -> from_reader cu fuel t s bit = (Err e, s') -> read_cause t s s' e.
Proof.
  intros Hd Hb E. unfold from_reader in E.
  match type of E with (let '(_, _) := ?m ?r in _) = _ =>
    assert (H : blamed (fun ns e => (bit < 8 \/ ns = false) -> cause (in_ty t) ns e) m); [|destruct (m r) as [x r'] eqn:E1; destruct (H _ _ _ E1) as [S1 K]] end.
  - apply blamed_bind.
    + apply blamed_if; [apply blamed_ret|]. destruct (Nat.lt_ge_cases bit 8) as [Hs|Hs].
      * refine (blamed_weak Short _ _ _ (blamed_skip_small bit Msb0 Hs)). intros ns e0 (n & ->) _. now left.
      * refine (blamed_weak Skip _ _ _ (blamed_skip bit Msb0)). intros ns e0 [(n & ->)|[[X|X] _]] Y; [now left| |discriminate]. destruct Y; [lia|congruence].
    + intros _. apply blamed_bind; [|intros v; now apply blamed_same]. refine (blamed_weak (cause (in_ty t)) _ _ _ _); [auto|]. now apply blamed_types.
  - apply pair_inj in E. destruct E as [-> <-]. specialize (K e eq_refl). unfold noseek in K. cbn [r_s reader_new] in K. unfold read_cause.
    destruct K as [K|(k & -> & K)]; [|left; left; exact K].
    assert (Hk : cause (in_ty t) (match s_noseek s with Some _ => true | None => false end) e) by (apply K; destruct Hb as [Hb|Hb]; [auto|rewrite Hb; auto]).
    destruct Hk as [Hk|Hk]; [left|right; exact Hk]. destruct e; try exact Hk. right. destruct (s_noseek s); exact Hk.
Qed.
Lemma slice_of_read t input s' e : read_cause t (cursor input) s' e -> slice_cause t e.
Proof.
  intros [K|K]; [left|right; exact K]. destruct e; try exact K. destruct K as [(j & n & _ & X)|K]; [discriminate|exact K].
Qed.
Lemma from_bytes_cause t input bit e : derived_read t -> from_bytes cu fuel t input bit = Err e -> slice_cause t e.
Proof.
  intros Hd E. unfold from_bytes in E. destruct (from_reader cu fuel t (cursor input) bit) as [[[n v]|x| |] s'] eqn:E1; try discriminate.
  - cbv zeta in E. destruct (_ <=? _); [discriminate|]. injection E as <-. now left.
  - injection E as ->. exact (slice_of_read _ _ _ _ (from_reader_cause _ (cursor input) _ _ _ Hd (or_intror eq_refl) E1)).
Qed.
Lemma try_from_cause t input e : derived_read t -> try_from cu fuel t input = Err e -> slice_cause t e.
Proof.
  intros Hd E. unfold try_from in E. destruct (from_reader cu fuel t (cursor input) 0) as [[[n v]|x| |] s'] eqn:E1; try discriminate.
  - cbv zeta in E. destruct (_ <? _); [injection E as <-; now left|]. destruct (_ <? _); [injection E as <-; now left|discriminate].
  - injection E as ->. exact (slice_of_read _ _ _ _ (from_reader_cause _ (cursor input) _ _ _ Hd (or_intror eq_refl) E1)).
Qed.
End Api.
