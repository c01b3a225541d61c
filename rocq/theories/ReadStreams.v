(** Derived reading on different kinds of sources: C29, C38, C39. *)
From Coq Require Import Lia ZifyBool ZifyNat ZifyN.
From Verif Require Import Base MonadFacts Spec Stream Reader Session BitsFacts NFacts Prims Containers ReaderFacts ReaderOps
  SourceSim CodecSpec CodecFacts Derive DeriveSpec DeriveSound DeriveClosed.
Ltac Zify.zify_post_hook ::= Z.div_mod_to_equations.

Section SimDerived.
Variables (Rel : stream -> stream -> Prop) (d : nat).
Hypothesis Rel_read : forall n s1 s2, Rel s1 s2 ->
  fst (s_read_exact n s1) = fst (s_read_exact n s2) /\ Rel (snd (s_read_exact n s1)) (snd (s_read_exact n s2)).
Notation rsim := (rsim Rel d).
Lemma program_rsim (offs : Prop) m : (offs -> d = 0) -> reader_program offs m -> rsim m.
Proof.
  intros Hd. induction 1 as [x|op k _ IH|f _ IH|f o _ IH|m1 m2 E _ IH].
  - apply rsim_lift.
  - apply rsim_try; [now apply rsim_rop|exact IH].
  - eapply rsim_ext; [|apply (rsim_see Rel d (fun l => f (match l with Some (Reader.LBits l) => l | Some (LByte b) => byte_bits b | None => [] end))); intros; apply IH].
    reflexivity.
  - intros r1 r2 R. pose proof R as (_ & _ & B). rewrite (Hd o), Nat.mul_0_r, Nat.add_0_r in B. rewrite B. now apply IH.
  - exact (rsim_ext _ _ _ _ E IH).
Qed.
Theorem derived_rsim (offs skips exact : Prop) cu fuel t lim args :
  (offs -> d = 0) -> (skips -> forall n o, rsim (skip_bits n o)) -> (exact -> forall n, rsim (read_exact_vec n)) ->
  reads_in_order offs skips exact cu t -> rsim (read_ty cu fuel t lim args).
Proof.
  intros Hd Hs He H. eapply (closed_read cu fuel) with (G := fun _ => True) (P := fun A => @SourceSim.rsim Rel d A) (offs := offs) (ends := True); [..|exact H|intros _; exact I|exact I]; intros; auto.
  - eapply rsim_ext; eassumption.
  - apply rsim_lift.
  - apply rsim_bind; auto.
  - intros r1 r2 R. destruct H0 as [Ho|Hf].
    + pose proof R as (_ & _ & B). rewrite (Hd Ho), Nat.mul_0_r, Nat.add_0_r in B. rewrite B. now apply H1.
    + rewrite (Hf (r_bits r1) (r_bits r2)). now apply H1.
  - now apply rsim_prim.
  - now apply rsim_prim.
  - now apply rsim_vec.
  - now apply rsim_cstring.
  - now apply rsim_cstring_bytes.
  - destruct H0 as (_ & _ & _ & [X|[X|X]] & _); [auto|congruence|]. now apply X in H2.
  - destruct H0 as (_ & _ & [X|X] & _); [auto|]. destruct H2 as (ctx & fs & E). specialize (X p H1 ctx fs). apply rsim_skip_short; [assumption|lia].
  - destruct H0 as (H0 & _). congruence.
  - congruence.
  - destruct H0 as (_ & _ & _ & _ & H0). eapply program_rsim; [exact Hd|]. now apply H0.
  - eapply program_rsim; [exact Hd|]. apply H0.
  - apply H0.
Qed.
Theorem session_rsim ops : rsim (run_session ops).
Proof.
  induction ops as [|op tl IH]; cbn [run_session]; [apply rsim_ret|]. apply rsim_bind; [now apply rsim_rop|intros x]. apply rsim_bind; [exact IH|intros; apply rsim_ret].
Qed.
Theorem all_rsim ops : forall r1 r2, rrel Rel d r1 r2 -> fst (run_all ops r1) = fst (run_all ops r2) /\ rrel Rel d (snd (run_all ops r1)) (snd (run_all ops r2)).
Proof.
  induction ops as [|op tl IH]; intros r1 r2 R; cbn [run_all]; [now split|]. destruct (rsim_rop Rel d Rel_read op r1 r2 R) as [E R'].
  destruct (run_rop op r1) as [x1 v1], (run_rop op r2) as [x2 v2]. cbn [fst snd] in *. subst x2. destruct (IH _ _ R') as [E2 R2].
  destruct (run_all tl v1), (run_all tl v2). cbn [fst snd] in *. split; [congruence|exact R2].
Qed.
End SimDerived.

(** ** NoSeek *)

(** The second source is the first behind [NoSeek]; from positions [b] and [p] on they
    moved equally far, unless a failed transfer ate the rest of the input or a part of it. *)
Definition ns_rel (F : nat -> option (iokind * nat)) (e : bool) (b p : nat) (s1 s2 : stream) : Prop :=
  s_noseek s1 = None /\ s_eat s1 = e /\ s_fault s1 = F /\ exists q, s2 = s_virt s1 (Some q) /\
    ((forall k x m, F k = Some (x, m) -> m = 0) -> e = false \/ s_pos s1 < length (s_data s1) -> s_pos s1 + p = q + b).
Lemma ns_read F e b p n s1 s2 : ns_rel F e b p s1 s2 ->
  fst (s_read_exact n s1) = fst (s_read_exact n s2) /\ ns_rel F e b p (snd (s_read_exact n s1)) (snd (s_read_exact n s2)).
Proof.
  intros (Hn & He & HF & q & -> & Hq). unfold s_read_exact, s_avail. cbn [s_virt s_fault s_calls s_pos s_data s_eat s_noseek].
  destruct (s_fault s1 (s_calls s1)) as [[k m]|] eqn:Ef; cbn [fst snd].
  - split; [reflexivity|]. split; [exact Hn|]. split; [exact He|]. split; [exact HF|]. exists q. split; [reflexivity|].
    intros Hc. rewrite <- HF in Hc. rewrite (Hc _ _ _ Ef). rewrite <- HF in Hq. cbn [s_goto s_tick s_pos s_data Nat.min]. rewrite Nat.add_0_r. exact (Hq Hc).
  - destruct (Nat.leb_spec n (length (skipn (s_pos s1) (s_data s1)))) as [Hl|Hl]; cbn [fst snd option_map].
    + split; [reflexivity|]. split; [cbn; now rewrite Hn|]. split; [exact He|]. split; [exact HF|]. exists (q + n). split; [now rewrite Hn|].
      cbn [s_virt s_goto s_tick s_pos s_data s_eat]. rewrite skipn_length in Hl. intros Hc; specialize (Hq Hc); intros [H|H]; [specialize (Hq (or_introl H))|specialize (Hq ltac:(right; lia))]; lia.
    + split; [reflexivity|]. rewrite He. destruct e; (split; [exact Hn|]); (split; [exact He|]); (split; [exact HF|]); exists q; (split; [reflexivity|]);
        cbn [s_goto s_tick s_pos s_data]; [intros Hc [H|H]; [congruence|]; lia|exact Hq].
Qed.
Lemma ns_start p s : s_noseek s = None -> ns_rel (s_fault s) (s_eat s) (s_pos s) p s (s_virt s (Some p)).
Proof. intros H. split; [exact H|]. split; [reflexivity|]. split; [reflexivity|]. exists p. split; [reflexivity|lia]. Qed.
(** [from_reader] behind [NoSeek]. *)
Theorem noseek_from_reader cu fuel t s p bit : reads_in_order True False False cu t -> s_noseek s = None -> bit < 8 ->
  exists x s1 q, from_reader cu fuel t s bit = (x, s1) /\ from_reader cu fuel t (s_virt s (Some p)) bit = (x, s_virt s1 (Some q)) /\
    (loses_nothing s -> s_eat s = false \/ s_pos s1 < length (s_data s1) -> s_pos s1 + p = q + s_pos s).
Proof.
  intros H Hn Hb. set (Rel := ns_rel (s_fault s) (s_eat s) (s_pos s) p).
  assert (HS : rsim Rel 0 (let* _ := if bit =? 0 then ret tt else skip_bits bit Msb0 in let* v := read_ty cu fuel t None [] in fun r => (Ok (r_bits r, v), r))).
  { assert (HR : forall n s1 s2, Rel s1 s2 -> fst (s_read_exact n s1) = fst (s_read_exact n s2) /\ Rel (snd (s_read_exact n s1)) (snd (s_read_exact n s2))) by (intros; now apply ns_read).
    apply rsim_bind; [destruct (bit =? 0); [apply rsim_ret|now apply rsim_skip_short]|intros _].
    apply rsim_bind; [eapply derived_rsim; try eassumption; tauto|]. intros v r1 r2 R. pose proof R as (_ & _ & B). cbn [fst snd]. rewrite B.
    split; [do 2 f_equal; lia|exact R]. }
  destruct (HS (reader_new s) (reader_new (s_virt s (Some p)))) as [E (R & _)]; [split; [now apply ns_start|now split]|].
  unfold from_reader.
  match type of E with fst ?a = fst ?b => destruct a as [x1 r1], b as [x2 r2] end. cbn [fst snd] in *. subst x2.
  destruct R as (_ & _ & _ & q & Eq & Hq). exists x1, (r_s r1), q. rewrite Eq. auto.
Qed.
(** Any calls on a reader. *)
Theorem noseek_calls ops s p : s_noseek s = None ->
  let '(xs, r1) := run_all ops (reader_new s) in
  let '(ys, r2) := run_all ops (reader_new (s_virt s (Some p))) in
  ys = xs /\ r_rest r2 = r_rest r1 /\ r_bits r2 = r_bits r1 /\
  exists q, r_s r2 = s_virt (r_s r1) (Some q) /\
    (loses_nothing s -> s_eat s = false \/ s_pos (r_s r1) < length (s_data (r_s r1)) -> s_pos (r_s r1) + p = q + s_pos s).
Proof.
  intros Hn. set (Rel := ns_rel (s_fault s) (s_eat s) (s_pos s) p).
  assert (HR : forall n s1 s2, Rel s1 s2 -> fst (s_read_exact n s1) = fst (s_read_exact n s2) /\ Rel (snd (s_read_exact n s1)) (snd (s_read_exact n s2))) by (intros; now apply ns_read).
  destruct (all_rsim Rel 0 HR ops (reader_new s) (reader_new (s_virt s (Some p)))) as [E R]; [split; [now apply ns_start|now split]|].
  destruct (run_all ops (reader_new s)) as [xs r1], (run_all ops (reader_new (s_virt s (Some p)))) as [ys r2]. cbn [fst snd] in *.
  destruct R as ((_ & _ & _ & q & Eq & Hq) & L & B). split; [congruence|]. unfold r_rest. rewrite L. split; [reflexivity|]. split; [lia|]. exists q. auto.
Qed.
(** A real seek through [NoSeek]: only one to the current position succeeds. *)
Theorem noseek_seek w s v : s_noseek s = Some v -> s_fault s (s_calls s) = None ->
  s_seek w s = (match w with
                | SeekStart n => if n =? v then IoOk v else IoErr (OtherKind 0)
                | SeekCurrent d => if (d =? 0)%Z then IoOk v else IoErr (OtherKind 0)
                | SeekEnd _ => IoErr (OtherKind 0)
                end, s_tick s).
Proof.
  intros H F. unfold s_seek. rewrite F, H. destruct w as [n|d|d]; cbn [noseek_target]; [destruct (Nat.eqb_spec n v); congruence|now destruct (_ =? _)%Z|reflexivity].
Qed.

(** ** Two readers in the same input *)

(** The second source is the first without its first [d] bytes. *)
Definition shift_rel (input : list byte) (d : nat) (s1 s2 : stream) : Prop :=
  s_data s1 = input /\ s_data s2 = skipn d input /\ s_pos s1 = d + s_pos s2 /\ s_eat s1 = s_eat s2 /\ s_noseek s1 = None /\ s_noseek s2 = None /\
  quiet s1 /\ quiet s2.
Lemma shift_read input d n s1 s2 : shift_rel input d s1 s2 ->
  fst (s_read_exact n s1) = fst (s_read_exact n s2) /\ shift_rel input d (snd (s_read_exact n s1)) (snd (s_read_exact n s2)).
Proof.
  intros (Hi & Hd & Hp & He & N1 & N2 & Q1 & Q2). unfold s_read_exact, s_avail. rewrite (Q1 _), (Q2 _), Hi, Hd, Hp, He, N1, N2, skipn_skipn.
  destruct (_ <=? _); cbn [fst snd option_map].
  - split; [reflexivity|]. repeat split; auto. cbn. lia.
  - split; [reflexivity|]. destruct (s_eat s2) eqn:E2; repeat split; auto; cbn [s_goto s_tick s_pos s_eat]; try congruence. rewrite skipn_length. lia.
Qed.
Lemma shift_skip input d n s1 s2 : shift_rel input d s1 s2 ->
  match fst (s_seek (SeekCurrent (Z.of_nat n)) s1), fst (s_seek (SeekCurrent (Z.of_nat n)) s2) with
  | IoOk p1, IoOk p2 => p1 = p2 + d
  | IoErr e1, IoErr e2 => e1 = e2
  | _, _ => False
  end /\ shift_rel input d (snd (s_seek (SeekCurrent (Z.of_nat n)) s1)) (snd (s_seek (SeekCurrent (Z.of_nat n)) s2)).
Proof.
  intros (Hi & Hd & Hp & He & N1 & N2 & Q1 & Q2). unfold s_seek. rewrite (Q1 _), (Q2 _), N1, N2. cbn [seek_target].
  replace (Z.of_nat (s_pos s1) + Z.of_nat n <? 0)%Z with false by lia. replace (Z.of_nat (s_pos s2) + Z.of_nat n <? 0)%Z with false by lia. cbn [fst snd].
  split; [lia|]. repeat split; auto. cbn. lia.
Qed.
(** The length check of [read_exact_vec] leaves the source where it was. *)
Lemma exact_state n r : s_noseek (r_s r) = None -> quiet (r_s r) -> exists r', read_exact_vec n r =
     (if length (s_data (r_s r)) <? s_pos (r_s r) then panic
      else if (N.of_nat (length (s_data (r_s r)) - s_pos (r_s r)) <? n)%N then
        if (usize_max <? n * 8)%N then panic
        else fun r => (Err (Incomplete (N.to_nat (n * 8))), r)
      else fun r => read_bytes (N.to_nat n) (N.to_nat n) Lsb0 r) r' /\
  s_data (r_s r') = s_data (r_s r) /\ s_pos (r_s r') = s_pos (r_s r) /\ s_eat (r_s r') = s_eat (r_s r) /\
  s_noseek (r_s r') = None /\ quiet (r_s r') /\ r_left r' = r_left r /\ r_bits r' = r_bits r.
Proof.
  intros Hno Hqu. unfold read_exact_vec, inner_seek, lift_io, bind, s_seek. rewrite (Hqu _), Hno. cbn [seek_target].
  rewrite Z.add_0_r. replace (Z.of_nat (s_pos (r_s r)) <? 0)%Z with false by lia. rewrite Nat2Z.id.
  cbn [r_set_s r_s s_goto s_tick s_fault s_calls s_noseek s_data s_pos]. rewrite (Hqu _), Hno. cbn [seek_target]. rewrite Z.add_0_r.
  replace (Z.of_nat (length (s_data (r_s r))) <? 0)%Z with false by lia. rewrite Nat2Z.id.
  cbn [r_set_s r_s s_goto s_tick s_fault s_calls s_noseek s_data s_pos]. rewrite (Hqu _), Hno. cbn [seek_target].
  eexists. split; [reflexivity|]. repeat split; auto.
Qed.
Lemma shift_exact input d n : d <= length input -> rsim (shift_rel input d) d (read_exact_vec n).
Proof.
  intros Hl r1 r2 ((Hi & Hd & Hp & He & N1 & N2 & Q1 & Q2) & L & B).
  destruct (exact_state n r1 N1 Q1) as (v1 & -> & D1 & P1 & A1 & M1 & U1 & L1 & B1). destruct (exact_state n r2 N2 Q2) as (v2 & -> & D2 & P2 & A2 & M2 & U2 & L2 & B2).
  assert (R : rrel (shift_rel input d) d v1 v2) by (repeat split; congruence || assumption || lia).
  rewrite Hi, Hp, Hd, skipn_length. replace (length input - d <? s_pos (r_s r2)) with (length input <? d + s_pos (r_s r2)) by lia.
  replace (length input - d - s_pos (r_s r2)) with (length input - (d + s_pos (r_s r2))) by lia.
  destruct (_ <? _); [exact (conj eq_refl R)|]. destruct (N.of_nat _ <? n)%N; [destruct (usize_max <? _)%N; exact (conj eq_refl R)|].
  apply (rsim_bytes (shift_rel input d) d); [apply shift_read|exact R].
Qed.

(** ** Seeking *)

Lemma seek_state w r t : quiet (r_s r) -> s_noseek (r_s r) = None -> seek_target (s_pos (r_s r)) (length (s_data (r_s r))) w = Some t ->
  exists r', r_seek w r = (IoOk t, r') /\ r_left r' = None /\ r_bits r' = 8 * t /\
    rrel (shift_rel (s_data (r_s r)) t) t r' (reader_new (source_from (r_s r) t)).
Proof.
  intros Q N T. destruct (r_seek_ok w r t Q N T) as (r' & E & (Sd & Se & Sf) & L & B & P & N'). exists r'. split; [exact E|]. split; [exact L|]. split; [exact B|].
  split; [|split; [exact L|cbn; lia]]. unfold shift_rel. cbn [reader_new r_s source_from s_data s_pos s_eat s_noseek].
  split; [congruence|]. split; [congruence|]. split; [lia|]. split; [congruence|]. split; [exact N'|]. split; [reflexivity|].
  split; [|intros j; reflexivity]. intros j. rewrite Sf. apply Q.
Qed.
(** After a seek a reader behaves as a new one on the bytes from the target on. *)
Theorem seek_fresh w r t : (forall j, s_fault (r_s r) j = None) -> s_noseek (r_s r) = None ->
  seek_target (s_pos (r_s r)) (length (s_data (r_s r))) w = Some t ->
  exists r', r_seek w r = (IoOk t, r') /\ r_rest r' = [] /\ r_bits r' = 8 * t /\
    forall ops, fst (run_all ops r') = fst (run_all ops (reader_new (source_from (r_s r) t))).
Proof.
  intros Q N T. destruct (seek_state w r t Q N T) as (r' & E & L & B & R). exists r'. split; [exact E|]. split; [unfold r_rest; now rewrite L|]. split; [exact B|].
  intros ops. eapply all_rsim; [apply shift_read|exact R].
Qed.
Theorem seek_struct cu fuel c fs lim args f w r t :
  c_seek c = Some f -> f (ctx_args c args) = Some w ->
  (forall j, s_fault (r_s r) j = None) -> s_noseek (r_s r) = None ->
  seek_target (s_pos (r_s r)) (length (s_data (r_s r))) w = Some t -> t <= length (s_data (r_s r)) ->
  reads_in_order False True True cu (TStruct (no_seek c) fs) ->
  fst (read_ty cu fuel (TStruct c fs) lim args r) =
  fst (read_ty cu fuel (TStruct (no_seek c) fs) lim args (reader_new (source_from (r_s r) t))).
Proof.
  intros Hc Hf Q N T Ht H. destruct (seek_state w r t Q N T) as (r' & E & L & B & R).
  transitivity (fst (read_ty cu fuel (TStruct (no_seek c) fs) lim args r')).
  - assert (HF : forall id acc r, fields_read cu fuel c (ctx_args c args) fs id acc r = fields_read cu fuel (no_seek c) (ctx_args c args) fs id acc r).
    { generalize (ctx_args c args). clear. intros ctx. induction fs as [|a t wire tl IH]; intros id acc r; [reflexivity|].
      rewrite !read_cons. change (read_field (no_seek c)) with (read_field c). apply bind_ext. intros x r1 _. apply bind_cong. apply IH. }
    rewrite !read_struct, Hc. change (ctx_args (no_seek c) args) with (ctx_args c args). cbn [option_map no_seek c_seek c_magic]. fold (no_seek c).
    rewrite Hf. cbn [read_seek]. rewrite bind_ret_l.
    rewrite (bind_ok _ _ r tt r'); [|unfold bind, lift_io; rewrite E; reflexivity].
    f_equal. apply bind_ext. intros _ r1 _. apply bind_cong, HF.
  - eapply derived_rsim; try eassumption; [apply shift_read|tauto| |].
    + intros _ n o. apply rsim_skip; [apply shift_read|apply shift_skip].
    + intros _ n. now apply shift_exact.
Qed.
