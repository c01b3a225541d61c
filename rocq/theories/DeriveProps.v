(** The container API, dispatch, magic, padding and assertions. *)
From Coq Require Import Lia ZifyBool ZifyNat ZifyN.
From Verif Require Import Base Spec Stream Reader Writer BitsFacts NFacts ReaderFacts FastRead MonadFacts ReaderOps Session SessionFacts ReaderProps WSession WriterFacts WriterProps.
From Verif Require Import Prims CodecSpec CodecFacts PrimFacts PrimProps Containers ContainerSpec ContainerFacts ContainerProps Derive DeriveSpec DeriveFacts DeriveSound.
Ltac Zify.zify_post_hook ::= Z.div_mod_to_equations.

(** ** Writing and reading a value *)

Lemma emits_at_out o m enc : emits_at o 0 m enc ->
  exists bytes pad, to_bytes_with m = Ok bytes /\ bitstring o bytes = enc ++ repeat false pad /\ pad < 8.
Proof.
  intros H. destruct (fresh_writer o) as [Hw Ho]. destruct (H _ Hw Ho) as (w1 & bs & E & St & W & O & Q); [split; reflexivity|].
  destruct (fresh_out o m enc w1 bs E St W O) as (w & pad & Ew & HD & Hp); [destruct o; exact Q|].
  exists (k_data (w_k w)), pad. split; [|split; assumption]. unfold to_bytes_with. now rewrite Ew.
Qed.
Lemma emits_at_bits m enc : emits_at Msb0 0 m enc -> to_bits_with m = Ok enc.
Proof.
  intros H. destruct (fresh_writer Msb0) as [Hw Ho]. destruct (H _ Hw Ho) as (w1 & bs & E & (Hd & _) & W & O & Q); [split; reflexivity|].
  unfold to_bits_with. rewrite E. cbn [res_map]. f_equal. cbn [writer_new w_k vec_sink k_data k_pos] in Hd. rewrite Hd, overlay_empty.
  exact Q.
Qed.

Section Api.
Variables (cu : nat -> custom) (fuel : nat).
Lemma from_reader_at src o t s off junk enc rest v :
  reads_at src o off (read_ty cu fuel t None []) enc v -> off = length junk -> (off = 0 \/ (off < 8 /\ o = Msb0)) ->
  readable src (reader_new s) -> bitstring o (s_avail s) = junk ++ enc ++ rest ->
  exists s', from_reader cu fuel t s off = (Ok (off + length enc, v), s').
Proof.
  intros HR Hj Ho Hr Hi. unfold from_reader.
  assert (HS : reads_at src o 0 (if off =? 0 then ret tt else skip_bits off Msb0) junk tt).
  { destruct (Nat.eqb_spec off 0) as [Hz|Hz].
    - assert (junk = []) by (apply length_zero_iff_nil; lia). subst junk. apply reads_at_ret.
    - destruct Ho as [Ho|[Ho ->]]; [lia|]. rewrite Hj. apply reads_at_skip. right. lia. }
  assert (HB : reads_at src o 0 (let* _ := if off =? 0 then ret tt else skip_bits off Msb0 in
                     let* v := read_ty cu fuel t None [] in fun r => (Ok (r_bits r, v), r)) (junk ++ enc) (off + length enc, v)).
  { apply reads_at_bind with (a := tt); [exact HS|]. rewrite <- Hj. cbn [Nat.add].
    apply reads_at_bind_nil with (a := v); [exact HR|].
    intros r rst Hr' [Hb _] Hu. exists r. rewrite Hb. split; [reflexivity|]. split; [exact Hr'|]. split; [exact Hu|]. cbn [length]. rewrite Nat.add_0_r. split; [reflexivity|]. split; [reflexivity|lia]. }
  destruct (HB (reader_new s) rest) as (r' & E & _).
  - exact Hr.
  - split; reflexivity.
  - rewrite <- app_assoc. destruct o; exact Hi.
  - rewrite E. eexists. reflexivity.
Qed.
Lemma from_bytes_at o ce t input off junk enc rest v : customs_upto SeekSource o fuel cu ce ->
  encode SeekSource o ce t None [] off v = Some enc -> length enc <= fuel ->
  off = length junk -> (off = 0 \/ (off < 8 /\ o = Msb0)) -> bitstring o input = junk ++ enc ++ rest ->
  from_bytes cu fuel t input off = Ok ((skipn ((off + length enc) / 8) input, (off + length enc) mod 8), v).
Proof.
  intros Hcu He Hf Hj Ho Hi. destruct (encode_sound SeekSource o cu ce fuel Hcu _ _ _ _ _ _ He) as [_ HR]. specialize (HR Hf).
  destruct (from_reader_at SeekSource o t (cursor input) off junk enc rest v HR Hj Ho (readable_new SeekSource input) Hi) as (s' & E).
  unfold from_bytes. rewrite E. apply (f_equal (@length bool)) in Hi. rewrite bitstring_length, !app_length in Hi.
  destruct (Nat.leb_spec ((off + length enc) / 8) (length input)); [reflexivity|lia].
Qed.
Theorem round_trip_upto o ce t v enc : customs_upto SeekSource o fuel cu ce ->
  encode SeekSource o ce t None [] 0 v = Some enc -> length enc <= fuel ->
  exists bytes pad, to_bytes cu t v = Ok bytes /\ bitstring o bytes = enc ++ repeat false pad /\ pad < 8 /\
    forall tail, from_bytes cu fuel t (bytes ++ tail) 0 = Ok ((skipn (length enc / 8) (bytes ++ tail), length enc mod 8), v).
Proof.
  intros Hcu He Hf. destruct (encode_sound SeekSource o cu ce fuel Hcu _ _ _ _ _ _ He) as [HW _].
  destruct (emits_at_out o _ _ HW) as (bytes & pad & E & HB & Hp). exists bytes, pad. split; [exact E|]. split; [exact HB|]. split; [exact Hp|].
  intros tail. apply (from_bytes_at o ce t (bytes ++ tail) 0 [] enc (repeat false pad ++ bitstring o tail) v Hcu He Hf eq_refl (or_introl eq_refl)).
  now rewrite bitstring_app, HB, <- app_assoc.
Qed.
Theorem round_trip o ce t v enc : customs_lawful SeekSource o cu ce ->
  encode SeekSource o ce t None [] 0 v = Some enc -> length enc <= fuel ->
  exists bytes pad, to_bytes cu t v = Ok bytes /\ bitstring o bytes = enc ++ repeat false pad /\ pad < 8 /\
    forall tail, from_bytes cu fuel t (bytes ++ tail) 0 = Ok ((skipn (length enc / 8) (bytes ++ tail), length enc mod 8), v).
Proof. intros Hcu. apply round_trip_upto. now apply lawful_upto. Qed.
(** Any source: not seekable, in the middle of a stream. *)
Theorem round_trip_stream o ce t pos v enc : customs_lawful AnySource o cu ce ->
  encode AnySource o ce t None [] pos v = Some enc -> length enc <= fuel ->
  emits_at o pos (write_ty cu t [] v) enc /\ reads_at AnySource o pos (read_ty cu fuel t None []) enc v.
Proof. intros Hcu He Hf. destruct (encode_sound AnySource o cu ce fuel (lawful_upto _ _ _ _ _ Hcu) _ _ _ _ _ _ He) as [HW HR]. split; [exact HW|now apply HR]. Qed.

(** ** TryFrom *)

Theorem try_from_ok t input v : try_from cu fuel t input = Ok v <-> exists off, from_bytes cu fuel t input 0 = Ok (([], off), v).
Proof.
  unfold try_from, from_bytes. destruct (from_reader cu fuel t (cursor input) 0) as [[[b x]|e| |] s]; try (split; [discriminate|intros (? & H); discriminate]).
  destruct (Nat.ltb_spec (b / 8) (length input)) as [H1|H1].
  { split; [discriminate|]. intros (off & H). destruct (b / 8 <=? length input); [|discriminate]. apply ok_inj in H.
    apply pair_inj in H. destruct H as [H _]. apply pair_inj in H. destruct H as [H _]. apply (f_equal (@length byte)) in H. rewrite skipn_length in H. cbn [length] in H. lia. }
  destruct (Nat.ltb_spec (length input) (b / 8)) as [H2|H2].
  { split; [discriminate|]. intros (off & H). destruct (Nat.leb_spec (b / 8) (length input)); [lia|discriminate]. }
  assert (H3 : b / 8 = length input) by lia. rewrite H3, Nat.leb_refl, skipn_all. split.
  - intros H. injection H as ->. exists (b mod 8). reflexivity.
  - intros (off & H). apply ok_inj in H. apply pair_inj in H. destruct H as [_ ->]. reflexivity.
Qed.
Theorem try_from_leftover t input rest off v : from_bytes cu fuel t input 0 = Ok ((rest, off), v) -> rest <> [] ->
  try_from cu fuel t input = Err Parse.
Proof.
  unfold try_from, from_bytes. destruct (from_reader cu fuel t (cursor input) 0) as [[[b x]|e| |] s]; try discriminate.
  destruct (Nat.leb_spec (b / 8) (length input)) as [H1|H1]; [|discriminate]. intros H Hn. apply ok_inj in H.
  apply pair_inj in H. destruct H as [H _]. apply pair_inj in H. destruct H as [H _].
  destruct (Nat.ltb_spec (b / 8) (length input)) as [H2|H2]; [reflexivity|].
  exfalso. apply Hn. rewrite <- H. apply skipn_all2. lia.
Qed.
Theorem try_from_err t input e : from_bytes cu fuel t input 0 = Err e -> exists e', try_from cu fuel t input = Err e'.
Proof.
  unfold try_from, from_bytes. destruct (from_reader cu fuel t (cursor input) 0) as [[[b x]|e1| |] s]; try discriminate; [|intros H; eexists; reflexivity].
  destruct (Nat.leb_spec (b / 8) (length input)) as [H1|H1]; [discriminate|]. intros _.
  destruct (Nat.ltb_spec (b / 8) (length input)); [lia|]. destruct (Nat.ltb_spec (length input) (b / 8)); [|lia]. eexists. reflexivity.
Qed.
End Api.

(** ** Dispatch *)

Lemma first_match_spec vs id : forall k,
  match first_match vs id k with
  | Some j => exists i, j = k + i /\ matches_at vs id i /\ forall h, h < i -> ~ matches_at vs id h
  | None => forall i, ~ matches_at vs id i
  end.
Proof.
  induction vs as [|v fs tl IH]; intros k; cbn [first_match].
  - intros i (v & fs & H & _). discriminate.
  - destruct (matches (v_sel v) id) eqn:E.
    + exists 0. split; [lia|]. split; [exists v, fs; split; [reflexivity|exact E]|]. intros h Hh. lia.
    + assert (H0 : ~ matches_at (VCons v fs tl) id 0). { intros (v' & fs' & H & HM). cbn [nth_variant] in H. injection H as <- <-. congruence. }
      assert (HS : forall i, matches_at (VCons v fs tl) id (S i) <-> matches_at tl id i) by (intros i; reflexivity).
      specialize (IH (S k)). destruct (first_match tl id (S k)) as [j|].
      * destruct IH as (i & -> & HM & Hl). exists (S i). split; [lia|]. split; [now apply HS|]. intros [|h] Hh; [exact H0|]. rewrite HS. apply Hl. lia.
      * intros [|i]; [exact H0|]. rewrite HS. apply IH.
Qed.
Lemma first_default_spec vs : forall k,
  match first_default vs k with
  | Some j => exists i, j = k + i /\ default_at vs i /\ forall h, h < i -> ~ default_at vs h
  | None => forall i, ~ default_at vs i
  end.
Proof.
  induction vs as [|v fs tl IH]; intros k; cbn [first_default].
  - intros i (v & fs & H & _). discriminate.
  - destruct (v_default v) eqn:E.
    + exists 0. split; [lia|]. split; [exists v, fs; split; [reflexivity|exact E]|]. intros h Hh. lia.
    + assert (H0 : ~ default_at (VCons v fs tl) 0). { intros (v' & fs' & H & HM). cbn [nth_variant] in H. injection H as <- <-. congruence. }
      assert (HS : forall i, default_at (VCons v fs tl) (S i) <-> default_at tl i) by (intros i; reflexivity).
      specialize (IH (S k)). destruct (first_default tl (S k)) as [j|].
      * destruct IH as (i & -> & HM & Hl). exists (S i). split; [lia|]. split; [now apply HS|]. intros [|h] Hh; [exact H0|]. rewrite HS. apply Hl. lia.
      * intros [|i]; [exact H0|]. rewrite HS. apply IH.
Qed.
Lemma chosen_unique vs id j k : chosen vs id j -> chosen vs id k -> j = k.
Proof.
  intros [[M1 L1]|(N1 & D1 & L1)] [[M2 L2]|(N2 & D2 & L2)].
  - destruct (Nat.lt_total j k) as [H|[H|H]]; [|exact H|]; [destruct (L2 _ H M1)|destruct (L1 _ H M2)].
  - destruct (N2 _ M1).
  - destruct (N1 _ M2).
  - destruct (Nat.lt_total j k) as [H|[H|H]]; [|exact H|]; [destruct (L2 _ H D1)|destruct (L1 _ H D2)].
Qed.
Lemma selected_chosen vs id k : selected vs id = Some k <-> chosen vs id k.
Proof.
  assert (H : forall j, selected vs id = Some j -> chosen vs id j).
  { intros j. unfold selected. pose proof (first_match_spec vs id 0) as HM. destruct (first_match vs id 0) as [i|].
    - intros E. injection E as ->. destruct HM as (i & -> & HM). left. exact HM.
    - pose proof (first_default_spec vs 0) as HD. intros E. rewrite E in HD. destruct HD as (i & -> & HD). right. split; [exact HM|exact HD]. }
  split; [apply H|]. intros HC. destruct (selected vs id) as [j|] eqn:E.
  - f_equal. exact (chosen_unique _ _ _ _ (H j eq_refl) HC).
  - unfold selected in E. pose proof (first_match_spec vs id 0) as HM. destruct (first_match vs id 0) as [i|]; [discriminate|].
    pose proof (first_default_spec vs 0) as HD. rewrite E in HD. destruct HC as [[M _]|(_ & D & _)]; [destruct (HM _ M)|destruct (HD _ D)].
Qed.
Lemma selected_none vs id : selected vs id = None <-> forall k, ~ chosen vs id k.
Proof.
  split.
  - intros E k H. apply selected_chosen in H. congruence.
  - intros H. destruct (selected vs id) as [k|] eqn:E; [|reflexivity]. apply selected_chosen in E. destruct (H _ E).
Qed.

Section Read.
Variables (cu : nat -> custom) (fuel : nat).
Lemma nth_body_eq e ctx id vs j v fs : nth_variant vs j = Some (v, fs) ->
  nth_body cu fuel e ctx id vs j j = variant_body cu fuel e ctx id j v fs.
Proof. intros H. unfold nth_body. now rewrite H. Qed.
(** Reading the id: magic, then the id. *)
Definition id_reader (e : eattrs) (idt : ty) (args : list value) : RM value :=
  let* _ := read_magic (c_magic (en_c e)) in
  match en_id e with
  | Some f => ret (f (ctx_args (en_c e) args))
  | None => read_ty cu fuel idt None (id_args e (ctx_args (en_c e) args))
  end.
Theorem dispatch e idt vs args id r r1 : id_reader e idt args r = (Ok id, r1) ->
  (forall k v fs, chosen vs id k -> nth_variant vs k = Some (v, fs) ->
     read_ty cu fuel (TEnum e idt vs) None args r =
     (let* l := fields_read cu fuel (en_c e) (ctx_args (en_c e) args) fs (if stores_id e v then Some id else None) [] in ret (VVar k l)) r1) /\
  ((forall k, ~ chosen vs id k) -> read_ty cu fuel (TEnum e idt vs) None args r = (Err Parse, r1)).
Proof.
  intros H.
  assert (E : read_ty cu fuel (TEnum e idt vs) None args r = variants_read cu fuel e (ctx_args (en_c e) args) id vs 0 None r1).
  { rewrite read_enum. unfold id_reader in H. apply bind_inv in H. destruct H as ([] & r0 & E0 & E1). rewrite (bind_ok _ _ _ _ _ E0).
    erewrite bind_ok; [reflexivity|]. exact E1. }
  rewrite E, variants_read_selected. split.
  - intros k v fs HC HN. apply selected_chosen in HC. rewrite HC. rewrite (nth_body_eq _ _ _ _ _ _ _ HN). reflexivity.
  - intros HN. apply selected_none in HN. rewrite HN. reflexivity.
Qed.
Theorem dispatch_fails e idt vs args x r r1 : id_reader e idt args r = (Err x, r1) ->
  read_ty cu fuel (TEnum e idt vs) None args r = (Err x, r1).
Proof.
  intros H. rewrite read_enum. unfold id_reader in H. unfold bind in *. destruct (read_magic _ r) as [[[]|e0| |] r0]; try discriminate; [|congruence].
  destruct (en_id e) as [f|]; [discriminate|]. destruct (read_ty _ _ _ _ _ r0) as [[]]; try discriminate. congruence.
Qed.
(** The variant returned is the one chosen. *)
Theorem dispatch_inv e idt vs args k l r r' : read_ty cu fuel (TEnum e idt vs) None args r = (Ok (VVar k l), r') ->
  exists id r1, id_reader e idt args r = (Ok id, r1) /\ chosen vs id k.
Proof.
  intros H. destruct (id_reader e idt args r) as [x r1] eqn:E.
  assert (HX : exists id, x = Ok id).
  { rewrite read_enum in H. unfold id_reader in E. apply bind_inv in H. destruct H as ([] & r0 & E0 & E1). rewrite (bind_ok _ _ _ _ _ E0) in E.
    apply bind_inv in E1. destruct E1 as (id & r2 & E1 & _). exists id.
    assert (EE : (Ok id, r2) = (x, r1)) by (rewrite <- E; symmetry; exact E1). apply pair_inj in EE. now symmetry. }
  destruct HX as (id & ->). exists id, r1. split; [reflexivity|]. destruct (dispatch e idt vs args id r r1 E) as [D1 D2].
  destruct (selected vs id) as [j|] eqn:S.
  - apply selected_chosen in S. assert (HN : exists v fs, nth_variant vs j = Some (v, fs)).
    { destruct S as [[(v & fs & HN & _) _]|(_ & (v & fs & HN & _) & _)]; eauto. }
    destruct HN as (v & fs & HN). rewrite (D1 _ _ _ S HN) in H. apply bind_inv in H. destruct H as (l' & r2 & _ & E2). apply pair_inj in E2. destruct E2 as [E2 _].
    apply ok_inj in E2. injection E2 as -> _. exact S.
  - rewrite (D2 (proj1 (selected_none _ _) S)) in H. discriminate.
Qed.

(** ** Magic *)

Theorem magic_read m r r' : read_magic m r = (Ok tt, r') <-> back_to_back (prim_read PU8 C0) r (map Byte.to_N m) r'.
Proof.
  revert r. induction m as [|b m IH]; intros r; cbn [read_magic map].
  - split; [intros H; apply pair_inj in H; destruct H as [_ <-]; constructor|]. intros H. inversion H. reflexivity.
  - split.
    + intros H. apply bind_inv in H. destruct H as (x & r1 & E1 & E2). destruct (N.eqb_spec x (Byte.to_N b)) as [->|]; [|discriminate].
      econstructor; [exact E1|]. now apply IH.
    + intros H. inversion H as [|r0 v r1 vs r2 E1 E2]; subst. rewrite (bind_ok _ _ _ _ _ E1), N.eqb_refl. now apply IH.
Qed.
(** Another byte: [Parse]. *)
Theorem magic_mismatch pre b m x r r1 r2 : back_to_back (prim_read PU8 C0) r (map Byte.to_N pre) r1 -> prim_read PU8 C0 r1 = (Ok x, r2) -> x <> Byte.to_N b ->
  read_magic (pre ++ b :: m) r = (Err Parse, r2).
Proof.
  revert r. induction pre as [|c pre IH]; intros r HB E Hx; cbn [app read_magic map] in *.
  - inversion HB; subst. rewrite (bind_ok _ _ _ _ _ E). destruct (N.eqb_spec x (Byte.to_N b)); [contradiction|reflexivity].
  - inversion HB as [|r0 v r3 vs r4 E1 E2]; subst. rewrite (bind_ok _ _ _ _ _ E1), N.eqb_refl. now apply IH.
Qed.
Theorem magic_short pre b m e r r1 r2 : back_to_back (prim_read PU8 C0) r (map Byte.to_N pre) r1 -> prim_read PU8 C0 r1 = (Err e, r2) ->
  read_magic (pre ++ b :: m) r = (Err e, r2).
Proof.
  revert r. induction pre as [|c pre IH]; intros r HB E; cbn [app read_magic map] in *.
  - inversion HB; subst. now rewrite (bind_err _ _ _ _ _ E).
  - inversion HB as [|r0 v r3 vs r4 E1 E2]; subst. rewrite (bind_ok _ _ _ _ _ E1), N.eqb_refl. now apply IH.
Qed.
Lemma nth_error_skipn0 {A} n (l : list A) : nth_error (skipn n l) 0 = nth_error l n.
Proof. revert l. induction n as [|n IH]; intros [|x l]; try reflexivity. apply IH. Qed.
Lemma byte_reads data pos r x r' : r_left r = None -> (forall j, s_fault (r_s r) j = None) -> s_data (r_s r) = data -> s_pos (r_s r) = pos ->
  prim_read PU8 C0 r = (Ok x, r') -> exists b, nth_error data pos = Some b /\ x = Byte.to_N b /\
    r_left r' = None /\ (forall j, s_fault (r_s r') j = None) /\ s_data (r_s r') = data /\ s_pos (r_s r') = S pos.
Proof.
  intros HL HF HD HP E. cbn [prim_read] in E. unfold read_e, read_bytes_const, read_bytes, bind in E. rewrite HL in E. cbn [prim_bytes Nat.ltb Nat.leb] in E.
  unfold r_io, s_read_exact in E. rewrite HF in E. unfold s_avail in E. rewrite HD, HP in E.
  destruct (Nat.leb_spec 1 (length (skipn pos data))) as [H1|H1].
  2:{ destruct (s_eat _); discriminate. }
  apply pair_inj in E. destruct E as [E1 E2]. apply ok_inj in E1.
  destruct (skipn pos data) as [|b tl] eqn:ES; [cbn in H1; lia|]. exists b.
  split. { rewrite <- (firstn_skipn pos data), ES. apply (f_equal (@length byte)) in ES. rewrite skipn_length in ES. cbn [length] in ES.
    rewrite nth_error_app2; rewrite firstn_length; [|lia]. replace (pos - Nat.min pos (length data)) with 0 by lia. reflexivity. }
  split. { rewrite <- E1. cbn [firstn from_e]. unfold from_le. cbn [rev app]. unfold from_be. cbn [bits_of_bytes flat_map]. rewrite app_nil_r. symmetry. apply byte_to_N_bits. }
  subst r'. cbn. rewrite ?Nat.add_1_r. repeat split; assumption.
Qed.
Lemma bytes_read data vs : forall pos r r', r_left r = None -> (forall j, s_fault (r_s r) j = None) -> s_data (r_s r) = data -> s_pos (r_s r) = pos ->
  back_to_back (prim_read PU8 C0) r (map Byte.to_N vs) r' -> firstn (length vs) (skipn pos data) = vs.
Proof.
  induction vs as [|b vs IH]; intros pos r r' HL HF HD HP H; cbn [map length firstn] in *; [reflexivity|].
  inversion H as [|r0 v r1 vs' r2 E1 E2]; subst. destruct (byte_reads _ _ _ _ _ HL HF eq_refl eq_refl E1) as (c & HN & HB & HL' & HF' & HD' & HP').
  assert (c = b). { apply (f_equal Byte.of_N) in HB. rewrite !Byte.of_to_N in HB. congruence. } subst c.
  specialize (IH _ r1 r' HL' HF' HD' HP' E2). destruct (skipn (s_pos (r_s r)) (s_data (r_s r))) as [|c tl] eqn:ES.
  - apply (f_equal (@length byte)) in ES. rewrite skipn_length in ES. cbn [length] in ES. assert (nth_error (s_data (r_s r)) (s_pos (r_s r)) = None) by (apply nth_error_None; lia). congruence.
  - assert (HC : nth_error (skipn (s_pos (r_s r)) (s_data (r_s r))) 0 = Some b) by (rewrite <- HN; apply nth_error_skipn0).
    rewrite ES in HC. cbn in HC. injection HC as ->. f_equal. rewrite <- IH at 2. f_equal.
    change tl with (skipn 1 (b :: tl)). rewrite <- ES, skipn_skipn. f_equal. lia.
Qed.
Theorem magic_required c fs input v rest off : c_seek c = None ->
  from_bytes cu fuel (TStruct c fs) input 0 = Ok ((rest, off), v) -> firstn (length (c_magic c)) input = c_magic c.
Proof.
  intros Hs H. unfold from_bytes, from_reader in H. cbn [Nat.eqb] in H.
  destruct (bind (ret tt) _ (reader_new (cursor input))) as [x r] eqn:E. destruct x as [[b y]|e| |]; try discriminate.
  apply bind_inv in E. destruct E as ([] & r0 & E0 & E1). apply pair_inj in E0. destruct E0 as [_ <-].
  apply bind_inv in E1. destruct E1 as (v1 & r1 & E1 & _). rewrite read_struct, Hs in E1. cbn [option_map read_seek] in E1.
  apply bind_inv in E1. destruct E1 as ([] & r2 & E2 & E3). apply pair_inj in E2. destruct E2 as [_ <-].
  apply bind_inv in E3. destruct E3 as ([] & r3 & E3 & _). apply magic_read in E3.
  exact (bytes_read input (c_magic c) 0 (reader_new (cursor input)) r3 eq_refl (fun _ => eq_refl) eq_refl eq_refl E3).
Qed.
Theorem magic_required_enum e idt vs input v rest off :
  from_bytes cu fuel (TEnum e idt vs) input 0 = Ok ((rest, off), v) -> firstn (length (c_magic (en_c e))) input = c_magic (en_c e).
Proof.
  intros H. unfold from_bytes, from_reader in H. cbn [Nat.eqb] in H.
  destruct (bind (ret tt) _ (reader_new (cursor input))) as [x r] eqn:E. destruct x as [[b y]|x| |]; try discriminate.
  apply bind_inv in E. destruct E as ([] & r0 & E0 & E1). apply pair_inj in E0. destruct E0 as [_ <-].
  apply bind_inv in E1. destruct E1 as (v1 & r1 & E1 & _). rewrite read_enum in E1.
  apply bind_inv in E1. destruct E1 as ([] & r3 & E3 & _). apply magic_read in E3.
  exact (bytes_read input (c_magic (en_c e)) 0 (reader_new (cursor input)) r3 eq_refl (fun _ => eq_refl) eq_refl eq_refl E3).
Qed.
End Read.

(** ** Assertions *)

Lemma asserts_inv {S} a ctx fs off v (s : S) x s' : asserts a ctx fs off v s = (Ok x, s') -> assertions a ctx fs off v = true /\ s' = s.
Proof.
  unfold asserts, assertions, check, bind. destruct (a_assert a) as [f|].
  - destruct (f ctx (fs ++ [v]) off); [|discriminate]. destruct (a_assert_eq a) as [g|].
    + cbn [ret]. destruct (value_eqb v (g ctx fs off)); intros H; [|discriminate]. apply pair_inj in H. destruct H as [_ <-]. split; reflexivity.
    + intros H. apply pair_inj in H. destruct H as [_ <-]. split; reflexivity.
  - cbn [ret]. destruct (a_assert_eq a) as [g|].
    + destruct (value_eqb v (g ctx fs off)); intros H; [|discriminate]. apply pair_inj in H. destruct H as [_ <-]. split; reflexivity.
    + intros H. apply pair_inj in H. destruct H as [_ <-]. split; reflexivity.
Qed.
Theorem read_field_asserts c a u ctx fs rd r v r' : read_field c a u ctx fs rd r = (Ok v, r') -> exists off, assertions a ctx fs off v = true.
Proof.
  unfold read_field. intros H. apply bind_inv in H. destruct H as ([] & r1 & _ & H). apply bind_inv in H. destruct H as ([] & r2 & _ & H).
  apply bind_inv in H. destruct H as ([] & r3 & _ & H). apply bind_inv in H. destruct H as (x & r4 & _ & H).
  apply bind_inv in H. destruct H as ([] & r5 & HA & H). apply bind_inv in H. destruct H as ([] & r6 & _ & H).
  apply pair_inj in H. destruct H as [H _]. apply ok_inj in H. subst x. apply asserts_inv in HA. eexists. exact (proj1 HA).
Qed.
Theorem write_field_asserts c a st ctx fs v wr w x w' : write_field c a st ctx fs v wr w = (Ok x, w') -> exists off, assertions a ctx fs off v = true.
Proof.
  unfold write_field. intros H. apply bind_inv in H. destruct H as ([] & r1 & _ & H). apply bind_inv in H. destruct H as ([] & r2 & _ & H).
  apply bind_inv in H. destruct H as ([] & r3 & _ & H). apply bind_inv in H. destruct H as ([] & r4 & HA & H).
  apply asserts_inv in HA. eexists. exact (proj1 HA).
Qed.
Theorem fields_read_asserts cu fuel c ctx fs : forall acc r l r', fields_read cu fuel c ctx fs None acc r = (Ok l, r') -> asserted ctx fs acc l.
Proof.
  induction fs as [|a t wire tl IH]; intros acc r l r' H.
  - apply pair_inj in H. destruct H as [H _]. apply ok_inj in H. subst l. constructor.
  - rewrite read_cons in H. apply bind_inv in H. destruct H as (v & r1 & E1 & H). apply bind_inv in H. destruct H as (vs & r2 & E2 & H).
    apply pair_inj in H. destruct H as [H _]. apply ok_inj in H. subst l. apply read_field_asserts in E1. destruct E1 as (off & E1).
    econstructor; [exact E1|]. eapply IH. exact E2.
Qed.
Theorem fields_write_asserts cu c ctx fs : forall st todo acc w x w', length todo = stored_count fs ->
  fields_write cu c ctx fs None st todo acc w = (Ok x, w') -> asserted ctx fs acc todo.
Proof.
  induction fs as [|a t wire tl IH]; intros st todo acc w x w' HC H; cbn [stored_count] in HC.
  - destruct todo; [constructor|discriminate].
  - rewrite write_cons in H. apply bind_inv in H. destruct H as ([] & w1 & E1 & H). apply write_field_asserts in E1. destruct E1 as (off & E1).
    unfold field_value, field_rest in *. destruct (a_temp a) eqn:ET.
    + assert (HA := IH _ _ _ _ _ _ HC H). pose proof (as_cons ctx a t wire tl acc _ todo off E1 HA) as HX. rewrite ET in HX. exact HX.
    + destruct todo as [|v todo]; [discriminate|]. cbn [hd List.tl length] in *.
      assert (HA := IH st todo (acc ++ [v]) w1 x w' ltac:(lia) H). pose proof (as_cons ctx a t wire tl acc v todo off E1 HA) as HX. rewrite ET in HX. exact HX.
Qed.

(** ** Padding *)

Theorem padding_written o n pos : (N.of_nat n <= usize_max)%N -> emits_at o pos (write_pad (Some (Z.of_nat n)) (Some o)) (repeat false n).
Proof.
  intros H. apply (encode_pad_sound SeekSource o pos (Some (Z.of_nat n)) (Some o)). unfold encode_pad, guard, seekable.
  replace (order_eqb o o) with true by (destruct o; reflexivity). rewrite Nat2Z.id.
  replace ((0 <=? Z.of_nat n)%Z && (Z.of_nat n <=? Z.of_N usize_max)%Z) with true by lia. reflexivity.
Qed.
Theorem padding_skipped src o junk pos : (N.of_nat (length junk) <= usize_max)%N -> src = SeekSource \/ length junk < 8 ->
  reads_at src o pos (read_pad (Some (Z.of_nat (length junk))) (Some o)) junk tt.
Proof.
  intros H Hs. unfold read_pad, to_usize. replace ((Z.of_nat (length junk) <? 0)%Z || (Z.of_N usize_max <? Z.of_nat (length junk))%Z) with false by lia.
  replace (N.to_nat (Z.to_N (Z.of_nat (length junk)))) with (length junk) by lia. exact (reads_at_skip src o pos junk Hs).
Qed.
Theorem magic_written o m pos : o = Msb0 \/ pos mod 8 = 0 -> emits_at o pos (write_magic m) (bitstring o m).
Proof.
  intros H. apply write_magic_bytes. destruct m as [|b m]; [reflexivity|]. cbn [encode_magic]. unfold encode_bytes, aligned, guard.
  destruct H as [-> | ->]; [reflexivity|]. rewrite orb_true_r. reflexivity.
Qed.

Theorem struct_read_asserts cu fuel c fs args l r r' : read_ty cu fuel (TStruct c fs) None args r = (Ok (VRec l), r') ->
  asserted (ctx_args c args) fs [] l.
Proof.
  rewrite read_struct. intros H. apply bind_inv in H. destruct H as ([] & r1 & _ & H). apply bind_inv in H. destruct H as ([] & r2 & _ & H).
  apply bind_inv in H. destruct H as (l' & r3 & E & H). apply pair_inj in H. destruct H as [H _]. apply ok_inj in H. injection H as ->.
  eapply fields_read_asserts. exact E.
Qed.
Theorem struct_write_asserts cu c fs args l w x w' : length l = stored_count fs ->
  write_ty cu (TStruct c fs) args (VRec l) w = (Ok x, w') -> asserted (ctx_args c args) fs [] l.
Proof.
  intros HL. rewrite write_struct. intros H. apply bind_inv in H. destruct H as ([] & w1 & _ & H). apply bind_inv in H. destruct H as ([] & w2 & _ & H).
  eapply fields_write_asserts; eassumption.
Qed.
Theorem enum_read_asserts cu fuel e idt vs args k l r r' v fs : read_ty cu fuel (TEnum e idt vs) None args r = (Ok (VVar k l), r') ->
  nth_variant vs k = Some (v, fs) ->
  if stores_id e v then
    match fs with
    | FNil => l = []
    | FCons a _ _ tl => a_reader a = None -> a_temp a = false -> exists id l', l = id :: l' /\ asserted (ctx_args (en_c e) args) tl [id] l'
    end
  else asserted (ctx_args (en_c e) args) fs [] l.
Proof.
  intros H HN. destruct (dispatch_inv _ _ _ _ _ _ _ _ _ _ H) as (id & r1 & EI & HC).
  rewrite (proj1 (dispatch _ _ _ _ _ _ _ _ _ EI) _ _ _ HC HN) in H. apply bind_inv in H. destruct H as (l' & r2 & E & H).
  apply pair_inj in H. destruct H as [H _]. apply ok_inj in H. injection H as ->.
  destruct (stores_id e v); [|eapply fields_read_asserts; exact E]. destruct fs as [|a t wire tl].
  - apply pair_inj in E. destruct E as [E _]. now apply ok_inj in E.
  - intros Hr Ht. rewrite read_cons, Hr in E. apply bind_inv in E. destruct E as (x & r3 & E1 & E). apply pair_inj in E1. destruct E1 as [E1 _].
    apply ok_inj in E1. subst x. apply bind_inv in E. destruct E as (l' & r4 & E2 & E). apply pair_inj in E. destruct E as [E _]. apply ok_inj in E.
    rewrite Ht in E. exists id, l'. split; [now symmetry|]. eapply fields_read_asserts. exact E2.
Qed.
Lemma variant_write_nth cu e ctx wid vs : forall k l w v fs, nth_variant vs k = Some (v, fs) ->
  variant_write cu e ctx wid vs k l w =
  (let* _ := write_id e v fs ctx wid in
   fields_write cu (en_c e) ctx fs (match v_sel v with SPat _ _ => Some (stored_id_args e ctx) | _ => None end) l l []) w.
Proof.
  induction vs as [|v0 fs0 tl IH]; intros [|k] l w v fs H; cbn [nth_variant] in H; try discriminate.
  - injection H as <- <-. now rewrite write_variant_0.
  - apply (IH k l w v fs H).
Qed.
Theorem enum_write_asserts cu e idt vs args k l w x w' v fs : write_ty cu (TEnum e idt vs) args (VVar k l) w = (Ok x, w') ->
  nth_variant vs k = Some (v, fs) -> length l = stored_count fs ->
  match v_sel v with
  | SPat _ _ =>
      match fs, l with
      | FCons a _ _ tl, id :: l' => a_temp a = false -> asserted (ctx_args (en_c e) args) tl [id] l'
      | _, _ => True
      end
  | _ => asserted (ctx_args (en_c e) args) fs [] l
  end.
Proof.
  intros H HN HL. rewrite write_enum in H. apply bind_inv in H. destruct H as ([] & w1 & _ & H). rewrite (variant_write_nth _ _ _ _ _ _ _ _ _ _ HN) in H.
  apply bind_inv in H. destruct H as ([] & w2 & _ & H). destruct (v_sel v) as [y|p d|y]; try (eapply fields_write_asserts; eassumption).
  destruct fs as [|a t wire tl]; [exact I|]. destruct l as [|id l']; [exact I|]. intros Ht. rewrite write_cons in H. apply bind_inv in H. destruct H as ([] & w3 & _ & H).
  unfold field_value, field_rest in H. cbn [stored_count] in HL. rewrite Ht in *. cbn [hd List.tl app length] in *.
  eapply fields_write_asserts; [|exact H]. lia.
Qed.
