(** Proofs about plain declarations: the theorems. *)
From Coq Require Import Lia ZifyBool ZifyNat ZifyN.
From Verif Require Import Base Spec Stream Reader Session Writer WSession Prims BitsFacts MonadFacts CodecSpec CodecFacts Containers Derive DeriveSpec DeriveFacts DeriveSound DeriveProps SafeSpec DeriveSafe WSafeSpec WSafeDerive CanonSpec CanonFacts CanonDerive CanonProps MoreSpec NeedSpec NeedFacts Decl PlainSpec PlainFacts PlainSafe PlainRead.
Ltac Zify.zify_post_hook ::= Z.div_mod_to_equations.

(** ** The declarations are accepted *)

Lemma members_fields fs : fields_of (plain_members fs) = cfields fs.
Proof. induction fs as [|a t tl IH]; [reflexivity|]. cbn [plain_members fields_of cfields m_attrs m_default m_ty m_wire]. now rewrite IH. Qed.
Lemma members_ok fs : members_valid true (plain_members fs) = true.
Proof.
  induction fs as [|a t tl IH]; [reflexivity|]. unfold members_valid in *. cbn [plain_members forallb m_attrs]. rewrite IH, Bool.andb_true_r.
  destruct a as [e [b|] [] m p q]; reflexivity.
Qed.
Lemma variants_members c hd vs : variants_of c hd (variant_members vs) = Some (cvariants vs).
Proof.
  induction vs as [|id fs tl IH]; [reflexivity|]. cbn [variant_members variants_of selector_of variant_decl v_id default_of v_is_default]. rewrite IH, members_fields. reflexivity.
Qed.
Lemma write_variants_members c hd vs : write_variants_of c hd (variant_members vs) = cvariants vs.
Proof.
  induction vs as [|id fs tl IH]; [reflexivity|]. cbn [variant_members write_variants_of selector_of variant_decl v_id default_of v_is_default]. rewrite IH, members_fields. reflexivity.
Qed.
Lemma variant_members_all (P : vdecl * list member -> bool) vs : (forall id fs, P (variant_decl id, plain_members fs) = true) -> forallb P (variant_members vs) = true.
Proof. intros H. induction vs as [|id fs tl IH]; [reflexivity|]. cbn [variant_members forallb]. now rewrite H, IH. Qed.
Lemma no_defaults vs : list_sum (map (fun p => b2n (default_of (fst p))) (variant_members vs)) = 0.
Proof. induction vs as [|id fs tl IH]; [reflexivity|]. exact IH. Qed.
Theorem declared t d tr : declaration t = Some d -> derive tr true d = Some (ctype t).
Proof.
  destruct t as [p| |n t|m fs|m p e b vs|p|s t|]; try discriminate; intros E; injection E as <-; unfold derive.
  - rewrite members_ok, members_fields. reflexivity.
  - rewrite (variant_members_all _ vs) by (intros; cbn [fst snd]; now rewrite members_ok).
    assert (C : container_valid true true (enum_decl m p e b) = true) by (destruct b; reflexivity). rewrite C. cbn [andb k_id_type enum_decl].
    destruct tr.
    + rewrite (variant_members_all _ vs) by reflexivity. rewrite no_defaults. cbn [andb Nat.leb]. now rewrite variants_members.
    + rewrite (variant_members_all _ vs) by reflexivity. now rewrite write_variants_members.
Qed.

(** ** Writing and reading back *)

Section Plain.
Variable cu : nat -> custom.

Lemma no_format_lawful src o : customs_lawful src o cu no_format.
Proof. discriminate. Qed.
Lemma plain_wire t v : plain_type t = true -> value_fits None t v = true -> encode SeekSource Msb0 no_format (ctype t) None [] 0 v = Some (wire None None t v).
Proof.
  unfold plain_type. intros P F. apply orb_prop in P. destruct P as [P|P].
  - exact (proj1 (proj1 (plain_encode no_format true) t None None P v 0 F (fun _ => eq_refl))).
  - exact (proj1 (proj1 (plain_encode no_format false) t None None P v 0 F (fun _ => eq_refl))).
Qed.
Theorem format t v : plain_type t = true -> value_fits None t v = true ->
  to_bits cu (ctype t) v = Ok (wire None None t v) /\
  exists bytes pad, to_bytes cu (ctype t) v = Ok bytes /\ bits_of_bytes bytes = wire None None t v ++ repeat false pad /\ pad < 8.
Proof.
  intros P F. destruct (encode_sound SeekSource Msb0 cu no_format 0 (lawful_upto _ _ _ _ _ (no_format_lawful _ _)) _ _ _ _ _ _ (plain_wire t v P F)) as [HW _].
  split; [exact (emits_at_bits _ _ HW)|]. destruct (emits_at_out Msb0 _ _ HW) as (bytes & pad & E & HB & Hp). rewrite bitstring_msb in HB. exists bytes, pad. auto.
Qed.
Theorem read_back fuel t v input s : plain_type t = true -> value_fits None t v = true -> bits_of_bytes input = wire None None t v ++ s ->
  length (wire None None t v) <= fuel ->
  from_bytes cu fuel (ctype t) input 0 = Ok ((skipn (length (wire None None t v) / 8) input, length (wire None None t v) mod 8), v).
Proof.
  intros P F E Hf.
  exact (from_bytes_at cu fuel Msb0 no_format (ctype t) input 0 [] (wire None None t v) s v (lawful_upto _ _ _ _ _ (no_format_lawful _ _)) (plain_wire t v P F) Hf
    eq_refl (or_introl eq_refl) (eq_trans (bitstring_msb input) E)).
Qed.
Theorem prefix_free t v v' s s' : plain_type t = true -> value_fits None t v = true -> value_fits None t v' = true ->
  wire None None t v ++ s = wire None None t v' ++ s' -> v = v' /\ s = s'.
Proof.
  intros P F F' E. set (bits := wire None None t v ++ s) in *. set (z := repeat false (8 - length bits mod 8)).
  assert (B : bits_of_bytes (bytes_of_bits (bits ++ z)) = bits ++ z).
  { apply bits_bytes_of_bits. unfold z. rewrite app_length, repeat_length. lia. }
  assert (E1 := read_back (length bits) t v (bytes_of_bits (bits ++ z)) (s ++ z) P F).
  assert (E2 := read_back (length bits) t v' (bytes_of_bits (bits ++ z)) (s' ++ z) P F').
  rewrite E1, B in E2.
  - assert (X : Ok (skipn (length (wire None None t v) / 8) (bytes_of_bits (bits ++ z)), length (wire None None t v) mod 8, v) =
      Ok (skipn (length (wire None None t v') / 8) (bytes_of_bits (bits ++ z)), length (wire None None t v') mod 8, v')).
    { apply E2; [now rewrite E, <- app_assoc|]. rewrite E, app_length. lia. }
    apply ok_inj, pair_inj in X. destruct X as [_ <-]. split; [reflexivity|]. unfold bits in E. now apply app_inv_head in E.
  - rewrite B. unfold bits. now rewrite <- app_assoc.
  - unfold bits. rewrite app_length. lia.
Qed.

(** ** Reading anything *)

Lemma plain_safe_type t : plain_type t = true -> safe_type cu (ctype t).
Proof.
  unfold plain_type. intros P. apply orb_prop in P. destruct P as [P|P].
  - exists true. exact (proj1 (plain_safe cu true) t None None true P).
  - exists false. exact (proj1 (plain_safe cu false) t None None true P).
Qed.
Lemma reads_fitting fuel t s bit : plain_type t = true -> (forall j, s_fault s j = None) -> s_pos s <= length (s_data s) -> bit < 8 -> 8 * length (s_data s) + 8 < fuel ->
  forall n v, fst (from_reader cu fuel (ctype t) s bit) = Ok (n, v) -> value_fits None t v = true.
Proof.
  intros P Hq Hp Hb Hf.
  assert (G : forall whole, plain_in whole t None None = true -> forall n v, fst (from_reader cu fuel (ctype t) s bit) = Ok (n, v) -> value_fits None t v = true).
  { clear P. intros whole P n v. unfold from_reader.
    assert (H : runs fuel whole false false (fun nv : nat * value => value_fits None t (snd nv) = true)
      (let* _ := if bit =? 0 then ret tt else skip_bits bit Msb0 in let* v := read_ty cu fuel (ctype t) None [] in fun r => (Ok (r_bits r, v), r))).
    { eapply runs_bindr with (g1 := fun _ => True).
      - destruct (bit =? 0); [now apply runs_ret|]. apply runs_skip. auto.
      - intros _ _. eapply runs_bindr; [exact (proj1 (plain_reads cu fuel whole) t None None P)|].
        intros x Hx r y r' Hpl _ E. apply pair_inj in E. destruct E as [<- <-]. split; [discriminate|]. split; [discriminate|].
        intros nv E. apply ok_inj in E. subst nv. split; [exact Hx|]. split; [exact Hpl|]. split; [reflexivity|]. intros _. lia. }
    match goal with |- context [(?m (reader_new s))] => destruct (m (reader_new s)) as [x r'] eqn:E end. cbn [fst]. intros ->.
    destruct (H (reader_new s) (Ok (n, v)) r' (place_new whole s Hq (fun _ => Hp)) Hf E) as (_ & _ & K). exact (proj1 (K _ eq_refl)). }
  unfold plain_type in P. apply orb_prop in P. destruct P as [P|P]; exact (G _ P).
Qed.
Theorem reads_anything fuel t input bit : plain_type t = true -> bit < 8 -> 8 * length input + 8 < fuel ->
  (exists rest off v, from_bytes cu fuel (ctype t) input bit = Ok ((rest, off), v) /\ value_fits None t v = true) \/
  (exists e, from_bytes cu fuel (ctype t) input bit = Err e).
Proof.
  intros P Hb Hf. destruct (safe_from_bytes cu fuel (ctype t) input bit (plain_safe_type t P) Hb Hf) as (H1 & H2 & _).
  pose proof (reads_fitting fuel t (cursor input) bit P (fun _ => eq_refl) (Nat.le_0_l _) Hb Hf) as H3.
  unfold from_bytes in *. destruct (from_reader cu fuel (ctype t) (cursor input) bit) as [[[n v]|e| |] s]; cbn [fst] in H3; try congruence; [|right; eauto].
  destruct (n / 8 <=? length input); [|right; eauto]. left. exists (skipn (n / 8) input), (n mod 8), v. split; [reflexivity|]. exact (H3 n v eq_refl).
Qed.
Theorem reads_source fuel t s bit : plain_type t = true -> (forall j, s_fault s j = None) -> s_pos s <= length (s_data s) -> bit < 8 -> 8 * length (s_data s) + 8 < fuel ->
  (exists n v, fst (from_reader cu fuel (ctype t) s bit) = Ok (n, v) /\ value_fits None t v = true) \/
  (exists e, fst (from_reader cu fuel (ctype t) s bit) = Err e).
Proof.
  intros P Hq Hp Hb Hf. destruct (safe_from_reader cu fuel (ctype t) s bit (plain_safe_type t P) Hq Hp Hb Hf) as (H1 & H2 & _).
  pose proof (reads_fitting fuel t s bit P Hq Hp Hb Hf) as H3. destruct (fst (from_reader cu fuel (ctype t) s bit)) as [[n v]|e| |]; try congruence; eauto 6.
Qed.

(** ** Without padding: exactly the format *)

Lemma plain_rewritable_at t : plain_type t = true -> unpadded t = true -> exists q, rewritable cu Msb0 (SeekSource, Some 0) q (ctype t) None [].
Proof.
  unfold plain_type. intros P U. assert (S0 : forall w, starts w (SeekSource, Some 0)) by (intros w; split; reflexivity).
  apply orb_prop in P. destruct P as [P|P].
  - exists (sp true). exact (proj1 (plain_rewritable cu true) t None None _ P U (S0 true)).
  - exists (sp false). exact (proj1 (plain_rewritable cu false) t None None _ P U (S0 false)).
Qed.
Theorem read_exactly fuel t input rest off v : plain_type t = true -> unpadded t = true -> 8 * length input + 8 < fuel ->
  (from_bytes cu fuel (ctype t) input 0 = Ok ((rest, off), v) <->
   value_fits None t v = true /\ let w := wire None None t v in
   (exists s, bits_of_bytes input = w ++ s) /\ rest = skipn (length w / 8) input /\ off = length w mod 8).
Proof.
  intros P U Hf. cbv zeta. split.
  - intros E. assert (F : value_fits None t v = true).
    { destruct (reads_anything fuel t input 0 P ltac:(lia) Hf) as [(rest' & off' & v' & E' & F)|(e & E')]; rewrite E in E'; [|discriminate].
      apply ok_inj, pair_inj in E'. now destruct E' as [_ <-]. }
    split; [exact F|]. destruct (plain_rewritable_at t P U) as [q Hq]. pose proof E as E0.
    unfold from_bytes, from_reader in E. cbn [Nat.eqb] in E. rewrite bind_ret_l in E.
    destruct (bind _ _ _) as [[[b x]|e| |] r'] eqn:E1 in E; try discriminate. apply bind_inv in E1. destruct E1 as (v1 & r1 & E1 & E2).
    apply pair_inj in E2. destruct E2 as [E2 _]. apply ok_inj, pair_inj in E2. destruct E2 as [<- <-].
    destruct (_ <=? _) in E; [|discriminate]. apply ok_inj, pair_inj in E. destruct E as [_ ->].
    assert (Hh : here (SeekSource, Some 0) (reader_new (cursor input))).
    { split; [apply readable_new|]. split; [reflexivity|]. intros k [= <-]. reflexivity. }
    destruct (reread_middle cu Msb0 fuel _ _ _ _ _ _ _ _ Hq Hh E1) as (_ & _ & enc & UU & _ & W).
    change (unread_string Msb0 (seen (reader_new (cursor input)))) with (bitstring Msb0 input) in UU. rewrite bitstring_msb in UU.
    apply emits_at_bits in W. destruct (format t v P F) as [W' _]. unfold to_bits in W'. rewrite W in W'. apply ok_inj in W'. subst enc.
    assert (HL : length (wire None None t v) <= fuel).
    { apply (f_equal (@length bool)) in UU. rewrite app_length, bits_of_bytes_length in UU. lia. }
    rewrite (read_back fuel t v input _ P F UU HL) in E0. apply ok_inj, pair_inj in E0. destruct E0 as [E0 _]. apply pair_inj in E0. destruct E0 as [<- <-].
    split; [eexists; exact UU|]. split; reflexivity.
  - intros (F & (s & E) & -> & ->). apply (read_back fuel t v input s P F E).
    apply (f_equal (@length bool)) in E. rewrite app_length, bits_of_bytes_length in E. lia.
Qed.
Theorem try_exactly fuel t input v : plain_type t = true -> unpadded t = true -> 8 * length input + 8 < fuel ->
  (try_from cu fuel (ctype t) input = Ok v <-> value_fits None t v = true /\ bits_of_bytes input = wire None None t v).
Proof.
  intros P U Hf. rewrite try_from_ok. split.
  - intros (off & E). apply (read_exactly fuel t input [] off v P U Hf) in E. cbv zeta in E. destruct E as (F & (s & E) & R & _). split; [exact F|].
    assert (s = []); [|subst s; now rewrite app_nil_r in E]. apply length_zero_iff_nil.
    apply (f_equal (@length bool)) in E. rewrite app_length, bits_of_bytes_length in E. apply (f_equal (@length byte)) in R. rewrite skipn_length in R. cbn [length] in R. lia.
  - intros [F E]. exists 0. apply (read_exactly fuel t input [] 0 v P U Hf). cbv zeta. split; [exact F|].
    assert (L := f_equal (@length bool) E). rewrite bits_of_bytes_length in L.
    split; [exists []; now rewrite app_nil_r|]. split; [symmetry; apply skipn_all2; lia|lia].
Qed.
Theorem reads_or_rejects fuel t input : plain_type t = true -> unpadded t = true -> 8 * length input + 8 < fuel ->
  ((exists v s, value_fits None t v = true /\ bits_of_bytes input = wire None None t v ++ s) <-> forall e, from_bytes cu fuel (ctype t) input 0 <> Err e).
Proof.
  intros P U Hf. split.
  - intros (v & s & F & E) e X. rewrite (read_back fuel t v input s P F E) in X; [discriminate|].
    apply (f_equal (@length bool)) in E. rewrite app_length, bits_of_bytes_length in E. lia.
  - intros H. destruct (reads_anything fuel t input 0 P ltac:(lia) Hf) as [(rest & off & v & E & F)|(e & E)]; [|now destruct (H e)].
    apply (read_exactly fuel t input rest off v P U Hf) in E. cbv zeta in E. destruct E as (_ & (s & E) & _). eauto.
Qed.

(** ** Writing any value of the type, and input in pieces *)

Theorem writes_anything t v : plain_type t = true -> typed (ctype t) v ->
  (exists b, to_bytes cu (ctype t) v = Ok b) \/ to_bytes cu (ctype t) v = Err InvalidParam \/ to_bytes cu (ctype t) v = Err Assertion.
Proof.
  intros P T. apply wsafe_errors; [|exact T]. unfold plain_type in P. apply orb_prop in P. destruct P as [P|P].
  - exact (proj1 (plain_wsafe cu true true) t None None P).
  - exact (proj1 (plain_wsafe cu false true) t None None P).
Qed.
Theorem receives fuel t all have : plain_type t = true -> 8 * length all + 8 < fuel ->
  receive (length all) cu fuel (ctype t) all have = res_map (from_bytes cu fuel (ctype t) all 0) snd.
Proof.
  intros P Hf. apply receive_all; [now apply FlowFacts.safe_flow, plain_safe_type| | |exact Hf].
  - intros m. exact (proj1 (plain_blind cu m) t).
  - exact (proj1 (plain_asking cu) t).
Qed.
End Plain.
