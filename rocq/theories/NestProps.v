(** Proofs for C73, over the API. *)
From Coq Require Import Lia.
From Verif Require Import Base Stream Reader Writer Prims Containers Derive DeriveSound MonadFacts AttrSpec Sugar NestSpec NestFacts.

Lemma made_reads cu fuel c pre a t parts g post : c_endian c = None -> c_order c = None -> no_temps pre -> only_passes a -> made_of c pre a t parts g ->
  forall lim args, eqv (read_ty cu fuel (with_field c pre a t post) lim args)
    (let* v := read_ty cu fuel (with_parts c pre parts post g) lim args in ret (group_rec (field_count pre) (field_count parts) g v)).
Proof.
  intros He Ho Ht (e & o & b & y & x & ->) M lim args. destruct M as [ci fs Hm Hs Hf|t1 t2|n t].
  - replace (field_count (struct_parts c pre (passing e o b y x) ci fs)) with (field_count fs) by (symmetry; apply moved_count). now apply in_struct_read.
  - now apply in_pair_read.
  - replace (field_count (array_parts pre (passing e o b y x) n t)) with n; [now apply in_array_read|]. symmetry. unfold array_parts. induction n as [|n IH]; cbn [same_fields field_count]; congruence.
Qed.
Lemma made_writes cu c pre a t parts g post : c_endian c = None -> c_order c = None -> no_temps pre -> only_passes a -> made_of c pre a t parts g ->
  forall l1 vs l2 args, length l1 = field_count pre -> length vs = field_count parts ->
  eqv (write_ty cu (with_field c pre a t post) args (VRec (l1 ++ g vs :: l2))) (write_ty cu (with_parts c pre parts post g) args (VRec (l1 ++ vs ++ l2))).
Proof.
  intros He Ho Ht (e & o & b & y & x & ->) M l1 vs l2 args H1 Hn. destruct M as [ci fs Hm Hs Hf|t1 t2|n t].
  - unfold struct_parts in Hn. rewrite moved_count in Hn. apply in_struct_write with (k := field_count pre); auto.
  - destruct (two _ Hn) as (v1 & v2 & ->). apply in_pair_write with (k := field_count pre); auto.
  - apply in_array_write with (k := field_count pre); auto. rewrite Hn. unfold array_parts. clear. induction n as [|n IH]; cbn [same_fields field_count]; congruence.
Qed.

(** The API on two types, when reading one is reading the other and changing the value. *)
Section Api.
Variables (cu : nat -> custom) (fuel : nat) (t t' : ty) (f : value -> value).
Hypothesis R : eqv (read_ty cu fuel t None []) (let* v := read_ty cu fuel t' None [] in ret (f v)).
Lemma api_reader s bit : from_reader cu fuel t s bit = let (x, s') := from_reader cu fuel t' s bit in (res_map x (fun p => (fst p, f (snd p))), s').
Proof.
  unfold from_reader. unfold bind. destruct ((if bit =? 0 then ret tt else skip_bits bit Msb0) (reader_new s)) as [[[]|e| |] r]; try reflexivity.
  rewrite R. unfold bind. destruct (read_ty cu fuel t' None [] r) as [[]]; reflexivity.
Qed.
Lemma api_bytes input bit : from_bytes cu fuel t input bit = res_map (from_bytes cu fuel t' input bit) (fun p => (fst p, f (snd p))).
Proof. unfold from_bytes. rewrite api_reader. destruct (from_reader cu fuel t' (cursor input) bit) as [[[n v]|e| |] s]; try reflexivity. cbn [res_map fst snd]. now destruct (n / 8 <=? length input). Qed.
Lemma api_try input : try_from cu fuel t input = res_map (try_from cu fuel t' input) f.
Proof.
  unfold try_from. rewrite api_reader. destruct (from_reader cu fuel t' (cursor input) 0) as [[[n v]|e| |] s]; try reflexivity. cbn [res_map fst snd].
  destruct (n / 8 <? length input); [reflexivity|]. now destruct (length input <? n / 8).
Qed.
End Api.
Section ApiW.
Variables (cu : nat -> custom) (t t' : ty) (v v' : value).
Hypothesis W : eqv (write_ty cu t [] v) (write_ty cu t' [] v').
Lemma api_to_bytes : to_bytes cu t v = to_bytes cu t' v'.
Proof. unfold to_bytes, to_bytes_with, bind. now rewrite W. Qed.
Lemma api_to_slice buf : to_slice cu t v buf = to_slice cu t' v' buf.
Proof. unfold to_slice, to_slice_with, bind. now rewrite W. Qed.
Lemma api_to_bits : to_bits cu t v = to_bits cu t' v'.
Proof. unfold to_bits, to_bits_with. now rewrite W. Qed.
End ApiW.

Lemma nest_reading cu fuel c pre a t parts g post : c_endian c = None -> c_order c = None -> no_temps pre -> only_passes a -> made_of c pre a t parts g ->
  let one := with_field c pre a t post in
  let many := with_parts c pre parts post g in
  let grouped := group_rec (field_count pre) (field_count parts) g in
  (forall lim args r, read_ty cu fuel one lim args r = let (x, r') := read_ty cu fuel many lim args r in (res_map x grouped, r')) /\
  (forall s bit, from_reader cu fuel one s bit = let (x, s') := from_reader cu fuel many s bit in (res_map x (fun p => (fst p, grouped (snd p))), s')) /\
  (forall input bit, from_bytes cu fuel one input bit = res_map (from_bytes cu fuel many input bit) (fun p => (fst p, grouped (snd p)))) /\
  (forall input, try_from cu fuel one input = res_map (try_from cu fuel many input) grouped).
Proof.
  intros He Ho Ht Ha M one many grouped. pose proof (made_reads cu fuel c pre a t parts g post He Ho Ht Ha M) as R. fold one many grouped in R.
  split; [|split; [|split]].
  - intros lim args r. rewrite R. unfold bind. destruct (read_ty cu fuel many lim args r) as [[]]; reflexivity.
  - intros s bit. now apply api_reader.
  - intros input bit. now apply api_bytes.
  - intros input. now apply api_try.
Qed.
Lemma nest_writing cu c pre a t parts g post : c_endian c = None -> c_order c = None -> no_temps pre -> only_passes a -> made_of c pre a t parts g ->
  forall l1 vs l2, length l1 = field_count pre -> length vs = field_count parts ->
  let one := with_field c pre a t post in
  let many := with_parts c pre parts post g in
  let v := VRec (l1 ++ g vs :: l2) in
  let v' := VRec (l1 ++ vs ++ l2) in
  (forall args w, write_ty cu one args v w = write_ty cu many args v' w) /\
  to_bytes cu one v = to_bytes cu many v' /\
  (forall buf, to_slice cu one v buf = to_slice cu many v' buf) /\
  to_bits cu one v = to_bits cu many v'.
Proof.
  intros He Ho Ht Ha M l1 vs l2 H1 Hn one many v v'. pose proof (fun args => made_writes cu c pre a t parts g post He Ho Ht Ha M l1 vs l2 args H1 Hn) as W. fold one many v v' in W.
  split; [exact W|]. split; [|split]; [apply api_to_bytes, W|intros buf; apply api_to_slice, W|apply api_to_bits, W].
Qed.

Lemma newtype_reads cu fuel c a t : c_magic c = [] -> c_seek c = None -> only_passes a ->
  forall lim args r, read_ty cu fuel (newtype c a t) lim args r =
    let (x, r') := read_ty cu fuel t None (field_args c a (ctx_args c args) [] 0) r in (res_map x wrap, r').
Proof.
  intros Hm Hs (e & o & b & y & x & ->) lim args r. unfold newtype. rewrite read_struct, Hm, Hs. cbn [option_map read_seek read_magic]. rewrite !bind_ret_l.
  rewrite read_cons. replace (a_temp (passing e o b y x)) with false by reflexivity. unfold bind. rewrite passing_read.
  destruct (read_ty cu fuel t None _ r) as [[]]; reflexivity.
Qed.
Lemma newtype_writes cu c a t : c_magic c = [] -> c_seek c = None -> only_passes a ->
  forall args v w, write_ty cu (newtype c a t) args (wrap v) w = write_ty cu t (field_args c a (ctx_args c args) [] 0) v w.
Proof.
  intros Hm Hs (e & o & b & y & x & ->) args v w. unfold newtype, wrap. rewrite write_struct, Hm, Hs. cbn [option_map write_seek]. unfold write_magic. cbn [map write_list]. rewrite !bind_ret_l.
  rewrite write_cons. unfold field_value, field_rest. replace (a_temp (passing e o b y x)) with false by reflexivity. cbn [hd tl]. unfold bind. rewrite passing_write.
  destruct (write_ty cu t _ v w) as [[[]|er| |] w1]; reflexivity.
Qed.

(** ** Sizes *)

Definition plus (x y : option nat) : option nat := match x, y with Some n, Some m => Some (n + m) | _, _ => None end.
Lemma constant_see A s (x : option (expr0 A)) : constant x -> eval0 (option_map (see0 s) x) [] [] = eval0 x [] [].
Proof. intros H. destruct x as [f|]; [|reflexivity]. cbn [option_map eval0]. unfold eval0, see0. cbn [option_map]. f_equal. now rewrite (H f eq_refl). Qed.
Lemma constant_pad s (x : option (expr0 Z)) : constant x -> const_pad (option_map (see0 s) x) = const_pad x.
Proof. intros H. destruct x as [f|]; [|reflexivity]. cbn [option_map const_pad]. unfold see0. now rewrite (H f eq_refl). Qed.
Lemma moved_size s c : forall fs, constant_sizes fs -> fields_size (moved_fields s c fs) false = fields_size fs false.
Proof.
  induction fs as [|a t w tl IH]; intros H; [reflexivity|]. destruct H as ((Hb & Hy & Hp & Hq) & H). cbn [moved_fields fields_size orb moved a_seek a_temp a_bits a_bytes a_magic a_pad_before a_pad_after].
  unfold const_size. rewrite !constant_see, !constant_pad by assumption. rewrite IH by exact H. destruct (a_seek a); reflexivity.
Qed.
Lemma fapp_size : forall fs gs, fields_size (fapp fs gs) false = plus (fields_size fs false) (fields_size gs false).
Proof.
  induction fs as [|a t w tl IH]; intros gs; cbn [fapp fields_size].
  - destruct (fields_size gs false); reflexivity.
  - destruct (a_seek a); [reflexivity|]. cbn [orb]. rewrite IH. destruct (a_temp a); [reflexivity|].
    destruct (match const_size (a_bits a) with Some n => Some n | None => match const_size (a_bytes a) with Some n => Some (n * 8) | None => size_bits t end end) as [m|]; [|reflexivity].
    destruct (fields_size tl false), (fields_size gs false); cbn [plus]; try reflexivity. f_equal. lia.
Qed.
Lemma same_size e o x s t : forall n, fields_size (same_fields (moved s cplain (passing e o None None x)) t n) false = match n with O => Some 0 | _ => option_map (fun z => z * n) (size_bits t) end.
Proof.
  induction n as [|n IH]; [reflexivity|]. cbn [same_fields fields_size moved passing a_seek a_temp a_bits a_bytes a_magic a_pad_before a_pad_after option_map orb]. unfold const_size. cbn [eval0 option_map]. unfold eval0. cbn [option_map const_pad length].
  rewrite IH. destruct (size_bits t) as [z|], n; cbn [option_map]; try reflexivity; f_equal; lia.
Qed.
Lemma nest_size c pre e o x t parts g post : constant_sizes pre -> constant_sizes post -> 
  made_of c pre (passing e o None None x) t parts g -> (forall ci fs, t = TStruct ci fs -> constant_sizes fs) -> (forall n t', t = TArray n t' -> 0 < n) ->
  size_bits (with_field c pre (passing e o None None x) t post) = size_bits (with_parts c pre parts post g).
Proof.
  intros Hp Hq M Hf Hn. unfold with_field, with_parts. cbv zeta. cbn [size_bits]. destruct (c_seek c); [reflexivity|]. f_equal. rewrite !fapp_size, !moved_size by assumption.
  f_equal. cbn [fields_size passing a_seek a_temp a_bits a_bytes a_magic a_pad_before a_pad_after orb]. unfold const_size. cbn [eval0 option_map]. unfold eval0. cbn [option_map const_pad length].
  assert (E : fields_size parts false = size_bits t).
  { destruct M as [ci fs Hm Hs Ht|t1 t2|n t'].
    - unfold struct_parts. rewrite moved_size by (apply (Hf ci fs eq_refl)). cbn [size_bits]. rewrite Hs, Hm. cbn [length Nat.mul]. destruct (fields_size fs false); reflexivity.
    - unfold pair_parts. cbv zeta. cbn [fields_size moved passing a_seek a_temp a_bits a_bytes a_magic a_pad_before a_pad_after option_map orb]. unfold const_size. cbn [eval0 option_map]. unfold eval0. cbn [option_map const_pad length size_bits].
      destruct (size_bits t1), (size_bits t2); try reflexivity. f_equal. lia.
    - unfold array_parts. rewrite same_size. specialize (Hn n t' eq_refl). destruct n; [lia|]. reflexivity. }
  rewrite E. destruct (size_bits t), (fields_size post false); cbn [plus]; try reflexivity. f_equal. lia.
Qed.
