(** A field made of parts does what its parts do as fields. *)
From Coq Require Import Lia.
From Verif Require Import Base MonadFacts Stream Reader Writer Prims Containers Derive DeriveSpec DeriveSound AttrSpec Sugar NestSpec.

Section Move.
Variables (s : scope) (c ci : cattrs) (ctx fs : list value).
Hypothesis bare_e : c_endian c = None.
Hypothesis bare_o : c_order c = None.
Hypothesis step_fs : forall v, sc_fields s (fs ++ [v]) = sc_fields s fs ++ [v].
Hypothesis step_ctx : forall v, sc_ctx s ctx (fs ++ [v]) = sc_ctx s ctx fs.
Let X := sc_ctx s ctx fs.
Let F := sc_fields s fs.
Lemma move_order a : field_order c (moved s ci a) ctx fs = field_order ci a X F.
Proof. unfold field_order. cbn [moved a_order]. rewrite bare_o. destruct (a_order a); [reflexivity|]. destruct (c_order ci); reflexivity. Qed.
Lemma move_args a off : field_args c (moved s ci a) ctx fs off = field_args ci a X F off.
Proof.
  unfold field_args. rewrite move_order. cbn [moved a_endian a_bits a_bytes a_ctx]. rewrite bare_e.
  replace (eval0 (or_else (option_map (see0 s) (or_else (a_endian a) (c_endian ci))) None) ctx fs) with (eval0 (or_else (a_endian a) (c_endian ci)) X F)
    by (destruct (a_endian a); [reflexivity|]; destruct (c_endian ci); reflexivity).
  replace (eval0 (option_map (see0 s) (a_bits a)) ctx fs) with (eval0 (a_bits a) X F) by (destruct (a_bits a); reflexivity).
  replace (eval0 (option_map (see0 s) (a_bytes a)) ctx fs) with (eval0 (a_bytes a) X F) by (destruct (a_bytes a); reflexivity). reflexivity.
Qed.
Lemma move_limit l off : eval_limit (see_limit s l) ctx fs off = eval_limit l X F off.
Proof. destruct l; reflexivity. Qed.
Lemma move_pad (p : option (expr0 Z)) : eval0 (option_map (see0 s) p) ctx fs = eval0 p X F.
Proof. destruct p; reflexivity. Qed.
Lemma move_pad_after (p : option (expr0 Z)) v : eval0 (option_map (see0 s) p) ctx (fs ++ [v]) = eval0 p X (F ++ [v]).
Proof. destruct p; [|reflexivity]. cbn [eval0 option_map]. unfold see0. now rewrite step_fs, step_ctx. Qed.
Lemma move_asserts {S} a off v : @asserts S (moved s ci a) ctx fs off v = asserts a X F off v.
Proof.
  unfold asserts. cbn [moved a_assert a_assert_eq]. destruct (a_assert a) as [f|]; cbn [option_map]; unfold see; rewrite ?step_fs, ?step_ctx; destruct (a_assert_eq a); reflexivity.
Qed.
Lemma move_seek a : option_map (fun f => f ctx fs) (a_seek (moved s ci a)) = option_map (fun f => f X F) (a_seek a).
Proof. cbn [moved a_seek]. destruct (a_seek a); reflexivity. Qed.
Lemma move_read a u rd : eqv (read_field c (moved s ci a) u ctx fs rd) (read_field ci a u X F rd).
Proof.
  intros r. unfold read_field. rewrite move_seek, move_order. cbn [moved a_magic a_pad_before a_pad_after]. rewrite move_pad.
  apply bind_ext. intros _ r1 _. apply bind_ext. intros _ r2 _. apply bind_ext. intros _ r3 _. cbv zeta.
  assert (HF : forall off, field_read_func c (moved s ci a) u ctx fs off rd = field_read_func ci a u X F off rd).
  { intros off. unfold field_read_func. rewrite move_args. cbn [moved a_reader a_limit]. destruct (a_reader a); [reflexivity|]. destruct (a_limit a) as [l|]; [|reflexivity].
    cbn [option_map]. now rewrite move_limit. }
  assert (HN : forall off m, field_read_normal (moved s ci a) ctx fs off m = field_read_normal a X F off m).
  { intros off m. unfold field_read_normal. cbn [moved a_map]. destruct (a_map a); reflexivity. }
  assert (HT : forall off m, field_read_tokens (moved s ci a) ctx fs off m = field_read_tokens a X F off m).
  { intros off m. unfold field_read_tokens. cbn [moved a_skip a_cond a_default]. destruct (a_skip a) as [[]|], (a_cond a); reflexivity. }
  rewrite HF, HN, HT. apply bind_ext. intros v r4 _. rewrite move_asserts. apply bind_ext. intros _ r5 _. now rewrite move_pad_after.
Qed.
Lemma move_write a stored v wr : eqv (write_field c (moved s ci a) stored ctx fs v wr) (write_field ci a (sc_stored s stored) X F v wr).
Proof.
  intros w. unfold write_field. rewrite move_seek, move_order. cbn [moved a_magic a_pad_before a_pad_after]. rewrite move_pad.
  apply bind_ext. intros _ w1 _. apply bind_ext. intros _ w2 _. apply bind_ext. intros _ w3 _. cbv zeta. rewrite move_asserts. apply bind_ext. intros _ w4 _. rewrite move_pad_after.
  assert (HF : forall off, field_write_func c (moved s ci a) stored ctx fs off v wr = field_write_func ci a (sc_stored s stored) X F off v wr).
  { intros off. unfold field_write_func. rewrite move_args. cbn [moved a_writer a_temp a_temp_value]. destruct (a_writer a); [reflexivity|]. destruct (a_temp a); [|reflexivity].
    destruct (a_temp_value a); reflexivity. }
  assert (HT : forall off m, field_write_tokens (moved s ci a) ctx fs off m = field_write_tokens a X F off m).
  { intros off m. unfold field_write_tokens. cbn [moved a_skip a_cond]. destruct (a_skip a) as [[]|], (a_cond a); reflexivity. }
  now rewrite HF, HT.
Qed.
Lemma move_value a stored todo : field_value (moved s ci a) stored todo ctx fs = field_value a (sc_stored s stored) todo X F.
Proof. unfold field_value. cbn [moved a_temp a_temp_value]. destruct (a_temp a); [|reflexivity]. destruct (a_temp_value a); reflexivity. Qed.
End Move.

(** ** Lists *)

Lemma group_snoc k n g l v : k + n <= length l -> group k n g (l ++ [v]) = group k n g l ++ [v].
Proof.
  intros H. unfold group. rewrite firstn_app, !skipn_app, firstn_app, skipn_length. replace (k - length l) with 0 by lia. replace (n - (length l - k)) with 0 by lia.
  replace (k + n - length l) with 0 by lia. cbn [firstn skipn]. rewrite !app_nil_r. rewrite <- app_assoc. reflexivity.
Qed.
Lemma group_cons k n g v l : group (S k) n g (v :: l) = v :: group k n g l.
Proof. reflexivity. Qed.
Lemma group_at n g vs l : length vs = n -> group 0 n g (vs ++ l) = g vs :: l.
Proof.
  intros H. unfold group. cbn [firstn skipn app Nat.add]. rewrite firstn_app, skipn_app. replace (n - length vs) with 0 by lia. cbn [firstn skipn]. rewrite app_nil_r.
  rewrite firstn_all2, skipn_all2 by lia. reflexivity.
Qed.
Lemma group_between k n g acc vs l : length acc = k -> length vs = n -> group k n g (acc ++ vs ++ l) = acc ++ g vs :: l.
Proof.
  revert k. induction acc as [|x acc IH]; intros k Hk Hn; cbn [length] in Hk; subst k; [exact (group_at n g vs l Hn)|]. cbn [app]. rewrite group_cons. f_equal. now apply IH.
Qed.
Lemma firstn_acc k (acc l : list value) : length acc = k -> firstn k (acc ++ l) = acc.
Proof. intros H. rewrite firstn_app. replace (k - length acc) with 0 by lia. cbn [firstn]. rewrite app_nil_r. apply firstn_all2. lia. Qed.
Lemma skipn_acc k (acc l : list value) : length acc = k -> skipn k (acc ++ l) = l.
Proof. intros H. rewrite skipn_app. replace (k - length acc) with 0 by lia. rewrite skipn_all2 by lia. reflexivity. Qed.
Lemma fapp_cons a t w tl gs : fapp (FCons a t w tl) gs = FCons a t w (fapp tl gs).
Proof. reflexivity. Qed.
Lemma moved_count s c fs : field_count (moved_fields s c fs) = field_count fs.
Proof. induction fs as [|a t w tl IH]; cbn [moved_fields field_count]; congruence. Qed.

Section Parts.
Variables (cu : nat -> custom) (fuel : nat).

(** ** The fields after the parts *)

Lemma later_read c ctx k n g : c_endian c = None -> c_order c = None -> forall post acc, k + n <= length acc ->
  eqv (fields_read cu fuel c ctx (moved_fields (later k n g) cplain post) None acc) (fields_read cu fuel c ctx post None (group k n g acc)).
Proof.
  intros He Ho. induction post as [|a t w tl IH]; intros acc Hl r; [reflexivity|]. cbn [moved_fields]. rewrite !read_cons.
  assert (M : eqv (read_field c (moved (later k n g) cplain a) (is_vec_u8 t) ctx acc (fun lim args => read_ty cu fuel w lim args))
                  (read_field c a (is_vec_u8 t) ctx (group k n g acc) (fun lim args => read_ty cu fuel w lim args))).
  { intros r0. rewrite (move_read (later k n g) c cplain ctx acc He Ho); [|intros v; now apply group_snoc|reflexivity]. cbn [later sc_ctx sc_fields].
    unfold read_field, field_read_func, field_args, field_order. cbn [cplain c_endian c_order]. now rewrite He, Ho. }
  unfold bind at 1 3. rewrite M. destruct (read_field c a _ ctx (group k n g acc) _ r) as [[v|e| |] r1]; try reflexivity.
  unfold bind. rewrite IH by (rewrite app_length; lia). rewrite group_snoc by lia. cbn [moved a_temp]. reflexivity.
Qed.
Lemma later_write c ctx k n g stored : c_endian c = None -> c_order c = None -> forall post todo acc, k + n <= length acc ->
  eqv (fields_write cu c ctx (moved_fields (later k n g) cplain post) None stored todo acc) (fields_write cu c ctx post None (group k n g stored) todo (group k n g acc)).
Proof.
  intros He Ho. induction post as [|a t w tl IH]; intros todo acc Hl r; [reflexivity|]. cbn [moved_fields]. rewrite !write_cons. rewrite move_value.
  cbn [later sc_ctx sc_fields sc_stored]. set (v := field_value a _ todo ctx _).
  assert (M : eqv (write_field c (moved (later k n g) cplain a) stored ctx acc v (fun args x => write_ty cu t args x))
                  (write_field c a (group k n g stored) ctx (group k n g acc) v (fun args x => write_ty cu t args x))).
  { intros r0. rewrite (move_write (later k n g) c cplain ctx acc He Ho); [|intros x; now apply group_snoc|reflexivity]. cbn [later sc_ctx sc_fields sc_stored].
    unfold write_field, field_write_func, field_args, field_order. cbn [cplain c_endian c_order]. now rewrite He, Ho. }
  unfold bind at 1 2. rewrite M. destruct (write_field c a _ ctx _ _ _ r) as [[[]|e| |] r1]; try reflexivity.
  replace (field_rest (moved (later k n g) cplain a) todo) with (field_rest a todo) by reflexivity.
  rewrite IH by (rewrite app_length; lia). now rewrite group_snoc by lia.
Qed.

(** ** The parts as one field *)

Variables (c : cattrs) (a : fattrs) (t : ty) (parts post : fields) (k : nat) (g : list value -> value).
Hypothesis bare_e : c_endian c = None.
Hypothesis bare_o : c_order c = None.
Let n := field_count parts.
(** Reading and writing of the parts. *)
Variables (pr : list value -> list value -> RM (list value)) (pw : list value -> list value -> list value -> WM unit).
Hypothesis kept_a : a_temp a = false.
Hypothesis parts_read : forall ctx acc tl, length acc = k ->
  eqv (fields_read cu fuel c ctx (fapp parts tl) None acc)
      (let* vs := pr ctx acc in let* ws := fields_read cu fuel c ctx tl None (acc ++ vs) in ret (vs ++ ws)).
Hypothesis parts_len : forall ctx acc r vs r', pr ctx acc r = (Ok vs, r') -> length vs = n.
Hypothesis field_reads : forall ctx acc, length acc = k ->
  eqv (read_field c a (is_vec_u8 t) ctx acc (fun lim args => read_ty cu fuel t lim args)) (let* vs := pr ctx acc in ret (g vs)).
Hypothesis parts_write : forall ctx acc tl stored vs rest, length acc = k -> length vs = n -> firstn n (skipn k stored) = vs ->
  eqv (fields_write cu c ctx (fapp parts tl) None stored (vs ++ rest) acc)
      (let* _ := pw ctx acc vs in fields_write cu c ctx tl None stored rest (acc ++ vs)).
Hypothesis field_writes : forall ctx acc stored vs, length acc = k -> length vs = n ->
  eqv (write_field c a stored ctx acc (g vs) (fun args x => write_ty cu t args x)) (pw ctx acc vs).

Let flat := fapp parts (moved_fields (later k n g) cplain post).
Lemma one_read ctx acc : length acc = k ->
  eqv (fields_read cu fuel c ctx (FCons a t t post) None acc) (let* l := fields_read cu fuel c ctx flat None acc in ret (group 0 n g l)).
Proof.
  clear pw parts_write field_writes. intros Hk r. unfold flat. rewrite read_cons, kept_a. unfold bind at 3. rewrite parts_read by exact Hk. unfold bind at 1. rewrite field_reads by exact Hk. unfold bind at 1 3.
  destruct (pr ctx acc r) as [[vs|e| |] r1] eqn:E; try reflexivity. pose proof (parts_len _ _ _ _ _ E) as L. cbn [ret]. unfold bind.
  rewrite later_read by (auto; rewrite app_length; lia). replace (group k n g (acc ++ vs)) with (acc ++ [g vs]).
  2:{ rewrite <- (app_nil_r vs) at 2. now rewrite group_between. }
  destruct (fields_read cu fuel c ctx post None (acc ++ [g vs]) r1) as [[ws|e| |] r2]; try reflexivity. cbn [ret]. unfold ret. now rewrite group_at.
Qed.
Let pre' pre := moved_fields (earlier k n g) cplain pre.
Lemma all_read ctx : forall pre acc, no_temps pre -> length acc + field_count pre = k ->
  eqv (fields_read cu fuel c ctx (fapp pre (FCons a t t post)) None acc)
      (let* l := fields_read cu fuel c ctx (fapp (pre' pre) flat) None acc in ret (group (field_count pre) n g l)).
Proof.
  clear pw parts_write field_writes. unfold pre'. induction pre as [|b u w pre IH]; intros acc Ht Hk.
  - cbn [fapp field_count moved_fields]. apply one_read. cbn [field_count] in Hk. lia.
  - destruct Ht as [Hb Ht]. cbn [field_count] in Hk. intros r. cbn [fapp moved_fields]. rewrite read_cons, Hb. unfold bind at 3. rewrite read_cons. cbn [moved a_temp]. rewrite Hb. unfold bind at 1 3.
    fold (moved (earlier k n g) cplain b). rewrite (move_read (earlier k n g) c cplain ctx acc bare_e bare_o) by reflexivity. cbn [earlier sc_ctx sc_fields].
    replace (read_field cplain b (is_vec_u8 u) ctx acc (fun lim args => read_ty cu fuel w lim args)) with (read_field c b (is_vec_u8 u) ctx acc (fun lim args => read_ty cu fuel w lim args))
      by (unfold read_field, field_read_func, field_args, field_order; cbn [cplain c_endian c_order]; now rewrite bare_e, bare_o).
    destruct (read_field c b _ ctx acc _ r) as [[v|e| |] r1]; try reflexivity. unfold bind. rewrite IH by (auto; rewrite app_length; cbn [length]; lia). unfold bind.
    destruct (fields_read cu fuel c ctx (fapp _ flat) None (acc ++ [v]) r1) as [[l|e| |] r2]; reflexivity.
Qed.
Lemma one_write ctx stored acc vs rest : length acc = k -> length vs = n -> stored = acc ++ vs ++ rest ->
  eqv (fields_write cu c ctx (FCons a t t post) None (group k n g stored) (g vs :: rest) acc)
      (fields_write cu c ctx flat None stored (vs ++ rest) acc).
Proof.
  clear pr parts_read parts_len field_reads. intros Hk Hn Hs w. unfold flat. rewrite parts_write; auto.
  2:{ subst stored. rewrite skipn_app. rewrite skipn_all2 by lia. replace (k - length acc) with 0 by lia. cbn [skipn app]. rewrite firstn_app. replace (n - length vs) with 0 by lia.
      cbn [firstn]. rewrite app_nil_r. now rewrite firstn_all2 by lia. }
  rewrite write_cons. unfold field_value, field_rest. rewrite kept_a. cbn [hd tl]. unfold bind. rewrite field_writes by auto.
  destruct (pw ctx acc vs w) as [[[]|e| |] w1]; try reflexivity. rewrite later_write by (auto; rewrite app_length; lia).
  replace (group k n g (acc ++ vs)) with (acc ++ [g vs]); [reflexivity|]. rewrite <- (app_nil_r vs) at 2. now rewrite group_between.
Qed.
Lemma all_write ctx stored : k + n <= length stored -> forall pre acc todo, no_temps pre -> length acc + field_count pre = k -> stored = acc ++ todo ->
  eqv (fields_write cu c ctx (fapp pre (FCons a t t post)) None (group k n g stored) (group (field_count pre) n g todo) acc)
      (fields_write cu c ctx (fapp (pre' pre) flat) None stored todo acc).
Proof.
  clear pr parts_read parts_len field_reads. intros Hl. unfold pre'. induction pre as [|b u w pre IH]; intros acc todo Ht Hk Hs.
  - cbn [fapp field_count moved_fields] in *. assert (length todo = length stored - k) as HL by (subst stored; rewrite app_length in *; lia).
    assert (Hn : length (firstn n todo) = n) by (rewrite firstn_length; lia).
    rewrite <- (firstn_skipn n todo). rewrite <- (firstn_skipn n todo) in Hs. rewrite group_at by exact Hn. apply one_write; auto; lia.
  - destruct Ht as [Hb Ht]. cbn [field_count] in Hk. assert (length todo > 0) as HL by (subst stored; rewrite app_length in *; lia).
    destruct todo as [|v todo]; [cbn [length] in HL; lia|]. intros r. cbn [fapp moved_fields field_count]. rewrite group_cons. rewrite !write_cons. rewrite move_value.
    unfold field_value, field_rest. cbn [moved a_temp]. rewrite Hb. cbn [hd tl]. unfold bind.
    fold (moved (earlier k n g) cplain b). rewrite (move_write (earlier k n g) c cplain ctx acc bare_e bare_o) by reflexivity. cbn [earlier sc_ctx sc_fields sc_stored].
    replace (write_field cplain b (group k n g stored) ctx acc v (fun args x => write_ty cu u args x)) with (write_field c b (group k n g stored) ctx acc v (fun args x => write_ty cu u args x))
      by (unfold write_field, field_write_func, field_args, field_order; cbn [cplain c_endian c_order]; now rewrite bare_e, bare_o).
    destruct (write_field c b _ ctx acc v _ r) as [[[]|e| |] r1]; try reflexivity. apply IH; auto; [rewrite app_length; cbn [length]; lia|]. rewrite <- app_assoc. exact Hs.
Qed.
Lemma with_reads pre lim args : no_temps pre -> field_count pre = k ->
  eqv (read_ty cu fuel (with_field c pre a t post) lim args) (let* v := read_ty cu fuel (with_parts c pre parts post g) lim args in ret (group_rec k n g v)).
Proof.
  clear pw parts_write field_writes. intros Ht Hk r. unfold with_field, with_parts. cbv zeta. rewrite Hk. fold n. rewrite !read_struct. rewrite !bind_assoc. apply bind_ext. intros u1 r1 _. cbv beta. rewrite !bind_assoc.
  apply bind_ext. intros u2 r2 _. cbv beta. rewrite !bind_assoc. unfold bind at 1. rewrite (all_read _ pre []) by auto. unfold pre', flat, bind. rewrite Hk.
  destruct (fields_read cu fuel c _ _ None [] r2) as [[l|e| |] r3]; reflexivity.
Qed.
Lemma with_writes pre args l1 vs l2 : no_temps pre -> field_count pre = k -> length l1 = k -> length vs = n ->
  eqv (write_ty cu (with_field c pre a t post) args (VRec (l1 ++ g vs :: l2))) (write_ty cu (with_parts c pre parts post g) args (VRec (l1 ++ vs ++ l2))).
Proof.
  clear pr parts_read parts_len field_reads. intros Ht Hk H1 Hn r. unfold with_field, with_parts. cbv zeta. rewrite Hk. fold n. rewrite !write_struct.
  rewrite <- (group_between k n g l1 vs l2 H1 Hn). apply bind_ext. intros u1 r1 _. apply bind_ext. intros u2 r2 _.
  pose proof (all_write (ctx_args c args) (l1 ++ vs ++ l2)) as A. rewrite <- Hk at 2.
  apply A; auto. rewrite !app_length. lia.
Qed.
End Parts.

(** ** Struct, tuple, array *)

Section Instances.
Variables (cu : nat -> custom) (fuel : nat).
Lemma passing_read c e o b y x t ctx fs : forall rd,
  eqv (read_field c (passing e o b y x) (is_vec_u8 t) ctx fs rd) (rd None (field_args c (passing e o b y x) ctx fs 0)).
Proof.
  intros rd r. unfold read_field. cbn [passing a_seek a_magic a_pad_before a_pad_after option_map read_seek read_magic eval0 read_pad]. rewrite !bind_ret_l.
  unfold field_read_tokens, field_read_normal, field_read_func. cbn [passing a_skip a_cond a_reader a_limit a_map]. unfold asserts. cbn [passing a_assert a_assert_eq].
  change (field_args c (passing e o b y x) ctx fs (r_bits r)) with (field_args c (passing e o b y x) ctx fs 0). unfold bind.
  destruct (rd None _ r) as [[]]; reflexivity.
Qed.
Lemma passing_write c e o b y x ctx fs stored v : forall wr,
  eqv (write_field c (passing e o b y x) stored ctx fs v wr) (wr (field_args c (passing e o b y x) ctx fs 0) v).
Proof.
  intros wr w. unfold write_field. cbn [passing a_seek a_magic a_pad_before a_pad_after option_map write_seek eval0 write_pad]. unfold write_magic. cbn [map write_list]. rewrite !bind_ret_l.
  unfold field_write_tokens, field_write_func. cbn [passing a_skip a_cond a_writer a_temp]. unfold asserts. cbn [passing a_assert a_assert_eq].
  change (field_args c (passing e o b y x) ctx fs (w_bits w)) with (field_args c (passing e o b y x) ctx fs 0). unfold bind. cbn [ret]. unfold ret.
  destruct (wr _ v w) as [[[]|? | |]]; reflexivity.
Qed.

Variables (c : cattrs) (e : option (expr0 endian)) (o : option (expr0 order)) (b y : option (expr0 nat)) (x : expr0 (list value)).
Hypothesis bare_e : c_endian c = None.
Hypothesis bare_o : c_order c = None.
Let a := passing e o b y x.
Variable k : nat.

Section Struct.
Variables (ci : cattrs) (gs : fields).
Hypothesis no_magic : c_magic ci = [].
Hypothesis no_seek : c_seek ci = None.
Hypothesis Hgs : no_temps gs.
Let n := field_count gs.
Let s := inside c a k n ci.
Let ictx ctx acc := ctx_args ci (field_args c a ctx acc 0).
Lemma fields_len : forall fs c0 ctx acc r vs r', no_temps fs -> fields_read cu fuel c0 ctx fs None acc r = (Ok vs, r') -> length vs = field_count fs.
Proof.
  induction fs as [|a0 t w tl IH]; intros c0 ctx acc r vs r' Ht H.
  - apply pair_inj in H. destruct H as [H _]. apply ok_inj in H. now subst vs.
  - destruct Ht as [Ha Ht]. rewrite read_cons, Ha in H. apply bind_inv in H. destruct H as (v & r1 & _ & H). apply bind_inv in H. destruct H as (l & r2 & H2 & H).
    apply pair_inj in H. destruct H as [H _]. apply ok_inj in H. subst vs. cbn [length field_count]. f_equal. eapply IH; eauto.
Qed.
Lemma inside_read ctx acc tl : length acc = k -> forall fs acci, no_temps fs ->
  eqv (fields_read cu fuel c ctx (fapp (moved_fields s ci fs) tl) None (acc ++ acci))
      (let* vs := fields_read cu fuel ci (ictx ctx acc) fs None acci in
       let* ws := fields_read cu fuel c ctx tl None (acc ++ acci ++ vs) in ret (vs ++ ws)).
Proof.
  intros Hk. induction fs as [|f t w fs IH]; intros acci Ht r.
  - cbn [moved_fields fapp fields_read]. rewrite bind_ret_l, app_nil_r. unfold bind. destruct (fields_read cu fuel c ctx tl None (acc ++ acci) r) as [[]]; reflexivity.
  - destruct Ht as [Hf Ht]. cbn [moved_fields fapp]. rewrite !read_cons. cbn [moved a_temp]. rewrite Hf. fold (moved s ci f). unfold bind at 1 3 4.
    rewrite (move_read s c ci ctx (acc ++ acci) bare_e bare_o).
    2:{ intros v. cbn [s inside sc_fields]. rewrite <- app_assoc. now rewrite !skipn_acc. }
    2:{ intros v. cbn [s inside sc_ctx]. rewrite <- app_assoc. now rewrite !firstn_acc. }
    unfold s at 1 2. cbn [inside sc_fields sc_ctx]. rewrite firstn_acc, skipn_acc by exact Hk. fold (ictx ctx acc).
    destruct (read_field ci f _ (ictx ctx acc) acci _ r) as [[v|er| |] r1]; try reflexivity. unfold bind.
    rewrite <- app_assoc. rewrite IH by exact Ht. unfold bind. destruct (fields_read cu fuel ci (ictx ctx acc) fs None (acci ++ [v]) r1) as [[vs|er| |] r2]; try reflexivity.
    rewrite <- app_assoc. cbn [app]. unfold ret. cbv beta iota.
    destruct (fields_read cu fuel c ctx tl None _ r2) as [[ws|er| |] r3]; reflexivity.
Qed.
Lemma inside_write ctx acc tl stored vs0 rest : length acc = k -> firstn n (skipn k stored) = vs0 -> forall fs acci vs, no_temps fs -> length vs = field_count fs ->
  eqv (fields_write cu c ctx (fapp (moved_fields s ci fs) tl) None stored (vs ++ rest) (acc ++ acci))
      (let* _ := fields_write cu ci (ictx ctx acc) fs None vs0 vs acci in fields_write cu c ctx tl None stored rest (acc ++ acci ++ vs)).
Proof.
  intros Hk Hs. induction fs as [|f t w fs IH]; intros acci vs Ht Hl r.
  - destruct vs; [|discriminate Hl]. cbn [moved_fields fapp fields_write app]. rewrite bind_ret_l, app_nil_r. reflexivity.
  - destruct Ht as [Hf Ht]. destruct vs as [|v vs]; [discriminate Hl|]. injection Hl as Hl. cbn [moved_fields fapp]. rewrite !write_cons.
    rewrite move_value. unfold field_value, field_rest. cbn [moved a_temp]. rewrite Hf. cbn [hd app List.tl]. fold (moved s ci f). unfold bind.
    rewrite (move_write s c ci ctx (acc ++ acci) bare_e bare_o).
    2:{ intros v'. cbn [s inside sc_fields]. rewrite <- app_assoc. now rewrite !skipn_acc. }
    2:{ intros v'. cbn [s inside sc_ctx]. rewrite <- app_assoc. now rewrite !firstn_acc. }
    unfold s at 1 2 3. cbn [inside sc_fields sc_ctx sc_stored]. rewrite firstn_acc, skipn_acc by exact Hk. rewrite Hs. fold (ictx ctx acc).
    destruct (write_field ci f _ (ictx ctx acc) acci _ _ r) as [[[]|er| |] r1]; try reflexivity. rewrite <- app_assoc. rewrite IH by auto. unfold bind.
    destruct (fields_write cu ci (ictx ctx acc) fs None vs0 vs (acci ++ [v]) r1) as [[[]|er| |] r2]; try reflexivity. rewrite <- app_assoc. reflexivity.
Qed.
Lemma in_struct_read pre post lim args : no_temps pre -> field_count pre = k ->
  eqv (read_ty cu fuel (with_field c pre a (TStruct ci gs) post) lim args)
      (let* v := read_ty cu fuel (with_parts c pre (struct_parts c pre a ci gs) post VRec) lim args in ret (group_rec k n VRec v)).
Proof.
  intros Ht Hk. unfold struct_parts. rewrite Hk. fold n. fold s. unfold n. rewrite <- (moved_count s ci gs).
  apply with_reads with (pr := fun ctx acc => fields_read cu fuel ci (ictx ctx acc) gs None []); auto.
  - intros ctx acc tl Hl r. rewrite <- (app_nil_r acc) at 1. apply inside_read; auto.
  - intros ctx acc r vs r' H. rewrite moved_count. exact (fields_len _ _ _ _ _ _ _ Hgs H).
  - intros ctx acc Hl r. unfold a. rewrite passing_read. rewrite read_struct, no_magic, no_seek. cbn [option_map read_seek read_magic]. rewrite !bind_ret_l. reflexivity.
Qed.
Lemma in_struct_write pre post args l1 vs l2 : no_temps pre -> field_count pre = k -> length l1 = k -> length vs = n ->
  eqv (write_ty cu (with_field c pre a (TStruct ci gs) post) args (VRec (l1 ++ VRec vs :: l2)))
      (write_ty cu (with_parts c pre (struct_parts c pre a ci gs) post VRec) args (VRec (l1 ++ vs ++ l2))).
Proof.
  intros Ht Hk H1 Hn. unfold struct_parts. rewrite Hk. fold n. fold s. unfold n in Hn. rewrite <- (moved_count s ci gs) in Hn.
  apply with_writes with (k := k) (pw := fun ctx acc vs => fields_write cu ci (ictx ctx acc) gs None vs vs []); auto.
  - intros ctx acc tl stored vs' rest Hl Hv Hs r. rewrite moved_count in Hv, Hs. rewrite <- (app_nil_r acc) at 1. rewrite (inside_write ctx acc tl stored vs' rest Hl Hs gs [] vs' Hgs Hv). reflexivity.
  - intros ctx acc stored vs' Hl Hv r. unfold a. rewrite passing_write. rewrite write_struct, no_magic, no_seek. cbn [option_map write_seek]. unfold write_magic. cbn [map write_list]. rewrite !bind_ret_l. reflexivity.
Qed.
End Struct.

Let a' := moved (before k) cplain a.
Lemma part_args ctx acc l off : length acc = k -> field_args c a' ctx (acc ++ l) off = field_args c a ctx acc 0.
Proof.
  intros Hk. unfold a', a, field_args, field_order. rewrite bare_e, bare_o. cbn [moved passing a_endian a_order a_bits a_bytes a_ctx cplain c_endian c_order before sc_ctx sc_fields see]. unfold see. cbn [before sc_ctx sc_fields].
  rewrite firstn_acc by exact Hk.
  f_equal; try (destruct e); try (destruct b); try (destruct y); try (destruct o); cbn [or_else option_map eval0]; unfold eval0, see0; cbn [option_map before sc_ctx sc_fields]; rewrite ?firstn_acc by exact Hk; reflexivity.
Qed.
Lemma part_read t ctx acc l rd : length acc = k -> eqv (read_field c a' (is_vec_u8 t) ctx (acc ++ l) rd) (rd None (field_args c a ctx acc 0)).
Proof.
  intros Hk r. change a' with (passing (option_map (see0 (before k)) (or_else e None)) (option_map (see0 (before k)) (or_else o None)) (option_map (see0 (before k)) b) (option_map (see0 (before k)) y) (see0 (before k) x)).
  rewrite passing_read. f_equal. exact (part_args ctx acc l 0 Hk).
Qed.
Lemma part_write ctx acc l stored v wr : length acc = k -> eqv (write_field c a' stored ctx (acc ++ l) v wr) (wr (field_args c a ctx acc 0) v).
Proof.
  intros Hk r. change a' with (passing (option_map (see0 (before k)) (or_else e None)) (option_map (see0 (before k)) (or_else o None)) (option_map (see0 (before k)) b) (option_map (see0 (before k)) y) (see0 (before k) x)).
  rewrite passing_write. f_equal. exact (part_args ctx acc l 0 Hk).
Qed.
Lemma in_pair_read t1 t2 pre post lim args : no_temps pre -> field_count pre = k ->
  eqv (read_ty cu fuel (with_field c pre a (TPair t1 t2) post) lim args)
      (let* v := read_ty cu fuel (with_parts c pre (pair_parts pre a t1 t2) post as_pair) lim args in ret (group_rec k 2 as_pair v)).
Proof.
  intros Ht Hk. unfold pair_parts. rewrite Hk. cbv zeta. fold a'. change 2 with (field_count (FCons a' t1 t1 (FCons a' t2 t2 FNil))).
  apply with_reads with (pr := fun ctx acc => let* v1 := read_ty cu fuel t1 None (field_args c a ctx acc 0) in let* v2 := read_ty cu fuel t2 None (field_args c a ctx acc 0) in ret [v1; v2]); auto.
  - intros ctx acc tl Hl r. cbn [fapp]. rewrite !read_cons. replace (a_temp a') with false by reflexivity. unfold bind at 1 4. rewrite <- (app_nil_r acc) at 1. rewrite (part_read t1 ctx acc []) by exact Hl. unfold bind.
    destruct (read_ty cu fuel t1 None _ r) as [[v1|er| |] r1]; try reflexivity. rewrite read_cons. replace (a_temp a') with false by reflexivity. unfold bind. rewrite (part_read t2 ctx acc [v1]) by exact Hl.
    destruct (read_ty cu fuel t2 None _ r1) as [[v2|er| |] r2]; try reflexivity. unfold ret. cbv beta iota. rewrite <- app_assoc. cbn [app]. destruct (fields_read cu fuel c ctx tl None _ r2) as [[ws|er| |] r3]; reflexivity.
  - intros ctx acc r vs r' H. apply bind_inv in H. destruct H as (v1 & r1 & _ & H). apply bind_inv in H. destruct H as (v2 & r2 & _ & H). apply pair_inj in H. destruct H as [H _]. apply ok_inj in H. now subst vs.
  - intros ctx acc Hl r. unfold a at 1. rewrite passing_read. fold a. cbn [read_ty]. rewrite bind_assoc. apply bind_ext. intros v1 r1 _. rewrite bind_assoc. apply bind_ext. intros v2 r2 _. reflexivity.
Qed.
Lemma two (vs : list value) : length vs = 2 -> exists v1 v2, vs = [v1; v2].
Proof. destruct vs as [|v1 [|v2 [|]]]; try discriminate. eauto. Qed.
Lemma in_pair_write t1 t2 pre post args l1 v1 v2 l2 : no_temps pre -> field_count pre = k -> length l1 = k ->
  eqv (write_ty cu (with_field c pre a (TPair t1 t2) post) args (VRec (l1 ++ VPair v1 v2 :: l2)))
      (write_ty cu (with_parts c pre (pair_parts pre a t1 t2) post as_pair) args (VRec (l1 ++ v1 :: v2 :: l2))).
Proof.
  intros Ht Hk H1. unfold pair_parts. rewrite Hk. cbv zeta. fold a'. change (VPair v1 v2) with (as_pair [v1; v2]). change (v1 :: v2 :: l2) with ([v1; v2] ++ l2).
  apply with_writes with (k := k) (pw := fun ctx acc vs => let* _ := write_ty cu t1 (field_args c a ctx acc 0) (nth 0 vs VUnit) in write_ty cu t2 (field_args c a ctx acc 0) (nth 1 vs VUnit)); auto.
  - intros ctx acc tl stored vs rest Hl Hv Hs r. destruct (two _ Hv) as (x1 & x2 & ->). cbn [fapp nth app]. rewrite !write_cons. unfold field_value, field_rest. replace (a_temp a') with false by reflexivity. cbn [hd List.tl].
    unfold bind. rewrite <- (app_nil_r acc) at 1. rewrite (part_write ctx acc []) by exact Hl. destruct (write_ty cu t1 _ x1 r) as [[[]|er| |] r1]; try reflexivity.
    rewrite (part_write ctx acc [x1]) by exact Hl. destruct (write_ty cu t2 _ x2 r1) as [[[]|er| |] r2]; try reflexivity. rewrite <- app_assoc. reflexivity.
  - intros ctx acc stored vs Hl Hv r. destruct (two _ Hv) as (x1 & x2 & ->). unfold a at 1. rewrite passing_write. reflexivity.
Qed.
Section Array.
Variable t : ty.
Lemma same_count : forall m, field_count (same_fields a' t m) = m.
Proof. induction m; cbn [same_fields field_count]; congruence. Qed.
Lemma array_len A (m : RM A) : forall n r vs r', read_array n m r = (Ok vs, r') -> length vs = n.
Proof.
  induction n as [|n IH]; intros r vs r' H; cbn [read_array] in H.
  - apply pair_inj in H. destruct H as [H _]. apply ok_inj in H. now subst vs.
  - apply bind_inv in H. destruct H as (v & r1 & _ & H). apply bind_inv in H. destruct H as (l & r2 & H2 & H). apply pair_inj in H. destruct H as [H _]. apply ok_inj in H. subst vs. cbn [length]. f_equal. eauto.
Qed.
Lemma same_read ctx acc tl : length acc = k -> forall m l,
  eqv (fields_read cu fuel c ctx (fapp (same_fields a' t m) tl) None (acc ++ l))
      (let* vs := read_array m (read_ty cu fuel t None (field_args c a ctx acc 0)) in let* ws := fields_read cu fuel c ctx tl None (acc ++ l ++ vs) in ret (vs ++ ws)).
Proof.
  intros Hk. induction m as [|m IH]; intros l r; cbn [same_fields fapp read_array].
  - rewrite bind_ret_l, app_nil_r. unfold bind. destruct (fields_read cu fuel c ctx tl None (acc ++ l) r) as [[]]; reflexivity.
  - rewrite read_cons. replace (a_temp a') with false by reflexivity. rewrite !bind_assoc. unfold bind at 1 3. rewrite part_read by exact Hk.
    destruct (read_ty cu fuel t None _ r) as [[v|er| |] r1]; try reflexivity. unfold bind. rewrite <- app_assoc. rewrite IH. unfold bind.
    destruct (read_array m _ r1) as [[vs|er| |] r2]; try reflexivity. unfold ret. cbv beta iota. rewrite <- app_assoc. cbn [app]. destruct (fields_read cu fuel c ctx tl None _ r2) as [[ws|er| |] r3]; reflexivity.
Qed.
Lemma same_write ctx acc tl stored rest : length acc = k -> forall vs l,
  eqv (fields_write cu c ctx (fapp (same_fields a' t (length vs)) tl) None stored (vs ++ rest) (acc ++ l))
      (let* _ := write_list (write_ty cu t (field_args c a ctx acc 0)) vs in fields_write cu c ctx tl None stored rest (acc ++ l ++ vs)).
Proof.
  intros Hk. induction vs as [|v vs IH]; intros l r; cbn [same_fields fapp write_list length app].
  - rewrite bind_ret_l, app_nil_r. reflexivity.
  - rewrite write_cons. unfold field_value, field_rest. replace (a_temp a') with false by reflexivity. cbn [hd List.tl]. rewrite bind_assoc. unfold bind at 1 2. rewrite part_write by exact Hk.
    destruct (write_ty cu t _ v r) as [[[]|er| |] r1]; try reflexivity. rewrite <- app_assoc. rewrite IH. rewrite <- app_assoc. reflexivity.
Qed.
Lemma in_array_read m pre post lim args : no_temps pre -> field_count pre = k ->
  eqv (read_ty cu fuel (with_field c pre a (TArray m t) post) lim args)
      (let* v := read_ty cu fuel (with_parts c pre (array_parts pre a m t) post VList) lim args in ret (group_rec k m VList v)).
Proof.
  intros Ht Hk. unfold array_parts. rewrite Hk. fold a'. replace (group_rec k m VList) with (group_rec k (field_count (same_fields a' t m)) VList) by now rewrite same_count.
  apply with_reads with (pr := fun ctx acc => read_array m (read_ty cu fuel t None (field_args c a ctx acc 0))); auto.
  - intros ctx acc tl Hl r. rewrite <- (app_nil_r acc) at 1. now apply same_read.
  - intros ctx acc r vs r' H. rewrite same_count. exact (array_len _ _ _ _ _ _ H).
  - intros ctx acc Hl r. unfold a at 1. rewrite passing_read. reflexivity.
Qed.
Lemma in_array_write m pre post args l1 vs l2 : no_temps pre -> field_count pre = k -> length l1 = k -> length vs = m ->
  eqv (write_ty cu (with_field c pre a (TArray m t) post) args (VRec (l1 ++ VList vs :: l2)))
      (write_ty cu (with_parts c pre (array_parts pre a m t) post VList) args (VRec (l1 ++ vs ++ l2))).
Proof.
  intros Ht Hk H1 Hn. unfold array_parts. rewrite Hk. fold a'. rewrite <- (same_count m) in Hn.
  apply with_writes with (k := k) (pw := fun ctx acc vs => write_list (write_ty cu t (field_args c a ctx acc 0)) vs); auto.
  - intros ctx acc tl stored vs' rest Hl Hv Hs r. rewrite same_count in Hv. rewrite <- Hv. rewrite <- (app_nil_r acc) at 1. now apply same_write.
  - intros ctx acc stored vs' Hl Hv r. unfold a at 1. rewrite passing_write. reflexivity.
Qed.
End Array.
End Instances.
