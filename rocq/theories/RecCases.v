(** Recursive types: the examples of [P_Rec.v] and what goes wrong with them. *)
From Coq Require Import Lia.
From Verif Require Import Base Spec Stream Reader Session Writer WSession Prims BitsFacts MonadFacts ReaderFacts CodecSpec CodecFacts Containers ContainerSpec ContainerFacts Derive DeriveSpec DeriveFacts DeriveSound DeriveProps Rec RecFacts RecSpec RecProps P_Derive.

(** 0: struct Tree { value: u8, #[deku(temp, temp_value = "children.len() as u8")] n: u8, #[deku(count = "n")] children: Vec<Tree> }
    1: #[deku(id_type = "u8")] enum List { #[deku(id = 0)] Nil, #[deku(id = 1)] Cons(u8, Box<List>) }
    2: struct Chain { value: u8, next: Option<Box<Chain>> }
    3: struct Endless { next: Option<Box<Endless>> } *)
Definition Tree : ty :=
  TStruct cplain
    (field plain u8
    (field (temporary (fun stored _ _ => VNum (list_len (nth 1 stored VUnit) mod 256)) plain) u8
    (field (limited (FCount (fun _ fs _ => Z.of_N (nth_num fs 1))) plain) (TVec KVec 32 (TCustom 0))
    FNil))).
Definition List_ : ty :=
  TEnum (mkE cplain None None None None) u8
    (VCons (mkV (SId (VNum 0)) false) FNil
    (VCons (mkV (SId (VNum 1)) false) (field plain u8 (field plain (TCustom 1) FNil))
    VNil)).
Definition Chain : ty := TStruct cplain (field plain u8 (field plain (TOption (TCustom 2)) FNil)).
Definition Endless : ty := TStruct cplain (field plain (TOption (TCustom 3)) FNil).
Definition types (k : nat) : ty := match k with 0 => Tree | 1 => List_ | 2 => Chain | 3 => Endless | _ => TUnit end.

(** ** The stack is exhausted *)

Lemma read_plain cu fuel t ctx acc r : read_field cplain plain (is_vec_u8 t) ctx acc (fun lim args => read_ty cu fuel t lim args) r =
  (let* v := read_ty cu fuel t None [] in ret v) r.
Proof.
  unfold read_field, field_read_tokens, field_read_normal, field_read_func, asserts, read_seek, read_magic, read_pad, bind, ret. cbn.
  destruct (read_ty cu fuel t None [] r) as [[v|e| |] r1]; reflexivity.
Qed.
Lemma ones fuel d : forall r pos rest, readable SeekSource r -> r_at pos r ->
  unread_string Msb0 (seen r) = bitstring Msb0 (repeat x01 (2 * d)) ++ rest -> fst (cu_read (unroll types fuel d 1) [] r) = Diverge.
Proof.
  induction d as [|d IH]; intros r pos rest Hr Hp Hu; [reflexivity|].
  replace (2 * S d) with (S (S (2 * d))) in Hu by lia.
  change (repeat x01 (S (S (2 * d)))) with ([x01] ++ [x01] ++ repeat x01 (2 * d)) in Hu. rewrite !bitstring_app, <- !app_assoc in Hu.
  destruct (reads_at_u8 SeekSource (unroll types fuel d) fuel pos x01 r _ Hr Hp Hu) as (r1 & E1 & H1 & U1 & B1 & D1 & S1).
  pose proof (r_at_next _ _ _ _ _ _ Hp Hu U1 B1) as P1.
  destruct (reads_at_u8 SeekSource (unroll types fuel d) fuel _ x01 r1 _ H1 P1 U1) as (r2 & E2 & H2 & U2 & B2 & D2 & S2).
  pose proof (r_at_next _ _ _ _ _ _ P1 U1 U2 B2) as P2. specialize (IH r2 _ rest H2 P2 U2).
  cbn [unroll cu_read types]. unfold List_. rewrite read_enum. cbn [read_magic en_c c_magic cplain en_id]. rewrite bind_ret_l.
  change (id_args _ _) with (@nil value). rewrite (bind_ok _ _ _ _ _ E1). rewrite !read_variant. cbn [matches v_sel value_eqb to_N N.eqb Pos.eqb].
  rewrite read_variant. cbn [matches v_sel value_eqb N.eqb Pos.eqb]. cbn [stores_id en_id v_sel]. unfold field. rewrite read_cons. cbn [a_reader plain en_c].
  unfold bind at 1 2. rewrite read_plain. unfold bind at 1, u8. rewrite E2. cbn [ret app]. rewrite read_cons. unfold bind at 1 2. rewrite read_plain.
  unfold bind at 1. cbn [read_ty]. destruct (cu_read (unroll types fuel d 1) [] r2) as [[v|e| |] r3]; try discriminate IH. reflexivity.
Qed.
Lemma no_stack_suffices depth : exists input, length input = 2 * depth /\ forall fuel, rec_from_bytes types fuel depth 1 input 0 = Diverge.
Proof.
  exists (repeat x01 (2 * depth)). split; [apply repeat_length|]. intros fuel. unfold rec_from_bytes, from_bytes, from_reader. cbn [Nat.eqb read_ty]. rewrite bind_ret_l.
  pose proof (ones fuel depth (reader_new (cursor (repeat x01 (2 * depth)))) 0 [] (readable_new SeekSource _) ltac:(split; reflexivity) ltac:(rewrite app_nil_r; reflexivity)) as H.
  unfold bind. destruct (cu_read _ [] _) as [[v|e| |] r]; try discriminate H. reflexivity.
Qed.
Lemma endless fuel depth input : rec_from_bytes types fuel depth 3 input 0 = Diverge.
Proof.
  assert (H : forall d r, fst (cu_read (unroll types fuel d 3) [] r) = Diverge).
  { induction d as [|d IH]; intros r; [reflexivity|]. cbn [unroll cu_read types]. unfold Endless, field. rewrite read_struct. cbn [read_seek read_magic c_seek c_magic cplain option_map].
    rewrite !bind_ret_l. rewrite read_cons. cbn [a_reader plain]. unfold bind at 1 2. rewrite read_plain. unfold bind at 1. cbn [read_ty]. unfold bind at 1.
    specialize (IH r). destruct (cu_read (unroll types fuel d 3) [] r) as [[v|e| |] r3]; try discriminate IH. reflexivity. }
  unfold rec_from_bytes, from_bytes, from_reader. cbn [Nat.eqb read_ty]. rewrite bind_ret_l. unfold bind. specialize (H depth (reader_new (cursor input))).
  destruct (cu_read _ [] _) as [[v|e| |] r]; try discriminate H. reflexivity.
Qed.
Lemma no_chain fuel depth input bit x : rec_from_bytes types fuel depth 2 input bit <> Ok x.
Proof.
  assert (H : forall d r v r', cu_read (unroll types fuel d 2) [] r <> (Ok v, r')).
  { induction d as [|d IH]; intros r v r' E; [discriminate|]. cbn [unroll cu_read types] in E. unfold Chain, field in E. rewrite read_struct in E.
    cbn [read_seek read_magic c_seek c_magic cplain option_map] in E. rewrite !bind_ret_l in E.
    apply bind_inv in E. destruct E as (l & r1 & E & _). rewrite read_cons in E. cbn [a_reader plain] in E.
    apply bind_inv in E. destruct E as (v1 & r2 & _ & E). apply bind_inv in E. destruct E as (l2 & r3 & E & _). rewrite read_cons in E. cbn [a_reader plain] in E.
    apply bind_inv in E. destruct E as (v2 & r4 & E & _). rewrite read_plain in E. apply bind_inv in E. destruct E as (v3 & r5 & E & _). cbn [read_ty] in E.
    apply bind_inv in E. destruct E as (v4 & r6 & E & _). exact (IH _ _ _ E). }
  unfold rec_from_bytes, from_bytes, from_reader. cbn [read_ty]. destruct (bind _ _ _) as [y r] eqn:E. destruct y as [[n v]|e| |]; try discriminate.
  apply bind_inv in E. destruct E as (u & r1 & _ & E). apply bind_inv in E. destruct E as (w & r2 & E & _). now apply H in E.
Qed.
