(** What the attributes of derived types mean, C43-C47.

    Vocabulary: [AttrSpec.v] (attributes and what they stand for), [CodecSpec.v]
    ([layout]), [DeriveSpec.v] ([chosen], [encode_list]), [ContainerSpec.v]
    ([back_to_back], [first_stop], [until_end], [forward]). *)
From Coq Require Import Lia.
From Verif Require Import Base Spec Stream Reader Session Writer WSession Prims CodecSpec Containers ContainerSpec Derive DeriveSpec AttrSpec AttrFacts.

(** ** C43: attributes select the layout *)

(** The bits of a struct are the layouts of its fields, one after the other: the byte
    order and bit order are those of the field, else of the container, else little-endian
    and most significant bit first; the size is [bits], [bytes] or the whole type.
    Missing: streams with fields of both bit orders inside bytes (C17). *)
Theorem C43_struct_layout_partial : forall cu fuel e ord o fs,
  all_fit e ord o 0 fs -> list_sum (map i_bits fs) <= fuel ->
  let t := TStruct (i_container e ord) (i_fields fs) in
  exists bytes pad, to_bytes cu t (VRec (i_values fs)) = Ok bytes /\
    bitstring o bytes = concat (map (i_wire e o) fs) ++ repeat false pad /\ pad < 8 /\
    forall tail, exists rest, from_bytes cu fuel t (bytes ++ tail) 0 = Ok (rest, VRec (i_values fs)).
Proof. exact struct_layout. Qed.
Print Assumptions C43_struct_layout_partial.
(** The id of an enum comes first and is laid out by [id_type], [id_endian], [bits] and
    [bytes]; [f] describes it. *)
Theorem C43_enum_layout_partial : forall cu fuel e ord o f vs k sel d fs, i_order f = None -> chosen vs (VNum (i_val f)) k ->
  nth_variant vs k = Some (mkV sel d, i_fields fs) -> sel = SId (VNum (i_val f)) \/ sel = SDisc (VNum (i_val f)) ->
  all_fit e ord o 0 (f :: fs) -> list_sum (map i_bits (f :: fs)) <= fuel ->
  let t := TEnum (i_enum_attrs e ord f) (TPrim (i_type f)) vs in
  exists bytes pad, to_bytes cu t (VVar k (i_values fs)) = Ok bytes /\
    bitstring o bytes = concat (map (i_wire e o) (f :: fs)) ++ repeat false pad /\ pad < 8 /\
    forall tail, exists rest, from_bytes cu fuel t (bytes ++ tail) 0 = Ok (rest, VVar k (i_values fs)).
Proof. exact enum_layout. Qed.
Print Assumptions C43_enum_layout_partial.
(** Any struct, any fields: the attributes of the container can be written on every field
    instead. *)
Theorem C43_inherited : forall cu fuel c fs args,
  (forall lim r, read_ty cu fuel (TStruct (without_layout c) (spell_out c fs)) lim args r = read_ty cu fuel (TStruct c fs) lim args r) /\
  (forall v w, write_ty cu (TStruct (without_layout c) (spell_out c fs)) args v w = write_ty cu (TStruct c fs) args v w).
Proof. exact struct_spelled. Qed.
Print Assumptions C43_inherited.
Theorem C43_inherited_enum : forall cu fuel e idt vs args,
  (forall lim r, read_ty cu fuel (TEnum e idt (spell_out_variants (en_c e) vs)) lim args r = read_ty cu fuel (TEnum e idt vs) lim args r) /\
  (forall v w, write_ty cu (TEnum e idt (spell_out_variants (en_c e) vs)) args v w = write_ty cu (TEnum e idt vs) args v w).
Proof. exact enum_spelled. Qed.
Print Assumptions C43_inherited_enum.
(** Both bit orders in one byte: struct { #[deku(bits = 3, bit_order = "msb")] a: u8, #[deku(bits = 2, bit_order = "lsb")] b: u8 }
    is not read back. *)
Definition two_orders (a b : N) : list ifield := [mkI PU8 None (Some Msb0) (InBits 3) a; mkI PU8 None (Some Lsb0) (InBits 2) b].
Theorem C43_two_orders_refuted : exists a b bytes v rest, let t := TStruct (i_container None None) (i_fields (two_orders a b)) in
  (a < 8)%N /\ (b < 4)%N /\ to_bytes no_customs t (VRec (i_values (two_orders a b))) = Ok bytes /\
  from_bytes no_customs 9 t bytes 0 = Ok (rest, v) /\ v <> VRec (i_values (two_orders a b)).
Proof.
  exists 5%N, 1%N. do 3 eexists. cbv zeta. split; [reflexivity|]. split; [reflexivity|]. split; [vm_compute; reflexivity|]. split; [vm_compute; reflexivity|]. discriminate.
Qed.
Print Assumptions C43_two_orders_refuted.
(** #[deku(endian = "big")] struct { #[deku(bits = 4)] a: u8, #[deku(bits = 12, endian = "little")] b: u16,
      c: u16, #[deku(bytes = 3, endian = "little")] d: u32, #[deku(endian = "little")] e: u16 } *)
Definition mixed : list ifield :=
  [mkI PU8 None None (InBits 4) 0xa; mkI (PU 2) (Some Little) None (InBits 12) 0xbcd; mkI (PU 2) None None Whole 0x1234;
   mkI (PU 4) (Some Little) None (InBytes 3) 0x56789a; mkI (PU 2) (Some Little) None Whole 0xfedc].
Example C43_case : all_fit (Some Big) None Msb0 0 mixed /\ list_sum (map i_bits mixed) = 72 /\
  to_bytes no_customs (TStruct (i_container (Some Big) None) (i_fields mixed)) (VRec (i_values mixed)) =
    Ok [xac; xdb; x12; x34; x9a; x78; x56; xdc; xfe].
Proof.
  split; [|split; vm_compute; reflexivity].
  repeat (split; [unfold i_fits; cbn; repeat split; auto; try discriminate; try lia; intros [H|H]; congruence|]). exact I.
Qed.
(** #[deku(id_type = "u16", id_endian = "big", bits = 12, bit_order = "lsb")] and a field. *)
Example C43_case_enum : let f := mkI (PU 2) (Some Little) None (InBits 12) 0x321 in
  let fs := [mkI PU8 None None (InBits 4) 0x5] in
  let vs := VCons (mkV (SId (VNum 0x321)) false) (i_fields fs) VNil in
  all_fit None (Some Lsb0) Lsb0 0 (f :: fs) /\
  to_bytes no_customs (TEnum (i_enum_attrs None (Some Lsb0) f) (TPrim (PU 2)) vs) (VVar 0 (i_values fs)) = Ok [x21; x53] /\
  bitstring Lsb0 [x21; x53] = concat (map (i_wire None Lsb0) (f :: fs)).
Proof.
  cbv zeta. split; [|split; vm_compute; reflexivity].
  repeat (split; [unfold i_fits; cbn; repeat split; auto; try discriminate; try lia; intros; congruence|]). exact I.
Qed.

(** ** C44: context *)

(** Without arguments a type uses its [ctx_default]; with arguments it does not. *)
Theorem C44_default : forall cu fuel c fs d, c_ctx_default c = Some d ->
  (forall lim r, read_ty cu fuel (TStruct c fs) lim [] r = read_ty cu fuel (TStruct (without_default c) fs) lim d r) /\
  (forall v w, write_ty cu (TStruct c fs) [] v w = write_ty cu (TStruct (without_default c) fs) d v w).
Proof. intros cu fuel c fs d H. exact (struct_ctx cu fuel c fs [] d (args_default c d H)). Qed.
Print Assumptions C44_default.
Theorem C44_default_enum : forall cu fuel e idt vs d, c_ctx_default (en_c e) = Some d ->
  (forall lim r, read_ty cu fuel (TEnum e idt vs) lim [] r = read_ty cu fuel (TEnum (enum_without_default e) idt vs) lim d r) /\
  (forall v w, write_ty cu (TEnum e idt vs) [] v w = write_ty cu (TEnum (enum_without_default e) idt vs) d v w).
Proof. intros cu fuel e idt vs d H. exact (enum_ctx cu fuel e idt vs [] d (args_default (en_c e) d H)). Qed.
Print Assumptions C44_default_enum.
Theorem C44_given : forall cu fuel c fs args, args <> [] ->
  (forall lim r, read_ty cu fuel (TStruct c fs) lim args r = read_ty cu fuel (TStruct (without_default c) fs) lim args r) /\
  (forall v w, write_ty cu (TStruct c fs) args v w = write_ty cu (TStruct (without_default c) fs) args v w).
Proof. intros cu fuel c fs args H. exact (struct_ctx cu fuel c fs args args (args_given c args H)). Qed.
Print Assumptions C44_given.
Theorem C44_given_enum : forall cu fuel e idt vs args, args <> [] ->
  (forall lim r, read_ty cu fuel (TEnum e idt vs) lim args r = read_ty cu fuel (TEnum (enum_without_default e) idt vs) lim args r) /\
  (forall v w, write_ty cu (TEnum e idt vs) args v w = write_ty cu (TEnum (enum_without_default e) idt vs) args v w).
Proof. intros cu fuel e idt vs args H. exact (enum_ctx cu fuel e idt vs args args (args_given (en_c e) args H)). Qed.
Print Assumptions C44_given_enum.
(** A field with [ctx = "f"] is read with exactly the arguments that [f] computes from
    the values of the fields before it, and written with the same. *)
Theorem C44_passed : forall cu fuel c pre f t tl args r l r', c_endian c = None -> c_order c = None -> all_fields (fun a => a_temp a = false) pre ->
  read_ty cu fuel (TStruct c (fapp pre (FCons (ctx_only f) t t tl))) None args r = (Ok (VRec l), r') ->
  exists before v after r1 r2, l = before ++ v :: after /\ length before = stored_count pre /\
    read_ty cu fuel t None (f (ctx_args c args) before (r_bits r1)) r1 = (Ok v, r2).
Proof. exact ctx_passed. Qed.
Print Assumptions C44_passed.
Theorem C44_passed_write : forall cu c pre f t tl args before v after w w', c_endian c = None -> c_order c = None -> all_fields (fun a => a_temp a = false) pre ->
  length before = stored_count pre ->
  write_ty cu (TStruct c (fapp pre (FCons (ctx_only f) t t tl))) args (VRec (before ++ v :: after)) w = (Ok tt, w') ->
  exists w1 w2, write_ty cu t (f (ctx_args c args) before (w_bits w1)) v w1 = (Ok tt, w2).
Proof. exact ctx_passed_write. Qed.
Print Assumptions C44_passed_write.
(** #[deku(ctx = "n: u8", ctx_default = "2")] struct Inner { #[deku(count = "n")] v: Vec<u16> },
    struct Outer { n: u8, #[deku(ctx = "*n + 1")] inner: Inner, last: Inner } *)
Definition Inner : ty :=
  TStruct (mkC None None [] None (Some [VNum 2])) (FCons (counting (fun ctx _ _ => num_at ctx 0)) (TVec KVec 2 (TPrim (PU 2))) (TVec KVec 2 (TPrim (PU 2))) FNil).
Definition Outer : ty :=
  TStruct cplain (fapp (FCons plain (TPrim PU8) (TPrim PU8) FNil)
    (FCons (ctx_only (fun _ fs _ => [VNum (Z.to_N (num_at fs 0) + 1)])) Inner Inner (FCons plain Inner Inner FNil))).
Example C44_case :
  from_bytes no_customs 9 Outer [x00; x01; x00; x02; x00; x03; x00; xff] 0 =
    Ok (([xff], 0), VRec [VNum 0; VRec [VList [VNum 1]]; VRec [VList [VNum 2; VNum 3]]]).
Proof. vm_compute. reflexivity. Qed.

(** ** C45: temporary fields *)

(** Reading: as if the field were kept, and its value dropped at the end. *)
Theorem C45_read : forall cu fuel c fs lim args r,
  read_ty cu fuel (TStruct c fs) lim args r =
  (let* v := read_ty cu fuel (TStruct c (kept fs)) lim args in
   ret (match v with VRec vs => VRec (stored_of fs vs) | _ => v end)) r.
Proof. exact struct_kept_read. Qed.
Print Assumptions C45_read.
(** Writing: as if the field were kept and had the value of its [temp_value]. *)
Theorem C45_write : forall cu c fs args l vs w, filled l (ctx_args c args) fs l [] vs -> all_fields (fun a => a_writer a = None) fs ->
  write_ty cu (TStruct c fs) args (VRec l) w = write_ty cu (TStruct c (kept fs)) args (VRec vs) w.
Proof. exact struct_kept_write. Qed.
Print Assumptions C45_write.
Definition temp_len : fattrs :=
  {| a_endian := None; a_order := None; a_bits := None; a_bytes := None; a_ctx := fun _ _ _ => [];
     a_limit := None; a_map := None; a_reader := None; a_writer := None; a_skip := None; a_cond := None;
     a_default := fun _ _ _ => VUnit; a_assert := None; a_assert_eq := None; a_seek := None; a_magic := [];
     a_pad_before := None; a_pad_after := None; a_temp := true;
     a_temp_value := Some (fun stored _ _ => match stored with [_; VList l] => VNum (N.of_nat (length l)) | _ => VUnit end); a_update := None |}.
Definition tempted : fields :=
  FCons plain (TPrim PU8) (TPrim PU8) (FCons temp_len (TPrim PU8) (TPrim PU8)
    (FCons (counting (fun _ fs _ => num_at fs 1)) (TVec KVec 2 (TPrim (PU 2))) (TVec KVec 2 (TPrim (PU 2))) FNil)).
Example C45_case : let l := [VNum 7; VList [VNum 1; VNum 2; VNum 3]] in
  filled l [] tempted l [] [VNum 7; VNum 3; VList [VNum 1; VNum 2; VNum 3]] /\
  to_bytes no_customs (TStruct cplain tempted) (VRec l) = Ok [x07; x03; x01; x00; x02; x00; x03; x00] /\
  from_bytes no_customs 9 (TStruct cplain tempted) [x07; x03; x01; x00; x02; x00; x03; x00] 0 = Ok (([], 0), VRec l).
Proof.
  cbv zeta. split; [|split; vm_compute; reflexivity].
  apply fi_keep; [reflexivity|]. refine (fi_temp _ _ temp_len _ _ _ (fun stored _ _ => match stored with [_; VList l] => VNum (N.of_nat (length l)) | _ => VUnit end) _ _ _ eq_refl eq_refl _). apply fi_keep; [reflexivity|]. constructor.
Qed.

(** ** C46: update *)

(** [update] sets exactly the fields with an [update] attribute, in order; each
    expression sees the fields before it updated and the others as they were. *)
Theorem C46_struct : forall c fs l l', length l = length (updates_of fs) ->
  update (TStruct c fs) (VRec l) = Ok (VRec l') <-> updated (updates_of fs) l l'.
Proof. exact update_struct. Qed.
Print Assumptions C46_struct.
Theorem C46_enum : forall e idt vs k v fs l l', nth_variant vs k = Some (v, fs) -> length l = length (updates_of fs) ->
  update (TEnum e idt vs) (VVar k l) = Ok (VVar k l') <-> updated (updates_of fs) l l'.
Proof. exact update_enum. Qed.
Print Assumptions C46_enum.
(** It fails only with the error of one of the expressions. *)
Theorem C46_failure : forall c fs l e, length l = length (updates_of fs) -> update (TStruct c fs) (VRec l) = Err e ->
  exists i f l', nth_error (updates_of fs) i = Some (Some f) /\ length l' = i /\ f (l' ++ skipn i l) = Err e.
Proof. exact update_fails. Qed.
Print Assumptions C46_failure.
Theorem C46_idempotent : forall us l l', length l = length us -> (forall i f, nth_error us i = Some (Some f) -> independent us f) ->
  updated us l l' -> updated us l' l'.
Proof. exact update_idempotent. Qed.
Print Assumptions C46_idempotent.
(** The documented use: whatever the length field holds, after [update] the struct
    writes and reads back. *)
Theorem C46_round_trip : forall cu fuel e ord o p size t items es,
  (forall q, t = TPrim q -> q <> PU8) -> 0 < prim_bytes p -> size <> 0%N ->
  (N.of_nat (length items) < 2 ^ N.of_nat (prim_width p))%N -> (N.of_nat (length items) * size <= isize_max)%N ->
  encode_list (fun pos x => encode SeekSource o no_format t None (opt_list (option_map VEnd e) ++ opt_list (option_map VOrd ord)) pos x) (prim_width p) items = Some es ->
  prim_width p + length (concat es) <= fuel ->
  let T := counted KVec (i_container e ord) p size t in
  let v := VRec [VNum (N.of_nat (length items)); VList items] in
  (forall n, update T (VRec [n; VList items]) = Ok v) /\
  exists bytes, to_bytes cu T v = Ok bytes /\ forall tail, exists rest, from_bytes cu fuel T (bytes ++ tail) 0 = Ok (rest, v).
Proof. exact update_round_trip. Qed.
Print Assumptions C46_round_trip.
Example C46_case : exists es, encode_list (fun pos x => encode SeekSource Msb0 no_format (TPrim (PU 2)) None [VEnd Big] pos x) 8 [VNum 0x102; VNum 0x304] = Some es /\
  update (counted KVec (i_container (Some Big) None) PU8 2 (TPrim (PU 2))) (VRec [VNum 99; VList [VNum 0x102; VNum 0x304]]) =
    Ok (VRec [VNum 2; VList [VNum 0x102; VNum 0x304]]) /\
  to_bytes no_customs (counted KVec (i_container (Some Big) None) PU8 2 (TPrim (PU 2))) (VRec [VNum 2; VList [VNum 0x102; VNum 0x304]]) = Ok [x02; x01; x02; x03; x04].
Proof. eexists. split; [vm_compute; reflexivity|]. split; vm_compute; reflexivity. Qed.
Example C46_independent_case : independent [Some (len_update PU8); None] (len_update PU8) /\
  updated [Some (len_update PU8); None] [VNum 9; VList [VUnit]] [VNum 1; VList [VUnit]].
Proof.
  split.
  - intros [|a [|b [|]]] [|c [|d [|]]] H1 H2 H; try discriminate. specialize (H 1 eq_refl). cbn in H. injection H as ->. reflexivity.
  - split; [reflexivity|]. intros [|[|[|i]]] u Hu; try discriminate; injection Hu as <-; [exists (VNum 1); split; reflexivity|reflexivity].
Qed.

(** ** C47: limits *)

(** A field of type Vec, [Box<[T]>] or [Arc<[T]>] (other than a literal [Vec<u8>] with [count], C27) is
    read up to the documented limit, computed from the fields before it. *)
Theorem C47_limits : forall cu fuel c pre l b size t tl args r vals r',
  c_endian c = None -> c_order c = None -> all_fields (fun a => a_temp a = false) pre ->
  In b [KVec; KSlice] -> (b, t) <> (KVec, TPrim PU8) -> forward (read_ty cu fuel t None []) -> size <> 0%N ->
  read_ty cu fuel (TStruct c (fapp pre (FCons (limit_only l) (TVec b size t) (TVec b size t) tl))) None args r = (Ok (VRec vals), r') ->
  exists before items after r1 r2, vals = before ++ VList items :: after /\ length before = stored_count pre /\
    match limit_number l (ctx_args c args) before (r_bits r1) with Some z => (0 <= z)%Z | None => True end /\
    (limit_small size l (ctx_args c args) before (r_bits r1) ->
     limit_met l (ctx_args c args) before (read_ty cu fuel t None []) r1 items r2).
Proof.
  intros cu fuel c pre l b size t tl args r vals r' He Ho Ht Hk' Hb' Hf Hz H.
  assert (Hk : hashed b = false) by (destruct Hk' as [<-|[<-|[]]]; reflexivity).
  assert (Hb : is_vec_u8 (TVec b size t) = false) by (destruct b, t as [[]| | | | | | | | | | |]; reflexivity || congruence).
  pose proof (limit_field cu fuel c pre l b size t tl args r vals r' He Ho Ht Hb Hf) as L. unfold collect, slot_size in L. rewrite Hk in L. exact (L Hz H).
Qed.
Print Assumptions C47_limits.
(** A negative number, or one that does not fit, is an error before anything is read. *)
Theorem C47_bad_number : forall cu fuel c l b size t tl args r, c_seek c = None -> c_magic c = [] -> c_endian c = None -> c_order c = None ->
  (b, t) <> (KVec, TPrim PU8) ->
  match limit_number l (ctx_args c args) [] (r_bits r) with Some z => (z < 0 \/ Z.of_N usize_max < z)%Z | None => False end ->
  read_ty cu fuel (TStruct c (FCons (limit_only l) (TVec b size t) (TVec b size t) tl)) None args r = (Err Parse, r).
Proof.
  intros cu fuel c l b size t tl args r H1 H2 H3 H4 Hb'.
  assert (Hb : is_vec_u8 (TVec b size t) = false) by (destruct b, t as [[]| | | | | | | | | | |]; reflexivity || congruence).
  now apply limit_bad.
Qed.
Print Assumptions C47_bad_number.
Definition limited_struct (l : flimit) : ty :=
  TStruct cplain (fapp (FCons plain (TPrim PU8) (TPrim PU8) FNil) (FCons (limit_only l) (TVec KVec 2 (TPrim (PU 2))) (TVec KVec 2 (TPrim (PU 2))) FNil)).
Example C47_case : let input := [x04; x01; x00; x02; x00; x00; x00; x03; x00] in
  from_bytes no_customs 9 (limited_struct (FCount (fun _ fs _ => num_at fs 0 - 1)%Z)) input 0 = Ok (([x03; x00], 0), VRec [VNum 4; VList [VNum 1; VNum 2; VNum 0]]) /\
  from_bytes no_customs 9 (limited_struct (FBytes (fun _ fs _ => num_at fs 0))) input 0 = Ok (([x00; x00; x03; x00], 0), VRec [VNum 4; VList [VNum 1; VNum 2]]) /\
  from_bytes no_customs 9 (limited_struct (FBits (fun _ fs _ => 4 * num_at fs 0)%Z)) input 0 = Ok (([x02; x00; x00; x00; x03; x00], 0), VRec [VNum 4; VList [VNum 1]]) /\
  from_bytes no_customs 9 (limited_struct (FUntil (fun _ _ _ vs => value_eqb (last vs VUnit) (VNum 0)))) input 0 = Ok (([x03; x00], 0), VRec [VNum 4; VList [VNum 1; VNum 2; VNum 0]]) /\
  from_bytes no_customs 9 (limited_struct FAll) input 0 = Ok (([], 0), VRec [VNum 4; VList [VNum 1; VNum 2; VNum 0; VNum 3]]) /\
  from_bytes no_customs 9 (limited_struct (FCount (fun _ fs _ => num_at fs 0 - 9)%Z)) input 0 = Err Parse.
Proof. repeat split; vm_compute; reflexivity. Qed.
