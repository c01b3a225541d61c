(** Model of the build without the cargo feature [bits].  No proofs here.

    The attributes [bits], [pad_bits_*], [bits_read] and the context [BitSize] do not
    exist, [Leftover] has only its [Byte] case (src/reader.rs:28-34), the writer
    buffers nothing (src/writer.rs:21-28).  What the feature does not touch is that of
    Derive.v, Containers.v and Prims.v: with nothing buffered [write_bytes]
    (src/writer.rs:390-396) and [read_bytes_other] (src/reader.rs:505-523) are the
    same code.  Padding is kept in bits as in Derive.v, so that a type is the same in
    both builds; [pad / 8] is the number of bytes the attribute says. *)
From Verif Require Import Base Stream Reader Writer Prims Containers Derive.

(** The contexts without [BitSize]: src/impls/primitive.rs:383, 415, 598, 609, 740,
    758, 799, 1007, 1088, 1224, 1248. *)
Definition byte_pctx (c : pctx) : bool :=
  match c with CB _ | CEB _ _ | CBO _ _ | CEBO _ _ _ => false | _ => true end.
Definition b_with_pctx {S A} (lim : option (limit value)) (args : list value) (k : pctx -> ST S A) : ST S A :=
  with_pctx lim args (fun c => if byte_pctx c then k c else panic).

(** src/reader.rs:212-217 [skip_bits]. *)
Definition b_skip_bits (amt : nat) : RM unit := if 0 <? amt then panic else ret tt.

(** deku_read.rs:631-652 [emit_padding_bytes], mod.rs:397-406; [PAD_ARRAY_SIZE] is 64
    (deku-derive/src/lib.rs:51).  [fuel] bounds the iterations; each one reads at least
    a byte. *)
Fixpoint b_skip_loop (fuel n : nat) : RM unit :=
  match n with
  | O => ret tt
  | _ =>
      match fuel with
      | O => diverge
      | S f =>
          let chunk := Nat.min 64 n in
          let* _ := read_bytes chunk chunk Msb0 in
          b_skip_loop f (n - chunk)
      end
  end.
Definition b_read_pad (p : option Z) : RM unit :=
  match p with
  | None => ret tt
  | Some z =>
      match to_usize (z / 8) with
      | None => fail InvalidParam
      | Some n => fun r => b_skip_loop (N.to_nat n) (N.to_nat n) r
      end
  end.
(** deku_read.rs:935-939 and 990-1008. *)
Definition b_read_field (c : cattrs) (a : fattrs) (vec_u8 : bool) (ctx fs : list value)
    (rd : option (limit value) -> list value -> RM value) : RM value :=
  let* _ := read_seek (option_map (fun f => f ctx fs) (a_seek a)) in
  let* _ := read_magic (a_magic a) in
  let* _ := b_read_pad (eval0 (a_pad_before a) ctx fs) in
  fun r =>
    let off := r_bits r in
    (let* v := field_read_tokens a ctx fs off
                 (field_read_normal a ctx fs off (field_read_func c a vec_u8 ctx fs off rd)) in
     let* _ := asserts a ctx fs off v in
     let* _ := b_read_pad (eval0 (a_pad_after a) ctx (fs ++ [v])) in
     ret v) r.

(** deku_write.rs:583-603 [emit_padding_bytes]. *)
Fixpoint b_pad_loop (fuel n : nat) : WM unit :=
  match n with
  | O => ret tt
  | _ =>
      match fuel with
      | O => diverge
      | S f =>
          let chunk := Nat.min 64 n in
          let* _ := write_bytes (repeat x00 chunk) in
          b_pad_loop f (n - chunk)
      end
  end.
Definition b_write_pad (p : option Z) : WM unit :=
  match p with
  | None => ret tt
  | Some z =>
      match to_usize (z / 8) with
      | None => fail InvalidParam
      | Some n => fun w => b_pad_loop (N.to_nat n) (N.to_nat n) w
      end
  end.
(** deku_write.rs:782-786 and 844-859. *)
Definition b_write_field (c : cattrs) (a : fattrs) (stored ctx fs : list value) (v : value)
    (wr : list value -> value -> WM unit) : WM unit :=
  let* _ := write_seek (option_map (fun f => f ctx fs) (a_seek a)) in
  let* _ := write_magic (a_magic a) in
  let* _ := b_write_pad (eval0 (a_pad_before a) ctx fs) in
  fun w =>
    let off := w_bits w in
    (let* _ := asserts a ctx fs off v in
     let* _ := field_write_tokens a ctx fs off (field_write_func c a stored ctx fs off v wr) in
     b_write_pad (eval0 (a_pad_after a) ctx (fs ++ [v]))) w.

Section Impls.
Variable cu : nat -> custom.

(** [read_ty] of Derive.v with the functions above. *)
Fixpoint b_read_ty (fuel : nat) (t : ty) (lim : option (limit value)) (args : list value) {struct t} : RM value :=
  match t with
  | TPrim p => b_with_pctx lim args (fun c => let* n := prim_read p c in ret (VNum n))
  | TBool => b_with_pctx lim args (fun c => let* b := read_bool c in ret (VBool b))
  | TNonZero p => b_with_pctx lim args (fun c => let* n := read_nonzero p c in ret (VNum n))
  | TUnit => ret VUnit
  | TCString =>
      match lim, args with
      | None, [] => let* s := read_cstring fuel in ret (VList (map VNum s))
      | None, [VBytes n] => let* s := read_cstring_bytes (N.of_nat n) in ret (VList (map VNum s))
      | _, _ => panic
      end
  | TOption t => let* v := b_read_ty fuel t lim args in ret (VSome v)
  | TPair a b => let* x := b_read_ty fuel a lim args in let* y := b_read_ty fuel b lim args in ret (VPair x y)
  | TArray n t => let* vs := read_array n (b_read_ty fuel t lim args) in ret (VList vs)
  | TVec k size t =>
      match lim with
      | Some l => let* vs := vec_read fuel (slot_size k size) (b_read_ty fuel t None args) l in ret (VList (collect k vs))
      | None => panic
      end
  | TStruct c fs =>
      let ctx := ctx_args c args in
      let* _ := read_seek (option_map (fun f => f ctx) (c_seek c)) in
      let* _ := read_magic (c_magic c) in
      let* vs := b_fields_read fuel c ctx fs None [] in
      ret (VRec vs)
  | TEnum e idt vs =>
      let ctx := ctx_args (en_c e) args in
      let* _ := read_magic (c_magic (en_c e)) in
      let* id := match en_id e with
                 | Some f => ret (f ctx)
                 | None => b_read_ty fuel idt None (id_args e ctx)
                 end in
      b_variants_read fuel e ctx id vs 0 None
  | TCustom k => match lim with None => cu_read (cu k) args | Some _ => panic end
  end
with b_fields_read (fuel : nat) (c : cattrs) (ctx : list value) (fs : fields) (id : option value) (acc : list value)
    {struct fs} : RM (list value) :=
  match fs with
  | FNil => ret []
  | FCons a t wire tl =>
      let* v := match id, a_reader a with
                | Some x, None => ret x
                | _, _ => b_read_field c a (is_vec_u8 t) ctx acc (fun lim args => b_read_ty fuel wire lim args)
                end in
      let* vs := b_fields_read fuel c ctx tl None (acc ++ [v]) in
      ret (if a_temp a then vs else v :: vs)
  end
with b_variants_read (fuel : nat) (e : eattrs) (ctx : list value) (id : value) (vs : variants) (k : nat)
    (default : option (RM value)) {struct vs} : RM value :=
  match vs with
  | VNil => match default with Some m => m | None => fail Parse end
  | VCons v fs tl =>
      let body := let* l := b_fields_read fuel (en_c e) ctx fs (if stores_id e v then Some id else None) [] in
                  ret (VVar k l) in
      if matches (v_sel v) id then body
      else b_variants_read fuel e ctx id tl (S k)
             (match default with Some _ => default | None => if v_default v then Some body else None end)
  end.

(** [write_ty] of Derive.v with the functions above. *)
Fixpoint b_write_ty (t : ty) (args : list value) (v : value) {struct t} : WM unit :=
  match t with
  | TPrim p | TNonZero p => match v with VNum n => b_with_pctx None args (fun c => prim_write p c n) | _ => panic end
  | TBool => match v with VBool b => b_with_pctx None args (fun c => write_bool c b) | _ => panic end
  | TUnit => ret tt
  | TCString =>
      match v with
      | VList l => b_with_pctx None args (fun c => write_cstring c (map (fun x => match x with VNum n => n | _ => 0%N end) l))
      | _ => panic
      end
  | TOption t => match v with VSome x => b_write_ty t args x | VNone => ret tt | _ => panic end
  | TPair a b => match v with VPair x y => let* _ := b_write_ty a args x in b_write_ty b args y | _ => panic end
  | TArray _ t | TVec _ _ t => match v with VList l => write_list (b_write_ty t args) l | _ => panic end
  | TStruct c fs =>
      match v with
      | VRec l =>
          let ctx := ctx_args c args in
          let* _ := write_seek (option_map (fun f => f ctx) (c_seek c)) in
          let* _ := write_magic (c_magic c) in
          b_fields_write c ctx fs None l l []
      | _ => panic
      end
  | TEnum e idt vs =>
      match v with
      | VVar k l =>
          let* _ := write_magic (c_magic (en_c e)) in
          b_variant_write e (ctx_args (en_c e) args) (fun args x => b_write_ty idt args x) vs k l
      | _ => panic
      end
  | TCustom k => cu_write (cu k) args v
  end
with b_fields_write (c : cattrs) (ctx : list value) (fs : fields) (id : option (list value)) (stored todo acc : list value)
    {struct fs} : WM unit :=
  match fs with
  | FNil => ret tt
  | FCons a t _ tl =>
      let v := field_value a stored todo ctx acc in
      let* _ := match id with
                | Some args => b_write_ty t args v
                | None => b_write_field c a stored ctx acc v (fun args x => b_write_ty t args x)
                end in
      b_fields_write c ctx tl None stored (field_rest a todo) (acc ++ [v])
  end
with b_variant_write (e : eattrs) (ctx : list value) (wid : list value -> value -> WM unit) (vs : variants) (k : nat)
    (l : list value) {struct vs} : WM unit :=
  match vs with
  | VNil => panic
  | VCons v fs tl =>
      match k with
      | O =>
          let* _ := write_id e v fs ctx wid in
          b_fields_write (en_c e) ctx fs (match v_sel v with SPat _ _ => Some (stored_id_args e ctx) | _ => None end) l l []
      | S k' => b_variant_write e ctx wid tl k' l
      end
  end.

(** deku_read.rs:115-148, 404-437 and 1041-1071. *)
Definition b_from_reader (fuel : nat) (t : ty) (s : stream) (bit : nat) : res (nat * value) * stream :=
  let '(x, r) :=
    (let* _ := if bit =? 0 then ret tt else b_skip_bits bit in
     let* v := b_read_ty fuel t None [] in
     fun r => (Ok (r_bits r, v), r)) (reader_new s) in
  (x, r_s r).
Definition b_from_bytes (fuel : nat) (t : ty) (input : list byte) (bit : nat) : res ((list byte * nat) * value) :=
  match b_from_reader fuel t (cursor input) bit with
  | (Ok (bits_read, v), _) =>
      let idx := bits_read / 8 in
      if idx <=? length input then Ok ((skipn idx input, bits_read mod 8), v)
      else Err (Incomplete (8 * (idx - length input)))
  | (Err e, _) => Err e
  | (Panic, _) => Panic
  | (Diverge, _) => Diverge
  end.
Definition b_try_from (fuel : nat) (t : ty) (input : list byte) : res value :=
  match b_from_reader fuel t (cursor input) 0 with
  | (Ok (bits_read, v), _) =>
      let bytes_read := bits_read / 8 in
      if bytes_read <? length input then Err Parse
      else if length input <? bytes_read then Err (Incomplete (bits_read - length input * 8))
      else Ok v
  | (Err e, _) => Err e
  | (Panic, _) => Panic
  | (Diverge, _) => Diverge
  end.
(** src/lib.rs:708-743; [finalize] does nothing (src/writer.rs:404-413). *)
Definition b_to_bytes (t : ty) (v : value) : res (list byte) :=
  let '(x, w) := b_write_ty t [] v (writer_new vec_sink) in
  res_map x (fun _ => k_data (w_k w)).
Definition b_to_slice (t : ty) (v : value) (buf : list byte) : res nat * list byte :=
  let '(x, w) := b_write_ty t [] v (writer_new (slice_sink buf)) in
  (res_map x (fun _ => w_bits w / 8), k_data (w_k w)).
End Impls.
