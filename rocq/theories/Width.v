(** Model of the generated code on a target whose [usize] is not 64 bits wide: the functions
    of Containers.v and Derive.v in which [usize] and [isize] matter, with the prefix [n_],
    and everything that calls them.  No proofs here.

    [tg_bits] is the number of bits of [usize]; [tg_size n] is the size on this target of
    an element type whose size on a 64-bit target is [n] bytes (types with pointers or
    [usize] in them are smaller).  Not modelled: the counters of bits ([bits_read], and in
    [Writer] [bits_written]) are still unbounded, so inputs and outputs are taken to be
    shorter than [usize::MAX] bits and seeks to stay below that. *)
From Verif Require Import Base Stream Reader Writer Prims Containers Derive.

Record target : Type := mkTarget { tg_bits : N; tg_size : N -> N }.
(** [usize::MAX] and [isize::MAX]. *)
Definition n_usize_max (m : target) : N := (2 ^ tg_bits m - 1)%N.
Definition n_isize_max (m : target) : N := (2 ^ (tg_bits m - 1) - 1)%N.

Section Target.
Variable m : target.

(** src/impls/vec.rs:45-84 [reader_vec_with_predicate]: [Vec::with_capacity] panics if the
    bytes needed exceed [isize::MAX]. *)
Definition n_vec_with_predicate {A} (fuel : nat) (size : N) (capacity : option N) (elem : RM A)
    (stop : nat -> list A -> bool) : RM (list A) :=
  if (tg_size m size =? 0)%N then ret []
  else if match capacity with Some c => (n_isize_max m <? c * tg_size m size)%N | None => false end then panic
  else fun r => vec_loop fuel elem stop (r_bits r) [] r.
(** src/impls/vec.rs:86-110 [reader_vec_to_end]. *)
Definition n_vec_to_end {A} (fuel : nat) (size : N) (elem : RM A) : RM (list A) :=
  if (tg_size m size =? 0)%N then ret [] else end_loop fuel elem [].
(** src/impls/vec.rs:112-191, and hashmap.rs, hashset.rs through [slot_size] and [collect]
    like in Derive.v: [size.0 * 8] overflows in a debug build. *)
Definition n_vec_read {A} (fuel : nat) (size : N) (elem : RM A) (lim : limit A) : RM (list A) :=
  match lim with
  | LCount n =>
      if (n =? 0)%N then ret []
      else fun r => n_vec_with_predicate (N.to_nat n) size (Some n) elem (fun _ acc => (N.of_nat (length acc) =? n)%N) r
  | LUntil p => n_vec_with_predicate fuel size None elem (fun _ acc => p acc)
  | LBits n =>
      if (n =? 0)%N then ret []
      else n_vec_with_predicate fuel size None elem (fun bits _ => (N.of_nat bits =? n)%N)
  | LBytes n =>
      if (n_usize_max m <? n * 8)%N then panic
      else if (n * 8 =? 0)%N then ret []
      else n_vec_with_predicate fuel size None elem (fun bits _ => (N.of_nat bits =? n * 8)%N)
  | LEnd => n_vec_to_end fuel size elem
  end.
(** src/impls/vec.rs:13-43: [Vec<u8>] with [ReadExact].  The positions are [u64];
    [exact.0 * 8] overflows in a debug build; [vec![0x00; exact.0]] panics above
    [isize::MAX] (as in Containers.v, no source is that long on a 64-bit target). *)
Definition n_read_exact_vec (count : N) : RM (list byte) :=
  let* pos := inner_seek (SeekCurrent 0) in
  let* end_ := inner_seek (SeekEnd 0) in
  let* _ := inner_seek (SeekStart pos) in
  if end_ <? pos then panic
  else if (N.of_nat (end_ - pos) <? count)%N then
    if (n_usize_max m <? count * 8)%N then panic
    else fun r => (Err (Incomplete (N.to_nat (count * 8))), r)
  else if (tg_bits m <? 64)%N && (n_isize_max m <? count)%N then panic
  else fun r => read_bytes (N.to_nat count) (N.to_nat count) Lsb0 r.
(** src/impls/cstring.rs:25-67. *)
Definition n_read_cstring (fuel : nat) : RM (list N) :=
  let* l := n_vec_read fuel 1 (prim_read PU8 C0) (LUntil (fun l => (last l 1 =? 0)%N)) in to_cstring l.
Definition n_read_cstring_bytes (n : N) : RM (list N) :=
  let* l := n_vec_read 0 1 (prim_read PU8 C0) (LCount n) in to_cstring l.

(** [usize::try_from]. *)
Definition n_to_usize (z : Z) : option N :=
  if (z <? 0)%Z || (Z.of_N (n_usize_max m) <? z)%Z then None else Some (Z.to_N z).
(** deku_read.rs:603-628 [emit_padding]. *)
Definition n_read_pad (p : option Z) (o : option order) : RM unit :=
  match p with
  | None => ret tt
  | Some z =>
      match n_to_usize z with
      | None => fail InvalidParam
      | Some n => fun r => skip_bits (N.to_nat n) (match o with Some x => x | None => Msb0 end) r
      end
  end.
(** deku_read.rs:817-905: the limit. *)
Definition n_eval_limit (l : flimit) (ctx fs : list value) (off : nat) : res (limit value) :=
  let num (f : expr Z) (k : N -> limit value) : res (limit value) :=
    match n_to_usize (f ctx fs off) with Some n => Ok (k n) | None => Err Parse end in
  match l with
  | FCount f => num f LCount
  | FBytes f => num f LBytes
  | FUntil p => Ok (LUntil (p ctx fs off))
  | FAll => Ok LEnd
  | FBits f => num f LBits
  end.
(** deku_read.rs:775-918. *)
Definition n_field_read_func (c : cattrs) (a : fattrs) (vec_u8 : bool) (ctx fs : list value) (off : nat)
    (rd : option (limit value) -> list value -> RM value) : RM value :=
  match a_reader a with
  | Some f => f ctx fs off
  | None =>
      let args := field_args c a ctx fs off in
      match a_limit a with
      | None => rd None args
      | Some l =>
          let* lim := lift (n_eval_limit l ctx fs off) in
          match vec_u8, lim with
          | true, LCount n => let* bs := n_read_exact_vec n in ret (vec_of_bytes bs)
          | _, _ => rd (Some lim) args
          end
      end
  end.
(** deku_read.rs:990-1008. *)
Definition n_read_field (c : cattrs) (a : fattrs) (vec_u8 : bool) (ctx fs : list value)
    (rd : option (limit value) -> list value -> RM value) : RM value :=
  let* _ := read_seek (option_map (fun f => f ctx fs) (a_seek a)) in
  let* _ := read_magic (a_magic a) in
  let* _ := n_read_pad (eval0 (a_pad_before a) ctx fs) (field_order c a ctx fs) in
  fun r =>
    let off := r_bits r in
    (let* v := field_read_tokens a ctx fs off
                 (field_read_normal a ctx fs off (n_field_read_func c a vec_u8 ctx fs off rd)) in
     let* _ := asserts a ctx fs off v in
     let* _ := n_read_pad (eval0 (a_pad_after a) ctx (fs ++ [v])) (field_order c a ctx fs) in
     ret v) r.

(** deku_write.rs:544-580 [emit_padding]. *)
Definition n_write_pad (p : option Z) (o : option order) : WM unit :=
  match p with
  | None => ret tt
  | Some z =>
      match n_to_usize z with
      | None => fail InvalidParam
      | Some n => fun w => pad_loop (N.to_nat n) (N.to_nat n) (match o with Some x => x | None => Msb0 end) w
      end
  end.
(** deku_write.rs:844-859. *)
Definition n_write_field (c : cattrs) (a : fattrs) (stored ctx fs : list value) (v : value)
    (wr : list value -> value -> WM unit) : WM unit :=
  let* _ := write_seek (option_map (fun f => f ctx fs) (a_seek a)) in
  let* _ := write_magic (a_magic a) in
  let* _ := n_write_pad (eval0 (a_pad_before a) ctx fs) (field_order c a ctx fs) in
  fun w =>
    let off := w_bits w in
    (let* _ := asserts a ctx fs off v in
     let* _ := field_write_tokens a ctx fs off (field_write_func c a stored ctx fs off v wr) in
     n_write_pad (eval0 (a_pad_after a) ctx (fs ++ [v])) (field_order c a ctx fs)) w.

Variable cu : nat -> custom.

(** deku_read.rs:164-175, 237-400, 452-461, 549-571, as in Derive.v. *)
Fixpoint n_read_ty (fuel : nat) (t : ty) (lim : option (limit value)) (args : list value) {struct t} : RM value :=
  match t with
  | TPrim p => with_pctx lim args (fun c => let* n := prim_read p c in ret (VNum n))
  | TBool => with_pctx lim args (fun c => let* b := read_bool c in ret (VBool b))
  | TNonZero p => with_pctx lim args (fun c => let* n := read_nonzero p c in ret (VNum n))
  | TUnit => ret VUnit
  | TCString =>
      match lim, args with
      | None, [] => let* s := n_read_cstring fuel in ret (VList (map VNum s))
      | None, [VBytes n] => let* s := n_read_cstring_bytes (N.of_nat n) in ret (VList (map VNum s))
      | _, _ => panic
      end
  | TOption t => let* v := n_read_ty fuel t lim args in ret (VSome v)
  | TPair a b => let* x := n_read_ty fuel a lim args in let* y := n_read_ty fuel b lim args in ret (VPair x y)
  | TArray n t => let* vs := read_array n (n_read_ty fuel t lim args) in ret (VList vs)
  | TVec k size t =>
      match lim with
      | Some l => let* vs := n_vec_read fuel (slot_size k size) (n_read_ty fuel t None args) l in ret (VList (collect k vs))
      | None => panic
      end
  | TStruct c fs =>
      let ctx := ctx_args c args in
      let* _ := read_seek (option_map (fun f => f ctx) (c_seek c)) in
      let* _ := read_magic (c_magic c) in
      let* vs := n_fields_read fuel c ctx fs None [] in
      ret (VRec vs)
  | TEnum e idt vs =>
      let ctx := ctx_args (en_c e) args in
      let* _ := read_magic (c_magic (en_c e)) in
      let* id := match en_id e with
                 | Some f => ret (f ctx)
                 | None => n_read_ty fuel idt None (id_args e ctx)
                 end in
      n_variants_read fuel e ctx id vs 0 None
  | TCustom k => match lim with None => cu_read (cu k) args | Some _ => panic end
  end
with n_fields_read (fuel : nat) (c : cattrs) (ctx : list value) (fs : fields) (id : option value) (acc : list value)
    {struct fs} : RM (list value) :=
  match fs with
  | FNil => ret []
  | FCons a t wire tl =>
      let* v := match id, a_reader a with
                | Some x, None => ret x
                | _, _ => n_read_field c a (is_vec_u8 t) ctx acc (fun lim args => n_read_ty fuel wire lim args)
                end in
      let* vs := n_fields_read fuel c ctx tl None (acc ++ [v]) in
      ret (if a_temp a then vs else v :: vs)
  end
with n_variants_read (fuel : nat) (e : eattrs) (ctx : list value) (id : value) (vs : variants) (k : nat)
    (default : option (RM value)) {struct vs} : RM value :=
  match vs with
  | VNil => match default with Some m => m | None => fail Parse end
  | VCons v fs tl =>
      let body := let* l := n_fields_read fuel (en_c e) ctx fs (if stores_id e v then Some id else None) [] in
                  ret (VVar k l) in
      if matches (v_sel v) id then body
      else n_variants_read fuel e ctx id tl (S k)
             (match default with Some _ => default | None => if v_default v then Some body else None end)
  end.

(** deku_write.rs:142-152, 219-356, 398-406, 466-479, as in Derive.v. *)
Fixpoint n_write_ty (t : ty) (args : list value) (v : value) {struct t} : WM unit :=
  match t with
  | TPrim p | TNonZero p => match v with VNum n => with_pctx None args (fun c => prim_write p c n) | _ => panic end
  | TBool => match v with VBool b => with_pctx None args (fun c => write_bool c b) | _ => panic end
  | TUnit => ret tt
  | TCString =>
      match v with
      | VList l => with_pctx None args (fun c => write_cstring c (map (fun x => match x with VNum n => n | _ => 0%N end) l))
      | _ => panic
      end
  | TOption t => match v with VSome x => n_write_ty t args x | VNone => ret tt | _ => panic end
  | TPair a b => match v with VPair x y => let* _ := n_write_ty a args x in n_write_ty b args y | _ => panic end
  | TArray _ t | TVec _ _ t => match v with VList l => write_list (n_write_ty t args) l | _ => panic end
  | TStruct c fs =>
      match v with
      | VRec l =>
          let ctx := ctx_args c args in
          let* _ := write_seek (option_map (fun f => f ctx) (c_seek c)) in
          let* _ := write_magic (c_magic c) in
          n_fields_write c ctx fs None l l []
      | _ => panic
      end
  | TEnum e idt vs =>
      match v with
      | VVar k l =>
          let* _ := write_magic (c_magic (en_c e)) in
          n_variant_write e (ctx_args (en_c e) args) (fun args x => n_write_ty idt args x) vs k l
      | _ => panic
      end
  | TCustom k => cu_write (cu k) args v
  end
with n_fields_write (c : cattrs) (ctx : list value) (fs : fields) (id : option (list value)) (stored todo acc : list value)
    {struct fs} : WM unit :=
  match fs with
  | FNil => ret tt
  | FCons a t _ tl =>
      let v := field_value a stored todo ctx acc in
      let* _ := match id with
                | Some args => n_write_ty t args v
                | None => n_write_field c a stored ctx acc v (fun args x => n_write_ty t args x)
                end in
      n_fields_write c ctx tl None stored (field_rest a todo) (acc ++ [v])
  end
with n_variant_write (e : eattrs) (ctx : list value) (wid : list value -> value -> WM unit) (vs : variants) (k : nat)
    (l : list value) {struct vs} : WM unit :=
  match vs with
  | VNil => panic
  | VCons v fs tl =>
      match k with
      | O =>
          let* _ := write_id e v fs ctx wid in
          n_fields_write (en_c e) ctx fs (match v_sel v with SPat _ _ => Some (stored_id_args e ctx) | _ => None end) l l []
      | S k' => n_variant_write e ctx wid tl k' l
      end
  end.

(** deku_read.rs:115-126 and 404-415: [from_reader]. *)
Definition n_from_reader (fuel : nat) (t : ty) (s : stream) (bit : nat) : res (nat * value) * stream :=
  let '(x, r) :=
    (let* _ := if bit =? 0 then ret tt else skip_bits bit Msb0 in
     let* v := n_read_ty fuel t None [] in
     fun r => (Ok (r_bits r, v), r)) (reader_new s) in
  (x, r_s r).
(** deku_read.rs:128-148 and 417-437: [from_bytes]. *)
Definition n_from_bytes (fuel : nat) (t : ty) (input : list byte) (bit : nat) : res ((list byte * nat) * value) :=
  match n_from_reader fuel t (cursor input) bit with
  | (Ok (bits_read, v), _) =>
      let idx := bits_read / 8 in
      if idx <=? length input then Ok ((skipn idx input, bits_read mod 8), v)
      else Err (Incomplete (8 * (idx - length input)))
  | (Err e, _) => Err e
  | (Panic, _) => Panic
  | (Diverge, _) => Diverge
  end.
(** deku_read.rs:1041-1071 [emit_try_from]. *)
Definition n_try_from (fuel : nat) (t : ty) (input : list byte) : res value :=
  match n_from_reader fuel t (cursor input) 0 with
  | (Ok (bits_read, v), _) =>
      let bytes_read := bits_read / 8 in
      if bytes_read <? length input then Err Parse
      else if length input <? bytes_read then Err (Incomplete (bits_read - length input * 8))
      else Ok v
  | (Err e, _) => Err e
  | (Panic, _) => Panic
  | (Diverge, _) => Diverge
  end.

(** src/lib.rs:708-715, 736-743, 768-777. *)
Definition n_to_bytes (t : ty) (v : value) : res (list byte) :=
  to_bytes_with (n_write_ty t [] v).
Definition n_to_slice (t : ty) (v : value) (buf : list byte) : res nat * list byte :=
  to_slice_with (n_write_ty t [] v) buf.
Definition n_to_bits (t : ty) (v : value) : res (list bool) := to_bits_with (n_write_ty t [] v).
End Target.
