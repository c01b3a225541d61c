(** Model of the memory that reading asks for.  No proofs here.

    The readers of Containers.v and Derive.v once more, with a count of the bytes that
    deku's own code asks the allocator for: [Vec::with_capacity(n)] and
    [HashMap::with_capacity_and_hasher(n, ..)] ask for [n] elements, [vec![0; n]] for [n]
    bytes, and each element pushed or inserted without a capacity for one element.  The
    total is counted; nothing is ever subtracted.

    Not counted: what [push] and [insert] reserve ahead (a constant factor), the control
    bytes of a hash table, the messages of errors, [Box::new] and [Arc::new] of a single
    value, and what hand-written readers and expressions in attributes allocate.  Other
    definitions of Reader.v and Prims.v work in fixed buffers. *)
From Verif Require Import Base Stream Reader Prims Containers Derive.

Definition AM (A : Type) : Type := ST (reader * N) A.
(** Code that does not allocate. *)
Definition free {A} (m : RM A) : AM A := fun rk => let '(x, r) := m (fst rk) in (x, (r, snd rk)).
Definition request (n : N) : AM unit := fun rk => (Ok tt, (fst rk, (snd rk + n)%N)).

(** ** Containers *)

(** src/impls/vec.rs:68 and hashmap.rs:31, hashset.rs:30: the capacity; a push within
    the capacity asks for nothing. *)
Definition push_cost (size : N) (capacity : option N) : N := match capacity with Some _ => 0%N | None => size end.
(** src/impls/vec.rs:70-83 (Containers.v [vec_loop]). *)
Fixpoint a_vec_loop {A} (fuel : nat) (cost : N) (elem : AM A) (stop : nat -> list A -> bool) (start : nat) (acc : list A) : AM (list A) :=
  match fuel with
  | O => diverge
  | S f =>
      let* v := elem in
      let* _ := request cost in
      fun rk =>
        if r_bits (fst rk) <? start then (Panic, rk)
        else if stop (r_bits (fst rk) - start) (acc ++ [v]) then (Ok (acc ++ [v]), rk)
        else a_vec_loop f cost elem stop start (acc ++ [v]) rk
  end.
(** src/impls/vec.rs:45-84 (Containers.v [vec_with_predicate]). *)
Definition a_vec_with_predicate {A} (fuel : nat) (size : N) (capacity : option N) (elem : AM A)
    (stop : nat -> list A -> bool) : AM (list A) :=
  if (size =? 0)%N then ret []
  else if match capacity with Some c => (isize_max <? c * size)%N | None => false end then panic
  else
    let* _ := request (match capacity with Some c => (c * size)%N | None => 0%N end) in
    fun rk => a_vec_loop fuel (push_cost size capacity) elem stop (r_bits (fst rk)) [] rk.
(** src/impls/vec.rs:86-110 (Containers.v [end_loop]); the capacity is [None] (173). *)
Fixpoint a_end_loop {A} (fuel : nat) (cost : N) (elem : AM A) (acc : list A) : AM (list A) :=
  match fuel with
  | O => diverge
  | S f =>
      fun rk =>
        let '(e, r1) := r_end (fst rk) in
        if e then (Ok acc, (r1, snd rk))
        else (let* v := elem in let* _ := request cost in a_end_loop f cost elem (acc ++ [v])) (r1, snd rk)
  end.
Definition a_vec_to_end {A} (fuel : nat) (size : N) (elem : AM A) : AM (list A) :=
  if (size =? 0)%N then ret [] else a_end_loop fuel size elem [].
(** src/impls/vec.rs:112-191 (Containers.v [vec_read]). *)
Definition a_vec_read {A} (fuel : nat) (size : N) (elem : AM A) (lim : limit A) : AM (list A) :=
  match lim with
  | LCount n =>
      if (n =? 0)%N then ret []
      else fun rk => a_vec_with_predicate (N.to_nat n) size (Some n) elem (fun _ acc => (N.of_nat (length acc) =? n)%N) rk
  | LUntil p => a_vec_with_predicate fuel size None elem (fun _ acc => p acc)
  | LBits n =>
      if (n =? 0)%N then ret []
      else a_vec_with_predicate fuel size None elem (fun bits _ => (N.of_nat bits =? n)%N)
  | LBytes n =>
      if (usize_max <? n * 8)%N then panic
      else if (n * 8 =? 0)%N then ret []
      else a_vec_with_predicate fuel size None elem (fun bits _ => (N.of_nat bits =? n * 8)%N)
  | LEnd => a_vec_to_end fuel size elem
  end.
(** src/impls/vec.rs:13-43 (Containers.v [read_exact_vec]): the check, then the buffer (39). *)
Definition a_read_exact_vec (count : N) : AM (list byte) :=
  let* pos := free (inner_seek (SeekCurrent 0)) in
  let* end_ := free (inner_seek (SeekEnd 0)) in
  let* _ := free (inner_seek (SeekStart pos)) in
  if end_ <? pos then panic
  else if (N.of_nat (end_ - pos) <? count)%N then
    if (usize_max <? count * 8)%N then panic
    else fun rk => (Err (Incomplete (N.to_nat (count * 8))), rk)
  else
    let* _ := request count in
    fun rk => free (read_bytes (N.to_nat count) (N.to_nat count) Lsb0) rk.
(** src/impls/slice.rs:9-47 (Containers.v [read_array]): on the stack. *)
Fixpoint a_read_array {A} (n : nat) (elem : AM A) : AM (list A) :=
  match n with
  | O => ret []
  | S k => let* v := elem in let* vs := a_read_array k elem in ret (v :: vs)
  end.
(** src/impls/cstring.rs:25-67 (Containers.v [read_cstring], [read_cstring_bytes]): the
    bytes are collected in a [Vec<u8>], which becomes the [CString]. *)
Definition a_read_cstring (fuel : nat) : AM (list N) :=
  let* l := a_vec_read fuel 1 (free (prim_read PU8 C0)) (LUntil (fun l => (last l 1 =? 0)%N)) in free (to_cstring l).
Definition a_read_cstring_bytes (n : N) : AM (list N) :=
  let* l := a_vec_read 0 1 (free (prim_read PU8 C0)) (LCount n) in free (to_cstring l).

(** ** Fields *)

(** deku_read.rs:775-918 (Derive.v [field_read_func]). *)
Definition a_field_read_func (c : cattrs) (a : fattrs) (vec_u8 : bool) (ctx fs : list value) (off : nat)
    (rd : option (limit value) -> list value -> AM value) : AM value :=
  match a_reader a with
  | Some f => free (f ctx fs off)
  | None =>
      let args := field_args c a ctx fs off in
      match a_limit a with
      | None => rd None args
      | Some l =>
          let* lim := lift (eval_limit l ctx fs off) in
          match vec_u8, lim with
          | true, LCount n => let* bs := a_read_exact_vec n in ret (vec_of_bytes bs)
          | _, _ => rd (Some lim) args
          end
      end
  end.
(** deku_read.rs:941-945 (Derive.v [field_read_normal]). *)
Definition a_field_read_normal (a : fattrs) (ctx fs : list value) (off : nat) (m : AM value) : AM value :=
  let* v := m in
  match a_map a with
  | None => ret v
  | Some f => lift (f ctx fs off v)
  end.
(** deku_read.rs:949-988 (Derive.v [field_read_tokens]). *)
Definition a_field_read_tokens (a : fattrs) (ctx fs : list value) (off : nat) (normal : AM value) : AM value :=
  let default := ret (a_default a ctx fs off) in
  match a_skip a, a_cond a with
  | Some SkipAll, Some f | Some SkipRead, Some f => if f ctx fs off then default else normal
  | Some SkipAll, None | Some SkipRead, None => default
  | Some SkipWrite, _ => normal
  | None, Some f => if f ctx fs off then normal else default
  | None, None => normal
  end.
(** deku_read.rs:990-1008 (Derive.v [read_field]). *)
Definition a_read_field (c : cattrs) (a : fattrs) (vec_u8 : bool) (ctx fs : list value)
    (rd : option (limit value) -> list value -> AM value) : AM value :=
  let* _ := free (read_seek (option_map (fun f => f ctx fs) (a_seek a))) in
  let* _ := free (read_magic (a_magic a)) in
  let* _ := free (read_pad (eval0 (a_pad_before a) ctx fs) (field_order c a ctx fs)) in
  fun rk =>
    let off := r_bits (fst rk) in
    (let* v := a_field_read_tokens a ctx fs off
                 (a_field_read_normal a ctx fs off (a_field_read_func c a vec_u8 ctx fs off rd)) in
     let* _ := asserts a ctx fs off v in
     let* _ := free (read_pad (eval0 (a_pad_after a) ctx (fs ++ [v])) (field_order c a ctx fs)) in
     ret v) rk.

(** ** Types *)

Section Impls.
Variable cu : nat -> custom.

(** The generated [from_reader_with_ctx] (Derive.v [read_ty], [fields_read],
    [variants_read]). *)
Fixpoint a_read_ty (fuel : nat) (t : ty) (lim : option (limit value)) (args : list value) {struct t} : AM value :=
  match t with
  | TPrim p => with_pctx lim args (fun c => free (let* n := prim_read p c in ret (VNum n)))
  | TBool => with_pctx lim args (fun c => free (let* b := read_bool c in ret (VBool b)))
  | TNonZero p => with_pctx lim args (fun c => free (let* n := read_nonzero p c in ret (VNum n)))
  | TUnit => ret VUnit
  | TCString =>
      match lim, args with
      | None, [] => let* s := a_read_cstring fuel in ret (VList (map VNum s))
      | None, [VBytes n] => let* s := a_read_cstring_bytes (N.of_nat n) in ret (VList (map VNum s))
      | _, _ => panic
      end
  | TOption t => let* v := a_read_ty fuel t lim args in ret (VSome v)
  | TPair a b => let* x := a_read_ty fuel a lim args in let* y := a_read_ty fuel b lim args in ret (VPair x y)
  | TArray n t => let* vs := a_read_array n (a_read_ty fuel t lim args) in ret (VList vs)
  | TVec k size t =>
      match lim with
      | Some l => let* vs := a_vec_read fuel (slot_size k size) (a_read_ty fuel t None args) l in ret (VList (collect k vs))
      | None => panic
      end
  | TStruct c fs =>
      let ctx := ctx_args c args in
      let* _ := free (read_seek (option_map (fun f => f ctx) (c_seek c))) in
      let* _ := free (read_magic (c_magic c)) in
      let* vs := a_fields_read fuel c ctx fs None [] in
      ret (VRec vs)
  | TEnum e idt vs =>
      let ctx := ctx_args (en_c e) args in
      let* _ := free (read_magic (c_magic (en_c e))) in
      let* id := match en_id e with
                 | Some f => ret (f ctx)
                 | None => a_read_ty fuel idt None (id_args e ctx)
                 end in
      a_variants_read fuel e ctx id vs 0 None
  | TCustom k => match lim with None => free (cu_read (cu k) args) | Some _ => panic end
  end
with a_fields_read (fuel : nat) (c : cattrs) (ctx : list value) (fs : fields) (id : option value) (acc : list value)
    {struct fs} : AM (list value) :=
  match fs with
  | FNil => ret []
  | FCons a t wire tl =>
      let* v := match id, a_reader a with
                | Some x, None => ret x
                | _, _ => a_read_field c a (is_vec_u8 t) ctx acc (fun lim args => a_read_ty fuel wire lim args)
                end in
      let* vs := a_fields_read fuel c ctx tl None (acc ++ [v]) in
      ret (if a_temp a then vs else v :: vs)
  end
with a_variants_read (fuel : nat) (e : eattrs) (ctx : list value) (id : value) (vs : variants) (k : nat)
    (default : option (AM value)) {struct vs} : AM value :=
  match vs with
  | VNil => match default with Some m => m | None => fail Parse end
  | VCons v fs tl =>
      let body := let* l := a_fields_read fuel (en_c e) ctx fs (if stores_id e v then Some id else None) [] in
                  ret (VVar k l) in
      if matches (v_sel v) id then body
      else a_variants_read fuel e ctx id tl (S k)
             (match default with Some _ => default | None => if v_default v then Some body else None end)
  end.

(** deku_read.rs:115-126 and 404-415 (Derive.v [from_reader]); also the bytes asked for. *)
Definition a_from_reader (fuel : nat) (t : ty) (s : stream) (bit : nat) : res (nat * value) * stream * N :=
  let '(x, (r, k)) :=
    (let* _ := if bit =? 0 then ret tt else free (skip_bits bit Msb0) in
     let* v := a_read_ty fuel t None [] in
     fun rk => (Ok (r_bits (fst rk), v), rk)) (reader_new s, 0%N) in
  (x, r_s r, k).
(** deku_read.rs:128-148 [from_bytes] and 1041-1071 [try_from] only add a check. *)
Definition memory_from_bytes (fuel : nat) (t : ty) (input : list byte) (bit : nat) : N :=
  snd (a_from_reader fuel t (cursor input) bit).
End Impls.
