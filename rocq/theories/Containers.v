(** Model of the container impls: src/impls/{vec,slice,boxed,arc,cow,option,tuple,
    unit,bool,nonzero,cstring,ipaddr,hashmap,hashset}.rs.  No proofs here.

    An element type with its context is represented by its reader [elem : RM A] and
    its writer [A -> WM unit]. *)
From Verif Require Import Base Stream Reader Writer Prims.

(** usize and isize of a 64-bit target. *)
Definition usize_max : N := (2 ^ 64 - 1)%N.
Definition isize_max : N := (2 ^ 63 - 1)%N.

(** ** Vec *)

(** src/ctx.rs:96-111 [Limit].  The predicate of [Until] is [FnMut]: its answer may
    depend on all the elements it has been shown, oldest first. *)
Inductive limit (A : Type) : Type :=
| LCount (n : N) | LUntil (p : list A -> bool) | LBytes (n : N) | LBits (n : N) | LEnd.
Arguments LCount {A} n.
Arguments LUntil {A} p.
Arguments LBytes {A} n.
Arguments LBits {A} n.
Arguments LEnd {A}.

(** src/impls/vec.rs:70-83, the loop of [reader_vec_with_predicate]; [stop] gets
    [reader.bits_read - start_read] and the elements so far.  The subtraction
    underflows if an element moved [bits_read] back.  [fuel] bounds the number of
    iterations. *)
Fixpoint vec_loop {A} (fuel : nat) (elem : RM A) (stop : nat -> list A -> bool) (start : nat) (acc : list A) : RM (list A) :=
  match fuel with
  | O => diverge
  | S f =>
      let* v := elem in
      fun r =>
        if r_bits r <? start then (Panic, r)
        else if stop (r_bits r - start) (acc ++ [v]) then (Ok (acc ++ [v]), r)
        else vec_loop f elem stop start (acc ++ [v]) r
  end.

(** src/impls/vec.rs:45-84 [reader_vec_with_predicate].  [size] is
    [size_of::<T>()].  [Vec::with_capacity] panics if the bytes needed exceed
    [isize::MAX]; running out of memory below that is not modelled. *)
Definition vec_with_predicate {A} (fuel : nat) (size : N) (capacity : option N) (elem : RM A)
    (stop : nat -> list A -> bool) : RM (list A) :=
  if (size =? 0)%N then ret []
  else if match capacity with Some c => (isize_max <? c * size)%N | None => false end then panic
  else fun r => vec_loop fuel elem stop (r_bits r) [] r.

(** src/impls/vec.rs:86-110 [reader_vec_to_end]. *)
Fixpoint end_loop {A} (fuel : nat) (elem : RM A) (acc : list A) : RM (list A) :=
  match fuel with
  | O => diverge
  | S f =>
      fun r =>
        let '(e, r1) := r_end r in
        if e then (Ok acc, r1)
        else (let* v := elem in end_loop f elem (acc ++ [v])) r1
  end.
Definition vec_to_end {A} (fuel : nat) (size : N) (elem : RM A) : RM (list A) :=
  if (size =? 0)%N then ret [] else end_loop fuel elem [].

(** src/impls/vec.rs:112-191.  The closure of [Count] counts down to 0, i.e. stops
    when as many elements as requested have been read; it needs no fuel of its own.
    [size.0 * 8] overflows in a debug build. *)
Definition vec_read {A} (fuel : nat) (size : N) (elem : RM A) (lim : limit A) : RM (list A) :=
  match lim with
  | LCount n =>
      if (n =? 0)%N then ret []
      else fun r => vec_with_predicate (N.to_nat n) size (Some n) elem (fun _ acc => (N.of_nat (length acc) =? n)%N) r
  | LUntil p => vec_with_predicate fuel size None elem (fun _ acc => p acc)
  | LBits n =>
      if (n =? 0)%N then ret []
      else vec_with_predicate fuel size None elem (fun bits _ => (N.of_nat bits =? n)%N)
  | LBytes n =>
      if (usize_max <? n * 8)%N then panic
      else if (n * 8 =? 0)%N then ret []
      else vec_with_predicate fuel size None elem (fun bits _ => (N.of_nat bits =? n * 8)%N)
  | LEnd => vec_to_end fuel size elem
  end.

(** src/impls/vec.rs:13-43: [Vec<u8>] with [ReadExact].  [as_mut] gives the inner
    stream; [stream_position] is a seek by 0. *)
Definition inner_seek (w : seekfrom) : RM nat :=
  lift_io (fun r => let '(x, s) := s_seek w (r_s r) in (x, r_set_s r s)).
Definition read_exact_vec (count : N) : RM (list byte) :=
  let* pos := inner_seek (SeekCurrent 0) in
  let* end_ := inner_seek (SeekEnd 0) in
  let* _ := inner_seek (SeekStart pos) in
  if end_ <? pos then panic                                (* end - pos *)
  else if (N.of_nat (end_ - pos) <? count)%N then
    if (usize_max <? count * 8)%N then panic               (* exact.0 * 8 *)
    else fun r => (Err (Incomplete (N.to_nat (count * 8))), r)
  else fun r => read_bytes (N.to_nat count) (N.to_nat count) Lsb0 r.

(** src/impls/vec.rs:193-228, slice.rs:49-95, boxed.rs:41-57,
    arc.rs:40-56: write the elements one after the other. *)
Fixpoint write_list {A} (w : A -> WM unit) (l : list A) : WM unit :=
  match l with
  | [] => ret tt
  | x :: tl => let* _ := w x in write_list w tl
  end.

(** ** Arrays, tuples, unit, Option, Box, Arc, Cow *)

(** src/impls/slice.rs:9-47: [[T; N]].  (The memory, and dropping the items on an error,
    is in Slots.v.) *)
Fixpoint read_array {A} (n : nat) (elem : RM A) : RM (list A) :=
  match n with
  | O => ret []
  | S k => let* v := elem in let* vs := read_array k elem in ret (v :: vs)
  end.
(** src/impls/tuple.rs:40-67; an n-tuple is a nested pair. *)
Definition read_pair {A B} (m1 : RM A) (m2 : RM B) : RM (A * B) :=
  let* a := m1 in let* b := m2 in ret (a, b).
Definition write_pair {A B} (w1 : A -> WM unit) (w2 : B -> WM unit) (p : A * B) : WM unit :=
  let* _ := w1 (fst p) in w2 (snd p).
(** src/impls/unit.rs:5-23. *)
Definition read_unit : RM unit := ret tt.
Definition write_unit (u : unit) : WM unit := ret tt.
(** src/impls/option.rs:5-24. *)
Definition read_option {A} (m : RM A) : RM (option A) := let* v := m in ret (Some v).
Definition write_option {A} (w : A -> WM unit) (v : option A) : WM unit :=
  match v with Some x => w x | None => ret tt end.
(** src/impls/boxed.rs, arc.rs, cow.rs: [Box<T>], [Arc<T>], [Cow<T>] are the codec of
    [T]; [Box<[T]>], [Arc<[T]>] are the codec of [Vec<T>].  No definitions needed. *)

(** ** bool, NonZero, IP addresses, CString *)

(** src/impls/bool.rs:7-48. *)
Definition read_bool (c : pctx) : RM bool :=
  let* v := prim_read PU8 c in
  if (v =? 1)%N then ret true else if (v =? 0)%N then ret false else fail Parse.
Definition write_bool (c : pctx) (b : bool) : WM unit :=
  prim_write PU8 c (if b then 1%N else 0%N).
(** src/impls/nonzero.rs:9-37. *)
Definition read_nonzero (p : prim) (c : pctx) : RM N :=
  let* v := prim_read p c in
  if (v =? 0)%N then fail Parse else ret v.
Definition write_nonzero (p : prim) (c : pctx) (v : N) : WM unit := prim_write p c v.
(** src/impls/ipaddr.rs:9-78: an address is the number [u32::from]/[u128::from]. *)
Inductive ip : Type := V4 (a : N) | V6 (a : N).
Definition read_ipv4 (c : pctx) : RM N := prim_read (PU 4) c.
Definition write_ipv4 (c : pctx) (a : N) : WM unit := prim_write (PU 4) c a.
Definition read_ipv6 (c : pctx) : RM N := prim_read (PU 16) c.
Definition write_ipv6 (c : pctx) (a : N) : WM unit := prim_write (PU 16) c a.
Definition write_ip (c : pctx) (x : ip) : WM unit :=
  match x with V4 a => write_ipv4 c a | V6 a => write_ipv6 c a end.

(** src/impls/cstring.rs.  A [CString] is the list of its bytes (as numbers) without
    the terminator.  [CString::from_vec_with_nul]: exactly one 0, at the end. *)
Fixpoint from_vec_with_nul (l : list N) : option (list N) :=
  match l with
  | [] => None
  | [x] => if (x =? 0)%N then Some [] else None
  | x :: tl => if (x =? 0)%N then None else option_map (cons x) (from_vec_with_nul tl)
  end.
Definition to_cstring (l : list N) : RM (list N) :=
  match from_vec_with_nul l with Some s => ret s | None => fail Parse end.
(** 11-23. *)
Definition write_cstring (c : pctx) (s : list N) : WM unit := write_list (prim_write PU8 c) (s ++ [0%N]).
(** 25-44: until the first 0. *)
Definition read_cstring (fuel : nat) : RM (list N) :=
  let* l := vec_read fuel 1 (prim_read PU8 C0) (LUntil (fun l => (last l 1 =? 0)%N)) in to_cstring l.
(** 46-67: a number of bytes, terminator included. *)
Definition read_cstring_bytes (n : N) : RM (list N) :=
  let* l := vec_read 0 1 (prim_read PU8 C0) (LCount n) in to_cstring l.

(** ** HashMap and HashSet *)

(** [insert] of a map with key equality [eqb]; a map is a list of pairs with distinct
    keys.  A set is a map to [unit]. *)
Fixpoint map_remove {K V} (eqb : K -> K -> bool) (k : K) (m : list (K * V)) : list (K * V) :=
  match m with
  | [] => []
  | (k', v) :: tl => if eqb k k' then map_remove eqb k tl else (k', v) :: map_remove eqb k tl
  end.
Definition map_insert {K V} (eqb : K -> K -> bool) (m : list (K * V)) (kv : K * V) : list (K * V) :=
  kv :: map_remove eqb (fst kv) m.
Definition map_of {K V} (eqb : K -> K -> bool) (l : list (K * V)) : list (K * V) :=
  fold_left (map_insert eqb) l [].

(** src/impls/hashmap.rs:18-43, 69-196 and hashset.rs:18-42, 67-177: like the loop of [Vec], without a
    check for zero-sized types.  (The pairs are collected here and inserted at the
    end.  [with_capacity] is not modelled.)  hashmap.rs:45-67 and
    hashset.rs:44-65: to the end of input. *)
Definition map_read {K V} (fuel : nat) (eqb : K -> K -> bool) (elem : RM (K * V)) (lim : limit (K * V)) : RM (list (K * V)) :=
  let loop f stop := fun r => vec_loop f elem stop (r_bits r) [] r in
  let* l :=
    match lim with
    | LCount n =>
        if (n =? 0)%N then ret []
        else fun r => loop (N.to_nat n) (fun _ acc => (N.of_nat (length acc) =? n)%N) r
    | LUntil p => loop fuel (fun _ acc => p acc)
    | LBits n => if (n =? 0)%N then ret [] else loop fuel (fun bits _ => (N.of_nat bits =? n)%N)
    | LBytes n =>
        if (usize_max <? n * 8)%N then panic
        else if (n * 8 =? 0)%N then ret []
        else loop fuel (fun bits _ => (N.of_nat bits =? n * 8)%N)
    | LEnd => end_loop fuel elem []
    end in
  ret (map_of eqb l).
(** hashmap.rs:232-242, hashset.rs:202-211: in the iteration order [l]. *)
Definition map_write {K V} (wk : K -> WM unit) (wv : V -> WM unit) (l : list (K * V)) : WM unit :=
  write_list (write_pair wk wv) l.
(** A set writes its elements only. *)
Definition set_read {K} (fuel : nat) (eqb : K -> K -> bool) (elem : RM K) (lim : limit (K * unit)) : RM (list (K * unit)) :=
  map_read fuel eqb (let* k := elem in ret (k, tt)) lim.
Definition set_write {K} (wk : K -> WM unit) (l : list (K * unit)) : WM unit := write_list (fun kv => wk (fst kv)) l.
