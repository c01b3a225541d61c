(** Model of the memory of an array that is being read: src/impls/slice.rs:9-47.  No proofs
    here.

    [Containers.read_array] says which array is returned.  Here the array is the
    [[MaybeUninit<T>; N]] of the code, the unsafe operations have undefined behaviour where
    Rust says so, and dropping an item is an event. *)
From Verif Require Import Base Stream Reader Containers.

(** A [MaybeUninit<T>]; [Dropped] holds bits that must not be used any more. *)
Inductive slot (A : Type) : Type := Uninit | Init (a : A) | Dropped.
Arguments Uninit {A}.
Arguments Init {A} a.
Arguments Dropped {A}.

(** What the function does: it returns, or what it does is undefined.  [drops] are the items
    dropped, in this order.  [lost] are the items that are in the memory at the end and are
    neither returned nor dropped. *)
Inductive outcome (A : Type) : Type :=
| Undefined
| Done (r : res (list A)) (drops lost : list A).
Arguments Undefined {A}.
Arguments Done {A} r drops lost.

Definition init_items {A} (arr : list (slot A)) : list A :=
  flat_map (fun x => match x with Init a => [a] | _ => [] end) arr.

(** slice.rs:27-32: [for item in &mut array[0..n] { item.assume_init_drop() }].
    [assume_init_drop] of a slot that is not initialised is undefined; the slice is a panic
    if [n] exceeds the length.  The destructors of [T] do not panic. *)
Fixpoint drop_init {A} (n : nat) (arr : list (slot A)) : option (list A * list (slot A)) :=
  match n, arr with
  | O, _ => Some ([], arr)
  | S m, Init a :: tl => match drop_init m tl with Some (d, tl') => Some (a :: d, Dropped :: tl') | None => None end
  | S _, _ => None
  end.
(** slice.rs:41-44: [(&raw const array).cast::<[T; N]>().read()]: undefined unless every slot
    is initialised.  The items are moved to the result, and nothing is dropped with [array],
    since a [MaybeUninit] drops nothing. *)
Fixpoint assume_init {A} (arr : list (slot A)) : option (list A) :=
  match arr with
  | [] => Some []
  | Init a :: tl => match assume_init tl with Some l => Some (a :: l) | None => None end
  | _ :: _ => None
  end.
(** [item.write(value)]: the old content is not dropped. *)
Definition write_slot {A} (n : nat) (a : A) (arr : list (slot A)) : list (slot A) :=
  firstn n arr ++ Init a :: skipn (S n) arr.

(** slice.rs:20-46: [todo] iterations are left, [n] is the number of the next.  A panic of
    the element's reader unwinds: the slots are not dropped. *)
Fixpoint slots_loop {A} (todo n : nat) (elem : RM A) (arr : list (slot A)) (r : reader) : outcome A * reader :=
  match todo with
  | O => (match assume_init arr with Some l => Done (Ok l) [] [] | None => Undefined end, r)
  | S k =>
      match elem r with
      | (Ok a, r') => slots_loop k (S n) elem (write_slot n a arr) r'
      | (Err e, r') =>
          (if length arr <? n then Done Panic [] (init_items arr)
           else match drop_init n arr with
                | Some (d, arr') => Done (Err e) d (init_items arr')
                | None => Undefined
                end, r')
      | (Panic, r') => (Done Panic [] (init_items arr), r')
      | (Diverge, r') => (Done Diverge [] (init_items arr), r')
      end
  end.
Definition slots_read {A} (N : nat) (elem : RM A) (r : reader) : outcome A * reader :=
  slots_loop N 0 elem (repeat Uninit N) r.
