(** Words for C59: messages read one after another from one source. *)
From Verif Require Import Base Stream Reader Writer Prims Derive DeriveSpec.

(** Reader code that reads and stops at the first error: bits, bytes and integers,
    derived types, with [long] also seeks and pads of a byte and more; it may look at
    what is buffered and at [bits_read], but does not call [end()]. *)
Inductive straight (long : Prop) : forall A : Type, RM A -> Prop :=
| st_lift A (x : res A) : straight long A (lift x)
| st_bind A B (m : RM A) (f : A -> RM B) : straight long A m -> (forall a, straight long B (f a)) -> straight long B (bind m f)
| st_bits n o : straight long (list bool) (read_bits_into n o)
| st_bytes n size o : straight long (list byte) (read_bytes n size o)
| st_prim p c : straight long N (prim_read p c)
| st_skip n o : long \/ n < 8 -> straight long unit (skip_bits n o)
| st_seek w : long -> straight long nat (lift_io (r_seek w))
| st_type cu fuel t : every (fun c => long \/ c_seek c = None) (fun _ => True)
    (fun _ a _ => (long \/ a_seek a = None) /\ a_reader a = None /\
       (long \/ forall p, a_pad_before a = Some p \/ a_pad_after a = Some p -> forall ctx fs, (p ctx fs < 8)%Z))
    (fun _ => False) t -> straight long value (read_ty cu fuel t None [])
| st_see A (f : list bool -> nat -> RM A) : (forall l n, straight long A (f l n)) -> straight long A (fun r => f (r_rest r) (r_bits r) r)
| st_ext A (m1 m2 : RM A) : (forall r, m1 r = m2 r) -> straight long A m1 -> straight long A m2.

(** The hand-written readers are such code; unless [long], there are no seek attributes,
    and every pad is shorter than a byte. *)
Definition in_place (long : Prop) (cu : nat -> custom) (t : ty) : Prop :=
  every (fun c => long \/ c_seek c = None) (fun _ => True)
    (fun _ a _ => (long \/ a_seek a = None) /\ (forall f, a_reader a = Some f -> forall ctx fs off, straight long value (f ctx fs off)) /\
       (long \/ forall p, a_pad_before a = Some p \/ a_pad_after a = Some p -> forall ctx fs, (p ctx fs < 8)%Z))
    (fun k => forall args, straight long value (cu_read (cu k) args)) t.

(** The source is [s]; calls of [T::from_reader((&mut s, 0))], each with the same source,
    return these counts and values and leave [s'] behind. *)
Inductive messages (cu : nat -> custom) (fuel : nat) (t : ty) : stream -> list (nat * value) -> stream -> Prop :=
| no_message s : messages cu fuel t s [] s
| one_message s n v s1 l s' : from_reader cu fuel t s 0 = (Ok (n, v), s1) -> messages cu fuel t s1 l s' -> messages cu fuel t s ((n, v) :: l) s'.

(** Bytes needed for [n] bits. *)
Definition bytes_for (n : nat) : nat := (n + 7) / 8.
(** The same bytes; now at position [p]. *)
Definition stands_at (p : nat) (s s' : stream) : Prop :=
  s_data s' = s_data s /\ s_pos s' = p /\ s_eat s' = s_eat s /\ s_noseek s' = None /\ forall k, s_fault s' k = None.

(** A value written with a [Writer] of its own: [to_writer], then [finalize]. *)
Definition send (cu : nat -> custom) (t : ty) (v : value) (k : sink) : res unit * sink :=
  let '(x, w) := (let* _ := write_ty cu t [] v in finalize) (writer_new k) in (x, w_k w).
(** All of them, one after another. *)
Inductive sends (cu : nat -> custom) (t : ty) : sink -> list value -> sink -> Prop :=
| nothing_sent k : sends cu t k [] k
| one_sent k v k1 vs k' : send cu t v k = (Ok tt, k1) -> sends cu t k1 vs k' -> sends cu t k (v :: vs) k'.
(** The bytes [bs] stored at position [p] of [k], what was there before is gone, the rest
    is kept; the sink stands behind them. *)
Definition stored_at (p : nat) (bs : list byte) (k k' : sink) : Prop :=
  k_data k' = overlay (k_data k) p bs /\ k_pos k' = p + length bs /\ k_fixed k' = k_fixed k /\ forall j, k_fault k' j = None.
