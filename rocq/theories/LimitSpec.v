(** A collection of elements of one size, C84.  No proofs here. *)
From Verif Require Import Base Stream Reader Prims Containers Derive SizeSpec SizeReadSpec GrowSpec.

(** The field attributes [a] with the limit [l]. *)
Definition limit_to (l : flimit) (a : fattrs) : fattrs :=
  mkF (a_endian a) (a_order a) (a_bits a) (a_bytes a) (a_ctx a) (Some l) (a_map a) (a_reader a) (a_writer a) (a_skip a) (a_cond a) (a_default a)
      (a_assert a) (a_assert_eq a) (a_seek a) (a_magic a) (a_pad_before a) (a_pad_after a) (a_temp a) (a_temp_value a) (a_update a).
(** The struct with the fields [before], then a collection [k] of [elem] with the
    attributes [a] and the limit [l], then the fields [after]. *)
Definition record (c : cattrs) (before : fields) (l : flimit) (a : fattrs) (k : store) (size : N) (elem : ty) (after : fields) : ty :=
  TStruct c (append before (FCons (limit_to l a) (TVec k size elem) (TVec k size elem) after)).
(** The same with an array. *)
Definition record_array (c : cattrs) (before : fields) (a : fattrs) (len : nat) (elem : ty) (after : fields) : ty :=
  TStruct c (append before (FCons a (TArray len elem) (TArray len elem) after)).
(** The collection is read by the impl of its type, starts on a bit known from the
    declaration, and each element has [n] bits. *)
Record of_size (n : nat) (a : fattrs) (elem : ty) : Prop := {
  os_reader : a_reader a = None;
  os_seek : a_seek a = None;
  os_before : constant_pad (a_pad_before a);
  os_bits : constant_size (a_bits a);
  os_bytes : constant_size (a_bytes a);
  os_size : size_on_read elem (const_size (a_bits a)) (const_size (a_bytes a));
  os_ctx : passes_args elem = true -> forall ctx fs off, no_sizes (a_ctx a ctx fs off);
  os_sized : sized true elem;
  os_positive : 0 < n;
  os_own : match const_size (a_bits a), const_size (a_bytes a) with
           | Some b, _ => n = b
           | None, Some b => n = 8 * b
           | None, None => size_bits elem = Some n
           end
}.
(** The fields before the collection have sizes, and there is no seek. *)
Definition starts_known (c : cattrs) (before : fields) : Prop :=
  c_seek c = None /\ sized_fields false before /\ fields_size before false <> None.
(** The count [f] stays in range: of [usize] in bits, of [isize] in memory. *)
Definition in_range (fuel n : nat) (slot : N) (f : expr Z) : Prop :=
  forall ctx fs off, (f ctx fs off <= Z.of_nat fuel)%Z /\ (f ctx fs off * Z.of_nat n <= Z.of_N usize_max)%Z /\ (f ctx fs off * Z.of_N slot <= Z.of_N isize_max)%Z.
(** The limit [l] is the length of [f] elements of [n] bits, in bits or in bytes. *)
Definition same_length (n : nat) (f : expr Z) (l : flimit) : Prop :=
  l = FBits (fun ctx fs off => f ctx fs off * Z.of_nat n)%Z \/
  exists b, n = 8 * b /\ l = FBytes (fun ctx fs off => f ctx fs off * Z.of_nat b)%Z.
(** A successful run of [m] moves [bits_read] on by [n]. *)
Definition counts (n : nat) (m : RM value) : Prop := forall r v r', m r = (Ok v, r') -> r_bits r' = r_bits r + n.
(** The pads inside an element have less than 8 bits each, so they are not seeks; readers
    written by hand count the size of their field. *)
Fixpoint short_pads (t : ty) : Prop :=
  match t with
  | TPair a b => short_pads a /\ short_pads b
  | TArray _ t => short_pads t
  | TStruct _ fs => fields_short_pads fs
  | _ => True
  end
with fields_short_pads (fs : fields) : Prop :=
  match fs with
  | FNil => True
  | FCons a t wire tl =>
      (forall f, a_reader a = Some f -> forall n, field_bits a t = Some n -> forall ctx fs off, counts n (f ctx fs off)) /\
      const_pad (a_pad_before a) < 8 /\ const_pad (a_pad_after a) < 8 /\ short_pads wire /\ fields_short_pads tl
  end.
(** As [of_size], but wherever the collection starts: any seek, any padding. *)
Record elements_of (n : nat) (a : fattrs) (elem : ty) : Prop := {
  el_reader : a_reader a = None;
  el_bits : constant_size (a_bits a);
  el_bytes : constant_size (a_bytes a);
  el_size : size_on_read elem (const_size (a_bits a)) (const_size (a_bytes a));
  el_ctx : passes_args elem = true -> forall ctx fs off, no_sizes (a_ctx a ctx fs off);
  el_sized : sized true elem;
  el_short : short_pads elem;
  el_positive : 0 < n;
  el_own : match const_size (a_bits a), const_size (a_bytes a) with
           | Some b, _ => n = b
           | None, Some b => n = 8 * b
           | None, None => size_bits elem = Some n
           end
}.
