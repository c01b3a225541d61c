(** The wire format of derived containers, and vocabulary of the property theorems
    about them; no proofs here. *)
From Verif Require Import Base Spec Stream Reader Session Writer WSession Prims CodecSpec Containers ContainerSpec Derive.

(** ** Positions

    A writer or reader [pos] bits into its stream. *)
Definition w_at (pos : nat) (w : writer) : Prop :=
  w_bits w = 8 * (pos / 8) /\ length (w_rest w) = pos mod 8.
Definition r_at (pos : nat) (r : reader) : Prop :=
  r_bits r = pos /\ (pos + length (r_rest r)) mod 8 = 0.

(** In every stream of order [o], at position [pos]: [m] appends exactly [enc]. *)
Definition emits_at (o : order) (pos : nat) (m : WM unit) (enc : list bool) : Prop :=
  forall w, writable w -> in_order o w -> w_at pos w ->
  exists w' bs, m w = (Ok tt, w') /\ stored w w' bs /\ writable w' /\ in_order o w' /\
    bitstring o bs ++ orient o (w_rest w') = orient o (w_rest w) ++ enc.
(** At position [pos], whenever the unread bits start with [enc]: [m] returns [v] and
    consumes exactly [enc]. *)
Definition reads_at {A} (src : source) (o : order) (pos : nat) (m : RM A) (enc : list bool) (v : A) : Prop :=
  forall r rest, readable src r -> r_at pos r -> unread_string o (seen r) = enc ++ rest ->
  exists r', m r = (Ok v, r') /\ readable src r' /\ unread_string o (seen r') = rest /\
    r_bits r' = r_bits r + length enc /\
    s_data (r_s r') = s_data (r_s r) /\ s_pos (r_s r) <= s_pos (r_s r').

(** ** The wire format

    [encode t lim args pos v]: the bits of the value [v] of type [t] at position [pos]
    of a stream with bit order [o]; [args] and [lim] are its context.  [None]: [v] is
    not a value of the type, contradicts its attributes, or is outside the format
    supported here.  Supported are the formats that use the bit order [o] for
    everything that is not made of whole bytes at a byte boundary, have no seeks, no
    [reader] or [writer] attributes and no [read_all] (which would take the data that
    follows), and whose attribute expressions have the same value on reading and
    writing.  [src] is the kind of source: whole bytes of padding and [count] on
    [Vec<u8>] need one that can seek. *)

Notation "'let?' x ':=' m 'in' k" := (match m with Some x => k | None => None end)
  (at level 200, x name, right associativity).
Definition guard {A} (b : bool) (x : option A) : option A := if b then x else None.

Fixpoint list_eqb {A} (eqb : A -> A -> bool) (l m : list A) : bool :=
  match l, m with
  | [], [] => true
  | x :: l', y :: m' => eqb x y && list_eqb eqb l' m'
  | _, _ => false
  end.
Definition bits_eqb := list_eqb Bool.eqb.
(** The same bits both ways. *)
Definition agree (x y : option (list bool)) : option (list bool) :=
  let? a := x in let? b := y in guard (bits_eqb a b) (Some a).

Section Format.
Variables (src : source) (o : order).
(** The format of the types with hand-written impls. *)
Variable ce : nat -> list value -> nat -> value -> option (list bool).

Definition aligned (pos : nat) : bool := pos mod 8 =? 0.
Definition seekable : bool := match src with SeekSource => true | AnySource => false end.

(** Whole bytes. *)
Definition encode_bytes (pos : nat) (bs : list byte) : option (list bool) :=
  guard (order_eqb o Msb0 || aligned pos) (Some (bitstring o bs)).

(** *** Integers *)

(** [n] bits hold the value.  Negative numbers of fewer bits than the type need a
    context without an explicit order and without a whole number of bytes. *)
Definition holds (p : prim) (c : pctx) (n : nat) (v : N) : bool :=
  match p with
  | PI wb =>
      (v <? 2 ^ N.of_nat (8 * wb))%N &&
      ((v <? 2 ^ N.of_nat (n - 1))%N || (n =? 8 * wb) ||
       match c with
       | CEB _ _ => (- 2 ^ (Z.of_nat n - 1) <=? signed (8 * wb) v)%Z && (signed (8 * wb) v <? 2 ^ (Z.of_nat n - 1))%Z
       | CB _ => negb (n mod 8 =? 0) && (- 2 ^ (Z.of_nat n - 1) <=? signed (8 * wb) v)%Z && (signed (8 * wb) v <? 2 ^ (Z.of_nat n - 1))%Z
       | _ => false
       end)
  | _ => (v <? 2 ^ N.of_nat n)%N
  end.
Definition encode_prim (pos : nat) (p : prim) (c : pctx) (v : N) : option (list bool) :=
  match bits_of_ctx c, bytes_of_ctx (prim_bytes p) c with
  | Some (e, n, o'), _ =>
      guard (order_eqb o o' && (1 <=? n) && (n <=? prim_width p) &&
             (endian_eqb e Little || order_eqb o Msb0 || (n <=? 8) || (n =? prim_width p)) && holds p c n v)
        (Some (layout e o n v))
  | None, Some (e, n, o') =>
      guard ((1 <=? n) && (n <=? prim_bytes p) && (v <? 2 ^ N.of_nat (8 * n))%N && (order_eqb o o' || aligned pos))
        (encode_bytes pos (to_bytes_e e n v))
  | None, None => None
  end.
Definition encode_num (pos : nat) (p : prim) (lim : option (limit value)) (args : list value) (n : N) : option (list bool) :=
  match lim, pctx_of args with None, Some c => encode_prim pos p c n | _, _ => None end.

(** *** Magic and padding *)

Definition encode_magic (pos : nat) (m : list byte) : option (list bool) :=
  match m with [] => Some [] | _ => encode_bytes pos m end.
Definition encode_pad (p : option Z) (o' : option order) : option (list bool) :=
  match p with
  | None => Some []
  | Some z =>
      guard ((0 <=? z)%Z && (z <=? Z.of_N usize_max)%Z &&
             order_eqb o (match o' with Some x => x | None => Msb0 end) && (seekable || (z <? 8)%Z))
        (Some (repeat false (Z.to_nat z)))
  end.

(** *** Sequences *)

Fixpoint encode_list (enc : nat -> value -> option (list bool)) (pos : nat) (l : list value) : option (list (list bool)) :=
  match l with
  | [] => Some []
  | v :: tl =>
      let? e := enc pos v in
      let? es := encode_list enc (pos + length e) tl in
      Some (e :: es)
  end.
Definition no_empty (es : list (list bool)) : bool := forallb (fun e => negb (length e =? 0)) es.
(** The limit says to stop exactly at the end of [l]. *)
Definition stops (size : N) (lim : limit value) (l : list value) (es : list (list bool)) : bool :=
  match lim with
  | LCount n => (n =? N.of_nat (length l))%N && (n * size <=? isize_max)%N
  | LUntil p =>
      negb (length l =? 0) && no_empty es && p l &&
      forallb (fun i => negb (p (firstn i l))) (seq 1 (length l - 1))
  | LBits n => no_empty es && (n =? N.of_nat (length (concat es)))%N
  | LBytes n => no_empty es && (8 * n =? N.of_nat (length (concat es)))%N && (8 * n <=? usize_max)%N
  | LEnd => false
  end.
(** The key of an entry of a HashMap is the first component, an element of a HashSet is its
    own key.  No two entries of one have the same. *)
Definition entry_key (k : store) (x : value) : value :=
  match x with VPair a _ => match k with KMap => a | _ => x end | _ => x end.
Fixpoint distinct (k : store) (l : list value) : bool :=
  match l with
  | [] => true
  | x :: tl => negb (hashed k && existsb (fun y => value_eqb (entry_key k x) (entry_key k y)) tl) && distinct k tl
  end.

(** The value as the bytes of a [Vec<u8>]. *)
Definition byte_values (v : value) : option (list byte) :=
  match v with
  | VList l => Some (map (fun x => match x with VNum n => byte_of_N n | _ => x00 end) l)
  | _ => None
  end.

(** *** Fields *)

(** Is the field read from the input, given the value of its [cond]; is it written. *)
Definition is_read (skip : option skipmode) (cond : option bool) : bool :=
  match skip, cond with
  | Some SkipAll, Some c | Some SkipRead, Some c => negb c
  | Some SkipAll, None | Some SkipRead, None => false
  | None, Some c => c
  | None, None | Some SkipWrite, _ => true
  end.
Definition is_written (skip : option skipmode) (cond : option bool) : bool :=
  match skip, cond with
  | Some SkipAll, Some c | Some SkipWrite, Some c => negb c
  | Some SkipAll, None | Some SkipWrite, None => false
  | None, _ | Some SkipRead, _ => true
  end.
(** Values that write nothing. *)
Definition writes_nothing (t : ty) (v : value) : bool :=
  match t, v with
  | TOption _, VNone | TVec _ _ _, VList [] | TArray _ _, VList [] | TUnit, _ => true
  | _, _ => false
  end.

Definition assertions (a : fattrs) (ctx fs : list value) (off : nat) (v : value) : bool :=
  match a_assert a with Some f => f ctx (fs ++ [v]) off | None => true end &&
  match a_assert_eq a with Some f => value_eqb v (f ctx fs off) | None => true end.

(** One field: magic, padding, value, padding.  [enc_t], [enc_w]: the format of its
    type and of the type read ([map]).  [bit_offset] is the position on reading, the
    position rounded down to bytes on writing. *)
Definition encode_field (c : cattrs) (a : fattrs) (vec_u8 nothing : bool) (ctx fs : list value) (pos : nat) (v : value)
    (enc_t enc_w : option (limit value) -> list value -> nat -> option (list bool)) : option (list bool) :=
  match a_seek a, a_reader a, a_writer a with
  | None, None, None =>
      let? m := encode_magic pos (a_magic a) in
      let? b := encode_pad (eval0 (a_pad_before a) ctx fs) (field_order c a ctx fs) in
      let pos := pos + length m + length b in
      let ro := pos in
      let wo := 8 * (pos / 8) in
      let? body :=
        guard (assertions a ctx fs ro v && assertions a ctx fs wo v)
          (let cond off := option_map (fun f : expr bool => f ctx fs off) (a_cond a) in
           match is_read (a_skip a) (cond ro), is_written (a_skip a) (cond wo) with
           | false, w => guard (value_eqb v (a_default a ctx fs ro) && (negb w || nothing)) (Some [])
           | true, false => None
           | true, true =>
               let args := field_args c a ctx fs ro in
               guard (list_eqb value_eqb args (field_args c a ctx fs wo) &&
                      match a_map a with
                      | None => true
                      | Some f => match f ctx fs ro v with Ok v' => value_eqb v v' | _ => false end
                      end)
                 (match a_limit a with
                  | None => agree (enc_t None args pos) (enc_w None args pos)
                  | Some l =>
                      match eval_limit l ctx fs ro with
                      | Ok (LCount n) =>
                          if vec_u8 then
                            (* read as whole bytes, least significant bit first *)
                            let? bs := byte_values v in
                            guard (seekable && (order_eqb o Lsb0 || aligned pos))
                              (agree (enc_t (Some (LCount n)) args pos) (Some (bitstring o bs)))
                          else agree (enc_t (Some (LCount n)) args pos) (enc_w (Some (LCount n)) args pos)
                      | Ok lim => agree (enc_t (Some lim) args pos) (enc_w (Some lim) args pos)
                      | _ => None
                      end
                  end)
           end) in
      let? aft := encode_pad (eval0 (a_pad_after a) ctx (fs ++ [v])) (field_order c a ctx fs) in
      Some (m ++ b ++ body ++ aft)
  | _, _, _ => None
  end.

(** *** Variants

    The variant an id selects: the first that matches, else the first [default]. *)
Fixpoint first_match (vs : variants) (id : value) (k : nat) : option nat :=
  match vs with
  | VNil => None
  | VCons v _ tl => if matches (v_sel v) id then Some k else first_match tl id (S k)
  end.
Fixpoint first_default (vs : variants) (k : nat) : option nat :=
  match vs with
  | VNil => None
  | VCons v _ tl => if v_default v then Some k else first_default tl (S k)
  end.
Definition selected (vs : variants) (id : value) : option nat :=
  match first_match vs id 0 with Some k => Some k | None => first_default vs 0 end.
Definition selects (vs : variants) (id : value) (k : nat) : bool :=
  match selected vs id with Some j => j =? k | None => false end.

(** *** Types *)

Fixpoint encode (t : ty) (lim : option (limit value)) (args : list value) (pos : nat) (v : value) {struct t} : option (list bool) :=
  match t, v with
  | TPrim p, VNum n => encode_num pos p lim args n
  | TBool, VBool b => encode_num pos PU8 lim args (if b then 1%N else 0%N)
  | TNonZero p, VNum n => guard (negb (n =? 0)%N) (encode_num pos p lim args n)
  | TUnit, VList [] => Some []
  | TCString, VList l =>
      let? bs := byte_values v in
      guard (forallb (fun x => match x with VNum n => (0 <? n)%N && (n <? 256)%N | _ => false end) l &&
             match lim, args with
             | None, [] => true
             | None, [VBytes n] => (n =? S (length l)) && (N.of_nat n <=? isize_max)%N
             | _, _ => false
             end)
        (encode_bytes pos (bs ++ [x00]))
  | TOption t, VSome x => encode t lim args pos x
  | TPair a b, VPair x y =>
      let? e := encode a lim args pos x in
      let? f := encode b lim args (pos + length e) y in
      Some (e ++ f)
  | TArray n t, VList l =>
      guard (length l =? n) (let? es := encode_list (fun p x => encode t lim args p x) pos l in Some (concat es))
  | TVec k size t, VList l =>
      let? lm := lim in
      let? es := encode_list (fun p x => encode t None args p x) pos l in
      guard (negb (slot_size k size =? 0)%N && stops (slot_size k size) lm l es && distinct k l) (Some (concat es))
  | TStruct c fs, VRec l =>
      match lim, c_seek c with
      | None, None =>
          let? m := encode_magic pos (c_magic c) in
          let? e := encode_fields c (ctx_args c args) fs None l l [] (pos + length m) in
          Some (m ++ e)
      | _, _ => None
      end
  | TEnum e idt vs, VVar k l =>
      match lim with
      | Some _ => None
      | None =>
          let? m := encode_magic pos (c_magic (en_c e)) in
          let? x := encode_variant e (ctx_args (en_c e) args) (fun args p x => encode idt None args p x)
                      (fun id => selects vs id k) vs k l (pos + length m) in
          Some (m ++ x)
      end
  | TCustom k, _ => match lim with None => ce k args pos v | Some _ => None end
  | _, _ => None
  end
(** The fields one after the other.  [id]: the arguments with which the first field of
    an [id_pat] variant is written. *)
with encode_fields (c : cattrs) (ctx : list value) (fs : fields) (id : option (list value))
    (stored todo acc : list value) (pos : nat) {struct fs} : option (list bool) :=
  match fs with
  | FNil => guard (length todo =? 0) (Some [])
  | FCons a t wire tl =>
      guard (if a_temp a then match a_temp_value a with Some _ => true | None => false end else negb (length todo =? 0))
        (let v := field_value a stored todo ctx acc in
         let as_field :=
           encode_field c a (is_vec_u8 t) (writes_nothing t v) ctx acc pos v
             (fun lim args p => encode t lim args p v) (fun lim args p => encode wire lim args p v) in
         let? e := match id with None => as_field | Some args => agree (encode t None args pos v) as_field end in
         let? es := encode_fields c ctx tl None stored (field_rest a todo) (acc ++ [v]) (pos + length e) in
         Some (e ++ es))
  end
(** The k-th variant: id and fields; the id must select it.  The first field of an
    [id_pat] variant stores the id, unless the id comes from the context. *)
with encode_variant (e : eattrs) (ctx : list value) (enc_id : list value -> nat -> value -> option (list bool)) (sel : value -> bool)
    (vs : variants) (k : nat) (l : list value) (pos : nat) {struct vs} : option (list bool) :=
  match vs, k with
  | VNil, _ => None
  | VCons _ _ tl, S k' => encode_variant e ctx enc_id sel tl k' l pos
  | VCons v fs _, O =>
      let with_id (x : value) :=
        guard (sel x)
          (let? i := enc_id (id_args e ctx) pos x in
           let? f := encode_fields (en_c e) ctx fs None l l [] (pos + length i) in
           Some (i ++ f)) in
      match en_id e, v_sel v with
      | Some f, s =>
          guard (sel (f ctx))
            (encode_fields (en_c e) ctx fs (match s with SPat _ _ => Some (stored_id_args e ctx) | _ => None end) l l [] pos)
      | None, SId x | None, SDisc x => with_id x
      | None, SPat _ d =>
          match fs, l with
          | FNil, _ => let? x := d in with_id x
          | FCons a t _ tl, x :: rest =>
              match a_reader a with
              | None =>
                  guard (negb (a_temp a) && sel x)
                    (let? i := agree (encode t None (stored_id_args e ctx) pos x) (enc_id (id_args e ctx) pos x) in
                     let? f := encode_fields (en_c e) ctx tl None l rest [x] (pos + length i) in
                     Some (i ++ f))
              | Some _ => None
              end
          | FCons _ _ _ _, [] => None
          end
      end
  end.
End Format.

(** The hand-written impls follow their format. *)
Definition customs_lawful (src : source) (o : order) (cu : nat -> custom)
    (ce : nat -> list value -> nat -> value -> option (list bool)) : Prop :=
  forall k args pos v enc, ce k args pos v = Some enc ->
    emits_at o pos (cu_write (cu k) args v) enc /\ reads_at src o pos (cu_read (cu k) args) enc v.
(** No hand-written impls. *)
Definition no_customs : nat -> custom := fun _ => mkCustom (fun _ => panic) (fun _ _ => panic).
Definition no_format : nat -> list value -> nat -> value -> option (list bool) := fun _ _ _ _ => None.

(** ** Dispatch *)

(** The k-th variant matches the id; it is a default variant. *)
Definition matches_at (vs : variants) (id : value) (k : nat) : Prop :=
  exists v fs, nth_variant vs k = Some (v, fs) /\ matches (v_sel v) id = true.
Definition default_at (vs : variants) (k : nat) : Prop :=
  exists v fs, nth_variant vs k = Some (v, fs) /\ v_default v = true.
(** The variant for an id: the first that matches; if none does, the first default. *)
Definition chosen (vs : variants) (id : value) (k : nat) : Prop :=
  (matches_at vs id k /\ forall j, j < k -> ~ matches_at vs id j) \/
  ((forall j, ~ matches_at vs id j) /\ default_at vs k /\ forall j, j < k -> ~ default_at vs j).

(** ** Assertions

    [l] are the stored values of the fields [fs], [acc] the values of the fields
    before: there are values for the temporary fields, and a position for each field,
    with which the assertions hold. *)
Inductive asserted (ctx : list value) : fields -> list value -> list value -> Prop :=
| as_nil acc : asserted ctx FNil acc []
| as_cons a t wire tl acc v l off :
    assertions a ctx acc off v = true -> asserted ctx tl (acc ++ [v]) l ->
    asserted ctx (FCons a t wire tl) acc (if a_temp a then l else v :: l).
(** The number of stored fields. *)
Fixpoint stored_count (fs : fields) : nat :=
  match fs with
  | FNil => 0
  | FCons a _ _ tl => if a_temp a then stored_count tl else S (stored_count tl)
  end.

(** ** Conditions on all parts of a type *)

(** The attributes of every struct in a type satisfy [Qc], of every enum [Qe], of every
    field (with those of its container, and its type) [Q], every hand-written impl
    [K]. *)
Section Every.
Variables (Qc : cattrs -> Prop) (Qe : eattrs -> Prop) (Q : cattrs -> fattrs -> ty -> Prop) (K : nat -> Prop).
Fixpoint every (t : ty) : Prop :=
  match t with
  | TOption t | TArray _ t | TVec _ _ t => every t
  | TPair a b => every a /\ every b
  | TStruct c fs => Qc c /\ every_field c fs
  | TEnum e idt vs => Qe e /\ every idt /\ every_variant (en_c e) vs
  | TCustom k => K k
  | _ => True
  end
with every_field (c : cattrs) (fs : fields) : Prop :=
  match fs with
  | FNil => True
  | FCons a t wire tl => Q c a t /\ every t /\ every wire /\ every_field c tl
  end
with every_variant (c : cattrs) (vs : variants) : Prop :=
  match vs with
  | VNil => True
  | VCons _ fs tl => every_field c fs /\ every_variant c tl
  end.
End Every.

(** The expressions of a field do not use [deku::bit_offset] or [deku::byte_offset]. *)
Record offset_free (a : fattrs) : Prop := {
  of_ctx : forall ctx fs i j, a_ctx a ctx fs i = a_ctx a ctx fs j;
  of_limit : match a_limit a with
             | Some (FCount f) | Some (FBytes f) | Some (FBits f) => forall ctx fs i j, f ctx fs i = f ctx fs j
             | Some (FUntil f) => forall ctx fs i j, f ctx fs i = f ctx fs j
             | _ => True
             end;
  of_map : match a_map a with Some f => forall ctx fs i j, f ctx fs i = f ctx fs j | None => True end;
  of_reader : match a_reader a with Some f => forall ctx fs i j, f ctx fs i = f ctx fs j | None => True end;
  of_writer : match a_writer a with Some f => forall st ctx fs i j, f st ctx fs i = f st ctx fs j | None => True end;
  of_cond : match a_cond a with Some f => forall ctx fs i j, f ctx fs i = f ctx fs j | None => True end;
  of_default : forall ctx fs i j, a_default a ctx fs i = a_default a ctx fs j;
  of_assert : match a_assert a with Some f => forall ctx fs i j, f ctx fs i = f ctx fs j | None => True end;
  of_assert_eq : match a_assert_eq a with Some f => forall ctx fs i j, f ctx fs i = f ctx fs j | None => True end
}.

(** Writer code that uses the public writer API but does not seek: bits, bytes and
    integers are written, [rest()], the order of the pending bits and [bits_written]
    are looked at, errors are returned. *)
Inductive writer_program : WM unit -> Prop :=
| wp_lift x : writer_program (lift x)
| wp_op op m : writer_program m -> writer_program (let* _ := run_wop op in m)
| wp_see f : (forall l o n, writer_program (f l o n)) -> writer_program (fun w => f (w_rest w) (w_ord w) (w_bits w) w)
| wp_ext m1 m2 : (forall w, m1 w = m2 w) -> writer_program m1 -> writer_program m2.

(** No field and no struct in [t] has a seek attribute, and the hand-written writers
    are such programs. *)
Definition writes_in_order (cu : nat -> custom) (t : ty) : Prop :=
  every (fun c => c_seek c = None) (fun _ => True)
    (fun _ a _ => a_seek a = None /\ forall f, a_writer a = Some f -> forall st ctx fs off v, writer_program (f st ctx fs off v))
    (fun k => forall args v, writer_program (cu_write (cu k) args v)) t.

(** Reader code that uses the public reader API but neither seeks nor skips: bits,
    bytes and integers are read, [end()] and [rest()] are called, errors are returned
    or handled; [bits_read] is looked at only if [offs]. *)
Inductive reader_program (offs : Prop) : RM value -> Prop :=
| rp_lift x : reader_program offs (lift x)
| rp_op op k : (forall x, reader_program offs (k x)) -> reader_program offs (fun r => let '(x, r') := run_rop op r in k x r')
| rp_rest f : (forall l, reader_program offs (f l)) -> reader_program offs (fun r => f (r_rest r) r)
| rp_offset f : offs -> (forall n, reader_program offs (f n)) -> reader_program offs (fun r => f (r_bits r) r)
| rp_ext m1 m2 : (forall r, m1 r = m2 r) -> reader_program offs m1 -> reader_program offs m2.

(** No seek attributes, and the hand-written readers are such programs.  Unless
    [offs], no expression uses the offset; unless [skips], every pad is shorter than a
    byte; unless [exact], no [Vec<u8>] has a [count]. *)
Definition reads_in_order (offs skips exact : Prop) (cu : nat -> custom) (t : ty) : Prop :=
  every (fun c => c_seek c = None) (fun _ => True)
    (fun _ a t => a_seek a = None /\ (offs \/ offset_free a) /\
       (skips \/ forall p, a_pad_before a = Some p \/ a_pad_after a = Some p -> forall ctx fs, (p ctx fs < 8)%Z) /\
       (exact \/ is_vec_u8 t = false \/ forall f, a_limit a <> Some (FCount f)) /\
       forall f, a_reader a = Some f -> forall ctx fs off, reader_program offs (f ctx fs off))
    (fun k => forall args, reader_program offs (cu_read (cu k) args)) t.

(** A new source with the bytes of [s] from position [t] on. *)
Definition source_from (s : stream) (t : nat) : stream :=
  {| s_data := skipn t (s_data s); s_pos := 0; s_eat := s_eat s; s_noseek := None; s_fault := fun _ => None; s_calls := 0 |}.
(** The attributes without the seek. *)
Definition no_seek (c : cattrs) : cattrs := mkC (c_endian c) (c_order c) (c_magic c) None (c_ctx_default c).

(** An argument that keeps the bits in sequence: with [whole], no size that is not a
    number of whole bytes; otherwise, not [Lsb0]. *)
Definition keeps_place (whole : bool) (x : value) : Prop :=
  match whole, x with
  | true, VBits n => n mod 8 = 0
  | false, VOrd Lsb0 => False
  | _, _ => True
  end.
(** Hand-written code that keeps the bits in sequence: calls of the reader's functions
    except [end], and whatever is decided from the values, [rest] and [bits_read]. *)
Inductive stepping (whole : bool) : forall A : Type, RM A -> Prop :=
| sp_lift A (x : res A) : stepping whole A (lift x)
| sp_bind A B (m : RM A) (f : A -> RM B) : stepping whole A m -> (forall a, stepping whole B (f a)) -> stepping whole B (bind m f)
| sp_bits n o : (if whole then n mod 8 = 0 else o = Msb0) -> stepping whole (list bool) (read_bits_into n o)
| sp_bytes n size o : (if whole then True else o = Msb0) -> stepping whole (list byte) (read_bytes n size o)
| sp_prim p args c : Forall (keeps_place whole) args -> pctx_of args = Some c -> stepping whole N (prim_read p c)
| sp_skip n o : (if whole then n mod 8 = 0 else o = Msb0) -> stepping whole unit (skip_bits n o)
| sp_seek w : stepping whole nat (lift_io (r_seek w))
| sp_see A (f : list bool -> nat -> RM A) : (forall l n, stepping whole A (f l n)) -> stepping whole A (fun r => f (r_rest r) (r_bits r) r)
| sp_ext A (m1 m2 : RM A) : (forall r, m1 r = m2 r) -> stepping whole A m1 -> stepping whole A m2.
(** Everything in [t] is read in whole bytes ([whole]), or everything is read in Msb0
    order and no [Vec<u8>] has a [count].  Hand-written readers are such code. *)
Definition in_step (whole : bool) (cu : nat -> custom) (t : ty) : Prop :=
  every (fun _ => True) (fun e => forall ctx, Forall (keeps_place whole) (id_args e ctx))
    (fun c a t => (forall f, a_reader a = Some f -> forall ctx fs off, stepping whole value (f ctx fs off)) /\
       (forall ctx fs off, Forall (keeps_place whole) (field_args c a ctx fs off)) /\
       (whole = true -> forall p, a_pad_before a = Some p \/ a_pad_after a = Some p -> forall ctx fs, (p ctx fs mod 8 = 0)%Z) /\
       (whole = true \/ is_vec_u8 t = false \/ forall f, a_limit a <> Some (FCount f)))
    (fun k => forall args, stepping whole value (cu_read (cu k) args)) t.
