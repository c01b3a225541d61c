(** What single attributes mean; vocabulary of the property theorems C43-C46.  No proofs
    here. *)
From Verif Require Import Base Spec Stream Reader Session Writer WSession Prims CodecSpec Containers ContainerSpec Derive DeriveSpec.

(** ** Layout attributes

    An integer field: its type, [endian], [bit_order], [bits] or [bytes], and a value. *)
Inductive isize : Type := Whole | InBits (n : nat) | InBytes (n : nat).
Record ifield : Type := mkI { i_type : prim; i_endian : option endian; i_order : option order; i_size : isize; i_val : N }.

(** An attribute of the field, else that of the container, else the default. *)
Definition inherit {A} (own outer : option A) (default : A) : A :=
  match own, outer with Some x, _ => x | None, Some x => x | None, None => default end.
Definition given {A} (own outer : option A) : Prop := own <> None \/ outer <> None.
Definition i_bits (f : ifield) : nat :=
  match i_size f with Whole => prim_width (i_type f) | InBits n => n | InBytes n => 8 * n end.

(** The struct with these fields whose container attributes are [e] and [ord]. *)
Definition i_attrs (f : ifield) : fattrs :=
  {| a_endian := match i_endian f with Some e => Some (fun _ _ => e) | None => None end;
     a_order := match i_order f with Some o => Some (fun _ _ => o) | None => None end;
     a_bits := match i_size f with InBits n => Some (fun _ _ => n) | _ => None end;
     a_bytes := match i_size f with InBytes n => Some (fun _ _ => n) | _ => None end;
     a_ctx := fun _ _ _ => []; a_limit := None; a_map := None; a_reader := None; a_writer := None; a_skip := None;
     a_cond := None; a_default := fun _ _ _ => VUnit; a_assert := None; a_assert_eq := None; a_seek := None; a_magic := [];
     a_pad_before := None; a_pad_after := None; a_temp := false; a_temp_value := None; a_update := None |}.
Fixpoint i_fields (fs : list ifield) : fields :=
  match fs with [] => FNil | f :: tl => FCons (i_attrs f) (TPrim (i_type f)) (TPrim (i_type f)) (i_fields tl) end.
Definition i_container (e : option endian) (ord : option order) : cattrs :=
  mkC (match e with Some x => Some (fun _ _ => x) | None => None end)
      (match ord with Some x => Some (fun _ _ => x) | None => None end) [] None None.
Definition i_values (fs : list ifield) : list value := map (fun f => VNum (i_val f)) fs.

(** The bits of the field in a stream of bit order [o]. *)
Definition i_wire (e : option endian) (o : order) (f : ifield) : list bool :=
  layout (inherit (i_endian f) e Little) o (i_bits f) (i_val f).

(** The field, [pos] bits into such a stream: its value fits; a size in bits is used
    in a field of order [o], whole bytes in such a field or at a byte boundary; the
    sizes not supported by big-endian Lsb0 and the attributes without an impl ([bytes]
    with [bit_order] and no [endian]) are left out. *)
Definition i_fits (e : option endian) (ord : option order) (o : order) (pos : nat) (f : ifield) : Prop :=
  let n := i_bits f in
  1 <= n <= prim_width (i_type f) /\ (i_val f < 2 ^ N.of_nat n)%N /\
  (is_unsigned (i_type f) \/ (i_val f < 2 ^ N.of_nat (n - 1))%N \/ n = prim_width (i_type f)) /\
  match i_size f with
  | InBits _ =>
      inherit (i_order f) ord Msb0 = o /\
      (inherit (i_endian f) e Little = Big -> o = Lsb0 -> n <= 8 \/ n = prim_width (i_type f))
  | _ => pos mod 8 = 0 \/ (o = Msb0 /\ inherit (i_order f) ord Msb0 = Msb0)
  end /\
  match i_size f with InBytes _ => given (i_order f) ord -> given (i_endian f) e | _ => True end.
Fixpoint all_fit (e : option endian) (ord : option order) (o : order) (pos : nat) (fs : list ifield) : Prop :=
  match fs with
  | [] => True
  | f :: tl => i_fits e ord o pos f /\ all_fit e ord o (pos + i_bits f) tl
  end.

(** An enum whose id is the integer field [f] (its [bit_order] is the container's). *)
Definition i_enum_attrs (e : option endian) (ord : option order) (f : ifield) : eattrs :=
  mkE (i_container e ord) None (match i_endian f with Some x => Some (fun _ _ => x) | None => None end)
    (match i_size f with InBits n => Some (fun _ _ => n) | _ => None end) (match i_size f with InBytes n => Some (fun _ _ => n) | _ => None end).

(** The fields with the [endian] and [bit_order] of the container written out. *)
Definition spelled {A} (own outer : option A) : option A := match own with Some _ => own | None => outer end.
Fixpoint spell_out (c : cattrs) (fs : fields) : fields :=
  match fs with
  | FNil => FNil
  | FCons a t wire tl =>
      FCons (mkF (spelled (a_endian a) (c_endian c)) (spelled (a_order a) (c_order c)) (a_bits a) (a_bytes a) (a_ctx a) (a_limit a)
               (a_map a) (a_reader a) (a_writer a) (a_skip a) (a_cond a) (a_default a) (a_assert a) (a_assert_eq a) (a_seek a)
               (a_magic a) (a_pad_before a) (a_pad_after a) (a_temp a) (a_temp_value a) (a_update a))
        t wire (spell_out c tl)
  end.
Fixpoint spell_out_variants (c : cattrs) (vs : variants) : variants :=
  match vs with VNil => VNil | VCons v fs tl => VCons v (spell_out c fs) (spell_out_variants c tl) end.
Definition without_layout (c : cattrs) : cattrs := mkC None None (c_magic c) (c_seek c) (c_ctx_default c).

(** ** Context *)

Definition without_default (c : cattrs) : cattrs := mkC (c_endian c) (c_order c) (c_magic c) (c_seek c) None.
Definition enum_without_default (e : eattrs) : eattrs :=
  mkE (without_default (en_c e)) (en_id e) (en_id_endian e) (en_bits e) (en_bytes e).
Fixpoint fapp (fs gs : fields) : fields :=
  match fs with FNil => gs | FCons a t wire tl => FCons a t wire (fapp tl gs) end.
Fixpoint all_fields (P : fattrs -> Prop) (fs : fields) : Prop :=
  match fs with FNil => True | FCons a _ _ tl => P a /\ all_fields P tl end.
(** #[deku(ctx = "f")]. *)
Definition ctx_only (f : expr (list value)) : fattrs :=
  {| a_endian := None; a_order := None; a_bits := None; a_bytes := None; a_ctx := f;
     a_limit := None; a_map := None; a_reader := None; a_writer := None; a_skip := None; a_cond := None;
     a_default := fun _ _ _ => VUnit; a_assert := None; a_assert_eq := None; a_seek := None; a_magic := [];
     a_pad_before := None; a_pad_after := None; a_temp := false; a_temp_value := None; a_update := None |}.

(** ** Temporary fields *)

(** The same fields, none of them temporary. *)
Fixpoint kept (fs : fields) : fields :=
  match fs with
  | FNil => FNil
  | FCons a t wire tl =>
      FCons (mkF (a_endian a) (a_order a) (a_bits a) (a_bytes a) (a_ctx a) (a_limit a)
               (a_map a) (a_reader a) (a_writer a) (a_skip a) (a_cond a) (a_default a) (a_assert a) (a_assert_eq a) (a_seek a)
               (a_magic a) (a_pad_before a) (a_pad_after a) false None (a_update a))
        t wire (kept tl)
  end.
(** The values without those of the temporary fields. *)
Fixpoint stored_of (fs : fields) (vs : list value) : list value :=
  match fs, vs with
  | FCons a _ _ tl, v :: vs' => if a_temp a then stored_of tl vs' else v :: stored_of tl vs'
  | _, _ => []
  end.
(** [vs] are the values of all fields when the stored ones are [l]: each temporary
    field has the value of its [temp_value], which sees [stored] and the fields before. *)
Inductive filled (stored ctx : list value) : fields -> list value -> list value -> list value -> Prop :=
| fi_nil acc : filled stored ctx FNil [] acc []
| fi_keep a t wire tl v l acc vs : a_temp a = false -> filled stored ctx tl l (acc ++ [v]) vs ->
    filled stored ctx (FCons a t wire tl) (v :: l) acc (v :: vs)
| fi_temp a t wire tl f l acc vs : a_temp a = true -> a_temp_value a = Some f ->
    filled stored ctx tl l (acc ++ [f stored ctx acc]) vs ->
    filled stored ctx (FCons a t wire tl) l acc (f stored ctx acc :: vs).

(** ** Updates *)

(** The i-th stored field has the update expression [u]. *)
Fixpoint updates_of (fs : fields) : list (option (list value -> res value)) :=
  match fs with
  | FNil => []
  | FCons a _ _ tl => if a_temp a then updates_of tl else a_update a :: updates_of tl
  end.
(** [l'] is [l] updated: fields are computed in order, each sees the new values before
    it and the old ones from it on. *)
Definition updated (us : list (option (list value -> res value))) (l l' : list value) : Prop :=
  length l' = length l /\
  forall i u, nth_error us i = Some u ->
    match u with
    | None => nth_error l' i = nth_error l i
    | Some f => exists x, f (firstn i l' ++ skipn i l) = Ok x /\ nth_error l' i = Some x
    end.
(** [f] uses only fields without [update]. *)
Definition independent (us : list (option (list value -> res value))) (f : list value -> res value) : Prop :=
  forall l1 l2, length l1 = length us -> length l2 = length us ->
  (forall j, nth_error us j = Some None -> nth_error l1 j = nth_error l2 j) -> f l1 = f l2.

(** struct { #[deku(update = "items.len()")] n: P, #[deku(count = "n")] items: Vec<T> }, or
    another collection type. *)
Definition len_update (p : prim) (stored : list value) : res value :=
  match stored with
  | [_; VList l] => if (N.of_nat (length l) <? 2 ^ N.of_nat (prim_width p))%N then Ok (VNum (N.of_nat (length l))) else Err Parse
  | _ => Panic
  end.
Definition num_at (fs : list value) (k : nat) : Z := match nth k fs VUnit with VNum n => Z.of_N n | _ => 0%Z end.
Definition updating (f : list value -> res value) : fattrs :=
  {| a_endian := None; a_order := None; a_bits := None; a_bytes := None; a_ctx := fun _ _ _ => [];
     a_limit := None; a_map := None; a_reader := None; a_writer := None; a_skip := None; a_cond := None;
     a_default := fun _ _ _ => VUnit; a_assert := None; a_assert_eq := None; a_seek := None; a_magic := [];
     a_pad_before := None; a_pad_after := None; a_temp := false; a_temp_value := None; a_update := Some f |}.
Definition counting (f : expr Z) : fattrs :=
  {| a_endian := None; a_order := None; a_bits := None; a_bytes := None; a_ctx := fun _ _ _ => [];
     a_limit := Some (FCount f); a_map := None; a_reader := None; a_writer := None; a_skip := None; a_cond := None;
     a_default := fun _ _ _ => VUnit; a_assert := None; a_assert_eq := None; a_seek := None; a_magic := [];
     a_pad_before := None; a_pad_after := None; a_temp := false; a_temp_value := None; a_update := None |}.
Definition counted (k : store) (c : cattrs) (p : prim) (size : N) (t : ty) : ty :=
  TStruct c (FCons (updating (len_update p)) (TPrim p) (TPrim p)
            (FCons (counting (fun _ fs _ => num_at fs 0)) (TVec k size t) (TVec k size t) FNil)).

(** ** Limits

    #[deku(<limit>)]. *)
Definition limit_only (l : flimit) : fattrs :=
  {| a_endian := None; a_order := None; a_bits := None; a_bytes := None; a_ctx := fun _ _ _ => [];
     a_limit := Some l; a_map := None; a_reader := None; a_writer := None; a_skip := None; a_cond := None;
     a_default := fun _ _ _ => VUnit; a_assert := None; a_assert_eq := None; a_seek := None; a_magic := [];
     a_pad_before := None; a_pad_after := None; a_temp := false; a_temp_value := None; a_update := None |}.
(** The number in the attribute. *)
Definition limit_number (l : flimit) (ctx before : list value) (off : nat) : option Z :=
  match l with FCount f | FBytes f | FBits f => Some (f ctx before off) | FUntil _ | FAll => None end.
(** What the documentation says the items are, for elements read by [elem] from [r] on:
    [count]: so many; [bits_read], [bytes_read], [until]: the first time the limit is met
    exactly (nothing for the number 0); [read_all]: until the input ends. *)
Definition limit_met (l : flimit) (ctx before : list value) (elem : RM value) (r : reader) (items : list value) (r' : reader) : Prop :=
  let off := r_bits r in
  match l with
  | FCount f => Z.of_nat (length items) = f ctx before off /\ back_to_back elem r items r'
  | FBits f => if (f ctx before off =? 0)%Z then items = [] /\ r' = r
               else first_stop elem (fun bits _ => (Z.of_nat bits =? f ctx before off)%Z) r items r'
  | FBytes f => if (f ctx before off =? 0)%Z then items = [] /\ r' = r
                else first_stop elem (fun bits _ => (Z.of_nat bits =? 8 * f ctx before off)%Z) r items r'
  | FUntil p => first_stop elem (fun _ vs => p ctx before off vs) r items r'
  | FAll => until_end elem r items r'
  end.
(** The number of elements fits the address space, the number of bits a [usize]. *)
Definition limit_small (size : N) (l : flimit) (ctx before : list value) (off : nat) : Prop :=
  match l with
  | FCount f => (f ctx before off * Z.of_N size <= Z.of_N isize_max)%Z
  | FBytes f => (8 * f ctx before off <= Z.of_N usize_max)%Z
  | _ => True
  end.
