(** Model of the code generated by #[derive(DekuRead, DekuWrite, DekuSize)]:
    deku-derive/src/macros/{deku_read,deku_write,deku_size,mod}.rs, and of the
    container API in src/lib.rs.  No proofs here.

    A Rust type with its deku attributes is a [ty]; [read_ty] and [write_ty] are the
    generated [from_reader_with_ctx] and [to_writer].  Attribute expressions are Coq
    functions of the variables in scope.  What does not compile in Rust (a value of
    the wrong type, a context for which there is no impl) panics here. *)
From Verif Require Import Base Stream Reader Writer Prims Containers.

(** ** Values *)

(** Integers, NonZero, floats and IP addresses are numbers (see Prims.v); [VList] is
    a Vec, array, slice, CString (bytes without the terminator) or unit; [VPair] a
    tuple; [VRec] a struct (its stored fields), [VVar k] the k-th variant of an enum.
    [VEnd], [VBits], [VBytes], [VOrd] are the context values of src/ctx.rs. *)
Inductive value : Type :=
| VNum (n : N) | VBool (b : bool)
| VList (l : list value) | VPair (a b : value) | VSome (v : value) | VNone
| VRec (fs : list value) | VVar (k : nat) (fs : list value)
| VEnd (e : endian) | VBits (n : nat) | VBytes (n : nat) | VOrd (o : order).
Definition VUnit : value := VList [].

Definition endian_eqb (a b : endian) : bool :=
  match a, b with Little, Little | Big, Big => true | _, _ => false end.
(** [==] (derived [PartialEq]). *)
Fixpoint value_eqb (a b : value) : bool :=
  let list_eqb := fix list_eqb (l m : list value) : bool :=
    match l, m with
    | [], [] => true
    | x :: l', y :: m' => value_eqb x y && list_eqb l' m'
    | _, _ => false
    end in
  match a, b with
  | VNum x, VNum y => (x =? y)%N
  | VBool x, VBool y => Bool.eqb x y
  | VList l, VList m => list_eqb l m
  | VPair x1 x2, VPair y1 y2 => value_eqb x1 y1 && value_eqb x2 y2
  | VSome x, VSome y => value_eqb x y
  | VNone, VNone => true
  | VRec l, VRec m => list_eqb l m
  | VVar i l, VVar j m => (i =? j) && list_eqb l m
  | VEnd x, VEnd y => endian_eqb x y
  | VBits x, VBits y => x =? y
  | VBytes x, VBytes y => x =? y
  | VOrd x, VOrd y => order_eqb x y
  | _, _ => false
  end.

(** ** Attributes *)

(** The variables an attribute expression can use: the [ctx] arguments and the fields
    before it (temporary ones included), oldest first; for [assert] also the field
    itself.  [expr] also has [deku::bit_offset]; [deku::byte_offset] is that divided
    by 8.  On writing, the Rust expressions could name later fields too; expressions
    shared with reading cannot. *)
Definition expr0 (A : Type) : Type := list value -> list value -> A.
Definition expr (A : Type) : Type := list value -> list value -> nat -> A.

(** deku-derive/src/lib.rs [SkipMode]. *)
Inductive skipmode : Type := SkipAll | SkipRead | SkipWrite.
(** [count], [bytes_read], [until], [read_all], [bits_read]; at most one
    (deku-derive/src/lib.rs:822-904; [until] together with [count] or [bytes_read]
    is ignored, deku_read.rs:817-905). *)
Inductive flimit : Type :=
| FCount (n : expr Z) | FBytes (n : expr Z) | FUntil (p : expr (list value -> bool)) | FAll | FBits (n : expr Z).

(** deku-derive/src/lib.rs:610-707 [FieldData].  Padding is the sum of the bits and
    bytes attributes in bits (mod.rs:381-395; overflow not modelled).  A seek is
    [None] when the number does not fit the type.  [a_default] includes the implicit
    [Default::default()] (lib.rs:816).  [a_temp_value] and [a_writer] also see all
    stored fields.  [a_update] is the expression with its [try_into], given the
    stored fields. *)
Record fattrs : Type := mkF {
  a_endian : option (expr0 endian);
  a_order : option (expr0 order);
  a_bits : option (expr0 nat);
  a_bytes : option (expr0 nat);
  a_ctx : expr (list value);
  a_limit : option flimit;
  a_map : option (expr (value -> res value));
  a_reader : option (expr (RM value));
  a_writer : option (list value -> expr (value -> WM unit));
  a_skip : option skipmode;
  a_cond : option (expr bool);
  a_default : expr value;
  a_assert : option (expr bool);
  a_assert_eq : option (expr value);
  a_seek : option (expr0 (option seekfrom));
  a_magic : list byte;
  a_pad_before : option (expr0 Z);
  a_pad_after : option (expr0 Z);
  a_temp : bool;
  a_temp_value : option (list value -> expr0 value);
  a_update : option (list value -> res value)
}.
(** No attributes. *)
Definition plain : fattrs :=
  {| a_endian := None; a_order := None; a_bits := None; a_bytes := None; a_ctx := fun _ _ _ => [];
     a_limit := None; a_map := None; a_reader := None; a_writer := None; a_skip := None; a_cond := None;
     a_default := fun _ _ _ => VUnit; a_assert := None; a_assert_eq := None; a_seek := None; a_magic := [];
     a_pad_before := None; a_pad_after := None; a_temp := false; a_temp_value := None; a_update := None |}.

(** deku-derive/src/lib.rs [DekuData]: the attributes of the struct or enum itself. *)
Record cattrs : Type := mkC {
  c_endian : option (expr0 endian);
  c_order : option (expr0 order);
  c_magic : list byte;
  c_seek : option (list value -> option seekfrom);
  c_ctx_default : option (list value)
}.
Definition cplain : cattrs := mkC None None [] None None.
(** A type with [ctx_default] also has the impls for the context (): deku_read.rs:187-199
    and 472-487, deku_write.rs:180-193 and 437-450. *)
Definition ctx_args (c : cattrs) (args : list value) : list value :=
  match args, c_ctx_default c with [], Some d => d | _, _ => args end.
(** Enums: [id] (an expression over [ctx]) or else the type and layout of the id. *)
Record eattrs : Type := mkE {
  en_c : cattrs;
  en_id : option (list value -> value);
  en_id_endian : option (expr0 endian);
  en_bits : option (expr0 nat);
  en_bytes : option (expr0 nat)
}.
(** [id = ".."], [id_pat = ".."] (with the discriminant if there is one), or the
    discriminant alone. *)
Inductive selector : Type := SId (v : value) | SPat (p : value -> bool) (disc : option value) | SDisc (v : value).
Record vattrs : Type := mkV { v_sel : selector; v_default : bool }.
(** A type with hand-written impls; [cu] below gives the impls of each. *)
Record custom : Type := mkCustom { cu_read : list value -> RM value; cu_write : list value -> value -> WM unit }.

(** ** Types

    [TVec k size t]: a Vec, a boxed slice, a HashSet of [t] or, if [t] is a pair, a
    HashMap, written as [Vec<..>], [Box<[t]>] or [Arc<[t]>], [HashSet<t>],
    [HashMap<..>]; [size] is [size_of::<t>()].  [Box<t>], [Arc<t>], [Cow<t>] are [t]; an
    n-tuple is a nested pair; [TNonZero] as in Containers.v; IP addresses are their
    integers.  A field has its type and the type that is read: the argument type of
    its [map], or the same.  Not covered: custom variant readers and writers, recursive
    types, generics.

    The value of a HashMap or HashSet is the list of its entries in iteration order.
    That order is up to the hasher; a value that has been read has the order of
    insertion.  [==] on keys is derived; [assert_eq] on a HashMap or HashSet would not
    depend on the order, here it does. *)
Inductive store : Type := KVec | KSlice | KSet | KMap.
Definition hashed (k : store) : bool := match k with KSet | KMap => true | _ => false end.
Inductive ty : Type :=
| TPrim (p : prim) | TBool | TNonZero (p : prim) | TUnit | TCString
| TOption (t : ty) | TPair (a b : ty) | TArray (n : nat) (t : ty) | TVec (k : store) (size : N) (t : ty)
| TStruct (c : cattrs) (fs : fields)
| TEnum (e : eattrs) (idt : ty) (vs : variants)
| TCustom (name : nat)
with fields : Type := FNil | FCons (a : fattrs) (t wire : ty) (tl : fields)
with variants : Type := VNil | VCons (v : vattrs) (fs : fields) (tl : variants).

Definition no_fields (fs : fields) : bool := match fs with FNil => true | _ => false end.

(** src/impls/hashmap.rs:36-40, 57-65 and hashset.rs:36-39, 56-62: [insert], which
    replaces the entry with the same key, for each element read; hashmap.rs inserts
    [(key, value)]. *)
Definition key_of (k : store) (x : value) : value := match k, x with KMap, VPair a _ => a | _, _ => x end.
Fixpoint insert (k : store) (m : list value) (x : value) : list value :=
  match m with
  | [] => [x]
  | y :: tl => if value_eqb (key_of k y) (key_of k x) then x :: tl else y :: insert k tl x
  end.
Definition collect (k : store) (l : list value) : list value := if hashed k then fold_left (insert k) l [] else l.
(** hashmap.rs:18-67 and hashset.rs:18-65 are the loops of [Vec] (vec.rs:45-110) without
    the shortcut for zero-sized elements.  ([with_capacity] panics if the table does not
    fit in [isize::MAX] bytes.  A table is larger than a [Vec]; the limit of [Vec] is
    modelled.) *)
Definition slot_size (k : store) (size : N) : N := if hashed k then N.max 1 size else size.

(** ** Arguments *)

Definition opt_list {A} (x : option A) : list A := match x with Some a => [a] | None => [] end.
Definition or_else {A} (x y : option A) : option A := match x with Some _ => x | None => y end.

(** deku-derive/src/macros/mod.rs:289-321 [gen_field_args]: endian, bits, bytes,
    order, ctx. *)
Definition args_of (e : option endian) (bits bytes : option nat) (o : option order) (ctx : list value) : list value :=
  opt_list (option_map VEnd e) ++ opt_list (option_map VBits bits) ++ opt_list (option_map VBytes bytes) ++
  opt_list (option_map VOrd o) ++ ctx.
(** An endian or order string that is not a keyword is a variable: mod.rs:323-349. *)
Definition eval0 {A} (x : option (expr0 A)) (ctx fs : list value) : option A := option_map (fun f => f ctx fs) x.
(** deku_read.rs:662-663 and 778-787, deku_write.rs:641-642 and 743-752. *)
Definition field_order (c : cattrs) (a : fattrs) (ctx fs : list value) : option order :=
  eval0 (or_else (a_order a) (c_order c)) ctx fs.
Definition field_args (c : cattrs) (a : fattrs) (ctx fs : list value) (off : nat) : list value :=
  args_of (eval0 (or_else (a_endian a) (c_endian c)) ctx fs) (eval0 (a_bits a) ctx fs) (eval0 (a_bytes a) ctx fs)
          (field_order c a ctx fs) (a_ctx a ctx fs off).
(** mod.rs:252-283 [gen_id_args]. *)
Definition id_args (e : eattrs) (ctx : list value) : list value :=
  args_of (eval0 (or_else (en_id_endian e) (c_endian (en_c e))) ctx []) (eval0 (en_bits e) ctx []) (eval0 (en_bytes e) ctx [])
          (eval0 (c_order (en_c e)) ctx []) [].
(** deku_write.rs:619-629: the arguments for the field that stores the id. *)
Definition stored_id_args (e : eattrs) (ctx : list value) : list value :=
  args_of (eval0 (en_id_endian e) ctx []) (eval0 (en_bits e) ctx []) (eval0 (en_bytes e) ctx []) (eval0 (c_order (en_c e)) ctx []) [].

(** The context of an integer; there is no impl for other lists. *)
Definition pctx_of (args : list value) : option pctx :=
  match args with
  | [] => Some C0
  | [VEnd e] => Some (CE e)
  | [VBits n] => Some (CB n)
  | [VBytes n] => Some (CY n)
  | [VOrd o] => Some (CO o)
  | [VEnd e; VBits n] => Some (CEB e n)
  | [VEnd e; VBytes n] => Some (CEY e n)
  | [VEnd e; VOrd o] => Some (CEO e o)
  | [VBits n; VOrd o] => Some (CBO n o)
  | [VEnd e; VBits n; VOrd o] => Some (CEBO e n o)
  | [VEnd e; VBytes n; VOrd o] => Some (CEYO e n o)
  | _ => None
  end.

(** ** Reading *)

(** deku_read.rs:531-542 [emit_magic_read_lit]. *)
Fixpoint read_magic (m : list byte) : RM unit :=
  match m with
  | [] => ret tt
  | b :: tl =>
      let* x := prim_read PU8 C0 in
      if (x =? Byte.to_N b)%N then read_magic tl else fail Parse
  end.

(** [usize::try_from]. *)
Definition to_usize (z : Z) : option N := if (z <? 0)%Z || (Z.of_N usize_max <? z)%Z then None else Some (Z.to_N z).
(** deku_read.rs:603-628 [emit_padding]; [Order::default()] is [Msb0] (src/ctx.rs:14-22). *)
Definition read_pad (p : option Z) (o : option order) : RM unit :=
  match p with
  | None => ret tt
  | Some z =>
      match to_usize z with
      | None => fail InvalidParam
      | Some n => fun r => skip_bits (N.to_nat n) (match o with Some x => x | None => Msb0 end) r
      end
  end.
(** deku_read.rs:46-90 and 683-724; [rewind] is [seek(SeekFrom::Start(0))]. *)
Definition read_seek (s : option (option seekfrom)) : RM unit :=
  match s with
  | None => ret tt
  | Some None => panic
  | Some (Some w) => let* _ := lift_io (r_seek w) in ret tt
  end.

(** deku_read.rs:817-905: the limit; numbers go through [usize::try_from(..)?], whose
    error is [Parse] (src/error.rs:129-133). *)
Definition eval_limit (l : flimit) (ctx fs : list value) (off : nat) : res (limit value) :=
  let num (f : expr Z) (k : N -> limit value) : res (limit value) :=
    match to_usize (f ctx fs off) with Some n => Ok (k n) | None => Err Parse end in
  match l with
  | FCount f => num f LCount
  | FBytes f => num f LBytes
  | FUntil p => Ok (LUntil (p ctx fs off))
  | FAll => Ok LEnd
  | FBits f => num f LBits
  end.

(** deku_read.rs:818-845: a field whose type is literally [Vec<u8>]. *)
Definition is_vec_u8 (t : ty) : bool := match t with TVec KVec _ (TPrim PU8) => true | _ => false end.
Definition vec_of_bytes (bs : list byte) : value := VList (map (fun b => VNum (Byte.to_N b)) bs).

(** deku_read.rs:775-918: the value before [map].  [rd] reads the (wire) type. *)
Definition field_read_func (c : cattrs) (a : fattrs) (vec_u8 : bool) (ctx fs : list value) (off : nat)
    (rd : option (limit value) -> list value -> RM value) : RM value :=
  match a_reader a with
  | Some f => f ctx fs off
  | None =>
      let args := field_args c a ctx fs off in
      match a_limit a with
      | None => rd None args
      | Some l =>
          let* lim := lift (eval_limit l ctx fs off) in
          match vec_u8, lim with
          | true, LCount n => let* bs := read_exact_vec n in ret (vec_of_bytes bs)
          | _, _ => rd (Some lim) args
          end
      end
  end.
(** deku_read.rs:941-945. *)
Definition field_read_normal (a : fattrs) (ctx fs : list value) (off : nat) (m : RM value) : RM value :=
  let* v := m in
  match a_map a with
  | None => ret v
  | Some f => lift (f ctx fs off v)
  end.
(** deku_read.rs:949-988. *)
Definition field_read_tokens (a : fattrs) (ctx fs : list value) (off : nat) (normal : RM value) : RM value :=
  let default := ret (a_default a ctx fs off) in
  match a_skip a, a_cond a with
  | Some SkipAll, Some f | Some SkipRead, Some f => if f ctx fs off then default else normal
  | Some SkipAll, None | Some SkipRead, None => default
  | Some SkipWrite, _ => normal
  | None, Some f => if f ctx fs off then normal else default
  | None, None => normal
  end.
Definition check {S} (b : bool) : ST S unit := if b then ret tt else fail Assertion.
(** The [assert] and [assert_eq] attributes: deku_read.rs:741-759, deku_write.rs:710-730. *)
Definition asserts {S} (a : fattrs) (ctx fs : list value) (off : nat) (v : value) : ST S unit :=
  let* _ := match a_assert a with Some f => check (f ctx (fs ++ [v]) off) | None => ret tt end in
  match a_assert_eq a with Some f => check (value_eqb v (f ctx fs off)) | None => ret tt end.

(** deku_read.rs:990-1008. *)
Definition read_field (c : cattrs) (a : fattrs) (vec_u8 : bool) (ctx fs : list value)
    (rd : option (limit value) -> list value -> RM value) : RM value :=
  let* _ := read_seek (option_map (fun f => f ctx fs) (a_seek a)) in
  let* _ := read_magic (a_magic a) in
  let* _ := read_pad (eval0 (a_pad_before a) ctx fs) (field_order c a ctx fs) in
  fun r =>
    let off := r_bits r in
    (let* v := field_read_tokens a ctx fs off
                 (field_read_normal a ctx fs off (field_read_func c a vec_u8 ctx fs off rd)) in
     let* _ := asserts a ctx fs off v in
     let* _ := read_pad (eval0 (a_pad_after a) ctx (fs ++ [v])) (field_order c a ctx fs) in
     ret v) r.

(** Does a variant match the id: deku_read.rs:247-297. *)
Definition matches (s : selector) (id : value) : bool :=
  match s with SId v | SDisc v => value_eqb id v | SPat p _ => p id end.
(** deku_read.rs:257-258: the first field takes the id. *)
Definition stores_id (e : eattrs) (v : vattrs) : bool :=
  match en_id e, v_sel v with None, SPat _ _ => true | _, _ => false end.

Definition with_pctx {S A} (lim : option (limit value)) (args : list value) (k : pctx -> ST S A) : ST S A :=
  match lim, pctx_of args with None, Some c => k c | _, _ => panic end.

Section Impls.
Variable cu : nat -> custom.

(** The generated [from_reader_with_ctx] and the impls of the built-in types.  [lim]
    and [args] are the context: [(limit, (args))] or [(args)]. *)
Fixpoint read_ty (fuel : nat) (t : ty) (lim : option (limit value)) (args : list value) {struct t} : RM value :=
  match t with
  | TPrim p => with_pctx lim args (fun c => let* n := prim_read p c in ret (VNum n))
  | TBool => with_pctx lim args (fun c => let* b := read_bool c in ret (VBool b))
  | TNonZero p => with_pctx lim args (fun c => let* n := read_nonzero p c in ret (VNum n))
  | TUnit => ret VUnit
  | TCString =>
      match lim, args with
      | None, [] => let* s := read_cstring fuel in ret (VList (map VNum s))
      | None, [VBytes n] => let* s := read_cstring_bytes (N.of_nat n) in ret (VList (map VNum s))
      | _, _ => panic
      end
  | TOption t => let* v := read_ty fuel t lim args in ret (VSome v)
  | TPair a b => let* x := read_ty fuel a lim args in let* y := read_ty fuel b lim args in ret (VPair x y)
  | TArray n t => let* vs := read_array n (read_ty fuel t lim args) in ret (VList vs)
  | TVec k size t =>
      match lim with
      | Some l => let* vs := vec_read fuel (slot_size k size) (read_ty fuel t None args) l in ret (VList (collect k vs))
      | None => panic
      end
  | TStruct c fs =>                                       (* deku_read.rs:164-175 *)
      let ctx := ctx_args c args in
      let* _ := read_seek (option_map (fun f => f ctx) (c_seek c)) in
      let* _ := read_magic (c_magic c) in
      let* vs := fields_read fuel c ctx fs None [] in
      ret (VRec vs)
  | TEnum e idt vs =>                                     (* deku_read.rs:379-400, 452-461 *)
      let ctx := ctx_args (en_c e) args in
      let* _ := read_magic (c_magic (en_c e)) in
      let* id := match en_id e with
                 | Some f => ret (f ctx)
                 | None => read_ty fuel idt None (id_args e ctx)
                 end in
      variants_read fuel e ctx id vs 0 None
  | TCustom k => match lim with None => cu_read (cu k) args | Some _ => panic end
  end
(** deku_read.rs:549-571 [emit_field_reads]; [id] is the value for the first field if
    it stores the id (806-816).  Returns the stored fields. *)
with fields_read (fuel : nat) (c : cattrs) (ctx : list value) (fs : fields) (id : option value) (acc : list value)
    {struct fs} : RM (list value) :=
  match fs with
  | FNil => ret []
  | FCons a t wire tl =>
      let* v := match id, a_reader a with
                | Some x, None => ret x
                | _, _ => read_field c a (is_vec_u8 t) ctx acc (fun lim args => read_ty fuel wire lim args)
                end in
      let* vs := fields_read fuel c ctx tl None (acc ++ [v]) in
      ret (if a_temp a then vs else v :: vs)
  end
(** deku_read.rs:237-377: the [match], then the [default] variant, then [Parse]. *)
with variants_read (fuel : nat) (e : eattrs) (ctx : list value) (id : value) (vs : variants) (k : nat)
    (default : option (RM value)) {struct vs} : RM value :=
  match vs with
  | VNil => match default with Some m => m | None => fail Parse end
  | VCons v fs tl =>
      let body := let* l := fields_read fuel (en_c e) ctx fs (if stores_id e v then Some id else None) [] in
                  ret (VVar k l) in
      if matches (v_sel v) id then body
      else variants_read fuel e ctx id tl (S k)
             (match default with Some _ => default | None => if v_default v then Some body else None end)
  end.

(** ** Writing *)

(** deku_write.rs:455-464 and 643-649: the bytes as an array of u8 with context (). *)
Definition write_magic (m : list byte) : WM unit := write_list (prim_write PU8 C0) (map Byte.to_N m).

(** deku_write.rs:544-580 [emit_padding]; [PAD] is 512 (deku-derive/src/lib.rs:51).
    [write_bits] is [write_bits_order] with [Msb0].  [fuel] bounds the iterations;
    each one writes at least a bit. *)
Fixpoint pad_loop (fuel n : nat) (o : order) : WM unit :=
  match n with
  | O => ret tt
  | _ =>
      match fuel with
      | O => diverge
      | S f =>
          let chunk := Nat.min 512 n in
          let* _ := write_bits_order (repeat false chunk) o in
          pad_loop f (n - chunk) o
      end
  end.
Definition write_pad (p : option Z) (o : option order) : WM unit :=
  match p with
  | None => ret tt
  | Some z =>
      match to_usize z with
      | None => fail InvalidParam
      | Some n => fun w => pad_loop (N.to_nat n) (N.to_nat n) (match o with Some x => x | None => Msb0 end) w
      end
  end.
(** deku_write.rs:36-80 and 651-692. *)
Definition write_seek (s : option (option seekfrom)) : WM unit :=
  match s with
  | None => ret tt
  | Some None => panic
  | Some (Some t) => let* _ := lift_io (w_seek t) in ret tt
  end.

(** deku_write.rs:740-765. *)
Definition field_write_func (c : cattrs) (a : fattrs) (stored ctx fs : list value) (off : nat) (v : value)
    (wr : list value -> value -> WM unit) : WM unit :=
  match a_writer a with
  | Some f => f stored ctx fs off v
  | None =>
      let args := field_args c a ctx fs off in
      if a_temp a then
        match a_temp_value a with Some _ => wr args v | None => ret tt end
      else wr args v
  end.
(** deku_write.rs:814-842. *)
Definition field_write_tokens (a : fattrs) (ctx fs : list value) (off : nat) (normal : WM unit) : WM unit :=
  match a_skip a, a_cond a with
  | Some SkipAll, Some f | Some SkipWrite, Some f => if f ctx fs off then ret tt else normal
  | Some SkipAll, None | Some SkipWrite, None => ret tt
  | Some SkipRead, _ | None, _ => normal
  end.
(** deku_write.rs:844-859. *)
Definition write_field (c : cattrs) (a : fattrs) (stored ctx fs : list value) (v : value)
    (wr : list value -> value -> WM unit) : WM unit :=
  let* _ := write_seek (option_map (fun f => f ctx fs) (a_seek a)) in
  let* _ := write_magic (a_magic a) in
  let* _ := write_pad (eval0 (a_pad_before a) ctx fs) (field_order c a ctx fs) in
  fun w =>
    let off := w_bits w in
    (let* _ := asserts a ctx fs off v in
     let* _ := field_write_tokens a ctx fs off (field_write_func c a stored ctx fs off v wr) in
     write_pad (eval0 (a_pad_after a) ctx (fs ++ [v])) (field_order c a ctx fs)) w.

(** The value a field name stands for: the stored value, or the value of the
    [temp_value] declaration (deku_write.rs:800-813).  A temporary field without one
    is not in scope. *)
Definition field_value (a : fattrs) (stored todo ctx fs : list value) : value :=
  if a_temp a then match a_temp_value a with Some f => f stored ctx fs | None => VUnit end
  else hd VUnit todo.
Definition field_rest (a : fattrs) (todo : list value) : list value := if a_temp a then todo else tl todo.

(** deku_write.rs:239-320: the id. *)
Definition write_id (e : eattrs) (v : vattrs) (fs : fields) (ctx : list value) (wr : list value -> value -> WM unit) : WM unit :=
  match en_id e with
  | Some _ => ret tt
  | None =>
      match v_sel v with
      | SId x | SDisc x => wr (id_args e ctx) x
      | SPat _ d => if no_fields fs then match d with Some x => wr (id_args e ctx) x | None => panic end else ret tt
      end
  end.

Fixpoint write_ty (t : ty) (args : list value) (v : value) {struct t} : WM unit :=
  match t with
  | TPrim p | TNonZero p => match v with VNum n => with_pctx None args (fun c => prim_write p c n) | _ => panic end
  | TBool => match v with VBool b => with_pctx None args (fun c => write_bool c b) | _ => panic end
  | TUnit => ret tt
  | TCString =>
      match v with
      | VList l => with_pctx None args (fun c => write_cstring c (map (fun x => match x with VNum n => n | _ => 0%N end) l))
      | _ => panic
      end
  | TOption t => match v with VSome x => write_ty t args x | VNone => ret tt | _ => panic end
  | TPair a b => match v with VPair x y => let* _ := write_ty a args x in write_ty b args y | _ => panic end
  | TArray _ t | TVec _ _ t => match v with VList l => write_list (write_ty t args) l | _ => panic end
  | TStruct c fs =>                                       (* deku_write.rs:142-152 *)
      match v with
      | VRec l =>
          let ctx := ctx_args c args in
          let* _ := write_seek (option_map (fun f => f ctx) (c_seek c)) in
          let* _ := write_magic (c_magic c) in
          fields_write c ctx fs None l l []
      | _ => panic
      end
  | TEnum e idt vs =>                                     (* deku_write.rs:398-406 *)
      match v with
      | VVar k l =>
          let* _ := write_magic (c_magic (en_c e)) in
          variant_write e (ctx_args (en_c e) args) (fun args x => write_ty idt args x) vs k l
      | _ => panic
      end
  | TCustom k => cu_write (cu k) args v
  end
(** deku_write.rs:466-479 [emit_field_writes]; [id] holds the arguments for the first
    field of an [id_pat] variant (615-638), whether or not it stores the id. *)
with fields_write (c : cattrs) (ctx : list value) (fs : fields) (id : option (list value)) (stored todo acc : list value)
    {struct fs} : WM unit :=
  match fs with
  | FNil => ret tt
  | FCons a t _ tl =>
      let v := field_value a stored todo ctx acc in
      let* _ := match id with
                | Some args => write_ty t args v
                | None => write_field c a stored ctx acc v (fun args x => write_ty t args x)
                end in
      fields_write c ctx tl None stored (field_rest a todo) (acc ++ [v])
  end
(** deku_write.rs:219-356. *)
with variant_write (e : eattrs) (ctx : list value) (wid : list value -> value -> WM unit) (vs : variants) (k : nat)
    (l : list value) {struct vs} : WM unit :=
  match vs with
  | VNil => panic
  | VCons v fs tl =>
      match k with
      | O =>
          let* _ := write_id e v fs ctx wid in
          fields_write (en_c e) ctx fs (match v_sel v with SPat _ _ => Some (stored_id_args e ctx) | _ => None end) l l []
      | S k' => variant_write e ctx wid tl k' l
      end
  end.

(** ** The container API: for types with the impls for the context () *)

(** deku_read.rs:115-126 and 404-415: [from_reader]. *)
Definition from_reader (fuel : nat) (t : ty) (s : stream) (bit : nat) : res (nat * value) * stream :=
  let '(x, r) :=
    (let* _ := if bit =? 0 then ret tt else skip_bits bit Msb0 in
     let* v := read_ty fuel t None [] in
     fun r => (Ok (r_bits r, v), r)) (reader_new s) in
  (x, r_s r).
(** deku_read.rs:128-148 and 417-437: [from_bytes]. *)
Definition from_bytes (fuel : nat) (t : ty) (input : list byte) (bit : nat) : res ((list byte * nat) * value) :=
  match from_reader fuel t (cursor input) bit with
  | (Ok (bits_read, v), _) =>
      let idx := bits_read / 8 in
      if idx <=? length input then Ok ((skipn idx input, bits_read mod 8), v)
      else Err (Incomplete (8 * (idx - length input)))
  | (Err e, _) => Err e
  | (Panic, _) => Panic
  | (Diverge, _) => Diverge
  end.
(** deku_read.rs:1041-1071 [emit_try_from]. *)
Definition try_from (fuel : nat) (t : ty) (input : list byte) : res value :=
  match from_reader fuel t (cursor input) 0 with
  | (Ok (bits_read, v), _) =>
      let bytes_read := bits_read / 8 in
      if bytes_read <? length input then Err Parse
      else if length input <? bytes_read then Err (Incomplete (bits_read - length input * 8))
      else Ok v
  | (Err e, _) => Err e
  | (Panic, _) => Panic
  | (Diverge, _) => Diverge
  end.

Definition res_map {A B} (x : res A) (f : A -> B) : res B :=
  match x with Ok a => Ok (f a) | Err e => Err e | Panic => Panic | Diverge => Diverge end.
(** src/lib.rs:708-715, 736-743, 768-777, for any [to_writer] [m].  [to_slice] also
    gives the contents of the buffer afterwards. *)
Definition to_bytes_with (m : WM unit) : res (list byte) :=
  let '(x, w) := (let* _ := m in finalize) (writer_new vec_sink) in
  res_map x (fun _ => k_data (w_k w)).
Definition to_slice_with (m : WM unit) (buf : list byte) : res nat * list byte :=
  let '(x, w) := (let* _ := m in finalize) (writer_new (slice_sink buf)) in
  (res_map x (fun _ => w_bits w / 8), k_data (w_k w)).
Definition to_bits_with (m : WM unit) : res (list bool) :=
  let '(x, w) := m (writer_new vec_sink) in
  res_map x (fun _ => bits_of_bytes (k_data (w_k w)) ++ w_left w).
Definition to_bytes (t : ty) (v : value) : res (list byte) := to_bytes_with (write_ty t [] v).
Definition to_slice (t : ty) (v : value) (buf : list byte) : res nat * list byte := to_slice_with (write_ty t [] v) buf.
Definition to_bits (t : ty) (v : value) : res (list bool) := to_bits_with (write_ty t [] v).
End Impls.

(** deku_read.rs:322-332 and 505-513 [deku_id]: the patterns are the initialisers of
    the variants with an [id]. *)
Fixpoint deku_id (vs : variants) (k : nat) : res value :=
  match vs, k with
  | VNil, _ => Err IdVariantNotFound
  | VCons v _ _, O => match v_sel v with SId x => Ok x | _ => Err IdVariantNotFound end
  | VCons _ _ tl, S k' => deku_id tl k'
  end.

(** deku_write.rs:492-512 [emit_field_update] and 157-166: the stored fields are
    updated one after the other; [pre] are the ones already done. *)
Fixpoint update_fields (fs : fields) (pre todo : list value) : res (list value) :=
  match fs with
  | FNil => Ok (pre ++ todo)
  | FCons a _ _ tl =>
      if a_temp a then update_fields tl pre todo
      else
        match todo with
        | [] => Panic
        | v :: rest =>
            match a_update a with
            | None => update_fields tl (pre ++ [v]) rest
            | Some f => res_bind (f (pre ++ todo)) (fun v' => update_fields tl (pre ++ [v']) rest)
            end
        end
  end.
Fixpoint nth_variant (vs : variants) (k : nat) : option (vattrs * fields) :=
  match vs, k with
  | VNil, _ => None
  | VCons v fs _, O => Some (v, fs)
  | VCons _ _ tl, S k' => nth_variant tl k'
  end.
(** deku_write.rs:157-166 and 411-424: [DekuUpdate::update]; the new value. *)
Definition update (t : ty) (v : value) : res value :=
  match t, v with
  | TStruct _ fs, VRec l => res_map (update_fields fs [] l) VRec
  | TEnum _ _ vs, VVar k l =>
      match nth_variant vs k with Some (_, fs) => res_map (update_fields fs [] l) (VVar k) | None => Panic end
  | _, _ => Panic
  end.

(** ** Sizes *)

(** Padding and size attributes of a type deriving [DekuSize] are constants: the
    expression must be one in a const context, so it does not use its arguments. *)
Definition const_pad (p : option (expr0 Z)) : nat := match p with Some f => Z.to_nat (f [] []) | None => 0 end.
Definition const_size (n : option (expr0 nat)) : option nat := eval0 n [] [].

(** [DekuSize::SIZE_BITS]; [None] if the type does not implement it.
    src/impls/primitive.rs:1357-1381, bool.rs:50-52, slice.rs:97-99, tuple.rs:84-102;
    deku_size.rs. *)
Fixpoint size_bits (t : ty) : option nat :=
  match t with
  | TPrim p => Some (prim_width p)
  | TBool => Some 8
  | TPair a b => match size_bits a, size_bits b with Some x, Some y => Some (x + y) | _, _ => None end
  | TArray n t => option_map (fun x => x * n) (size_bits t)
  | TStruct c fs =>                                       (* deku_size.rs:209-262 *)
      match c_seek c with
      | Some _ => None
      | None => option_map (fun n => 8 * length (c_magic c) + n) (fields_size fs false)
      end
  | TEnum e idt vs =>                                     (* deku_size.rs:264-352 *)
      match c_seek (en_c e) with
      | Some _ => None
      | None =>
          let id := match const_size (en_bits e), const_size (en_bytes e), en_id e with        (* 180-207 *)
                    | Some n, _, _ => Some n
                    | None, Some n, _ => Some (n * 8)
                    | None, None, Some _ => Some 0
                    | None, None, None => size_bits idt
                    end in
          match id, variants_size e vs with
          | Some i, Some m => Some (8 * length (c_magic (en_c e)) + i + m)
          | _, _ => None
          end
      end
  | _ => None
  end
(** deku_size.rs:23-101 [calculate_fields_size]; 112-117: no seeks. *)
with fields_size (fs : fields) (skip_first : bool) : option nat :=
  match fs with
  | FNil => Some 0
  | FCons a t _ tl =>
      let rest := fields_size tl false in
      match a_seek a with
      | Some _ => None
      | None =>
          if skip_first || a_temp a then rest
          else
            let own := match const_size (a_bits a), const_size (a_bytes a) with
                       | Some n, _ => Some n
                       | None, Some n => Some (n * 8)
                       | None, None => size_bits t
                       end in
            match own, rest with
            | Some x, Some y => Some (8 * length (a_magic a) + const_pad (a_pad_before a) + x + const_pad (a_pad_after a) + y)
            | _, _ => None
            end
      end
  end
(** deku_size.rs:308-329: the largest variant. *)
with variants_size (e : eattrs) (vs : variants) : option nat :=
  match vs with
  | VNil => Some 0
  | VCons v fs tl =>
      match fields_size fs (stores_id e v && negb (no_fields fs)), variants_size e tl with
      | Some x, Some y => Some (Nat.max x y)
      | _, _ => None
      end
  end.
(** src/lib.rs:813-818. *)
Definition size_bytes (t : ty) : option (option nat) :=
  option_map (fun n => if n mod 8 =? 0 then Some (n / 8) else None) (size_bits t).
