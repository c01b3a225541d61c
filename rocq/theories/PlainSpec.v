(** Plain declarations: structs and enums of which every attribute is a constant or the
    name of an earlier field, so that everything asked of them can be computed.
    Vocabulary of the theorems, no proofs here. *)
From Verif Require Import Base Spec Stream Reader Writer Prims CodecSpec Containers Derive Decl.

(** ** Declarations *)

(** What a field holds: a value of its type; [Vec<T>] with [count = "x"], where x is
    the [k]-th field and [size] is [size_of::<T>()]; [Option<T>] with [cond = "*x"];
    [Vec<T>] with [until = "|x| *x == n"], where T is an integer. *)
Inductive pkind : Type := One | Many (k : nat) (size : N) | When (k : nat) | Until (n : N) (size : N).
(** [endian = ".."], [bits = n], [magic = b".."], [pad_bits_before = n],
    [pad_bits_after = n]; nothing and 0 stand for the attribute that is not there. *)
Record pattrs : Type := mkP {
  p_endian : option endian;
  p_bits : option nat;
  p_kind : pkind;
  p_magic : list byte;
  p_before : nat;
  p_after : nat
}.
(** Integers, [bool], [\[T; n\]], structs, and enums with the id type [p], its byte order and
    bits, and an [id] for every variant; both can have a [magic].  [NonZero] integers,
    pairs and [CString]. *)
Inductive pty : Type :=
| PInt (p : prim)
| PBool
| PArray (n : nat) (t : pty)
| PStruct (m : list byte) (fs : pfields)
| PEnum (m : list byte) (p : prim) (e : option endian) (b : option nat) (vs : pvariants)
| PNonZero (p : prim)
| PPair (s t : pty)
| PText
with pfields : Type := PNil | PCons (a : pattrs) (t : pty) (tl : pfields)
with pvariants : Type := PVNil | PVCons (id : N) (fs : pfields) (tl : pvariants).

(** *** As declarations of Decl.v *)

Definition count_at (fs : list value) (k : nat) : N := match nth k fs VUnit with VNum n => n | _ => 0%N end.
Definition flag_at (fs : list value) (k : nat) : bool := match nth k fs VUnit with VBool b => b | _ => false end.
Definition is_num (n : N) (v : value) : bool := match v with VNum m => (m =? n)%N | _ => false end.
Definition lit (e : endian) : endian_lit := match e with Little => ELittle | Big => EBig end.
Definition const {A} (x : A) : expr0 A := fun _ _ => x.
Definition magic_attr (m : list byte) : option (list byte) := match m with [] => None | _ => Some m end.
Definition pad (n : nat) : option (expr0 Z) := match n with 0 => None | _ => Some (const (Z.of_nat n)) end.
Definition field_decl (a : pattrs) : fdecl := {|
  d_endian := option_map lit (p_endian a); d_order := None; d_bits := option_map const (p_bits a); d_bytes := None;
  d_count := match p_kind a with Many k _ => Some (fun _ fs _ => Z.of_N (count_at fs k)) | _ => None end;
  d_bits_read := None; d_bytes_read := None;
  d_until := match p_kind a with Until n _ => Some (fun _ _ _ l => is_num n (last l VUnit)) | _ => None end; d_read_all := false; d_map := None; d_ctx := None; d_update := None;
  d_reader := None; d_writer := None; d_skip := None;
  d_pad_bits_before := pad (p_before a); d_pad_bytes_before := None; d_pad_bits_after := pad (p_after a); d_pad_bytes_after := None;
  d_temp := false; d_temp_value := None; d_default := None;
  d_cond := match p_kind a with When k => Some (fun _ fs _ => flag_at fs k) | _ => None end;
  d_assert := None; d_assert_eq := None; d_seek_rewind := false; d_seek_current := None; d_seek_end := None; d_seek_start := None;
  d_magic := magic_attr (p_magic a) |}.
Definition struct_decl (m : list byte) : cdecl :=
  {| k_endian := None; k_order := None; k_ctx := false; k_ctx_default := None; k_magic := magic_attr m; k_seek_rewind := false; k_seek_current := None;
     k_seek_end := None; k_seek_start := None; k_id := None; k_id_type := None; k_id_endian := None; k_bits := None; k_bytes := None; k_repr := None |}.
Definition enum_decl (m : list byte) (p : prim) (e : option endian) (b : option nat) : cdecl :=
  {| k_endian := None; k_order := None; k_ctx := false; k_ctx_default := None; k_magic := magic_attr m; k_seek_rewind := false; k_seek_current := None;
     k_seek_end := None; k_seek_start := None; k_id := None; k_id_type := Some (TPrim p); k_id_endian := option_map lit e; k_bits := option_map const b;
     k_bytes := None; k_repr := None |}.
Definition variant_decl (id : N) : vdecl :=
  {| v_id := Some (IdVal (VNum id)); v_pat := None; v_explicit := false; v_disc := VUnit; v_is_default := None |}.

(** The type of a field, and the type that is derived. *)
Definition holding (k : pkind) (t : ty) : ty := match k with One => t | Many _ size | Until _ size => TVec KVec size t | When _ => TOption t end.
Fixpoint ctype (t : pty) : ty :=
  match t with
  | PInt p => TPrim p
  | PBool => TBool
  | PArray n t => TArray n (ctype t)
  | PStruct m fs => TStruct (cattrs_of (struct_decl m)) (cfields fs)
  | PEnum m p e b vs => TEnum (eattrs_of (enum_decl m p e b)) (TPrim p) (cvariants vs)
  | PNonZero p => TNonZero p
  | PPair s t => TPair (ctype s) (ctype t)
  | PText => TCString
  end
with cfields (fs : pfields) : fields :=
  match fs with
  | PNil => FNil
  | PCons a t tl => FCons (fattrs_of (field_decl a) VNone) (holding (p_kind a) (ctype t)) (holding (p_kind a) (ctype t)) (cfields tl)
  end
with cvariants (vs : pvariants) : variants :=
  match vs with
  | PVNil => VNil
  | PVCons id fs tl => VCons (mkV (SId (VNum id)) false) (cfields fs) (cvariants tl)
  end.
(** The declaration itself. *)
Fixpoint plain_members (fs : pfields) : list member :=
  match fs with
  | PNil => []
  | PCons a t tl => mkM (field_decl a) (holding (p_kind a) (ctype t)) (holding (p_kind a) (ctype t)) VNone :: plain_members tl
  end.
Fixpoint variant_members (vs : pvariants) : list (vdecl * list member) :=
  match vs with PVNil => [] | PVCons id fs tl => (variant_decl id, plain_members fs) :: variant_members tl end.
Definition declaration (t : pty) : option decl :=
  match t with
  | PStruct m fs => Some (DStruct (struct_decl m) (plain_members fs))
  | PEnum m p e b vs => Some (DEnum (enum_decl m p e b) (variant_members vs))
  | _ => None
  end.

(** ** The conditions *)

Definition none {A} (x : option A) : bool := match x with None => true | Some _ => false end.
Definition unsigned (p : prim) : bool := match p with PI _ => false | _ => true end.
(** The number of bits of an integer. *)
Definition num_bits (p : prim) (b : option nat) : nat := match b with Some n => n | None => prim_width p end.
(** [bits] is between 1 and the size of the type.  For signed integers with fewer bits
    than the type, either a byte order is given or the size is not a whole number of
    bytes (see C19).  [whole]: everything is made of whole bytes. *)
Definition num_plain (whole : bool) (p : prim) (e : option endian) (b : option nat) : bool :=
  (0 <? prim_bytes p) &&
  match b with
  | None => true
  | Some n =>
      (1 <=? n) && (n <=? prim_width p) && (unsigned p || (n =? prim_width p) || negb (none e) || negb (n mod 8 =? 0)) &&
      (negb whole || (n mod 8 =? 0))
  end.
(** What later fields can refer to. *)
Inductive slot : Type := SNum (p : prim) | SFlag | SOther.
Definition slot_of (k : pkind) (t : pty) : slot :=
  match k, t with One, PInt p => SNum p | One, PBool => SFlag | _, _ => SOther end.
(** A count is an earlier unsigned integer, no value of which makes the [Vec] exceed the
    address space; a [Vec<u8>] needs whole bytes.  A condition is an earlier [bool]. *)
Definition kind_plain (whole : bool) (done : list slot) (a : pattrs) (t : pty) : bool :=
  match p_kind a with
  | One => true
  | Many k size =>
      match nth_error done k with
      | Some (SNum p) => unsigned p && (2 ^ N.of_nat (prim_width p) * size <=? isize_max)%N
      | _ => false
      end && negb (size =? 0)%N &&
      match t with PInt PU8 => whole && none (p_bits a) | _ => true end
  | When k => match nth_error done k with Some SFlag => true | _ => false end
  | Until _ size => match t with PInt _ => negb (size =? 0)%N | _ => false end
  end.
Definition pad_plain (whole : bool) (n : nat) : bool := if whole then n =? 0 else (N.of_nat n <=? usize_max)%N.
Fixpoint ids (vs : pvariants) : list N := match vs with PVNil => [] | PVCons id _ tl => id :: ids tl end.
Fixpoint no_repeat (l : list N) : bool :=
  match l with [] => true | x :: tl => negb (existsb (N.eqb x) tl) && no_repeat tl end.
(** [plain_in whole t e b]: with the byte order [e] and the bits [b] given at the field,
    which only integers, [bool], arrays and pairs of them take. *)
Fixpoint plain_in (whole : bool) (t : pty) (e : option endian) (b : option nat) : bool :=
  match t with
  | PInt p => num_plain whole p e b
  | PBool => num_plain whole PU8 e b
  | PArray _ t => plain_in whole t e b
  | PStruct _ fs => none e && none b && fields_plain whole [] fs
  | PEnum _ p e' b' vs =>
      none e && none b && num_plain whole p e' b' && unsigned p &&
      forallb (fun x => x <? 2 ^ N.of_nat (num_bits p b'))%N (ids vs) && no_repeat (ids vs) && variants_plain whole vs
  | PNonZero p => num_plain whole p e b
  | PPair s t => plain_in whole s e b && plain_in whole t e b
  | PText => none e && none b
  end
with fields_plain (whole : bool) (done : list slot) (fs : pfields) : bool :=
  match fs with
  | PNil => true
  | PCons a t tl =>
      plain_in whole t (p_endian a) (p_bits a) && kind_plain whole done a t &&
      pad_plain whole (p_before a) && pad_plain whole (p_after a) && fields_plain whole (done ++ [slot_of (p_kind a) t]) tl
  end
with variants_plain (whole : bool) (vs : pvariants) : bool :=
  match vs with
  | PVNil => true
  | PVCons _ fs tl => fields_plain whole [] fs && variants_plain whole tl
  end.
Definition plain_type (t : pty) : bool := plain_in true t None None || plain_in false t None None.
(** No padding (whose bits are not kept). *)
Fixpoint unpadded (t : pty) : bool :=
  match t with
  | PInt _ | PBool | PNonZero _ | PText => true
  | PArray _ t => unpadded t
  | PPair s t => unpadded s && unpadded t
  | PStruct _ fs => fields_unpadded fs
  | PEnum _ _ _ _ vs => variants_unpadded vs
  end
with fields_unpadded (fs : pfields) : bool :=
  match fs with
  | PNil => true
  | PCons a t tl => unpadded t && (p_before a =? 0) && (p_after a =? 0) && fields_unpadded tl
  end
with variants_unpadded (vs : pvariants) : bool :=
  match vs with PVNil => true | PVCons _ fs tl => fields_unpadded fs && variants_unpadded tl end.

(** ** Values *)

(** The value of an integer of [num_bits] bits (two's complement in the type). *)
Definition num_fits (p : prim) (b : option nat) (n : N) : bool :=
  (n <? 2 ^ N.of_nat (prim_width p))%N &&
  match b with
  | None => true
  | Some k =>
      if unsigned p then (n <? 2 ^ N.of_nat k)%N
      else (- 2 ^ (Z.of_nat k - 1) <=? signed (prim_width p) n)%Z && (signed (prim_width p) n <? 2 ^ (Z.of_nat k - 1))%Z
  end.
Definition is_char (v : value) : bool := match v with VNum n => (0 <? n)%N && (n <? 256)%N | _ => false end.
(** [n] is the last of the elements and no other. *)
Fixpoint up_to (n : N) (l : list value) : bool :=
  match l with
  | [] => false
  | x :: tl => if is_num n x then match tl with [] => true | _ => false end else up_to n tl
  end.
(** The values of the type: integers fit their bits, counts are the lengths, what is
    optional is there if its flag is set, and what is read until [n] ends with it. *)
Fixpoint value_fits (b : option nat) (t : pty) (v : value) {struct t} : bool :=
  match t, v with
  | PInt p, VNum n => num_fits p b n
  | PBool, VBool _ => true
  | PArray n t, VList l => (length l =? n) && forallb (value_fits b t) l
  | PStruct _ fs, VRec l => fields_fit fs [] l
  | PEnum _ _ _ _ vs, VVar k l => variant_fits vs k l
  | PNonZero p, VNum n => negb (n =? 0)%N && num_fits p b n
  | PPair s t, VPair x y => value_fits b s x && value_fits b t y
  | PText, VList l => forallb is_char l
  | _, _ => false
  end
with fields_fit (fs : pfields) (acc l : list value) {struct fs} : bool :=
  match fs, l with
  | PNil, [] => true
  | PCons a t tl, v :: l' =>
      match p_kind a, v with
      | One, _ => value_fits (p_bits a) t v
      | Many k _, VList xs => (N.of_nat (length xs) =? count_at acc k)%N && forallb (value_fits (p_bits a) t) xs
      | When k, VSome x => flag_at acc k && value_fits (p_bits a) t x
      | When k, VNone => negb (flag_at acc k)
      | Until n _, VList xs => up_to n xs && forallb (value_fits (p_bits a) t) xs
      | _, _ => false
      end && fields_fit tl (acc ++ [v]) l'
  | _, _ => false
  end
with variant_fits (vs : pvariants) (k : nat) (l : list value) {struct vs} : bool :=
  match vs, k with
  | PVNil, _ => false
  | PVCons _ fs _, O => fields_fit fs [] l
  | PVCons _ _ tl, S k' => variant_fits tl k' l
  end.

(** Of these only what the type does not ensure and writing looks at: integers fit their
    bits.  (Lengths and flags can be anything.) *)
Fixpoint numbers_fit (b : option nat) (t : pty) (v : value) {struct t} : bool :=
  match t, v with
  | PInt p, VNum n => num_fits p b n
  | PArray _ t, VList l => forallb (numbers_fit b t) l
  | PStruct _ fs, VRec l => field_numbers_fit fs l
  | PEnum _ _ _ _ vs, VVar k l => variant_numbers_fit vs k l
  | PNonZero p, VNum n => num_fits p b n
  | PPair s t, VPair x y => numbers_fit b s x && numbers_fit b t y
  | _, _ => true
  end
with field_numbers_fit (fs : pfields) (l : list value) {struct fs} : bool :=
  match fs, l with
  | PCons a t tl, v :: l' =>
      match p_kind a, v with
      | One, _ => numbers_fit (p_bits a) t v
      | Many _ _, VList xs | Until _ _, VList xs => forallb (numbers_fit (p_bits a) t) xs
      | When _, VSome x => numbers_fit (p_bits a) t x
      | _, _ => true
      end && field_numbers_fit tl l'
  | _, _ => true
  end
with variant_numbers_fit (vs : pvariants) (k : nat) (l : list value) {struct vs} : bool :=
  match vs, k with
  | PVNil, _ => true
  | PVCons _ fs _, O => field_numbers_fit fs l
  | PVCons _ _ tl, S k' => variant_numbers_fit tl k' l
  end.

(** ** The format: the bits of a value, most significant first *)

Definition byte_order (e : option endian) : endian := match e with Some x => x | None => Little end.
Definition num_wire (p : prim) (e : option endian) (b : option nat) (n : N) : list bool :=
  match b with
  | Some k => layout (byte_order e) Msb0 k n
  | None => bits_of_bytes (to_bytes_e (byte_order e) (prim_bytes p) n)
  end.
(** The bytes of a string and a 0. *)
Definition char_wire (v : value) : list bool := match v with VNum n => num_wire PU8 None None n | _ => [] end.
Definition text_wire (l : list value) : list bool := concat (map char_wire (l ++ [VNum 0])).
Fixpoint wire (e : option endian) (b : option nat) (t : pty) (v : value) {struct t} : list bool :=
  match t, v with
  | PInt p, VNum n => num_wire p e b n
  | PBool, VBool x => num_wire PU8 e b (if x then 1%N else 0%N)
  | PArray _ t, VList l => concat (map (wire e b t) l)
  | PStruct m fs, VRec l => bits_of_bytes m ++ fields_wire fs l
  | PEnum m p e' b' vs, VVar k l => bits_of_bytes m ++ num_wire p e' b' (nth k (ids vs) 0%N) ++ variant_wire vs k l
  | PNonZero p, VNum n => num_wire p e b n
  | PPair s t, VPair x y => wire e b s x ++ wire e b t y
  | PText, VList l => text_wire l
  | _, _ => []
  end
with fields_wire (fs : pfields) (l : list value) {struct fs} : list bool :=
  match fs, l with
  | PCons a t tl, v :: l' =>
      bits_of_bytes (p_magic a) ++ repeat false (p_before a) ++
      match p_kind a, v with
      | One, _ => wire (p_endian a) (p_bits a) t v
      | Many _ _, VList xs | Until _ _, VList xs => concat (map (wire (p_endian a) (p_bits a) t) xs)
      | When _, VSome x => wire (p_endian a) (p_bits a) t x
      | _, _ => []
      end ++ repeat false (p_after a) ++ fields_wire tl l'
  | _, _ => []
  end
with variant_wire (vs : pvariants) (k : nat) (l : list value) {struct vs} : list bool :=
  match vs, k with
  | PVNil, _ => []
  | PVCons _ fs _, O => fields_wire fs l
  | PVCons _ _ tl, S k' => variant_wire tl k' l
  end.

(** *** Padding

    The same with nothing said about the bits of the padding. *)
Definition sure (bits : list bool) : list (option bool) := map Some bits.
Definition unknown (n : nat) : list (option bool) := repeat None n.
Fixpoint shape (e : option endian) (b : option nat) (t : pty) (v : value) {struct t} : list (option bool) :=
  match t, v with
  | PInt p, VNum n => sure (num_wire p e b n)
  | PBool, VBool x => sure (num_wire PU8 e b (if x then 1%N else 0%N))
  | PArray _ t, VList l => concat (map (shape e b t) l)
  | PStruct m fs, VRec l => sure (bits_of_bytes m) ++ fields_shape fs l
  | PEnum m p e' b' vs, VVar k l => sure (bits_of_bytes m) ++ sure (num_wire p e' b' (nth k (ids vs) 0%N)) ++ variant_shape vs k l
  | PNonZero p, VNum n => sure (num_wire p e b n)
  | PPair s t, VPair x y => shape e b s x ++ shape e b t y
  | PText, VList l => sure (text_wire l)
  | _, _ => []
  end
with fields_shape (fs : pfields) (l : list value) {struct fs} : list (option bool) :=
  match fs, l with
  | PCons a t tl, v :: l' =>
      sure (bits_of_bytes (p_magic a)) ++ unknown (p_before a) ++
      match p_kind a, v with
      | One, _ => shape (p_endian a) (p_bits a) t v
      | Many _ _, VList xs | Until _ _, VList xs => concat (map (shape (p_endian a) (p_bits a) t) xs)
      | When _, VSome x => shape (p_endian a) (p_bits a) t x
      | _, _ => []
      end ++ unknown (p_after a) ++ fields_shape tl l'
  | _, _ => []
  end
with variant_shape (vs : pvariants) (k : nat) (l : list value) {struct vs} : list (option bool) :=
  match vs, k with
  | PVNil, _ => []
  | PVCons _ fs _, O => fields_shape fs l
  | PVCons _ _ tl, S k' => variant_shape tl k' l
  end.
(** Bits that are as the shape says; the padding written is zeros. *)
Definition agrees (s : list (option bool)) (bits : list bool) : Prop :=
  Forall2 (fun x b => match x with Some y => b = y | None => True end) s bits.
Definition zeros (s : list (option bool)) : list bool := map (fun x => match x with Some y => y | None => false end) s.
