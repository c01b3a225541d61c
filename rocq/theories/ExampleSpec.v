(** The declarations in /repo/examples and the formats they stand for; vocabulary of the
    theorems, no proofs here. *)
From Verif Require Import Base Spec Stream Reader Writer Prims Containers Derive Decl.

(** ** Declarations *)

(** The attributes that occur; [None] and [false] stand for the ones that are not there. *)
Definition attrs (e : option endian_lit) (b y : option nat) (count : option (expr Z)) (eq : option (expr value)) (all : bool)
    (ctx : option (expr (list value))) (rd : option (expr (RM value))) (wr : option (list value -> expr (value -> WM unit))) : fdecl := {|
  d_endian := e; d_order := None; d_bits := option_map (fun n _ _ => n) b; d_bytes := option_map (fun n _ _ => n) y;
  d_count := count; d_bits_read := None; d_bytes_read := None; d_until := None; d_read_all := all; d_map := None; d_ctx := ctx; d_update := None;
  d_reader := rd; d_writer := wr; d_skip := None;
  d_pad_bits_before := None; d_pad_bytes_before := None; d_pad_bits_after := None; d_pad_bytes_after := None;
  d_temp := false; d_temp_value := None; d_default := None; d_cond := None; d_assert := None; d_assert_eq := eq;
  d_seek_rewind := false; d_seek_current := None; d_seek_end := None; d_seek_start := None; d_magic := None |}.
Definition f_none : fdecl := attrs None None None None None false None None None.
Definition f_bits (n : nat) : fdecl := attrs None (Some n) None None None false None None None.
Definition the (a : fdecl) (t : ty) : member := mkM a t t VUnit.
Definition top (e : option endian_lit) (o : option order_lit) (ctx : bool) (idt : option ty) (b : option nat) (repr : option prim) : cdecl :=
  {| k_endian := e; k_order := o; k_ctx := ctx; k_ctx_default := None; k_magic := None; k_seek_rewind := false; k_seek_current := None;
     k_seek_end := None; k_seek_start := None; k_id := None; k_id_type := idt; k_id_endian := None; k_bits := option_map (fun n _ _ => n) b;
     k_bytes := None; k_repr := repr |}.
Definition with_id (x : N) (ms : list member) : vdecl * list member := (mkVd (Some (IdVal (VNum x))) None false VUnit None, ms).
Definition with_pat (p : N -> bool) (ms : list member) : vdecl * list member :=
  (mkVd None (Some (fun v => match v with VNum n => p n | _ => false end)) false VUnit None, ms).
(** The type derived. *)
Definition derived (d : decl) : ty := match derive DekuRead true d with Some t => t | None => TUnit end.

Definition u8 : ty := TPrim PU8.
Definition u16 : ty := TPrim (PU 2).
Definition u32 : ty := TPrim (PU 4).

(** examples/ipv4.rs:24-48.  An [Ipv4Addr] is read and written as the u32 of its octets
    (src/impls/ipaddr.rs:13-36). *)
Definition Ipv4Header : decl :=
  DStruct (top (Some EBig) None false None None None)
    [the (f_bits 4) u8;   (* version *)
     the (f_bits 4) u8;   (* ihl *)
     the (f_bits 6) u8;   (* dscp *)
     the (f_bits 2) u8;   (* ecn *)
     the f_none u16;      (* length *)
     the f_none u16;      (* identification *)
     the (f_bits 3) u8;   (* flags *)
     the (f_bits 13) u16; (* offset *)
     the f_none u8;       (* ttl *)
     the f_none u8;       (* protocol *)
     the f_none u16;      (* checksum *)
     the f_none u32;      (* src *)
     the f_none u32].     (* dst *)

(** examples/80211.rs:6-49; the contexts "ctx_lsb: Order" are given as [VOrd Lsb0] by the
    [bit_order = "lsb"] of the outer struct (macros/mod.rs:247-272). *)
Definition ctx_lsb : order_lit := OVar (fun ctx _ => match ctx with VOrd o :: _ => o | _ => Msb0 end).
Definition FrameType : decl :=
  DEnum (top None (Some ctx_lsb) true (Some u8) (Some 2) None) [with_id 0 []; with_id 1 []; with_id 2 []].
Definition Flags : decl := DStruct (top None (Some ctx_lsb) true None None None) (repeat (the (f_bits 1) u8) 8).
Definition FrameControl : decl :=
  DStruct (top None (Some OLsb) false None None None)
    [the (f_bits 4) u8; the (f_bits 2) u8; the f_none (derived FrameType); the f_none (derived Flags)].

(** examples/read_all.rs:5-9. *)
Definition ReadAll : decl :=
  DStruct (top None None false None None None)
    [the (attrs None None None None None true None None None) (TVec KVec 2 (TPair u8 u8))].

(** examples/enums.rs:8-35.  [count]: the field [field_a]. *)
Definition first (fs : list value) : Z := match fs with VNum n :: _ => Z.of_N n | _ => 0%Z end.
Definition Enums : decl :=
  DEnum (top None None false (Some u8) None None)
    [with_id 0 [];
     with_id 1 [the (attrs None None (Some 2) None None false None None None) u32];
     with_id 2 [the f_none u8; the f_none u8];
     with_id 3 [the f_none u8; the (attrs None None None (Some (fun _ fs _ => first fs)) None false None None None) (TVec KVec 1 u8)];
     with_pat (fun id => (4 <=? id)%N && (id <=? 6)%N) [the f_none u8];
     with_pat (fun id => (6 <? id)%N) [the f_none u8];
     with_pat (fun _ => true) [the f_none u8; the f_none u8]].

(** examples/enums_catch_all.rs:6-21. *)
Definition CatchAll : decl :=
  DEnum (top None None false (Some u8) None (Some PU8))
    [(mkVd (Some (IdVal (VNum 1))) None true (VNum 0) None, []);
     (mkVd (Some (IdVal (VNum 2))) None true (VNum 1) None, []);
     (mkVd (Some (IdVal (VNum 3))) None true (VNum 2) (Some true), [])].

(** examples/custom_reader_and_writer.rs:8-59: [BitSize(8)] is the context. *)
Definition flip (a b : N) : N := if (a =? 1)%N then (255 - b)%N else b.
Definition num_of (v : value) : N := match v with VNum n => n | _ => 0%N end.
Definition bit_flipper_read : expr (RM value) := fun _ fs _ =>
  let* v := prim_read PU8 (CB 8) in ret (VNum (flip (num_of (nth 0 fs VUnit)) v)).
Definition bit_flipper_write : list value -> expr (value -> WM unit) := fun _ _ fs _ v =>
  prim_write PU8 (CB 8) (flip (num_of (nth 0 fs VUnit)) (num_of v)).
Definition Flipped : decl :=
  DStruct (top None None false None None None)
    [the f_none u8; the (attrs None None None None None false None (Some bit_flipper_read) (Some bit_flipper_write)) u8].

(** examples/example.rs:12-42. *)
Definition FieldF : decl :=
  DStruct (top None None false None None None) [the (attrs None (Some 6) None None (Some (fun _ _ _ => VNum 6)) false None None None) u8].
Definition Example_ : decl :=
  DStruct (top None None false None None None)
    [the f_none u8; the (f_bits 7) u8; the (f_bits 1) u8;
     the (attrs (Some EBig) None None None None false None None None) u16;
     the (f_bits 2) u8; the f_none (derived FieldF); the f_none u8;
     the (attrs (Some EBig) None None (Some (fun _ fs _ => match nth 6 fs VUnit with VNum n => Z.of_N n | _ => 0%Z end)) None false None None None)
         (TVec KVec 2 u16)].

(** ** Formats: the values of the bytes [h] *)

Definition at_ (h : list byte) (i : nat) : N := Byte.to_N (nth i h x00).
Definition be16 (h : list byte) (i : nat) : N := (at_ h i * 256 + at_ h (i + 1))%N.
Definition le16 (h : list byte) (i : nat) : N := (at_ h i + at_ h (i + 1) * 256)%N.
Definition be32 (h : list byte) (i : nat) : N := (be16 h i * 65536 + be16 h (i + 2))%N.
Definition bit (x : N) (i : nat) : N := (x / 2 ^ N.of_nat i mod 2)%N.
Definition bytes_value (bs : list byte) : value := VList (map (fun b => VNum (Byte.to_N b)) bs).

(** RFC 791, section 3.1; the type of service as in RFC 3168. *)
Definition ipv4_header (h : list byte) : value :=
  VRec (map VNum [at_ h 0 / 16; at_ h 0 mod 16; at_ h 1 / 4; at_ h 1 mod 4; be16 h 2; be16 h 4; at_ h 6 / 32; be16 h 6 mod 8192;
                  at_ h 8; at_ h 9; be16 h 10; be32 h 12; be32 h 16]%N).
(** Bits from the least significant one on. *)
Definition frame_control (h : list byte) : value :=
  VRec [VNum (at_ h 0 mod 16); VNum (at_ h 0 / 16 mod 4); VVar (N.to_nat (at_ h 0 / 64)) []; VRec (map (fun i => VNum (bit (at_ h 1) i)) (seq 0 8))].
Fixpoint pairs (l : list byte) : list value :=
  match l with a :: b :: tl => VPair (VNum (Byte.to_N a)) (VNum (Byte.to_N b)) :: pairs tl | _ => [] end.
(** What [Enums] is read as, and how many bytes it takes; [None] if there are not enough. *)
Definition enums_value (h : list byte) : option (nat * value) :=
  match h with
  | [] => None
  | id :: tl =>
      let x := Byte.to_N id in
      let need n v := if n <=? length tl then Some (S n, v) else None in
      if (x =? 0)%N then need 0 (VVar 0 [])
      else if (x =? 1)%N then need 2 (VVar 1 [VNum (le16 tl 0)])
      else if (x =? 2)%N then need 2 (VVar 2 [VNum (at_ tl 0); VNum (at_ tl 1)])
      else if (x =? 3)%N then
        match tl with
        | n :: data => need (S (N.to_nat (Byte.to_N n))) (VVar 3 [VNum (Byte.to_N n); bytes_value (firstn (N.to_nat (Byte.to_N n)) data)])
        | [] => None
        end
      else if (x <=? 6)%N then need 0 (VVar 4 [VNum x])
      else need 0 (VVar 5 [VNum x])
  end.
Definition example_value (h : list byte) (items : list (byte * byte)) : value :=
  VRec [VNum (at_ h 0); VNum (at_ h 1 / 2); VNum (at_ h 1 mod 2); VNum (be16 h 2); VNum (at_ h 4 / 64); VRec [VNum (at_ h 4 mod 64)];
        VNum (at_ h 5); VList (map (fun p => VNum (Byte.to_N (fst p) * 256 + Byte.to_N (snd p))) items)].
Definition item_bytes (items : list (byte * byte)) : list byte := concat (map (fun p => [fst p; snd p]) items).
