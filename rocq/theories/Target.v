(** Model of deku on a machine of any byte order.  No proofs here.

    The byte order of the machine is asked for in one place, [Endian::default()]
    (src/ctx.rs:31-63: [Little] under [target_endian = "little"], [Big] otherwise;
    src/impls/primitive.rs:732, 747, 765, 781, 791 for reading, 1232, 1256, 1267, 1278,
    1289 for writing).  Everything else is that of Derive.v, Containers.v and Prims.v,
    which take a little-endian machine.  [e0] is the byte order of the machine.  Single
    bytes (the magic, the characters of a [CString], [Vec<u8>] read in bulk) are the
    same on all machines and use the functions of Derive.v.  Hand-written
    impls are taken to do the same on all machines. *)
From Verif Require Import Base Stream Reader Writer Prims Containers Derive.

(** src/impls/primitive.rs:725-794 [ForwardDekuRead]: the impls for the contexts
    without an [Endian] call the ones with it. *)
Definition read_ctx (e0 : endian) (c : pctx) : pctx :=
  match c with
  | C0 => CE e0
  | CB n => if n mod 8 =? 0 then CEY e0 (n / 8) else CEB e0 n
  | CY n => CEY e0 n
  | CO o => CEO e0 o
  | CBO n o => if n mod 8 =? 0 then CEYO e0 (n / 8) o else CEBO e0 n o
  | c => c
  end.
(** src/impls/primitive.rs:1222-1292 [ForwardDekuWrite]. *)
Definition write_ctx (e0 : endian) (c : pctx) : pctx :=
  match c with
  | C0 => CE e0
  | CB n => CEB e0 n
  | CY n => CEY e0 n
  | CO o => CEO e0 o
  | CBO n o => CEBO e0 n o
  | c => c
  end.

Section Impls.
Variables (e0 : endian) (cu : nat -> custom).

(** [read_ty] of Derive.v (deku_read.rs:164-175, 237-400, 452-461, 549-571) with the
    contexts above; [bool] (src/impls/bool.rs:7-31), [NonZero]
    (src/impls/nonzero.rs:7-30) and the floats hand theirs on. *)
Fixpoint t_read_ty (fuel : nat) (t : ty) (lim : option (limit value)) (args : list value) {struct t} : RM value :=
  match t with
  | TPrim p => with_pctx lim args (fun c => let* n := prim_read p (read_ctx e0 c) in ret (VNum n))
  | TBool => with_pctx lim args (fun c => let* b := read_bool (read_ctx e0 c) in ret (VBool b))
  | TNonZero p => with_pctx lim args (fun c => let* n := read_nonzero p (read_ctx e0 c) in ret (VNum n))
  | TUnit => ret VUnit
  | TCString =>
      match lim, args with
      | None, [] => let* s := read_cstring fuel in ret (VList (map VNum s))
      | None, [VBytes n] => let* s := read_cstring_bytes (N.of_nat n) in ret (VList (map VNum s))
      | _, _ => panic
      end
  | TOption t => let* v := t_read_ty fuel t lim args in ret (VSome v)
  | TPair a b => let* x := t_read_ty fuel a lim args in let* y := t_read_ty fuel b lim args in ret (VPair x y)
  | TArray n t => let* vs := read_array n (t_read_ty fuel t lim args) in ret (VList vs)
  | TVec k size t =>
      match lim with
      | Some l => let* vs := vec_read fuel (slot_size k size) (t_read_ty fuel t None args) l in ret (VList (collect k vs))
      | None => panic
      end
  | TStruct c fs =>
      let ctx := ctx_args c args in
      let* _ := read_seek (option_map (fun f => f ctx) (c_seek c)) in
      let* _ := read_magic (c_magic c) in
      let* vs := t_fields_read fuel c ctx fs None [] in
      ret (VRec vs)
  | TEnum e idt vs =>
      let ctx := ctx_args (en_c e) args in
      let* _ := read_magic (c_magic (en_c e)) in
      let* id := match en_id e with
                 | Some f => ret (f ctx)
                 | None => t_read_ty fuel idt None (id_args e ctx)
                 end in
      t_variants_read fuel e ctx id vs 0 None
  | TCustom k => match lim with None => cu_read (cu k) args | Some _ => panic end
  end
with t_fields_read (fuel : nat) (c : cattrs) (ctx : list value) (fs : fields) (id : option value) (acc : list value)
    {struct fs} : RM (list value) :=
  match fs with
  | FNil => ret []
  | FCons a t wire tl =>
      let* v := match id, a_reader a with
                | Some x, None => ret x
                | _, _ => read_field c a (is_vec_u8 t) ctx acc (fun lim args => t_read_ty fuel wire lim args)
                end in
      let* vs := t_fields_read fuel c ctx tl None (acc ++ [v]) in
      ret (if a_temp a then vs else v :: vs)
  end
with t_variants_read (fuel : nat) (e : eattrs) (ctx : list value) (id : value) (vs : variants) (k : nat)
    (default : option (RM value)) {struct vs} : RM value :=
  match vs with
  | VNil => match default with Some m => m | None => fail Parse end
  | VCons v fs tl =>
      let body := let* l := t_fields_read fuel (en_c e) ctx fs (if stores_id e v then Some id else None) [] in
                  ret (VVar k l) in
      if matches (v_sel v) id then body
      else t_variants_read fuel e ctx id tl (S k)
             (match default with Some _ => default | None => if v_default v then Some body else None end)
  end.

(** [write_ty] of Derive.v (deku_write.rs:142-152, 219-356, 398-406, 466-479) with the
    contexts above. *)
Fixpoint t_write_ty (t : ty) (args : list value) (v : value) {struct t} : WM unit :=
  match t with
  | TPrim p | TNonZero p => match v with VNum n => with_pctx None args (fun c => prim_write p (write_ctx e0 c) n) | _ => panic end
  | TBool => match v with VBool b => with_pctx None args (fun c => write_bool (write_ctx e0 c) b) | _ => panic end
  | TUnit => ret tt
  | TCString =>
      match v with
      | VList l => with_pctx None args (fun c => write_cstring (write_ctx e0 c) (map (fun x => match x with VNum n => n | _ => 0%N end) l))
      | _ => panic
      end
  | TOption t => match v with VSome x => t_write_ty t args x | VNone => ret tt | _ => panic end
  | TPair a b => match v with VPair x y => let* _ := t_write_ty a args x in t_write_ty b args y | _ => panic end
  | TArray _ t | TVec _ _ t => match v with VList l => write_list (t_write_ty t args) l | _ => panic end
  | TStruct c fs =>
      match v with
      | VRec l =>
          let ctx := ctx_args c args in
          let* _ := write_seek (option_map (fun f => f ctx) (c_seek c)) in
          let* _ := write_magic (c_magic c) in
          t_fields_write c ctx fs None l l []
      | _ => panic
      end
  | TEnum e idt vs =>
      match v with
      | VVar k l =>
          let* _ := write_magic (c_magic (en_c e)) in
          t_variant_write e (ctx_args (en_c e) args) (fun args x => t_write_ty idt args x) vs k l
      | _ => panic
      end
  | TCustom k => cu_write (cu k) args v
  end
with t_fields_write (c : cattrs) (ctx : list value) (fs : fields) (id : option (list value)) (stored todo acc : list value)
    {struct fs} : WM unit :=
  match fs with
  | FNil => ret tt
  | FCons a t _ tl =>
      let v := field_value a stored todo ctx acc in
      let* _ := match id with
                | Some args => t_write_ty t args v
                | None => write_field c a stored ctx acc v (fun args x => t_write_ty t args x)
                end in
      t_fields_write c ctx tl None stored (field_rest a todo) (acc ++ [v])
  end
with t_variant_write (e : eattrs) (ctx : list value) (wid : list value -> value -> WM unit) (vs : variants) (k : nat)
    (l : list value) {struct vs} : WM unit :=
  match vs with
  | VNil => panic
  | VCons v fs tl =>
      match k with
      | O =>
          let* _ := write_id e v fs ctx wid in
          t_fields_write (en_c e) ctx fs (match v_sel v with SPat _ _ => Some (stored_id_args e ctx) | _ => None end) l l []
      | S k' => t_variant_write e ctx wid tl k' l
      end
  end.

(** deku_read.rs:115-126 and 404-415: [from_reader]. *)
Definition t_from_reader (fuel : nat) (t : ty) (s : stream) (bit : nat) : res (nat * value) * stream :=
  let '(x, r) :=
    (let* _ := if bit =? 0 then ret tt else skip_bits bit Msb0 in
     let* v := t_read_ty fuel t None [] in
     fun r => (Ok (r_bits r, v), r)) (reader_new s) in
  (x, r_s r).
(** deku_read.rs:128-148 and 417-437: [from_bytes]. *)
Definition t_from_bytes (fuel : nat) (t : ty) (input : list byte) (bit : nat) : res ((list byte * nat) * value) :=
  match t_from_reader fuel t (cursor input) bit with
  | (Ok (bits_read, v), _) =>
      let idx := bits_read / 8 in
      if idx <=? length input then Ok ((skipn idx input, bits_read mod 8), v)
      else Err (Incomplete (8 * (idx - length input)))
  | (Err e, _) => Err e
  | (Panic, _) => Panic
  | (Diverge, _) => Diverge
  end.
(** deku_read.rs:1041-1071 [emit_try_from]. *)
Definition t_try_from (fuel : nat) (t : ty) (input : list byte) : res value :=
  match t_from_reader fuel t (cursor input) 0 with
  | (Ok (bits_read, v), _) =>
      let bytes_read := bits_read / 8 in
      if bytes_read <? length input then Err Parse
      else if length input <? bytes_read then Err (Incomplete (bits_read - length input * 8))
      else Ok v
  | (Err e, _) => Err e
  | (Panic, _) => Panic
  | (Diverge, _) => Diverge
  end.

(** src/lib.rs:708-715, 736-743, 768-777. *)
Definition t_to_bytes (t : ty) (v : value) : res (list byte) := to_bytes_with (t_write_ty t [] v).
Definition t_to_slice (t : ty) (v : value) (buf : list byte) : res nat * list byte := to_slice_with (t_write_ty t [] v) buf.
Definition t_to_bits (t : ty) (v : value) : res (list bool) := to_bits_with (t_write_ty t [] v).
End Impls.
