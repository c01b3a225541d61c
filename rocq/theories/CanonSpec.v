(** Which derived types are written back bit for bit as they were read; vocabulary of
    the theorems, no proofs here. *)
From Verif Require Import Base Spec Stream Reader Session Writer WSession Prims CodecSpec Containers ContainerSpec Derive DeriveSpec SafeSpec.

(** ** Readers between two fields

    What is known before a read: the kind of source, and possibly where in a byte it
    is. *)
Definition spot : Type := source * option nat.
Definition here (p : spot) (r : reader) : Prop :=
  readable (fst p) r /\ (r_bits r + length (r_rest r)) mod 8 = 0 /\ (forall k, snd p = Some k -> r_bits r mod 8 = k mod 8).
(** From [p] to [q] by a read that takes [n] bits (up to whole bytes). *)
Definition ends (p q : spot) (n : nat) : Prop :=
  (fst q = SeekSource -> fst p = SeekSource) /\ (forall j, snd q = Some j -> exists k, snd p = Some k /\ j mod 8 = (k + n) mod 8).

(** Whenever [m] succeeds, writing the value at the same position gives exactly the bits
    that [m] consumed. *)
Definition faithful {A} (o : order) (p q : spot) (good : A -> Prop) (m : RM A) (wr : A -> WM unit) : Prop :=
  forall r v r', here p r -> m r = (Ok v, r') ->
  good v /\ here q r' /\
  exists enc, unread_string o (seen r) = enc ++ unread_string o (seen r') /\ r_bits r' = r_bits r + length enc /\
    emits_at o (r_bits r) (wr v) enc.

Section Rewritable.
Variables (cu : nat -> custom) (o : order).

(** Whole bytes are read and written alike. *)
Definition bytes_ok (p : spot) : Prop := o = Msb0 \/ snd p = Some 0.
(** Integers: at least a bit, at most the type, in the order [o]; not big-endian [Lsb0]
    of more than a byte.  Signed ones of fewer bits than the type only in the contexts
    in which negative numbers can be written. *)
Definition prim_ok (p q : spot) (pr : prim) (c : pctx) : Prop :=
  match bits_of_ctx c, bytes_of_ctx (prim_bytes pr) c with
  | Some (e, n, o'), _ =>
      o' = o /\ 1 <= n <= prim_width pr /\ (e = Little \/ o = Msb0 \/ n <= 8 \/ n = prim_width pr) /\
      (is_unsigned pr \/ n = prim_width pr \/ (exists e', c = CEB e' n) \/ (c = CB n /\ n mod 8 <> 0)) /\
      ends p q n
  | None, Some (e, n, o') =>
      1 <= n <= prim_bytes pr /\ (o = Msb0 /\ o' = Msb0 \/ snd p = Some 0) /\ ends p q 0
  | None, None => False
  end.
Definition num_ok (p q : spot) (pr : prim) (lim : option (limit value)) (args : list value) : Prop :=
  lim = None /\ exists c, pctx_of args = Some c /\ prim_ok p q pr c.

Definition cond_at (a : fattrs) (ctx acc : list value) (off : nat) : option bool :=
  option_map (fun f : expr bool => f ctx acc off) (a_cond a).
(** The attributes do not look at [deku::bit_offset] (it is rounded down on writing). *)
Definition steady (c : cattrs) (a : fattrs) (ctx acc : list value) : Prop :=
  forall off off',
    (forall v, assertions a ctx acc off v = assertions a ctx acc off' v) /\
    cond_at a ctx acc off = cond_at a ctx acc off' /\
    field_args c a ctx acc off = field_args c a ctx acc off'.
(** What is known of a field that has been read: its assertions hold, and a [Vec] with a
    [count] has that many elements (a HashMap or HashSet may have fewer). *)
Definition known (a : fattrs) (t : ty) (ctx acc : list value) (v : value) : Prop :=
  exists off, assertions a ctx acc off v = true /\
    forall f k size elem, always_read a = true -> a_map a = None -> a_limit a = Some (FCount f) -> t = TVec k size elem -> hashed k = false -> size <> 0%N ->
      exists xs, v = VList xs /\ Z.of_nat (length xs) = f ctx acc off.
(** A field: no seek, no padding, no [map]; a temporary one has a [temp_value].  If it is
    read it is written; if not, nothing is written for its default.  [ok]: can the type
    be written back with this limit and these arguments. *)
Definition field_ok (p q : spot) (c : cattrs) (a : fattrs) (t wire : ty) (ctx acc : list value)
    (ok : option (limit value) -> list value -> Prop) : Prop :=
  a_seek a = None /\ (a_magic a = [] \/ bytes_ok p) /\
  eval0 (a_pad_before a) ctx acc = None /\ (forall v, typed t v -> eval0 (a_pad_after a) ctx (acc ++ [v]) = None) /\
  (a_temp a = true -> a_temp_value a <> None) /\ steady c a ctx acc /\
  forall off, let cond := cond_at a ctx acc off in
    match is_read (a_skip a) cond, is_written (a_skip a) cond with
    | false, w =>
        let v := a_default a ctx acc off in
        typed t v /\ ends p q 0 /\ (w = true -> a_writer a = None /\ writes_nothing t v = true)
    | true, false => False
    | true, true =>
        a_map a = None /\ wire = t /\
        match a_reader a, a_writer a with
        | Some f, Some g => forall stored off', faithful o p q (typed t) (f ctx acc off) (fun v => g stored ctx acc off' v)
        | None, None =>
            let args := field_args c a ctx acc off in
            match a_limit a with
            | None => ok None args
            | Some l =>
                match eval_limit l ctx acc off with
                | Ok (LCount n) =>
                    if is_vec_u8 t then
                      p = (SeekSource, Some 0) /\ ends p q 0 /\
                      exists c e o', pctx_of args = Some c /\ bytes_of_ctx 1 c = Some (e, 1, o')
                    else ok (Some (LCount n)) args
                | Ok lim => ok (Some lim) args
                | _ => True
                end
            end
        | _, _ => False
        end
    end.
(** A field with only a type, byte order and bit order. *)
Definition bare (c : cattrs) (a : fattrs) (ctx args : list value) : Prop :=
  a_seek a = None /\ a_magic a = [] /\ eval0 (a_pad_before a) ctx [] = None /\ (forall v, eval0 (a_pad_after a) ctx [v] = None) /\
  a_limit a = None /\ a_map a = None /\ a_reader a = None /\ a_skip a = None /\ a_cond a = None /\ a_temp a = false /\
  forall off, field_args c a ctx [] off = args.

(** [rewritable p q t lim args]: read with the context [(lim, args)] from the spot [p] to
    the spot [q]. *)
Fixpoint rewritable (p q : spot) (t : ty) (lim : option (limit value)) (args : list value) {struct t} : Prop :=
  match t with
  | TPrim pr | TNonZero pr => num_ok p q pr lim args
  | TBool => num_ok p q PU8 lim args
  | TUnit => ends p q 0
  | TCString => lim = None /\ (args = [] \/ exists n, args = [VBytes n]) /\ bytes_ok p /\ ends p q 0
  | TOption t => rewritable p q t lim args
  | TPair a b => exists m, rewritable p m a lim args /\ rewritable m q b lim args
  | TArray _ t => exists m, ends p m 0 /\ rewritable m m t lim args /\ ends m q 0
  | TVec k _ t =>
      hashed k = false /\ exists l m, lim = Some l /\ ends p m 0 /\ rewritable m m t None args /\ ends m q 0 /\
      (l = LEnd -> fst m = AnySource)
  | TStruct c fs =>
      let ctx := ctx_args c args in
      c_seek c = None /\ (c_magic c = [] \/ bytes_ok p) /\ fields_rewritable p q c ctx fs [] [] (fun _ => True)
  | TEnum e idt vs =>
      let ctx := ctx_args (en_c e) args in
      (c_magic (en_c e) = [] \/ bytes_ok p) /\
      match en_id e with
      | Some f => variants_rewritable p q e ctx (f ctx) idt vs
      | None =>
          exists m, rewritable p m idt None (id_args e ctx) /\
          forall id, typed idt id -> variants_rewritable m q e ctx id idt vs
      end
  | TCustom k => lim = None /\ faithful o p q (fun _ => True) (cu_read (cu k) args) (cu_write (cu k) args)
  end
(** The fields; [acc]: the values of the fields before, [st]: those of them that are
    stored; [due]: what the stored values must satisfy for the temporary fields to be
    computed as they were read. *)
with fields_rewritable (p q : spot) (c : cattrs) (ctx : list value) (fs : fields) (st acc : list value) (due : list value -> Prop) {struct fs} : Prop :=
  match fs with
  | FNil => ends p q 0 /\ due st
  | FCons a t wire tl =>
      exists m, field_ok p m c a t wire ctx acc (fun lim args => rewritable p m wire lim args) /\
      forall v, typed t v -> known a t ctx acc v ->
        fields_rewritable m q c ctx tl (if a_temp a then st else st ++ [v]) (acc ++ [v])
          (fun stored => due stored /\ match a_temp_value a with Some f => a_temp a = true -> f stored ctx acc = v | None => True end)
  end
(** The variants that the id can select: the id of the variant is the one that was read;
    an [id_pat] variant stores it in its first field, which is written like the id. *)
with variants_rewritable (p q : spot) (e : eattrs) (ctx : list value) (id : value) (idt : ty) (vs : variants) {struct vs} : Prop :=
  match vs with
  | VNil => True
  | VCons v fs tl =>
      (matches (v_sel v) id || v_default v = true ->
       match en_id e, v_sel v, fs with
       | Some _, SPat _ _, FCons a t wire rest =>
           wire = t /\ bare (en_c e) a ctx (stored_id_args e ctx) /\
           exists m, rewritable p m wire None (stored_id_args e ctx) /\
           forall x, typed t x -> known a t ctx [] x -> fields_rewritable m q (en_c e) ctx rest [x] [x] (fun _ => True)
       | Some _, _, _ => fields_rewritable p q (en_c e) ctx fs [] [] (fun _ => True)
       | None, SPat _ d, FNil => d = Some id /\ ends p q 0
       | None, SPat _ _, FCons a t _ rest =>
           a_reader a = None /\ a_temp a = false /\ t = idt /\
           (forall w, write_ty cu t (stored_id_args e ctx) id w = write_ty cu t (id_args e ctx) id w) /\
           fields_rewritable p q (en_c e) ctx rest [id] [id] (fun _ => True)
       | None, SId x, _ | None, SDisc x, _ => x = id /\ fields_rewritable p q (en_c e) ctx fs [] [] (fun _ => True)
       end) /\
      variants_rewritable p q e ctx id idt tl
  end.
End Rewritable.
(** Types for [from_bytes]. *)
Definition rewritable_type (cu : nat -> custom) (o : order) (t : ty) : Prop :=
  exists q, rewritable cu o (SeekSource, Some 0) q t None [].
