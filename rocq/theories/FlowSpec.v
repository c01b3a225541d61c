(** Which derived types read any input safely: where the source is known to be, from field
    to field.  Vocabulary of the theorems, no proofs here.

    As SafeSpec.v, but [inside] (the source is not past its end and no byte is peeked)
    may change: padding of a byte or more and seeks may lead past the end, and whatever
    is read after that fails or is inside again. *)
From Verif Require Import Base Spec Stream Reader Session Prims Containers ContainerSpec Derive DeriveSpec SafeSpec.

(** Known after only if known before. *)
Definition only_if_known (after before : bool) : Prop := after = true -> before = true.
Definition seek_in (s : option (option seekfrom)) : bool :=
  match s with
  | Some (Some (SeekStart n)) => n =? 0
  | Some (Some (SeekCurrent d)) | Some (Some (SeekEnd d)) => (d <=? 0)%Z
  | _ => true
  end.
Definition pad_in (p : option Z) : bool := match p with Some z => (z <? 8)%Z | None => true end.
Definition seek_allowed (seeks : bool) (s : option (option seekfrom)) : Prop :=
  match s with None => True | Some None => False | Some (Some _) => seeks = true end.

(** A hand-written reader, known to be inside before ([i]) and after ([j]). *)
Definition leads {A} (seeks : bool) (good : A -> Prop) (m : RM A) (i j : bool) : Prop :=
  forall r x r', place i r -> m r = (x, r') ->
    x <> Panic /\ x <> Diverge /\
    forall v, x = Ok v -> good v /\ place j r' /\ s_data (r_s r') = s_data (r_s r) /\
      (seeks = false -> unread_len (seen r') <= unread_len (seen r) /\ r_bits r <= r_bits r').

Section Flow.
Variables (named : nat -> value -> Prop) (cu : nat -> custom).
Local Notation typed := (typed_in named).

(** A field from [i], where its value begins, to [j], where it ends; [ok]: is the type that
    is read safe with this limit and these arguments. *)
Definition field_flows_in (seeks : bool) (c : cattrs) (a : fattrs) (t wire : ty) (ctx acc : list value) (i j : bool)
    (ok : option (limit value) -> list value -> Prop) : Prop :=
  (forall off, takes_default a ctx acc off = true -> typed t (a_default a ctx acc off) /\ only_if_known j i) /\
  (forall off, takes_default a ctx acc off = false ->
     match a_reader a, a_limit a with
     | Some f, _ => leads seeks (typed wire) (f ctx acc off) i j
     | None, None => ok None (field_args c a ctx acc off)
     | None, Some l =>
         match eval_limit l ctx acc off with
         | Ok (LCount n) =>
             if is_vec_u8 t then i = true /\ (8 * n <= usize_max)%N /\ forall bs, typed wire (vec_of_bytes bs)
             else ok (Some (LCount n)) (field_args c a ctx acc off)
         | Ok lim => ok (Some lim) (field_args c a ctx acc off)
         | _ => True
         end
     end /\
     forall v, typed wire v ->
       match a_map a with
       | None => typed t v
       | Some f => match f ctx acc off v with Ok v' => typed t v' | Err _ => True | Panic | Diverge => False end
       end).

(** Numbers, booleans and strings take input, so the source is inside afterwards. *)
Fixpoint flows_in (seeks : bool) (t : ty) (lim : option (limit value)) (args : list value) (i j : bool) {struct t} : Prop :=
  match t with
  | TPrim p | TNonZero p => lim = None /\ 0 < prim_bytes p /\ exists c, pctx_of args = Some c /\ sized c
  | TBool => lim = None /\ exists c, pctx_of args = Some c /\ sized c
  | TUnit => only_if_known j i
  | TCString => lim = None /\ (args = [] \/ exists n, args = [VBytes n] /\ (N.of_nat n <= isize_max)%N)
  | TOption t => flows_in seeks t lim args i j
  | TArray n t =>
      match n with
      | O => only_if_known j i
      | S _ => exists m, only_if_known m i /\ flows_in seeks t lim args m m /\ flows_in seeks t lim args m j
      end
  | TPair a b => exists m, flows_in seeks a lim args i m /\ flows_in seeks b lim args m j
  | TVec k size t =>
      exists l, lim = Some l /\ limit_fits (slot_size k size) l /\ (loops l -> slot_size k size <> 0%N -> consumes t = true) /\
        match l with
        (* before each element a byte is peeked *)
        | LEnd => exists m, flows_in false t None args false m /\ only_if_known j i /\ only_if_known j m
        | _ => exists m, only_if_known m i /\ flows_in false t None args m m /\ only_if_known j m
        end
  | TStruct c fs =>
      let ctx := ctx_args c args in
      let s := option_map (fun f => f ctx) (c_seek c) in
      seek_allowed seeks s /\ fields_flow_in seeks c ctx fs None [] (i && seek_in s || nonempty (c_magic c)) j
  | TEnum e idt vs =>
      let ctx := ctx_args (en_c e) args in
      let i1 := i || nonempty (c_magic (en_c e)) in
      match en_id e with
      | Some f => variants_flow_in seeks e ctx (f ctx) vs i1 j
      | None => exists m, flows_in seeks idt None (id_args e ctx) i1 m /\ forall id, typed idt id -> variants_flow_in seeks e ctx id vs m j
      end
  | TCustom k => lim = None /\ leads seeks (named k) (cu_read (cu k) args) i j
  end
(** [id]: the value of the first field if it stores the id. *)
with fields_flow_in (seeks : bool) (c : cattrs) (ctx : list value) (fs : fields) (id : option value) (acc : list value) (i j : bool) {struct fs} : Prop :=
  match fs with
  | FNil => only_if_known j i
  | FCons a t wire tl =>
      match id, a_reader a with
      | Some x, None => typed t x /\ fields_flow_in seeks c ctx tl None (acc ++ [x]) i j
      | _, _ =>
          let s := option_map (fun f => f ctx acc) (a_seek a) in
          let i1 := (i && seek_in s || nonempty (a_magic a)) && pad_in (eval0 (a_pad_before a) ctx acc) in
          seek_allowed seeks s /\
          exists m, field_flows_in seeks c a t wire ctx acc i1 m (fun lim args => flows_in seeks wire lim args i1 m) /\
            forall v, typed t v -> asserted a ctx acc v ->
              fields_flow_in seeks c ctx tl None (acc ++ [v]) (m && pad_in (eval0 (a_pad_after a) ctx (acc ++ [v]))) j
      end
  end
(** The variants the id can select. *)
with variants_flow_in (seeks : bool) (e : eattrs) (ctx : list value) (id : value) (vs : variants) (i j : bool) {struct vs} : Prop :=
  match vs with
  | VNil => True
  | VCons v fs tl =>
      (matches (v_sel v) id || v_default v = true ->
       fields_flow_in seeks (en_c e) ctx fs (if stores_id e v then Some id else None) [] i j) /\
      variants_flow_in seeks e ctx id tl i j
  end.
End Flow.
Notation flows := (flows_in any_value).
(** Types for [from_bytes]. *)
Definition flow_type (cu : nat -> custom) (t : ty) : Prop := exists j, flows cu true t None [] true j.
