(** Which derived types can be written without a panic, whatever the value; vocabulary of
    the theorems, no proofs here. *)
From Verif Require Import Base Stream Reader Writer Prims Containers Derive SafeSpec.

(** ** Writers between two calls

    At most 7 bits wait for the rest of their byte.  [growing]: nothing is asked of the
    sink, or it takes every byte, like [Vec<u8>]. *)
Definition sink_is (growing : bool) (k : sink) : Prop :=
  growing = true -> k_fixed k = false /\ forall j, k_fault k j = None.
Definition between (growing : bool) (w : writer) : Prop := length (w_left w) < 8 /\ sink_is growing (w_k w).
(** On a growing sink: the value does not fit, or an assertion of the type. *)
Definition error_is (growing : bool) (e : derr) : Prop := growing = true -> e = InvalidParam \/ e = Assertion.
(** Returns, without a panic. *)
Definition writes_safely (growing : bool) (m : WM unit) : Prop :=
  forall w x w', between growing w -> m w = (x, w') ->
    match x with Ok _ => between growing w' | Err e => error_is growing e | Panic | Diverge => False end.

(** ** Safe types *)

Section WSafe.
Variables (named : nat -> value -> Prop) (cu : nat -> custom) (growing : bool).

(** No size of 0 bits. *)
Definition some_bits (c : pctx) : Prop :=
  match c with CB n | CEB _ n | CBO n _ | CEBO _ n _ => 0 < n | _ => True end.
(** A seek can fail on a growing sink: in front of its start. *)
Definition seek_wsafe (s : option (option seekfrom)) : Prop :=
  match s with None => True | Some None => False | Some (Some _) => growing = false end.
Definition is_left_out (a : fattrs) (ctx acc : list value) (off : nat) : bool :=
  match a_skip a, a_cond a with
  | Some SkipAll, Some f | Some SkipWrite, Some f => f ctx acc off
  | Some SkipAll, None | Some SkipWrite, None => true
  | Some SkipRead, _ | None, _ => false
  end.
(** A field with the value [v]; [stored] are the fields of the value, [acc] the ones before
    it, temporary ones included; [ok]: can its type be written with these arguments. *)
Definition field_wsafe_in (c : cattrs) (a : fattrs) (t : ty) (stored ctx acc : list value) (v : value)
    (ok : list value -> Prop) : Prop :=
  seek_wsafe (option_map (fun f => f ctx acc) (a_seek a)) /\
  forall off, is_left_out a ctx acc off = false ->
    match a_writer a with
    | Some f => writes_safely growing (f stored ctx acc off v)
    | None =>
        match a_temp a, a_temp_value a with
        | true, None => True
        | true, Some _ => typed_in named t v /\ ok (field_args c a ctx acc off)
        | false, _ => ok (field_args c a ctx acc off)
        end
    end.

Fixpoint wsafe_ty_in (t : ty) (args : list value) {struct t} : Prop :=
  match t with
  | TPrim _ | TNonZero _ | TBool | TCString => exists c, pctx_of args = Some c /\ some_bits c
  | TUnit => True
  | TOption t | TArray _ t | TVec _ _ t => wsafe_ty_in t args
  | TPair a b => wsafe_ty_in a args /\ wsafe_ty_in b args
  | TStruct c fs =>
      let ctx := ctx_args c args in
      seek_wsafe (option_map (fun f => f ctx) (c_seek c)) /\
      forall l, fields_typed_in named fs l -> fields_wsafe_in c ctx fs None l l []
  | TEnum e idt vs =>
      let ctx := ctx_args (en_c e) args in
      variants_wsafe_in e ctx (fun x => typed_in named idt x /\ wsafe_ty_in idt (id_args e ctx)) vs
  | TCustom k => forall v, named k v -> writes_safely growing (cu_write (cu k) args v)
  end
(** [id]: the arguments for the first field of an [id_pat] variant. *)
with fields_wsafe_in (c : cattrs) (ctx : list value) (fs : fields) (id : option (list value)) (stored todo acc : list value)
    {struct fs} : Prop :=
  match fs with
  | FNil => True
  | FCons a t _ tl =>
      let v := field_value a stored todo ctx acc in
      match id with
      | Some args => a_temp a = false /\ wsafe_ty_in t args /\ fields_wsafe_in c ctx tl None stored (field_rest a todo) (acc ++ [v])
      | None =>
          field_wsafe_in c a t stored ctx acc v (fun args => wsafe_ty_in t args) /\
          (asserted a ctx acc v -> fields_wsafe_in c ctx tl None stored (field_rest a todo) (acc ++ [v]))
      end
  end
(** [idok]: can this id be written. *)
with variants_wsafe_in (e : eattrs) (ctx : list value) (idok : value -> Prop) (vs : variants) {struct vs} : Prop :=
  match vs with
  | VNil => True
  | VCons v fs tl =>
      match en_id e, v_sel v with
      | Some _, _ => True
      | None, SId x | None, SDisc x => idok x
      | None, SPat _ d => fs = FNil -> exists x, d = Some x /\ idok x
      end /\
      (forall l, fields_typed_in named fs l ->
         fields_wsafe_in (en_c e) ctx fs (match v_sel v with SPat _ _ => Some (stored_id_args e ctx) | _ => None end) l l []) /\
      variants_wsafe_in e ctx idok tl
  end.
End WSafe.
Notation field_wsafe := (field_wsafe_in any_value).
Notation wsafe_ty := (wsafe_ty_in any_value).
Notation fields_wsafe := (fields_wsafe_in any_value).
Notation variants_wsafe := (variants_wsafe_in any_value).
(** Types for [to_bytes]. *)
Definition wsafe_type (cu : nat -> custom) (t : ty) : Prop := wsafe_ty cu false t [].
