(** Model of [reader] and [writer] on the variants of an enum:
    deku-derive/src/macros/deku_read.rs:237-377, deku_write.rs:239-356.  No proofs here.

    [Derive.v] models enums whose variants have none.  Here [code k] is the code of the
    [k]-th variant.  The result is a type with known impls, like a hand-written one
    ([custom]), and can be a part of any type of [Derive.v]. *)
From Verif Require Import Base Stream Reader Writer Prims Containers Derive.

(** deku-derive/src/lib.rs:913-935 [VariantData], the fields [reader] and [writer].

    The expression [reader] is emitted as the statement [reader;] at the end of the arm
    (deku_read.rs:306-307), so that its value is dropped and the arm is of the type ().
    The arms have to be of the type of the enum, and the Rust compiler accepts the arm only
    if the statement does not complete: the expression must [return] the result.  That
    result is what [vc_read] gives.  It can use the [ctx] arguments.  [writer] sees these
    and the stored fields. *)
Record vcode : Type := mkVc {
  vc_read : option (list value -> RM value);
  vc_write : option (list value -> list value -> WM unit)
}.

Section Code.
Variables (cu : nat -> custom) (code : nat -> vcode).

(** deku_read.rs:303-377: [reader] in place of the fields. *)
Fixpoint coded_read (fuel : nat) (e : eattrs) (ctx : list value) (id : value) (vs : variants) (k : nat)
    (default : option (RM value)) : RM value :=
  match vs with
  | VNil => match default with Some m => m | None => fail Parse end
  | VCons v fs tl =>
      let body := match vc_read (code k) with
                  | Some f => f ctx
                  | None => let* l := fields_read cu fuel (en_c e) ctx fs (if stores_id e v then Some id else None) [] in
                            ret (VVar k l)
                  end in
      if matches (v_sel v) id then body
      else coded_read fuel e ctx id tl (S k)
             (match default with Some _ => default | None => if v_default v then Some body else None end)
  end.
(** deku_read.rs:379-400, 452-461: as for every enum, the magic and the id come first. *)
Definition enum_read (fuel : nat) (e : eattrs) (idt : ty) (vs : variants) (args : list value) : RM value :=
  let ctx := ctx_args (en_c e) args in
  let* _ := read_magic (c_magic (en_c e)) in
  let* id := match en_id e with
             | Some f => ret (f ctx)
             | None => read_ty cu fuel idt None (id_args e ctx)
             end in
  coded_read fuel e ctx id vs 0 None.

(** deku_write.rs:322-341: [writer] in place of the id and the fields.  (The number of the
    variant is the one in the declaration: [k] counts down, [n] up.) *)
Fixpoint coded_write (e : eattrs) (ctx : list value) (wid : list value -> value -> WM unit) (vs : variants) (k n : nat)
    (l : list value) : WM unit :=
  match vs with
  | VNil => panic
  | VCons v fs tl =>
      match k with
      | O =>
          match vc_write (code n) with
          | Some f => f ctx l
          | None =>
              let* _ := write_id e v fs ctx wid in
              fields_write cu (en_c e) ctx fs (match v_sel v with SPat _ _ => Some (stored_id_args e ctx) | _ => None end) l l []
          end
      | S k' => coded_write e ctx wid tl k' (S n) l
      end
  end.
(** deku_write.rs:398-406. *)
Definition enum_write (e : eattrs) (idt : ty) (vs : variants) (args : list value) (v : value) : WM unit :=
  match v with
  | VVar k l =>
      let* _ := write_magic (c_magic (en_c e)) in
      coded_write e (ctx_args (en_c e) args) (fun args x => write_ty cu idt args x) vs k 0 l
  | _ => panic
  end.
(** The impls that are generated. *)
Definition enum_impls (fuel : nat) (e : eattrs) (idt : ty) (vs : variants) : custom :=
  mkCustom (enum_read fuel e idt vs) (enum_write e idt vs).
(** The enum as [TCustom 0] of other types, beside the hand-written impls [cu]. *)
Definition with_enum (fuel : nat) (e : eattrs) (idt : ty) (vs : variants) (i : nat) : custom :=
  match i with O => enum_impls fuel e idt vs | S j => cu j end.
End Code.

(** deku_read.rs:322-332 is in the branch without a [reader]: a variant with one is not
    among the patterns of [deku_id] (505-513). *)
Fixpoint coded_id (code : nat -> vcode) (vs : variants) (k n : nat) : res value :=
  match vs, k with
  | VNil, _ => Err IdVariantNotFound
  | VCons v _ _, O => match vc_read (code n), v_sel v with None, SId x => Ok x | _, _ => Err IdVariantNotFound end
  | VCons _ _ tl, S k' => coded_id code tl k' (S n)
  end.
Definition enum_deku_id (code : nat -> vcode) (vs : variants) (k : nat) : res value := coded_id code vs k 0.
