(** Vocabulary of the theorems about [reader] and [writer] on variants; no proofs here. *)
From Verif Require Import Base Spec Stream Reader Session Writer WSession Prims CodecSpec Containers ContainerSpec Derive DeriveSpec Variants.

(** The variant has neither. *)
Definition uncoded (code : nat -> vcode) (k : nat) : Prop := vc_read (code k) = None /\ vc_write (code k) = None.

(** What a variant with both stands for: [form k ctx pos l] is an id, its bits and the bits
    of the rest, for the variant with the fields [l], [pos] bits into the stream.  The
    [writer] writes both, the [reader] is for the rest. *)
Definition vform : Type := nat -> list value -> nat -> list value -> option (value * list bool * list bool).
Definition codes_lawful (src : source) (o : order) (code : nat -> vcode) (form : vform) : Prop :=
  forall k ctx pos l id x b, form k ctx pos l = Some (id, x, b) ->
  exists f g, code k = mkVc (Some f) (Some g) /\
    emits_at o pos (g ctx l) (x ++ b) /\ reads_at src o (pos + length x) (f ctx) b (VVar k l).
(** The format of the enum: the magic; then for a variant with code the id, whose bits are
    those of its type (none, if the id is given by the context) and which selects the variant,
    and the rest; for another variant what it is without. *)
Definition enum_format (src : source) (o : order) (ce : nat -> list value -> nat -> value -> option (list bool)) (code : nat -> vcode) (form : vform)
    (e : eattrs) (idt : ty) (vs : variants) (args : list value) (pos : nat) (v : value) : option (list bool) :=
  match v with
  | VVar k l =>
      match code k with
      | mkVc None None => encode src o ce (TEnum e idt vs) None args pos v
      | mkVc (Some _) (Some _) =>
          let ctx := ctx_args (en_c e) args in
          let? m := encode_magic o pos (c_magic (en_c e)) in
          match form k ctx (pos + length m) l with
          | None => None
          | Some (id, x, b) =>
              let? y := match en_id e with
                        | None => encode src o ce idt None (id_args e ctx) (pos + length m) id
                        | Some f => guard (value_eqb id (f ctx)) (Some [])
                        end in
              guard (bits_eqb x y && selects vs id k) (Some (m ++ x ++ b))
          end
      | _ => None
      end
  | _ => None
  end.
Definition with_format (src : source) (o : order) (ce : nat -> list value -> nat -> value -> option (list bool)) (code : nat -> vcode) (form : vform)
    (e : eattrs) (idt : ty) (vs : variants) (i : nat) : list value -> nat -> value -> option (list bool) :=
  match i with O => enum_format src o ce code form e idt vs | S j => ce j end.

(** For the examples:
    #[deku(id_type = "u8", endian = "big")]
    enum E { #[deku(id = 1, reader = "return E::read(deku::reader)", writer = "E::write(deku::writer, x)")] A(u8), #[deku(id = 2)] B(u16) }
    where the number of A is stored complemented. *)
Definition flip (n : N) : N := (255 - n)%N.
Definition flip_read (_ : list value) : RM value :=
  let* x := read_ty no_customs 0 (TPrim PU8) None [] in
  ret (VVar 0 [match x with VNum n => VNum (flip n) | _ => x end]).
Definition flip_write (_ : list value) (l : list value) : WM unit :=
  let* _ := write_ty no_customs (TPrim PU8) [] (VNum 1) in
  match l with [VNum n] => write_ty no_customs (TPrim PU8) [] (VNum (flip n)) | _ => panic end.
Definition flip_code (k : nat) : vcode := match k with O => mkVc (Some flip_read) (Some flip_write) | _ => mkVc None None end.
Definition flip_form (src : source) (o : order) : vform := fun k _ pos l =>
  match k, l with
  | O, [VNum n] =>
      if (n <? 256)%N then
        match encode src o no_format (TPrim PU8) None [] pos (VNum 1) with
        | Some x => match encode src o no_format (TPrim PU8) None [] (pos + length x) (VNum (flip n)) with
                    | Some b => if length b <=? 8 then Some (VNum 1, x, b) else None
                    | None => None
                    end
        | None => None
        end
      else None
  | _, _ => None
  end.
Definition flip_attrs : eattrs := mkE (mkC (Some (fun _ _ => Big)) None [] None None) None None None None.
Definition flip_variants : variants :=
  VCons (mkV (SId (VNum 1)) false) (FCons plain (TPrim PU8) (TPrim PU8) FNil)
  (VCons (mkV (SId (VNum 2)) false) (FCons plain (TPrim (PU 2)) (TPrim (PU 2)) FNil) VNil).
(** One whose writer writes just what its reader reads. *)
Definition same_read (_ : list value) : RM value := let* x := read_ty no_customs 0 (TPrim PU8) None [] in ret (VVar 0 [x]).
Definition same_write (_ : list value) (l : list value) : WM unit := write_ty no_customs (TPrim PU8) [] (nth 0 l VUnit).
Definition same_code (k : nat) : vcode := match k with O => mkVc (Some same_read) (Some same_write) | _ => mkVc None None end.
