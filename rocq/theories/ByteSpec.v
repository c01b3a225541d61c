(** Specification: the types that can be declared without the feature [bits]. *)
From Verif Require Import Base Stream Reader Writer Prims Containers Derive DeriveSpec ByteBuild.

(** No bit size among the context arguments. *)
Definition no_bit_size (args : list value) : Prop := forall n, ~ In (VBits n) args.
(** The padding is a number of whole bytes that fits [usize] in bits. *)
Definition whole_bytes (p : option (expr0 Z)) : Prop :=
  match p with Some f => forall ctx fs, (f ctx fs mod 8 = 0 /\ f ctx fs <= Z.of_N usize_max)%Z | None => True end.
Definition container_in_bytes (c : cattrs) : Prop :=
  match c_ctx_default c with Some l => no_bit_size l | None => True end.
Record field_in_bytes (a : fattrs) : Prop := {
  fb_bits : a_bits a = None;
  fb_ctx : forall ctx fs off, no_bit_size (a_ctx a ctx fs off);
  fb_limit : match a_limit a with Some (FBits _) => False | _ => True end;
  fb_before : whole_bytes (a_pad_before a);
  fb_after : whole_bytes (a_pad_after a)
}.
(** Hand-written code that compiles in both builds: it calls [read_bytes] and
    [from_reader_with_ctx] of integers without a bit size, stops at the first error, and may
    look at [bits_read].  A writer calls [write_bytes], [to_writer] of integers and may seek. *)
Inductive reads_bytes : forall A : Type, RM A -> Prop :=
| rb_end A (x : res A) : reads_bytes A (lift x)
| rb_bind A B m f : reads_bytes A m -> (forall a, reads_bytes B (f a)) -> reads_bytes B (bind m f)
| rb_bytes n size o : reads_bytes (list byte) (read_bytes n size o)
| rb_prim p c : byte_pctx c = true -> reads_bytes N (prim_read p c)
| rb_see A (f : nat -> RM A) : (forall n, reads_bytes A (f n)) -> reads_bytes A (fun r => f (r_bits r) r)
| rb_ext A (m1 m2 : RM A) : (forall r, m1 r = m2 r) -> reads_bytes A m1 -> reads_bytes A m2.
Inductive writes_bytes : forall A : Type, WM A -> Prop :=
| wb_end A (x : res A) : writes_bytes A (lift x)
| wb_bind A B m f : writes_bytes A m -> (forall a, writes_bytes B (f a)) -> writes_bytes B (bind m f)
| wb_bytes bs : writes_bytes unit (write_bytes bs)
| wb_prim p c n : byte_pctx c = true -> writes_bytes unit (prim_write p c n)
| wb_seek s : writes_bytes unit (write_seek s)
| wb_see A (f : nat -> WM A) : (forall n, writes_bytes A (f n)) -> writes_bytes A (fun w => f (w_bits w) w)
| wb_ext A (m1 m2 : WM A) : (forall w, m1 w = m2 w) -> writes_bytes A m1 -> writes_bytes A m2.
Definition reader_in_bytes (a : fattrs) : Prop :=
  forall f, a_reader a = Some f -> forall ctx fs off, reads_bytes value (f ctx fs off).
Definition writer_in_bytes (a : fattrs) : Prop :=
  forall f, a_writer a = Some f -> forall stored ctx fs off v, writes_bytes unit (f stored ctx fs off v).

(** Written without bits. *)
Definition written_in_bytes (cu : nat -> custom) (t : ty) : Prop :=
  every container_in_bytes (fun e => en_bits e = None /\ container_in_bytes (en_c e))
    (fun _ a _ => field_in_bytes a /\ writer_in_bytes a)
    (fun k => forall args v, no_bit_size args -> writes_bytes unit (cu_write (cu k) args v)) t.

(** Declared without bits and without padding; seeks, hand-written readers and types with
    an implementation of their own are allowed. *)
Definition read_without_padding (t : ty) : Prop :=
  every container_in_bytes (fun e => en_bits e = None /\ container_in_bytes (en_c e))
    (fun _ a _ => field_in_bytes a /\ a_pad_before a = None /\ a_pad_after a = None) (fun _ => True) t.

(** Read without bits; no seeks; no padding inside what is read with [read_all].  [pads]:
    padding is allowed here. *)
Definition padded_field (pads : bool) (a : fattrs) : Prop :=
  pads = true \/ a_pad_before a = None /\ a_pad_after a = None.
Definition reads_all (a : fattrs) : bool := match a_limit a with Some FAll => true | _ => false end.
Section Customs.
Variable cu : nat -> custom.
Fixpoint read_in_bytes (pads : bool) (t : ty) : Prop :=
  match t with
  | TOption t | TArray _ t | TVec _ _ t => read_in_bytes pads t
  | TPair a b => read_in_bytes pads a /\ read_in_bytes pads b
  | TStruct c fs => container_in_bytes c /\ c_seek c = None /\ fields_in_bytes pads fs
  | TEnum e idt vs =>
      en_bits e = None /\ container_in_bytes (en_c e) /\ read_in_bytes pads idt /\ variants_in_bytes pads vs
  | TCustom k => forall args, no_bit_size args -> reads_bytes value (cu_read (cu k) args)
  | _ => True
  end
with fields_in_bytes (pads : bool) (fs : fields) : Prop :=
  match fs with
  | FNil => True
  | FCons a _ wire tl =>
      field_in_bytes a /\ a_seek a = None /\ reader_in_bytes a /\ padded_field pads a /\
      read_in_bytes (pads && negb (reads_all a)) wire /\ fields_in_bytes pads tl
  end
with variants_in_bytes (pads : bool) (vs : variants) : Prop :=
  match vs with
  | VNil => True
  | VCons _ fs tl => fields_in_bytes pads fs /\ variants_in_bytes pads tl
  end.
End Customs.
