(** A field whose type is a struct, a tuple or an array is its parts written as fields, C73.

    Vocabulary: [NestSpec.v] ([with_field]: a struct with a field of the type;
    [with_parts]: the struct with the parts instead; [made_of]: a type and its parts;
    [moved]: attributes whose expressions name the fields of the other struct;
    [group]: the values of the parts as one value). *)
From Verif Require Import Base Stream Reader Writer Prims Containers Derive DeriveSpec AttrSpec NestSpec NestProps P_Derive.

(** ** Examples *)

Definition u16 : ty := TPrim (PU 2).
Definition hands (e : option endian) (b : option nat) (x : expr0 (list value)) : fattrs :=
  passing (option_map (fun v _ _ => v) e) None (option_map (fun n _ _ => n) b) None x.
Definition nothing : expr0 (list value) := fun _ _ => [].
(** #[deku(ctx = "len: u8")] struct Inner { #[deku(count = "len")] items: Vec<u8>, x: u8 } *)
Definition inner : fields :=
  field (limited (FCount (fun ctx _ _ => Z.of_N (nth_num ctx 0))) plain) (TVec KVec 1 u8) (field plain u8 FNil).
(** struct Outer { len: u8, #[deku(ctx = "*len")] inner: Inner, #[deku(count = "inner.x")] tail: Vec<u8> } *)
Definition inner_x (fs : list value) : Z := match nth 1 fs VUnit with VRec l => Z.of_N (nth_num l 1) | _ => 0%Z end.
Definition pre1 : fields := field plain u8 FNil.
Definition post1 : fields := field (limited (FCount (fun _ fs _ => inner_x fs)) plain) (TVec KVec 1 u8) FNil.
Definition pass_len : fattrs := hands None None (fun _ fs => [nth 0 fs VUnit]).
Definition outer : ty := with_field cplain pre1 pass_len (TStruct cplain inner) post1.
Definition outer_flat : ty := with_parts cplain pre1 (struct_parts cplain pre1 pass_len cplain inner) post1 VRec.

(** ** Reading *)

(** With any arguments, from any state of the reader and through the API: reading the
    nested field is reading its parts and putting their values together, with the same
    errors, the same rest and the same effect on the reader. *)
Theorem C73_reading : forall cu fuel c pre a t parts g post,
  c_endian c = None -> c_order c = None -> no_temps pre -> only_passes a -> made_of c pre a t parts g ->
  let one := with_field c pre a t post in
  let many := with_parts c pre parts post g in
  let grouped := group_rec (field_count pre) (field_count parts) g in
  (forall lim args r, read_ty cu fuel one lim args r = let (x, r') := read_ty cu fuel many lim args r in (res_map x grouped, r')) /\
  (forall s bit, from_reader cu fuel one s bit = let (x, s') := from_reader cu fuel many s bit in (res_map x (fun p => (fst p, grouped (snd p))), s')) /\
  (forall input bit, from_bytes cu fuel one input bit = res_map (from_bytes cu fuel many input bit) (fun p => (fst p, grouped (snd p)))) /\
  (forall input, try_from cu fuel one input = res_map (try_from cu fuel many input) grouped).
Proof. exact nest_reading. Qed.
Print Assumptions C73_reading.
Example C73_reading_case :
  made_of cplain pre1 pass_len (TStruct cplain inner) (struct_parts cplain pre1 pass_len cplain inner) VRec /\ only_passes pass_len /\ no_temps pre1 /\
  from_bytes no_customs 50 outer [x02; x0a; x0b; x01; x07; xff] 0 = Ok (([xff], 0), VRec [VNum 2; VRec [VList [VNum 10; VNum 11]; VNum 1]; VList [VNum 7]]) /\
  from_bytes no_customs 50 outer_flat [x02; x0a; x0b; x01; x07; xff] 0 = Ok (([xff], 0), VRec [VNum 2; VList [VNum 10; VNum 11]; VNum 1; VList [VNum 7]]) /\
  group 1 2 VRec [VNum 2; VList [VNum 10; VNum 11]; VNum 1; VList [VNum 7]] = [VNum 2; VRec [VList [VNum 10; VNum 11]; VNum 1]; VList [VNum 7]].
Proof.
  split; [constructor; [reflexivity|reflexivity|repeat constructor]|]. split; [repeat eexists|]. split; [repeat constructor|]. repeat split; vm_compute; reflexivity.
Qed.
(** A tuple and an array: the [bits] and [endian] of the field go to each component. *)
Definition of_pair : ty := with_field cplain pre1 (hands (Some Big) (Some 12) nothing) (TPair u16 u16) FNil.
Definition of_array : ty := with_field cplain pre1 (hands (Some Big) (Some 12) nothing) (TArray 2 u16) FNil.
Example C73_reading_case_2 :
  pair_parts pre1 (hands (Some Big) (Some 12) nothing) u16 u16 = array_parts pre1 (hands (Some Big) (Some 12) nothing) 2 u16 /\
  try_from no_customs 50 of_pair [x01; x12; x34; x56] = Ok (VRec [VNum 1; VPair (VNum 0x123) (VNum 0x456)]) /\
  try_from no_customs 50 of_array [x01; x12; x34; x56] = Ok (VRec [VNum 1; VList [VNum 0x123; VNum 0x456]]) /\
  try_from no_customs 50 (with_parts cplain pre1 (array_parts pre1 (hands (Some Big) (Some 12) nothing) 2 u16) FNil VList) [x01; x12; x34; x56] =
    Ok (VRec [VNum 1; VNum 0x123; VNum 0x456]).
Proof. repeat split; vm_compute; reflexivity. Qed.

(** ** Writing *)

Theorem C73_writing : forall cu c pre a t parts g post,
  c_endian c = None -> c_order c = None -> no_temps pre -> only_passes a -> made_of c pre a t parts g ->
  forall l1 vs l2, length l1 = field_count pre -> length vs = field_count parts ->
  let one := with_field c pre a t post in
  let many := with_parts c pre parts post g in
  let v := VRec (l1 ++ g vs :: l2) in
  let v' := VRec (l1 ++ vs ++ l2) in
  (forall args w, write_ty cu one args v w = write_ty cu many args v' w) /\
  to_bytes cu one v = to_bytes cu many v' /\
  (forall buf, to_slice cu one v buf = to_slice cu many v' buf) /\
  to_bits cu one v = to_bits cu many v'.
Proof. exact nest_writing. Qed.
Print Assumptions C73_writing.
Example C73_writing_case :
  let v := VRec [VNum 2; VRec [VList [VNum 10; VNum 11]; VNum 1]; VList [VNum 7]] in
  let v' := VRec [VNum 2; VList [VNum 10; VNum 11]; VNum 1; VList [VNum 7]] in
  field_count pre1 = 1 /\ field_count (struct_parts cplain pre1 pass_len cplain inner) = 2 /\
  to_bytes no_customs outer v = Ok [x02; x0a; x0b; x01; x07] /\ to_bytes no_customs outer_flat v' = Ok [x02; x0a; x0b; x01; x07].
Proof. repeat split; vm_compute; reflexivity. Qed.

(** ** Sizes *)

Theorem C73_size : forall c pre e o x t parts g post, constant_sizes pre -> constant_sizes post ->
  made_of c pre (passing e o None None x) t parts g -> (forall ci fs, t = TStruct ci fs -> constant_sizes fs) -> (forall n t', t = TArray n t' -> 0 < n) ->
  size_bits (with_field c pre (passing e o None None x) t post) = size_bits (with_parts c pre parts post g).
Proof. exact nest_size. Qed.
Print Assumptions C73_size.
Example C73_size_case :
  let a := hands None None nothing in
  size_bits (with_field cplain pre1 a (TStruct cplain (field (bits 4 plain) u8 (field (padded 4 0 plain) u16 FNil))) pre1) = Some 40 /\
  size_bits (with_parts cplain pre1 (struct_parts cplain pre1 a cplain (field (bits 4 plain) u8 (field (padded 4 0 plain) u16 FNil))) pre1 VRec) = Some 40 /\
  size_bits (with_field cplain pre1 a (TArray 3 u16) pre1) = Some 64.
Proof. repeat split. Qed.
(** With [bits] on a tuple the parts are larger: [bits] is the size of the whole for
    [DekuSize] and the size of each component for reading and writing. *)
Theorem C73_size_refuted : exists pre a t1 t2 post, only_passes a /\
  size_bits (with_field cplain pre a (TPair t1 t2) post) = Some 12 /\ size_bits (with_parts cplain pre (pair_parts pre a t1 t2) post as_pair) = Some 24 /\
  from_bytes no_customs 50 (with_field cplain pre a (TPair t1 t2) post) [x12; x34; x56] 0 = Ok (([], 0), VRec [VPair (VNum 0x123) (VNum 0x456)]).
Proof. exists FNil, (hands (Some Big) (Some 12) nothing), u16, u16, FNil. split; [repeat eexists|]. repeat split; vm_compute; reflexivity. Qed.
Print Assumptions C73_size_refuted.

(** ** Updates *)

(** [update] stops at the nested struct, so there the two differ. *)
Definition counted : fattrs :=
  mkF None None None None (fun _ _ _ => []) None None None None None None (fun _ _ _ => VUnit) None None None [] None None false None
    (Some (fun _ => Ok (VNum 7))).
Theorem C73_update_refuted : exists fs l vs, no_temps fs /\
  let a := hands None None nothing in
  update (with_field cplain FNil a (TStruct cplain fs) FNil) (VRec [VRec l]) = Ok (VRec [VRec l]) /\
  update (with_parts cplain FNil (struct_parts cplain FNil a cplain fs) FNil VRec) (VRec l) = Ok (VRec vs) /\ l <> vs.
Proof. exists (field counted u8 FNil), [VNum 1], [VNum 7]. split; [repeat constructor|]. repeat split. discriminate. Qed.
Print Assumptions C73_update_refuted.

(** ** A struct with one field *)

(** It is that field: nothing is read or written besides it, and what the struct hands
    to the field is what the type of the field gets. *)
Theorem C73_newtype_reading : forall cu fuel c a t, c_magic c = [] -> c_seek c = None -> only_passes a ->
  forall lim args r, read_ty cu fuel (newtype c a t) lim args r =
    let (x, r') := read_ty cu fuel t None (field_args c a (ctx_args c args) [] 0) r in (res_map x wrap, r').
Proof. exact newtype_reads. Qed.
Print Assumptions C73_newtype_reading.
Theorem C73_newtype_writing : forall cu c a t, c_magic c = [] -> c_seek c = None -> only_passes a ->
  forall args v w, write_ty cu (newtype c a t) args (wrap v) w = write_ty cu t (field_args c a (ctx_args c args) [] 0) v w.
Proof. exact newtype_writes. Qed.
Print Assumptions C73_newtype_writing.
Example C73_newtype_case :
  let a := hands (Some Big) None (fun ctx _ => [nth 0 ctx VUnit]) in
  field_args cplain a (ctx_args cplain [VBits 12]) [] 0 = [VEnd Big; VBits 12] /\
  try_from no_customs 50 (newtype cplain (hands (Some Big) None nothing) (newtype cplain (hands (Some Little) None nothing) u16)) [x12; x34] = Ok (wrap (wrap (VNum 0x3412))).
Proof. repeat split. Qed.
