(** The examples of the documentation (src/attributes.rs, src/lib.rs) and of examples/,
    as declarations, evaluated in the model: tests of the model, not proofs.  Each example
    cites the one it repeats.  Where the model takes a Coq function for the text of an
    attribute, the function is a translation of the text; strings are the lists of their
    bytes. *)
From Verif Require Import Base Stream Reader Writer Prims Containers Derive DeriveSpec Decl.

(** ** Notation for declarations *)

Definition none : fdecl := mkFd None None None None None None None None false None None None None None None None None None None false None None None None None false None None None None.
Definition endian_ (x : endian_lit) (d : fdecl) : fdecl :=
  mkFd (Some x) (d_order d) (d_bits d) (d_bytes d) (d_count d) (d_bits_read d) (d_bytes_read d) (d_until d) (d_read_all d) (d_map d) (d_ctx d) (d_update d) (d_reader d) (d_writer d) (d_skip d) (d_pad_bits_before d) (d_pad_bytes_before d) (d_pad_bits_after d) (d_pad_bytes_after d) (d_temp d) (d_temp_value d) (d_default d) (d_cond d) (d_assert d) (d_assert_eq d) (d_seek_rewind d) (d_seek_current d) (d_seek_end d) (d_seek_start d) (d_magic d).
Definition bit_order_ (x : order_lit) (d : fdecl) : fdecl :=
  mkFd (d_endian d) (Some x) (d_bits d) (d_bytes d) (d_count d) (d_bits_read d) (d_bytes_read d) (d_until d) (d_read_all d) (d_map d) (d_ctx d) (d_update d) (d_reader d) (d_writer d) (d_skip d) (d_pad_bits_before d) (d_pad_bytes_before d) (d_pad_bits_after d) (d_pad_bytes_after d) (d_temp d) (d_temp_value d) (d_default d) (d_cond d) (d_assert d) (d_assert_eq d) (d_seek_rewind d) (d_seek_current d) (d_seek_end d) (d_seek_start d) (d_magic d).
Definition bits_ (x : nat) (d : fdecl) : fdecl :=
  mkFd (d_endian d) (d_order d) (Some (fun _ _ => x)) (d_bytes d) (d_count d) (d_bits_read d) (d_bytes_read d) (d_until d) (d_read_all d) (d_map d) (d_ctx d) (d_update d) (d_reader d) (d_writer d) (d_skip d) (d_pad_bits_before d) (d_pad_bytes_before d) (d_pad_bits_after d) (d_pad_bytes_after d) (d_temp d) (d_temp_value d) (d_default d) (d_cond d) (d_assert d) (d_assert_eq d) (d_seek_rewind d) (d_seek_current d) (d_seek_end d) (d_seek_start d) (d_magic d).
Definition bits_by (x : list value -> nat) (d : fdecl) : fdecl :=
  mkFd (d_endian d) (d_order d) (Some (fun _ fs => x fs)) (d_bytes d) (d_count d) (d_bits_read d) (d_bytes_read d) (d_until d) (d_read_all d) (d_map d) (d_ctx d) (d_update d) (d_reader d) (d_writer d) (d_skip d) (d_pad_bits_before d) (d_pad_bytes_before d) (d_pad_bits_after d) (d_pad_bytes_after d) (d_temp d) (d_temp_value d) (d_default d) (d_cond d) (d_assert d) (d_assert_eq d) (d_seek_rewind d) (d_seek_current d) (d_seek_end d) (d_seek_start d) (d_magic d).
Definition bytes_ (x : nat) (d : fdecl) : fdecl :=
  mkFd (d_endian d) (d_order d) (d_bits d) (Some (fun _ _ => x)) (d_count d) (d_bits_read d) (d_bytes_read d) (d_until d) (d_read_all d) (d_map d) (d_ctx d) (d_update d) (d_reader d) (d_writer d) (d_skip d) (d_pad_bits_before d) (d_pad_bytes_before d) (d_pad_bits_after d) (d_pad_bytes_after d) (d_temp d) (d_temp_value d) (d_default d) (d_cond d) (d_assert d) (d_assert_eq d) (d_seek_rewind d) (d_seek_current d) (d_seek_end d) (d_seek_start d) (d_magic d).
Definition bytes_by (x : list value -> nat) (d : fdecl) : fdecl :=
  mkFd (d_endian d) (d_order d) (d_bits d) (Some (fun _ fs => x fs)) (d_count d) (d_bits_read d) (d_bytes_read d) (d_until d) (d_read_all d) (d_map d) (d_ctx d) (d_update d) (d_reader d) (d_writer d) (d_skip d) (d_pad_bits_before d) (d_pad_bytes_before d) (d_pad_bits_after d) (d_pad_bytes_after d) (d_temp d) (d_temp_value d) (d_default d) (d_cond d) (d_assert d) (d_assert_eq d) (d_seek_rewind d) (d_seek_current d) (d_seek_end d) (d_seek_start d) (d_magic d).
Definition count_ (x : list value -> N) (d : fdecl) : fdecl :=
  mkFd (d_endian d) (d_order d) (d_bits d) (d_bytes d) (Some (fun _ fs _ => Z.of_N (x fs))) (d_bits_read d) (d_bytes_read d) (d_until d) (d_read_all d) (d_map d) (d_ctx d) (d_update d) (d_reader d) (d_writer d) (d_skip d) (d_pad_bits_before d) (d_pad_bytes_before d) (d_pad_bits_after d) (d_pad_bytes_after d) (d_temp d) (d_temp_value d) (d_default d) (d_cond d) (d_assert d) (d_assert_eq d) (d_seek_rewind d) (d_seek_current d) (d_seek_end d) (d_seek_start d) (d_magic d).
Definition count_ctx (x : expr Z) (d : fdecl) : fdecl :=
  mkFd (d_endian d) (d_order d) (d_bits d) (d_bytes d) (Some x) (d_bits_read d) (d_bytes_read d) (d_until d) (d_read_all d) (d_map d) (d_ctx d) (d_update d) (d_reader d) (d_writer d) (d_skip d) (d_pad_bits_before d) (d_pad_bytes_before d) (d_pad_bits_after d) (d_pad_bytes_after d) (d_temp d) (d_temp_value d) (d_default d) (d_cond d) (d_assert d) (d_assert_eq d) (d_seek_rewind d) (d_seek_current d) (d_seek_end d) (d_seek_start d) (d_magic d).
Definition bytes_read_ (x : list value -> N) (d : fdecl) : fdecl :=
  mkFd (d_endian d) (d_order d) (d_bits d) (d_bytes d) (d_count d) (d_bits_read d) (Some (fun _ fs _ => Z.of_N (x fs))) (d_until d) (d_read_all d) (d_map d) (d_ctx d) (d_update d) (d_reader d) (d_writer d) (d_skip d) (d_pad_bits_before d) (d_pad_bytes_before d) (d_pad_bits_after d) (d_pad_bytes_after d) (d_temp d) (d_temp_value d) (d_default d) (d_cond d) (d_assert d) (d_assert_eq d) (d_seek_rewind d) (d_seek_current d) (d_seek_end d) (d_seek_start d) (d_magic d).
Definition until_ (x : value -> bool) (d : fdecl) : fdecl :=
  mkFd (d_endian d) (d_order d) (d_bits d) (d_bytes d) (d_count d) (d_bits_read d) (d_bytes_read d) (Some (fun _ _ _ l => x (last l VUnit))) (d_read_all d) (d_map d) (d_ctx d) (d_update d) (d_reader d) (d_writer d) (d_skip d) (d_pad_bits_before d) (d_pad_bytes_before d) (d_pad_bits_after d) (d_pad_bytes_after d) (d_temp d) (d_temp_value d) (d_default d) (d_cond d) (d_assert d) (d_assert_eq d) (d_seek_rewind d) (d_seek_current d) (d_seek_end d) (d_seek_start d) (d_magic d).
Definition read_all_ (d : fdecl) : fdecl :=
  mkFd (d_endian d) (d_order d) (d_bits d) (d_bytes d) (d_count d) (d_bits_read d) (d_bytes_read d) (d_until d) (true) (d_map d) (d_ctx d) (d_update d) (d_reader d) (d_writer d) (d_skip d) (d_pad_bits_before d) (d_pad_bytes_before d) (d_pad_bits_after d) (d_pad_bytes_after d) (d_temp d) (d_temp_value d) (d_default d) (d_cond d) (d_assert d) (d_assert_eq d) (d_seek_rewind d) (d_seek_current d) (d_seek_end d) (d_seek_start d) (d_magic d).
Definition map_ (x : list value -> value -> res value) (d : fdecl) : fdecl :=
  mkFd (d_endian d) (d_order d) (d_bits d) (d_bytes d) (d_count d) (d_bits_read d) (d_bytes_read d) (d_until d) (d_read_all d) (Some (fun ctx _ _ => x ctx)) (d_ctx d) (d_update d) (d_reader d) (d_writer d) (d_skip d) (d_pad_bits_before d) (d_pad_bytes_before d) (d_pad_bits_after d) (d_pad_bytes_after d) (d_temp d) (d_temp_value d) (d_default d) (d_cond d) (d_assert d) (d_assert_eq d) (d_seek_rewind d) (d_seek_current d) (d_seek_end d) (d_seek_start d) (d_magic d).
Definition ctx_ (x : list value -> list value) (d : fdecl) : fdecl :=
  mkFd (d_endian d) (d_order d) (d_bits d) (d_bytes d) (d_count d) (d_bits_read d) (d_bytes_read d) (d_until d) (d_read_all d) (d_map d) (Some (fun _ fs _ => x fs)) (d_update d) (d_reader d) (d_writer d) (d_skip d) (d_pad_bits_before d) (d_pad_bytes_before d) (d_pad_bits_after d) (d_pad_bytes_after d) (d_temp d) (d_temp_value d) (d_default d) (d_cond d) (d_assert d) (d_assert_eq d) (d_seek_rewind d) (d_seek_current d) (d_seek_end d) (d_seek_start d) (d_magic d).
Definition update_ (x : list value -> res value) (d : fdecl) : fdecl :=
  mkFd (d_endian d) (d_order d) (d_bits d) (d_bytes d) (d_count d) (d_bits_read d) (d_bytes_read d) (d_until d) (d_read_all d) (d_map d) (d_ctx d) (Some x) (d_reader d) (d_writer d) (d_skip d) (d_pad_bits_before d) (d_pad_bytes_before d) (d_pad_bits_after d) (d_pad_bytes_after d) (d_temp d) (d_temp_value d) (d_default d) (d_cond d) (d_assert d) (d_assert_eq d) (d_seek_rewind d) (d_seek_current d) (d_seek_end d) (d_seek_start d) (d_magic d).
Definition reader_ (x : RM value) (d : fdecl) : fdecl :=
  mkFd (d_endian d) (d_order d) (d_bits d) (d_bytes d) (d_count d) (d_bits_read d) (d_bytes_read d) (d_until d) (d_read_all d) (d_map d) (d_ctx d) (d_update d) (Some (fun _ _ _ => x)) (d_writer d) (d_skip d) (d_pad_bits_before d) (d_pad_bytes_before d) (d_pad_bits_after d) (d_pad_bytes_after d) (d_temp d) (d_temp_value d) (d_default d) (d_cond d) (d_assert d) (d_assert_eq d) (d_seek_rewind d) (d_seek_current d) (d_seek_end d) (d_seek_start d) (d_magic d).
Definition writer_ (x : value -> WM unit) (d : fdecl) : fdecl :=
  mkFd (d_endian d) (d_order d) (d_bits d) (d_bytes d) (d_count d) (d_bits_read d) (d_bytes_read d) (d_until d) (d_read_all d) (d_map d) (d_ctx d) (d_update d) (d_reader d) (Some (fun stored _ _ _ _ => x (nth 0 stored VUnit))) (d_skip d) (d_pad_bits_before d) (d_pad_bytes_before d) (d_pad_bits_after d) (d_pad_bytes_after d) (d_temp d) (d_temp_value d) (d_default d) (d_cond d) (d_assert d) (d_assert_eq d) (d_seek_rewind d) (d_seek_current d) (d_seek_end d) (d_seek_start d) (d_magic d).
Definition skip_ (x : skipmode) (d : fdecl) : fdecl :=
  mkFd (d_endian d) (d_order d) (d_bits d) (d_bytes d) (d_count d) (d_bits_read d) (d_bytes_read d) (d_until d) (d_read_all d) (d_map d) (d_ctx d) (d_update d) (d_reader d) (d_writer d) (Some x) (d_pad_bits_before d) (d_pad_bytes_before d) (d_pad_bits_after d) (d_pad_bytes_after d) (d_temp d) (d_temp_value d) (d_default d) (d_cond d) (d_assert d) (d_assert_eq d) (d_seek_rewind d) (d_seek_current d) (d_seek_end d) (d_seek_start d) (d_magic d).
Definition pad_bits_before_ (x : Z) (d : fdecl) : fdecl :=
  mkFd (d_endian d) (d_order d) (d_bits d) (d_bytes d) (d_count d) (d_bits_read d) (d_bytes_read d) (d_until d) (d_read_all d) (d_map d) (d_ctx d) (d_update d) (d_reader d) (d_writer d) (d_skip d) (Some (fun _ _ => x)) (d_pad_bytes_before d) (d_pad_bits_after d) (d_pad_bytes_after d) (d_temp d) (d_temp_value d) (d_default d) (d_cond d) (d_assert d) (d_assert_eq d) (d_seek_rewind d) (d_seek_current d) (d_seek_end d) (d_seek_start d) (d_magic d).
Definition pad_bytes_before_ (x : Z) (d : fdecl) : fdecl :=
  mkFd (d_endian d) (d_order d) (d_bits d) (d_bytes d) (d_count d) (d_bits_read d) (d_bytes_read d) (d_until d) (d_read_all d) (d_map d) (d_ctx d) (d_update d) (d_reader d) (d_writer d) (d_skip d) (d_pad_bits_before d) (Some (fun _ _ => x)) (d_pad_bits_after d) (d_pad_bytes_after d) (d_temp d) (d_temp_value d) (d_default d) (d_cond d) (d_assert d) (d_assert_eq d) (d_seek_rewind d) (d_seek_current d) (d_seek_end d) (d_seek_start d) (d_magic d).
Definition pad_bits_after_ (x : Z) (d : fdecl) : fdecl :=
  mkFd (d_endian d) (d_order d) (d_bits d) (d_bytes d) (d_count d) (d_bits_read d) (d_bytes_read d) (d_until d) (d_read_all d) (d_map d) (d_ctx d) (d_update d) (d_reader d) (d_writer d) (d_skip d) (d_pad_bits_before d) (d_pad_bytes_before d) (Some (fun _ _ => x)) (d_pad_bytes_after d) (d_temp d) (d_temp_value d) (d_default d) (d_cond d) (d_assert d) (d_assert_eq d) (d_seek_rewind d) (d_seek_current d) (d_seek_end d) (d_seek_start d) (d_magic d).
Definition pad_bytes_after_ (x : Z) (d : fdecl) : fdecl :=
  mkFd (d_endian d) (d_order d) (d_bits d) (d_bytes d) (d_count d) (d_bits_read d) (d_bytes_read d) (d_until d) (d_read_all d) (d_map d) (d_ctx d) (d_update d) (d_reader d) (d_writer d) (d_skip d) (d_pad_bits_before d) (d_pad_bytes_before d) (d_pad_bits_after d) (Some (fun _ _ => x)) (d_temp d) (d_temp_value d) (d_default d) (d_cond d) (d_assert d) (d_assert_eq d) (d_seek_rewind d) (d_seek_current d) (d_seek_end d) (d_seek_start d) (d_magic d).
Definition temp_ (d : fdecl) : fdecl :=
  mkFd (d_endian d) (d_order d) (d_bits d) (d_bytes d) (d_count d) (d_bits_read d) (d_bytes_read d) (d_until d) (d_read_all d) (d_map d) (d_ctx d) (d_update d) (d_reader d) (d_writer d) (d_skip d) (d_pad_bits_before d) (d_pad_bytes_before d) (d_pad_bits_after d) (d_pad_bytes_after d) (true) (d_temp_value d) (d_default d) (d_cond d) (d_assert d) (d_assert_eq d) (d_seek_rewind d) (d_seek_current d) (d_seek_end d) (d_seek_start d) (d_magic d).
Definition temp_value_ (x : list value -> value) (d : fdecl) : fdecl :=
  mkFd (d_endian d) (d_order d) (d_bits d) (d_bytes d) (d_count d) (d_bits_read d) (d_bytes_read d) (d_until d) (d_read_all d) (d_map d) (d_ctx d) (d_update d) (d_reader d) (d_writer d) (d_skip d) (d_pad_bits_before d) (d_pad_bytes_before d) (d_pad_bits_after d) (d_pad_bytes_after d) (d_temp d) (Some (fun stored _ _ => x stored)) (d_default d) (d_cond d) (d_assert d) (d_assert_eq d) (d_seek_rewind d) (d_seek_current d) (d_seek_end d) (d_seek_start d) (d_magic d).
Definition default_ (x : list value -> value) (d : fdecl) : fdecl :=
  mkFd (d_endian d) (d_order d) (d_bits d) (d_bytes d) (d_count d) (d_bits_read d) (d_bytes_read d) (d_until d) (d_read_all d) (d_map d) (d_ctx d) (d_update d) (d_reader d) (d_writer d) (d_skip d) (d_pad_bits_before d) (d_pad_bytes_before d) (d_pad_bits_after d) (d_pad_bytes_after d) (d_temp d) (d_temp_value d) (Some (fun _ fs _ => x fs)) (d_cond d) (d_assert d) (d_assert_eq d) (d_seek_rewind d) (d_seek_current d) (d_seek_end d) (d_seek_start d) (d_magic d).
Definition cond_ (x : list value -> bool) (d : fdecl) : fdecl :=
  mkFd (d_endian d) (d_order d) (d_bits d) (d_bytes d) (d_count d) (d_bits_read d) (d_bytes_read d) (d_until d) (d_read_all d) (d_map d) (d_ctx d) (d_update d) (d_reader d) (d_writer d) (d_skip d) (d_pad_bits_before d) (d_pad_bytes_before d) (d_pad_bits_after d) (d_pad_bytes_after d) (d_temp d) (d_temp_value d) (d_default d) (Some (fun _ fs _ => x fs)) (d_assert d) (d_assert_eq d) (d_seek_rewind d) (d_seek_current d) (d_seek_end d) (d_seek_start d) (d_magic d).
Definition assert_ (x : list value -> bool) (d : fdecl) : fdecl :=
  mkFd (d_endian d) (d_order d) (d_bits d) (d_bytes d) (d_count d) (d_bits_read d) (d_bytes_read d) (d_until d) (d_read_all d) (d_map d) (d_ctx d) (d_update d) (d_reader d) (d_writer d) (d_skip d) (d_pad_bits_before d) (d_pad_bytes_before d) (d_pad_bits_after d) (d_pad_bytes_after d) (d_temp d) (d_temp_value d) (d_default d) (d_cond d) (Some (fun _ fs _ => x fs)) (d_assert_eq d) (d_seek_rewind d) (d_seek_current d) (d_seek_end d) (d_seek_start d) (d_magic d).
Definition assert_eq_ (x : value) (d : fdecl) : fdecl :=
  mkFd (d_endian d) (d_order d) (d_bits d) (d_bytes d) (d_count d) (d_bits_read d) (d_bytes_read d) (d_until d) (d_read_all d) (d_map d) (d_ctx d) (d_update d) (d_reader d) (d_writer d) (d_skip d) (d_pad_bits_before d) (d_pad_bytes_before d) (d_pad_bits_after d) (d_pad_bytes_after d) (d_temp d) (d_temp_value d) (d_default d) (d_cond d) (d_assert d) (Some (fun _ _ _ => x)) (d_seek_rewind d) (d_seek_current d) (d_seek_end d) (d_seek_start d) (d_magic d).
Definition seek_rewind_ (d : fdecl) : fdecl :=
  mkFd (d_endian d) (d_order d) (d_bits d) (d_bytes d) (d_count d) (d_bits_read d) (d_bytes_read d) (d_until d) (d_read_all d) (d_map d) (d_ctx d) (d_update d) (d_reader d) (d_writer d) (d_skip d) (d_pad_bits_before d) (d_pad_bytes_before d) (d_pad_bits_after d) (d_pad_bytes_after d) (d_temp d) (d_temp_value d) (d_default d) (d_cond d) (d_assert d) (d_assert_eq d) (true) (d_seek_current d) (d_seek_end d) (d_seek_start d) (d_magic d).
Definition seek_from_current_ (x : list value -> Z) (d : fdecl) : fdecl :=
  mkFd (d_endian d) (d_order d) (d_bits d) (d_bytes d) (d_count d) (d_bits_read d) (d_bytes_read d) (d_until d) (d_read_all d) (d_map d) (d_ctx d) (d_update d) (d_reader d) (d_writer d) (d_skip d) (d_pad_bits_before d) (d_pad_bytes_before d) (d_pad_bits_after d) (d_pad_bytes_after d) (d_temp d) (d_temp_value d) (d_default d) (d_cond d) (d_assert d) (d_assert_eq d) (d_seek_rewind d) (Some (fun _ fs => x fs)) (d_seek_end d) (d_seek_start d) (d_magic d).
Definition seek_from_end_ (x : list value -> Z) (d : fdecl) : fdecl :=
  mkFd (d_endian d) (d_order d) (d_bits d) (d_bytes d) (d_count d) (d_bits_read d) (d_bytes_read d) (d_until d) (d_read_all d) (d_map d) (d_ctx d) (d_update d) (d_reader d) (d_writer d) (d_skip d) (d_pad_bits_before d) (d_pad_bytes_before d) (d_pad_bits_after d) (d_pad_bytes_after d) (d_temp d) (d_temp_value d) (d_default d) (d_cond d) (d_assert d) (d_assert_eq d) (d_seek_rewind d) (d_seek_current d) (Some (fun _ fs => x fs)) (d_seek_start d) (d_magic d).
Definition seek_from_start_ (x : list value -> Z) (d : fdecl) : fdecl :=
  mkFd (d_endian d) (d_order d) (d_bits d) (d_bytes d) (d_count d) (d_bits_read d) (d_bytes_read d) (d_until d) (d_read_all d) (d_map d) (d_ctx d) (d_update d) (d_reader d) (d_writer d) (d_skip d) (d_pad_bits_before d) (d_pad_bytes_before d) (d_pad_bits_after d) (d_pad_bytes_after d) (d_temp d) (d_temp_value d) (d_default d) (d_cond d) (d_assert d) (d_assert_eq d) (d_seek_rewind d) (d_seek_current d) (d_seek_end d) (Some (fun _ fs => x fs)) (d_magic d).
Definition magic_ (x : list byte) (d : fdecl) : fdecl :=
  mkFd (d_endian d) (d_order d) (d_bits d) (d_bytes d) (d_count d) (d_bits_read d) (d_bytes_read d) (d_until d) (d_read_all d) (d_map d) (d_ctx d) (d_update d) (d_reader d) (d_writer d) (d_skip d) (d_pad_bits_before d) (d_pad_bytes_before d) (d_pad_bits_after d) (d_pad_bytes_after d) (d_temp d) (d_temp_value d) (d_default d) (d_cond d) (d_assert d) (d_assert_eq d) (d_seek_rewind d) (d_seek_current d) (d_seek_end d) (d_seek_start d) (Some x).
Definition cnone : cdecl := mkCd None None false None None false None None None None None None None None None.
Definition c_endian_ (x : endian_lit) (c : cdecl) : cdecl :=
  mkCd (Some x) (k_order c) (k_ctx c) (k_ctx_default c) (k_magic c) (k_seek_rewind c) (k_seek_current c) (k_seek_end c) (k_seek_start c) (k_id c) (k_id_type c) (k_id_endian c) (k_bits c) (k_bytes c) (k_repr c).
Definition c_bit_order_ (x : order_lit) (c : cdecl) : cdecl :=
  mkCd (k_endian c) (Some x) (k_ctx c) (k_ctx_default c) (k_magic c) (k_seek_rewind c) (k_seek_current c) (k_seek_end c) (k_seek_start c) (k_id c) (k_id_type c) (k_id_endian c) (k_bits c) (k_bytes c) (k_repr c).
Definition c_ctx_ (c : cdecl) : cdecl :=
  mkCd (k_endian c) (k_order c) (true) (k_ctx_default c) (k_magic c) (k_seek_rewind c) (k_seek_current c) (k_seek_end c) (k_seek_start c) (k_id c) (k_id_type c) (k_id_endian c) (k_bits c) (k_bytes c) (k_repr c).
Definition c_ctx_default_ (x : list value) (c : cdecl) : cdecl :=
  mkCd (k_endian c) (k_order c) (k_ctx c) (Some x) (k_magic c) (k_seek_rewind c) (k_seek_current c) (k_seek_end c) (k_seek_start c) (k_id c) (k_id_type c) (k_id_endian c) (k_bits c) (k_bytes c) (k_repr c).
Definition c_magic_ (x : list byte) (c : cdecl) : cdecl :=
  mkCd (k_endian c) (k_order c) (k_ctx c) (k_ctx_default c) (Some x) (k_seek_rewind c) (k_seek_current c) (k_seek_end c) (k_seek_start c) (k_id c) (k_id_type c) (k_id_endian c) (k_bits c) (k_bytes c) (k_repr c).
Definition c_seek_rewind_ (c : cdecl) : cdecl :=
  mkCd (k_endian c) (k_order c) (k_ctx c) (k_ctx_default c) (k_magic c) (true) (k_seek_current c) (k_seek_end c) (k_seek_start c) (k_id c) (k_id_type c) (k_id_endian c) (k_bits c) (k_bytes c) (k_repr c).
Definition c_seek_from_current_ (x : list value -> Z) (c : cdecl) : cdecl :=
  mkCd (k_endian c) (k_order c) (k_ctx c) (k_ctx_default c) (k_magic c) (k_seek_rewind c) (Some x) (k_seek_end c) (k_seek_start c) (k_id c) (k_id_type c) (k_id_endian c) (k_bits c) (k_bytes c) (k_repr c).
Definition c_seek_from_end_ (x : list value -> Z) (c : cdecl) : cdecl :=
  mkCd (k_endian c) (k_order c) (k_ctx c) (k_ctx_default c) (k_magic c) (k_seek_rewind c) (k_seek_current c) (Some x) (k_seek_start c) (k_id c) (k_id_type c) (k_id_endian c) (k_bits c) (k_bytes c) (k_repr c).
Definition c_seek_from_start_ (x : list value -> Z) (c : cdecl) : cdecl :=
  mkCd (k_endian c) (k_order c) (k_ctx c) (k_ctx_default c) (k_magic c) (k_seek_rewind c) (k_seek_current c) (k_seek_end c) (Some x) (k_id c) (k_id_type c) (k_id_endian c) (k_bits c) (k_bytes c) (k_repr c).
Definition c_id_ (x : list value -> value) (c : cdecl) : cdecl :=
  mkCd (k_endian c) (k_order c) (k_ctx c) (k_ctx_default c) (k_magic c) (k_seek_rewind c) (k_seek_current c) (k_seek_end c) (k_seek_start c) (Some x) (k_id_type c) (k_id_endian c) (k_bits c) (k_bytes c) (k_repr c).
Definition c_id_type_ (x : ty) (c : cdecl) : cdecl :=
  mkCd (k_endian c) (k_order c) (k_ctx c) (k_ctx_default c) (k_magic c) (k_seek_rewind c) (k_seek_current c) (k_seek_end c) (k_seek_start c) (k_id c) (Some x) (k_id_endian c) (k_bits c) (k_bytes c) (k_repr c).
Definition c_id_endian_ (x : endian_lit) (c : cdecl) : cdecl :=
  mkCd (k_endian c) (k_order c) (k_ctx c) (k_ctx_default c) (k_magic c) (k_seek_rewind c) (k_seek_current c) (k_seek_end c) (k_seek_start c) (k_id c) (k_id_type c) (Some x) (k_bits c) (k_bytes c) (k_repr c).
Definition c_bits_ (x : nat) (c : cdecl) : cdecl :=
  mkCd (k_endian c) (k_order c) (k_ctx c) (k_ctx_default c) (k_magic c) (k_seek_rewind c) (k_seek_current c) (k_seek_end c) (k_seek_start c) (k_id c) (k_id_type c) (k_id_endian c) (Some (fun _ _ => x)) (k_bytes c) (k_repr c).
Definition c_bytes_ (x : nat) (c : cdecl) : cdecl :=
  mkCd (k_endian c) (k_order c) (k_ctx c) (k_ctx_default c) (k_magic c) (k_seek_rewind c) (k_seek_current c) (k_seek_end c) (k_seek_start c) (k_id c) (k_id_type c) (k_id_endian c) (k_bits c) (Some (fun _ _ => x)) (k_repr c).
Definition c_repr_ (x : prim) (c : cdecl) : cdecl :=
  mkCd (k_endian c) (k_order c) (k_ctx c) (k_ctx_default c) (k_magic c) (k_seek_rewind c) (k_seek_current c) (k_seek_end c) (k_seek_start c) (k_id c) (k_id_type c) (k_id_endian c) (k_bits c) (k_bytes c) (Some x).
Definition u8 : ty := TPrim PU8.
Definition u16 : ty := TPrim (PU 2).
Definition u32 : ty := TPrim (PU 4).
Definition u64 : ty := TPrim (PU 8).
Definition i32 : ty := TPrim (PI 4).
Definition vec (t : ty) : ty := TVec KVec 2 t.
Definition vec_u8 : ty := TVec KVec 1 u8.
(** A field with attributes and type, a field with a [map] from another type, an
    optional field. *)
Definition f (a : fdecl) (t : ty) : member := mkM a t t (VNum 0).
Definition f_from (a : fdecl) (wire t : ty) : member := mkM a t wire (VNum 0).
Definition f_opt (a : fdecl) (t : ty) : member := mkM a (TOption t) (TOption t) VNone.
Definition id (n : N) : vdecl := mkVd (Some (IdVal (VNum n))) None false VUnit None.
Definition disc (explicit : bool) (n : N) : vdecl := mkVd None None explicit (VNum n) None.
Definition id_pat (p : N -> bool) : vdecl :=
  mkVd None (Some (fun v => match v with VNum n => p n | _ => false end)) false VUnit None.
(** The types of the two derive macros. *)
Definition reads (d : decl) : ty := match derive DekuRead true d with Some t => t | None => TCustom 0 end.
Definition writes (d : decl) : ty := match derive DekuWrite true d with Some t => t | None => TCustom 0 end.
Definition num (v : value) : N := match v with VNum n => n | _ => 0%N end.
Definition fld (k : nat) (fs : list value) : N := num (nth k fs VUnit).
Definition len (v : value) : N := match v with VList l => N.of_nat (length l) | _ => 0%N end.
Definition nums (l : list N) : value := VRec (map VNum l).
Definition seq (l : list N) : value := VList (map VNum l).
(** [try_into] of a length to a u8. *)
Definition as_u8 (n : N) : res value := if (n <? 256)%N then Ok (VNum n) else Err Parse.

Definition try (d : decl) (b : list byte) : res value := try_from no_customs 2000 (reads d) b.
Definition parse (d : decl) (b : list byte) : res value := res_map (from_bytes no_customs 2000 (reads d) b 0) snd.
Definition out (d : decl) (v : value) : res (list byte) := to_bytes no_customs (writes d) v.
(** [from_reader] on a cursor, the bytes read and the rest left to the cursor. *)
Definition next (d : decl) (s : stream) : res value * stream :=
  let '(x, s') := from_reader no_customs 2000 (reads d) s 0 in (res_map x snd, s').
(** [to_writer] into a buffer, with a context. *)
Definition over (d : decl) (args : list value) (v : value) (buf : list byte) : list byte :=
  k_data (w_k (snd (write_ty no_customs (writes d) args v (writer_new (k_set vec_sink buf 0))))).
Ltac run := repeat split; vm_compute; reflexivity.

(** ** src/attributes.rs *)

(** 82-116 *)
Definition Endian1 : decl := DStruct (c_endian_ ELittle cnone) [f (endian_ EBig none) u16; f none u16].
Example doc_endian : try Endian1 [xab; xcd; xab; xcd] = Ok (nums [0xabcd; 0xcdab]%N) /\
  out Endian1 (nums [0xabcd; 0xcdab]%N) = Ok [xab; xcd; xab; xcd].
Proof. run. Qed.
(** 127-196 *)
Definition first_endian : endian_lit := EVar (fun ctx _ => match ctx with VEnd e :: _ => e | _ => Little end).
Definition Child : decl := DStruct (c_endian_ first_endian (c_ctx_ cnone)) [f none u16].
Definition NetworkBuffer : decl := DStruct (c_endian_ EBig (c_ctx_ cnone))
  [f none u8; f (update_ (fun fs => as_u8 (len (nth 2 fs VUnit))) none) u16; f (count_ (fld 1) none) vec_u8].
Definition Endian2 (of : decl -> ty) : decl := DStruct (c_endian_ ELittle cnone)
  [f (endian_ EBig none) u16; f none u16; f none (of Child); f none (of NetworkBuffer)].
Definition endian2 : list byte := [xab; xcd; xab; xcd; xef; xbe; x00; x00; x04; xde; xad; xbe; xef].
Definition endian2_value : value :=
  VRec [VNum 0xabcd; VNum 0xcdab; nums [0xbeef]%N; VRec [VNum 0; VNum 4; seq [0xde; 0xad; 0xbe; 0xef]%N]].
Example doc_endian_ctx : try (Endian2 reads) endian2 = Ok endian2_value /\ out (Endian2 writes) endian2_value = Ok endian2.
Proof. run. Qed.
(** 201-246 *)
Definition SquashfsV3 : decl := DStruct (c_bit_order_ OLsb cnone)
  [f (bits_ 4 none) u8; f (bits_ 12 none) u16; f none u8; f none u8; f none u32; f none u32].
Example doc_bit_order : try SquashfsV3 [x31; x12; x04; x05; x06; x00; x00; x00; x07; x00; x00; x00] = Ok (nums [1; 0x123; 4; 5; 6; 7]%N).
Proof. run. Qed.
(** 248-302 *)
Definition BitChild : decl := DStruct (c_endian_ EBig (c_bit_order_ OMsb (c_ctx_ cnone)))
  [f none u8; f (bits_ 1 none) TBool; f (bits_ 1 none) TBool; f (bits_ 1 none) TBool; f (bits_ 5 none) u8].
Definition BigEndian (of : decl -> ty) : decl := DStruct (c_endian_ EBig (c_bit_order_ OLsb cnone))
  [f (bits_ 13 none) u16; f (bits_ 3 none) u8; f none (of BitChild)].
Definition big_endian : value := VRec [VNum 0x1001; VNum 4; VRec [VNum 0xab; VBool true; VBool false; VBool false; VNum 22]].
Example doc_bit_order_endian : try (BigEndian reads) [x10; x81; xab; x96] = Ok big_endian /\
  out (BigEndian writes) big_endian = Ok [x10; x81; xab; x96].
Proof. run. Qed.
(** 304-327 *)
Definition LsbField : decl := DStruct cnone [f (bit_order_ OLsb (bits_ 13 none)) u16; f (bit_order_ OLsb (bits_ 3 none)) u8].
Example doc_bit_order_field : try LsbField [x40; x40] = Ok (nums [0x40; 2]%N) /\ out LsbField (nums [0x40; 2]%N) = Ok [x40; x40].
Proof. run. Qed.
(** 336-366, 369-399 *)
Definition Magic1 : decl := DStruct (c_magic_ [x64; x65; x6b; x75] cnone) [f none u8].
Definition Magic2 : decl := DStruct cnone [f (magic_ [x64; x65; x6b; x75] none) u8].
Example doc_magic : forall d, d = Magic1 \/ d = Magic2 ->
  try d [x64; x65; x6b; x75; x32] = Ok (nums [50]%N) /\ out d (nums [50]%N) = Ok [x64; x65; x6b; x75; x32].
Proof. intros d [E | E]; rewrite E; run. Qed.
(** 407-438 *)
Definition Seek1 : decl := DStruct cnone [f none u8; f (seek_from_current_ (fun fs => Z.of_N (fld 0 fs)) none) u8].
Example doc_seek_from_current : fst (next Seek1 (cursor [x01; x00; x02])) = Ok (nums [1; 2]%N) /\ out Seek1 (nums [1; 2]%N) = Ok [x01; x00; x02].
Proof. run. Qed.
(** 442-475 *)
Definition Seek2 : decl := DStruct (c_seek_from_current_ (fun ctx => Z.of_N (num (nth 0 ctx VUnit))) (c_ctx_ cnone)) [f none u8].
Example doc_seek_from_current_top :
  fst (read_ty no_customs 2000 (reads Seek2) None [VNum 1] (reader_new (cursor [x00; x02]))) = Ok (nums [2]%N) /\
  over Seek2 [VNum 1] (nums [2]%N) [] = [x00; x02].
Proof. run. Qed.
(** 483-555 *)
Definition Seek3 : decl := DStruct cnone [f (seek_from_end_ (fun _ => -2)%Z none) u8].
Definition Seek4 : decl := DStruct (c_seek_from_end_ (fun _ => -2)%Z cnone) [f none u8].
Example doc_seek_from_end : forall d, d = Seek3 \/ d = Seek4 ->
  fst (next d (cursor [x01; xff; x02])) = Ok (nums [0xff]%N) /\ over d [] (nums [0xff]%N) [x01; x00; x02] = [x01; xff; x02].
Proof. intros d [E | E]; rewrite E; run. Qed.
(** 563-635 *)
Definition Seek5 : decl := DStruct cnone [f (seek_from_start_ (fun _ => 2)%Z none) u8].
Definition Seek6 : decl := DStruct (c_seek_from_start_ (fun _ => 2)%Z cnone) [f none u8].
Example doc_seek_from_start : forall d, d = Seek5 \/ d = Seek6 ->
  fst (next d (cursor [x01; xff; x02])) = Ok (nums [2]%N) /\ over d [] (nums [2]%N) [x01; xff; x00] = [x01; xff; x02].
Proof. intros d [E | E]; rewrite E; run. Qed.
(** 643-706 *)
Definition Rewind1 : decl := DStruct cnone [f none u8; f (seek_rewind_ none) u8].
Definition Rewind2 : decl := DStruct (c_seek_rewind_ cnone) [f none u8].
Example doc_seek_rewind : fst (next Rewind1 (cursor [xff])) = Ok (nums [255; 255]%N) /\ out Rewind1 (nums [255; 255]%N) = Ok [xff] /\
  fst (next Rewind2 (cursor [xff])) = Ok (nums [255]%N) /\ out Rewind2 (nums [255]%N) = Ok [xff].
Proof. run. Qed.
(** 714-737 *)
Definition Assert1 : decl := DStruct cnone [f (assert_ (fun fs => 8 <=? fld 0 fs)%N none) u8].
Example doc_assert : try Assert1 [x00; x01; x02] = Err Assertion.
Proof. run. Qed.
(** 744-786 *)
Definition Assert2 : decl := DStruct cnone [f (assert_eq_ (VNum 1) none) u8].
Example doc_assert_eq : try Assert2 [x01] = Ok (nums [1]%N) /\ out Assert2 (nums [2]%N) = Err Assertion.
Proof. run. Qed.
(** 795-833, 838-876 *)
Definition Bits1 : decl := DStruct cnone [f (bits_ 2 none) u8; f (bits_ 6 none) u8; f none u8].
Definition Bits2 : decl := DStruct cnone [f none u8; f (bits_by (fun fs => N.to_nat (fld 0 fs)) none) u8; f (bits_ 6 none) u8].
Example doc_bits : try Bits1 [xea; xff] = Ok (nums [3; 42; 255]%N) /\ out Bits1 (nums [3; 42; 255]%N) = Ok [xea; xff] /\
  try Bits2 [x02; xea] = Ok (nums [2; 3; 42]%N) /\ out Bits2 (nums [2; 3; 42]%N) = Ok [x02; xea].
Proof. run. Qed.
(** 886-959 *)
Definition Bytes1 : decl := DStruct cnone [f (bytes_ 2 none) u32; f none u8].
Definition Bytes2 : decl := DStruct cnone [f none u8; f (bytes_by (fun fs => N.to_nat (fld 0 fs)) none) u32].
Example doc_bytes : try Bytes1 [xab; xcd; xff] = Ok (nums [0xcdab; 0xff]%N) /\ out Bytes1 (nums [0xcdab; 0xff]%N) = Ok [xab; xcd; xff] /\
  try Bytes2 [x03; x01; x02; x03] = Ok (nums [3; 0x030201]%N) /\ out Bytes2 (nums [3; 0x030201]%N) = Ok [x03; x01; x02; x03].
Proof. run. Qed.
(** 966-1002, 1162-1207 *)
Definition Counted : decl := DStruct cnone
  [f (update_ (fun fs => as_u8 (len (nth 1 fs VUnit))) none) u8; f (count_ (fld 0) none) vec_u8].
Definition counted (n : N) (l : list N) : value := VRec [VNum n; seq l].
Example doc_count : try Counted [x02; xab; xcd] = Ok (counted 2 [0xab; 0xcd]%N) /\ out Counted (counted 2 [0xab; 0xcd]%N) = Ok [x02; xab; xcd].
Proof. run. Qed.
Example doc_update : update (writes Counted) (counted 2 [0xab; 0xcd; 0xff]%N) = Ok (counted 3 [0xab; 0xcd; 0xff]%N) /\
  out Counted (counted 3 [0xab; 0xcd; 0xff]%N) = Ok [x03; xab; xcd; xff].
Proof. run. Qed.
(** 1015-1060.  The [update] of the example, [(self.items.len() / 2)], gives half of the
    number of the items, not the number of their bytes: after it the value no longer
    reads back. *)
Definition Inner : decl := DStruct cnone [f none u8; f none u8].
Definition BytesRead (of : decl -> ty) : decl := DStruct cnone
  [f (update_ (fun fs => as_u8 (len (nth 1 fs VUnit) / 2)) none) u8; f (bytes_read_ (fld 0) none) (vec (of Inner))].
Definition items : value := VList [nums [0xab; 0xbc]%N; nums [0xde; 0xef]%N].
Example doc_bytes_read : try (BytesRead reads) [x04; xab; xbc; xde; xef] = Ok (VRec [VNum 4; items]) /\
  out (BytesRead writes) (VRec [VNum 4; items]) = Ok [x04; xab; xbc; xde; xef].
Proof. run. Qed.
Example doc_bytes_read_update : update (writes (BytesRead writes)) (VRec [VNum 4; items]) = Ok (VRec [VNum 1; items]) /\
  out (BytesRead writes) (VRec [VNum 1; items]) = Ok [x01; xab; xbc; xde; xef] /\
  parse (BytesRead reads) [x01; xab; xbc; xde; xef] = Err (Incomplete 8).
Proof. run. Qed.
(** 1081-1108 *)
Definition Until : decl := DStruct cnone [f (until_ (fun v => num v =? 0)%N none) vec_u8].
Example doc_until : try Until [x48; x65; x6c; x6c; x6f; x00] = Ok (VRec [seq [72; 101; 108; 108; 111; 0]%N]).
Proof. run. Qed.
(** 1114-1155 *)
Definition ReadAll (of : decl -> ty) : decl := DStruct cnone [f (read_all_ none) (vec (of Inner))].
Example doc_read_all : try (ReadAll reads) [xab; xbc; xde; xef] = Ok (VRec [items]) /\ out (ReadAll writes) (VRec [items]) = Ok [xab; xbc; xde; xef].
Proof. run. Qed.
(** 1220-1257 *)
Definition Temp : decl := DStruct cnone [f (temp_ none) u8; f (count_ (fld 0) (endian_ EBig none)) (vec u16)].
Example doc_temp : try Temp [x01; xbe; xef] = Ok (VRec [seq [0xbeef]%N]) /\ out Temp (VRec [seq [0xbeef]%N]) = Ok [xbe; xef].
Proof. run. Qed.
(** 1271-1300 *)
Definition TempValue : decl := DStruct cnone
  [f (temp_ (temp_value_ (fun fs => VNum (len (nth 0 fs VUnit) mod 256)) none)) u8; f (count_ (fld 0) (endian_ EBig none)) (vec u16)].
Example doc_temp_value : out TempValue (VRec [seq [0xdead; 0xbeef]%N]) = Ok [x02; xde; xad; xbe; xef].
Proof. run. Qed.
(** 1317-1352 *)
Definition Skips : decl := DStruct cnone
  [f none u8; f_opt (skip_ SkipAll none) u8; f (skip_ SkipRead none) u8; f (skip_ SkipWrite none) u8; f none u8].
Example doc_skip : try Skips [x01; x02; x03] = Ok (VRec [VNum 1; VNone; VNum 0; VNum 2; VNum 3]) /\
  out Skips (VRec [VNum 1; VNone; VNum 0; VNum 2; VNum 3]) = Ok [x01; x00; x03].
Proof. run. Qed.
(** 1360-1395, 1511-1546 *)
Definition Pad1 : decl := DStruct cnone [f none u8; f (pad_bytes_before_ 2 none) u8].
Definition Pad2 : decl := DStruct cnone [f (pad_bytes_after_ 2 none) u8; f none u8].
Example doc_pad_bytes : forall d, d = Pad1 \/ d = Pad2 ->
  try d [xaa; xbb; xcc; xdd] = Ok (nums [0xaa; 0xdd]%N) /\ out d (nums [0xaa; 0xdd]%N) = Ok [xaa; x00; x00; xdd].
Proof. intros d [E | E]; rewrite E; run. Qed.
(** 1403-1439, 1554-1590 *)
Definition Pad3 : decl := DStruct cnone [f (bits_ 2 none) u8; f (pad_bits_before_ 2 (bits_ 4 none)) u8].
Definition Pad4 : decl := DStruct cnone [f (pad_bits_after_ 2 (bits_ 2 none)) u8; f (bits_ 4 none) u8].
Example doc_pad_bits : forall d, d = Pad3 \/ d = Pad4 ->
  try d [x99] = Ok (nums [2; 9]%N) /\ out d (nums [2; 9]%N) = Ok [x89].
Proof. intros d [E | E]; rewrite E; run. Qed.
(** 1446-1502 *)
Definition PadSkip : decl := DStruct cnone
  [f (bits_ 8 none) u8;
   f (skip_ SkipAll (cond_ (fun fs => fld 0 fs =? 2)%N (pad_bits_before_ 8 (bits_ 8 (default_ (fun _ => VNum 0xab) none))))) u8;
   f (bits_ 8 none) u8].
Example doc_pad_skip : try PadSkip [x01; x00; x03; x04] = Ok (nums [1; 3; 4]%N) /\ out PadSkip (nums [1; 3; 4]%N) = Ok [x01; x00; x03; x04] /\
  try PadSkip [x02; x00; x04] = Ok (nums [2; 0xab; 4]%N) /\ out PadSkip (nums [2; 0xab; 4]%N) = Ok [x02; x00; x04].
Proof. run. Qed.
(** 1600-1637 *)
Definition Cond : decl := DStruct cnone
  [f none u8;
   f_opt (cond_ (fun fs => fld 0 fs =? 1)%N none) u8;
   f_opt (cond_ (fun fs => value_eqb (nth 1 fs VUnit) (VSome (VNum 255))) (default_ (fun _ => VSome (VNum 5)) none)) u8;
   f_opt (skip_ SkipAll (cond_ (fun fs => fld 0 fs =? 1)%N (default_ (fun _ => VSome (VNum 6)) none))) u8].
Definition cond_value : value := VRec [VNum 1; VSome (VNum 2); VSome (VNum 5); VSome (VNum 6)].
Example doc_cond : try Cond [x01; x02] = Ok cond_value /\ out Cond cond_value = Ok [x01; x02; x05].
Proof. run. Qed.
(** 1647-1666 *)
Definition Default : decl := DStruct cnone
  [f none u8; f_opt (skip_ SkipAll (default_ (fun fs => VSome (nth 0 fs VUnit)) none)) u8; f none u8].
Example doc_default : try Default [x01; x02] = Ok (VRec [VNum 1; VSome (VNum 1); VNum 2]).
Proof. run. Qed.
(** 1676-1701; [to_string] of a number of one digit *)
Definition to_string (v : value) : value := seq [48 + num v]%N.
Definition Map : decl := DStruct cnone
  [f_from (map_ (fun _ v => Ok (to_string v)) none) u8 vec_u8; f_from (map_ (fun _ v => Ok (to_string v)) none) u8 vec_u8].
Example doc_map : try Map [x01; x02] = Ok (VRec [seq [49]%N; seq [50]%N]).
Proof. run. Qed.
(** 1708-1758 *)
Definition read_digit : RM value := let* n := prim_read PU8 C0 in ret (to_string (VNum n)).
Definition write_digit (v : value) : WM unit := match v with VList [VNum n] => prim_write PU8 C0 (n - 48) | _ => panic end.
Definition ReaderWriter : decl := DStruct cnone [f (reader_ read_digit (writer_ write_digit none)) vec_u8].
Example doc_reader_writer : try ReaderWriter [x01] = Ok (VRec [seq [49]%N]) /\ out ReaderWriter (VRec [seq [49]%N]) = Ok [x01].
Proof. run. Qed.
(** 1782-1812, 1856-1895.  [b + a] is the addition of u8, which panics on overflow. *)
Definition add_ctx (ctx : list value) (v : value) : res value :=
  let n := (num v + num (nth 0 ctx VUnit))%N in if (n <? 256)%N then Ok (VNum n) else Panic.
Definition Subtype (c : cdecl) : decl := DStruct c [f (map_ add_ctx none) u8].
Definition CtxTest (sub : ty) : decl := DStruct cnone [f none u8; f (ctx_ (fun fs => [nth 0 fs VUnit]) none) sub].
Example doc_ctx : fst (next (CtxTest (reads (Subtype (c_ctx_ cnone)))) (cursor [x01; x02])) = Ok (VRec [VNum 1; nums [3]%N]).
Proof. run. Qed.
Example doc_ctx_default : let sub := Subtype (c_ctx_ (c_ctx_default_ [VNum 1] cnone)) in
  fst (next (CtxTest (reads sub)) (cursor [x01; x02])) = Ok (VRec [VNum 1; nums [3]%N]) /\ fst (next sub (cursor [x02])) = Ok (nums [3]%N).
Proof. run. Qed.
(** 1816-1828, the "equivalent" declarations. *)
Example doc_ctx_equivalent :
  (forall b, In b (map (fun n => match Byte.of_N n with Some x => x | None => x00 end) [0; 127; 128; 255]%N) ->
   parse (DStruct cnone [f (endian_ EBig (bits_ 1 none)) u8]) [b] =
   parse (DStruct cnone [f (ctx_ (fun _ => [VEnd Big; VBits 1]) none) u8]) [b]) /\
  parse (DStruct cnone [f (endian_ EBig (bits_ 1 none)) u8]) [x80] = Ok (nums [1]%N).
Proof.
  split; [|run]. intros b Hb. cbn in Hb. destruct Hb as [E | [E | [E | [E | []]]]]; rewrite <- E; run.
Qed.
(** 1907-1951 *)
Definition MyEnum : decl := DEnum (c_id_ (fun ctx => nth 0 ctx VUnit) (c_ctx_ cnone)) [(id 1, [f none u8]); (id 2, [])].
Definition IdTop (of : decl -> ty) : decl := DStruct cnone [f none u8; f none u8; f (ctx_ (fun fs => [nth 0 fs VUnit]) none) (of MyEnum)].
Example doc_id_top : try (IdTop reads) [x01; xff; xab] = Ok (VRec [VNum 1; VNum 255; VVar 0 [VNum 0xab]]) /\
  out (IdTop writes) (VRec [VNum 1; VNum 255; VVar 0 [VNum 0xab]]) = Ok [x01; xff; xab].
Proof. run. Qed.
(** 1963-2005 *)
Definition IdVariant : decl := DEnum (c_id_type_ u8 cnone) [(id 1, [f none u8]); (id 2, [f none u8; f none u16])].
Definition twice (d : decl) (b : list byte) : list (res value) :=
  let '(x, s) := next d (cursor b) in [x; fst (next d s)].
Example doc_id_variant : twice IdVariant [x01; xff; x02; xab; xef; xbe] = [Ok (VVar 0 [VNum 255]); Ok (VVar 1 [VNum 0xab; VNum 0xbeef])] /\
  out IdVariant (VVar 0 [VNum 255]) = Ok [x01; xff] /\ out IdVariant (VVar 1 [VNum 0xab; VNum 0xbeef]) = Ok [x02; xab; xef; xbe].
Proof. run. Qed.
(** 2008-2049 *)
Definition Discriminant : decl := DEnum (c_id_type_ u8 (c_repr_ PU8 cnone)) [(disc true 1, []); (disc false 2, [])].
Example doc_discriminant : twice Discriminant [x01; x02] = [Ok (VVar 0 []); Ok (VVar 1 [])] /\
  out Discriminant (VVar 0 []) = Ok [x01] /\ out Discriminant (VVar 1 []) = Ok [x02].
Proof. run. Qed.
(** 2056-2091 *)
Definition IdEndian : decl := DEnum (c_id_type_ u16 (c_id_endian_ EBig (c_endian_ ELittle cnone)))
  [(id 1, [f none u16]); (id 2, [f (endian_ EBig none) u16])].
Example doc_id_endian : parse IdEndian [x00; x01; x01; x00] = Ok (VVar 0 [VNum 1]) /\ parse IdEndian [x00; x02; x01; x00] = Ok (VVar 1 [VNum 256]).
Proof. run. Qed.
(** 2104-2150 *)
Definition IdPat : decl := DEnum (c_id_type_ u8 cnone)
  [(id 1, [f none u8]); (id_pat (fun n => (2 <=? n) && (n <=? 6))%N, [f none u8]); (id_pat (fun _ => true), [f none u8])].
Example doc_id_pat : twice IdPat [x03; xff] = [Ok (VVar 1 [VNum 3]); Ok (VVar 2 [VNum 255])] /\
  out IdPat (VVar 1 [VNum 3]) = Ok [x03] /\ out IdPat (VVar 2 [VNum 255]) = Ok [xff].
Proof. run. Qed.
(** 2163-2194, 2222-2249 *)
Definition EnumBits : decl := DEnum (c_id_type_ u8 (c_bits_ 4 cnone)) [(id 9, [f (bits_ 4 none) u8; f none u8])].
Definition EnumBytes : decl := DEnum (c_id_type_ u32 (c_bytes_ 2 cnone)) [(id 0xbeef, [f none u8])].
Example doc_enum_bits_bytes : fst (next EnumBits (cursor [x96; xff])) = Ok (VVar 0 [VNum 6; VNum 255]) /\
  out EnumBits (VVar 0 [VNum 6; VNum 255]) = Ok [x96; xff] /\
  try EnumBytes [xef; xbe; xff] = Ok (VVar 0 [VNum 255]) /\ out EnumBytes (VVar 0 [VNum 255]) = Ok [xef; xbe; xff].
Proof. run. Qed.
(** 2199-2211 *)
Definition OpKind : decl := DEnum (c_endian_ first_endian (c_ctx_ (c_id_type_ u8 (c_repr_ PU8 cnone)))) [(disc true 0, []); (disc true 255, [])].
Example doc_op_kind : fst (read_ty no_customs 2000 (reads OpKind) None [VEnd Big] (reader_new (cursor [xff]))) = Ok (VVar 1 []).
Proof. run. Qed.

(** ** src/lib.rs *)

(** 35-67 *)
Definition Lib1 : decl := DStruct (c_endian_ EBig cnone) [f (bits_ 4 none) u8; f (bits_ 4 none) u8; f none u16].
Example lib_example : parse Lib1 [x69; xbe; xef] = Ok (nums [6; 9; 0xbeef]%N) /\ out Lib1 (nums [6; 9; 0xc0fe]%N) = Ok [x69; xc0; xfe].
Proof. run. Qed.
(** 74-109. Composing: the children receive the byte order but do not use it. *)
Definition DekuHeader : decl := DStruct (c_ctx_ cnone) [f none u8].
Definition DekuData : decl := DStruct (c_ctx_ cnone) [f none u16].
Definition Composed (of : decl -> ty) : decl := DStruct (c_endian_ EBig cnone) [f none (of DekuHeader); f none (of DekuData)].
Example lib_composing : parse (Composed reads) [xaa; xef; xbe] = Ok (VRec [nums [0xaa]%N; nums [0xbeef]%N]) /\
  out (Composed writes) (VRec [nums [0xaa]%N; nums [0xbeef]%N]) = Ok [xaa; xef; xbe].
Proof. run. Qed.
(** 125-174 *)
Example lib_vec : parse Counted [x02; xbe; xef; xff; xff] = Ok (counted 2 [0xbe; 0xef]%N) /\ out Counted (counted 2 [0xbe; 0xef]%N) = Ok [x02; xbe; xef] /\
  out Counted (counted 2 [0xbe; 0xef; 0xaa]%N) = Ok [x02; xbe; xef; xaa] /\
  update (writes Counted) (counted 2 [0xbe; 0xef; 0xaa]%N) = Ok (counted 3 [0xbe; 0xef; 0xaa]%N).
Proof. run. Qed.
(** 198-227 *)
Definition LibEnum : decl := DEnum (c_id_type_ u8 cnone) [(id 1, []); (id 2, [f none u16])].
Example lib_enums : twice LibEnum [x01; x02; xef; xbe] = [Ok (VVar 0 []); Ok (VVar 1 [VNum 0xbeef])].
Proof. run. Qed.
(** 231-266 *)
Definition CStyle : decl := DEnum (c_id_type_ u8 (c_bits_ 2 (c_bit_order_ OLsb (c_repr_ PU8 cnone))))
  [(disc true 0, []); (disc true 1, []); (disc true 2, []); (disc true 3, [])].
Example lib_c_style : let m := read_ty no_customs 2000 (reads CStyle) None [] in
  fst ((let* a := m in let* b := m in let* c := m in ret [a; b; c]) (reader_new (cursor [x0d]))) = Ok [VVar 1 []; VVar 3 []; VVar 0 []].
Proof. run. Qed.
(** 372-416 *)
Definition Message : decl := DStruct (c_endian_ EBig cnone) [f none u8; f none (TArray 16 u8); f none u16].
Definition Packet : decl := DEnum (c_id_type_ u8 cnone) [(id 1, [f none u16]); (id 2, [f none u64])].
Example lib_size : size_bytes (writes Message) = Some (Some 19) /\ size_bytes (writes Packet) = Some (Some 9) /\
  fst (to_slice no_customs (writes Message) (VRec [VNum 1; VList (repeat (VNum 255) 16); VNum 0xabcd]) (repeat x00 19)) = Ok 19.
Proof. run. Qed.
(** 453-464. [deku::byte_offset]: the bytes since the start of the reader (here one, the [encoding]). *)
Definition EncodedString : decl := DStruct (c_ctx_ cnone)
  [f none u8; f (count_ctx (fun ctx _ off => Z.of_N (num (nth 0 ctx VUnit)) - Z.of_nat (off / 8))%Z none) vec_u8].
Example lib_offset : fst (read_ty no_customs 2000 (reads EncodedString) None [VNum 4] (reader_new (cursor [x07; x61; x62; x63; x64]))) =
  Ok (VRec [VNum 7; seq [0x61; 0x62; 0x63]%N]).
Proof. run. Qed.

(** ** examples/ *)

(** custom_reader_and_writer.rs.  The [writer] gets the fields written before and the
    value itself. *)
Definition flip (a b : N) : N := if (a =? 1)%N then (255 - b)%N else b.
Definition with_flip (d : fdecl) : fdecl :=
  mkFd (d_endian d) (d_order d) (d_bits d) (d_bytes d) (d_count d) (d_bits_read d) (d_bytes_read d) (d_until d) (d_read_all d) (d_map d) (d_ctx d) (d_update d)
    (Some (fun _ fs _ => let* n := prim_read PU8 (CB 8) in ret (VNum (flip (fld 0 fs) n))))
    (Some (fun _ _ fs _ v => prim_write PU8 (CB 8) (flip (fld 0 fs) (num v))))
    (d_skip d) (d_pad_bits_before d) (d_pad_bytes_before d) (d_pad_bits_after d) (d_pad_bytes_after d) (d_temp d) (d_temp_value d) (d_default d) (d_cond d) (d_assert d) (d_assert_eq d) (d_seek_rewind d) (d_seek_current d) (d_seek_end d) (d_seek_start d) (d_magic d).
Definition Flipper : decl := DStruct cnone [f none u8; f (with_flip none) u8].
Example ex_custom : fst (next Flipper (cursor [x01; x96])) = Ok (nums [1; 105]%N) /\ out Flipper (nums [1; 105]%N) = Ok [x01; x96].
Proof. run. Qed.
(** enums.rs *)
Definition Enums : decl := DEnum (c_id_type_ u8 cnone)
  [(id 0, []); (id 1, [f (bytes_ 2 none) u32]); (id 2, [f none u8; f none u8]); (id 3, [f none u8; f (count_ (fld 0) none) vec_u8]);
   (id_pat (fun n => (4 <=? n) && (n <=? 6))%N, [f none u8]); (id_pat (fun n => 6 <? n)%N, [f none u8]); (id_pat (fun _ => true), [f none u8; f none u8])].
Definition var4 : value := VVar 3 [VNum 2; seq [1; 2]%N].
Example ex_enums : parse Enums [x03; x02; x01; x02] = Ok var4 /\ out Enums var4 = Ok [x03; x02; x01; x02] /\
  match writes Enums with TEnum _ _ vs => deku_id vs 3 = Ok (VNum 3) | _ => False end.
Proof. run. Qed.
(** enums_catch_all.rs *)
Definition CatchAll : decl := DEnum (c_id_type_ u8 (c_repr_ PU8 cnone))
  [(mkVd (Some (IdVal (VNum 1))) None true (VNum 0) None, []); (mkVd (Some (IdVal (VNum 2))) None true (VNum 1) None, []);
   (mkVd (Some (IdVal (VNum 3))) None true (VNum 2) (Some true), [])].
Example ex_catch_all : try CatchAll [x0a] = Ok (VVar 2 []) /\ out CatchAll (VVar 2 []) = Ok [x03].
Proof. run. Qed.
(** example.rs *)
Definition FieldF : decl := DStruct cnone [f (bits_ 6 (assert_eq_ (VNum 6) none)) u8].
Definition ExampleDecl (of : decl -> ty) : decl := DStruct cnone
  [f none u8; f (bits_ 7 none) u8; f (bits_ 1 none) u8; f (endian_ EBig none) u16; f (bits_ 2 none) u8; f none (of FieldF);
   f none u8; f (count_ (fld 6) (endian_ EBig none)) (vec u16)].
Definition example_bytes : list byte := [xab; xa5; xab; xcd; xc6; x02; xbe; xef; xc0; xfe].
Definition example_value : value :=
  VRec [VNum 0xab; VNum 82; VNum 1; VNum 0xabcd; VNum 3; nums [6]%N; VNum 2; seq [0xbeef; 0xc0fe]%N].
Example ex_example : try (ExampleDecl reads) example_bytes = Ok example_value /\ out (ExampleDecl writes) example_value = Ok example_bytes.
Proof. run. Qed.
(** ipv4.rs; an address is its number *)
Definition Ipv4Header : decl := DStruct (c_endian_ EBig cnone)
  [f (bits_ 4 none) u8; f (bits_ 4 none) u8; f (bits_ 6 none) u8; f (bits_ 2 none) u8; f none u16; f none u16; f (bits_ 3 none) u8; f (bits_ 13 none) u16;
   f none u8; f none u8; f none u16; f none u32; f none u32].
Definition ipv4_bytes : list byte := [x45; x00; x00; x4b; x0f; x49; x00; x00; x80; x11; x63; xa5; x91; xfe; xa0; xed; x91; xfd; x02; xcb].
Definition ipv4_value : value := nums [4; 5; 0; 0; 75; 0x0f49; 0; 0; 128; 17; 0x63a5; 0x91fea0ed; 0x91fd02cb]%N.
Example ex_ipv4 : parse Ipv4Header ipv4_bytes = Ok ipv4_value /\ out Ipv4Header ipv4_value = Ok ipv4_bytes.
Proof. run. Qed.
(** read_all.rs *)
Definition Pairs : decl := DStruct cnone [f (read_all_ none) (vec (TPair u8 u8))].
Definition pairs : value := VRec [VList [VPair (VNum 0xaa) (VNum 0xbb); VPair (VNum 0xcc) (VNum 0xdd)]].
Example ex_read_all : try Pairs [xaa; xbb; xcc; xdd] = Ok pairs /\ out Pairs pairs = Ok [xaa; xbb; xcc; xdd].
Proof. run. Qed.
(** 80211.rs *)
Definition first_order : order_lit := OVar (fun ctx _ => match ctx with VOrd o :: _ => o | _ => Msb0 end).
Definition FrameType : decl := DEnum (c_id_type_ u8 (c_bits_ 2 (c_bit_order_ first_order (c_ctx_ cnone)))) [(id 0, []); (id 1, []); (id 2, [])].
Definition Flags : decl := DStruct (c_bit_order_ first_order (c_ctx_ cnone)) (repeat (f (bits_ 1 none) u8) 8).
Definition FrameControl (of : decl -> ty) : decl := DStruct (c_bit_order_ OLsb cnone)
  [f (bits_ 4 none) u8; f (bits_ 2 none) u8; f none (of FrameType); f none (of Flags)].
Example ex_80211 : try (FrameControl reads) [x88; x41] = Ok (VRec [VNum 8; VNum 0; VVar 2 []; nums [1; 0; 0; 0; 0; 0; 1; 0]%N]) /\
  out (FrameControl writes) (VRec [VNum 8; VNum 0; VVar 2 []; nums [1; 0; 0; 0; 0; 0; 1; 0]%N]) = Ok [x88; x41].
Proof. run. Qed.
