(** Model of the conversions of errors: src/error.rs.  No proofs here.  Messages are dropped,
    as in [derr]. *)
From Verif Require Import Base.

(** A std::io::Error: its kind and the error it wraps, [io::Error::get_ref]. *)
Record io_error : Type := mkIo { io_kind : iokind; io_inner : option derr }.
(** src/error.rs:202-215 [From<DekuError> for std::io::Error]. *)
Definition to_io (e : derr) : io_error :=
  mkIo (match e with
        | Incomplete _ => UnexpectedEof
        | Parse => InvalidData
        | InvalidParam => InvalidInput
        | Assertion => InvalidData
        | IdVariantNotFound => NotFound
        | Io k => k
        end) (Some e).
(** src/error.rs:176-193, the same without the feature [std]: a message is wrapped. *)
Definition to_io_nostd (e : derr) : io_error :=
  mkIo (match e with
        | Incomplete _ => UnexpectedEof
        | Parse => InvalidData
        | InvalidParam => InvalidInput
        | Assertion => InvalidData
        | IdVariantNotFound => NotFound
        | Io k => k
        end) None.
(** src/error.rs:217-221 [From<no_std_io::io::Error> for DekuError]. *)
Definition from_io (x : io_error) : derr := Io (io_kind x).
(** src/error.rs:195-200 [std::error::Error::cause].  ([source] is the default of the trait,
    which is [None].) *)
Definition cause (e : derr) : option derr := Some e.
(** src/error.rs:14-32 [NeedSize::bit_size], [byte_size] ([usize::div_ceil]). *)
Definition need_bits (bits : nat) : nat := bits.
Definition need_bytes (bits : nat) : nat := bits / 8 + (if bits mod 8 =? 0 then 0 else 1).
