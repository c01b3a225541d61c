(** Sequences of public calls on one writer.  No proofs here. *)
From Verif Require Import Base Spec Stream Writer.

(** The integer write as the primitives issue it: the fast path is guarded by the
    pending order (src/impls/primitive.rs:902-926), otherwise the generic path. *)
Definition run_wop (op : wop) : WM unit :=
  match op with
  | WBits l o => write_bits_order l o
  | WBytes bs => write_bytes bs
  | WUint v n => fun w =>
      match w_ord w with
      | Msb0 => write_bits_uint_msb0 v n w
      | Lsb0 => write_bits_order (N2bits n v) Msb0 w
      end
  end.
Fixpoint run_wsession (ops : list wop) : WM unit :=
  match ops with
  | [] => ret tt
  | op :: tl => let* _ := run_wop op in run_wsession tl
  end.

(** Write everything and finalize. *)
Definition write_out (ops : list wop) : WM unit :=
  let* _ := run_wsession ops in finalize.

(** What a caller sees of a writer: the stored bytes, the position, [rest()], the
    order of the pending bits and [bits_written]. *)
Definition w_view (w : writer) : list byte * nat * list bool * order * nat :=
  (k_data (w_k w), k_pos (w_k w), w_rest w, w_ord w, w_bits w).

(** Going from [w] to [w'] the bytes [bs] were stored at the position of the sink,
    the position moved behind them, and [bits_written] counts them. *)
Definition stored (w w' : writer) (bs : list byte) : Prop :=
  k_data (w_k w') = overlay (k_data (w_k w)) (k_pos (w_k w)) bs /\
  k_pos (w_k w') = k_pos (w_k w) + length bs /\
  w_bits w' = w_bits w + 8 * length bs.

(** A caller that carries on after errors. *)
Fixpoint run_wall (ops : list wop) (w : writer) : list (res unit) * writer :=
  match ops with
  | [] => ([], w)
  | op :: tl =>
      let '(x, w1) := run_wop op w in
      let '(xs, w2) := run_wall tl w1 in
      (x :: xs, w2)
  end.

(** All states a caller can bring a writer into whose sink accepts everything. *)
Inductive w_reachable : writer -> Prop :=
| wreach_new k : k_fixed k = false -> (forall j, k_fault k j = None) -> w_reachable (writer_new k)
| wreach_wop op w : w_reachable w -> wop_ok op -> w_reachable (snd (run_wop op w))
| wreach_fin w : w_reachable w -> w_reachable (snd (finalize w))
| wreach_seek t w : w_reachable w -> w_reachable (snd (w_seek t w)).
