(** The byte sources and sinks deku is used with.

    deku is generic over [R: Read + Seek] and [W: Write + Seek].  They are
    modelled as [std::io::Cursor]s with an I/O fault oracle, optionally wrapped
    in [NoSeek] (src/noseek.rs).  No proofs here. *)
From Verif Require Import Base.

(** Result of a raw I/O call: [Ok], or an [io::Error] of some kind. *)
Inductive iores (A : Type) : Type := IoOk (a : A) | IoErr (k : iokind).
Arguments IoOk {A} a.
Arguments IoErr {A} k.

(** std::io::SeekFrom. *)
Inductive seekfrom : Type := SeekStart (n : nat) | SeekCurrent (d : Z) | SeekEnd (d : Z).

(** ** Sources *)

(** [s_eat]: whether a [read_exact] that hits the end of input leaves the cursor
    at the end (true) or where it was (false); std documents it as unspecified.
    [s_fault k = Some (e, m)]: the k-th I/O call fails with [e], a
    [read_exact] after at most [m] bytes have been taken from the source.  [s_noseek]: [Some v] if the source is wrapped in
    [NoSeek] and [v] is its virtual position (src/noseek.rs:14-19). *)
Record stream : Type := mkStream {
  s_data : list byte;
  s_pos : nat;
  s_eat : bool;
  s_noseek : option nat;
  s_fault : nat -> option (iokind * nat);
  s_calls : nat
}.

Definition cursor (data : list byte) : stream :=
  {| s_data := data; s_pos := 0; s_eat := true; s_noseek := None;
     s_fault := fun _ => None; s_calls := 0 |}.

Definition s_tick (s : stream) : stream :=
  {| s_data := s_data s; s_pos := s_pos s; s_eat := s_eat s; s_noseek := s_noseek s;
     s_fault := s_fault s; s_calls := S (s_calls s) |}.
Definition s_goto (s : stream) (p : nat) : stream :=
  {| s_data := s_data s; s_pos := p; s_eat := s_eat s; s_noseek := s_noseek s;
     s_fault := s_fault s; s_calls := s_calls s |}.
Definition s_virt (s : stream) (v : option nat) : stream :=
  {| s_data := s_data s; s_pos := s_pos s; s_eat := s_eat s; s_noseek := v;
     s_fault := s_fault s; s_calls := s_calls s |}.

(** Bytes not yet consumed. *)
Definition s_avail (s : stream) : list byte := skipn (s_pos s) (s_data s).

(** [Read::read_exact] of [n] bytes.  It is a loop over [Read::read],
    which ends as soon as the buffer is full, so a call that fails has taken fewer
    than [n] bytes; they are lost.  With [NoSeek] (src/noseek.rs:84-88) the
    virtual position moves only on success. *)
Definition s_read_exact (n : nat) (s : stream) : iores (list byte) * stream :=
  let s1 := s_tick s in
  match s_fault s (s_calls s) with
  | Some (k, m) => (IoErr k, s_goto s1 (s_pos s + Nat.min (Nat.min m (n - 1)) (length (s_avail s))))
  | None =>
      if n <=? length (s_avail s) then
        let s2 := s_goto s1 (s_pos s + n) in
        (IoOk (firstn n (s_avail s)),
         s_virt s2 (option_map (fun v => v + n) (s_noseek s)))
      else
        (IoErr UnexpectedEof,
         if s_eat s then s_goto s1 (Nat.max (s_pos s) (length (s_data s))) else s1)
  end.

(** Target of a [Cursor] seek; [None] when it would be negative. *)
Definition seek_target (pos len : nat) (w : seekfrom) : option nat :=
  match w with
  | SeekStart n => Some n
  | SeekCurrent d => let t := (Z.of_nat pos + d)%Z in
                     if (t <? 0)%Z then None else Some (Z.to_nat t)
  | SeekEnd d => let t := (Z.of_nat len + d)%Z in
                 if (t <? 0)%Z then None else Some (Z.to_nat t)
  end.

(** [NoSeek::seek], src/noseek.rs:42-52 (std build): only no-op seeks succeed;
    [Error::other] is [OtherKind 0] here. *)
Definition noseek_target (v : nat) (w : seekfrom) : option nat :=
  match w with
  | SeekStart n => if n =? v then Some n else None
  | SeekCurrent d => if (d =? 0)%Z then Some v else None
  | SeekEnd _ => None
  end.

(** [Seek::seek]; returns the new position.  A [Cursor] may be positioned past
    its end. *)
Definition s_seek (w : seekfrom) (s : stream) : iores nat * stream :=
  let s1 := s_tick s in
  match s_fault s (s_calls s) with
  | Some (k, _) => (IoErr k, s1)
  | None =>
      match s_noseek s with
      | Some v =>
          match noseek_target v w with
          | Some t => (IoOk t, s1)
          | None => (IoErr (OtherKind 0), s1)
          end
      | None =>
          match seek_target (s_pos s) (length (s_data s)) w with
          | Some t => (IoOk t, s_goto s1 t)
          | None => (IoErr InvalidInput, s1)
          end
      end
  end.

(** ** Sinks *)

(** [k_fixed]: a [Cursor<&mut [u8]>], which never grows; otherwise a
    [Cursor<&mut Vec<u8>>].  [k_fault k = Some (e, n)]: the k-th call fails with
    [e] after at most [n] bytes have been accepted. *)
Record sink : Type := mkSink {
  k_data : list byte;
  k_pos : nat;
  k_fixed : bool;
  k_noseek : option nat;
  k_fault : nat -> option (iokind * nat);
  k_calls : nat
}.

Definition vec_sink : sink :=
  {| k_data := []; k_pos := 0; k_fixed := false; k_noseek := None;
     k_fault := fun _ => None; k_calls := 0 |}.
Definition slice_sink (buf : list byte) : sink :=
  {| k_data := buf; k_pos := 0; k_fixed := true; k_noseek := None;
     k_fault := fun _ => None; k_calls := 0 |}.

Definition k_tick (k : sink) : sink :=
  {| k_data := k_data k; k_pos := k_pos k; k_fixed := k_fixed k; k_noseek := k_noseek k;
     k_fault := k_fault k; k_calls := S (k_calls k) |}.
Definition k_set (k : sink) (d : list byte) (p : nat) : sink :=
  {| k_data := d; k_pos := p; k_fixed := k_fixed k; k_noseek := k_noseek k;
     k_fault := k_fault k; k_calls := k_calls k |}.
Definition k_virt (k : sink) (v : option nat) : sink :=
  {| k_data := k_data k; k_pos := k_pos k; k_fixed := k_fixed k; k_noseek := v;
     k_fault := k_fault k; k_calls := k_calls k |}.

(** Overwrite [data] from [pos] on with [buf]; a gap is filled with zeros
    (std's [Cursor<Vec<u8>>]).  Writing nothing changes nothing. *)
Definition overlay (data : list byte) (pos : nat) (buf : list byte) : list byte :=
  match buf with
  | [] => data
  | _ => firstn pos data ++ repeat x00 (pos - length data) ++ buf
         ++ skipn (pos + length buf) data
  end.

(** Store a prefix of [buf] without reporting anything. *)
Definition k_store (buf : list byte) (k : sink) : sink :=
  k_set k (overlay (k_data k) (k_pos k) buf) (k_pos k + length buf).

(** [Write::write_all].  With [NoSeek] (src/noseek.rs:113-117) the virtual
    position moves only on success. *)
Definition k_write_all (buf : list byte) (k : sink) : iores unit * sink :=
  let k1 := k_tick k in
  let room := length (k_data k) - k_pos k in
  match k_fault k (k_calls k) with
  | Some (e, n) =>
      let n := if k_fixed k then Nat.min n room else n in
      (IoErr e, k_store (firstn n buf) k1)
  | None =>
      if k_fixed k && (room <? length buf) then
        (IoErr WriteZero, k_store (firstn room buf) k1)
      else
        (IoOk tt, k_virt (k_store buf k1) (option_map (fun v => v + length buf) (k_noseek k)))
  end.

(** [Seek::seek] on a sink. *)
Definition k_seek (w : seekfrom) (k : sink) : iores nat * sink :=
  let k1 := k_tick k in
  match k_fault k (k_calls k) with
  | Some (e, _) => (IoErr e, k1)
  | None =>
      match k_noseek k with
      | Some v =>
          match noseek_target v w with
          | Some t => (IoOk t, k1)
          | None => (IoErr (OtherKind 0), k1)
          end
      | None =>
          match seek_target (k_pos k) (length (k_data k)) w with
          | Some t => (IoOk t, k_set k1 (k_data k) t)
          | None => (IoErr InvalidInput, k1)
          end
      end
  end.
