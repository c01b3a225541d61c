(** Sources as std has them.  deku asks its source for [read_exact] and [seek] only;
    [Stream.v] answers a [read_exact] at once.  Real sources implement [read], which may
    give fewer bytes than asked for and may be interrupted, and [read_exact] is std's loop
    over it.  Models the provided method [std::io::Read::read_exact] (std::io,
    [default_read_exact]), not code of /repo, and [NoSeek::read_exact] and [NoSeek::seek]
    (src/noseek.rs:42-52, 84-88).  No proofs here. *)
From Verif Require Import Base Stream.

(** What a call of [read] does: gives at most [n + 1] bytes (fewer at the end of the input
    and if fewer are asked for), fails with [ErrorKind::Interrupted], or fails with another
    error, having taken nothing. *)
Inductive answer : Type := Gives (n : nat) | Interrupts | Fails (k : iokind).
(** [d_read j]: the answer to the [j]-th [read]; [d_seek j]: the error of the [j]-th
    [seek].  [d_noseek]: the virtual position, behind [NoSeek]. *)
Record raw : Type := mkRaw {
  d_data : list byte;
  d_pos : nat;
  d_noseek : option nat;
  d_read : nat -> answer;
  d_reads : nat;
  d_seek : nat -> option iokind;
  d_seeks : nat
}.
Definition d_step (d : raw) (pos reads : nat) : raw := mkRaw (d_data d) pos (d_noseek d) (d_read d) reads (d_seek d) (d_seeks d).
Definition d_virt (d : raw) (v : option nat) : raw := mkRaw (d_data d) (d_pos d) v (d_read d) (d_reads d) (d_seek d) (d_seeks d).

(** [while !buf.is_empty() { match this.read(buf) { Ok(0) => break, Ok(n) => buf = &mut buf[n..],
    Err(e) if e.is_interrupted() => {}, Err(e) => return Err(e) } }] and the check behind it.
    [n]: the bytes still asked for, [got]: those received.  [None]: the fuel is used up. *)
Fixpoint exact_loop (fuel n : nat) (got : list byte) (d : raw) : option (iores (list byte)) * raw :=
  match n with
  | 0 => (Some (IoOk got), d)
  | S _ =>
      match fuel with
      | 0 => (None, d)
      | S fuel =>
          match d_read d (d_reads d) with
          | Interrupts => exact_loop fuel n got (d_step d (d_pos d) (S (d_reads d)))
          | Fails k => (Some (IoErr k), d_step d (d_pos d) (S (d_reads d)))
          | Gives m =>
              let avail := skipn (d_pos d) (d_data d) in
              let l := Nat.min (Nat.min (S m) n) (length avail) in
              if l =? 0 then (Some (IoErr UnexpectedEof), d_step d (d_pos d) (S (d_reads d)))
              else exact_loop fuel (n - l) (got ++ firstn l avail) (d_step d (d_pos d + l) (S (d_reads d)))
          end
      end
  end.
(** [read_exact]; at most [b] interruptions in a row are waited for. *)
Definition raw_exact (b n : nat) (d : raw) : option (iores (list byte)) * raw :=
  match exact_loop (S n * S b) n [] d with
  | (Some (IoOk l), d') => (Some (IoOk l), d_virt d' (option_map (fun v => v + n) (d_noseek d)))
  | x => x
  end.
(** [seek]. *)
Definition raw_seek (w : seekfrom) (d : raw) : iores nat * raw :=
  match d_noseek d with
  | Some v => match noseek_target v w with Some t => (IoOk t, d) | None => (IoErr (OtherKind 0), d) end
  | None =>
      let d1 := mkRaw (d_data d) (d_pos d) None (d_read d) (d_reads d) (d_seek d) (S (d_seeks d)) in
      match d_seek d (d_seeks d) with
      | Some k => (IoErr k, d1)
      | None => match seek_target (d_pos d) (length (d_data d)) w with
                | Some t => (IoOk t, d_step d1 t (d_reads d))
                | None => (IoErr InvalidInput, d1)
                end
      end
  end.

(** A program that uses a source through these two calls. *)
Inductive prog (A : Type) : Type :=
| Done (a : A)
| Read (n : nat) (k : iores (list byte) -> prog A)
| Seek (w : seekfrom) (k : iores nat -> prog A).
Arguments Done {A} a.
Arguments Read {A} n k.
Arguments Seek {A} w k.
(** With the sources of [Stream.v]. *)
Fixpoint run {A} (p : prog A) (s : stream) : A * stream :=
  match p with
  | Done a => (a, s)
  | Read n k => let '(x, s') := s_read_exact n s in run (k x) s'
  | Seek w k => let '(x, s') := s_seek w s in run (k x) s'
  end.
(** With the sources of std. *)
Fixpoint run_raw {A} (b : nat) (p : prog A) (d : raw) : option A * raw :=
  match p with
  | Done a => (Some a, d)
  | Read n k => match raw_exact b n d with (Some x, d') => run_raw b (k x) d' | (None, d') => (None, d') end
  | Seek w k => let '(x, d') := raw_seek w d in run_raw b (k x) d'
  end.

(** ** Sinks *)

(** [e_write j]: the answer to the [j]-th [write], where [Gives n] accepts at most [n + 1]
    bytes (fewer if fewer are offered, and none if a [e_fixed] buffer is full). *)
Record dest : Type := mkDest {
  e_data : list byte;
  e_pos : nat;
  e_fixed : bool;
  e_noseek : option nat;
  e_write : nat -> answer;
  e_writes : nat;
  e_seek : nat -> option iokind;
  e_seeks : nat
}.
Definition e_step (e : dest) (data : list byte) (pos writes : nat) : dest :=
  mkDest data pos (e_fixed e) (e_noseek e) (e_write e) writes (e_seek e) (e_seeks e).
Definition e_virt (e : dest) (v : option nat) : dest :=
  mkDest (e_data e) (e_pos e) (e_fixed e) v (e_write e) (e_writes e) (e_seek e) (e_seeks e).

(** The provided method [std::io::Write::write_all]: [while !buf.is_empty() { match self.write(buf)
    { Ok(0) => return Err(WriteZero), Ok(n) => buf = &buf[n..], Err(e) if e.is_interrupted() => {},
    Err(e) => return Err(e) } } Ok(())]. *)
Fixpoint all_loop (fuel : nat) (buf : list byte) (e : dest) : option (iores unit) * dest :=
  match buf with
  | [] => (Some (IoOk tt), e)
  | _ :: _ =>
      match fuel with
      | 0 => (None, e)
      | S fuel =>
          match e_write e (e_writes e) with
          | Interrupts => all_loop fuel buf (e_step e (e_data e) (e_pos e) (S (e_writes e)))
          | Fails k => (Some (IoErr k), e_step e (e_data e) (e_pos e) (S (e_writes e)))
          | Gives m =>
              let l := Nat.min (S m) (length buf) in
              let l := if e_fixed e then Nat.min l (length (e_data e) - e_pos e) else l in
              if l =? 0 then (Some (IoErr WriteZero), e_step e (e_data e) (e_pos e) (S (e_writes e)))
              else all_loop fuel (skipn l buf) (e_step e (overlay (e_data e) (e_pos e) (firstn l buf)) (e_pos e + l) (S (e_writes e)))
          end
      end
  end.
(** [write_all], behind [NoSeek] src/noseek.rs:113-117. *)
Definition dest_all (b : nat) (buf : list byte) (e : dest) : option (iores unit) * dest :=
  match all_loop (S (length buf) * S b) buf e with
  | (Some (IoOk u), e') => (Some (IoOk u), e_virt e' (option_map (fun v => v + length buf) (e_noseek e)))
  | x => x
  end.
Definition dest_seek (w : seekfrom) (e : dest) : iores nat * dest :=
  match e_noseek e with
  | Some v => match noseek_target v w with Some t => (IoOk t, e) | None => (IoErr (OtherKind 0), e) end
  | None =>
      let e1 := mkDest (e_data e) (e_pos e) (e_fixed e) None (e_write e) (e_writes e) (e_seek e) (S (e_seeks e)) in
      match e_seek e (e_seeks e) with
      | Some k => (IoErr k, e1)
      | None => match seek_target (e_pos e) (length (e_data e)) w with
                | Some t => (IoOk t, e_step e1 (e_data e) t (e_writes e))
                | None => (IoErr InvalidInput, e1)
                end
      end
  end.

Inductive wprog (A : Type) : Type :=
| WDone (a : A)
| Write (buf : list byte) (k : iores unit -> wprog A)
| WSeek (w : seekfrom) (k : iores nat -> wprog A).
Arguments WDone {A} a.
Arguments Write {A} buf k.
Arguments WSeek {A} w k.
Fixpoint wrun {A} (p : wprog A) (s : sink) : A * sink :=
  match p with
  | WDone a => (a, s)
  | Write buf k => let '(x, s') := k_write_all buf s in wrun (k x) s'
  | WSeek w k => let '(x, s') := k_seek w s in wrun (k x) s'
  end.
Fixpoint wrun_raw {A} (b : nat) (p : wprog A) (e : dest) : option A * dest :=
  match p with
  | WDone a => (Some a, e)
  | Write buf k => match dest_all b buf e with (Some x, e') => wrun_raw b (k x) e' | (None, e') => (None, e') end
  | WSeek w k => let '(x, e') := dest_seek w e in wrun_raw b (k x) e'
  end.
