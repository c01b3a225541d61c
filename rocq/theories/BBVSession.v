(** Readers and writers whose leftover is the array of [BBV.v], bits beyond the length
    included; the functions of src/reader.rs and src/writer.rs that touch it, as in
    [Reader.v] and [Writer.v] otherwise.  No proofs here. *)
From Verif Require Import Base Spec Stream Reader Writer Session WSession BBV.

(** ** Reader *)

(** src/reader.rs:28-34 and 37-43. *)
Inductive aleft : Type := AByte (b : byte) | ABits (v : bbv).
Record areader : Type := mkA { a_s : stream; a_left : option aleft; a_bits : nat }.
Definition AM (A : Type) : Type := ST areader A.
Definition a_new (s : stream) : areader := mkA s None 0.
Definition a_set_left (l : option aleft) : AM unit := fun a => (Ok tt, mkA (a_s a) l (a_bits a)).
Definition a_add_bits (n : nat) : AM unit := fun a => (Ok tt, mkA (a_s a) (a_left a) (a_bits a + n)).
(** Run an operation of [Reader.v] that uses the source and [bits_read] but not the
    leftover. *)
Definition a_src {A} (m : RM A) : AM A :=
  fun a => let '(x, r) := m (mkReader (a_s a) None (a_bits a)) in (x, mkA (r_s r) (a_left a) (r_bits r)).
Definition a_io (n : nat) : areader -> iores (list byte) * areader :=
  fun a => let '(x, s) := s_read_exact n (a_s a) in (x, mkA s (a_left a) (a_bits a)).
Definition r_lift {S A} (x : res A) : ST S A := fun s => (x, s).

(** src/reader.rs:129-145 [rest]. *)
Definition a_rest (a : areader) : list bool :=
  match a_left a with
  | Some (ABits v) => match v_slice v with Ok l => l | _ => [] end
  | Some (AByte b) => byte_bits b
  | None => []
  end.
(** src/reader.rs:152-173 [end]. *)
Definition a_end : areader -> bool * areader :=
  fun a =>
    match a_left a with
    | Some _ => (false, a)
    | None =>
        match a_io 1 a with
        | (IoErr k, a') =>
            if is_eof k then (true, a') else (false, mkA (a_s a') (Some (AByte x00)) (a_bits a'))
        | (IoOk bs, a') => (false, mkA (a_s a') (Some (AByte (hd x00 bs))) (a_bits a'))
        end
    end.
(** src/reader.rs:45-60 [seek]. *)
Definition a_seek (w : seekfrom) : areader -> iores nat * areader :=
  fun a =>
    match s_seek w (a_s a) with
    | (IoOk p, s) => (IoOk p, mkA s None (8 * p))
    | (IoErr k, s) => (IoErr k, mkA s None (a_bits a))
    end.

(** src/reader.rs:251-259: the leftover as a buffer; a byte gives a full one. *)
Definition a_buffer (l : option aleft) : option bbv :=
  match l with
  | Some (AByte b) => Some (v_of_array (byte_bits b))
  | Some (ABits v) => Some v
  | None => None
  end.
(** src/reader.rs:236-377 [read_bits_into]. *)
Definition a_read_bits (n : nat) (o : order) : AM (list bool) :=
  if n =? 0 then ret [] else
  fun a =>
    let buf := a_buffer (a_left a) in
    let plen := match buf with Some v => v_len v | None => 0 end in
    (let* dst :=
       match n ?= plen with
       | Lt =>
           match buf with
           | None => panic
           | Some v =>
               let* _ := assert_ (v_len v <=? 8) in
               match o with
               | Lsb0 =>
                   let* p := r_lift (v_split_off v (v_len v - n)) in
                   let* used := r_lift (v_slice (snd p)) in
                   let* _ := a_set_left (Some (ABits (fst p))) in
                   ret used
               | Msb0 =>
                   let* p := r_lift (v_split_off v n) in
                   let* used := r_lift (v_slice (fst p)) in
                   let* _ := a_set_left (Some (ABits (snd p))) in
                   ret used
               end
           end
       | Eq =>
           match buf with
           | None => panic
           | Some v => let* _ := assert_ (v_len v <=? 8) in r_lift (v_slice v)
           end
       | Gt =>
           let need := n - plen in
           let* bs := a_src (fill_slots n (need / 8)) in
           let rem := need mod 8 in
           match o with
           | Lsb0 =>
               let* head :=
                 if rem =? 0 then ret []
                 else
                   let* b := a_src (read_rem_byte n) in
                   let* v := r_lift (v_from 8 (firstn (8 - rem) (byte_bits b))) in
                   let* _ := a_set_left (Some (ABits v)) in
                   ret (skipn (8 - rem) (byte_bits b)) in
               let* prev := match buf with Some v => r_lift (v_slice v) | None => ret [] end in
               ret (head ++ concat (rev (map byte_bits bs)) ++ prev)
           | Msb0 =>
               let* prev := match buf with Some v => r_lift (v_slice v) | None => ret [] end in
               let* last :=
                 if rem =? 0 then ret []
                 else
                   let* b := a_src (read_rem_byte n) in
                   let* v := r_lift (v_from 8 (skipn rem (byte_bits b))) in
                   let* _ := a_set_left (Some (ABits v)) in
                   ret (firstn rem (byte_bits b)) in
               ret (prev ++ concat (map byte_bits bs) ++ last)
           end
       end in
     let* _ := a_add_bits n in
     ret dst) (mkA (a_s a) None (a_bits a)).
(** src/reader.rs:393-443 [read_bits_uint_msb0]: [byte >> (8 - size)] of the raw
    byte. *)
Definition a_read_uint (amt : nat) : AM N :=
  let* _ := assert_ ((1 <=? amt) && (amt <=? 64)) in
  fun a =>
    let '(acc, have) :=
      match a_left a with
      | Some (AByte b) => (Byte.to_N b, 8)
      | Some (ABits v) =>
          let '(raw, size) := v_msb0_byte v in
          if size =? 0 then (0%N, 0) else (N.shiftr raw (N.of_nat (8 - size)), size)
      | None => (0%N, 0)
      end in
    (let* p := a_src (uint_loop amt amt acc have) in
     let '(acc, have) := p in
     let rest := have - amt in
     let value := N.land (wrap 64 (N.shiftr acc (N.of_nat rest)))
                         (N.shiftr (2 ^ 64 - 1) (N.of_nat (64 - amt))) in
     let* _ :=
       if rest =? 0 then ret tt
       else
         let tail := wrap 8 (N.land acc (N.shiftl 1 (N.of_nat rest) - 1)) in
         let b := wrap 8 (N.shiftl tail (N.of_nat (8 - rest))) in
         let* v := r_lift (v_of_msb0_byte (byte_of_bits (N2bits 8 b)) rest) in
         a_set_left (Some (ABits v))
     in
     let* _ := a_add_bits amt in
     ret value) (mkA (a_s a) None (a_bits a)).
(** src/reader.rs:475-565 [read_bytes]. *)
Definition a_read_bytes (amt buf_len : nat) (o : order) : AM (list byte) :=
  fun a =>
    match a_left a with
    | None => a_src (read_bytes amt buf_len o) a
    | Some (AByte b) =>
        (* src/reader.rs:526-565 takes the byte out first; only [buf[0]] precedes *)
        if buf_len =? 0 then (Panic, a)
        else a_src (read_bytes_leftover amt buf_len b) (mkA (a_s a) None (a_bits a))
    | Some (ABits _) =>
        if buf_len <? amt then (Panic, a)
        else (let* bits := a_read_bits (8 * amt) o in
              let bytes := bytes_of_bits bits in
              ret (match o with Lsb0 => rev bytes | Msb0 => bytes end)) a
    end.
(** src/reader.rs:181-219 [skip_bits]. *)
Definition a_skip (amt : nat) (o : order) : AM unit :=
  fun a =>
    let first : AM nat :=
      match a_left a with
      | Some (ABits v) =>
          let needed := Nat.min amt (v_len v) in
          let* _ := a_read_bits needed o in
          ret (amt - needed)
      | _ => ret amt
      end in
    (let* amt := first in
     let bytes_amt := amt / 8 in
     let bits_amt := amt mod 8 in
     let* _ :=
       if bytes_amt =? 0 then ret tt
       else fun a =>
         if negb (a_bits a mod 8 =? 0) then (Panic, a)
         else (let* _ := lift_io (a_seek (SeekCurrent (Z.of_nat bytes_amt))) in ret tt) a
     in
     let* _ := a_read_bits bits_amt o in
     ret tt) a.

(** Histories: every public call of a reader. *)
Inductive hop : Type := HRead (op : rop) | HSkip (n : nat) (o : order) | HSeek (w : seekfrom).
Inductive hout : Type := HOut (x : res rout) | HUnit (x : res unit) | HPos (x : iores nat).
Definition h_step (h : hop) (r : reader) : hout * reader :=
  match h with
  | HRead op => let '(x, r') := run_rop op r in (HOut x, r')
  | HSkip n o => let '(x, r') := skip_bits n o r in (HUnit x, r')
  | HSeek w => let '(x, r') := r_seek w r in (HPos x, r')
  end.
Definition a_rop (op : rop) : AM rout :=
  match op with
  | RBits n o => let* l := a_read_bits n o in ret (OBits l)
  | RBytes n o => let* bs := a_read_bytes n n o in ret (OBytes bs)
  | RUint n => let* v := a_read_uint n in ret (ONum v)
  | REnd => fun a => let '(b, a') := a_end a in (Ok (OFlag b), a')
  end.
Definition a_step (h : hop) (a : areader) : hout * areader :=
  match h with
  | HRead op => let '(x, a') := a_rop op a in (HOut x, a')
  | HSkip n o => let '(x, a') := a_skip n o a in (HUnit x, a')
  | HSeek w => let '(x, a') := a_seek w a in (HPos x, a')
  end.
(** The results of all calls, and after each the unread bits of the buffer
    ([rest()]), the source and [bits_read]. *)
Fixpoint h_run (hs : list hop) (r : reader) : list (hout * list bool * stream * nat) :=
  match hs with
  | [] => []
  | h :: tl => let '(x, r') := h_step h r in (x, r_rest r', r_s r', r_bits r') :: h_run tl r'
  end.
Fixpoint a_run (hs : list hop) (a : areader) : list (hout * list bool * stream * nat) :=
  match hs with
  | [] => []
  | h :: tl => let '(x, a') := a_step h a in (x, a_rest a', a_s a', a_bits a') :: a_run tl a'
  end.

(** ** Writer *)

(** src/writer.rs:21-28. *)
Record awriter : Type := mkAW { aw_k : sink; aw_left : bbv; aw_ord : order; aw_bits : nat }.
Definition AWM (A : Type) : Type := ST awriter A.
(** src/writer.rs:48-56. *)
Definition aw_new (k : sink) : awriter := mkAW k (v_new 8) Msb0 0.
Definition aw_set_left (v : bbv) : AWM unit := fun w => (Ok tt, mkAW (aw_k w) v (aw_ord w) (aw_bits w)).
Definition aw_set_ord (o : order) : AWM unit := fun w => (Ok tt, mkAW (aw_k w) (aw_left w) o (aw_bits w)).
Definition aw_add_bits (n : nat) : AWM unit := fun w => (Ok tt, mkAW (aw_k w) (aw_left w) (aw_ord w) (aw_bits w + n)).
Definition aw_get_left : AWM bbv := fun w => (Ok (aw_left w), w).
Definition aw_write_all (buf : list byte) : AWM unit :=
  fun w => match k_write_all buf (aw_k w) with
           | (IoOk _, k) => (Ok tt, mkAW k (aw_left w) (aw_ord w) (aw_bits w))
           | (IoErr e, k) => (Err (Io e), mkAW k (aw_left w) (aw_ord w) (aw_bits w))
           end.
Fixpoint aw_write_each (bs : list byte) : AWM unit :=
  match bs with
  | [] => ret tt
  | b :: tl => let* _ := aw_write_all [b] in aw_write_each tl
  end.
(** src/writer.rs:30-44 [seek]: [clear] keeps the array. *)
Definition aw_seek (t : seekfrom) : awriter -> iores nat * awriter :=
  fun w =>
    let '(x, k) := k_seek t (aw_k w) in (x, mkAW k (v_clear (aw_left w)) Msb0 (aw_bits w)).
(** src/writer.rs:61-63 [rest]. *)
Definition aw_rest (w : awriter) : list bool := match v_slice (aw_left w) with Ok l => l | _ => [] end.
(** [self.leftover.0.extend_from_bitslice(bs)]. *)
Definition aw_extend (bs : list bool) : AWM unit :=
  let* v := aw_get_left in let* v' := r_lift (v_extend v bs) in aw_set_left v'.
(** src/writer.rs:143-147 and the like: all bytes of the array are written. *)
Definition aw_flush : AWM unit :=
  let* v := aw_get_left in
  if v_full v then
    let* _ := aw_write_all (v_raw v) in
    let* _ := aw_add_bits (v_len v) in
    let* _ := aw_set_left (v_new 8) in
    aw_set_ord Msb0
  else ret tt.
(** src/writer.rs:122-123 and the like. *)
Definition aw_take : AWM bbv :=
  let* v := aw_get_left in
  let* _ := aw_set_left (v_new 8) in
  let* _ := aw_set_ord Msb0 in
  ret v.
Definition aw_guard (o : order) : AWM unit :=
  let* w0 := get in
  let* _ := assert_ (order_eqb (aw_ord w0) o) in
  assert_ (v_len (aw_left w0) <? v_capacity (aw_left w0)).
(** [debug_assert!(self.leftover.0.is_full() || rest.is_empty())]. *)
Definition aw_full_or (rest : list bool) : AWM unit :=
  let* v := aw_get_left in assert_ (v_full v || (length rest =? 0)).
(** [debug_assert!(self.leftover.0.len() + remainder.len() <= capacity)]. *)
Definition aw_fits (remainder : list bool) : AWM unit :=
  let* v := aw_get_left in assert_ (v_len v + length remainder <=? v_capacity v).

(** src/writer.rs:112-162. *)
Definition aw_msb_msb (bits : list bool) : AWM unit :=
  let* _ := aw_guard Msb0 in
  let* left := aw_take in
  let* rest :=
    if v_empty left then ret bits
    else
      let complement := Nat.min (v_capacity left - v_len left) (length bits) in
      let rest := skipn complement bits in
      let* first := r_lift (v_slice left) in
      let* _ := aw_extend first in
      let* _ := aw_extend (firstn complement bits) in
      let* _ := aw_full_or rest in
      let* _ := aw_flush in
      ret rest in
  let remainder := chunks8_rem rest in
  let* _ := aw_write_each (map byte_of_bits (chunks8 rest)) in
  let* _ := aw_add_bits (length rest - length remainder) in
  let* _ := aw_fits remainder in
  let* _ := aw_extend remainder in
  aw_set_ord Msb0.
(** src/writer.rs:165-234. *)
Definition aw_msb_lsb (bits : list bool) : AWM unit :=
  let* _ := aw_guard Msb0 in
  let* left := aw_take in
  let* p :=
    if v_empty left then ret (([], []), (bits, []))
    else
      let remainder := length bits mod v_capacity left in
      let c := Nat.min (v_capacity left - remainder) (v_len left) in
      let front := Nat.min (length bits) (v_capacity left - c) in
      let* l := r_lift (v_slice left) in
      ret ((firstn c l, firstn front bits), (skipn front bits, skipn c l)) in
  let '((first, complement), (bulk, last)) := p in
  let* _ := aw_extend first in
  let* _ := aw_extend complement in
  let* _ := aw_flush in
  let remainder := chunks8_rem bulk in
  let* _ := aw_write_each (map byte_of_bits (chunks8 bulk)) in
  let* _ := aw_add_bits (length bulk - length remainder) in
  let* _ := aw_fits remainder in
  let c := Nat.min (v_capacity left - length remainder) (length last) in
  let rest := skipn c last in
  let* _ := aw_extend remainder in
  let* _ := aw_extend (firstn c last) in
  let* _ := aw_full_or rest in
  let* _ := aw_flush in
  let* _ := aw_extend rest in
  aw_set_ord Lsb0.
(** src/writer.rs:237-287. *)
Definition aw_lsb_msb (bits : list bool) : AWM unit :=
  let* _ := aw_guard Lsb0 in
  let* left := aw_take in
  let* p :=
    if v_empty left then ret ([], [])
    else
      let c := Nat.min (v_capacity left - length bits mod v_capacity left) (v_len left) in
      let* l := r_lift (v_slice left) in
      ret (firstn c l, skipn c l) in
  let '(complement, rest) := p in
  let remainder := rchunks8_rem bits in
  let* _ := aw_write_each (map byte_of_bits (rchunks8 bits)) in
  let* _ := aw_add_bits (length bits - length remainder) in
  let* _ := aw_fits remainder in
  let* _ := aw_extend remainder in
  let* _ := aw_extend complement in
  let* _ := aw_set_ord Msb0 in
  let* _ := aw_full_or rest in
  let* _ := aw_flush in
  aw_extend rest.
(** src/writer.rs:290-339. *)
Definition aw_lsb_lsb (bits : list bool) : AWM unit :=
  let* _ := aw_guard Lsb0 in
  let* left := aw_take in
  let* rest :=
    if v_empty left then ret bits
    else
      let c := Nat.min (v_capacity left - v_len left) (length bits) in
      let rest := firstn (length bits - c) bits in
      let* l := r_lift (v_slice left) in
      let* _ := aw_extend (skipn (length bits - c) bits) in
      let* _ := aw_extend l in
      let* _ := aw_full_or rest in
      let* _ := aw_flush in
      ret rest in
  let remainder := rchunks8_rem rest in
  let* _ := aw_write_each (map byte_of_bits (rchunks8 rest)) in
  let* _ := aw_add_bits (length rest - length remainder) in
  let* _ := aw_fits remainder in
  let* _ := aw_extend remainder in
  aw_set_ord Lsb0.
(** src/writer.rs:344-359. *)
Definition aw_write_bits (bits : list bool) (o : order) : AWM unit :=
  fun w =>
    match aw_ord w, o with
    | Msb0, Msb0 => aw_msb_msb bits w
    | Msb0, Lsb0 => aw_msb_lsb bits w
    | Lsb0, Msb0 => aw_lsb_msb bits w
    | Lsb0, Lsb0 => aw_lsb_lsb bits w
    end.
(** src/writer.rs:371-399. *)
Definition aw_write_bytes (buf : list byte) : AWM unit :=
  fun w =>
    if negb (v_empty (aw_left w)) then aw_write_bits (bits_of_bytes buf) Msb0 w
    else (let* _ := aw_write_all buf in aw_add_bits (length buf * 8)) w.
(** src/writer.rs:404-413. *)
Definition aw_finalize : AWM unit :=
  fun w =>
    if v_len (aw_left w) <? v_capacity (aw_left w) then
      let len := (v_capacity (aw_left w) - v_len (aw_left w)) mod 8 in
      aw_write_bits (repeat false len) (aw_ord w) w
    else (Panic, w).
(** src/writer.rs:75-109: [lead >> (8 - lead_len)] of the raw byte. *)
Definition aw_write_uint (value : N) (amt : nat) : AWM unit :=
  let* _ := assert_ ((1 <=? amt) && (amt <=? 64)) in
  let* w0 := get in
  let* _ := assert_ (order_eqb (aw_ord w0) Msb0) in
  let '(lead, lead_len) := v_msb0_byte (aw_left w0) in
  let acc0 := if lead_len =? 0 then 0%N else N.shiftr lead (N.of_nat (8 - lead_len)) in
  let acc := N.lor (wrapN 128 (N.shiftl acc0 (N.of_nat amt)))
                   (N.land value (N.shiftr (2 ^ 64 - 1) (N.of_nat (64 - amt)))) in
  let have := lead_len + amt in
  let whole := have / 8 in
  let rest := have mod 8 in
  let* _ :=
    if whole =? 0 then ret tt
    else
      if 9 <? whole then panic else
      let aligned := N.shiftr acc (N.of_nat rest) in
      let buf := map (fun i => byte_of_N (wrapN 8 (N.shiftr aligned (N.of_nat ((whole - 1 - i) * 8)))))
                     (seq 0 whole) in
      let* _ := aw_write_all buf in
      aw_add_bits (whole * 8) in
  let* _ :=
    if rest =? 0 then (let* v := aw_get_left in aw_set_left (v_clear v))
    else
      let tail := wrapN 8 (N.land acc (N.shiftl 1 (N.of_nat rest) - 1)) in
      let b := wrapN 8 (N.shiftl tail (N.of_nat (8 - rest))) in
      let* v := r_lift (v_of_msb0_byte (byte_of_bits (N2bits 8 b)) rest) in
      aw_set_left v in
  aw_set_ord Msb0.

(** Histories: every call a writer gets. *)
Inductive wh : Type := WHWrite (op : wop) | WHSeek (t : seekfrom) | WHFinalize.
Inductive whout : Type := WHUnit (x : res unit) | WHPos (x : iores nat).
Definition wh_step (h : wh) (w : writer) : whout * writer :=
  match h with
  | WHWrite op => let '(x, w') := run_wop op w in (WHUnit x, w')
  | WHSeek t => let '(x, w') := w_seek t w in (WHPos x, w')
  | WHFinalize => let '(x, w') := finalize w in (WHUnit x, w')
  end.
Definition aw_op (op : wop) : AWM unit :=
  match op with
  | WBits l o => aw_write_bits l o
  | WBytes bs => aw_write_bytes bs
  | WUint v n => fun w =>
      match aw_ord w with
      | Msb0 => aw_write_uint v n w
      | Lsb0 => aw_write_bits (N2bits n v) Msb0 w
      end
  end.
Definition aw_step (h : wh) (w : awriter) : whout * awriter :=
  match h with
  | WHWrite op => let '(x, w') := aw_op op w in (WHUnit x, w')
  | WHSeek t => let '(x, w') := aw_seek t w in (WHPos x, w')
  | WHFinalize => let '(x, w') := aw_finalize w in (WHUnit x, w')
  end.
(** Results, pending bits, order, sink and [bits_written] after each call. *)
Fixpoint wh_run (hs : list wh) (w : writer) : list (whout * list bool * order * sink * nat) :=
  match hs with
  | [] => []
  | h :: tl => let '(x, w') := wh_step h w in (x, w_rest w', w_ord w', w_k w', w_bits w') :: wh_run tl w'
  end.
Fixpoint aw_run (hs : list wh) (w : awriter) : list (whout * list bool * order * sink * nat) :=
  match hs with
  | [] => []
  | h :: tl => let '(x, w') := aw_step h w in (x, aw_rest w', aw_ord w', aw_k w', aw_bits w') :: aw_run tl w'
  end.
