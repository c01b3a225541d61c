(** Messages one after another from one source and to one sink, C59, C60.

    Vocabulary: [Derive.v] ([from_reader]), [Stream.v] (sources), [DeriveSpec.v]
    ([reads_in_order], [source_from]), [MsgSpec.v] ([in_place], [messages],
    [bytes_for], [stands_at], [send], [sends], [stored_at]). *)
From Coq Require Import Lia.
From Verif Require Import Base Spec Stream Reader Writer Prims CodecSpec Containers Derive DeriveSpec MsgSpec Msgs MsgsOut P_Derive P_Streams.

(** ** Where the source stands afterwards *)

(** Nothing is read ahead, whatever the position of the source.  Missing: hand-written
    readers that peek (C59_peek_refuted), and seeks and pads of a byte and more unless the
    source was at its start (false, below). *)
Theorem C59_position_partial : forall cu fuel t s bit n v s',
  in_place False cu t \/ in_place True cu t /\ s_pos s = 0 ->
  (forall k, s_fault s k = None) -> s_noseek s = None -> bit < 8 ->
  from_reader cu fuel t s bit = (Ok (n, v), s') -> stands_at (s_pos s + bytes_for n) s s'.
Proof. exact position. Qed.
Print Assumptions C59_position_partial.
(** struct Item { tag: u8, #[deku(bits = 4)] n: u8, #[deku(bits = 4)] m: u8, #[deku(count = "n")] data: Vec<u8> } *)
Definition Item : ty := TStruct cplain (field plain u8 (field (bits 4 plain) u8 (field (bits 4 plain) u8
  (field (limited (FCount (fun _ fs _ => Z.of_N (nth_num fs 1))) plain) (TVec KVec 1 u8) FNil)))).
Definition at_pos (p : nat) (l : list byte) : stream :=
  {| s_data := l; s_pos := p; s_eat := false; s_noseek := None; s_fault := fun _ => None; s_calls := 0 |}.
Definition two_items : list byte := [xee; x01; x25; xaa; xbb; x02; x10; xcc; xdd].
Example C59_position_case : in_place False no_customs Item /\ in_place True no_customs Gap /\ in_place True no_customs AtFour /\
  (let '(x, s') := from_reader no_customs 9 Item (at_pos 1 two_items) 0 in
   x = Ok (32, VRec [VNum 1; VNum 2; VNum 5; VList [VNum 0xaa; VNum 0xbb]]) /\ s_pos s' = 5) /\
  (let '(x, s') := from_reader no_customs 9 Head (at_pos 1 two_items) 2 in
   x = Ok (15, VRec [VNum 0; VNum 146]) /\ s_pos s' = 3) /\
  (let '(x, s') := from_reader no_customs 9 Gap (at_pos 0 two_items) 0 in
   x = Ok (24, VRec [VNum 0x25]) /\ s_pos s' = 3) /\
  (let '(x, s') := from_reader no_customs 9 AtFour (at_pos 0 two_items) 0 in
   x = Ok (40, VRec [VNum 0xbb]) /\ s_pos s' = 5).
Proof. split; [conditions|]. split; [conditions|]. split; [conditions|]. vm_compute. repeat split; reflexivity. Qed.

(** struct { a: u8, #[deku(reader = "bit_flipper(*a, deku::reader)")] b: u8 } of
    examples/custom_reader_and_writer.rs. *)
Definition Flipper : ty := TStruct cplain (field plain u8 (field
  (by_hand (fun _ fs _ => let* b := prim_read PU8 (CB 8) in ret (VNum (if (nth_num fs 0 =? 1)%N then 255 - b else b)%N)) plain) u8 FNil)).
Example C59_position_by_hand : in_place False no_customs Flipper /\
  (let '(x, s') := from_reader no_customs 9 Flipper (at_pos 1 two_items) 0 in x = Ok (16, VRec [VNum 1; VNum 0xda]) /\ s_pos s' = 3).
Proof.
  split; [|vm_compute; split; reflexivity]. repeat split; try discriminate; try (right; intros p [H|H]; discriminate); try (right; reflexivity).
  intros f H ctx fs off. injection H as <-. apply st_bind; [exact (st_prim False PU8 (CB 8))|]. intros b. exact (st_lift _ _ (Ok _)).
Qed.
(** A reader that asks [end()] has taken a byte that is not in its count. *)
Theorem C59_peek_refuted : exists f s n v s', s_noseek s = None /\ (forall k, s_fault s k = None) /\
  from_reader no_customs 9 (TStruct cplain (field plain u8 (field (by_hand f plain) TBool FNil))) s 0 = (Ok (n, v), s') /\ s_pos s' <> s_pos s + bytes_for n.
Proof.
  exists (fun _ _ _ r => let '(b, r') := r_end r in (Ok (VBool b), r')), (at_pos 0 [x01; x02]). do 3 eexists. split; [reflexivity|]. split; [reflexivity|].
  split; [vm_compute; reflexivity|]. vm_compute. discriminate.
Qed.
Print Assumptions C59_peek_refuted.

(** ** Only the bytes from the position on matter *)

(** The result, also an error, is that of a new source that holds just these bytes, and
    both sources move equally far.  Missing: seek attributes (which may go to a fixed
    position), hand-written readers that seek or skip, and pads of a byte and more (false, below). *)
Theorem C59_elsewhere_partial : forall cu fuel t s bit, reads_in_order True False True cu t ->
  (forall k, s_fault s k = None) -> s_noseek s = None -> s_pos s <= length (s_data s) -> bit < 8 ->
  exists x s1 s2, from_reader cu fuel t s bit = (x, s1) /\ from_reader cu fuel t (source_from s (s_pos s)) bit = (x, s2) /\
    s_data s1 = s_data s /\ s_pos s1 = s_pos s + s_pos s2.
Proof. exact from_reader_elsewhere. Qed.
Print Assumptions C59_elsewhere_partial.
(** #[deku(seek_rewind)] struct { x: u8 }: in the middle of a source it reads the start of
    the source. *)
Theorem C59_seek_refuted : exists s x y s1 s2, (forall k, s_fault s k = None) /\ s_noseek s = None /\ s_pos s <= length (s_data s) /\
  from_reader no_customs 9 Rewound s 0 = (Ok x, s1) /\ from_reader no_customs 9 Rewound (source_from s (s_pos s)) 0 = (Ok y, s2) /\ x <> y.
Proof.
  exists (at_pos 1 [x01; x02]). do 4 eexists. split; [reflexivity|]. split; [reflexivity|]. split; [cbn; lia|]. split; [vm_compute; reflexivity|].
  split; [vm_compute; reflexivity|]. discriminate.
Qed.
Print Assumptions C59_seek_refuted.
Example C59_elsewhere_case : reads_in_order True False True no_customs Item /\
  (let '(x, s1) := from_reader no_customs 9 Item (at_pos 5 two_items) 0 in
   let '(y, s2) := from_reader no_customs 9 Item (at_pos 0 [x02; x10; xcc; xdd]) 0 in
   x = Ok (24, VRec [VNum 2; VNum 1; VNum 0; VList [VNum 0xcc]]) /\ y = x /\ s_pos s1 = 8 /\ s_pos s2 = 3) /\
  (let '(x, s1) := from_reader no_customs 9 Item (at_pos 2 two_items) 0 in
   let '(y, s2) := from_reader no_customs 9 Item (at_pos 0 (skipn 2 two_items)) 0 in
   x = Err (Incomplete 80) /\ y = x /\ s_pos s1 = 4 /\ s_pos s2 = 2).
Proof. split; [conditions|]. vm_compute. repeat split; reflexivity. Qed.

(** ** One after another *)

(** If the first message ends between two bytes, a second call reads what a single
    reader reads for both, and an error of the second is the same error.  Missing: as
    above; second messages that look at the offset, which starts again at 0. *)
Theorem C59_next_partial : forall cu fuel t1 t2 s bit n1 v1 s1,
  in_place False cu t1 \/ in_place True cu t1 /\ s_pos s = 0 -> reads_in_order False False True cu t2 ->
  (forall k, s_fault s k = None) -> s_noseek s = None -> bit < 8 ->
  from_reader cu fuel t1 s bit = (Ok (n1, v1), s1) -> n1 mod 8 = 0 ->
  from_reader cu fuel (TPair t1 t2) s bit =
    match from_reader cu fuel t2 s1 0 with
    | (Ok (n2, v2), s2) => (Ok (n1 + n2, VPair v1 v2), s2)
    | (Err e, s2) => (Err e, s2)
    | (Panic, s2) => (Panic, s2)
    | (Diverge, s2) => (Diverge, s2)
    end.
Proof. exact next. Qed.
Print Assumptions C59_next_partial.
(** Any number of messages: the calls give the elements of the array. *)
Theorem C59_messages_partial : forall cu fuel t s l s', messages cu fuel t s l s' ->
  in_place False cu t -> reads_in_order False False True cu t -> (forall k, s_fault s k = None) -> s_noseek s = None ->
  Forall (fun p => fst p mod 8 = 0) l ->
  from_reader cu fuel (TArray (length l) t) s 0 = (Ok (list_sum (map fst l), VList (map snd l)), s').
Proof. exact from_reader_array. Qed.
Print Assumptions C59_messages_partial.
Example C59_messages_case : reads_in_order False False True no_customs Item /\
  (let '(_, s1) := from_reader no_customs 9 Item (at_pos 1 two_items) 0 in
   let '(_, s2) := from_reader no_customs 9 Item s1 0 in
   messages no_customs 9 Item (at_pos 1 two_items)
     [(32, VRec [VNum 1; VNum 2; VNum 5; VList [VNum 0xaa; VNum 0xbb]]); (24, VRec [VNum 2; VNum 1; VNum 0; VList [VNum 0xcc]])] s2 /\ s_pos s2 = 8) /\
  fst (from_reader no_customs 9 (TArray 2 Item) (at_pos 1 two_items) 0) =
    Ok (56, VList [VRec [VNum 1; VNum 2; VNum 5; VList [VNum 0xaa; VNum 0xbb]]; VRec [VNum 2; VNum 1; VNum 0; VList [VNum 0xcc]]]).
Proof.
  split; [conditions|]. split; [|vm_compute; reflexivity].
  destruct (from_reader no_customs 9 Item (at_pos 1 two_items) 0) as [x s1] eqn:E1. destruct (from_reader no_customs 9 Item s1 0) as [y s2] eqn:E2.
  pose proof E1 as X1. vm_compute in X1. injection X1 as <- <-. pose proof E2 as X2. vm_compute in X2. injection X2 as <- <-.
  split; [|reflexivity]. econstructor; [exact E1|]. econstructor; [exact E2|]. constructor.
Qed.

(** Values written by [to_bytes] and sent one after another are received by calls of
    [from_reader], wherever the source stands and whatever follows, also if they do not
    end between two bytes.  [encode] is the format of C28.  Missing: as above. *)
Theorem C59_sent_received_partial : forall cu ce fuel o t, customs_lawful SeekSource o cu ce -> in_place False cu t -> reads_in_order True False True cu t ->
  forall vs bs, Forall2 (fun v b => to_bytes cu t v = Ok b /\ exists enc, encode SeekSource o ce t None [] 0 v = Some enc /\ length enc <= fuel) vs bs ->
  forall s before after, s_data s = before ++ concat bs ++ after -> s_pos s = length before -> (forall k, s_fault s k = None) -> s_noseek s = None ->
  exists l s', messages cu fuel t s l s' /\ map snd l = vs /\ stands_at (length before + length (concat bs)) s s'.
Proof. exact sent_received. Qed.
Print Assumptions C59_sent_received_partial.
Example C59_sent_received_case : in_place False no_customs Head /\ reads_in_order True False True no_customs Head /\ customs_lawful SeekSource Msb0 no_customs no_format /\
  Forall2 (fun v b => to_bytes no_customs Head v = Ok b /\ exists enc, encode SeekSource Msb0 no_format Head None [] 0 v = Some enc /\ length enc <= 20)
    [VRec [VNum 5; VNum 1000]; VRec [VNum 2; VNum 282]] [[xbf; x40]; [x48; xd0]].
Proof.
  split; [conditions|]. split; [conditions|]. split; [discriminate|].
  repeat constructor; try (eexists; split; [vm_compute; reflexivity|cbn; lia]).
Qed.

(** ** Where it is false *)

(** struct Gap { #[deku(pad_bytes_before = "2")] x: u8 } from the second byte on: the
    value is right, but three bytes are counted as four. *)
Theorem C59_padding_count_refuted : exists s n v s' s2, s_noseek s = None /\
  from_reader no_customs 9 Gap s 0 = (Ok (n, v), s') /\ s_pos s' <> s_pos s + bytes_for n /\
  from_reader no_customs 9 Gap (source_from s (s_pos s)) 0 = (Ok (8 * (s_pos s' - s_pos s), v), s2).
Proof.
  exists (at_pos 1 [x00; x01; x02; x03; x04]). do 4 eexists. split; [reflexivity|]. split; [vm_compute; reflexivity|]. split; [vm_compute; discriminate|].
  vm_compute; reflexivity.
Qed.
Print Assumptions C59_padding_count_refuted.
(** struct Cell { x: u8, #[deku(pad_bytes_after = "1")] y: u8 }
    struct Cells { #[deku(bytes_read = "6")] cells: Vec<Cell> }
    from the fourth byte on: one cell instead of two, without an error. *)
Definition Cell : ty := TStruct cplain (field plain u8 (field (padded 0 8 plain) u8 FNil)).
Definition Cells : ty := TStruct cplain (field (limited (FBytes (fun _ _ _ => 6%Z)) plain) (TVec KSlice 2 Cell) FNil).
Theorem C59_padding_value_refuted : exists s v w s1 s2 n m, s_noseek s = None /\
  from_reader no_customs 9 Cells s 0 = (Ok (n, v), s1) /\
  from_reader no_customs 9 Cells (source_from s (s_pos s)) 0 = (Ok (m, w), s2) /\ v <> w.
Proof.
  exists (at_pos 3 [x00; x00; x00; x01; x02; x03; x04; x05; x06; x07; x08; x09]). do 6 eexists. split; [reflexivity|].
  split; [vm_compute; reflexivity|]. split; [vm_compute; reflexivity|]. discriminate.
Qed.
Print Assumptions C59_padding_value_refuted.
(** Half a byte is lost between two calls: the second starts with the next byte. *)
Theorem C59_bits_refuted : exists s v1 s1 v2 s2 w n1 n2 n s', from_reader no_customs 9 Nibble s 0 = (Ok (n1, v1), s1) /\
  from_reader no_customs 9 Nibble s1 0 = (Ok (n2, v2), s2) /\
  from_reader no_customs 9 (TPair Nibble Nibble) s 0 = (Ok (n, VPair v1 w), s') /\ v2 <> w.
Proof.
  exists (at_pos 0 [x21; x43]). do 9 eexists. split; [vm_compute; reflexivity|]. split; [vm_compute; reflexivity|]. split; [vm_compute; reflexivity|]. discriminate.
Qed.
Print Assumptions C59_bits_refuted.

(** ** C60: one after another to one sink *)

(** On any sink at any position a value is stored as the bytes of [to_bytes] over what
    was there, the rest is kept, and the sink stands behind them.  A sink of fixed size
    takes what fits.  An error of [to_bytes] is the error here, unless the sink was full
    before.  Missing: seek attributes (false, below) and hand-written writers that
    seek. *)
Theorem C60_send_partial : forall cu t v k, writes_in_order cu t -> (forall j, k_fault k j = None) -> (k_fixed k = true -> k_pos k <= length (k_data k)) ->
  match to_bytes cu t v with
  | Ok bytes =>
      if k_fixed k && (length (k_data k) - k_pos k <? length bytes)
      then exists k', send cu t v k = (Err (Io WriteZero), k') /\ k_data k' = overlay (k_data k) (k_pos k) (firstn (length (k_data k) - k_pos k) bytes)
      else exists k', send cu t v k = (Ok tt, k') /\ stored_at (k_pos k) bytes k k'
  | x => fst (send cu t v k) = res_map x (fun _ => tt) \/ k_fixed k = true /\ fst (send cu t v k) = Err (Io WriteZero)
  end.
Proof. exact send_at. Qed.
Print Assumptions C60_send_partial.
(** Any number of values. *)
Theorem C60_sends_partial : forall cu t, writes_in_order cu t -> forall vs bs, Forall2 (fun v b => to_bytes cu t v = Ok b) vs bs ->
  forall k, (forall j, k_fault k j = None) -> k_fixed k = false \/ k_pos k + length (concat bs) <= length (k_data k) ->
  exists k', sends cu t k vs k' /\ stored_at (k_pos k) (concat bs) k k'.
Proof. exact sends_at. Qed.
Print Assumptions C60_sends_partial.
(** ... and read back: a file is written from some position on, then read from there. *)
Theorem C60_file_partial : forall cu ce fuel o t, customs_lawful SeekSource o cu ce -> writes_in_order cu t -> in_place False cu t -> reads_in_order True False True cu t ->
  forall vs, Forall (fun v => exists enc, encode SeekSource o ce t None [] 0 v = Some enc /\ length enc <= fuel) vs ->
  forall k, k_fixed k = false -> (forall j, k_fault k j = None) -> k_pos k <= length (k_data k) ->
  exists k', sends cu t k vs k' /\
  forall s, s_data s = k_data k' -> s_pos s = k_pos k -> (forall j, s_fault s j = None) -> s_noseek s = None ->
  exists l s', messages cu fuel t s l s' /\ map snd l = vs /\ s_pos s' = k_pos k'.
Proof. exact file_round_trip. Qed.
Print Assumptions C60_file_partial.
(** Two values over the middle of seven bytes, and into four bytes of a slice. *)
Definition sink_at (p : nat) (fixed : bool) (l : list byte) : sink :=
  {| k_data := l; k_pos := p; k_fixed := fixed; k_noseek := None; k_fault := fun _ => None; k_calls := 0 |}.
Definition heads : list value := [VRec [VNum 5; VNum 1000]; VRec [VNum 2; VNum 282]].
Example C60_case : writes_in_order no_customs Head /\ in_place False no_customs Head /\ reads_in_order True False True no_customs Head /\
  Forall (fun v => exists enc, encode SeekSource Msb0 no_format Head None [] 0 v = Some enc /\ length enc <= 20) heads /\
  (let '(_, k1) := send no_customs Head (VRec [VNum 5; VNum 1000]) (sink_at 1 false (repeat xee 7)) in
   let '(x, k2) := send no_customs Head (VRec [VNum 2; VNum 282]) k1 in
   x = Ok tt /\ k_data k2 = [xee; xbf; x40; x48; xd0; xee; xee] /\ k_pos k2 = 5) /\
  (let '(x, k1) := send no_customs Head (VRec [VNum 5; VNum 1000]) (sink_at 3 true (repeat xee 4)) in
   x = Err (Io WriteZero) /\ k_data k1 = [xee; xee; xee; xbf]).
Proof.
  split; [conditions|]. split; [conditions|]. split; [conditions|]. split; [|vm_compute; repeat split].
  repeat constructor; (eexists; split; [vm_compute; reflexivity|cbn; lia]).
Qed.
(** #[deku(seek_from_start = "4")] struct AtFour { x: u8 }: the second value replaces the
    first. *)
Theorem C60_seek_refuted : exists k v1 v2 b1 b2 k', k_fixed k = false /\ to_bytes no_customs AtFour v1 = Ok b1 /\ to_bytes no_customs AtFour v2 = Ok b2 /\
  b1 <> b2 /\ sends no_customs AtFour k [v1; v2] k' /\ k_data k' = b2.
Proof.
  exists vec_sink, (VRec [VNum 7]), (VRec [VNum 8]). do 3 eexists. split; [reflexivity|]. split; [vm_compute; reflexivity|]. split; [vm_compute; reflexivity|].
  split; [discriminate|]. split; [|shelve]. econstructor; [vm_compute; reflexivity|]. econstructor; [vm_compute; reflexivity|]. constructor.
  Unshelve. reflexivity.
Qed.
Print Assumptions C60_seek_refuted.
