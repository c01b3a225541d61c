(** Properties of the container codecs, C25-C27, C36, C37, C40, C41.

    Vocabulary: [ContainerSpec.v] ([back_to_back], [first_stop], [until_end],
    [lawful], [rejects], [safe], [find_last]) and [CodecSpec.v] ([reads], [emits]).
    An element codec is any reader [elem : RM A] with any writer. *)
From Coq Require Import Lia Permutation.
From Verif Require Import Base Spec Stream Reader Session Writer WSession Prims CodecSpec Containers ContainerSpec Safety ContainerProps.

Definition on (data : list byte) : reader := reader_new (cursor data).
Definition new_writer : writer := writer_new vec_sink.
(** The value and the number of bits read by a reader on [data]. *)
Definition gives {A} (m : RM A) (data : list byte) (v : A) (bits : nat) : Prop :=
  exists r, m (on data) = (Ok v, r) /\ r_bits r = bits.
Definition u8s (data : list byte) : list N := map Byte.to_N data.

(** ** C25: count *)

(** Missing: zero-sized elements and elements that seek, for which it is false. *)
Theorem C25_count_exact_partial : forall A (elem : RM A) size n fuel r vs r',
  forward elem -> size <> 0%N -> (n * size <= isize_max)%N ->
  vec_read fuel size elem (LCount n) r = (Ok vs, r') <-> back_to_back elem r vs r' /\ N.of_nat (length vs) = n.
Proof. exact @ContainerFacts.count_ok. Qed.
Print Assumptions C25_count_exact_partial.
Theorem C25_count_failure_partial : forall A (elem : RM A) size n fuel r e r',
  forward elem -> size <> 0%N -> (n * size <= isize_max)%N ->
  vec_read fuel size elem (LCount n) r = (Err e, r') <->
  exists vs r1, back_to_back elem r vs r1 /\ (N.of_nat (length vs) < n)%N /\ elem r1 = (Err e, r').
Proof. exact @ContainerFacts.count_err. Qed.
Print Assumptions C25_count_failure_partial.
(** Integers qualify. *)
Theorem C25_integers_forward : forall p c, forward (prim_read p c).
Proof. exact prim_forward. Qed.
Print Assumptions C25_integers_forward.
Theorem C25_round_trip_partial : forall A al src o (rd : RM A) wr size l encs fuel,
  size <> 0%N -> (N.of_nat (length l) * size <= isize_max)%N -> lawful_list al src o rd wr l encs ->
  lawful al src o (vec_read fuel size rd (LCount (N.of_nat (length l)))) (write_list wr) l (concat encs).
Proof. intros A al src o rd wr size l encs fuel Hz Hc H. exact (ContainerFacts.lawful_vec al src o rd wr size _ l encs fuel Hz Hc eq_refl H). Qed.
Print Assumptions C25_round_trip_partial.
(** What [lawful] means for a user: write, finalize, read, with any bytes behind. *)
Theorem C25_lawful_end_to_end : forall A al o (rd : RM A) wr v enc tail, lawful al AnySource o rd wr v enc ->
  exists w r, (let* _ := wr v in finalize) new_writer = (Ok tt, w) /\
    rd (on (k_data (w_k w) ++ tail)) = (Ok v, r) /\ r_bits r = length enc.
Proof. exact @lawful_end_to_end. Qed.
Print Assumptions C25_lawful_end_to_end.
(** Three 12-bit big-endian elements. *)
Definition e12 : RM N := prim_read (PU 2) (CEB Big 12).
Definition w12 : N -> WM unit := prim_write (PU 2) (CEB Big 12).
Example C25_case : forward e12 /\ lawful_list false AnySource Msb0 e12 w12 [0xabc; 0x123; 0xfff]%N
    [layout Big Msb0 12 0xabc; layout Big Msb0 12 0x123; layout Big Msb0 12 0xfff] /\
  gives (vec_read 0 2 e12 (LCount 3)) [xab; xc1; x23; xff; xf7; x77] [0xabc; 0x123; 0xfff]%N 36.
Proof.
  split; [apply prim_forward|]. split.
  - repeat constructor; apply (lawful_prim false AnySource (PU 2) (CEB Big 12) Big 12 Msb0);
      solve [exact I | reflexivity | split; [cbn; lia|discriminate] | discriminate].
  - eexists. split; vm_compute; reflexivity.
Qed.
(** A count of zero-sized elements is ignored. *)
Theorem C25_zero_sized_refuted : exists r, vec_read 9 0 read_unit (LCount 3) r = (Ok [], r) /\
  back_to_back read_unit r [tt; tt; tt] r.
Proof. exists (on []). split; [reflexivity|]. repeat (econstructor; [reflexivity|]). constructor. Qed.
Print Assumptions C25_zero_sized_refuted.
(** Elements with [seek_from_start = "0"] behind a [u16]: the elements can be read
    back to back, the vector panics. *)
Definition seeking : RM N := let* _ := lift_io (r_seek (SeekStart 0)) in prim_read PU8 C0.
Theorem C25_seeking_refuted : exists data r vs r1 r2,
  prim_read (PU 2) C0 (on data) = (Ok 0x201%N, r) /\ back_to_back seeking r vs r1 /\ length vs = 2 /\
  vec_read 9 1 seeking (LCount 2) r = (Panic, r2).
Proof.
  exists [x01; x02]. do 4 eexists. split; [vm_compute; reflexivity|].
  split; [econstructor; [vm_compute; reflexivity|]; econstructor; [vm_compute; reflexivity|]; constructor|].
  split; [reflexivity|]. vm_compute. reflexivity.
Qed.
Print Assumptions C25_seeking_refuted.

(** ** C26: until, bits_read, bytes_read, read_all *)

Theorem C26_limits_exact_partial : forall A (elem : RM A) size lim r vs r',
  forward elem -> size <> 0%N -> proper_limit size lim ->
  (exists fuel, vec_read fuel size elem lim r = (Ok vs, r')) <-> first_stop elem (stop_of lim) r vs r'.
Proof. exact @limit_ok. Qed.
Print Assumptions C26_limits_exact_partial.
Theorem C26_limits_failure_partial : forall A (elem : RM A) size lim r e r',
  forward elem -> size <> 0%N -> proper_limit size lim ->
  (exists fuel, vec_read fuel size elem lim r = (Err e, r')) <-> fails_first elem (stop_of lim) r e r'.
Proof. exact @limit_err. Qed.
Print Assumptions C26_limits_failure_partial.
Theorem C26_read_all_exact : forall A (elem : RM A) size r vs r', size <> 0%N ->
  (exists fuel, vec_read fuel size elem LEnd r = (Ok vs, r')) <-> until_end elem r vs r'.
Proof. exact @end_ok. Qed.
Print Assumptions C26_read_all_exact.
(** A list that first meets the limit at its end comes back. *)
Theorem C26_limits_round_trip : forall A al src o (rd : RM A) wr size lim l encs fuel,
  size <> 0%N -> proper_limit size lim -> length l <= fuel -> l <> [] ->
  stop_of lim (length (concat encs)) l = true ->
  (forall k, 0 < k < length l -> stop_of lim (length (concat (firstn k encs))) (firstn k l) = false) ->
  lawful_list al src o rd wr l encs ->
  lawful al src o (vec_read fuel size rd lim) (write_list wr) l (concat encs).
Proof.
  intros A al src o rd wr size lim l encs fuel Hz Hp Hl Hn Hs Hi H.
  exact (ContainerFacts.lawful_vec_limit al src o rd wr size lim l encs fuel Hz Hp Hl (conj Hn (conj Hs Hi)) H).
Qed.
Print Assumptions C26_limits_round_trip.
(** Everything that is left comes back with [read_all]. *)
Theorem C26_read_all_round_trip : forall A al o (rd : RM A) wr size l encs fuel,
  size <> 0%N -> length l < fuel -> lawful_list al AnySource o rd wr l encs -> Forall (fun e => e <> []) encs ->
  (forall a, (al = true -> a = 0) -> emits o a (write_list wr l) (concat encs)) /\
  forall r, readable AnySource r -> unread_string o (seen r) = concat encs ->
  exists r', vec_read fuel size rd LEnd r = (Ok l, r') /\ readable AnySource r' /\ unread_len (seen r') = 0 /\
    r_bits r' = r_bits r + length (concat encs).
Proof.
  intros A al o rd wr size l encs fuel Hz Hl H He. destruct (ContainerFacts.lawful_parts _ _ _ _ _ _ _ H) as (H1 & H2 & _).
  exact (conj (ContainerFacts.emits_list al o wr l encs H2) (ContainerFacts.reads_to_end o rd size l encs fuel Hz Hl H1 He)).
Qed.
Print Assumptions C26_read_all_round_trip.
Example C26_case : proper_limit 2 (LUntil (fun l => (last l 0 =? 0x123)%N)) /\ proper_limit 2 (@LBits N 24) /\ proper_limit 2 (@LBytes N 3) /\
  gives (vec_read 9 2 e12 (LUntil (fun l => (last l 0 =? 0x123)%N))) [xab; xc1; x23; xff; xf7; x77] [0xabc; 0x123]%N 24 /\
  gives (vec_read 9 2 e12 (LBits 24)) [xab; xc1; x23; xff; xf7; x77] [0xabc; 0x123]%N 24 /\
  gives (vec_read 9 2 e12 (LBytes 3)) [xab; xc1; x23; xff; xf7; x77] [0xabc; 0x123]%N 24 /\
  gives (vec_read 9 2 e12 LEnd) [xab; xc1; x23; xff; xf7; x77] [0xabc; 0x123; 0xfff; 0x777]%N 48.
Proof.
  split; [exact I|]. split; [discriminate|]. split; [split; [discriminate|cbn; lia]|].
  repeat split; eexists; split; vm_compute; reflexivity.
Qed.
(** A limit inside an element is passed without notice: [bits_read = "12"] with
    [u8] elements consumes the whole input and fails. *)
Theorem C26_limit_inside_element_refuted : exists data r,
  vec_read 9 1 (prim_read PU8 C0) (LBits 12) (on data) = (Err (Incomplete 8), r) /\ length data = 6 /\ r_bits r = 48.
Proof. exists [x01; x02; x03; x04; x05; x06]. eexists. split; [vm_compute; reflexivity|]. split; reflexivity. Qed.
Print Assumptions C26_limit_inside_element_refuted.

(** ** C27: the bulk path of [Vec<u8>] *)

(** [c]: any context that reads whole bytes in bit order [o].  Missing: Msb0 inside
    a byte, after [end()], sources that cannot seek: false there. *)
Theorem C27_bulk_agrees_partial : forall c e o n r,
  bytes_of_ctx 1 c = Some (e, 1, o) -> o = Lsb0 \/ r_left r = None -> readable SeekSource r -> (8 * n <= usize_max)%N ->
  (exists bs r1 r2, read_exact_vec n r = (Ok bs, r1) /\ vec_read 0 1 (prim_read PU8 c) (LCount n) r = (Ok (u8s bs), r2) /\
     unread_string o (seen r1) = unread_string o (seen r2) /\ r_bits r1 = r_bits r2) \/
  (exists e1 e2 r1 r2, read_exact_vec n r = (Err (Incomplete e1), r1) /\
     vec_read 0 1 (prim_read PU8 c) (LCount n) r = (Err (Incomplete e2), r2)).
Proof. exact bulk_agrees. Qed.
Print Assumptions C27_bulk_agrees_partial.
Example C27_case : bytes_of_ctx 1 C0 = Some (Little, 1, Msb0) /\ readable SeekSource (on [x12; x34; x56]) /\
  gives (read_exact_vec 2) [x12; x34; x56] [x12; x34] 16 /\
  gives (vec_read 0 1 (prim_read PU8 C0) (LCount 2)) [x12; x34; x56] [0x12; 0x34]%N 16.
Proof.
  split; [reflexivity|]. split; [apply CodecFacts.readable_new|]. split; eexists; split; vm_compute; reflexivity.
Qed.
(** Behind a four-bit field. *)
Definition after4 {A} (m : RM A) : RM A := let* _ := prim_read PU8 (CB 4) in m.
Theorem C27_misaligned_refuted : exists data v1 v2,
  gives (after4 (read_exact_vec 2)) data v1 20 /\ gives (after4 (vec_read 0 1 (prim_read PU8 C0) (LCount 2))) data v2 20 /\ u8s v1 <> v2.
Proof.
  exists [x12; x34; x56], [x42; x63], [0x23; 0x45]%N. split; [eexists; split; vm_compute; reflexivity|].
  split; [eexists; split; vm_compute; reflexivity|]. vm_compute. discriminate.
Qed.
Print Assumptions C27_misaligned_refuted.
(** What is written is what the element-wise path reads, so the field does not
    round-trip behind four bits. *)
Theorem C27_misaligned_round_trip_refuted : exists bs w bs',
  (let* _ := prim_write PU8 (CB 4) 1 in let* _ := write_list (prim_write PU8 C0) (u8s bs) in finalize) new_writer = (Ok tt, w) /\
  gives (after4 (read_exact_vec (N.of_nat (length bs)))) (k_data (w_k w)) bs' 20 /\ bs' <> bs.
Proof.
  exists [x23; x45]. eexists. exists [x42; x03]. split; [vm_compute; reflexivity|]. split; [eexists; split; vm_compute; reflexivity|]. discriminate.
Qed.
Print Assumptions C27_misaligned_round_trip_refuted.
(** After [end()] (a [read_all] of structures that start with such a field). *)
Theorem C27_after_end_refuted : exists data r v r1 r2,
  r_end (on data) = (false, r) /\ read_exact_vec 2 r = (Err (Incomplete 16), r1) /\
  vec_read 0 1 (prim_read PU8 C0) (LCount 2) r = (Ok v, r2) /\ length v = 2.
Proof. exists [x12; x34]. do 4 eexists. split; [reflexivity|]. split; [vm_compute; reflexivity|]. split; [vm_compute; reflexivity|reflexivity]. Qed.
Print Assumptions C27_after_end_refuted.
(** A source that cannot seek. *)
Definition noseek (data : list byte) : reader := reader_new (s_virt (cursor data) (Some 0)).
Theorem C27_noseek_refuted : exists data v k r1 r2,
  read_exact_vec 2 (noseek data) = (Err (Io k), r1) /\ vec_read 0 1 (prim_read PU8 C0) (LCount 2) (noseek data) = (Ok v, r2).
Proof. exists [x12; x34]. do 4 eexists. split; vm_compute; reflexivity. Qed.
Print Assumptions C27_noseek_refuted.

(** ** C36: the small codecs *)

Definition bool_value (b : bool) : N := if b then 1%N else 0%N.
(** Integers: sizes in bits, and whole bytes. *)
Theorem C36_integer : forall al src p c e n o v,
  is_unsigned p -> bits_of_ctx c = Some (e, n, o) -> supported p e n o -> (v < 2 ^ N.of_nat n)%N -> (al = true -> n mod 8 = 0) ->
  lawful al src o (prim_read p c) (prim_write p c) v (layout e o n v).
Proof. exact lawful_prim. Qed.
Print Assumptions C36_integer.
Theorem C36_integer_bytes : forall al src p c e n o v, bytes_of_ctx (prim_bytes p) c = Some (e, n, o) ->
  0 < n <= prim_bytes p -> (v < 2 ^ N.of_nat (8 * n))%N -> (o = Lsb0 -> al = true) ->
  lawful al src o (prim_read p c) (prim_write p c) v (bitstring o (to_bytes_e e n v)).
Proof. exact lawful_prim_bytes. Qed.
Print Assumptions C36_integer_bytes.
(** The other codecs take the law from the codec they contain. *)
Theorem C36_bool : forall al src o c b enc, lawful al src o (prim_read PU8 c) (prim_write PU8 c) (bool_value b) enc ->
  lawful al src o (read_bool c) (write_bool c) b enc.
Proof. exact lawful_bool. Qed.
Print Assumptions C36_bool.
Theorem C36_bool_rejects : forall src o c v enc, reads src o (prim_read PU8 c) enc v -> (2 <= v)%N ->
  rejects src o (read_bool c) enc Parse.
Proof. exact bool_rejects. Qed.
Print Assumptions C36_bool_rejects.
Theorem C36_nonzero : forall al src o p c v enc, v <> 0%N -> lawful al src o (prim_read p c) (prim_write p c) v enc ->
  lawful al src o (read_nonzero p c) (write_nonzero p c) v enc.
Proof. exact lawful_nonzero. Qed.
Print Assumptions C36_nonzero.
Theorem C36_nonzero_rejects : forall src o p c enc, reads src o (prim_read p c) enc 0%N ->
  rejects src o (read_nonzero p c) enc Parse.
Proof. exact nonzero_rejects. Qed.
Print Assumptions C36_nonzero_rejects.
Theorem C36_tuple : forall A B al src o (r1 : RM A) w1 (r2 : RM B) w2 a b e1 e2,
  lawful al src o r1 w1 a e1 -> lawful al src o r2 w2 b e2 ->
  lawful al src o (read_pair r1 r2) (write_pair w1 w2) (a, b) (e1 ++ e2).
Proof. exact @ContainerFacts.lawful_pair. Qed.
Print Assumptions C36_tuple.
Theorem C36_unit : forall al src o, lawful al src o read_unit write_unit tt [].
Proof. exact ContainerFacts.lawful_unit. Qed.
Print Assumptions C36_unit.
Theorem C36_array : forall A al src o (rd : RM A) wr l encs, lawful_list al src o rd wr l encs ->
  lawful al src o (read_array (length l) rd) (write_list wr) l (concat encs).
Proof. exact @ContainerFacts.lawful_array. Qed.
Print Assumptions C36_array.
Theorem C36_option_partial : forall A al src o (rd : RM A) wr v e, lawful al src o rd wr v e ->
  lawful al src o (read_option rd) (write_option wr) (Some v) e.
Proof. exact @ContainerFacts.lawful_option. Qed.
Print Assumptions C36_option_partial.
(** [None] writes nothing and cannot be read back without [cond]. *)
Theorem C36_option_none_refuted : exists w r,
  (let* _ := write_option (prim_write PU8 C0) None in finalize) new_writer = (Ok tt, w) /\
  read_option (prim_read PU8 C0) (on (k_data (w_k w))) = (Err (Incomplete 8), r).
Proof. do 2 eexists. split; vm_compute; reflexivity. Qed.
Print Assumptions C36_option_none_refuted.
Theorem C36_ipv4 : forall al src c e o a, bytes_of_ctx 4 c = Some (e, 4, o) -> (a < 2 ^ 32)%N -> (o = Lsb0 -> al = true) ->
  lawful al src o (read_ipv4 c) (write_ipv4 c) a (bitstring o (to_bytes_e e 4 a)).
Proof. intros al src c e o a Hc Ha Ho. exact (lawful_prim_bytes al src (PU 4) c e 4 o a Hc (conj (le_S _ _ (le_S _ _ (le_S _ _ (le_n 1)))) (le_n 4)) Ha Ho). Qed.
Print Assumptions C36_ipv4.
Theorem C36_ipv6 : forall al src c e o a, bytes_of_ctx 16 c = Some (e, 16, o) -> (a < 2 ^ 128)%N -> (o = Lsb0 -> al = true) ->
  lawful al src o (read_ipv6 c) (write_ipv6 c) a (bitstring o (to_bytes_e e 16 a)).
Proof. intros al src c e o a Hc Ha Ho. refine (lawful_prim_bytes al src (PU 16) c e 16 o a Hc _ Ha Ho). cbn. lia. Qed.
Print Assumptions C36_ipv6.
(** Strings: [s] without a zero byte; [c] reads whole bytes. *)
Theorem C36_cstring : forall src c e s fuel, bytes_of_ctx 1 c = Some (e, 1, Msb0) -> Forall (fun b => b <> x00) s -> length s < fuel ->
  lawful false src Msb0 (read_cstring fuel) (write_cstring c) (u8s s) (bitstring Msb0 (s ++ [x00])).
Proof. exact lawful_cstring. Qed.
Print Assumptions C36_cstring.
Theorem C36_cstring_bytes : forall src c e s, bytes_of_ctx 1 c = Some (e, 1, Msb0) -> Forall (fun b => b <> x00) s ->
  (N.of_nat (length s + 1) <= isize_max)%N ->
  lawful false src Msb0 (read_cstring_bytes (N.of_nat (length s + 1))) (write_cstring c) (u8s s) (bitstring Msb0 (s ++ [x00])).
Proof. intros src c e s Hc Hs Hl. exact (lawful_cstring_bytes src c e s _ Hc Hs eq_refl Hl). Qed.
Print Assumptions C36_cstring_bytes.
Theorem C36_cstring_bytes_rejects : forall src bs, (N.of_nat (length bs) <= isize_max)%N ->
  (forall s, Forall (fun b => b <> x00) s -> bs <> s ++ [x00]) ->
  rejects src Msb0 (read_cstring_bytes (N.of_nat (length bs))) (bitstring Msb0 bs) Parse.
Proof. intros src bs Hl Hb. exact (cstring_bytes_rejects src bs _ eq_refl Hl Hb). Qed.
Print Assumptions C36_cstring_bytes_rejects.
Theorem C36_cstring_unterminated : forall src s tail fuel r, Forall (fun b => b <> x00) s -> length tail < 8 -> readable src r ->
  unread_string Msb0 (seen r) = bitstring Msb0 s ++ tail -> length s < fuel -> exists e r', read_cstring fuel r = (Err (Incomplete e), r').
Proof. exact cstring_unterminated. Qed.
Print Assumptions C36_cstring_unterminated.
Example C36_case :
  gives (read_pair (read_bool (CB 1)) (read_array 2 (read_nonzero (PU 2) (CEB Big 9)))) [xc0; xff; xc0] (true, [0x103; 0x1fe]%N) 19 /\
  gives (read_cstring 9) [x68; x69; x00; x41] [0x68; 0x69]%N 24 /\ gives (read_cstring_bytes 3) [x68; x69; x00; x41] [0x68; 0x69]%N 24 /\
  gives (read_ipv4 (CE Big)) [x7f; x00; x00; x01] 0x7f000001%N 32 /\
  (exists r, read_cstring_bytes 3 (on [x68; x00; x00; x41]) = (Err Parse, r)) /\
  (exists r, read_bool C0 (on [x02]) = (Err Parse, r)) /\ (exists r, read_nonzero PU8 C0 (on [x00]) = (Err Parse, r)) /\
  (exists r, read_cstring 9 (on [x68; x69]) = (Err (Incomplete 8), r)).
Proof. repeat split; eexists; try split; vm_compute; reflexivity. Qed.

(** ** C37: HashMap and HashSet *)

(** [l]: the entries in iteration order.  The map read back has the same entries. *)
Theorem C37_map_round_trip : forall K V (eqb : K -> K -> bool) al src o (elem : RM (K * V)) wk wv l encs fuel,
  (forall a b, eqb a b = true <-> a = b) -> (N.of_nat (length l) <= isize_max)%N ->
  lawful_list al src o elem (write_pair wk wv) l encs -> NoDup (map fst l) ->
  exists m, (forall a, (al = true -> a = 0) -> emits o a (map_write wk wv l) (concat encs)) /\
    reads src o (map_read fuel eqb elem (LCount (N.of_nat (length l)))) (concat encs) m /\ Permutation m l.
Proof.
  intros K V eqb al src o elem wk wv l encs fuel He Hl H Hd. exists (map_of eqb l).
  destruct (lawful_map eqb al src o elem wk wv l encs fuel Hl H) as [H1 H2]. exact (conj H1 (conj H2 (map_of_perm eqb He l Hd))).
Qed.
Print Assumptions C37_map_round_trip.
(** With repeated keys: every key once, with its last value. *)
Theorem C37_duplicates_keep_last : forall K V (eqb : K -> K -> bool) al src o (elem : RM (K * V)) wk wv l encs fuel,
  (forall a b, eqb a b = true <-> a = b) -> (N.of_nat (length l) <= isize_max)%N ->
  lawful_list al src o elem (write_pair wk wv) l encs ->
  exists m, reads src o (map_read fuel eqb elem (LCount (N.of_nat (length l)))) (concat encs) m /\
    NoDup (map fst m) /\ forall k, find eqb k m = find_last eqb k l.
Proof.
  intros K V eqb al src o elem wk wv l encs fuel He Hl H. exists (map_of eqb l).
  exact (conj (proj2 (lawful_map eqb al src o elem wk wv l encs fuel Hl H)) (conj (map_of_nodup eqb He l) (fun k => map_of_last eqb He k l))).
Qed.
Print Assumptions C37_duplicates_keep_last.
(** A set is a map to [unit]. *)
Theorem C37_set_round_trip : forall K (eqb : K -> K -> bool) al src o (elem : RM K) wk l encs fuel,
  (forall a b, eqb a b = true <-> a = b) -> (N.of_nat (length l) <= isize_max)%N ->
  lawful_list al src o elem wk (map fst l) encs -> NoDup (map fst l) ->
  exists m, (forall a, (al = true -> a = 0) -> emits o a (set_write wk l) (concat encs)) /\
    reads src o (set_read fuel eqb elem (LCount (N.of_nat (length l)))) (concat encs) m /\ Permutation m l.
Proof.
  intros K eqb al src o elem wk l encs fuel He Hl H Hd. exists (map_of eqb l).
  destruct (lawful_set eqb al src o elem wk l encs fuel Hl H) as [H1 H2]. exact (conj H1 (conj H2 (map_of_perm eqb He l Hd))).
Qed.
Print Assumptions C37_set_round_trip.
Definition kv : RM (N * N) := read_pair (prim_read PU8 C0) (prim_read (PU 2) (CE Big)).
Example C37_case : gives (map_read 0 N.eqb kv (LCount 3)) [x01; x00; x0a; x02; x00; x0b; x01; x00; x0c] [(1, 12); (2, 11)]%N 72 /\
  find_last N.eqb 1%N [(1, 10); (2, 11); (1, 12)]%N = Some 12%N /\
  lawful_list false AnySource Msb0 kv (write_pair (prim_write PU8 C0) (prim_write (PU 2) (CE Big))) [(1, 10); (2, 11)]%N
    [bitstring Msb0 [x01] ++ bitstring Msb0 [x00; x0a]; bitstring Msb0 [x02] ++ bitstring Msb0 [x00; x0b]].
Proof.
  split; [eexists; split; vm_compute; reflexivity|]. split; [reflexivity|].
  apply Forall2_cons; [|apply Forall2_cons; [|apply Forall2_nil]]; apply C36_tuple;
    solve [apply (C36_integer_bytes false AnySource PU8 C0 Little 1 Msb0); solve [reflexivity|cbn; lia|discriminate]
          |apply (C36_integer_bytes false AnySource (PU 2) (CE Big) Big 2 Msb0); solve [reflexivity|cbn; lia|discriminate]].
Qed.

(** ** C40: untrusted counts *)

(** From any position inside a seekable source, inside a byte or not: the bytes if
    they are there, otherwise [Incomplete] and nothing consumed.  Missing: counts of
    2^61 and more, positions past the end, after [end()]: false there. *)
Theorem C40_enough_partial : forall bs, reads SeekSource Lsb0 (read_exact_vec (N.of_nat (length bs))) (bitstring Lsb0 bs) bs.
Proof. exact exact_reads. Qed.
Print Assumptions C40_enough_partial.
Theorem C40_short_partial : forall n r, readable SeekSource r -> (8 * n <= usize_max)%N -> (N.of_nat (unread_len (seen r)) < 8 * n)%N ->
  exists r', read_exact_vec n r = (Err (Incomplete (N.to_nat (8 * n))), r') /\ seen r' = seen r /\ r_bits r' = r_bits r.
Proof. exact exact_short. Qed.
Print Assumptions C40_short_partial.
Example C40_case : readable SeekSource (on [x12; x34]) /\ (N.of_nat (unread_len (seen (on [x12; x34]))) < 8 * 1000000)%N /\
  (8 * 1000000 <= usize_max)%N.
Proof. split; [apply CodecFacts.readable_new|]. split; [reflexivity|]. discriminate. Qed.
(** A count of 2^61: [exact.0 * 8] overflows. *)
Theorem C40_huge_count_refuted : exists n r r', readable SeekSource r /\ (n <= usize_max)%N /\ read_exact_vec n r = (Panic, r').
Proof.
  exists (2 ^ 61)%N, (on []). eexists. split; [apply CodecFacts.readable_new|]. split; [discriminate|]. vm_compute. reflexivity.
Qed.
Print Assumptions C40_huge_count_refuted.
(** After a seek past the end: [end - pos] underflows. *)
Theorem C40_past_end_refuted : exists data r p r',
  r_seek (SeekStart 5) (on data) = (IoOk p, r) /\ read_exact_vec 1 r = (Panic, r').
Proof. exists [x12; x34]. do 3 eexists. split; vm_compute; reflexivity. Qed.
Print Assumptions C40_past_end_refuted.
(** After [end()] all the input is there and [Incomplete] is reported. *)
Theorem C40_after_end_refuted : exists data r r',
  r_end (on data) = (false, r) /\ unread_len (seen r) = 16 /\ read_exact_vec 2 r = (Err (Incomplete 16), r').
Proof. exists [x12; x34]. do 2 eexists. split; [reflexivity|]. split; [reflexivity|]. vm_compute. reflexivity. Qed.
Print Assumptions C40_after_end_refuted.
(** Other element types allocate the count first: capacity overflow. *)
Theorem C40_capacity_refuted : exists n r, (n <= usize_max)%N /\ vec_read 0 2 (prim_read (PU 2) C0) (LCount n) r = (Panic, r).
Proof. exists (2 ^ 62)%N, (on []). split; [discriminate|]. apply capacity_panic. reflexivity. Qed.
Print Assumptions C40_capacity_refuted.

(** ** C41: no panics, no hangs *)

(** Every input, every reader state between two calls, every pattern of I/O errors. *)
Theorem C41_integers_safe_partial : forall p c, 0 < prim_bytes p -> sized c -> safe (prim_read p c).
Proof. exact safe_prim. Qed.
Print Assumptions C41_integers_safe_partial.
Theorem C41_count_safe_partial : forall A (elem : RM A) size n fuel, safe elem -> forward elem -> (n * size <= isize_max)%N ->
  safe (vec_read fuel size elem (LCount n)).
Proof. exact @safe_count. Qed.
Print Assumptions C41_count_safe_partial.
Theorem C41_limits_no_panic_partial : forall A (elem : RM A) size lim fuel r x r', safe elem -> forward elem -> limit_fits size lim ->
  valid r -> vec_read fuel size elem lim r = (x, r') -> x <> Panic /\ valid r'.
Proof. exact @safe_vec. Qed.
Print Assumptions C41_limits_no_panic_partial.
(** Loops end after at most as many elements as there are bits. *)
Theorem C41_limits_halt_partial : forall A (elem : RM A) size lim fuel r r',
  forward elem -> consuming elem -> safe elem -> size <> 0%N -> limit_fits size lim ->
  readable AnySource r -> unread_len (seen r) < fuel -> vec_read fuel size elem lim r <> (Diverge, r').
Proof. intros A elem size lim fuel r r' Hf Hc Hs. exact (vec_halts elem size lim fuel r r' Hf Hc (safe_returns elem Hs)). Qed.
Print Assumptions C41_limits_halt_partial.
Theorem C41_integers_consume : forall p c, 0 < prim_bytes p -> sized c -> consuming (prim_read p c).
Proof. exact prim_consuming. Qed.
Print Assumptions C41_integers_consume.
Example C41_case : sized (CEBO Little 13 Lsb0) /\ safe (prim_read (PI 4) (CEBO Little 13 Lsb0)) /\
  consuming (prim_read (PI 4) (CEBO Little 13 Lsb0)) /\ limit_fits 4 (LUntil (fun l : list N => (last l 0 =? 7)%N)).
Proof. split; [cbn; lia|]. split; [apply safe_prim; cbn; lia|]. split; [apply prim_consuming; cbn; lia|exact I]. Qed.
(** A signed integer with [bits = 0] panics. *)
Theorem C41_zero_bits_refuted : exists r r', valid r /\ prim_read (PI 2) (CEB Big 0) r = (Panic, r').
Proof. exists (on []). eexists. split; [exact I|]. vm_compute. reflexivity. Qed.
Print Assumptions C41_zero_bits_refuted.
(** A set of elements that consume nothing never ends with [read_all]. *)
Theorem C41_empty_elements_hang_refuted : exists data, forall fuel, exists r,
  set_read fuel (fun _ _ : unit => true) read_unit LEnd (on data) = (Diverge, r).
Proof.
  exists [x00].
  assert (H : forall fuel acc r, r_left r <> None -> end_loop fuel (let* k := read_unit in ret (k, tt)) acc r = (Diverge, r)).
  { induction fuel as [|f IH]; intros acc r H; [reflexivity|]. cbn [end_loop]. unfold r_end. destruct (r_left r) eqn:E; [|contradiction].
    unfold bind, read_unit, ret. apply IH. now rewrite E. }
  intros [|fuel]; [eexists; reflexivity|]. unfold set_read, map_read, bind at 1. cbn [end_loop].
  destruct (r_end (on [x00])) as [b r] eqn:E. vm_compute in E. injection E as <- <-. unfold bind at 2. cbn [read_unit ret].
  unfold bind, read_unit, ret. rewrite H by discriminate. eexists. reflexivity.
Qed.
Print Assumptions C41_empty_elements_hang_refuted.
(** A source whose calls keep failing: the errors of whole bytes are swallowed
    (C09), so a loop waiting for a value never ends. *)
Definition broken (calls bits : nat) : reader :=
  mkReader {| s_data := []; s_pos := 0; s_eat := true; s_noseek := None; s_fault := fun _ => Some (OtherKind 7, 0); s_calls := calls |} None bits.
Theorem C41_failing_source_hangs_refuted : forall fuel, exists r,
  vec_read fuel 2 (prim_read (PU 2) (CEBO Little 16 Msb0)) (LUntil (fun l => (last l 0 =? 1)%N)) (broken 0 0) = (Diverge, r).
Proof.
  assert (E : forall k b, prim_read (PU 2) (CEBO Little 16 Msb0) (broken k b) = (Ok 0%N, broken (S (S k)) (b + 16))) by reflexivity.
  assert (H : forall fuel start k b acc, start <= b -> exists r,
    vec_loop fuel (prim_read (PU 2) (CEBO Little 16 Msb0)) (fun _ l => (last l 0 =? 1)%N) start acc (broken k b) = (Diverge, r)).
  { induction fuel as [|f IH]; intros start k b acc Hs; [eexists; reflexivity|]. cbn [vec_loop].
    rewrite (MonadFacts.bind_ok _ _ _ _ _ (E k b)). cbn [r_bits broken].
    replace (b + 16 <? start) with false by (symmetry; apply Nat.ltb_ge; lia). rewrite last_last. cbn [N.eqb]. apply IH. lia. }
  intros fuel. exact (H fuel 0 0 0 [] (le_n 0)).
Qed.
Print Assumptions C41_failing_source_hangs_refuted.
