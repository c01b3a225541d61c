(** [SIZE_BYTES] as the size of a buffer, for C32. *)
From Coq Require Import Lia.
From Verif Require Import Base Stream Writer Prims Containers Derive DeriveSpec SizeSpec SizeFacts StreamProps.

Theorem bytes_of_bits t n m : size_bits t = Some n -> (size_bytes t = Some (Some m) <-> n = 8 * m).
Proof.
  intros H. unfold size_bytes. rewrite H. cbn [option_map]. pose proof (Nat.div_mod n 8 ltac:(discriminate)) as D. destruct (Nat.eqb_spec (n mod 8) 0) as [E|E]; split; intros G.
  - assert (n / 8 = m) by congruence.
    lia.
  - subst n. do 2 f_equal. rewrite Nat.mul_comm. now apply Nat.div_mul.
  - discriminate G.
  - subst n. rewrite Nat.mul_comm, Nat.mod_mul in E by discriminate. now destruct E.
Qed.
Theorem buffer_exact cu t v m bits : regular true t -> complete t v -> writes_in_order cu t -> size_bytes t = Some (Some m) -> to_bits cu t v = Ok bits ->
  exists bytes, to_bytes cu t v = Ok bytes /\ length bytes = m /\ forall buf, length buf = m -> to_slice cu t v buf = (Ok m, bytes).
Proof.
  intros R C W S E. destruct (size_bits t) as [n|] eqn:En; [|unfold size_bytes in S; rewrite En in S; discriminate S].
  apply (bytes_of_bits t n m En) in S. destruct (struct_size cu t v n bits R C En E) as (_ & bytes & Hb & Hl).
  assert (length bytes = m) as Hm. { rewrite Hl. subst n. rewrite Nat.mul_comm. replace (m * 8 + 7) with (7 + m * 8) by lia. rewrite Nat.div_add by discriminate. reflexivity. }
  exists bytes. split; [exact Hb|]. split; [exact Hm|]. intros buf Hbuf. pose proof (derived_to_slice cu t v buf W) as P. rewrite Hb in P. rewrite P, Hm, Hbuf, Nat.leb_refl.
  rewrite skipn_all2 by lia. now rewrite app_nil_r.
Qed.
Theorem buffer_enough cu t v m bits : regular false t -> complete t v -> writes_in_order cu t -> size_bytes t = Some (Some m) -> to_bits cu t v = Ok bits ->
  exists bytes, to_bytes cu t v = Ok bytes /\ length bytes <= m /\
    forall buf, m <= length buf -> to_slice cu t v buf = (Ok (length bytes), bytes ++ skipn (length bytes) buf).
Proof.
  intros R C W S E. destruct (size_bits t) as [n|] eqn:En; [|unfold size_bytes in S; rewrite En in S; discriminate S].
  apply (bytes_of_bits t n m En) in S. destruct (type_bound cu t v n bits R C En E) as (_ & bytes & Hb & Hl).
  assert (length bytes <= m) as Hm. { etransitivity; [exact Hl|]. subst n. rewrite Nat.mul_comm. replace (m * 8 + 7) with (7 + m * 8) by lia. rewrite Nat.div_add by discriminate. reflexivity. }
  exists bytes. split; [exact Hb|]. split; [exact Hm|]. intros buf Hbuf. pose proof (derived_to_slice cu t v buf W) as P. rewrite Hb in P. rewrite P.
  destruct (Nat.leb_spec (length bytes) (length buf)); [reflexivity|lia].
Qed.
