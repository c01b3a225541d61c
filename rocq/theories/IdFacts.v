(** [deku_id]. *)
From Coq Require Import Lia.
From Verif Require Import Base Stream Reader Writer MonadFacts Prims Containers Derive DeriveSpec DeriveSound DeriveProps.

Lemma deku_id_spec vs : forall k,
  deku_id vs k = match nth_variant vs k with Some (v, _) => match v_sel v with SId x => Ok x | _ => Err IdVariantNotFound end | None => Err IdVariantNotFound end.
Proof. induction vs as [|v fs tl IH]; intros [|k]; try reflexivity. apply IH. Qed.
Theorem deku_id_ok vs k x : deku_id vs k = Ok x <-> exists v fs, nth_variant vs k = Some (v, fs) /\ v_sel v = SId x.
Proof.
  rewrite deku_id_spec. split.
  - destruct (nth_variant vs k) as [[v fs]|]; [|discriminate]. intros H. exists v, fs. split; [reflexivity|]. destruct (v_sel v); try discriminate. now injection H as ->.
  - intros (v & fs & -> & ->). reflexivity.
Qed.
Theorem deku_id_err vs k : (forall x, deku_id vs k <> Ok x) -> deku_id vs k = Err IdVariantNotFound.
Proof. rewrite deku_id_spec. destruct (nth_variant vs k) as [[v fs]|]; [|reflexivity]. destruct (v_sel v); try reflexivity. intros H. now destruct (H v0). Qed.
Theorem deku_id_read cu fuel e idt vs args k l r r' x : read_ty cu fuel (TEnum e idt vs) None args r = (Ok (VVar k l), r') -> deku_id vs k = Ok x ->
  exists id r1, id_reader cu fuel e idt args r = (Ok id, r1) /\ (id = x \/ (default_at vs k /\ forall j, ~ matches_at vs id j)).
Proof.
  intros E Hx. destruct (dispatch_inv cu fuel e idt vs args k l r r' E) as (id & r1 & E1 & HC). exists id, r1. split; [exact E1|].
  apply deku_id_ok in Hx. destruct Hx as (v & fs & Hn & Hs). destruct HC as [[(v' & fs' & Hn' & Hm) _]|(HN & HD & _)]; [left|right; auto].
  rewrite Hn in Hn'. injection Hn' as <- <-. rewrite Hs in Hm. cbn [matches] in Hm. now apply value_eqb_ok.
Qed.
Theorem deku_id_written cu e idt vs args k l x w : en_id e = None -> deku_id vs k = Ok x ->
  exists v fs, nth_variant vs k = Some (v, fs) /\
  write_ty cu (TEnum e idt vs) args (VVar k l) w =
  (let* _ := write_magic (c_magic (en_c e)) in
   let* _ := write_ty cu idt (id_args e (ctx_args (en_c e) args)) x in
   fields_write cu (en_c e) (ctx_args (en_c e) args) fs None l l []) w.
Proof.
  intros He Hx. apply deku_id_ok in Hx. destruct Hx as (v & fs & Hn & Hs). exists v, fs. split; [exact Hn|]. rewrite write_enum.
  apply bind_ext. intros [] w1. rewrite (variant_write_nth cu e _ _ vs k l w1 v fs Hn). unfold write_id. rewrite He, Hs. reflexivity.
Qed.
