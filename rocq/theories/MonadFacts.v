(** Stepping through [bind]. *)
From Verif Require Import Base.

Lemma bind_ok {S A B} (m : ST S A) (f : A -> ST S B) s a s' :
  m s = (Ok a, s') -> bind m f s = f a s'.
Proof. unfold bind. now intros ->. Qed.
Lemma bind_err {S A B} (m : ST S A) (f : A -> ST S B) s e s' :
  m s = (Err e, s') -> bind m f s = (Err e, s').
Proof. unfold bind. now intros ->. Qed.
Lemma bind_panic {S A B} (m : ST S A) (f : A -> ST S B) s s' :
  m s = (Panic, s') -> bind m f s = (Panic, s').
Proof. unfold bind. now intros ->. Qed.
Lemma bind_diverge {S A B} (m : ST S A) (f : A -> ST S B) s s' :
  m s = (Diverge, s') -> bind m f s = (Diverge, s').
Proof. unfold bind. now intros ->. Qed.
Lemma bind_inv {S A B} (m : ST S A) (f : A -> ST S B) s b s'' :
  bind m f s = (Ok b, s'') -> exists a s', m s = (Ok a, s') /\ f a s' = (Ok b, s'').
Proof. unfold bind. destruct (m s) as [[a|e| |] s']; intros H; try discriminate. eauto. Qed.
Lemma bind_assoc {S A B C} (m : ST S A) (f : A -> ST S B) (g : B -> ST S C) s :
  bind (bind m f) g s = bind m (fun a => bind (f a) g) s.
Proof. unfold bind. destruct (m s) as [[]]; reflexivity. Qed.
Lemma bind_ext {S A B} (m : ST S A) (f g : A -> ST S B) s :
  (forall a s', m s = (Ok a, s') -> f a s' = g a s') -> bind m f s = bind m g s.
Proof. unfold bind. intros H. destruct (m s) as [[]] eqn:E; auto. Qed.
Lemma bind_cong {S A B} (m1 m2 : ST S A) (f : A -> ST S B) s :
  m1 s = m2 s -> bind m1 f s = bind m2 f s.
Proof. unfold bind. now intros ->. Qed.
Lemma bind_ret_l {S A B} (a : A) (f : A -> ST S B) s : bind (ret a) f s = f a s.
Proof. reflexivity. Qed.
(** [injection] may unfold the values; these do not. *)
Lemma ok_inj {A} (a b : A) : Ok a = Ok b -> a = b.
Proof. congruence. Qed.
Lemma pair_inj {A B} (a c : A) (b d : B) : (a, b) = (c, d) -> a = c /\ b = d.
Proof. intros H. split; congruence. Qed.
