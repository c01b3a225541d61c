(** Hand-written readers together with the hand-written writers that go with them, step by
    step: what is read first is written first, with the same choices.  [p] and [q] are what is
    known before and after ([CanonSpec.v]).  No proofs here. *)
From Verif Require Import Base Spec Stream Reader Session Writer WSession Prims CodecSpec Containers ContainerSpec Derive DeriveSpec SafeSpec CanonSpec.

Inductive mirrors (o : order) : forall A : Type, (A -> Prop) -> RM A -> (A -> WM unit) -> spot -> spot -> Prop :=
| mi_prim pr c p q : prim_ok o p q pr c ->
    mirrors o N (fun n => (n < 2 ^ N.of_nat (prim_width pr))%N) (prim_read pr c) (prim_write pr c) p q
| mi_derived cu fuel t lim args p q : rewritable cu o p q t lim args ->
    mirrors o value (typed t) (read_ty cu fuel t lim args) (write_ty cu t args) p q
| mi_ret A (good : A -> Prop) a p : good a -> mirrors o A good (ret a) (fun _ => ret tt) p p
| mi_fail A (good : A -> Prop) e wr p q : mirrors o A good (fail e) wr p q
| mi_bind A B (good1 : A -> Prop) (good2 : A -> B -> Prop) (good : B -> Prop) m f w1 w2 wr p k q :
    mirrors o A good1 m w1 p k -> (forall a, good1 a -> mirrors o B (good2 a) (f a) (w2 a) k q) ->
    (forall a b, good1 a -> good2 a b -> good b /\ forall w, wr b w = (let* _ := w1 a in w2 a b) w) ->
    mirrors o B good (bind m f) wr p q
(** A check or a change of representation. *)
| mi_check A B (good1 : A -> Prop) (good : B -> Prop) m (f : A -> res B) w1 wr p q : mirrors o A good1 m w1 p q ->
    (forall a b, good1 a -> f a = Ok b -> good b /\ forall w, wr b w = w1 a w) ->
    mirrors o B good (let* a := m in lift (f a)) wr p q
| mi_ends A good m wr p p' q q' : mirrors o A good m wr p q -> ends p' p 0 -> ends q q' 0 -> mirrors o A good m wr p' q'
| mi_ext A good (m1 m2 : RM A) w1 w2 p q : (forall r, m1 r = m2 r) -> (forall a w, w1 a w = w2 a w) ->
    mirrors o A good m1 w1 p q -> mirrors o A good m2 w2 p q.
