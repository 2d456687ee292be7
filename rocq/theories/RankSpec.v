(** Vocabulary for C156: changing numbers without changing their order. *)
From Coq Require Import String ZArith QArith Bool List.
From Verif Require Import Base Spec AttrModel TreeModel TreeSpec.
Import ListNotations.
Local Open Scope list_scope.
Local Open Scope nat_scope.

(** [h] changes features only *)
Definition keeps_labels (h : instance -> instance) : Prop := forall x, label (h x) = label x /\ composite (h x) = composite x.
(** on [data], [h] changes numbers only, and no feature changes the order of two instances *)
Definition same_order (shape : list kind) (h : instance -> instance) (data : list instance) : Prop :=
  (forall x, In x data -> typed shape (h x)) /\
  (forall x k, In x data -> nth_error shape k <> Some KCont -> nth_error (attrs (h x)) k = nth_error (attrs x) k) /\
  (forall x y k u v u' v', In x data -> In y data -> nth_error (attrs x) k = Some (ACont (Fin u)) -> nth_error (attrs y) k = Some (ACont (Fin v)) ->
     nth_error (attrs (h x)) k = Some (ACont (Fin u')) -> nth_error (attrs (h y)) k = Some (ACont (Fin v')) -> ((u <= v)%Q <-> (u' <= v')%Q)).
(** the same tree but for the numbers in the conditions *)
Definition same_condition (c c' : condition) : Prop :=
  c_index c = c_index c' /\ c_cmp c = c_cmp c' /\ (c_value c = c_value c' \/ exists p q, c_value c = Some (ACont p) /\ c_value c' = Some (ACont q)).
Inductive same_tree : tree -> tree -> Prop :=
| same_node lab leaf dist c c' ch ch' : same_condition c c' -> Forall2 same_tree ch ch' -> same_tree (Node lab leaf dist c ch) (Node lab leaf dist c' ch').
(** [f k] applied to the number in feature [k] *)
Definition renumber (f : nat -> Q -> Q) (x : instance) : instance :=
  mkInst (label x) (map (fun ka => match snd ka with ACont (Fin q) => ACont (Fin (f (fst ka) q)) | a => a end) (combine (seq 0 (length (attrs x))) (attrs x))) (composite x).
