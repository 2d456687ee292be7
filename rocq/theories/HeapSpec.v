(** Vocabulary for statements about object lifetimes. *)
From Coq Require Import String ZArith List.
From Verif Require Import Base AttrModel TreeModel HeapModel.
Import ListNotations.
Local Open Scope list_scope.
Local Open Scope nat_scope.

Definition live (h : heap) (a : addr) : Prop := exists o, nth_error h a = Some (Live o).
Definition freed (h : heap) (a : addr) : Prop := nth_error h a = Some Freed.
(** [h'] is [h] with exactly the cells of [dead] released *)
Definition released (dead : addr -> Prop) (h h' : heap) : Prop :=
  length h' = length h /\
  forall a, (dead a -> live h a /\ freed h' a) /\ (~ dead a -> nth_error h' a = nth_error h a).
(** the instance at [i] holds the attribute objects [ps] *)
Definition holds (h : heap) (i : addr) (ps : list addr) : Prop :=
  exists l c, nth_error h i = Some (Live (OInst l ps c)).
(** the instances [is], read as [xs], use pairwise different attribute objects, [pss] *)
Definition unshared (h : heap) (is : list addr) (pss : list (list addr)) : Prop :=
  Forall2 (holds h) is pss /\ NoDup (concat pss).
(** a continuous feature rewritten in place *)
Definition rewritten (g : dbl -> dbl) (a : attr) : attr := match a with ACont v => ACont (g v) | _ => a end.
(** [y] is [x] with feature [k] rewritten by [f k] *)
Definition rescaled (f : nat -> dbl -> dbl) (x y : instance) : Prop :=
  label y = label x /\ composite y = composite x /\
  forall k, nth_error (attrs y) k = option_map (rewritten (f k)) (nth_error (attrs x) k).
(** numbers of nodes and of branch conditions of a tree *)
Fixpoint node_count (t : tree) : nat :=
  match t with Node _ _ _ _ ch => S (fold_right (fun t n => node_count t + n) 0 ch) end.
Fixpoint condition_count (t : tree) : nat :=
  match t with Node _ _ _ c ch =>
    (match c_value c with Some _ => 1 | None => 0 end) + fold_right (fun t n => condition_count t + n) 0 ch end.
Definition is_node (c : cell) : bool := match c with Live (ONode _ _ _) => true | _ => false end.
Definition is_tree (c : cell) : bool := match c with Live (OTree _ _) => true | _ => false end.
Definition is_live (c : cell) : bool := match c with Live _ => true | _ => false end.
Definition count (p : cell -> bool) (h : heap) : nat := length (filter p h).
