(** Vocabulary for queries with a list of possible labels. *)
From Coq Require Import String ZArith QArith Bool List.
From Verif Require Import Base Spec AttrModel TreeModel.
Import ListNotations.
Local Open Scope list_scope.
Local Open Scope nat_scope.

(** the query, told that its label is one of [ls] *)
Definition narrowed (ls : list string) (q : instance) : instance := mkInst (label q) (attrs q) (Some ls).
(** the same labels, maybe in another order or repeated *)
Definition same_labels (ls ls' : list string) : Prop := forall c, In c ls <-> In c ls'.
(** wherever the tree answers [c], no other label of [ls] is as frequent *)
Inductive clear (c : string) (ls : list string) : tree -> Prop :=
  clear_node : forall lab leaf dist cond ch,
    (lab = c -> forall c', In c' ls -> c' <> c -> ccount dist c' < ccount dist c) ->
    Forall (clear c ls) ch -> clear c ls (Node lab leaf dist cond ch).
