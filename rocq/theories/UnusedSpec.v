(** Vocabulary: which features a tree looks at, and instances with one feature fewer. *)
From Coq Require Import String ZArith QArith Bool List.
From Verif Require Import Base Spec AttrModel TreeModel.
Import ListNotations.
Local Open Scope list_scope.
Local Open Scope nat_scope.

(** the instance without feature [i]; label and possible labels stay *)
Definition without (i : nat) (x : instance) : instance := mkInst (label x) (firstn i (attrs x) ++ skipn (S i) (attrs x)) (composite x).
(** no branch of the tree asks for feature [i]; branches below a leaf are not used *)
Inductive ignores (i : nat) : tree -> Prop :=
| ignores_leaf lab dist c ch : ignores i (Node lab true dist c ch)
| ignores_node lab dist c ch : Forall (fun n => c_index (t_cond n) <> Z.of_nat i) ch -> Forall (ignores i) ch -> ignores i (Node lab false dist c ch).
(** the features asked for on the way of [x] through the tree: at a node the branches are tried in order up to the first that
    holds, and the way goes on there *)
Inductive asked : tree -> instance -> Z -> Prop :=
| asked_here lab dist c before n after x : Forall (fun m => satisfy (t_cond m) x = Ok false) before ->
    asked (Node lab false dist c (before ++ n :: after)) x (c_index (t_cond n))
| asked_below lab dist c before n after x k : Forall (fun m => satisfy (t_cond m) x = Ok false) before -> satisfy (t_cond n) x = Ok true ->
    asked n x k -> asked (Node lab false dist c (before ++ n :: after)) x k.
