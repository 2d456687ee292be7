(** Vocabulary for the feature selection properties. *)
From Coq Require Import ZArith Permutation List.
From Verif Require Import Base SelectionModel.
Import ListNotations.
Local Open Scope list_scope.
Local Open Scope Z_scope.

(** [c] is [cur] with one absent feature of the [n] features added / with one of its features removed *)
Definition one_added (n : Z) (cur c : list Z) : Prop := exists i, 0 <= i < n /\ ~ In i cur /\ c = cur ++ [i].
Definition one_removed (cur c : list Z) : Prop := exists l i l', cur = l ++ i :: l' /\ c = l ++ l'.
Definition neighbour (s : strategy) (n : Z) (cur c : list Z) : Prop :=
  match s with
  | SForward => one_added n cur c
  | SBackward => one_removed cur c
  | SFloating => one_added n cur c \/ one_removed cur c
  end.
(** a set of features: no duplicates, all in range *)
Definition feature_set (n : Z) (s : list Z) : Prop := NoDup s /\ Forall (fun i => 0 <= i < n) s.
(** no two members are the same set of features *)
Definition distinct_sets (l : list (list Z)) : Prop := ForallOrdPairs (fun s t => ~ Permutation s t) l.
(** every evaluation succeeds, and [better] on their results behaves like a comparison of numbers *)
Definition comparable {E} (eval : list Z -> res E) (better : E -> E -> res bool) : Prop :=
  let result := fun e => exists s, eval s = Ok e in
  (forall s, exists e, eval s = Ok e) /\
  (forall a b, result a -> result b -> exists r, better a b = Ok r) /\
  (forall a b, result a -> result b -> better a b = Ok true -> better b a = Ok false) /\
  (forall a b c, result a -> result b -> result c -> better a b = Ok false -> better b c = Ok false -> better a c = Ok false).
