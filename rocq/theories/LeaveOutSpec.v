(** Vocabulary for C157: leaving one out. *)
From Coq Require Import String ZArith QArith Bool Permutation List.
From Verif Require Import Base Spec AttrModel InstanceListModel PerformanceModel ExperimentSpec.
Import ListNotations.
Local Open Scope list_scope.
Local Open Scope nat_scope.

(** The Sampling library: not more folds than instances leaves no test part empty. *)
Definition no_empty_fold (kfold : ilist -> nat -> Z -> nat -> ilist * ilist) : Prop := forall l K seed i, K <= length l -> i < K -> snd (kfold l K seed i) <> [].
(** every class has the same number of instances, and there are two classes at least *)
Definition balanced (l : list instance) : Prop := (exists x y, In x l /\ In y l /\ label x <> label y) /\ forall x y, In x l -> In y l -> occ (map label l) (label x) = occ (map label l) (label y).
(** class [a] is at least two instances ahead of every other class *)
Definition ahead_by_two (a : string) (l : list instance) : Prop := forall c, c <> a -> occ (map label l) c + 2 <= occ (map label l) a.
Definition plain (x : instance) : Prop := composite x = None.
(** one round: [x] is left out, [g] is a class most frequent among the others, and the accuracy is 1 if it is that of [x], else 0 *)
Definition scored (l : list instance) (x : instance) (q : perf) : Prop := exists rest g a, Permutation (x :: rest) l /\
  ((rest <> [] -> In g (map label rest)) /\ forall c, occ (map label rest) c <= occ (map label rest) g) /\ accuracy_of q = Ok (Fin a) /\ (a == if String.eqb (label x) g then 1 else 0)%Q.
