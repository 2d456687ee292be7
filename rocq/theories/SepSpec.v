(** Vocabulary for training data that a support vector machine can tell apart. *)
From Coq Require Import String ZArith QArith Bool List.
From Verif Require Import Base Spec AttrModel InstanceListModel SolverModel SvmSpec SvmModel SvmTrainSpec.
Import ListNotations.
Local Open Scope list_scope.
Local Open Scope nat_scope.

Section Separable.
Context (dexp dtanh : dbl -> dbl) (dpow : dbl -> Z -> dbl) (p : svm_param) (gamma coef0 : Q).
Notation k := (kernel_value dexp dtanh dpow p gamma coef0).
(** the function sum_j beta_j k(u_j, .) of the feature space, and its squared length *)
Definition expansion (us : list (list Q)) (beta : nat -> Q) (v : list Q) : Q := sum_over (length us) (fun j => beta j * k (nth j us []) v)%Q.
Definition squared_length (us : list (list Q)) (beta : nat -> Q) : Q := sum_over (length us) (fun i => beta i * expansion us beta (nth i us []))%Q.
(** the two-class problem with vectors [vs]: some function of the feature space plus a constant has every vector on the right side, at margin 1 or more;
    [C] is larger than 1.001 times its squared length; the kernel is positive semidefinite on the points involved *)
Definition separable (C : Q) (vs : list (list Q)) (signs : list bool) : Prop := exists us beta b0,
  (forall i, i < length vs -> (1 <= ylab signs i * (expansion us beta (nth i vs []) + b0))%Q) /\
  ((1001 # 1000) * squared_length us beta < C)%Q /\
  psd (length (us ++ vs)) (kern dexp dtanh dpow p gamma coef0 (us ++ vs)).
(** for instances: such a function plus a constant is at least 1 on class [a] and at most -1 on class [b]; [C] is larger than 1.001 times its squared length;
    the kernel is positive semidefinite on the points involved *)
Definition told_apart (C : Q) (a b : string) (l : ilist) : Prop := exists us beta b0,
  (forall x, In x l -> label x = a -> 1 <= expansion us beta (qvec x) + b0)%Q /\
  (forall x, In x l -> label x = b -> expansion us beta (qvec x) + b0 <= -(1))%Q /\
  ((1001 # 1000) * squared_length us beta < C)%Q /\
  psd (length (us ++ pair_vectors a b l)) (kern dexp dtanh dpow p gamma coef0 (us ++ pair_vectors a b l)).
End Separable.
(** the same with a plane: scalar product with [w] plus [b0] *)
Definition plane_apart (C : Q) (a b : string) (l : ilist) : Prop := exists w b0,
  (forall x, In x l -> label x = a -> 1 <= qdot w (qvec x) + b0)%Q /\
  (forall x, In x l -> label x = b -> qdot w (qvec x) + b0 <= -(1))%Q /\
  ((1001 # 1000) * qdot w w < C)%Q.
