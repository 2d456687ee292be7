(** Vocabulary for training and prediction of the support vector machine. *)
From Coq Require Import String ZArith QArith Qabs Bool Sorted List.
From Verif Require Import Base Spec BaseLemmas AttrModel InstanceListModel PerformanceModel SolverModel SvmSpec SvmModel.
Import ListNotations.
Local Open Scope list_scope.
Local Open Scope nat_scope.

(** the numeric vector of an instance, when all its values are finite *)
Definition qvec (x : instance) : list Q := map qval (inst_vals x).
Definition finite_values (x : instance) : Prop := inst_vals x = map Fin (qvec x).
(** the training instances of one class, in their order *)
Definition members (c : string) (l : ilist) : ilist := filter (fun x => String.eqb (label x) c) l.
(** the two-class problem of classes [a] (+1) and [b] (-1) *)
Definition pair_problem (a b : string) (l : ilist) : ilist := members a l ++ members b l.
Definition pair_vectors (a b : string) (l : ilist) : list (list Q) := map qvec (pair_problem a b l).
Definition pair_signs (a b : string) (l : ilist) : list bool := map (fun _ => true) (members a l) ++ map (fun _ => false) (members b l).

Section Case.
Context (dexp dtanh : dbl -> dbl) (dpow : dbl -> Z -> dbl) (p : svm_param) (gamma coef0 C : Q).
Definition kernel_value (v w : list Q) : Q := qval (textbook_kernel dexp dtanh dpow (p_kernel p) (p_degree p) gamma coef0 v w).
(** finite parameters and data, a positive penalty, numbers within the range of double *)
Record train_case (l : ilist) : Prop := {
  tc_libm : libm dexp dtanh dpow;
  tc_gamma : p_gamma p = Fin gamma;
  tc_coef0 : p_coef0 p = Fin coef0;
  tc_C : p_C p = Fin C;
  tc_pos : (0 < C)%Q;
  tc_degree : p_kernel p = POLYNOM -> (0 <= p_degree p)%Z;
  tc_finite : Forall finite_values l;
  tc_range : forall x, In x l -> (1 + C * qsum (map (fun z => Qabs (kernel_value (qvec x) (qvec z))) l) <= MAXQ)%Q }.
(** decision value of the two-class machine with multipliers [al] (one per instance of the pair problem) and offset [rho] *)
Definition pair_decision (a b : string) (l : ilist) (al : list Q) (rho : Q) (w : list Q) : Q :=
  (qsum (map (fun t => sign (fst (fst t)) * snd (fst t) * kernel_value (snd t) w)
    (combine (combine (pair_signs a b l) al) (pair_vectors a b l))) - rho)%Q.
End Case.
(** the classes of a training set, in the order in which the model numbers them *)
Definition classes_of (l : ilist) (cs : list string) : Prop := StronglySorted slt cs /\ forall c, In c cs <-> In c (map label l).
(** votes for class [k]: the pairs (i, j), listed with their decision values, in which [k] wins *)
Definition wins (k : nat) (pv : (nat * nat) * dbl) : bool :=
  let '((i, j), v) := pv in Nat.eqb k (if dgtb v d0 then i else j).
Definition votes (c : nat) (vals : list dbl) (k : nat) : nat := countb (wins k) (combine (class_pairs c) vals).
