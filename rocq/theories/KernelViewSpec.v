(** Vocabulary for two data sets that look the same to a kernel. *)
From Coq Require Import String ZArith QArith Bool List.
From Verif Require Import Base Spec AttrModel InstanceListModel SolverModel SvmModel SvmTrainSpec.
Import ListNotations.
Local Open Scope list_scope.
Local Open Scope nat_scope.

(** Two runs end alike: both succeed with related results, or both fail in the same way. *)
Definition alike {A B} (R : A -> B -> Prop) (x : res A) (y : res B) : Prop :=
  match x, y with Ok a, Ok b => R a b | Throw e, Throw e' => e = e' | UB u, UB u' => u = u' | Diverge, Diverge => True | _, _ => False end.

(** The kernel value that training uses for two vectors; the radial kernel goes through the squared norms. *)
Definition training_kernel (dexp dtanh : dbl -> dbl) (dpow : dbl -> Z -> dbl) (p : svm_param) (v w : list node) : dbl :=
  match p_kernel p with
  | LINEAR => ndot v w
  | POLYNOM => dpow (dadd (dmul (p_gamma p) (ndot v w)) (p_coef0 p)) (p_degree p)
  | RBF => dexp (dmul (dopp (p_gamma p)) (dsub (dadd (ndot v v) (ndot w w)) (dmul (Fin 2) (ndot v w))))
  | SIGMOID => dtanh (dadd (dmul (p_gamma p) (ndot v w)) (p_coef0 p))
  end.
(** [f] changes the features only *)
Definition relabels_nothing (f : instance -> instance) : Prop := forall x, label (f x) = label x.
(** the kernel cannot tell the instances of [l] from their images under [f] *)
Definition unseen (dexp dtanh : dbl -> dbl) (dpow : dbl -> Z -> dbl) (p : svm_param) (f : instance -> instance) (l : list instance) : Prop :=
  forall x y, In x l -> In y l ->
    deq (training_kernel dexp dtanh dpow p (inst_nodes (f x)) (inst_nodes (f y))) (training_kernel dexp dtanh dpow p (inst_nodes x) (inst_nodes y)).
(** neither when it compares the query [q] with an instance of [l] *)
Definition unseen_query (dexp dtanh : dbl -> dbl) (dpow : dbl -> Z -> dbl) (p : svm_param) (f : instance -> instance) (l : list instance) (q : instance) : Prop :=
  forall x, In x l -> deq (kernel_fun dexp dtanh dpow p (inst_nodes (f q)) (inst_nodes (f x))) (kernel_fun dexp dtanh dpow p (inst_nodes q) (inst_nodes x)).

(** Training on some data ([r]) and on its image under [f] ([r']): the caller's list is left in the corresponding order, the machine has the
    same classes, numbers of support vectors, offsets and coefficients, and it gives [f q] the answer [q] gets, for the queries in [Q]. *)
Definition machines_agree (dexp dtanh : dbl -> dbl) (dpow : dbl -> Z -> dbl) (f : instance -> instance) (Q : instance -> Prop) (r r' : svm * ilist) : Prop :=
  snd r' = map f (snd r) /\ m_dist (fst r') = m_dist (fst r) /\ m_nsv (fst r') = m_nsv (fst r) /\
  Forall2 deq (m_rho (fst r)) (m_rho (fst r')) /\ Forall2 (Forall2 deq) (m_coef (fst r)) (m_coef (fst r')) /\
  forall q, Q q -> svm_predict dexp dtanh dpow (fst r') (f q) = svm_predict dexp dtanh dpow (fst r) q.

(** * Changes of the features *)
(** [f] keeps all values finite and keeps the scalar products / the distances of the instances that satisfy [P] *)
Definition keeps_products (f : instance -> instance) (P : instance -> Prop) : Prop := forall x y, P x -> P y ->
  finite_values (f x) /\ (qdot (qvec (f x)) (qvec (f y)) == qdot (qvec x) (qvec y))%Q.
Definition keeps_distances (f : instance -> instance) (P : instance -> Prop) : Prop := forall x y, P x -> P y ->
  finite_values (f x) /\ (SvmSpec.sqdist (qvec (f x)) (qvec (f y)) == SvmSpec.sqdist (qvec x) (qvec y))%Q.
(** number [i] of [t] is added to feature [i] *)
Definition moved (t : list Q) (x : instance) : instance :=
  mkInst (label x) (map (fun av => match fst av with ACont v => ACont (dadd v (Fin (snd av))) | a => a end) (combine (attrs x) t)) (composite x).
(** the number [c] is added as a last feature *)
Definition with_feature (c : Q) (x : instance) : instance := mkInst (label x) (attrs x ++ [ACont (Fin c)]) (composite x).
