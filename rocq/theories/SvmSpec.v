(** Vocabulary for the support vector machine properties.  Nothing here is part of the model of the code. *)
From Coq Require Import String ZArith QArith Qabs Bool Permutation List.
From Verif Require Import Base Spec AttrModel SolverModel.
Import ListNotations.
Local Open Scope Q_scope.

(** squared Euclidean distance of two vectors (a shorter one counts as padded with zeros) *)
Fixpoint sqdist (v w : list Q) : Q :=
  match v, w with
  | [], _ => qsum (map (fun y => y * y) w)
  | _, [] => qsum (map (fun x => x * x) v)
  | x :: v', y :: w' => (x - y) * (x - y) + sqdist v' w'
  end.
(** the node list (sparse vector) of a vector of finite values *)
Definition svec (v : list Q) : list node := nodelist (map Fin v).

(** What is assumed of libm: functions of the value, and finite on finite arguments (pow for exponents >= 0). *)
Record libm (dexp dtanh : dbl -> dbl) (dpow : dbl -> Z -> dbl) : Prop := {
  exp_value : forall a b, deq a b -> deq (dexp a) (dexp b);
  tanh_value : forall a b, deq a b -> deq (dtanh a) (dtanh b);
  pow_value : forall a b n, deq a b -> deq (dpow a n) (dpow b n);
  exp_finite : forall q, exists r, dexp (Fin q) = Fin r;
  tanh_finite : forall q, exists r, dtanh (Fin q) = Fin r;
  pow_finite : forall q n, (0 <= n)%Z -> exists r, dpow (Fin q) n = Fin r }.

(** The textbook kernels on dense vectors. *)
Definition textbook_kernel (dexp dtanh : dbl -> dbl) (dpow : dbl -> Z -> dbl) (k : kernel_type) (degree : Z) (gamma coef0 : Q)
    (v w : list Q) : dbl :=
  match k with
  | LINEAR => Fin (qdot v w)
  | POLYNOM => dpow (Fin (gamma * qdot v w + coef0)) degree
  | RBF => dexp (Fin (- gamma * sqdist v w))
  | SIGMOID => dtanh (Fin (gamma * qdot v w + coef0))
  end.

(** value of a double that is known to be finite *)
Definition qval (d : dbl) : Q := match d with Fin q => q | _ => 0 end.

(** kernel values of the training vectors [vs] *)
Definition gram dexp dtanh dpow (k : kernel_type) (degree : Z) (gamma coef0 : Q) (vs : list (list Q)) (i j : nat) : Q :=
  qval (textbook_kernel dexp dtanh dpow k degree gamma coef0 (nth i vs []) (nth j vs [])).
(** DBL_MAX *)
Definition MAXQ : Q := inject_Z ((2 ^ 53 - 1) * 2 ^ 971).

(** ** The dual problem with [n] examples, labels [y k] = 1 or -1, kernel values [K], bound [C] *)
Section Dual.
Context (n : nat) (y : nat -> Q) (K : nat -> nat -> Q) (C : Q).
Definition sum_over (f : nat -> Q) : Q := qsum (map f (seq 0 n)).
(** the constraints 0 <= a <= C and sum y a = 0 *)
Definition feasible (a : nat -> Q) : Prop :=
  (forall k, (k < n)%nat -> 0 <= a k /\ a k <= C) /\ sum_over (fun k => y k * a k) == 0.
(** objective 1/2 sum y_i y_j K_ij a_i a_j - sum a_i and its gradient *)
Definition objective (a : nat -> Q) : Q :=
  (1 # 2) * sum_over (fun i => sum_over (fun j => y i * y j * K i j * a i * a j)) - sum_over a.
Definition gradient (a : nat -> Q) (k : nat) : Q := sum_over (fun j => y k * y j * K k j * a j) - 1.
(** [y k * a k] may still grow / shrink *)
Definition can_grow (a : nat -> Q) (k : nat) : Prop := (y k == 1 /\ a k < C) \/ (y k == -(1) /\ 0 < a k).
Definition can_shrink (a : nat -> Q) (k : nat) : Prop := (y k == 1 /\ 0 < a k) \/ (y k == -(1) /\ a k < C).
(** Karush-Kuhn-Tucker conditions up to [e]: no feasible pair exchange gains more than [e] per unit *)
Definition kkt (e : Q) (a : nat -> Q) : Prop :=
  forall i j, (i < n)%nat -> (j < n)%nat -> can_grow a i -> can_shrink a j ->
    y j * gradient a j - y i * gradient a i < e.
End Dual.

(** ** One training problem of the solver *)
(** [true] is the first class (+1), [false] the second (-1) *)
Definition sign (b : bool) : Q := if b then 1 else -(1).
Definition ylab (signs : list bool) (k : nat) : Q := sign (nth k signs true).

Section Case.
Context (dexp dtanh : dbl -> dbl) (dpow : dbl -> Z -> dbl) (p : svm_param) (gamma coef0 C : Q) (vs : list (list Q)) (signs : list bool).
Definition kern : nat -> nat -> Q := gram dexp dtanh dpow (p_kernel p) (p_degree p) gamma coef0 vs.
(** finite parameters, a positive penalty, one sign per vector, numbers that stay within the range of double *)
Record svm_case : Prop := {
  case_libm : libm dexp dtanh dpow;
  case_gamma : p_gamma p = Fin gamma;
  case_coef0 : p_coef0 p = Fin coef0;
  case_C : p_C p = Fin C;
  case_pos : 0 < C;
  case_degree : p_kernel p = POLYNOM -> (0 <= p_degree p)%Z;
  case_signs : length signs = length vs;
  case_range : forall k, (k < length vs)%nat -> 1 + C * sum_over (length vs) (fun j => Qabs (kern k j)) <= MAXQ }.
(** the call the model makes: linear term -1 for every vector *)
Definition svm_solve (fuel : nat) : res (dbl * list dbl) :=
  solve dexp dtanh dpow fuel (length vs) (repeat (Fin (-(1))) (length vs)) (map (fun b => Fin (sign b)) signs) p (map svec vs).
(** the states at the top of the main loop *)
Inductive visited : Z -> solver -> Prop :=
| visited_start s : solver_init dexp dtanh dpow (length vs) (repeat (Fin (-(1))) (length vs)) (map (fun b => Fin (sign b)) signs) p (map svec vs) = Ok s ->
    visited (counter_start (length vs) + 1) s
| visited_next c s c' s' : visited c s -> solve_iter dexp dtanh dpow c s = Ok (Again c' s') -> visited c' s'.
(** state [s] stores multiplier [a o] of training vector [o]: position [k] of every array is about vector activeSet[k] *)
Record represents (s : solver) (a : nat -> Q) : Prop := {
  rep_perm : Permutation (s_set s) (seq 0 (length vs));
  rep_alpha : forall k o, nth_error (s_set s) k = Some o -> exists d, nth_error (s_alpha s) k = Some d /\ deq d (Fin (a o));
  rep_y : forall k o, nth_error (s_set s) k = Some o -> exists d, nth_error (s_y s) k = Some d /\ deq d (Fin (ylab signs o));
  rep_qy : forall k o, nth_error (s_set s) k = Some o -> exists d, nth_error (q_y (s_Q s)) k = Some d /\ deq d (Fin (ylab signs o));
  rep_x : forall k o, nth_error (s_set s) k = Some o -> nth_error (k_x (q_k (s_Q s))) k = Some (svec (nth o vs []));
  rep_status : forall k o, nth_error (s_set s) k = Some o -> exists st, nth_error (s_status s) k = Some st /\
    (is_upper st = true <-> a o == C) /\ (is_lower st = true <-> a o == 0) }.
(** decision value of training vector [k] *)
Definition decision (a : nat -> Q) (r : Q) (k : nat) : Q := sum_over (length vs) (fun j => ylab signs j * a j * kern j k) - r.
(** the margin conditions of a trained machine, up to [e]: vectors below the bound are on the right side of their margin,
    vectors with a positive multiplier are not beyond it *)
Definition margins (e : Q) (a : nat -> Q) (r : Q) : Prop := forall k, (k < length vs)%nat ->
  (a k < C -> 1 - e <= ylab signs k * decision a r k) /\ (0 < a k -> ylab signs k * decision a r k <= 1 + e).
End Case.
(** the kernel values form a positive semidefinite matrix *)
Definition psd (n : nat) (K : nat -> nat -> Q) : Prop :=
  forall c : nat -> Q, 0 <= sum_over n (fun i => sum_over n (fun j => K i j * c i * c j)).
(** [l'] is [l] with positions [i] and [j] exchanged *)
Definition exchanged {A} (i j : nat) (l l' : list A) : Prop :=
  length l' = length l /\ forall k, nth_error l' k = nth_error l (if Nat.eqb k i then j else if Nat.eqb k j then i else k).
