(** Vocabulary for averages, standard deviations and covariance. *)
From Coq Require Import String ZArith QArith Bool List.
From Verif Require Import Base Spec AttrModel.
Import ListNotations.
Local Open Scope list_scope.
Local Open Scope nat_scope.

(** entry of a matrix *)
Definition mget (m : list (list Q)) (i j : nat) : Q := nth j (nth i m []) 0%Q.
(** [m] has [d] rows of length [d] *)
Definition square (d : nat) (m : list (list Q)) : Prop := List.length m = d /\ Forall (fun r => List.length r = d) m.
(** the quadratic form u' m u *)
Definition quad (d : nat) (m : list (list Q)) (u : nat -> Q) : Q :=
  qsum (map (fun i => qsum (map (fun j => u i * mget m i j * u j)%Q (seq 0 d))) (seq 0 d)).
(** arithmetic mean, and sum of squared deviations from it *)
Definition qmean (qs : list Q) : Q := (qsum qs / qofn (List.length qs))%Q.
Definition sqdev (qs : list Q) : Q := qsum (map (fun q => (q - qmean qs) * (q - qmean qs))%Q qs).
(** expected kind of a feature: continuous with a finite value ([None]), or indexed with a known one of [m] values *)
Definition fits (s : option nat) (a : attr) : Prop :=
  match s with
  | None => exists q, a = ACont (Fin q)
  | Some m => exists v i, a = AIdx v (Z.of_nat i) m /\ i < m
  end.
(** every instance has these kinds of features *)
Definition uniform (shape : list (option nat)) (l : list instance) : Prop :=
  Forall (fun x => Forall2 fits shape (attrs x)) l.
(** how many numbers a feature contributes, and all features together *)
Definition width (s : option nat) : nat := match s with None => 1 | Some m => m end.
Definition dim (shape : list (option nat)) : nat := list_sum (map width shape).
