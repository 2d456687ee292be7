(** Vocabulary for classes whose covariance has no inverse. *)
From Coq Require Import String ZArith QArith Bool List.
From Verif Require Import Base Spec AttrModel StatSpec DiscrimSpec ModelInvSpec.
Import ListNotations.
Local Open Scope list_scope.
Local Open Scope nat_scope.

(** the covariance of the class has determinant zero *)
Definition degenerate (d : nat) (s : sample) (c : string) : Prop := (det d (class_cov s c) == 0)%Q.
(** inversion leaves a matrix of finite numbers, whether it succeeds or gives up half-way *)
Definition leaves_numbers (d : nat) (inverse : list (list dbl) -> list (list dbl)) : Prop :=
  forall P, square d P -> exists S, square d S /\ inverse (map (map Fin) P) = map (map Fin) S.
(** the logarithm of zero is minus infinity, and that of a negative number is not a number *)
Definition log_edges (ln : dbl -> dbl) : Prop := forall q, ((q == 0)%Q -> ln (Fin q) = NInf) /\ ((q < 0)%Q -> ln (Fin q) = NaN).
(** [c] is the first of the labels with the property *)
Definition first_of (P : string -> Prop) (ls : list string) (c : string) : Prop :=
  exists ls1 ls2, ls = ls1 ++ c :: ls2 /\ P c /\ forall x, In x ls1 -> ~ P x.
(** some combination of the rows, with a coefficient that is not zero, is zero *)
Definition dependent (d : nat) (w : nat -> nat -> Q) : Prop :=
  exists k r, r < d /\ ~ (k r == 0)%Q /\ forall j, j < d -> (qsum (map (fun i => k i * w i j) (seq 0 d)) == 0)%Q.
