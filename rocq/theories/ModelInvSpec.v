(** Vocabulary for the properties that relate two training sets of the other classifiers (order and units). *)
From Coq Require Import String ZArith QArith Bool List Permutation.
From Verif Require Import Base Spec AttrModel StatSpec DiscrimSpec InvSpec.
Import ListNotations.
Local Open Scope list_scope.
Local Open Scope nat_scope.

(** the inversion finds an inverse of every [d] x [d] matrix that has one *)
Definition inverts (d : nat) (inverse : list (list dbl) -> list (list dbl)) : Prop :=
  forall P S, square d P -> inverse_of d P S -> exists S', inverse (map (map Fin) P) = map (map Fin) S' /\ inverse_of d P S'.
(** the [d] x [d] matrix with entries [w] has an inverse *)
Definition invertible (d : nat) (w : nat -> nat -> Q) : Prop :=
  exists s, forall i j, i < d -> j < d -> (qsum (map (fun k => w i k * s k j) (seq 0 d)) == if Nat.eqb i j then 1 else 0)%Q.
(** determinant of the [n] x [n] matrix with entries [w], expanded along the first row *)
Fixpoint det (n : nat) (w : nat -> nat -> Q) : Q :=
  match n with
  | 0 => 1
  | S n => qsum (map (fun j => (if Nat.even j then 1 else -(1)) * w 0%nat j *
                               det n (fun i k => w (S i) (if Nat.ltb k j then k else S k)))%Q (seq 0 (S n)))
  end.
(** the determinant of a finite matrix is computed *)
Definition finds_determinant (d : nat) (determinant : list (list dbl) -> dbl) : Prop :=
  forall P, square d P -> exists D, determinant (map (map Fin) P) = Fin D /\ (D == det d (mget P))%Q.
(** no factor is zero *)
Definition reversible (u : units) : Prop := forall i, ~ (fst (u i) == 0)%Q.
(** all features share the factor [a] *)
Definition common_factor (a : Q) (u : units) : Prop := forall i, (fst (u i) == a)%Q.
(** a score no comparison with -DBL_MAX rules out *)
Definition above_floor (r : Q) : Prop := (- inject_Z (2 ^ 1024 - 2 ^ 971) < r)%Q.

(** how many of [el] are nearer than [x] / not farther than [x] *)
Definition nearer (d : instance -> dbl) (el : list instance) (x : instance) : nat := List.length (filter (fun y => dltb (d y) (d x)) el).
Definition not_farther (d : instance -> dbl) (el : list instance) (x : instance) : nat := List.length (filter (fun y => negb (dltb (d x) (d y))) el).
(** a tie about the last of the [k] places is between instances with the same label *)
Definition decided (d : instance -> dbl) (el : list instance) (k : nat) : Prop :=
  forall x y, In x el -> In y el -> deq (d x) (d y) -> nearer d el x < k < not_farther d el x -> label x = label y.
(** two instances may be compared by the Euclidean distance: same number of features, numbers are finite *)
Definition only_numbers (x : instance) : Prop := Forall (fun a => exists v, a = ACont v) (attrs x).
