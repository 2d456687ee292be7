(** Vocabulary for growing trees in rounded arithmetic. *)
From Coq Require Import String ZArith QArith Qabs List Permutation.
From Verif Require Import Base Spec AttrModel InstanceListModel ListSpec TreeModel TreeSpec RoundModel.
Import ListNotations.
Local Open Scope list_scope.
Local Open Scope nat_scope.

(** the entropies are doubles: rounding does not change them *)
Definition on_grid (R : dbl -> dbl) (entropy : counter -> dbl) : Prop := forall c, deq (R (entropy c)) (entropy c).
(** [s] is part of [data], repetitions counted *)
Definition part_of (s data : list instance) : Prop := exists r, Permutation data (s ++ r).
(** [h * n / n] does not come out below [h] *)
Definition steady_at (R : dbl -> dbl) (h : dbl) (n : nat) : Prop := dltb (R (ddiv (R (dmul h (dofnat n))) (dofnat n))) h = false.
(** ... for the entropy of the class counts of every nonempty part of the data *)
Definition steady (R : dbl -> dbl) (entropy : counter -> dbl) (data : list instance) : Prop :=
  forall s, s <> [] -> part_of s data -> steady_at R (entropy (class_distribution s)) (length s).
(** the rounded midpoint of any two different values of a continuous column tells them apart *)
Definition tells_apart (R : dbl -> dbl) (p v : Q) : Prop :=
  (p < v)%Q -> exists q, R (ddiv (R (Fin (p + v))) (Fin 2)) = Fin q /\ (p <= q < v)%Q.
Definition column_apart (R : dbl -> dbl) (shape : list kind) (data : list instance) : Prop :=
  forall j x y p v, nth_error shape j = Some KCont -> In x data -> In y data ->
    feature x (Z.of_nat j) (ACont (Fin p)) -> feature y (Z.of_nat j) (ACont (Fin v)) -> tells_apart R p v.
(** two numbers that differ by more than eight units in the last place of the larger one *)
Definition spread (p v : Q) : Prop :=
  (Qabs p <= inject_Z (2 ^ 1022) /\ Qabs v <= inject_Z (2 ^ 1022) /\
   (1 # (2 ^ 50)%positive) * Qabs p < v - p /\ (1 # (2 ^ 50)%positive) * Qabs v < v - p /\ 1 # (2 ^ 1071)%positive < v - p)%Q.
