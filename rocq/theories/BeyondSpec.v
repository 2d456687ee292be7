(** Vocabulary for C155: queries that differ only in values outside of what was seen in training. *)
From Coq Require Import String ZArith QArith Bool List.
From Verif Require Import Base Spec AttrModel.
Import ListNotations.
Local Open Scope list_scope.
Local Open Scope nat_scope.

(** [a] is the value of feature [k] of a training instance *)
Definition met (data : list instance) (k : nat) (a : attr) : Prop := exists x, In x data /\ nth_error (attrs x) k = Some a.
(** numbers that are both at most the smallest, or both at least the largest number met; infinities allowed *)
Definition below_all (data : list instance) (k : nat) (p : dbl) : Prop := forall v, met data k (ACont (Fin v)) -> dleb p (Fin v) = true.
Definition above_all (data : list instance) (k : nat) (p : dbl) : Prop := forall v, met data k (ACont (Fin v)) -> dleb (Fin v) p = true.
Definition beyond (data : list instance) (k : nat) (a b : attr) : Prop :=
  (exists p q, a = ACont p /\ b = ACont q /\ ((below_all data k p /\ below_all data k q) \/ (above_all data k p /\ above_all data k q))) \/
  (** texts, neither of which was met *)
  (exists s s', a = ADisc s /\ b = ADisc s' /\ ~ met data k (ADisc s) /\ ~ met data k (ADisc s')) \/
  (** values of an indexed feature, the number of neither of which was met *)
  (exists s i m s' i' m', a = AIdx s i m /\ b = AIdx s' i' m' /\ forall e, met data k e -> exists t j n, e = AIdx t j n /\ j <> i /\ j <> i').
(** feature by feature the same value or two values from outside; the own labels are free *)
Definition alike (data : list instance) (x y : instance) : Prop :=
  composite x = composite y /\ length (attrs x) = length (attrs y) /\
  forall k a b, nth_error (attrs x) k = Some a -> nth_error (attrs y) k = Some b -> a = b \/ beyond data k a b.
