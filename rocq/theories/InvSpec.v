(** Vocabulary for the properties that relate two data sets: the same instances in another order, or with numbers given
    in other units. *)
From Coq Require Import String ZArith QArith Bool List Permutation.
From Verif Require Import Base Spec AttrModel.
Import ListNotations.
Local Open Scope list_scope.
Local Open Scope nat_scope.

(** Units: feature number [i] is multiplied by [fst (u i)], then [snd (u i)] is added (Celsius to Fahrenheit: 9/5, 32). *)
Definition units := nat -> Q * Q.
Definition same_units : units := fun _ => (1%Q, 0%Q).
Definition increasing (u : units) : Prop := forall i, (0 < fst (u i))%Q.
(** finite numbers are converted, everything else stays *)
Definition converted (f : Q * Q) (a b : attr) : Prop :=
  match a, b with
  | ACont (Fin v), ACont (Fin w) => (w == fst f * v + snd f)%Q
  | _, _ => a = b
  end.
(** [y] is [x] with the features in other units *)
Definition rescaled (u : units) (x y : instance) : Prop :=
  label x = label y /\ composite x = composite y /\ length (attrs x) = length (attrs y) /\
  forall i a b, nth_error (attrs x) i = Some a -> nth_error (attrs y) i = Some b -> converted (u i) a b.
(** [l'] holds the instances of [l], in any order, in other units *)
Definition same_data (u : units) (l l' : list instance) : Prop := exists p, Permutation l p /\ Forall2 (rescaled u) p l'.
