(** Vocabulary for C158: the answer and the reported probabilities. *)
From Coq Require Import String ZArith QArith Bool List.
From Verif Require Import Base AttrModel InstanceListModel DistanceModel GaussianModel PerformanceModel GaussianModel LibModel.
Import ListNotations.
Local Open Scope string_scope.
Local Open Scope list_scope.
Local Open Scope nat_scope.

(** among the labels in [allowed], none has a larger number in [m] than [c], and [c] has one if any of them has *)
Definition most (m : smap dbl) (allowed : string -> Prop) (c : string) : Prop :=
  forall c' v', allowed c' -> mfind c' m = Some v' -> exists q q', v' = Fin q' /\ mfind c m = Some (Fin q) /\ (q' <= q)%Q.
(** every number in [m] is an ordinary one, above -DBL_MAX *)
Definition ordinary (m : smap dbl) : Prop := forall c v, mfind c m = Some v -> exists q, v = Fin q /\ dltb (dopp dbl_max) v = true.
(** DiscreteDistribution::getMaxItem(labels): one of the labels, none of them counted more often *)
Definition picks_most (max_item : counter -> list string -> string) : Prop :=
  forall d ls, ls <> [] -> In (max_item d ls) ls /\ forall l, In l ls -> ccount d l <= ccount d (max_item d ls).
(** the classes that override predictProbability with counts of labels, in a state that has something to count *)
Definition counting (c : classifier) : Prop :=
  match c with
  | KnnC (Some (l, k, _)) => l <> [] /\ (0 < k)%Z
  | TreeC _ | DummyC _ | RandomC _ => True
  | BaggingC f | ForestC f => f <> []
  | _ => False
  end.
