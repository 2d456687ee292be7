(** Vocabulary for C152: the label that a query carries. *)
From Coq Require Import String ZArith QArith Bool List.
From Verif Require Import Base Spec AttrModel InstanceListModel PerformanceModel DistanceModel LibModel.
Import ListNotations.
Local Open Scope list_scope.
Local Open Scope nat_scope.

(** the same question: all but the label agrees *)
Definition same_question (x y : instance) : Prop := attrs x = attrs y /\ composite x = composite y.
(** a distance that does not look at labels *)
Definition blind (d : metric) : Prop := forall x x' y y', same_question x x' -> same_question y y' -> d x y = d x' y'.
(** What is asked of the parts a classifier was given from outside: its distance, and for the random model the next random number. *)
Definition blind_parts (E : env) (c : classifier) : Prop :=
  match c with
  | KnnC (Some (_, _, d)) | KMeansC (Some (_, d)) => blind d
  | RandomC m => forall x y, same_question x y -> e_random E m x = e_random E m y
  | _ => True
  end.
(** a list put into groups of the same question each *)
Definition groups (l : ilist) (gs : list ilist) : Prop :=
  Permutation.Permutation l (concat gs) /\ Forall (fun g => forall x y, In x g -> In y g -> same_question x y) gs.
(** no two instances that ask the same but are labelled differently, as far as the distance can tell *)
Definition consistent (d : metric) (l : ilist) : Prop := forall x y v, In x l -> In y l -> d x y = Ok (Fin v) -> (v == 0)%Q -> label x = label y.
