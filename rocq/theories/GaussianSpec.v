(** Vocabulary for the parametric classifiers. *)
From Coq Require Import String ZArith QArith Bool List.
From Verif Require Import Base Spec AttrModel.
Import ListNotations.
Local Open Scope list_scope.
Local Open Scope nat_scope.

(** the labels a prediction chooses from: the possible labels of the query, or else all labels seen in training *)
Definition candidates (seen : list string) (q : instance) : list string :=
  match composite q with Some ls => ls | None => seen end.
(** [n] rows of length [n] *)
Definition square_matrix (n : nat) (m : list (list dbl)) : Prop := List.length m = n /\ Forall (fun r => List.length r = n) m.
(** every feature is discrete, and there are [n] of them *)
Definition all_discrete (n : nat) (x : instance) : Prop :=
  List.length (attrs x) = n /\ Forall (fun a => exists v, a = ADisc v) (attrs x).
(** what is stored for a label after training: the old entry if there was one, otherwise the new one *)
Definition stale_wins {V} (old fresh after : smap V) : Prop :=
  forall c, mfind c after = match mfind c old with Some v => Some v | None => mfind c fresh end.
