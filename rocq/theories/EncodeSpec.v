(** Words for C149: discrete features replaced by 0/1 indicator features, and nearest neighbours. *)
From Coq Require Import String ZArith QArith Bool List.
From Verif Require Import Base Spec AttrModel DistanceSpec FilterSpec.
Import ListNotations.
Local Open Scope list_scope.
Local Open Scope nat_scope.

(** one feature per known value: 1 for the value it has, 0 for the others *)
Definition zero_one (p : list string * string) : list attr := map (fun b : bool => ACont (Fin (if b then 1 else 0)%Q)) (indicators p).
(** the instance with the features that are not discrete first and the indicators of the discrete ones after them *)
Definition hot (known : list (list string)) (x : instance) : instance :=
  mkInst (label x) (kept known (attrs x) ++ flat_map zero_one (replaced known (attrs x))) (composite x).
(** an instance whose discrete features (those with known values) have known values and whose other features are finite and not discrete *)
Definition described (known : list (list string)) (x : instance) : Prop :=
  Forall2 (fun vs a => match vs with [] => finite a /\ (forall v, a <> ADisc v) | _ => NoDup vs /\ exists v, a = ADisc v /\ In v vs end) known (attrs x).
(** the same without asking that the values are known *)
Definition askable (known : list (list string)) (q : instance) : Prop :=
  Forall2 (fun vs a => match vs with [] => finite a | _ => exists v, a = ADisc v end) known (attrs q).
(** number of discrete features in which two instances differ *)
Fixpoint differ (known : list (list string)) (xs ys : list attr) : nat :=
  match known, xs, ys with
  | vs :: known, a :: xs, b :: ys => (match vs with [] => 0 | _ => if String.eqb (text a) (text b) then 0 else 1 end) + differ known xs ys
  | _, _, _ => 0
  end.
(** number of discrete features whose value is not known *)
Fixpoint unknown (known : list (list string)) (ys : list attr) : nat :=
  match known, ys with
  | vs :: known, b :: ys => (match vs with [] => 0 | _ => if existsb (String.eqb (text b)) vs then 0 else 1 end) + unknown known ys
  | _, _ => 0
  end.
