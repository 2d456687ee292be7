(** Vocabulary: one feature that repeats another. *)
From Coq Require Import String ZArith QArith Bool List.
From Verif Require Import Base Spec AttrModel InvSpec.
Import ListNotations.
Local Open Scope list_scope.
Local Open Scope nat_scope.

(** in all instances feature [k] says what feature [j] says, numbers possibly in other units: multiplied by [fst f], plus [snd f] *)
Definition repeats (f : Q * Q) (j k : nat) (l : list instance) : Prop :=
  forall x a b, In x l -> nth_error (attrs x) j = Some a -> nth_error (attrs x) k = Some b -> converted f a b.
(** the instance with feature [j] given once more, at the end *)
Definition twice (j : nat) (x : instance) : instance :=
  mkInst (label x) (attrs x ++ match nth_error (attrs x) j with Some a => [a] | None => [] end) (composite x).
