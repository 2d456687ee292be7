(** Vocabulary for C153: using normalised data. *)
From Coq Require Import String ZArith QArith Qreals Reals Bool List.
From Verif Require Import Base Spec AttrModel InstanceListModel StatModel FilterModel.
Import ListNotations.
Local Open Scope list_scope.
Local Open Scope nat_scope.

(** A normalised feature as an attribute, when the result is a rational number: the standard deviation is a square root, so it need not be. *)
Definition held (b : nattr) (a : attr) : Prop :=
  match b with
  | NSame a' => a = a'
  | NCont (RFin r) => exists q, a = ACont (Fin q) /\ Q2R q = r
  | NCont _ => False
  end.
(** [z] is the normalised instance [y] *)
Definition stored (y : string * list nattr * option (list string)) (z : instance) : Prop :=
  label z = fst (fst y) /\ composite z = snd y /\ Forall2 held (snd (fst y)) (attrs z).
(** [l'] is [l] after Normalize *)
Definition normalised (l l' : ilist) : Prop := exists r, normalize l = Ok r /\ Forall2 stored r l'.
