(** Vocabulary for C162: features judged one by one. *)
From Coq Require Import String ZArith QArith Bool List.
From Verif Require Import Base Spec AttrModel ListSpec StatSpec DiscrimSpec ChooseSpec.
Import ListNotations.
Local Open Scope list_scope.
Local Open Scope nat_scope.

(** the texts that [fs] names *)
Definition choose_texts (fs : list Z) (v : list string) : list string := map (fun k => nth (Z.to_nat k) v EmptyString) fs.
(** what feature [k] adds to the score of class [c] for a query: naive Bayes on texts, on numbers (with the deviations [sd]), k-means *)
Definition text_part (f : Q -> Q) (s : tsample) (c : string) (vs : list string) (k : nat) : Q := f (smoothed s c k (nth k vs EmptyString)).
Definition number_part (s : sample) (sd : list Q) (c : string) (v : list Q) (k : nat) : Q :=
  (- (1 # 2) * ((away s c v k / nth k sd 0) * (away s c v k / nth k sd 0)))%Q.
Definition centre_part (s : sample) (c : string) (v : list Q) (k : nat) : Q := (- (away s c v k * away s c v k))%Q.
(** [fs] together, the features counted as often as they are chosen *)
Definition parts (part : nat -> Q) (fs : list Z) : Q := qsum (map (fun k => part (Z.to_nat k)) fs).
(** two training lists and two queries: [l'] and [q'] are [l] and [q] with feature [k] only *)
Definition only (k : nat) (l l' : list instance) (q q' : instance) : Prop := reduced [Z.of_nat k] l l' /\ picks [Z.of_nat k] q q'.
