(** Vocabulary for what the paired tests look at. *)
From Coq Require Import ZArith QArith Bool List Permutation.
From Verif Require Import Base.
Import ListNotations.
Local Open Scope list_scope.

(** The same comparison in other words: the results (q of one classifier, r of the other) are put in another order, and in every
    pair the difference is [a] times what it was.  Percentages instead of fractions are [a] = 100, accuracies instead of error rates
    are [a] = -1; any number may be added to both results of a pair. *)
Definition retold (a : Q) (qs rs qs' rs' : list Q) : Prop :=
  exists l, Permutation (combine qs rs) l /\ Forall2 (fun p p' => fst p' - snd p' == a * (fst p - snd p))%Q l (combine qs' rs').
(** the results two by two: the five repetitions of a two-fold cross validation *)
Fixpoint by_two {A} (l : list A) : list (A * A) := match l with x :: y :: l' => (x, y) :: by_two l' | _ => [] end.
(** The repetitions are put in another order, the two folds of a repetition may change places, and in every pair of results the
    difference is [a] times what it was. *)
Definition fold_retold (a : Q) (p p' : Q * Q) : Prop := (fst p' - snd p' == a * (fst p - snd p))%Q.
Definition rep_retold (a : Q) (h h' : (Q * Q) * (Q * Q)) : Prop :=
  fold_retold a (fst h) (fst h') /\ fold_retold a (snd h) (snd h') \/ fold_retold a (fst h) (snd h') /\ fold_retold a (snd h) (fst h').
Definition reps_retold (a : Q) (qs rs qs' rs' : list Q) : Prop :=
  exists l, Permutation (by_two (combine qs rs)) l /\ Forall2 (rep_retold a) l (by_two (combine qs' rs')).
(** who won a pair *)
Definition outcome (p : dbl * dbl) : bool * bool := (dltb (fst p) (snd p), dltb (snd p) (fst p)).
