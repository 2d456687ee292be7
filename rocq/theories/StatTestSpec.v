(** Vocabulary for the statistical tests. *)
From Coq Require Import String ZArith QArith Qreals Reals Bool List.
From Verif Require Import Base Spec StatSpec PerformanceModel.
Import ListNotations.
Local Open Scope list_scope.
Local Open Scope nat_scope.

(** the experiment's error rates are the numbers [qs] *)
Definition rates (e : experiment) (qs : list Q) : Prop := map error_rate (results e) = map Fin qs.
(** differences of two lists of error rates *)
Definition diffs (qs rs : list Q) : list Q := map (fun p => (fst p - snd p)%Q) (combine qs rs).
(** how often the first list is strictly smaller *)
Definition wins (l l' : list dbl) : nat := countb (fun p => dltb (fst p) (snd p)) (combine l l').

(** all outcomes of [n] coin tosses, and the fraction of them with at most [k] heads *)
Fixpoint tosses (n : nat) : list (list bool) :=
  match n with 0 => [[]] | S n => map (cons true) (tosses n) ++ map (cons false) (tosses n) end.
Definition at_most (n k : nat) : Q := (qofn (countb (fun t => trues t <=? k) (tosses n)) / qofn (List.length (tosses n)))%Q.

(** two neighbouring results, five times *)
Fixpoint pairs_of (ds : list Q) : list (Q * Q) := match ds with a :: b :: ds' => (a, b) :: pairs_of ds' | _ => [] end.
(** sum of the squared deviations within the pairs *)
Definition pair_var (ds : list Q) : Q := qsum (map (fun p => sqdev [fst p; snd p]) (pairs_of ds)).
