(** Words for C150: a classifier that is never worse than another, and a classifier that gets better. *)
From Coq Require Import ZArith QArith Reals List.
From Verif Require Import Base InstanceListModel StatModel.

(** error rates [qs] are, fold by fold, at most the error rates [rs] *)
Definition never_worse (qs rs : list Q) : Prop := Forall2 Qle qs rs.
(** What is asked of tDistribution(t, degrees): the probability of a value above t, for a distribution symmetric around 0. *)
Definition upper_tail (tdist : rdbl -> Z -> dbl) : Prop :=
  (forall t n, exists p p', tdist (RFin t) n = Fin p /\ tdist (RFin (- t)) n = Fin p' /\ (p + p' == 1)%Q) /\
  (forall t n p, tdist (RFin t) n = Fin p -> (t <= 0)%R -> (1 # 2 <= p)%Q).
(** Between values two apart it falls.  (Results are rational here, so no function can fall strictly everywhere.) *)
Definition falling (tdist : rdbl -> Z -> dbl) : Prop :=
  forall s t n p p', (0 <= s)%R -> (s + 2 <= t)%R -> tdist (RFin s) n = Fin p -> tdist (RFin t) n = Fin p' -> (p' < p)%Q.
