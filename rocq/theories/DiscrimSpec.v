(** Vocabulary for the discriminants, naive Bayes and the Mahalanobis distance. *)
From Coq Require Import String ZArith QArith Bool List.
From Verif Require Import Base Spec AttrModel StatSpec.
Import ListNotations.
Local Open Scope list_scope.
Local Open Scope nat_scope.

(** a labelled sample: the label and the numbers of an instance *)
Definition sample := list (string * list Q).
Definition reads (x : instance) (r : string * list Q) : Prop := label x = fst r /\ inst_vals x = map Fin (snd r).
Definition members (s : sample) (c : string) : sample := filter (fun r => String.eqb (fst r) c) s.
Definition coord (r : string * list Q) (j : nat) : Q := nth j (snd r) 0%Q.
(** relative frequency, mean and covariance of a class *)
Definition frequency (s : sample) (c : string) : Q := (qofn (List.length (members s c)) / qofn (List.length s))%Q.
Definition class_mean (s : sample) (c : string) (j : nat) : Q := qmean (map (fun r => coord r j) (members s c)).
Definition class_cov (s : sample) (c : string) (i j : nat) : Q :=
  (qsum (map (fun r => (coord r i - class_mean s c i) * (coord r j - class_mean s c j)) (members s c))
   / qofn (List.length (members s c) - 1))%Q.
(** pooled covariance: deviations from the mean of the own class, divided by sample size minus number of classes *)
Definition classes (s : sample) : nat := List.length (nodup string_dec (map fst s)).
Definition pooled_cov (s : sample) (i j : nat) : Q :=
  (qsum (map (fun r => (coord r i - class_mean s (fst r) i) * (coord r j - class_mean s (fst r) j)) s)
   / qofn (List.length s - classes s))%Q.
(** [m] is a [d] x [d] matrix with these entries *)
Definition entries (d : nat) (m : list (list Q)) (w : nat -> nat -> Q) : Prop :=
  square d m /\ forall i j, i < d -> j < d -> (mget m i j == w i j)%Q.
(** [s] is the inverse of [p]: the product is the identity *)
Definition inverse_of (d : nat) (p s : list (list Q)) : Prop :=
  square d s /\
  forall i j, i < d -> j < d ->
    (qsum (map (fun k => mget p i k * mget s k j) (seq 0 d)) == if Nat.eqb i j then 1 else 0)%Q.
(** [ln] returns a finite double for a positive argument, read by [f] *)
Definition log_reads (ln : dbl -> dbl) (f : Q -> Q) : Prop :=
  (forall p, 0 < p -> exists r, ln (Fin p) = Fin r /\ r == f p)%Q /\ (forall p q, p == q -> f p == f q)%Q.
(** deviation of a point from the mean of a class *)
Definition away (s : sample) (c : string) (v : list Q) (j : nat) : Q := (nth j v 0 - class_mean s c j)%Q.

(** a labelled sample of texts *)
Definition tsample := list (string * list string).
Definition reads_text (x : instance) (r : string * list string) : Prop := label x = fst r /\ attrs x = map ADisc (snd r).
Definition tmembers (s : tsample) (c : string) : tsample := filter (fun r => String.eqb (fst r) c) s.
Definition tfrequency (s : tsample) (c : string) : Q := (qofn (List.length (tmembers s c)) / qofn (List.length s))%Q.
(** values of feature [i] within class [c] *)
Definition values (s : tsample) (c : string) (i : nat) : list string := map (fun r => nth i (snd r) EmptyString) (tmembers s c).
(** smoothed probability of value [v]: one extra observation for every value seen, and one for all unseen values together *)
Definition smoothed (s : tsample) (c : string) (i : nat) (v : string) : Q :=
  (qofn (occ (values s c i) v + 1) / qofn (List.length (values s c i) + List.length (nodup string_dec (values s c i)) + 1))%Q.

(** an instance whose features are the (finite) numbers of the row *)
Definition reads_numbers (x : instance) (r : string * list Q) : Prop :=
  label x = fst r /\ attrs x = map (fun q => ACont (Fin q)) (snd r).
