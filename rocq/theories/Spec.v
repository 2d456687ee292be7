(** Shared vocabulary for stating the properties.  Nothing here is part of the model of the code. *)
From Coq Require Import String ZArith QArith Bool Permutation Sorted List.
From Verif Require Import Base.
Import ListNotations.

(** sum of rationals; a natural number as a rational; scalar product of two rational vectors *)
Definition qsum (l : list Q) : Q := fold_right Qplus 0%Q l.
Definition qofn (n : nat) : Q := inject_Z (Z.of_nat n).
Definition qdot (v w : list Q) : Q := qsum (map (fun p => (fst p * snd p)%Q) (combine v w)).

(** [k] is a valid index of a vector of length [n] *)
Definition in_range (n : nat) (k : Z) : Prop := (0 <= k < Z.of_nat n)%Z.

(** number of [true]s *)
Definition trues (l : list bool) : nat := List.length (filter (fun b => b) l).

(** number of occurrences of a string *)
Definition occ (l : list string) (x : string) : nat := count_occ string_dec l x.

(** [l] lists every element of [src] once, in order of first occurrence *)
Definition first_occurrences (src l : list string) : Prop :=
  NoDup l /\ (forall x, In x l <-> In x src) /\
  (forall x y i j, nth_error l i = Some x -> nth_error l j = Some y ->
     (i < j)%nat <-> (find_pos x src < find_pos y src)%nat).

(** outcome is none of the failures *)
Definition succeeds {A} (r : res A) : Prop := exists a, r = Ok a.

(** Stable sorting by a strict comparison: [equivb] means neither is smaller. *)
Definition equivb {A} (lt : A -> A -> bool) (x y : A) : bool := negb (lt x y) && negb (lt y x).
(** [l'] is [l] rearranged in non-decreasing order, equivalent elements keeping their order *)
Definition is_stable_sort {A} (lt : A -> A -> bool) (l l' : list A) : Prop :=
  Permutation l l' /\ StronglySorted (fun a b => lt b a = false) l' /\
  forall x, In x l -> filter (equivb lt x) l' = filter (equivb lt x) l.
