(** Vocabulary for the instance list and partition properties; independent of the model's helper functions. *)
From Coq Require Import String ZArith QArith Bool List.
From Verif Require Import Base Spec AttrModel.
Import ListNotations.
Local Open Scope list_scope.
Local Open Scope nat_scope.

(** feature [k] of [x] exists and is the attribute [a] *)
Definition feature (x : instance) (k : Z) (a : attr) : Prop :=
  in_range (List.length (attrs x)) k /\ nth_error (attrs x) (Z.to_nat k) = Some a.
(** feature [k] of [x] is continuous with value [v] / has the (discrete, binary or indexed) text [s] /
    is indexed with index [i] *)
Definition numeric (k : Z) (x : instance) (v : dbl) : Prop := feature x k (ACont v).
Definition textual (k : Z) (x : instance) (s : string) : Prop :=
  exists a, feature x k a /\ (a = ADisc s \/ a = ABin s \/ exists i m, a = AIdx s i m).
Definition indexed (k : Z) (x : instance) (i : Z) : Prop := exists s m, feature x k (AIdx s i m).

(** [vs] is the column of feature [k], instance by instance *)
Definition num_column (k : Z) (l : list instance) (vs : list dbl) : Prop := Forall2 (numeric k) l vs.
Definition text_column (k : Z) (l : list instance) (vs : list string) : Prop := Forall2 (textual k) l vs.
Definition index_column (k : Z) (l : list instance) (vs : list Z) : Prop := Forall2 (indexed k) l vs.

(** the elements of [l] whose entry in the parallel list [vs] satisfies [f], in order *)
Definition select {A V} (f : V -> bool) (vs : list V) (l : list A) : list A :=
  map snd (filter (fun p => f (fst p)) (combine vs l)).

(** is feature [k] continuous and equal to [v]? *)
Definition has_number (k : Z) (v : dbl) (x : instance) : bool :=
  match at_ (attrs x) k with Ok (ACont w) => deqb v w | _ => false end.

(** entry of a matrix *)
Definition entry {A} (m : list (list A)) (i j : nat) (v : A) : Prop :=
  exists r, nth_error m i = Some r /\ nth_error r j = Some v.

(** ceiling of a rational as a natural number *)
Definition ceiln (q : Q) : nat := Z.to_nat (- (- Qnum q / Zpos (Qden q))).
