(** Vocabulary for data sets whose features are listed in another order. *)
From Coq Require Import String ZArith QArith Bool List Permutation.
From Verif Require Import Base Spec AttrModel.
Import ListNotations.
Local Open Scope list_scope.
Local Open Scope nat_scope.

(** [p] lists each of the feature numbers 0 .. n-1 once *)
Definition arrangement (n : nat) (p : list nat) : Prop := Permutation p (seq 0 n).
(** the entries of [l] in the order [p] *)
Definition arrange {A} (d : A) (p : list nat) (l : list A) : list A := map (fun j => nth j l d) p.
(** the instance with its features listed in the order [p]; label and possible labels stay *)
Definition reorder (p : list nat) (x : instance) : instance := mkInst (label x) (arrange (ADisc EmptyString) p (attrs x)) (composite x).
(** every instance has [n] features *)
Definition width_n (n : nat) (l : list instance) : Prop := Forall (fun x => length (attrs x) = n) l.
(** every feature of every instance is a text / a number *)
Definition all_texts (l : list instance) : Prop := Forall (fun x => Forall (fun a => exists v, a = ADisc v) (attrs x)) l.
Definition all_numbers (l : list instance) : Prop := Forall (fun x => Forall (fun a => exists v, a = ACont v) (attrs x)) l.
