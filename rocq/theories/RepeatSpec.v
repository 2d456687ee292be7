(** Vocabulary for training data in which every instance is given several times. *)
From Coq Require Import String ZArith QArith Bool List.
From Verif Require Import Base Spec AttrModel TreeModel.
Import ListNotations.
Local Open Scope list_scope.
Local Open Scope nat_scope.

(** every element [m] times *)
Definition each {A} (m : nat) (l : list A) : list A := flat_map (fun x => repeat x m) l.
(** the whole list [m] times, one after the other *)
Definition again {A} (m : nat) (l : list A) : list A := concat (repeat l m).
(** every count [m] times as large *)
Definition times (m : nat) (c : counter) : counter := map (fun kv => (fst kv, m * snd kv)) c.

(** * Contracts of the parts that are not in the repository *)
(** the entropy looks at the relative frequencies only *)
Definition entropy_relative (entropy : counter -> dbl) : Prop := forall m c, 0 < m -> deq (entropy (times m c)) (entropy c).
(** the most frequent of the given labels stays the same when all counts are multiplied *)
Definition max_item_relative (max_item : counter -> list string -> string) : Prop :=
  forall m c ls, 0 < m -> max_item (times m c) ls = max_item c ls.
