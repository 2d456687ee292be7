(** What C163 speaks of, stated without the ensembles. *)
From Coq Require Import String QArith List.
From Verif Require Import Base Spec.
Import ListNotations.
Local Open Scope list_scope.

(** the probability of a label in a returned map; a label that is not listed has none *)
Definition chance (m : smap dbl) (c : string) (p : Q) : Prop :=
  match mfind c m with Some d => exists q, d = Fin q /\ (q == p)%Q | None => (p == 0)%Q end.
(** two maps list the same labels with the same probabilities *)
Definition same_chances (m m' : smap dbl) : Prop := Forall2 (fun a b => fst a = fst b /\ deq (snd a) (snd b)) m m'.
