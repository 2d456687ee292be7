(** Vocabulary for C161: choosing features. *)
From Coq Require Import String ZArith QArith Bool List.
From Verif Require Import Base Spec AttrModel ListSpec.
Import ListNotations.
Local Open Scope list_scope.
Local Open Scope nat_scope.

(** [y] has the label of [x] and, one after the other, the features of [x] that [fs] names; nothing else *)
Definition picks (fs : list Z) (x y : instance) : Prop := label y = label x /\ composite y = None /\ Forall2 (feature x) fs (attrs y).
(** the same for a list of instances and for several such lists *)
Definition reduced (fs : list Z) (l l' : list instance) : Prop := Forall2 (picks fs) l l'.
Definition reduced_all (fs : list Z) (gs gs' : list (list instance)) : Prop := Forall2 (reduced fs) gs gs'.
(** two calls end alike: with related results, or with the same exception or the same undefined behaviour, or neither ends *)
Definition alike {A B} (P : A -> B -> Prop) (r : res A) (r' : res B) : Prop :=
  match r, r' with
  | Ok a, Ok b => P a b
  | Throw e, Throw e' => e = e'
  | UB u, UB u' => u = u'
  | Diverge, Diverge => True
  | _, _ => False
  end.
(** feature number [k] of the full instances is feature number [j] of the reduced ones *)
Definition moved (fs : list Z) (k : Z) (j : Z) : Prop := in_range (List.length fs) j /\ nth_error fs (Z.to_nat j) = Some k.
(** a normalised instance: the same as [picks] for the results of Normalize *)
Definition picks_normalised {N} (fs : list Z) (r r' : string * list N * option (list string)) : Prop :=
  fst (fst r') = fst (fst r) /\ snd r' = None /\ Forall2 (fun k b => in_range (List.length (snd (fst r))) k /\ nth_error (snd (fst r)) (Z.to_nat k) = Some b) fs (snd (fst r')).
(** all features are finite numbers: [q] *)
Definition numbers (q : list Q) (x : instance) : Prop := attrs x = map (fun v => ACont (Fin v)) q.
(** the numbers that [fs] names *)
Definition choose (fs : list Z) (q : list Q) : list Q := map (fun k => nth (Z.to_nat k) q 0%Q) fs.
