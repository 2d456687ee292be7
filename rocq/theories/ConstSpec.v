(** Vocabulary for a data set with one more feature. *)
From Coq Require Import String ZArith QArith Bool List.
From Verif Require Import Base Spec AttrModel TreeModel.
Import ListNotations.
Local Open Scope list_scope.
Local Open Scope nat_scope.

(** [l] with [a] at position [i], the entries from there on one place further *)
Definition insert_at {A} (i : nat) (a : A) (l : list A) : list A := firstn i l ++ a :: skipn i l.
(** the instance with one more feature; label and possible labels stay *)
Definition with_feature (i : nat) (a : attr) (x : instance) : instance := mkInst (label x) (insert_at i a (attrs x)) (composite x).
(** the instances have at least [i] features: there is a position [i] to insert at *)
Definition reaches (i : nat) (l : list instance) : Prop := Forall (fun x => i <= length (attrs x)) l.
(** a value that is not NaN; a value that is neither infinite nor NaN *)
Definition a_value (a : attr) : Prop := a <> ACont NaN.
Definition finite_value (a : attr) : Prop := match a with ACont (Fin _) => True | ACont _ => False | _ => True end.
(** a value that has an average: a text or a finite number *)
Definition plain_value (a : attr) : Prop := match a with ADisc _ | ACont (Fin _) => True | _ => False end.
(** the same value; the same number may be written as different fractions *)
Definition same_value (a b : attr) : Prop := match a, b with ACont v, ACont w => deq v w | ADisc v, ADisc w => v = w | _, _ => a = b end.
(** what the two values contribute to a squared distance *)
Definition apart (a b : attr) : Q :=
  match a, b with
  | ADisc v, ADisc w => if string_dec v w then 0 else 1
  | ACont (Fin x), ACont (Fin y) => (x - y) * (x - y)
  | _, _ => 0
  end%Q.
(** the number under which feature [k] is found after the insertion *)
Definition moved (i : nat) (k : Z) : Z := if (k <? Z.of_nat i)%Z then k else (k + 1)%Z.
(** the same tree, asking for the features under their new numbers *)
Fixpoint moved_tree (i : nat) (t : tree) : tree :=
  match t with Node lab leaf dist c ch => Node lab leaf dist (mkCond (moved i (c_index c)) (c_cmp c) (c_value c)) (map (moved_tree i) ch) end.
