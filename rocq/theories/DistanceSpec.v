(** Vocabulary for the distance and nearest neighbour properties. *)
From Coq Require Import String ZArith QArith Qreals Reals Bool List.
From Verif Require Import Base Spec AttrModel.
Import ListNotations.
Local Open Scope list_scope.
Local Open Scope nat_scope.

(** contribution of two features: 1 for different discrete values, the squared difference of continuous values,
    nothing for any other combination of kinds *)
Definition gap (a b : attr) : dbl :=
  match a, b with
  | ADisc v, ADisc w => if String.eqb v w then Fin 0 else Fin 1
  | ACont v, ACont w => dmul (dsub v w) (dsub v w)
  | _, _ => Fin 0
  end.
(** the feature is discrete or continuous, the two kinds a distance looks at *)
Definition measured (a : attr) : Prop := (exists v, a = ADisc v) \/ exists v, a = ACont v.
(** a continuous feature is finite *)
Definition finite (a : attr) : Prop := forall v, a = ACont v -> exists q, v = Fin q.
(** both features are of the same kind *)
Definition same_kind (a b : attr) : Prop :=
  match a, b with
  | ADisc _, ADisc _ | ABin _, ABin _ | AIdx _ _ _, AIdx _ _ _ | ACont _, ACont _ => True
  | _, _ => False
  end.
(** equal features, numbers compared by value *)
Definition same_attr (a b : attr) : Prop :=
  match a, b with ACont v, ACont w => deq v w | _, _ => a = b end.

(** may the training instance be a neighbour of the query: it carries one of the query's possible labels, if the query
    restricts them *)
Definition may_answer (q x : instance) : Prop := forall ls, composite q = Some ls -> In (label x) ls.
