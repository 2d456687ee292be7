(** Vocabulary for distances in rounded arithmetic. *)
From Coq Require Import String ZArith QArith Qabs List.
From Verif Require Import Base Spec AttrModel DistanceSpec RoundSpec.
Import ListNotations.
Local Open Scope list_scope.

(** the two features differ by nothing or by an amount whose square is far from the ends of the range of doubles *)
Definition moderate (a b : attr) : Prop :=
  match a, b with
  | ACont (Fin v), ACont (Fin w) => (v == w \/ 1 # (2 ^ 500)%positive <= Qabs (v - w) <= inject_Z (2 ^ 500))%Q
  | ACont _, ACont _ => False
  | _, _ => True
  end.
(** continuous features are whole numbers *)
Definition whole (a : attr) : Prop := forall v, a = ACont v -> exists z, deq v (dofZ z).
(** relative error allowed to a distance over [n] features: [(n + 3) / 2^52] *)
Definition slack (n : nat) : Q := qofn (n + 3) * (2 * ulp_half).
(** same number of features, all of them finite and moderate *)
Definition comparable (x q : instance) : Prop :=
  Forall finite (attrs x) /\ Forall finite (attrs q) /\ Forall2 moderate (attrs x) (attrs q) /\ (Z.of_nat (List.length (attrs q) + 3) <= 2 ^ 20)%Z.
(** [d] is less than [e] by more than the slack *)
Definition clearly_less (n : nat) (d e : Q) : Prop := (d * (1 + slack n) < e * (1 - slack n))%Q.
