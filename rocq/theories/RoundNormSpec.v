(** Vocabulary for C159: averages and normalisation with rounding. *)
From Coq Require Import ZArith QArith Qabs List.
From Verif Require Import Base RoundModel.
Import ListNotations.
(** a number of the binary64 format *)
Definition is_double (q : Q) : Prop := deq (b64 (Fin q)) (Fin q).
(** sum of the magnitudes *)
Definition magnitude (qs : list Q) : Q := fold_right (fun q s => Qabs q + s)%Q 0%Q qs.
(** a square root on doubles: equal results for equal arguments, 0 for 0, not negative for arguments that are not *)
Definition root_of_squares (sq : dbl -> dbl) : Prop :=
  (forall a b, deq a b -> deq (sq a) (sq b)) /\ deq (sq d0) d0 /\ forall a, dleb d0 a = true -> dleb d0 (sq a) = true.
