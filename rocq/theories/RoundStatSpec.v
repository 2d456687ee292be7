(** Vocabulary for the statistical tests in rounded arithmetic. *)
From Coq Require Import ZArith List.
From Verif Require Import Base.
(** both fail in the same way, or both succeed with related results *)
Definition same_outcome {A} (P : A -> A -> Prop) (r r' : res A) : Prop :=
  match r, r' with
  | Ok a, Ok b => P a b
  | Throw e, Throw e' => e = e'
  | UB k, UB k' => k = k'
  | Diverge, Diverge => True
  | _, _ => False
  end.
(** a square root on doubles: equal results for equal arguments, and 0 for 0 *)
Definition root_like (sq : dbl -> dbl) : Prop := (forall a b, deq a b -> deq (sq a) (sq b)) /\ deq (sq d0) d0.
(** a t distribution that depends on the value of its argument only, and for which a statistic and its opposite are not both
    significant *)
Definition fair (tdist : dbl -> Z -> dbl) (alpha : dbl) : Prop :=
  (forall t t' n, deq t t' -> deq (tdist t n) (tdist t' n)) /\
  forall t n, ~ (dltb (tdist t n) alpha = true /\ dltb (tdist (dopp t) n) alpha = true).
