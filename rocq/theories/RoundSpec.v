(** What is asked of a rounding.  Exact arithmetic and binary64 both satisfy it (RoundProofs.v). *)
From Coq Require Import ZArith QArith Qabs.
From Verif Require Import Base.
(** relative error of one operation: half a unit in the 53rd place *)
Definition ulp_half : Q := 1 # (2 ^ 53)%positive.
(** the range in which a result is neither subnormal nor infinite *)
Definition normal (q : Q) : Prop := (1 # (2 ^ 1022)%positive <= Qabs q <= inject_Z (2 ^ 1023))%Q.
Record rounding (R : dbl -> dbl) : Prop := {
  r_ext : forall a b, deq a b -> deq (R a) (R b);
  r_mono : forall a b, dleb a b = true -> dleb (R a) (R b) = true;
  r_opp : forall a, deq (R (dopp a)) (dopp (R a));
  r_idem : forall a, deq (R (R a)) (R a);
  r_nan : R NaN = NaN; r_pinf : R PInf = PInf; r_fin : forall q, R (Fin q) <> NaN;
  r_int : forall z, (Z.abs z <= 2 ^ 53)%Z -> deq (R (dofZ z)) (dofZ z);
  r_err : forall q, normal q -> exists r, R (Fin q) = Fin r /\ (Qabs (r - q) <= ulp_half * Qabs q)%Q
}.
