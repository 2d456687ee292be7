(** The statistical tests in rounded arithmetic.  Definitions only.  As in RoundModel: the functions of StatTestModel with a
    rounding [R] after every operation, and a square root [sq] on doubles. *)
From Coq Require Import String ZArith QArith Qreduction Bool List.
From Verif Require Import Base AttrModel InstanceListModel PerformanceModel StatTestModel RoundModel.
Import ListNotations.
Local Open Scope list_scope.
Local Open Scope nat_scope.

(** Correctly rounded square root, IEEE 754-2019, 5.4.1: the integer root of [q * 4^k] with [k] so large that it has more than
    54 digits, and half a unit more if it is not exact. *)
Definition b64_sqrt (d : dbl) : dbl :=
  match d with
  | Fin q =>
      if Qle_bool 0 q then
        if Qeq_bool q 0 then d0
        else let k := Z.max 0 (60 - (qexp q) / 2)%Z in
             let x := (q * pow2 (2 * k))%Q in
             let n := Qround.Qfloor x in
             let s := Z.sqrt n in
             let exact := (s * s =? n)%Z && Qeq_bool x (inject_Z n) in
             b64 (Fin ((inject_Z s + (if exact then 0 else 1 # 2)) * pow2 (- k))%Q)
      else NaN
  | PInf => PInf
  | NInf | NaN => NaN
  end.

Section RoundedTests.
  Context (R sq : dbl -> dbl).
  Notation "a |+| b" := (radd R a b) (at level 50, left associativity).
  Notation "a |-| b" := (rsub R a b) (at level 50, left associativity).
  Notation "a |*| b" := (rmul R a b) (at level 40, left associativity).
  Notation "a |/| b" := (rdiv R a b) (at level 40, left associativity).
  Definition r_sum (l : list dbl) : dbl := fold_left (radd R) l d0.
  Definition r_differences (c1 c2 : experiment) : res (list dbl) :=
    mapM (fun i => do a <- exp_error c1 (Z.of_nat i); do b <- exp_error c2 (Z.of_nat i); Ok (a |-| b)) (seq 0 (exp_size c1)).
  (** Pairedt.cpp:15-37 *)
  Definition r_pairedt_stat (c1 c2 : experiment) : res dbl :=
    if negb (Nat.eqb (exp_size c1) (exp_size c2)) then Throw StatTestNotApplicable
    else do ds <- r_differences c1 c2;
         let n := exp_size c1 in
         let mean := r_sum ds |/| rnat R n in
         let sum := r_sum (map (fun d => rpow2 R (d |-| mean)) ds) in
         let sd := sq (sum |/| R (dofZ (Z.of_nat n - 1))) in
         if deqb sd d0 then Throw StatTestNotApplicable
         else Ok ((sq (rnat R n) |*| mean) |/| sd).
  (** Paired5x2t.cpp:28-32, Combined5x2t.cpp:29-34, Combined5x2f.cpp:30-34 *)
  Definition r_five (ds : list dbl) : res (dbl * dbl) :=
    foldM (fun st i => do a <- idxn ds (2 * i); do b <- idxn ds (2 * i + 1);
                       let mean := (a |+| b) |/| Fin 2 in
                       Ok (fst st |+| mean, snd st |+| (rpow2 R (a |-| mean) |+| rpow2 R (b |-| mean))))
          (seq 0 (List.length ds / 2)) (d0, d0).
  (** Paired5x2t.cpp:15-40 *)
  Definition r_paired5x2t_stat (c1 c2 : experiment) : res dbl :=
    if negb (ten_results c1 c2) then Throw StatTestNotApplicable
    else do ds <- r_differences c1 c2;
         do mv <- r_five ds;
         let den := sq (snd mv |/| Fin 5) in
         if deqb den d0 then Throw StatTestNotApplicable
         else do d <- idxn ds 0; Ok (d |/| den).
  (** Combined5x2t.cpp:15-42 *)
  Definition r_combined5x2t_stat (c1 c2 : experiment) : res dbl :=
    if negb (ten_results c1 c2) then Throw StatTestNotApplicable
    else do ds <- r_differences c1 c2;
         do mv <- r_five ds;
         let num := (sq (Fin 10) |*| fst mv) |/| Fin 5 in
         let den := sq (snd mv |/| Fin 5) in
         if deqb den d0 then Throw StatTestNotApplicable else Ok (num |/| den).
  (** Combined5x2f.cpp:15-41 *)
  Definition r_combined5x2f_stat (c1 c2 : experiment) : res dbl :=
    if negb (ten_results c1 c2) then Throw StatTestNotApplicable
    else do ds <- r_differences c1 c2;
         do mv <- r_five ds;
         let num := r_sum (map (rpow2 R) ds) in
         let den := snd mv |*| Fin 2 in
         if deqb den d0 then Throw StatTestNotApplicable else Ok (num |/| den).
  (** Sign.cpp:43-66; pow(2, total) is exact *)
  Definition r_sign_compare (c1 c2 : experiment) : res tresult :=
    if negb (Nat.eqb (exp_size c1) (exp_size c2)) then Throw StatTestNotApplicable
    else do pm <- sign_counts c1 c2;
         let total := fst pm + snd pm in
         if Nat.eqb total 0 then Throw StatTestNotApplicable
         else do p <- foldM (fun p i => do b <- sign_binomial total i; Ok (p |+| (R (dofZ b) |/| dofZ (2 ^ Z.of_nat total))))
                            (seq 0 (S (fst pm))) d0;
              Ok (mkTR p false).
  Section Distributions.
    Context (tdist : dbl -> Z -> dbl) (fdist : dbl -> Z -> Z -> dbl).
    (** Pairedt.cpp:45-49, Paired5x2t.cpp:48-52, Combined5x2t.cpp:51-55, Combined5x2f.cpp:49-54 *)
    Definition r_pairedt_compare (c1 c2 : experiment) : res tresult :=
      do t <- r_pairedt_stat c1 c2; Ok (mkTR (tdist t (Z.of_nat (exp_size c1) - 1)) false).
    Definition r_paired5x2t_compare (c1 c2 : experiment) : res tresult :=
      do t <- r_paired5x2t_stat c1 c2; Ok (mkTR (tdist t (Z.of_nat (exp_size c1) / 2)) false).
    Definition r_combined5x2t_compare (c1 c2 : experiment) : res tresult :=
      do t <- r_combined5x2t_stat c1 c2; Ok (mkTR (tdist t (Z.of_nat (exp_size c1) / 2)) false).
    Definition r_combined5x2f_compare (c1 c2 : experiment) : res tresult :=
      do f <- r_combined5x2f_stat c1 c2; Ok (mkTR (fdist f (Z.of_nat (exp_size c1)) (Z.of_nat (exp_size c1) / 2)) true).
  End Distributions.
End RoundedTests.
(** twoTailed: StatisticalTestResult.cpp:50-64; one_tailed has no arithmetic *)
Definition r_two_tailed (R : dbl -> dbl) (t : tresult) (alpha : dbl) : rtype :=
  if only_two t then (if dltb (p_value t) alpha then REJECT else FAILED_TO_REJECT)
  else if dltb (p_value t) (rdiv R alpha (Fin 2)) || dgtb (p_value t) (rsub R d1 (rdiv R alpha (Fin 2))) then REJECT
  else FAILED_TO_REJECT.
