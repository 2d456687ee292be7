(** Model of src/StatisticalTest.  Definitions only. *)
From Coq Require Import String ZArith QArith Qreals Reals Bool List.
From Verif Require Import Base AttrModel InstanceListModel StatModel PerformanceModel.
Import ListNotations.
Local Open Scope list_scope.
Local Open Scope nat_scope.

(** StatisticalTestResult.h:13-16 and constructor StatisticalTestResult.cpp:13-16. *)
Record tresult := mkTR { p_value : dbl; only_two : bool }.
(** StatisticalTestResultType.h *)
Inductive rtype := REJECT | FAILED_TO_REJECT.
(** oneTailed: StatisticalTestResult.cpp:26-35. *)
Definition one_tailed (t : tresult) (alpha : dbl) : res rtype :=
  if only_two t then Throw StatTestNotApplicable
  else Ok (if dltb (p_value t) alpha then REJECT else FAILED_TO_REJECT).
(** twoTailed: StatisticalTestResult.cpp:50-64. *)
Definition two_tailed (t : tresult) (alpha : dbl) : rtype :=
  if only_two t then (if dltb (p_value t) alpha then REJECT else FAILED_TO_REJECT)
  else if dltb (p_value t) (ddiv alpha (Fin 2)) || dgtb (p_value t) (dsub d1 (ddiv alpha (Fin 2))) then REJECT
  else FAILED_TO_REJECT.
Definition is_reject (r : rtype) : bool := match r with REJECT => true | FAILED_TO_REJECT => false end.
(** PairedTest::compare(classifier1, classifier2, alpha): PairedTest.cpp:19-33; [cmp] is the overridden two argument
    compare. *)
Definition decide (cmp : experiment -> experiment -> res tresult) (c1 c2 : experiment) (alpha : dbl) : res Z :=
  do r1 <- cmp c1 c2; do r2 <- cmp c2 c1;
  do t1 <- one_tailed r1 alpha; do t2 <- one_tailed r2 alpha;
  Ok (if is_reject t1 then 1%Z else if is_reject t2 then (-1)%Z else 0%Z).

(** numberOfExperiments: ExperimentPerformance.cpp:50-52. *)
Definition exp_size (e : experiment) : nat := List.length (results e).
(** [difference[i] = classifier1.getErrorRate(i) - classifier2.getErrorRate(i)] for all i *)
Definition differences (c1 c2 : experiment) : res (list dbl) :=
  mapM (fun i => do a <- exp_error c1 (Z.of_nat i); do b <- exp_error c2 (Z.of_nat i); Ok (dsub a b)) (seq 0 (exp_size c1)).

(** * Sign test *)
(** signed int multiplication *)
Definition int_mul (a b : Z) : res Z :=
  let r := (a * b)%Z in if (r <=? 2147483647)%Z && (-2147483648 <=? r)%Z then Ok r else UB IntOverflow.
(** factorial: Sign.cpp:14-20. *)
Definition sign_factorial (n : nat) : res Z := foldM (fun r i => int_mul r (Z.of_nat i)) (seq 2 (n - 1)) 1%Z.
(** binomial: Sign.cpp:28-35. *)
Definition sign_binomial (m n : nat) : res Z :=
  if Nat.eqb n 0 || Nat.eqb m n then Ok 1%Z
  else do a <- sign_factorial m; do b <- sign_factorial n; do c <- sign_factorial (m - n);
       do bc <- int_mul b c; if (bc =? 0)%Z then UB IntDivZero else Ok (Z.quot a bc).
(** the counting loop Sign.cpp:48-56 *)
Definition sign_counts (c1 c2 : experiment) : res (nat * nat) :=
  foldM (fun st i => do a <- exp_error c1 (Z.of_nat i); do b <- exp_error c2 (Z.of_nat i);
                     Ok (if dltb a b then (S (fst st), snd st) else if dgtb a b then (fst st, S (snd st)) else st))
        (seq 0 (exp_size c1)) (0, 0).
(** compare: Sign.cpp:43-66; pow(2, total) is the exact power. *)
Definition sign_compare (c1 c2 : experiment) : res tresult :=
  if negb (Nat.eqb (exp_size c1) (exp_size c2)) then Throw StatTestNotApplicable
  else do pm <- sign_counts c1 c2;
       let total := fst pm + snd pm in
       if Nat.eqb total 0 then Throw StatTestNotApplicable
       else do p <- foldM (fun p i => do b <- sign_binomial total i; Ok (dadd p (ddiv (dofZ b) (dofZ (2 ^ Z.of_nat total)))))
                          (seq 0 (S (fst pm))) d0;
            Ok (mkTR p false).

(** * Tests with a square root *)
(** a double used together with square roots; the sign of an infinity is not kept *)
Definition rlift (d : dbl) : rdbl := match d with Fin q => RFin (Q2R q) | PInf | NInf => RInf | NaN => RNaN end.
Definition rmul (a b : rdbl) : rdbl :=
  match a, b with
  | RFin x, RFin y => RFin (x * y)
  | RNaN, _ | _, RNaN => RNaN
  | RInf, RInf => RInf
  | RInf, RFin x | RFin x, RInf => if Req_EM_T x 0 then RNaN else RInf
  end.
Definition rdiv (a b : rdbl) : rdbl :=
  match a, b with
  | RFin x, RFin y => if Req_EM_T y 0 then (if Req_EM_T x 0 then RNaN else RInf) else RFin (x / y)
  | RFin _, RInf => RFin 0
  | RInf, RFin _ => RInf
  | _, _ => RNaN
  end.
Definition is_rzero (a : rdbl) : bool := match a with RFin x => if Req_EM_T x 0 then true else false | _ => false end.
Definition sq (d : dbl) : dbl := dmul d d.
(** Pairedt::testStatistic: Pairedt.cpp:15-37.  [numberOfExperiments() - 1] is an int. *)
Definition pairedt_stat (c1 c2 : experiment) : res rdbl :=
  if negb (Nat.eqb (exp_size c1) (exp_size c2)) then Throw StatTestNotApplicable
  else do ds <- differences c1 c2;
       let n := exp_size c1 in
       let mean := ddiv (dsum ds) (dofnat n) in
       let sum := dsum (map (fun d => sq (dsub d mean)) ds) in
       let sd := rsqrt (ddiv sum (dofZ (Z.of_nat n - 1))) in
       if is_rzero sd then Throw StatTestNotApplicable
       else Ok (rdiv (rmul (rsqrt (dofnat n)) (rlift mean)) sd).
(** The loop over the five pairs shared by the 5x2 tests (Paired5x2t.cpp:28-32, Combined5x2t.cpp:29-34,
    Combined5x2f.cpp:30-34): sum of the means and sum of the variances. *)
Definition five (ds : list dbl) : res (dbl * dbl) :=
  foldM (fun st i => do a <- idxn ds (2 * i); do b <- idxn ds (2 * i + 1);
                     let mean := ddiv (dadd a b) (Fin 2) in
                     Ok (dadd (fst st) mean, dadd (snd st) (dadd (sq (dsub a mean)) (sq (dsub b mean)))))
        (seq 0 (List.length ds / 2)) (d0, d0).
(** the two refusals Combined5x2f.cpp:16-21, Combined5x2t.cpp:16-21, Paired5x2t.cpp:16-21 *)
Definition ten_results (c1 c2 : experiment) : bool := Nat.eqb (exp_size c1) (exp_size c2) && Nat.eqb (exp_size c1) 10.
(** Paired5x2t::testStatistic: Paired5x2t.cpp:15-40. *)
Definition paired5x2t_stat (c1 c2 : experiment) : res rdbl :=
  if negb (ten_results c1 c2) then Throw StatTestNotApplicable
  else do ds <- differences c1 c2;
       do mv <- five ds;
       let den := rsqrt (ddiv (snd mv) (Fin 5)) in
       if is_rzero den then Throw StatTestNotApplicable
       else do d <- idxn ds 0; Ok (rdiv (rlift d) den).
(** Combined5x2t::testStatistic: Combined5x2t.cpp:15-42. *)
Definition combined5x2t_stat (c1 c2 : experiment) : res rdbl :=
  if negb (ten_results c1 c2) then Throw StatTestNotApplicable
  else do ds <- differences c1 c2;
       do mv <- five ds;
       let num := rdiv (rmul (rsqrt (Fin 10)) (rlift (fst mv))) (RFin 5) in
       let den := rsqrt (ddiv (snd mv) (Fin 5)) in
       if is_rzero den then Throw StatTestNotApplicable else Ok (rdiv num den).
(** Combined5x2f::testStatistic: Combined5x2f.cpp:15-41. *)
Definition combined5x2f_stat (c1 c2 : experiment) : res dbl :=
  if negb (ten_results c1 c2) then Throw StatTestNotApplicable
  else do ds <- differences c1 c2;
       do mv <- five ds;
       let num := dsum (map sq ds) in
       let den := dmul (snd mv) (Fin 2) in
       if deqb den d0 then Throw StatTestNotApplicable else Ok (ddiv num den).
Section Distributions.
  (** Math's Distribution::tDistribution(t, degrees) and fDistribution(F, degrees1, degrees2) *)
  Context (tdist : rdbl -> Z -> dbl) (fdist : dbl -> Z -> Z -> dbl).
  (** compare: Pairedt.cpp:45-49, Paired5x2t.cpp:48-52, Combined5x2t.cpp:51-55, Combined5x2f.cpp:49-54. *)
  Definition pairedt_compare (c1 c2 : experiment) : res tresult :=
    do t <- pairedt_stat c1 c2; Ok (mkTR (tdist t (Z.of_nat (exp_size c1) - 1)) false).
  Definition paired5x2t_compare (c1 c2 : experiment) : res tresult :=
    do t <- paired5x2t_stat c1 c2; Ok (mkTR (tdist t (Z.of_nat (exp_size c1) / 2)) false).
  Definition combined5x2t_compare (c1 c2 : experiment) : res tresult :=
    do t <- combined5x2t_stat c1 c2; Ok (mkTR (tdist t (Z.of_nat (exp_size c1) / 2)) false).
  Definition combined5x2f_compare (c1 c2 : experiment) : res tresult :=
    do f <- combined5x2f_stat c1 c2; Ok (mkTR (fdist f (Z.of_nat (exp_size c1)) (Z.of_nat (exp_size c1) / 2)) true).
End Distributions.
