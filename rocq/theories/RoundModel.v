(** IEEE-754 binary64 and the functions of the library whose results depend on rounding.  Definitions only.
    Every function below is the one of the same name (without r_) in the model, with [R] after each operation on doubles: C++
    evaluates an operation exactly and rounds the result.  With [R] the identity it is that function (C129_same_code).
    Assumed of the platform: no excess precision, no contraction to fused operations, no -ffast-math; pow(x, 2) is the rounded
    square; the zero has no sign. *)
From Coq Require Import String ZArith QArith Qabs Qround Qreduction Bool List.
From Verif Require Import Base AttrModel DataSetModel InstanceListModel StatModel PerformanceModel DistanceModel TreeModel.
Import ListNotations.
Local Open Scope list_scope.
Local Open Scope nat_scope.

(** * Rounding to binary64, to nearest, ties to even: IEEE 754-2019, 4.3.1 *)
Definition pow2 (e : Z) : Q := match e with Z0 => 1 | Zpos p => inject_Z (Z.pow_pos 2 p) | Zneg p => 1 # (2 ^ p)%positive end.
(** the integer nearest to [x] *)
Definition qrne (x : Q) : Z :=
  let f := Qfloor x in
  match (x - inject_Z f ?= 1 # 2)%Q with Lt => f | Gt => f + 1 | Eq => if Z.even f then f else f + 1 end%Z.
(** [2^k <= |q| < 2^(k+1)] *)
Definition qexp (q : Q) : Z :=
  let k := (Z.log2 (Z.abs (Qnum q)) - Z.log2 (Zpos (Qden q)))%Z in
  if Qle_bool (pow2 k) (Qabs q) then k else (k - 1)%Z.
(** the exponent of the last digit: 53 digits, but none below [2^-1074] *)
Definition last_digit (q : Q) : Z := if Qeq_bool q 0 then -1074 else Z.max (qexp q - 52) (-1074).
Definition round_q (q : Q) : Q := inject_Z (qrne (q * pow2 (- last_digit q))) * pow2 (last_digit q).
Definition b64 (d : dbl) : dbl :=
  match d with
  | Fin q => let r := round_q q in
             if Qle_bool (pow2 1024) r then PInf else if Qle_bool r (- pow2 1024) then NInf else Fin (Qred r)
  | _ => d
  end.

Section Rounded.
  Context (R : dbl -> dbl).
  Definition radd (a b : dbl) : dbl := R (dadd a b).
  Definition rsub (a b : dbl) : dbl := R (dsub a b).
  Definition rmul (a b : dbl) : dbl := R (dmul a b).
  Definition rdiv (a b : dbl) : dbl := R (ddiv a b).
  Definition rpow2 (a : dbl) : dbl := rmul a a.
  (** an [int] or [size_t] converted to double *)
  Definition rnat (n : nat) : dbl := R (dofnat n).

  (** ** Performance *)
  (** sumOfElements, trace, columnSum, getAccuracy: ConfusionMatrix.cpp:63-111 *)
  Definition r_cm_sum (m : cmatrix) : dbl := fold_left (fun r kv => radd r (rnat (csum (snd kv)))) (rows m) d0.
  Definition r_cm_trace (m : cmatrix) : dbl :=
    fold_left (fun r kv => if mmem (fst kv) (snd kv) then radd r (rnat (ccount (snd kv) (fst kv))) else r) (rows m) d0.
  Definition r_cm_column (m : cmatrix) (p : string) : dbl :=
    fold_left (fun r kv => if mmem p (snd kv) then radd r (rnat (ccount (snd kv) p)) else r) (rows m) d0.
  Definition r_cm_accuracy (m : cmatrix) : dbl := rdiv (r_cm_trace m) (r_cm_sum m).
  (** precision, recall, fMeasure, weightedFMeasure: ConfusionMatrix.cpp:118-177 *)
  Definition r_cm_precision (m : cmatrix) : list (option dbl) :=
    map (fun c => match mfind c (rows m) with
                  | Some r => Some (rdiv (rnat (ccount r c)) (r_cm_column m c)) | None => None end) (clabels m).
  Definition r_cm_recall (m : cmatrix) : list (option dbl) :=
    map (fun c => match mfind c (rows m) with
                  | Some r => Some (rdiv (rnat (ccount r c)) (rnat (csum r))) | None => None end) (clabels m).
  Definition r_cm_fmeasure (m : cmatrix) : res (list dbl) :=
    mapM (fun pr => do p <- initialised (fst pr); do r <- initialised (snd pr);
                    Ok (rdiv (Fin 2) (radd (rdiv d1 p) (rdiv d1 r))))
         (combine (r_cm_precision m) (r_cm_recall m)).
  Definition r_cm_weighted (m : cmatrix) : res dbl :=
    do fs <- r_cm_fmeasure m;
    do s <- foldM (fun s cf => match mfind (fst cf) (rows m) with
                               | Some r => Ok (radd s (rmul (snd cf) (rnat (csum r))))
                               | None => UB EndDeref end) (combine (clabels m) fs) d0;
    Ok (rdiv s (r_cm_sum m)).
  (** ClassificationPerformance.cpp:12-15, DetailedClassificationPerformance.cpp:13-15 *)
  Definition r_new_class (acc : dbl) : perf := PClass acc (rsub d1 acc).
  Definition r_new_detail (m : cmatrix) : perf := PDetail (r_cm_accuracy m) (rsub d1 (r_cm_accuracy m)) m.
  (** ExperimentPerformance.cpp:84-90, 98-108, 172-177 *)
  Definition r_exp_mean (e : experiment) : dbl :=
    rdiv (fold_left (fun s p => radd s (error_rate p)) (results e) d0) (rnat (List.length (results e))).
  Definition r_exp_mean_class (e : experiment) : res (option perf) :=
    if (match results e with [] => true | _ => false end) || negb (class_flag e) then Ok None
    else do s <- foldM (fun s p => do a <- accuracy_of p; Ok (radd s a)) (results e) d0;
         Ok (Some (r_new_class (rdiv s (rnat (List.length (results e)))))).
  Definition r_exp_better (e e' : experiment) : res bool :=
    do p <- r_exp_mean_class e;
    do a <- match p with Some q => accuracy_of q | None => UB NullDeref end;
    do p' <- r_exp_mean_class e';
    do a' <- match p' with Some q => accuracy_of q | None => UB NullDeref end;
    Ok (dltb a' a).
  (** Model.cpp:45-53, ValidatedModel.cpp:13-22 *)
  Definition r_test_model (predict : instance -> res string) (test : ilist) : res perf :=
    do m <- foldM (fun m x => do p <- predict x; Ok (classify m (label x) p)) test (cm_empty (union_possible test));
    Ok (r_new_detail m).
  Definition r_test_classifier (predict : instance -> res string) (l : ilist) : res perf :=
    do k <- foldM (fun k x => do p <- predict x; Ok (if String.eqb (label x) p then S k else k)) l 0;
    Ok (r_new_class (rdiv (rnat k) (rnat (List.length l)))).

  (** ** Pruning: DecisionTree.cpp:45-69 *)
  Section Prune.
    Context (max_item : counter -> list string -> string).
    Definition r_accuracy_on (t : tree) (l : ilist) : res dbl := do p <- r_test_classifier (tree_predict max_item t) l; accuracy_of p.
    Fixpoint r_prune_node (l : ilist) (plug : tree -> tree) (t : tree) : res tree :=
      match t with
      | Node lab leaf dist c ch =>
          if leaf then Ok t
          else do before <- r_accuracy_on (plug t) l;
               do after <- r_accuracy_on (plug (Node lab true dist c ch)) l;
               if dltb after before then
                 do ch' <- (fix go (done todo : list tree) : res (list tree) :=
                              match todo with
                              | [] => Ok done
                              | n :: todo' => do n' <- r_prune_node l (fun n => plug (Node lab false dist c (done ++ n :: todo'))) n;
                                              go (done ++ [n']) todo'
                              end) [] ch;
                 Ok (Node lab false dist c ch')
               else Ok (Node lab true dist c ch)
      end.
    Definition r_prune (t : tree) (l : ilist) : res tree := r_prune_node l (fun t => t) t.
  End Prune.

  (** ** EuclidianDistance.cpp:18-32 *)
  Definition r_eucl_step (x y : instance) (r : dbl) (i : nat) : res dbl :=
    do a <- get_attr x (Z.of_nat i);
    if isDiscrete a then
      do b <- get_attr y (Z.of_nat i);
      if isDiscrete b then do v <- disc_value a; do w <- disc_value b; Ok (if String.eqb v w then r else radd r d1)
      else Ok r
    else if isContinuous a then
      do b <- get_attr y (Z.of_nat i);
      if isContinuous b then do v <- cont_value a; do w <- cont_value b; Ok (radd r (rpow2 (rsub v w)))
      else Ok r
    else Ok r.
  Definition r_eucl (x y : instance) : res dbl := foldM (r_eucl_step x y) (seq 0 (attr_count x)) d0.
  (** DiscreteDistribution::getProbabilityDistribution, as in TreeModel *)
  Definition r_probabilities (c : counter) : smap dbl := map (fun kv => (fst kv, rdiv (rnat (snd kv)) (rnat (csum c)))) c.
End Rounded.
