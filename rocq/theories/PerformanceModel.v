(** Model of src/Performance, Model::test / singleRun and ValidatedModel::testClassifier.  Definitions only. *)
From Coq Require Import String ZArith QArith Bool List.
From Verif Require Import Base AttrModel DataSetModel InstanceListModel StatModel.
Import ListNotations.
Local Open Scope list_scope.
Local Open Scope nat_scope.

(** * ConfusionMatrix *)
(** src/Performance/ConfusionMatrix.h:13-14. *)
Record cmatrix := mkCM { rows : smap counter; clabels : list string }.
(** constructors: ConfusionMatrix.cpp:7-19. *)
Definition cm_empty (labels : list string) : cmatrix := mkCM [] labels.
(** classify: ConfusionMatrix.cpp:29-36. *)
Definition classify (m : cmatrix) (actual predicted : string) : cmatrix :=
  let row := match mfind actual (rows m) with Some r => r | None => [] end in
  mkCM (mset actual (cput row predicted) (rows m)) (clabels m).
(** addConfusionMatrix: ConfusionMatrix.cpp:44-55. *)
Definition cm_add (m m' : cmatrix) : cmatrix :=
  mkCM (fold_left (fun acc kv => match mfind (fst kv) acc with
                                 | Some cur => mset (fst kv) (cadd cur (snd kv)) acc
                                 | None => memplace (fst kv) (snd kv) acc
                                 end) (rows m') (rows m)) (clabels m).
(** sumOfElements, trace, columnSum: ConfusionMatrix.cpp:63-102. *)
Definition cm_sum (m : cmatrix) : dbl := fold_left (fun r kv => dadd r (dofnat (csum (snd kv)))) (rows m) d0.
Definition cm_trace (m : cmatrix) : dbl :=
  fold_left (fun r kv => if mmem (fst kv) (snd kv) then dadd r (dofnat (ccount (snd kv) (fst kv))) else r) (rows m) d0.
Definition cm_column (m : cmatrix) (p : string) : dbl :=
  fold_left (fun r kv => if mmem p (snd kv) then dadd r (dofnat (ccount (snd kv) p)) else r) (rows m) d0.
(** getAccuracy: ConfusionMatrix.cpp:109-111. *)
Definition cm_accuracy (m : cmatrix) : dbl := ddiv (cm_trace m) (cm_sum m).
(** precision, recall: ConfusionMatrix.cpp:118-143; [None] is an entry of the new array that is never written. *)
Definition cm_precision (m : cmatrix) : list (option dbl) :=
  map (fun c => match mfind c (rows m) with
                | Some r => Some (ddiv (dofnat (ccount r c)) (cm_column m c)) | None => None end) (clabels m).
Definition cm_recall (m : cmatrix) : list (option dbl) :=
  map (fun c => match mfind c (rows m) with
                | Some r => Some (ddiv (dofnat (ccount r c)) (dofnat (csum r))) | None => None end) (clabels m).
(** reading a possibly unwritten double *)
Definition initialised (o : option dbl) : res dbl := match o with Some d => Ok d | None => UB Uninit end.
(** fMeasure: ConfusionMatrix.cpp:151-161.  Not modelled: the arrays allocated with new[] are released with delete. *)
Definition cm_fmeasure (m : cmatrix) : res (list dbl) :=
  mapM (fun pr => do p <- initialised (fst pr); do r <- initialised (snd pr);
                  Ok (ddiv (Fin 2) (dadd (ddiv d1 p) (ddiv d1 r))))
       (combine (cm_precision m) (cm_recall m)).
(** weightedFMeasure: ConfusionMatrix.cpp:169-177; dereferences [matrix.find(label)] unchecked. *)
Definition cm_weighted (m : cmatrix) : res dbl :=
  do fs <- cm_fmeasure m;
  do s <- foldM (fun s cf => match mfind (fst cf) (rows m) with
                             | Some r => Ok (dadd s (dmul (snd cf) (dofnat (csum r))))
                             | None => UB EndDeref end) (combine (clabels m) fs) d0;
  Ok (ddiv s (cm_sum m)).

(** * Performance objects: Performance.h, ClassificationPerformance.h, DetailedClassificationPerformance.h *)
Inductive perf := PError (err : dbl) | PClass (acc err : dbl) | PDetail (acc err : dbl) (m : cmatrix).
(** constructors: Performance.cpp:12-14, ClassificationPerformance.cpp:12-26, DetailedClassificationPerformance.cpp:13-15 *)
Definition new_class (acc : dbl) : perf := PClass acc (dsub d1 acc).
Definition new_class2 (acc err : dbl) : perf := PClass acc err.
Definition new_detail (m : cmatrix) : perf := PDetail (cm_accuracy m) (dsub d1 (cm_accuracy m)) m.
Definition error_rate (p : perf) : dbl := match p with PError e | PClass _ e | PDetail _ e _ => e end.
Definition is_classification (p : perf) : bool := match p with PError _ => false | _ => true end.
Definition has_details (p : perf) : bool := match p with PDetail _ _ _ => true | _ => false end.
(** C-style casts to ClassificationPerformance / DetailedClassificationPerformance *)
Definition accuracy_of (p : perf) : res dbl := match p with PError _ => UB BadCast | PClass a _ | PDetail a _ _ => Ok a end.
Definition matrix_of (p : perf) : res cmatrix := match p with PDetail _ _ m => Ok m | _ => UB BadCast end.

(** * ExperimentPerformance: ExperimentPerformance.h:17-20 *)
Record experiment := mkExp { results : list perf; details_flag : bool; class_flag : bool }.
(** default constructor *)
Definition exp_empty : experiment := mkExp [] true true.
(** file constructor: ExperimentPerformance.cpp:23-32; [content] of an existing file; the loop reads up to the end of
    file, so the text after the last newline counts as a line. *)
Definition exp_file (stod : string -> res dbl) (content : string) : res experiment :=
  do rs <- mapM (fun line => do d <- stod line; Ok (PError d)) (split_lines content); Ok (mkExp rs false true).
(** add: ExperimentPerformance.cpp:39-43. *)
Definition exp_add (e : experiment) (p : perf) : experiment :=
  mkExp (results e ++ [p]) (has_details p) (is_classification p).
(** getErrorRate, getAccuracy: ExperimentPerformance.cpp:60-76. *)
Definition exp_error (e : experiment) (i : Z) : res dbl := do p <- at_ (results e) i; Ok (error_rate p).
Definition exp_accuracy (e : experiment) (i : Z) : res dbl :=
  do p <- at_ (results e) i; if is_classification p then accuracy_of p else Throw ClassificationExpected.
(** meanPerformance: ExperimentPerformance.cpp:84-90. *)
Definition exp_mean (e : experiment) : dbl :=
  ddiv (fold_left (fun s p => dadd s (error_rate p)) (results e) d0) (dofnat (List.length (results e))).
(** meanClassificationPerformance: ExperimentPerformance.cpp:98-108; [None] is nullptr. *)
Definition exp_mean_class (e : experiment) : res (option perf) :=
  if (match results e with [] => true | _ => false end) || negb (class_flag e) then Ok None
  else do s <- foldM (fun s p => do a <- accuracy_of p; Ok (dadd s a)) (results e) d0;
       Ok (Some (new_class (ddiv s (dofnat (List.length (results e)))))).
(** meanDetailedPerformance: ExperimentPerformance.cpp:117-126. *)
Definition exp_mean_detail (e : experiment) : res (option perf) :=
  match results e with
  | [] => Ok None
  | p :: ps => if details_flag e then
                 do m0 <- matrix_of p;
                 do m <- foldM (fun m q => do m' <- matrix_of q; Ok (cm_add m m')) ps m0; Ok (Some (new_detail m))
               else Ok None
  end.
(** [results.size() - 1] in 64-bit size_t arithmetic *)
Definition size_minus_1 (n : nat) : dbl := if Nat.eqb n 0 then dofZ (2 ^ 64 - 1) else dofnat (n - 1).
(** standardDeviationPerformance: ExperimentPerformance.cpp:134-142 (the error rate of the new object). *)
Definition exp_std (e : experiment) : rdbl :=
  rsqrt (ddiv (fold_left (fun s p => dadd s (dpow2 (dsub (error_rate p) (exp_mean e)))) (results e) d0)
              (size_minus_1 (List.length (results e)))).
(** standardDeviationClassificationPerformance: ExperimentPerformance.cpp:150-163 (accuracy and error rate). *)
Definition exp_std_class (e : experiment) : res (option (rdbl * rdbl)) :=
  do mp <- exp_mean_class e;
  match mp with
  | None => Ok None
  | Some mean =>
      do ma <- accuracy_of mean;
      do s <- foldM (fun s p => do a <- accuracy_of p;
                                Ok (dadd (fst s) (dpow2 (dsub a ma)), dadd (snd s) (dpow2 (dsub (error_rate p) (error_rate mean)))))
                    (results e) (d0, d0);
      let n := size_minus_1 (List.length (results e)) in
      Ok (Some (rsqrt (ddiv (fst s) n), rsqrt (ddiv (snd s) n)))
  end.
(** isBetter: ExperimentPerformance.cpp:172-177; calls through a null pointer when there is no mean. *)
Definition exp_better (e e' : experiment) : res bool :=
  do p <- exp_mean_class e;
  do a <- match p with Some q => accuracy_of q | None => UB NullDeref end;
  do p' <- exp_mean_class e';
  do a' <- match p' with Some q => accuracy_of q | None => UB NullDeref end;
  Ok (dltb a' a).

(** * Testing a model *)
(** Model::test: src/Model/Model.cpp:45-53. *)
Definition test_model (predict : instance -> res string) (test : ilist) : res perf :=
  do m <- foldM (fun m x => do p <- predict x; Ok (classify m (label x) p)) test (cm_empty (union_possible test));
  Ok (new_detail m).
(** ValidatedModel::testClassifier: src/Model/ValidatedModel.cpp:13-22. *)
Definition test_classifier (predict : instance -> res string) (l : ilist) : res perf :=
  do k <- foldM (fun k x => do p <- predict x; Ok (if String.eqb (label x) p then S k else k)) l 0;
  Ok (new_class (ddiv (dofnat k) (dofnat (List.length l)))).
(** Model::discreteCheck: src/Model/Model.cpp:30-37. *)
Definition discrete_check (x : instance) : bool := forallb (fun a => negb (isDiscrete a && negb (isDiscreteIndexed a))) (attrs x).
