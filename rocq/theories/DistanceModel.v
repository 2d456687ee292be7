(** Model of src/DistanceMetric and src/Model/NonParametric (KnnModel, KnnInstance).  Definitions only. *)
From Coq Require Import String ZArith QArith Bool List.
From Verif Require Import Base AttrModel InstanceListModel.
Import ListNotations.
Local Open Scope list_scope.
Local Open Scope nat_scope.

(** EuclidianDistance::distance, one feature: EuclidianDistance.cpp:21-29.  The second instance's feature is only
    looked up when the first one's is discrete or continuous. *)
Definition eucl_step (x y : instance) (r : dbl) (i : nat) : res dbl :=
  do a <- get_attr x (Z.of_nat i);
  if isDiscrete a then
    do b <- get_attr y (Z.of_nat i);
    if isDiscrete b then do v <- disc_value a; do w <- disc_value b; Ok (if String.eqb v w then r else dadd r d1)
    else Ok r
  else if isContinuous a then
    do b <- get_attr y (Z.of_nat i);
    if isContinuous b then do v <- cont_value a; do w <- cont_value b; Ok (dadd r (dpow2 (dsub v w)))
    else Ok r
  else Ok r.
(** EuclidianDistance::distance: EuclidianDistance.cpp:18-32. *)
Definition eucl (x y : instance) : res dbl := foldM (eucl_step x y) (seq 0 (attr_count x)) d0.

(** MahalanobisDistance::distance: MahalanobisDistance.cpp:28-40 with Math's Vector::subtract, dotProduct and
    Matrix::multiplyWithVectorFromLeft, which throw on a size mismatch; INT_MAX is returned then. *)
Definition int_max : dbl := dofZ 2147483647.
Definition vdot (u v : list dbl) : dbl := fold_left (fun s p => dadd s (dmul (fst p) (snd p))) (combine u v) d0.
Definition mat_col (m : list (list dbl)) (j : nat) : list dbl := map (fun r => nth j r d0) m.
Definition mat_cols (m : list (list dbl)) : nat := match m with [] => 0 | r :: _ => List.length r end.
Definition vmul_left (v : list dbl) (m : list (list dbl)) : list dbl := map (fun j => vdot v (mat_col m j)) (seq 0 (mat_cols m)).
Definition mahalanobis (m : list (list dbl)) (x y : instance) : dbl :=
  let v1 := inst_vector x in let v2 := inst_vector y in
  if negb (Nat.eqb (List.length v1) (List.length v2)) then int_max
  else let d := map (fun p => dsub (fst p) (snd p)) (combine v1 v2) in
       if negb (Nat.eqb (List.length m) (List.length d)) then int_max
       else let v3 := vmul_left d m in
            if negb (Nat.eqb (List.length v3) (List.length d)) then int_max else vdot v3 d.

Section Knn.
  (** [dist trainingInstance query] is distanceMetric->distance *)
  Context (dist : instance -> instance -> res dbl).
  (** the test of KnnModel.cpp:61 *)
  Definition eligible (q x : instance) : bool := negb (isComposite q) || mem_str (label x) (possible_labels q).
  (** nearestNeighbors: KnnModel.cpp:53-70; NaN distances break the ordering std::stable_sort needs. *)
  Definition nearest (data : ilist) (k : Z) (q : instance) : res ilist :=
    do ds <- mapM (fun x => do d <- dist x q; Ok (d, x)) (filter (eligible q) data);
    do s <- if Nat.leb (List.length ds) 1 then Ok ds
            else if existsb (fun p => is_nan (fst p)) ds then UB BadOrder
            else Ok (ssort (fun p p' => dltb (fst p) (fst p')) ds);
    Ok (map snd (firstn (Z.to_nat k) s)).
  (** predict: KnnModel.cpp:32-41. *)
  Definition knn_predict (data : ilist) (k : Z) (q : instance) : res string :=
    do ns <- nearest data k q;
    if isComposite q && Nat.eqb (List.length ns) 0 then atn (possible_labels q) 0 else Ok (get_maximum (class_labels ns)).
  (** predictProbability: KnnModel.cpp:94-97 with DiscreteDistribution::getProbabilityDistribution. *)
  Definition knn_probability (data : ilist) (k : Z) (q : instance) : res (smap dbl) :=
    do ns <- nearest data k q;
    let c := class_distribution ns in
    Ok (map (fun kv => (fst kv, ddiv (dofnat (snd kv)) (dofnat (csum c)))) c).
End Knn.
