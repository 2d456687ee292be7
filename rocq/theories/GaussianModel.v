(** Model of src/Model/Parametric (GaussianModel, KMeansModel, LdaModel, QdaModel, NaiveBayesModel).
    Definitions only; saving and loading is in SerialModel.v. *)
From Coq Require Import String ZArith QArith Bool List.
From Verif Require Import Base AttrModel DataSetModel InstanceListModel PartitionModel PerformanceModel DistanceModel.
Import ListNotations.
Local Open Scope list_scope.
Local Open Scope nat_scope.

(** DBL_MAX *)
Definition dbl_max : dbl := dofZ (2 ^ 1024 - 2 ^ 971).

(** one iteration of the loop of GaussianModel::predict: GaussianModel.cpp:30-43. *)
Definition gauss_step (prior : counter) (metric : string -> res dbl) (st : dbl * string) (c : string) : res (dbl * string) :=
  if mmem c prior then do m <- metric c; Ok (if dgtb m (fst st) then (m, c) else st) else Ok st.
(** GaussianModel::predict: GaussianModel.cpp:15-45 for a query with this calculateMetric. *)
Definition gauss_predict (prior : counter) (metric : string -> res dbl) (q : instance) : res string :=
  do st0 <- match composite q with
            | Some ls => do c <- atn ls 0; Ok (c, ls)
            | None => Ok (cmax prior, mkeys prior)
            end;
  do st <- foldM (gauss_step prior metric) (snd st0) (dopp dbl_max, fst st0); Ok (snd st).

(** the class lists with their labels: Partition(trainSet), Partition.cpp / InstanceListOfSameClass::getClassLabel *)
Definition class_lists (l : ilist) : res (list (string * ilist)) :=
  do gs <- part_class l; Ok (combine (distinct_labels l) gs).

(** * KMeansModel *)
(** an averaged instance: label and attributes, [None] is a null attribute pointer *)
Record kmeans := mkKM { km_prior : counter; km_means : list instance }.
(** reading the attributes of an averaged instance dereferences null pointers *)
Definition average_instance (l : ilist) : res instance :=
  do a <- average l;
  do attrs <- mapM (fun o => match o with Some x => Ok x | None => UB NullDeref end) (snd a);
  Ok (mkInst (fst a) attrs None).
(** train: KMeansModel.cpp:53-61.  Simplification: a null attribute in an average (binary or indexed feature) is
    reported at training time; the code crashes when the feature is first read. *)
Definition kmeans_train (old : kmeans) (l : ilist) : res kmeans :=
  do gs <- part_class l;
  do ms <- mapM average_instance gs;
  Ok (mkKM (class_distribution l) ms).
(** calculateMetric: KMeansModel.cpp:21-28. *)
Definition kmeans_metric (dist : instance -> instance -> res dbl) (m : kmeans) (q : instance) (c : string) : res dbl :=
  match find (fun x => String.eqb (label x) c) (km_means m) with
  | Some x => do d <- dist q x; Ok (dopp d)
  | None => Ok (dopp dbl_max)
  end.
Definition kmeans_predict (dist : instance -> instance -> res dbl) (m : kmeans) (q : instance) : res string :=
  gauss_predict (km_prior m) (kmeans_metric dist m q) q.

(** * Linear and quadratic discriminants *)
(** Math's Vector::dotProduct and Matrix multiplications; [None] is a size mismatch exception. *)
Definition dot_opt (u v : list dbl) : option dbl := if Nat.eqb (List.length u) (List.length v) then Some (vdot u v) else None.
Definition mul_right (m : list (list dbl)) (v : list dbl) : option (list dbl) :=
  if Nat.eqb (mat_cols m) (List.length v) then Some (map (fun r => vdot r v) m) else None.
Definition mul_left (v : list dbl) (m : list (list dbl)) : option (list dbl) :=
  if Nat.eqb (List.length m) (List.length v) then Some (vmul_left v m) else None.
Definition mat_scale (c : dbl) (m : list (list dbl)) : list (list dbl) := map (map (fun v => dmul v c)) m.
Definition mat_div (m : list (list dbl)) (c : dbl) : list (list dbl) := map (map (fun v => ddiv v c)) m.
(** Matrix::add; a dimension mismatch is caught and ignored (LdaModel.cpp:82-85). *)
Definition mat_add (m m' : list (list dbl)) : list (list dbl) :=
  if Nat.eqb (List.length m) (List.length m') && Nat.eqb (mat_cols m) (mat_cols m')
  then map (fun p => map (fun q => dadd (fst q) (snd q)) (combine (fst p) (snd p))) (combine m m') else m.
Definition half : dbl := Fin (1 # 2).

Record lda := mkLda { l_prior : counter; l_w0 : smap dbl; l_w : smap (list dbl) }.
Definition lda_empty : lda := mkLda [] [] [].
Record qda := mkQda { q_lda : lda; q_W : smap (list (list dbl)) }.
Definition qda_empty : qda := mkQda lda_empty [].

Section Discriminants.
  (** [inverse m] is the content of the matrix after Matrix::inverse() (also when it throws DeterminantZero, which is
      caught), [determinant] is Matrix::determinant, [ln] is std::log. *)
  Context (inverse : list (list dbl) -> list (list dbl)) (determinant : list (list dbl) -> dbl) (ln : dbl -> dbl).
  (** DiscreteDistribution::getProbability *)
  Definition prob (c : counter) (k : string) : dbl :=
    if mmem k c then ddiv (dofnat (ccount c k)) (dofnat (csum c)) else d0.

  (** pooled covariance: LdaModel.cpp:76-87. *)
  Definition pooled (l : ilist) (cl : list (string * ilist)) : res (list (list dbl)) :=
    do x0 <- atn l 0;
    do m <- foldM (fun m g => do avg <- cont_average_all (snd g);
                              do c <- covariance avg (snd g);
                              Ok (mat_add m (mat_scale (dofZ (Z.of_nat (List.length (snd g)) - 1)) c)))
                  cl (repeat (repeat d0 (inst_size x0)) (inst_size x0));
    Ok (mat_div m (dofZ (Z.of_nat (List.length l) - Z.of_nat (List.length cl)))).
  (** LdaModel::train: LdaModel.cpp:69-105; [emplace] keeps an entry of an earlier training. *)
  Definition lda_train (old : lda) (l : ilist) : res lda :=
    do x0 <- atn l 0;
    if discrete_check x0 then
      let prior := class_distribution l in
      do cl <- class_lists l;
      do cov <- pooled l cl;
      let inv := inverse cov in
      foldM (fun st g =>
               do avg <- cont_average_all (snd g);
               Ok (match mul_right inv avg with
                   | None => st
                   | Some wi =>
                       let w' := memplace (fst g) wi (l_w st) in
                       match dot_opt wi avg with
                       | None => mkLda prior (l_w0 st) w'
                       | Some d => mkLda prior (memplace (fst g) (dadd (dmul (dopp half) d) (ln (prob prior (fst g)))) (l_w0 st)) w'
                       end
                   end)) cl (mkLda prior (l_w0 old) (l_w old))
    else Throw DiscreteNotAllowed.
  (** LdaModel::calculateMetric: LdaModel.cpp:26-36; a missing label dereferences end(). *)
  Definition lda_metric (m : lda) (q : instance) (c : string) : res dbl :=
    match mfind c (l_w m), mfind c (l_w0 m) with
    | Some wi, Some w0i => Ok (match dot_opt wi (inst_vector q) with Some d => dadd d w0i | None => dbl_max end)
    | _, _ => UB EndDeref
    end.
  Definition lda_predict (m : lda) (q : instance) : res string := gauss_predict (l_prior m) (lda_metric m q) q.

  (** QdaModel::train: QdaModel.cpp:53-83. *)
  Definition qda_train (old : qda) (l : ilist) : res qda :=
    do x0 <- atn l 0;
    if discrete_check x0 then
      do cl <- class_lists l;
      let prior := class_distribution l in
      foldM (fun st g =>
               do avg <- cont_average_all (snd g);
               do cov <- covariance avg (snd g);
               let det := determinant cov in
               let inv := inverse cov in
               let W' := memplace (fst g) (mat_scale (dopp half) inv) (q_W st) in
               Ok (match mul_left avg inv with
                   | None => mkQda (q_lda st) W'
                   | Some wi =>
                       let w' := memplace (fst g) wi (l_w (q_lda st)) in
                       match dot_opt wi avg with
                       | None => mkQda (mkLda prior (l_w0 (q_lda st)) w') W'
                       | Some d => mkQda (mkLda prior (memplace (fst g) (dadd (dmul (dopp half) (dadd d (ln det))) (ln (prob prior (fst g)))) (l_w0 (q_lda st))) w') W'
                       end
                   end)) cl (mkQda (mkLda prior (l_w0 (q_lda old)) (l_w (q_lda old))) (q_W old))
    else Throw DiscreteNotAllowed.
  (** QdaModel::calculateMetric: QdaModel.cpp:24-37. *)
  Definition qda_metric (m : qda) (q : instance) (c : string) : res dbl :=
    match mfind c (q_W m), mfind c (l_w (q_lda m)), mfind c (l_w0 (q_lda m)) with
    | Some Wi, Some wi, Some w0i =>
        let x := inst_vector q in
        Ok (match mul_left x Wi with
            | Some v => match dot_opt v x, dot_opt wi x with Some a, Some b => dadd (dadd a b) w0i | _, _ => dbl_max end
            | None => dbl_max end)
    | _, _, _ => UB EndDeref
    end.
  Definition qda_predict (m : qda) (q : instance) : res string := gauss_predict (l_prior (q_lda m)) (qda_metric m q) q.

  (** * NaiveBayesModel *)
  (** standardDeviation()->toVector() of a class list (StatModel.v gives it over the reals) *)
  Context (std_vec : ilist -> res (list dbl)).
  Record bayes := mkNB { nb_prior : counter; nb_means : smap (list dbl); nb_devs : smap (list dbl); nb_dists : smap (list counter) }.
  Definition bayes_empty : bayes := mkNB [] [] [] [].
  (** trainContinuousVersion: NaiveBayesModel.cpp:100-109. *)
  Definition bayes_cont (st : bayes) (g : string * ilist) : res bayes :=
    do a <- average_instance (snd g);
    do s <- std_vec (snd g);
    Ok (mkNB (nb_prior st) (memplace (fst g) (inst_vector a) (nb_means st)) (memplace (fst g) s (nb_devs st)) (nb_dists st)).
  (** trainDiscreteVersion: NaiveBayesModel.cpp:116-120. *)
  Definition bayes_disc (st : bayes) (g : string * ilist) : res bayes :=
    do ds <- all_attr_distribution (snd g);
    Ok (mkNB (nb_prior st) (nb_means st) (nb_devs st) (memplace (fst g) ds (nb_dists st))).
  (** train: NaiveBayesModel.cpp:128-136. *)
  Definition bayes_train (old : bayes) (l : ilist) : res bayes :=
    let st := mkNB (class_distribution l) (nb_means old) (nb_devs old) (nb_dists old) in
    do cl <- class_lists l;
    do g0 <- atn cl 0; do x0 <- atn (snd g0) 0; do a0 <- get_attr x0 0;
    if isDiscrete a0 then foldM bayes_disc cl st else foldM bayes_cont cl st.
  (** logLikelihoodContinuous: NaiveBayesModel.cpp:37-47. *)
  Definition bayes_ll_cont (m : bayes) (q : instance) (c : string) : res dbl :=
    foldM (fun s i =>
             do a <- get_attr q (Z.of_nat i); do x <- cont_value a;
             do mi <- match mfind c (nb_means m) with Some v => idxn v i | None => UB EndDeref end;
             do si <- match mfind c (nb_devs m) with Some v => idxn v i | None => UB EndDeref end;
             Ok (dadd s (dmul (dopp half) (dpow2 (ddiv (dsub x mi) si)))))
          (seq 0 (attr_count q)) (ln (prob (nb_prior m) c)).
  (** DiscreteDistribution::getProbabilityLaplaceSmoothing: (count + 1) / (sum + number of items + 1) *)
  Definition laplace (c : counter) (k : string) : dbl :=
    ddiv (dofnat (if mmem k c then ccount c k + 1 else 1)) (dofnat (csum c + List.length c + 1)).
  (** logLikelihoodDiscrete: NaiveBayesModel.cpp:59-68. *)
  Definition bayes_ll_disc (m : bayes) (q : instance) (c : string) : res dbl :=
    do ds <- match mfind c (nb_dists m) with Some v => Ok v | None => UB EndDeref end;
    foldM (fun s i =>
             do a <- get_attr q (Z.of_nat i); do x <- disc_value a;
             do d <- atn ds i; Ok (dadd s (ln (laplace d x))))
          (seq 0 (attr_count q)) (ln (prob (nb_prior m) c)).
  (** calculateMetric: NaiveBayesModel.cpp:20-26. *)
  Definition bayes_metric (m : bayes) (q : instance) (c : string) : res dbl :=
    match nb_dists m with [] => bayes_ll_cont m q c | _ => bayes_ll_disc m q c end.
  Definition bayes_predict (m : bayes) (q : instance) : res string := gauss_predict (nb_prior m) (bayes_metric m q) q.
End Discriminants.
