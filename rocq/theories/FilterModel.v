(** Model of src/Filter.  Definitions only. *)
From Coq Require Import String ZArith QArith Qreals Reals Bool List.
From Verif Require Import Base AttrModel DataSetModel InstanceListModel StatModel DistanceModel GaussianModel.
Import ListNotations.
Local Open Scope list_scope.
Local Open Scope nat_scope.

(** DiscreteDistribution::getIndex: position of the item in map order, -1 if it is missing. *)
Definition dist_index (c : counter) (s : string) : Z := value_index_from 0 s (mkeys c).
(** [!attributeDistributions.at(i).empty()] *)
Definition dist_used (c : counter) : bool := match c with [] => false | _ => true end.

(** LaryFilter::removeDiscreteAttributes(instance, size): LaryFilter.cpp:23-32. *)
Definition remove_discrete (dists : list counter) (x : instance) (size : nat) : res instance :=
  do r <- foldM (fun st i => do d <- atn dists i;
                             if dist_used d then do y <- remove_attr (snd st) (Z.of_nat (fst st)); Ok (fst st, y)
                             else Ok (S (fst st), snd st)) (seq 0 size) (0, x);
  Ok (snd r).
Section Lary.
  (** [fmt] is std::to_string(double), see AttrModel.attr_string; [encode value index size] are the attributes added for
      one discrete feature. *)
  Context (fmt : dbl -> string) (encode : string -> Z -> nat -> list attr).
  (** convertInstance: DiscreteToContinuous.cpp:24-40, LaryToBinary.cpp:23-38, DiscreteToIndexed.cpp:22-31. *)
  Definition lary_convert (dists : list counter) (x : instance) : res instance :=
    let size := attr_count x in
    do y <- foldM (fun y i => do d <- atn dists i;
                              if dist_used d then
                                do a <- get_attr y (Z.of_nat i);
                                let s := attr_string fmt a in
                                Ok (fold_left add_attr (encode s (dist_index d s) (List.length d)) y)
                              else Ok y) (seq 0 size) x;
    remove_discrete dists y size.
  (** LaryFilter constructor (LaryFilter.cpp:12-14) and FeatureFilter::convert (FeatureFilter.cpp:20-26);
      [convert_def] is convertDataDefinition. *)
  Definition lary_filter (convert_def : list counter -> datadef -> res datadef) (s : dataset) : res dataset :=
    do dists <- all_attr_distribution (insts s);
    do l <- mapM (lary_convert dists) (insts s);
    do d <- convert_def dists (ddef s);
    Ok (mkDS l d).
End Lary.
(** the loops [j < distribution.size()] of DiscreteToContinuous.cpp:30-36 and LaryToBinary.cpp:28-34 *)
Definition enc_continuous (s : string) (index : Z) (n : nat) : list attr :=
  map (fun j => ACont (if (Z.of_nat j =? index)%Z then d1 else d0)) (seq 0 n).
Definition enc_binary (s : string) (index : Z) (n : nat) : list attr :=
  map (fun j => new_binary (Z.of_nat j =? index)%Z) (seq 0 n).
(** DiscreteToIndexed.cpp:27 *)
Definition enc_indexed (s : string) (index : Z) (n : nat) : list attr := [AIdx s index n].

(** LaryFilter::removeDiscreteAttributes(size): LaryFilter.cpp:39-49, on a fresh copy [d] of the definition. *)
Definition remove_discrete_def (dists : list counter) (d : datadef) (size : nat) : res datadef :=
  do r <- foldM (fun st i => do c <- atn dists i;
                             if dist_used c then do e <- def_remove (snd st) (Z.of_nat (fst st)); Ok (fst st, e)
                             else Ok (S (fst st), snd st)) (seq 0 size) (0, d);
  Ok (snd r).
(** convertDataDefinition: DiscreteToContinuous.cpp:46-57, LaryToBinary.cpp:43-54, DiscreteToIndexed.cpp:36-45.
    [getDataDefinition] returns a copy, so both loops change local copies and the data set keeps its definition. *)
Definition convert_def (types_for : nat -> list atype) (dists : list counter) (d : datadef) : res datadef :=
  do _ <- foldM (fun e i => do c <- atn dists i;
                            if dist_used c then Ok (fold_left def_add (types_for (List.length c)) e) else Ok e)
                (seq 0 (def_count d)) d;
  do _ <- remove_discrete_def dists d (def_count d);
  Ok d.
Definition to_continuous (fmt : dbl -> string) : dataset -> res dataset :=
  lary_filter fmt enc_continuous (convert_def (fun n => repeat TCont n)).
Definition to_binary (fmt : dbl -> string) : dataset -> res dataset :=
  lary_filter fmt enc_binary (convert_def (fun n => repeat TBin n)).
Definition to_indexed (fmt : dbl -> string) : dataset -> res dataset :=
  lary_filter fmt enc_indexed (convert_def (fun _ => [TIdx])).

(** * Normalize *)
(** an attribute after normalisation: continuous values become real numbers (the standard deviation is a square root) *)
Inductive nattr := NSame (a : attr) | NCont (v : rdbl).
(** [a / b] for a finite or non-finite double [a] and a standard deviation [b] *)
Definition rdivd (a : dbl) (b : rdbl) : rdbl :=
  match a, b with
  | Fin q, RFin r => if Req_EM_T r 0 then (if Qeq_bool q 0 then RNaN else RInf) else RFin (Q2R q / r)
  | Fin _, RInf => RFin 0
  | _, _ => RNaN
  end.
(** Normalize::convertInstance: Normalize.cpp:24-33.  [avg]/[std] are the attributes of averageInstance and
    standardDeviationInstance, [None] a null pointer.  Simplifications: an infinite quotient loses its sign, and a
    quotient with an infinite dividend is reported as NaN. *)
Definition norm_attr (avg : list (option attr)) (std : list (option rdbl)) (i : nat) (a : attr) : res nattr :=
  match a with
  | ACont v =>
      do m <- atn avg i; do s <- atn std i;
      match m with
      | None => UB NullDeref
      | Some ma => do mv <- cont_value ma;
                   match s with None => UB NullDeref | Some sv => Ok (NCont (rdivd (dsub v mv) sv)) end
      end
  | _ => Ok (NSame a)
  end.
Definition normalize_instance (avg : list (option attr)) (std : list (option rdbl)) (x : instance) : res (string * list nattr * option (list string)) :=
  do r <- mapM (fun p => norm_attr avg std (fst p) (snd p)) (combine (seq 0 (attr_count x)) (attrs x));
  Ok (label x, r, composite x).
(** constructor Normalize.cpp:14-17 and convert; convertDataDefinition (35-36) does nothing. *)
Definition normalize (l : ilist) : res (list (string * list nattr * option (list string))) :=
  do avg <- average l; do std <- std_all l;
  mapM (normalize_instance (snd avg) (snd std)) l.

(** * Pca *)
Section Pca.
  (** [characteristics m] is Math's Matrix::characteristics: eigenvalue and eigenvector pairs, or [None] when it throws
      MatrixNotSymmetric. *)
  Context (characteristics : list (list dbl) -> option (list (dbl * list dbl))).
  (** train: Pca.cpp:74-86; [k] is numberOfDimensions, -1 when it was not given.  removeUnnecessaryEigenvectors
      (46-60) compares an uninitialised iterator before anything else; removeAllEigenvectorsExceptTheMostImportantK
      (66-68) erases from begin() + k. *)
  Definition pca_train (k : Z) (l : ilist) : res (list (list dbl)) :=
    do avg <- cont_average_all l;
    do c <- covariance avg l;
    match characteristics c with
    | None => Ok []
    | Some ev => if (k =? -1)%Z then UB Uninit
                 else if (k <? 0)%Z || (Z.of_nat (List.length ev) <? k)%Z then UB BadIndex
                 else Ok (map snd (firstn (Z.to_nat k) ev))
    end.
  (** convertInstance: Pca.cpp:95-104; a mismatching eigenvector adds nothing. *)
  Definition pca_convert (ev : list (list dbl)) (x : instance) : instance :=
    let v := inst_vals x in
    fold_left (fun y e => match dot_opt v e with Some d => add_attr y (ACont d) | None => y end) ev (remove_all_attrs x).
  Definition pca_filter (k : Z) (s : dataset) : res dataset :=
    do ev <- pca_train k (insts s); Ok (mkDS (map (pca_convert ev) (insts s)) (ddef s)).
End Pca.
