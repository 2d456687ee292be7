(** Model of the square-root based statistics of src/InstanceList/InstanceList.cpp.  Definitions only.  Square roots
    are irrational, so results are real numbers; everything below the root is computed with [dbl]. *)
From Coq Require Import String ZArith QArith Qreals Reals Bool List.
From Verif Require Import Base AttrModel InstanceListModel.
Import ListNotations.
Local Open Scope list_scope.
Local Open Scope nat_scope.

(** a double that may be irrational *)
Inductive rdbl := RFin (r : R) | RInf | RNaN.
(** std::sqrt *)
Definition rsqrt (d : dbl) : rdbl :=
  match d with
  | Fin q => if Qle_bool 0 q then RFin (sqrt (Q2R q)) else RNaN
  | PInf => RInf
  | NInf | NaN => RNaN
  end.

(** The two loops shared by attributeStandardDeviation (InstanceList.cpp:340-348) and
    continuousAttributeStandardDeviation (389-400).  [list.size() - 1] is computed in size_t; the list is not empty. *)
Definition sq_dev_sum (k : Z) (avg : dbl) (l : ilist) : res dbl :=
  foldM (fun s x => do v <- cont_at k x; Ok (dadd s (dpow2 (dsub v avg)))) l d0.
Definition std_value (k : Z) (l : ilist) : res rdbl :=
  do s <- cont_sum k l;
  do q <- sq_dev_sum k (ddiv s (dofnat (List.length l))) l;
  Ok (rsqrt (ddiv q (dofnat (List.length l - 1)))).
(** attributeStandardDeviation(index): InstanceList.cpp:338-353; [None] is nullptr. *)
Definition attr_std (k : Z) (l : ilist) : res (option rdbl) :=
  do x0 <- atn l 0; do a0 <- get_attr x0 k;
  if isContinuous a0 then rmap Some (std_value k l) else Ok None.
(** One instance's contribution to all indices of an indexed attribute: InstanceList.cpp:373-382. *)
Definition idx_dev (avgs values : list dbl) (i : Z) : list dbl :=
  map (fun p => let '(j, (v, a)) := p in
                dadd v (if (Z.of_nat j =? i)%Z then dpow2 (dsub d1 a) else dpow2 a))
      (combine (seq 0 (List.length values)) (combine values avgs)).
(** continuousAttributeStandardDeviation(index): InstanceList.cpp:361-403. *)
Definition cont_std (k : Z) (l : ilist) : res (list rdbl) :=
  do x0 <- atn l 0; do a0 <- get_attr x0 k;
  if isDiscreteIndexed a0 then
    do m <- idx_max a0;
    do cs <- foldM (count_index k) l (repeat d0 m);
    let avgs := map (fun v => ddiv v (dofnat (List.length l))) cs in
    do vs <- foldM (fun vs x => do i <- index_at k x; Ok (idx_dev avgs vs i)) l (repeat d0 m);
    Ok (map (fun v => rsqrt (ddiv v (dofnat (List.length l - 1)))) vs)
  else if isContinuous a0 then rmap (fun r => [r]) (std_value k l)
  else UB NoReturn.
(** continuousAttributeStandardDeviation(): InstanceList.cpp:530-537. *)
Definition cont_std_all (l : ilist) : res (list rdbl) :=
  do x0 <- atn l 0;
  do rs <- mapM (fun i => cont_std (Z.of_nat i) l) (seq 0 (attr_count x0)); Ok (concat rs).
(** standardDeviation(): InstanceList.cpp:517-523. *)
Definition std_all (l : ilist) : res (string * list (option rdbl)) :=
  do x0 <- atn l 0;
  do r <- mapM (fun i => attr_std (Z.of_nat i) l) (seq 0 (attr_count x0)); Ok (label x0, r).
