(** Model of src/InstanceList/InstanceList.cpp (without the file constructors, see DataSetModel.v, and without the
    square-root based statistics, see StatModel.v) and of Model::getMaximum.  Definitions only.
    An InstanceList is the list of its instances (InstanceList.h); add/addAll/size/clear (InstanceList.cpp:89-109,
    626-628) are [++], [length] and [[]]; get (117-119) is [at_]. *)
From Coq Require Import String ZArith QArith Bool List.
From Verif Require Import Base AttrModel.
Import ListNotations.
Local Open Scope list_scope.
Local Open Scope nat_scope.

Definition ilist := list instance.

(** Model::getMaximum: src/Model/Model.cpp:16-22 (CounterHashMap::max: first key with maximal count). *)
Definition get_maximum (labels : list string) : string := cmax (fold_left cput labels []).

(** The value of feature [k] of one instance, as read by InstanceComparator (InstanceList.cpp:140-142) and by the
    averages. *)
Definition cont_at (k : Z) (x : instance) : res dbl := do a <- get_attr x k; cont_value a.
Definition disc_at (k : Z) (x : instance) : res string := do a <- get_attr x k; disc_value a.
Definition index_at (k : Z) (x : instance) : res Z := do a <- get_attr x k; idx_index a.

(** sort(attributeIndex): InstanceList.cpp:121-152.  std::stable_sort calls the comparator on every element as soon as
    there are two; a NaN value then violates the strict weak order precondition (undefined; over-approximated: any NaN
    is treated so).  When several instances fail in different ways the first one in list order is reported. *)
Definition sort_by (k : Z) (l : ilist) : res ilist :=
  if Nat.leb (List.length l) 1 then Ok l
  else do keys <- mapM (cont_at k) l;
       if existsb is_nan keys then UB BadOrder
       else Ok (map snd (ssort (fun p q => dltb (fst p) (fst q)) (combine keys l))).
(** sort(): InstanceList.cpp:164-179. *)
Definition sort_class (l : ilist) : ilist := ssort (fun x y => sltb (label x) (label y)) l.
(** shuffle(seed): InstanceList.cpp:185-187.  [perm seed n] is the arrangement std::shuffle produces for [n] elements. *)
Definition rearrange {A} (p : list nat) (l : list A) : list A :=
  flat_map (fun i => match nth_error l i with Some x => [x] | None => [] end) p.
Definition shuffle {A} (perm : Z -> nat -> list nat) (seed : Z) (l : list A) : list A :=
  rearrange (perm seed (List.length l)) l.
(** Bootstrap<Instance*>(list, seed) (Sampling library): InstanceList.cpp:195-197; [pick seed n] are the [n] drawn
    positions. *)
Definition bootstrap {A} (pick : Z -> nat -> list nat) (seed : Z) (l : list A) : list A :=
  rearrange (pick seed (List.length l)) l.

(** getClassLabels: InstanceList.cpp:204-211. *)
Definition class_labels (l : ilist) : list string := map label l.
(** getDistinctClassLabels: InstanceList.cpp:218-226. *)
Definition distinct_labels (l : ilist) : list string := fold_left (fun acc x => push_new acc (label x)) l [].
(** getUnionOfPossibleClassLabels: InstanceList.cpp:242-252. *)
Definition union_possible (l : ilist) : list string :=
  fold_left (fun acc x => fold_left push_new (possible_labels x) acc) l [].
(** getAttributeValueList: InstanceList.cpp:260-269. *)
Definition value_list (k : Z) (l : ilist) : res (list string) :=
  foldM (fun acc x => do v <- disc_at k x; Ok (push_new acc v)) l [].

(** [sum += value] over the list: InstanceList.cpp:289-292, 320-323. *)
Definition cont_sum (k : Z) (l : ilist) : res dbl := foldM (fun s x => do v <- cont_at k x; Ok (dadd s v)) l d0.
(** attributeAverage(index): InstanceList.cpp:279-298; [None] is nullptr. *)
Definition attr_average (k : Z) (l : ilist) : res (option attr) :=
  do x0 <- atn l 0; do a0 <- get_attr x0 k;
  if isDiscrete a0 then do vs <- mapM (disc_at k) l; Ok (Some (ADisc (get_maximum vs)))
  else if isContinuous a0 then do s <- cont_sum k l; Ok (Some (ACont (ddiv s (dofnat (List.length l)))))
  else Ok None.
(** [values[valueIndex]++]: InstanceList.cpp:310-313, unchecked index. *)
Definition count_index (k : Z) (values : list dbl) (x : instance) : res (list dbl) :=
  do i <- index_at k x; do v <- idx values i; Ok (upd values (Z.to_nat i) (dadd v d1)).
(** continuousAttributeAverage(index): InstanceList.cpp:306-329; flows off the end of the function for a first
    attribute that is discrete or binary. *)
Definition cont_average (k : Z) (l : ilist) : res (list dbl) :=
  do x0 <- atn l 0; do a0 <- get_attr x0 k;
  if isDiscreteIndexed a0 then
    do m <- idx_max a0;
    do vs <- foldM (count_index k) l (repeat d0 m);
    Ok (map (fun v => ddiv v (dofnat (List.length l))) vs)
  else if isContinuous a0 then do s <- cont_sum k l; Ok [ddiv s (dofnat (List.length l))]
  else UB NoReturn.
(** continuousAttributeAverage(): InstanceList.cpp:503-510. *)
Definition cont_average_all (l : ilist) : res (list dbl) :=
  do x0 <- atn l 0;
  do rs <- mapM (fun i => cont_average (Z.of_nat i) l) (seq 0 (attr_count x0)); Ok (concat rs).
(** average(): InstanceList.cpp:490-496; label and (possibly null) attributes of the new instance. *)
Definition average (l : ilist) : res (string * list (option attr)) :=
  do x0 <- atn l 0;
  do r <- mapM (fun i => attr_average (Z.of_nat i) l) (seq 0 (attr_count x0)); Ok (label x0, r).

(** attributeDistribution(index): InstanceList.cpp:412-420. *)
Definition attr_distribution (k : Z) (l : ilist) : res counter :=
  do x0 <- atn l 0; do a0 <- get_attr x0 k;
  if isDiscrete a0 then foldM (fun c x => do v <- disc_at k x; Ok (cput c v)) l [] else Ok [].
(** attributeClassDistribution(index): InstanceList.cpp:429-437; [distributions[find(...)]] is always in range. *)
Definition attr_class_distribution (k : Z) (l : ilist) : res (list counter) :=
  do vs <- value_list k l;
  foldM (fun ds x => do v <- disc_at k x;
                     do c <- idxn ds (find_pos v vs);
                     Ok (upd ds (find_pos v vs) (cput c (label x)))) l (repeat [] (List.length vs)).
(** discreteIndexedAttributeClassDistribution: InstanceList.cpp:448-456. *)
Definition idx_class_distribution (k : Z) (v : Z) (l : ilist) : res counter :=
  foldM (fun c x => do i <- index_at k x; Ok (if (i =? v)%Z then cput c (label x) else c)) l [].
(** classDistribution: InstanceList.cpp:463-469. *)
Definition class_distribution (l : ilist) : counter := fold_left (fun c x => cput c (label x)) l [].
(** allAttributesDistribution: InstanceList.cpp:476-483. *)
Definition all_attr_distribution (l : ilist) : res (list counter) :=
  do x0 <- atn l 0; mapM (fun i => attr_distribution (Z.of_nat i) l) (seq 0 (attr_count x0)).

(** covariance(average): InstanceList.cpp:545-562.  The double loop adds the outer product of the instance's deviation
    from [average] to the matrix; an instance whose vector is longer than the matrix or than [average] indexes outside
    of Math's Matrix/Vector (undefined here). *)
Definition deviations (avg : list dbl) (v : list dbl) : list dbl := map (fun p => dsub (fst p) (snd p)) (combine v avg).
Definition outer (u : list dbl) : list (list dbl) := map (fun xi => map (fun xj => dmul xi xj) u) u.
(** [result.addValue(i, j, v)] for all i, j below the size of the added matrix. *)
Fixpoint add_prefix (row add : list dbl) : list dbl :=
  match row, add with r :: row', a :: add' => dadd r a :: add_prefix row' add' | _, _ => row end.
Fixpoint add_matrix (m add : list (list dbl)) : list (list dbl) :=
  match m, add with r :: m', a :: add' => add_prefix r a :: add_matrix m' add' | _, _ => m end.
Definition cov_step (n : nat) (avg : list dbl) (m : list (list dbl)) (x : instance) : res (list (list dbl)) :=
  if Nat.leb (inst_size x) n && Nat.leb (inst_size x) (List.length avg)
  then Ok (add_matrix m (outer (deviations avg (inst_vals x)))) else UB BadIndex.
Definition covariance (avg : list dbl) (l : ilist) : res (list (list dbl)) :=
  do x0 <- atn l 0;
  let n := inst_size x0 in
  do m <- foldM (cov_step n avg) l (repeat (repeat d0 n) n);
  Ok (map (map (fun v => ddiv v (dofnat (List.length l - 1)))) m).
