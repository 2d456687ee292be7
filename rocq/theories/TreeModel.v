(** Model of src/Model/DecisionTree/{DecisionCondition,DecisionNode,DecisionTree,DecisionStump}.cpp (serialization is in
    SerialModel.v).  Definitions only. *)
From Coq Require Import String ZArith QArith Bool List.
From Verif Require Import Base AttrModel InstanceListModel PartitionModel PerformanceModel.
Import ListNotations.
Local Open Scope string_scope.
Local Open Scope list_scope.
Local Open Scope nat_scope.

(** * DecisionCondition *)
Inductive cmp := CEq | CLt | CGt.
(** DecisionCondition.h:11-15; [None] is the unset value of the default condition (attributeIndex -1). *)
Record condition := mkCond { c_index : Z; c_cmp : cmp; c_value : option attr }.
(** DecisionCondition.cpp:17-34 and the default constructor. *)
Definition no_condition : condition := mkCond (-1) CEq None.
(** satisfy: DecisionCondition.cpp:52-75; a BinaryAttribute value is neither and falls to [return false]. *)
Definition satisfy (c : condition) (x : instance) : res bool :=
  match c_value c with
  | None => UB NullDeref
  | Some (AIdx _ i _) => if (i =? -1)%Z then Ok true else do j <- index_at (c_index c) x; Ok (j =? i)%Z
  | Some (ADisc v) => do w <- disc_at (c_index c) x; Ok (String.eqb w v)
  | Some (ACont t) => match c_cmp c with
                      | CLt => do v <- cont_at (c_index c) x; Ok (dleb v t)
                      | CGt => do v <- cont_at (c_index c) x; Ok (dgtb v t)
                      | CEq => Ok false
                      end
  | Some (ABin _) => Ok false
  end.

(** * DecisionNode *)
(** DecisionNode.h:13-18. *)
Inductive tree := Node (t_label : string) (t_leaf : bool) (t_dist : counter) (t_cond : condition) (t_children : list tree).
Definition t_label (t : tree) := match t with Node l _ _ _ _ => l end.
Definition t_leaf (t : tree) := match t with Node _ b _ _ _ => b end.
Definition t_dist (t : tree) := match t with Node _ _ d _ _ => d end.
Definition t_cond (t : tree) := match t with Node _ _ _ c _ => c end.
Definition t_children (t : tree) := match t with Node _ _ _ _ ch => ch end.

(** Math's DiscreteDistribution::removeDistribution *)
Definition csubd (c d : counter) : counter :=
  fold_left (fun a kv => let n := ccount a (fst kv) - snd kv in if Nat.eqb n 0 then merase (fst kv) a else mset (fst kv) n a) d c.
(** conversion of a double to int *)
Definition to_int (d : dbl) : Z := match d with Fin q => Z.quot (Qnum q) (Zpos (Qden q)) | _ => 0%Z end.

(** bestEntropy, bestAttribute, bestSplitValue: DecisionNode.cpp:113-116. *)
Record best := mkBest { b_entropy : dbl; b_attr : Z; b_value : dbl }.
Definition better (b : best) (e : dbl) (k : Z) (v : dbl) : best := if dltb e (b_entropy b) then mkBest e k v else b.

Section Build.
  (** [entropy]: DiscreteDistribution::entropy (Math); [mid a b]: the double (a + b) / 2; [rarr]: RandomArray::indexArray *)
  Context (entropy : counter -> dbl) (mid : dbl -> dbl -> dbl) (rarr : nat -> Z -> list nat).
  (** RandomForestParameter: attribute subset size and seed, nullptr is [None]; isStump *)
  Context (param : option (nat * Z)) (stump : bool).

  Definition share (n : nat) (c : counter) : dbl := ddiv (dofnat (csum c)) (dofnat n).
  (** entropyForDiscreteAttribute: DecisionNode.cpp:23-30. *)
  Definition disc_entropy (data : ilist) (k : Z) : res dbl :=
    do ds <- attr_class_distribution k data;
    Ok (fold_left (fun s d => dadd s (dmul (share (List.length data) d) (entropy d))) ds d0).
  (** DecisionNode.cpp:150-163 with classDistribution in the state. *)
  Definition try_index (data : ilist) (k : Z) (st : counter * best) (v : nat) : res (counter * best) :=
    let (cd, b) := st in
    do d <- idx_class_distribution k (Z.of_nat v) data;
    if Nat.ltb 0 (csum d) then
      let cd' := csubd cd d in
      let e := ddiv (dadd (dmul (entropy cd') (dofnat (csum cd'))) (dmul (entropy d) (dofnat (csum d)))) (dofnat (List.length data)) in
      Ok (cadd cd' d, better b e k (dofnat v))
    else Ok (cd, b).
  (** DecisionNode.cpp:173-196: [prev] is [None] before the first instance. *)
  Record scan := mkScan { s_prev : option dbl; s_left : counter; s_right : counter; s_best : best }.
  Definition try_cut (n : nat) (k : Z) (s : scan) (x : instance) : res scan :=
    do v <- cont_at k x;
    let moved b := mkScan (Some v) (crem (s_left s) (label x)) (cput (s_right s) (label x)) b in
    match s_prev s with
    | None => Ok (moved (s_best s))
    | Some p =>
        if negb (deqb v p) then
          let e := dadd (dmul (share n (s_left s)) (entropy (s_left s))) (dmul (share n (s_right s)) (entropy (s_right s))) in
          Ok (moved (better (s_best s) e k (mid p v)))
        else Ok (mkScan (Some p) (crem (s_left s) (label x)) (cput (s_right s) (label x)) (s_best s))
    end.
  (** One round of the loop over the attributes, DecisionNode.cpp:147-199: data (sorted in place by continuous
      attributes), classDistribution and the best split so far. *)
  Definition try_attr (st : ilist * counter * best) (k : Z) : res (ilist * counter * best) :=
    match st with (data, cd, b) =>
      do x0 <- atn data 0;
      do a <- get_attr x0 k;
      if isDiscreteIndexed a then
        do m <- idx_max a;
        do r <- foldM (try_index data k) (seq 0 m) (cd, b); Ok (data, fst r, snd r)
      else if isDiscrete a then
        do e <- disc_entropy data k; Ok (data, cd, better b e k (b_value b))
      else if isContinuous a then
        do data' <- sort_by k data;
        do s <- foldM (try_cut (List.length data') k) data' (mkScan None (class_distribution data') [] b); Ok (data', cd, s_best s)
      else Ok (data, cd, b)
    end.
  (** The attributes tried: DecisionNode.cpp:133-143, 147. *)
  Definition attr_order (x0 : instance) : res (list Z) :=
    let n := attr_count x0 in
    match param with
    | Some (size, seed) => if Nat.ltb size n
                           then mapM (fun j => do i <- atn (rarr n seed) j; Ok (Z.of_nat i)) (seq 0 size)
                           else Ok (map Z.of_nat (seq 0 n))
    | None => Ok (map Z.of_nat (seq 0 n))
    end.
  (** DecisionNode.cpp:132-199: the data in their new order and the best split. *)
  Definition search (data : ilist) : res (ilist * best) :=
    do x0 <- atn data 0;
    do ks <- attr_order x0;
    let cd := class_distribution data in
    do st <- foldM try_attr ks (data, cd, mkBest (entropy cd) (-1) d0);
    match st with (data', _, b) => Ok (data', b) end.
  (** createChildrenForDiscreteIndexed, createChildrenForDiscrete, createChildrenForContinuous, DecisionNode.cpp:42-86
      and 200-212: the conditions and training data of the children. *)
  Definition split (data : ilist) (k : Z) (v : dbl) : res (list (condition * ilist)) :=
    do x0 <- atn data 0;
    do a <- get_attr x0 k;
    if isDiscreteIndexed a then
      do m <- idx_max a;
      do gs <- part_idx k (to_int v) data;
      do g0 <- atn gs 0; do g1 <- atn gs 1;
      Ok [(mkCond k CEq (Some (AIdx "" (to_int v) m)), g0); (mkCond k CEq (Some (AIdx "" (-1) m)), g1)]
    else if isDiscrete a then
      do vs <- value_list k data;
      do gs <- part_disc k data;
      mapM (fun iv => do g <- atn gs (fst iv); Ok (mkCond k CEq (Some (ADisc (snd iv))), g)) (combine (seq 0 (List.length vs)) vs)
    else if isContinuous a then
      do gs <- part_cont k v data;
      do g0 <- atn gs 0; do g1 <- atn gs 1;
      Ok [(mkCond k CLt (Some (ACont v)), g0); (mkCond k CGt (Some (ACont v)), g1)]
    else Ok [].
  (** The constructor, DecisionNode.cpp:111-213; [fuel] bounds the recursion, running out is [Diverge]. *)
  Fixpoint build (fuel : nat) (data : ilist) (c : condition) : res tree :=
    match fuel with
    | 0 => Diverge
    | S f =>
        let labels := class_labels data in
        let node := Node (get_maximum labels) in
        let dist := fold_left cput labels [] in
        if Nat.eqb (List.length (distinct_labels data)) 1 then Ok (node true dist c [])
        else if stump && negb (c_index c =? -1)%Z then Ok (node true dist c [])
        else do r <- search data;
             let (data', b) := r in
             if (b_attr b =? -1)%Z then Ok (node true dist c [])
             else do parts <- split data' (b_attr b) (b_value b);
                  do ch <- mapM (fun p => build f (snd p) (fst p)) parts;
                  Ok (node false dist c ch)
    end.
End Build.

Section Predict.
  (** DiscreteDistribution::getMaxItem(labels) (Math): an item of the list with the largest count *)
  Context (max_item : counter -> list string -> string).
  (** predict: DecisionNode.cpp:222-254. *)
  Fixpoint node_predict (t : tree) (x : instance) : res string :=
    match t with
    | Node lab leaf dist _ ch =>
        if isComposite x then
          let pc := max_item dist (possible_labels x) in
          if leaf then Ok pc
          else (fix go (ch : list tree) : res string :=
                  match ch with
                  | [] => Ok pc
                  | n :: ch' => do s <- satisfy (t_cond n) x;
                                if s then do p <- node_predict n x; Ok (if String.eqb p "" then pc else p) else go ch'
                  end) ch
        else if leaf then Ok lab
        else (fix go (ch : list tree) : res string :=
                match ch with
                | [] => Ok lab
                | n :: ch' => do s <- satisfy (t_cond n) x; if s then node_predict n x else go ch'
                end) ch
    end.
  (** predictProbabilityDistribution: DecisionNode.cpp:335-346 with DiscreteDistribution::getProbabilityDistribution. *)
  Definition probabilities (c : counter) : smap dbl := map (fun kv => (fst kv, ddiv (dofnat (snd kv)) (dofnat (csum c)))) c.
  Fixpoint node_probability (t : tree) (x : instance) : res (smap dbl) :=
    match t with
    | Node _ leaf dist _ ch =>
        if leaf then Ok (probabilities dist)
        else (fix go (ch : list tree) : res (smap dbl) :=
                match ch with
                | [] => Ok (probabilities dist)
                | n :: ch' => do s <- satisfy (t_cond n) x; if s then node_probability n x else go ch'
                end) ch
    end.
  (** * DecisionTree *)
  (** predict: DecisionTree.cpp:23-29. *)
  Definition tree_predict (t : tree) (x : instance) : res string :=
    do p <- node_predict t x;
    if String.eqb p "" && isComposite x then atn (possible_labels x) 0 else Ok p.
  (** testClassifier(pruneSet)->getAccuracy() *)
  Definition accuracy_on (t : tree) (l : ilist) : res dbl := do p <- test_classifier (tree_predict t) l; accuracy_of p.
  (** pruneNode: DecisionTree.cpp:57-69.  The node is changed in place while the whole tree is tested: [plug] puts a
      node back into the tree. *)
  Fixpoint prune_node (l : ilist) (plug : tree -> tree) (t : tree) : res tree :=
    match t with
    | Node lab leaf dist c ch =>
        if leaf then Ok t
        else do before <- accuracy_on (plug t) l;
             do after <- accuracy_on (plug (Node lab true dist c ch)) l;
             if dltb after before then
               do ch' <- (fix go (done todo : list tree) : res (list tree) :=
                            match todo with
                            | [] => Ok done
                            | n :: todo' => do n' <- prune_node l (fun n => plug (Node lab false dist c (done ++ n :: todo'))) n;
                                            go (done ++ [n']) todo'
                            end) [] ch;
               Ok (Node lab false dist c ch')
             else Ok (Node lab true dist c ch)
    end.
  (** prune: DecisionTree.cpp:45-47. *)
  Definition prune (t : tree) (l : ilist) : res tree := prune_node l (fun t => t) t.
  (** DecisionTree::train: DecisionTree.cpp:103-112. *)
  Definition tree_train (entropy : counter -> dbl) (mid : dbl -> dbl -> dbl) (rarr : nat -> Z -> list nat)
             (do_prune : bool) (ratio : dbl) (seed : Z) (fuel : nat) (l : ilist) : res tree :=
    if do_prune then
      do gs <- part_strat rarr ratio seed l;
      do g1 <- atn gs 1;
      do t <- build entropy mid rarr None false fuel g1 no_condition;
      do g0 <- atn gs 0;
      prune t g0
    else build entropy mid rarr None false fuel l no_condition.
  (** DecisionStump::train: DecisionStump.cpp:15-17. *)
  Definition stump_train (entropy : counter -> dbl) (mid : dbl -> dbl -> dbl) (rarr : nat -> Z -> list nat) (fuel : nat) (l : ilist) : res tree :=
    build entropy mid rarr None true fuel l no_condition.
End Predict.
