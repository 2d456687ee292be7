(** Growing a decision tree in rounded arithmetic.  Definitions only.  As in RoundModel: the functions of TreeModel with a
    rounding [R] after every operation on doubles.  The weights and the midpoint are computed by the repository; the entropy is
    Math's and stays a parameter. *)
From Coq Require Import String ZArith QArith Bool List.
From Verif Require Import Base AttrModel InstanceListModel PartitionModel PerformanceModel TreeModel RoundModel.
Import ListNotations.
Local Open Scope list_scope.
Local Open Scope nat_scope.

Section RoundedTree.
  Context (R : dbl -> dbl) (entropy : counter -> dbl) (rarr : nat -> Z -> list nat) (param : option (nat * Z)) (stump : bool).
  (** splitValue: DecisionNode.cpp:181 *)
  Definition r_mid (a b : dbl) : dbl := rdiv R (radd R a b) (Fin 2).
  Definition r_share (n : nat) (c : counter) : dbl := rdiv R (rnat R (csum c)) (rnat R n).
  (** entropyForDiscreteAttribute: DecisionNode.cpp:23-30 *)
  Definition r_disc_entropy (data : ilist) (k : Z) : res dbl :=
    do ds <- attr_class_distribution k data;
    Ok (fold_left (fun s d => radd R s (rmul R (r_share (List.length data) d) (entropy d))) ds d0).
  (** DecisionNode.cpp:150-163; bestSplitValue = k is an int and converts exactly *)
  Definition r_try_index (data : ilist) (k : Z) (st : counter * best) (v : nat) : res (counter * best) :=
    let (cd, b) := st in
    do d <- idx_class_distribution k (Z.of_nat v) data;
    if Nat.ltb 0 (csum d) then
      let cd' := csubd cd d in
      let e := rdiv R (radd R (rmul R (entropy cd') (rnat R (csum cd'))) (rmul R (entropy d) (rnat R (csum d)))) (rnat R (List.length data)) in
      Ok (cadd cd' d, better b e k (dofnat v))
    else Ok (cd, b).
  (** DecisionNode.cpp:173-196 *)
  Definition r_try_cut (n : nat) (k : Z) (s : scan) (x : instance) : res scan :=
    do v <- cont_at k x;
    let moved b := mkScan (Some v) (crem (s_left s) (label x)) (cput (s_right s) (label x)) b in
    match s_prev s with
    | None => Ok (moved (s_best s))
    | Some p =>
        if negb (deqb v p) then
          let e := radd R (rmul R (r_share n (s_left s)) (entropy (s_left s))) (rmul R (r_share n (s_right s)) (entropy (s_right s))) in
          Ok (moved (better (s_best s) e k (r_mid p v)))
        else Ok (mkScan (Some p) (crem (s_left s) (label x)) (cput (s_right s) (label x)) (s_best s))
    end.
  (** DecisionNode.cpp:147-199 *)
  Definition r_try_attr (st : ilist * counter * best) (k : Z) : res (ilist * counter * best) :=
    match st with (data, cd, b) =>
      do x0 <- atn data 0;
      do a <- get_attr x0 k;
      if isDiscreteIndexed a then
        do m <- idx_max a;
        do r <- foldM (r_try_index data k) (seq 0 m) (cd, b); Ok (data, fst r, snd r)
      else if isDiscrete a then
        do e <- r_disc_entropy data k; Ok (data, cd, better b e k (b_value b))
      else if isContinuous a then
        do data' <- sort_by k data;
        do s <- foldM (r_try_cut (List.length data') k) data' (mkScan None (class_distribution data') [] b); Ok (data', cd, s_best s)
      else Ok (data, cd, b)
    end.
  (** DecisionNode.cpp:132-199 *)
  Definition r_search (data : ilist) : res (ilist * best) :=
    do x0 <- atn data 0;
    do ks <- attr_order rarr param x0;
    let cd := class_distribution data in
    do st <- foldM r_try_attr ks (data, cd, mkBest (entropy cd) (-1) d0);
    match st with (data', _, b) => Ok (data', b) end.
  (** The constructor, DecisionNode.cpp:111-213; [split] compares and does no arithmetic *)
  Fixpoint r_build (fuel : nat) (data : ilist) (c : condition) : res tree :=
    match fuel with
    | 0 => Diverge
    | S f =>
        let labels := class_labels data in
        let node := Node (get_maximum labels) in
        let dist := fold_left cput labels [] in
        if Nat.eqb (List.length (distinct_labels data)) 1 then Ok (node true dist c [])
        else if stump && negb (c_index c =? -1)%Z then Ok (node true dist c [])
        else do r <- r_search data;
             let (data', b) := r in
             if (b_attr b =? -1)%Z then Ok (node true dist c [])
             else do parts <- split data' (b_attr b) (b_value b);
                  do ch <- mapM (fun p => r_build f (snd p) (fst p)) parts;
                  Ok (node false dist c ch)
    end.
End RoundedTree.
