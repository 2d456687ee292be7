(** Model of src/InstanceList/Partition.cpp.  Definitions only.  A Partition is its list of groups (Partition.h);
    add/size/get/getLists (Partition.cpp:26-60) are list operations. *)
From Coq Require Import String ZArith QArith Bool List.
From Verif Require Import Base AttrModel InstanceListModel.
Import ListNotations.
Local Open Scope list_scope.
Local Open Scope nat_scope.

(** [get(g)->add(x)], Partition.cpp:45-47. *)
Definition add_to {A} (groups : list (list A)) (g : nat) (x : A) : res (list (list A)) :=
  do l <- atn groups g; Ok (upd groups g (l ++ [x])).

(** Partition(list): Partition.cpp:68-75. *)
Definition part_class (l : ilist) : res (list ilist) :=
  let labels := distinct_labels l in
  foldM (fun gs x => add_to gs (find_pos (label x) labels) x) l (repeat [] (List.length labels)).

(** Partition(list, attributeIndex): Partition.cpp:127-136. *)
Definition part_disc (k : Z) (l : ilist) : res (list ilist) :=
  do vs <- value_list k l;
  foldM (fun gs x => do v <- disc_at k x; add_to gs (find_pos v vs) x) l (repeat [] (List.length vs)).

(** Partition(list, attributeIndex, int attributeValue): Partition.cpp:146-157. *)
Definition part_idx (k : Z) (v : Z) (l : ilist) : res (list ilist) :=
  foldM (fun gs x => do i <- index_at k x; add_to gs (if (i =? v)%Z then 0 else 1) x) l [[]; []].

(** Partition(list, attributeIndex, double splitValue): Partition.cpp:167-178. *)
Definition part_cont (k : Z) (t : dbl) (l : ilist) : res (list ilist) :=
  foldM (fun gs x => do v <- cont_at k x; add_to gs (if dleb v t then 0 else 1) x) l [[]; []].

(** DiscreteDistribution::getProbability (Math): count / sum. *)
Definition probability (c : counter) (v : string) : dbl := ddiv (dofnat (ccount c v)) (dofnat (csum c)).

(** Partition(list, ratio, seed, stratified), stratified branch: Partition.cpp:92-104.  [rarr n seed] is
    RandomArray::indexArray (Util library). *)
Definition strat_step (l : ilist) (ratio : dbl) (st : counter * list ilist) (i : nat) : res (counter * list ilist) :=
  let (counts, gs) := st in
  do x <- atn l i;
  let c := label x in
  let bound := dmul (dmul (dofnat (List.length l)) ratio) (probability (class_distribution l) c) in
  do gs' <- add_to gs (if dltb (dofnat (ccount counts c)) bound then 0 else 1) x;
  Ok (cput counts c, gs').
Definition part_strat (rarr : nat -> Z -> list nat) (ratio : dbl) (seed : Z) (l : ilist) : res (list ilist) :=
  do st <- foldM (strat_step l ratio) (rarr (List.length l) seed) ([], [[]; []]); Ok (snd st).

(** Non-stratified branch: Partition.cpp:106-114.  The caller's list is shuffled in place: the result is the shuffled
    list together with the groups. *)
Definition part_random (perm : Z -> nat -> list nat) (ratio : dbl) (seed : Z) (l : ilist) : res (ilist * list ilist) :=
  let l' := shuffle perm seed l in
  do gs <- foldM (fun gs ix => add_to gs (if dltb (dofnat (fst ix)) (dmul (dofnat (List.length l')) ratio) then 0 else 1) (snd ix))
                 (combine (seq 0 (List.length l')) l') [[]; []];
  Ok (l', gs).
