(** Model of the names of lists of instances (src/InstanceList/InstanceListOfSameClass and InstanceList.h) and of src/Model/Svm/SolutionInfo.
    Definitions only.  TrainedFeatureFilter.cpp:12-13 only passes the data set on to FeatureFilter's constructor (FilterModel.v). *)
From Coq Require Import String ZArith QArith Bool List.
From Verif Require Import Base AttrModel InstanceListModel PartitionModel SolverModel.
Import ListNotations.
Local Open Scope list_scope.
Local Open Scope nat_scope.

(** An object of class InstanceList ([None]) or InstanceListOfSameClass ([Some], with the member classLabel). *)
Record group := mkGroup { same : option string; held : ilist }.
(** InstanceList(): InstanceList.cpp:22. *)
Definition plain_group : group := mkGroup None [].
(** InstanceListOfSameClass(classLabel): InstanceListOfSameClass.cpp:12-14. *)
Definition class_group (c : string) : group := mkGroup (Some c) [].
(** getClassLabel, virtual: InstanceList.h:37 and InstanceListOfSameClass.cpp:21-23. *)
Definition group_label (g : group) : string := match same g with Some c => c | None => EmptyString end.
(** add: InstanceList.cpp:89-91. *)
Definition group_add (g : group) (x : instance) : group := mkGroup (same g) (held g ++ [x]).
(** every other member function of InstanceList works on the vector [list] only: addAll, clear, sort, shuffle (InstanceList.h:28-34). *)
Definition group_edit (f : ilist -> ilist) (g : group) : group := mkGroup (same g) (f (held g)).

(** [get(g)->add(x)], Partition.cpp:45-47. *)
Definition put_in (gs : list group) (i : nat) (x : instance) : res (list group) := do g <- atn gs i; Ok (upd gs i (group_add g x)).
(** Partition(list): Partition.cpp:68-75. *)
Definition groups_class (l : ilist) : res (list group) :=
  let labels := distinct_labels l in
  foldM (fun gs x => put_in gs (find_pos (label x) labels) x) l (map class_group labels).
(** Partition(list, attributeIndex): Partition.cpp:127-136. *)
Definition groups_disc (k : Z) (l : ilist) : res (list group) :=
  do vs <- value_list k l;
  foldM (fun gs x => do v <- disc_at k x; put_in gs (find_pos v vs) x) l (map (fun _ => plain_group) vs).
(** Partition(list, attributeIndex, int attributeValue): Partition.cpp:146-157. *)
Definition groups_idx (k : Z) (v : Z) (l : ilist) : res (list group) :=
  foldM (fun gs x => do i <- index_at k x; put_in gs (if (i =? v)%Z then 0 else 1) x) l [plain_group; plain_group].
(** Partition(list, attributeIndex, double splitValue): Partition.cpp:167-178. *)
Definition groups_cont (k : Z) (t : dbl) (l : ilist) : res (list group) :=
  foldM (fun gs x => do v <- cont_at k x; put_in gs (if dleb v t then 0 else 1) x) l [plain_group; plain_group].
(** Partition(list, ratio, seed, stratified): Partition.cpp:89-115. *)
Definition groups_strat_step (l : ilist) (ratio : dbl) (st : counter * list group) (i : nat) : res (counter * list group) :=
  let (counts, gs) := st in
  do x <- atn l i;
  let c := label x in
  let bound := dmul (dmul (dofnat (List.length l)) ratio) (probability (class_distribution l) c) in
  do gs' <- put_in gs (if dltb (dofnat (ccount counts c)) bound then 0 else 1) x;
  Ok (cput counts c, gs').
Definition groups_strat (rarr : nat -> Z -> list nat) (ratio : dbl) (seed : Z) (l : ilist) : res (list group) :=
  do st <- foldM (groups_strat_step l ratio) (rarr (List.length l) seed) ([], [plain_group; plain_group]); Ok (snd st).
Definition groups_random (perm : Z -> nat -> list nat) (ratio : dbl) (seed : Z) (l : ilist) : res (ilist * list group) :=
  let l' := shuffle perm seed l in
  do gs <- foldM (fun gs ix => put_in gs (if dltb (dofnat (fst ix)) (dmul (dofnat (List.length l')) ratio) then 0 else 1) (snd ix))
                 (combine (seq 0 (List.length l')) l') [plain_group; plain_group];
  Ok (l', gs).
(** [((InstanceListOfSameClass* )(list))->getClassLabel()]: LdaModel.cpp:94, QdaModel.cpp:63, NaiveBayesModel.cpp:103 and 118. *)
Definition class_name (g : group) : res string := match same g with Some c => Ok c | None => UB BadCast end.
(** the class lists with the names that LDA, QDA and naive Bayes read *)
Definition named_lists (l : ilist) : res (list (string * ilist)) :=
  do gs <- groups_class l; mapM (fun g => do c <- class_name g; Ok (c, held g)) gs.

(** * SolutionInfo *)
Record solution := mkSolution { sol_rho : dbl; sol_alpha : list dbl }.
(** getRho: SolutionInfo.cpp:23-25. *)
Definition get_rho (s : solution) : dbl := sol_rho s.
(** getAlpha: SolutionInfo.cpp:33-35, unchecked. *)
Definition get_alpha (s : solution) (i : Z) : res dbl := idx (sol_alpha s) i.
(** setAlpha: SolutionInfo.cpp:43-45, unchecked. *)
Definition set_alpha (s : solution) (i : Z) (v : dbl) : res solution :=
  do _ <- idx (sol_alpha s) i; Ok (mkSolution (sol_rho s) (upd (sol_alpha s) (Z.to_nat i) v)).
(** the last loop of solveSingle: SvmModel.cpp:164-166. *)
Definition sign_loop (n : nat) (y : list dbl) (s : solution) : res solution :=
  foldM (fun s i => do a <- get_alpha s (Z.of_nat i); do yi <- idxn y i; set_alpha s (Z.of_nat i) (dmul a yi)) (seq 0 n) s.
