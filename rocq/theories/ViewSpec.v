(** What it means that an experiment looks at its data through a view: the same rounds, on other features. *)
From Coq Require Import String ZArith List.
From Verif Require Import Base AttrModel InstanceListModel PerformanceModel ExperimentModel LibModel.
Import ListNotations.
Local Open Scope list_scope.

(** A view of the instances: anything done to the features, one instance at a time, that leaves the class alone. *)
Definition keeps_class (h : instance -> instance) : Prop := forall x, label (h x) = label x.
(** The Sampling library is a set of templates: it draws positions and does not look at what it draws. *)
Definition positional (kfold : ilist -> nat -> Z -> nat -> ilist * ilist) (skfold : list ilist -> nat -> Z -> nat -> ilist * ilist)
    (sample : ilist -> Z -> ilist) : Prop :=
  forall h : instance -> instance,
  (forall l K s i, kfold (map h l) K s i = (map h (fst (kfold l K s i)), map h (snd (kfold l K s i)))) /\
  (forall gs K s i, skfold (map (map h) gs) K s i = (map h (fst (skfold gs K s i)), map h (snd (skfold gs K s i)))) /\
  (forall l s, sample (map h l) s = map h (sample l s)).
(** A run with any classifier, given by what training and testing do. *)
Definition run_with {M} (train : M -> ilist -> res M) (test : M -> ilist -> res perf)
    (kfold : ilist -> nat -> Z -> nat -> ilist * ilist) (skfold : list ilist -> nat -> Z -> nat -> ilist * ilist) (sample : ilist -> Z -> ilist)
    (perm : Z -> nat -> list nat) (rarr : nat -> Z -> list nat) (r : run) (seed : Z) (l : ilist) (m : M) : res (M * experiment) :=
  match r with
  | KFold K => kfold_run train test kfold K seed l m
  | SKFold K => skfold_run train test skfold K seed l m
  | MxKFold n K => mxkfold_run train test kfold n K seed l m
  | SMxKFold n K => smxkfold_run train test skfold n K seed l m
  | KFoldSep K => kfold_sep_run train test kfold perm K seed l m
  | SKFoldSep K => skfold_sep_run train test skfold rarr K seed l m
  | MxKFoldSep n K => mxkfold_sep_run train test kfold perm n K seed l m
  | SMxKFoldSep n K => smxkfold_sep_run train test skfold rarr n K seed l m
  | Boot n => bootstrap_run train test sample n seed l m
  end.
(** Rounds: train on one list, test on the other, keep the object and append the result. *)
Fixpoint play {M} (train : M -> ilist -> res M) (test : M -> ilist -> res perf) (rounds : list (ilist * ilist)) (m : M) (done : list perf) : res (M * list perf) :=
  match rounds with
  | [] => Ok (m, done)
  | (tr, te) :: rest => match train m tr with
      | Ok m1 => match test m1 te with Ok p => play train test rest m1 (done ++ [p]) | Throw e => Throw e | UB k => UB k | Diverge => Diverge end
      | Throw e => Throw e | UB k => UB k | Diverge => Diverge end
  end.
(** the rounds seen through a view *)
Definition through (h : instance -> instance) (rounds : list (ilist * ilist)) : list (ilist * ilist) :=
  map (fun t => (map h (fst t), map h (snd t))) rounds.
(** the view of a feature subset: the features of the subset, no candidate labels *)
Definition only (fs : list Z) (x : instance) : instance :=
  mkInst (label x) (map (fun k => nth (Z.to_nat k) (attrs x) (ADisc EmptyString)) fs) None.
