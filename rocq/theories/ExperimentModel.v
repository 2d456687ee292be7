(** Model of src/Experiment.  Definitions only. *)
From Coq Require Import String ZArith QArith Bool List.
From Verif Require Import Base AttrModel InstanceListModel PartitionModel PerformanceModel.
Import ListNotations.
Local Open Scope list_scope.
Local Open Scope nat_scope.

Section Runs.
  (** The model under test: its states, train(trainSet, parameter) and test(testSet) (virtual functions of Model).
      train keeps the object, so it starts from the state the previous round left. *)
  Context {M : Type} (train : M -> ilist -> res M) (test : M -> ilist -> res perf).
  (** The Sampling library: train and test fold [i] of KFoldCrossValidation(list, K, seed) and of
      StratifiedKFoldCrossValidation(lists, size, K, seed), and Bootstrap(list, seed).getSample(). *)
  Context (kfold : ilist -> nat -> Z -> nat -> ilist * ilist)
          (skfold : list ilist -> nat -> Z -> nat -> ilist * ilist)
          (bootstrap : ilist -> Z -> ilist).
  (** std::shuffle and RandomArray::indexArray, as in PartitionModel *)
  Context (perm : Z -> nat -> list nat) (rarr : nat -> Z -> list nat).

  (** KFoldRun::runExperiment: KFoldRun.cpp:25-33.  [K] is an int; a K below one makes no round. *)
  Definition run_folds (cv : nat -> ilist * ilist) (K : nat) (st : M * experiment) : res (M * experiment) :=
    foldM (fun st i => do m <- train (fst st) (fst (cv i)); do p <- test m (snd (cv i)); Ok (m, exp_add (snd st) p)) (seq 0 K) st.
  (** KFoldRunSeparateTest::runExperiment: KFoldRunSeparateTest.cpp:26-34. *)
  Definition run_separate (cv : nat -> ilist * ilist) (K : nat) (testSet : ilist) (st : M * experiment) : res (M * experiment) :=
    foldM (fun st i => do m <- train (fst st) (fst (cv i)); do p <- test m testSet; Ok (m, exp_add (snd st) p)) (seq 0 K) st.
  (** [for (int j = 0; j < n; j++)] around the same step *)
  Definition repeatM {S} (n : nat) (f : S -> res S) (s : S) : res S := foldM (fun s _ => f s) (seq 0 n) s.

  (** KFoldRun::execute: KFoldRun.cpp:41-46. *)
  Definition kfold_run (K : nat) (seed : Z) (l : ilist) (m : M) : res (M * experiment) := run_folds (kfold l K seed) K (m, exp_empty).
  (** StratifiedKFoldRun::execute: StratifiedKFoldRun.cpp:22-28; getClassInstances is Partition(list). *)
  Definition skfold_run (K : nat) (seed : Z) (l : ilist) (m : M) : res (M * experiment) :=
    do gs <- part_class l; run_folds (skfold gs K seed) K (m, exp_empty).
  (** MxKFoldRun::execute: MxKFoldRun.cpp:24-31. *)
  Definition mxkfold_run (R K : nat) (seed : Z) (l : ilist) (m : M) : res (M * experiment) :=
    repeatM R (run_folds (kfold l K seed) K) (m, exp_empty).
  (** StratifiedMxKFoldRun::execute: StratifiedMxKFoldRun.cpp:24-32. *)
  Definition smxkfold_run (R K : nat) (seed : Z) (l : ilist) (m : M) : res (M * experiment) :=
    repeatM R (fun st => do gs <- part_class l; run_folds (skfold gs K seed) K st) (m, exp_empty).
  (** The held-out part: Partition(list, 0.25, seed, false/true), group 0 for testing, group 1 for the folds. *)
  Definition hold_out (seed : Z) (l : ilist) : res (ilist * ilist) :=
    do r <- part_random perm (Fin (1 # 4)) seed l;
    match snd r with [g0; g1] => Ok (g0, g1) | _ => Throw OutOfRange end.
  Definition shold_out (seed : Z) (l : ilist) : res (ilist * ilist) :=
    do gs <- part_strat rarr (Fin (1 # 4)) seed l;
    match gs with [g0; g1] => Ok (g0, g1) | _ => Throw OutOfRange end.
  (** KFoldRunSeparateTest::execute: KFoldRunSeparateTest.cpp:42-49. *)
  Definition kfold_sep_run (K : nat) (seed : Z) (l : ilist) (m : M) : res (M * experiment) :=
    do h <- hold_out seed l; run_separate (kfold (snd h) K seed) K (fst h) (m, exp_empty).
  (** StratifiedKFoldRunSeparateTest::execute: StratifiedKFoldRunSeparateTest.cpp:25-33. *)
  Definition skfold_sep_run (K : nat) (seed : Z) (l : ilist) (m : M) : res (M * experiment) :=
    do h <- shold_out seed l; do gs <- part_class (snd h); run_separate (skfold gs K seed) K (fst h) (m, exp_empty).
  (** MxKFoldRunSeparateTest::execute: MxKFoldRunSeparateTest.cpp:25-34. *)
  Definition mxkfold_sep_run (R K : nat) (seed : Z) (l : ilist) (m : M) : res (M * experiment) :=
    do h <- hold_out seed l; repeatM R (run_separate (kfold (snd h) K seed) K (fst h)) (m, exp_empty).
  (** StratifiedMxKFoldRunSeparateTest::execute: StratifiedMxKFoldRunSeparateTest.cpp:24-34. *)
  Definition smxkfold_sep_run (R K : nat) (seed : Z) (l : ilist) (m : M) : res (M * experiment) :=
    do h <- shold_out seed l;
    repeatM R (fun st => do gs <- part_class (snd h); run_separate (skfold gs K seed) K (fst h) st) (m, exp_empty).
  (** BootstrapRun::execute: BootstrapRun.cpp:23-32; [i + seed] taken without int overflow. *)
  Definition bootstrap_run (n : nat) (seed : Z) (l : ilist) (m : M) : res (M * experiment) :=
    foldM (fun st i => do m <- train (fst st) (bootstrap l (Z.of_nat i + seed)%Z); do p <- test m l; Ok (m, exp_add (snd st) p)) (seq 0 n) (m, exp_empty).
  (** SingleRunWithK::runExperiment / execute: SingleRunWithK.cpp:26-42, StratifiedSingleRunWithK.cpp:24-31;
      Model::singleRun (Model.cpp:64-67) trains and tests. *)
  Definition single_run (m : M) (trainSet testSet : ilist) : res (M * perf) :=
    do m' <- train m trainSet; do p <- test m' testSet; Ok (m', p).
  Definition singlek_run (K : nat) (seed : Z) (l : ilist) (m : M) : res (M * perf) :=
    single_run m (fst (kfold l K seed 0)) (snd (kfold l K seed 0)).
  Definition ssinglek_run (K : nat) (seed : Z) (l : ilist) (m : M) : res (M * perf) :=
    do gs <- part_class l; single_run m (fst (skfold gs K seed 0)) (snd (skfold gs K seed 0)).
End Runs.
