(** Vocabulary for experiments. *)
From Coq Require Import String ZArith QArith Bool Permutation List.
From Verif Require Import Base AttrModel InstanceListModel PerformanceModel.
Import ListNotations.
Local Open Scope list_scope.
Local Open Scope nat_scope.

Section Rounds.
  Context {M : Type} (train : M -> ilist -> res M) (test : M -> ilist -> res perf).
  (** Training on the first and testing on the second component of each pair in turn, starting from state [m], ends in
      state [m'] and gives these performances. *)
  Inductive rounds : M -> list (ilist * ilist) -> M -> list perf -> Prop :=
  | rounds_nil m : rounds m [] m []
  | rounds_cons m tr te m1 p fs m' ps :
      train m tr = Ok m1 -> test m1 te = Ok p -> rounds m1 fs m' ps -> rounds m ((tr, te) :: fs) m' (p :: ps).
End Rounds.
(** A cross validation of the data: every round's training and test part together are the data, and over all rounds
    every instance is tested exactly once. *)
Definition cross_validation (fs : list (ilist * ilist)) (l : ilist) : Prop :=
  Forall (fun f => Permutation (fst f ++ snd f) l) fs /\ Permutation (flat_map snd fs) l.
(** What the Sampling library promises about its folds. *)
Definition fold_provider {A} (cv : A -> nat -> Z -> nat -> ilist * ilist) (data : A -> ilist) : Prop :=
  forall a K seed, 1 <= K -> cross_validation (map (cv a K seed) (seq 0 K)) (data a).
(** A resample: as many instances, all of them from the data. *)
Definition resample (s l : ilist) : Prop := length s = length l /\ incl s l.
