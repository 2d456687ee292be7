(** Model of src/Model/Ensemble/*.cpp, DummyModel.cpp and RandomModel.cpp (serialization is in SerialModel.v).
    Definitions only. *)
From Coq Require Import String ZArith QArith Bool List.
From Verif Require Import Base AttrModel InstanceListModel TreeModel.
Import ListNotations.
Local Open Scope string_scope.
Local Open Scope list_scope.
Local Open Scope nat_scope.

Section Ensemble.
  Context (max_item : counter -> list string -> string).
  (** TreeEnsembleModel::predict: TreeEnsembleModel.cpp:21-27; DiscreteDistribution::getMaxItem() of Math is the first
      item, in map order, with the largest count. *)
  Definition votes (forest : list tree) (x : instance) : res (list string) := mapM (fun t => tree_predict max_item t x) forest.
  Definition ensemble_predict (forest : list tree) (x : instance) : res string :=
    do vs <- votes forest x; Ok (cmax (fold_left cput vs [])).
  (** predictProbability: TreeEnsembleModel.cpp:53-59. *)
  Definition ensemble_probability (forest : list tree) (x : instance) : res (smap dbl) :=
    do vs <- votes forest x; Ok (probabilities (fold_left cput vs [])).
  (** BaggingModel::train: BaggingModel.cpp:18-24 ([param] = None) and RandomForestModel::train: RandomForestModel.cpp:15-21
      ([param] = attribute subset size and seed); [forest] is the model's current list, which is not cleared.  [fuel]
      bounds the depth of the trees. *)
  Definition ensemble_train (entropy : counter -> dbl) (mid : dbl -> dbl -> dbl) (rarr : nat -> Z -> list nat)
             (pick : Z -> nat -> list nat) (param : option (nat * Z)) (size fuel : nat) (forest : list tree) (l : ilist) : res (list tree) :=
    do new <- mapM (fun i => build entropy mid rarr param false fuel (bootstrap pick (Z.of_nat i) l) no_condition) (seq 0 size);
    Ok (forest ++ new).

  (** * DummyModel: the state is its class distribution *)
  (** constructor and train: DummyModel.cpp:13-15, 64-66; the previous distribution is overwritten. *)
  Definition dummy_train (old : counter) (l : ilist) : counter := class_distribution l.
  (** predict: DummyModel.cpp:23-30. *)
  Definition dummy_predict (d : counter) (x : instance) : string :=
    if isComposite x then max_item d (possible_labels x) else cmax d.
  (** predictProbability: DummyModel.cpp:53-55. *)
  Definition dummy_probability (d : counter) (x : instance) : smap dbl := probabilities d.
End Ensemble.

(** * RandomModel: the state is its label list *)
(** train: RandomModel.cpp:75-77, DiscreteDistribution::getItems = the keys in map order. *)
Definition random_train (old : list string) (l : ilist) : list string := mkeys (class_distribution l).
(** predict: RandomModel.cpp:24-35; [r] is the value returned by random(); [random() % 0] is undefined behaviour. *)
Definition random_predict (r : nat) (labels : list string) (x : instance) : res string :=
  let ls := if isComposite x then possible_labels x else labels in
  match List.length ls with
  | 0 => UB IntDivZero
  | n => atn ls (Nat.modulo r n)
  end.
(** predictProbability: RandomModel.cpp:61-67. *)
Definition random_probability (labels : list string) (x : instance) : smap dbl :=
  fold_left (fun m c => mset c (ddiv d1 (dofnat (List.length labels))) m) labels [].
