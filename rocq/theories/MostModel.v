(** Model of predictProbability as the interface of src/Model/Model.h offers it: one function for all classifiers.  Definitions only. *)
From Coq Require Import String ZArith QArith Bool List.
From Verif Require Import Base AttrModel InstanceListModel DistanceModel TreeModel EnsembleModel NetModel SoftModel LibModel.
Import ListNotations.
Local Open Scope list_scope.

(** predictProbability(instance) of each class: KnnModel.cpp:94-97, DummyModel.cpp:53-55, RandomModel.cpp:61-67, DecisionTree.cpp:92-94
    (inherited by DecisionStump and by SoftDecisionTree, whose nodes keep the defaults of DecisionNode.h:17-20),
    TreeEnsembleModel.cpp:53-59, NeuralNetworkModel.cpp:189-197 (inherited by the four networks), and for all others the body in
    Model.h:24, an empty map. *)
Definition probability (E : env) (c : classifier) (x : instance) : res (smap dbl) :=
  match c with
  | KnnC None | TreeC None | StumpC None | SoftC None => UB Uninit
  | KnnC (Some (l, k, d)) => knn_probability d l k x
  | DummyC m => Ok (dummy_probability m x)
  | RandomC m => Ok (random_probability m x)
  | TreeC (Some t) | StumpC (Some t) => node_probability t x
  | BaggingC f | ForestC f => ensemble_probability (e_max_item E) f x
  | LinearC m => rmap fst (linear_probability m x)
  | MlpC m => rmap fst (mlp_probability (e_exp E) (e_tanh E) m x)
  | DeepC m => rmap fst (deep_probability (e_exp E) (e_tanh E) m x)
  | AutoC m => rmap fst (net_probability (mlp_output (e_exp E) (e_tanh E) NetModel.SIGMOID (au_W m) (au_V m)) (au_labels m) (au_y m) x)
  | SoftC (Some m) => node_probability (as_tree (so_root m)) x
  | KMeansC _ | LdaC _ | QdaC _ | BayesC _ | SvmC _ => Ok []
  end.
