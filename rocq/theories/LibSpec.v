(** Vocabulary for parameter objects and experiments. *)
From Coq Require Import String ZArith QArith Bool Permutation List.
From Verif Require Import Base AttrModel InstanceListModel PerformanceModel GaussianModel TreeModel EnsembleModel NetModel NetSpec SoftModel SvmModel ExperimentSpec LibModel.
Import ListNotations.
Local Open Scope list_scope.
Local Open Scope nat_scope.

(** The classes of src/Parameter and who derives from whom. *)
Inductive pclass := Plain | Bagging | RandomForest | C45 | KMeans | Knn | LinearPerceptron | MultiLayerPerceptron | DeepNetwork
                  | SoftDecisionTree | Svm.
Inductive extends : pclass -> pclass -> Prop :=
| ext_refl c : extends c c
| ext_plain c : extends c Plain
| ext_forest : extends RandomForest Bagging
| ext_knn : extends Knn KMeans
| ext_mlp : extends MultiLayerPerceptron LinearPerceptron
| ext_deep : extends DeepNetwork LinearPerceptron
| ext_soft : extends SoftDecisionTree LinearPerceptron.
(** The class an object was created as. *)
Definition class_of (p : param) : pclass :=
  match p with
  | PPlain _ => Plain | PBagging _ _ => Bagging | PForest _ _ _ => RandomForest | PC45 _ _ _ => C45 | PKMeans _ _ => KMeans
  | PKnn _ _ _ => Knn | PLinear _ _ => LinearPerceptron | PMlp _ _ _ _ => MultiLayerPerceptron | PDeep _ _ _ _ => DeepNetwork
  | PSoft _ _ _ => SoftDecisionTree | PSvm _ _ => Svm
  end.
(** The class of parameters each classifier asks for; [None]: it does not look at its parameter. *)
Definition asks_for (c : classifier) : option pclass :=
  match c with
  | KnnC _ => Some Knn | KMeansC _ => Some KMeans | TreeC _ => Some C45 | BaggingC _ => Some Bagging | ForestC _ => Some RandomForest
  | LinearC _ => Some LinearPerceptron | MlpC _ | AutoC _ => Some MultiLayerPerceptron | DeepC _ => Some DeepNetwork
  | SoftC _ => Some SoftDecisionTree | SvmC _ => Some Svm
  | LdaC _ | QdaC _ | BayesC _ | DummyC _ | RandomC _ | StumpC _ => None
  end.
(** A newly created object of the same class. *)
Definition fresh (c : classifier) : classifier :=
  match c with
  | KnnC _ => KnnC None | KMeansC _ => KMeansC None | LdaC _ => LdaC lda_empty | QdaC _ => QdaC qda_empty | BayesC _ => BayesC bayes_empty
  | DummyC _ => DummyC [] | RandomC _ => RandomC [] | TreeC _ => TreeC None | StumpC _ => StumpC None | BaggingC _ => BaggingC []
  | ForestC _ => ForestC [] | LinearC _ => LinearC (mkLin [] [] (mkMat 0 [])) | MlpC _ => MlpC (mkMlp [] [] (mkMat 0 []) (mkMat 0 []) SIGMOID)
  | DeepC _ => DeepC deep_empty | AutoC _ => AutoC (mkAuto [] [] (mkMat 0 []) (mkMat 0 [])) | SoftC _ => SoftC None | SvmC _ => SvmC svm_empty
  end.
(** The classifiers whose train replaces everything an earlier training left. *)
Definition replaces (c : classifier) : bool :=
  match c with KnnC _ | KMeansC _ | DummyC _ | RandomC _ | TreeC _ | StumpC _ | SoftC _ => true | _ => false end.
(** The same object with another seed. *)
Definition with_seed (s : Z) (p : param) : param :=
  match p with
  | PPlain _ => PPlain s | PBagging _ n => PBagging s n | PForest _ n k => PForest s n k | PC45 _ b r => PC45 s b r
  | PKMeans _ d => PKMeans s d | PKnn _ d k => PKnn s d k | PLinear _ f => PLinear s f | PMlp _ f h a => PMlp s f h a
  | PDeep _ f h a => PDeep s f h a | PSoft _ f a => PSoft s f a | PSvm _ q => PSvm s q
  end.
(** The pairs of training and test list of one run, each trained from a new object. *)
Definition separately (E : env) (p : param) (c : classifier) (fs : list (ilist * ilist)) (ps : list perf) : Prop :=
  Forall2 (fun f q => exists m l', train E (fresh c) (fst f) (Some p) = Ok (m, l') /\ test E m (snd f) = Ok q) fs ps.
(** The rounds a run makes on the data: pairs of training and test list. *)
Definition held_out (held : ilist) (fs : list (ilist * ilist)) (l : ilist) : Prop :=
  Forall (fun f => snd f = held /\ exists left_out, Permutation (fst f ++ left_out ++ held) l) fs.
Definition plan (r : run) (l : ilist) (fs : list (ilist * ilist)) : Prop :=
  match r with
  | KFold K | SKFold K => length fs = K /\ cross_validation fs l
  | MxKFold M K | SMxKFold M K => exists reps, fs = concat reps /\ length reps = M /\ Forall (fun g => length g = K /\ cross_validation g l) reps
  | KFoldSep K | SKFoldSep K => length fs = K /\ exists held, held_out held fs l
  | MxKFoldSep M K | SMxKFoldSep M K => length fs = M * K /\ exists held, held_out held fs l
  | Boot n => length fs = n /\ Forall (fun f => resample (fst f) l /\ snd f = l) fs
  end.
(** at least one fold per cross validation *)
Definition some_folds (r : run) : Prop :=
  match r with KFold K | SKFold K | MxKFold _ K | SMxKFold _ K | KFoldSep K | SKFoldSep K | MxKFoldSep _ K | SMxKFoldSep _ K => 1 <= K | Boot _ => True end.
(** at least one round *)
Definition some_rounds (r : run) : Prop :=
  match r with MxKFold M _ | SMxKFold M _ | Boot M => 1 <= M | _ => True end.
(** A forest that grows from round to round: every round's votes are those of all trees so far. *)
Definition votes (E : env) (forest : list tree) (te : ilist) : res perf := test_model (ensemble_predict (e_max_item E) forest) te.
Inductive piled (E : env) (grow : ilist -> res (list tree)) : list tree -> list (ilist * ilist) -> list perf -> Prop :=
| piled_nil old : piled E grow old [] []
| piled_cons old tr te new q fs ps : grow tr = Ok new -> votes E (old ++ new) te = Ok q -> piled E grow (old ++ new) fs ps -> piled E grow old ((tr, te) :: fs) (q :: ps).
Definition same_labels (a b : ilist) : Prop := forall c, In c (map label a) <-> In c (map label b).
(** [metric] scores [x] for every class of [tr], one of them above the value a search starts with. *)
Definition scored (metric : string -> res dbl) (tr : ilist) (x : instance) : Prop :=
  (forall c, In c (map label tr) -> exists v, metric c = Ok v) /\
  (composite x = None -> exists c v, In c (map label tr) /\ metric c = Ok v /\ dgtb v (dopp GaussianModel.dbl_max) = true).
(** Data for a network with [d] inputs in every round. *)
Definition fit_rounds (d : nat) (fs : list (ilist * ilist)) : Prop := Forall (fun f => net_data (fst f) d /\ Forall (fun x => inst_size x = d) (snd f)) fs.
(** The same rounds in terms of the functions that make the folds, all called with seed [s]; bootstrap samples with s, s + 1, ... *)
Definition seeded (kfold : ilist -> nat -> Z -> nat -> ilist * ilist) (skfold : list ilist -> nat -> Z -> nat -> ilist * ilist) (sample : ilist -> Z -> ilist)
  (r : run) (s : Z) (l : ilist) (fs : list (ilist * ilist)) : Prop :=
  let whole K := map (kfold l K s) (seq 0 K) in
  let by_class K f := exists gs, Permutation (concat gs) l /\ Forall (fun g => exists c, Forall (fun x => label x = c) g) gs /\ f = map (skfold gs K s) (seq 0 K) in
  let part K f := exists held rest, Permutation (held ++ rest) l /\ f = map (fun i => (fst (kfold rest K s i), held)) (seq 0 K) in
  let part_by_class K f := exists held gs, Permutation (held ++ concat gs) l /\ f = map (fun i => (fst (skfold gs K s i), held)) (seq 0 K) in
  match r with
  | KFold K => fs = whole K
  | SKFold K => by_class K fs
  | MxKFold M K => fs = concat (repeat (whole K) M)
  | SMxKFold M K => exists f, by_class K f /\ fs = concat (repeat f M)
  | KFoldSep K => part K fs
  | SKFoldSep K => part_by_class K fs
  | MxKFoldSep M K => exists f, part K f /\ fs = concat (repeat f M)
  | SMxKFoldSep M K => exists f, part_by_class K f /\ fs = concat (repeat f M)
  | Boot n => fs = map (fun i => (sample l (Z.of_nat i + s)%Z, l)) (seq 0 n)
  end.
