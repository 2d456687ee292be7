(** Model of src/Parameter, of the way the train functions read their parameter object, and of src/Experiment/Experiment.cpp:
    all classifiers of the library behind the interface of src/Model/Model.h.  Definitions only. *)
From Coq Require Import String ZArith QArith Bool List.
From Verif Require Import Base AttrModel DataSetModel InstanceListModel PartitionModel PerformanceModel DistanceModel GaussianModel
  TreeModel EnsembleModel NetModel SoftModel SolverModel SvmModel ExperimentModel.
Import ListNotations.
Local Open Scope string_scope.
Local Open Scope list_scope.
Local Open Scope nat_scope.

(** * Parameter objects *)
(** A DistanceMetric object is its [distance] function. *)
Definition metric := instance -> instance -> res dbl.
(** The data members of Parameter (Parameter.h:9), and of LinearPerceptronParameter (LinearPerceptronParameter.h:10-14). *)
Record lin_fields := mkLF { f_rate : dbl; f_decay : dbl; f_ratio : dbl; f_epoch : Z }.
(** One constructor per class of src/Parameter, with the data members of the class and of its bases; the first one is [seed]. *)
Inductive param :=
| PPlain (seed : Z)                                                             (* Parameter.cpp:12-14 *)
| PBagging (seed size : Z)                                                      (* BaggingParameter.cpp:13-15 *)
| PForest (seed size subset : Z)                                                (* RandomForestParameter.cpp:14-16 *)
| PC45 (seed : Z) (prune : bool) (ratio : dbl)                                  (* C45Parameter.cpp:14-17 *)
| PKMeans (seed : Z) (d : metric)                                               (* KMeansParameter.cpp:23-25 *)
| PKnn (seed : Z) (d : metric) (k : Z)                                          (* KnnParameter.cpp:14-16 *)
| PLinear (seed : Z) (f : lin_fields)                                           (* LinearPerceptronParameter.cpp:16-22 *)
| PMlp (seed : Z) (f : lin_fields) (hidden : Z) (act : activation)              (* MultiLayerPerceptronParameter.cpp:18-23 *)
| PDeep (seed : Z) (f : lin_fields) (hidden : list Z) (act : activation)        (* DeepNetworkParameter.cpp:18-23 *)
| PSoft (seed : Z) (f : lin_fields) (alpha : dbl)                               (* SoftDecisionTreeParameter.cpp:7-9 *)
| PSvm (seed : Z) (p : svm_param).                                              (* SvmParameter.cpp:17-23 *)
(** The constructors with fewer arguments: KMeansParameter.cpp:13-15, KnnParameter.cpp:24-26 (via KMeansParameter(seed)), and
    SvmParameter.cpp:17-23, where [shrinking] has the initialiser of SvmParameter.h:14. *)
Definition new_kmeans_param (seed : Z) : param := PKMeans seed eucl.
Definition new_knn_param (seed k : Z) : param := PKnn seed eucl k.
Definition new_svm_param (seed : Z) (kernel : kernel_type) (degree : Z) (gamma coef0 C : dbl) : param :=
  PSvm seed (mkParam kernel degree gamma coef0 C true).
(** Parameter::getSeed: Parameter.cpp:21-23. *)
Definition get_seed (p : param) : Z :=
  match p with
  | PPlain s | PBagging s _ | PForest s _ _ | PC45 s _ _ | PKMeans s _ | PKnn s _ _ | PLinear s _ | PMlp s _ _ _ | PDeep s _ _ _
  | PSoft s _ _ | PSvm s _ => s
  end.

(** [(T* ) parameters] is a static_cast: undefined behaviour when the object is not a T.  A null pointer can be cast, but not used.
    One function per class used in a cast; it gives the members of that class, as its accessors return them. *)
Definition deref_param (p : option param) : res param := match p with Some p => Ok p | None => UB NullDeref end.
(** BaggingParameter.cpp:22-24 *)
Definition as_bagging (p : option param) : res (Z * Z) :=
  do p <- deref_param p; match p with PBagging s n | PForest s n _ => Ok (s, n) | _ => UB BadCast end.
(** RandomForestParameter.cpp:23-25 *)
Definition as_forest (p : option param) : res (Z * Z * Z) :=
  do p <- deref_param p; match p with PForest s n a => Ok (s, n, a) | _ => UB BadCast end.
(** C45Parameter.cpp:24-26, 33-35 *)
Definition as_c45 (p : option param) : res (Z * bool * dbl) :=
  do p <- deref_param p; match p with PC45 s b r => Ok (s, b, r) | _ => UB BadCast end.
(** KMeansParameter.cpp:32-34 *)
Definition as_kmeans (p : option param) : res metric :=
  do p <- deref_param p; match p with PKMeans _ d | PKnn _ d _ => Ok d | _ => UB BadCast end.
(** KnnParameter.cpp:33-35 *)
Definition as_knn (p : option param) : res (metric * Z) :=
  do p <- deref_param p; match p with PKnn _ d k => Ok (d, k) | _ => UB BadCast end.
(** LinearPerceptronParameter.cpp:29-31, 38-40, 47-49, 56-58.  A negative epoch count makes no epoch. *)
Definition net_of (s : Z) (f : lin_fields) (hs : list nat) (a : activation) : net_param :=
  mkPar s (f_rate f) (f_decay f) (f_ratio f) (Z.to_nat (f_epoch f)) hs a.
Definition as_linear (p : option param) : res net_param :=
  do p <- deref_param p;
  match p with PLinear s f | PMlp s f _ _ | PDeep s f _ _ | PSoft s f _ => Ok (net_of s f [] NetModel.SIGMOID) | _ => UB BadCast end.
(** MultiLayerPerceptronParameter.cpp:30-32, 39-41; the number of hidden nodes is taken as not negative. *)
Definition as_mlp (p : option param) : res net_param :=
  do p <- deref_param p; match p with PMlp s f h a => Ok (net_of s f [Z.to_nat h] a) | _ => UB BadCast end.
(** DeepNetworkParameter.cpp:30-32, 41-43, 50-52 *)
Definition as_deep (p : option param) : res net_param :=
  do p <- deref_param p; match p with PDeep s f hs a => Ok (net_of s f (map Z.to_nat hs) a) | _ => UB BadCast end.
(** SoftDecisionTreeParameter.cpp:11-13 *)
Definition as_soft (p : option param) : res soft_param :=
  do p <- deref_param p;
  match p with PSoft s f a => Ok (mkSPar s (f_decay f) (f_ratio f) (Z.to_nat (f_epoch f)) a) | _ => UB BadCast end.

(** * The classifiers *)
(** What the library leaves to others: the functions of the sections of the model files used here. *)
Record env := mkEnv {
  e_exp : dbl -> dbl; e_tanh : dbl -> dbl; e_pow : dbl -> Z -> dbl; e_ln : dbl -> dbl;
  e_inverse : list (list dbl) -> list (list dbl); e_det : list (list dbl) -> dbl; e_std : ilist -> res (list dbl);
  e_entropy : counter -> dbl; e_mid : dbl -> dbl -> dbl; e_max_item : counter -> list string -> string;
  e_rarr : nat -> Z -> list nat; e_perm : Z -> nat -> list nat; e_pick : Z -> nat -> list nat;
  (** initial weights, rand() after srand(seed), random() at the call of RandomModel::predict *)
  e_weights : Z -> nat -> nat -> list (list dbl); e_rand : Z -> nat -> dbl; e_random : list string -> instance -> nat; e_fuel : nat }.

(** An object of a class derived from Model: its data members.  [None] where a default constructor leaves them uninitialised.
    SvmModel and AutoEncoderModel do not override the pure virtual loadModel; here they stand for a subclass that does. *)
Inductive classifier :=
| KnnC (m : option (ilist * Z * metric))                  (* KnnModel.h:14-16 *)
| KMeansC (m : option (kmeans * metric))                  (* KMeansModel.h:13-14 *)
| LdaC (m : lda) | QdaC (m : qda) | BayesC (m : bayes)
| DummyC (m : counter) | RandomC (m : list string)
| TreeC (root : option tree) | StumpC (root : option tree)(* DecisionTree.h:12 *)
| BaggingC (forest : list tree) | ForestC (forest : list tree)
| LinearC (m : linear) | MlpC (m : mlp) | DeepC (m : deep) | AutoC (m : auto)
| SoftC (m : option soft)
| SvmC (m : svm).

Section Library.
  Context (E : env).
  (** SvmModel::train with a null parameter (SvmModel.cpp:18-138): the pointer is stored and first used by solveSingle
      (line 62), once per pair of classes. *)
  Definition svm_null (old : svm) (l : ilist) : res (svm * ilist) :=
    do x0 <- atn l 0;
    if negb (discrete_check x0) then Throw DiscreteNotAllowed
    else if Nat.leb 2 (List.length (class_distribution (sort_class l))) then UB NullDeref
    else do r <- svm_train (e_exp E) (e_tanh E) (e_pow E) (e_fuel E) old l (mkParam LINEAR 0 d0 d0 d0 true);
         let m := fst r in Ok (mkSvm (m_dist m) (m_rho m) (m_nsv m) (m_sv m) (m_coef m) None (m_ncl m) (m_nprob m), snd r).
  (** train(trainSet, parameters) of each class: the classifier and the caller's list after the call.  What each function reads
      from the parameter object: KnnModel.cpp:106-110, KMeansModel.cpp:60, DecisionTree.cpp:105-106, BaggingModel.cpp:19,
      RandomForestModel.cpp:16-19, LinearPerceptronModel.cpp:41-44, MultiLayerPerceptronModel.cpp:52-55,
      DeepNetworkModel.cpp:81-84, AutoEncoderModel.cpp:86, SoftDecisionTree.cpp:13-21, SvmModel.cpp:22; nothing at all:
      LdaModel.cpp:69, QdaModel.cpp:54, NaiveBayesModel.cpp:128, DummyModel.cpp:64, RandomModel.cpp:75, DecisionStump.cpp:15.
      Networks check the first instance (initialize) before they look at the parameter. *)
  Definition train (c : classifier) (l : ilist) (p : option param) : res (classifier * ilist) :=
    match c with
    | KnnC _ => do a <- as_knn p; Ok (KnnC (Some (l, snd a, fst a)), l)
    | KMeansC old => do m <- kmeans_train (match old with Some m => fst m | None => mkKM [] [] end) l;
                     do d <- as_kmeans p; Ok (KMeansC (Some (m, d)), l)
    | LdaC old => do m <- lda_train (e_inverse E) (e_ln E) old l; Ok (LdaC m, l)
    | QdaC old => do m <- qda_train (e_inverse E) (e_det E) (e_ln E) old l; Ok (QdaC m, l)
    | BayesC old => do m <- bayes_train (e_std E) old l; Ok (BayesC m, l)
    | DummyC old => Ok (DummyC (dummy_train old l), l)
    | RandomC old => Ok (RandomC (random_train old l), l)
    | TreeC _ => do a <- as_c45 p;
                 do t <- tree_train (e_max_item E) (e_entropy E) (e_mid E) (e_rarr E) (snd (fst a)) (snd a) (fst (fst a)) (e_fuel E) l;
                 Ok (TreeC (Some t), l)
    | StumpC _ => do t <- stump_train (e_entropy E) (e_mid E) (e_rarr E) (e_fuel E) l; Ok (StumpC (Some t), l)
    | BaggingC old => do a <- as_bagging p;
                      do f <- ensemble_train (e_entropy E) (e_mid E) (e_rarr E) (e_pick E) None (Z.to_nat (snd a)) (e_fuel E) old l;
                      Ok (BaggingC f, l)
    | ForestC old => do a <- as_forest p;
                     let '(s, n, k) := a in
                     do f <- ensemble_train (e_entropy E) (e_mid E) (e_rarr E) (e_pick E) (Some (Z.to_nat k, s)) (Z.to_nat n) (e_fuel E) old l;
                     Ok (ForestC f, l)
    | LinearC old => do _ <- initialize l; do a <- as_linear p;
                     do m <- linear_train (e_exp E) (e_rarr E) (e_perm E) (e_weights E) old l a; Ok (LinearC m, l)
    | MlpC old => do _ <- initialize l; do a <- as_mlp p;
                  do m <- mlp_train (e_exp E) (e_tanh E) (e_rarr E) (e_perm E) (e_weights E) old l a; Ok (MlpC m, l)
    | DeepC old => do _ <- initialize l; do a <- as_deep p;
                   do m <- deep_train (e_exp E) (e_tanh E) (e_rarr E) (e_perm E) (e_weights E) old l a; Ok (DeepC m, l)
    | AutoC old => do _ <- initialize l; do a <- as_mlp p;
                   do m <- auto_train (e_exp E) (e_tanh E) (e_rarr E) (e_perm E) (e_weights E) old l a; Ok (AutoC m, l)
    | SoftC _ => do q <- deref_param p;
                 do _ <- new_node (e_rand E (get_seed q)) l 0;
                 do _ <- as_linear p; do a <- as_soft p;
                 do m <- soft_train (e_exp E) (e_rarr E) (e_perm E) (e_rand E (sp_seed a)) (e_fuel E) l a; Ok (SoftC (Some m), l)
    | SvmC old =>
        match p with
        | None => do r <- svm_null old l; Ok (SvmC (fst r), snd r)
        | Some (PSvm _ q) => do r <- svm_train (e_exp E) (e_tanh E) (e_pow E) (e_fuel E) old l q; Ok (SvmC (fst r), snd r)
        | Some _ => do x0 <- atn l 0; if negb (discrete_check x0) then Throw DiscreteNotAllowed else UB BadCast
        end
    end.
  (** predict(instance) of each class.  What a prediction leaves in scratch members (the output vector of the networks, the
      weights along the paths of a soft tree) is left out here; NetModel.v and SoftModel.v have it. *)
  Definition predict (c : classifier) (x : instance) : res string :=
    match c with
    | KnnC None | KMeansC None | TreeC None | StumpC None | SoftC None => UB Uninit
    | KnnC (Some (l, k, d)) => knn_predict d l k x
    | KMeansC (Some (m, d)) => kmeans_predict d m x
    | LdaC m => lda_predict m x
    | QdaC m => qda_predict m x
    | BayesC m => bayes_predict (e_ln E) m x
    | DummyC m => Ok (dummy_predict (e_max_item E) m x)
    | RandomC m => random_predict (e_random E m x) m x
    | TreeC (Some t) | StumpC (Some t) => tree_predict (e_max_item E) t x
    | BaggingC f | ForestC f => ensemble_predict (e_max_item E) f x
    | LinearC m => rmap fst (linear_predict m x)
    | MlpC m => rmap fst (mlp_predict (e_exp E) (e_tanh E) m x)
    | DeepC m => rmap fst (deep_predict (e_exp E) (e_tanh E) m x)
    (* AutoEncoderModel.cpp:63-68 *)
    | AutoC m => rmap fst (net_predict (mlp_output (e_exp E) (e_tanh E) NetModel.SIGMOID (au_W m) (au_V m)) (au_labels m) (au_y m) x)
    | SoftC (Some m) => rmap fst (soft_predict (e_exp E) m x)
    | SvmC m => svm_predict (e_exp E) (e_tanh E) (e_pow E) m x
    end.
  (** test(testSet): Model.cpp:45-53, overridden by AutoEncoderModel.cpp:144-146. *)
  Definition test (c : classifier) (l : ilist) : res perf :=
    match c with
    | AutoC m => do t <- auto_test (e_exp E) (e_tanh E) (au_W m) (au_V m) l (au_y m); Ok (PError (fst t))
    | _ => test_model (predict c) l
    end.

  (** * Experiments *)
  (** Experiment: Experiment.h:14-16, Experiment.cpp:13-17; the accessors of lines 23-41 are the fields. *)
  Record exper := mkExper { x_model : classifier; x_param : option param; x_data : dataset }.
  (** featureSelectedExperiment: Experiment.cpp:48-51; the new experiment has the same model and parameter objects. *)
  Definition feature_selected (e : exper) (fs : list Z) : res exper :=
    do d <- ds_subset (x_data e) fs; Ok (mkExper (x_model e) (x_param e) d).
  (** The classes of src/Experiment that give an ExperimentPerformance: KFoldRun.cpp:13-15, StratifiedKFoldRun.cpp:13-14,
      MxKFoldRun.cpp:14-16, StratifiedMxKFoldRun.cpp:14-15, the same with a separate test set, BootstrapRun.cpp:13-15.
      M and K are not negative here. *)
  Inductive run := KFold (K : nat) | SKFold (K : nat) | MxKFold (M K : nat) | SMxKFold (M K : nat)
                 | KFoldSep (K : nat) | SKFoldSep (K : nat) | MxKFoldSep (M K : nat) | SMxKFoldSep (M K : nat) | Boot (n : nat).
  Context (kfold : ilist -> nat -> Z -> nat -> ilist * ilist) (skfold : list ilist -> nat -> Z -> nat -> ilist * ilist)
          (sample : ilist -> Z -> ilist).
  (** train as the runs call it, on a list of their own (InstanceList(crossValidation->getTrainFold(i)) and the like). *)
  Definition train_copy (p : option param) (c : classifier) (l : ilist) : res classifier := rmap fst (train c l p).
  (** execute(experiment): the model after the run and the results.  All start by reading the seed, a loop that makes no round
      does not. *)
  Definition execute (r : run) (e : exper) : res (classifier * experiment) :=
    let p := x_param e in
    let l := insts (x_data e) in
    let seed := match p with Some q => get_seed q | None => 0%Z end in
    let tr := train_copy p in
    let uses_seed := match r with MxKFold M _ | SMxKFold M _ => Nat.ltb 0 M | Boot n => Nat.ltb 0 n | _ => true end in
    if uses_seed && match p with None => true | _ => false end then UB NullDeref
    else match r with
         | KFold K => kfold_run tr test kfold K seed l (x_model e)
         | SKFold K => skfold_run tr test skfold K seed l (x_model e)
         | MxKFold M K => mxkfold_run tr test kfold M K seed l (x_model e)
         | SMxKFold M K => smxkfold_run tr test skfold M K seed l (x_model e)
         | KFoldSep K => kfold_sep_run tr test kfold (e_perm E) K seed l (x_model e)
         | SKFoldSep K => skfold_sep_run tr test skfold (e_rarr E) K seed l (x_model e)
         | MxKFoldSep M K => mxkfold_sep_run tr test kfold (e_perm E) M K seed l (x_model e)
         | SMxKFoldSep M K => smxkfold_sep_run tr test skfold (e_rarr E) M K seed l (x_model e)
         | Boot n => bootstrap_run tr test sample n seed l (x_model e)
         end.
End Library.
