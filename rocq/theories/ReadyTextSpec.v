(** Vocabulary for C151: training and asking the library's classifiers on data whose features are all discrete. *)
From Coq Require Import String ZArith QArith Bool List.
From Verif Require Import Base Spec AttrModel InstanceListModel PartitionModel PerformanceModel DistanceModel GaussianModel TreeModel EnsembleModel NetModel SoftModel
  SvmModel LibModel TreeSpec ReadySpec.
Import ListNotations.
Local Open Scope list_scope.
Local Open Scope nat_scope.

(** An instance with a label and [d] words; a list of them. *)
Definition text_inst (d : nat) (x : instance) : Prop := composite x = None /\ exists v : list string, length v = d /\ attrs x = map ADisc v.
Definition texts (d : nat) (l : ilist) : Prop := l <> [] /\ 1 <= d /\ Forall (text_inst d) l.
(** Plain instances with the features of a table: discrete, binary, indexed and numeric columns in any mixture. *)
Definition row_of (shape : list kind) (x : instance) : Prop := composite x = None /\ typed shape x.
(** [c] answers every instance satisfying [P] with a label from [L]. *)
Definition answers_all (E : env) (P : instance -> Prop) (L : list string) (c : classifier) : Prop :=
  forall q, P q -> exists y, predict E c q = Ok y /\ In y L.
(** a distance that is a number for the instances satisfying [P] *)
Definition measures_all (P : instance -> Prop) (m : metric) : Prop := forall x y, P x -> P y -> exists v, m x y = Ok v /\ is_nan v = false.
(** classes whose training works on words *)
Definition reads_words (c : classifier) : bool :=
  match c with KnnC _ | KMeansC _ | BayesC _ | DummyC _ | RandomC _ | TreeC _ | StumpC _ | BaggingC _ | ForestC _ => true | _ => false end.
(** classes that refuse words *)
Definition refuses_words (c : classifier) : bool :=
  match c with LdaC _ | QdaC _ | LinearC _ | MlpC _ | DeepC _ | AutoC _ | SvmC _ => true | _ => false end.
(** Trees and ensembles, dummy and random model: they do not care about the mixture of features. *)
Definition reads_rows (c : classifier) : bool :=
  match c with KnnC _ | DummyC _ | RandomC _ | TreeC _ | StumpC _ | BaggingC _ | ForestC _ => true | _ => false end.
(** settings that make sense, for instances satisfying [P] *)
Definition fits (P : instance -> Prop) (l : ilist) (c : classifier) (p : param) : Prop :=
  match c with
  | KnnC _ => exists s m k, p = PKnn s m k /\ (1 <= k)%Z /\ measures_all P m
  | KMeansC _ => exists s m, (p = PKMeans s m \/ exists k, p = PKnn s m k) /\ measures_all P m
  | TreeC _ => (exists s r, p = PC45 s false r) \/
               (exists s q, p = PC45 s true (Fin q) /\ exists c, In c (map label l) /\ leaves_one q (occ (map label l) c))
  | BaggingC _ => exists s n, (p = PBagging s n \/ exists k, p = PForest s n k) /\ (1 <= n)%Z
  | ForestC _ => exists s n k, p = PForest s n k /\ (1 <= n)%Z
  | _ => True
  end.
(** What an object may hold from earlier trainings. *)
Definition kept (E : env) (P : instance -> Prop) (d : nat) (L : list string) (c : classifier) : Prop :=
  match c with
  | BayesC m => Forall (fun kv => length (snd kv) = d) (nb_dists m)
  | BaggingC f | ForestC f => Forall (fun t => forall q, P q -> exists y, tree_predict (e_max_item E) t q = Ok y /\ In y L) f
  | _ => True
  end.
