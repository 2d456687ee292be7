(** Vocabulary for training and asking the library's classifiers on clean numeric data. *)
From Coq Require Import String ZArith QArith Bool Permutation List.
From Verif Require Import Base Spec AttrModel InstanceListModel PerformanceModel DistanceModel GaussianModel TreeModel EnsembleModel NetModel SoftModel
  SvmModel ExperimentModel PartitionModel LibModel TreeSpec.
Import ListNotations.
Local Open Scope list_scope.
Local Open Scope nat_scope.

(** * The data *)
(** An ordinary instance: a label and [d] finite numbers. *)
Definition clean_inst (d : nat) (x : instance) : Prop :=
  composite x = None /\ exists v : list Q, length v = d /\ attrs x = map (fun q => ACont (Fin q)) v.
Definition clean (d : nat) (l : ilist) : Prop := l <> [] /\ 1 <= d /\ Forall (clean_inst d) l.

(** * What the other libraries owe *)
Definition square_matrix (n : nat) (m : list (list dbl)) : Prop := length m = n /\ Forall (fun r => length r = n) m.
Record sound (E : env) : Prop := {
  (** Matrix::inverse keeps the dimensions, whatever it computes *)
  so_inverse : forall n m, square_matrix n m -> square_matrix n (e_inverse E m);
  (** standardDeviation() gives one number per feature *)
  so_std : forall d l, clean d l -> exists s, e_std E l = Ok s /\ length s = d;
  so_entropy : entropy_finite (e_entropy E);
  so_mid : mid_exact (e_mid E);
  (** index arrays and shuffles are permutations, random matrices have the requested shape *)
  so_rarr : forall n seed, Permutation (e_rarr E n seed) (seq 0 n);
  so_perm : forall n seed, Permutation (e_perm E seed n) (seq 0 n);
  so_rows : forall seed r c, length (e_weights E seed r c) = r;
  so_cols : forall seed r c, Forall (fun row => length row = c) (e_weights E seed r c);
  (** a bootstrap sample has the size of the data *)
  so_pick : forall s n, length (e_pick E s n) = n /\ Forall (fun i => i < n) (e_pick E s n) }.

(** * The objects *)
(** [c] answers every clean instance with a label from [L]. *)
Definition ready (E : env) (d : nat) (L : list string) (c : classifier) : Prop :=
  forall q, clean_inst d q -> exists y, predict E c q = Ok y /\ In y L.
(** What an object may hold from earlier trainings on data with [d] features and labels in [L]; a new object qualifies. *)
Definition steady (E : env) (d : nat) (L : list string) (c : classifier) : Prop :=
  match c with
  | BayesC m => nb_dists m = [] /\ Forall (fun kv => length (snd kv) = d) (nb_means m) /\ Forall (fun kv => length (snd kv) = d) (nb_devs m)
  | BaggingC f | ForestC f => Forall (fun t => forall q, clean_inst d q -> exists y, tree_predict (e_max_item E) t q = Ok y /\ In y L) f
  | DeepC m => de_weights m = []
  | _ => True
  end.

(** * Settings that make sense *)
(** a distance that is a number for clean instances *)
Definition measures (d : nat) (m : metric) : Prop :=
  forall x y, clean_inst d x -> clean_inst d y -> exists v, m x y = Ok v /\ is_nan v = false.
(** the validation share [q] of [n] instances leaves one for training *)
Definition leaves_one (q : Q) (n : nat) : Prop := (qofn n * q <= qofn n - 1)%Q.
Definition suits (d : nat) (l : ilist) (c : classifier) (p : param) : Prop :=
  match c with
  | KnnC _ => exists s m k, p = PKnn s m k /\ (1 <= k)%Z /\ measures d m
  | KMeansC _ => exists s m, (p = PKMeans s m \/ exists k, p = PKnn s m k) /\ measures d m
  | LdaC _ | QdaC _ | BayesC _ | DummyC _ | RandomC _ | StumpC _ => True
  | TreeC _ => (exists s r, p = PC45 s false r) \/
               (exists s q, p = PC45 s true (Fin q) /\ exists c, In c (map label l) /\ leaves_one q (occ (map label l) c))
  | BaggingC _ => exists s n, (p = PBagging s n \/ exists k, p = PForest s n k) /\ (1 <= n)%Z
  | ForestC _ => exists s n k, p = PForest s n k /\ (1 <= n)%Z
  | LinearC _ => exists s f q, (p = PLinear s f \/ (exists h a, p = PMlp s f h a) \/ (exists hs a, p = PDeep s f hs a) \/ exists a, p = PSoft s f a) /\
                 f_ratio f = Fin q
  | MlpC _ => exists s f h a q, p = PMlp s f h a /\ f_ratio f = Fin q
  | DeepC _ => exists s f hs a q, p = PDeep s f hs a /\ f_ratio f = Fin q /\ hs <> []
  | SoftC _ => exists s f a q, p = PSoft s f a /\ f_ratio f = Fin q /\
               (forall c, In c (map label l) -> leaves_one q (occ (map label l) c)) /\ (Z.of_nat (length l) < 2147483647)%Z
  | AutoC _ | SvmC _ => False
  end.
(** [E] with another bound on the unbounded loops *)
Definition with_fuel (n : nat) (E : env) : env :=
  mkEnv (e_exp E) (e_tanh E) (e_pow E) (e_ln E) (e_inverse E) (e_det E) (e_std E) (e_entropy E) (e_mid E) (e_max_item E) (e_rarr E) (e_perm E)
        (e_pick E) (e_weights E) (e_rand E) (e_random E) n.
(** the lists an experiment trains on *)
Definition trains_on (E : env) (kfold : ilist -> nat -> Z -> nat -> ilist * ilist) (skfold : list ilist -> nat -> Z -> nat -> ilist * ilist)
    (sample : ilist -> Z -> ilist) (r : run) (seed : Z) (l tr : ilist) : Prop :=
  match r with
  | KFold K | MxKFold _ K => exists i, i < K /\ tr = fst (kfold l K seed i)
  | SKFold K | SMxKFold _ K => exists i gs, i < K /\ part_class l = Ok gs /\ tr = fst (skfold gs K seed i)
  | KFoldSep K | MxKFoldSep _ K => exists i h, i < K /\ hold_out (e_perm E) seed l = Ok h /\ tr = fst (kfold (snd h) K seed i)
  | SKFoldSep K | SMxKFoldSep _ K => exists i h gs, i < K /\ shold_out (e_rarr E) seed l = Ok h /\ part_class (snd h) = Ok gs /\ tr = fst (skfold gs K seed i)
  | Boot n => exists i, i < n /\ tr = sample l (Z.of_nat i + seed)%Z
  end.
Definition round_count (r : run) : nat :=
  match r with
  | KFold K | SKFold K | KFoldSep K | SKFoldSep K => K
  | MxKFold M K | SMxKFold M K | MxKFoldSep M K | SMxKFoldSep M K => M * K
  | Boot n => n
  end.
