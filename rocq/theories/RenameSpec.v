(** Vocabulary for the renaming of class labels (C128). *)
From Coq Require Import String ZArith QArith Bool List.
From Verif Require Import Base AttrModel DataSetModel InstanceListModel PerformanceModel GaussianModel TreeModel NetModel SoftModel SvmModel LibModel LibSpec.
Import ListNotations.

(** an instance with its labels renamed; the features stay *)
Definition rename (f : string -> string) (x : instance) : instance :=
  mkInst (f (label x)) (attrs x) (option_map (map f) (composite x)).
(** The renaming keeps the alphabetical order (hence it is injective) and leaves the empty string alone, which the library
    uses for "no label". *)
Definition keeps_order (f : string -> string) : Prop :=
  (forall s t, sltb s t = true -> sltb (f s) (f t) = true) /\ f EmptyString = EmptyString.
(** a table whose keys are labels *)
Definition rkey (f : string -> string) {V} (m : smap V) : smap V := map (fun kv => (f (fst kv), snd kv)) m.
(** a performance: accuracy and error stay, the confusion matrix has the new names *)
Definition rename_matrix (f : string -> string) (m : cmatrix) : cmatrix :=
  mkCM (map (fun kv => (f (fst kv), rkey f (snd kv))) (rows m)) (map f (clabels m)).
Definition rename_perf (f : string -> string) (p : perf) : perf :=
  match p with PDetail a e m => PDetail a e (rename_matrix f m) | _ => p end.
(** What the library leaves to others does not look at the names: entropy and standard deviation, DiscreteDistribution::getMaxItem,
    random(). *)
Definition label_blind (f : string -> string) (E : env) : Prop :=
  (forall c, e_entropy E (rkey f c) = e_entropy E c) /\
  (forall d ls, e_max_item E (rkey f d) (map f ls) = f (e_max_item E d ls)) /\
  (forall l, e_std E (map (rename f) l) = e_std E l) /\
  (forall ls x, e_random E (map f ls) (rename f x) = e_random E ls x).
(** the distance metric of a parameter object does not look at the labels *)
Definition metric_blind (f : string -> string) (d : metric) : Prop := forall x y, d (rename f x) (rename f y) = d x y.
Definition param_blind (f : string -> string) (p : option param) : Prop :=
  match p with Some (PKMeans _ d) | Some (PKnn _ d _) => metric_blind f d | _ => True end.
(** the Sampling library moves instances without looking at them *)
Definition sampling_blind (f : string -> string) (kfold : ilist -> nat -> Z -> nat -> ilist * ilist)
    (skfold : list ilist -> nat -> Z -> nat -> ilist * ilist) (sample : ilist -> Z -> ilist) : Prop :=
  let ren2 p := (map (rename f) (fst p), map (rename f) (snd p)) in
  (forall l K s i, kfold (map (rename f) l) K s i = ren2 (kfold l K s i)) /\
  (forall gs K s i, skfold (map (map (rename f)) gs) K s i = ren2 (skfold gs K s i)) /\
  (forall l s, sample (map (rename f) l) s = map (rename f) (sample l s)).
(** training a new object and asking it one question *)
Definition answer (E : env) (c : classifier) (l : ilist) (p : option param) (q : instance) : res string :=
  do r <- train E (fresh c) l p; predict E (fst r) q.
(** training a new object and testing it *)
Definition score (E : env) (c : classifier) (l : ilist) (p : option param) (te : ilist) : res perf :=
  do r <- train E (fresh c) l p; test E (fst r) te.
(** the classifiers that only compare labels for equality *)
Definition orderless (c : classifier) : bool :=
  match c with LinearC _ | MlpC _ | DeepC _ | SoftC _ => true | _ => false end.
