(** Properties of parameter objects and of experiments over the library's own classifiers (C116, C117). *)
From Coq Require Import String ZArith QArith Bool Lia Permutation List.
From Verif Require Import Base Spec BaseLemmas AttrModel DataSetModel InstanceListModel PartitionModel PerformanceModel DistanceModel GaussianModel
  TreeModel EnsembleModel NetModel SoftModel SolverModel SvmModel ListSpec ListProofs ExperimentModel ExperimentSpec ExperimentProofs ExperimentProps PartitionProofs EnsembleProps GaussianSpec GaussianProofs GaussianProps SvmTrainProofs NetSpec NetProofs NetTrainProofs NetMemoryProofs NetProps SvmProps SvmTrainProps TreeProps LibModel LibSpec.
Import ListNotations.
Local Open Scope string_scope.
Local Open Scope list_scope.
Local Open Scope nat_scope.

(** * C116: parameter objects *)
(** What a parameter object was created with is what training works with.  A new object with these settings, one equation per
    class. *)
Theorem C116_settings : forall E l seed,
  (forall d k o, train E (KnnC o) l (Some (PKnn seed d k)) = Ok (KnnC (Some (l, k, d)), l)) /\
  (forall k o, train E (KnnC o) l (Some (new_knn_param seed k)) = Ok (KnnC (Some (l, k, eucl)), l)) /\
  (forall d o m, kmeans_train (mkKM [] []) l = Ok m -> train E (KMeansC o) l (Some (PKMeans seed d)) = Ok (KMeansC (Some (m, d)), l)) /\
  (forall o m, kmeans_train (mkKM [] []) l = Ok m -> train E (KMeansC o) l (Some (new_kmeans_param seed)) = Ok (KMeansC (Some (m, eucl)), l)) /\
  (forall prune ratio o t, tree_train (e_max_item E) (e_entropy E) (e_mid E) (e_rarr E) prune ratio seed (e_fuel E) l = Ok t ->
     train E (TreeC o) l (Some (PC45 seed prune ratio)) = Ok (TreeC (Some t), l)) /\
  (forall n o f, ensemble_train (e_entropy E) (e_mid E) (e_rarr E) (e_pick E) None n (e_fuel E) o l = Ok f ->
     train E (BaggingC o) l (Some (PBagging seed (Z.of_nat n))) = Ok (BaggingC f, l)) /\
  (forall n k o f, ensemble_train (e_entropy E) (e_mid E) (e_rarr E) (e_pick E) (Some (k, seed)) n (e_fuel E) o l = Ok f ->
     train E (ForestC o) l (Some (PForest seed (Z.of_nat n) (Z.of_nat k))) = Ok (ForestC f, l)) /\
  (forall rate decay ratio n o m, linear_train (e_exp E) (e_rarr E) (e_perm E) (e_weights E) o l (mkPar seed rate decay ratio n [] NetModel.SIGMOID) = Ok m ->
     train E (LinearC o) l (Some (PLinear seed (mkLF rate decay ratio (Z.of_nat n)))) = Ok (LinearC m, l)) /\
  (forall rate decay ratio n h a o m, mlp_train (e_exp E) (e_tanh E) (e_rarr E) (e_perm E) (e_weights E) o l (mkPar seed rate decay ratio n [h] a) = Ok m ->
     train E (MlpC o) l (Some (PMlp seed (mkLF rate decay ratio (Z.of_nat n)) (Z.of_nat h) a)) = Ok (MlpC m, l)) /\
  (forall rate decay ratio n h a o m, auto_train (e_exp E) (e_tanh E) (e_rarr E) (e_perm E) (e_weights E) o l (mkPar seed rate decay ratio n [h] a) = Ok m ->
     train E (AutoC o) l (Some (PMlp seed (mkLF rate decay ratio (Z.of_nat n)) (Z.of_nat h) a)) = Ok (AutoC m, l)) /\
  (forall rate decay ratio n hs a o m, deep_train (e_exp E) (e_tanh E) (e_rarr E) (e_perm E) (e_weights E) o l (mkPar seed rate decay ratio n hs a) = Ok m ->
     train E (DeepC o) l (Some (PDeep seed (mkLF rate decay ratio (Z.of_nat n)) (map Z.of_nat hs) a)) = Ok (DeepC m, l)) /\
  (forall rate decay ratio n alpha o m, soft_train (e_exp E) (e_rarr E) (e_perm E) (e_rand E seed) (e_fuel E) l (mkSPar seed decay ratio n alpha) = Ok m ->
     train E (SoftC o) l (Some (PSoft seed (mkLF rate decay ratio (Z.of_nat n)) alpha)) = Ok (SoftC (Some m), l)) /\
  (forall kernel degree gamma coef0 C o m l', svm_train (e_exp E) (e_tanh E) (e_pow E) (e_fuel E) o l (mkParam kernel degree gamma coef0 C true) = Ok (m, l') ->
     train E (SvmC o) l (Some (new_svm_param seed kernel degree gamma coef0 C)) = Ok (SvmC m, l')).
Proof.
  intros E l seed.
  assert (Hinit : forall A (k : list string * nat -> res A) r, (do i <- initialize l; k i) = Ok r -> exists i, initialize l = Ok i).
  { intros A k r H. apply bind_ok in H as (i & -> & _). eauto. }
  repeat split; intros; cbn [train as_knn as_kmeans as_c45 as_bagging as_forest as_linear as_mlp as_deep as_soft deref_param new_knn_param new_kmeans_param new_svm_param bind fst snd get_seed net_of f_rate f_decay f_ratio f_epoch];
    rewrite ?Nat2Z.id; try reflexivity.
  - destruct o; cbn [fst]; unfold kmeans_train in *; rewrite H; reflexivity.
  - destruct o; cbn [fst]; unfold kmeans_train in *; rewrite H; reflexivity.
  - rewrite H. reflexivity.
  - rewrite H. reflexivity.
  - rewrite H. reflexivity.
  - destruct (Hinit _ _ _ H) as (i & Hi). unfold ilist in *. rewrite Hi. cbn [bind]. unfold net_of. cbn [f_rate f_decay f_ratio f_epoch]. rewrite Nat2Z.id, H. reflexivity.
  - destruct (Hinit _ _ _ H) as (i & Hi). unfold ilist in *. rewrite Hi. cbn [bind]. unfold net_of. cbn [f_rate f_decay f_ratio f_epoch]. rewrite Nat2Z.id, H. reflexivity.
  - destruct (Hinit _ _ _ H) as (i & Hi). unfold ilist in *. rewrite Hi. cbn [bind]. unfold net_of. cbn [f_rate f_decay f_ratio f_epoch]. rewrite Nat2Z.id, H. reflexivity.
  - destruct (Hinit _ _ _ H) as (i & Hi). unfold ilist in *. rewrite Hi. cbn [bind]. unfold net_of. cbn [f_rate f_decay f_ratio f_epoch]. rewrite Nat2Z.id.
    replace (map Z.to_nat (map Z.of_nat hs)) with hs; [rewrite H; reflexivity|]. rewrite map_map. clear. induction hs as [|h hs IH]; simpl; [reflexivity|]. rewrite Nat2Z.id, <- IH. reflexivity.
  - assert (Hn : exists r, new_node (e_rand E seed) l 0 = Ok r) by (unfold soft_train in H; apply bind_ok in H as (r & Hr & _); eauto). destruct Hn as (r & Hr).
    unfold ilist in *. rewrite Hr. cbn [bind sp_seed]. rewrite H. reflexivity.
  - rewrite H. reflexivity.
Qed.
Print Assumptions C116_settings.
(** An object of another class is never accepted. *)
Theorem C116_wrong_class : forall E c l p k r, asks_for c = Some k -> ~ extends (class_of p) k -> train E c l (Some p) <> Ok r.
Proof.
  intros E c l p k r A X H.
  destruct c; cbn [asks_for] in A; try discriminate A; injection A as <-; destruct p; cbn [class_of] in X; try (exfalso; apply X; constructor); clear X;
    cbn [train as_knn as_kmeans as_c45 as_bagging as_forest as_linear as_mlp as_deep as_soft deref_param bind] in H; try discriminate H;
    repeat (match type of H with (bind ?a _) = _ => destruct a; cbn [bind] in H; try discriminate H | (if ?b then _ else _) = _ => destruct b; try discriminate H end).
Qed.
(** ... and every object of the class asked for, or of a class derived from it, counts for what it is as an object of that class. *)
Theorem C116_derived : forall E l s,
  (forall o d k, train E (KMeansC o) l (Some (PKnn s d k)) = train E (KMeansC o) l (Some (PKMeans s d))) /\
  (forall o n k, train E (BaggingC o) l (Some (PForest s n k)) = train E (BaggingC o) l (Some (PBagging s n))) /\
  (forall o f h a, train E (LinearC o) l (Some (PMlp s f h a)) = train E (LinearC o) l (Some (PLinear s f))) /\
  (forall o f h a, train E (LinearC o) l (Some (PDeep s f h a)) = train E (LinearC o) l (Some (PLinear s f))) /\
  (forall o f a, train E (LinearC o) l (Some (PSoft s f a)) = train E (LinearC o) l (Some (PLinear s f))).
Proof. intros E l s. repeat split. Qed.
Theorem C116_not_read : forall E c l p q, asks_for c = None -> train E c l p = train E c l q.
Proof. intros E c l p q A. destruct c; try discriminate A; reflexivity. Qed.
Lemma two_labels l x y : In x l -> In y l -> label x <> label y -> 2 <= length (class_distribution (sort_class l)).
Proof.
  intros Hx Hy N. assert (P : Permutation (sort_class l) l) by (destruct (sort_class_stable l) as (P & _); first [exact P|apply Permutation_sym; exact P]).
  assert (K : forall z, In z l -> In (label z) (mkeys (class_distribution (sort_class l)))).
  { intros z Hz. rewrite class_distribution_cofl. apply in_cofl, in_map. eapply Permutation_in; [apply Permutation_sym; exact P|exact Hz]. }
  apply K in Hx, Hy. unfold mkeys in *. destruct (class_distribution (sort_class l)) as [|a [|b t]]; simpl in *; [contradiction| |lia].
  destruct Hx as [Hx|[]], Hy as [Hy|[]]. congruence.
Qed.
(** A null parameter: fatal wherever the parameter is read.  The support vector machine reads it when it has two classes to
    separate. *)
Theorem C116_null : forall E c l k r, asks_for c = Some k -> (k = Svm -> exists x y, In x l /\ In y l /\ label x <> label y) -> train E c l None <> Ok r.
Proof.
  intros E c l k r A S2 H.
  destruct c; cbn [asks_for] in A; try discriminate A; injection A as <-;
    cbn [train as_knn as_kmeans as_c45 as_bagging as_forest as_linear as_mlp as_deep as_soft deref_param bind] in H; try discriminate H;
    try (repeat (match type of H with (bind ?a _) = _ => destruct a; cbn [bind] in H; try discriminate H end); fail).
  destruct (S2 eq_refl) as (x & y & Hx & Hy & N). pose proof (two_labels l x y Hx Hy N) as L. apply Nat.leb_le in L.
  unfold svm_null in H. destruct (atn l 0) as [x0| | |]; cbn [bind] in H; try discriminate H. destruct (negb (discrete_check x0)); [discriminate H|]. rewrite L in H. discriminate H.
Qed.
(** The seed of the parameter does not matter to nearest neighbours, nearest means, bagging, support vector machines and trees
    that are not pruned. *)
Theorem C116_seed : forall E c l p s,
  match c with KnnC _ | KMeansC _ | BaggingC _ | SvmC _ => True | TreeC _ => forall s' r, p <> PC45 s' true r | _ => False end ->
  train E c l (Some (with_seed s p)) = train E c l (Some p).
Proof.
  intros E c l p s H. destruct c; try contradiction H; destruct p as [ | | |s' b r| | | | | | | ]; try reflexivity. destruct b; [exfalso; apply (H s' r); reflexivity|reflexivity].
Qed.
Print Assumptions C116_wrong_class. Print Assumptions C116_derived. Print Assumptions C116_not_read. Print Assumptions C116_null. Print Assumptions C116_seed.

(** * C117: experiments *)
Lemma train_keeps_class E c l p c' l' : train E c l p = Ok (c', l') -> fresh c' = fresh c /\ replaces c' = replaces c.
Proof.
  intros H. destruct c; cbn [train] in H;
    repeat match type of H with
           | bind ?a _ = _ => let r := fresh "r" in destruct a as [r| | |]; cbn [bind] in H; try discriminate H
           | (if ?b then _ else _) = _ => destruct b; try discriminate H
           | (let '(_, _) := ?a in _) = _ => destruct a
           | match ?q with _ => _ end = _ => destruct q; try discriminate H
           end; try (injection H as <- <-; split; reflexivity).
Qed.
Lemma train_replaces E c l p : replaces c = true -> train E c l p = train E (LibSpec.fresh c) l p.
Proof. intros R. destruct c; try discriminate R; reflexivity. Qed.
Lemma rounds_separately E p c fs c' ps : replaces c = true -> rounds (train_copy E (Some p)) (test E) c fs c' ps -> separately E p c fs ps.
Proof.
  intros R H. induction H as [m|m tr te m1 q fs m' ps T S H IH]; [constructor|].
  unfold train_copy in T. destruct (train E m tr (Some p)) as [[m2 l2]| | |] eqn:Tr; try discriminate T. cbn [rmap fst] in T. injection T as ->.
  destruct (train_keeps_class _ _ _ _ _ _ Tr) as [F1 F2]. constructor.
  - cbn [fst snd]. exists m1, l2. rewrite <- (train_replaces E m tr (Some p) R). split; assumption.
  - unfold separately in IH. rewrite F1 in IH. apply IH. congruence.
Qed.
(** A run makes the rounds planned for it; what it reports is one result per round, in that order. *)
Theorem C117_rounds : forall E kfold skfold sample r c p d c' e,
  fold_provider kfold (fun l => l) -> fold_provider skfold (@concat instance) -> (forall l s, resample (sample l s) l) ->
  (forall s n, Permutation (e_perm E s n) (seq 0 n)) -> (forall n s, Permutation (e_rarr E n s) (seq 0 n)) ->
  some_folds r -> execute E kfold skfold sample r (mkExper c (Some p) d) = Ok (c', e) ->
  exists fs, plan r (insts d) fs /\ rounds (train_copy E (Some p)) (test E) c fs c' (results e).
Proof.
  intros E kfold skfold sample r c p d c' e C1 C2 C3 P1 P2 K H. unfold execute in H. cbn [x_param x_model x_data] in H. rewrite andb_false_r in H. destruct r as [n|n|m n|m n|n|n|m n|m n|n]; cbn [some_folds] in K.
  - destruct (C56_kfold _ _ _ _ C1 _ _ _ _ _ _ K H) as (fs & L & V & R & _). exists fs. split; [split; assumption|exact R].
  - destruct (C56_stratified _ _ _ _ C2 _ _ _ _ _ _ K H) as (fs & L & V & R & _). exists fs. split; [split; assumption|exact R].
  - destruct (C57_partial _ _ _ _ C1 _ _ _ _ _ _ _ K H) as (reps & L & V & R & _). exists (concat reps). split; [exists reps; repeat split; assumption|exact R].
  - destruct (C57_stratified_partial _ _ _ _ C2 _ _ _ _ _ _ _ K H) as (fs & L & V & R & _). exists (concat (repeat fs m)). split; [|exact R].
    exists (repeat fs m). split; [reflexivity|]. split; [apply repeat_length|]. apply Forall_forall. intros x Hx. apply repeat_spec in Hx as ->. split; assumption.
  - rewrite (proj1 (C58_once _ _ _ kfold skfold (e_perm E) (e_rarr E) n (get_seed p) (insts d) c)) in H.
    destruct (C58_separate _ _ _ _ _ C1 _ _ _ _ _ _ _ K (P1 _ _) H) as (h & fs & _ & L & V & R). exists fs. split; [split; [rewrite L; apply Nat.mul_1_l|exists h; exact V]|exact R].
  - rewrite (proj2 (C58_once _ _ _ kfold skfold (e_perm E) (e_rarr E) n (get_seed p) (insts d) c)) in H.
    destruct (C58_stratified _ _ _ _ _ C2 _ _ _ _ _ _ _ K (P2 _ _) H) as (h & fs & L & V & R). exists fs. split; [split; [rewrite L; apply Nat.mul_1_l|exists h; exact V]|exact R].
  - destruct (C58_separate _ _ _ _ _ C1 _ _ _ _ _ _ _ K (P1 _ _) H) as (h & fs & _ & L & V & R). exists fs. split; [split; [exact L|exists h; exact V]|exact R].
  - destruct (C58_stratified _ _ _ _ _ C2 _ _ _ _ _ _ _ K (P2 _ _) H) as (h & fs & L & V & R). exists fs. split; [split; [exact L|exists h; exact V]|exact R].
  - destruct (C59_bootstrap _ _ _ _ C3 _ _ _ _ _ _ H) as (seeds & L & _ & R & _ & F). eexists. split; [|exact R]. split; [rewrite map_length; exact L|].
    apply Forall_map. apply Forall_forall. intros s Hs. rewrite Forall_forall in F. split; [apply F, Hs|reflexivity].
Qed.
Lemma of_class_all c (l : ilist) : exists c', Forall (fun x => label x = c') (filter (of_class c) l).
Proof. exists c. apply Forall_forall. intros x Hx. apply filter_In in Hx as [_ Hx]. apply String.eqb_eq. exact Hx. Qed.
(** ... and the folds are those of the seed in the parameter. *)
Theorem C117_seed : forall E kfold skfold sample r c p s d c' e,
  (forall s n, Permutation (e_perm E s n) (seq 0 n)) -> (forall n s, Permutation (e_rarr E n s) (seq 0 n)) ->
  execute E kfold skfold sample r (mkExper c (Some (with_seed s p)) d) = Ok (c', e) ->
  exists fs, seeded kfold skfold sample r s (insts d) fs /\ rounds (train_copy E (Some (with_seed s p))) (test E) c fs c' (results e).
Proof.
  intros E kfold skfold sample r c p s d c' e P1 P2 H. unfold execute in H. cbn [x_param x_model x_data] in H. rewrite andb_false_r in H.
  assert (Sd : get_seed (with_seed s p) = s) by (destruct p; reflexivity). rewrite Sd in H. set (q := Some (with_seed s p)) in *. clearbody q. clear p Sd. set (l := insts d) in *.
  assert (R : forall fs, run_pairs (train_copy E q) (test E) fs (c, exp_empty) = Ok (c', e) -> rounds (train_copy E q) (test E) c fs c' (results e)).
  { intros fs X. apply run_pairs_rounds in X as (ps & Rd & ->). rewrite results_adds. exact Rd. }
  assert (SP : forall l0 : ilist, exists gs, part_class l0 = Ok gs /\ Permutation (concat gs) l0 /\ Forall (fun g : ilist => exists c, Forall (fun x => label x = c) g) gs).
  { intros l0. destruct (part_class_spec l0) as [Ep Pp]. eexists. split; [exact Ep|]. split; [exact Pp|]. apply Forall_map, Forall_forall. intros k _. apply of_class_all. }
  destruct r as [n|n|m n|m n|n|n|m n|m n|n]; cbn [seeded].
  - unfold kfold_run in H. rewrite run_folds_pairs in H. eexists. split; [reflexivity|apply R, H].
  - unfold skfold_run in H. destruct (SP l) as (gs & Eg & Pg & Fg). rewrite Eg in H. cbn [bind] in H. rewrite run_folds_pairs in H. eexists. split; [|apply R, H]. exists gs. auto.
  - unfold mxkfold_run in H. rewrite (repeatM_ext _ _ _ _ (run_folds_pairs _ _ _ _)), repeat_pairs in H. eexists. split; [reflexivity|apply R, H].
  - unfold smxkfold_run in H. destruct (SP l) as (gs & Eg & Pg & Fg).
    rewrite (repeatM_ext _ _ (run_pairs (train_copy E q) (test E) (map (skfold gs n s) (seq 0 n)))) in H by (intros st; rewrite Eg; cbn [bind]; apply run_folds_pairs).
    rewrite repeat_pairs in H. eexists. split; [|apply R, H]. eexists. split; [exists gs; eauto|reflexivity].
  - unfold kfold_sep_run in H. destruct (hold_out_spec (e_perm E) s l (P1 _ _)) as (g0 & g1 & Eh & Pg & _). rewrite Eh in H. cbn [bind fst snd] in H. rewrite run_separate_pairs in H.
    eexists. split; [|apply R, H]. exists g0, g1. auto.
  - unfold skfold_sep_run in H. destruct (shold_out_spec (e_rarr E) s l (P2 _ _)) as (g0 & g1 & Eh & Pg). rewrite Eh in H. cbn [bind fst snd] in H. destruct (SP g1) as (gs & Eg & P3 & _). rewrite Eg in H. cbn [bind] in H. rewrite run_separate_pairs in H.
    eexists. split; [|apply R, H]. exists g0, gs. split; [rewrite P3; exact Pg|reflexivity].
  - unfold mxkfold_sep_run in H. destruct (hold_out_spec (e_perm E) s l (P1 _ _)) as (g0 & g1 & Eh & Pg & _). rewrite Eh in H. cbn [bind fst snd] in H. rewrite (repeatM_ext _ _ _ _ (run_separate_pairs _ _ _ _ _)), repeat_pairs in H.
    eexists. split; [|apply R, H]. eexists. split; [exists g0, g1; eauto|reflexivity].
  - unfold smxkfold_sep_run in H. destruct (shold_out_spec (e_rarr E) s l (P2 _ _)) as (g0 & g1 & Eh & Pg). rewrite Eh in H. cbn [bind fst snd] in H. destruct (SP g1) as (gs & Eg & P3 & _).
    rewrite (repeatM_ext _ _ (run_pairs (train_copy E q) (test E) (map (fun i => (fst (skfold gs n s i), g0)) (seq 0 n)))) in H by (intros st; rewrite Eg; cbn [bind]; apply run_separate_pairs).
    rewrite repeat_pairs in H. eexists. split; [|apply R, H]. eexists. split; [exists g0, gs; split; [rewrite P3; exact Pg|reflexivity]|reflexivity].
  - eexists. split; [reflexivity|]. apply R. rewrite <- H. unfold run_pairs, bootstrap_run. rewrite foldM_map. reflexivity.
Qed.
(** For nearest neighbours, nearest means, the dummy and the random classifier, trees, stumps and soft trees the results are those
    of models trained from new, one per round. *)
Theorem C117_separately : forall E kfold skfold sample r c p d c' e,
  fold_provider kfold (fun l => l) -> fold_provider skfold (@concat instance) -> (forall l s, resample (sample l s) l) ->
  (forall s n, Permutation (e_perm E s n) (seq 0 n)) -> (forall n s, Permutation (e_rarr E n s) (seq 0 n)) ->
  some_folds r -> replaces c = true -> execute E kfold skfold sample r (mkExper c (Some p) d) = Ok (c', e) ->
  exists fs, plan r (insts d) fs /\ separately E p c fs (results e).
Proof.
  intros E kfold skfold sample r c p d c' e C1 C2 C3 P1 P2 K Rp H. destruct (C117_rounds _ _ _ _ _ _ _ _ _ _ C1 C2 C3 P1 P2 K H) as (fs & P & R).
  exists fs. split; [exact P|]. eapply rounds_separately; eassumption.
Qed.
(** A null parameter: undefined behaviour. *)
Theorem C117_null_parameter : forall E kfold skfold sample r c d, some_rounds r -> execute E kfold skfold sample r (mkExper c None d) = UB NullDeref.
Proof. intros E kfold skfold sample r c d H. unfold execute. cbn [x_param]. destruct r as [n|n|m n|m n|n|n|m n|m n|n]; cbn [some_rounds] in H; try reflexivity; destruct m || destruct n; try lia; reflexivity. Qed.
(** The experiment on selected features: the same model and parameters, the data set reduced to the features. *)
Theorem C117_feature_selected : forall e fs e', feature_selected e fs = Ok e' ->
  x_model e' = x_model e /\ x_param e' = x_param e /\ ds_subset (x_data e) fs = Ok (x_data e').
Proof. intros e fs e' H. unfold feature_selected in H. destruct (ds_subset (x_data e) fs) as [d| | |]; try discriminate H. cbn [bind] in H. injection H as <-. repeat split. Qed.

Lemma rmap_ok {A B} (f : A -> B) r y : rmap f r = Ok y -> exists x, r = Ok x /\ f x = y.
Proof. destruct r as [x| | |]; try discriminate. cbn. intros H. injection H as <-. exists x. split; reflexivity. Qed.
(** ** Classifiers that keep what earlier rounds left *)
(** Bagging and random forests: round i votes with the trees of the rounds 0 ... i. *)
Theorem C117_bagging_partial : forall E s n fs old c' ps, rounds (train_copy E (Some (PBagging s n))) (test E) (BaggingC old) fs c' ps ->
  piled E (ensemble_train (e_entropy E) (e_mid E) (e_rarr E) (e_pick E) None (Z.to_nat n) (e_fuel E) []) old fs ps.
Proof.
  intros E s n fs. induction fs as [|[tr te] fs IH]; intros old c' ps H; inversion H as [|? ? ? m1 q0 ? ? ps0 A B C]; subst; [constructor|].
  unfold train_copy in A. cbn [train as_bagging deref_param bind snd] in A. apply rmap_ok in A as ([c1 l1] & T & Em). apply bind_ok in T as (f & T & Ef). injection Ef as <- <-. cbn [fst] in Em. subst m1. destruct (C50_ensemble_partial _ _ _ _ _ _ _ _ _ _ T) as (new & N & ->).
  econstructor; [exact N|exact B|]. eapply IH. exact C.
Qed.
Theorem C117_forest_partial : forall E s n k fs old c' ps, rounds (train_copy E (Some (PForest s n k))) (test E) (ForestC old) fs c' ps ->
  piled E (ensemble_train (e_entropy E) (e_mid E) (e_rarr E) (e_pick E) (Some (Z.to_nat k, s)) (Z.to_nat n) (e_fuel E) []) old fs ps.
Proof.
  intros E s n k fs. induction fs as [|[tr te] fs IH]; intros old c' ps H; inversion H as [|? ? ? m1 q0 ? ? ps0 A B C]; subst; [constructor|].
  unfold train_copy in A. cbn [train as_forest deref_param bind snd] in A. apply rmap_ok in A as ([c1 l1] & T & Em). apply bind_ok in T as (f & T & Ef). injection Ef as <- <-. cbn [fst] in Em. subst m1. destruct (C50_ensemble_partial _ _ _ _ _ _ _ _ _ _ T) as (new & N & ->).
  econstructor; [exact N|exact B|]. eapply IH. exact C.
Qed.
(** Linear and quadratic discriminants: when the training parts of all rounds have the same labels, every round is tested with
    the discriminants of the first. *)
Lemma gauss_fold_start prior metric ks : forall v a b, foldM (gauss_step prior metric) ks (v, a) = foldM (gauss_step prior metric) ks (v, b) \/
  forall k w, In k ks -> mmem k prior = true -> metric k = Ok w -> dgtb w v = false.
Proof.
  induction ks as [|k ks IH]; intros v a b; [right; intros k w []|]. cbn [foldM]. unfold gauss_step at 1 3. destruct (mmem k prior) eqn:M; cbn [bind].
  - destruct (metric k) as [w| | |] eqn:W; cbn [bind fst]; try (left; reflexivity). destruct (dgtb w v) eqn:G; [left; reflexivity|].
    destruct (IH v a b) as [->|Hn]; [left; reflexivity|]. right. intros k' w' [<-|Hk] M' W'; [congruence|eapply Hn; eassumption].
  - destruct (IH v a b) as [->|Hn]; [left; reflexivity|]. right. intros k' w' [<-|Hk] M' W'; [congruence|eapply Hn; eassumption].
Qed.
Lemma gauss_stale l tr metric metric' x : same_labels l tr -> scored metric' tr x -> (forall c, In c (map label tr) -> metric c = metric' c) ->
  gauss_predict (class_distribution l) metric x = gauss_predict (class_distribution tr) metric' x.
Proof.
  intros L [S1 S2] HM. assert (K : mkeys (class_distribution l) = mkeys (class_distribution tr)).
  { apply sorted_set_unique; [rewrite class_distribution_cofl; apply cofl_sorted..|]. intros k. rewrite !class_distribution_cofl, !in_cofl. apply L. }
  assert (KM : forall c, mmem c (class_distribution l) = mmem c (class_distribution tr)).
  { intros c. apply eq_true_iff_eq. rewrite !mmem_keys, K. reflexivity. }
  assert (KI : forall c, mmem c (class_distribution tr) = true <-> In c (map label tr)) by (intros c; rewrite mmem_keys, class_distribution_cofl; apply in_cofl).
  assert (G : forall ks st, foldM (gauss_step (class_distribution l) metric) ks st = foldM (gauss_step (class_distribution tr) metric') ks st).
  { intros ks st. apply foldM_ext. intros s c _. unfold gauss_step. rewrite KM. destruct (mmem c (class_distribution tr)) eqn:M; [|reflexivity]. rewrite HM by (apply KI, M). reflexivity. }
  unfold gauss_predict. destruct (composite x) as [ls|] eqn:Q.
  - destruct (atn ls 0) as [c| | |]; cbn [bind fst snd]; try reflexivity. rewrite G. reflexivity.
  - cbn [bind fst snd]. rewrite K, G. destruct (gauss_fold_start (class_distribution tr) metric' (mkeys (class_distribution tr)) (dopp GaussianModel.dbl_max) (cmax (class_distribution l)) (cmax (class_distribution tr))) as [->|Hn]; [reflexivity|].
    exfalso. destruct (S2 eq_refl) as (c & v & Hc & E & Gt). apply KI in Hc as Mc. rewrite (Hn c v (proj1 (mmem_keys c _) Mc) Mc E) in Gt. discriminate.
Qed.
Lemma test_model_ext p p' te : (forall x, In x te -> p x = p' x) -> test_model p te = test_model p' te.
Proof. intros H. unfold test_model. erewrite foldM_ext; [reflexivity|]. intros s x Hx. cbv beta. rewrite (H x Hx). reflexivity. Qed.
Theorem C117_lda_partial : forall E p tr te fs c' ps m1,
  rounds (train_copy E (Some p)) (test E) (LdaC lda_empty) ((tr, te) :: fs) c' ps -> lda_train (e_inverse E) (e_ln E) lda_empty tr = Ok m1 ->
  Forall (fun f => same_labels (fst f) tr /\ forall x, In x (snd f) -> scored (lda_metric m1 x) tr x) fs ->
  Forall2 (fun f q => test_model (lda_predict m1) (snd f) = Ok q) ((tr, te) :: fs) ps.
Proof.
  intros E p tr te fs c' ps m1 H T1 F. inversion H as [|? ? ? m0 q0 ? ? ps0 A B C]; subst. unfold train_copy in A. cbn [train] in A. rewrite T1 in A. cbn [bind rmap fst] in A. injection A as <-.
  constructor; [exact B|]. clear H B.
  assert (R : exists m, rounds (train_copy E (Some p)) (test E) (LdaC m) fs c' ps0 /\ forall x c v, In c (map label tr) -> lda_metric m1 x c = Ok v -> lda_metric m x c = Ok v).
  { exists m1. split; [exact C|]. intros x c v _ W. exact W. }
  destruct (lda_train_prior _ _ _ _ _ T1) as [P1 _]. clear C T1. destruct R as (m & R & I). revert m ps0 R I. induction F as [|[tr' te'] fs [SL SC] F IH]; intros m qs R I; [inversion R; subst; constructor|].
  inversion R as [|? ? ? m2 q2 ? ? qs2 A B C]; subst. cbn [fst snd] in *. unfold train_copy in A. cbn [train] in A. apply rmap_ok in A as ([c1 l1] & T & Ec). apply bind_ok in T as (m' & T & Em). injection Em as <- <-. cbn [fst] in Ec. subst m2.
  destruct (C50_lda_partial _ _ _ _ _ T) as (fm & _ & _ & W & W0). destruct (lda_train_prior _ _ _ _ _ T) as [P' _].
  assert (I' : forall x c v, In c (map label tr) -> lda_metric m1 x c = Ok v -> lda_metric m' x c = Ok v).
  { intros x c v Hc Hv. rewrite <- (I x c v Hc Hv). specialize (I x c v Hc Hv). unfold lda_metric in *. rewrite (W c), (W0 c). destruct (mfind c (l_w m)), (mfind c (l_w0 m)); try discriminate I. reflexivity. }
  constructor; [|eapply IH; eassumption]. cbn [snd]. cbn [test] in B. rewrite <- B. apply test_model_ext. intros x Hx. cbn [predict]. unfold lda_predict. rewrite P1, P'. symmetry. apply gauss_stale; [exact SL|apply SC, Hx|].
  intros c Hc. destruct (proj1 (SC x Hx) c Hc) as [v Hv]. rewrite Hv. apply I'; assumption.
Qed.
Theorem C117_qda_partial : forall E p tr te fs c' ps m1,
  rounds (train_copy E (Some p)) (test E) (QdaC qda_empty) ((tr, te) :: fs) c' ps -> qda_train (e_inverse E) (e_det E) (e_ln E) qda_empty tr = Ok m1 ->
  Forall (fun f => same_labels (fst f) tr /\ forall x, In x (snd f) -> scored (qda_metric m1 x) tr x) fs ->
  Forall2 (fun f q => test_model (qda_predict m1) (snd f) = Ok q) ((tr, te) :: fs) ps.
Proof.
  intros E p tr te fs c' ps m1 H T1 F. inversion H as [|? ? ? m0 q0 ? ? ps0 A B C]; subst. unfold train_copy in A. cbn [train] in A. rewrite T1 in A. cbn [bind rmap fst] in A. injection A as <-.
  constructor; [exact B|]. clear H B.
  assert (R : exists m, rounds (train_copy E (Some p)) (test E) (QdaC m) fs c' ps0 /\ forall x c v, In c (map label tr) -> qda_metric m1 x c = Ok v -> qda_metric m x c = Ok v).
  { exists m1. split; [exact C|]. intros x c v _ W. exact W. }
  destruct (qda_train_prior _ _ _ _ _ _ T1) as [P1 _]. clear C T1. destruct R as (m & R & I). revert m ps0 R I. induction F as [|[tr' te'] fs [SL SC] F IH]; intros m qs R I; [inversion R; subst; constructor|].
  inversion R as [|? ? ? m2 q2 ? ? qs2 A B C]; subst. cbn [fst snd] in *. unfold train_copy in A. cbn [train] in A. apply rmap_ok in A as ([c1 l1] & T & Ec). apply bind_ok in T as (m' & T & Em). injection Em as <- <-. cbn [fst] in Ec. subst m2.
  destruct (C50_qda_partial _ _ _ _ _ _ T) as (fm & _ & _ & WW & W & W0). destruct (qda_train_prior _ _ _ _ _ _ T) as [P' _].
  assert (I' : forall x c v, In c (map label tr) -> qda_metric m1 x c = Ok v -> qda_metric m' x c = Ok v).
  { intros x c v Hc Hv. rewrite <- (I x c v Hc Hv). specialize (I x c v Hc Hv). unfold qda_metric in *. rewrite (WW c), (W c), (W0 c).
    destruct (mfind c (q_W m)), (mfind c (l_w (q_lda m))), (mfind c (l_w0 (q_lda m))); try discriminate I. reflexivity. }
  constructor; [|eapply IH; eassumption]. cbn [snd]. cbn [test] in B. rewrite <- B. apply test_model_ext. intros x Hx. cbn [predict]. unfold qda_predict. rewrite P1, P'. symmetry. apply gauss_stale; [exact SL|apply SC, Hx|].
  intros c Hc. destruct (proj1 (SC x Hx) c Hc) as [v Hv]. rewrite Hv. apply I'; assumption.
Qed.
(** A deep network cannot be trained twice: a run with two or more rounds ends with an exception. *)
Theorem C117_deep_refuted : forall E, randomness (e_rarr E) (e_perm E) (e_weights E) -> forall s f hs a q d tr te tr' te' fs c' ps va t,
  f_ratio f = Fin q -> hs <> [] -> (0 < f_epoch f)%Z -> net_data tr d -> net_data tr' d -> length (distinct_labels tr') = length (distinct_labels tr) ->
  part_strat (e_rarr E) (Fin q) s tr' = Ok [va; t] -> t <> [] ->
  ~ rounds (train_copy E (Some (PDeep s f hs a))) (test E) (DeepC deep_empty) ((tr, te) :: (tr', te') :: fs) c' ps.
Proof.
  intros E HR s f hs a q d tr te tr' te' fs c' ps va t Hf Hh He D1 D2 L P Ht H.
  inversion H as [|? ? ? m1 q1 ? ? ps1 A _ C]; subst. inversion C as [|? ? ? m2 q2 ? ? ps2 A2 _ _]; subst. clear H C.
  unfold train_copy in A, A2. cbn [train as_deep deref_param bind] in A. apply rmap_ok in A as ([c1 l1] & T & Em). apply bind_ok in T as (u & _ & T). apply bind_ok in T as (m & T & Ec). injection Ec as <- <-. cbn [fst] in Em. subst m1.
  cbn [train as_deep deref_param bind] in A2. apply rmap_ok in A2 as ([c2 l2] & T2 & _). apply bind_ok in T2 as (u2 & _ & T2). apply bind_ok in T2 as (m' & T2 & _).
  set (p := net_of s f (map Z.to_nat hs) a) in *.
  assert (Hp : p_hidden p <> []) by (cbn; destruct hs; [congruence|discriminate]).
  destruct (C77_deep (e_exp E) (e_tanh E) (e_rarr E) (e_perm E) (e_weights E) HR deep_empty tr d p q D1 Hf Hp eq_refl) as (m0 & E0 & El & _ & _ & Hc & _).
  rewrite T in E0. injection E0 as <-. rewrite El, <- L in Hc.
  rewrite (C79_retrain_refuted (e_exp E) (e_tanh E) (e_rarr E) (e_perm E) (e_weights E) HR m tr' d p q t va D2 Hf Hp Hc P Ht) in T2; [discriminate T2|]. cbn. lia.
Qed.
(** Perceptrons learn every round anew, on data with one number of inputs; so does the auto encoder, on any data. *)
Theorem C117_linear : forall E, randomness (e_rarr E) (e_perm E) (e_weights E) -> forall s f q d fs old c' ps, f_ratio f = Fin q -> fit_rounds d fs ->
  rounds (train_copy E (Some (PLinear s f))) (test E) (LinearC old) fs c' ps -> separately E (PLinear s f) (LinearC old) fs ps.
Proof.
  intros E HR s f q d fs old c' ps Hq F. revert old ps. induction F as [|[tr te] fs [D1 D2] F IH]; intros old ps H; inversion H as [|? ? ? m1 q1 ? ? ps1 A B C]; subst; [constructor|].
  cbn [fst snd] in *. unfold train_copy in A. cbn [train as_linear deref_param bind] in A. apply rmap_ok in A as ([c1 l1] & T & Em). apply bind_ok in T as (u & I1 & T). apply bind_ok in T as (m & T & Ec). injection Ec as <- <-. cbn [fst] in Em. subst m1.
  set (p := net_of s f [] NetModel.SIGMOID) in *. destruct (linear_train_memory _ _ _ _ HR old (mkLin [] [] (mkMat 0 [])) tr d p q m D1 Hq T) as (y & T').
  destruct (linear_train_trace (e_exp E) _ _ _ HR old tr d p q D1 Hq) as (m0 & T0 & _ & Sh & _). rewrite T in T0. injection T0 as <-.
  constructor; [|apply (IH m ps1 C)]. exists (LinearC (mkLin (li_labels m) y (li_W m))), tr. cbn [fst snd LibSpec.fresh train as_linear deref_param bind]. rewrite I1. cbn [bind]. fold p. rewrite T'. cbn [bind]. split; [reflexivity|].
  rewrite <- B. cbn [test]. apply test_model_ext. intros x Hx. rewrite Forall_forall in D2. cbn [predict]. unfold linear_predict, net_predict. cbn [li_labels li_W li_y].
  destruct (linear_output_const (li_W m) _ d x Sh (D2 x Hx)) as (o & Ho). rewrite !Ho. reflexivity.
Qed.
Theorem C117_mlp : forall E, randomness (e_rarr E) (e_perm E) (e_weights E) -> forall s f h a q d fs old c' ps, f_ratio f = Fin q -> fit_rounds d fs ->
  rounds (train_copy E (Some (PMlp s f h a))) (test E) (MlpC old) fs c' ps -> separately E (PMlp s f h a) (MlpC old) fs ps.
Proof.
  intros E HR s f h a q d fs old c' ps Hq F. revert old ps. induction F as [|[tr te] fs [D1 D2] F IH]; intros old ps H; inversion H as [|? ? ? m1 q1 ? ? ps1 A B C]; subst; [constructor|].
  cbn [fst snd] in *. unfold train_copy in A. cbn [train as_mlp deref_param bind] in A. apply rmap_ok in A as ([c1 l1] & T & Em). apply bind_ok in T as (u & I1 & T). apply bind_ok in T as (m & T & Ec). injection Ec as <- <-. cbn [fst] in Em. subst m1.
  set (p := net_of s f [Z.to_nat h] a) in *. destruct (mlp_train_memory (e_exp E) (e_tanh E) _ _ _ HR old (mkMlp [] [] (mkMat 0 []) (mkMat 0 []) NetModel.SIGMOID) tr d p q (Z.to_nat h) [] m D1 Hq eq_refl T) as (y & T').
  destruct (mlp_train_trace (e_exp E) (e_tanh E) _ _ _ HR old tr d p q (Z.to_nat h) [] D1 Hq eq_refl) as (m0 & T0 & _ & _ & Sh & Sv & _). rewrite T in T0. injection T0 as <-.
  constructor; [|apply (IH m ps1 C)]. exists (MlpC (mkMlp (ml_labels m) y (ml_W m) (ml_V m) (ml_act m))), tr. cbn [fst snd LibSpec.fresh train as_mlp deref_param bind]. rewrite I1. cbn [bind]. fold p. rewrite T'. cbn [bind]. split; [reflexivity|].
  rewrite <- B. cbn [test]. apply test_model_ext. intros x Hx. rewrite Forall_forall in D2. cbn [predict]. unfold mlp_predict, net_predict. cbn [ml_labels ml_W ml_V ml_y ml_act].
  destruct (mlp_output_const (e_exp E) (e_tanh E) (ml_act m) (ml_W m) (ml_V m) _ _ d x Sh Sv (D2 x Hx)) as (o & Ho). rewrite !Ho. reflexivity.
Qed.
Theorem C117_auto : forall E, randomness (e_rarr E) (e_perm E) (e_weights E) -> forall s f h a fs old c' ps,
  rounds (train_copy E (Some (PMlp s f h a))) (test E) (AutoC old) fs c' ps -> separately E (PMlp s f h a) (AutoC old) fs ps.
Proof.
  intros E HR s f h a fs. induction fs as [|[tr te] fs IH]; intros old c' ps H; inversion H as [|? ? ? m1 q1 ? ? ps1 A B C]; subst; [constructor|].
  unfold train_copy in A. cbn [train as_mlp deref_param bind] in A. apply rmap_ok in A as ([c1 l1] & T & Em). apply bind_ok in T as (u & I1 & T). apply bind_ok in T as (m & T & Ec). injection Ec as <- <-. cbn [fst] in Em. subst m1.
  set (p := net_of s f [Z.to_nat h] a) in *. destruct (auto_train_memory (e_exp E) (e_tanh E) _ _ _ HR old (mkAuto [] [] (mkMat 0 []) (mkMat 0 [])) tr p m T) as (y & T').
  constructor; [|apply (IH m c' ps1 C)]. exists (AutoC (mkAuto (au_labels m) y (au_W m) (au_V m))), tr. cbn [fst snd LibSpec.fresh train as_mlp deref_param bind]. rewrite I1. cbn [bind]. fold p. rewrite T'. cbn [bind]. split; [reflexivity|].
  cbn [test au_W au_V au_y] in *. apply bind_ok in B as ([b y1] & B & Eq). injection Eq as <-. destruct (auto_test_memory _ _ _ _ _ _ y _ _ B) as (z & ->). reflexivity.
Qed.
(** ** Cases *)
Definition ex_env : env := mkEnv (fun d => d) (fun d => d) idp (fun d => d) inv1 (fun _ => d1) (fun _ => Ok []) ex_entropy ex_mid ex_max
  ex_rarr perm_ex (fun _ n => seq 0 n) rand_ex (fun _ _ => d0) (fun _ _ => 0) 20.
Definition kf (l : ilist) (K : nat) (_ : Z) : nat -> ilist * ilist := mod_fold l K.
Definition skf (gs : list ilist) (K : nat) (_ : Z) : nat -> ilist * ilist := mod_fold (concat gs) K.
Definition boot (l : ilist) (_ : Z) : ilist := l.
(** every second instance trains a threshold near 6 with "a" below it, the others one with "a" above *)
Definition ex_mixed : ilist := [pt "a" 10; pt "a" 0; pt "a" 12; pt "a" 2; pt "b" 0; pt "b" 10; pt "b" 2; pt "b" 12].
Definition ex_words : ilist := [dpt "a" "x"; dpt "a" "y"; dpt "a" "x"; dpt "a" "y"; dpt "b" "y"; dpt "b" "x"; dpt "b" "y"; dpt "b" "x"].
Definition ex_far : ilist := [pt "a" 10; pt "a" 0; pt "b" 11; pt "b" 1].
Definition accs (r : res (classifier * experiment)) : res (list dbl) := do e <- r; mapM accuracy_of (results (snd e)).
Definition cv2 (c : classifier) (p : param) (l : ilist) : res (list dbl) := accs (execute ex_env kf skf boot (KFold 2) (mkExper c (Some p) (mkDS l def_empty))).
Definition fresh2 (c : classifier) (p : param) (l : ilist) : res (list dbl) :=
  mapM (fun i => do m <- train ex_env (LibSpec.fresh c) (fst (mod_fold l 2 i)) (Some p); do q <- test ex_env (fst m) (snd (mod_fold l 2 i)); accuracy_of q) [0; 1].
Ltac run_it := vm_compute; reflexivity.
(** trained from new in both rounds these models fail on all of the second round's instances; after the first round they know them *)
Theorem C117_lda_refuted : cv2 (LdaC lda_empty) (PPlain 1) ex_mixed = Ok [Fin (0 # 4); Fin (4 # 4)] /\ fresh2 (LdaC lda_empty) (PPlain 1) ex_mixed = Ok [Fin (0 # 4); Fin (0 # 4)].
Proof. split; run_it. Qed.
Theorem C117_qda_refuted : cv2 (QdaC qda_empty) (PPlain 1) ex_mixed = Ok [Fin (0 # 4); Fin (4 # 4)] /\ fresh2 (QdaC qda_empty) (PPlain 1) ex_mixed = Ok [Fin (0 # 4); Fin (0 # 4)].
Proof. split; run_it. Qed.
Theorem C117_bayes_refuted : cv2 (BayesC bayes_empty) (PPlain 1) ex_words = Ok [Fin (0 # 4); Fin (4 # 4)] /\ fresh2 (BayesC bayes_empty) (PPlain 1) ex_words = Ok [Fin (0 # 4); Fin (0 # 4)].
Proof. split; run_it. Qed.
Theorem C117_bagging_refuted : cv2 (BaggingC []) (PBagging 1 1) ex_mixed = Ok [Fin (0 # 4); Fin (2 # 4)] /\ fresh2 (BaggingC []) (PBagging 1 1) ex_mixed = Ok [Fin (0 # 4); Fin (0 # 4)].
Proof. split; run_it. Qed.
Theorem C117_forest_refuted : cv2 (ForestC []) (PForest 1 1 1) ex_mixed = Ok [Fin (0 # 4); Fin (2 # 4)] /\ fresh2 (ForestC []) (PForest 1 1 1) ex_mixed = Ok [Fin (0 # 4); Fin (0 # 4)].
Proof. split; run_it. Qed.
Theorem C117_svm_refuted : cv2 (SvmC svm_empty) (PSvm 1 parS) ex_far = Ok [Fin (1 # 2); Fin (2 # 2)] /\ fresh2 (SvmC svm_empty) (PSvm 1 parS) ex_far = Ok [Fin (1 # 2); Fin (1 # 2)].
Proof. split; run_it. Qed.
Example C117_case :
  (fold_provider kf (fun l => l) /\ fold_provider skf (@concat instance) /\ (forall l s, resample (boot l s) l) /\
   (forall s n, Permutation (e_perm ex_env s n) (seq 0 n)) /\ (forall n s, Permutation (e_rarr ex_env n s) (seq 0 n))) /\
  cv2 (KnnC None) (PKnn 1 eucl 1) ex_d1 = Ok [Fin (2 # 2); Fin (2 # 2)] /\ cv2 (TreeC None) (PC45 1 false d0) ex_mixed = Ok [Fin (0 # 4); Fin (0 # 4)] /\
  accs (execute ex_env kf skf boot (SKFoldSep 2) (mkExper (KMeansC None) (Some (new_kmeans_param 7)) (mkDS (ex_d1 ++ ex_d1) def_empty))) = Ok [Fin (2 # 2); Fin (2 # 2)] /\
  accs (execute ex_env kf skf boot (Boot 3) (mkExper (DummyC []) (Some (PPlain 7)) (mkDS (pt "b" 3 :: ex_d1) def_empty))) = Ok [Fin (3 # 5); Fin (3 # 5); Fin (3 # 5)].
Proof.
  split; [|repeat split; run_it]. split; [exact (proj1 C56_contract_met)|]. split; [exact (proj2 C56_contract_met)|]. split; [intros l s; split; [reflexivity|apply incl_refl]|].
  split; [intros s n; apply Permutation_sym, Permutation_rev|intros n s; apply Permutation_refl].
Qed.
(** the hypotheses of C117_lda_partial are met by this run *)
Example C117_lda_case : exists m1, lda_train inv1 (fun d => d) lda_empty (fst (mod_fold ex_mixed 2 0)) = Ok m1 /\
  same_labels (fst (mod_fold ex_mixed 2 1)) (fst (mod_fold ex_mixed 2 0)) /\
  forall x, In x (snd (mod_fold ex_mixed 2 1)) -> scored (lda_metric m1 x) (fst (mod_fold ex_mixed 2 0)) x.
Proof.
  eexists. split; [vm_compute; reflexivity|]. split; [intros c; cbn; tauto|]. intros x Hx. split.
  - intros c Hc. cbn in Hc. destruct Hc as [<-|[<-|[<-|[<-|[]]]]]; cbn in Hx; destruct Hx as [<-|[<-|[<-|[<-|[]]]]]; eexists; run_it.
  - intros _. exists "a". cbn in Hx; destruct Hx as [<-|[<-|[<-|[<-|[]]]]]; eexists; (split; [left; reflexivity|split; [vm_compute; reflexivity|run_it]]).
Qed.
Example C116_case :
  (exists m, train ex_env (KnnC None) ex_d1 (Some (new_knn_param 1 3)) = Ok (m, ex_d1) /\ predict ex_env m (pt "?" 9) = Ok "b") /\
  train ex_env (KnnC None) ex_d1 (Some (PKMeans 1 eucl)) = UB BadCast /\ train ex_env (SvmC svm_empty) ex_d1 (Some (PPlain 1)) = UB BadCast /\
  train ex_env (KMeansC None) ex_d1 None = UB NullDeref /\ train ex_env (SvmC svm_empty) ex_d1 None = UB NullDeref /\
  (exists r, train ex_env (SvmC svm_empty) [pt "a" 0; pt "a" 1] None = Ok r) /\
  (exists r, train ex_env (LdaC lda_empty) ex_d1 None = Ok r) /\ (exists r, train ex_env (LdaC lda_empty) ex_d1 (Some (PSvm 1 parS)) = Ok r).
Proof. repeat split; try (eexists; split; run_it); try compute; eexists; run_it. Qed.
Print Assumptions C117_rounds. Print Assumptions C117_separately. Print Assumptions C117_null_parameter. Print Assumptions C117_feature_selected.
Print Assumptions C117_bagging_partial. Print Assumptions C117_forest_partial. Print Assumptions C117_lda_partial. Print Assumptions C117_qda_partial. Print Assumptions C117_deep_refuted.
Print Assumptions C117_linear. Print Assumptions C117_mlp. Print Assumptions C117_auto.
Print Assumptions C117_lda_refuted. Print Assumptions C117_qda_refuted. Print Assumptions C117_bayes_refuted. Print Assumptions C117_bagging_refuted. Print Assumptions C117_forest_refuted. Print Assumptions C117_svm_refuted.
Print Assumptions C117_seed.
