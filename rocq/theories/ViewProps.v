(** * C142: experiments on feature subsets are the same rounds on other features *)
From Coq Require Import String ZArith QArith Bool List Lia Permutation FinFun.
From Verif Require AttrProofs.
From Verif Require Import Base BaseLemmas Spec AttrModel InstanceListModel PartitionModel DataSetModel DataSetSpec DataSetProofs DataSetProps PerformanceModel ExperimentModel ExperimentProofs DistanceModel EnsembleModel LibModel
  TreeProps LibProps FeatOrderSpec FeatOrderProofs FeatOrderProps RenameProofs RenameProps ViewSpec ViewProofs.
Import ListNotations.
Local Open Scope list_scope.
Local Open Scope nat_scope.

(** One list of rounds, found from the run, the seed and the data, serves every classifier and every view of the data. *)
Theorem C142_rounds : forall kfold skfold sample perm rarr r seed l, positional kfold skfold sample ->
  exists rounds, forall M (train : M -> ilist -> res M) test m h, keeps_class h ->
    run_with train test kfold skfold sample perm rarr r seed (map h l) m =
    do rs <- rounds; do s <- play train test (through h rs) m []; Ok (fst s, fold_left exp_add (snd s) exp_empty).
Proof.
  intros kfold skfold sample perm rarr r seed l HP. exists (rounds_of kfold skfold sample perm rarr r seed l). intros M train test m h Hh.
  rewrite run_rounds, (rounds_view kfold skfold sample perm rarr h r seed l Hh HP), bind_rmap. apply bind_ext. intros rs.
  exact (step_play train test (through h rs) m []).
Qed.
Print Assumptions C142_rounds.
(** [execute] is such a run *)
Theorem C142_execute : forall E kfold skfold sample r c q d,
  execute E kfold skfold sample r (mkExper c (Some q) d) =
  run_with (train_copy E (Some q)) (test E) kfold skfold sample (e_perm E) (e_rarr E) r (get_seed q) (insts d) c.
Proof. intros E kfold skfold sample r c q d. unfold execute. cbn [x_param x_data x_model]. rewrite andb_false_r. destruct r; reflexivity. Qed.
(** The single run of SingleRunWithK and its stratified form. *)
Theorem C142_single : forall kfold skfold sample K seed l, positional kfold skfold sample ->
  exists t gs, forall M (train : M -> ilist -> res M) test m h, keeps_class h ->
    singlek_run train test kfold K seed (map h l) m = single_run train test m (map h (fst t)) (map h (snd t)) /\
    ssinglek_run train test skfold K seed (map h l) m = do u <- gs; single_run train test m (map h (fst u)) (map h (snd u)).
Proof.
  intros kfold skfold sample K seed l HP. exists (kfold l K seed 0), (do gs <- part_class l; Ok (skfold gs K seed 0)). intros M train test m h Hh. destruct (HP h) as (Hk & Hsk & _). split.
  - unfold singlek_run. rewrite Hk. reflexivity.
  - unfold ssinglek_run. rewrite (vw_part_class h Hh), bind_rmap, bind_assoc. apply bind_ext. intros gs. rewrite Hsk. reflexivity.
Qed.
Print Assumptions C142_single.

(** * Feature subsets *)
Lemma only_keeps fs : keeps_class (only fs).
Proof. intros x. reflexivity. Qed.
Lemma subset_only x fs y : inst_subset x fs = Ok y -> y = only fs x.
Proof.
  unfold inst_subset, only. intros E. apply bind_ok in E as (l & El & E). injection E as <-. f_equal. revert l El.
  induction fs as [|k fs IH]; intros l El; cbn [mapM] in El; [injection El as <-; reflexivity|]. apply bind_ok in El as (a & Ea & El). apply bind_ok in El as (l' & El' & El). injection El as <-.
  cbn [map]. f_equal; [|apply IH, El']. apply AttrProofs.at_ok in Ea as (_ & Ea). symmetry. apply nth_error_nth, Ea.
Qed.
Lemma subset_data s fs : Forall (conforms_exactly (types (ddef s))) (insts s) -> Forall (in_range (def_count (ddef s))) fs ->
  exists d, ds_subset s fs = Ok d /\ insts d = map (only fs) (insts s).
Proof.
  intros H F. destruct (C11_feature_subset s fs H F) as (d & Ed & _ & Fd). exists d. split; [exact Ed|]. clear Ed H. unfold ilist in *.
  induction Fd as [|x y xs ys Hy _ IH]; [reflexivity|]. cbn [map]. rewrite (subset_only x fs y Hy), IH. reflexivity.
Qed.
(** All the feature selected experiments made from one experiment do the same rounds; a subset only decides what is seen of an
    instance. *)
Theorem C142_feature_selection : forall E kfold skfold sample r c q d, positional kfold skfold sample ->
  Forall (conforms_exactly (types (ddef d))) (insts d) ->
  exists rounds, forall fs, Forall (in_range (def_count (ddef d))) fs ->
    exists e, feature_selected (mkExper c (Some q) d) fs = Ok e /\
    execute E kfold skfold sample r e =
    do rs <- rounds; do s <- play (train_copy E (Some q)) (test E) (through (only fs) rs) c []; Ok (fst s, fold_left exp_add (snd s) exp_empty).
Proof.
  intros E kfold skfold sample r c q d HP HC. destruct (C142_rounds kfold skfold sample (e_perm E) (e_rarr E) r (get_seed q) (insts d) HP) as (rounds & HR). exists rounds. intros fs F.
  destruct (subset_data d fs HC F) as (d' & Ed & Ei). exists (mkExper c (Some q) d'). unfold feature_selected. cbn [x_data x_model x_param]. rewrite Ed. split; [reflexivity|].
  rewrite C142_execute, Ei. apply HR, only_keeps.
Qed.
Print Assumptions C142_feature_selection.
(** Selecting every feature, in order, changes nothing for instances without candidate labels. *)
Theorem C142_all_features : forall E kfold skfold sample r c q d,
  Forall (conforms_exactly (types (ddef d))) (insts d) -> Forall (fun x => composite x = None) (insts d) ->
  exists e, feature_selected (mkExper c (Some q) d) (map Z.of_nat (seq 0 (def_count (ddef d)))) = Ok e /\
    execute E kfold skfold sample r e = execute E kfold skfold sample r (mkExper c (Some q) d).
Proof.
  intros E kfold skfold sample r c q d HC HN. set (fs := map Z.of_nat (seq 0 (def_count (ddef d)))).
  assert (F : Forall (in_range (def_count (ddef d))) fs) by (apply Forall_forall; intros k Hk; apply in_map_iff in Hk as (j & <- & Hj); apply in_seq in Hj; unfold in_range; lia).
  destruct (subset_data d fs HC F) as (d' & Ed & Ei). exists (mkExper c (Some q) d'). unfold feature_selected. cbn [x_data x_model x_param]. rewrite Ed. split; [reflexivity|].
  rewrite !C142_execute, Ei. f_equal. clear Ed Ei F d'. induction (insts d) as [|x l IH]; [reflexivity|]. inversion HC as [|? ? Hx HC']; inversion HN as [|? ? Nx HN']; subst. cbn [map]. f_equal; [|apply IH; assumption].
  unfold only, fs. rewrite map_map. unfold conforms_exactly in Hx. assert (L : def_count (ddef d) = length (attrs x)) by (unfold def_count; rewrite Hx; apply map_length). rewrite L.
  destruct x as [lx ax cx]. cbn in *. subst cx. f_equal. clear. rewrite (map_ext _ (fun j => nth j ax (ADisc EmptyString))) by (intros j; rewrite Nat2Z.id; reflexivity).
  induction ax as [|a ax IH]; [reflexivity|]. cbn [length seq map nth]. f_equal. rewrite <- seq_shift, map_map. exact IH.
Qed.
Print Assumptions C142_all_features.

(** * The order in which a subset lists its features *)
Lemma perm_arrangement {A} (d : A) (fs fs' : list A) : Permutation fs fs' -> exists p, arrangement (length fs) p /\ fs' = arrange d p fs.
Proof.
  intros P. induction P as [|x l l' P (p & Hp & IH)|x y l|l l' l'' P1 (p1 & H1 & IH1) P2 (p2 & H2 & IH2)].
  - exists []. split; [constructor|reflexivity].
  - exists (0 :: map S p). split; [unfold arrangement in *; cbn [length seq]; constructor; rewrite <- seq_shift; apply Permutation_map, Hp|].
    unfold arrange in *. cbn [map nth]. rewrite map_map. f_equal. exact IH.
  - exists (1 :: 0 :: seq 2 (length l)). split; [unfold arrangement; cbn [length seq]; constructor|].
    unfold arrange. cbn [map nth]. do 2 f_equal. rewrite <- !seq_shift, !map_map. cbn [nth]. clear. induction l as [|a l IH]; [reflexivity|]. cbn [length seq map nth]. f_equal. rewrite <- seq_shift, map_map. exact IH.
  - exists (map (fun j => nth j p1 0) p2). assert (L1 : length p1 = length l) by (rewrite (Permutation_length H1); apply seq_length).
    assert (L2 : length l' = length l) by (rewrite IH1; unfold arrange; rewrite map_length; exact L1). split.
    + unfold arrangement in *. rewrite L2 in H2. transitivity (map (fun j => nth j p1 0) (seq 0 (length l))); [apply Permutation_map, H2|].
      rewrite <- L1. replace (map (fun j => nth j p1 0) (seq 0 (length p1))) with p1; [rewrite L1; exact H1|]. clear. induction p1 as [|a l IH]; [reflexivity|]. cbn [length seq map nth]. f_equal. rewrite <- seq_shift, map_map. exact IH.
    + rewrite IH2, IH1. unfold arrange. rewrite map_map. apply map_ext_in. intros j Hj. assert (Lj : j < length p1) by (rewrite L1, <- L2; apply (Permutation_in _ H2), in_seq in Hj; lia).
      rewrite (nth_indep _ d (nth 0 l d)) by (rewrite map_length; exact Lj). exact (map_nth (fun k => nth k l d) p1 0 j).
Qed.
Lemma only_arranged fs p x : arrangement (length fs) p -> only (arrange 0%Z p fs) x = reorder p (only fs x).
Proof.
  intros Hp. unfold only, reorder. cbn [label attrs composite]. f_equal. unfold arrange. rewrite map_map. apply map_ext_in. intros j Hj.
  assert (Lj : j < length fs) by (apply (Permutation_in _ Hp), in_seq in Hj; lia). symmetry.
  rewrite (nth_indep _ (ADisc EmptyString) ((fun k => nth (Z.to_nat k) (attrs x) (ADisc EmptyString)) 0%Z)) by (rewrite map_length; exact Lj). exact (map_nth (fun k => nth (Z.to_nat k) (attrs x) (ADisc EmptyString)) fs 0%Z j).
Qed.
Lemma test_model_views (f g : instance -> res string) (h h' : instance -> instance) l :
  (forall x, In x l -> label (h' x) = label (h x) /\ possible_labels (h' x) = possible_labels (h x) /\ g (h' x) = f (h x)) -> test_model g (map h' l) = test_model f (map h l).
Proof.
  intros H. unfold test_model. assert (U : union_possible (map h' l) = union_possible (map h l)).
  { unfold union_possible. generalize (@nil string). revert H. induction l as [|x l IH]; intros H acc; [reflexivity|]. cbn [map fold_left]. rewrite (proj1 (proj2 (H x (or_introl eq_refl)))). apply IH. intros y Hy. apply H. right. exact Hy. }
  rewrite U. generalize (cm_empty (union_possible (map h l))). clear U. intros m. f_equal. revert m. induction l as [|x l IH]; intros m; [reflexivity|]. cbn [map foldM].
  destruct (H x (or_introl eq_refl)) as (-> & _ & ->). destruct (f (h x)); cbn [bind]; try reflexivity. apply IH. intros y Hy. apply H. right. exact Hy.
Qed.
(** Nearest neighbours: two subsets with the same features, listed in any two orders, get the same results. *)
Theorem C142_knn_order : forall E kfold skfold sample r old s k d fs fs' e e', positional kfold skfold sample ->
  Forall (conforms_exactly (types (ddef d))) (insts d) -> Forall (in_range (def_count (ddef d))) fs -> Permutation fs fs' ->
  feature_selected (mkExper (KnnC old) (Some (PKnn s eucl k)) d) fs = Ok e -> feature_selected (mkExper (KnnC old) (Some (PKnn s eucl k)) d) fs' = Ok e' ->
  rmap snd (execute E kfold skfold sample r e') = rmap snd (execute E kfold skfold sample r e).
Proof.
  intros E kfold skfold sample r old s k d fs fs' e e' HP HC F P Ee Ee'. destruct (C142_feature_selection E kfold skfold sample r (KnnC old) (PKnn s eucl k) d HP HC) as (rounds & HR).
  destruct (HR fs F) as (e0 & E0 & X). destruct (HR fs' (Permutation_Forall P F)) as (e0' & E0' & X'). rewrite Ee in E0. injection E0 as <-. rewrite Ee' in E0'. injection E0' as <-. rewrite X, X'. clear X X' Ee Ee' HR F.
  destruct rounds as [rs| | |]; cbn [bind]; try reflexivity. destruct (perm_arrangement 0%Z fs fs' P) as (p & Hp & ->).
  assert (G : forall rs old old' done, rmap snd (play (train_copy E (Some (PKnn s eucl k))) (test E) (through (only (arrange 0%Z p fs)) rs) (KnnC old') done) = rmap snd (play (train_copy E (Some (PKnn s eucl k))) (test E) (through (only fs) rs) (KnnC old) done)).
  { clear -Hp. induction rs as [|[tr te] rs IH]; intros old old' done; [reflexivity|].
    assert (T : test E (KnnC (Some (map (only (arrange 0%Z p fs)) tr, k, eucl))) (map (only (arrange 0%Z p fs)) te) = test E (KnnC (Some (map (only fs) tr, k, eucl))) (map (only fs) te)).
    { cbn [test]. rewrite (map_ext (only (arrange 0%Z p fs)) (fun x => reorder p (only fs x))) by (intros x; apply only_arranged, Hp). rewrite <- (map_map (only fs) (reorder p) tr).
      rewrite (map_ext (only (arrange 0%Z p fs)) (fun x => reorder p (only fs x))) by (intros x; apply only_arranged, Hp). apply test_model_views. intros y Hy. split; [reflexivity|]. split; [reflexivity|]. cbn [predict].
      assert (W : forall l, width_n (length fs) (map (only fs) l)) by (intros l; apply Forall_forall; intros z Hz; apply in_map_iff in Hz as (z0 & <- & _); apply map_length).
      refine (proj1 (proj2 (C134_knn (length fs) p (map (only fs) tr) k (only fs y) Hp (W tr) _))). apply map_length. }
    assert (TC : forall c l, train_copy E (Some (PKnn s eucl k)) (KnnC c) l = Ok (KnnC (Some (l, k, eucl)))) by reflexivity.
    unfold through. cbn [map fst snd play]. unfold ilist in *. rewrite !TC, T. destruct (test E (KnnC (Some (map (only fs) tr, k, eucl))) (map (only fs) te)) as [q| | |]; try reflexivity. apply IH. }
  specialize (G rs old old []). destruct (play _ _ (through (only (arrange 0%Z p fs)) rs) (KnnC old) []) as [a| | |], (play _ _ (through (only fs) rs) (KnnC old) []) as [b| | |]; unfold rmap in *; cbn [bind] in *; try discriminate G; try (injection G as G); try (rewrite G); try reflexivity.
Qed.
Print Assumptions C142_knn_order.
(** The dummy classifier: every subset gets the same results. *)
Theorem C142_dummy : forall E kfold skfold sample r old q d fs fs' e e', positional kfold skfold sample ->
  Forall (conforms_exactly (types (ddef d))) (insts d) -> Forall (in_range (def_count (ddef d))) fs -> Forall (in_range (def_count (ddef d))) fs' ->
  feature_selected (mkExper (DummyC old) (Some q) d) fs = Ok e -> feature_selected (mkExper (DummyC old) (Some q) d) fs' = Ok e' ->
  execute E kfold skfold sample r e' = execute E kfold skfold sample r e.
Proof.
  intros E kfold skfold sample r old q d fs fs' e e' HP HC F F' Ee Ee'. destruct (C142_feature_selection E kfold skfold sample r (DummyC old) q d HP HC) as (rounds & HR).
  destruct (HR fs F) as (e0 & E0 & X). destruct (HR fs' F') as (e0' & E0' & X'). rewrite Ee in E0. injection E0 as <-. rewrite Ee' in E0'. injection E0' as <-. rewrite X, X'. clear X X' Ee Ee' HR F F'.
  apply bind_ext. intros rs.
  assert (G : forall rs old done, play (train_copy E (Some q)) (test E) (through (only fs') rs) (DummyC old) done = play (train_copy E (Some q)) (test E) (through (only fs) rs) (DummyC old) done).
  { clear. induction rs as [|[tr te] rs IH]; intros old done; [reflexivity|].
    assert (T : forall c, test E (DummyC c) (map (only fs') te) = test E (DummyC c) (map (only fs) te)).
    { intros c. cbn [test]. apply test_model_views. intros x _. repeat split. }
    assert (TC : forall c l, train_copy E (Some q) (DummyC c) l = Ok (DummyC (class_distribution l))) by reflexivity.
    unfold through. cbn [map fst snd play]. unfold ilist in *. rewrite !TC, !(vw_class_distribution _ (only_keeps _)), T.
    destruct (test E (DummyC (class_distribution tr)) (map (only fs) te)) as [p| | |]; try reflexivity. apply IH. }
  rewrite G. reflexivity.
Qed.
Print Assumptions C142_dummy.

(** * The contract can be met, and a case *)
Example C142_sampling_case : positional kf skf boot.
Proof.
  assert (forall (h : instance -> instance) l K i, mod_fold (map h l) K i = (map h (fst (mod_fold l K i)), map h (snd (mod_fold l K i)))) as H.
  { intros h l K i. unfold mod_fold. cbn [fst snd]. rewrite map_length, <- (combine_map_both h).
    assert (forall (P : nat -> bool) (c : list (nat * instance)), map snd (filter (fun q => P (fst q)) (map (fun q => (fst q, h (snd q))) c)) =
      map h (map snd (filter (fun q => P (fst q)) c))) as F.
    { intros P c. induction c as [|[n x] c IH]; [reflexivity|]. cbn [map filter fst snd]. destruct (P n); cbn [map snd]; rewrite IH; reflexivity. }
    f_equal; [apply (F (fun n => negb (n =? i)))|apply (F (fun n => n =? i))]. }
  intros h. split; [|split]; intros; unfold kf, skf, boot; [apply H| |reflexivity]. rewrite <- concat_map. apply H.
Qed.
Definition two_ex : dataset := mkDS [mkInst "a" [ACont (Fin 0); ADisc "u"] None; mkInst "a" [ACont (Fin 1); ADisc "w"] None; mkInst "b" [ACont (Fin 8); ADisc "u"] None; mkInst "b" [ACont (Fin 9); ADisc "w"] None] (def_of [TCont; TDisc]).
Definition sub_ex (c : classifier) (fs : list Z) : res (list dbl) := do e <- feature_selected (mkExper c (Some (PKnn 1 eucl 1)) two_ex) fs; accs (execute ex_env kf skf boot (KFold 2) e).
(** the number tells the classes apart, the text does not; the order of the two does not matter *)
Example C142_case : Forall (conforms_exactly (types (ddef two_ex))) (insts two_ex) /\
  map (sub_ex (KnnC None)) [[0%Z]; [1%Z]; [0%Z; 1%Z]; [1%Z; 0%Z]] = [Ok [Fin (2 # 2); Fin (2 # 2)]; Ok [Fin (1 # 2); Fin (1 # 2)]; Ok [Fin (2 # 2); Fin (2 # 2)]; Ok [Fin (2 # 2); Fin (2 # 2)]] /\
  map (sub_ex (DummyC [])) [[0%Z]; [1%Z]; []] = [Ok [Fin (1 # 2); Fin (1 # 2)]; Ok [Fin (1 # 2); Fin (1 # 2)]; Ok [Fin (1 # 2); Fin (1 # 2)]].
Proof. split; [repeat constructor|]. vm_compute. split; reflexivity. Qed.
