(** Renaming the class labels: all classifiers behind the common interface, tests and experiments (C128). *)
From Coq Require Import String ZArith QArith Bool Lia List.
From Verif Require Import Base Spec BaseLemmas AttrModel DataSetModel InstanceListModel PartitionModel PerformanceModel
  DistanceModel GaussianModel TreeModel EnsembleModel NetModel SoftModel SolverModel SvmModel ExperimentModel LibModel LibSpec PartitionProofs
  RenameSpec RenameProofs RenameModelProofs RenameTreeProofs RenameNetProofs.
Import ListNotations.
Local Open Scope string_scope.
Local Open Scope list_scope.
Local Open Scope nat_scope.

(** a classifier with renamed labels *)
Definition ren_c (f : string -> string) (c : classifier) : classifier :=
  match c with
  | KnnC m => KnnC (option_map (fun a => (map (rename f) (fst (fst a)), snd (fst a), snd a)) m)
  | KMeansC m => KMeansC (option_map (fun a => (ren_km f (fst a), snd a)) m)
  | LdaC m => LdaC (ren_lda f m) | QdaC m => QdaC (ren_qda f m) | BayesC m => BayesC (ren_nb f m)
  | DummyC m => DummyC (rkey f m) | RandomC m => RandomC (map f m)
  | TreeC t => TreeC (option_map (ren_tree f) t) | StumpC t => StumpC (option_map (ren_tree f) t)
  | BaggingC ts => BaggingC (map (ren_tree f) ts) | ForestC ts => ForestC (map (ren_tree f) ts)
  | LinearC m => LinearC (ren_linear f m) | MlpC m => MlpC (ren_mlp f m) | DeepC m => DeepC (ren_deep f m) | AutoC m => AutoC (ren_auto f m)
  | SoftC m => SoftC (option_map (ren_soft f) m) | SvmC m => SvmC (ren_svm f m)
  end.
Definition ren_r (f : string -> string) (r : classifier * ilist) := (ren_c f (fst r), map (rename f) (snd r)).
Definition class_blind (f : string -> string) (c : classifier) : Prop :=
  match c with KnnC (Some (_, _, d)) | KMeansC (Some (_, d)) => metric_blind f d | _ => True end.
Lemma ren_fresh f c : ren_c f (fresh c) = fresh c.
Proof. destruct c; reflexivity. Qed.

(** * Confusion matrices *)
Lemma vmap_find {V W} (g : V -> W) k (m : smap V) : mfind k (map (fun kv => (fst kv, g (snd kv))) m) = option_map g (mfind k m).
Proof. induction m as [|[k' v] m IH]; [reflexivity|]. cbn. destruct (String.eqb k k'); [reflexivity|exact IH]. Qed.
Lemma vmap_set {V W} (g : V -> W) k v (m : smap V) : mset k (g v) (map (fun kv => (fst kv, g (snd kv))) m) = map (fun kv => (fst kv, g (snd kv))) (mset k v m).
Proof. induction m as [|[k' v'] m IH]; [reflexivity|]. cbn. destruct (String.compare k k'); try reflexivity. cbn. rewrite IH. reflexivity. Qed.

Section Perf.
  Context (f : string -> string).
  Hypothesis Hf : keeps_order f.
  Notation ren := (rename f).
  Notation inj := (f_inj f Hf).
  Notation rr := (map (fun kv : string * counter => (f (fst kv), rkey f (snd kv)))).
  Lemma rr_split (m : smap counter) : rr m = rkey f (map (fun kv => (fst kv, rkey f (snd kv))) m).
  Proof. unfold rkey at 2. rewrite map_map. reflexivity. Qed.
  Lemma rr_find k (m : smap counter) : mfind (f k) (rr m) = option_map (rkey f) (mfind k m).
  Proof. rewrite rr_split, (rk_find f Hf). apply vmap_find. Qed.
  Lemma rr_set k v (m : smap counter) : mset (f k) (rkey f v) (rr m) = rr (mset k v m).
  Proof. rewrite !rr_split, (rk_set f Hf). f_equal. apply (vmap_set (rkey f)). Qed.
  Lemma ren_classify m a p : classify (rename_matrix f m) (f a) (f p) = rename_matrix f (classify m a p).
  Proof.
    unfold classify, rename_matrix. cbn [rows clabels]. f_equal. rewrite rr_find, <- rr_set. f_equal.
    destruct (mfind a (rows m)) as [r|]; cbn [option_map]; rewrite <- (rk_put f Hf); reflexivity.
  Qed.
  Lemma ren_cm_accuracy m : cm_accuracy (rename_matrix f m) = cm_accuracy m.
  Proof.
    unfold cm_accuracy. f_equal.
    - unfold cm_trace. cbn [rows rename_matrix]. refine (fold_left_sim (fun s => s) _ _ _ (rows m) _ d0). intros s kv. cbn [fst snd].
      rewrite (rk_mem f Hf), (rk_count f Hf). reflexivity.
    - unfold cm_sum. cbn [rows rename_matrix]. refine (fold_left_sim (fun s => s) _ _ _ (rows m) _ d0). intros s kv. cbn [fst snd]. rewrite rk_sum. reflexivity.
  Qed.
  Lemma ren_detail m : new_detail (rename_matrix f m) = rename_perf f (new_detail m).
  Proof. unfold new_detail. rewrite ren_cm_accuracy. reflexivity. Qed.
  Lemma ren_union l : union_possible (map ren l) = map f (union_possible l).
  Proof.
    unfold union_possible. refine (fold_left_sim (map f) ren _ _ l _ []). intros acc x. rewrite ren_possible.
    refine (fold_left_sim (map f) f _ _ (possible_labels x) _ acc). intros. apply (f_push f inj).
  Qed.
  Lemma ren_test_model predict predict' l : (forall x, predict' (ren x) = rmap f (predict x)) ->
    test_model predict' (map ren l) = rmap (rename_perf f) (test_model predict l).
  Proof.
    intros H. unfold test_model. rewrite ren_union, foldM_map.
    pose proof (foldM_sim (rename_matrix f) (fun m x => do p <- predict x; Ok (classify m (label x) p)) (fun m x => do p <- predict' (ren x); Ok (classify m (label (ren x)) p)) l) as F.
    specialize (F ltac:(intros m x _; cbv beta; rewrite H, bind_rmap, rmap_bind; apply bind_ext; intros p; cbn [rmap label rename]; rewrite ren_classify; reflexivity) (cm_empty (union_possible l))).
    change (rename_matrix f (cm_empty (union_possible l))) with (cm_empty (map f (union_possible l))) in F. rewrite F, bind_rmap, rmap_bind.
    apply bind_ext. intros m. cbn [rmap]. rewrite ren_detail. reflexivity.
  Qed.
  Lemma ren_exp_add e p : exp_add (mkExp (map (rename_perf f) (results e)) (details_flag e) (class_flag e)) (rename_perf f p) =
    let e' := exp_add e p in mkExp (map (rename_perf f) (results e')) (details_flag e') (class_flag e').
  Proof. unfold exp_add. cbn. rewrite map_app. destruct p; reflexivity. Qed.
End Perf.

Section Lib.
  Context (f : string -> string) (E : env).
  Hypothesis Hf : keeps_order f.
  Hypothesis HE : label_blind f E.
  Notation ren := (rename f).
  Notation inj := (f_inj f Hf).
  Lemma ren_svm_null old l : svm_null E (ren_svm f old) (map ren l) = rmap (fun r => (ren_svm f (fst r), map ren (snd r))) (svm_null E old l).
  Proof.
    unfold svm_null. rewrite ren_head, rmap_bind. apply bind_ext. intros x0. change (discrete_check (ren x0)) with (discrete_check x0).
    destruct (negb (discrete_check x0)); [reflexivity|]. rewrite (ren_sort_class f Hf), (ren_class_distribution f Hf), rk_length.
    destruct (2 <=? _); [reflexivity|]. rewrite (ren_svm_train f Hf), bind_rmap, rmap_bind. reflexivity.
  Qed.
  Lemma ren_train c l p : train E (ren_c f c) (map ren l) p = rmap (ren_r f) (train E c l p).
  Proof.
    destruct HE as (Hent & Hmax & Hstd & Hrand). destruct c; cbn [train ren_c].
    - rewrite rmap_bind. reflexivity.
    - assert (T : kmeans_train (match option_map (fun a : kmeans * metric => (ren_km f (fst a), snd a)) m with Some m0 => fst m0 | None => mkKM [] [] end) (map ren l) =
        rmap (ren_km f) (kmeans_train (match m with Some m0 => fst m0 | None => mkKM [] [] end) l)).
      { destruct m as [[m d]|]; [apply (ren_km_train f Hf)|apply (ren_km_train f Hf (mkKM [] []))]. }
      rewrite T, bind_rmap, rmap_bind. apply bind_ext. intros m'. rewrite rmap_bind. reflexivity.
    - rewrite (ren_lda_train f Hf), bind_rmap, rmap_bind. reflexivity.
    - rewrite (ren_qda_train f Hf), bind_rmap, rmap_bind. reflexivity.
    - rewrite (ren_nb_train f Hf _ Hstd), bind_rmap, rmap_bind. reflexivity.
    - unfold dummy_train. rewrite (ren_class_distribution f Hf). reflexivity.
    - unfold random_train. rewrite (ren_class_distribution f Hf), rk_keys. reflexivity.
    - rewrite rmap_bind. apply bind_ext. intros a. rewrite (ren_tree_train f Hf _ Hmax) by exact Hent. rewrite bind_rmap, rmap_bind. reflexivity.
    - unfold stump_train. rewrite (ren_build f Hf) by exact Hent. rewrite bind_rmap, rmap_bind. reflexivity.
    - rewrite rmap_bind. apply bind_ext. intros a. rewrite (ren_ensemble_train f Hf) by exact Hent. rewrite bind_rmap, rmap_bind. reflexivity.
    - rewrite rmap_bind. apply bind_ext. intros [[s n] k]. rewrite (ren_ensemble_train f Hf) by exact Hent. rewrite bind_rmap, rmap_bind. reflexivity.
    - rewrite (inj_initialize f inj), bind_rmap, rmap_bind. apply bind_ext. intros _. rewrite rmap_bind. apply bind_ext. intros a.
      rewrite (inj_linear_train f inj), bind_rmap, rmap_bind. reflexivity.
    - rewrite (inj_initialize f inj), bind_rmap, rmap_bind. apply bind_ext. intros _. rewrite rmap_bind. apply bind_ext. intros a.
      rewrite (inj_mlp_train f inj), bind_rmap, rmap_bind. reflexivity.
    - rewrite (inj_initialize f inj), bind_rmap, rmap_bind. apply bind_ext. intros _. rewrite rmap_bind. apply bind_ext. intros a.
      rewrite (inj_deep_train f inj), bind_rmap, rmap_bind. reflexivity.
    - rewrite (inj_initialize f inj), bind_rmap, rmap_bind. apply bind_ext. intros _. rewrite rmap_bind. apply bind_ext. intros a.
      rewrite (inj_auto_train f inj), bind_rmap, rmap_bind. reflexivity.
    - rewrite rmap_bind. apply bind_ext. intros q. rewrite (inj_new_node f inj), rmap_bind. apply bind_ext. intros _. rewrite rmap_bind. apply bind_ext. intros _.
      rewrite rmap_bind. apply bind_ext. intros a. rewrite (inj_soft_train f inj), bind_rmap, rmap_bind. reflexivity.
    - destruct p as [p|].
      + destruct p; try (rewrite ren_head, rmap_bind; apply bind_ext; intros x0; change (discrete_check (ren x0)) with (discrete_check x0); destruct (negb _); reflexivity).
        rewrite (ren_svm_train f Hf), bind_rmap, rmap_bind. reflexivity.
      + rewrite ren_svm_null, bind_rmap, rmap_bind. reflexivity.
  Qed.
  Lemma fst_rl {A} (r : res (string * A)) : rmap fst (rmap (fun p => (f (fst p), snd p)) r) = rmap f (rmap fst r).
  Proof. destruct r; reflexivity. Qed.
  Lemma ren_predict c x : class_blind f c -> predict E (ren_c f c) (ren x) = rmap f (predict E c x).
  Proof.
    destruct HE as (Hent & Hmax & Hstd & Hrand). intros Hb. destruct c; cbn [predict ren_c].
    - destruct m as [[[l k] d]|]; [|reflexivity]. cbn. apply (ren_knn f Hf), Hb.
    - destruct m as [[m d]|]; [|reflexivity]. cbn. apply (ren_km_predict f Hf), Hb.
    - apply (ren_lda_predict f Hf).
    - apply (ren_qda_predict f Hf).
    - apply (ren_nb_predict f Hf).
    - rewrite (ren_dummy f Hf _ Hmax). reflexivity.
    - rewrite Hrand. apply (ren_random f).
    - destruct root as [t|]; [|reflexivity]. apply (ren_tree_predict f Hf _ Hmax).
    - destruct root as [t|]; [|reflexivity]. apply (ren_tree_predict f Hf _ Hmax).
    - apply (ren_ensemble f Hf _ Hmax).
    - apply (ren_ensemble f Hf _ Hmax).
    - rewrite (inj_linear_predict f inj). apply fst_rl.
    - rewrite (inj_mlp_predict f inj). apply fst_rl.
    - rewrite (inj_deep_predict f inj). apply fst_rl.
    - cbn [au_W au_V au_labels au_y ren_auto]. rewrite (inj_net_predict f inj). apply fst_rl.
    - destruct m as [m|]; [|reflexivity]. cbn [option_map]. rewrite (inj_soft_predict f) by apply (proj2 Hf). destruct (soft_predict _ m x); reflexivity.
    - apply (ren_svm_predict f).
  Qed.
  Lemma ren_test_c c l : class_blind f c -> test E (ren_c f c) (map ren l) = rmap (rename_perf f) (test E c l).
  Proof.
    intros Hb. assert (G : test_model (predict E (ren_c f c)) (map ren l) = rmap (rename_perf f) (test_model (predict E c) l)).
    { apply (ren_test_model f Hf). intros x. apply ren_predict, Hb. }
    destruct c; try exact G. cbn [test ren_c]. cbn [au_W au_V au_y ren_auto].
    assert (T : forall y, auto_test (e_exp E) (e_tanh E) (au_W m) (au_V m) (map ren l) y = auto_test (e_exp E) (e_tanh E) (au_W m) (au_V m) l y).
    { intros y. unfold auto_test. rewrite foldM_map, map_length. reflexivity. }
    rewrite T, rmap_bind. reflexivity.
  Qed.
  Lemma train_blind c l p r : param_blind f p -> train E c l p = Ok r -> class_blind f (fst r).
  Proof.
    intros Hp H. destruct c; cbn [train] in H;
      repeat match type of H with bind ?r _ = _ => destruct r eqn:?; cbn [bind] in H; try discriminate H end;
      try (injection H as <-; exact I).
    - unfold as_knn, deref_param in Heqr0. destruct p as [[]|]; cbn in Heqr0; try discriminate Heqr0. injection Heqr0 as <-. injection H as <-. exact Hp.
    - unfold as_kmeans, deref_param in Heqr1. destruct p as [[]|]; cbn in Heqr1; try discriminate Heqr1; injection Heqr1 as <-; injection H as <-; exact Hp.
    - destruct a as [[s n] k]. destruct (ensemble_train _ _ _ _ _ _ _ _ _); cbn in H; try discriminate H. injection H as <-. exact I.
    - destruct p as [p|].
      + destruct p; try (destruct (atn l 0); cbn in H; try discriminate H; destruct (negb _); discriminate H).
        destruct (svm_train _ _ _ _ _ _ _); cbn in H; try discriminate H. injection H as <-. exact I.
      + destruct (svm_null E m l); cbn in H; try discriminate H. injection H as <-. exact I.
  Qed.
End Lib.

(** * Experiments *)
Lemma foldM_simI {S S' X} (P : S -> Prop) (phi : S -> S') (g : S -> X -> res S) (g' : S' -> X -> res S') l :
  (forall s x, P s -> g' (phi s) x = rmap phi (g s x)) -> (forall s x s', P s -> g s x = Ok s' -> P s') ->
  forall s, P s -> foldM g' l (phi s) = rmap phi (foldM g l s) /\ forall s', foldM g l s = Ok s' -> P s'.
Proof.
  intros H Hp. induction l as [|x l IH]; intros s Hs; [split; [reflexivity|intros s' E; injection E as <-; exact Hs]|]. cbn [foldM]. rewrite H by exact Hs. specialize (Hp s x).
  destruct (g s x) as [s1| | |]; cbn [bind rmap]; try (split; [reflexivity|discriminate]). apply IH, (Hp s1 Hs eq_refl).
Qed.

Section Runs.
  Context (f : string -> string) (E : env) (p : option param).
  Hypothesis Hf : keeps_order f.
  Hypothesis HE : label_blind f E.
  Hypothesis Hp : param_blind f p.
  Notation ren := (rename f).
  Notation inj := (f_inj f Hf).
  Notation ren2 := (fun q : ilist * ilist => (map ren (fst q), map ren (snd q))).
  Definition ren_e (e : experiment) := mkExp (map (rename_perf f) (results e)) (details_flag e) (class_flag e).
  Notation rs := (fun st : classifier * experiment => (ren_c f (fst st), ren_e (snd st))).
  Notation ok := (fun st : classifier * experiment => class_blind f (fst st)).
  Notation tr := (train_copy E p).
  (** one round *)
  Lemma round_sim st a b : ok st -> (do m <- tr (ren_c f (fst st)) (map ren a); do q <- test E m (map ren b); Ok (m, exp_add (ren_e (snd st)) q)) =
    rmap rs (do m <- tr (fst st) a; do q <- test E m b; Ok (m, exp_add (snd st) q)).
  Proof.
    intros Hs. unfold train_copy. rewrite (ren_train f E Hf HE). destruct (train E (fst st) a p) as [r| | |] eqn:T; cbn [rmap bind]; try reflexivity.
    change (fst (ren_r f r)) with (ren_c f (fst r)). rewrite (ren_test_c f E Hf HE) by apply (train_blind f E _ _ _ _ Hp T).
    destruct (test E (fst r) b) as [q| | |]; cbn [rmap bind]; try reflexivity. f_equal. f_equal. apply (ren_exp_add f).
  Qed.
  Lemma round_ok (st : classifier * experiment) a b s' : (do m <- tr (fst st) a; do q <- test E m b; Ok (m, exp_add (snd st) q)) = Ok s' -> ok s'.
  Proof.
    unfold train_copy. destruct (train E (fst st) a p) as [r| | |] eqn:T; cbn [rmap bind]; try discriminate.
    destruct (test E (fst r) b) as [q| | |]; cbn [bind]; try discriminate. intros H. injection H as <-. apply (train_blind f E _ _ _ _ Hp T).
  Qed.
  Lemma folds_sim cv cv' K st : (forall i, cv' i = ren2 (cv i)) -> ok st ->
    run_folds tr (test E) cv' K (rs st) = rmap rs (run_folds tr (test E) cv K st) /\ forall s', run_folds tr (test E) cv K st = Ok s' -> ok s'.
  Proof.
    intros Hc Hs. unfold run_folds. apply (foldM_simI ok rs); [| |exact Hs].
    - intros s i Hs'. rewrite Hc. cbn [fst snd]. apply (round_sim s _ _ Hs').
    - intros s i s' _. apply round_ok.
  Qed.
  Lemma separate_sim cv cv' K te st : (forall i, cv' i = ren2 (cv i)) -> ok st ->
    run_separate tr (test E) cv' K (map ren te) (rs st) = rmap rs (run_separate tr (test E) cv K te st) /\ forall s', run_separate tr (test E) cv K te st = Ok s' -> ok s'.
  Proof.
    intros Hc Hs. unfold run_separate. apply (foldM_simI ok rs); [| |exact Hs].
    - intros s i Hs'. rewrite Hc. cbn [fst snd]. apply (round_sim s _ _ Hs').
    - intros s i s' _. apply round_ok.
  Qed.
  Lemma repeat_sim n (g g' : classifier * experiment -> res (classifier * experiment)) st :
    (forall s, ok s -> g' (rs s) = rmap rs (g s) /\ forall s', g s = Ok s' -> ok s') -> ok st -> repeatM n g' (rs st) = rmap rs (repeatM n g st).
  Proof.
    intros H Hs. unfold repeatM. apply (foldM_simI ok rs (fun s (_ : nat) => g s) (fun s (_ : nat) => g' s)); [| |exact Hs].
    - intros s _ Hs'. apply (proj1 (H s Hs')).
    - intros s _ s' Hs'. apply (proj2 (H s Hs')).
  Qed.
  Lemma ren_part_random perm ratio seed l : part_random perm ratio seed (map ren l) =
    rmap (fun r => (map ren (fst r), map (map ren) (snd r))) (part_random perm ratio seed l).
  Proof.
    unfold part_random. rewrite ren_shuffle, map_length, combine_map_r, foldM_map.
    match goal with |- context [foldM ?g _ _] => pose proof (foldM_sim (map (map ren))
      (fun gs (ix : nat * instance) => add_to gs (if dltb (dofnat (fst ix)) (dmul (dofnat (length (shuffle perm seed l))) ratio) then 0 else 1) (snd ix)) g
      (combine (seq 0 (length (shuffle perm seed l))) (shuffle perm seed l))) as F end.
    specialize (F ltac:(intros gs ix _; cbn [fst snd]; apply ren_add_to) [[]; []]). cbn [map] in F. rewrite F, bind_rmap, rmap_bind. reflexivity.
  Qed.
  Lemma ren_hold_out perm seed l : hold_out perm seed (map ren l) = rmap ren2 (hold_out perm seed l).
  Proof.
    unfold hold_out. rewrite ren_part_random, bind_rmap, rmap_bind. apply bind_ext. intros [l' gs]. cbn [fst snd]. destruct gs as [|g0 [|g1 [|g2 gs]]]; reflexivity.
  Qed.
  Lemma ren_shold_out rarr seed l : shold_out rarr seed (map ren l) = rmap ren2 (shold_out rarr seed l).
  Proof.
    unfold shold_out. rewrite (ren_strat f Hf), bind_rmap, rmap_bind. apply bind_ext. intros gs. destruct gs as [|g0 [|g1 [|g2 gs]]]; reflexivity.
  Qed.
  Lemma bind_sim {A A' B B'} (psi : A -> A') (phi : B -> B') (r : res A) (g : A -> res B) (g' : A' -> res B') :
    (forall a, g' (psi a) = rmap phi (g a)) -> bind (rmap psi r) g' = rmap phi (bind r g).
  Proof. intros H. destruct r; try reflexivity. apply H. Qed.

  Context (kfold : ilist -> nat -> Z -> nat -> ilist * ilist) (skfold : list ilist -> nat -> Z -> nat -> ilist * ilist) (sample : ilist -> Z -> ilist).
  Hypothesis HS : sampling_blind f kfold skfold sample.
  Lemma ren_execute r c d d' : insts d' = map ren (insts d) -> class_blind f c ->
    execute E kfold skfold sample r (mkExper (ren_c f c) p d') = rmap rs (execute E kfold skfold sample r (mkExper c p d)).
  Proof.
    intros Hd Hc. destruct HS as (Hk & Hsk & Hsm). unfold execute. cbn [x_param x_data x_model]. rewrite Hd.
    destruct (_ && _); [reflexivity|]. set (seed := match p with Some q => get_seed q | None => 0%Z end). clearbody seed.
    assert (H0 : ok (c, exp_empty)) by exact Hc.
    destruct r as [K|K|M K|M K|K|K|M K|M K|n].
    - apply (folds_sim (kfold (insts d) K seed) _ K (c, exp_empty) (Hk (insts d) K seed) H0).
    - unfold skfold_run. rewrite (ren_part_class f inj). apply bind_sim. intros gs. apply (folds_sim (skfold gs K seed) _ K (c, exp_empty) (Hsk gs K seed) H0).
    - unfold mxkfold_run. apply (repeat_sim M _ _ (c, exp_empty)); [|exact H0]. intros s Hs. apply (folds_sim (kfold (insts d) K seed) _ K s (Hk (insts d) K seed) Hs).
    - unfold smxkfold_run. apply (repeat_sim M _ _ (c, exp_empty)); [|exact H0]. intros s Hs. rewrite (ren_part_class f inj).
      destruct (part_class (insts d)) as [gs| | |]; cbn [rmap bind]; try (split; [reflexivity|discriminate]).
      apply (folds_sim (skfold gs K seed) _ K s (Hsk gs K seed) Hs).
    - unfold kfold_sep_run. rewrite ren_hold_out. apply bind_sim. intros h. cbn [fst snd].
      apply (separate_sim (kfold (snd h) K seed) _ K (fst h) (c, exp_empty) (Hk (snd h) K seed) H0).
    - unfold skfold_sep_run. rewrite ren_shold_out. apply bind_sim. intros h. cbn [fst snd]. rewrite (ren_part_class f inj). apply bind_sim. intros gs.
      apply (separate_sim (skfold gs K seed) _ K (fst h) (c, exp_empty) (Hsk gs K seed) H0).
    - unfold mxkfold_sep_run. rewrite ren_hold_out. apply bind_sim. intros h. cbn [fst snd]. apply (repeat_sim M _ _ (c, exp_empty)); [|exact H0]. intros s Hs.
      apply (separate_sim (kfold (snd h) K seed) _ K (fst h) s (Hk (snd h) K seed) Hs).
    - unfold smxkfold_sep_run. rewrite ren_shold_out. apply bind_sim. intros h. cbn [fst snd]. apply (repeat_sim M _ _ (c, exp_empty)); [|exact H0]. intros s Hs.
      rewrite (ren_part_class f inj). destruct (part_class (snd h)) as [gs| | |]; cbn [rmap bind]; try (split; [reflexivity|discriminate]).
      apply (separate_sim (skfold gs K seed) _ K (fst h) s (Hsk gs K seed) Hs).
    - unfold bootstrap_run. refine (proj1 (foldM_simI ok rs _ _ (seq 0 n) _ _ (c, exp_empty) H0)).
      + intros s i Hs. rewrite Hsm. apply (round_sim s _ _ Hs).
      + intros s i s' _. apply round_ok.
  Qed.
End Runs.

(** * Any injective renaming *)
Section Orderless.
  Context (f : string -> string) (E : env).
  Hypothesis inj : forall s t, f s = f t -> s = t.
  Hypothesis f0 : f "" = "".
  Notation ren := (rename f).
  Lemma inj_train c l p : orderless c = true -> train E (ren_c f c) (map ren l) p = rmap (ren_r f) (train E c l p).
  Proof.
    destruct c; cbn [orderless]; intros H; try discriminate H; cbn [train ren_c].
    - rewrite (inj_initialize f inj), bind_rmap, rmap_bind. apply bind_ext. intros _. rewrite rmap_bind. apply bind_ext. intros a.
      rewrite (inj_linear_train f inj), bind_rmap, rmap_bind. reflexivity.
    - rewrite (inj_initialize f inj), bind_rmap, rmap_bind. apply bind_ext. intros _. rewrite rmap_bind. apply bind_ext. intros a.
      rewrite (inj_mlp_train f inj), bind_rmap, rmap_bind. reflexivity.
    - rewrite (inj_initialize f inj), bind_rmap, rmap_bind. apply bind_ext. intros _. rewrite rmap_bind. apply bind_ext. intros a.
      rewrite (inj_deep_train f inj), bind_rmap, rmap_bind. reflexivity.
    - rewrite rmap_bind. apply bind_ext. intros q. rewrite (inj_new_node f inj), rmap_bind. apply bind_ext. intros _. rewrite rmap_bind. apply bind_ext. intros _.
      rewrite rmap_bind. apply bind_ext. intros a. rewrite (inj_soft_train f inj), bind_rmap, rmap_bind. reflexivity.
  Qed.
  Lemma inj_predict c x : orderless c = true -> predict E (ren_c f c) (ren x) = rmap f (predict E c x).
  Proof.
    destruct c; cbn [orderless]; intros H; try discriminate H; cbn [predict ren_c].
    - rewrite (inj_linear_predict f inj). apply (fst_rl f).
    - rewrite (inj_mlp_predict f inj). apply (fst_rl f).
    - rewrite (inj_deep_predict f inj). apply (fst_rl f).
    - destruct m as [m|]; [|reflexivity]. cbn [option_map]. rewrite (inj_soft_predict f) by exact f0. destruct (soft_predict _ m x); reflexivity.
  Qed.
  Lemma train_orderless c l p r : train E c l p = Ok r -> orderless c = true -> orderless (fst r) = true.
  Proof.
    intros H Ho. destruct c; cbn [orderless] in Ho; try discriminate Ho; cbn [train] in H;
      repeat match type of H with bind ?r _ = _ => destruct r eqn:?; cbn [bind] in H; try discriminate H end; injection H as <-; reflexivity.
  Qed.
End Orderless.
