(** Renaming the class labels: distance, density and vote classifiers, support vector machines (C128). *)
From Coq Require Import String ZArith QArith Bool Lia List.
From Verif Require Import Base Spec BaseLemmas AttrModel DataSetModel InstanceListModel PartitionModel PerformanceModel
  DistanceModel GaussianModel TreeModel EnsembleModel SolverModel SvmModel PartitionProofs RenameSpec RenameProofs.
Import ListNotations.
Local Open Scope string_scope.
Local Open Scope list_scope.
Local Open Scope nat_scope.

Lemma filter_map_ {A B} (h : A -> B) (p : A -> bool) (p' : B -> bool) l : (forall x, p' (h x) = p x) -> filter p' (map h l) = map h (filter p l).
Proof. intros H. induction l as [|x l IH]; [reflexivity|]. cbn. rewrite H, IH. destruct (p x); reflexivity. Qed.
Lemma find_map_ {A B} (h : A -> B) (p : A -> bool) (p' : B -> bool) l : (forall x, p' (h x) = p x) -> find p' (map h l) = option_map h (find p l).
Proof. intros H. induction l as [|x l IH]; [reflexivity|]. cbn. rewrite H, IH. destruct (p x); reflexivity. Qed.
Lemma existsb_map_ {A B} (h : A -> B) (p : B -> bool) l : existsb p (map h l) = existsb (fun x => p (h x)) l.
Proof. induction l as [|x l IH]; [reflexivity|]. cbn. rewrite IH. reflexivity. Qed.
Lemma firstn_map_ {A B} (h : A -> B) l : forall n, firstn n (map h l) = map h (firstn n l).
Proof. induction l as [|x l IH]; intros [|n]; try reflexivity. cbn. rewrite IH. reflexivity. Qed.

Section Models.
  Context (f : string -> string).
  Hypothesis Hf : keeps_order f.
  Notation ren := (rename f).
  Notation inj := (f_inj f Hf).

  (** * Nearest neighbours *)
  Section Dist.
    Context (dist : instance -> instance -> res dbl).
    Hypothesis blind : forall x y, dist (ren x) (ren y) = dist x y.
    Lemma ren_eligible q x : eligible (ren q) (ren x) = eligible q x.
    Proof. unfold eligible. rewrite ren_composite, ren_possible. cbn [label rename]. rewrite (f_mem f inj). reflexivity. Qed.
    Lemma ren_nearest data k q : nearest dist (map ren data) k (ren q) = rmap (map ren) (nearest dist data k q).
    Proof.
      unfold nearest. rewrite (filter_map_ ren (eligible q)) by (intros; apply ren_eligible).
      rewrite mapM_map'. rewrite (mapM_sim (fun p : dbl * instance => (fst p, ren (snd p))) (fun x => do d <- dist x q; Ok (d, x))).
      2:{ intros x _. rewrite blind, rmap_bind. reflexivity. }
      rewrite bind_rmap, rmap_bind. apply bind_ext. intros ds. rewrite map_length, existsb_map_. cbn [fst].
      destruct (length ds <=? 1); [cbn; f_equal; rewrite firstn_map_, !map_map; reflexivity|].
      destruct (existsb _ ds); [reflexivity|]. cbn. f_equal.
      rewrite (ssort_map (fun p : dbl * instance => (fst p, ren (snd p))) (fun p p' => dltb (fst p) (fst p'))) by reflexivity.
      rewrite firstn_map_, !map_map. reflexivity.
    Qed.
    Lemma ren_knn data k q : knn_predict dist (map ren data) k (ren q) = rmap f (knn_predict dist data k q).
    Proof.
      unfold knn_predict. rewrite ren_nearest, bind_rmap, rmap_bind. apply bind_ext. intros ns. rewrite ren_composite, map_length, ren_possible, atn_map.
      destruct (isComposite q && (length ns =? 0)); [reflexivity|]. rewrite ren_class_labels, (ren_maximum f Hf). reflexivity.
    Qed.
    Lemma ren_knn_probability data k q : knn_probability dist (map ren data) k (ren q) = rmap (rkey f) (knn_probability dist data k q).
    Proof.
      unfold knn_probability. rewrite ren_nearest, bind_rmap, rmap_bind. apply bind_ext. intros ns.
      rewrite (ren_class_distribution f Hf). exact (f_equal Ok (rk_probabilities f (class_distribution ns))).
    Qed.
  End Dist.

  (** * Densities *)
  Lemma ren_gauss prior metric metric' q : (forall c, metric' (f c) = metric c) ->
    gauss_predict (rkey f prior) metric' (ren q) = rmap f (gauss_predict prior metric q).
  Proof.
    intros H. unfold gauss_predict. rewrite rmap_bind. cbn [composite rename].
    assert (G : forall (b : string) ls, (do st <- foldM (gauss_step (rkey f prior) metric') (map f ls) (dopp dbl_max, f b); Ok (snd st)) =
                rmap f (do st <- foldM (gauss_step prior metric) ls (dopp dbl_max, b); Ok (snd st))).
    { intros b ls. rewrite foldM_map.
      pose proof (foldM_sim (fun st : dbl * string => (fst st, f (snd st))) (gauss_step prior metric)
        (fun st c => gauss_step (rkey f prior) metric' st (f c)) ls) as F.
      specialize (F ltac:(intros [d s] c _; unfold gauss_step; cbn [fst snd]; rewrite (rk_mem f Hf), H; destruct (mmem c prior); [|reflexivity];
        rewrite rmap_bind; apply bind_ext; intros m; destruct (dgtb m d); reflexivity) (dopp dbl_max, b)). cbn [fst snd] in F. rewrite F, bind_rmap, rmap_bind. reflexivity. }
    destruct (composite q) as [ls|]; cbn [option_map].
    - rewrite atn_map, !bind_rmap. destruct (atn ls 0) as [c| | |]; cbn [bind rmap]; try reflexivity. apply (G c ls).
    - cbn [bind fst snd]. rewrite (rk_max f Hf), rk_keys. apply G.
  Qed.
  Definition ren_km (m : kmeans) : kmeans := mkKM (rkey f (km_prior m)) (map ren (km_means m)).
  Lemma ren_average_instance l : average_instance (map ren l) = rmap ren (average_instance l).
  Proof.
    unfold average_instance. rewrite ren_average, bind_rmap, rmap_bind. apply bind_ext. intros a. cbn [fst snd]. rewrite rmap_bind. apply bind_ext. intros attrs. reflexivity.
  Qed.
  Lemma ren_km_train old l : kmeans_train (ren_km old) (map ren l) = rmap ren_km (kmeans_train old l).
  Proof.
    unfold kmeans_train. rewrite (ren_part_class f inj), bind_rmap, rmap_bind. apply bind_ext. intros gs. rewrite mapM_map'.
    rewrite (mapM_sim ren average_instance) by (intros; apply ren_average_instance). rewrite bind_rmap, rmap_bind. apply bind_ext. intros ms. cbn. f_equal.
    unfold ren_km. cbn. rewrite (ren_class_distribution f Hf). reflexivity.
  Qed.
  Lemma ren_km_predict dist : (forall x y, dist (ren x) (ren y) = dist x y) ->
    forall m q, kmeans_predict dist (ren_km m) (ren q) = rmap f (kmeans_predict dist m q).
  Proof.
    intros blind m q. unfold kmeans_predict. apply ren_gauss. intros c. unfold kmeans_metric. cbn [km_means ren_km].
    rewrite (find_map_ ren (fun x => String.eqb (label x) c)) by (intros x; apply (f_eqb f inj)).
    destruct (find _ (km_means m)) as [x|]; [|reflexivity]. cbn [option_map]. rewrite blind. reflexivity.
  Qed.

  Section Discr.
    Context (inverse : list (list dbl) -> list (list dbl)) (determinant : list (list dbl) -> dbl) (ln : dbl -> dbl).
    Definition ren_lda (m : lda) : lda := mkLda (rkey f (l_prior m)) (rkey f (l_w0 m)) (rkey f (l_w m)).
    Definition ren_qda (m : qda) : qda := mkQda (ren_lda (q_lda m)) (rkey f (q_W m)).
    Notation rg := (fun g : string * ilist => (f (fst g), map ren (snd g))).
    Lemma ren_pooled l cl : pooled (map ren l) (map rg cl) = pooled l cl.
    Proof.
      unfold pooled. rewrite ren_head. apply bind_ext. intros x0. change (inst_size (ren x0)) with (inst_size x0). rewrite foldM_map, !map_length.
      assert (E : forall m0, foldM (fun m (x : string * ilist) => do avg <- cont_average_all (snd (rg x)); do c <- covariance avg (snd (rg x));
                                Ok (mat_add m (mat_scale (dofZ (Z.of_nat (length (snd (rg x))) - 1)) c))) cl m0 =
                             foldM (fun m (g : string * ilist) => do avg <- cont_average_all (snd g); do c <- covariance avg (snd g);
                                Ok (mat_add m (mat_scale (dofZ (Z.of_nat (length (snd g)) - 1)) c))) cl m0).
      { induction cl as [|g cl' IH]; intros m0; [reflexivity|]. cbn [foldM snd]. rewrite (ren_cont_average_all f), map_length.
        destruct (cont_average_all (snd g)) as [avg| | |]; cbn [bind]; try reflexivity. rewrite (ren_covariance f).
        destruct (covariance avg (snd g)); cbn [bind]; try reflexivity. apply IH. }
      rewrite E. reflexivity.
    Qed.
    Lemma ren_lda_train old l : lda_train inverse ln (ren_lda old) (map ren l) = rmap ren_lda (lda_train inverse ln old l).
    Proof.
      unfold lda_train. rewrite ren_head, rmap_bind. apply bind_ext. intros x0. change (discrete_check (ren x0)) with (discrete_check x0).
      destruct (discrete_check x0); [|reflexivity]. rewrite (ren_class_lists f inj), bind_rmap, rmap_bind. apply bind_ext. intros cl.
      rewrite ren_pooled, rmap_bind. apply bind_ext. intros cov. rewrite (ren_class_distribution f Hf), foldM_map.
      refine (foldM_sim ren_lda _ _ cl _ (mkLda (class_distribution l) (l_w0 old) (l_w old))). intros st g _. cbn [fst snd].
      rewrite (ren_cont_average_all f), rmap_bind. apply bind_ext. intros avg. cbn [rmap]. f_equal.
      destruct (mul_right (inverse cov) avg) as [wi|]; [|reflexivity]. unfold ren_lda at 2. cbn [l_w l_w0 l_prior].
      destruct (dot_opt wi avg) as [d|]; cbn [l_w l_w0 l_prior ren_lda]; rewrite ?(rk_prob f Hf), !(rk_emplace f Hf); reflexivity.
    Qed.
    Lemma ren_lda_predict m q : lda_predict (ren_lda m) (ren q) = rmap f (lda_predict m q).
    Proof. unfold lda_predict. apply ren_gauss. intros c. unfold lda_metric. cbn [l_w l_w0 ren_lda]. rewrite !(rk_find f Hf). reflexivity. Qed.
    Lemma ren_qda_train old l : qda_train inverse determinant ln (ren_qda old) (map ren l) = rmap ren_qda (qda_train inverse determinant ln old l).
    Proof.
      unfold qda_train. rewrite ren_head, rmap_bind. apply bind_ext. intros x0. change (discrete_check (ren x0)) with (discrete_check x0).
      destruct (discrete_check x0); [|reflexivity]. rewrite (ren_class_lists f inj), bind_rmap, rmap_bind. apply bind_ext. intros cl.
      rewrite (ren_class_distribution f Hf), foldM_map.
      refine (foldM_sim ren_qda _ _ cl _ (mkQda (mkLda (class_distribution l) (l_w0 (q_lda old)) (l_w (q_lda old))) (q_W old))). intros st g _. cbn [fst snd].
      rewrite (ren_cont_average_all f), rmap_bind. apply bind_ext. intros avg. rewrite (ren_covariance f), rmap_bind. apply bind_ext. intros cov. cbn [rmap]. f_equal.
      destruct (mul_left avg (inverse cov)) as [wi|]; cbn [q_W q_lda ren_qda l_w l_w0 l_prior ren_lda].
      - destruct (dot_opt wi avg) as [d|]; unfold ren_qda, ren_lda; cbn [q_W q_lda l_w l_w0 l_prior]; rewrite ?(rk_prob f Hf), !(rk_emplace f Hf); reflexivity.
      - unfold ren_qda, ren_lda; cbn [q_W q_lda l_w l_w0 l_prior]; rewrite !(rk_emplace f Hf); reflexivity.
    Qed.
    Lemma ren_qda_predict m q : qda_predict (ren_qda m) (ren q) = rmap f (qda_predict m q).
    Proof. unfold qda_predict. apply ren_gauss. intros c. unfold qda_metric. cbn [q_W q_lda l_w l_w0 ren_qda ren_lda]. rewrite !(rk_find f Hf). reflexivity. Qed.

    Context (std_vec : ilist -> res (list dbl)).
    Hypothesis std_blind : forall l, std_vec (map ren l) = std_vec l.
    Definition ren_nb (m : bayes) : bayes := mkNB (rkey f (nb_prior m)) (rkey f (nb_means m)) (rkey f (nb_devs m)) (rkey f (nb_dists m)).
    Lemma ren_nb_train old l : bayes_train std_vec (ren_nb old) (map ren l) = rmap ren_nb (bayes_train std_vec old l).
    Proof.
      unfold bayes_train. rewrite (ren_class_lists f inj), bind_rmap, rmap_bind. apply bind_ext. intros cl.
      rewrite atn_map, bind_rmap, rmap_bind. apply bind_ext. intros g0. cbn [snd]. rewrite ren_head, rmap_bind. apply bind_ext. intros x0.
      change (get_attr (ren x0) 0) with (get_attr x0 0). rewrite rmap_bind. apply bind_ext. intros a0. rewrite (ren_class_distribution f Hf), !foldM_map.
      destruct (isDiscrete a0).
      - refine (foldM_sim ren_nb _ _ cl _ (mkNB (class_distribution l) (nb_means old) (nb_devs old) (nb_dists old))). intros st g _. unfold bayes_disc. cbn [fst snd].
        rewrite (ren_all_attr_distribution f), rmap_bind. apply bind_ext. intros ds. cbn [rmap]. f_equal. unfold ren_nb. cbn. rewrite (rk_emplace f Hf). reflexivity.
      - refine (foldM_sim ren_nb _ _ cl _ (mkNB (class_distribution l) (nb_means old) (nb_devs old) (nb_dists old))). intros st g _. unfold bayes_cont. cbn [fst snd].
        rewrite ren_average_instance, bind_rmap, rmap_bind. apply bind_ext. intros a. rewrite std_blind, rmap_bind. apply bind_ext. intros s. cbn [rmap]. f_equal.
        unfold ren_nb. cbn [nb_prior nb_means nb_devs nb_dists]. rewrite !(rk_emplace f Hf). reflexivity.
    Qed.
    Lemma ren_nb_predict m q : bayes_predict ln (ren_nb m) (ren q) = rmap f (bayes_predict ln m q).
    Proof.
      unfold bayes_predict. apply ren_gauss. intros c. unfold bayes_metric. cbn [nb_dists ren_nb].
      assert (E : bayes_ll_cont ln (ren_nb m) (ren q) (f c) = bayes_ll_cont ln m q c).
      { unfold bayes_ll_cont. cbn [nb_prior nb_means nb_devs ren_nb]. rewrite (rk_prob f Hf), !(rk_find f Hf). reflexivity. }
      assert (E' : bayes_ll_disc ln (ren_nb m) (ren q) (f c) = bayes_ll_disc ln m q c).
      { unfold bayes_ll_disc. cbn [nb_prior nb_dists ren_nb]. rewrite (rk_prob f Hf), !(rk_find f Hf). reflexivity. }
      destruct (nb_dists m) as [|kv ds]; cbn [rkey map]; [exact E|exact E'].
    Qed.
  End Discr.

  (** * Dummy and random *)
  Lemma ren_dummy max_item : (forall d ls, max_item (rkey f d) (map f ls) = f (max_item d ls)) ->
    forall d q, dummy_predict max_item (rkey f d) (ren q) = f (dummy_predict max_item d q).
  Proof. intros H d q. unfold dummy_predict. rewrite ren_composite, ren_possible, H, (rk_max f Hf). destruct (isComposite q); reflexivity. Qed.
  Lemma ren_random r ls q : random_predict r (map f ls) (ren q) = rmap f (random_predict r ls q).
  Proof.
    unfold random_predict. rewrite ren_composite, ren_possible. destruct (isComposite q); rewrite map_length; destruct (length _); try reflexivity; apply atn_map.
  Qed.

  (** * Support vector machines *)
  Section Svm.
    Context (dexp dtanh : dbl -> dbl) (dpow : dbl -> Z -> dbl).
    Definition ren_svm (m : svm) : svm := mkSvm (rkey f (m_dist m)) (m_rho m) (m_nsv m) (m_sv m) (m_coef m) (m_par m) (m_ncl m) (m_nprob m).
    Lemma ren_svm_train fuel old l p : svm_train dexp dtanh dpow fuel (ren_svm old) (map ren l) p =
      rmap (fun r => (ren_svm (fst r), map ren (snd r))) (svm_train dexp dtanh dpow fuel old l p).
    Proof.
      unfold svm_train. rewrite ren_head, rmap_bind. apply bind_ext. intros x0. change (discrete_check (ren x0)) with (discrete_check x0).
      destruct (negb (discrete_check x0)); [reflexivity|]. rewrite (ren_sort_class f Hf), (ren_class_distribution f Hf), rk_length, rk_keys, map_length, !map_map.
      rewrite (map_ext (fun x => ccount (rkey f (class_distribution (sort_class l))) (f x)) (fun k => ccount (class_distribution (sort_class l)) k)) by (intros; apply (rk_count f Hf)).
      change (fun x : instance => inst_nodes (ren x)) with inst_nodes. cbn [m_rho m_nsv m_sv m_coef ren_svm].
      rewrite rmap_bind. apply bind_ext. intros start. rewrite rmap_bind. apply bind_ext. intros [ws nz].
      rewrite rmap_bind. apply bind_ext. intros rhos. rewrite rmap_bind. apply bind_ext. intros nsv. rewrite rmap_bind. apply bind_ext. intros nzstart.
      rewrite rmap_bind. apply bind_ext. intros r2. reflexivity.
    Qed.
    Lemma ren_svm_predict m q : svm_predict dexp dtanh dpow (ren_svm m) (ren q) = rmap f (svm_predict dexp dtanh dpow m q).
    Proof.
      unfold svm_predict. change (inst_nodes (ren q)) with (inst_nodes q). cbn [m_ncl m_dist ren_svm]. rewrite rmap_bind.
      change (predict_values dexp dtanh dpow (ren_svm m)) with (predict_values dexp dtanh dpow m). apply bind_ext. intros vals.
      rewrite rmap_bind. apply bind_ext. intros votes. rewrite rmap_bind. apply bind_ext. intros b. rewrite rk_keys. apply idxn_map.
    Qed.
  End Svm.
End Models.
