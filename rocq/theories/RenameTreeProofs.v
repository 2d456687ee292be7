(** Renaming the class labels: decision trees, stumps, pruning and ensembles (C128). *)
From Coq Require Import String ZArith QArith Bool Lia List.
From Verif Require Import Base Spec BaseLemmas AttrModel DataSetModel InstanceListModel PartitionModel PerformanceModel
  DistanceModel GaussianModel TreeModel EnsembleModel PartitionProofs RenameSpec RenameProofs.
Import ListNotations.
Local Open Scope string_scope.
Local Open Scope list_scope.
Local Open Scope nat_scope.

Section Trees.
  Context (f : string -> string).
  Hypothesis Hf : keeps_order f.
  Notation ren := (rename f).
  Notation rk := (@rkey f nat).
  Notation inj := (f_inj f Hf).
  (** the tree with renamed labels: tests stay *)
  Fixpoint ren_tree (t : tree) : tree :=
    match t with Node lab leaf dist c ch => Node (f lab) leaf (rkey f dist) c (map ren_tree ch) end.

  Section Build.
    Context (entropy : counter -> dbl) (mid : dbl -> dbl -> dbl) (rarr : nat -> Z -> list nat) (param : option (nat * Z)) (stump : bool).
    Hypothesis Hent : forall c, entropy (rkey f c) = entropy c.
    Lemma ren_share n c : share n (rkey f c) = share n c.
    Proof. unfold share. rewrite rk_sum. reflexivity. Qed.
    Lemma ren_disc_entropy data k : disc_entropy entropy (map ren data) k = disc_entropy entropy data k.
    Proof.
      unfold disc_entropy. rewrite (ren_attr_class f Hf), bind_rmap. apply bind_ext. intros ds. f_equal. rewrite map_length.
      refine (fold_left_sim (fun s => s) rk _ _ ds _ d0). intros s d. rewrite ren_share, Hent. reflexivity.
    Qed.
    Lemma ren_try_index data k st v : try_index entropy (map ren data) k (rkey f (fst st), snd st) v =
      rmap (fun st => (rkey f (fst st), snd st)) (try_index entropy data k st v).
    Proof.
      destruct st as [cd b]. unfold try_index. cbn [fst snd]. rewrite (ren_idx_class f Hf), bind_rmap, rmap_bind. apply bind_ext. intros d.
      rewrite !rk_sum. destruct (0 <? csum d); [|reflexivity]. cbn [rmap fst snd]. rewrite (rk_subd f Hf), (rk_add f Hf), !Hent, rk_sum, map_length. reflexivity.
    Qed.
    Definition ren_scan (s : scan) : scan := mkScan (s_prev s) (rkey f (s_left s)) (rkey f (s_right s)) (s_best s).
    Lemma ren_try_cut n k s x : try_cut entropy mid n k (ren_scan s) (ren x) = rmap ren_scan (try_cut entropy mid n k s x).
    Proof.
      unfold try_cut. change (cont_at k (ren x)) with (cont_at k x). rewrite rmap_bind. apply bind_ext. intros v. cbn [s_prev s_left s_right s_best ren_scan label rename].
      rewrite (rk_rem f Hf), (rk_put f Hf), !Hent, !ren_share.
      destruct (s_prev s) as [p|]; [|reflexivity]. destruct (negb (deqb v p)); reflexivity.
    Qed.
    Notation ren_st := (fun st : ilist * counter * best => (map ren (fst (fst st)), rkey f (snd (fst st)), snd st)).
    Lemma ren_try_attr st k : try_attr entropy mid (ren_st st) k = rmap ren_st (try_attr entropy mid st k).
    Proof.
      destruct st as [[data cd] b]. unfold try_attr. cbn [fst snd]. rewrite ren_head, rmap_bind. apply bind_ext. intros x0.
      change (get_attr (ren x0) k) with (get_attr x0 k). rewrite rmap_bind. apply bind_ext. intros a.
      destruct (isDiscreteIndexed a).
      { rewrite rmap_bind. apply bind_ext. intros m.
        pose proof (foldM_sim (fun st : counter * best => (rkey f (fst st), snd st)) (try_index entropy data k) (try_index entropy (map ren data) k) (seq 0 m)) as F.
        specialize (F ltac:(intros s v _; apply ren_try_index) (cd, b)). cbn [fst snd] in F. refine (eq_trans (f_equal (fun r => bind r _) F) _). rewrite bind_rmap, rmap_bind. reflexivity. }
      destruct (isDiscrete a).
      { rewrite ren_disc_entropy, rmap_bind. reflexivity. }
      destruct (isContinuous a); [|reflexivity].
      rewrite ren_sort_by, bind_rmap, rmap_bind. apply bind_ext. intros data'. rewrite (ren_class_distribution f Hf), foldM_map, map_length.
      pose proof (foldM_sim ren_scan (try_cut entropy mid (length data') k) (fun s x => try_cut entropy mid (length data') k s (ren x)) data') as F.
      specialize (F ltac:(intros s v _; apply ren_try_cut) (mkScan None (class_distribution data') [] b)). unfold ren_scan at 1 in F. cbn [s_prev s_left s_right s_best] in F.
      change (@rkey f nat []) with (@nil (string * nat)) in F. refine (eq_trans (f_equal (fun r => bind r _) F) _). rewrite bind_rmap, rmap_bind. reflexivity.
    Qed.
    Lemma ren_search data : search entropy mid rarr param (map ren data) =
      rmap (fun r => (map ren (fst r), snd r)) (search entropy mid rarr param data).
    Proof.
      unfold search. rewrite ren_head, rmap_bind. apply bind_ext. intros x0. change (attr_order rarr param (ren x0)) with (attr_order rarr param x0).
      rewrite rmap_bind. apply bind_ext. intros ks. rewrite (ren_class_distribution f Hf), Hent.
      pose proof (foldM_sim ren_st (try_attr entropy mid) (try_attr entropy mid) ks (fun s k _ => ren_try_attr s k)
        (data, class_distribution data, mkBest (entropy (class_distribution data)) (-1) d0)) as F. cbn [fst snd] in F. refine (eq_trans (f_equal (fun r => bind r _) F) _). rewrite bind_rmap, rmap_bind.
      apply bind_ext. intros [[d c] b]. reflexivity.
    Qed.
    Notation ren_part := (fun p : condition * ilist => (fst p, map ren (snd p))).
    Lemma ren_split data k v : split (map ren data) k v = rmap (map ren_part) (split data k v).
    Proof.
      unfold split. rewrite ren_head, rmap_bind. apply bind_ext. intros x0. change (get_attr (ren x0) k) with (get_attr x0 k). rewrite rmap_bind. apply bind_ext. intros a.
      destruct (isDiscreteIndexed a).
      { rewrite rmap_bind. apply bind_ext. intros m. rewrite (ren_part_idx f), bind_rmap, rmap_bind. apply bind_ext. intros gs.
        rewrite !atn_map, bind_rmap, rmap_bind. apply bind_ext. intros g0. rewrite bind_rmap, rmap_bind. reflexivity. }
      destruct (isDiscrete a).
      { rewrite (ren_value_list f), rmap_bind. apply bind_ext. intros vs. rewrite (ren_part_disc f), bind_rmap, rmap_bind. apply bind_ext. intros gs.
        apply mapM_sim. intros iv _. rewrite atn_map, bind_rmap, rmap_bind. reflexivity. }
      destruct (isContinuous a); [|reflexivity].
      rewrite (ren_part_cont f), bind_rmap, rmap_bind. apply bind_ext. intros gs. rewrite !atn_map, bind_rmap, rmap_bind. apply bind_ext. intros g0.
      rewrite bind_rmap, rmap_bind. reflexivity.
    Qed.
    Lemma ren_build fuel : forall data c, build entropy mid rarr param stump fuel (map ren data) c =
      rmap ren_tree (build entropy mid rarr param stump fuel data c).
    Proof.
      induction fuel as [|fuel IH]; intros data c; [reflexivity|]. cbn [build].
      rewrite ren_class_labels, (ren_maximum f Hf), (rk_cofl f Hf), (ren_distinct f inj), map_length.
      destruct (_ =? 1); [reflexivity|]. destruct (stump && _); [reflexivity|]. rewrite ren_search, bind_rmap, rmap_bind. apply bind_ext. intros [data' b]. cbn [fst snd].
      destruct (b_attr b =? -1)%Z; [reflexivity|]. rewrite ren_split, bind_rmap, rmap_bind. apply bind_ext. intros parts.
      rewrite mapM_map'. rewrite (mapM_sim ren_tree (fun p => build entropy mid rarr param stump fuel (snd p) (fst p))) by (intros; apply IH).
      rewrite bind_rmap, rmap_bind. reflexivity.
    Qed.
  End Build.

  Section Use.
    Context (max_item : counter -> list string -> string).
    Hypothesis Hmax : forall d ls, max_item (rkey f d) (map f ls) = f (max_item d ls).
    Lemma ren_cond t : t_cond (ren_tree t) = t_cond t.
    Proof. destruct t; reflexivity. Qed.
    Lemma ren_node_predict : forall t x, node_predict max_item (ren_tree t) (ren x) = rmap f (node_predict max_item t x).
    Proof.
      fix IH 1. intros [lab leaf dist c ch] x. cbn [ren_tree node_predict]. rewrite ren_composite, ren_possible, Hmax.
      destruct (isComposite x).
      - destruct leaf; [reflexivity|]. induction ch as [|n ch IHc]; [reflexivity|]. cbn [map]. rewrite ren_cond.
        change (satisfy (t_cond n) (ren x)) with (satisfy (t_cond n) x). rewrite rmap_bind. apply bind_ext. intros s. destruct s; [|exact IHc].
        rewrite IH, bind_rmap, rmap_bind. apply bind_ext. intros p. cbn [rmap]. rewrite (f_empty f Hf). destruct (String.eqb p ""); reflexivity.
      - destruct leaf; [reflexivity|]. induction ch as [|n ch IHc]; [reflexivity|]. cbn [map]. rewrite ren_cond.
        change (satisfy (t_cond n) (ren x)) with (satisfy (t_cond n) x). rewrite rmap_bind. apply bind_ext. intros s. destruct s; [apply IH|exact IHc].
    Qed.
    Lemma ren_node_probability : forall t x, node_probability (ren_tree t) (ren x) = rmap (rkey f) (node_probability t x).
    Proof.
      fix IH 1. intros [lab leaf dist c ch] x. cbn [ren_tree node_probability]. rewrite rk_probabilities. destruct leaf; [reflexivity|].
      induction ch as [|n ch IHc]; [reflexivity|]. cbn [map]. rewrite ren_cond.
      change (satisfy (t_cond n) (ren x)) with (satisfy (t_cond n) x). rewrite rmap_bind. apply bind_ext. intros s. destruct s; [apply IH|exact IHc].
    Qed.
    Lemma ren_tree_predict t x : tree_predict max_item (ren_tree t) (ren x) = rmap f (tree_predict max_item t x).
    Proof.
      unfold tree_predict. rewrite ren_node_predict, bind_rmap, rmap_bind. apply bind_ext. intros p. rewrite (f_empty f Hf), ren_composite, ren_possible, atn_map.
      destruct (String.eqb p "" && isComposite x); reflexivity.
    Qed.
    Lemma ren_test predict predict' l : (forall x, predict' (ren x) = rmap f (predict x)) -> test_classifier predict' (map ren l) = test_classifier predict l.
    Proof.
      intros H. unfold test_classifier. rewrite foldM_map, map_length. f_equal. generalize 0. induction l as [|x l IH]; intros k; [reflexivity|].
      cbn [foldM]. rewrite H, bind_rmap. cbn [label rename].
      destruct (predict x) as [p| | |]; cbn [bind]; try reflexivity. rewrite (f_eqb f inj). apply IH.
    Qed.
    Lemma ren_accuracy_on t l : accuracy_on max_item (ren_tree t) (map ren l) = accuracy_on max_item t l.
    Proof. unfold accuracy_on. rewrite (ren_test (tree_predict max_item t)) by (intros; apply ren_tree_predict). reflexivity. Qed.
    Lemma ren_prune_node l : forall t plug plug', (forall t, plug' (ren_tree t) = ren_tree (plug t)) ->
      prune_node max_item (map ren l) plug' (ren_tree t) = rmap ren_tree (prune_node max_item l plug t).
    Proof.
      fix IH 1. intros [lab leaf dist c ch] plug plug' Hp. cbn [ren_tree prune_node]. destruct leaf; [reflexivity|].
      change (Node (f lab) false (rkey f dist) c (map ren_tree ch)) with (ren_tree (Node lab false dist c ch)).
      change (Node (f lab) true (rkey f dist) c (map ren_tree ch)) with (ren_tree (Node lab true dist c ch)).
      rewrite !Hp, !ren_accuracy_on, rmap_bind. apply bind_ext. intros before. rewrite rmap_bind. apply bind_ext. intros after.
      destruct (dltb after before); [|reflexivity]. rewrite rmap_bind.
      set (go := fix go (done todo : list tree) : res (list tree) :=
                   match todo with
                   | [] => Ok done
                   | n :: todo' => do n' <- prune_node max_item l (fun n0 => plug (Node lab false dist c (done ++ n0 :: todo'))) n; go (done ++ [n']) todo'
                   end).
      set (go' := fix go (done todo : list tree) : res (list tree) :=
                   match todo with
                   | [] => Ok done
                   | n :: todo' => do n' <- prune_node max_item (map ren l) (fun n0 => plug' (Node (f lab) false (rkey f dist) c (done ++ n0 :: todo'))) n; go (done ++ [n']) todo'
                   end).
      assert (G : forall done, go' (map ren_tree done) (map ren_tree ch) = rmap (map ren_tree) (go done ch)).
      { induction ch as [|n ch IHc]; intros done; [reflexivity|]. cbn [map go go'].
        rewrite (IH n (fun n0 => plug (Node lab false dist c (done ++ n0 :: ch)))).
        - rewrite bind_rmap, rmap_bind. apply bind_ext. intros n'. fold go go'. rewrite <- IHc. rewrite map_app. reflexivity.
        - intros t. rewrite <- Hp. cbn [ren_tree]. rewrite map_app. reflexivity. }
      specialize (G []). cbn [map] in G. rewrite G, bind_rmap. reflexivity.
    Qed.
    Lemma ren_tree_train entropy mid rarr do_prune ratio seed fuel l : (forall c, entropy (rkey f c) = entropy c) ->
      tree_train max_item entropy mid rarr do_prune ratio seed fuel (map ren l) = rmap ren_tree (tree_train max_item entropy mid rarr do_prune ratio seed fuel l).
    Proof.
      intros Hent. unfold tree_train. destruct do_prune; [|apply ren_build, Hent]. rewrite (ren_strat f Hf), bind_rmap, rmap_bind. apply bind_ext. intros gs.
      rewrite !atn_map, bind_rmap, rmap_bind. apply bind_ext. intros g1. rewrite (ren_build entropy mid rarr None false Hent), bind_rmap, rmap_bind. apply bind_ext. intros t.
      rewrite bind_rmap, rmap_bind. apply bind_ext. intros g0. unfold prune. apply ren_prune_node. reflexivity.
    Qed.
    Lemma ren_votes forest x : votes max_item (map ren_tree forest) (ren x) = rmap (map f) (votes max_item forest x).
    Proof. unfold votes. rewrite mapM_map'. apply mapM_sim. intros t _. apply ren_tree_predict. Qed.
    Lemma ren_ensemble forest x : ensemble_predict max_item (map ren_tree forest) (ren x) = rmap f (ensemble_predict max_item forest x).
    Proof.
      unfold ensemble_predict. rewrite ren_votes, bind_rmap, rmap_bind. apply bind_ext. intros vs. rewrite (rk_cofl f Hf), (rk_max f Hf). reflexivity.
    Qed.
    Lemma ren_ensemble_train entropy mid rarr pick param size fuel forest l : (forall c, entropy (rkey f c) = entropy c) ->
      ensemble_train entropy mid rarr pick param size fuel (map ren_tree forest) (map ren l) =
      rmap (map ren_tree) (ensemble_train entropy mid rarr pick param size fuel forest l).
    Proof.
      intros Hent. unfold ensemble_train.
      rewrite (mapM_sim ren_tree (fun i => build entropy mid rarr param false fuel (bootstrap pick (Z.of_nat i) l) no_condition)).
      - rewrite bind_rmap, rmap_bind. apply bind_ext. intros new. cbn. rewrite map_app. reflexivity.
      - intros i _. rewrite ren_bootstrap. apply ren_build, Hent.
    Qed.
  End Use.
End Trees.
