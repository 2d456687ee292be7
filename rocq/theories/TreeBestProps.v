(** Property C115: the splits of decision trees are the best ones. *)
From Coq Require Import String ZArith QArith Bool Lia Permutation Lqa List.
From Verif Require Import Base Spec BaseLemmas DblLemmas AttrModel InstanceListModel PartitionModel PerformanceModel
  ListSpec ListProofs PartitionProofs TreeModel TreeSpec TreeProofs TreeGrowProofs TreePredictProofs TreeProps EnsembleModel EnsembleProofs EnsembleProps
  TreeBestSpec TreeBestProofs.
Import ListNotations.
Local Open Scope string_scope.
Local Open Scope list_scope.
Local Open Scope nat_scope.

(** An unpruned tree: every inner node makes a split of its training instances with the smallest average entropy among
    all splits of all features, and every leaf is pure or has no split that lowers the entropy. *)
Theorem C115_greedy : forall max_item entropy mid rarr ratio seed shape data fuel t,
  entropy_finite entropy -> mid_exact mid -> rarr_perm rarr -> tabular shape data -> data <> [] ->
  tree_train max_item entropy mid rarr false ratio seed fuel data = Ok t ->
  greedy entropy shape (fun k => k < length shape) data t.
Proof.
  intros max_item entropy mid rarr ratio seed shape data fuel t He Hm Hr Ht Hne H.
  exact (build_greedy entropy mid shape He Hm rarr None Hr fuel data no_condition t Ht Hne H).
Qed.
(** A stump: the same for its only split; its children are leaves. *)
Theorem C115_stump : forall entropy mid rarr shape data fuel t,
  entropy_finite entropy -> mid_exact mid -> rarr_perm rarr -> tabular shape data -> data <> [] ->
  stump_train entropy mid rarr fuel data = Ok t ->
  chosen entropy shape (fun k => k < length shape) (fun _ n => t_leaf n = true /\ t_children n = []) data t.
Proof.
  intros entropy mid rarr shape data fuel t He Hm Hr Ht Hne H.
  exact (build_stump_chosen entropy mid shape He Hm rarr None fuel data t Hr Ht Hne H).
Qed.
Lemma nth_left {A B} (R : A -> B -> Prop) l l' i b : Forall2 R l l' -> nth_error l' i = Some b -> exists a, nth_error l i = Some a /\ R a b.
Proof.
  intros H. revert i. induction H as [|x y l l' Hxy _ IH]; intros [|i] E; try discriminate E; [|exact (IH i E)].
  injection E as <-. exists x. split; [reflexivity|exact Hxy].
Qed.
(** Bagging and random forests: tree number [i] is greedy on the [i]-th bootstrap sample, over the features it looks at. *)
Theorem C115_forest : forall entropy mid rarr pick param size shape data forest,
  entropy_finite entropy -> mid_exact mid -> rarr_perm rarr -> draws pick -> tabular shape data -> data <> [] ->
  ensemble_train entropy mid rarr pick param size (length data) [] data = Ok forest ->
  length forest = size /\
  forall i t, nth_error forest i = Some t ->
    exists sample, Forall2 (fun j x => nth_error data j = Some x) (pick (Z.of_nat i) (length data)) sample /\
      greedy entropy shape (looked_at rarr param (length shape)) sample t.
Proof.
  intros entropy mid rarr pick param size shape data forest He Hm Hr Hd Ht Hne E. unfold ensemble_train in E.
  apply bind_ok in E. destruct E as (ts & E & H). injection H as <-. apply mapM_ok in E. cbn [app].
  split; [rewrite <- (Forall2_len _ _ _ E); apply seq_length|]. intros i t Hi.
  destruct (nth_left _ _ _ i t E Hi) as (j & Hj & Hb).
  assert (j = i) as ->.
  { pose proof (nth_error_nth _ _ 0 Hj) as H. rewrite seq_nth in H; [lia|]. rewrite <- (seq_length size 0). apply nth_error_Some. congruence. }
  destruct (Hd (Z.of_nat i) (length data)) as [Hl Hf].
  assert (length (bootstrap pick (Z.of_nat i) data) = length data) as Hlen by (unfold bootstrap; rewrite rearrange_length by exact Hf; exact Hl).
  exists (bootstrap pick (Z.of_nat i) data). split.
  - unfold bootstrap. clear - Hf. induction Hf as [|k l Hk _ IH]; [constructor|]. unfold rearrange in *. cbn [flat_map].
    destruct (nth_error data k) as [x|] eqn:Ex; [|apply nth_error_None in Ex; lia]. cbn [app]. constructor; [exact Ex|exact IH].
  - apply (build_greedy entropy mid shape He Hm rarr param Hr (length data) _ no_condition); [exact (tab_incl _ _ _ (rearrange_incl _ _) Ht)| |exact Hb].
    intros Eb. rewrite Eb in Hlen. destruct data; [contradiction|discriminate Hlen].
Qed.
(** What [greedy] says on the example data: the root tests the index feature, whose two parts have average entropy 3/5;
    the other features do not do better than that. *)
Example C115_case : exists t, tree_train ex_max ex_entropy ex_mid ex_rarr false (Fin (1#5)) 1 5 ex_data = Ok t /\
  map (fun n => c_index (t_cond n)) (t_children t) = [2; 2]%Z /\
  map (fun gs => Qred (split_impurity ex_entropy ex_data gs))
    [[filter (has_index 2 0) ex_data; filter (fun x => negb (has_index 2 0 x)) ex_data];
     [filter (at_most 0 1) ex_data; filter (fun x => negb (at_most 0 1 x)) ex_data];
     map (fun v => filter (has_text 1 v) ex_data) ["u"; "w"; "z"]] = [3#5; 4#5; 4#5]%Q.
Proof. eexists. split; [vm_compute; reflexivity|]. split; vm_compute; reflexivity. Qed.
Example C115_case_hyps : entropy_finite ex_entropy /\ mid_exact ex_mid /\ rarr_perm ex_rarr /\ tabular ex_shape ex_data /\ ex_data <> [] /\ draws ex_pick.
Proof.
  split; [exact ex_entropy_finite|]. split; [exact ex_mid_exact|]. split; [exact ex_rarr_perm|]. split; [exact ex_tabular|].
  split; [discriminate|exact ex_draws].
Qed.

(** "An unpruned tree classifies its own consistent training data": no.  The best split may not lower the entropy at all
    although two levels would separate the classes; the tree then stops. *)
Definition xor_row (l u v : string) : instance := mkInst l [ADisc u; ADisc v] None.
Definition xor_data : list instance := [xor_row "a" "0" "0"; xor_row "b" "0" "1"; xor_row "b" "1" "0"; xor_row "a" "1" "1"].
Theorem C115_fits_training_data_refuted : forall max_item entropy mid rarr ratio seed fuel,
  rarr_perm rarr -> entropy [("a", 1); ("b", 1)] = Fin 1 -> entropy [("a", 2); ("b", 2)] = Fin 1 ->
  exists t, tree_train max_item entropy mid rarr false ratio seed (S fuel) xor_data = Ok t /\ t_children t = [] /\
    map (tree_predict max_item t) xor_data = [Ok "a"; Ok "a"; Ok "a"; Ok "a"].
Proof.
  intros max_item entropy mid rarr ratio seed fuel Hr E1 E2.
  assert (search entropy mid rarr None xor_data = Ok (xor_data, mkBest (Fin 1) (-1) d0)) as Es.
  { unfold search. cbn [atn xor_data nth_error bind]. fold xor_data. change (attr_order rarr None (xor_row "a" "0" "0")) with (Ok [0; 1]%Z).
    cbn [bind]. change (class_distribution xor_data) with [("a", 2); ("b", 2)]. rewrite E2.
    assert (forall k cd, In k [0; 1]%Z -> try_attr entropy mid (xor_data, cd, mkBest (Fin 1) (-1) d0) k = Ok (xor_data, cd, mkBest (Fin 1) (-1) d0)) as Ha.
    { intros k cd Hk. assert (disc_entropy entropy xor_data k = Ok (Fin (16#16))) as Hd.
      { unfold disc_entropy. assert (attr_class_distribution k xor_data = Ok [[("a", 1); ("b", 1)]; [("a", 1); ("b", 1)]]) as ->.
        { destruct Hk as [<-|[<-|[]]]; reflexivity. }
        cbn [bind fold_left]. rewrite E1. reflexivity. }
      transitivity (do e <- disc_entropy entropy xor_data k; Ok (xor_data, cd, better (mkBest (Fin 1) (-1) d0) e k d0)).
      - destruct Hk as [<-|[<-|[]]]; reflexivity.
      - rewrite Hd. reflexivity. }
    cbn [foldM]. rewrite (Ha 0%Z) by (left; reflexivity). cbn [bind]. rewrite (Ha 1%Z) by (right; left; reflexivity). reflexivity. }
  unfold tree_train. cbn [build]. change (length (distinct_labels xor_data) =? 1) with false. cbn [andb]. rewrite Es. cbn [bind b_attr].
  eexists. split; [reflexivity|]. split; [reflexivity|]. vm_compute. reflexivity.
Qed.
Example C115_refuted_case : ex_entropy [("a", 1); ("b", 1)] = Fin 1 /\ ex_entropy [("a", 2); ("b", 2)] = Fin 1 /\
  (forall x y, In x xor_data -> In y xor_data -> attrs x = attrs y -> label x = label y).
Proof.
  split; [reflexivity|]. split; [reflexivity|]. intros x y Hx Hy.
  repeat (destruct Hx as [<-|Hx]; [repeat (destruct Hy as [<-|Hy]; [simpl; intros E; (reflexivity || discriminate E)|]); destruct Hy|]). destruct Hx.
Qed.
Print Assumptions C115_greedy.
Print Assumptions C115_stump.
Print Assumptions C115_forest.
Print Assumptions C115_fits_training_data_refuted.
