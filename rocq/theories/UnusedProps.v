(** Which features a decision tree depends on (C144). *)
From Coq Require Import String ZArith QArith Bool Lia Permutation List.
From Verif Require Import Base Spec BaseLemmas DblLemmas AttrModel InstanceListModel PartitionModel PerformanceModel ListSpec PartitionProofs
  TreeModel TreeSpec TreeProofs TreePredictProofs TreeGrowProofs EnsembleModel TreeProps RenameProofs InvSpec TreeInvProofs TreeInvGrowProofs ConstSpec ConstTreeProofs UnusedSpec UnusedProofs.
Import ListNotations.
Local Open Scope string_scope.
Local Open Scope list_scope.
Local Open Scope nat_scope.

(** * An answer depends only on the features asked for on the way *)
Lemma same_satisfy c x y : get_attr x (c_index c) = get_attr y (c_index c) -> satisfy c x = satisfy c y.
Proof. intros H. unfold satisfy, index_at, disc_at, cont_at. rewrite H. reflexivity. Qed.
Lemma pick_path lab d c x y : forall after before, Forall (fun m => satisfy (t_cond m) x = Ok false) before ->
  (forall k, asked (Node lab false d c (before ++ after)) x k -> get_attr x k = get_attr y k) ->
  pick after y = pick after x /\
  (forall n k, pick after x = Ok (Some n) -> asked n x k -> asked (Node lab false d c (before ++ after)) x k) /\ (forall n, pick after x = Ok (Some n) -> In n after).
Proof.
  induction after as [|n after IH]; intros before B H; [split; [reflexivity|]; split; intros; discriminate|]. cbn [pick].
  rewrite <- (same_satisfy (t_cond n) x y) by (apply H, asked_here, B).
  destruct (satisfy (t_cond n) x) as [[|]|e|k|] eqn:E; cbn [bind]; try (split; [reflexivity|]; split; intros; discriminate).
  - split; [reflexivity|]. split; [intros m k M A; injection M as <-; apply asked_below; assumption|]. intros m M. injection M as <-. left. reflexivity.
  - assert (EA : before ++ n :: after = (before ++ [n]) ++ after) by (rewrite <- app_assoc; reflexivity). rewrite EA in *.
    destruct (IH (before ++ [n])) as (I1 & I2 & I3); [apply Forall_app; split; [exact B|constructor; [exact E|constructor]]|exact H|].
    split; [exact I1|]. split; [exact I2|]. intros m M. right. exact (I3 m M).
Qed.
Lemma path_at mi : forall t x y, composite x = composite y ->
  (forall k, asked t x k -> get_attr x k = get_attr y k) -> node_predict mi t x = node_predict mi t y /\ node_probability t x = node_probability t y.
Proof.
  induction t as [lab leaf d c ch IH] using tree_rect2. intros x y C H.
  assert (C1 : isComposite x = isComposite y) by (unfold isComposite; rewrite C; reflexivity).
  assert (PL : isComposite x = true -> possible_labels x = possible_labels y) by (unfold isComposite, possible_labels; rewrite C; destruct (composite y); [reflexivity|discriminate]). destruct leaf.
  - split; [|reflexivity]. cbn [node_predict]. rewrite <- C1. destruct (isComposite x); [rewrite PL|]; reflexivity.
  - destruct (pick_path lab d c x y ch [] (Forall_nil _) H) as (E & A & M). rewrite !probability_pick, E. rewrite Forall_forall in IH.
    assert (K : forall n, pick ch x = Ok (Some n) -> node_predict mi n x = node_predict mi n y /\ node_probability n x = node_probability n y).
    { intros n En. apply (IH n (M n En)); try assumption. intros k Hk. apply H. exact (A n k En Hk). }
    destruct (isComposite x) eqn:Ex.
    + rewrite (predict_composite mi _ _ _ _ _ Ex), (predict_composite mi _ _ _ _ _ (eq_sym C1)), E, PL by reflexivity. destruct (pick ch x) as [[n|]| | |]; cbn [bind]; try (split; reflexivity).
      destruct (K n eq_refl) as [-> ->]. split; reflexivity.
    + rewrite (predict_plain mi _ _ _ _ _ Ex), (predict_plain mi _ _ _ _ _ (eq_sym C1)), E. destruct (pick ch x) as [[n|]| | |]; cbn [bind]; try (split; reflexivity). exact (K n eq_refl).
Qed.
(** any change of the other features, of the number of features or of the label is without effect *)
Theorem C144_path : forall max_item t x y, composite x = composite y -> (forall k, asked t x k -> get_attr x k = get_attr y k) ->
  tree_predict max_item t x = tree_predict max_item t y /\ node_probability t x = node_probability t y.
Proof.
  intros mi t x y C H. destruct (path_at mi t x y C H) as [E1 E2]. split; [|exact E2]. unfold tree_predict, isComposite, possible_labels. rewrite E1, C. destruct (composite y); [reflexivity|]. apply bind_ext. intros p. rewrite !andb_false_r. reflexivity.
Qed.
Print Assumptions C144_path.

(** * A feature that no branch asks for could have been left out of the training data *)
Section Drop.
  Context (shape : list kind) (pos : nat) (a : attr) (kd : kind).
  Hypothesis Hk : nth_error shape pos = Some kd.
  Hypothesis Hka : has_kind kd a.
  Definition flat (x : instance) : instance := with_feature pos a (without pos x).
  Lemma pos_lt x : typed shape x -> pos < length (attrs x).
  Proof. intros T. rewrite <- (Forall2_len _ _ _ T). apply nth_error_Some. congruence. Qed.
  Lemma flat_attrs x : typed shape x -> attrs (flat x) = firstn pos (attrs x) ++ a :: skipn (S pos) (attrs x).
  Proof.
    intros T. pose proof (pos_lt x T) as L. cbn [flat with_feature without attrs]. unfold insert_at.
    rewrite firstn_app, firstn_firstn, firstn_length_le, Nat.min_id, Nat.sub_diag by lia. cbn [firstn]. rewrite app_nil_r. f_equal. f_equal.
    rewrite skipn_app, firstn_length_le, Nat.sub_diag by lia. rewrite skipn_all2 by (rewrite firstn_length; lia). reflexivity.
  Qed.
  Lemma without_wide x : typed shape x -> pos <= length (attrs (without pos x)).
  Proof. intros T. pose proof (pos_lt x T). cbn [without attrs]. rewrite app_length, firstn_length_le by lia. lia. Qed.
  Lemma split_at x : typed shape x -> exists v, attrs x = firstn pos (attrs x) ++ v :: skipn (S pos) (attrs x).
  Proof.
    intros T. pose proof (pos_lt x T) as L. destruct (nth_error (attrs x) pos) as [v|] eqn:E; [|apply nth_error_None in E; lia]. exists v.
    rewrite <- (firstn_skipn pos (attrs x)) at 1. f_equal. clear -E. revert E. generalize (attrs x) as l. induction pos as [|p IH]; intros [|y l] E; cbn in E; try discriminate; [injection E as ->; reflexivity|]. cbn [skipn]. apply IH, E.
  Qed.
  Lemma flat_other x k : typed shape x -> k <> Z.of_nat pos -> get_attr (flat x) k = get_attr x k.
  Proof.
    intros T H. pose proof (pos_lt x T) as L. destruct (split_at x T) as (v & E). unfold get_attr, at_. rewrite (flat_attrs x T).
    assert (Lp : length (firstn pos (attrs x)) = pos) by (apply firstn_length_le; lia). revert E Lp. generalize (firstn pos (attrs x)) (skipn (S pos) (attrs x)). intros p s -> Lp.
    destruct (Z.ltb_spec k 0); [reflexivity|].
    destruct (Nat.lt_trichotomy (Z.to_nat k) pos) as [K|[K|K]]; [rewrite !nth_error_app1 by lia; reflexivity|lia|]. rewrite !nth_error_app2 by lia.
    rewrite Lp. replace (Z.to_nat k - pos) with (S (Z.to_nat k - pos - 1)) by lia. reflexivity.
  Qed.
  Lemma flat_pos x : typed shape x -> get_attr (flat x) (Z.of_nat pos) = Ok a.
  Proof. intros T. apply (get_new pos), without_wide, T. Qed.
  Lemma flat_typed x : typed shape x -> typed shape (flat x).
  Proof.
    intros T. pose proof (pos_lt x T) as L. pose proof Hk as K1. unfold typed. rewrite (flat_attrs x T). destruct (split_at x T) as (v & E). unfold typed in T. rewrite E in T.
    apply Forall2_app_inv_r in T as (s1 & s2 & F1 & F2 & Es). inversion F2 as [|kv ? s3 ? Kv F3 Es2]; subst s2. rewrite Es in K1 |- *. apply Forall2_app; [exact F1|]. constructor; [|exact F3].
    assert (L1 : length s1 = pos) by (rewrite (Forall2_len _ _ _ F1); apply firstn_length_le; lia).
    rewrite nth_error_app2, L1, Nat.sub_diag in K1 by lia. cbn in K1. injection K1 as ->. exact Hka.
  Qed.
  Lemma flat_reach l : tabular shape l -> reaches pos (map (without pos) l).
  Proof. intros T. apply Forall_forall. intros x Hx. apply in_map_iff in Hx as (y & <- & Hy). apply without_wide, (tab_in _ _ _ T Hy). Qed.
  Lemma kind_value : a_value a.
  Proof. intros ->. destruct kd; cbn in Hka; [destruct Hka as (v & E)|destruct Hka as (v & E)|destruct Hka as (v & i & E)|destruct Hka as (v & E)]; discriminate. Qed.
  Lemma drop_build entropy mid rarr stump fuel l t : entropy_finite entropy -> mid_exact mid -> rarr_perm rarr -> tabular shape l -> l <> [] ->
    build entropy mid rarr None stump fuel l no_condition = Ok t -> ignores pos t ->
    exists t', build entropy mid rarr None stump fuel (map (without pos) l) no_condition = Ok t' /\
      forall mi x, typed shape x -> tree_predict mi t x = tree_predict mi t' (without pos x) /\ node_probability t x = node_probability t' (without pos x).
  Proof.
    intros He Hm Hr T Hne E I.
    destruct (build_flat entropy mid shape rarr He Hm Hr pos a flat kind_value (fun _ => eq_refl) (fun _ => eq_refl) flat_other flat_pos flat_typed None stump fuel l no_condition t T Hne E I) as (t1 & E1 & A).
    assert (EM : map flat l = map (with_feature pos a) (map (without pos) l)) by (rewrite map_map; reflexivity). unfold ilist in *. rewrite EM in E1.
    rewrite (wf_build0 pos a kind_value entropy mid rarr stump fuel _ (flat_reach l T)) in E1. destruct (build entropy mid rarr None stump fuel (map (without pos) l) no_condition) as [t'| | |]; try discriminate. injection E1 as <-.
    exists t'. split; [reflexivity|]. intros mi x Tx. destruct (A x Tx) as [A1 A2]. split.
    - rewrite <- (wf_tree_predict pos mi a t' (without pos x) (without_wide x Tx)). unfold tree_predict. rewrite (A1 mi). reflexivity.
    - rewrite A2. apply (wf_node_probability pos a t' (without pos x) (without_wide x Tx)).
  Qed.
End Drop.
Lemma kind_there shape pos l x : tabular shape l -> In x l -> pos < length shape -> exists kd a, nth_error shape pos = Some kd /\ has_kind kd a.
Proof.
  intros T Hx L. destruct (nth_error shape pos) as [kd|] eqn:E; [|apply nth_error_None in E; lia]. destruct (typed_at shape x pos kd (tab_in _ _ _ T Hx) E) as (a & _ & Ha & _). exists kd, a. split; [reflexivity|exact Ha].
Qed.
Theorem C144_unused : forall entropy mid rarr shape pos data t, entropy_finite entropy -> mid_exact mid -> rarr_perm rarr -> tabular shape data -> data <> [] -> pos < length shape ->
  ignores pos t ->
  (forall max_item ratio seed fuel, tree_train max_item entropy mid rarr false ratio seed fuel data = Ok t ->
     exists t', tree_train max_item entropy mid rarr false ratio seed fuel (map (without pos) data) = Ok t' /\
       forall mi x, typed shape x -> tree_predict mi t x = tree_predict mi t' (without pos x) /\ node_probability t x = node_probability t' (without pos x)) /\
  (forall fuel, stump_train entropy mid rarr fuel data = Ok t ->
     exists t', stump_train entropy mid rarr fuel (map (without pos) data) = Ok t' /\
       forall mi x, typed shape x -> tree_predict mi t x = tree_predict mi t' (without pos x) /\ node_probability t x = node_probability t' (without pos x)).
Proof.
  intros entropy mid rarr shape pos data t He Hm Hr T Hne L I. destruct data as [|x0 l]; [contradiction|]. destruct (kind_there shape pos _ x0 T (or_introl eq_refl) L) as (kd & a & Ek & Ka).
  split; intros; apply (drop_build shape pos a kd Ek Ka); assumption.
Qed.
Print Assumptions C144_unused.

(** the same for all trees of a bagging ensemble; each sees its own bootstrap sample *)
Theorem C144_bagging : forall entropy mid rarr pick shape pos size fuel data forest, entropy_finite entropy -> mid_exact mid -> rarr_perm rarr -> tabular shape data -> pos < length shape ->
  ensemble_train entropy mid rarr pick None size fuel [] data = Ok forest -> Forall (ignores pos) forest ->
  exists forest', ensemble_train entropy mid rarr pick None size fuel [] (map (without pos) data) = Ok forest' /\
    forall mi x, typed shape x -> ensemble_predict mi forest x = ensemble_predict mi forest' (without pos x) /\ ensemble_probability mi forest x = ensemble_probability mi forest' (without pos x).
Proof.
  intros entropy mid rarr pick shape pos size fuel data forest He Hm Hr T L E I. unfold ensemble_train in *. apply bind_ok in E as (new & E & Ef). injection Ef as <-. cbn [app] in *.
  assert (G : forall ns new, mapM (fun i => build entropy mid rarr None false fuel (bootstrap pick (Z.of_nat i) data) no_condition) ns = Ok new -> Forall (ignores pos) new ->
    exists new', mapM (fun i => build entropy mid rarr None false fuel (bootstrap pick (Z.of_nat i) (map (without pos) data)) no_condition) ns = Ok new' /\
      forall mi x, typed shape x -> votes mi new x = votes mi new' (without pos x)).
  { clear E I new. induction ns as [|i ns IH]; intros new E I; cbn [mapM] in E |- *; [injection E as <-; exists []; split; reflexivity|].
    apply bind_ok in E as (t & Et & E). apply bind_ok in E as (ts & Ets & E). injection E as <-. inversion I; subst. destruct (IH ts Ets ltac:(assumption)) as (new' & E' & A').
    assert (EB : bootstrap pick (Z.of_nat i) (map (without pos) data) = map (without pos) (bootstrap pick (Z.of_nat i) data)) by (unfold bootstrap; rewrite map_length; apply rearrange_map).
    unfold ilist in *. rewrite EB.
    assert (TB : tabular shape (bootstrap pick (Z.of_nat i) data)) by (apply Forall_forall; intros x Hx; apply (tab_in _ _ _ T); unfold bootstrap in Hx; apply (rearrange_in _ _ _ Hx)).
    destruct (bootstrap pick (Z.of_nat i) data) as [|x0 l] eqn:Eb. { destruct fuel; discriminate Et. }
    destruct (kind_there shape pos _ x0 TB (or_introl eq_refl) L) as (kd & a & Ek & Ka).
    destruct (drop_build shape pos a kd Ek Ka entropy mid rarr false fuel (x0 :: l) t He Hm Hr TB ltac:(discriminate) Et ltac:(assumption)) as (t' & Et' & A). rewrite Et'. cbn [bind]. rewrite E'. cbn [bind].
    exists (t' :: new'). split; [reflexivity|]. intros mi x Tx. unfold votes in *. cbn [mapM]. rewrite (proj1 (A mi x Tx)), (A' mi x Tx). reflexivity. }
  destruct (G _ _ E I) as (new' & E' & A). rewrite E'. cbn [bind]. exists new'. split; [reflexivity|]. intros mi x Tx. unfold ensemble_predict, ensemble_probability. rewrite (A mi x Tx). split; reflexivity.
Qed.
Print Assumptions C144_bagging.

(** * Not so after pruning: the pruned tree may ignore a feature that decided how it was grown *)
Definition nums (c : string) (v w : Q) : instance := mkInst c [ACont (Fin v); ACont (Fin w)] None.
Definition hedge : list instance := [nums "a" 10 0; nums "b" 0 10; nums "a" 0 0; nums "b" 10 10].
Theorem C144_pruned_refuted : exists t t', tabular [KCont; KCont] hedge /\ ignores 0 t /\
  tree_train ex_max ex_entropy ex_mid ex_rarr true (Fin (1#2)) 1 4 hedge = Ok t /\
  tree_train ex_max ex_entropy ex_mid ex_rarr true (Fin (1#2)) 1 4 (map (without 0) hedge) = Ok t' /\
  tree_predict ex_max t (nums "" 0 10) = Ok "a" /\ tree_predict ex_max t' (without 0 (nums "" 0 10)) = Ok "b".
Proof.
  do 2 eexists. split; [repeat constructor; eexists; reflexivity|]. split; [|split; [vm_compute; reflexivity|split; [vm_compute; reflexivity|split; vm_compute; reflexivity]]]. constructor.
Qed.
Print Assumptions C144_pruned_refuted.
(** nor for a random forest: with one feature fewer, other features are drawn *)
Definition draws (n : nat) (_ : Z) : list nat := match n with 3 => [1; 0; 2] | _ => seq 0 n end.
Definition rows3 : list instance := [mkInst "a" [ADisc "u"; ADisc "v"; ADisc "w"] None; mkInst "b" [ADisc "v"; ADisc "u"; ADisc "w"] None].
Theorem C144_forest_refuted : exists f f', rarr_perm draws /\ tabular [KDisc; KDisc; KDisc] rows3 /\ Forall (ignores 2) f /\
  ensemble_train ex_entropy ex_mid draws (fun _ n => seq 0 n) (Some (1, 1%Z)) 1 2 [] rows3 = Ok f /\
  ensemble_train ex_entropy ex_mid draws (fun _ n => seq 0 n) (Some (1, 1%Z)) 1 2 [] (map (without 2) rows3) = Ok f' /\
  ensemble_predict ex_max f (mkInst "" [ADisc "u"; ADisc "u"; ADisc "w"] None) = Ok "b" /\
  ensemble_predict ex_max f' (without 2 (mkInst "" [ADisc "u"; ADisc "u"; ADisc "w"] None)) = Ok "a".
Proof.
  do 2 eexists. split. { intros n s. unfold draws. do 4 (destruct n as [|n]; [try apply Permutation_refl|]); [apply perm_swap|apply Permutation_refl]. }
  split; [repeat constructor; eexists; reflexivity|]. split; [|split; [vm_compute; reflexivity|split; [vm_compute; reflexivity|split; vm_compute; reflexivity]]].
  repeat constructor; cbn; discriminate.
Qed.
Print Assumptions C144_forest_refuted.

(** * Cases *)
Definition stall : list instance :=
  [mkInst "a" [ADisc "x"; ACont (Fin 1); ACont (Fin 7)] None; mkInst "b" [ADisc "y"; ACont (Fin 5); ACont (Fin 7)] None;
   mkInst "c" [ADisc "y"; ACont (Fin 9); ACont (Fin 8)] None; mkInst "a" [ADisc "y"; ACont (Fin 2); ACont (Fin 8)] None].
(** feature 1 decides; the features 0 and 2 vary, and the tree ignores them *)
Example C144_case : exists t t', tree_train ex_max ex_entropy ex_mid ex_rarr false (Fin (1#5)) 1 4 stall = Ok t /\ ignores 0 t /\ ignores 2 t /\ ~ ignores 1 t /\
  tree_train ex_max ex_entropy ex_mid ex_rarr false (Fin (1#5)) 1 4 (map (without 0) stall) = Ok t' /\
  tree_predict ex_max t (mkInst "" [ADisc "z"; ACont (Fin 6); ACont (Fin 0)] None) = Ok "b" /\ tree_predict ex_max t' (mkInst "" [ACont (Fin 6); ACont (Fin 0)] None) = Ok "b".
Proof.
  do 2 eexists. split; [vm_compute; reflexivity|]. split; [repeat (constructor || (cbn; discriminate))|]. split; [repeat (constructor || (cbn; discriminate))|].
  split. { intros H. inversion H as [|? ? ? ? H1 _]; subst. inversion H1 as [|? ? H2 _]; subst. apply H2. reflexivity. }
  split; [vm_compute; reflexivity|]. split; vm_compute; reflexivity.
Qed.
(** on the way of an instance that the first branch takes only that branch's feature is asked for *)
Example C144_path_case : exists t, tree_train ex_max ex_entropy ex_mid ex_rarr false (Fin (1#5)) 1 4 stall = Ok t /\
  (forall k, asked t (mkInst "" [ADisc "z"; ACont (Fin 1); ACont (Fin 0)] None) k -> k = 1%Z) /\
  tree_predict ex_max t (mkInst "?" [ADisc "z"; ACont (Fin 1)] None) = Ok "a".
Proof.
  eexists. split; [vm_compute; reflexivity|]. split; [|vm_compute; reflexivity].
  intros k H. remember (mkInst "" [ADisc "z"; ACont (Fin 1); ACont (Fin 0)] None) as x eqn:Ex.
  assert (G : forall t, asked t x k -> Forall (fun m => c_index (t_cond m) = 1%Z) (t_children t) -> (forall m, In m (t_children t) -> satisfy (t_cond m) x = Ok true -> t_leaf m = true) -> k = 1%Z).
  { intros t A F Lf. inversion A as [? ? ? before n after ? B|? ? ? before n after ? ? B S A1]; subst; cbn [t_children] in *.
    - rewrite Forall_forall in F. apply F. apply in_or_app. right. left. reflexivity.
    - specialize (Lf n ltac:(apply in_or_app; right; left; reflexivity) S). inversion A1; subst; discriminate Lf. }
  apply (G _ H); [repeat constructor|]. intros m [<-|[<-|[]]] S; [reflexivity|]. subst x. vm_compute in S. discriminate S.
Qed.
