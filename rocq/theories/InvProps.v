(** Properties C118, C119. *)
From Coq Require Import String ZArith QArith Bool Lia Permutation Lqa List.
From Verif Require Import Base Spec BaseLemmas DblLemmas AttrModel InstanceListModel PartitionModel PerformanceModel
  ListSpec ListProofs DataSetProofs PartitionProofs PerformanceProofs TreeModel TreeSpec TreeProofs TreeGrowProofs TreePredictProofs TreeBestSpec TreeBestProofs TreeProps
  EnsembleProofs EnsembleModel EnsembleProps InvSpec TreeInvProofs TreeInvGrowProofs.
Import ListNotations.
Local Open Scope string_scope.
Local Open Scope list_scope.
Local Open Scope nat_scope.

(** two trees give the same label and the same probabilities to corresponding instances of the shape *)
Definition agree (u : units) (shape : list kind) (t t' : tree) : Prop :=
  forall x y, typed shape x -> rescaled u x y ->
    (forall max_item, tree_predict max_item t x = tree_predict max_item t' y) /\ node_probability t x = node_probability t' y.

Lemma answers_agree u shape t t' : answers shape u t t' -> agree u shape t t'.
Proof.
  intros A x y T R. split; [|exact (proj2 (A x y T R))]. intros mi. exact (tree_predict_same shape u mi t t' x y A T R).
Qed.
Lemma both_grown u entropy mid rarr param stump shape data data' :
  entropy_finite entropy -> mid_exact mid -> rarr_perm rarr -> increasing u -> tabular shape data -> data <> [] -> same_data u data data' ->
  exists t t', build entropy mid rarr param stump (length data) data no_condition = Ok t /\
    build entropy mid rarr param stump (length data) data' no_condition = Ok t' /\ agree u shape t t'.
Proof.
  intros He Hm Hr Hu T Hne H. destruct (build_ok entropy mid rarr shape He Hm Hr param stump (length data) data no_condition T Hne (le_n _)) as (t & E & _).
  destruct (build_same entropy mid shape u He Hm Hu rarr Hr param stump _ data data' no_condition no_condition t T Hne H eq_refl E) as (t' & E' & A).
  exists t, t'. split; [exact E|]. split; [exact E'|]. exact (answers_agree _ _ _ _ A).
Qed.
Lemma increasing_same : increasing same_units.
Proof. intros i. reflexivity. Qed.
Lemma rescaled_self x : rescaled same_units x x.
Proof. apply rescaled_same. Qed.

(** * C118 *)
Theorem C118_tree : forall max_item entropy mid rarr ratio seed shape data data',
  entropy_finite entropy -> mid_exact mid -> rarr_perm rarr -> tabular shape data -> data <> [] -> Permutation data data' ->
  exists t t', tree_train max_item entropy mid rarr false ratio seed (length data) data = Ok t /\
    tree_train max_item entropy mid rarr false ratio seed (length data') data' = Ok t' /\
    forall x, typed shape x -> tree_predict max_item t x = tree_predict max_item t' x /\ node_probability t x = node_probability t' x.
Proof.
  intros mi entropy mid rarr ratio seed shape data data' He Hm Hr T Hne P.
  destruct (both_grown same_units entropy mid rarr None false shape data data' He Hm Hr increasing_same T Hne (same_data_perm _ _ P)) as (t & t' & E & E' & A).
  exists t, t'. split; [exact E|]. split; [rewrite <- (Permutation_length P); exact E'|]. intros x Tx. destruct (A x x Tx (rescaled_self x)) as [A1 A2]. split; [apply A1|exact A2].
Qed.
Theorem C118_stump : forall max_item entropy mid rarr shape data data',
  entropy_finite entropy -> mid_exact mid -> rarr_perm rarr -> tabular shape data -> data <> [] -> Permutation data data' ->
  exists t t', stump_train entropy mid rarr (length data) data = Ok t /\ stump_train entropy mid rarr (length data') data' = Ok t' /\
    forall x, typed shape x -> tree_predict max_item t x = tree_predict max_item t' x /\ node_probability t x = node_probability t' x.
Proof.
  intros mi entropy mid rarr shape data data' He Hm Hr T Hne P.
  destruct (both_grown same_units entropy mid rarr None true shape data data' He Hm Hr increasing_same T Hne (same_data_perm _ _ P)) as (t & t' & E & E' & A).
  exists t, t'. split; [exact E|]. split; [rewrite <- (Permutation_length P); exact E'|]. intros x Tx. destruct (A x x Tx (rescaled_self x)) as [A1 A2]. split; [apply A1|exact A2].
Qed.
Theorem C118_dummy_and_random : forall old_d old_r data data', Permutation data data' ->
  dummy_train old_d data = dummy_train old_d data' /\ random_train old_r data = random_train old_r data'.
Proof.
  intros od or data data' P. assert (E : class_distribution data = class_distribution data').
  { rewrite !class_distribution_cofl. apply cofl_perm, Permutation_map, P. }
  split; [exact E|]. unfold random_train. rewrite E. reflexivity.
Qed.
(** the accuracy of a trained classifier does not depend on the order of the test data *)
Theorem C118_accuracy : forall predict data data', Permutation data data' -> Forall (fun x => exists p, predict x = Ok p) data ->
  test_classifier predict data = test_classifier predict data'.
Proof.
  intros predict data data' P F. unfold test_classifier. rewrite <- (Permutation_length P).
  assert (M : forall l k, Forall (fun x => exists p, predict x = Ok p) l ->
    foldM (fun k x => do p <- predict x; Ok (if String.eqb (label x) p then S k else k)) l k = Ok (k + hits predict l)).
  { unfold hits. induction l as [|x l IH]; intros k Fl; [cbn; f_equal; lia|]. inversion Fl as [|? ? (p & Ep) Fl']; subst. cbn [foldM]. rewrite Ep. cbn [bind].
    rewrite (IH _ Fl'). cbn [countb filter]. unfold countb. cbn [filter]. rewrite Ep. rewrite String.eqb_sym. destruct (String.eqb p (label x)); cbn [length]; f_equal; lia. }
  rewrite (M data 0 F), (M data' 0 (Permutation_Forall P F)). replace (hits predict data') with (hits predict data); [reflexivity|].
  unfold hits, countb. apply Permutation_length, filter_perm, P.
Qed.
Definition ex_texts : list instance := [ex_row "a" 1 "u" 0; ex_row "b" 1 "w" 0; ex_row "a" 1 "u" 0].
(** the two trees are different objects; their answers are not *)
Example C118_case : Permutation ex_texts (rev ex_texts) /\ Permutation ex_texts (skipn 1 ex_texts ++ firstn 1 ex_texts) /\
  exists t t', tree_train ex_max ex_entropy ex_mid ex_rarr false (Fin (1#5)) 1 3 ex_texts = Ok t /\
    tree_train ex_max ex_entropy ex_mid ex_rarr false (Fin (1#5)) 1 3 (skipn 1 ex_texts ++ firstn 1 ex_texts) = Ok t' /\ t <> t' /\
    map (fun w => tree_predict ex_max t (ex_row "?" 7 w 1)) ["u"; "w"; "z"] = [Ok "a"; Ok "b"; Ok "a"] /\
    map (fun w => tree_predict ex_max t' (ex_row "?" 7 w 1)) ["u"; "w"; "z"] = [Ok "a"; Ok "b"; Ok "a"].
Proof.
  split; [apply Permutation_rev|]. split; [apply (Permutation_cons_append (skipn 1 ex_texts) (ex_row "a" 1 "u" 0))|].
  eexists _, _. split; [vm_compute; reflexivity|]. split; [vm_compute; reflexivity|]. split; [discriminate|]. split; vm_compute; reflexivity.
Qed.
(** With pruning (the default) the order decides which instances the tree is grown from. *)
Definition ex_num (l : string) (q : Q) : instance := mkInst l [ACont (Fin q)] None.
Theorem C118_pruned_refuted : exists data data' t t' x,
  Permutation data data' /\ tabular [KCont] data /\ typed [KCont] x /\
  tree_train ex_max ex_entropy ex_mid ex_rarr true (Fin (1#2)) 1 4 data = Ok t /\
  tree_train ex_max ex_entropy ex_mid ex_rarr true (Fin (1#2)) 1 4 data' = Ok t' /\
  tree_predict ex_max t x = Ok "a" /\ tree_predict ex_max t' x = Ok "b".
Proof.
  exists [ex_num "a" 1; ex_num "b" 5; ex_num "a" 2; ex_num "b" 6], [ex_num "a" 2; ex_num "b" 6; ex_num "a" 1; ex_num "b" 5].
  eexists _, _, (ex_num "?" (7#2)). split; [apply (Permutation_app_comm [ex_num "a" 1; ex_num "b" 5] [ex_num "a" 2; ex_num "b" 6])|].
  split; [repeat constructor; eexists; reflexivity|]. split; [repeat constructor; eexists; reflexivity|].
  split; [vm_compute; reflexivity|]. split; [vm_compute; reflexivity|]. split; vm_compute; reflexivity.
Qed.
Print Assumptions C118_tree.
Print Assumptions C118_stump.
Print Assumptions C118_dummy_and_random.
Print Assumptions C118_accuracy.
Print Assumptions C118_pruned_refuted.

(** * C119 *)
Theorem C119_tree : forall u entropy mid rarr param stump shape data data',
  entropy_finite entropy -> mid_exact mid -> rarr_perm rarr -> increasing u -> tabular shape data -> data <> [] -> same_data u data data' ->
  exists t t', build entropy mid rarr param stump (length data) data no_condition = Ok t /\
    build entropy mid rarr param stump (length data) data' no_condition = Ok t' /\ agree u shape t t'.
Proof. exact both_grown. Qed.
Lemma build_nonempty entropy mid rarr param stump fuel data c t : build entropy mid rarr param stump fuel data c = Ok t -> stump = false -> data <> [].
Proof. intros H -> ->. destruct fuel as [|f]; [discriminate H|]. cbn in H. discriminate H. Qed.
Theorem C119_pruned_tree : forall u max_item entropy mid rarr do_prune q seed shape data data' fuel t,
  entropy_finite entropy -> mid_exact mid -> rarr_perm rarr -> increasing u -> tabular shape data -> Forall2 (rescaled u) data data' ->
  tree_train max_item entropy mid rarr do_prune (Fin q) seed fuel data = Ok t ->
  exists t', tree_train max_item entropy mid rarr do_prune (Fin q) seed fuel data' = Ok t' /\ agree u shape t t'.
Proof.
  intros u mi entropy mid rarr do_prune q seed shape data data' fuel t He Hm Hr Hu T HF E. unfold tree_train in *. destruct do_prune.
  2:{ pose proof (build_nonempty _ _ _ _ _ _ _ _ _ E eq_refl) as Hne.
      destruct (build_same entropy mid shape u He Hm Hu rarr Hr None false fuel data data' no_condition no_condition t T Hne (same_data_pointwise _ _ _ HF) eq_refl E) as (t' & E' & A).
      exists t'. split; [exact E'|exact (answers_agree _ _ _ _ A)]. }
  destruct (part_strat_spec rarr q seed data (Hr _ _)) as (g0 & g1 & Es & HP & _).
  destruct (strat_pointwise u rarr (Fin q) seed data data' _ HF Es) as (gs' & Es' & HG).
  inversion HG as [|? g0' ? gs1 H0 HG1]; subst. inversion HG1 as [|? g1' ? gs2 H1 HG2]; subst. inversion HG2; subst. clear HG HG1 HG2.
  rewrite Es in E. rewrite Es'. cbn [bind atn nth_error] in E |- *. apply bind_ok in E as (t0 & Et0 & E).
  pose proof (build_nonempty _ _ _ _ _ _ _ _ _ Et0 eq_refl) as Hne.
  assert (T1 : tabular shape g1) by (apply (tab_incl shape data); [intros x Hx; apply (Permutation_in x HP), in_or_app; right; exact Hx|exact T]).
  assert (T0 : tabular shape g0) by (apply (tab_incl shape data); [intros x Hx; apply (Permutation_in x HP), in_or_app; left; exact Hx|exact T]).
  destruct (build_same entropy mid shape u He Hm Hu rarr Hr None false fuel g1 g1' no_condition no_condition t0 T1 Hne (same_data_pointwise _ _ _ H1) eq_refl Et0) as (t0' & Et0' & _).
  rewrite Et0'. cbn [bind]. pose proof (build_twin entropy mid shape u He Hm Hu rarr Hr None false fuel g1 g1' no_condition no_condition t0 t0' T1 Hne H1 eq_refl Et0 Et0') as TW.
  destruct (prune_twin shape u mi g0 g0' T0 H0 t0 (fun t => t) (fun t => t) t0' t TW (fun n n' Hn _ => Hn) E) as (r' & Er & Tr & _).
  exists r'. split; [exact Er|]. exact (answers_agree _ _ _ _ (twin_answers shape u _ _ Tr)).
Qed.
Lemma rearrange_pointwise {A B} (R : A -> B -> Prop) p l l' : Forall2 R l l' -> Forall2 R (rearrange p l) (rearrange p l').
Proof.
  intros H. unfold rearrange. induction p as [|i p IH]; [constructor|]. cbn [flat_map]. apply Forall2_app; [|exact IH].
  destruct (nth_error l i) as [a|] eqn:E.
  - destruct (Forall2_nth_ex _ _ _ _ _ H E) as (b & -> & Hab). repeat constructor. exact Hab.
  - apply nth_error_None in E. rewrite (Forall2_len _ _ _ H) in E. apply nth_error_None in E. rewrite E. constructor.
Qed.
Theorem C119_forest : forall u max_item entropy mid rarr pick param size shape data data',
  entropy_finite entropy -> mid_exact mid -> rarr_perm rarr -> draws pick -> increasing u -> tabular shape data -> data <> [] -> Forall2 (rescaled u) data data' ->
  exists forest forest', ensemble_train entropy mid rarr pick param size (length data) [] data = Ok forest /\
    ensemble_train entropy mid rarr pick param size (length data) [] data' = Ok forest' /\
    forall x y, typed shape x -> rescaled u x y ->
      ensemble_predict max_item forest x = ensemble_predict max_item forest' y /\ ensemble_probability max_item forest x = ensemble_probability max_item forest' y.
Proof.
  intros u mi entropy mid rarr pick param size shape data data' He Hm Hr Hd Hu T Hne HF. unfold ensemble_train.
  assert (Hb : forall i, incl (bootstrap pick i data) data /\ length (bootstrap pick i data) = length data).
  { intros i. unfold bootstrap. destruct (Hd i (length data)) as [Hl Hf]. split; [apply rearrange_incl|]. rewrite rearrange_length by exact Hf. exact Hl. }
  assert (Main : forall is_, exists ts ts', mapM (fun i => build entropy mid rarr param false (length data) (bootstrap pick (Z.of_nat i) data) no_condition) is_ = Ok ts /\
    mapM (fun i => build entropy mid rarr param false (length data) (bootstrap pick (Z.of_nat i) data') no_condition) is_ = Ok ts' /\ Forall2 (agree u shape) ts ts').
  { induction is_ as [|i is_ (ts & ts' & E & E' & F)]; [exists [], []; repeat split; constructor|]. destruct (Hb (Z.of_nat i)) as [Hi Hl].
    assert (Hs : Forall2 (rescaled u) (bootstrap pick (Z.of_nat i) data) (bootstrap pick (Z.of_nat i) data')).
    { unfold bootstrap. rewrite <- (Forall2_len _ _ _ HF). apply rearrange_pointwise, HF. }
    destruct (both_grown u entropy mid rarr param false shape (bootstrap pick (Z.of_nat i) data) (bootstrap pick (Z.of_nat i) data') He Hm Hr Hu (tab_incl _ _ _ Hi T)) with (2 := same_data_pointwise _ _ _ Hs) as (t & t' & A1 & A2 & A3).
    { intros E0. rewrite E0 in Hl. destruct data; [contradiction|discriminate Hl]. }
    rewrite Hl in A1, A2. exists (t :: ts), (t' :: ts'). cbn [mapM]. rewrite A1, A2. cbn [bind]. rewrite E, E'. cbn [bind]. split; [reflexivity|]. split; [reflexivity|]. constructor; assumption. }
  destruct (Main (seq 0 size)) as (ts & ts' & E & E' & F). rewrite E, E'. cbn [bind app]. exists ts, ts'. split; [reflexivity|]. split; [reflexivity|].
  intros x y Tx R. assert (V : votes mi ts x = votes mi ts' y).
  { unfold votes. clear - F Tx R. induction F as [|t t' ts ts' A _ IH]; [reflexivity|]. cbn [mapM]. rewrite (proj1 (A x y Tx R) mi), IH. reflexivity. }
  unfold ensemble_predict, ensemble_probability. rewrite V. split; reflexivity.
Qed.
(** Celsius to Fahrenheit *)
Definition fahrenheit : units := fun _ => (9#5, 32)%Q.
Definition in_fahrenheit (x : instance) : instance :=
  mkInst (label x) (map (fun a => match a with ACont (Fin v) => ACont (Fin ((9#5) * v + 32)) | _ => a end) (attrs x)) (composite x).
Lemma fahrenheit_increasing : increasing fahrenheit.
Proof. intros i. reflexivity. Qed.
Lemma in_fahrenheit_ok x : rescaled fahrenheit x (in_fahrenheit x).
Proof.
  split; [reflexivity|]. split; [reflexivity|]. split; [symmetry; apply map_length|]. intros i a b Ha Hb. cbn [attrs in_fahrenheit] in Hb.
  rewrite nth_error_map, Ha in Hb. injection Hb as <-. destruct a as [| | |[v| | |]]; simpl; reflexivity.
Qed.
Example C119_case : Forall2 (rescaled fahrenheit) ex_data (map in_fahrenheit ex_data) /\
  exists t t' p p', tree_train ex_max ex_entropy ex_mid ex_rarr false (Fin (1#5)) 1 5 ex_data = Ok t /\
    tree_train ex_max ex_entropy ex_mid ex_rarr false (Fin (1#5)) 1 5 (map in_fahrenheit ex_data) = Ok t' /\ t <> t' /\
    tree_train ex_max ex_entropy ex_mid ex_rarr true (Fin (1#5)) 1 5 ex_data = Ok p /\
    tree_train ex_max ex_entropy ex_mid ex_rarr true (Fin (1#5)) 1 5 (map in_fahrenheit ex_data) = Ok p' /\ p <> p' /\
    tree_predict ex_max t (ex_row "?" 2 "u" 1) = Ok "b" /\ tree_predict ex_max t' (in_fahrenheit (ex_row "?" 2 "u" 1)) = Ok "b".
Proof.
  split; [generalize ex_data as l; induction l; constructor; [apply in_fahrenheit_ok|assumption]|].
  eexists _, _, _, _. split; [vm_compute; reflexivity|]. split; [vm_compute; reflexivity|]. split; [discriminate|]. split; [vm_compute; reflexivity|].
  split; [vm_compute; reflexivity|]. split; [discriminate|]. split; vm_compute; reflexivity.
Qed.
(** A decreasing conversion (here: the opposite number) may change the answer: a number on the boundary goes to the lower side. *)
Definition opposite : units := fun _ => ((-1)%Q, 0%Q).
Theorem C119_decreasing_refuted : exists data data' t t' x y,
  Forall2 (rescaled opposite) data data' /\ tabular [KCont] data /\ typed [KCont] x /\ rescaled opposite x y /\
  tree_train ex_max ex_entropy ex_mid ex_rarr false (Fin (1#5)) 1 2 data = Ok t /\
  tree_train ex_max ex_entropy ex_mid ex_rarr false (Fin (1#5)) 1 2 data' = Ok t' /\
  tree_predict ex_max t x = Ok "a" /\ tree_predict ex_max t' y = Ok "b".
Proof.
  assert (R : forall l q, rescaled opposite (ex_num l q) (ex_num l (-q))).
  { intros l q. split; [reflexivity|]. split; [reflexivity|]. split; [reflexivity|]. intros [|[|i]] a b Ha Hb; try discriminate Ha. injection Ha as <-. injection Hb as <-. simpl. ring. }
  exists [ex_num "a" 1; ex_num "b" 2], [ex_num "a" (-1); ex_num "b" (-2)]. eexists _, _, (ex_num "?" (3#2)), (ex_num "?" (-(3#2))).
  split; [repeat constructor; apply R|]. split; [repeat constructor; eexists; reflexivity|]. split; [repeat constructor; eexists; reflexivity|]. split; [apply R|].
  split; [vm_compute; reflexivity|]. split; [vm_compute; reflexivity|]. split; vm_compute; reflexivity.
Qed.
Print Assumptions C119_tree.
Print Assumptions C119_pruned_tree.
Print Assumptions C119_forest.
Print Assumptions C119_decreasing_refuted.
