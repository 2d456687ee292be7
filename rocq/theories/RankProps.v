(** C156: only the order of the numbers matters to an unpruned tree. *)
From Coq Require Import String ZArith QArith Bool Lia Lqa Permutation List.
From Verif Require HeapProofs.
From Verif Require Import Base Spec BaseLemmas DblLemmas AttrModel AttrProofs InstanceListModel PartitionModel PerformanceModel ListSpec PartitionProofs GaussianModel GaussianProps
  TreeModel TreeSpec TreeProofs TreePredictProofs TreeGrowProofs EnsembleModel TreeProps RenameProofs EnsembleProofs RankSpec RankProofs.
Import ListNotations.
Local Open Scope string_scope.
Local Open Scope list_scope.
Local Open Scope nat_scope.

Lemma whole_answers h l t t' : keeps_labels h -> answers_alike h l t t' -> forall x, In x l -> (forall mi, tree_predict mi t x = tree_predict mi t' (h x)) /\ node_probability t x = node_probability t' (h x).
Proof.
  intros Hk A x Hx. destruct (A x Hx) as [A1 A2]. split; [|exact A2]. intros mi. destruct (Hk x) as [H1 H2]. unfold tree_predict, isComposite, possible_labels. rewrite A1, H1, H2. reflexivity.
Qed.
Lemma no_condition_same : same_condition no_condition no_condition.
Proof. split; [reflexivity|]. split; [reflexivity|left; reflexivity]. Qed.
(** Decision trees without pruning: changing the numbers of the training data in a way that keeps the order within each feature
    gives the same tree but for the numbers in the conditions, and every training instance gets the answer it had. *)
Theorem C156_tree : forall shape h mi entropy mid rarr ratio seed fuel data t, entropy_finite entropy -> mid_exact mid -> rarr_perm rarr -> tabular shape data -> keeps_labels h -> same_order shape h data ->
  tree_train mi entropy mid rarr false ratio seed fuel data = Ok t ->
  exists t', tree_train mi entropy mid rarr false ratio seed fuel (map h data) = Ok t' /\ same_tree t t' /\
    forall x, In x data -> (forall mi, tree_predict mi t x = tree_predict mi t' (h x)) /\ node_probability t x = node_probability t' (h x).
Proof.
  intros shape h mi entropy mid rarr ratio seed fuel data t He Hm Hr T Hk O E. unfold tree_train in *. destruct (build_through shape h Hk entropy mid He Hm rarr None false Hr fuel data _ no_condition t T O no_condition_same E) as (t' & E' & S & _ & _ & A).
  exists t'. split; [exact E'|]. split; [exact S|]. apply whole_answers; assumption.
Qed.
Theorem C156_stump : forall shape h entropy mid rarr fuel data t, entropy_finite entropy -> mid_exact mid -> rarr_perm rarr -> tabular shape data -> keeps_labels h -> same_order shape h data ->
  stump_train entropy mid rarr fuel data = Ok t ->
  exists t', stump_train entropy mid rarr fuel (map h data) = Ok t' /\ same_tree t t' /\
    forall x, In x data -> (forall mi, tree_predict mi t x = tree_predict mi t' (h x)) /\ node_probability t x = node_probability t' (h x).
Proof.
  intros shape h entropy mid rarr fuel data t He Hm Hr T Hk O E. unfold stump_train in *. destruct (build_through shape h Hk entropy mid He Hm rarr None true Hr fuel data _ no_condition t T O no_condition_same E) as (t' & E' & S & _ & _ & A).
  exists t'. split; [exact E'|]. split; [exact S|]. apply whole_answers; assumption.
Qed.
(** So the measured accuracy on the training data is the same. *)
Theorem C156_accuracy : forall shape h mi entropy mid rarr ratio seed fuel data t t', entropy_finite entropy -> mid_exact mid -> rarr_perm rarr -> tabular shape data -> keeps_labels h -> same_order shape h data ->
  tree_train mi entropy mid rarr false ratio seed fuel data = Ok t -> tree_train mi entropy mid rarr false ratio seed fuel (map h data) = Ok t' ->
  test_classifier (tree_predict mi t) data = test_classifier (tree_predict mi t') (map h data).
Proof.
  intros shape h mi entropy mid rarr ratio seed fuel data t t' He Hm Hr T Hk O E E'. destruct (C156_tree shape h mi entropy mid rarr ratio seed fuel data t He Hm Hr T Hk O E) as (t0 & E0 & _ & A). rewrite E' in E0. injection E0 as <-. unfold test_classifier. rewrite map_length.
  assert (K : forall l n, incl l data -> foldM (fun k x => do p <- tree_predict mi t x; Ok (if String.eqb (label x) p then S k else k)) l n = foldM (fun k x => do p <- tree_predict mi t' x; Ok (if String.eqb (label x) p then S k else k)) (map h l) n).
  { induction l as [|x l IH]; intros n I; [reflexivity|]. cbn [map foldM]. rewrite (proj1 (A x (I x (or_introl eq_refl))) mi), (proj1 (Hk x)). apply bind_ext. intros n'. apply IH. intros z Hz. apply I. right. exact Hz. }
  rewrite (K data 0 (incl_refl _)). reflexivity.
Qed.
(** Bagging and random forests: tree by tree the same, with the same answers to the instances drawn for the tree. *)
Theorem C156_ensemble : forall shape h entropy mid rarr pick param size fuel data forest, entropy_finite entropy -> mid_exact mid -> rarr_perm rarr -> tabular shape data -> keeps_labels h -> same_order shape h data ->
  ensemble_train entropy mid rarr pick param size fuel [] data = Ok forest ->
  exists forest', ensemble_train entropy mid rarr pick param size fuel [] (map h data) = Ok forest' /\ Forall2 same_tree forest forest' /\
    forall i t t' x, nth_error forest i = Some t -> nth_error forest' i = Some t' -> In x (bootstrap pick (Z.of_nat i) data) -> forall mi, tree_predict mi t x = tree_predict mi t' (h x).
Proof.
  intros shape h entropy mid rarr pick param size fuel data forest He Hm Hr T Hk O E. unfold ensemble_train in *. apply bind_ok in E as (new & E & Ef). injection Ef as <-. cbn [app].
  assert (K : forall is_ ts, mapM (fun i => build entropy mid rarr param false fuel (bootstrap pick (Z.of_nat i) data) no_condition) is_ = Ok ts ->
    exists ts', mapM (fun i => build entropy mid rarr param false fuel (bootstrap pick (Z.of_nat i) (map h data)) no_condition) is_ = Ok ts' /\ Forall2 same_tree ts ts' /\
      forall j i t t' x, nth_error is_ j = Some i -> nth_error ts j = Some t -> nth_error ts' j = Some t' -> In x (bootstrap pick (Z.of_nat i) data) -> forall mi, tree_predict mi t x = tree_predict mi t' (h x)).
  { induction is_ as [|i is_ IH]; intros ts Et; cbn [mapM] in *; [injection Et as <-; exists []; repeat split; try constructor; intros [|j]; discriminate|]. apply bind_ok in Et as (t & Et & E1). apply bind_ok in E1 as (ts1 & E1 & E2). injection E2 as <-.
    assert (Ib : incl (bootstrap pick (Z.of_nat i) data) data) by apply rearrange_incl.
    assert (Eb : bootstrap pick (Z.of_nat i) (map h data) = map h (bootstrap pick (Z.of_nat i) data)) by (unfold bootstrap; rewrite map_length; apply rearrange_map).
    destruct (build_through shape h Hk entropy mid He Hm rarr param false Hr fuel _ _ no_condition t (tab_incl _ _ _ Ib T) (same_order_incl shape h _ _ Ib O) no_condition_same Et) as (t' & Et' & S & _ & _ & A). rewrite Eb, Et'. cbn [bind].
    destruct (IH ts1 E1) as (ts1' & E1' & S1 & A1). rewrite E1'. cbn [bind]. eexists. split; [reflexivity|]. split; [constructor; assumption|].
    intros [|j] i0 t0 t0' x Hi Ht Ht' Hx mi; cbn in Hi, Ht, Ht'; [|eapply A1; eassumption]. injection Hi as <-. injection Ht as <-. injection Ht' as <-. apply (whole_answers h _ t t' Hk A x Hx). }
  destruct (K (seq 0 size) new E) as (new' & E' & S & A). rewrite E'. cbn [bind]. exists new'. split; [reflexivity|]. split; [exact S|]. intros i t t' x Ht Ht' Hx mi. refine (A i i t t' x _ Ht Ht' Hx mi).
  assert (L : i < length (seq 0 size)). { assert (LL : length new = length (seq 0 size)) by (clear -E; revert new E; induction (seq 0 size) as [|a l IH]; intros new E; cbn [mapM] in E; [injection E as <-; reflexivity|]; apply bind_ok in E as (t & _ & E); apply bind_ok in E as (ts & E1 & E); injection E as <-; cbn; rewrite (IH ts E1); reflexivity). rewrite <- LL. apply nth_error_Some. congruence. }
  rewrite seq_length in L. rewrite (nth_error_nth' _ 0) by (rewrite seq_length; exact L). rewrite seq_nth by exact L. reflexivity.
Qed.
Lemma combine_nth_error {A B} : forall (l : list A) (l' : list B) k a b, nth_error l k = Some a -> nth_error l' k = Some b -> nth_error (combine l l') k = Some (a, b).
Proof. induction l as [|x l IH]; intros [|y l'] [|k] a b E E'; try discriminate; cbn in *; [congruence|auto]. Qed.
(** Increasing functions, one for each feature, keep the order. *)
Theorem C156_increasing : forall shape f data, (forall k a b, (a <= b)%Q <-> (f k a <= f k b)%Q) -> tabular shape data -> keeps_labels (renumber f) /\ same_order shape (renumber f) data.
Proof.
  intros shape f data Hf T. split; [intros x; split; reflexivity|].
  assert (N : forall x k, nth_error (attrs (renumber f x)) k = option_map (fun a => match a with ACont (Fin q) => ACont (Fin (f k q)) | a => a end) (nth_error (attrs x) k)).
  { intros x k. unfold renumber. cbn [attrs]. rewrite nth_error_map. destruct (nth_error (attrs x) k) as [a|] eqn:E.
    - assert (L : k < length (attrs x)) by (apply nth_error_Some; congruence). rewrite (combine_nth_error (seq 0 (length (attrs x))) (attrs x) k k a); [cbn; destruct a as [| | |[| | |]]; reflexivity| |exact E]. rewrite (nth_error_nth' _ 0) by (rewrite seq_length; exact L). rewrite seq_nth by exact L. reflexivity.
    - replace (nth_error (combine (seq 0 (length (attrs x))) (attrs x)) k) with (@None (nat * attr)); [reflexivity|]. symmetry. apply nth_error_None. rewrite combine_length, seq_length. apply nth_error_None in E. lia. }
  unfold tabular in T. rewrite Forall_forall in T.
  split.
  - intros x Hx. specialize (T x Hx). unfold typed in *. apply HeapProofs.Forall2_nth; [unfold renumber; cbn [attrs]; rewrite map_length, combine_length, seq_length, Nat.min_id; exact (Forall2_len _ _ _ T)|].
    intros k kd a Hkd Ha. rewrite N in Ha. destruct (nth_error (attrs x) k) as [a0|] eqn:E; [|discriminate Ha]. injection Ha as <-. pose proof (Forall2_nth _ _ _ _ _ _ T Hkd E) as H. destruct kd; cbn [has_kind] in *; destruct H as (v & H); try (rewrite H; eexists; reflexivity). destruct H as (i & ->). do 2 eexists. reflexivity.
  - split.
    + intros x k Hx Hn. rewrite N. destruct (nth_error (attrs x) k) as [a|] eqn:E; [|reflexivity]. cbn [option_map]. f_equal. specialize (T x Hx). assert (exists kd, nth_error shape k = Some kd) as (kd & Ek).
      { destruct (nth_error shape k) eqn:E'; [eexists; reflexivity|]. apply nth_error_None in E'. rewrite (Forall2_len _ _ _ T) in E'. assert (k < length (attrs x)) by (apply nth_error_Some; congruence). lia. }
      pose proof (Forall2_nth _ _ _ _ _ _ T Ek E) as H. destruct kd; cbn [has_kind] in H; [destruct H as (v & ->)|destruct H as (v & ->)|destruct H as (v & i & ->)|congruence]; reflexivity.
    + intros x y k u v u' v' Hx Hy Eu Ev Eu' Ev'. rewrite N, Eu in Eu'. rewrite N, Ev in Ev'. injection Eu' as <-. injection Ev' as <-. apply Hf.
Qed.
(** Not for new queries: the cut is half way between two numbers, and this changes. *)
Definition squash (q : Q) : Q := if Qle_bool q 6 then q / 6 else q.
Definition ends : ilist := [pt "a" 0; pt "b" 10].
Lemma squash_order a b : (a <= b)%Q <-> (squash a <= squash b)%Q.
Proof.
  unfold squash. destruct (Qle_bool a 6) eqn:A; destruct (Qle_bool b 6) eqn:B; try (apply Qle_bool_iff in A); try (apply Qle_bool_iff in B);
    try (assert (6 < a)%Q by (apply Qnot_le_lt; intros H; apply Qle_bool_iff in H; congruence)); try (assert (6 < b)%Q by (apply Qnot_le_lt; intros H; apply Qle_bool_iff in H; congruence));
    assert (Ea : (a / 6 == a * (1#6))%Q) by (field); assert (Eb : (b / 6 == b * (1#6))%Q) by field; rewrite ?Ea, ?Eb; split; intros; lra.
Qed.
Theorem C156_query_refuted : exists f data t t' x, (forall k a b, (a <= b)%Q <-> (f k a <= f k b)%Q) /\ tabular [KCont] data /\ typed [KCont] x /\
  tree_train ex_max ex_entropy ex_mid ex_rarr false d0 0 5 data = Ok t /\ tree_train ex_max ex_entropy ex_mid ex_rarr false d0 0 5 (map (renumber f) data) = Ok t' /\
  tree_predict ex_max t x = Ok "b" /\ tree_predict ex_max t' (renumber f x) = Ok "a".
Proof.
  exists (fun _ => squash), ends. do 2 eexists. exists (pt "" 6). split; [intros _; apply squash_order|]. split; [repeat constructor; eexists; reflexivity|]. split; [repeat constructor; eexists; reflexivity|]. split; [vm_compute; reflexivity|]. split; [vm_compute; reflexivity|]. split; vm_compute; reflexivity.
Qed.
(** Nor for pruned trees and for bagging on the training data: an instance that did not take part in growing the tree is like a new query. *)
Definition middle : ilist := [pt "a" 0; pt "b" 6; pt "b" 10].
Theorem C156_bagging_refuted : exists f data forest forest' x, (forall k a b, (a <= b)%Q <-> (f k a <= f k b)%Q) /\ tabular [KCont] data /\ In x data /\
  ensemble_train ex_entropy ex_mid ex_rarr (fun _ _ => [0; 2; 2]) None 1 5 [] data = Ok forest /\ ensemble_train ex_entropy ex_mid ex_rarr (fun _ _ => [0; 2; 2]) None 1 5 [] (map (renumber f) data) = Ok forest' /\
  ensemble_predict ex_max forest x = Ok "b" /\ ensemble_predict ex_max forest' (renumber f x) = Ok "a".
Proof.
  exists (fun _ => squash), middle. do 2 eexists. exists (pt "b" 6). split; [intros _; apply squash_order|]. split; [repeat constructor; eexists; reflexivity|]. split; [right; left; reflexivity|]. split; [vm_compute; reflexivity|]. split; [vm_compute; reflexivity|]. split; vm_compute; reflexivity.
Qed.
Definition held : ilist := [pt "a" 1; pt "b" 6; pt "a" 0; pt "b" 10].
Theorem C156_pruned_refuted : exists f data t t' x, (forall k a b, (a <= b)%Q <-> (f k a <= f k b)%Q) /\ tabular [KCont] data /\ In x data /\
  tree_train ex_max ex_entropy ex_mid ex_rarr true (Fin (1#2)) 0 5 data = Ok t /\ tree_train ex_max ex_entropy ex_mid ex_rarr true (Fin (1#2)) 0 5 (map (renumber f) data) = Ok t' /\
  tree_predict ex_max t x <> tree_predict ex_max t' (renumber f x) /\ ~ same_tree t t'.
Proof.
  exists (fun _ => squash), held. do 2 eexists. exists (pt "b" 6). split; [intros _; apply squash_order|]. split; [repeat constructor; eexists; reflexivity|]. split; [right; left; reflexivity|]. split; [vm_compute; reflexivity|]. split; [vm_compute; reflexivity|]. split; [vm_compute; discriminate|]. intros H. inversion H.
Qed.
(** A tree on a number and a text, both ways. *)
Definition rank2 : ilist := [mkInst "a" [ADisc "u"; ACont (Fin 1)] None; mkInst "b" [ADisc "u"; ACont (Fin 6)] None; mkInst "a" [ADisc "u"; ACont (Fin 9)] None; mkInst "c" [ADisc "v"; ACont (Fin 6)] None].
Example C156_case : tabular [KDisc; KCont] rank2 /\ exists t t', tree_train ex_max ex_entropy ex_mid ex_rarr false d0 0 5 rank2 = Ok t /\ tree_train ex_max ex_entropy ex_mid ex_rarr false d0 0 5 (map (renumber (fun _ => squash)) rank2) = Ok t' /\ t <> t' /\
  map (tree_predict ex_max t) rank2 = [Ok "a"; Ok "b"; Ok "a"; Ok "c"] /\ map (tree_predict ex_max t') (map (renumber (fun _ => squash)) rank2) = [Ok "a"; Ok "b"; Ok "a"; Ok "c"].
Proof. split; [repeat constructor; eexists; reflexivity|]. do 2 eexists. split; [vm_compute; reflexivity|]. split; [vm_compute; reflexivity|]. split; [discriminate|]. split; vm_compute; reflexivity. Qed.
Print Assumptions C156_tree.
Print Assumptions C156_stump.
Print Assumptions C156_accuracy.
Print Assumptions C156_ensemble.
Print Assumptions C156_increasing.
Print Assumptions C156_query_refuted.
Print Assumptions C156_bagging_refuted.
Print Assumptions C156_pruned_refuted.
