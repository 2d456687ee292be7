(** C155: a tree does not look beyond the values it was trained on. *)
From Coq Require Import String ZArith QArith Bool Lia Lqa Permutation List.
From Verif Require Import Base Spec BaseLemmas DblLemmas AttrModel AttrProofs InstanceListModel PartitionModel PerformanceModel ListSpec PartitionProofs DistanceModel GaussianModel GaussianProps DiscrimSpec
  TreeModel TreeSpec TreeProofs TreePredictProofs TreeGrowProofs EnsembleModel TreeProps RenameProofs EnsembleProofs CoincideProofs BeyondSpec BeyondProofs RegionProps.
Import ListNotations.
Local Open Scope string_scope.
Local Open Scope list_scope.
Local Open Scope nat_scope.

(** Decision trees, pruned or not: two queries that differ only by values outside of what was met in training get the same answer
    and the same probabilities. *)
Theorem C155_tree : forall mi entropy mid rarr prune ratio seed fuel shape data t x y, entropy_finite entropy -> mid_exact mid -> rarr_perm rarr -> tabular shape data ->
  tree_train mi entropy mid rarr prune (Fin ratio) seed fuel data = Ok t -> alike data x y ->
  forall mi', tree_predict mi' t x = tree_predict mi' t y /\ node_probability t x = node_probability t y.
Proof.
  intros mi entropy mid rarr prune ratio seed fuel shape data t x y He Hm Hr T E A mi'. apply (tree_alike mi' data); [|exact A]. unfold tree_train in E. destruct prune; [|exact (proj1 (build_met entropy mid rarr shape He Hm Hr _ _ _ _ _ _ T E))].
  destruct (part_strat_spec rarr ratio seed data (Hr _ _)) as (g0 & g1 & Eg & P & _). rewrite Eg in E. cbn [bind] in E. change (atn [g0; g1] 1) with (Ok g1 : res ilist) in E. change (atn [g0; g1] 0) with (Ok g0 : res ilist) in E. cbn [bind] in E.
  apply bind_ok in E as (t0 & E0 & E). assert (I1 : incl g1 data) by (intros z Hz; apply (Permutation_in _ P), in_app_iff; right; exact Hz).
  apply (pruned_met data t0 t (proj1 (prune_node_ok _ _ _ _ _ E))). apply (conds_met_incl g1 data I1). exact (proj1 (build_met entropy mid rarr shape He Hm Hr _ _ _ _ _ _ (tab_incl _ _ _ I1 T) E0)).
Qed.
Theorem C155_stump : forall entropy mid rarr fuel shape data t x y, entropy_finite entropy -> mid_exact mid -> rarr_perm rarr -> tabular shape data ->
  stump_train entropy mid rarr fuel data = Ok t -> alike data x y -> forall mi', tree_predict mi' t x = tree_predict mi' t y /\ node_probability t x = node_probability t y.
Proof. intros entropy mid rarr fuel shape data t x y He Hm Hr T E A mi'. apply (tree_alike mi' data); [|exact A]. exact (proj1 (build_met entropy mid rarr shape He Hm Hr _ _ _ _ _ _ T E)). Qed.
(** Bagging and random forests, whatever instances are drawn for a tree. *)
Theorem C155_ensemble : forall entropy mid rarr pick param size fuel shape data forest x y, entropy_finite entropy -> mid_exact mid -> rarr_perm rarr -> tabular shape data ->
  ensemble_train entropy mid rarr pick param size fuel [] data = Ok forest -> alike data x y ->
  forall mi, ensemble_predict mi forest x = ensemble_predict mi forest y /\ ensemble_probability mi forest x = ensemble_probability mi forest y.
Proof.
  intros entropy mid rarr pick param size fuel shape data forest x y He Hm Hr T E A mi. unfold ensemble_train in E. apply bind_ok in E as (new & E & Ef). injection Ef as <-. cbn [app].
  assert (V : votes mi new x = votes mi new y).
  { unfold votes. revert new E. induction (seq 0 size) as [|i is_ IH]; intros new E; cbn [mapM] in E; [injection E as <-; reflexivity|]. apply bind_ok in E as (t & Et & E). apply bind_ok in E as (ts & Ets & E). injection E as <-. cbn [mapM].
    assert (Ib : incl (bootstrap pick (Z.of_nat i) data) data) by apply rearrange_incl.
    destruct (build_met entropy mid rarr shape He Hm Hr param false _ _ _ _ (tab_incl _ _ _ Ib T) Et) as [M _]. rewrite (proj1 (tree_alike mi data t x y (conds_met_incl _ _ Ib t M) A)). rewrite (IH ts Ets). reflexivity. }
  unfold ensemble_predict, ensemble_probability. rewrite V. split; reflexivity.
Qed.
(** so numbers can be brought into the range met in training before the question is asked *)
Definition clamp (lo hi : Q) (p : dbl) : dbl := if dltb p (Fin lo) then Fin lo else if dltb (Fin hi) p then Fin hi else p.
Theorem C155_clamp : forall mi entropy mid rarr prune ratio seed fuel shape data t lo hi pre post p lab ls,
  entropy_finite entropy -> mid_exact mid -> rarr_perm rarr -> tabular shape data -> tree_train mi entropy mid rarr prune (Fin ratio) seed fuel data = Ok t ->
  (forall v, met data (length pre) (ACont (Fin v)) -> (lo <= v <= hi)%Q) ->
  tree_predict mi t (mkInst lab (pre ++ ACont p :: post) ls) = tree_predict mi t (mkInst lab (pre ++ ACont (clamp lo hi p) :: post) ls).
Proof.
  intros mi entropy mid rarr prune ratio seed fuel shape data t lo hi pre post p lab ls He Hm Hr T E R. apply (C155_tree mi entropy mid rarr prune ratio seed fuel shape data t _ _ He Hm Hr T E).
  split; [reflexivity|]. cbn [attrs]. split; [rewrite !app_length; reflexivity|]. intros k a b Ea Eb. destruct (Nat.lt_trichotomy k (length pre)) as [L|[->|L]].
  - rewrite nth_error_app1 in Ea, Eb by exact L. left. congruence.
  - rewrite nth_error_app2 in Ea, Eb by lia. rewrite Nat.sub_diag in Ea, Eb. cbn in Ea, Eb. injection Ea as <-. injection Eb as <-. unfold clamp. destruct (dltb p (Fin lo)) eqn:E1; [right|destruct (dltb (Fin hi) p) eqn:E2; [right|left; reflexivity]].
    + left. do 2 eexists. split; [reflexivity|]. split; [reflexivity|]. left. split; intros v Hv; destruct (R v Hv) as [R1 R2]; [|apply dleb_fin, R1]. destruct p as [p| | |]; try discriminate E1; [|reflexivity]. apply dltb_fin in E1. apply dleb_fin. lra.
    + left. do 2 eexists. split; [reflexivity|]. split; [reflexivity|]. right. split; intros v Hv; destruct (R v Hv) as [R1 R2]; [|apply dleb_fin, R2]. destruct p as [p| | |]; try discriminate E2; [|reflexivity]. apply dltb_fin in E2. apply dleb_fin. lra.
  - rewrite nth_error_app2 in Ea, Eb by lia. destruct (k - length pre) as [|n] eqn:En; [lia|]. cbn in Ea, Eb. left. congruence.
Qed.
(** The nearest neighbour and the quadratic discriminant go on outside of the data. *)
Lemma low_alike l k p q : (forall v, met l k (ACont (Fin v)) -> (v <= p /\ v <= q)%Q) -> beyond l k (ACont (Fin p)) (ACont (Fin q)).
Proof. intros H. left. exists (Fin p), (Fin q). split; [reflexivity|]. split; [reflexivity|]. right. split; intros v Hv; apply dleb_fin; apply (H v Hv). Qed.
Definition two_rows : ilist := [mkInst "a" [ACont (Fin 0); ACont (Fin 0)] None; mkInst "b" [ACont (Fin 1); ACont (Fin 10)] None].
Theorem C155_knn_refuted : exists l x y, tabular [KCont; KCont] l /\ alike l x y /\ knn_predict eucl l 1 x = Ok "a" /\ knn_predict eucl l 1 y = Ok "b".
Proof.
  exists two_rows, (mkInst "" [ACont (Fin 1); ACont (Fin 4)] None), (mkInst "" [ACont (Fin 100); ACont (Fin 4)] None). split; [repeat constructor; eexists; reflexivity|]. split; [|split; vm_compute; reflexivity].
  split; [reflexivity|]. split; [reflexivity|]. intros [|[|k]] a b Ea Eb; cbn in Ea, Eb; [| |destruct k; discriminate Ea]; injection Ea as <-; injection Eb as <-; [right|left; reflexivity].
  apply low_alike. intros v (x & [<-|[<-|[]]] & Ex); cbn in Ex; injection Ex as <-; split; lra.
Qed.
Definition side : ilist := [pt "a" 10; pt "a" 12; pt "b" 0; pt "b" 8].
Theorem C155_qda_refuted : exists l m x y, tabular [KCont] l /\ alike l x y /\ qda_train inv1 (fun c => match c with [[v]] => v | _ => NaN end) rise qda_empty l = Ok m /\ qda_predict m x = Ok "a" /\ qda_predict m y = Ok "b".
Proof.
  exists side. eexists. exists (pt "" 12), (pt "" 40). split; [repeat constructor; eexists; reflexivity|]. split.
  - split; [reflexivity|]. split; [reflexivity|]. intros [|k] a b Ea Eb; [|destruct k; discriminate Ea]. injection Ea as <-. injection Eb as <-. right. apply low_alike. intros v (x & [<-|[<-|[<-|[<-|[]]]]] & Ex); cbn in Ex; injection Ex as <-; split; lra.
  - split; [vm_compute; reflexivity|split; vm_compute; reflexivity].
Qed.
(** A tree on a text, an indexed value and a number, and pairs of queries from outside. *)
Definition seen3 : ilist := [mkInst "a" [ADisc "u"; AIdx "p" 0 3; ACont (Fin 1)] None; mkInst "b" [ADisc "u"; AIdx "q" 1 3; ACont (Fin 5)] None; mkInst "c" [ADisc "v"; AIdx "p" 0 3; ACont (Fin 5)] None].
Example C155_case : exists t, tabular [KDisc; KIdx 3; KCont] seen3 /\ tree_train ex_max ex_entropy ex_mid ex_rarr false (Fin 0) 0 5 seen3 = Ok t /\
  tree_predict ex_max t (mkInst "" [ADisc "u"; AIdx "r" 2 3; ACont PInf] None) = tree_predict ex_max t (mkInst "" [ADisc "u"; AIdx "r" 2 3; ACont (Fin 5)] None) /\
  tree_predict ex_max t (mkInst "" [ADisc "u"; AIdx "p" 0 3; ACont NInf] None) = Ok "a" /\ tree_predict ex_max t (mkInst "" [ADisc "v"; AIdx "p" 0 3; ACont (Fin 5)] None) = Ok "c" /\
  alike seen3 (mkInst "" [ADisc "w"; AIdx "r" 2 3; ACont PInf] None) (mkInst "" [ADisc "z"; AIdx "r" 2 3; ACont (Fin 5)] None).
Proof.
  eexists. split; [repeat constructor; do 2 eexists; reflexivity || (eexists; reflexivity)|]. split; [vm_compute; reflexivity|]. split; [vm_compute; reflexivity|]. split; [vm_compute; reflexivity|]. split; [vm_compute; reflexivity|].
  split; [reflexivity|]. split; [reflexivity|]. intros [|[|[|k]]] a b Ea Eb; cbn in Ea, Eb; [| | |destruct k; discriminate Ea]; injection Ea as <-; injection Eb as <-; [right|left; reflexivity|right].
  - right. left. exists "w", "z". repeat (split; [reflexivity|]). split; intros (x & [<-|[<-|[<-|[]]]] & Ex); discriminate Ex.
  - left. exists PInf, (Fin 5). repeat (split; [reflexivity|]). right. split; intros v (x & [<-|[<-|[<-|[]]]] & Ex); injection Ex as <-; reflexivity.
Qed.
Print Assumptions C155_tree.
Print Assumptions C155_stump.
Print Assumptions C155_ensemble.
Print Assumptions C155_clamp.
Print Assumptions C155_knn_refuted.
Print Assumptions C155_qda_refuted.
