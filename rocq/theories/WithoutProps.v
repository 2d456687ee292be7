(** C168: leaving a class out of the training data. *)
From Coq Require Import String ZArith QArith Bool Lia Permutation Arith List.
From Verif Require Import Base Spec BaseLemmas AttrModel InstanceListModel ListSpec ListProofs PartitionModel PartitionProofs DistanceModel EnsembleModel GaussianModel GaussianProofs TreeModel TreeProps SvmTrainSpec NearProps WithoutProofs.
Import ListNotations.
Local Open Scope string_scope.
Local Open Scope list_scope.
Local Open Scope nat_scope.

(** Search for the best score (GaussianModel::predict): if the answer is not [c], it stays the answer when [c] is no longer among the
    counted classes and the scores of the other classes are what they were. *)
Theorem C168_best_score : forall prior metric metric' c q a, (forall x m, x <> c -> mmem x prior = true -> metric x = Ok m -> metric' x = Ok m) ->
  gauss_predict prior metric q = Ok a -> a <> c -> gauss_predict (filter (fun kv => negb (String.eqb (fst kv) c)) prior) metric' q = Ok a.
Proof. intros prior metric metric' c q a HM E N. exact (gauss_predict_without prior metric metric' c q a HM E N). Qed.
(** k-means: training without the class [c] works if training with it does, and every query (also a composite one) whose answer was not
    [c] is answered as before. *)
Theorem C168_kmeans : forall dist old old' l m c q a, kmeans_train old l = Ok m -> kmeans_predict dist m q = Ok a -> a <> c ->
  exists m', kmeans_train old' (filter (fun x => negb (String.eqb (label x) c)) l) = Ok m' /\ kmeans_predict dist m' q = Ok a.
Proof.
  intros dist old old' l m c q a Em Ea N. destruct (kmeans_without old old' l m c Em) as (m' & E' & Ep & HM). exists m'. split; [exact E'|]. unfold kmeans_predict in *. rewrite Ep. apply (gauss_predict_without (km_prior m) (kmeans_metric dist m q)); [|exact Ea|exact N].
  intros x v Hx _ Hv. rewrite HM by exact Hx. exact Hv.
Qed.
(** The other way round: a class that is added takes answers for itself only. *)
Theorem C168_added : forall dist old old' l m m' c q a a', kmeans_train old l = Ok m -> kmeans_train old' (filter (fun x => negb (String.eqb (label x) c)) l) = Ok m' ->
  kmeans_predict dist m q = Ok a -> kmeans_predict dist m' q = Ok a' -> a = a' \/ a = c.
Proof.
  intros dist old old' l m m' c q a a' Em Em' Ea Ea'. destruct (string_dec a c) as [H|N]; [right; exact H|left]. destruct (C168_kmeans dist old old' l m c q a Em Ea N) as (m2 & E2 & Ea2). rewrite E2 in Em'. injection Em' as ->. congruence.
Qed.
(** So several classes may go at once, as long as the answer is not among them. *)
Theorem C168_several : forall dist old cs l m q a, kmeans_train old l = Ok m -> kmeans_predict dist m q = Ok a -> ~ In a cs ->
  exists m', kmeans_train old (filter (fun x => negb (mem_str (label x) cs)) l) = Ok m' /\ kmeans_predict dist m' q = Ok a.
Proof.
  intros dist old cs. induction cs as [|c cs IH]; intros l m q a Em Ea N.
  - exists m. split; [|exact Ea]. replace (filter _ l) with l; [exact Em|]. symmetry. induction l as [|x l IH]; [reflexivity|]. cbn [filter mem_str existsb negb]. f_equal. clear. induction l as [|x l IH]; [reflexivity|]. cbn [filter mem_str existsb negb]. f_equal. exact IH.
  - destruct (C168_kmeans dist old old l m c q a Em Ea) as (m1 & E1 & Ea1); [intros ->; apply N; left; reflexivity|]. destruct (IH _ m1 q a E1 Ea1) as (m2 & E2 & Ea2); [intros H; apply N; right; exact H|].
    exists m2. split; [|exact Ea2]. rewrite <- E2. f_equal. clear. induction l as [|x l IH]; [reflexivity|]. cbn [filter]. unfold mem_str at 1. cbn [existsb]. fold (mem_str (label x) cs). destruct (String.eqb (label x) c); cbn [negb orb filter]; [exact IH|]. destruct (mem_str (label x) cs); cbn [negb]; [exact IH|]. f_equal. exact IH.
Qed.
(** The same for the dummy classifier on plain queries. *)
Theorem C168_dummy : forall max_item old l c q a, composite q = None -> dummy_predict max_item (dummy_train old l) q = a -> a <> c ->
  dummy_predict max_item (dummy_train old (filter (fun x => negb (String.eqb (label x) c)) l)) q = a.
Proof.
  intros max_item old l c q a Hq E N. unfold dummy_predict, dummy_train, isComposite in *. rewrite Hq in *. fold (without c l). rewrite prior_without, cmax_without; [exact E|congruence].
Qed.
(** Support vector machines: the two-class problem of every pair of other classes stays the same, vectors and signs. *)
Theorem C168_svm_pairs : forall a b c l, a <> c -> b <> c -> pair_vectors a b (filter (fun x => negb (String.eqb (label x) c)) l) = pair_vectors a b l /\ pair_signs a b (filter (fun x => negb (String.eqb (label x) c)) l) = pair_signs a b l.
Proof.
  intros a b c l Ha Hb. assert (M : forall x, x <> c -> members x (filter (fun x => negb (String.eqb (label x) c)) l) = members x l).
  { intros x Hx. unfold members. clear - Hx. induction l as [|y l IH]; [reflexivity|]. cbn [filter]. destruct (String.eqb_spec (label y) c) as [E|E]; cbn [negb filter]; rewrite IH; [|reflexivity]. destruct (String.eqb_spec (label y) x); [congruence|reflexivity]. }
  unfold pair_vectors, pair_signs, pair_problem. rewrite !M by assumption. split; reflexivity.
Qed.
(** It is false for nearest neighbours: the class takes places among the neighbours ... *)
Theorem C168_knn_refuted : exists l q, knn_predict eucl l 3 q = Ok "a" /\ knn_predict eucl (filter (fun x => negb (String.eqb (label x) "c")) l) 3 q = Ok "b".
Proof. exists [pt "a" 1; pt "c" 2; pt "b" 3; pt "b" 4], (pt "?" 0). split; vm_compute; reflexivity. Qed.
(** ... and for decision trees: the class decides which feature is asked. *)
Theorem C168_tree_refuted : exists l q t t', tree_train ex_max ex_entropy ex_mid ex_rarr false (Fin (1#5)) 1 9 l = Ok t /\ tree_train ex_max ex_entropy ex_mid ex_rarr false (Fin (1#5)) 1 9 (filter (fun x => negb (String.eqb (label x) "c")) l) = Ok t' /\
  tree_predict ex_max t q = Ok "a" /\ tree_predict ex_max t' q = Ok "b".
Proof. exists [two "a" 0 0; two "a" 0 0; two "b" 10 10; two "c" (-5) 10; two "c" 20 10], (two "" 6 0). do 2 eexists. repeat (split; [vm_compute; reflexivity|]). vm_compute. reflexivity. Qed.
Example C168_case : let l := [pt "a" 1; pt "c" 2; pt "b" 5; pt "c" 4] in exists m m', kmeans_train (mkKM [] []) l = Ok m /\ kmeans_train (mkKM [] []) (filter (fun x => negb (String.eqb (label x) "c")) l) = Ok m' /\
  kmeans_predict eucl m (pt "?" 6) = Ok "b" /\ kmeans_predict eucl m' (pt "?" 6) = Ok "b" /\ kmeans_predict eucl m (pt "?" (5 # 2)) = Ok "c" /\ kmeans_predict eucl m' (pt "?" (5 # 2)) = Ok "a".
Proof. cbv zeta. do 2 eexists. repeat (split; [vm_compute; reflexivity|]). vm_compute. reflexivity. Qed.
Print Assumptions C168_best_score.
Print Assumptions C168_kmeans.
Print Assumptions C168_added.
Print Assumptions C168_several.
Print Assumptions C168_dummy.
Print Assumptions C168_svm_pairs.
Print Assumptions C168_knn_refuted.
Print Assumptions C168_tree_refuted.
