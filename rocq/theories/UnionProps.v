(** C164: putting training data together. *)
From Coq Require Import String ZArith QArith Bool Lia Permutation Sorted Arith List.
From Verif Require Import Base BaseLemmas SortLemmas Spec AttrModel InstanceListModel ListProofs DistanceModel DistanceSpec DistanceProofs TreeModel TreeProps GaussianModel LibModel PerformanceProofs NearProofs NearProps UnionProofs.
From Verif Require DistanceProps CoincideProofs.
Import ListNotations.
Local Open Scope string_scope.
Local Open Scope list_scope.
Local Open Scope nat_scope.

Lemma distances_incl dist q l l' d : distances dist q l d -> incl l' l -> distances dist q l' d.
Proof. intros H I x Hx. apply H, I, Hx. Qed.
Lemma eligible_P dist q l d : distances dist q l d -> Forall (fun x => is_nan (d x) = false) (filter (eligible q) l).
Proof. intros H. apply (numbers dist q l d); [exact H|intros x Hx; exact Hx]. Qed.
Lemma nearest_form dist q l d k : distances dist q l d -> nearest dist l k q = Ok (firstn (Z.to_nat k) (ssort (nearer d) (filter (eligible q) l))).
Proof. apply nearest_total. Qed.
Lemma nearest_incl dist l k q ns : nearest dist l k q = Ok ns -> incl ns l /\ filter (eligible q) ns = ns.
Proof.
  intros E. assert (H : forall x, In x ns -> In x l /\ eligible q x = true) by (intros x Hx; rewrite eligible_iff; exact (DistanceProps.C48_training_label dist l k q ns E x Hx)).
  split; [intros x Hx; apply H, Hx|]. clear E. induction ns as [|x ns IH]; [reflexivity|]. cbn [filter]. rewrite (proj2 (H x (or_introl eq_refl))). f_equal. apply IH. intros y Hy. apply H. right. exact Hy.
Qed.
(** The neighbours in data put together from parts, also in their order, are the neighbours among the neighbours in the parts. *)
Theorem C164_neighbours : forall dist q k d parts nss, distances dist q (concat parts) d -> Forall2 (fun l ns => nearest dist l k q = Ok ns) parts nss ->
  nearest dist (concat parts) k q = nearest dist (concat nss) k q /\
  knn_predict dist (concat parts) k q = knn_predict dist (concat nss) k q /\ knn_probability dist (concat parts) k q = knn_probability dist (concat nss) k q.
Proof.
  intros dist q k d parts nss H F. assert (E : nearest dist (concat parts) k q = nearest dist (concat nss) k q); [|split; [exact E|apply same_neighbours, E]].
  induction F as [|l ns parts nss E F IH]; [reflexivity|]. cbn [concat] in *.
  assert (Hl : distances dist q l d) by (apply (distances_incl _ _ _ _ _ H), incl_appl, incl_refl). assert (Hp : distances dist q (concat parts) d) by (apply (distances_incl _ _ _ _ _ H), incl_appr, incl_refl).
  specialize (IH Hp). assert (Hn : distances dist q (concat nss) d).
  { apply (distances_incl _ _ _ _ _ Hp). clear -F. induction F as [|l ns parts nss E F IH]; [apply incl_refl|]. cbn [concat]. apply incl_app; [apply incl_appl, (nearest_incl _ _ _ _ _ E)|apply incl_appr, IH]. }
  pose proof (nearest_incl _ _ _ _ _ E) as (I & FE). assert (Hs : distances dist q ns d) by (apply (distances_incl _ _ _ _ _ Hl), I).
  assert (Ha : distances dist q (ns ++ concat nss) d) by (intros x Hx; apply in_app_or in Hx as [Hx|Hx]; [apply Hs|apply Hn]; exact Hx).
  rewrite (nearest_form _ _ _ _ _ H), (nearest_form _ _ _ _ _ Ha), !filter_app. rewrite (nearest_form _ _ _ _ _ Hp), (nearest_form _ _ _ _ _ Hn) in IH. injection IH as IH. rewrite (nearest_form _ _ _ _ _ Hl) in E. injection E as E.
  rewrite (first_of_two _ _ (nearer_swo d)) by (eapply eligible_P; eassumption). rewrite (first_of_two _ _ (nearer_swo d) _ (filter (eligible q) ns)) by (eapply eligible_P; eassumption).
  rewrite IH, E, FE. do 3 f_equal. f_equal.
  (* the neighbours are sorted and not more than k *)
  pose proof (ssort_sorted _ _ (nearer_swo d) _ (eligible_P _ _ _ _ Hl)) as S. assert (Ps : Forall (fun x => is_nan (d x) = false) ns) by (rewrite <- FE; eapply eligible_P; exact Hs).
  assert (Sn : StronglySorted (fun a b => nearer d b a = false) ns).
  { rewrite <- E. clear -S. generalize dependent (ssort (nearer d) (filter (eligible q) l)). generalize (Z.to_nat k). intros n s. revert n. induction s as [|x s IH]; intros n S; [rewrite firstn_nil; constructor|]. destruct n; [constructor|].
    cbn [firstn]. apply StronglySorted_inv in S as (S1 & S2). constructor; [apply IH, S1|]. rewrite <- (firstn_skipn n s) in S2. apply Forall_app in S2. tauto. }
  assert (G : ssort (nearer d) ns = ns).
  { clear -Sn. induction ns as [|x ns IH]; [reflexivity|]. apply StronglySorted_inv in Sn as (S1 & S2). change (ssort (nearer d) (x :: ns)) with (sinsert (nearer d) x (ssort (nearer d) ns)). rewrite (IH S1). destruct ns as [|y ns]; [reflexivity|]. cbn [sinsert]. inversion S2; subst. rewrite H1. reflexivity. }
  rewrite G. symmetry. apply firstn_all2. rewrite <- E. rewrite firstn_length. lia.
Qed.
(** Asking fewer neighbours gives the first of them. *)
Theorem C164_fewer : forall dist q d l k k' ns, distances dist q l d -> nearest dist l k q = Ok ns -> (k' <= k)%Z -> nearest dist l k' q = Ok (firstn (Z.to_nat k') ns).
Proof.
  intros dist q d l k k' ns H E L. rewrite (nearest_form _ _ _ _ k H) in E. rewrite (nearest_form _ _ _ _ k' H). injection E as <-. rewrite firstn_firstn. do 2 f_equal. lia.
Qed.
(** Parts that answer unanimously and alike do so together. *)
Theorem C164_unanimous : forall dist q k d parts nss c, distances dist q (concat parts) d -> Forall2 (fun l ns => nearest dist l k q = Ok ns) parts nss ->
  concat nss <> [] -> Forall (Forall (fun n => label n = c)) nss ->
  knn_predict dist (concat parts) k q = Ok c /\ exists ns, nearest dist (concat parts) k q = Ok ns /\ ns <> [] /\ Forall (fun n => label n = c) ns.
Proof.
  intros dist q k d parts nss c H F N U. pose proof (C164_neighbours dist q k d parts nss H F) as (E & _).
  assert (I : incl (concat nss) (concat parts) /\ filter (eligible q) (concat nss) = concat nss).
  { clear -F. induction F as [|l ns parts nss E F (I1 & I2)]; [split; [apply incl_refl|reflexivity]|]. cbn [concat]. pose proof (nearest_incl _ _ _ _ _ E) as (J1 & J2). rewrite filter_app, I2, J2. split; [|reflexivity].
    apply incl_app; [apply incl_appl, J1|apply incl_appr, I1]. }
  destruct I as (I & FE). assert (Hn : distances dist q (concat nss) d) by (apply (distances_incl _ _ _ _ _ H), I). rewrite (nearest_form _ _ _ _ _ Hn), FE in E.
  assert (K : 0 < Z.to_nat k).
  { destruct (Nat.eq_dec (Z.to_nat k) 0) as [Z|]; [|lia]. exfalso. apply N. clear -F Z. induction F as [|l ns parts nss E F IH]; [reflexivity|]. cbn [concat]. rewrite IH, app_nil_r. unfold nearest in E. apply bind_ok in E as (ds & _ & E). apply bind_ok in E as (s & _ & E). injection E as <-. rewrite Z. reflexivity. }
  set (ns := firstn (Z.to_nat k) (ssort (nearer d) (concat nss))) in *.
  assert (UC : Forall (fun n => label n = c) ns).
  { assert (UA : Forall (fun n => label n = c) (concat nss)) by (clear -U; induction U as [|a l A _ IH]; [constructor|]; cbn [concat]; apply Forall_app; split; assumption).
    assert (UB' : Forall (fun n => label n = c) (ssort (nearer d) (concat nss))) by (apply (Permutation_Forall (ssort_perm _ _)), UA). rewrite <- (firstn_skipn (Z.to_nat k)) in UB'. apply Forall_app in UB'. tauto. }
  assert (NN : ns <> []).
  { intros Z. apply (f_equal (@length instance)) in Z. unfold ns in Z. rewrite firstn_length, <- (Permutation_length (ssort_perm (nearer d) (concat nss))) in Z. destruct (concat nss); [congruence|cbn in Z; lia]. }
  split; [|exists ns; split; [exact E|split; assumption]]. unfold knn_predict. rewrite E. cbn [bind]. destruct ns as [|n ns']; [congruence|]. cbn [length Nat.eqb]. rewrite andb_false_r. f_equal. unfold class_labels.
  assert (M : map label (n :: ns') = repeat c (S (length ns'))).
  { clear -UC. change (S (length ns')) with (length (n :: ns')). induction UC as [|x l A _ IH]; [reflexivity|]. cbn [map length repeat]. rewrite A, IH. reflexivity. }
  rewrite M. apply CoincideProofs.votes_one.
Qed.
(** The class distribution of data put together is the sum. *)
Theorem C164_counts : forall l1 l2 c, ccount (class_distribution (l1 ++ l2)) c = ccount (class_distribution l1) c + ccount (class_distribution l2) c.
Proof. intros l1 l2 c. rewrite !class_distribution_cofl, map_app, !ccount_cofl. apply count_occ_app. Qed.
(** A mere majority in each of two parts may be lost. *)
Theorem C164_knn_refuted : exists l1 l2 q, knn_predict eucl l1 3 q = Ok "b" /\ knn_predict eucl l2 3 q = Ok "b" /\ knn_predict eucl (l1 ++ l2) 3 q = Ok "a".
Proof. exists [pt "a" 1; pt "b" 4; pt "b" 5], [pt "b" 7; pt "a" 2; pt "b" 6], (pt "?" 0). repeat split; vm_compute; reflexivity. Qed.
(** So may the nearer mean: it depends on how many instances of either class the parts have. *)
Theorem C164_kmeans_refuted : exists l1 l2 q m1 m2 m, kmeans_train (mkKM [] []) l1 = Ok m1 /\ kmeans_train (mkKM [] []) l2 = Ok m2 /\ kmeans_train (mkKM [] []) (l1 ++ l2) = Ok m /\
  kmeans_predict eucl m1 q = Ok "a" /\ kmeans_predict eucl m2 q = Ok "a" /\ kmeans_predict eucl m q = Ok "b".
Proof. exists [pt "a" 2; pt "a" 2; pt "b" 3; pt "a" 2], [pt "b" (-3); pt "a" (-1)], (pt "?" 0). do 3 eexists. repeat (split; [vm_compute; reflexivity|]). vm_compute. reflexivity. Qed.
(** So may the answer of a decision tree, even if one part has only the answered class. *)
Theorem C164_tree_refuted : exists l1 l2 q t1 t2 t, tree_train ex_max ex_entropy ex_mid ex_rarr false (Fin (1#5)) 1 9 l1 = Ok t1 /\ tree_train ex_max ex_entropy ex_mid ex_rarr false (Fin (1#5)) 1 9 l2 = Ok t2 /\
  tree_train ex_max ex_entropy ex_mid ex_rarr false (Fin (1#5)) 1 9 (l1 ++ l2) = Ok t /\ tree_predict ex_max t1 q = Ok "b" /\ tree_predict ex_max t2 q = Ok "b" /\ tree_predict ex_max t q = Ok "a".
Proof. exists [two "a" 0 0; two "b" 10 10], [two "b" (-5) 10], (two "" 6 0). do 3 eexists. repeat (split; [vm_compute; reflexivity|]). vm_compute. reflexivity. Qed.

Example C164_case : let l1 := [pt "a" 1; pt "b" 4; pt "a" 1] in let l2 := [pt "b" 7; pt "c" 1; pt "b" 2] in let q := pt "?" 0 in
  nearest eucl l1 2 q = Ok [pt "a" 1; pt "a" 1] /\ nearest eucl l2 2 q = Ok [pt "c" 1; pt "b" 2] /\ nearest eucl (l1 ++ l2) 2 q = Ok [pt "a" 1; pt "a" 1] /\
  nearest eucl (l2 ++ l1) 2 q = Ok [pt "c" 1; pt "a" 1] /\ nearest eucl ([pt "c" 1; pt "b" 2] ++ [pt "a" 1; pt "a" 1]) 2 q = Ok [pt "c" 1; pt "a" 1] /\
  exists d, distances eucl q (concat [l1; l2]) d.
Proof.
  cbv zeta. repeat (split; [vm_compute; reflexivity|]). exists (fun x => match eucl x (pt "?" 0) with Ok v => v | _ => NaN end). intros x Hx _. cbn [concat app In] in Hx.
  repeat (destruct Hx as [<-|Hx]; [split; vm_compute; reflexivity|]). destruct Hx.
Qed.
Print Assumptions C164_neighbours.
Print Assumptions C164_fewer.
Print Assumptions C164_unanimous.
Print Assumptions C164_counts.
Print Assumptions C164_knn_refuted.
Print Assumptions C164_kmeans_refuted.
Print Assumptions C164_tree_refuted.
