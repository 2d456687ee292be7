(** * C143: what an answer of the nearest neighbour classifier depends on; adding evidence for an answer *)
From Coq Require Import String ZArith QArith Bool List Lia Permutation Sorted.
From Verif Require Import Base BaseLemmas SortLemmas Spec AttrModel InstanceListModel ListProofs DistanceModel DistanceSpec DistanceProofs EnsembleModel TreeModel GaussianModel LibModel TreeProps LibProps RenameProofs NearProofs.
From Verif Require HeapProofs ConstDistProofs CoincideProofs.
Import ListNotations.
Local Open Scope string_scope.
Local Open Scope list_scope.
Local Open Scope nat_scope.

Definition pt (l : string) (v : Q) : instance := mkInst l [ACont (Fin v)] None.
(** [d x] is the distance from [x] to the query, a number, for every training instance that may answer *)
Definition distances (dist : metric) (q : instance) (data : list instance) (d : instance -> dbl) : Prop :=
  forall x, In x data -> may_answer q x -> dist x q = Ok (d x) /\ is_nan (d x) = false.

Lemma same_neighbours dist data data' k q : nearest dist data' k q = nearest dist data k q ->
  knn_predict dist data' k q = knn_predict dist data k q /\ knn_probability dist data' k q = knn_probability dist data k q.
Proof. intros E. unfold knn_predict, knn_probability. rewrite E. split; reflexivity. Qed.
Lemma numbers dist q data d l : distances dist q data d -> (forall x, In x l -> In x (filter (eligible q) data)) -> Forall (fun x => is_nan (d x) = false) l.
Proof. intros H L. apply Forall_forall. intros x Hx. apply L, filter_In in Hx as (Hx & He). apply H; [exact Hx|apply eligible_iff, He]. Qed.
Lemma filter_swap {A} (f g : A -> bool) l : filter f (filter g l) = filter g (filter f l).
Proof. induction l as [|x l IH]; [reflexivity|]. cbn [filter]. destruct (g x) eqn:G, (f x) eqn:F; cbn [filter]; rewrite ?G, ?F, IH; reflexivity. Qed.
Definition nearer (d : instance -> dbl) (x y : instance) : bool := dltb (d x) (d y).
Lemma nearer_swo d : swo (fun x => is_nan (d x) = false) (nearer d).
Proof. apply (swo_key (fun v => is_nan v = false) dltb d), dltb_swo. Qed.

(** Training instances that are not among the neighbours of a query can be thrown away: the neighbours, the answer and the
    probabilities for this query stay. *)
Theorem C143_forget : forall dist data k q d ns keep, distances dist q data d -> nearest dist data k q = Ok ns -> (forall n, In n ns -> keep n = true) ->
  nearest dist (filter keep data) k q = Ok ns /\
  knn_predict dist (filter keep data) k q = knn_predict dist data k q /\ knn_probability dist (filter keep data) k q = knn_probability dist data k q.
Proof.
  intros dist data k q d ns keep H E K.
  assert (G : nearest dist (filter keep data) k q = Ok ns).
  { rewrite (nearest_total dist (filter keep data) k q d) by (intros x Hx; apply filter_In in Hx as (Hx & _); apply H, Hx).
    rewrite (nearest_total dist data k q d H) in E. injection E as <-. f_equal. fold (nearer d) in *. change (fun x y : instance => dltb (d x) (d y)) with (nearer d) in *.
    rewrite filter_swap, <- (filter_ssort _ (nearer d) (nearer_swo d)) by (apply (numbers dist q data d); [exact H|intros x Hx; exact Hx]).
    set (s := ssort (nearer d) (filter (eligible q) data)) in *. rewrite <- (firstn_skipn (Z.to_nat k) s) at 1. rewrite filter_app.
    assert (EF : filter keep (firstn (Z.to_nat k) s) = firstn (Z.to_nat k) s).
    { clear -K. induction (firstn (Z.to_nat k) s) as [|x l IH]; [reflexivity|]. cbn [filter]. rewrite (K x (or_introl eq_refl)). f_equal. apply IH. intros n Hn. apply K. right. exact Hn. }
    rewrite EF. destruct (Nat.le_gt_cases (length s) (Z.to_nat k)) as [L|L].
    - rewrite (skipn_all2 s L), (firstn_all2 s L). cbn [filter]. rewrite app_nil_r. apply firstn_all2, L.
    - rewrite firstn_app, firstn_firstn, Nat.min_id. rewrite (firstn_length_le s) by lia. rewrite Nat.sub_diag. cbn [firstn]. apply app_nil_r. }
  split; [exact G|]. apply same_neighbours. rewrite G, E. reflexivity.
Qed.
Print Assumptions C143_forget.
(** And instances farther away than all of the k neighbours can be added. *)
Theorem C143_far : forall dist data data' k q d ns keep, distances dist q data' d -> data = filter keep data' ->
  nearest dist data k q = Ok ns -> length ns = Z.to_nat k ->
  (forall x n, In x data' -> keep x = false -> may_answer q x -> In n ns -> dltb (d n) (d x) = true) ->
  nearest dist data' k q = Ok ns /\
  knn_predict dist data' k q = knn_predict dist data k q /\ knn_probability dist data' k q = knn_probability dist data k q.
Proof.
  intros dist data data' k q d ns keep H -> E L F.
  assert (G : nearest dist data' k q = Ok ns).
  { rewrite (nearest_total dist (filter keep data') k q d) in E by (intros x Hx; apply filter_In in Hx as (Hx & _); apply H, Hx). rewrite (nearest_total dist data' k q d H). injection E as E. f_equal.
    change (fun x y : instance => dltb (d x) (d y)) with (nearer d) in *. assert (N : Forall (fun x => is_nan (d x) = false) (filter (eligible q) data')) by (apply (numbers dist q data' d); [exact H|intros x Hx; exact Hx]).
    rewrite filter_swap, <- (filter_ssort _ (nearer d) (nearer_swo d)) in E by exact N. set (s := ssort (nearer d) (filter (eligible q) data')) in *.
    destruct (kept_first (nearer d) keep ns s (skipn (Z.to_nat k) (filter keep s))) as (rest & Es).
    - apply (ssort_sorted _ _ (nearer_swo d)), N.
    - rewrite <- E. symmetry. apply firstn_skipn.
    - intros x n Hx Hk Hn. apply (Permutation_in x (Permutation_sym (ssort_perm _ _))) in Hx. apply filter_In in Hx as (Hx & He). apply F; try assumption. apply eligible_iff, He.
    - rewrite Es, firstn_app, <- L, Nat.sub_diag, firstn_all. cbn [firstn]. apply app_nil_r. }
  split; [exact G|]. apply same_neighbours. rewrite G, E. reflexivity.
Qed.
Print Assumptions C143_far.
(** At the same distance as a neighbour the earlier one wins, so "farther" is needed. *)
Theorem C143_tie_refuted : exists data data' k q keep, data = filter keep data' /\ knn_predict eucl data k q = Ok "b" /\ knn_predict eucl data' k q = Ok "a" /\
  forall x n, In x data' -> keep x = false -> nearest eucl data k q = Ok [n] -> eucl x q = eucl n q.
Proof.
  exists [pt "b" 1], [pt "a" 1; pt "b" 1], 1%Z, (pt "" 0), (fun x => String.eqb (label x) "b"). split; [reflexivity|]. split; [vm_compute; reflexivity|]. split; [vm_compute; reflexivity|].
  intros x n [<-|[<-|[]]] K E; [|discriminate K]. vm_compute in E. injection E as <-. reflexivity.
Qed.
Definition town_ex : list instance := [pt "a" 1; pt "b" 9; pt "a" 2; pt "b" 3; pt "b" 8].
Example C143_near_case : nearest eucl town_ex 3 (pt "" 0) = Ok [pt "a" 1; pt "a" 2; pt "b" 3] /\ knn_predict eucl town_ex 3 (pt "" 0) = Ok "a" /\
  filter (fun x => match attrs x with [ACont v] => dltb v (Fin 4) | _ => false end) town_ex = [pt "a" 1; pt "a" 2; pt "b" 3] /\
  knn_predict eucl (pt "b" 20 :: town_ex ++ [pt "b" 4; pt "b" 5]) 3 (pt "" 0) = Ok "a".
Proof. vm_compute. repeat split. Qed.

(** * A training instance with the label that is answered anyway *)
Lemma occ_firstn v j l : occ (map label (firstn j l)) v <= occ (map label (firstn (S j) l)) v /\ occ (map label (firstn (S j) l)) v <= S (occ (map label (firstn j l)) v).
Proof.
  revert l. induction j as [|j IH]; intros [|x l].
  - cbn. lia.
  - cbn [firstn map]. unfold occ. cbn [count_occ]. destruct (string_dec (label x) v); lia.
  - cbn. lia.
  - specialize (IH l). change (firstn (S (S j)) (x :: l)) with (x :: firstn (S j) l). change (firstn (S j) (x :: l)) with (x :: firstn j l). unfold occ in *. cbn [map count_occ]. destruct (string_dec (label x) v); lia.
Qed.
Theorem C143_knn_support : forall dist l1 x l2 k q d c, distances dist q (l1 ++ x :: l2) d -> label x = c ->
  knn_predict dist (l1 ++ l2) k q = Ok c -> knn_predict dist (l1 ++ x :: l2) k q = Ok c.
Proof.
  intros dist l1 x l2 k q d c H Hx E. unfold knn_predict in *.
  rewrite (nearest_total dist (l1 ++ l2) k q d) in E by (intros y Hy; apply H; apply in_app_or in Hy as [Hy|Hy]; apply in_or_app; [left|right; right]; exact Hy).
  rewrite (nearest_total dist _ k q d H). cbn [bind] in *. change (fun x y : instance => dltb (d x) (d y)) with (nearer d) in *. rewrite filter_app in *. cbn [filter].
  destruct (eligible q x) eqn:EX; [|exact E].
  assert (N : forall l, (forall y, In y l -> In y (l1 ++ x :: l2)) -> Forall (fun y => is_nan (d y) = false) (filter (eligible q) l)).
  { intros l Hl. apply (numbers dist q (l1 ++ x :: l2) d); [exact H|]. intros y Hy. apply filter_In in Hy as (Hy & He). apply filter_In. split; [apply Hl, Hy|exact He]. }
  destruct (ssort_one _ (nearer d) (nearer_swo d) (filter (eligible q) l1) x (filter (eligible q) l2)) as (a & b & E1 & E2).
  { apply N. intros y Hy. apply in_or_app. left. exact Hy. }
  { apply H; [apply in_or_app; right; left; reflexivity|apply eligible_iff, EX]. }
  { apply N. intros y Hy. apply in_or_app. right. right. exact Hy. }
  rewrite E1. rewrite E2 in E. clear E1 E2 N. set (n := Z.to_nat k) in *. clearbody n.
  destruct (Nat.le_gt_cases n (length a)) as [L|L].
  - rewrite firstn_app in *. replace (n - length a) with 0 in * by lia. cbn [firstn] in *. exact E.
  - rewrite firstn_app in *. rewrite (firstn_all2 a) in * by lia. replace (n - length a) with (S (n - length a - 1)) in * by lia. set (j := n - length a - 1) in *. cbn [firstn].
    assert (Z0 : (length (a ++ x :: firstn j b) =? 0) = false) by (rewrite app_length; cbn [length]; apply Nat.eqb_neq; lia). rewrite Z0, andb_false_r. clear Z0.
    destruct (a ++ firstn (S j) b) as [|n0 ns] eqn:Es.
    + apply app_eq_nil in Es as (-> & Es). assert (firstn j b = []) as -> by (destruct b; [apply firstn_nil|discriminate Es]). cbn [app class_labels map]. rewrite Hx. reflexivity.
    + assert (Z0 : isComposite q && (length (n0 :: ns) =? 0) = false) by (apply andb_false_r). rewrite Z0 in E. injection E as E0. assert (E : get_maximum (class_labels (a ++ firstn (S j) b)) = c) by (unfold ilist in *; rewrite Es; exact E0). clear E0. f_equal. unfold class_labels in *. rewrite map_app in *. cbn [map] in *. rewrite Hx. transitivity (get_maximum (map label a ++ map label (firstn (S j) b))); [|exact E].
      apply max_more; rewrite ?E.
      * rewrite <- map_app, Es. discriminate.
      * rewrite !occ_app. pose proof (proj2 (occ_firstn c j b)). change (occ (c :: map label (firstn j b)) c) with (count_occ string_dec (c :: map label (firstn j b)) c). cbn [count_occ]. destruct (string_dec c c) as [_|N]; [|destruct (N eq_refl)].
        fold (occ (map label (firstn j b)) c). lia.
      * intros v Hv. rewrite !occ_app. pose proof (proj1 (occ_firstn v j b)). change (occ (c :: map label (firstn j b)) v) with (count_occ string_dec (c :: map label (firstn j b)) v). cbn [count_occ]. destruct (string_dec c v) as [->|_]; [destruct (Hv eq_refl)|].
        fold (occ (map label (firstn j b)) v). lia.
Qed.
Print Assumptions C143_knn_support.
(** the dummy classifier *)
Theorem C143_dummy_support : forall max_item old l1 x l2 q c, composite q = None -> l1 ++ l2 <> [] -> label x = c ->
  dummy_predict max_item (dummy_train old (l1 ++ l2)) q = c -> dummy_predict max_item (dummy_train old (l1 ++ x :: l2)) q = c.
Proof.
  intros max_item old l1 x l2 q c Hq Hn Hx. unfold dummy_predict, dummy_train, isComposite. rewrite Hq. cbv iota. rewrite !class_distribution_cofl, !map_app. cbn [map]. rewrite Hx. intros <-.
  exact (max_added (map label l1) (map label l2) ltac:(rewrite <- map_app; destruct (l1 ++ l2); [destruct (Hn eq_refl)|discriminate])).
Qed.
Print Assumptions C143_dummy_support.
(** one more tree that votes for the answer *)
Theorem C143_vote_support : forall max_item f1 t f2 x c, f1 ++ f2 <> [] -> tree_predict max_item t x = Ok c ->
  ensemble_predict max_item (f1 ++ f2) x = Ok c -> ensemble_predict max_item (f1 ++ t :: f2) x = Ok c.
Proof.
  intros max_item f1 t f2 x c Hn Ht E. unfold ensemble_predict, votes in *. apply bind_ok in E as (vs & Ev & E). injection E as E.
  assert (G : forall f, exists r, mapM (fun t => tree_predict max_item t x) f = r) by (intros f; eexists; reflexivity).
  rewrite ConstDistProofs.mapM_app_ in *. apply bind_ok in Ev as (v1 & E1 & Ev). apply bind_ok in Ev as (v2 & E2 & Ev). injection Ev as <-. rewrite E1. cbn [bind mapM]. rewrite Ht. cbn [bind]. rewrite E2. cbn [bind]. f_equal.
  rewrite <- E. apply (max_added v1 v2). intros N. apply Hn. apply app_eq_nil in N as (-> & ->). clear -E1 E2.
  assert (L : forall f, mapM (fun t => tree_predict max_item t x) f = Ok [] -> f = []) by (intros [|t f] E; [reflexivity|]; cbn [mapM] in E; apply bind_ok in E as (v & _ & E); apply bind_ok in E as (vs & _ & E); discriminate E).
  rewrite (L f1 E1), (L f2 E2). reflexivity.
Qed.
Print Assumptions C143_vote_support.
(** A tree can change its mind: the new instance makes the other feature the better one. *)
Definition two (c : string) (u v : Q) : instance := mkInst c [ACont (Fin u); ACont (Fin v)] None.
Theorem C143_tree_refuted : exists l x q c t t', label x = c /\ tree_train ex_max ex_entropy ex_mid ex_rarr false (Fin (1#5)) 1 9 l = Ok t /\ tree_predict ex_max t q = Ok c /\
  tree_train ex_max ex_entropy ex_mid ex_rarr false (Fin (1#5)) 1 9 (l ++ [x]) = Ok t' /\ exists c', tree_predict ex_max t' q = Ok c' /\ c' <> c.
Proof.
  exists [two "a" 0 0; two "b" 10 10], (two "b" (-5) 10), (two "" 6 0), "b". do 2 eexists. split; [reflexivity|]. split; [vm_compute; reflexivity|]. split; [vm_compute; reflexivity|]. split; [vm_compute; reflexivity|].
  exists "a". split; [vm_compute; reflexivity|discriminate].
Qed.
Print Assumptions C143_tree_refuted.
(** So can k-means: the new instance pulls the centre of its class away from the query. *)
Theorem C143_kmeans_refuted : exists l x q c m m', label x = c /\ kmeans_train (mkKM [] []) l = Ok m /\ kmeans_predict eucl m q = Ok c /\
  kmeans_train (mkKM [] []) (l ++ [x]) = Ok m' /\ exists c', kmeans_predict eucl m' q = Ok c' /\ c' <> c.
Proof.
  exists [pt "a" 0; pt "b" 10], (pt "b" 100), (pt "" 6), "b". do 2 eexists. split; [reflexivity|]. split; [vm_compute; reflexivity|]. split; [vm_compute; reflexivity|]. split; [vm_compute; reflexivity|].
  exists "a". split; [vm_compute; reflexivity|discriminate].
Qed.
Print Assumptions C143_kmeans_refuted.
Example C143_support_case : knn_predict eucl [pt "b" 1; pt "a" 3; pt "a" 4; pt "b" 2] 3 (pt "" 0) = Ok "b" /\ knn_predict eucl [pt "b" 1; pt "a" 3; pt "b" 9; pt "a" 4; pt "b" 2] 3 (pt "" 0) = Ok "b" /\
  (* an instance of the other class changes the answer *)
  knn_predict eucl [pt "b" 1; pt "a" 3; pt "a" (1#2); pt "a" 4; pt "b" 2] 4 (pt "" 0) = Ok "a" /\ knn_predict eucl [pt "b" 1; pt "a" 3; pt "c" 4; pt "b" 2] 4 (pt "" 0) = Ok "b".
Proof. vm_compute. repeat split. Qed.
