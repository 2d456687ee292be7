(** C45-C48: distances and nearest neighbours. *)
From Coq Require Import String ZArith QArith Qreals Reals Bool Lia Lra Lqa Permutation Sorted Arith List.
From Verif Require Import Base Spec BaseLemmas DblLemmas SortLemmas AttrModel InstanceListModel ListSpec ListProofs PerformanceProofs DistanceModel DistanceSpec DistanceProofs.
Import ListNotations.
Local Open Scope string_scope.
Local Open Scope list_scope.
Local Open Scope nat_scope.

Definition ex_a : instance := mkInst "p" [ACont (Fin 1); ADisc "red"; ACont (Fin (7 # 2))] None.
Definition ex_b : instance := mkInst "n" [ACont (Fin 4); ADisc "blue"; ACont (Fin (5 # 2))] None.
Definition ex_c : instance := mkInst "p" [ACont (Fin 2); ADisc "blue"; ACont (Fin 0)] None.

(** * C45 *)
(** the distance of two equally long instances is the sum of the contributions of their features *)
Theorem C45_value : forall x y, attr_count x = attr_count y ->
  exists d, eucl x y = Ok d /\ deq d (dsum (map (fun p => gap (fst p) (snd p)) (combine (attrs x) (attrs y)))).
Proof. intros x y H. rewrite eucl_eq. apply eucl_l_sum; [exact H|reflexivity]. Qed.
Print Assumptions C45_value.
Example C45_value_case : exists q, eucl ex_a ex_b = Ok (Fin q) /\ (q == 11)%Q.
Proof. eexists. split; [vm_compute; reflexivity|reflexivity]. Qed.

Theorem C45_symmetric : forall x y, attr_count x = attr_count y ->
  exists d d', eucl x y = Ok d /\ eucl y x = Ok d' /\ deq d d'.
Proof.
  intros x y H. destruct (C45_value x y H) as [d [E Hd]]. destruct (C45_value y x (eq_sym H)) as [d' [E' Hd']].
  exists d, d'. repeat split; [exact E|exact E'|]. rewrite Hd, Hd'. apply fold_dadd_proper; [apply gaps_sym, H|reflexivity].
Qed.
Print Assumptions C45_symmetric.
Example C45_symmetric_case : attr_count ex_a = attr_count ex_b /\ exists d, eucl ex_b ex_a = Ok (Fin d) /\ (d == 11)%Q.
Proof. split; [reflexivity|]. eexists. split; [vm_compute; reflexivity|reflexivity]. Qed.

(** never negative (NaN and infinity arise from infinite values only, see C45_finite) *)
Theorem C45_nonnegative : forall x y d, eucl x y = Ok d -> dltb d d0 = false.
Proof.
  intros x y d H. rewrite eucl_eq in H. apply eucl_l_nonneg in H; [|cbn; lra]. destruct d; cbn in H; try reflexivity; [|contradiction].
  apply dltb_fin_false, H.
Qed.
Print Assumptions C45_nonnegative.
Theorem C45_finite : forall x y, attr_count x = attr_count y -> Forall finite (attrs x) -> Forall finite (attrs y) ->
  exists q, eucl x y = Ok (Fin q) /\ (0 <= q)%Q.
Proof. intros x y H Hx Hy. destruct (eucl_fin x y H Hx Hy) as [q [E Hq]]. exists q. split; [exact E|]. rewrite Hq. apply distq_nonneg. Qed.
Print Assumptions C45_finite.
Theorem C45_self : forall x, Forall finite (attrs x) -> exists q, eucl x x = Ok (Fin q) /\ (q == 0)%Q.
Proof. intros x Hx. destruct (eucl_fin x x eq_refl Hx Hx) as [q [E Hq]]. exists q. split; [exact E|]. rewrite Hq. apply distq_self. Qed.
Print Assumptions C45_self.
Lemma ex_finite : Forall finite (attrs ex_a) /\ Forall finite (attrs ex_b) /\ Forall finite (attrs ex_c).
Proof. repeat split; repeat constructor; intros v E; try discriminate; injection E as <-; eexists; reflexivity. Qed.
Example C45_self_case : Forall finite (attrs ex_a).
Proof. apply ex_finite. Qed.
(** an exception exactly when the first instance has a discrete or continuous feature the second one lacks *)
Theorem C45_throws : forall x y,
  (eucl x y = Throw OutOfRange <-> exists i a, attr_count y <= i /\ nth_error (attrs x) i = Some a /\ measured a) /\
  (eucl x y = Throw OutOfRange \/ exists d, eucl x y = Ok d).
Proof.
  intros x y. rewrite eucl_eq. destruct (eucl_l_throws (attrs x) (attrs y) d0) as [H1 H2].
  assert (D : (exists i a, attr_count y <= i /\ nth_error (attrs x) i = Some a /\ measured a) \/
              (forall i a, attr_count y <= i -> nth_error (attrs x) i = Some a -> ~ measured a)).
  { unfold attr_count. destruct (existsb measuredb (skipn (length (attrs y)) (attrs x))) eqn:E.
    - left. apply existsb_exists in E as (a & Ha & Hm). apply In_nth_error in Ha as [i Hi].
      rewrite nth_skipn_add in Hi. exists (length (attrs y) + i), a. repeat split; [lia|exact Hi|apply measuredb_iff, Hm].
    - right. intros i a Hi Ha Hm. apply measuredb_iff in Hm.
      assert (existsb measuredb (skipn (length (attrs y)) (attrs x)) = true); [|congruence].
      apply existsb_exists. exists a. split; [|exact Hm]. apply (nth_error_In _ (i - length (attrs y))). rewrite nth_skipn_add.
      replace (length (attrs y) + (i - length (attrs y))) with i by lia. exact Ha. }
  split; [split|].
  - intros H. destruct D as [D|D]; [exact D|]. destruct (H2 D) as [d E]. congruence.
  - exact H1.
  - destruct D as [D|D]; [left; apply H1, D|right; apply H2, D].
Qed.
Print Assumptions C45_throws.
Example C45_throws_case : eucl ex_a (mkInst "q" [ACont (Fin 1)] None) = Throw OutOfRange.
Proof. apply C45_throws. exists 1, (ADisc "red"). repeat split; [cbn; lia|left; eexists; reflexivity]. Qed.

(** * C46 *)
(** the value returned is the square of a distance: 0, 1 and 2 on a line violate the triangle inequality *)
Theorem C46_triangle_refuted : exists x y z a b c,
  Forall finite (attrs x) /\ Forall finite (attrs y) /\ Forall finite (attrs z) /\
  Forall2 same_kind (attrs x) (attrs y) /\ Forall2 same_kind (attrs y) (attrs z) /\
  eucl x z = Ok (Fin c) /\ eucl x y = Ok (Fin a) /\ eucl y z = Ok (Fin b) /\ (a + b < c)%Q.
Proof.
  pose (f := fun q => mkInst "l" [ACont (Fin q)] None).
  assert (Ff : forall q, Forall finite (attrs (f q))) by (intros q; repeat constructor; intros v E; injection E as <-; eexists; reflexivity).
  exists (f 0%Q), (f 1%Q), (f 2%Q). do 3 eexists. repeat split; try apply Ff; try (repeat constructor); vm_compute; reflexivity.
Qed.
Print Assumptions C46_triangle_refuted.
(** indexed features are not looked at, so different instances can be at distance zero *)
Theorem C46_separation_refuted : exists x y,
  Forall finite (attrs x) /\ Forall finite (attrs y) /\ Forall2 same_kind (attrs x) (attrs y) /\ attrs x <> attrs y /\ eucl x y = Ok (Fin 0).
Proof.
  exists (mkInst "l" [AIdx "a" 0 2] None), (mkInst "l" [AIdx "b" 1 2] None).
  split; [constructor; [intros v E; discriminate|constructor]|]. split; [constructor; [intros v E; discriminate|constructor]|].
  split; [repeat constructor|]. split; [discriminate|reflexivity].
Qed.
Print Assumptions C46_separation_refuted.
(** what holds: the square root of the returned value satisfies the triangle inequality ... *)
Theorem C46_root_triangle_partial : forall x y z,
  Forall2 same_kind (attrs x) (attrs y) -> Forall2 same_kind (attrs y) (attrs z) ->
  Forall finite (attrs x) -> Forall finite (attrs y) -> Forall finite (attrs z) ->
  exists a b c, eucl x z = Ok (Fin c) /\ eucl x y = Ok (Fin a) /\ eucl y z = Ok (Fin b) /\
    (sqrt (Q2R c) <= sqrt (Q2R a) + sqrt (Q2R b))%R /\ (c <= 2 * (a + b))%Q.
Proof.
  intros x y z H1 H2 Fx Fy Fz. pose proof (Forall2_len _ _ _ H1) as L1. pose proof (Forall2_len _ _ _ H2) as L2.
  destruct (eucl_fin x y L1 Fx Fy) as [a [Ea Ha]]. destruct (eucl_fin y z L2 Fy Fz) as [b [Eb Hb]].
  destruct (eucl_fin x z (eq_trans L1 L2) Fx Fz) as [c [Ec Hc]]. exists a, b, c.
  split; [exact Ec|]. split; [exact Ea|]. split; [exact Eb|]. split.
  - rewrite (Qeq_eqR _ _ Ha), (Qeq_eqR _ _ Hb), (Qeq_eqR _ _ Hc). apply distq_root; assumption.
  - rewrite Ha, Hb, Hc. apply distq_relaxed; assumption.
Qed.
Print Assumptions C46_root_triangle_partial.
(** ... and it separates instances with discrete and continuous features *)
Theorem C46_separates_partial : forall x y q,
  Forall2 same_kind (attrs x) (attrs y) -> Forall measured (attrs x) -> Forall finite (attrs x) -> Forall finite (attrs y) ->
  eucl x y = Ok (Fin q) -> (q == 0)%Q -> Forall2 same_attr (attrs x) (attrs y).
Proof.
  intros x y q Hk Hm Fx Fy E Hq. destruct (eucl_fin x y (Forall2_len _ _ _ Hk) Fx Fy) as [q' [E' Hq']].
  rewrite E in E'. injection E' as <-. apply distq_zero; try assumption. rewrite <- Hq'. exact Hq.
Qed.
Print Assumptions C46_separates_partial.
Example C46_case : Forall2 same_kind (attrs ex_a) (attrs ex_b) /\ Forall2 same_kind (attrs ex_b) (attrs ex_c) /\ Forall measured (attrs ex_a).
Proof.
  split; [repeat constructor|]. split; [repeat constructor|].
  constructor; [right; eexists; reflexivity|]. constructor; [left; eexists; reflexivity|]. constructor; [right; eexists; reflexivity|constructor].
Qed.

(** * C47 *)
(** For a distance [d] without NaN, the neighbours are a prefix of the eligible training instances sorted by distance,
    ties in training order; whatever is left out is not closer. *)
Theorem C47_neighbours : forall dist data k q (d : instance -> dbl) (el : list instance),
  (forall x, In x data -> may_answer q x -> dist x q = Ok (d x) /\ is_nan (d x) = false) ->
  (exists f, el = filter f data /\ forall x, f x = true <-> may_answer q x) ->
  exists ns rest, nearest dist data k q = Ok ns /\
    is_stable_sort (fun x y => dltb (d x) (d y)) el (ns ++ rest) /\
    length ns = Nat.min (Z.to_nat k) (length el) /\
    (forall x y, In x ns -> In y rest -> dltb (d y) (d x) = false).
Proof.
  intros dist data k q d el H [f [Eel Hf]].
  assert (E : el = filter (eligible q) data).
  { rewrite Eel. apply filter_ext. intros x. destruct (f x) eqn:A, (eligible q x) eqn:B; try reflexivity.
    - apply Hf, eligible_iff in A. congruence.
    - apply eligible_iff, Hf in B. congruence. }
  set (s := ssort (fun x y => dltb (d x) (d y)) el).
  assert (S : is_stable_sort (fun x y => dltb (d x) (d y)) el s).
  { apply nearest_sorted. apply Forall_forall. intros x Hx. rewrite E in Hx. apply filter_In in Hx as [Hx Hm]. apply H; [exact Hx|apply eligible_iff, Hm]. }
  exists (firstn (Z.to_nat k) s), (skipn (Z.to_nat k) s). split; [|split; [|split]].
  - rewrite (nearest_total dist data k q d H). unfold s. rewrite E. reflexivity.
  - rewrite firstn_skipn. exact S.
  - rewrite firstn_length. f_equal. symmetry. apply Permutation_length, S.
  - intros x y Hx Hy. apply (sorted_firstn_le (fun x y => dltb (d x) (d y)) (Z.to_nat k) s x y); [apply S|exact Hx|exact Hy].
Qed.
Print Assumptions C47_neighbours.
Definition ex_q : instance := mkInst "" [ACont (Fin 0); ADisc "blue"; ACont (Fin 0)] (Some ["p"; "z"]).
(** the Euclidean distance meets the hypothesis *)
Theorem C47_euclidean : forall data q, Forall finite (attrs q) ->
  Forall (fun x => attr_count x = attr_count q /\ Forall finite (attrs x)) data ->
  exists d, forall x, In x data -> may_answer q x -> eucl x q = Ok (d x) /\ is_nan (d x) = false.
Proof.
  intros data q Hq Hd. exists (fun x => match eucl x q with Ok v => v | _ => d0 end). intros x Hx _.
  rewrite Forall_forall in Hd. destruct (Hd x Hx) as [L F]. destruct (eucl_fin x q L F Hq) as [v [E _]]. rewrite E. split; reflexivity.
Qed.
Print Assumptions C47_euclidean.
Example C47_case : nearest eucl [ex_a; ex_b; ex_c; ex_a] 2 ex_q = Ok [ex_c; ex_a] /\
  Forall (fun x => attr_count x = attr_count ex_q /\ Forall finite (attrs x)) [ex_a; ex_b; ex_c; ex_a].
Proof. split; [vm_compute; reflexivity|]. destruct ex_finite as (A & B & C).
  constructor; [split; [reflexivity|exact A]|]. constructor; [split; [reflexivity|exact B]|]. constructor; [split; [reflexivity|exact C]|].
  constructor; [split; [reflexivity|exact A]|constructor].
Qed.

(** * C48 *)
(** a most frequent label among the neighbours *)
Theorem C48_majority : forall dist data k q ns, nearest dist data k q = Ok ns -> ns <> [] ->
  exists c, knn_predict dist data k q = Ok c /\ In c (map label ns) /\ forall c', occ (map label ns) c' <= occ (map label ns) c.
Proof.
  intros dist data k q ns E Hn. exists (get_maximum (map label ns)). unfold knn_predict. rewrite E. cbn [bind].
  replace (length ns =? 0) with false by (destruct ns; [congruence|reflexivity]). rewrite andb_false_r. split; [reflexivity|].
  apply get_maximum_spec. destruct ns; [congruence|discriminate].
Qed.
Print Assumptions C48_majority.
(** neighbours are training instances, so the answer is a label of the training data *)
Theorem C48_training_label : forall dist data k q ns, nearest dist data k q = Ok ns -> forall x, In x ns -> In x data /\ may_answer q x.
Proof.
  intros dist data k q ns E x Hx. unfold nearest in E. apply bind_ok in E as (ds & E1 & E). apply bind_ok in E as (s & E2 & E). injection E as <-.
  apply in_map_iff in Hx as (p & <- & Hp). apply (In_nth_error) in Hp as [i Hi].
  assert (Hs : In p s). { apply (nth_error_In _ i). rewrite <- (firstn_skipn (Z.to_nat k) s). rewrite nth_error_app1; [exact Hi|]. apply nth_error_Some. congruence. }
  assert (Hd : In p ds).
  { destruct (length ds <=? 1); [injection E2 as <-; exact Hs|]. destruct (existsb _ ds); [discriminate|]. injection E2 as <-.
    eapply Permutation_in; [symmetry; apply ssort_perm|exact Hs]. }
  apply mapM_ok in E1. assert (G : forall l, Forall2 (fun x y => (do d <- dist x q; Ok (d, x)) = Ok y) l ds -> In (snd p) l).
  { clear -Hd. intros l H. induction H as [|x y l ds Hxy Hf IH]; [destruct Hd|]. apply bind_ok in Hxy as (v & _ & Hv). injection Hv as <-.
    destruct Hd as [<-|Hd]; [left; reflexivity|right; apply IH, Hd]. }
  specialize (G _ E1). apply filter_In in G as [G1 G2]. split; [exact G1|apply eligible_iff, G2].
Qed.
Print Assumptions C48_training_label.
(** for a query with possible labels the answer is one of them, also when no training instance carries one *)
Theorem C48_composite : forall dist data k q ls c, composite q = Some ls ->
  knn_predict dist data k q = Ok c -> In c ls.
Proof.
  intros dist data k q ls c Hq E. unfold knn_predict in E. apply bind_ok in E as (ns & En & E).
  unfold isComposite, possible_labels in E. rewrite Hq in E. destruct ns as [|n ns].
  - cbn in E. apply atn_ok, nth_error_In in E. exact E.
  - cbn [length Nat.eqb andb] in E. injection E as <-. change (class_labels (n :: ns)) with (map label (n :: ns)).
    assert (Hi : In (get_maximum (map label (n :: ns))) (map label (n :: ns))) by (apply get_maximum_spec; discriminate).
    apply in_map_iff in Hi as (x & Ex & Hx).
    refine (eq_ind _ (fun s => In s ls) _ _ Ex). exact (proj2 (C48_training_label dist data k q (n :: ns) En x Hx) ls Hq).
Qed.
Print Assumptions C48_composite.
(** a composite query with a possible label is always answered when the distances are *)
Theorem C48_composite_answers : forall dist data k q ns l ls, composite q = Some (l :: ls) ->
  nearest dist data k q = Ok ns -> exists c, knn_predict dist data k q = Ok c /\ In c (l :: ls).
Proof.
  intros dist data k q ns l ls Hq E. assert (X : exists c, knn_predict dist data k q = Ok c).
  { unfold knn_predict. rewrite E. cbn [bind]. unfold possible_labels. rewrite Hq. destruct (isComposite q && (length ns =? 0)); eexists; reflexivity. }
  destruct X as [c Hc]. exists c. split; [exact Hc|]. eapply C48_composite; eassumption.
Qed.
Print Assumptions C48_composite_answers.
Example C48_case : knn_predict eucl [ex_b; ex_c; ex_b] 3 (mkInst "" (attrs ex_q) None) = Ok "n" /\
  knn_predict eucl [ex_a; ex_b] 3 (mkInst "" (attrs ex_q) (Some ["z"; "w"])) = Ok "z".
Proof. split; vm_compute; reflexivity. Qed.
(** the probability of a label is its share among the neighbours *)
Theorem C48_probability : forall dist data k q ns, nearest dist data k q = Ok ns -> ns <> [] ->
  exists m, knn_probability dist data k q = Ok m /\
    forall c p, mfind c m = Some p <-> In c (map label ns) /\ p = ddiv (dofnat (occ (map label ns) c)) (dofnat (length ns)).
Proof.
  intros dist data k q ns E Hn. unfold knn_probability. rewrite E. cbn [bind]. eexists. split; [reflexivity|].
  rewrite class_distribution_cofl. intros c p.
  assert (M : mfind c (map (fun kv => (fst kv, ddiv (dofnat (snd kv)) (dofnat (csum (cofl (map label ns)))))) (cofl (map label ns))) =
              match mfind c (cofl (map label ns)) with Some n => Some (ddiv (dofnat n) (dofnat (csum (cofl (map label ns))))) | None => None end).
  { generalize (csum (cofl (map label ns))). intros t. generalize (cofl (map label ns)). intros m. induction m as [|[k' v] m IH]; [reflexivity|]. cbn [map fst snd mfind]. destruct (String.eqb c k'); [reflexivity|exact IH]. }
  rewrite M, csum_cofl, map_length. pose proof (ccount_cofl (map label ns) c) as C. unfold occ, ccount in *.
  destruct (mfind c (cofl (map label ns))) as [n|] eqn:F.
  - assert (Hi : In c (map label ns)) by (apply in_cofl; apply mfind_in in F; apply in_map_iff; exists (c, n); split; [reflexivity|exact F]).
    rewrite C. split; [intros H; injection H as <-; split; [exact Hi|reflexivity]|intros [_ ->]; reflexivity].
  - split; [discriminate|]. intros [Hi _]. apply in_cofl in Hi. apply mfind_none in F. contradiction.
Qed.
Print Assumptions C48_probability.
(** without neighbours (no data, or k below one) a plain query is answered by the empty label *)
Theorem C48_no_neighbours : forall dist data q, composite q = None -> forall k, (data = [] \/ (k <= 0)%Z /\ exists ns, nearest dist data k q = Ok ns) ->
  knn_predict dist data k q = Ok "".
Proof.
  intros dist data q Hq k H. unfold knn_predict. assert (E : nearest dist data k q = Ok []).
  { destruct H as [->|[Hk [ns E]]]; [unfold nearest; cbn; rewrite firstn_nil; reflexivity|]. rewrite E. unfold nearest in E. apply bind_ok in E as (ds & _ & E). apply bind_ok in E as (s & _ & E).
    injection E as <-. replace (Z.to_nat k) with 0 by lia. reflexivity. }
  rewrite E. cbn. unfold isComposite. rewrite Hq. reflexivity.
Qed.
Print Assumptions C48_no_neighbours.
