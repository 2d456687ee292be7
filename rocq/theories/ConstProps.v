(** Property C138: a feature that is the same in all training instances. *)
From Coq Require Import String ZArith QArith Bool Lia Lqa Permutation Arith List.
From Verif Require Import Base Spec BaseLemmas DblLemmas AttrModel AttrProofs DataSetModel InstanceListModel PartitionModel PerformanceModel
  StatSpec ListSpec ListProofs PartitionProofs CovProofs PerformanceProofs DistanceModel GaussianModel GaussianSpec GaussianProofs DiscrimSpec DiscrimProofs BayesProofs DiscrimProps
  TreeModel TreeProofs TreeProps EnsembleModel RenameProofs FeatOrderSpec FeatOrderProofs FeatOrderProps ConstSpec ConstTreeProofs ConstDistProofs ConstBayesProofs.
Import ListNotations.
Local Open Scope string_scope.
Local Open Scope list_scope.
Local Open Scope nat_scope.

(** * Trees: the same questions, whatever value of the feature the query has *)
(** [moved_tree pos t] is [t] with the features renumbered; training fails on the one set exactly when it fails on the other *)
Theorem C138_tree : forall max_item entropy mid rarr pos a l, a_value a -> reaches pos l ->
  (forall do_prune ratio seed fuel, tree_train max_item entropy mid rarr do_prune ratio seed fuel (map (with_feature pos a) l) = rmap (moved_tree pos) (tree_train max_item entropy mid rarr do_prune ratio seed fuel l)) /\
  (forall fuel, stump_train entropy mid rarr fuel (map (with_feature pos a) l) = rmap (moved_tree pos) (stump_train entropy mid rarr fuel l)) /\
  (forall t x b, pos <= length (attrs x) -> tree_predict max_item (moved_tree pos t) (with_feature pos b x) = tree_predict max_item t x) /\
  (forall t x b, pos <= length (attrs x) -> node_probability (moved_tree pos t) (with_feature pos b x) = node_probability t x).
Proof.
  intros max_item entropy mid rarr pos a l Ha W. split; [intros; apply wf_tree_train; assumption|]. split; [intros; apply wf_build0; assumption|]. split; intros; [apply wf_tree_predict|apply wf_node_probability]; assumption.
Qed.
Print Assumptions C138_tree.
Theorem C138_bagging : forall max_item entropy mid rarr pick size fuel pos a l, a_value a -> reaches pos l ->
  ensemble_train entropy mid rarr pick None size fuel [] (map (with_feature pos a) l) = rmap (map (moved_tree pos)) (ensemble_train entropy mid rarr pick None size fuel [] l) /\
  (forall forest x b, pos <= length (attrs x) -> ensemble_predict max_item (map (moved_tree pos) forest) (with_feature pos b x) = ensemble_predict max_item forest x /\
     ensemble_probability max_item (map (moved_tree pos) forest) (with_feature pos b x) = ensemble_probability max_item forest x).
Proof.
  intros max_item entropy mid rarr pick size fuel pos a l Ha W. split; [apply (wf_ensemble_train pos a Ha entropy mid rarr pick size fuel [] l W)|]. intros forest x b H.
  unfold ensemble_predict, ensemble_probability. rewrite wf_votes by exact H. split; reflexivity.
Qed.
Print Assumptions C138_bagging.
Definition grove_ex : ilist := [mkInst "a" [ACont (Fin 1); ADisc "u"] None; mkInst "a" [ACont (Fin 2); ADisc "w"] None; mkInst "b" [ACont (Fin 4); ADisc "u"] None; mkInst "b" [ACont (Fin 5); ADisc "w"] None].
Example C138_tree_case : a_value (ADisc "same") /\ reaches 1 grove_ex /\ insert_at 1 "n" ["x"; "y"] = ["x"; "n"; "y"] /\
  exists t, tree_train ex_max ex_entropy ex_mid ex_rarr false (Fin (1#5)) 1 9 grove_ex = Ok t /\
    tree_train ex_max ex_entropy ex_mid ex_rarr false (Fin (1#5)) 1 9 (map (with_feature 0 (ADisc "same")) grove_ex) = Ok (moved_tree 0 t) /\ moved_tree 0 t <> t /\
    tree_predict ex_max t (mkInst "?" [ACont (Fin 4); ADisc "w"] None) = Ok "b" /\
    tree_predict ex_max (moved_tree 0 t) (mkInst "?" [ADisc "other"; ACont (Fin 4); ADisc "w"] None) = Ok "b".
Proof.
  split; [discriminate|]. split; [repeat constructor|]. split; [reflexivity|]. eexists. split; [vm_compute; reflexivity|]. split; [vm_compute; reflexivity|]. split; [discriminate|]. split; vm_compute; reflexivity.
Qed.
(** NaN is no value: the comparison function handed to the sort is no order *)
Theorem C138_nan_refuted : reaches 0 grove_ex /\ (exists t, tree_train ex_max ex_entropy ex_mid ex_rarr false (Fin (1#5)) 1 9 grove_ex = Ok t) /\
  tree_train ex_max ex_entropy ex_mid ex_rarr false (Fin (1#5)) 1 9 (map (with_feature 0 (ACont NaN)) grove_ex) = UB BadOrder.
Proof. split; [repeat constructor|]. split; [eexists; vm_compute; reflexivity|vm_compute; reflexivity]. Qed.
Print Assumptions C138_nan_refuted.

(** * Nearest neighbours: all distances grow by the same amount, also for a query with another value *)
Theorem C138_knn : forall n pos a b data k q, pos <= n -> width_n n data -> length (attrs q) = n -> finite_value a -> finite_value b ->
  nearest eucl (map (with_feature pos a) data) k (with_feature pos b q) = rmap (map (with_feature pos a)) (nearest eucl data k q) /\
  knn_predict eucl (map (with_feature pos a) data) k (with_feature pos b q) = knn_predict eucl data k q /\
  knn_probability eucl (map (with_feature pos a) data) k (with_feature pos b q) = knn_probability eucl data k q.
Proof.
  intros n pos a b data k q Hpos W L Fa Fb. pose proof (nearest_insert n pos Hpos a b data k q W L Fa Fb) as E. split; [exact E|]. unfold knn_predict, knn_probability. unfold ilist in *. rewrite E.
  destruct (nearest eucl data k q) as [ns| | |]; [|split; reflexivity..]. unfold rmap. cbn [bind].
  assert (EL : class_labels (map (with_feature pos a) ns) = class_labels ns) by (unfold class_labels; rewrite map_map; reflexivity).
  rewrite (prior_insert pos a ns). unfold ilist in *. rewrite EL, map_length. split; reflexivity.
Qed.
Print Assumptions C138_knn.
Example C138_knn_case : width_n 3 swap_ex /\ finite_value (ACont (Fin 7)) /\ finite_value (ACont (Fin (-100))) /\
  map (fun x => eucl (with_feature 3 (ACont (Fin 7)) x) (with_feature 3 (ACont (Fin (-100))) query_ex)) swap_ex = [Ok (Fin 11455); Ok (Fin 11451); Ok PInf] /\
  knn_predict eucl (map (with_feature 3 (ACont (Fin 7))) swap_ex) 1 (with_feature 3 (ACont (Fin (-100))) query_ex) = Ok "b".
Proof. split; [repeat constructor|]. split; [exact I|]. split; [exact I|]. split; vm_compute; reflexivity. Qed.
(** an infinite value makes all the distances equal *)
Theorem C138_knn_infinite_refuted : exists data q, width_n 1 data /\ length (attrs q) = 1 /\ knn_predict eucl data 1 q = Ok "b" /\
  knn_predict eucl (map (with_feature 0 (ACont PInf)) data) 1 (with_feature 0 (ACont (Fin 0)) q) = Ok "a".
Proof. exists [mkInst "a" [ACont (Fin 5)] None; mkInst "b" [ACont (Fin 1)] None], (mkInst "?" [ACont (Fin 0)] None). split; [repeat constructor|]. split; [reflexivity|]. split; vm_compute; reflexivity. Qed.

Lemma gap_apart a b : plain_value a -> finite_value b -> exists g, gapd b a = Ok (Fin g) /\ (g == apart b a)%Q.
Proof.
  destruct a as [u|u|u i k|[u| | |]]; intros Pa; try destruct Pa; destruct b as [w|w|w j k'|[w| | |]]; intros Fb; try destruct Fb; cbn; try (eexists; split; reflexivity).
  destruct (String.eqb_spec w u), (string_dec w u); try contradiction; eexists; split; reflexivity.
Qed.
(** * k-means: the averages get the value itself as their coordinate *)
Theorem C138_kmeans : forall n pos a old old' l m, pos <= n -> width_n n l -> plain_value a -> kmeans_train old l = Ok m ->
  exists m', kmeans_train old' (map (with_feature pos a) l) = Ok m' /\ km_prior m' = km_prior m /\
    Forall2 (fun x x' => exists a', same_value a a' /\ x' = with_feature pos a' x) (km_means m) (km_means m') /\
    (forall q b, length (attrs q) = n -> same_value a b -> kmeans_predict eucl m' (with_feature pos b q) = kmeans_predict eucl m q) /\
    (* a query with another value: the same answer unless a distance reaches DBL_MAX *)
    (forall q b, length (attrs q) = n -> finite_value b -> (forall x d, In x (km_means m) -> eucl q x = Ok d -> dltb (dadd d (Fin (apart b a))) dbl_max = true) ->
       kmeans_predict eucl m' (with_feature pos b q) = kmeans_predict eucl m q).
Proof.
  intros n pos a old old' l m Hpos W Pa E. destruct (kmeans_insert n pos Hpos a old old' l m W Pa E) as (m' & E' & Ep & F & L). exists m'. split; [exact E'|]. split; [exact Ep|]. split; [exact F|]. split.
  - intros q b Lq S. apply (kmeans_predict_same n pos Hpos a b m m' q); assumption.
  - intros q b Lq Fb R. destruct (gap_apart a b Pa Fb) as (g & Eg & Dg). apply (kmeans_predict_room n pos Hpos a b g m m' q); try assumption.
    + rewrite Dg. destruct a as [u|u|u i k|[u| | |]], b as [w|w|w j k'|[w| | |]]; cbn; try lra; [destruct (string_dec w u); lra|]. destruct (Qlt_le_dec (w - u) 0); nra.
    + intros x d Hx Ed. rewrite Dg. exact (R x d Hx Ed).
Qed.
Print Assumptions C138_kmeans.
Example C138_kmeans_case : width_n 2 flat_ex /\ plain_value (ACont (Fin 3)) /\
  exists m m', kmeans_train (mkKM [] []) flat_ex = Ok m /\ kmeans_train (mkKM [] []) (map (with_feature 1 (ACont (Fin 3))) flat_ex) = Ok m' /\
    map attrs (km_means m) = [[ACont (Fin (2 # 2)); ACont (Fin (30 # 2))]; [ACont (Fin (14 # 2)); ACont (Fin (30 # 2))]] /\
    map attrs (km_means m') = [[ACont (Fin (2 # 2)); ACont (Fin (6 # 2)); ACont (Fin (30 # 2))]; [ACont (Fin (14 # 2)); ACont (Fin (6 # 2)); ACont (Fin (30 # 2))]] /\
    apart (ACont (Fin 5)) (ACont (Fin 3)) = 4%Q /\
    kmeans_predict eucl m (mkInst "?" [ACont (Fin 5); ACont (Fin 15)] None) = Ok "b" /\
    kmeans_predict eucl m' (mkInst "?" [ACont (Fin 5); ACont (Fin 5); ACont (Fin 15)] None) = Ok "b".
Proof. split; [repeat constructor|]. split; [exact I|]. eexists _, _. split; [vm_compute; reflexivity|]. split; [vm_compute; reflexivity|]. split; [vm_compute; reflexivity|]. split; [vm_compute; reflexivity|]. split; [vm_compute; reflexivity|]. split; vm_compute; reflexivity. Qed.

(** * Naive Bayes on texts: large classes gain *)
Theorem C138_bayes_texts : forall ln f std_vec, log_reads ln f ->
  forall n pos v l s, pos <= n -> Forall2 reads_text l s -> Forall (fun r => length (snd r) = n) s -> l <> [] -> 1 <= n ->
  exists m m', bayes_train std_vec bayes_empty l = Ok m /\ bayes_train std_vec bayes_empty (map (with_feature pos (ADisc v)) l) = Ok m' /\
  forall q vs c, attrs q = map ADisc vs -> length vs = n -> In c (map label l) -> let k := length (filter (fun x => String.eqb (label x) c) l) in
    exists r r', bayes_metric ln m q c = Ok (Fin r) /\ bayes_metric ln m' (with_feature pos (ADisc v) q) c = Ok (Fin r') /\
      (r' == r + f (qofn (k + 1) / qofn (k + 1 + 1)))%Q.
Proof.
  intros ln f std_vec Hln n pos v l s Hpos HR HL Hne Hn. destruct (C103_discrete_bayes ln f std_vec Hln n l s HR HL Hne Hn) as (m & Em & HM).
  set (s' := map (fun r => (fst r, insert_at pos v (snd r))) s).
  assert (HL' : Forall (fun r => length (snd r) = S n) s').
  { apply Forall_forall. intros r Hr. apply in_map_iff in Hr as (r0 & <- & Hr). cbn [snd]. rewrite Forall_forall in HL. rewrite insert_len; rewrite (HL r0 Hr); [reflexivity|exact Hpos]. }
  destruct (C103_discrete_bayes ln f std_vec Hln (S n) _ s' (reads_insert pos v l s HR) HL' ltac:(destruct l; [contradiction|discriminate]) ltac:(lia)) as (m' & Em' & HM').
  exists m, m'. split; [exact Em|]. split; [exact Em'|]. intros q vs c Hq Lv Hc k. destruct (proj1 (HM q vs Hq Lv) c Hc) as (r & Er & Dr).
  assert (Hq' : attrs (with_feature pos (ADisc v) q) = map ADisc (insert_at pos v vs)) by (cbn [with_feature attrs]; rewrite Hq, insert_map; reflexivity).
  assert (Lv' : length (insert_at pos v vs) = S n) by (rewrite insert_len; lia).
  destruct (proj1 (HM' _ _ Hq' Lv') c) as (r' & Er' & Dr'); [rewrite map_map; exact Hc|]. exists r, r'. split; [exact Er|]. split; [exact Er'|].
  assert (Lk : length (tmembers s c) = k).
  { unfold k. clear -HR. induction HR as [|x r l s (H1 & _) _ IH]; [reflexivity|]. unfold tmembers in *. cbn [filter]. rewrite H1. destruct (String.eqb (fst r) c); cbn [length]; rewrite IH; reflexivity. }
  assert (K0 : 0 < k). { unfold k. apply in_map_iff in Hc as (x & Hx & Ix). assert (In x (filter (fun x => String.eqb (label x) c) l)) as J by (apply filter_In; split; [exact Ix|rewrite Hx; apply String.eqb_refl]). destruct (filter _ l); [destruct J|cbn; lia]. }
  rewrite Dr', Dr. unfold s'. rewrite tfrequency_insert. rewrite (seq_insert n pos Hpos), map_app, qsum_app. cbn [map]. rewrite map_map.
  replace (seq 0 n) with (seq 0 pos ++ seq pos (n - pos)) by (rewrite <- seq_app; f_equal; lia). rewrite map_app, qsum_app.
  rewrite (nth_insert_new EmptyString pos v vs) by lia. rewrite (smoothed_new n pos Hpos v s HL c) by lia. rewrite Lk.
  rewrite (map_ext_in (fun i => f (smoothed (map (fun r0 => (fst r0, insert_at pos v (snd r0))) s) c i (nth i (insert_at pos v vs) ""))) (fun i => f (smoothed s c i (nth i vs "")))).
  2: { intros i Hi. apply in_seq in Hi. unfold smoothed. rewrite (values_low n pos Hpos v s HL) by lia. rewrite nth_insert_low by lia. reflexivity. }
  rewrite (map_ext_in (fun i => f (smoothed (map (fun r0 => (fst r0, insert_at pos v (snd r0))) s) c (S i) (nth (S i) (insert_at pos v vs) ""))) (fun i => f (smoothed s c i (nth i vs "")))).
  2: { intros i Hi. apply in_seq in Hi. unfold smoothed. rewrite (values_high n pos Hpos v s HL) by lia. rewrite nth_insert_high by lia. reflexivity. }
  unfold qsum. cbn [fold_right]. ring.
Qed.
Print Assumptions C138_bayes_texts.
(** hence the answer may change: 1/4 * 2/3 > 3/4 * 1/5, but 1/4 * 2/3 * 2/3 < 3/4 * 1/5 * 4/5 *)
Definition one_small : ilist := [mkInst "a" [ADisc "x"] None; mkInst "b" [ADisc "y"] None; mkInst "b" [ADisc "y"] None; mkInst "b" [ADisc "y"] None].
Definition as_logarithm (f : Q -> Q) : Prop :=
  (f (3 # 4) + f (1 # 5) < f (1 # 4) + f (2 # 3))%Q /\ (f (1 # 4) + f (2 # 3) + f (2 # 3) < f (3 # 4) + f (1 # 5) + f (4 # 5))%Q /\
  forall p, In p [3 # 4; 1 # 5; 1 # 4; 2 # 3; 4 # 5]%Q -> (-100 < f p)%Q.
Lemma two_classes l q score c c' r : (forall k, allowed l q k -> k = c \/ k = c') -> allowed l q c -> (score c' < score c)%Q -> DiscrimProps.best l q score r -> r = Ok c.
Proof. intros H A L (k & -> & Ak & Hk). destruct (H k Ak) as [->| ->]; [reflexivity|]. pose proof (Hk c A). lra. Qed.
Theorem C138_bayes_texts_refuted : forall ln f std_vec, log_reads ln f -> as_logarithm f ->
  exists m m', bayes_train std_vec bayes_empty one_small = Ok m /\ bayes_train std_vec bayes_empty (map (with_feature 1 (ADisc "same")) one_small) = Ok m' /\
    bayes_predict ln m (mkInst "?" [ADisc "x"] None) = Ok "a" /\ bayes_predict ln m' (with_feature 1 (ADisc "same") (mkInst "?" [ADisc "x"] None)) = Ok "b".
Proof.
  intros ln f std_vec Hln (H1 & H2 & HB). set (s := [("a", ["x"]); ("b", ["y"]); ("b", ["y"]); ("b", ["y"])]). set (s' := [("a", ["x"; "same"]); ("b", ["y"; "same"]); ("b", ["y"; "same"]); ("b", ["y"; "same"])]).
  assert (FE : forall p p', (p == p')%Q -> (f p == f p')%Q) by apply Hln.
  assert (HM : (- (inject_Z (2 ^ 1024 - 2 ^ 971)) < -300)%Q) by (vm_compute; reflexivity).
  assert (B1 : (-100 < f (3 # 4))%Q) by (apply HB; cbn; tauto). assert (B2 : (-100 < f (1 # 5))%Q) by (apply HB; cbn; tauto). assert (B3 : (-100 < f (4 # 5))%Q) by (apply HB; cbn; tauto).
  assert (E1 : (f (tfrequency s "a") == f (1 # 4))%Q) by (apply FE; vm_compute; reflexivity). assert (E2 : (f (tfrequency s "b") == f (3 # 4))%Q) by (apply FE; vm_compute; reflexivity).
  assert (E3 : (f (smoothed s "a" 0 "x") == f (2 # 3))%Q) by (apply FE; vm_compute; reflexivity). assert (E4 : (f (smoothed s "b" 0 "x") == f (1 # 5))%Q) by (apply FE; vm_compute; reflexivity).
  assert (E1' : (f (tfrequency s' "a") == f (1 # 4))%Q) by (apply FE; vm_compute; reflexivity). assert (E2' : (f (tfrequency s' "b") == f (3 # 4))%Q) by (apply FE; vm_compute; reflexivity).
  assert (E3' : (f (smoothed s' "a" 0 "x") == f (2 # 3))%Q) by (apply FE; vm_compute; reflexivity). assert (E4' : (f (smoothed s' "b" 0 "x") == f (1 # 5))%Q) by (apply FE; vm_compute; reflexivity).
  assert (E5' : (f (smoothed s' "a" 1 "same") == f (2 # 3))%Q) by (apply FE; vm_compute; reflexivity). assert (E6' : (f (smoothed s' "b" 1 "same") == f (4 # 5))%Q) by (apply FE; vm_compute; reflexivity).
  destruct (C103_discrete_bayes ln f std_vec Hln 1 one_small s) as (m & Em & HP); [repeat constructor|repeat constructor|discriminate|lia|].
  destruct (C103_discrete_bayes ln f std_vec Hln 2 (map (with_feature 1 (ADisc "same")) one_small) s') as (m' & Em' & HP'); [repeat constructor|repeat constructor|discriminate|lia|].
  exists m, m'. split; [exact Em|]. split; [exact Em'|]. split.
  - destruct (HP (mkInst "?" [ADisc "x"] None) ["x"] eq_refl eq_refl) as (_ & HBest). eapply (two_classes one_small _ _ "a" "b"); [| | |apply HBest].
    + intros k (K & _). cbn in K. intuition.
    + split; [left; reflexivity|exact I].
    + cbn [seq map nth]. unfold qsum. cbn [fold_right]. rewrite E1, E2, E3, E4. lra.
    + exists "b". split; [split; [right; left; reflexivity|exact I]|]. cbn [seq map nth]. unfold qsum. cbn [fold_right]. rewrite E2, E4. lra.
  - destruct (HP' (with_feature 1 (ADisc "same") (mkInst "?" [ADisc "x"] None)) ["x"; "same"] eq_refl eq_refl) as (_ & HBest). eapply (two_classes (map (with_feature 1 (ADisc "same")) one_small) _ _ "b" "a"); [| | |apply HBest].
    + intros k (K & _). cbn in K. intuition.
    + split; [right; left; reflexivity|exact I].
    + cbn [seq map nth]. unfold qsum. cbn [fold_right]. rewrite E1', E2', E3', E4', E5', E6'. lra.
    + exists "b". split; [split; [right; left; reflexivity|exact I]|]. cbn [seq map nth]. unfold qsum. cbn [fold_right]. rewrite E2', E4', E6'. lra.
Qed.
Print Assumptions C138_bayes_texts_refuted.
(** the first terms of the series of the logarithm *)
Definition log3 (p : Q) : Q := let z := ((p - 1) / (p + 1))%Q in (2 * (z + z * z * z / 3 + z * z * z * z * z / 5))%Q.
Definition dlog3 (d : dbl) : dbl := match d with Fin p => Fin (log3 p) | _ => NaN end.
Example C138_bayes_texts_case : log_reads dlog3 log3 /\ as_logarithm log3 /\ Forall2 reads_text one_small [("a", ["x"]); ("b", ["y"]); ("b", ["y"]); ("b", ["y"])].
Proof.
  split; [split|split].
  - intros p Hp. exists (log3 p). split; reflexivity.
  - intros p q E. unfold log3. rewrite E. reflexivity.
  - split; [vm_compute; reflexivity|]. split; [vm_compute; reflexivity|]. cbn. intros p [<-|[<-|[<-|[<-|[<-|[]]]]]]; vm_compute; reflexivity.
  - repeat constructor.
Qed.

(** * Naive Bayes on numbers: no score is a number any more, the answer is the most frequent class whatever is asked *)
(** the standard deviation of the feature within each class is zero (or NaN, for a class of one instance) *)
Theorem C138_bayes_numbers : forall ln std_vec n pos v0 l m q x r, pos < n -> width_n n l -> all_numbers l ->
  (forall y, In y l -> nth_error (attrs y) pos = Some (ACont (Fin v0))) ->
  (forall c s z, In c (map label l) -> std_vec (filter (fun y => String.eqb (label y) c) l) = Ok s -> nth_error s pos = Some z -> deq z d0 \/ z = NaN) ->
  bayes_train std_vec bayes_empty l = Ok m ->
  length (attrs q) = n -> nth_error (attrs q) pos = Some (ACont (Fin x)) -> bayes_predict ln m q = Ok r ->
  match composite q with Some ls => exists rest, ls = r :: rest | None => r = cmax (class_distribution l) end.
Proof.
  intros ln std_vec n pos v0 l m q x r Hpos W T H HS E Lq Hx Er.
  assert (G : forall y a, nth_error (attrs y) pos = Some a -> get_attr y (Z.of_nat pos) = Ok a).
  { intros y a Ha. unfold get_attr, at_. rewrite Nat2Z.id. destruct (Z.ltb_spec (Z.of_nat pos) 0); [lia|]. rewrite Ha. reflexivity. }
  pose proof (flat_train std_vec n pos Hpos v0 l m W T (fun y Hy => G y _ (H y Hy)) HS E) as B.
  rewrite <- (bayes_train_prior _ _ _ _ E). apply (gauss_lost (nb_prior m) (bayes_metric ln m q)); [|exact Er]. intros c d Ed. exact (blind_metric ln n pos Hpos m q x c d B Lq (G q _ Hx) Ed).
Qed.
Print Assumptions C138_bayes_numbers.
Definition wide_b : ilist := [flat 0 7 "a"; flat 2 7 "a"; flat 6 7 "b"; flat 8 7 "b"].
Example C138_bayes_numbers_case : width_n 2 wide_b /\ all_numbers wide_b /\ (forall y, In y wide_b -> nth_error (attrs y) 1 = Some (ACont (Fin 7))) /\
  (forall c s z, In c (map label wide_b) -> spread (filter (fun y => String.eqb (label y) c) wide_b) = Ok s -> nth_error s 1 = Some z -> deq z d0 \/ z = NaN) /\
  cmax (class_distribution wide_b) = "a" /\
  (exists m, bayes_train spread bayes_empty wide_b = Ok m /\ bayes_predict dlog3 m (flat 7 7 "?") = Ok "a") /\
  (* without the feature the answer for 7 is "b" *)
  exists m, bayes_train spread bayes_empty (map (fun y => mkInst (label y) (firstn 1 (attrs y)) None) wide_b) = Ok m /\ bayes_predict dlog3 m (mkInst "?" [ACont (Fin 7)] None) = Ok "b".
Proof.
  split; [repeat constructor|]. split; [repeat constructor; eexists; reflexivity|]. split; [cbn; intros y [<-|[<-|[<-|[<-|[]]]]]; reflexivity|].
  split; [assert (K : forall c, In c (map label wide_b) -> c = "a" \/ c = "b") by (cbn; intuition); intros c s z Hc E Hz; destruct (K c Hc) as [->| ->]; vm_compute in E; injection E as <-; vm_compute in Hz; injection Hz as <-; left; vm_compute; reflexivity|].
  split; [vm_compute; reflexivity|]. split; eexists; (split; vm_compute; reflexivity).
Qed.

(** * The library's standard deviation of such a feature is zero *)
From Coq Require Import Reals Lra.
From Verif Require Import StatModel.
Theorem C138_deviation : forall k l v0, 2 <= length l -> Forall (fun x => numeric k x (Fin v0)) l -> cont_std k l = Ok [RFin 0] /\ attr_std k l = Ok (Some (RFin 0)).
Proof.
  intros k l v0 H2 F. set (qs := repeat v0 (length l)).
  assert (N : num_column k l (map Fin qs)) by (unfold qs; clear H2; induction F as [|x l Hx _ IH]; cbn [length repeat map]; constructor; assumption).
  assert (Z0 : (sqdev qs / qofn (length qs - 1) == 0)%Q).
  { assert (M : (qmean qs == v0)%Q).
    { unfold qmean, qs. rewrite repeat_length. assert (S : forall n, (qsum (repeat v0 n) == v0 * qofn n)%Q).
      { induction n as [|n IH]; [unfold qofn; cbn; ring|]. cbn [repeat]. change (qsum (v0 :: repeat v0 n)) with (v0 + qsum (repeat v0 n))%Q. rewrite IH. unfold qofn. rewrite Nat2Z.inj_succ, <- Z.add_1_r, inject_Z_plus. ring. }
      rewrite S. field. apply qofn_neq0. lia. }
    assert (D : (sqdev qs == 0)%Q).
    { unfold sqdev. generalize (qmean qs) M. intros mu Emu. unfold qs. generalize (length l). intros n. induction n as [|n IH]; [reflexivity|]. cbn [repeat map]. unfold qsum in *. cbn [fold_right]. rewrite IH, Emu. ring. }
    rewrite D. unfold Qdiv. apply Qmult_0_l. }
  destruct (attr_std_fin k l qs N H2) as (A & B). rewrite (Qreals.Qeq_eqR _ _ Z0) in A, B. rewrite RMicromega.Q2R_0, sqrt_0 in A, B. split; assumption.
Qed.
Print Assumptions C138_deviation.
Example C138_deviation_case : 2 <= length wide_b /\ Forall (fun x => numeric 1 x (Fin 7)) wide_b.
Proof. split; [cbn; lia|]. repeat constructor; unfold in_range; cbn; lia. Qed.
