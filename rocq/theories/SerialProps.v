(** Saving and loading: C21 (instance lists), C65 (trees), C82 (models), C99 (files in the shipped layout), C100 (loading into a
    used model). *)
From Coq Require Import String Ascii ZArith QArith Bool Lia List.
From Verif Require Import Base Spec BaseLemmas AttrModel DataSetModel DataSetSpec InstanceListModel TreeModel DistanceModel DistanceProofs DistanceProps GaussianModel SvmModel NetModel
  EnsembleModel DataFileProofs SerialModel SerialSpec SerialProofs SerialLoadProofs SerialSaveProofs SerialExamples.
Import ListNotations.
Local Open Scope string_scope.
Local Open Scope list_scope.
Local Open Scope nat_scope.

(** * C21 *)
(** Whatever the list, as long as its first instance has a feature that is not indexed: serialize succeeds, and reading the file
    back gives the empty list. *)
Theorem C21_nothing_loaded_refuted : forall words split stof fmt l x0, hd_error l = Some x0 -> (exists a, In a (attrs x0) /\ isDiscreteIndexed a = false) ->
  exists text s, list_text fmt l = Ok text /\ list_read words split stof (mkIn text true) = Ok ([], s).
Proof.
  intros words split stof fmt l x0 H0 (a & Ha & Hn). destruct l as [|y l]; [discriminate H0|]. injection H0 as ->.
  assert (existsb plain_attr (attrs x0) = true) as Hp. { apply existsb_exists. exists a. unfold plain_attr. rewrite Hn. auto. }
  destruct (list_text fmt (x0 :: l)) as [text| | |] eqn:E; try (unfold list_text in E; discriminate E).
  exists text, failed. split; [reflexivity|]. exact (proj1 (list_text_lost words split stof fmt (x0 :: l) x0 text eq_refl Hp E)).
Qed.
Print Assumptions C21_nothing_loaded_refuted.
Example C21_nothing_case : exists a, In a (attrs (mkInst "y" [AIdx "u" 0 2; ACont d1] None)) /\ isDiscreteIndexed a = false.
Proof. exists (ACont d1). split; [right; left; reflexivity|reflexivity]. Qed.
(** Missing: the file serialize writes.  A file in the layout of the shipped models (types in capitals, number of rows, rows with
    commas), met after the line break that ends the line before it, is read exactly. *)
Theorem C21_layout_partial : forall words split stof cols rows xs rest, words_ok words -> split_ok split "," -> is_int (Z.of_nat (List.length rows)) ->
  Forall2 (row_instance stof cols) rows xs -> Forall (fun r => Forall clean_cell (fst r ++ [snd r])) rows ->
  list_read words split stof (mkIn (String nl (list_layout cols rows ++ rest)) true) = Ok (xs, mkIn rest true).
Proof. intros. apply list_reads; assumption. Qed.
Print Assumptions C21_layout_partial.
Definition rows_ex : list row := [(["red"; "4"], "yes"); (["blue"; "-7"], "no")].
Definition insts_ex : ilist := [mkInst "yes" [ADisc "red"; ACont (Fin 4)] None; mkInst "no" [ADisc "blue"; ACont (Fin (-7))] None].
Example C21_layout_case : words_ok words_ex /\ split_ok split_ex "," /\ is_int (Z.of_nat (List.length rows_ex)) /\
  Forall2 (row_instance stof_ex [CDisc; CCont]) rows_ex insts_ex /\ Forall (fun r => Forall clean_cell (fst r ++ [snd r])) rows_ex.
Proof.
  split; [apply words_ex_ok|]. split; [apply split_ex_ok|]. split; [vm_compute; split; discriminate|]. split.
  - constructor; [|constructor; [|constructor]]; (split; [reflexivity|]; split; [reflexivity|]; split; [reflexivity|];
      constructor; [reflexivity|constructor; [eexists; split; [|reflexivity]; reflexivity|constructor]]).
  - repeat constructor; discriminate.
Qed.

(** * C65 *)
(** Every tree whose root has children: the file is written, and whatever tree is read from it is a single leaf without a
    meaningful label.  A tree that is one leaf cannot be read at all. *)
Theorem C65_not_restored_refuted : forall stof fmt r_dist lab lf d n ch, inner_cond (t_cond n) ->
  forall text, tree_text fmt (Node lab lf d no_condition (n :: ch)) = Ok text ->
  forall t' s', tree_load stof r_dist (mkIn text true) = Ok (t', s') -> t_children t' = [] /\ In (t_label t') [""; "="; "<"; ">"].
Proof.
  intros stof fmt r_dist lab lf d n ch Hc text Et t' s' E. destruct (tree_lost stof fmt r_dist lab lf d n ch text t' s' Hc Et E) as (l & d' & -> & H).
  split; [reflexivity|exact H].
Qed.
Print Assumptions C65_not_restored_refuted.
Theorem C65_leaf_refuted : forall stof fmt r_dist lab lf d, word lab ->
  exists text, tree_text fmt (Node lab lf d no_condition []) = Ok text /\ tree_load stof r_dist (mkIn text true) = UB Uninit.
Proof. intros stof fmt r_dist lab lf d H. exact (leaf_lost stof fmt r_dist lab lf d H). Qed.
Print Assumptions C65_leaf_refuted.
Definition tree_ex : tree := Node "yes" false [("no", 1); ("yes", 2)] no_condition
  [Node "yes" true [("yes", 2)] (mkCond 0 CLt (Some (ACont (Fin 3)))) []; Node "no" true [("no", 1)] (mkCond 0 CGt (Some (ACont (Fin 3)))) []].
Example C65_not_restored_case : exists text s', tree_text num_ex tree_ex = Ok text /\
  tree_load stof_ex (fun s => Ok ([], s)) (mkIn text true) = Ok (Node "" true [] no_condition [], s').
Proof. eexists. eexists. split; [vm_compute; reflexivity|vm_compute; reflexivity]. Qed.
(** Pruning is not in the file: a pruned tree and the tree before pruning have the same file although they answer differently. *)
Theorem C65_pruning_lost_refuted : forall fmt lab d c ch, ch <> [] -> tree_text fmt (Node lab true d c ch) = tree_text fmt (Node lab false d c ch).
Proof. reflexivity. Qed.
Print Assumptions C65_pruning_lost_refuted.
Example C65_pruning_lost_case : let q := mkInst "?" [ACont (Fin 5)] None in
  node_predict (fun _ _ => "") tree_ex q = Ok "no" /\ node_predict (fun _ _ => "") (Node "yes" true [("no", 1); ("yes", 2)] no_condition (t_children tree_ex)) q = Ok "yes".
Proof. vm_compute. split; reflexivity. Qed.
(** Missing: the file serialize writes.  A tree in the layout of the shipped tree files is read back with the same answers on
    every instance that some child accepts at every inner node. *)
Theorem C65_layout_partial : forall stof r_dist t_dist num t, storable stof num t -> Forall (fun d => written_read t_dist r_dist d d) (leaf_dists t) ->
  exists t' s, tree_load stof r_dist (mkIn (tree_layout t_dist num t) true) = Ok (t', s) /\
    (forall max_item x, covered t x = true -> (isComposite x = true -> forall d, max_item d (possible_labels x) <> "") ->
       node_predict max_item t' x = node_predict max_item t x) /\
    (forall x, covered t x = true -> node_probability t' x = node_probability t x).
Proof.
  intros stof r_dist t_dist num t Ht Hd. destruct (reads_start _ _ _ (tree_reads stof r_dist t_dist num t Ht Hd)) as (s & E).
  exists (loaded t), s. split; [exact E|]. split.
  - intros max_item x Hc Hm. exact (loaded_predict stof num max_item t x Ht Hc Hm).
  - intros x Hc. exact (loaded_probability stof num t x Ht Hc).
Qed.
Print Assumptions C65_layout_partial.
Lemma int3 : integral (Fin 3).
Proof. exists 3%Z. reflexivity. Qed.
Lemma tree_ex_storable : storable stof_ex num_ex tree_ex.
Proof.
  destruct (stof_ex_ok _ int3) as [Hw Hs]. apply storable_inner; [reflexivity|discriminate|vm_compute; split; discriminate|].
  constructor; [|constructor; [|constructor]]; apply storable_leaf; try (split; [discriminate|reflexivity]);
    (split; [vm_compute; split; discriminate|split; [exact Hw|split; [exact Hs|auto]]]).
Qed.
Lemma dist1 k n : word k -> is_int (Z.of_nat n) -> written_read w_dist_ex r_dist_ex [(k, n)] [(k, n)].
Proof. intros Hk Hn. apply dist_ex_ok; [repeat constructor|vm_compute; split; discriminate|]. constructor; [split; assumption|constructor]. Qed.
Example C65_layout_case : storable stof_ex num_ex tree_ex /\ Forall (fun d => written_read w_dist_ex r_dist_ex d d) (leaf_dists tree_ex) /\
  covered tree_ex (mkInst "?" [ACont (Fin 5)] None) = true.
Proof.
  split; [exact tree_ex_storable|]. split; [|vm_compute; reflexivity].
  constructor; [|constructor; [|constructor]]; (apply dist1; [split; [discriminate|reflexivity]|vm_compute; split; discriminate]).
Qed.
(** On every other instance the tree read back answers the empty label, whatever the tree answered. *)
Theorem C65_uncovered_refuted : forall stof r_dist t_dist num t, storable stof num t -> Forall (fun d => written_read t_dist r_dist d d) (leaf_dists t) ->
  forall t' s, tree_load stof r_dist (mkIn (tree_layout t_dist num t) true) = Ok (t', s) ->
  forall max_item x p, covered t x = false -> isComposite x = false -> node_predict max_item t x = Ok p -> node_predict max_item t' x = Ok "".
Proof.
  intros stof r_dist t_dist num t Ht Hd t' s E max_item x p Hc Hx Hp.
  destruct (reads_start _ _ _ (tree_reads stof r_dist t_dist num t Ht Hd)) as (s0 & E0). rewrite E0 in E. injection E as <- _.
  exact (loaded_uncovered stof num max_item t x p Ht Hc Hx Hp).
Qed.
Print Assumptions C65_uncovered_refuted.
Definition tree_disc_ex : tree := Node "yes" false [("yes", 2)] no_condition [Node "yes" true [("yes", 2)] (mkCond 0 CEq (Some (ADisc "a"))) []].
Example C65_uncovered_case : storable stof_ex num_ex tree_disc_ex /\ covered tree_disc_ex (mkInst "?" [ADisc "b"] None) = false /\
  node_predict (fun _ _ => "") tree_disc_ex (mkInst "?" [ADisc "b"] None) = Ok "yes".
Proof.
  split; [|split; vm_compute; reflexivity]. apply storable_inner; [reflexivity|discriminate|vm_compute; split; discriminate|].
  constructor; [|constructor]. apply storable_leaf; [|split; [discriminate|reflexivity]]. split; [vm_compute; split; discriminate|]. split; [split; [discriminate|reflexivity]|reflexivity].
Qed.

(** * C82 *)
(** the dummy model: its distribution is what the file holds *)
Theorem C82_dummy : forall w_dist r_dist d old, written_read w_dist r_dist d d -> exists s, dummy_load r_dist old (mkIn (dummy_text w_dist d) true) = Ok (d, s).
Proof. intros w_dist r_dist d old H. exact (reads_start _ _ _ (reads_written _ _ _ _ H)). Qed.
Print Assumptions C82_dummy.
Example C82_dummy_case : written_read w_dist_ex r_dist_ex [("no", 3); ("yes", 12)] [("no", 3); ("yes", 12)].
Proof.
  apply dist_ex_ok; [repeat constructor|vm_compute; split; discriminate|]. repeat constructor; try discriminate; vm_compute; discriminate.
Qed.
(** the random model: the seed is not written, so the number of labels is taken for it, no label is loaded and predicting divides by zero *)
Theorem C82_random_refuted : forall sd labels l0, hd_error labels = Some l0 -> word l0 -> no_integer l0 -> is_int (Z.of_nat (List.length labels)) ->
  exists s, random_load sd [] (mkIn (random_text labels) true) = Ok ((Some (Z.of_nat (List.length labels)), []), s) /\
  forall r x, isComposite x = false -> random_predict r [] x = UB IntDivZero.
Proof.
  intros sd labels l0 H0 Hw Hn Hi. destruct labels as [|a ls]; [discriminate H0|]. injection H0 as ->. exists failed. split.
  - exact (random_lost sd (l0 :: ls) l0 ls eq_refl Hw Hn Hi).
  - intros r x Hx. unfold random_predict. rewrite Hx. reflexivity.
Qed.
Print Assumptions C82_random_refuted.
Example C82_random_case : word "setosa" /\ no_integer "setosa" /\ random_text ["setosa"; "virginica"] = (line "2" ++ line "setosa" ++ line "virginica")%string.
Proof. split; [split; [discriminate|reflexivity]|]. split; [repeat split; discriminate|vm_compute; reflexivity]. Qed.
(** the k nearest neighbours: k survives, the training data does not; every query is answered with the empty label *)
Theorem C82_knn_refuted : forall words split stof fmt old k l x0, is_int k -> hd_error l = Some x0 -> (exists a, In a (attrs x0) /\ isDiscreteIndexed a = false) ->
  exists text s, knn_text fmt k l = Ok text /\ knn_load words split stof old (mkIn text true) = Ok ((Some k, []), s) /\
    forall dist q, composite q = None -> knn_predict dist [] k q = Ok "".
Proof.
  intros words split stof fmt old k l x0 Hk H0 (a & Ha & Hn). destruct l as [|y l]; [discriminate H0|]. injection H0 as ->.
  assert (existsb plain_attr (attrs x0) = true) as Hp. { apply existsb_exists. exists a. unfold plain_attr. rewrite Hn. auto. }
  destruct (knn_text fmt k (x0 :: l)) as [text| | |] eqn:E; try (unfold knn_text, list_text in E; discriminate E).
  exists text, failed. split; [reflexivity|]. split; [exact (knn_lost words split stof fmt old k (x0 :: l) x0 text Hk eq_refl Hp E)|].
  intros dist q Hq. apply C48_no_neighbours; [exact Hq|left; reflexivity].
Qed.
Print Assumptions C82_knn_refuted.
(** kMeans: the prior survives, the means do not; every query is answered with the most frequent training label *)
Theorem C82_kmeans_refuted : forall words split stof fmt w_dist r_dist old m x0, written_read w_dist r_dist (km_prior m) (km_prior m) ->
  hd_error (km_means m) = Some x0 -> (exists a, In a (attrs x0) /\ isDiscreteIndexed a = false) ->
  exists text s, kmeans_text fmt w_dist m = Ok text /\ kmeans_load words split stof r_dist old (mkIn text true) = Ok (mkKM (km_prior m) [], s) /\
    forall dist q, composite q = None -> kmeans_predict dist (mkKM (km_prior m) []) q = Ok (cmax (km_prior m)).
Proof.
  intros words split stof fmt w_dist r_dist old m x0 (body & Eb & Hb) H0 (a & Ha & Hn).
  assert (existsb plain_attr (attrs x0) = true) as Hp. { apply existsb_exists. exists a. unfold plain_attr. rewrite Hn. auto. }
  destruct (list_text fmt (km_means m)) as [lt| | |] eqn:E; try (destruct (km_means m); [discriminate H0|unfold list_text in E; discriminate E]).
  exists (prior_text w_dist (km_prior m) ++ lt)%string, failed. split; [unfold kmeans_text; rewrite E; reflexivity|]. split.
  - unfold kmeans_load, prior_load, prior_text. rewrite Eb. unfold line. rewrite SerialProofs.sapp_assoc. cbn [String.append].
    rewrite (rbind_ok _ _ _ _ _ (Hb "" lt eq_refl)). rewrite (rbind_ok _ _ _ _ _ (proj2 (list_text_lost words split stof fmt _ x0 lt H0 Hp E))). reflexivity.
  - intros dist q Hq. unfold kmeans_predict, gauss_predict. rewrite Hq. cbn [bind fst snd]. 
    assert (forall ks c, foldM (gauss_step (km_prior m) (kmeans_metric dist (mkKM (km_prior m) []) q)) ks (dopp dbl_max, c) = Ok (dopp dbl_max, c)) as G.
    { induction ks as [|k ks IH]; intros c; [reflexivity|]. cbn [foldM]. unfold gauss_step at 1. unfold kmeans_metric. cbn [km_means find bind].
      destruct (mmem k (km_prior m)); cbn [bind]; [|apply IH]. replace (dgtb (dopp dbl_max) (fst (dopp dbl_max, c))) with false; [apply IH|]. vm_compute. reflexivity. }
    rewrite G. reflexivity.
Qed.
Print Assumptions C82_kmeans_refuted.
Example C82_kmeans_case : let m := mkKM [("no", 3); ("yes", 12)] insts_ex in
  written_read w_dist_ex r_dist_ex (km_prior m) (km_prior m) /\ exists x0, hd_error (km_means m) = Some x0 /\ exists a, In a (attrs x0) /\ isDiscreteIndexed a = false.
Proof. split; [exact C82_dummy_case|]. eexists. split; [reflexivity|]. exists (ADisc "red"). split; [left; reflexivity|reflexivity]. Qed.

(** linear discriminants: the extra line with the number of weights is taken for a label; predicting with the loaded model
    dereferences end() *)
Lemma fold_enddf (prior : counter) metric l0 : mmem l0 prior = true -> metric l0 = UB EndDeref -> (forall c, (exists v, metric c = Ok v) \/ metric c = UB EndDeref) ->
  forall ks st, In l0 ks -> foldM (gauss_step prior metric) ks st = UB EndDeref.
Proof.
  intros Hm Hl Hall. induction ks as [|k ks IH]; intros st Hin; [destruct Hin|]. cbn [foldM]. unfold gauss_step at 1.
  destruct (String.eqb_spec k l0) as [->|Hne].
  - rewrite Hm, Hl. reflexivity.
  - assert (In l0 ks) as Hin' by (destruct Hin as [->|H]; [contradiction|exact H]).
    destruct (mmem k prior); [|cbn [bind]; apply IH, Hin']. destruct (Hall k) as [(v & ->)| ->]; [cbn [bind]; apply IH, Hin'|reflexivity].
Qed.
Lemma mmem_in {V} k (m : smap V) : mmem k m = true -> In k (mkeys m).
Proof. unfold mmem. intros H. destruct (mfind k m) as [v|] eqn:E; [|discriminate H]. apply mfind_in in E. apply (in_map fst) in E. exact E. Qed.
Lemma gauss_enddf (prior : counter) metric l0 q : composite q = None -> mmem l0 prior = true -> metric l0 = UB EndDeref ->
  (forall c, (exists v, metric c = Ok v) \/ metric c = UB EndDeref) -> gauss_predict prior metric q = UB EndDeref.
Proof.
  intros Hq Hm Hl Hall. unfold gauss_predict. rewrite Hq. cbn [bind fst snd]. rewrite (fold_enddf prior metric l0 Hm Hl Hall (mkeys prior) _ (mmem_in _ _ Hm)). reflexivity.
Qed.
Lemma nonint_ne l0 n : word l0 -> no_integer l0 -> l0 <> show_nat n.
Proof.
  intros [Hw _] Hn E. destruct (show_nat_cons n) as (c & r & Es & Hc & _). rewrite Es in E. subst l0. destruct Hn as [Hd _]. rewrite Hd in Hc. discriminate Hc.
Qed.
Theorem C82_lda_refuted : forall show scan w_dist r_dist w_vec r_vec m l0, written_read w_dist r_dist (l_prior m) (l_prior m) ->
  hd_error (mkeys (l_w0 m)) = Some l0 -> mmem l0 (l_prior m) = true -> word l0 -> no_integer l0 -> no_numeral scan l0 -> is_int (Z.of_nat (List.length (l_w0 m))) ->
  forall m' s', lda_load scan r_dist r_vec lda_empty (mkIn (lda_text show w_dist w_vec m) true) = Ok (m', s') ->
  forall q, composite q = None -> lda_predict m' q = UB EndDeref.
Proof.
  intros show scan w_dist r_dist w_vec r_vec m l0 Hd H0 Hp Hw Hi Hn Hl m' s' E q Hq.
  destruct (l_w0 m) as [|[l1 w1] rest0] eqn:Ew; [discriminate H0|]. injection H0 as ->. rewrite <- Ew in Hl.
  assert (l_prior m <> []) as Hne by (intros X; rewrite X in Hp; discriminate Hp).
  destruct (lda_lost show scan w_dist r_dist w_vec r_vec m l0 w1 rest0 Ew Hd Hne Hl Hw Hn lda_empty m' s' E) as [E1 E2].
  unfold lda_predict. apply (gauss_enddf _ _ l0); [exact Hq|rewrite E1; exact Hp| |].
  - unfold lda_metric. rewrite E2. change (l_w0 lda_empty) with (@nil (string * dbl)). rewrite mfind_memplace. cbn [mfind].
    destruct (String.eqb_spec (show_nat (List.length (l_w0 m))) l0) as [X|X]; [symmetry in X; destruct (nonint_ne l0 _ Hw Hi X)|].
    destruct (String.eqb_spec l0 (show_nat (List.length (l_w0 m)))) as [Y|Y]; [destruct (nonint_ne l0 _ Hw Hi Y)|].
    destruct (mfind l0 (l_w m')); reflexivity.
  - intros c. unfold lda_metric. destruct (mfind c (l_w m')), (mfind c (l_w0 m')); eauto.
Qed.
Print Assumptions C82_lda_refuted.
(** a quadratic discriminant is saved as a linear one *)
Theorem C82_qda_refuted : forall show scan w_dist r_dist w_vec r_vec r_mat m l0, written_read w_dist r_dist (l_prior (q_lda m)) (l_prior (q_lda m)) ->
  hd_error (mkeys (l_w0 (q_lda m))) = Some l0 -> mmem l0 (l_prior (q_lda m)) = true -> word l0 -> no_integer l0 -> no_numeral scan l0 -> is_int (Z.of_nat (List.length (l_w0 (q_lda m)))) ->
  forall m' s', qda_load scan r_dist r_vec r_mat qda_empty (mkIn (qda_text show w_dist w_vec m) true) = Ok (m', s') ->
  forall q, composite q = None -> qda_predict m' q = UB EndDeref.
Proof.
  intros show scan w_dist r_dist w_vec r_vec r_mat [m W] l0 Hd H0 Hp Hw Hi Hn Hl m' s' E q Hq. cbn [q_lda] in *.
  destruct (l_w0 m) as [|[l1 w1] rest0] eqn:Ew; [discriminate H0|]. injection H0 as ->. rewrite <- Ew in Hl.
  assert (l_prior m <> []) as Hne by (intros X; rewrite X in Hp; discriminate Hp).
  unfold qda_load, qda_text, rbind at 1 in E. cbn [q_lda] in E. change (q_lda qda_empty) with lda_empty in E.
  apply bind_ok in E. destruct E as ([l s1] & El & E). cbn [fst snd] in E. unfold rbind at 1 in E. apply bind_ok in E. destruct E as (st & _ & E). injection E as <- _.
  destruct (lda_lost show scan w_dist r_dist w_vec r_vec m l0 w1 rest0 Ew Hd Hne Hl Hw Hn lda_empty l s1 El) as [E1 E2].
  unfold qda_predict. cbn [q_lda]. apply (gauss_enddf _ _ l0); [exact Hq|rewrite E1; exact Hp| |].
  - unfold qda_metric. cbn [q_lda q_W]. rewrite E2. change (l_w0 lda_empty) with (@nil (string * dbl)). rewrite mfind_memplace. cbn [mfind].
    destruct (String.eqb_spec (show_nat (List.length (l_w0 m))) l0) as [X|X]; [symmetry in X; destruct (nonint_ne l0 _ Hw Hi X)|].
    destruct (String.eqb_spec l0 (show_nat (List.length (l_w0 m)))) as [Y|Y]; [destruct (nonint_ne l0 _ Hw Hi Y)|].
    destruct (mfind l0 (snd (fst st))), (mfind l0 (l_w l)); reflexivity.
  - intros c. unfold qda_metric. cbn [q_lda q_W]. destruct (mfind c (snd (fst st))), (mfind c (l_w l)), (mfind c (l_w0 l)); eauto.
Qed.
Print Assumptions C82_qda_refuted.
Example C82_lda_case : let m := mkLda [("no", 3); ("yes", 12)] [("no", Fin 1); ("yes", Fin 2)] [("no", [Fin 1]); ("yes", [Fin 2])] in
  word "no" /\ no_integer "no" /\ no_numeral scan_ex "no" /\ mmem "no" (l_prior m) = true /\
  exists m' s', lda_load scan_ex r_dist_ex r_vec_ex lda_empty (mkIn (lda_text num_ex w_dist_ex w_vec_ex m) true) = Ok (m', s').
Proof.
  split; [split; [discriminate|reflexivity]|]. split; [repeat split; discriminate|]. split; [|split; [reflexivity|]].
  - intros c rest Hc. reflexivity.
  - eexists. eexists. vm_compute. reflexivity.
Qed.

(** naive Bayes with continuous features, new model, numbers that survive printing: the same answers *)
Theorem C82_bayes_partial : forall w_dist r_dist w_vec r_vec m, written_read w_dist r_dist (nb_prior m) (nb_prior m) ->
  Forall (fun e => word (fst e) /\ written_read w_vec r_vec (snd e) (snd e)) (nb_means m) -> Forall (fun e => word (fst e) /\ written_read w_vec r_vec (snd e) (snd e)) (nb_devs m) ->
  msorted (nb_means m) -> msorted (nb_devs m) -> List.length (nb_means m) = List.length (nb_prior m) -> List.length (nb_devs m) = List.length (nb_prior m) -> nb_dists m = [] ->
  exists m' s, bayes_load r_dist r_vec bayes_empty (mkIn (bayes_text w_dist w_vec m) true) = Ok (m', s) /\
    forall ln q, bayes_predict ln m' q = bayes_predict ln m q.
Proof.
  intros w_dist r_dist w_vec r_vec m Hd Hm Hv Sm Sv L0 L Hx.
  destruct (reads_start _ _ _ (bayes_back w_dist r_dist w_vec r_vec (fun v => v) m Hd Hm Hv Sm Sv L0 L)) as (s & E).
  eexists. exists s. split; [exact E|]. intros ln q. f_equal. destruct m as [p a b c]. cbn [nb_prior nb_means nb_devs nb_dists] in *. subst c. f_equal.
  - clear. induction a as [|[k v] a IH]; [reflexivity|]. cbn [map fst snd]. f_equal. exact IH.
  - clear. induction b as [|[k v] b IH]; [reflexivity|]. cbn [map fst snd]. f_equal. exact IH.
Qed.
Print Assumptions C82_bayes_partial.
Example C82_bayes_case : let m := mkNB [("no", 3); ("yes", 12)] [("no", [Fin 1; Fin 5]); ("yes", [Fin 2; Fin 7])] [("no", [Fin 1; Fin 2]); ("yes", [Fin 3; Fin 1])] [] in
  written_read w_dist_ex r_dist_ex (nb_prior m) (nb_prior m) /\
  Forall (fun e => word (fst e) /\ written_read w_vec_ex r_vec_ex (snd e) (snd e)) (nb_means m) /\ Forall (fun e => word (fst e) /\ written_read w_vec_ex r_vec_ex (snd e) (snd e)) (nb_devs m) /\
  msorted (nb_means m) /\ msorted (nb_devs m).
Proof.
  split; [exact C82_dummy_case|]. 
  assert (forall z1 z2, written_read w_vec_ex r_vec_ex [Fin (inject_Z z1); Fin (inject_Z z2)] [Fin (inject_Z z1); Fin (inject_Z z2)]) as V.
  { intros z1 z2. apply vec_ex_ok; [vm_compute; split; discriminate|]. constructor; [exists z1; reflexivity|constructor; [exists z2; reflexivity|constructor]]. }
  split; [constructor; [split; [split; [discriminate|reflexivity]|apply (V 1 5)%Z]|constructor; [split; [split; [discriminate|reflexivity]|apply (V 2 7)%Z]|constructor]]|].
  split; [constructor; [split; [split; [discriminate|reflexivity]|apply (V 1 2)%Z]|constructor; [split; [split; [discriminate|reflexivity]|apply (V 3 1)%Z]|constructor]]|].
  split; repeat constructor.
Qed.
(** naive Bayes with discrete features: the feature distributions are not in the file; predicting with the loaded model reads a
    discrete feature as a continuous one *)
Theorem C82_bayes_discrete_refuted : forall w_dist r_dist w_vec r_vec m, written_read w_dist r_dist (nb_prior m) (nb_prior m) -> nb_prior m <> [] ->
  forall m' s', bayes_load r_dist r_vec bayes_empty (mkIn (bayes_text w_dist w_vec m) true) = Ok (m', s') ->
  forall ln q a, composite q = None -> hd_error (attrs q) = Some a -> isContinuous a = false -> bayes_predict ln m' q = UB BadCast.
Proof.
  intros w_dist r_dist w_vec r_vec m (body & Eb & Hb) Hp m' s' E ln q a Hq Ha Hc. pose proof (bayes_dists r_dist r_vec _ _ _ _ E) as Hx.
  assert (nb_prior m' = nb_prior m) as Ep.
  { unfold bayes_load, bayes_text, prior_load, prior_text in E. rewrite Eb in E. unfold line in E. rewrite SerialProofs.sapp_assoc in E. cbn [String.append] in E.
    match type of E with rbind _ _ (mkIn (body ++ String nl ?t)%string true) = _ => set (tl := t) in E end.
    rewrite (rbind_ok _ _ _ _ _ (Hb "" tl eq_refl)) in E. unfold rbind at 1 in E. apply bind_ok in E. destruct E as (q1 & _ & E).
    unfold rbind at 1 in E. apply bind_ok in E. destruct E as (q2 & _ & E). injection E as <- _. reflexivity. }
  unfold bayes_predict, gauss_predict. rewrite Hq, Ep. cbn [bind fst snd]. destruct (nb_prior m) as [|[k n] p]; [congruence|]. cbn [mkeys map fst foldM].
  unfold gauss_step at 1. assert (mmem k ((k, n) :: p) = true) as Hk by (unfold mmem; cbn [mfind]; rewrite String.eqb_refl; reflexivity). rewrite Hk.
  unfold bayes_metric. rewrite Hx. cbn [nb_dists bayes_empty]. unfold bayes_ll_cont, attr_count. destruct (attrs q) as [|a0 rest0] eqn:Eq; [discriminate Ha|]. injection Ha as ->.
  cbn [List.length seq foldM]. unfold get_attr. rewrite Eq. change (at_ (a :: rest0) (Z.of_nat 0)) with (Ok (A := attr) a). cbn [bind]. destruct a; try discriminate Hc; reflexivity.
Qed.
Print Assumptions C82_bayes_discrete_refuted.
Example C82_bayes_discrete_case : let m := mkNB [("no", 3); ("yes", 12)] [] [] [("no", [[("red", 1)]]); ("yes", [[("red", 2)]])] in
  written_read w_dist_ex r_dist_ex (nb_prior m) (nb_prior m) /\
  (exists m' s', bayes_load r_dist_ex r_vec_ex bayes_empty (mkIn (bayes_text w_dist_ex w_vec_ex m) true) = Ok (m', s')) /\
  bayes_predict (fun d => d) m (mkInst "?" [ADisc "red"] None) = Ok "yes".
Proof. split; [exact C82_dummy_case|]. split; [eexists; eexists; vm_compute; reflexivity|vm_compute; reflexivity]. Qed.

(** ensembles: the first tree of every loaded ensemble is one leaf without a meaningful label *)
Theorem C82_ensemble_refuted : forall stof fmt r_dist lab lf d n ch f, inner_cond (t_cond n) -> is_int (Z.of_nat (S (List.length f))) ->
  forall text, ensemble_text fmt (Node lab lf d no_condition (n :: ch) :: f) = Ok text ->
  forall f' s', ensemble_load stof r_dist [] (mkIn text true) = Ok (f', s') ->
  exists t more, f' = t :: more /\ t_children t = [] /\ In (t_label t) [""; "="; "<"; ">"].
Proof.
  intros stof fmt r_dist lab lf d n ch f Hc Hl text Et f' s' E.
  destruct (ensemble_lost stof fmt r_dist [] lab lf d n ch f text f' s' Hc Hl Et E) as (l & d' & more & -> & H). exists (Node l true d' no_condition []), more. auto.
Qed.
Print Assumptions C82_ensemble_refuted.
Example C82_ensemble_case : exists text f' s', ensemble_text num_ex [tree_ex] = Ok text /\ ensemble_load stof_ex r_dist_ex [] (mkIn text true) = Ok (f', s').
Proof. eexists. eexists. eexists. split; [vm_compute; reflexivity|vm_compute; reflexivity]. Qed.

(** networks: the weights are not in the file, so no loader at all can restore the model *)
Theorem C82_network_refuted : forall load : string -> linear, exists m x, exists k d,
  linear_predict (load (net_text k d (li_labels m))) x <> linear_predict m x /\ k = List.length (li_labels m) /\ d = attr_count x.
Proof.
  intros load. set (m1 := mkLin ["a"; "b"] [] (mkMat 1 [[d1]; [d0]])). set (m2 := mkLin ["a"; "b"] [] (mkMat 1 [[d0]; [d1]])).
  set (x := mkInst "a" [] None).
  destruct (linear_predict (load (net_text 2 0 ["a"; "b"])) x) as [[p y]| | |] eqn:E.
  - destruct (String.eqb_spec p "a") as [->|Hne].
    + exists m2, x, 2, 0. split; [|split; reflexivity]. change (li_labels m2) with ["a"; "b"]. rewrite E. vm_compute. discriminate.
    + exists m1, x, 2, 0. split; [|split; reflexivity]. change (li_labels m1) with ["a"; "b"]. rewrite E. vm_compute. congruence.
  - exists m1, x, 2, 0. split; [|split; reflexivity]. change (li_labels m1) with ["a"; "b"]. rewrite E. vm_compute. discriminate.
  - exists m1, x, 2, 0. split; [|split; reflexivity]. change (li_labels m1) with ["a"; "b"]. rewrite E. vm_compute. discriminate.
  - exists m1, x, 2, 0. split; [|split; reflexivity]. change (li_labels m1) with ["a"; "b"]. rewrite E. vm_compute. discriminate.
Qed.
Print Assumptions C82_network_refuted.

(** support vector machines: everything written is read back, each number as its printed form *)
Theorem C82_svm_fields_partial : forall show scan w_dist r_dist rnd m, svm_ok show scan w_dist r_dist rnd m ->
  exists m' s, svm_load scan r_dist (mkIn (svm_text show w_dist m) true) = Ok (m', s) /\
    m_ncl m' = m_ncl m /\ m_nprob m' = m_nprob m /\ m_dist m' = m_dist m /\ m_nsv m' = m_nsv m /\ m_rho m' = map rnd (m_rho m) /\
    m_sv m' = map (map (fun n => (fst n, rnd (snd n)))) (m_sv m) /\ m_coef m' = map (map rnd) (m_coef m).
Proof.
  intros show scan w_dist r_dist rnd m H. destruct (reads_start _ _ _ (svm_reads show scan w_dist r_dist rnd m H)) as (s & E).
  eexists. exists s. split; [exact E|]. repeat split.
Qed.
Print Assumptions C82_svm_fields_partial.
(** but the kernel parameters are not written and the member holding them is never set: predicting reads it *)
Theorem C82_svm_refuted : forall show scan w_dist r_dist rnd m, svm_ok show scan w_dist r_dist rnd m -> m_sv m <> [] ->
  exists m' s, svm_load scan r_dist (mkIn (svm_text show w_dist m) true) = Ok (m', s) /\
    forall dexp dtanh dpow q, svm_predict dexp dtanh dpow m' q = UB Uninit.
Proof.
  intros show scan w_dist r_dist rnd m H Hne. destruct (reads_start _ _ _ (svm_reads show scan w_dist r_dist rnd m H)) as (s & E).
  eexists. exists s. split; [exact E|]. intros dexp dtanh dpow q. unfold svm_predict, predict_values. cbn [m_sv m_par].
  destruct (m_sv m) as [|v sv]; [congruence|]. reflexivity.
Qed.
Print Assumptions C82_svm_refuted.
Definition svm_ex : svm := mkSvm [("no", 1); ("yes", 1)] [Fin (-1)] [1; 1] [[(1%Z, Fin 2)]; [(1%Z, Fin 4)]] [[Fin 1; Fin (-1)]] None 2 1.
Example C82_svm_case : svm_ok num_ex scan_ex w_dist_ex r_dist_ex (fun d => d) svm_ex /\ m_sv svm_ex <> [].
Proof.
  assert (forall z, numeral scan_ex (num_ex (Fin (inject_Z z))) (Fin (inject_Z z))) as N by (intros z; apply num_ex_ok; exists z; reflexivity).
  assert (forall n, Nat.leb n 100 = true -> is_int (Z.of_nat n)) as I by (intros n Hn; apply Nat.leb_le in Hn; unfold is_int; lia).
  assert (is_int 1) as I1 by (unfold is_int; lia).
  split; [|discriminate]. unfold svm_ok. cbn [m_ncl m_nprob m_dist m_rho m_nsv m_sv m_coef svm_ex].
  split; [apply I; reflexivity|]. split; [apply I; reflexivity|].
  split. { apply dist_ex_ok; [repeat constructor|apply I; reflexivity|]. repeat constructor; try discriminate; apply (I 1 eq_refl). }
  split; [apply I; reflexivity|]. split; [constructor; [apply (N (-1)%Z)|constructor]|].
  split; [apply I; reflexivity|]. split; [constructor; [apply I; reflexivity|constructor; [apply I; reflexivity|constructor]]|].
  split; [apply I; reflexivity|]. split.
  { constructor; [|constructor; [|constructor]]; (split; [apply I; reflexivity|]); (constructor; [split; [exact I1|]|constructor]); [apply (N 2%Z)|apply (N 4%Z)]. }
  split; [apply I; reflexivity|]. constructor; [|constructor]. split; [apply I; reflexivity|]. constructor; [apply (N 1%Z)|constructor; [apply (N (-1)%Z)|constructor]].
Qed.

(** * C99: files in the layout of the shipped models, loaded into a new model *)
Theorem C99_random : forall sd seed labels, is_int seed -> is_int (Z.of_nat (List.length labels)) -> Forall word labels ->
  exists s, random_load sd [] (mkIn (random_layout seed labels) true) = Ok ((Some seed, labels), s).
Proof. intros sd seed labels H1 H2 H3. exact (reads_start _ _ _ (random_reads sd [] seed labels H1 H2 H3)). Qed.
Print Assumptions C99_random.
Example C99_random_case : Forall word ["setosa"; "virginica"] /\ is_int 1.
Proof. split; [repeat constructor; discriminate|unfold is_int; lia]. Qed.
(** the k nearest neighbours *)
Theorem C99_knn : forall words split stof old k cols rows xs, words_ok words -> split_ok split "," -> is_int k -> is_int (Z.of_nat (List.length rows)) ->
  Forall2 (row_instance stof cols) rows xs -> Forall (fun r => Forall clean_cell (fst r ++ [snd r])) rows ->
  exists s, knn_load words split stof old (mkIn (knn_layout k cols rows) true) = Ok ((Some k, xs), s).
Proof.
  intros words split stof old k cols rows xs Hw Hs Hk Hl Hx Hc. exists (mkIn "" true). unfold knn_load, knn_layout, line. rewrite SerialProofs.sapp_assoc. cbn [String.append].
  rewrite (rbind_ok (rd_int old) _ _ (Some k) (mkIn (String nl (list_layout cols rows)) true) (int_shown old "" k nl _ eq_refl eq_refl Hk)).
  pose proof (list_reads words split stof cols rows xs "" Hw Hs Hl Hx Hc) as E. rewrite SerialProofs.sapp_nil in E. rewrite (rbind_ok _ _ _ _ _ E). reflexivity.
Qed.
Print Assumptions C99_knn.
Theorem C99_kmeans : forall words split stof r_dist t_dist old prior cols rows xs, words_ok words -> split_ok split "," -> written_read t_dist r_dist prior prior ->
  is_int (Z.of_nat (List.length rows)) -> Forall2 (row_instance stof cols) rows xs -> Forall (fun r => Forall clean_cell (fst r ++ [snd r])) rows ->
  exists s, kmeans_load words split stof r_dist old (mkIn (kmeans_layout t_dist prior cols rows) true) = Ok (mkKM prior xs, s).
Proof.
  intros words split stof r_dist t_dist old prior cols rows xs Hw Hs (body & Eb & Hb) Hl Hx Hc. exists (mkIn "" true). unfold kmeans_load, kmeans_layout, prior_load. rewrite Eb.
  unfold line. rewrite SerialProofs.sapp_assoc. cbn [String.append]. rewrite (rbind_ok _ _ _ _ _ (Hb "" (list_layout cols rows) eq_refl)).
  pose proof (list_reads words split stof cols rows xs "" Hw Hs Hl Hx Hc) as E. rewrite SerialProofs.sapp_nil in E. rewrite (rbind_ok _ _ _ _ _ E). reflexivity.
Qed.
Print Assumptions C99_kmeans.
(** the discriminants and naive Bayes: each label gets the first value the file gives it *)
Theorem C99_lda : forall scan r_dist r_vec t_dist t_vec num prior w0 w, written_read t_dist r_dist prior prior ->
  Forall (fun e => word (fst e) /\ numeral scan (num (snd e)) (snd e)) w0 -> Forall (fun e => word (fst e) /\ written_read t_vec r_vec (snd e) (snd e)) w ->
  List.length w0 = List.length prior -> List.length w = List.length prior ->
  exists m s, lda_load scan r_dist r_vec lda_empty (mkIn (lda_layout t_dist t_vec num prior w0 w) true) = Ok (m, s) /\
    l_prior m = prior /\ (forall c, mfind c (l_w0 m) = mfind c w0) /\ (forall c, mfind c (l_w m) = mfind c w).
Proof.
  intros scan r_dist r_vec t_dist t_vec num prior w0 w Hd H0 Hw L0 L. destruct (reads_start _ _ _ (lda_reads scan r_dist r_vec t_dist t_vec num lda_empty prior w0 w Hd H0 Hw L0 L)) as (s & E).
  eexists. exists s. split; [exact E|]. split; [reflexivity|]. cbn [l_w0 l_w]. split; intros c; rewrite fold_memplace; reflexivity.
Qed.
Print Assumptions C99_lda.
Theorem C99_qda : forall scan r_dist r_vec r_mat t_dist t_vec t_mat num prior w0 w W, written_read t_dist r_dist prior prior ->
  Forall (fun e => word (fst e) /\ numeral scan (num (snd e)) (snd e)) w0 -> Forall (fun e => word (fst e) /\ written_read t_vec r_vec (snd e) (snd e)) w ->
  Forall (fun e => word (fst e) /\ written_read t_mat r_mat (snd e) (snd e)) W ->
  List.length w0 = List.length prior -> List.length w = List.length prior -> List.length W = List.length prior ->
  exists m s, qda_load scan r_dist r_vec r_mat qda_empty (mkIn (qda_layout t_dist t_vec t_mat num prior w0 w W) true) = Ok (m, s) /\
    l_prior (q_lda m) = prior /\ (forall c, mfind c (l_w0 (q_lda m)) = mfind c w0) /\ (forall c, mfind c (l_w (q_lda m)) = mfind c w) /\
    (forall c, mfind c (q_W m) = match mfind c W with Some M => Some (mrow M) | None => None end).
Proof.
  intros scan r_dist r_vec r_mat t_dist t_vec t_mat num prior w0 w W Hd H0 Hw HW L0 L LW.
  destruct (reads_start _ _ _ (qda_reads scan r_dist r_vec r_mat t_dist t_vec t_mat num qda_empty prior w0 w W Hd H0 Hw HW L0 L LW)) as (s & E).
  eexists. exists s. split; [exact E|]. split; [reflexivity|]. cbn [q_lda q_W l_w0 l_w]. repeat split; intros c; rewrite fold_memplace; try reflexivity.
  cbn [mfind q_W qda_empty]. clear. induction W as [|[k M] W IH]; [reflexivity|]. cbn [map mfind fst snd]. destruct (String.eqb c k); [reflexivity|exact IH].
Qed.
Print Assumptions C99_qda.
Theorem C99_bayes : forall r_dist r_vec t_dist t_vec prior means devs, written_read t_dist r_dist prior prior ->
  Forall (fun e => word (fst e) /\ written_read t_vec r_vec (snd e) (snd e)) means -> Forall (fun e => word (fst e) /\ written_read t_vec r_vec (snd e) (snd e)) devs ->
  List.length means = List.length prior -> List.length devs = List.length prior ->
  exists m s, bayes_load r_dist r_vec bayes_empty (mkIn (bayes_layout t_dist t_vec prior means devs) true) = Ok (m, s) /\
    nb_prior m = prior /\ (forall c, mfind c (nb_means m) = mfind c means) /\ (forall c, mfind c (nb_devs m) = mfind c devs) /\ nb_dists m = [].
Proof.
  intros r_dist r_vec t_dist t_vec prior means devs Hd Hm Hv L0 L. destruct (reads_start _ _ _ (bayes_reads r_dist r_vec t_dist t_vec bayes_empty prior means devs Hd Hm Hv L0 L)) as (s & E).
  eexists. exists s. split; [exact E|]. split; [reflexivity|]. cbn [nb_means nb_devs nb_dists]. split; [|split; [|reflexivity]]; intros c; rewrite fold_memplace; reflexivity.
Qed.
Print Assumptions C99_bayes.
(** ensembles: the answers of every tree *)
Theorem C99_ensemble : forall stof r_dist t_dist num f, Forall (storable stof num) f -> Forall (fun d => written_read t_dist r_dist d d) (flat_map leaf_dists f) ->
  is_int (Z.of_nat (List.length f)) ->
  exists f' s, ensemble_load stof r_dist [] (mkIn (ensemble_layout t_dist num f) true) = Ok (f', s) /\
    Forall2 (fun t t' => forall max_item x, covered t x = true -> (isComposite x = true -> forall d, max_item d (possible_labels x) <> "") ->
                           node_predict max_item t' x = node_predict max_item t x) f f'.
Proof.
  intros stof r_dist t_dist num f Hf Hd Hl. destruct (reads_start _ _ _ (ensemble_reads stof r_dist t_dist num [] f Hf Hd Hl)) as (s & E).
  exists (map loaded f), s. split; [exact E|]. clear - Hf. induction Hf as [|t f Ht Hf IH]; [constructor|]. cbn [map]. constructor; [|exact IH].
  intros max_item x Hc Hm. exact (loaded_predict stof num max_item t x Ht Hc Hm).
Qed.
Print Assumptions C99_ensemble.
(** networks *)
Theorem C99_networks : forall r_mat t_mat n labels, is_int (Z.of_nat (List.length labels)) -> is_int (Z.of_nat n) -> Forall word labels ->
  (forall k d w y, written_read t_mat r_mat w w ->
     exists s, linear_load r_mat k d (mkLin [] y (mkMat 0 [])) (mkIn (linear_layout t_mat n labels w) true) = Ok (mkLin labels y w, s)) /\
  (forall k d w v a y a0, written_read t_mat r_mat w w -> written_read t_mat r_mat v v ->
     exists s, mlp_load r_mat k d (mkMlp [] y (mkMat 0 []) (mkMat 0 []) a0) (mkIn (mlp_layout t_mat n labels w v a) true) = Ok (mkMlp labels y w v a, s)) /\
  (forall k d h0 h ws a y n0 a0, is_int (Z.of_nat h) -> List.length ws = S h -> Forall (fun w => written_read t_mat r_mat w w) ws ->
     exists s, deep_load r_mat k d h0 (mkDeep [] y [] n0 a0) (mkIn (deep_layout t_mat n labels h ws a) true) = Ok (mkDeep labels y ws h a, s)).
Proof.
  intros r_mat t_mat n labels Hl Hn Hw. split; [|split].
  - intros k d w y H. exact (reads_start _ _ _ (linear_reads r_mat t_mat k d (mkLin [] y (mkMat 0 [])) n labels w Hl Hn Hw H)).
  - intros k d w v a y a0 H1 H2. exact (reads_start _ _ _ (mlp_reads r_mat t_mat k d (mkMlp [] y (mkMat 0 []) (mkMat 0 []) a0) n labels w v a Hl Hn Hw H1 H2)).
  - intros k d h0 h ws a y n0 a0 H1 H2 H3. exact (reads_start _ _ _ (deep_reads r_mat t_mat k d h0 (mkDeep [] y [] n0 a0) n labels h ws a Hl Hn Hw H1 H2 H3)).
Qed.
Print Assumptions C99_networks.
Lemma mat1 z : written_read w_mat_ex r_mat_ex (mkMat 1 [[Fin (inject_Z z)]]) (mkMat 1 [[Fin (inject_Z z)]]).
Proof.
  apply mat_ex_ok; [vm_compute; split; discriminate|vm_compute; split; discriminate|]. constructor; [|constructor]. split; [vm_compute; split; discriminate|].
  constructor; [exists z; reflexivity|constructor].
Qed.
Lemma vec1 z : written_read w_vec_ex r_vec_ex [Fin (inject_Z z)] [Fin (inject_Z z)].
Proof. apply vec_ex_ok; [vm_compute; split; discriminate|]. constructor; [exists z; reflexivity|constructor]. Qed.
Example C99_case : written_read w_dist_ex r_dist_ex [("no", 3); ("yes", 12)] [("no", 3); ("yes", 12)] /\
  Forall (fun e => word (fst e) /\ numeral scan_ex (num_ex (snd e)) (snd e)) [("no", Fin 1); ("yes", Fin 2)] /\
  Forall (fun e => word (fst e) /\ written_read w_vec_ex r_vec_ex (snd e) (snd e)) [("no", [Fin 1]); ("yes", [Fin 2])] /\
  Forall (fun e => word (fst e) /\ written_read w_mat_ex r_mat_ex (snd e) (snd e)) [("no", mkMat 1 [[Fin 1]]); ("yes", mkMat 1 [[Fin 2]])] /\
  Forall (storable stof_ex num_ex) [tree_ex; tree_disc_ex].
Proof.
  assert (word "no" /\ word "yes") as [W1 W2] by (split; (split; [discriminate|reflexivity])).
  split; [exact C82_dummy_case|].
  split; [constructor; [split; [exact W1|apply num_ex_ok; exists 1%Z; reflexivity]|constructor; [split; [exact W2|apply num_ex_ok; exists 2%Z; reflexivity]|constructor]]|].
  split; [constructor; [split; [exact W1|apply (vec1 1)]|constructor; [split; [exact W2|apply (vec1 2)]|constructor]]|].
  split; [constructor; [split; [exact W1|apply (mat1 1)]|constructor; [split; [exact W2|apply (mat1 2)]|constructor]]|].
  constructor; [exact tree_ex_storable|constructor; [exact (proj1 C65_uncovered_case)|constructor]].
Qed.

(** * C100: loading into a model that already holds something *)
(** the dummy model, kMeans and the trees hold afterwards what a new model would hold; so does k nearest neighbours when its file starts with k *)
Theorem C100_replaced_partial : forall words split stof r_dist, 
  (forall old old' file, dummy_load r_dist old file = dummy_load r_dist old' file) /\
  (forall old old' file, kmeans_load words split stof r_dist old file = kmeans_load words split stof r_dist old' file) /\
  (forall old old' k text, is_int k -> knn_load words split stof old (mkIn (line (show_Z k) ++ text)%string true) = knn_load words split stof old' (mkIn (line (show_Z k) ++ text)%string true)).
Proof.
  intros words split stof r_dist. split; [reflexivity|]. split; [reflexivity|]. intros old old' k text Hk. unfold knn_load, line. rewrite SerialProofs.sapp_assoc. cbn [String.append].
  rewrite (rbind_ok (rd_int old) _ _ (Some k) (mkIn (String nl text) true) (int_shown old "" k nl _ eq_refl eq_refl Hk)).
  rewrite (rbind_ok (rd_int old') _ _ (Some k) (mkIn (String nl text) true) (int_shown old' "" k nl _ eq_refl eq_refl Hk)). reflexivity.
Qed.
Print Assumptions C100_replaced_partial.
(** the random model: the labels are added to those already there *)
Theorem C100_random_refuted : forall sd old seed labels, is_int seed -> is_int (Z.of_nat (List.length labels)) -> Forall word labels ->
  exists s, random_load sd old (mkIn (random_layout seed labels) true) = Ok ((Some seed, old ++ labels), s).
Proof. intros sd old seed labels H1 H2 H3. exact (reads_start _ _ _ (random_reads sd old seed labels H1 H2 H3)). Qed.
Print Assumptions C100_random_refuted.
(** the linear discriminant: a label the model already knows keeps its old weights *)
Theorem C100_lda_refuted : forall scan r_dist r_vec t_dist t_vec num old prior w0 w, written_read t_dist r_dist prior prior ->
  Forall (fun e => word (fst e) /\ numeral scan (num (snd e)) (snd e)) w0 -> Forall (fun e => word (fst e) /\ written_read t_vec r_vec (snd e) (snd e)) w ->
  List.length w0 = List.length prior -> List.length w = List.length prior ->
  exists m s, lda_load scan r_dist r_vec old (mkIn (lda_layout t_dist t_vec num prior w0 w) true) = Ok (m, s) /\
    (forall c v, mfind c (l_w0 old) = Some v -> mfind c (l_w0 m) = Some v) /\ (forall c v, mfind c (l_w old) = Some v -> mfind c (l_w m) = Some v).
Proof.
  intros scan r_dist r_vec t_dist t_vec num old prior w0 w Hd H0 Hw L0 L. destruct (reads_start _ _ _ (lda_reads scan r_dist r_vec t_dist t_vec num old prior w0 w Hd H0 Hw L0 L)) as (s & E).
  eexists. exists s. split; [exact E|]. cbn [l_w0 l_w]. split; intros c v Hc; rewrite fold_memplace, Hc; reflexivity.
Qed.
Print Assumptions C100_lda_refuted.
(** naive Bayes: a label the model already knows keeps its old means *)
Theorem C100_bayes_refuted : forall r_dist r_vec t_dist t_vec old prior means devs, written_read t_dist r_dist prior prior ->
  Forall (fun e => word (fst e) /\ written_read t_vec r_vec (snd e) (snd e)) means -> Forall (fun e => word (fst e) /\ written_read t_vec r_vec (snd e) (snd e)) devs ->
  List.length means = List.length prior -> List.length devs = List.length prior ->
  exists m s, bayes_load r_dist r_vec old (mkIn (bayes_layout t_dist t_vec prior means devs) true) = Ok (m, s) /\
    (forall c v, mfind c (nb_means old) = Some v -> mfind c (nb_means m) = Some v) /\ nb_dists m = nb_dists old.
Proof.
  intros r_dist r_vec t_dist t_vec old prior means devs Hd Hm Hv L0 L. destruct (reads_start _ _ _ (bayes_reads r_dist r_vec t_dist t_vec old prior means devs Hd Hm Hv L0 L)) as (s & E).
  eexists. exists s. split; [exact E|]. cbn [nb_means nb_dists]. split; [|reflexivity]. intros c v Hc. rewrite fold_memplace, Hc. reflexivity.
Qed.
Print Assumptions C100_bayes_refuted.
(** ensembles: the trees are added to those already there; networks: so are the labels and the weights of a deep network *)
Theorem C100_ensemble_refuted : forall stof r_dist t_dist num old f, Forall (storable stof num) f -> Forall (fun d => written_read t_dist r_dist d d) (flat_map leaf_dists f) ->
  is_int (Z.of_nat (List.length f)) ->
  exists f' s, ensemble_load stof r_dist old (mkIn (ensemble_layout t_dist num f) true) = Ok (old ++ f', s) /\ List.length f' = List.length f.
Proof.
  intros stof r_dist t_dist num old f Hf Hd Hl. destruct (reads_start _ _ _ (ensemble_reads stof r_dist t_dist num old f Hf Hd Hl)) as (s & E).
  exists (map loaded f), s. split; [exact E|apply map_length].
Qed.
Print Assumptions C100_ensemble_refuted.
Theorem C100_deep_refuted : forall r_mat t_mat n labels h ws a old k d h0, is_int (Z.of_nat (List.length labels)) -> is_int (Z.of_nat n) -> Forall word labels ->
  is_int (Z.of_nat h) -> List.length ws = S h -> Forall (fun w => written_read t_mat r_mat w w) ws ->
  exists m s, deep_load r_mat k d h0 old (mkIn (deep_layout t_mat n labels h ws a) true) = Ok (m, s) /\
    de_labels m = de_labels old ++ labels /\ de_weights m = de_weights old ++ ws /\ de_layers m = h.
Proof.
  intros r_mat t_mat n labels h ws a old k d h0 Hl Hn Hw H1 H2 H3. destruct (reads_start _ _ _ (deep_reads r_mat t_mat k d h0 old n labels h ws a Hl Hn Hw H1 H2 H3)) as (s & E).
  eexists. exists s. split; [exact E|]. repeat split.
Qed.
Print Assumptions C100_deep_refuted.
Example C100_case : Forall (fun w => written_read w_mat_ex r_mat_ex w w) [mkMat 1 [[Fin 3]]; mkMat 1 [[Fin (-2)]]] /\ List.length [mkMat 1 [[Fin 3]]; mkMat 1 [[Fin (-2)]]] = 2 /\
  mfind "no" (l_w0 (mkLda [] [("no", Fin 9)] [])) = Some (Fin 9).
Proof. split; [constructor; [apply (mat1 3)|constructor; [apply (mat1 (-2))|constructor]]|]. split; reflexivity. Qed.
