(** C147: what telling the possible labels of a query does. *)
From Coq Require Import String ZArith QArith Bool Lia Lqa Permutation Arith List.
From Verif Require Import Base Spec BaseLemmas SortLemmas DblLemmas AttrModel InstanceListModel ListSpec ListProofs PartitionProofs DistanceModel DistanceSpec DistanceProofs
  GaussianModel GaussianSpec GaussianProofs GaussianProps TreeModel TreeSpec TreeGrowProofs EnsembleModel EnsembleProps EnsembleProofs NetModel NetSpec NetProofs NetTrainProofs SoftModel SvmSpec KernelProofs SvmModel TreeProps FeatOrderProofs NarrowSpec NarrowProofs.
Import ListNotations.
Local Open Scope string_scope.
Local Open Scope list_scope.
Local Open Scope nat_scope.

(** * Classifiers that compare scores: a class with the same score, and the same class if no other possible label has its score *)
Theorem C147_scores : forall prior metric q ls c v, composite q = None -> gauss_predict prior metric q = Ok c -> In c (mkeys prior) -> metric c = Ok v -> dltb (dopp dbl_max) v = true -> In c ls ->
  forall c', gauss_predict prior metric (narrowed ls q) = Ok c' ->
  (exists v', metric c' = Ok v' /\ In c' ls /\ deq v v') /\
  ((forall c1 v1, In c1 ls -> In c1 (mkeys prior) -> c1 <> c -> metric c1 = Ok v1 -> ~ deq v v1) -> c' = c).
Proof.
  intros prior metric q ls c v Hq E Hc Ev Hv Hls c' E'. destruct (gauss_narrow prior metric q ls c v c' Hq E Hc Ev Hv Hls E') as (v' & E1 & I1 & K1 & D). split; [exists v'; repeat split; assumption|].
  intros H. destruct (string_dec c' c) as [X|Ne]; [exact X|]. exfalso. exact (H c' v' I1 K1 Ne E1 D).
Qed.
Print Assumptions C147_scores.
(** the four classifiers of this kind; the scores are those of the plain query *)
Theorem C147_metrics : forall ls q, (forall m c, lda_metric m (narrowed ls q) c = lda_metric m q c) /\ (forall m c, qda_metric m (narrowed ls q) c = qda_metric m q c) /\
  (forall ln m c, bayes_metric ln m (narrowed ls q) c = bayes_metric ln m q c) /\ (forall m c, kmeans_metric eucl m (narrowed ls q) c = kmeans_metric eucl m q c).
Proof. intros ls q. repeat split. Qed.
Print Assumptions C147_metrics.
Theorem C147_bayes : forall ln m q ls c v, composite q = None -> bayes_predict ln m q = Ok c -> In c (mkeys (nb_prior m)) -> bayes_metric ln m q c = Ok v -> dltb (dopp dbl_max) v = true -> In c ls ->
  (forall c1 v1, In c1 ls -> In c1 (mkeys (nb_prior m)) -> c1 <> c -> bayes_metric ln m q c1 = Ok v1 -> ~ deq v v1) ->
  (forall c1, In c1 (mkeys (nb_prior m)) -> exists v1, bayes_metric ln m q c1 = Ok v1) -> bayes_predict ln m (narrowed ls q) = Ok c.
Proof.
  intros ln m q ls c v Hq E Hc Ev Hv Hls N T. unfold bayes_predict in *.
  destruct (C49_answers (nb_prior m) (bayes_metric ln m (narrowed ls q)) (narrowed ls q)) as (c' & E'). { cbn. intros X. injection X as ->. contradiction. } { exact T. }
  destruct (C147_scores _ _ q ls c v Hq E Hc Ev Hv Hls c' E') as (_ & K). rewrite E'. f_equal. apply K, N.
Qed.
Print Assumptions C147_bayes.
(** * Neural networks: the first best possible label *)
Theorem C147_networks : forall labels y q f ls c, is_vec y (length labels) f -> labels <> [] -> NoDup labels -> composite q = None -> (forall j, j < length labels -> (- MAXQ < f j)%Q) ->
  choose labels y q = Ok c -> In c ls -> choose labels y (narrowed ls q) = Ok c.
Proof.
  intros labels y q f ls c Hy Hl ND Hq Hr E Hc. destruct (choose_val labels y q f Hy Hl Hq) as (c0 & E0 & i & Ei & _ & Hle & Hlt). assert (c0 = c) by congruence. subst c0.
  destruct (chosen_ok labels y (narrowed ls q) f Hy Hl) as (c' & Ec' & HC). { cbn. intros X. injection X as ->. contradiction. } { right. exact Hr. }
  rewrite Ec'. f_equal. cbn in HC. destruct HC as (_ & HC & _). destruct HC as (i' & Ei' & Hin & Hle' & Hlt'). { exists c. split; [apply (nth_error_In _ _ Ei)|exact Hc]. }
  assert (i' = i); [|congruence]. destruct (Nat.lt_trichotomy i' i) as [L|[X|L]]; [|exact X|].
  - pose proof (Hlt i' c' L Ei' I). pose proof (Hle' i c Ei Hc). lra.
  - pose proof (Hlt' i c L Ei Hc). pose proof (Hle i' c' Ei' I). lra.
Qed.
Print Assumptions C147_networks.
(** * Nearest neighbours *)
(** nothing changes if the labels of the neighbours are possible; in particular with one neighbour *)
Theorem C147_knn : forall dist data k q d ls, composite q = None -> (forall x, In x data -> dist x q = Ok (d x) /\ is_nan (d x) = false /\ dist x (narrowed ls q) = dist x q) ->
  forall ns, nearest dist data k q = Ok ns -> (forall x, In x ns -> In (label x) ls) -> ns <> [] ->
  nearest dist data k (narrowed ls q) = Ok ns /\ knn_predict dist data k (narrowed ls q) = knn_predict dist data k q /\ knn_probability dist data k (narrowed ls q) = knn_probability dist data k q.
Proof.
  intros dist data k q d ls Hq HD ns E HN Hne.
  assert (HD' : forall x, In x data -> dist x q = Ok (d x) /\ is_nan (d x) = false) by (intros x Hx; destruct (HD x Hx) as (A & B & _); split; assumption).
  assert (EN : nearest dist data k (narrowed ls q) = Ok ns).
  { rewrite (narrow_nearest dist data k q d HD' ls) by (intros x Hx; apply HD, Hx). rewrite (plain_nearest dist data k q d Hq HD') in E. injection E as <-. f_equal. apply firstn_filter. apply Forall_forall. intros x Hx.
    unfold mem_str. apply existsb_exists. exists (label x). split; [apply HN, Hx|apply String.eqb_refl]. }
  split; [exact EN|]. unfold knn_predict, knn_probability. rewrite EN, E. cbn [bind]. split; [|reflexivity]. destruct ns as [|x ns]; [contradiction|]. cbn [length Nat.eqb]. rewrite !andb_false_r. reflexivity.
Qed.
Print Assumptions C147_knn.
Theorem C147_knn_one : forall dist data q d ls c, composite q = None -> (forall x, In x data -> dist x q = Ok (d x) /\ is_nan (d x) = false /\ dist x (narrowed ls q) = dist x q) -> data <> [] ->
  knn_predict dist data 1 q = Ok c -> In c ls -> knn_predict dist data 1 (narrowed ls q) = Ok c.
Proof.
  intros dist data q d ls c Hq HD Hne E Hc.
  assert (HD' : forall x, In x data -> dist x q = Ok (d x) /\ is_nan (d x) = false) by (intros x Hx; destruct (HD x Hx) as (A & B & _); split; assumption).
  pose proof (plain_nearest dist data 1 q d Hq HD') as EN. set (S := ssort (fun x y => dltb (d x) (d y)) data) in *. change (Z.to_nat 1) with 1 in EN. assert (HS : S <> []).
  { intros X. apply Hne. apply Permutation_nil. rewrite <- X. symmetry. apply ssort_perm. }
  destruct S as [|x S']; [contradiction|]. cbn [firstn] in EN.
  assert (label x = c). { unfold knn_predict in E. rewrite EN in E. cbn [bind length Nat.eqb] in E. rewrite andb_false_r in E. injection E as <-. unfold get_maximum, class_labels, cmax. cbn. reflexivity. }
  destruct (C147_knn dist data 1 q d ls Hq HD [x] EN) as (_ & K & _). { intros y [<-|[]]. rewrite H. exact Hc. } { discriminate. } rewrite K. exact E.
Qed.
Print Assumptions C147_knn_one.
(** with three neighbours the answer may change although it was possible: the neighbours with other labels make room *)
Theorem C147_knn_refuted : exists data q ls c, composite q = None /\ knn_predict eucl data 3 q = Ok c /\ In c ls /\ exists c', knn_predict eucl data 3 (narrowed ls q) = Ok c' /\ c' <> c.
Proof.
  exists [mkInst "a" [ACont (Fin 0)] None; mkInst "c" [ACont (Fin 1)] None; mkInst "d" [ACont (Fin 2)] None; mkInst "b" [ACont (Fin 3)] None; mkInst "b" [ACont (Fin 4)] None],
    (mkInst "" [ACont (Fin 0)] None), ["a"; "b"], "a". split; [reflexivity|]. split; [vm_compute; reflexivity|]. split; [left; reflexivity|]. exists "b". split; [vm_compute; reflexivity|discriminate].
Qed.
Print Assumptions C147_knn_refuted.
(** * The most frequent label *)
Theorem C147_dummy : forall max_item old l q ls, max_item_best max_item -> l <> [] -> composite q = None ->
  let c := dummy_predict max_item (dummy_train old l) q in In c ls -> (forall c', In c' ls -> c' <> c -> occ (map label l) c' < occ (map label l) c) ->
  dummy_predict max_item (dummy_train old l) (narrowed ls q) = c.
Proof.
  intros max_item old l q ls HM Hl Hq c Hc H. unfold dummy_predict at 1. cbn [narrowed isComposite composite possible_labels]. apply (clear_choice max_item HM c ls); [exact Hc|].
  intros c' H1 H2. unfold dummy_train. rewrite class_distribution_cofl, !ccount_cofl. apply H; assumption.
Qed.
Print Assumptions C147_dummy.
(** * Decision trees *)
Theorem C147_tree : forall max_item t q ls c, max_item_best max_item -> composite q = None -> tree_predict max_item t q = Ok c -> c <> "" -> In c ls -> clear c ls t ->
  tree_predict max_item t (narrowed ls q) = Ok c.
Proof. intros max_item t q ls c HM Hq E Ne Hc HC. exact (tree_narrow max_item HM c ls q t Ne Hc Hq HC E). Qed.
Print Assumptions C147_tree.
(** ensembles of such trees, if every tree votes for a possible label *)
Theorem C147_ensemble : forall max_item forest q ls vs, max_item_best max_item -> composite q = None -> votes max_item forest q = Ok vs ->
  Forall (fun c => c <> "" /\ In c ls /\ Forall (clear c ls) forest) vs -> votes max_item forest (narrowed ls q) = Ok vs /\ ensemble_predict max_item forest (narrowed ls q) = ensemble_predict max_item forest q.
Proof.
  intros max_item forest q ls vs HM Hq E H. assert (EV : votes max_item forest (narrowed ls q) = Ok vs); [|split; [exact EV|unfold ensemble_predict; rewrite E, EV; reflexivity]].
  unfold votes in *. apply mapM_ok. apply mapM_ok in E. assert (G : forall F, Forall2 (fun t c => tree_predict max_item t q = Ok c) F vs -> incl F forest -> Forall2 (fun t c => tree_predict max_item t (narrowed ls q) = Ok c) F vs); [|exact (G forest E (incl_refl _))].
  clear E. induction H as [|c vs (Ne & Hc & HF) H IH]; intros F E HI; inversion E as [|t ? F' ? Et EF]; subst; constructor.
  - apply (tree_narrow max_item HM c ls q t Ne Hc Hq); [|exact Et]. rewrite Forall_forall in HF. apply HF, HI. left. reflexivity.
  - apply IH; [exact EF|]. intros y Hy. apply HI. right. exact Hy.
Qed.
Print Assumptions C147_ensemble.
(** otherwise the trees whose label is not possible vote for another one, and the answer may change although it was possible *)
Definition leaf (c : string) (d : counter) : tree := Node c true d no_condition [].
Theorem C147_ensemble_refuted : exists forest q ls c, composite q = None /\ ensemble_predict ex_max forest q = Ok c /\ In c ls /\ Forall (fun t => clear (t_label t) ls t) forest /\
  exists c', ensemble_predict ex_max forest (narrowed ls q) = Ok c' /\ c' <> c.
Proof.
  exists [leaf "a" [("a", 3)]; leaf "a" [("a", 3)]; leaf "b" [("b", 3)]; leaf "c" [("b", 1); ("c", 2)]; leaf "d" [("b", 1); ("d", 2)]], (mkInst "" [] None), ["a"; "b"], "a".
  split; [reflexivity|]. split; [vm_compute; reflexivity|]. split; [left; reflexivity|]. split.
  - repeat (apply Forall_cons; [constructor; [|constructor]; intros _ c' [<-|[<-|[]]] Ne; try (exfalso; apply Ne; reflexivity); vm_compute; lia|]). apply Forall_nil.
  - exists "b". split; [vm_compute; reflexivity|discriminate].
Qed.
Print Assumptions C147_ensemble_refuted.
(** * Support vector machines and soft decision trees do not look at the possible labels: the answer may be impossible *)
Theorem C147_ignored : forall ls q, (forall dexp dtanh dpow m, svm_predict dexp dtanh dpow m (narrowed ls q) = svm_predict dexp dtanh dpow m q) /\ (forall dexp m, soft_predict dexp m (narrowed ls q) = soft_predict dexp m q).
Proof. intros ls q. split; reflexivity. Qed.
Print Assumptions C147_ignored.
(** * Only the set of possible labels matters, not their order or repetitions *)
Theorem C147_set_knn : forall dist data k q ls ls', same_labels ls ls' -> (forall x, In x data -> dist x (narrowed ls q) = dist x (narrowed ls' q)) ->
  nearest dist data k (narrowed ls q) = nearest dist data k (narrowed ls' q) /\ knn_probability dist data k (narrowed ls q) = knn_probability dist data k (narrowed ls' q) /\
  (forall ns, nearest dist data k (narrowed ls q) = Ok ns -> ns <> [] -> knn_predict dist data k (narrowed ls q) = knn_predict dist data k (narrowed ls' q)).
Proof.
  intros dist data k q ls ls' H HD. assert (E : nearest dist data k (narrowed ls q) = nearest dist data k (narrowed ls' q)).
  { unfold nearest. rewrite (filter_ext (eligible (narrowed ls q)) (eligible (narrowed ls' q))) by (intros x; unfold eligible; cbn; apply mem_str_same, H).
    erewrite (mapM_ext_in _ (fun x => do d <- dist x (narrowed ls' q); Ok (d, x))); [reflexivity|]. intros x Hx. apply filter_In in Hx as [Hx _]. rewrite (HD x Hx). reflexivity. }
  split; [exact E|]. split; [unfold knn_probability; rewrite E; reflexivity|]. intros ns En Hne. unfold knn_predict. rewrite <- E, En. cbn [bind]. destruct ns; [contradiction|]. cbn [length Nat.eqb]. rewrite !andb_false_r. reflexivity.
Qed.
Print Assumptions C147_set_knn.
Theorem C147_set_networks : forall labels y q f ls ls', is_vec y (length labels) f -> NoDup labels -> (forall j, j < length labels -> (- MAXQ < f j)%Q) -> same_labels ls ls' -> (exists c, In c labels /\ In c ls) ->
  choose labels y (narrowed ls q) = choose labels y (narrowed ls' q).
Proof.
  intros labels y q f ls ls' Hy ND Hr H (c & Hc & Hls). assert (Hl : labels <> []) by (intros ->; contradiction).
  destruct (chosen_ok labels y (narrowed ls q) f Hy Hl) as (c1 & E1 & _ & C1 & _). { cbn. intros X. injection X as ->. contradiction. } { right. exact Hr. }
  destruct (chosen_ok labels y (narrowed ls' q) f Hy Hl) as (c2 & E2 & _ & C2 & _). { cbn. intros X. injection X as ->. apply (H c) in Hls. contradiction. } { right. exact Hr. }
  rewrite E1, E2. f_equal. destruct C1 as (i1 & N1 & I1 & A1 & B1). { exists c. split; assumption. } destruct C2 as (i2 & N2 & I2 & A2 & B2). { exists c. split; [exact Hc|apply H, Hls]. }
  assert (i1 = i2); [|congruence]. destruct (Nat.lt_trichotomy i1 i2) as [L|[X|L]]; [|exact X|].
  - pose proof (B2 i1 c1 L N1 (proj1 (H c1) I1)). pose proof (A1 i2 c2 N2 (proj2 (H c2) I2)). lra.
  - pose proof (B1 i2 c2 L N2 (proj2 (H c2) I2)). pose proof (A2 i1 c1 N1 (proj1 (H c1) I1)). lra.
Qed.
Print Assumptions C147_set_networks.
(** for the classifiers that compare scores the order decides between equal scores *)
Theorem C147_set_scores : forall prior metric q ls ls' c c', same_labels ls ls' -> gauss_predict prior metric (narrowed ls q) = Ok c -> gauss_predict prior metric (narrowed ls' q) = Ok c' ->
  (exists c0 v0, In c0 ls /\ In c0 (mkeys prior) /\ metric c0 = Ok v0 /\ dltb (dopp dbl_max) v0 = true) ->
  exists v v', metric c = Ok v /\ metric c' = Ok v' /\ deq v v'.
Proof.
  intros prior metric q ls ls' c c' H E E' (c0 & v0 & H1 & H2 & H3 & H4).
  assert (A : exists c0 v0, In c0 (candidates (mkeys prior) (narrowed ls q)) /\ In c0 (mkeys prior) /\ metric c0 = Ok v0 /\ dltb (dopp dbl_max) v0 = true) by (exists c0, v0; repeat split; assumption).
  assert (B : exists c0 v0, In c0 (candidates (mkeys prior) (narrowed ls' q)) /\ In c0 (mkeys prior) /\ metric c0 = Ok v0 /\ dltb (dopp dbl_max) v0 = true) by (exists c0, v0; repeat split; try assumption; apply H, H1).
  destruct (C49_argmax _ _ _ _ E A) as (v & ? & ? & Ev & K & N & _). destruct (C49_maximal _ _ _ _ E A) as (w & Ew & I1 & M1). rewrite Ev in Ew. injection Ew as <-.
  destruct (C49_argmax _ _ _ _ E' B) as (v' & ? & ? & Ev' & K' & N' & _). destruct (C49_maximal _ _ _ _ E' B) as (w & Ew & I2 & M2). rewrite Ev' in Ew. injection Ew as <-.
  exists v, v'. split; [exact Ev|]. split; [exact Ev'|]. apply not_less_deq; [exact N|exact N'|apply (M1 c' v'); [apply H, I2|exact K'|exact Ev']|apply (M2 c v); [apply H, I1|exact K|exact Ev]].
Qed.
Print Assumptions C147_set_scores.

(** * Cases *)
Example C147_case : let t := Node "b" false [("a", 2); ("b", 3)] no_condition [Node "a" true [("a", 2); ("b", 1)] (mkCond 0 CLt (Some (ACont (Fin 1)))) []; Node "b" true [("b", 2)] (mkCond 0 CGt (Some (ACont (Fin 1)))) []] in
  let q := mkInst "" [ACont (Fin 0)] None in max_item_best ex_max /\ clear "a" ["b"; "a"; "z"] t /\ tree_predict ex_max t q = Ok "a" /\ tree_predict ex_max t (narrowed ["b"; "a"; "z"] q) = Ok "a" /\ tree_predict ex_max t (narrowed ["z"; "b"] q) = Ok "b".
Proof.
  cbv zeta. split.
  { intros d ls Hne. destruct ls as [|l0 ls]; [contradiction|]. unfold ex_max. cbn [hd fold_left]. rewrite Nat.ltb_irrefl.
    assert (G : forall ls b, In (fold_left (fun b l => if ccount d b <? ccount d l then l else b) ls b) (b :: ls) /\ forall l, In l (b :: ls) -> ccount d l <= ccount d (fold_left (fun b l => if ccount d b <? ccount d l then l else b) ls b)).
    { induction ls0 as [|x ls0 IH]; intros b; [split; [left; reflexivity|intros l [<-|[]]; apply Nat.le_refl]|]. cbn [fold_left]. destruct (Nat.ltb_spec (ccount d b) (ccount d x)) as [L|L].
      - destruct (IH x) as (I1 & I2). split; [right; exact I1|]. intros l [<-|Hl]; [apply (Nat.le_trans _ (ccount d x)); [lia|apply I2; left; reflexivity]|apply I2, Hl].
      - destruct (IH b) as (I1 & I2). split; [destruct I1 as [I1|I1]; [left; exact I1|right; right; exact I1]|]. intros l [<-|[<-|Hl]]; [apply I2; left; reflexivity|apply (Nat.le_trans _ (ccount d b)); [exact L|apply I2; left; reflexivity]|apply I2; right; exact Hl]. }
    apply G. }
  split. { constructor; [discriminate|]. constructor; [|constructor; [|constructor]]; (constructor; [|constructor]); [|discriminate]. intros _ c' Hc Ne. cbn in Hc. repeat destruct Hc as [<-|Hc]; try contradiction; try congruence; vm_compute; lia. }
  split; [vm_compute; reflexivity|]. split; vm_compute; reflexivity.
Qed.
Example C147_case_knn : let data := [mkInst "a" [ACont (Fin 5)] None; mkInst "b" [ACont (Fin 1)] None; mkInst "c" [ACont (Fin 9)] None; mkInst "b" [ACont (Fin 2)] None] in let q := mkInst "" [ACont (Fin 0)] None in
  knn_predict eucl data 2 q = Ok "b" /\ knn_predict eucl data 2 (narrowed ["c"; "b"] q) = Ok "b" /\ knn_predict eucl data 1 (narrowed ["a"; "c"] q) = Ok "a".
Proof. repeat split; vm_compute; reflexivity. Qed.
Example C147_case_networks : let y := [Fin 1; Fin 3; Fin 2] in let q := mkInst "" [] None in
  choose ["a"; "b"; "c"] y q = Ok "b" /\ choose ["a"; "b"; "c"] y (narrowed ["c"; "b"; "z"] q) = Ok "b" /\ choose ["a"; "b"; "c"] y (narrowed ["a"; "c"] q) = Ok "c".
Proof. repeat split; vm_compute; reflexivity. Qed.
