(** C49, C50: parametric classifiers. *)
From Coq Require Import String ZArith QArith Bool Lia Lqa Permutation Sorted Arith List.
From Verif Require Import Base Spec BaseLemmas DblLemmas AttrModel DataSetModel InstanceListModel PartitionModel PerformanceModel StatSpec ListSpec ListProofs PartitionProofs CovProofs CovAllProofs PerformanceProofs DistanceModel GaussianModel GaussianSpec GaussianProofs.
Import ListNotations.
Local Open Scope string_scope.
Local Open Scope list_scope.
Local Open Scope nat_scope.

(** * C49 *)
(** If some candidate seen in training has a metric above the smallest double, the answer is the first candidate with
    maximal metric (NaN metrics never win). *)
Theorem C49_argmax : forall prior metric q c, gauss_predict prior metric q = Ok c ->
  (exists c' v', In c' (candidates (mkeys prior) q) /\ In c' (mkeys prior) /\ metric c' = Ok v' /\ dltb (dopp dbl_max) v' = true) ->
  exists v before after, metric c = Ok v /\ In c (mkeys prior) /\ is_nan v = false /\
    candidates (mkeys prior) q = before ++ c :: after /\
    (forall c' v', In c' before -> In c' (mkeys prior) -> metric c' = Ok v' -> is_nan v' = true \/ dltb v' v = true) /\
    (forall c' v', In c' after -> In c' (mkeys prior) -> metric c' = Ok v' -> dltb v v' = false).
Proof.
  intros prior metric q c E (c' & v' & H1 & H2 & H3 & H4). unfold gauss_predict in E.
  apply bind_ok in E as (st0 & E0 & E). apply bind_ok in E as (st & Ef & E). injection E as <-.
  assert (EC : snd st0 = candidates (mkeys prior) q).
  { unfold candidates. destruct (composite q) as [ls|]; [apply bind_ok in E0 as (d & _ & E0)|]; injection E0 as <-; reflexivity. }
  rewrite EC in Ef. destruct (gauss_fold prior metric _ _ _ Ef) as [[_ H]|(pre & post & Ec & Hm & Hv & Hlt & Hpre & Hpost)].
  - exfalso. apply mmem_keys in H2. specialize (H c' v' H1 H2 H3). cbn [fst] in H. congruence.
  - exists (fst st), pre, post. split; [exact Hv|]. split; [apply mmem_keys, Hm|]. split; [apply (dltb_nan_l _ _ Hlt)|]. split; [exact Ec|]. split.
    + intros c'' v'' A B C. apply mmem_keys in B. eapply Hpre; eassumption.
    + intros c'' v'' A B C. apply mmem_keys in B. eapply Hpost; eassumption.
Qed.
Print Assumptions C49_argmax.
(** a maximal metric, in one statement *)
Theorem C49_maximal : forall prior metric q c, gauss_predict prior metric q = Ok c ->
  (exists c' v', In c' (candidates (mkeys prior) q) /\ In c' (mkeys prior) /\ metric c' = Ok v' /\ dltb (dopp dbl_max) v' = true) ->
  exists v, metric c = Ok v /\ In c (candidates (mkeys prior) q) /\
    forall c' v', In c' (candidates (mkeys prior) q) -> In c' (mkeys prior) -> metric c' = Ok v' -> dltb v v' = false.
Proof.
  intros prior metric q c E H. destruct (C49_argmax _ _ _ _ E H) as (v & pre & post & Hv & _ & Nv & Ec & Hpre & Hpost).
  exists v. split; [exact Hv|]. rewrite Ec. split; [apply in_elt|]. intros c' v' Hc Hp Hv'. apply in_app_or in Hc as [Hc|[<-|Hc]].
  - destruct (Hpre c' v' Hc Hp Hv') as [N|L]; [destruct v'; try discriminate; destruct v; reflexivity|].
    destruct (dltb_nan_l _ _ L) as [Na _]. apply (SortLemmas.lt_asym _ _ SortLemmas.dltb_swo v' v); assumption.
  - rewrite Hv in Hv'. injection Hv' as <-. apply dltb_irrefl.
  - eapply Hpost; eassumption.
Qed.
Print Assumptions C49_maximal.
(** otherwise the answer is the first possible label, or the most frequent training label *)
Theorem C49_default : forall l metric q c, l <> [] -> gauss_predict (class_distribution l) metric q = Ok c ->
  (forall c' v', In c' (candidates (mkeys (class_distribution l)) q) -> In c' (map label l) -> metric c' = Ok v' -> dltb (dopp dbl_max) v' = false) ->
  match composite q with Some ls => nth_error ls 0 = Some c | None => forall c', occ (map label l) c' <= occ (map label l) c end.
Proof.
  intros l metric q c Hl E H. unfold gauss_predict in E.
  apply bind_ok in E as (st0 & E0 & E). apply bind_ok in E as (st & Ef & E). injection E as <-.
  assert (EC : snd st0 = candidates (mkeys (class_distribution l)) q).
  { unfold candidates. destruct (composite q) as [ls|]; [apply bind_ok in E0 as (d & _ & E0)|]; injection E0 as <-; reflexivity. }
  rewrite EC in Ef. destruct (gauss_fold _ metric _ _ _ Ef) as [[-> _]|(pre & post & Ec & Hm & Hv & Hlt & Hpre & Hpost)].
  - cbn [snd]. destruct (composite q) as [ls|].
    + apply bind_ok in E0 as (d & E1 & E0). injection E0 as <-. apply atn_ok in E1. exact E1.
    + injection E0 as <-. cbn [fst]. intros c'. rewrite class_distribution_cofl. unfold occ. rewrite <- !ccount_cofl. apply cmax_spec.
      * apply cofl_sorted.
      * apply cpos_fold_cput. constructor.
      * intros F. destruct l as [|x l]; [congruence|]. assert (I : In (label x) (mkeys (cofl (map label (x :: l))))) by (apply in_cofl; left; reflexivity). rewrite F in I. destruct I.
  - exfalso. cbn [fst] in Hlt. rewrite (H (snd st) (fst st)) in Hlt; [discriminate| | |exact Hv]; [rewrite Ec; apply in_elt|apply mmem_prior, Hm].
Qed.
Print Assumptions C49_default.
Theorem C49_composite : forall prior metric q ls c, composite q = Some ls -> gauss_predict prior metric q = Ok c -> In c ls.
Proof.
  intros prior metric q ls c Hq E. unfold gauss_predict in E. rewrite Hq in E. apply bind_ok in E as (st0 & E0 & E). apply bind_ok in E as (st & Ef & E). injection E as <-.
  apply bind_ok in E0 as (d & E1 & E0). injection E0 as <-. cbn [fst snd] in Ef. apply gauss_fold_in in Ef as [->|[H _]]; [|exact H]. cbn. apply atn_ok, nth_error_In in E1. exact E1.
Qed.
Print Assumptions C49_composite.
Theorem C49_seen_label : forall l metric q c, l <> [] -> composite q = None -> gauss_predict (class_distribution l) metric q = Ok c -> In c (map label l).
Proof.
  intros l metric q c Hl Hq E. unfold gauss_predict in E. rewrite Hq in E. cbn [bind] in E. apply bind_ok in E as (st & Ef & E). injection E as <-. cbn [fst snd] in Ef.
  apply gauss_fold_in in Ef as [->|[_ H]]; [apply cmax_prior, Hl|apply mmem_prior, H].
Qed.
Print Assumptions C49_seen_label.
(** it answers as soon as the metrics of the seen labels can be computed *)
Theorem C49_answers : forall prior metric q, (composite q <> Some []) -> (forall c, In c (mkeys prior) -> exists v, metric c = Ok v) ->
  exists c, gauss_predict prior metric q = Ok c.
Proof.
  intros prior metric q Hq H. unfold gauss_predict.
  assert (E0 : exists st0, match composite q with Some ls => do c <- atn ls 0; Ok (c, ls) | None => Ok (cmax prior, mkeys prior) end = Ok st0).
  { destruct (composite q) as [[|l ls]|]; [congruence| |]; eexists; reflexivity. }
  destruct E0 as [st0 ->]. cbn [bind].
  destruct (gauss_fold_total prior metric (snd st0) (dopp dbl_max, fst st0)) as [st Es].
  - intros c _ Hc. apply H, mmem_keys, Hc.
  - rewrite Es. eexists; reflexivity.
Qed.
Print Assumptions C49_answers.
Definition ex_metric (c : string) : res dbl := if String.eqb c "a" then Ok NaN else if String.eqb c "b" then Ok (Fin 3) else if String.eqb c "c" then Ok (Fin 3) else Ok (Fin 1).
Definition ex_prior : counter := cofl ["d"; "b"; "a"; "c"; "d"].
Example C49_case : gauss_predict ex_prior ex_metric (mkInst "" [] None) = Ok "b" /\ gauss_predict ex_prior ex_metric (mkInst "" [] (Some ["z"; "d"; "c"; "b"])) = Ok "c" /\
  (exists c' v', In c' (candidates (mkeys ex_prior) (mkInst "" [] None)) /\ In c' (mkeys ex_prior) /\ ex_metric c' = Ok v' /\ dltb (dopp dbl_max) v' = true).
Proof. split; [vm_compute; reflexivity|]. split; [vm_compute; reflexivity|]. exists "b", (Fin 3). split; [right; left; reflexivity|]. split; [right; left; reflexivity|]. split; vm_compute; reflexivity. Qed.

(** ** The concrete models answer *)
Section Models.
  Context (inverse : list (list dbl) -> list (list dbl)) (determinant : list (list dbl) -> dbl) (ln : dbl -> dbl).
  Theorem C49_lda_answers : (forall n m, square_matrix n m -> square_matrix n (inverse m)) ->
    forall shape old l, uniform shape l -> l <> [] ->
    exists m, lda_train inverse ln old l = Ok m /\
      forall q, composite q <> Some [] -> exists c, lda_predict m q = Ok c /\
        match composite q with Some ls => In c ls | None => In c (map label l) end.
  Proof.
    intros K shape old l H Hn. destruct (lda_total inverse ln shape old l K H Hn) as (m & E & Hm). exists m. split; [exact E|].
    intros q Hq. pose proof (lda_train_prior _ _ _ _ _ E) as [HP _]. unfold lda_predict. rewrite HP.
    destruct (C49_answers (class_distribution l) (lda_metric m q) q Hq) as [c Hc].
    { intros c Hc. rewrite class_distribution_cofl in Hc. apply (proj1 (in_cofl _ _)) in Hc. destruct (Hm c Hc) as [[w Hw] [w0 Hw0]]. unfold lda_metric. rewrite Hw, Hw0. eexists; reflexivity. }
    exists c. split; [exact Hc|]. destruct (composite q) eqn:Eq; [eapply C49_composite; eassumption|eapply C49_seen_label; eassumption].
  Qed.
  Theorem C49_qda_answers : (forall n m, square_matrix n m -> square_matrix n (inverse m)) ->
    forall shape old l, uniform shape l -> l <> [] ->
    exists m, qda_train inverse determinant ln old l = Ok m /\
      forall q, composite q <> Some [] -> exists c, qda_predict m q = Ok c /\
        match composite q with Some ls => In c ls | None => In c (map label l) end.
  Proof.
    intros K shape old l H Hn. destruct (qda_total inverse determinant ln shape old l K H Hn) as (m & E & Hm). exists m. split; [exact E|].
    intros q Hq. pose proof (qda_train_prior _ _ _ _ _ _ E) as [HP _]. unfold qda_predict. rewrite HP.
    destruct (C49_answers (class_distribution l) (qda_metric m q) q Hq) as [c Hc].
    { intros c Hc. rewrite class_distribution_cofl in Hc. apply (proj1 (in_cofl _ _)) in Hc. destruct (Hm c Hc) as [[W HW] [[w Hw] [w0 Hw0]]]. unfold qda_metric. rewrite HW, Hw, Hw0. eexists; reflexivity. }
    exists c. split; [exact Hc|]. destruct (composite q) eqn:Eq; [eapply C49_composite; eassumption|eapply C49_seen_label; eassumption].
  Qed.
End Models.
Print Assumptions C49_lda_answers.
Print Assumptions C49_qda_answers.
(** concrete data; the inverse of 1x1 matrices *)
Definition inv1 (m : list (list dbl)) : list (list dbl) := map (map (fun v => ddiv d1 v)) m.
Definition pt (c : string) (v : Q) : instance := mkInst c [ACont (Fin v)] None.
Definition ex_d1 : ilist := [pt "a" 0; pt "a" 2; pt "b" 10; pt "b" 12].
Definition ex_d2 : ilist := [pt "a" 10; pt "a" 12; pt "b" 0; pt "b" 2].
Lemma ex_uniform : uniform [None] ex_d1 /\ uniform [None] ex_d2.
Proof. split; repeat (constructor; [constructor; [eexists; reflexivity|constructor]|]); constructor. Qed.
Lemma inv1_dims : forall n m, square_matrix n m -> square_matrix n (inv1 m).
Proof. intros n m H. apply (map_dims n (fun v => ddiv d1 v) m H). Qed.
Example C49_models_case : (exists m, lda_train inv1 (fun _ => d0) lda_empty ex_d1 = Ok m /\ lda_predict m (pt "" 9) = Ok "b") /\
  (exists m, qda_train inv1 (fun _ => d1) (fun _ => d0) qda_empty ex_d1 = Ok m /\ qda_predict m (pt "" 1) = Ok "a").
Proof. split; eexists; (split; [vm_compute; reflexivity|vm_compute; reflexivity]). Qed.

(** KMeans predicts the class whose mean is nearest *)
Theorem C49_kmeans_nearest : forall dist old l m q, kmeans_train old l = Ok m -> composite q = None -> l <> [] ->
  (forall x, In x (km_means m) -> exists d, dist q x = Ok d /\ is_nan d = false /\ dltb d dbl_max = true) ->
  exists c x d, kmeans_predict dist m q = Ok c /\ In x (km_means m) /\ label x = c /\ dist q x = Ok d /\
    forall x' d', In x' (km_means m) -> dist q x' = Ok d' -> dltb d' d = false.
Proof.
  intros dist old l m q E Hq Hl HD. unfold kmeans_train in E. rewrite (proj1 (part_class_spec l)) in E. cbn [bind] in E.
  apply bind_ok in E as (ms & Em & E). injection E as <-. cbn [km_means] in *. unfold kmeans_predict. cbn [km_prior].
  apply mapM_ok in Em. rewrite Forall2_map_l in Em.
  assert (Lb : Forall2 (fun c x => label x = c) (distinct_labels l) ms).
  { assert (D : forall c, In c (distinct_labels l) -> In c (map label l)) by (intros; apply distinct_in; assumption). revert D.
    induction Em as [|c x cs ms Hx HF IH]; intros D; constructor; [|apply IH; intros; [apply HD; right; assumption|apply D; right; assumption]].
    unfold average_instance in Hx. apply bind_ok in Hx as (a & Ea & Hx). apply bind_ok in Hx as (at' & _ & Hx). injection Hx as <-. cbn.
    unfold average in Ea. apply bind_ok in Ea as (x0 & E0 & Ea). apply bind_ok in Ea as (r & _ & Ea). injection Ea as <-. cbn.
    apply atn_ok, nth_error_In, filter_In in E0 as [_ E0]. apply String.eqb_eq in E0. exact E0. }
  assert (ND := distinct_nodup l).
  assert (FU : forall x, In x ms -> find (fun y => String.eqb (label y) (label x)) ms = Some x).
  { clear Em HD. revert ND. induction Lb as [|c y cs ms Hy HF IH]; intros ND x Hx; [destruct Hx|]. inversion ND as [|? ? N1 N2]; subst. cbn.
    destruct (String.eqb_spec (label y) (label x)) as [Exy|Nxy].
    - destruct Hx as [->|Hx]; [reflexivity|]. exfalso. apply N1. rewrite Exy. clear -HF Hx. induction HF; [destruct Hx|]. destruct Hx as [->|Hx]; [left; symmetry; assumption|right; auto].
    - destruct Hx as [->|Hx]; [congruence|apply IH; assumption]. }
  assert (LX : forall c, In c (map label l) <-> exists x, In x ms /\ label x = c).
  { intros c. rewrite <- distinct_in. clear -Lb. induction Lb as [|c' y cs ms Hy HF IH]; [split; [intros []|intros (x & [] & _)]|]. split.
    - intros [<-|H]; [exists y; split; [left; reflexivity|exact Hy]|]. apply IH in H as (x & H1 & H2). exists x. split; [right; exact H1|exact H2].
    - intros (x & [->|H1] & H2); [left; congruence|right]. apply IH. exists x. split; assumption. }
  set (mk := mkKM (class_distribution l) ms).
  assert (MX : forall x d, In x ms -> dist q x = Ok d -> kmeans_metric dist mk q (label x) = Ok (dopp d)).
  { intros x d Hx Hd. unfold kmeans_metric, mk. cbn [km_means]. rewrite FU by exact Hx. rewrite Hd. reflexivity. }
  destruct (C49_answers (class_distribution l) (kmeans_metric dist mk q) q) as [c Hc]; [congruence| |].
  { intros c Hc. rewrite class_distribution_cofl in Hc. apply (proj1 (in_cofl _ _)), LX in Hc as (x & Hx & <-). destruct (HD x Hx) as (d & Hd & _). eexists. apply MX; eassumption. }
  assert (OD : forall d d', dltb (dopp d') (dopp d) = dltb d d').
  { intros d d'. destruct d, d'; try reflexivity. cbn. f_equal. apply eq_true_iff_eq. rewrite !Qle_bool_iff. split; intros; lra. }
  assert (CK : candidates (mkeys (class_distribution l)) q = mkeys (class_distribution l)) by (unfold candidates; rewrite Hq; reflexivity).
  destruct (C49_maximal _ _ _ _ Hc) as (v & Hv & Hin & Hmax).
  { destruct l as [|x0 l0]; [congruence|]. assert (Hx0 : In (label x0) (map label (x0 :: l0))) by (left; reflexivity).
    pose proof Hx0 as Hx1. apply LX in Hx1 as (x & Hx & Ex). destruct (HD x Hx) as (d & Hd & Nd & Ld). exists (label x), (dopp d).
    rewrite CK. assert (K : In (label x) (mkeys (class_distribution (x0 :: l0)))) by (rewrite class_distribution_cofl; apply in_cofl; rewrite Ex; exact Hx0).
    split; [exact K|]. split; [exact K|]. split; [apply MX; assumption|]. rewrite OD. exact Ld. }
  rewrite CK in Hin, Hmax. rewrite class_distribution_cofl in Hin. apply (proj1 (in_cofl _ _)), LX in Hin as (x & Hx & Ex). destruct (HD x Hx) as (d & Hd & Nd & Ld).
  exists c, x, d. split; [exact Hc|]. split; [exact Hx|]. split; [exact Ex|]. split; [exact Hd|].
  intros x' d' Hx' Hd'. pose proof (MX x d Hx Hd) as M1. rewrite Ex, Hv in M1. injection M1 as ->.
  specialize (Hmax (label x') (dopp d')). rewrite OD in Hmax. apply Hmax; [| |apply MX; assumption];
    rewrite class_distribution_cofl; apply in_cofl, LX; exists x'; split; [exact Hx'|reflexivity|exact Hx'|reflexivity].
Qed.
Print Assumptions C49_kmeans_nearest.
Example C49_kmeans_case : exists m, kmeans_train (mkKM [] []) ex_d1 = Ok m /\ kmeans_predict eucl m (pt "" 7) = Ok "b" /\
  (forall x, In x (km_means m) -> exists d, eucl (pt "" 7) x = Ok d /\ is_nan d = false /\ dltb d dbl_max = true).
Proof.
  eexists. split; [vm_compute; reflexivity|]. split; [vm_compute; reflexivity|].
  intros x [<-|[<-|[]]]; eexists; (split; [vm_compute; reflexivity|split; vm_compute; reflexivity]).
Qed.

(** * C50 *)
(** k-nearest-neighbour and KMeans models are replaced as a whole by training (KnnModel::train stores the new list, k
    and metric; the state of the model is exactly these) *)
Theorem C50_kmeans : forall old l, kmeans_train old l = kmeans_train (mkKM [] []) l.
Proof. reflexivity. Qed.
Print Assumptions C50_kmeans.
(** LDA, QDA and naive Bayes keep what an earlier training stored for a label: a model trained again answers wrongly *)
Theorem C50_lda_refuted : exists l1 l2 m1 m fresh q,
  lda_train inv1 (fun _ => d0) lda_empty l1 = Ok m1 /\ lda_train inv1 (fun _ => d0) m1 l2 = Ok m /\ lda_train inv1 (fun _ => d0) lda_empty l2 = Ok fresh /\
  lda_predict fresh q = Ok "a" /\ lda_predict m q = Ok "b".
Proof. exists ex_d1, ex_d2. do 3 eexists. exists (pt "" 11). repeat split; vm_compute; reflexivity. Qed.
Theorem C50_qda_refuted : exists l1 l2 m1 m fresh q,
  qda_train inv1 (fun _ => d1) (fun _ => d0) qda_empty l1 = Ok m1 /\ qda_train inv1 (fun _ => d1) (fun _ => d0) m1 l2 = Ok m /\ qda_train inv1 (fun _ => d1) (fun _ => d0) qda_empty l2 = Ok fresh /\
  qda_predict fresh q = Ok "a" /\ qda_predict m q = Ok "b".
Proof. exists ex_d1, ex_d2. do 3 eexists. exists (pt "" 11). repeat split; vm_compute; reflexivity. Qed.
(** naive Bayes, for every logarithm that is increasing on two values *)
Definition dpt (c v : string) : instance := mkInst c [ADisc v] None.
Definition ex_n1 : ilist := [dpt "a" "x"; dpt "a" "x"; dpt "b" "y"; dpt "b" "y"].
Definition ex_n2 : ilist := [dpt "a" "y"; dpt "a" "y"; dpt "b" "x"; dpt "b" "x"].
Theorem C50_bayes_refuted : exists l1 l2 m1 m fresh q,
  bayes_train (fun _ => Ok []) bayes_empty l1 = Ok m1 /\ bayes_train (fun _ => Ok []) m1 l2 = Ok m /\ bayes_train (fun _ => Ok []) bayes_empty l2 = Ok fresh /\
  bayes_predict (fun d => d) fresh q = Ok "b" /\ bayes_predict (fun d => d) m q = Ok "a".
Proof. exists ex_n1, ex_n2. do 3 eexists. exists (dpt "" "x"). repeat split; vm_compute; reflexivity. Qed.
(** naive Bayes trained on continuous after discrete data reads its inputs as discrete: undefined behaviour *)
Theorem C50_bayes_kind_refuted : exists l1 l2 m1 m q,
  bayes_train (fun _ => Ok [d1]) bayes_empty l1 = Ok m1 /\ bayes_train (fun _ => Ok [d1]) m1 l2 = Ok m /\
  bayes_predict (fun d => d) m q = UB BadCast.
Proof. exists ex_n1, ex_d2. do 2 eexists. exists (pt "" 11). repeat split; vm_compute; reflexivity. Qed.
Print Assumptions C50_lda_refuted.
Print Assumptions C50_qda_refuted.
Print Assumptions C50_bayes_refuted.
Print Assumptions C50_bayes_kind_refuted.
Section Retrain.
  Context (inverse : list (list dbl) -> list (list dbl)) (determinant : list (list dbl) -> dbl) (ln : dbl -> dbl) (std_vec : ilist -> res (list dbl)).
  (** exactly what happens: the prior is replaced, and for each label the old entries, if any, win *)
  Theorem C50_lda_partial : forall old l m, lda_train inverse ln old l = Ok m ->
    exists fresh, lda_train inverse ln lda_empty l = Ok fresh /\ l_prior m = l_prior fresh /\
      stale_wins (l_w old) (l_w fresh) (l_w m) /\ stale_wins (l_w0 old) (l_w0 fresh) (l_w0 m).
  Proof. exact (lda_retrain inverse ln). Qed.
  Theorem C50_qda_partial : forall old l m, qda_train inverse determinant ln old l = Ok m ->
    exists fresh, qda_train inverse determinant ln qda_empty l = Ok fresh /\ l_prior (q_lda m) = l_prior (q_lda fresh) /\
      stale_wins (q_W old) (q_W fresh) (q_W m) /\ stale_wins (l_w (q_lda old)) (l_w (q_lda fresh)) (l_w (q_lda m)) /\
      stale_wins (l_w0 (q_lda old)) (l_w0 (q_lda fresh)) (l_w0 (q_lda m)).
  Proof. exact (qda_retrain inverse determinant ln). Qed.
  Theorem C50_bayes_partial : forall old l m, bayes_train std_vec old l = Ok m ->
    exists fresh, bayes_train std_vec bayes_empty l = Ok fresh /\ nb_prior m = nb_prior fresh /\
      stale_wins (nb_means old) (nb_means fresh) (nb_means m) /\ stale_wins (nb_devs old) (nb_devs fresh) (nb_devs m) /\
      stale_wins (nb_dists old) (nb_dists fresh) (nb_dists m).
  Proof. exact (bayes_retrain std_vec). Qed.
  (** so retraining is harmless when the new data has none of the old labels *)
  Theorem C50_lda_new_labels_partial : forall old l m fresh q, lda_train inverse ln old l = Ok m -> lda_train inverse ln lda_empty l = Ok fresh ->
    (forall c, In c (map label l) -> mfind c (l_w old) = None /\ mfind c (l_w0 old) = None) -> lda_predict m q = lda_predict fresh q.
  Proof.
    intros old l m fresh q E E' H. destruct (C50_lda_partial _ _ _ E) as (fresh' & E'' & HP & Hw & Hw0). rewrite E' in E''. injection E'' as <-.
    unfold lda_predict. rewrite HP. apply gauss_predict_ext. intros c Hc. destruct (lda_train_prior _ _ _ _ _ E') as [P _]. rewrite P, class_distribution_cofl in Hc. apply (proj1 (in_cofl _ _)) in Hc.
    destruct (H c Hc) as [A B]. unfold lda_metric. rewrite (Hw c), (Hw0 c), A, B. reflexivity.
  Qed.
End Retrain.
Print Assumptions C50_lda_partial.
Print Assumptions C50_qda_partial.
Print Assumptions C50_bayes_partial.
Print Assumptions C50_lda_new_labels_partial.
