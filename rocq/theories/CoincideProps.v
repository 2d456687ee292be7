(** Property C125: different classifiers of the library that are the same classifier in special cases. *)
From Coq Require Import String ZArith QArith Bool Lia Lqa Permutation Arith List.
From Verif Require Import Base Spec BaseLemmas DblLemmas AttrModel AttrProofs DataSetModel InstanceListModel PartitionModel PerformanceModel
  StatSpec ListSpec ListProofs PartitionProofs CovProofs CovAllProofs DistanceModel DistanceSpec DistanceProofs
  GaussianModel GaussianSpec GaussianProofs DiscrimSpec DiscrimProofs BayesProofs TreeModel TreeSpec EnsembleModel EnsembleProofs GaussianProps DiscrimProps EnsembleProps
  InvSpec ModelInvSpec ModelInvProofs ModelInvDistProofs ModelInvProps CoincideProofs CoincideGaussProofs.
Import ListNotations.
Local Open Scope string_scope.
Local Open Scope list_scope.
Local Open Scope nat_scope.

(** k nearest neighbours with k at least the size of the training set is the majority classifier, whatever the distance
    (without NaN) *)
Theorem C125_knn_dummy : forall max_item dist data k q (d : instance -> dbl) old, composite q = None ->
  (forall x, In x data -> dist x q = Ok (d x) /\ is_nan (d x) = false) -> (Z.of_nat (length data) <= k)%Z ->
  knn_predict dist data k q = Ok (dummy_predict max_item (dummy_train old data) q) /\
  knn_probability dist data k q = Ok (dummy_probability (dummy_train old data) q).
Proof.
  intros max_item dist data k q d old Hq HD Hk. destruct (knn_all dist data k q d Hq HD) as (ns & E & P); [lia|].
  unfold knn_predict, knn_probability. rewrite E. cbn [bind]. unfold isComposite. rewrite Hq. cbn [andb].
  unfold dummy_predict, dummy_probability, dummy_train, isComposite. rewrite Hq. rewrite !class_distribution_cofl, (cofl_perm _ _ (Permutation_map label P)). split; [|reflexivity].
  unfold get_maximum, class_labels. fold (cofl (map label ns)). rewrite (cofl_perm _ _ (Permutation_map label P)). reflexivity.
Qed.
Print Assumptions C125_knn_dummy.
Example C125_knn_dummy_case : knn_predict eucl ex_points 4 (kpt "" 100) = Ok (dummy_predict (fun _ _ => "") (dummy_train [] ex_points) (kpt "" 100)) /\
  knn_predict eucl (kpt "b" 0 :: ex_points) 5 (kpt "" 1) = Ok "b" /\ knn_predict eucl (kpt "b" 100 :: ex_points) 2 (kpt "" 1) = Ok "a".
Proof. repeat split; vm_compute; reflexivity. Qed.

(** the nearest neighbour of a training instance gives back its label, unless another label has the same features *)
Theorem C125_knn_recalls : forall data x, In x data -> composite x = None ->
  Forall (fun y => Forall2 same_kind (attrs y) (attrs x) /\ Forall measured (attrs y) /\ Forall finite (attrs y)) data ->
  (forall y, In y data -> Forall2 same_attr (attrs y) (attrs x) -> label y = label x) ->
  knn_predict eucl data 1 x = Ok (label x).
Proof.
  intros data x Hx Hq HF HL. rewrite Forall_forall in HF. destruct (HF x Hx) as (_ & _ & Fx).
  assert (HD : forall y, In y data -> exists r, eucl y x = Ok (Fin r) /\ (r == distq (attrs y) (attrs x))%Q).
  { intros y Hy. destruct (HF y Hy) as (K & _ & F). apply eucl_fin; [exact (Forall2_len _ _ _ K)|exact F|exact Fx]. }
  set (d := fun y => match eucl y x with Ok v => v | _ => d0 end).
  destruct (nearest_one eucl data x d x Hq Hx) as (y & En & Hy & Hmin).
  { intros y Hy. unfold d. destruct (HD y Hy) as (r & -> & _). split; reflexivity. }
  unfold knn_predict. rewrite En. cbn [bind]. unfold isComposite. rewrite Hq. cbn [andb]. change (class_labels [y]) with [label y]. rewrite get_maximum_one. f_equal.
  apply HL; [exact Hy|]. specialize (Hmin x Hx). unfold d in Hmin. destruct (HD y Hy) as (r & Er & Vr). destruct (HD x Hx) as (r0 & Er0 & Vr0). rewrite Er, Er0 in Hmin.
  apply dltb_fin_false in Hmin. rewrite Vr0, distq_self in Hmin. pose proof (distq_nonneg (attrs y) (attrs x)). destruct (HF y Hy) as (K & M & F). apply distq_zero; try assumption. rewrite <- Vr. lra.
Qed.
Print Assumptions C125_knn_recalls.
Example C125_knn_recalls_case : Forall (fun x => knn_predict eucl ex_mixed 1 x = Ok (label x)) ex_mixed /\
  ~ Forall (fun x => knn_predict eucl ex_mixed 3 x = Ok (label x)) ex_mixed.
Proof.
  split; [repeat (constructor; [vm_compute; reflexivity|]); constructor|]. intros H. inversion H as [|? ? _ H']; subst. inversion H' as [|? ? K _]; subst. vm_compute in K. discriminate K.
Qed.

(** k-means with one instance per class is the nearest neighbour classifier, if no two instances are equally near *)
Theorem C125_kmeans_knn : forall old l, l <> [] -> NoDup (map label l) -> Forall (fun x => Forall measured (attrs x) /\ Forall finite (attrs x)) l ->
  exists m, kmeans_train old l = Ok m /\
  forall q, composite q = None -> Forall finite (attrs q) -> Forall (fun x => attr_count x = attr_count q) l ->
  (forall x r, In x l -> eucl x q = Ok (Fin r) -> above_floor (- r)) ->
  (forall x y r r', In x l -> In y l -> eucl x q = Ok (Fin r) -> eucl y q = Ok (Fin r') -> (r == r')%Q -> x = y) ->
  kmeans_predict eucl m q = knn_predict eucl l 1 q.
Proof.
  intros old l Hne N F. destruct (kmeans_single old l N F) as (m & Em & Pm & HM). exists m. split; [exact Em|]. intros q Hq Fq HC HB HT.
  rewrite Forall_forall in F, HC.
  assert (HD : forall y, In y l -> exists r, eucl y q = Ok (Fin r) /\ (r == distq (attrs y) (attrs q))%Q).
  { intros y Hy. destruct (F y Hy) as (_ & Fy). apply eucl_fin; [exact (HC y Hy)|exact Fy|exact Fq]. }
  set (d := fun y => match eucl y q with Ok v => v | _ => d0 end).
  destruct l as [|x0 l0] eqn:El; [congruence|]. rewrite <- El in *. assert (Hx0 : In x0 l) by (rewrite El; left; reflexivity).
  destruct (nearest_one eucl l q d x0 Hq Hx0) as (y & En & Hy & Hmin).
  { intros y Hy. unfold d. destruct (HD y Hy) as (r & -> & _). split; reflexivity. }
  unfold knn_predict. rewrite En. cbn [bind]. unfold isComposite at 1. rewrite Hq. cbn [andb]. change (class_labels [y]) with [label y]. rewrite get_maximum_one.
  unfold kmeans_predict. rewrite Pm.
  assert (MX : forall z, In z l -> exists r, kmeans_metric eucl m q (label z) = Ok (Fin (- r)) /\ (r == distq (attrs z) (attrs q))%Q) by (intros z Hz; apply HM; [exact Hz|symmetry; exact (HC z Hz)|exact Fq]).
  destruct (C49_answers (class_distribution l) (kmeans_metric eucl m q) q) as (c & Ec); [congruence| |].
  { intros c Hc. apply in_prior, in_map_iff in Hc as (z & <- & Hz). destruct (MX z Hz) as (r & E & _). eexists; exact E. }
  rewrite Ec. f_equal. pose proof (C49_seen_label l (kmeans_metric eucl m q) q c Hne Hq Ec) as Hc. apply in_map_iff in Hc as (z & <- & Hz).
  f_equal. assert (CK : candidates (mkeys (class_distribution l)) q = mkeys (class_distribution l)) by (unfold candidates; rewrite Hq; reflexivity).
  destruct (C49_maximal _ _ _ _ Ec) as (v & Ev & _ & Hmax).
  { exists (label y). destruct (MX y Hy) as (r & Er & Vr). exists (Fin (- r)). rewrite CK. assert (K : In (label y) (mkeys (class_distribution l))) by (apply in_prior, in_map, Hy).
    split; [exact K|]. split; [exact K|]. split; [exact Er|]. destruct (HD y Hy) as (r' & Er' & Vr'). pose proof (HB y r' Hy Er') as B. unfold above_floor in B.
    apply dltb_fin. rewrite Vr, <- Vr'. exact B. }
  rewrite CK in Hmax. destruct (MX z Hz) as (rz & Ez & Vz). destruct (MX y Hy) as (ry & Ey & Vy). rewrite Ez in Ev. injection Ev as <-.
  assert (K : In (label y) (mkeys (class_distribution l))) by (apply in_prior, in_map, Hy). specialize (Hmax (label y) _ K K Ey). apply dltb_fin_false in Hmax.
  specialize (Hmin z Hz). unfold d in Hmin. destruct (HD y Hy) as (sy & Esy & Vsy). destruct (HD z Hz) as (sz & Esz & Vsz). rewrite Esy, Esz in Hmin. apply dltb_fin_false in Hmin.
  apply (HT z y sz sy Hz Hy Esz Esy). rewrite Vz, Vy in Hmax. rewrite Vsy, Vsz in *. lra.
Qed.
Print Assumptions C125_kmeans_knn.
(** between two equally near instances k-means takes the smaller label, the nearest neighbour classifier the earlier instance *)
Theorem C125_tie_refuted : exists l q m, kmeans_train (mkKM [] []) l = Ok m /\ NoDup (map label l) /\ kmeans_predict eucl m q = Ok "a" /\ knn_predict eucl l 1 q = Ok "b".
Proof.
  exists [kpt "b" 2; kpt "a" 0], (kpt "" 1). eexists. split; [vm_compute; reflexivity|]. split; [repeat constructor; cbn; intuition discriminate|]. split; vm_compute; reflexivity.
Qed.
Definition ex_protos : ilist := [kpt "c" 10; kpt "a" 0; kpt "b" (-4)].
Example C125_kmeans_knn_case : exists m, kmeans_train (mkKM [] []) ex_protos = Ok m /\
  map (fun v => kmeans_predict eucl m (kpt "" v)) [9; 1; -3; -100]%Q = [Ok "c"; Ok "a"; Ok "b"; Ok "b"] /\
  map (fun v => knn_predict eucl ex_protos 1 (kpt "" v)) [9; 1; -3; -100]%Q = [Ok "c"; Ok "a"; Ok "b"; Ok "b"].
Proof. eexists. split; [vm_compute; reflexivity|]. split; vm_compute; reflexivity. Qed.

(** the linear discriminant with equally frequent classes and a pooled covariance that is a multiple of the identity is k-means *)
Theorem C125_lda_kmeans : forall inverse ln f n l s v old, log_reads ln f -> inverts n inverse -> Forall2 reads_numbers l s -> Forall (fun r => length (snd r) = n) s -> l <> [] ->
  (forall c, In c (map label l) -> 2 <= length (members s c)) -> (forall c c', In c (map label l) -> In c' (map label l) -> (frequency s c == frequency s c')%Q) ->
  (0 < v)%Q -> (forall i j, i < n -> j < n -> (pooled_cov s i j == if Nat.eqb i j then v else 0)%Q) ->
  exists m m', lda_train inverse ln lda_empty l = Ok m /\ kmeans_train old l = Ok m' /\
  forall q w, attrs q = map (fun z => ACont (Fin z)) w -> length w = n ->
  (forall c r, In c (map label l) -> lda_metric m q c = Ok (Fin r) -> above_floor r) -> (forall c r, In c (map label l) -> kmeans_metric eucl m' q c = Ok (Fin r) -> above_floor r) ->
  lda_predict m q = kmeans_predict eucl m' q.
Proof.
  intros inverse ln f n l s v old Hln HI HR HL Hn H2 HF Hv HP. destruct (numbers_shape n l s HR HL) as (HU & Es). rewrite Es in *.
  destruct (lda_diag inverse ln f n l (fun _ => v) Hln HI HU Hn H2) as (m & Em & HM); [intros i _; lra|exact HP|].
  destruct (kmeans_formula old n l (sample_of l) HR HL) as (m' & Em' & Pm' & HM').
  exists m, m'. split; [exact Em|]. split; [exact Em'|]. intros q w Hq Lw B B'. unfold lda_predict, kmeans_predict. rewrite (proj1 (lda_train_prior _ _ _ _ _ Em)), Pm'.
  destruct (HM q w (vals_of_numbers q w Hq) Lw) as (k & HK). destruct l as [|x0 l0] eqn:El; [congruence|]. rewrite <- El in *. assert (H0 : In (label x0) (map label l)) by (rewrite El; left; reflexivity).
  set (k' := (f (frequency (sample_of l) (label x0)) + k)%Q).
  apply (gauss_predict_mono (class_distribution l) (lda_metric m q) (kmeans_metric eucl m' q) (fun a b => a == k' + (1#2) * / v * b)%Q q q eq_refl).
  - intros a b x y Ha Hx. rewrite Ha, Hx. assert (0 < / v)%Q by (apply Qinv_lt_0_compat; exact Hv). split; intros K; nra.
  - intros c Hc. apply in_prior in Hc. destruct (HK c Hc) as (r & Er & Vr). destruct (HM' q w c Hq Lw Hc) as (r' & Er' & Vr'). exists r, r'. split; [exact Er|]. split; [exact Er'|].
    split; [|split; [exact (B c r Hc Er)|exact (B' c r' Hc Er')]]. rewrite Vr, Vr', (qsum_scale_l (fun i => away (sample_of l) c w i * away (sample_of l) c w i)%Q (/ v)).
    unfold k'. rewrite (proj2 Hln _ _ (HF c (label x0) Hc H0)). ring.
Qed.
Print Assumptions C125_lda_kmeans.

(** the quadratic discriminant with one covariance for all classes is the linear one *)
Theorem C125_qda_lda : forall inverse determinant ln f shape l s w, log_reads ln f -> inverts (dim shape) inverse -> finds_determinant (dim shape) determinant ->
  uniform shape l -> l <> [] -> Forall2 reads l s -> (forall c, In c (map label l) -> 2 <= length (members s c)) ->
  (forall c i j, In c (map label l) -> i < dim shape -> j < dim shape -> (class_cov s c i j == w i j)%Q) -> invertible (dim shape) w -> (0 < det (dim shape) w)%Q ->
  exists m m', lda_train inverse ln lda_empty l = Ok m /\ qda_train inverse determinant ln qda_empty l = Ok m' /\
  forall q, Forall2 fits shape (attrs q) ->
  (forall c r, In c (map label l) -> lda_metric m q c = Ok (Fin r) -> above_floor r) -> (forall c r, In c (map label l) -> qda_metric m' q c = Ok (Fin r) -> above_floor r) ->
  lda_predict m q = qda_predict m' q.
Proof.
  intros inverse determinant ln f shape l s w Hln HI HD HU Hn HR H2 HC HV H0. rewrite (reads_sample shape l s HU HR) in *.
  destruct (lda_qda inverse determinant ln f shape l w Hln HI HD HU Hn H2 HC HV H0) as (m & m' & Em & Em' & HM). exists m, m'. split; [exact Em|]. split; [exact Em'|].
  intros q Hq B B'. destruct (fits_vals shape q Hq) as (Eq & Lq). destruct (HM q (row q) Eq Lq) as (k & HK).
  unfold lda_predict, qda_predict. rewrite (proj1 (lda_train_prior _ _ _ _ _ Em)), (proj1 (qda_train_prior _ _ _ _ _ _ Em')).
  apply (gauss_predict_mono (class_distribution l) (lda_metric m q) (qda_metric m' q) (fun a b => b == a + k)%Q q q eq_refl).
  - intros a b x y Ha Hx. rewrite Ha, Hx. split; intros K; lra.
  - intros c Hc. apply in_prior in Hc. destruct (HK c Hc) as (r & r' & Er & Er' & V). exists r, r'. repeat split; [exact Er|exact Er'|exact V|exact (B c r Hc Er)|exact (B' c r' Hc Er')].
Qed.
Print Assumptions C125_qda_lda.

(** continuous naive Bayes whose deviations are the same in all classes is the linear discriminant with diagonal covariance *)
Theorem C125_bayes_lda : forall inverse ln f std_vec n l s (t : list Q), log_reads ln f -> inverts n inverse -> Forall2 reads_numbers l s -> Forall (fun r => length (snd r) = n) s ->
  l <> [] -> 1 <= n -> (forall c, In c (map label l) -> 2 <= length (members s c)) -> length t = n -> Forall (fun z => ~ z == 0)%Q t ->
  (forall c, In c (map label l) -> std_vec (filter (fun x => String.eqb (label x) c) l) = Ok (map Fin t)) ->
  (forall i j, i < n -> j < n -> (pooled_cov s i j == if Nat.eqb i j then nth i t 0 * nth i t 0 else 0)%Q) ->
  exists m m', lda_train inverse ln lda_empty l = Ok m /\ bayes_train std_vec bayes_empty l = Ok m' /\
  forall q w, attrs q = map (fun z => ACont (Fin z)) w -> length w = n ->
  (forall c r, In c (map label l) -> lda_metric m q c = Ok (Fin r) -> above_floor r) -> (forall c r, In c (map label l) -> bayes_metric ln m' q c = Ok (Fin r) -> above_floor r) ->
  lda_predict m q = bayes_predict ln m' q.
Proof.
  intros inverse ln f std_vec n l s t Hln HI HR HL Hn H1 H2 Lt Ht HS HP. destruct (numbers_shape n l s HR HL) as (HU & Es). rewrite Es in *.
  assert (Hz : forall i, i < n -> ~ (nth i t 0 == 0)%Q) by (intros i Hi; exact (proj1 (Forall_forall _ _) Ht _ (nth_In t 0%Q (eq_ind_r (fun m => i < m) Hi Lt)))).
  destruct (lda_diag inverse ln f n l (fun i => nth i t 0 * nth i t 0)%Q Hln HI HU Hn H2) as (m & Em & HM); [|exact HP|].
  { intros i Hi E. apply Qmult_integral in E. destruct E as [E|E]; exact (Hz i Hi E). }
  destruct (bayes_cont_spec ln f Hln std_vec n l (sample_of l) HR HL Hn H1 (fun _ => t)) as (m' & Em' & Pm' & HM').
  { intros c Hc. split; [exact (HS c Hc)|]. split; assumption. }
  exists m, m'. split; [exact Em|]. split; [exact Em'|]. intros q w Hq Lw B B'. unfold lda_predict, bayes_predict. rewrite (proj1 (lda_train_prior _ _ _ _ _ Em)), Pm'.
  destruct (HM q w (vals_of_numbers q w Hq) Lw) as (k & HK).
  apply (gauss_predict_mono (class_distribution l) (lda_metric m q) (bayes_metric ln m' q) (fun a b => a == b + k)%Q q q eq_refl).
  - intros a b x y Ha Hx. rewrite Ha, Hx. split; intros K; lra.
  - intros c Hc. apply in_prior in Hc. destruct (HK c Hc) as (r & Er & Vr). destruct (HM' q w c Hq Lw Hc) as (r' & Er' & Vr'). exists r, r'. split; [exact Er|]. split; [exact Er'|].
    split; [|split; [exact (B c r Hc Er)|exact (B' c r' Hc Er')]]. rewrite Vr, Vr'. apply Qplus_comp; [|reflexivity]. apply Qplus_comp; [reflexivity|]. apply Qopp_comp, Qmult_comp; [reflexivity|].
    apply ssum_ext. intros i Hi. field. exact (Hz i Hi).
Qed.
Print Assumptions C125_bayes_lda.
(** three classes of the same spread and size: all the hypotheses hold and the four classifiers agree *)
Definition ex_twin : ilist := [pt "a" 0; pt "a" 1; pt "a" 2; pt "b" 10; pt "b" 11; pt "b" 12; pt "c" 5; pt "c" 6; pt "c" 7].
Definition ex_twins : sample := [("a", [0]); ("a", [1]); ("a", [2]); ("b", [10]); ("b", [11]); ("b", [12]); ("c", [5]); ("c", [6]); ("c", [7])]%Q.
Definition ex_one (l : ilist) : res (list dbl) := Ok [Fin 1].
Definition ex_queries : list instance := [pt "" 2; pt "" 4; pt "" 8; pt "" 9].
Example C125_gauss_case : Forall2 reads_numbers ex_twin ex_twins /\ uniform [None] ex_twin /\ Forall2 reads ex_twin ex_twins /\ inverts 1 inv1 /\ finds_determinant 1 det1 /\ log_reads (fun _ => d0) (fun _ => 0%Q) /\
  (forall c, In c (map label ex_twin) -> 2 <= length (members ex_twins c) /\ (frequency ex_twins c == 1#3)%Q /\ (class_cov ex_twins c 0 0 == 1)%Q) /\ (pooled_cov ex_twins 0 0 == 1)%Q /\
  (exists m1 m2 m3 m4, lda_train inv1 (fun _ => d0) lda_empty ex_twin = Ok m1 /\ qda_train inv1 det1 (fun _ => d0) qda_empty ex_twin = Ok m2 /\
     kmeans_train (mkKM [] []) ex_twin = Ok m3 /\ bayes_train ex_one bayes_empty ex_twin = Ok m4 /\
     map (lda_predict m1) ex_queries = [Ok "a"; Ok "c"; Ok "c"; Ok "b"] /\ map (qda_predict m2) ex_queries = [Ok "a"; Ok "c"; Ok "c"; Ok "b"] /\
     map (kmeans_predict eucl m3) ex_queries = [Ok "a"; Ok "c"; Ok "c"; Ok "b"] /\ map (bayes_predict (fun _ => d0) m4) ex_queries = [Ok "a"; Ok "c"; Ok "c"; Ok "b"]).
Proof.
  split; [repeat constructor|]. split; [repeat (constructor; [constructor; [eexists; reflexivity|constructor]|]); constructor|]. split; [repeat constructor|].
  split; [exact ex_inverts|]. split; [exact ex_determinant|]. split; [exact ex_log|].
  split. { assert (K : forall c, In c (map label ex_twin) -> c = "a" \/ c = "b" \/ c = "c") by (cbn; intuition). intros c Hc. destruct (K c Hc) as [->|[->| ->]]; (split; [cbn; lia|split; reflexivity]). }
  split; [reflexivity|]. eexists _, _, _, _. do 4 (split; [vm_compute; reflexivity|]). repeat split; vm_compute; reflexivity.
Qed.

(** a random forest whose attribute subsets hold all attributes is bagging: the same trees, or the same failure *)
Theorem C125_forest_bagging : forall entropy mid rarr pick m seed size fuel forest l, (forall x, In x l -> attr_count x <= m) ->
  ensemble_train entropy mid rarr pick (Some (m, seed)) size fuel forest l = ensemble_train entropy mid rarr pick None size fuel forest l.
Proof. exact ensemble_all. Qed.
Print Assumptions C125_forest_bagging.
(** an ensemble of one tree answers as the tree, also when the tree fails *)
Theorem C125_ensemble_one : forall max_item t x, ensemble_predict max_item [t] x = tree_predict max_item t x.
Proof. exact ensemble_single. Qed.
Print Assumptions C125_ensemble_one.
(** training data with one label only: trees, stumps, ensembles and the majority classifier all answer that label *)
Theorem C125_one_class : forall max_item entropy mid rarr pick param size fuel l c, draws pick -> l <> [] -> (forall x, In x l -> label x = c) -> 1 <= size -> 1 <= fuel ->
  exists t t' ts, tree_train max_item entropy mid rarr false d0 0 fuel l = Ok t /\ stump_train entropy mid rarr fuel l = Ok t' /\
    ensemble_train entropy mid rarr pick param size fuel [] l = Ok ts /\
    forall q, composite q = None -> tree_predict max_item t q = Ok c /\ tree_predict max_item t' q = Ok c /\ ensemble_predict max_item ts q = Ok c /\
      forall old, dummy_predict max_item (dummy_train old l) q = c.
Proof.
  intros max_item entropy mid rarr pick param size fuel l c Hp Hn Hc Hs Hf. destruct fuel as [|f]; [lia|].
  exists (Node c true (class_distribution l) no_condition []), (Node c true (class_distribution l) no_condition []).
  exists (map (fun i => Node c true (class_distribution (bootstrap pick (Z.of_nat i) l)) no_condition []) (seq 0 size)).
  assert (T : forall d x, composite x = None -> tree_predict max_item (Node c true d no_condition []) x = Ok c).
  { intros d x Hx. unfold tree_predict. cbn [node_predict]. unfold isComposite. rewrite Hx. cbn [bind]. rewrite andb_false_r. reflexivity. }
  split; [apply build_one; assumption|]. split; [apply build_one; assumption|]. split.
  - unfold ensemble_train. rewrite (BaseLemmas.mapM_total _ (fun i => Node c true (class_distribution (bootstrap pick (Z.of_nat i) l)) no_condition [])); [reflexivity|].
    intros i _. apply build_one.
    + intros E. apply (f_equal (@length _)) in E. unfold bootstrap in E. destruct (Hp (Z.of_nat i) (length l)) as (L & F). rewrite rearrange_length in E by exact F. rewrite L in E. destruct l; [congruence|discriminate E].
    + intros x Hx. apply Hc, (boot_in _ _ _ _ Hx).
  - intros q Hq. split; [apply T, Hq|]. split; [apply T, Hq|]. split; [|intros old; apply (dummy_one max_item old l c q Hn Hc Hq)].
    unfold ensemble_predict, votes. assert (E : mapM (fun t => tree_predict max_item t q) (map (fun i => Node c true (class_distribution (bootstrap pick (Z.of_nat i) l)) no_condition []) (seq 0 size)) = Ok (repeat c size)).
    { rewrite ModelInvDistProofs.mapM_map. rewrite (BaseLemmas.mapM_total _ (fun _ => c)) by (intros; apply T, Hq). f_equal. generalize 0. induction size as [|n IH]; intros o; [reflexivity|]. cbn [seq map repeat]. f_equal. destruct n; [reflexivity|apply IH; lia]. }
    rewrite E. cbn [bind]. destruct size as [|n]; [lia|]. f_equal. apply votes_one.
Qed.
Print Assumptions C125_one_class.
Definition ex_pure : ilist := [pt "z" 1; pt "z" 2].
Example C125_trees_case :
  (exists ts, ensemble_train (fun _ => d1) (fun a _ => a) (fun n _ => seq 0 n) ex_pick (Some (1, 7%Z)) 2 3 [] ex_pure = Ok ts /\
     ensemble_predict (fun _ _ => "") ts (pt "" 5) = Ok "z" /\ dummy_predict (fun _ _ => "") (dummy_train [] ex_pure) (pt "" 5) = "z") /\
  (forall x, In x ex_twin -> attr_count x <= 1).
Proof. split; [eexists; split; [vm_compute; reflexivity|split; vm_compute; reflexivity]|]. intros x Hx. repeat (destruct Hx as [<-|Hx]; [cbn; lia|]). destruct Hx. Qed.
