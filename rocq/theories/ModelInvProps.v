(** Properties C120, C121: order and units of the training data of k-nearest neighbours, k-means, the discriminants and
    naive Bayes. *)
From Coq Require Import String ZArith QArith Bool Lia Lqa Permutation Sorted Arith List.
From Verif Require Import Base Spec BaseLemmas DblLemmas AttrModel AttrProofs DataSetModel InstanceListModel PartitionModel PerformanceModel
  StatSpec ListSpec ListProofs PartitionProofs CovProofs CovAllProofs PerformanceProofs DistanceModel DistanceSpec DistanceProofs
  GaussianModel GaussianSpec GaussianProofs DiscrimSpec DiscrimProofs BayesProofs TreeSpec TreeProofs InvSpec TreeInvProofs GaussianProps DiscrimProps InvProps ModelInvSpec ModelInvProofs ModelInvDistProofs.
Import ListNotations.
Local Open Scope string_scope.
Local Open Scope list_scope.
Local Open Scope nat_scope.

Lemma same_reversible : reversible same_units.
Proof. intros i. cbn. lra. Qed.
Lemma same_common : common_factor 1 same_units.
Proof. intros i. reflexivity. Qed.
Lemma perm_prior l l' : Permutation l l' -> class_distribution l = class_distribution l'.
Proof. intros P. exact (same_prior same_units l l' (same_data_perm l l' P)). Qed.
Lemma reads_sample shape l s : uniform shape l -> Forall2 reads l s -> s = sample_of l.
Proof. exact (reads_rows shape l s). Qed.

(** * C120: the order of the training data *)
(** k nearest neighbours, any distance without NaN: the order does not matter unless different labels tie for the last place *)
Theorem C120_knn_partial : forall dist data data' k q (d : instance -> dbl) f,
  (forall x, In x data -> may_answer q x -> dist x q = Ok (d x) /\ is_nan (d x) = false) ->
  (forall x, f x = true <-> may_answer q x) -> decided d (filter f data) (Z.to_nat k) -> Permutation data data' ->
  knn_predict dist data k q = knn_predict dist data' k q /\ knn_probability dist data k q = knn_probability dist data' k q.
Proof.
  intros dist data data' k q d f H Hf D P. apply (knn_order dist data data' k q d H P).
  assert (E : filter (eligible q) data = filter f data); [|rewrite E; exact D]. apply filter_ext. intros x. destruct (f x) eqn:A, (eligible q x) eqn:B; try reflexivity.
  - apply Hf, eligible_iff in A. congruence.
  - apply eligible_iff, Hf in B. congruence.
Qed.
(** no condition when all instances are consulted *)
Theorem C120_knn_all : forall dist data data' k q (d : instance -> dbl),
  (forall x, In x data -> may_answer q x -> dist x q = Ok (d x) /\ is_nan (d x) = false) ->
  (Z.of_nat (length data) <= k)%Z -> Permutation data data' ->
  knn_predict dist data k q = knn_predict dist data' k q /\ knn_probability dist data k q = knn_probability dist data' k q.
Proof.
  intros dist data data' k q d H Hk P. apply (knn_order dist data data' k q d H P). intros x y Hx Hy E [H1 H2]. exfalso.
  assert (L : forall (f g : instance -> bool) l, length (filter f (filter g l)) <= length l).
  { clear. intros f g l. assert (A : forall h (l : ilist), length (filter h l) <= length l) by (intros h m; induction m as [|z m IH]; cbn; [lia|destruct (h z); cbn; lia]).
    etransitivity; apply A. }
  unfold not_farther in H2. pose proof (L (fun y => negb (dltb (d x) (d y))) (eligible q) data). unfold ilist in *. lia.
Qed.
(** two training instances at the same distance, one neighbour: the first in the list wins *)
Definition kpt (c : string) (v : Q) : instance := mkInst c [ACont (Fin v)] None.
Theorem C120_knn_refuted : exists data data' q,
  Permutation data data' /\ Forall (fun x => attr_count x = attr_count q /\ Forall finite (attrs x)) data /\ Forall finite (attrs q) /\
  knn_predict eucl data 1 q = Ok "a" /\ knn_predict eucl data' 1 q = Ok "b".
Proof.
  assert (F : forall c v, Forall finite (attrs (kpt c v))) by (intros c v; repeat constructor; intros w E; injection E as <-; eexists; reflexivity).
  exists [kpt "a" 0; kpt "b" 2], [kpt "b" 2; kpt "a" 0], (kpt "" 1). split; [apply perm_swap|]. split; [constructor; [split; [reflexivity|apply F]|constructor; [split; [reflexivity|apply F]|constructor]]|]. split; [apply F|]. split; vm_compute; reflexivity.
Qed.
Definition ex_points : ilist := [kpt "a" 0; kpt "b" 4; kpt "a" 2; kpt "b" (-2)].
(** three neighbours of 1: 0, 2 and one of 4 and -2, which tie but agree *)
Example C120_knn_case : let d := fun x => match eucl x (kpt "" 1) with Ok v => v | _ => d0 end in
  (forall x, In x ex_points -> may_answer (kpt "" 1) x -> eucl x (kpt "" 1) = Ok (d x) /\ is_nan (d x) = false) /\
  (forall x, true = true <-> may_answer (kpt "" 1) x) /\
  decided d (filter (fun _ => true) ex_points) (Z.to_nat 3) /\ Permutation ex_points (rev ex_points) /\
  knn_predict eucl ex_points 3 (kpt "" 1) = Ok "a".
Proof.
  cbv zeta. split; [intros x [<-|[<-|[<-|[<-|[]]]]] _; vm_compute; split; reflexivity|]. split; [intros x; split; [intros _ ls E; discriminate E|reflexivity]|].
  split; [|split; [apply Permutation_rev|vm_compute; reflexivity]].
  intros x y [<-|[<-|[<-|[<-|[]]]]] [<-|[<-|[<-|[<-|[]]]]] E H; vm_compute in H; try lia; try reflexivity; vm_compute in E; discriminate E.
Qed.

(** k-means (one mean per class), data of discrete and continuous features *)
Theorem C120_kmeans : forall shape l l', Forall (fun kd => kd = KDisc \/ kd = KCont) shape -> tabular shape l -> Permutation l l' ->
  exists m m', kmeans_train (mkKM [] []) l = Ok m /\ kmeans_train (mkKM [] []) l' = Ok m' /\
  forall q, typed shape q -> kmeans_predict eucl m q = kmeans_predict eucl m' q.
Proof.
  intros shape l l' HM T P. destruct (kmeans_same 1 shape same_units l l' HM T (same_data_perm l l' P) same_common) as (m & m' & Em & Em' & Pm & Pm' & H); [left; reflexivity|].
  exists m, m'. split; [exact Em|]. split; [exact Em'|]. intros q Tq. unfold kmeans_predict. rewrite Pm, Pm', <- (perm_prior l l' P).
  apply gauss_predict_ext; [reflexivity|]. intros c Hc. apply in_prior in Hc. destruct (H q q Tq (rescaled_same q) c Hc) as (r & r' & E & E' & V).
  exists (Fin r), (Fin r'). split; [exact E|]. split; [exact E'|]. cbn. rewrite V. ring.
Qed.
Definition ex_mixed : ilist := [mkInst "a" [ADisc "x"; ACont (Fin 1)] None; mkInst "b" [ADisc "y"; ACont (Fin 8)] None; mkInst "a" [ADisc "x"; ACont (Fin 2)] None; mkInst "a" [ADisc "y"; ACont (Fin 0)] None].
Example C120_kmeans_case : tabular [KDisc; KCont] ex_mixed /\ Permutation ex_mixed (rev ex_mixed) /\
  exists m, kmeans_train (mkKM [] []) ex_mixed = Ok m /\ kmeans_predict eucl m (mkInst "" [ADisc "x"; ACont (Fin 4)] None) = Ok "a" /\
    kmeans_predict eucl m (mkInst "" [ADisc "y"; ACont (Fin 5)] None) = Ok "b".
Proof.
  split; [repeat constructor; cbn; eexists; reflexivity|]. split; [apply Permutation_rev|]. eexists. split; [vm_compute; reflexivity|]. split; vm_compute; reflexivity.
Qed.

(** linear discriminant *)
Theorem C120_lda : forall inverse ln f shape l l' s, log_reads ln f -> inverts (dim shape) inverse ->
  uniform shape l -> l <> [] -> Forall2 reads l s -> (forall c, In c (map label l) -> 2 <= length (members s c)) ->
  invertible (dim shape) (pooled_cov s) -> Permutation l l' ->
  exists m m', lda_train inverse ln lda_empty l = Ok m /\ lda_train inverse ln lda_empty l' = Ok m' /\
  forall q, Forall2 fits shape (attrs q) -> lda_predict m q = lda_predict m' q.
Proof.
  intros inverse ln f shape l l' s Hln HI HU Hn HR H2 HV P. rewrite (reads_sample shape l s HU HR) in *.
  destruct (lda_same inverse ln f Hln shape same_units same_reversible l l' HU Hn (same_data_perm l l' P) H2 HI HV) as (m & m' & Em & Em' & H).
  exists m, m'. split; [exact Em|]. split; [exact Em'|]. intros q Hq. unfold lda_predict. rewrite (proj1 (lda_train_prior _ _ _ _ _ Em)), (proj1 (lda_train_prior _ _ _ _ _ Em')), <- (perm_prior l l' P).
  destruct (H q q Hq (rescaled_same q)) as (k & Hk & HM). apply gauss_predict_ext; [reflexivity|]. intros c Hc. apply in_prior in Hc. destruct (HM c Hc) as (r & r' & E & E' & V).
  exists (Fin r), (Fin r'). split; [exact E|]. split; [exact E'|]. cbn. rewrite V, (Hk eq_refl). ring.
Qed.
(** quadratic discriminant *)
Theorem C120_qda : forall inverse determinant ln f shape l l' s, log_reads ln f -> inverts (dim shape) inverse -> finds_determinant (dim shape) determinant ->
  uniform shape l -> l <> [] -> Forall2 reads l s -> (forall c, In c (map label l) -> 2 <= length (members s c)) ->
  (forall c, In c (map label l) -> invertible (dim shape) (class_cov s c) /\ (0 < det (dim shape) (class_cov s c))%Q) -> Permutation l l' ->
  exists m m', qda_train inverse determinant ln qda_empty l = Ok m /\ qda_train inverse determinant ln qda_empty l' = Ok m' /\
  forall q, Forall2 fits shape (attrs q) -> qda_predict m q = qda_predict m' q.
Proof.
  intros inverse determinant ln f shape l l' s Hln HI HD HU Hn HR H2 HV P. rewrite (reads_sample shape l s HU HR) in *.
  destruct (qda_same inverse determinant ln f Hln shape same_units same_reversible l l' HU Hn (same_data_perm l l' P) H2 HI HD HV) as (m & m' & Em & Em' & g & _ & Hg & H).
  exists m, m'. split; [exact Em|]. split; [exact Em'|]. intros q Hq. unfold qda_predict. rewrite (proj1 (qda_train_prior _ _ _ _ _ _ Em)), (proj1 (qda_train_prior _ _ _ _ _ _ Em')), <- (perm_prior l l' P).
  apply gauss_predict_ext; [reflexivity|]. intros c Hc. apply in_prior in Hc. destruct (H q q Hq (rescaled_same q) c Hc) as (r & r' & E & E' & V).
  exists (Fin r), (Fin r'). split; [exact E|]. split; [exact E'|]. cbn.
  rewrite (proj2 Hln (g * det (dim shape) (class_cov (sample_of l) c))%Q (det (dim shape) (class_cov (sample_of l) c))) in V by (rewrite (Hg eq_refl); ring). lra.
Qed.
(** naive Bayes on texts *)
Theorem C120_bayes_discrete : forall ln f std_vec n l l' s, log_reads ln f -> Forall2 reads_text l s -> Forall (fun r => length (snd r) = n) s ->
  l <> [] -> 1 <= n -> Permutation l l' ->
  exists m m', bayes_train std_vec bayes_empty l = Ok m /\ bayes_train std_vec bayes_empty l' = Ok m' /\
  forall q vs, attrs q = map ADisc vs -> length vs = n -> bayes_predict ln m q = bayes_predict ln m' q.
Proof.
  intros ln f std_vec n l l' s Hln R F Hn H1 P. destruct (bayes_disc_same ln f std_vec n l l' s Hln R F Hn H1 P) as (m & m' & Em & Em' & Pm & Pm' & H).
  exists m, m'. split; [exact Em|]. split; [exact Em'|]. intros q vs Hq Lq. unfold bayes_predict. rewrite Pm, Pm', <- (perm_prior l l' P). apply gauss_predict_ext; [reflexivity|].
  intros c Hc. apply in_prior in Hc. destruct (H q vs Hq Lq c Hc) as (r & r' & E & E' & V). exists (Fin r), (Fin r'). split; [exact E|]. split; [exact E'|exact V].
Qed.
(** naive Bayes on numbers: the standard deviations of a class must not depend on the order (C19: over the reals they do not) *)
Theorem C120_bayes_continuous : forall ln f std_vec n l l' (sd sd' : string -> list Q), log_reads ln f -> uniform (repeat None n) l -> l <> [] -> 1 <= n ->
  Permutation l l' ->
  (forall c, In c (map label l) -> std_vec (filter (fun x => String.eqb (label x) c) l) = Ok (map Fin (sd c)) /\ length (sd c) = n /\ Forall (fun z => ~ z == 0)%Q (sd c)) ->
  (forall c, In c (map label l) -> std_vec (filter (fun x => String.eqb (label x) c) l') = Ok (map Fin (sd' c)) /\ length (sd' c) = n) ->
  (forall c j, In c (map label l) -> j < n -> (nth j (sd' c) 0 == nth j (sd c) 0)%Q) ->
  exists m m', bayes_train std_vec bayes_empty l = Ok m /\ bayes_train std_vec bayes_empty l' = Ok m' /\
  forall q, Forall2 fits (repeat None n) (attrs q) -> bayes_predict ln m q = bayes_predict ln m' q.
Proof.
  intros ln f std_vec n l l' sd sd' Hln U Hn H1 P Hsd Hsd' HV.
  destruct (bayes_cont_same ln f std_vec n same_units l l' sd sd' Hln same_reversible U Hn H1 (same_data_perm l l' P) Hsd Hsd') as (m & m' & Em & Em' & Pm & Pm' & H).
  { intros c j Hc Hj. rewrite (HV c j Hc Hj). cbn [same_units fst]. ring. }
  exists m, m'. split; [exact Em|]. split; [exact Em'|]. intros q Hq. unfold bayes_predict. rewrite Pm, Pm', <- (perm_prior l l' P). apply gauss_predict_ext; [reflexivity|].
  intros c Hc. apply in_prior in Hc. destruct (H q q Hq (rescaled_same q) c Hc) as (r & r' & E & E' & V). exists (Fin r), (Fin r'). split; [exact E|]. split; [exact E'|exact V].
Qed.
(** the hypotheses hold for one feature, the reciprocal as inverse and the entry as determinant *)
Lemma ex_inverts : inverts 1 inv1.
Proof.
  intros P S (LP & RP) (HS & HE). destruct P as [|r [|r' P]]; try discriminate LP. inversion RP as [|? ? Lr _]; subst. destruct r as [|v [|w r]]; try discriminate Lr.
  assert (N : ~ (v == 0)%Q). { specialize (HE 0 0 (le_n 1) (le_n 1)). unfold mget in HE. cbn in HE. intros E. rewrite E in HE. lra. }
  exists [[1 / v]]%Q. split.
  - unfold inv1. cbn. unfold d1, dofnat, ddiv. destruct (Qeq_bool v 0) eqn:E; [apply Qeq_bool_iff in E; contradiction|]. reflexivity.
  - split; [split; [reflexivity|repeat constructor]|]. intros [|i] [|j] Hi Hj; try lia. unfold mget. cbn. field. exact N.
Qed.
Lemma ex_determinant : finds_determinant 1 det1.
Proof.
  intros P (LP & RP). destruct P as [|r [|r' P]]; try discriminate LP. inversion RP as [|? ? Lr _]; subst. destruct r as [|v [|w r]]; try discriminate Lr.
  exists v. split; [reflexivity|]. unfold mget. cbn. ring.
Qed.
Lemma ex_log : log_reads (fun _ => d0) (fun _ => 0%Q).
Proof. split; [intros p _; exists 0%Q; split; reflexivity|reflexivity]. Qed.
Definition ex_qs : sample := [("a", [0]); ("a", [2]); ("b", [10]); ("b", [14])]%Q.
Example C120_discriminants_case :
  inverts 1 inv1 /\ finds_determinant 1 det1 /\ log_reads (fun _ => d0) (fun _ => 0%Q) /\ uniform [None] ex_q /\ Forall2 reads ex_q ex_qs /\
  (forall c, In c (map label ex_q) -> 2 <= length (members ex_qs c)) /\ invertible 1 (pooled_cov ex_qs) /\
  (forall c, In c (map label ex_q) -> invertible 1 (class_cov ex_qs c) /\ (0 < det 1 (class_cov ex_qs c))%Q) /\ Permutation ex_q (rev ex_q) /\
  exists m, lda_train inv1 (fun _ => d0) lda_empty (rev ex_q) = Ok m /\ lda_predict m (pt "" 6) = Ok "a" /\ lda_predict m (pt "" 7) = Ok "b".
Proof.
  split; [exact ex_inverts|]. split; [exact ex_determinant|]. split; [exact ex_log|]. split; [apply C102_case|]. split; [apply C102_case|]. split; [apply C102_case|].
  split; [exists (fun _ _ => 1#5)%Q; intros [|i] [|j] Hi Hj; try lia; vm_compute; reflexivity|].
  split; [|split; [apply Permutation_rev|eexists; split; [vm_compute; reflexivity|split; vm_compute; reflexivity]]].
  assert (K : forall c, In c (map label ex_q) -> c = "a" \/ c = "b") by (cbn; intuition). intros c Hc. destruct (K c Hc) as [->| ->]; (split; [|vm_compute; reflexivity]).
  - exists (fun _ _ => 1#2)%Q. intros [|i] [|j] Hi Hj; try lia; vm_compute; reflexivity.
  - exists (fun _ _ => 1#8)%Q. intros [|i] [|j] Hi Hj; try lia; vm_compute; reflexivity.
Qed.
Definition ex_texts : ilist := [mkInst "a" [ADisc "x"; ADisc "u"] None; mkInst "a" [ADisc "x"; ADisc "w"] None; mkInst "b" [ADisc "y"; ADisc "u"] None].
(** sample deviations of the classes of [ex_wide]: 1 and 10 *)
Definition ex_std (l : ilist) : res (list dbl) := match l with x :: _ => Ok [Fin (if String.eqb (label x) "a" then 1 else 10)] | [] => UB BadIndex end.
Example C120_bayes_case :
  Forall2 reads_text ex_texts [("a", ["x"; "u"]); ("a", ["x"; "w"]); ("b", ["y"; "u"])] /\ Permutation ex_texts (rev ex_texts) /\
  (exists m, bayes_train ex_std bayes_empty (rev ex_texts) = Ok m /\ bayes_predict (fun v => v) m (mkInst "" [ADisc "x"; ADisc "u"] None) = Ok "a" /\
     bayes_predict (fun v => v) m (mkInst "" [ADisc "y"; ADisc "u"] None) = Ok "b") /\
  uniform [None] ex_wide /\ Permutation ex_wide (rev ex_wide) /\
  (forall c, In c (map label ex_wide) -> ex_std (filter (fun x => String.eqb (label x) c) ex_wide) = Ok (map Fin [if String.eqb c "a" then 1 else 10]%Q) /\
     ex_std (filter (fun x => String.eqb (label x) c) (rev ex_wide)) = Ok (map Fin [if String.eqb c "a" then 1 else 10]%Q)) /\
  (exists m, bayes_train ex_std bayes_empty (rev ex_wide) = Ok m /\ bayes_predict (fun _ => d0) m (pt "" (1#2)) = Ok "b" /\ bayes_predict (fun _ => d0) m (pt "" 0) = Ok "a").
Proof.
  split; [repeat constructor|]. split; [apply Permutation_rev|]. split; [eexists; split; [vm_compute; reflexivity|split; vm_compute; reflexivity]|].
  split; [repeat (constructor; [constructor; [eexists; reflexivity|constructor]|]); constructor|]. split; [apply Permutation_rev|].
  split; [|eexists; split; [vm_compute; reflexivity|split; vm_compute; reflexivity]].
  assert (K : forall c, In c (map label ex_wide) -> c = "a" \/ c = "b") by (cbn; intuition). intros c Hc. destruct (K c Hc) as [->| ->]; split; reflexivity.
Qed.
Print Assumptions C120_knn_partial.
Print Assumptions C120_knn_all.
Print Assumptions C120_knn_refuted.
Print Assumptions C120_kmeans.
Print Assumptions C120_lda.
Print Assumptions C120_qda.
Print Assumptions C120_bayes_discrete.
Print Assumptions C120_bayes_continuous.

(** * C121: the units of the features *)
(** k nearest neighbours: the same neighbours, if all features share one factor (any shift per feature); with discrete
    features the factor has to be 1 or -1 *)
Theorem C121_knn : forall a u data data' k q q', ~ (a == 0)%Q -> common_factor a u -> (a * a == 1)%Q \/ Forall only_numbers data ->
  Forall finite (attrs q) -> Forall (fun x => attr_count x = attr_count q /\ Forall finite (attrs x)) data ->
  Forall2 (rescaled u) data data' -> rescaled u q q' ->
  (exists ns ns', nearest eucl data k q = Ok ns /\ nearest eucl data' k q' = Ok ns' /\ Forall2 (rescaled u) ns ns') /\
  knn_predict eucl data k q = knn_predict eucl data' k q' /\ knn_probability eucl data k q = knn_probability eucl data' k q'.
Proof.
  intros a u data data' k q q' Ha Hu HK Fq Fd HR Rq. destruct (knn_units a u data data' k q q' Ha Hu HK Fq Fd HR Rq) as (ns & ns' & E & E' & R).
  split; [exists ns, ns'; repeat split; assumption|]. apply (knn_of_labels _ _ _ _ _ _ _ _ _ E E' (proj1 (proj2 Rq))). rewrite (Forall2_labels u ns ns' R). reflexivity.
Qed.
(** k-means: the same label, as long as no squared distance reaches DBL_MAX *)
Theorem C121_kmeans : forall a u shape l l', ~ (a == 0)%Q -> common_factor a u -> Forall (fun kd => kd = KDisc \/ kd = KCont) shape ->
  (a * a == 1)%Q \/ Forall (fun kd => kd = KCont) shape -> tabular shape l -> same_data u l l' ->
  exists m m', kmeans_train (mkKM [] []) l = Ok m /\ kmeans_train (mkKM [] []) l' = Ok m' /\
  forall q q', typed shape q -> rescaled u q q' ->
  (forall c r, In c (map label l) -> kmeans_metric eucl m q c = Ok (Fin r) -> above_floor r /\ above_floor (a * a * r)) ->
  kmeans_predict eucl m q = kmeans_predict eucl m' q'.
Proof.
  intros a u shape l l' Ha Hu HM HK T HS. destruct (kmeans_same a shape u l l' HM T HS Hu HK) as (m & m' & Em & Em' & Pm & Pm' & H).
  exists m, m'. split; [exact Em|]. split; [exact Em'|]. intros q q' Tq Rq HF. unfold kmeans_predict. rewrite Pm, Pm', <- (same_prior u l l' HS).
  assert (Pa : (0 < a * a)%Q) by (destruct (Q_dec a 0) as [[?|?]|?]; [nra|nra|contradiction]).
  apply (gauss_predict_mono _ _ _ (fun r r' => r' == a * a * r)%Q); [exact (proj1 (proj2 Rq))| |].
  - intros x x' y y' Hx Hy. rewrite Hx, Hy. symmetry. apply Qmult_lt_l, Pa.
  - intros c Hc. apply in_prior in Hc. destruct (H q q' Tq Rq c Hc) as (r & r' & E & E' & V). destruct (HF c r Hc E) as (F1 & F2).
    exists r, r'. repeat split; try assumption. unfold above_floor in *. rewrite V. exact F2.
Qed.
(** with another unit for one feature the nearest neighbour and the nearest mean change *)
Definition two (c : string) (v w : Q) : instance := mkInst c [ACont (Fin v); ACont (Fin w)] None.
Definition grams : units := fun i => match i with 0 => (1000, 0)%Q | _ => (1, 0)%Q end.
Lemma two_grams c v w : rescaled grams (two c v w) (two c (1000 * v + 0) w).
Proof.
  repeat split. intros [|[|i]] a b Ea Eb; cbn in Ea, Eb; [| |destruct i; discriminate Ea]; injection Ea as <-; injection Eb as <-; cbn; [reflexivity|ring].
Qed.
Theorem C121_one_unit_refuted : exists l l' q q' m m', tabular [KCont; KCont] l /\ increasing grams /\ Forall2 (rescaled grams) l l' /\ rescaled grams q q' /\
  knn_predict eucl l 1 q = Ok "a" /\ knn_predict eucl l' 1 q' = Ok "b" /\
  kmeans_train (mkKM [] []) l = Ok m /\ kmeans_train (mkKM [] []) l' = Ok m' /\ kmeans_predict eucl m q = Ok "a" /\ kmeans_predict eucl m' q' = Ok "b".
Proof.
  exists [two "a" 1 0; two "b" 0 5], [two "a" (1000 * 1 + 0) 0; two "b" (1000 * 0 + 0) 5], (two "" 0 0), (two "" (1000 * 0 + 0) 0). eexists _, _.
  split; [repeat constructor; cbn; eexists; reflexivity|]. split; [intros [|i]; reflexivity|]. split; [repeat constructor; apply two_grams|]. split; [apply two_grams|].
  split; [vm_compute; reflexivity|]. split; [vm_compute; reflexivity|]. split; [vm_compute; reflexivity|]. split; [vm_compute; reflexivity|]. split; vm_compute; reflexivity.
Qed.
(** linear discriminant: any units *)
Theorem C121_lda : forall inverse ln f shape u l l' s, log_reads ln f -> inverts (dim shape) inverse -> reversible u ->
  uniform shape l -> l <> [] -> Forall2 reads l s -> (forall c, In c (map label l) -> 2 <= length (members s c)) ->
  invertible (dim shape) (pooled_cov s) -> same_data u l l' ->
  exists m m', lda_train inverse ln lda_empty l = Ok m /\ lda_train inverse ln lda_empty l' = Ok m' /\
  forall q q', Forall2 fits shape (attrs q) -> rescaled u q q' ->
    (exists k, forall c, In c (map label l) -> exists r r', lda_metric m q c = Ok (Fin r) /\ lda_metric m' q' c = Ok (Fin r') /\ (r' == r + k)%Q) /\
    ((forall c r, In c (map label l) -> lda_metric m q c = Ok (Fin r) \/ lda_metric m' q' c = Ok (Fin r) -> above_floor r) -> lda_predict m q = lda_predict m' q').
Proof.
  intros inverse ln f shape u l l' s Hln HI Hu HU Hn HR H2 HV HS. rewrite (reads_sample shape l s HU HR) in *.
  destruct (lda_same inverse ln f Hln shape u Hu l l' HU Hn HS H2 HI HV) as (m & m' & Em & Em' & H).
  exists m, m'. split; [exact Em|]. split; [exact Em'|]. intros q q' Hq Rq. destruct (H q q' Hq Rq) as (k & _ & HM). split; [exists k; exact HM|]. intros HF.
  unfold lda_predict. rewrite (proj1 (lda_train_prior _ _ _ _ _ Em)), (proj1 (lda_train_prior _ _ _ _ _ Em')), <- (same_prior u l l' HS).
  apply (gauss_predict_mono _ _ _ (fun r r' => r' == r + k)%Q); [exact (proj1 (proj2 Rq))| |].
  - intros x x' y y' Hx Hy. split; lra.
  - intros c Hc. apply in_prior in Hc. destruct (HM c Hc) as (r & r' & E & E' & V). exists r, r'. repeat split; try assumption; apply (HF c); auto.
Qed.
(** quadratic discriminant: any units, for a logarithm that turns the factor of the determinants into a summand *)
Theorem C121_qda : forall inverse determinant ln f shape u l l' s, log_reads ln f -> (forall x y, 0 < x -> 0 < y -> f (x * y) == f x + f y)%Q ->
  inverts (dim shape) inverse -> finds_determinant (dim shape) determinant -> reversible u ->
  uniform shape l -> l <> [] -> Forall2 reads l s -> (forall c, In c (map label l) -> 2 <= length (members s c)) ->
  (forall c, In c (map label l) -> invertible (dim shape) (class_cov s c) /\ (0 < det (dim shape) (class_cov s c))%Q) -> same_data u l l' ->
  exists m m', qda_train inverse determinant ln qda_empty l = Ok m /\ qda_train inverse determinant ln qda_empty l' = Ok m' /\
  exists k, forall q q', Forall2 fits shape (attrs q) -> rescaled u q q' ->
    (forall c, In c (map label l) -> exists r r', qda_metric m q c = Ok (Fin r) /\ qda_metric m' q' c = Ok (Fin r') /\ (r' == r + k)%Q) /\
    ((forall c r, In c (map label l) -> qda_metric m q c = Ok (Fin r) \/ qda_metric m' q' c = Ok (Fin r) -> above_floor r) -> qda_predict m q = qda_predict m' q').
Proof.
  intros inverse determinant ln f shape u l l' s Hln Hadd HI HD Hu HU Hn HR H2 HV HS. rewrite (reads_sample shape l s HU HR) in *.
  destruct (qda_same inverse determinant ln f Hln shape u Hu l l' HU Hn HS H2 HI HD HV) as (m & m' & Em & Em' & g & Pg & _ & H).
  exists m, m'. split; [exact Em|]. split; [exact Em'|]. exists (- ((1#2) * f g))%Q. intros q q' Hq Rq.
  assert (HM : forall c, In c (map label l) -> exists r r', qda_metric m q c = Ok (Fin r) /\ qda_metric m' q' c = Ok (Fin r') /\ (r' == r + - ((1#2) * f g))%Q).
  { intros c Hc. destruct (H q q' Hq Rq c Hc) as (r & r' & E & E' & V). exists r, r'. split; [exact E|]. split; [exact E'|]. rewrite (Hadd g _ Pg (proj2 (HV c Hc))) in V. lra. }
  split; [exact HM|]. intros HF.
  unfold qda_predict. rewrite (proj1 (qda_train_prior _ _ _ _ _ _ Em)), (proj1 (qda_train_prior _ _ _ _ _ _ Em')), <- (same_prior u l l' HS).
  apply (gauss_predict_mono _ _ _ (fun r r' => r' == r + - ((1#2) * f g))%Q); [exact (proj1 (proj2 Rq))| |].
  - intros x x' y y' Hx Hy. split; lra.
  - intros c Hc. apply in_prior in Hc. destruct (HM c Hc) as (r & r' & E & E' & V). exists r, r'. repeat split; try assumption; apply (HF c); auto.
Qed.
(** naive Bayes on numbers: any units; the standard deviations are in the units of the data (C19_scale, C19_shift_invariant) *)
Theorem C121_bayes : forall ln f std_vec n u l l' (sd sd' : string -> list Q), log_reads ln f -> reversible u -> uniform (repeat None n) l -> l <> [] -> 1 <= n ->
  same_data u l l' ->
  (forall c, In c (map label l) -> std_vec (filter (fun x => String.eqb (label x) c) l) = Ok (map Fin (sd c)) /\ length (sd c) = n /\ Forall (fun z => ~ z == 0)%Q (sd c)) ->
  (forall c, In c (map label l) -> std_vec (filter (fun x => String.eqb (label x) c) l') = Ok (map Fin (sd' c)) /\ length (sd' c) = n) ->
  (forall c j, In c (map label l) -> j < n -> (nth j (sd' c) 0 == Qabs.Qabs (fst (u j)) * nth j (sd c) 0)%Q) ->
  exists m m', bayes_train std_vec bayes_empty l = Ok m /\ bayes_train std_vec bayes_empty l' = Ok m' /\
  forall q q', Forall2 fits (repeat None n) (attrs q) -> rescaled u q q' -> bayes_predict ln m q = bayes_predict ln m' q'.
Proof.
  intros ln f std_vec n u l l' sd sd' Hln Hu U Hn H1 HS Hsd Hsd' HV.
  destruct (bayes_cont_same ln f std_vec n u l l' sd sd' Hln Hu U Hn H1 HS Hsd Hsd') as (m & m' & Em & Em' & Pm & Pm' & H).
  { intros c j Hc Hj. rewrite (HV c j Hc Hj). apply Qabs.Qabs_case; intros _; ring. }
  exists m, m'. split; [exact Em|]. split; [exact Em'|]. intros q q' Hq Rq. unfold bayes_predict. rewrite Pm, Pm', <- (same_prior u l l' HS). apply gauss_predict_ext; [exact (proj1 (proj2 Rq))|].
  intros c Hc. apply in_prior in Hc. destruct (H q q' Hq Rq c Hc) as (r & r' & E & E' & V). exists (Fin r), (Fin r'). split; [exact E|]. split; [exact E'|exact V].
Qed.
(** Mahalanobis distance with the inverse of the pooled covariance: a number without units *)
Theorem C121_mahalanobis : forall shape u l l' s s' P P' M M' x y x' y', reversible u ->
  uniform shape l -> Forall2 reads l s -> Forall2 reads l' s' -> same_data u l l' ->
  entries (dim shape) P (pooled_cov s) -> entries (dim shape) P' (pooled_cov s') -> inverse_of (dim shape) P M -> inverse_of (dim shape) P' M' ->
  Forall2 fits shape (attrs x) -> Forall2 fits shape (attrs y) -> rescaled u x x' -> rescaled u y y' ->
  deq (mahalanobis (map (map Fin) M') x' y') (mahalanobis (map (map Fin) M) x y).
Proof.
  intros shape u l l' s s' P P' M M' x y x' y' Hu HU HR HR' HS EP EP' IM IM' Fx Fy Rx Ry.
  destruct (same_data_sample shape u l l' HU HS) as (HU' & SS). rewrite (reads_sample shape l s HU HR) in *. rewrite (reads_sample shape l' s' HU' HR') in *.
  destruct (rescaled_row shape u x x' Fx Rx) as (Fx' & Vx). destruct (rescaled_row shape u y y' Fy Ry) as (Fy' & Vy).
  destruct (fits_vals shape x Fx) as (Ex & Lx). destruct (fits_vals shape y Fy) as (Ey & Ly). destruct (fits_vals shape x' Fx') as (Ex' & Lx'). destruct (fits_vals shape y' Fy') as (Ey' & Ly').
  destruct (mahalanobis_spec (dim shape) M x y _ _ (proj1 IM) Ex Ey Lx Ly) as (r & -> & Hr). destruct (mahalanobis_spec (dim shape) M' x' y' _ _ (proj1 IM') Ex' Ey' Lx' Ly') as (r' & -> & Hr').
  cbn [deq]. rewrite Hr, Hr'. apply (quad_same (dim shape) (fun i => fst (wof shape u i)) (pooled_cov (sample_of l)) (pooled_cov (sample_of l')) P P' M M'); try assumption.
  - intros i _. apply wof_nonzero, Hu.
  - intros i j Hi Hj. apply same_pooled with (d := dim shape); assumption.
  - apply pooled_sym.
  - intros i Hi. rewrite (Vx i Hi), (Vy i Hi). ring.
Qed.
(** degrees Celsius and Fahrenheit *)
Lemma fahrenheit_reversible : reversible fahrenheit.
Proof. intros i. cbn. lra. Qed.
Lemma fahrenheit_common : common_factor (9#5) fahrenheit.
Proof. intros i. reflexivity. Qed.
Lemma all_fahrenheit l : Forall2 (rescaled fahrenheit) l (map in_fahrenheit l).
Proof. induction l; constructor; [apply in_fahrenheit_ok|assumption]. Qed.
Example C121_case : same_data fahrenheit ex_q (map in_fahrenheit ex_q) /\ Forall only_numbers ex_q /\ tabular [KCont] ex_q /\
  knn_predict eucl (map in_fahrenheit ex_q) 3 (in_fahrenheit (pt "" 8)) = Ok "b" /\ knn_predict eucl ex_q 3 (pt "" 8) = Ok "b" /\
  (exists m m', kmeans_train (mkKM [] []) ex_q = Ok m /\ kmeans_train (mkKM [] []) (map in_fahrenheit ex_q) = Ok m' /\
     deq (Fin (-25)) (match kmeans_metric eucl m (pt "" 6) "a" with Ok v => v | _ => NaN end) /\ deq (Fin (-81)) (match kmeans_metric eucl m' (in_fahrenheit (pt "" 6)) "a" with Ok v => v | _ => NaN end)) /\
  (exists m m', lda_train inv1 (fun _ => d0) lda_empty ex_q = Ok m /\ lda_train inv1 (fun _ => d0) lda_empty (map in_fahrenheit ex_q) = Ok m' /\
     lda_predict m (pt "" 6) = Ok "a" /\ lda_predict m' (in_fahrenheit (pt "" 6)) = Ok "a") /\
  (exists m m', qda_train inv1 det1 (fun _ => d0) qda_empty ex_q = Ok m /\ qda_train inv1 det1 (fun _ => d0) qda_empty (map in_fahrenheit ex_q) = Ok m' /\
     qda_predict m (pt "" 5) = Ok "b" /\ qda_predict m' (in_fahrenheit (pt "" 5)) = Ok "b") /\
  deq (mahalanobis (map (map Fin) [[1#5]]%Q) (pt "" 1) (pt "" 4)) (Fin (9#5)) /\
  deq (mahalanobis (map (map Fin) [[5#81]]%Q) (in_fahrenheit (pt "" 1)) (in_fahrenheit (pt "" 4))) (Fin (9#5)).
Proof.
  split; [exists ex_q; split; [apply Permutation_refl|apply all_fahrenheit]|]. split; [repeat constructor; eexists; reflexivity|].
  split; [repeat constructor; cbn; eexists; reflexivity|]. split; [vm_compute; reflexivity|]. split; [vm_compute; reflexivity|].
  split; [eexists _, _; split; [vm_compute; reflexivity|split; [vm_compute; reflexivity|split; vm_compute; reflexivity]]|].
  split; [eexists _, _; split; [vm_compute; reflexivity|split; [vm_compute; reflexivity|split; vm_compute; reflexivity]]|].
  split; [eexists _, _; split; [vm_compute; reflexivity|split; [vm_compute; reflexivity|split; vm_compute; reflexivity]]|].
  split; vm_compute; reflexivity.
Qed.
Print Assumptions C121_knn.
Print Assumptions C121_kmeans.
Print Assumptions C121_one_unit_refuted.
Print Assumptions C121_lda.
Print Assumptions C121_qda.
Print Assumptions C121_bayes.
Print Assumptions C121_mahalanobis.
