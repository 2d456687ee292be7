(** C101-C106: discriminants, naive Bayes, Mahalanobis distance. *)
From Coq Require Import String ZArith QArith Bool Lia Lqa Permutation Sorted Arith List.
From Verif Require Import Base Spec BaseLemmas DblLemmas AttrModel AttrProofs DataSetModel InstanceListModel PartitionModel PerformanceModel StatSpec ListSpec ListProofs PartitionProofs CovProofs CovAllProofs PerformanceProofs DistanceModel GaussianModel GaussianSpec GaussianProofs GaussianProps DiscrimSpec DiscrimProofs BayesProofs.
Import ListNotations.
Local Open Scope string_scope.
Local Open Scope list_scope.
Local Open Scope nat_scope.

(** [c] is an answer a query allows: one of its possible labels, or any training label *)
Definition allowed (l : ilist) (q : instance) (c : string) : Prop :=
  In c (map label l) /\ match composite q with Some ls => In c ls | None => True end.
(** the prediction is an allowed label of maximal score *)
Definition best (l : ilist) (q : instance) (score : string -> Q) (r : res string) : Prop :=
  exists c, r = Ok c /\ allowed l q c /\ forall c', allowed l q c' -> (score c' <= score c)%Q.

Lemma best_spec l metric q (score : string -> Q) :
  (forall c, In c (map label l) -> exists r, metric c = Ok (Fin r) /\ (r == score c)%Q) ->
  (exists c, allowed l q c /\ (- (inject_Z (2 ^ 1024 - 2 ^ 971)) < score c)%Q) ->
  best l q score (gauss_predict (class_distribution l) metric q).
Proof.
  intros HM (c0 & (H0 & H0') & Hs).
  assert (HK : forall c, In c (mkeys (class_distribution l)) <-> In c (map label l)) by (intros c; rewrite class_distribution_cofl; apply in_cofl).
  assert (HA : forall c, In c (map label l) -> (In c (candidates (mkeys (class_distribution l)) q) <-> allowed l q c)).
  { intros c Hc. unfold candidates, allowed. destruct (composite q); [tauto|]. rewrite HK. tauto. }
  destruct (C49_answers (class_distribution l) metric q) as [c Ec].
  - intros E. rewrite E in H0'. destruct H0'.
  - intros c Hc. apply HK in Hc. destruct (HM c Hc) as (r & -> & _). eexists; reflexivity.
  - exists c. split; [exact Ec|].
    destruct (HM c0 H0) as (r0 & E0 & Er0).
    assert (EX : exists c' v', In c' (candidates (mkeys (class_distribution l)) q) /\ In c' (mkeys (class_distribution l)) /\ metric c' = Ok v' /\ dltb (dopp dbl_max) v' = true).
    { exists c0, (Fin r0). split; [apply HA; [exact H0|split; assumption]|]. split; [apply HK, H0|]. split; [exact E0|]. change (dltb (Fin (- inject_Z (2 ^ 1024 - 2 ^ 971))) (Fin r0) = true).
      apply dltb_fin. rewrite Er0. exact Hs. }
    destruct (C49_argmax _ _ _ _ Ec EX) as (_ & _ & _ & _ & Hin & _). apply HK in Hin.
    destruct (C49_maximal _ _ _ _ Ec EX) as (v & Ev & Hc & Hmax).
    split; [apply HA; assumption|]. intros c' Hc'. destruct (HM c' (proj1 Hc')) as (r' & E' & Er'). destruct (HM c Hin) as (r & Er & Err). rewrite Ev in Er. injection Er as ->.
    rewrite <- Er', <- Err. apply dltb_fin_false. apply (Hmax c' (Fin r')); [apply HA; [apply Hc'|exact Hc']|apply HK, Hc'|exact E'].
Qed.

(** * C101: linear discriminant *)
(** For training data with at least two instances per class: the matrix that gets inverted is the pooled covariance of the
    classes; if the inversion returns an inverse of it, the score of a class is the logarithm of its relative frequency
    minus half the squared Mahalanobis distance to its mean (up to a term that does not depend on the class), and the
    prediction has maximal score. *)
Theorem C101_lda : forall inverse ln f, log_reads ln f ->
  forall shape l s, uniform shape l -> l <> [] -> Forall2 reads l s ->
  (forall c, In c (map label l) -> 2 <= length (members s c)) ->
  exists P, entries (dim shape) P (pooled_cov s) /\
  forall S, inverse (map (map Fin) P) = map (map Fin) S -> inverse_of (dim shape) P S ->
  exists m, lda_train inverse ln lda_empty l = Ok m /\
  forall q v, inst_vals q = map Fin v -> length v = dim shape ->
    let score c := (f (frequency s c) - (1#2) * quad (dim shape) S (away s c v))%Q in
    let base := ((1#2) * quad (dim shape) S (fun j => nth j v 0))%Q in
    (forall c, In c (map label l) -> exists r, lda_metric m q c = Ok (Fin r) /\ (r == score c + base)%Q) /\
    ((exists c, allowed l q c /\ (- (inject_Z (2 ^ 1024 - 2 ^ 971)) < score c + base)%Q) -> best l q score (lda_predict m q)).
Proof.
  intros inverse ln f Hln shape l s HU Hn HR H2. rewrite (reads_rows shape l s HU HR) in *. change (map (fun x => (label x, row x)) l) with (sample_of l) in *.
  destruct (pooled_spec shape l HU Hn H2) as (m0 & E0 & V0). destruct (ism_list _ _ _ V0) as (P & -> & VP). exists P. split; [exact VP|].
  intros S ES VS. destruct (lda_spec inverse ln f Hln shape l HU Hn P S H2 E0 VP ES VS) as (m & Em & HM). exists m. split; [exact Em|].
  intros q v Hq Lv score base.
  assert (HS : forall c, In c (map label l) -> exists r, lda_metric m q c = Ok (Fin r) /\ (r == score c + base)%Q) by (intros c Hc; apply HM; assumption).
  split; [exact HS|]. intros HE. pose proof (lda_train_prior _ _ _ _ _ Em) as [HP _]. unfold lda_predict. rewrite HP.
  destruct (best_spec l (lda_metric m q) q (fun c => score c + base)%Q HS HE) as (c & Ec & Ac & Hc). exists c. split; [exact Ec|]. split; [exact Ac|].
  intros c' Hc'. specialize (Hc c' Hc'). cbv beta in Hc. lra.
Qed.
Print Assumptions C101_lda.
Lemma ex_d1_reads : Forall2 reads ex_d1 [("a", [0]); ("a", [2]); ("b", [10]); ("b", [12])]%Q.
Proof. repeat constructor. Qed.
(** pooled variance (1+1+1+1)/2 = 2; the hypotheses hold with the reciprocal as inverse *)
Example C101_case : let s := [("a", [0]); ("a", [2]); ("b", [10]); ("b", [12])]%Q in
  (forall c, In c (map label ex_d1) -> 2 <= length (members s c)) /\ (pooled_cov s 0 0 == 2)%Q /\
  inv1 [[Fin 2]] = [[Fin (1#2)]] /\ inverse_of 1 [[2]]%Q [[1#2]]%Q /\
  (forall c, allowed ex_d1 (pt "" 9) c <-> c = "a" \/ c = "b") /\ best ex_d1 (pt "" 9) (fun c => (0 - (1#2) * quad 1 [[1#2]] (away s c [9]))%Q) (Ok "b").
Proof.
  assert (HA : forall c, allowed ex_d1 (pt "" 9) c <-> c = "a" \/ c = "b") by (intros c; unfold allowed; cbn; intuition).
  split; [cbn; intros c [<-|[<-|[<-|[<-|[]]]]]; cbn; lia|]. split; [vm_compute; reflexivity|]. split; [vm_compute; reflexivity|].
  split; [split; [split; [reflexivity|repeat constructor]|intros [|i] [|j] Hi Hj; try lia; vm_compute; reflexivity]|]. split; [exact HA|].
  exists "b". split; [reflexivity|]. split; [apply HA; right; reflexivity|]. intros c' Hc. apply HA in Hc as [->| ->]; vm_compute; discriminate.
Qed.

(** A class with a single training instance turns the whole pooled covariance into NaN, whatever the other classes
    contain: the matrix handed to the inversion carries no information about the data, training depends on the inversion of
    that matrix only, and (if the inversion of NaNs gives NaNs) every query is answered with the most frequent label. *)
Theorem C101_single_instance_refuted : forall inverse ln shape l c, uniform shape l -> In c (map label l) -> 1 <= dim shape ->
  length (filter (fun x => String.eqb (label x) c) l) = 1 ->
  let nans := repeat (repeat NaN (dim shape)) (dim shape) in
  (forall inverse' old, inverse' nans = inverse nans -> lda_train inverse' ln old l = lda_train inverse ln old l) /\
  (inverse nans = nans -> exists m, lda_train inverse ln lda_empty l = Ok m /\
     forall q, composite q = None -> inst_size q = dim shape -> lda_predict m q = Ok (cmax (class_distribution l))).
Proof.
  intros inverse ln shape l c H Hc Hd H1 nans. assert (Hn : l <> []) by (intros ->; destruct Hc).
  pose proof (pooled_single shape l c H Hc H1) as HP. fold nans in HP. split.
  - intros inverse' old E. rewrite !lda_train_eq. destruct (atn_hd l Hn) as (x & -> & Hx). cbn [bind]. destruct (discrete_check x); [|reflexivity]. rewrite class_lists_spec. cbn [bind]. rewrite HP. cbn [bind]. rewrite E. reflexivity.
  - intros E. rewrite lda_train_eq. destruct (atn_hd l Hn) as (x & -> & Hx). cbn [bind]. rewrite (discrete_check_uniform _ _ _ H Hx). rewrite class_lists_spec. cbn [bind]. rewrite HP. cbn [bind]. rewrite E. unfold labelled.
    set (d := dim shape) in *. assert (ND : dims d nans) by apply (proj1 (nanm_nans d)).
    destruct (fold_fresh l (lda_step ln (class_distribution l) nans)
                (fun st c => mfind c (l_w st) = None /\ mfind c (l_w0 st) = None)
                (fun st c => exists w, mfind c (l_w st) = Some w /\ length w = d /\ mfind c (l_w0 st) = Some NaN)) with (cs := distinct_labels l)
                (st := mkLda (class_distribution l) [] []) as (m & Em & HM & _).
    + intros st c' Hc' (F1 & F2). unfold lda_step. cbn [fst snd].
      destruct (average_total shape (filter (of_class c') l) (uniform_filter _ _ _ H) (class_nonempty l c' Hc')) as (avg & -> & La). cbn [bind].
      fold d in La. unfold mul_right. rewrite (dims_cols _ _ ND), La, Nat.eqb_refl. unfold dot_opt. rewrite map_length, (proj1 ND), La, Nat.eqb_refl.
      eexists. split; [reflexivity|]. cbn [l_w l_w0]. split; [|split].
      * eexists. split; [apply mfind_new, F1|]. split; [rewrite map_length; apply ND|]. rewrite (mfind_new _ _ _ F2). f_equal.
        unfold vdot at 1. rewrite vdot_nan_from; [reflexivity|]. right. split; [|split].
        -- unfold nans. destruct d; [lia|]. discriminate.
        -- rewrite map_length, (proj1 ND), La. reflexivity.
        -- apply Forall_map. destruct (nanm_nans d) as [[_ D2] D3]. fold nans in D2, D3. rewrite Forall_forall in D2, D3. apply Forall_forall. intros r Hr. symmetry. apply vdot_nan_from. right.
           pose proof (D2 r Hr) as Lr. split; [destruct r; [cbn in Lr; lia|discriminate]|]. split; [rewrite Lr, La; reflexivity|apply D3, Hr].
      * intros c2 Ne (w1 & A & B & C). exists w1. rewrite !mfind_other by exact Ne. exact (conj A (conj B C)).
      * intros c2 Ne (A & B). rewrite !mfind_other by exact Ne. exact (conj A B).
    + apply distinct_nodup.
    + intros c' Hc'. apply distinct_in, Hc'.
    + intros; split; reflexivity.
    + exists m. split; [exact Em|]. intros q Hq Sq.
      assert (Pm : l_prior m = class_distribution l) by (eapply lda_fold_prior; [|exact Em]; reflexivity).
      unfold lda_predict, gauss_predict. rewrite Hq, Pm. cbn [bind fst snd].
      assert (MN : forall c', In c' (mkeys (class_distribution l)) -> lda_metric m q c' = Ok NaN).
      { intros c' Hc'. rewrite class_distribution_cofl in Hc'. apply (proj1 (in_cofl _ _)) in Hc'. destruct (HM c' (proj2 (distinct_in l c') Hc')) as (w & E1 & L & E2).
        unfold lda_metric. rewrite E1, E2. unfold dot_opt. change (inst_vector q) with (inst_vals q). rewrite <- inst_size_length, Sq, L, Nat.eqb_refl. rewrite dadd_nan_r. reflexivity. }
      assert (G : forall ks st, (forall c', In c' ks -> In c' (mkeys (class_distribution l))) -> foldM (gauss_step (class_distribution l) (lda_metric m q)) ks st = Ok st).
      { induction ks as [|k ks IH]; intros st Hk; [reflexivity|]. cbn [foldM]. unfold gauss_step at 1. destruct (mmem k (class_distribution l)).
        - rewrite MN by (apply Hk; left; reflexivity). cbn [bind]. unfold dgtb. replace (dltb (fst st) NaN) with false by (destruct (fst st); reflexivity). cbn [bind]. apply IH. intros; apply Hk; right; assumption.
        - cbn [bind]. apply IH. intros; apply Hk; right; assumption. }
      rewrite G by auto. reflexivity.
Qed.
Print Assumptions C101_single_instance_refuted.
(** two well separated classes and one single instance of a third: every query is answered "a" *)
Example C101_single_case : exists m, lda_train inv1 (fun _ => d0) lda_empty [pt "a" 0; pt "a" 2; pt "b" 10; pt "b" 12; pt "c" 20] = Ok m /\
  lda_predict m (pt "" 11) = Ok "a" /\ lda_predict m (pt "" 20) = Ok "a".
Proof. eexists. split; [vm_compute; reflexivity|]. split; vm_compute; reflexivity. Qed.

(** * C102: quadratic discriminant *)
Theorem C102_qda : forall inverse determinant ln f, log_reads ln f ->
  forall shape l s, uniform shape l -> l <> [] -> Forall2 reads l s ->
  (forall c, In c (map label l) -> 2 <= length (members s c)) ->
  exists P, (forall c, In c (map label l) -> entries (dim shape) (P c) (class_cov s c)) /\
  forall (S : string -> list (list Q)) (D : string -> Q),
  (forall c, In c (map label l) -> inverse (map (map Fin) (P c)) = map (map Fin) (S c) /\ inverse_of (dim shape) (P c) (S c) /\
     determinant (map (map Fin) (P c)) = Fin (D c) /\ (0 < D c)%Q) ->
  exists m, qda_train inverse determinant ln qda_empty l = Ok m /\
  forall q v, inst_vals q = map Fin v -> length v = dim shape ->
    let score c := (f (frequency s c) - (1#2) * f (D c) - (1#2) * quad (dim shape) (S c) (away s c v))%Q in
    (forall c, In c (map label l) -> exists r, qda_metric m q c = Ok (Fin r) /\ (r == score c)%Q) /\
    ((exists c, allowed l q c /\ (- (inject_Z (2 ^ 1024 - 2 ^ 971)) < score c)%Q) -> best l q score (qda_predict m q)).
Proof.
  intros inverse determinant ln f Hln shape l s HU Hn HR H2. rewrite (reads_rows shape l s HU HR) in *. change (map (fun x => (label x, row x)) l) with (sample_of l) in *.
  assert (K : forall c, exists P, In c (map label l) -> (exists avg, cont_average_all (filter (of_class c) l) = Ok avg /\ covariance avg (filter (of_class c) l) = Ok (map (map Fin) P)) /\ entries (dim shape) P (class_cov (sample_of l) c)).
  { intros c. destruct (in_dec string_dec c (map label l)) as [Hc|Hc]; [|exists []; intros; contradiction].
    destruct (class_mean_avg shape l c HU Hc) as (avg & Ea & Va). destruct (class_cov_cov shape l c avg HU Hc (H2 c Hc) Va) as (cov & Ec & Vc).
    destruct (ism_list _ _ _ Vc) as (P & -> & VP). exists P. intros _. split; [exists avg; split; assumption|exact VP]. }
  assert (KP : exists P : string -> list (list Q), forall c, In c (map label l) -> (exists avg, cont_average_all (filter (of_class c) l) = Ok avg /\ covariance avg (filter (of_class c) l) = Ok (map (map Fin) (P c))) /\ entries (dim shape) (P c) (class_cov (sample_of l) c)).
  { assert (G : forall cs, exists P : string -> list (list Q), forall c, In c cs -> In c (map label l) -> (exists avg, cont_average_all (filter (of_class c) l) = Ok avg /\ covariance avg (filter (of_class c) l) = Ok (map (map Fin) (P c))) /\ entries (dim shape) (P c) (class_cov (sample_of l) c)).
    { induction cs as [|c cs (P & HP)]; [exists (fun _ => []); intros ? []|]. destruct (K c) as (p & Hp). exists (fun c' => if String.eqb c' c then p else P c').
      intros c' Hc' Hl. destruct (String.eqb_spec c' c) as [->|Ne]; [apply Hp, Hl|]. apply HP; [destruct Hc' as [->|Hc']; [congruence|exact Hc']|exact Hl]. }
    destruct (G (map label l)) as (P & HP). exists P. intros c Hc. apply HP; exact Hc. }
  destruct KP as (P & HP). exists P. split; [intros c Hc; apply HP, Hc|].
  intros S D HI. destruct (qda_spec inverse determinant ln f Hln shape l HU Hn P S D H2) as (m & Em & HM); [intros c Hc; apply HP, Hc|intros c Hc; apply HP, Hc|exact HI|].
  exists m. split; [exact Em|]. intros q v Hq Lv score.
  assert (HS : forall c, In c (map label l) -> exists r, qda_metric m q c = Ok (Fin r) /\ (r == score c)%Q) by (intros c Hc; apply HM; assumption).
  split; [exact HS|]. intros HE. pose proof (qda_train_prior _ _ _ _ _ _ Em) as [HPr _]. unfold qda_predict. rewrite HPr. apply best_spec; assumption.
Qed.
Print Assumptions C102_qda.
(** class "a": variance 2, class "b": variance 8 *)
Definition ex_q : ilist := [pt "a" 0; pt "a" 2; pt "b" 10; pt "b" 14].
Definition det1 (m : list (list dbl)) : dbl := match m with [[v]] => v | _ => d1 end.
Example C102_case : let s := [("a", [0]); ("a", [2]); ("b", [10]); ("b", [14])]%Q in
  uniform [None] ex_q /\ Forall2 reads ex_q s /\ (forall c, In c (map label ex_q) -> 2 <= length (members s c)) /\
  (class_cov s "a" 0 0 == 2)%Q /\ (class_cov s "b" 0 0 == 8)%Q /\
  inv1 [[Fin 8]] = [[Fin (1#8)]] /\ inverse_of 1 [[8]]%Q [[1#8]]%Q /\ det1 [[Fin 8]] = Fin 8 /\
  exists m, qda_train inv1 det1 (fun _ => d0) qda_empty ex_q = Ok m /\ qda_predict m (pt "" 5) = Ok "b" /\ qda_predict m (pt "" 4) = Ok "a".
Proof.
  cbv zeta. split; [repeat (constructor; [constructor; [eexists; reflexivity|constructor]|]); constructor|]. split; [repeat constructor|].
  split; [cbn; intros c [<-|[<-|[<-|[<-|[]]]]]; cbn; lia|]. split; [vm_compute; reflexivity|]. split; [vm_compute; reflexivity|]. split; [vm_compute; reflexivity|].
  split; [split; [split; [reflexivity|repeat constructor]|intros [|i] [|j] Hi Hj; try lia; vm_compute; reflexivity]|]. split; [reflexivity|].
  eexists. split; [vm_compute; reflexivity|]. split; vm_compute; reflexivity.
Qed.

(** * C103: discrete naive Bayes *)
Theorem C103_discrete_bayes : forall ln f std_vec, log_reads ln f ->
  forall n l s, Forall2 reads_text l s -> Forall (fun r => length (snd r) = n) s -> l <> [] -> 1 <= n ->
  exists m, bayes_train std_vec bayes_empty l = Ok m /\
  forall q vs, attrs q = map ADisc vs -> length vs = n ->
    let score c := (f (tfrequency s c) + qsum (map (fun i => f (smoothed s c i (nth i vs EmptyString))) (seq 0 n)))%Q in
    (forall c, In c (map label l) -> exists r, bayes_metric ln m q c = Ok (Fin r) /\ (r == score c)%Q) /\
    ((exists c, allowed l q c /\ (- (inject_Z (2 ^ 1024 - 2 ^ 971)) < score c)%Q) -> best l q score (bayes_predict ln m q)).
Proof.
  intros ln f std_vec Hln n l s HR HL Hn Hf. destruct (bayes_disc_spec ln f Hln std_vec n l s HR HL Hn Hf) as (m & Em & HM). exists m. split; [exact Em|].
  intros q vs Hq Lv score.
  assert (HS : forall c, In c (map label l) -> exists r, bayes_metric ln m q c = Ok (Fin r) /\ (r == score c)%Q) by (intros c Hc; apply HM; assumption).
  split; [exact HS|]. intros HE. unfold bayes_predict. rewrite (bayes_train_prior _ _ _ _ Em). apply best_spec; assumption.
Qed.
Print Assumptions C103_discrete_bayes.
(** the smoothed probabilities of the values seen and of an unseen value are a distribution *)
Theorem C103_smoothing : forall s c i u, ~ In u (values s c i) ->
  (qsum (map (smoothed s c i) (nodup string_dec (values s c i))) + smoothed s c i u == 1)%Q /\
  forall v, (0 < smoothed s c i v)%Q.
Proof.
  intros s c i u Hu. split; [apply smoothed_total, Hu|]. intros v. unfold smoothed. apply Qlt_shift_div_l; [apply qofn_pos; lia|]. rewrite Qmult_0_l. apply qofn_pos. lia.
Qed.
Print Assumptions C103_smoothing.
Example C103_case : let s := [("a", ["x"; "u"]); ("a", ["x"; "w"]); ("b", ["y"; "u"])] in
  Forall2 reads_text [mkInst "a" [ADisc "x"; ADisc "u"] None; mkInst "a" [ADisc "x"; ADisc "w"] None; mkInst "b" [ADisc "y"; ADisc "u"] None] s /\
  (smoothed s "a" 0 "x" == 3#4)%Q /\ (smoothed s "a" 0 "y" == 1#4)%Q /\ (smoothed s "a" 1 "u" == 2#5)%Q /\ ~ In "y" (values s "a" 0).
Proof. cbv zeta. split; [repeat constructor|]. split; [vm_compute; reflexivity|]. split; [vm_compute; reflexivity|]. split; [vm_compute; reflexivity|]. vm_compute. intuition discriminate. Qed.

(** * C104: continuous naive Bayes *)
(** score of a class: logarithm of its relative frequency minus half the squared standardised deviations *)
Theorem C104_continuous_bayes : forall ln f std_vec, log_reads ln f ->
  forall n l s (sd : string -> list Q), Forall2 reads_numbers l s -> Forall (fun r => length (snd r) = n) s -> l <> [] -> 1 <= n ->
  (forall c, In c (map label l) -> std_vec (filter (fun x => String.eqb (label x) c) l) = Ok (map Fin (sd c)) /\ length (sd c) = n /\ Forall (fun z => ~ z == 0)%Q (sd c)) ->
  exists m, bayes_train std_vec bayes_empty l = Ok m /\
  forall q v, attrs q = map (fun z => ACont (Fin z)) v -> length v = n ->
    let score c := (f (frequency s c) - (1#2) * qsum (map (fun j => (away s c v j / nth j (sd c) 0) * (away s c v j / nth j (sd c) 0)) (seq 0 n)))%Q in
    (forall c, In c (map label l) -> exists r, bayes_metric ln m q c = Ok (Fin r) /\ (r == score c)%Q) /\
    ((exists c, allowed l q c /\ (- (inject_Z (2 ^ 1024 - 2 ^ 971)) < score c)%Q) -> best l q score (bayes_predict ln m q)).
Proof.
  intros ln f std_vec Hln n l s sd HR HL Hn Hf Hsd. destruct (bayes_cont_spec ln f Hln std_vec n l s HR HL Hn Hf sd Hsd) as (m & Em & HP & HM). exists m. split; [exact Em|].
  intros q v Hq Lv score.
  assert (HS : forall c, In c (map label l) -> exists r, bayes_metric ln m q c = Ok (Fin r) /\ (r == score c)%Q) by (intros c Hc; apply HM; assumption).
  split; [exact HS|]. intros HE. unfold bayes_predict. rewrite HP. apply best_spec; assumption.
Qed.
Print Assumptions C104_continuous_bayes.

(** Hence it is not the Gaussian classifier: the densities' factor 1/sigma is missing, so wide classes win too often. *)
From Coq Require Import Reals Lra.
From Verif Require Import StatModel.
Definition density (mu sigma x : R) : R := (exp (- (((x - mu) / sigma) * ((x - mu) / sigma)) / 2) / (sigma * sqrt (2 * PI)))%R.
Definition ex_wide : ilist := [pt "a" (-1); pt "a" 0; pt "a" 1; pt "b" (-10); pt "b" 0; pt "b" 10].
Lemma column_pt c qs : num_column 0 (map (pt c) qs) (map Fin qs).
Proof. induction qs as [|q qs IH]; constructor; [|exact IH]. split; [unfold in_range; cbn; lia|reflexivity]. Qed.
Theorem C104_posterior_refuted :
  (* both classes are equally frequent with mean 0; the standard deviations are 1 and 10 *)
  cont_std 0 (filter (fun x => String.eqb (label x) "a") ex_wide) = Ok [RFin 1] /\
  cont_std 0 (filter (fun x => String.eqb (label x) "b") ex_wide) = Ok [RFin 10] /\
  (* the answer for 1/2 is "b", although the density of class "a" is larger there *)
  (forall ln f std_vec, log_reads ln f -> (-1 <= f (1#2))%Q ->
     std_vec (filter (fun x => String.eqb (label x) "a") ex_wide) = Ok [Fin 1] ->
     std_vec (filter (fun x => String.eqb (label x) "b") ex_wide) = Ok [Fin 10] ->
     exists m, bayes_train std_vec bayes_empty ex_wide = Ok m /\ bayes_predict ln m (pt "" (1#2)) = Ok "b") /\
  (density 0 1 (1/2) > density 0 10 (1/2))%R.
Proof.
  split; [|split; [|split]].
  - change (filter _ ex_wide) with [pt "a" (-1); pt "a" 0; pt "a" 1].
    rewrite (proj2 (attr_std_fin 0 [pt "a" (-1); pt "a" 0; pt "a" 1] [-1; 0; 1]%Q (column_pt "a" [-1; 0; 1]%Q) ltac:(cbn; lia))). f_equal. f_equal. f_equal.
    replace (Q2R (sqdev [-1; 0; 1]%Q / qofn (length [-1; 0; 1]%Q - 1))) with 1%R; [apply sqrt_1|]. rewrite <- RMicromega.Q2R_1. apply Qreals.Qeq_eqR. vm_compute. reflexivity.
  - change (filter _ ex_wide) with [pt "b" (-10); pt "b" 0; pt "b" 10].
    rewrite (proj2 (attr_std_fin 0 [pt "b" (-10); pt "b" 0; pt "b" 10] [-10; 0; 10]%Q (column_pt "b" [-10; 0; 10]%Q) ltac:(cbn; lia))). f_equal. f_equal. f_equal.
    replace (Q2R (sqdev [-10; 0; 10]%Q / qofn (length [-10; 0; 10]%Q - 1))) with (10 * 10)%R; [apply sqrt_square; lra|]. 
    replace (10 * 10)%R with (Q2R 100) by (unfold Q2R; cbn; lra). apply Qreals.Qeq_eqR. vm_compute. reflexivity.
  - intros ln f std_vec Hln Hr Ha Hb.
    destruct (C104_continuous_bayes ln f std_vec Hln 1 ex_wide [("a", [-1]); ("a", [0]); ("a", [1]); ("b", [-10]); ("b", [0]); ("b", [10])]%Q
                (fun c => if String.eqb c "a" then [1] else [10])%Q) as (m & Em & HM).
    + repeat constructor.
    + repeat constructor.
    + discriminate.
    + lia.
    + assert (K : forall c, In c (map label ex_wide) -> c = "a" \/ c = "b") by (cbn; intuition). intros c Hc. destruct (K c Hc) as [->| ->]; cbn [String.eqb].
      * split; [exact Ha|]. split; [reflexivity|]. repeat constructor. discriminate.
      * split; [exact Hb|]. split; [reflexivity|]. repeat constructor. discriminate.
    + exists m. split; [exact Em|]. destruct (HM (pt "" (1#2)) [1#2]%Q eq_refl eq_refl) as [_ HB].
      set (s := [("a", [-1]); ("a", [0]); ("a", [1]); ("b", [-10]); ("b", [0]); ("b", [10])]%Q) in *. cbv beta zeta in HB.
      match type of HB with _ -> best _ _ ?g _ => set (score := g) in HB end.
      assert (Sa : (score "a" == f (1#2) - (1#8))%Q).
      { unfold score. apply Qplus_comp; [apply (proj2 Hln); vm_compute; reflexivity|vm_compute; reflexivity]. }
      assert (Sb : (score "b" == f (1#2) - (1#800))%Q).
      { unfold score. apply Qplus_comp; [apply (proj2 Hln); vm_compute; reflexivity|vm_compute; reflexivity]. }
      destruct HB as (c & Ec & (Ac & _) & Hc).
      * exists "b". split; [split; [cbn; tauto|exact I]|]. apply Qlt_le_trans with (-2)%Q; [vm_compute; reflexivity|]. change (-2 <= score "b")%Q. rewrite Sb. Lqa.lra.
      * rewrite Ec. f_equal. assert (Hab : c = "a" \/ c = "b") by (cbn in Ac; intuition). destruct Hab as [->| ->]; [|reflexivity]. exfalso.
        assert (L : (score "b" <= score "a")%Q) by (apply Hc; split; [cbn; tauto|exact I]). rewrite Sa, Sb in L. Lqa.lra.
  - unfold density. assert (HP : (0 < sqrt (2 * PI))%R) by (apply sqrt_lt_R0; pose proof PI_RGT_0; lra).
    assert (E1 : (7/8 <= exp (- ((1 / 2 - 0) / 1 * ((1 / 2 - 0) / 1)) / 2))%R).
    { eapply Rle_trans; [|apply exp_ineq1_le]. lra. }
    assert (E2 : (exp (- ((1 / 2 - 0) / 10 * ((1 / 2 - 0) / 10)) / 2) <= 1)%R).
    { left. apply Rlt_le_trans with (exp 0); [apply exp_increasing; lra|rewrite exp_0; lra]. }
    revert E1 E2. generalize (exp (- ((1 / 2 - 0) / 1 * ((1 / 2 - 0) / 1)) / 2)) (exp (- ((1 / 2 - 0) / 10 * ((1 / 2 - 0) / 10)) / 2)). intros e1 e2 E1 E2. set (p := sqrt (2 * PI)) in *. 
    assert (HI : (0 < / p)%R) by (apply Rinv_0_lt_compat, HP).
    replace (e1 / (1 * p))%R with (e1 * / p)%R by (field; lra). replace (e2 / (10 * p))%R with (e2 / 10 * / p)%R by (field; lra).
    apply Rmult_gt_compat_r; lra.
Qed.
Print Assumptions C104_posterior_refuted.

(** * C105: Mahalanobis distance *)
Theorem C105_mahalanobis : forall d M x y u v, square d M -> inst_vals x = map Fin u -> inst_vals y = map Fin v -> length u = d -> length v = d ->
  exists r, mahalanobis (map (map Fin) M) x y = Fin r /\ (r == quad d M (fun i => nth i u 0 - nth i v 0))%Q.
Proof. exact mahalanobis_spec. Qed.
Print Assumptions C105_mahalanobis.
(** symmetric in its arguments, zero on the diagonal and never negative if the matrix is positive semidefinite *)
Theorem C105_metric : forall d M x y u v, square d M -> inst_vals x = map Fin u -> inst_vals y = map Fin v -> length u = d -> length v = d ->
  deq (mahalanobis (map (map Fin) M) x y) (mahalanobis (map (map Fin) M) y x) /\
  deq (mahalanobis (map (map Fin) M) x x) d0 /\
  ((forall w, 0 <= quad d M w)%Q -> dleb d0 (mahalanobis (map (map Fin) M) x y) = true).
Proof.
  intros d M x y u v HM Hx Hy Lu Lv.
  destruct (mahalanobis_spec d M x y u v HM Hx Hy Lu Lv) as (r1 & -> & H1). destruct (mahalanobis_spec d M y x v u HM Hy Hx Lv Lu) as (r2 & -> & H2).
  destruct (mahalanobis_spec d M x x u u HM Hx Hx Lu Lu) as (r3 & -> & H3). cbn [deq d0 dofnat]. split; [|split].
  - rewrite H1, H2, !quad_bil. unfold bil. apply ssum_ext. intros i Hi. apply ssum_ext. intros j Hj. ring.
  - rewrite H3, quad_bil. unfold bil. rewrite (qsum_ext _ (fun _ => 0)%Q); [rewrite qsum_const; ring|]. intros i Hi. rewrite (qsum_ext _ (fun _ => 0)%Q); [rewrite qsum_const; ring|]. intros; ring.
  - intros Hp. apply dleb_fin. rewrite H1. apply Hp.
Qed.
Print Assumptions C105_metric.
(** two instances with different numbers of values, or a matrix of another size, are INT_MAX apart *)
Theorem C105_mismatch : forall m x y, length (inst_vals x) <> length (inst_vals y) \/ length m <> length (inst_vals x) -> mahalanobis m x y = dofZ 2147483647.
Proof.
  intros m x y H. unfold mahalanobis. change (inst_vector x) with (inst_vals x). change (inst_vector y) with (inst_vals y).
  destruct (Nat.eqb_spec (length (inst_vals x)) (length (inst_vals y))) as [E|N]; [|reflexivity]. cbn [negb].
  rewrite map_length, combine_length, <- E, Nat.min_id. destruct (Nat.eqb_spec (length m) (length (inst_vals x))) as [E2|N2]; [|reflexivity]. exfalso. tauto.
Qed.
Print Assumptions C105_mismatch.
Example C105_case : let M := [[2; 1]; [1; 2]]%Q in square 2 M /\ (forall w, 0 <= quad 2 M w)%Q /\
  deq (mahalanobis (map (map Fin) M) (mkInst "" [ACont (Fin 1); ACont (Fin 2)] None) (mkInst "" [ACont (Fin 3); ACont (Fin 1)] None)) (Fin 6).
Proof.
  cbv zeta. split; [split; [reflexivity|repeat constructor]|]. split; [|vm_compute; reflexivity].
  intros w. unfold quad. cbn [seq map]. unfold qsum, mget. cbn [fold_right nth].
  assert (E : (w 0%nat * 2 * w 0%nat + (w 0%nat * 1 * w 1%nat + 0) + (w 1%nat * 1 * w 0%nat + (w 1%nat * 2 * w 1%nat + 0) + 0) == w 0%nat * w 0%nat + w 1%nat * w 1%nat + (w 0%nat + w 1%nat) * (w 0%nat + w 1%nat))%Q) by ring.
  rewrite E. pose proof (sq_nonneg (w 0%nat)). pose proof (sq_nonneg (w 1%nat)). pose proof (sq_nonneg (w 0%nat + w 1%nat)). Lqa.lra.
Qed.
