(** Proofs about what the paired tests look at. *)
From Coq Require Import String ZArith QArith Qreals Reals Bool Lia Lra Lqa List Permutation.
From Verif Require Import Base Spec BaseLemmas DblLemmas AttrModel InstanceListModel DistanceProofs StatModel StatSpec DataSetProofs CovProofs CovAllProofs PerformanceModel PerformanceProofs StatTestModel StatTestSpec StatTestProofs StatViewSpec.
Import ListNotations.
Local Open Scope list_scope.
Local Open Scope nat_scope.

(** ** Sums and means *)
Lemma qsum_perm l l' : Permutation l l' -> (qsum l == qsum l')%Q.
Proof. induction 1 as [|x l l' H IH|x y l|l l' l'' H IH H' IH']; [reflexivity|rewrite !qsum_step, IH; reflexivity|rewrite !qsum_step; ring|rewrite IH; exact IH']. Qed.
Lemma qmean_perm l l' : Permutation l l' -> (qmean l == qmean l')%Q.
Proof. intros H. unfold qmean. rewrite (qsum_perm _ _ H), (Permutation_length H). reflexivity. Qed.
Lemma sqdev_perm l l' : Permutation l l' -> (sqdev l == sqdev l')%Q.
Proof.
  intros H. unfold sqdev. rewrite (qsum_perm _ _ (Permutation_map (fun q => (q - qmean l) * (q - qmean l))%Q H)).
  apply qsum_ext. intros x _. rewrite (qmean_perm _ _ H). reflexivity.
Qed.
Lemma scaled_map a l l' : Forall2 (fun d d' => d' == a * d)%Q l l' -> Forall2 Qeq l' (map (fun q => a * q)%Q l).
Proof. induction 1; cbn; constructor; assumption. Qed.
Lemma F2_length {A B} (R : A -> B -> Prop) l l' : Forall2 R l l' -> length l = length l'.
Proof. induction 1; cbn; congruence. Qed.
Lemma sqdev_scaled a l l' : Forall2 (fun d d' => d' == a * d)%Q l l' -> 1 <= length l -> (sqdev l' == a * a * sqdev l)%Q.
Proof. intros H L. rewrite (sqdev_ext _ _ (scaled_map _ _ _ H)), sqdev_scale by exact L. reflexivity. Qed.
Lemma qsum_scaled a l l' : Forall2 (fun d d' => d' == a * d)%Q l l' -> (qsum l' == a * qsum l)%Q.
Proof. induction 1 as [|x y l l' Hxy H IH]; [cbn; ring|]. rewrite !qsum_step, IH, Hxy. ring. Qed.
Lemma qmean_scaled a l l' : Forall2 (fun d d' => d' == a * d)%Q l l' -> (qmean l' == a * qmean l)%Q.
Proof. intros H. unfold qmean. rewrite (qsum_scaled _ _ _ H), (F2_length _ _ _ H). unfold Qdiv. ring. Qed.

(** ** Differences *)
Lemma retold_diffs a qs rs qs' rs' : retold a qs rs qs' rs' ->
  exists ds, Permutation (diffs qs rs) ds /\ Forall2 (fun d d' => d' == a * d)%Q ds (diffs qs' rs').
Proof.
  intros (l & P & F). exists (map (fun p => fst p - snd p)%Q l). split; [apply Permutation_map; exact P|].
  unfold diffs. clear P. induction F; cbn; constructor; assumption.
Qed.
Lemma retold_len a qs rs qs' rs' : retold a qs rs qs' rs' -> length qs = length rs -> length qs' = length rs' -> length qs' = length qs.
Proof. intros (l & P & F) L L'. apply Permutation_length in P. apply F2_length in F. rewrite combine_length in *. lia. Qed.

Lemma sqrt_scale a v : (0 <= v)%Q -> sqrt (Q2R (a * a * v)) = (Rabs (Q2R a) * sqrt (Q2R v))%R.
Proof.
  intros H. rewrite !Q2R_mult, sqrt_mult; [|apply Rle_0_sqr|apply Q2R_nonneg; exact H]. rewrite <- sqrt_Rsqr_abs. reflexivity.
Qed.
(** the factor cancels up to its sign *)
Lemma cancel_pos (x y s : R) : (0 < x)%R -> (x * y / (Rabs x * s) = y / s)%R.
Proof.
  intros H. rewrite (Rabs_right x) by Lra.lra. destruct (Req_dec s 0) as [->|N].
  - rewrite Rmult_0_r. unfold Rdiv. rewrite Rinv_0. ring.
  - field. Lra.lra.
Qed.
Lemma cancel_neg (x y s : R) : (x < 0)%R -> (x * y / (Rabs x * s) = - (y / s))%R.
Proof.
  intros H. rewrite (Rabs_left x) by Lra.lra. destruct (Req_dec s 0) as [->|N].
  - rewrite Rmult_0_r. unfold Rdiv. rewrite Rinv_0. ring.
  - field. Lra.lra.
Qed.
Lemma Q2R_pos a : (0 < a)%Q -> (0 < Q2R a)%R.
Proof. intros H. apply Qlt_Rlt in H. replace (Q2R 0) with 0%R in H by (unfold Q2R; cbn; Lra.lra). exact H. Qed.
Lemma Q2R_neg a : (a < 0)%Q -> (Q2R a < 0)%R.
Proof. intros H. apply Qlt_Rlt in H. replace (Q2R 0) with 0%R in H by (unfold Q2R; cbn; Lra.lra). exact H. Qed.
Lemma sq_nonzero a v v' : ~ (a == 0)%Q -> (v' == a * a * v)%Q -> Qeq_bool v' 0 = Qeq_bool v 0.
Proof.
  intros N E. apply eq_true_iff_eq. rewrite !Qeq_bool_iff, E. split; intros H; [|rewrite H; ring].
  apply Qmult_integral in H. destruct H as [H|H]; [|exact H]. apply Qmult_integral in H. destruct H; contradiction.
Qed.

(** ** The paired t statistic *)
Lemma t_value_eq l : t_value l = (sqrt (INR (length l)) * Q2R (qmean l) / sqrt (Q2R (sqdev l / qofn (length l - 1))))%R.
Proof. reflexivity. Qed.
Lemma t_value_scaled a ds l l' : Permutation ds l -> Forall2 (fun d d' => d' == a * d)%Q l l' -> 2 <= length ds ->
  t_value l' = (Q2R a * (sqrt (INR (length ds)) * Q2R (qmean ds)) / (Rabs (Q2R a) * sqrt (Q2R (sqdev ds / qofn (length ds - 1)))))%R.
Proof.
  intros P F L. rewrite t_value_eq. pose proof (Permutation_length P) as E1. pose proof (F2_length _ _ _ F) as E2. rewrite <- E2, <- E1.
  assert (M : (qmean l' == a * qmean ds)%Q) by (rewrite (qmean_scaled _ _ _ F), (qmean_perm _ _ P); reflexivity).
  assert (V : (sqdev l' / qofn (length ds - 1) == a * a * (sqdev ds / qofn (length ds - 1)))%Q).
  { rewrite (sqdev_scaled _ _ _ F) by lia. rewrite (sqdev_perm _ _ P). unfold Qdiv. ring. }
  rewrite (Qeq_eqR _ _ M), (Qeq_eqR _ _ V), sqrt_scale, Q2R_mult.
  - unfold Rdiv. ring.
  - apply Qle_shift_div_l; [apply qofn_pos; lia|]. rewrite Qmult_0_l. apply sqdev_nonneg.
Qed.
Lemma pairedt_retold a c1 c2 c1' c2' qs rs qs' rs' : rates c1 qs -> rates c2 rs -> rates c1' qs' -> rates c2' rs' ->
  length qs = length rs -> length qs' = length rs' -> 2 <= length qs -> retold a qs rs qs' rs' -> ~ (a == 0)%Q ->
  exists t t', pairedt_stat c1 c2 = (if Qeq_bool (sqdev (diffs qs rs)) 0 then Throw StatTestNotApplicable else Ok (RFin t)) /\
    pairedt_stat c1' c2' = (if Qeq_bool (sqdev (diffs qs rs)) 0 then Throw StatTestNotApplicable else Ok (RFin t')) /\
    ((0 < a)%Q -> t' = t) /\ ((a < 0)%Q -> t' = (- t)%R).
Proof.
  intros H1 H2 H1' H2' L L' L2 T N. pose proof (retold_len _ _ _ _ _ T L L') as E. destruct (retold_diffs _ _ _ _ _ T) as (l & P & F).
  assert (Ld : 2 <= length (diffs qs rs)) by (rewrite diffs_len by exact L; exact L2).
  exists (t_value (diffs qs rs)), (t_value (diffs qs' rs')). split; [apply pairedt_fin; assumption|]. split.
  - rewrite (pairedt_fin _ _ _ _ H1' H2' L') by lia. rewrite (sq_nonzero a (sqdev (diffs qs rs)) (sqdev (diffs qs' rs')) N); [reflexivity|].
    rewrite (sqdev_scaled _ _ _ F) by (rewrite <- (Permutation_length P); lia). rewrite (sqdev_perm _ _ P). reflexivity.
  - rewrite (t_value_scaled _ _ _ _ P F Ld). split; intros A.
    + apply cancel_pos, Q2R_pos, A.
    + apply cancel_neg, Q2R_neg, A.
Qed.

(** ** The 5x2 tests *)
Definition hsum (h : (Q * Q) * (Q * Q)) : Q := ((fst (fst h) - snd (fst h)) + (fst (snd h) - snd (snd h)))%Q.
Definition hdiff (h : (Q * Q) * (Q * Q)) : Q := ((fst (fst h) - snd (fst h)) - (fst (snd h) - snd (snd h)))%Q.
Lemma pairs_by_two qs rs : pairs_of (diffs qs rs) = map (fun h => (fst (fst h) - snd (fst h), fst (snd h) - snd (snd h))%Q) (by_two (combine qs rs)).
Proof.
  unfold diffs. generalize (combine qs rs). intros l. remember (length l) as n. assert (G : length l <= n) by lia. clear Heqn. revert l G.
  induction n as [|n IH]; intros [|x [|y l]] G; cbn in *; try reflexivity; try lia. rewrite IH by lia. reflexivity.
Qed.
Lemma pair_var_hdiff qs rs : (pair_var (diffs qs rs) == qsum (map (fun h => hdiff h * hdiff h / 2) (by_two (combine qs rs))))%Q.
Proof. unfold pair_var. rewrite pairs_by_two, map_map. apply qsum_ext. intros h _. cbn [fst snd]. rewrite sqdev2. reflexivity. Qed.
Lemma mean_sum_hsum qs rs : (mean_sum (diffs qs rs) == qsum (map (fun h => hsum h / 2) (by_two (combine qs rs))))%Q.
Proof. unfold mean_sum. rewrite pairs_by_two, map_map. apply qsum_ext. intros h _. reflexivity. Qed.
Lemma reps_var a qs rs qs' rs' : reps_retold a qs rs qs' rs' -> (pair_var (diffs qs' rs') == a * a * pair_var (diffs qs rs))%Q.
Proof.
  intros (l & P & F). rewrite !pair_var_hdiff. rewrite (qsum_perm _ _ (Permutation_map (fun h => hdiff h * hdiff h / 2)%Q P)). clear P.
  induction F as [|h h' l l' R F IH]; [cbn; ring|]. cbn [map]. rewrite !qsum_step, IH. unfold rep_retold, fold_retold, hdiff in *. destruct R as [[A B]|[A B]]; rewrite A, B; field.
Qed.
Lemma reps_mean a qs rs qs' rs' : reps_retold a qs rs qs' rs' -> (mean_sum (diffs qs' rs') == a * mean_sum (diffs qs rs))%Q.
Proof.
  intros (l & P & F). rewrite !mean_sum_hsum. rewrite (qsum_perm _ _ (Permutation_map (fun h => hsum h / 2)%Q P)). clear P.
  induction F as [|h h' l l' R F IH]; [cbn; ring|]. cbn [map]. rewrite !qsum_step, IH. unfold rep_retold, fold_retold, hsum in *. destruct R as [[A B]|[A B]]; rewrite A, B; field.
Qed.
Lemma reps_squares a qs rs qs' rs' : length qs = 10 -> length rs = 10 -> length qs' = 10 -> length rs' = 10 -> reps_retold a qs rs qs' rs' ->
  (qsum (map (fun d => d * d) (diffs qs' rs')) == a * a * qsum (map (fun d => d * d) (diffs qs rs)))%Q.
Proof.
  intros L1 L2 L1' L2' T. rewrite !sum_squares_pairs by (rewrite diffs_len; congruence). rewrite (reps_var _ _ _ _ _ T).
  assert (E : (qsum (map (fun p => (fst p + snd p) * (fst p + snd p) / 2) (pairs_of (diffs qs' rs'))) == a * a * qsum (map (fun p => (fst p + snd p) * (fst p + snd p) / 2) (pairs_of (diffs qs rs))))%Q).
  { rewrite !pairs_by_two, !map_map. destruct T as (l & P & F). rewrite (qsum_perm _ _ (Permutation_map _ P)). clear P. cbn [fst snd].
    induction F as [|h h' l l' R F IH]; [cbn; ring|]. cbn [map]. rewrite !qsum_step, IH. unfold rep_retold, fold_retold in *. destruct R as [[A B]|[A B]]; rewrite A, B; field. }
  rewrite E. ring.
Qed.
Lemma den5 v : (0 <= v)%Q -> (0 <= v / 5)%Q.
Proof. intros H. exact (proj1 (den_zero v H)). Qed.
Lemma c5_scaled a qs rs qs' rs' : reps_retold a qs rs qs' rs' ->
  c5_value (diffs qs' rs') = (Q2R a * (sqrt (Q2R 10) * Q2R (mean_sum (diffs qs rs)) / 5) / (Rabs (Q2R a) * sqrt (Q2R (pair_var (diffs qs rs) / 5))))%R.
Proof.
  intros T. unfold c5_value. rewrite (Qeq_eqR _ _ (reps_mean _ _ _ _ _ T)).
  rewrite (Qeq_eqR (pair_var (diffs qs' rs') / 5) (a * a * (pair_var (diffs qs rs) / 5))) by (rewrite (reps_var _ _ _ _ _ T); field).
  rewrite sqrt_scale by (apply den5, pair_var_nonneg). rewrite Q2R_mult. unfold Rdiv. ring.
Qed.
Lemma t5_scaled a qs rs qs' rs' : reps_retold a qs rs qs' rs' -> (nth 0 (diffs qs' rs') 0 == a * nth 0 (diffs qs rs) 0)%Q ->
  t5_value (diffs qs' rs') = (Q2R a * Q2R (nth 0 (diffs qs rs) 0%Q) / (Rabs (Q2R a) * sqrt (Q2R (pair_var (diffs qs rs) / 5))))%R.
Proof.
  intros T N. unfold t5_value. rewrite (Qeq_eqR _ _ N).
  rewrite (Qeq_eqR (pair_var (diffs qs' rs') / 5) (a * a * (pair_var (diffs qs rs) / 5))) by (rewrite (reps_var _ _ _ _ _ T); field).
  rewrite sqrt_scale by (apply den5, pair_var_nonneg). rewrite Q2R_mult. reflexivity.
Qed.

(** ** The sign test *)
Lemma countb_of_map {A B} (f : A -> B) g l : countb (fun x => g (f x)) l = countb g (map f l).
Proof. unfold countb. induction l as [|x l IH]; [reflexivity|]. cbn. destruct (g (f x)); cbn; congruence. Qed.
Lemma wins_outcome l l' : wins l l' = countb fst (map outcome (combine l l')).
Proof. rewrite <- countb_of_map. reflexivity. Qed.
Lemma losses_outcome l l' : wins l' l = countb snd (map outcome (combine l l')).
Proof.
  unfold wins. rewrite <- countb_of_map. revert l'. induction l as [|x l IH]; intros [|y l']; try reflexivity. cbn [combine]. rewrite !countb_cons, IH. reflexivity.
Qed.
Lemma countb_perm {A} (f : A -> bool) l l' : Permutation l l' -> countb f l = countb f l'.
Proof.
  induction 1 as [|x l l' H IH|x y l|l l' l'' H IH H' IH']; rewrite ?countb_cons; [reflexivity|congruence|lia|congruence].
Qed.
