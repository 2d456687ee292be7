(** C165: what repeating a cross validation does to summaries and tests. *)
From Coq Require Import String ZArith QArith Qreals Reals Bool Lia Lqa Permutation Arith List.
From Verif Require Import Base Spec BaseLemmas DblLemmas AttrModel InstanceListModel PartitionModel StatModel StatSpec PerformanceModel PerformanceProofs DataSetProofs CovProofs StatTestModel StatTestSpec StatTestProofs StatTestProps RepeatSpec ExperimentModel ExperimentSpec ExperimentProofs SameFoldsProofs.
Import ListNotations.
Local Open Scope list_scope.
Local Open Scope nat_scope.

(** Repetitions of a cross validation with a model that forgets its earlier training add nothing: the results are those of one cross validation, over and over. *)
Theorem C165_runs : forall M train test kfold R K seed l (m m' : M) e, (forall m1 m2 tr, train m1 tr = train m2 tr) ->
  kfold_run train test kfold K seed l m = Ok (m', e) ->
  exists m'' e', mxkfold_run train test kfold R K seed l m = Ok (m'', e') /\ results e' = again R (results e).
Proof.
  intros M train test kfold R K seed l m m' e HI H. unfold kfold_run in H. rewrite run_folds_pairs in H. apply run_pairs_rounds in H as (ps & A & ->).
  destruct (rounds_again train test HI R _ _ _ _ A) as (m1 & B). exists m1, (fold_left exp_add (again R ps) exp_empty). split.
  - unfold mxkfold_run. rewrite (repeatM_ext _ _ _ _ (run_folds_pairs train test _ _)), repeat_pairs. apply run_pairs_rounds. exists (again R ps). split; [exact B|reflexivity].
  - rewrite !results_adds. reflexivity.
Qed.
Theorem C165_stratified_runs : forall M train test skfold R K seed l (m m' : M) e, (forall m1 m2 tr, train m1 tr = train m2 tr) ->
  skfold_run train test skfold K seed l m = Ok (m', e) ->
  exists m'' e', smxkfold_run train test skfold R K seed l m = Ok (m'', e') /\ results e' = again R (results e).
Proof.
  intros M train test skfold R K seed l m m' e HI H. unfold skfold_run in H. apply bind_ok in H as (gs & Eg & H). rewrite run_folds_pairs in H. apply run_pairs_rounds in H as (ps & A & ->).
  destruct (rounds_again train test HI R _ _ _ _ A) as (m1 & B). exists m1, (fold_left exp_add (again R ps) exp_empty). split.
  - unfold smxkfold_run. rewrite (repeatM_ext _ _ (run_pairs train test (map (skfold gs K seed) (seq 0 K)))) by (intros st; rewrite Eg; cbn [bind]; apply run_folds_pairs).
    rewrite repeat_pairs. apply run_pairs_rounds. exists (again R ps). split; [exact B|reflexivity].
  - rewrite !results_adds. reflexivity.
Qed.
Lemma rates_all e qs : rates e qs -> Forall2 (fun p q => error_rate p = Fin q) (results e) qs.
Proof.
  unfold rates. generalize (results e). intros ps. revert qs. induction ps as [|p ps IH]; intros [|q qs] H; try discriminate; [constructor|]. injection H as H1 H2. constructor; [exact H1|apply IH, H2].
Qed.
(** The mean stays; *)
Theorem C165_mean : forall R e e' qs, 1 <= R -> qs <> [] -> rates e qs -> results e' = again R (results e) -> deq (exp_mean e') (exp_mean e).
Proof.
  intros R e e' qs HR Hq H E. pose proof (again_rates R e e' qs H E) as H'.
  assert (N : results e <> []) by (intros Z; unfold rates in H; rewrite Z in H; destruct qs; [congruence|discriminate H]).
  assert (N' : results e' <> []) by (rewrite E; destruct R; [lia|]; rewrite again_S; destruct (results e); [congruence|discriminate]).
  destruct (exp_mean_fin e qs N (rates_all _ _ H)) as (a & -> & Ha). destruct (exp_mean_fin e' _ N' (rates_all _ _ H')) as (b & -> & Hb). cbn [deq]. rewrite Ha, Hb. apply again_mean; [lia|exact Hq].
Qed.
(** the standard deviation gets smaller; *)
Theorem C165_deviation : forall R e e' qs, 2 <= R -> 2 <= length qs -> rates e qs -> results e' = again R (results e) ->
  exists s s', exp_std e = RFin s /\ exp_std e' = RFin s' /\ (0 <= s')%R /\ ((exists p q, In p qs /\ In q qs /\ ~ (p == q)%Q) -> (s' < s)%R).
Proof.
  intros R e e' qs HR Hn H E. pose proof (again_rates R e e' qs H E) as H'. assert (Ne : qs <> []) by (intros ->; cbn in Hn; lia).
  assert (L : length (results e) = length qs) by exact (rates_len _ _ H). assert (L' : length (results e') = R * length qs) by (rewrite E, again_len, L; reflexivity).
  rewrite (exp_std_fin e qs) by (try (apply rates_all; exact H); lia). rewrite (exp_std_fin e' (again R qs)) by (try (apply rates_all; exact H'); nia).
  do 2 eexists. split; [reflexivity|]. split; [reflexivity|]. split; [apply sqrt_pos|]. intros (p & q & Hp & Hq & N).
  assert (S : (0 < sqdev qs)%Q).
  { pose proof (sqdev_nonneg qs). destruct (Qlt_le_dec 0 (sqdev qs)) as [|D]; [assumption|]. exfalso. apply N. apply (proj1 (sqdev_zero qs ltac:(lia))); [lra|exact Hp|exact Hq]. }
  assert (Z : (0 < Q2R 0 + 1)%R) by (unfold Q2R; cbn; Lra.lra).
  rewrite again_len. apply sqrt_lt_1.
  - replace 0%R with (Q2R 0) by (unfold Q2R; cbn; Lra.lra). apply Qle_Rle. apply Qle_shift_div_l; [apply qofn_pos; nia|]. rewrite Qmult_0_l. apply sqdev_nonneg.
  - replace 0%R with (Q2R 0) by (unfold Q2R; cbn; Lra.lra). apply Qle_Rle. apply Qle_shift_div_l; [apply qofn_pos; lia|]. rewrite Qmult_0_l. apply sqdev_nonneg.
  - apply Qlt_Rlt. rewrite (again_sqdev R qs ltac:(lia) Ne). pose proof (qofn_pos (length qs - 1) ltac:(lia)) as P1. pose proof (qofn_pos (R * length qs - 1) ltac:(nia)) as P2.
    assert (E1 : (qofn (R * length qs - 1) == qofn R * qofn (length qs - 1) + qofn (R - 1))%Q).
    { unfold qofn. rewrite <- inject_Z_mult, <- inject_Z_plus. apply inject_Z_injective. nia. }
    pose proof (qofn_pos (R - 1) ltac:(lia)) as P3. apply Qlt_shift_div_r; [exact P2|]. rewrite E1.
    setoid_replace (sqdev qs / qofn (length qs - 1) * (qofn R * qofn (length qs - 1) + qofn (R - 1)))%Q with (qofn R * sqdev qs + sqdev qs / qofn (length qs - 1) * qofn (R - 1))%Q by (field; lra).
    assert (0 < sqdev qs / qofn (length qs - 1) * qofn (R - 1))%Q by (apply Qmult_lt_0_compat; [apply Qlt_shift_div_l; [exact P1|lra]|exact P3]). lra.
Qed.
(** and the statistic of the paired t test grows by the square root of (R n - 1) / (n - 1), which is more than one. *)
Theorem C165_paired_t : forall R c1 c2 c1' c2' qs rs, 2 <= R -> rates c1 qs -> rates c2 rs -> length qs = length rs -> 2 <= length qs ->
  results c1' = again R (results c1) -> results c2' = again R (results c2) ->
  (pairedt_stat c1 c2 = Throw StatTestNotApplicable /\ pairedt_stat c1' c2' = Throw StatTestNotApplicable) \/
  (exists t, pairedt_stat c1 c2 = Ok (RFin t) /\ pairedt_stat c1' c2' = Ok (RFin (sqrt (INR (R * length qs - 1) / INR (length qs - 1)) * t)) /\
     (1 < sqrt (INR (R * length qs - 1) / INR (length qs - 1)))%R).
Proof.
  intros R c1 c2 c1' c2' qs rs HR H1 H2 L Hn E1 E2. pose proof (again_rates R _ _ _ H1 E1) as H1'. pose proof (again_rates R _ _ _ H2 E2) as H2'.
  assert (L' : length (again R qs) = length (again R rs)) by (rewrite !again_len, L; reflexivity). rewrite (pairedt_fin _ _ _ _ H1 H2 L Hn), (pairedt_fin _ _ _ _ H1' H2' L') by (rewrite again_len; nia).
  rewrite (again_diffs R qs rs L). assert (Ld : length (diffs qs rs) = length qs) by (apply diffs_len, L). assert (Ne : diffs qs rs <> []) by (intros Z; rewrite Z in Ld; cbn in Ld; lia).
  destruct (Qeq_bool (sqdev (diffs qs rs)) 0) eqn:B.
  - left. split; [reflexivity|]. apply Qeq_bool_iff in B. replace (Qeq_bool (sqdev (again R (diffs qs rs))) 0) with true; [reflexivity|]. symmetry. apply Qeq_bool_iff. rewrite (again_sqdev R _ ltac:(lia) Ne), B. ring.
  - right. apply Qeq_bool_neq in B. replace (Qeq_bool (sqdev (again R (diffs qs rs))) 0) with false.
    + eexists. split; [reflexivity|]. split; [|apply growth_more; assumption]. rewrite (t_value_again R (diffs qs rs)) by (try exact B; lia). rewrite Ld. reflexivity.
    + symmetry. apply not_true_is_false. intros T. apply Qeq_bool_iff in T. rewrite (again_sqdev R _ ltac:(lia) Ne) in T. pose proof (qofn_pos R ltac:(lia)). apply Qmult_integral in T as [T|T]; [lra|exact (B T)].
Qed.
(** Let p be the table's entry for one cross validation and p' that for the repetitions, where the statistic is larger and has more degrees of freedom; the tails add to one. At every level
    between p' and p one cross validation decides nothing and the repetitions decide for a difference. *)
Theorem C165_decision : forall tdist R c1 c2 c1' c2' qs rs t p p' alpha,
  (forall t n, exists p, tdist (RFin t) n = Fin p /\ exists p', tdist (RFin (- t)%R) n = Fin p' /\ (p + p' == 1)%Q) ->
  2 <= R -> rates c1 qs -> rates c2 rs -> length qs = length rs -> 2 <= length qs ->
  results c1' = again R (results c1) -> results c2' = again R (results c2) -> pairedt_stat c1 c2 = Ok (RFin t) ->
  tdist (RFin t) (Z.of_nat (length qs) - 1)%Z = Fin p -> tdist (RFin (sqrt (INR (R * length qs - 1) / INR (length qs - 1)) * t)) (Z.of_nat (R * length qs) - 1)%Z = Fin p' ->
  (p' < alpha)%Q -> (alpha <= p)%Q -> (alpha <= 1 # 2)%Q -> (p <= 1 # 2)%Q ->
  decide (pairedt_compare tdist) c1 c2 (Fin alpha) = Ok 0%Z /\ decide (pairedt_compare tdist) c1' c2' (Fin alpha) = Ok 1%Z.
Proof.
  intros tdist R c1 c2 c1' c2' qs rs t p p' alpha T1 HR H1 H2 L Hn E1 E2 Et Ep Ep' A1 A2 A3 A4. pose proof (again_rates R _ _ _ H1 E1) as H1'. pose proof (again_rates R _ _ _ H2 E2) as H2'.
  assert (L' : length (again R qs) = length (again R rs)) by (rewrite !again_len, L; reflexivity).
  destruct (C165_paired_t R c1 c2 c1' c2' qs rs HR H1 H2 L Hn E1 E2) as [(F & _)|(t0 & Et0 & Et' & G)]; [congruence|]. rewrite Et in Et0. injection Et0 as <-. set (g := sqrt (INR (R * length qs - 1) / INR (length qs - 1))) in *.
  destruct (C52_degrees_partial tdist _ _ _ _ H1 H2 L Hn _ Et) as (D1 & D2). destruct (C52_degrees_partial tdist _ _ _ _ H1' H2' L' ltac:(rewrite again_len; nia) _ Et') as (D1' & D2').
  rewrite again_len in D1', D2'. destruct (T1 t (Z.of_nat (length qs) - 1)%Z) as (p0 & E0 & p2 & Ep2 & S). destruct (T1 (g * t)%R (Z.of_nat (R * length qs) - 1)%Z) as (p0' & E0' & p2' & Ep2' & S').
  rewrite Ep in E0. injection E0 as <-. rewrite Ep' in E0'. injection E0' as <-. rewrite Ep in D1. rewrite Ep2 in D2. rewrite Ep' in D1'. rewrite Ep2' in D2'.
  destruct (C54_decision _ _ _ _ _ alpha D1 D2) as (r & -> & _ & _ & Hr). destruct (C54_decision _ _ _ _ _ alpha D1' D2') as (r' & -> & Hr' & _). split; f_equal; [apply Hr; split; lra|apply Hr'; exact A1].
Qed.
(** The sign test counts every pair R times, so it soon overflows. *)
Theorem C165_sign : forall R c1 c2 c1' c2', exp_size c1 = exp_size c2 -> results c1' = again R (results c1) -> results c2' = again R (results c2) ->
  wins (errors c1') (errors c2') = R * wins (errors c1) (errors c2) /\ wins (errors c2') (errors c1') = R * wins (errors c2) (errors c1) /\
  (1 <= wins (errors c1) (errors c2) -> 13 <= R * (wins (errors c1) (errors c2) + wins (errors c2) (errors c1)) -> sign_compare c1' c2' = UB IntOverflow).
Proof.
  intros R c1 c2 c1' c2' L E1 E2. assert (X1 : errors c1' = again R (errors c1)) by (unfold errors; rewrite E1; apply again_map). assert (X2 : errors c2' = again R (errors c2)) by (unfold errors; rewrite E2; apply again_map).
  assert (LE : length (errors c1) = length (errors c2)) by (unfold errors; rewrite !map_length; exact L).
  assert (W1 : wins (errors c1') (errors c2') = R * wins (errors c1) (errors c2)) by (rewrite X1, X2; apply again_wins, LE). assert (W2 : wins (errors c2') (errors c1') = R * wins (errors c2) (errors c1)) by (rewrite X1, X2; apply again_wins; symmetry; exact LE).
  split; [exact W1|]. split; [exact W2|]. intros A B. apply C51_overflow_refuted.
  - unfold exp_size in *. rewrite E1, E2, !again_len, L. reflexivity.
  - rewrite W1. destruct R; [cbn in B; lia|nia].
  - rewrite W1, W2. nia.
Qed.

(** Two classifiers on three folds, and the same folds ten times: the statistic grows by the square root of 29/2, and the sign test overflows. *)
Definition first_rates : list Q := [3 # 10; 4 # 10; 1 # 10]%Q.
Definition second_rates : list Q := [2 # 10; 1 # 10; 2 # 10]%Q.
Example C165_case : let c1 := exp_of first_rates in let c2 := exp_of second_rates in let c1' := mkExp (again 10 (results c1)) false false in let c2' := mkExp (again 10 (results c2)) false false in
  rates c1 first_rates /\ rates c2 second_rates /\ (exists t, pairedt_stat c1 c2 = Ok (RFin t) /\ pairedt_stat c1' c2' = Ok (RFin (sqrt (INR 29 / INR 2) * t))) /\
  deq (exp_mean c1') (exp_mean c1) /\ (exists p, sign_compare c1 c2 = Ok (mkTR (Fin p) false) /\ (p == 1 # 2)%Q) /\ sign_compare c1' c2' = UB IntOverflow /\
  exists tdist : rdbl -> Z -> dbl, (forall t n, exists p, tdist (RFin t) n = Fin p /\ exists p', tdist (RFin (- t)%R) n = Fin p' /\ (p + p' == 1)%Q) /\
    tdist (RFin 1%R) 2%Z = Fin (1 # 4) /\ tdist (RFin (sqrt 2 * 1)%R) 29%Z = Fin (1 # 31).
Proof.
  cbv zeta. split; [reflexivity|]. split; [reflexivity|]. split.
  { destruct (C165_paired_t 10 (exp_of first_rates) (exp_of second_rates) (mkExp (again 10 (results (exp_of first_rates))) false false) (mkExp (again 10 (results (exp_of second_rates))) false false) first_rates second_rates) as [(F & _)|(t & E & E' & _)]; try reflexivity; try (cbn; lia).
    - rewrite (pairedt_fin _ _ first_rates second_rates) in F by (try reflexivity; cbn; lia). vm_compute Qeq_bool in F. discriminate F.
    - exists t. split; [exact E|exact E']. }
  split; [vm_compute; reflexivity|]. split; [eexists; split; vm_compute; reflexivity|]. split; [vm_compute; reflexivity|].
  exists (fun r n => match r with RFin t => match total_order_T t 0 with inleft (left _) => Fin (1 - / inject_Z (n + 2)) | inleft (right _) => Fin (1 # 2) | inright _ => Fin (/ inject_Z (n + 2)) end | _ => NaN end).
  split; [|split].
  - intros t n. destruct (total_order_T t 0) as [[A|A]|A]; destruct (total_order_T (- t) 0) as [[B|B]|B]; try (exfalso; Lra.lra); eexists; (split; [reflexivity|]); eexists; (split; [reflexivity|]); ring.
  - destruct (total_order_T 1 0) as [[A|A]|A]; try (exfalso; Lra.lra). reflexivity.
  - pose proof (sqrt_lt_R0 2 ltac:(Lra.lra)). destruct (total_order_T (sqrt 2 * 1) 0) as [[A|A]|A]; try (exfalso; Lra.lra). reflexivity.
Qed.
Print Assumptions C165_runs.
Print Assumptions C165_stratified_runs.
Print Assumptions C165_mean.
Print Assumptions C165_deviation.
Print Assumptions C165_paired_t.
Print Assumptions C165_decision.
Print Assumptions C165_sign.
