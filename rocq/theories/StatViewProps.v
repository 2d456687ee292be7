(** Properties of what the paired tests look at: C139. *)
From Coq Require Import String ZArith QArith Qreals Reals Bool Lia Lra Lqa List Permutation.
From Verif Require Import Base Spec BaseLemmas DblLemmas AttrModel InstanceListModel StatModel StatSpec CovProofs CovAllProofs PerformanceModel PerformanceProofs StatTestModel StatTestSpec StatTestProofs StatTestProps StatViewSpec StatViewProofs.
Import ListNotations.
Local Open Scope list_scope.
Local Open Scope nat_scope.

(** * C139: the paired tests look at the differences of the results only *)
(** The sign test: who won each pair, in any order.  All doubles, any number of results. *)
Theorem C139_sign : forall c1 c2 c1' c2', exp_size c1 = exp_size c2 -> exp_size c1' = exp_size c2' ->
  Permutation (map outcome (combine (errors c1) (errors c2))) (map outcome (combine (errors c1') (errors c2'))) ->
  sign_compare c1' c2' = sign_compare c1 c2 /\ forall alpha, decide sign_compare c1' c2' alpha = decide sign_compare c1 c2 alpha.
Proof.
  intros c1 c2 c1' c2' L L' P.
  assert (W : wins (errors c1) (errors c2) = wins (errors c1') (errors c2')) by (rewrite !wins_outcome; apply countb_perm, P).
  assert (W' : wins (errors c2) (errors c1) = wins (errors c2') (errors c1')) by (rewrite !losses_outcome; apply countb_perm, P).
  assert (E : sign_compare c1' c2' = sign_compare c1 c2).
  { unfold sign_compare. rewrite L, L', !Nat.eqb_refl, (sign_counts_wins _ _ L), (sign_counts_wins _ _ L'). cbn [bind fst snd].
    fold (errors c1) (errors c2) (errors c1') (errors c2'). rewrite W, W'. reflexivity. }
  assert (E' : sign_compare c2' c1' = sign_compare c2 c1).
  { unfold sign_compare. rewrite L, L', !Nat.eqb_refl, (sign_counts_wins _ _ (eq_sym L)), (sign_counts_wins _ _ (eq_sym L')). cbn [bind fst snd].
    fold (errors c1) (errors c2) (errors c1') (errors c2'). rewrite W, W'. reflexivity. }
  split; [exact E|]. intros alpha. unfold decide. rewrite E, E'. reflexivity.
Qed.
Print Assumptions C139_sign.
(** in particular any strictly increasing transformation of the error rates leaves the sign test as it is *)
Theorem C139_sign_monotone : forall f : Q -> Q, (forall x y, (x < y)%Q <-> (f x < f y)%Q) ->
  forall c1 c2 c1' c2' qs rs, rates c1 qs -> rates c2 rs -> length qs = length rs -> rates c1' (map f qs) -> rates c2' (map f rs) ->
  sign_compare c1' c2' = sign_compare c1 c2.
Proof.
  intros f Hf c1 c2 c1' c2' qs rs H1 H2 L H1' H2'. apply C139_sign.
  - rewrite (rates_len _ _ H1), (rates_len _ _ H2). exact L.
  - rewrite (rates_len _ _ H1'), (rates_len _ _ H2'), !map_length. exact L.
  - unfold errors. unfold rates in *. rewrite H1, H2, H1', H2'. replace (map outcome (combine (map Fin (map f qs)) (map Fin (map f rs)))) with (map outcome (combine (map Fin qs) (map Fin rs))); [apply Permutation_refl|].
    clear -Hf. revert rs. induction qs as [|q qs IH]; intros [|r rs]; try reflexivity. cbn [map combine]. rewrite IH. f_equal. unfold outcome. cbn [fst snd].
    f_equal; apply eq_true_iff_eq; rewrite !dltb_fin; apply Hf.
Qed.
Print Assumptions C139_sign_monotone.

Lemma retold_swap a qs rs qs' rs' : retold a qs rs qs' rs' -> retold a rs qs rs' qs'.
Proof.
  assert (S : forall l l' : list Q, combine l l' = map (fun p => (snd p, fst p)) (combine l' l)).
  { induction l as [|x l IH]; intros [|y l']; try reflexivity. cbn. rewrite <- IH. reflexivity. }
  intros (l & P & F). exists (map (fun p => (snd p, fst p)) l). rewrite (S rs qs), (S rs' qs'). split; [apply Permutation_map; exact P|].
  clear P. induction F as [|p p' l l' H F IH]; cbn; constructor; [|exact IH]. cbn. lra.
Qed.
Lemma pos_nonzero a : (0 < a)%Q -> ~ (a == 0)%Q.
Proof. intros H E. rewrite E in H. discriminate H. Qed.
Lemma neg_nonzero a : (a < 0)%Q -> ~ (a == 0)%Q.
Proof. intros H E. rewrite E in H. discriminate H. Qed.
(** The paired t test: order, common offsets and units of the results do not matter; turning error rates into accuracies turns the
    sign of the statistic. *)
Theorem C139_paired_t : forall a c1 c2 c1' c2' qs rs qs' rs', rates c1 qs -> rates c2 rs -> rates c1' qs' -> rates c2' rs' ->
  length qs = length rs -> length qs' = length rs' -> 2 <= length qs -> retold a qs rs qs' rs' ->
  ((0 < a)%Q -> pairedt_stat c1' c2' = pairedt_stat c1 c2 /\
     forall tdist, pairedt_compare tdist c1' c2' = pairedt_compare tdist c1 c2 /\ forall alpha, decide (pairedt_compare tdist) c1' c2' alpha = decide (pairedt_compare tdist) c1 c2 alpha) /\
  ((a < 0)%Q -> opposite (pairedt_stat c1 c2) (pairedt_stat c1' c2')).
Proof.
  intros a c1 c2 c1' c2' qs rs qs' rs' H1 H2 H1' H2' L L' L2 T. split; intros A.
  - pose proof (retold_len _ _ _ _ _ T L L') as EL.
    destruct (pairedt_retold a c1 c2 c1' c2' qs rs qs' rs' H1 H2 H1' H2' L L' L2 T (pos_nonzero _ A)) as (t & t' & E1 & E2 & Ht & _).
    destruct (pairedt_retold a c2 c1 c2' c1' rs qs rs' qs' H2 H1 H2' H1' (eq_sym L) (eq_sym L') ltac:(lia) (retold_swap _ _ _ _ _ T) (pos_nonzero _ A)) as (s & s' & F1 & F2 & Hs & _).
    rewrite (Ht A) in E2. rewrite (Hs A) in F2. assert (E : pairedt_stat c1' c2' = pairedt_stat c1 c2) by congruence. assert (F : pairedt_stat c2' c1' = pairedt_stat c2 c1) by congruence.
    assert (D : exp_size c1' = exp_size c1) by (rewrite (rates_len _ _ H1), (rates_len _ _ H1'); exact EL).
    assert (D' : exp_size c2' = exp_size c2) by (rewrite (rates_len _ _ H2), (rates_len _ _ H2'); congruence).
    split; [exact E|]. intros tdist. assert (G : pairedt_compare tdist c1' c2' = pairedt_compare tdist c1 c2) by (unfold pairedt_compare; rewrite E, D; reflexivity).
    split; [exact G|]. intros alpha. unfold decide. rewrite G. replace (pairedt_compare tdist c2' c1') with (pairedt_compare tdist c2 c1) by (unfold pairedt_compare; rewrite F, D'; reflexivity). reflexivity.
  - destruct (pairedt_retold a c1 c2 c1' c2' qs rs qs' rs' H1 H2 H1' H2' L L' L2 T (neg_nonzero _ A)) as (t & t' & E1 & E2 & _ & Ht).
    rewrite E1, E2, (Ht A). destruct (Qeq_bool (sqdev (diffs qs rs)) 0); [left; split; reflexivity|right; exists t; split; reflexivity].
Qed.
Print Assumptions C139_paired_t.

(** the 5x2 tests: the same, but the results of one repetition have to stay together *)
Definition same_number (r r' : res dbl) : Prop :=
  (r = Throw StatTestNotApplicable /\ r' = Throw StatTestNotApplicable) \/ exists q q', r = Ok (Fin q) /\ r' = Ok (Fin q') /\ (q == q')%Q.
Theorem C139_combined : forall a c1 c2 c1' c2' qs rs qs' rs', rates c1 qs -> rates c2 rs -> rates c1' qs' -> rates c2' rs' ->
  length qs = 10 -> length rs = 10 -> length qs' = 10 -> length rs' = 10 -> reps_retold a qs rs qs' rs' ->
  ((0 < a)%Q -> combined5x2t_stat c1' c2' = combined5x2t_stat c1 c2) /\
  ((a < 0)%Q -> opposite (combined5x2t_stat c1 c2) (combined5x2t_stat c1' c2')) /\
  (~ (a == 0)%Q -> same_number (combined5x2f_stat c1 c2) (combined5x2f_stat c1' c2')).
Proof.
  intros a c1 c2 c1' c2' qs rs qs' rs' H1 H2 H1' H2' L1 L2 L1' L2' T.
  assert (B : ~ (a == 0)%Q -> Qeq_bool (pair_var (diffs qs' rs')) 0 = Qeq_bool (pair_var (diffs qs rs)) 0) by (intros N; apply (sq_nonzero a); [exact N|apply reps_var; exact T]).
  rewrite (combined5x2t_fin _ _ _ _ H1 H2 L1 L2), (combined5x2t_fin _ _ _ _ H1' H2' L1' L2'), (c5_scaled _ _ _ _ _ T).
  split; [|split]; intros A.
  - rewrite (B (pos_nonzero _ A)). rewrite (cancel_pos _ _ _ (Q2R_pos _ A)). reflexivity.
  - rewrite (B (neg_nonzero _ A)). rewrite (cancel_neg _ _ _ (Q2R_neg _ A)). unfold c5_value. destruct (Qeq_bool (pair_var (diffs qs rs)) 0); [left; split; reflexivity|right; eexists; split; reflexivity].
  - pose proof (combined5x2f_fin _ _ _ _ H1 H2 L1 L2) as E. pose proof (combined5x2f_fin _ _ _ _ H1' H2' L1' L2') as E'. rewrite (B A) in E'.
    destruct (Qeq_bool (pair_var (diffs qs rs)) 0) eqn:Z; [left; split; assumption|]. destruct E as (f & E & Ef), E' as (f' & E' & Ef'). right. exists f, f'. split; [exact E|]. split; [exact E'|].
    rewrite Ef, Ef', (reps_squares _ _ _ _ _ L1 L2 L1' L2' T), (reps_var _ _ _ _ _ T). apply Qeq_bool_neq in Z. field. split; [exact Z|exact A].
Qed.
Print Assumptions C139_combined.
(** the 5x2 t test also needs the very first result to stay the first *)
Theorem C139_paired_5x2_t : forall a c1 c2 c1' c2' qs rs qs' rs', rates c1 qs -> rates c2 rs -> rates c1' qs' -> rates c2' rs' ->
  length qs = 10 -> length rs = 10 -> length qs' = 10 -> length rs' = 10 -> reps_retold a qs rs qs' rs' ->
  (hd 0 qs' - hd 0 rs' == a * (hd 0 qs - hd 0 rs))%Q ->
  ((0 < a)%Q -> paired5x2t_stat c1' c2' = paired5x2t_stat c1 c2) /\ ((a < 0)%Q -> opposite (paired5x2t_stat c1 c2) (paired5x2t_stat c1' c2')).
Proof.
  intros a c1 c2 c1' c2' qs rs qs' rs' H1 H2 H1' H2' L1 L2 L1' L2' T Hd.
  assert (N : (nth 0 (diffs qs' rs') 0 == a * nth 0 (diffs qs rs) 0)%Q).
  { destruct qs as [|q qs], rs as [|r rs], qs' as [|q' qs'], rs' as [|r' rs']; try discriminate. cbn in *. lra. }
  assert (B : ~ (a == 0)%Q -> Qeq_bool (pair_var (diffs qs' rs')) 0 = Qeq_bool (pair_var (diffs qs rs)) 0) by (intros M; apply (sq_nonzero a); [exact M|apply reps_var; exact T]).
  rewrite (paired5x2t_fin _ _ _ _ H1 H2 L1 L2), (paired5x2t_fin _ _ _ _ H1' H2' L1' L2'), (t5_scaled _ _ _ _ _ T N).
  split; intros A.
  - rewrite (B (pos_nonzero _ A)). rewrite (cancel_pos _ _ _ (Q2R_pos _ A)). reflexivity.
  - rewrite (B (neg_nonzero _ A)). rewrite (cancel_neg _ _ _ (Q2R_neg _ A)). unfold t5_value. destruct (Qeq_bool (pair_var (diffs qs rs)) 0); [left; split; reflexivity|right; eexists; split; reflexivity].
Qed.
Print Assumptions C139_paired_5x2_t.

(** That is more than a formality: exchanging the two folds of the first repetition can turn the sign of the 5x2 t statistic ... *)
Definition first_ds : list Q := [1 # 10; - 1 # 10; 0; 0; 0; 0; 0; 0; 0; 0]%Q.
Definition second_ds : list Q := [- 1 # 10; 1 # 10; 0; 0; 0; 0; 0; 0; 0; 0]%Q.
Definition base_rates : list Q := repeat (2 # 10)%Q 10.
Definition plus_rates (ds : list Q) : list Q := map (fun d => d + (2 # 10))%Q ds.
Theorem C139_first_fold_refuted : exists c1 c2 c1' qs qs' rs t, rates c1 qs /\ rates c1' qs' /\ rates c2 rs /\ reps_retold 1 qs rs qs' rs /\ Permutation qs qs' /\
  paired5x2t_stat c1 c2 = Ok (RFin t) /\ paired5x2t_stat c1' c2 = Ok (RFin (- t)) /\ (0 < t)%R.
Proof.
  exists (exp_of (plus_rates first_ds)), (exp_of base_rates), (exp_of (plus_rates second_ds)), (plus_rates first_ds), (plus_rates second_ds), base_rates, (t5_value (diffs (plus_rates first_ds) base_rates)).
  split; [apply rates_exp_of|]. split; [apply rates_exp_of|]. split; [apply rates_exp_of|]. split.
  { exists (by_two (combine (plus_rates first_ds) base_rates)). split; [apply Permutation_refl|]. unfold plus_rates, first_ds, second_ds, base_rates.
    cbn [map repeat combine by_two]. repeat (apply Forall2_cons || apply Forall2_nil); unfold rep_retold, fold_retold; cbn [fst snd]; try (left; split; lra); right; split; lra. }
  split; [apply perm_swap|].
  rewrite (paired5x2t_fin _ _ _ _ (rates_exp_of (plus_rates first_ds)) (rates_exp_of base_rates) eq_refl eq_refl).
  rewrite (paired5x2t_fin _ _ _ _ (rates_exp_of (plus_rates second_ds)) (rates_exp_of base_rates) eq_refl eq_refl).
  change (Qeq_bool (pair_var (diffs (plus_rates first_ds) base_rates)) 0) with false. change (Qeq_bool (pair_var (diffs (plus_rates second_ds) base_rates)) 0) with false. cbv iota.
  split; [reflexivity|]. split.
  - do 2 f_equal. unfold t5_value. rewrite (Qeq_eqR (pair_var (diffs (plus_rates second_ds) base_rates) / 5) (pair_var (diffs (plus_rates first_ds) base_rates) / 5)) by reflexivity.
    rewrite (Qeq_eqR (nth 0 (diffs (plus_rates second_ds) base_rates) 0%Q) (- nth 0 (diffs (plus_rates first_ds) base_rates) 0%Q)) by reflexivity. rewrite Q2R_opp. unfold Rdiv. ring.
  - unfold t5_value. apply Rmult_lt_0_compat; [apply Q2R_pos; reflexivity|]. apply Rinv_0_lt_compat, sqrt_lt_R0, Q2R_pos. reflexivity.
Qed.
Print Assumptions C139_first_fold_refuted.
(** ... and the combined tests are refused or not depending on which results make up a repetition. *)
Definition third_ds : list Q := [1 # 10; 1 # 10; - 1 # 10; - 1 # 10; 0; 0; 0; 0; 0; 0]%Q.
Definition fourth_ds : list Q := [1 # 10; - 1 # 10; 1 # 10; - 1 # 10; 0; 0; 0; 0; 0; 0]%Q.
Theorem C139_repetitions_refuted : exists c1 c2 c1' qs qs' rs f t, rates c1 qs /\ rates c1' qs' /\ rates c2 rs /\ retold 1 qs rs qs' rs /\
  combined5x2f_stat c1 c2 = Throw StatTestNotApplicable /\ combined5x2f_stat c1' c2 = Ok (Fin f) /\
  combined5x2t_stat c1 c2 = Throw StatTestNotApplicable /\ combined5x2t_stat c1' c2 = Ok (RFin t).
Proof.
  exists (exp_of (plus_rates third_ds)), (exp_of base_rates), (exp_of (plus_rates fourth_ds)), (plus_rates third_ds), (plus_rates fourth_ds), base_rates.
  pose proof (combined5x2f_fin _ _ _ _ (rates_exp_of (plus_rates third_ds)) (rates_exp_of base_rates) eq_refl eq_refl) as E.
  pose proof (combined5x2f_fin _ _ _ _ (rates_exp_of (plus_rates fourth_ds)) (rates_exp_of base_rates) eq_refl eq_refl) as E'.
  change (Qeq_bool (pair_var (diffs (plus_rates third_ds) base_rates)) 0) with true in E. change (Qeq_bool (pair_var (diffs (plus_rates fourth_ds) base_rates)) 0) with false in E'. cbv iota in E, E'.
  destruct E' as (f & E' & _). exists f, (c5_value (diffs (plus_rates fourth_ds) base_rates)).
  split; [apply rates_exp_of|]. split; [apply rates_exp_of|]. split; [apply rates_exp_of|]. split.
  { exists (combine (plus_rates fourth_ds) base_rates). split.
    - cbn. apply perm_skip. apply perm_swap.
    - unfold plus_rates, fourth_ds, base_rates. cbn [map repeat combine]. repeat (apply Forall2_cons || apply Forall2_nil); cbn [fst snd]; lra. }
  split; [exact E|]. split; [exact E'|].
  rewrite (combined5x2t_fin _ _ _ _ (rates_exp_of (plus_rates third_ds)) (rates_exp_of base_rates) eq_refl eq_refl).
  rewrite (combined5x2t_fin _ _ _ _ (rates_exp_of (plus_rates fourth_ds)) (rates_exp_of base_rates) eq_refl eq_refl). split; reflexivity.
Qed.
Print Assumptions C139_repetitions_refuted.
(** percentages in another order, with fold-wise offsets *)
Example C139_case : retold 100 [1 # 10; 2 # 10; 3 # 10]%Q [2 # 10; 2 # 10; 1 # 10]%Q [50; 20; 7]%Q [30; 20; 17]%Q /\
  ~ (sqdev (diffs [1 # 10; 2 # 10; 3 # 10] [2 # 10; 2 # 10; 1 # 10]) == 0)%Q /\
  reps_retold 100 (plus_rates first_ds) base_rates [7; 27; 0; 0; 0; 0; 0; 0; 0; 0]%Q [17; 17; 0; 0; 0; 0; 0; 0; 0; 0]%Q.
Proof.
  split; [|split].
  - exists [(3 # 10, 1 # 10); (2 # 10, 2 # 10); (1 # 10, 2 # 10)]%Q. split.
    + cbn. change [(3 # 10, 1 # 10); (2 # 10, 2 # 10); (1 # 10, 2 # 10)]%Q with (rev [(1 # 10, 2 # 10); (2 # 10, 2 # 10); (3 # 10, 1 # 10)]%Q). apply Permutation_rev.
    + cbn [combine]. repeat (apply Forall2_cons || apply Forall2_nil); cbn [fst snd]; lra.
  - intros E. vm_compute in E. discriminate E.
  - exists (by_two (combine (plus_rates first_ds) base_rates)). split; [apply Permutation_refl|]. unfold plus_rates, first_ds, base_rates.
    cbn [map repeat combine by_two]. repeat (apply Forall2_cons || apply Forall2_nil); unfold rep_retold, fold_retold; cbn [fst snd]; try (left; split; lra); right; split; lra.
Qed.
