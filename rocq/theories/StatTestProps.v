(** Properties of the statistical tests: C51, C52, C53, C54, C55. *)
From Coq Require Import String ZArith QArith Qreals Reals Bool Lia Lra Lqa List.
From Verif Require Import Base Spec BaseLemmas DblLemmas AttrModel InstanceListModel StatModel StatSpec CovProofs CovAllProofs PerformanceModel PerformanceProofs StatTestModel StatTestSpec StatTestProofs.
Import ListNotations.
Local Open Scope list_scope.
Local Open Scope nat_scope.

Definition errors (e : experiment) : list dbl := map error_rate (results e).
Definition exp_of (qs : list Q) : experiment := mkExp (map (fun q => PError (Fin q)) qs) false false.
Lemma rates_exp_of qs : rates (exp_of qs) qs.
Proof. unfold rates, exp_of. cbn. rewrite map_map. reflexivity. Qed.

(** * C51: the sign test *)
(** Up to twelve untied pairs, any number of tied ones: the p-value is the probability of at most [plus] heads in as
    many fair tosses as there are untied pairs. *)
Theorem C51_partial : forall c1 c2,
  let plus := wins (errors c1) (errors c2) in let minus := wins (errors c2) (errors c1) in
  exp_size c1 = exp_size c2 -> 1 <= plus + minus <= 12 ->
  exists p, sign_compare c1 c2 = Ok (mkTR (Fin p) false) /\ (p == at_most (plus + minus) plus)%Q /\ (0 < p <= 1)%Q.
Proof.
  intros c1 c2 plus minus L T. unfold sign_compare. rewrite L, Nat.eqb_refl. cbn [negb]. rewrite (sign_counts_wins _ _ L). cbn [bind fst snd]. fold (errors c1) (errors c2). fold plus. fold minus. cbv zeta.
  destruct (Nat.eqb_spec (plus + minus) 0) as [F|_]; [lia|]. destruct (sign_sum (plus + minus) plus) as (p & E & Hp); [lia..|]. rewrite E. cbn [bind].
  exists p. split; [reflexivity|]. split; [exact Hp|]. rewrite Hp. split; [apply at_most_pos|apply at_most_le1].
Qed.
Print Assumptions C51_partial.
(** one more win at the same number of untied pairs makes the p-value strictly larger *)
Theorem C51_monotone_partial : forall c1 c2 d1 d2,
  let plus := wins (errors c1) (errors c2) in let minus := wins (errors c2) (errors c1) in
  let plus' := wins (errors d1) (errors d2) in let minus' := wins (errors d2) (errors d1) in
  exp_size c1 = exp_size c2 -> exp_size d1 = exp_size d2 -> plus + minus = plus' + minus' -> 1 <= plus + minus <= 12 -> plus < plus' ->
  exists p p', sign_compare c1 c2 = Ok (mkTR (Fin p) false) /\ sign_compare d1 d2 = Ok (mkTR (Fin p') false) /\ (p < p')%Q.
Proof.
  intros c1 c2 d1 d2 plus minus plus' minus' L L' E T H.
  destruct (C51_partial c1 c2 L T) as (p & E1 & Hp & _). destruct (C51_partial d1 d2 L') as (p' & E2 & Hp' & _); [fold plus' minus'; lia|].
  exists p, p'. split; [exact E1|]. split; [exact E2|]. rewrite Hp, Hp'. fold plus minus plus' minus'. rewrite <- E.
  eapply Qlt_le_trans; [apply at_most_strict; lia|apply at_most_mono; lia].
Qed.
Print Assumptions C51_monotone_partial.
(** no win at all: any number of untied pairs *)
Theorem C51_no_win : forall c1 c2, exp_size c1 = exp_size c2 -> wins (errors c1) (errors c2) = 0 -> 1 <= wins (errors c2) (errors c1) ->
  exists p, sign_compare c1 c2 = Ok (mkTR (Fin p) false) /\ (p == at_most (wins (errors c2) (errors c1)) 0)%Q.
Proof.
  intros c1 c2 L H0 H1. unfold sign_compare. rewrite L, Nat.eqb_refl. cbn [negb]. rewrite (sign_counts_wins _ _ L). cbn [bind fst snd]. fold (errors c1) (errors c2). rewrite H0. cbv zeta.
  set (m := wins (errors c2) (errors c1)) in *. change (0 + m) with m. destruct (Nat.eqb_spec m 0) as [F|_]; [lia|]. cbn [seq foldM]. replace (sign_binomial m 0) with (Ok 1%Z) by reflexivity. cbn [bind].
  assert (EN : inject_Z (2 ^ Z.of_nat m) = qofn (length (tosses m))) by (rewrite tosses_length; unfold qofn; rewrite Nat2Z.inj_pow; reflexivity).
  assert (PN : (0 < qofn (length (tosses m)))%Q) by (apply qofn_pos; rewrite tosses_length; apply pow2_pos).
  unfold dofZ. rewrite EN, ddiv_fin by (intros F; rewrite F in PN; inversion PN). cbn [dadd d0 bind]. eexists. split; [reflexivity|].
  unfold at_most. rewrite at_most_count_0, cnt_0. change (qofn 1) with 1%Q. unfold Qdiv. change (inject_Z 1) with 1%Q. ring.
Qed.
Print Assumptions C51_no_win.
(** refused when the lists differ in length or no pair is untied *)
Theorem C51_refused : forall c1 c2,
  exp_size c1 <> exp_size c2 \/ wins (errors c1) (errors c2) + wins (errors c2) (errors c1) = 0 -> sign_compare c1 c2 = Throw StatTestNotApplicable.
Proof.
  intros c1 c2 H. unfold sign_compare. destruct (Nat.eqb_spec (exp_size c1) (exp_size c2)) as [E|N]; [|reflexivity]. cbn [negb]. rewrite (sign_counts_wins _ _ E). cbn [bind fst snd]. fold (errors c1) (errors c2).
  destruct H as [H|H]; [contradiction|]. rewrite H. reflexivity.
Qed.
Print Assumptions C51_refused.
(** The full statement fails: from thirteen untied pairs on, one win is enough for the int factorial to overflow. *)
Theorem C51_overflow_refuted : forall c1 c2, exp_size c1 = exp_size c2 -> 1 <= wins (errors c1) (errors c2) -> 13 <= wins (errors c1) (errors c2) + wins (errors c2) (errors c1) ->
  sign_compare c1 c2 = UB IntOverflow.
Proof.
  intros c1 c2 L H1 H2. unfold sign_compare. rewrite L, Nat.eqb_refl. cbn [negb]. rewrite (sign_counts_wins _ _ L). cbn [bind fst snd]. fold (errors c1) (errors c2). cbv zeta.
  destruct (Nat.eqb_spec (wins (errors c1) (errors c2) + wins (errors c2) (errors c1)) 0) as [F|_]; [lia|]. rewrite sign_sum_overflow by assumption. reflexivity.
Qed.
Print Assumptions C51_overflow_refuted.
Example C51_case :
  let c1 := exp_of [1 # 10; 2 # 10; 3 # 10; 1 # 2; 1 # 2]%Q in let c2 := exp_of [2 # 10; 1 # 10; 1 # 10; 4 # 10; 1 # 2]%Q in
  wins (errors c1) (errors c2) = 1 /\ wins (errors c2) (errors c1) = 3 /\ (exists p, sign_compare c1 c2 = Ok (mkTR (Fin p) false) /\ (p == 5 # 16)%Q) /\
  let a := exp_of (repeat 0%Q 15) in let b := exp_of (repeat 1%Q 15) in sign_compare a b = UB IntOverflow /\ exists p, sign_compare b a = Ok (mkTR (Fin p) false) /\ (p == 1 # 32768)%Q.
Proof. cbv zeta. split; [reflexivity|]. split; [reflexivity|]. split; [eexists; split; vm_compute; reflexivity|]. split; [vm_compute; reflexivity|]. eexists; split; vm_compute; reflexivity. Qed.

(** * C52: the t tests *)
Definition opposite (r r' : res rdbl) : Prop :=
  (r = Throw StatTestNotApplicable /\ r' = Throw StatTestNotApplicable) \/ exists t, r = Ok (RFin t) /\ r' = Ok (RFin (- t)).
Lemma qeqb_opposite v v' t t' : (v == v')%Q -> t' = (- t)%R ->
  opposite (if Qeq_bool v 0 then Throw StatTestNotApplicable else Ok (RFin t)) (if Qeq_bool v' 0 then Throw StatTestNotApplicable else Ok (RFin t')).
Proof. intros H ->. rewrite (qeqb_ext _ _ H). destruct (Qeq_bool v' 0); [left; split; reflexivity|right; eexists; split; reflexivity]. Qed.
Lemma den_swap qs rs : (pair_var (diffs rs qs) / 5 == pair_var (diffs qs rs) / 5)%Q.
Proof. rewrite pair_var_swap. reflexivity. Qed.
Theorem C52_partial : forall c1 c2 qs rs, rates c1 qs -> rates c2 rs -> length qs = length rs -> 2 <= length qs ->
  opposite (pairedt_stat c1 c2) (pairedt_stat c2 c1).
Proof.
  intros c1 c2 qs rs H1 H2 L L2. rewrite (pairedt_fin _ _ _ _ H1 H2 L L2), (pairedt_fin _ _ _ _ H2 H1 (eq_sym L)) by lia.
  apply qeqb_opposite; [symmetry; apply sqdev_swap; [exact L|lia]|apply t_value_swap; [exact L|lia]].
Qed.
Print Assumptions C52_partial.
Theorem C52_five_by_two : forall c1 c2 qs rs, rates c1 qs -> rates c2 rs -> length qs = 10 -> length rs = 10 ->
  opposite (paired5x2t_stat c1 c2) (paired5x2t_stat c2 c1) /\ opposite (combined5x2t_stat c1 c2) (combined5x2t_stat c2 c1).
Proof.
  intros c1 c2 qs rs H1 H2 L1 L2.
  rewrite (paired5x2t_fin _ _ _ _ H1 H2 L1 L2), (paired5x2t_fin _ _ _ _ H2 H1 L2 L1), (combined5x2t_fin _ _ _ _ H1 H2 L1 L2), (combined5x2t_fin _ _ _ _ H2 H1 L2 L1).
  split; (apply qeqb_opposite; [symmetry; apply pair_var_swap|]).
  - unfold t5_value. rewrite (Qeq_eqR _ _ (den_swap qs rs)). assert (N : (nth 0 (diffs rs qs) 0 == - nth 0 (diffs qs rs) 0)%Q).
    { destruct qs as [|q qs], rs as [|r rs]; try discriminate. cbn. ring. }
    rewrite (Qeq_eqR _ _ N), Q2R_opp. unfold Rdiv. ring.
  - unfold c5_value. rewrite (Qeq_eqR _ _ (den_swap qs rs)), (Qeq_eqR _ _ (mean_sum_swap qs rs)), Q2R_opp. unfold Rdiv. ring.
Qed.
Print Assumptions C52_five_by_two.
(** refused exactly when all differences are equal, in particular for identical lists; otherwise the statistic is the
    mean difference over its standard error *)
Theorem C52_value_partial : forall c1 c2 qs rs, rates c1 qs -> rates c2 rs -> length qs = length rs -> 2 <= length qs ->
  let ds := diffs qs rs in
  (pairedt_stat c1 c2 = Throw StatTestNotApplicable <-> forall d d', In d ds -> In d' ds -> (d == d')%Q) /\
  (forall t, pairedt_stat c1 c2 = Ok (RFin t) -> (t * t * Q2R (sqdev ds / qofn (length qs - 1)) = INR (length qs) * (Q2R (qmean ds) * Q2R (qmean ds)))%R /\ (0 <= t * Q2R (qmean ds))%R).
Proof.
  intros c1 c2 qs rs H1 H2 L L2 ds. rewrite (pairedt_fin _ _ _ _ H1 H2 L L2). fold ds. assert (Ld : length ds = length qs) by (apply diffs_len; exact L). split.
  - split.
    + intros E. destruct (Qeq_bool (sqdev ds) 0) eqn:Z; [|discriminate E]. apply Qeq_bool_iff in Z. exact (proj1 (sqdev_zero ds ltac:(lia)) Z).
    + intros E. replace (Qeq_bool (sqdev ds) 0) with true; [reflexivity|]. symmetry. apply Qeq_bool_iff. exact (proj2 (sqdev_zero ds ltac:(lia)) E).
  - intros t E. destruct (Qeq_bool (sqdev ds) 0) eqn:Z; [discriminate E|]. injection E as <-. unfold t_value. rewrite Ld. apply Qeq_bool_neq in Z.
    assert (P : (0 < qofn (length qs - 1))%Q) by (apply qofn_pos; lia).
    set (v := (sqdev ds / qofn (length qs - 1))%Q). assert (Pv : (0 < v)%Q).
    { unfold v. apply Qlt_shift_div_l; [exact P|]. rewrite Qmult_0_l. pose proof (sqdev_nonneg ds). destruct (Qlt_le_dec 0 (sqdev ds)); [assumption|]. exfalso. apply Z. apply Qle_antisym; assumption. }
    apply Qlt_Rlt in Pv. replace (Q2R 0) with 0%R in Pv by (unfold Q2R; cbn; Lra.lra). set (s := sqrt (Q2R v)). assert (Ps : (0 < s)%R) by (apply sqrt_lt_R0; exact Pv).
    assert (Es : (s * s = Q2R v)%R) by (apply sqrt_sqrt; Lra.lra). set (m := Q2R (qmean ds)). set (r := sqrt (INR (length qs))). assert (Er : (r * r = INR (length qs))%R) by (apply sqrt_sqrt, pos_INR).
    assert (Pr : (0 <= r)%R) by apply sqrt_pos. split.
    + rewrite <- Es, <- Er. field. Lra.lra.
    + replace (r * m / s * m)%R with ((r / s) * (m * m))%R by (field; Lra.lra). apply Rmult_le_pos; [|apply Rle_0_sqr]. apply Rmult_le_pos; [exact Pr|]. left. apply Rinv_0_lt_compat. exact Ps.
Qed.
Print Assumptions C52_value_partial.
(** exchanging keeps the degrees of freedom handed to the distribution: the p-value of the exchanged test is the
    distribution at the negated statistic and at the same number of degrees *)
Theorem C52_degrees_partial : forall tdist c1 c2 qs rs, rates c1 qs -> rates c2 rs -> length qs = length rs -> 2 <= length qs ->
  forall t, pairedt_stat c1 c2 = Ok (RFin t) ->
  pairedt_compare tdist c1 c2 = Ok (mkTR (tdist (RFin t) (Z.of_nat (length qs) - 1)%Z) false) /\
  pairedt_compare tdist c2 c1 = Ok (mkTR (tdist (RFin (- t)) (Z.of_nat (length qs) - 1)%Z) false).
Proof.
  intros tdist c1 c2 qs rs H1 H2 L L2 t E. destruct (C52_partial _ _ _ _ H1 H2 L L2) as [[F _]|(u & E1 & E2)]; [congruence|]. rewrite E1 in E. injection E as ->.
  unfold pairedt_compare. rewrite E1, E2. cbn [bind]. rewrite (rates_len _ _ H1), (rates_len _ _ H2), <- L. split; reflexivity.
Qed.
Print Assumptions C52_degrees_partial.
(** The full statement fails for a single result: the variance is 0/0, the comparison with zero lets NaN pass, and even
    identical lists are accepted. *)
Theorem C52_single_refuted : forall c1 c2 q r, rates c1 [q] -> rates c2 [r] -> pairedt_stat c1 c2 = Ok RNaN.
Proof.
  intros c1 c2 q r H1 H2. unfold pairedt_stat. rewrite (rates_len _ _ H1), (rates_len _ _ H2). cbn [length Nat.eqb negb]. rewrite (differences_fin _ _ _ _ H1 H2 eq_refl). cbn [bind diffs combine map].
  set (d := (fst (q, r) - snd (q, r))%Q). assert (E : exists x, ddiv (dsum [Fin d]) (dofnat 1) = Fin x /\ (x == d)%Q) by (eexists; split; [reflexivity|]; field).
  destruct E as (x & E & Hx). cbv zeta. rewrite E. cbn [map].
  assert (Z : ddiv (dsum [sq (dsub (Fin d) (Fin x))]) (dofZ (Z.of_nat 1 - 1)) = NaN).
  { change (ddiv (Fin (0 + (d + - x) * (d + - x))) (Fin 0) = NaN). apply ddiv_00; [rewrite Hx; ring|reflexivity]. }
  rewrite Z. cbn [rsqrt is_rzero rlift]. change (rsqrt (dofnat 1)) with (rsqrt (Fin 1)). rewrite (rsqrt_fin 1) by discriminate. reflexivity.
Qed.
Print Assumptions C52_single_refuted.
Example C52_case : rates (exp_of [1 # 10; 3 # 10]%Q) [1 # 10; 3 # 10]%Q /\ rates (exp_of [1 # 10; 2 # 10]%Q) [1 # 10; 2 # 10]%Q /\
  ~ (forall d d', In d (diffs [1 # 10; 3 # 10] [1 # 10; 2 # 10])%Q -> In d' (diffs [1 # 10; 3 # 10] [1 # 10; 2 # 10])%Q -> (d == d')%Q).
Proof. split; [apply rates_exp_of|]. split; [apply rates_exp_of|]. intros F. specialize (F ((1 # 10) - (1 # 10))%Q ((3 # 10) - (2 # 10))%Q (or_introl eq_refl) (or_intror (or_introl eq_refl))). discriminate F. Qed.

(** * C53: the combined 5x2 F test *)
Theorem C53_symmetric : forall c1 c2 qs rs, rates c1 qs -> rates c2 rs -> length qs = 10 -> length rs = 10 ->
  (combined5x2f_stat c1 c2 = Throw StatTestNotApplicable /\ combined5x2f_stat c2 c1 = Throw StatTestNotApplicable) \/
  (exists f g, combined5x2f_stat c1 c2 = Ok (Fin f) /\ combined5x2f_stat c2 c1 = Ok (Fin g) /\ (f == g)%Q /\ (1 # 2 <= f)%Q).
Proof.
  intros c1 c2 qs rs H1 H2 L1 L2. pose proof (combined5x2f_fin _ _ _ _ H1 H2 L1 L2) as A. pose proof (combined5x2f_fin _ _ _ _ H2 H1 L2 L1) as B. rewrite (qeqb_ext _ _ (pair_var_swap qs rs)) in B.
  destruct (Qeq_bool (pair_var (diffs qs rs)) 0) eqn:Z; [left; split; assumption|right]. destruct A as (f & Ef & Hf), B as (g & Eg & Hg). exists f, g. split; [exact Ef|]. split; [exact Eg|].
  assert (Q : (qsum (map (fun d => d * d) (diffs rs qs)) == qsum (map (fun d => d * d) (diffs qs rs)))%Q).
  { pose proof (diffs_swap qs rs) as F. remember (diffs rs qs) as l. remember (diffs qs rs) as l'. clear - F. revert l F. induction l' as [|x l' IH]; intros l F; inversion F as [|y ? l0 ? Hy F']; subst; [reflexivity|].
    cbn [map]. rewrite !qsum_step, (IH _ F'), Hy. ring. }
  split; [rewrite Hf, Hg, Q, pair_var_swap; reflexivity|]. apply Qeq_bool_neq in Z. pose proof (pair_var_nonneg (diffs qs rs)) as N.
  assert (P : (0 < pair_var (diffs qs rs))%Q) by (destruct (Qlt_le_dec 0 (pair_var (diffs qs rs))); [assumption|]; exfalso; apply Z, Qle_antisym; assumption).
  rewrite Hf, (sum_squares_pairs _ (ds_ten _ _ L1 L2)). apply Qle_shift_div_l; [lra|].
  assert (M : (0 <= qsum (map (fun p => (fst p + snd p) * (fst p + snd p) / 2) (pairs_of (diffs qs rs))))%Q).
  { apply qsum_nonneg. intros p _. apply Qle_shift_div_l; [reflexivity|]. rewrite Qmult_0_l. generalize (fst p + snd p)%Q. clear. intros x. nra. }
  lra.
Qed.
Print Assumptions C53_symmetric.
(** refused unless both experiments have exactly ten results *)
Theorem C53_ten : forall c1 c2, (exp_size c1 <> 10 \/ exp_size c2 <> 10) -> combined5x2f_stat c1 c2 = Throw StatTestNotApplicable.
Proof.
  intros c1 c2 H. unfold combined5x2f_stat, ten_results. destruct (Nat.eqb_spec (exp_size c1) (exp_size c2)), (Nat.eqb_spec (exp_size c1) 10); try reflexivity. lia.
Qed.
Print Assumptions C53_ten.
(** and exactly when no pair of neighbouring differences varies *)
Theorem C53_refused : forall c1 c2 qs rs, rates c1 qs -> rates c2 rs -> length qs = 10 -> length rs = 10 ->
  (combined5x2f_stat c1 c2 = Throw StatTestNotApplicable <-> forall p, In p (pairs_of (diffs qs rs)) -> (fst p == snd p)%Q).
Proof.
  intros c1 c2 qs rs H1 H2 L1 L2. pose proof (combined5x2f_fin _ _ _ _ H1 H2 L1 L2) as A. destruct (Qeq_bool (pair_var (diffs qs rs)) 0) eqn:Z.
  - split; [|intros _; exact A]. intros _. apply Qeq_bool_iff in Z. unfold pair_var in Z. intros p Hp. revert Z Hp. generalize (pairs_of (diffs qs rs)). intros l. induction l as [|x l IH]; intros Z Hp; [destruct Hp|].
    cbn [map] in Z. rewrite qsum_step in Z. pose proof (sqdev_nonneg [fst x; snd x]) as N1. assert (N2 : (0 <= qsum (map (fun p => sqdev [fst p; snd p]) l))%Q) by (apply qsum_nonneg; intros; apply sqdev_nonneg).
    destruct Hp as [<-|Hp]; [|apply IH; [lra|exact Hp]]. assert (S0 : (sqdev [fst x; snd x] == 0)%Q) by lra. apply (proj1 (sqdev_zero [fst x; snd x] ltac:(cbn; lia)) S0); [left; reflexivity|right; left; reflexivity].
  - destruct A as (f & E & _). rewrite E. split; [discriminate|]. intros F. exfalso. apply Qeq_bool_neq in Z. apply Z. unfold pair_var. rewrite (qsum_ext _ (fun _ => 0%Q)) by (intros p Hp; rewrite sqdev2, (F p Hp); field). rewrite qsum_const. ring.
Qed.
Print Assumptions C53_refused.
(** the degrees of freedom handed to the distributions: the number of results less one for the paired t test, 5 for the
    5x2 t tests, 10 and 5 for the F test; the F test alone is marked two tailed only *)
Theorem C52_degrees : forall tdist c1 c2,
  (forall t, pairedt_stat c1 c2 = Ok t -> pairedt_compare tdist c1 c2 = Ok (mkTR (tdist t (Z.of_nat (length (results c1)) - 1)%Z) false)) /\
  (forall t, paired5x2t_stat c1 c2 = Ok t -> paired5x2t_compare tdist c1 c2 = Ok (mkTR (tdist t 5%Z) false)) /\
  (forall t, combined5x2t_stat c1 c2 = Ok t -> combined5x2t_compare tdist c1 c2 = Ok (mkTR (tdist t 5%Z) false)).
Proof.
  intros tdist c1 c2.
  assert (T : forall A (m : res A) t, (if negb (ten_results c1 c2) then Throw StatTestNotApplicable else m) = Ok t -> exp_size c1 = 10).
  { intros A m t E. unfold ten_results in E. destruct (Nat.eqb (exp_size c1) (exp_size c2)); [|discriminate].
    destruct (Nat.eqb_spec (exp_size c1) 10); [assumption|discriminate]. }
  unfold pairedt_compare, paired5x2t_compare, combined5x2t_compare. repeat split; intros t E; rewrite E; cbn [bind]; try reflexivity.
  - rewrite (T _ _ _ E). reflexivity.
  - rewrite (T _ _ _ E). reflexivity.
Qed.
Theorem C53_degrees : forall fdist c1 c2 f, combined5x2f_stat c1 c2 = Ok f ->
  combined5x2f_compare fdist c1 c2 = Ok (mkTR (fdist f 10%Z 5%Z) true).
Proof.
  intros fdist c1 c2 f E. unfold combined5x2f_compare. rewrite E. cbn [bind].
  destruct (Nat.eq_dec (exp_size c1) 10) as [E1|N]; [rewrite E1; reflexivity|]. rewrite C53_ten in E by auto. discriminate.
Qed.
Print Assumptions C52_degrees.
Print Assumptions C53_degrees.
Example C53_case : exists f, combined5x2f_stat (exp_of [1 # 10; 2 # 10; 3 # 10; 1 # 10; 1 # 10; 1 # 10; 1 # 10; 1 # 10; 1 # 10; 1 # 10]%Q) (exp_of (repeat (2 # 10)%Q 10)) = Ok (Fin f) /\ (f == 9 # 5)%Q.
Proof. eexists. split; vm_compute; reflexivity. Qed.

(** * C54: deciding between two classifiers *)
Lemma dltb_q p a : dltb (Fin p) (Fin a) = true <-> (p < a)%Q.
Proof. apply dltb_fin. Qed.
Lemma decide_value cmp c1 c2 p1 p2 alpha : cmp c1 c2 = Ok (mkTR p1 false) -> cmp c2 c1 = Ok (mkTR p2 false) ->
  decide cmp c1 c2 alpha = Ok (if dltb p1 alpha then 1%Z else if dltb p2 alpha then (-1)%Z else 0%Z).
Proof. intros H1 H2. unfold decide. rewrite H1, H2. cbn. destruct (dltb p1 alpha), (dltb p2 alpha); reflexivity. Qed.
(** the answer is 1, -1 or 0 according to which one-tailed test rejects *)
Theorem C54_decision : forall cmp c1 c2 p1 p2 alpha, cmp c1 c2 = Ok (mkTR (Fin p1) false) -> cmp c2 c1 = Ok (mkTR (Fin p2) false) ->
  exists r, decide cmp c1 c2 (Fin alpha) = Ok r /\
    (r = 1%Z <-> (p1 < alpha)%Q) /\ (r = (-1)%Z <-> (alpha <= p1)%Q /\ (p2 < alpha)%Q) /\ (r = 0%Z <-> (alpha <= p1)%Q /\ (alpha <= p2)%Q).
Proof.
  intros cmp c1 c2 p1 p2 alpha H1 H2. rewrite (decide_value _ _ _ _ _ _ H1 H2). eexists. split; [reflexivity|].
  destruct (dltb (Fin p1) (Fin alpha)) eqn:E1; [apply dltb_q in E1|apply dltb_fin_false in E1]; (destruct (dltb (Fin p2) (Fin alpha)) eqn:E2; [apply dltb_q in E2|apply dltb_fin_false in E2]);
    (split; [|split]); split; intros; try discriminate; try reflexivity; try lra; try (split; lra).
Qed.
Print Assumptions C54_decision.
(** when the two p-values cover everything and alpha is at most one half: never both, reversed by exchanging, and a
    decision is kept at every larger level up to one half *)
Theorem C54_partial : forall cmp c1 c2 p1 p2 alpha alpha', cmp c1 c2 = Ok (mkTR (Fin p1) false) -> cmp c2 c1 = Ok (mkTR (Fin p2) false) ->
  (1 <= p1 + p2)%Q -> (alpha <= alpha')%Q -> (alpha' <= 1 # 2)%Q ->
  ~ ((p1 < alpha)%Q /\ (p2 < alpha)%Q) /\
  (exists r, decide cmp c1 c2 (Fin alpha) = Ok r /\ decide cmp c2 c1 (Fin alpha) = Ok (- r)%Z /\ (r <> 0%Z -> decide cmp c1 c2 (Fin alpha') = Ok r)).
Proof.
  intros cmp c1 c2 p1 p2 alpha alpha' H1 H2 S A A'. split; [intros [B C]; lra|]. rewrite !(decide_value _ _ _ _ _ _ H1 H2), (decide_value _ _ _ _ _ _ H2 H1). eexists. split; [reflexivity|].
  destruct (dltb (Fin p1) (Fin alpha)) eqn:E1; [apply dltb_q in E1|apply dltb_fin_false in E1]; (destruct (dltb (Fin p2) (Fin alpha)) eqn:E2; [apply dltb_q in E2|apply dltb_fin_false in E2]); try (exfalso; lra).
  - split; [reflexivity|]. intros _. replace (dltb (Fin p1) (Fin alpha')) with true by (symmetry; apply dltb_q; lra). reflexivity.
  - split; [reflexivity|]. intros _. replace (dltb (Fin p1) (Fin alpha')) with false by (symmetry; apply dltb_fin_false; lra). replace (dltb (Fin p2) (Fin alpha')) with true by (symmetry; apply dltb_q; lra). reflexivity.
  - split; [reflexivity|]. intros F. exfalso. apply F. reflexivity.
Qed.
Print Assumptions C54_partial.
(** The sign test meets the hypothesis on the p-values. *)
Theorem C54_sign_partial : forall c1 c2 alpha, exp_size c1 = exp_size c2 -> 1 <= wins (errors c1) (errors c2) + wins (errors c2) (errors c1) <= 12 -> (alpha <= 1 # 2)%Q ->
  exists r, decide sign_compare c1 c2 (Fin alpha) = Ok r /\ decide sign_compare c2 c1 (Fin alpha) = Ok (- r)%Z.
Proof.
  intros c1 c2 alpha L T A. destruct (C51_partial c1 c2 L T) as (p1 & E1 & Hp1 & _). destruct (C51_partial c2 c1 (eq_sym L)) as (p2 & E2 & Hp2 & _); [lia|].
  destruct (C54_partial sign_compare c1 c2 p1 p2 alpha alpha E1 E2) as (_ & r & R1 & R2 & _); [|lra|exact A|exists r; split; assumption].
  rewrite Hp1, Hp2, (Nat.add_comm (wins (errors c2) (errors c1))). apply two_tails.
Qed.
Print Assumptions C54_sign_partial.
(** So do the t tests, for a distribution whose two tails add to one. *)
Theorem C54_t_partial : forall tdist, (forall t n, exists p, tdist (RFin t) n = Fin p /\ exists p', tdist (RFin (- t)%R) n = Fin p' /\ (p + p' == 1)%Q) ->
  forall c1 c2 qs rs t alpha, rates c1 qs -> rates c2 rs -> length qs = length rs -> 2 <= length qs -> pairedt_stat c1 c2 = Ok (RFin t) -> (alpha <= 1 # 2)%Q ->
  exists r, decide (pairedt_compare tdist) c1 c2 (Fin alpha) = Ok r /\ decide (pairedt_compare tdist) c2 c1 (Fin alpha) = Ok (- r)%Z.
Proof.
  intros tdist D c1 c2 qs rs t alpha H1 H2 L L2 E A. destruct (C52_degrees_partial tdist _ _ _ _ H1 H2 L L2 _ E) as [E1 E2].
  destruct (D t (Z.of_nat (length qs) - 1)%Z) as (p & Ep & p' & Ep' & S). rewrite Ep in E1. rewrite Ep' in E2.
  destruct (C54_partial _ c1 c2 p p' alpha alpha E1 E2) as (_ & r & R1 & R2 & _); [lra|lra|exact A|exists r; split; assumption].
Qed.
Print Assumptions C54_t_partial.
(** The full statement fails: above one half the second classifier's win turns into the first's ... *)
Theorem C54_large_alpha_refuted : exists c1 c2 a a', (a <= a')%Q /\ (a' <= 1)%Q /\ decide sign_compare c1 c2 (Fin a) = Ok (-1)%Z /\ decide sign_compare c1 c2 (Fin a') = Ok 1%Z /\ decide sign_compare c2 c1 (Fin a') = Ok 1%Z.
Proof.
  exists (exp_of [2 # 10; 3 # 10; 1 # 10; 4 # 10; 1 # 10]%Q), (exp_of [1 # 10; 2 # 10; 3 # 10; 1 # 2; 1 # 2]%Q), (6 # 10)%Q, (9 # 10)%Q.
  repeat split; try (vm_compute; first [reflexivity|discriminate]).
Qed.
Print Assumptions C54_large_alpha_refuted.
(** ... and with the F test there is never a decision: its result only supports the two-tailed reading. *)
Theorem C54_f_test_refuted : forall fdist c1 c2 alpha r, decide (combined5x2f_compare fdist) c1 c2 alpha <> Ok r.
Proof.
  intros fdist c1 c2 alpha r. unfold decide, combined5x2f_compare. destruct (combined5x2f_stat c1 c2); try discriminate. cbn [bind]. destruct (combined5x2f_stat c2 c1); try discriminate.
Qed.
Print Assumptions C54_f_test_refuted.
Example C54_case :
  (decide sign_compare (exp_of [1 # 10; 1 # 10; 1 # 10; 1 # 10; 1 # 10]%Q) (exp_of [2 # 10; 2 # 10; 2 # 10; 2 # 10; 2 # 10]%Q) (Fin (5 # 100)) = Ok (-1)%Z) /\
  exists tdist : rdbl -> Z -> dbl, forall t n, exists p, tdist (RFin t) n = Fin p /\ exists p', tdist (RFin (- t)%R) n = Fin p' /\ (p + p' == 1)%Q.
Proof.
  split; [vm_compute; reflexivity|].
  exists (fun t (_ : Z) => match t with RFin x => if Rlt_dec x 0 then Fin 0 else if Rlt_dec 0 x then Fin 1 else Fin (1 # 2) | _ => NaN end).
  intros t n. destruct (Rlt_dec t 0), (Rlt_dec 0 t), (Rlt_dec (- t) 0), (Rlt_dec 0 (- t)); try (exfalso; Lra.lra); eexists; (split; [reflexivity|]); eexists; (split; [reflexivity|]); reflexivity.
Qed.

(** * C55: one and two tails *)
(** the two-sided p-value *)
Definition two_sided (p : Q) : Q := (2 * (if Qle_bool p (1 - p) then p else 1 - p))%Q.
Theorem C55_one_tailed : forall p alpha, (one_tailed (mkTR (Fin p) false) (Fin alpha) = Ok REJECT <-> (p < alpha)%Q) /\ (one_tailed (mkTR (Fin p) false) (Fin alpha) = Ok FAILED_TO_REJECT <-> (alpha <= p)%Q) /\
  one_tailed (mkTR (Fin p) true) (Fin alpha) = Throw StatTestNotApplicable.
Proof.
  intros p alpha. unfold one_tailed. cbn [only_two p_value]. destruct (dltb (Fin p) (Fin alpha)) eqn:E; [apply dltb_q in E|apply dltb_fin_false in E]; (split; [|split; [|reflexivity]]); split; intros; try discriminate; try reflexivity; try assumption; lra.
Qed.
Print Assumptions C55_one_tailed.
Theorem C55_two_tailed : forall p alpha, (two_tailed (mkTR (Fin p) false) (Fin alpha) = REJECT <-> (two_sided p < alpha)%Q) /\ (two_tailed (mkTR (Fin p) true) (Fin alpha) = REJECT <-> (p < alpha)%Q).
Proof.
  intros p alpha. unfold two_tailed. cbn [only_two p_value]. split.
  - change (ddiv (Fin alpha) (Fin 2)) with (Fin (alpha / 2)). change (dsub d1 (Fin (alpha / 2))) with (Fin (1 + - (alpha / 2))). unfold dgtb, two_sided.
    assert (D : (alpha / 2 + alpha / 2 == alpha)%Q) by field. set (h := (alpha / 2)%Q) in *. clearbody h.
    destruct (Qle_bool p (1 - p)) eqn:L; [apply Qle_bool_iff in L|assert (~ (p <= 1 - p)%Q) by (intros F; apply Qle_bool_iff in F; congruence); apply Qnot_le_lt in H];
    (destruct (dltb (Fin p) (Fin h)) eqn:E1; [apply dltb_q in E1|apply dltb_fin_false in E1]); (destruct (dltb (Fin (1 + - h)) (Fin p)) eqn:E2; [apply dltb_q in E2|apply dltb_fin_false in E2]); cbn [orb]; split; intros; try discriminate; try reflexivity; try lra.
  - destruct (dltb (Fin p) (Fin alpha)) eqn:E; [apply dltb_q in E|apply dltb_fin_false in E]; split; intros; try discriminate; try reflexivity; try assumption; lra.
Qed.
Print Assumptions C55_two_tailed.
(** every p-value, finite or not: a rejection is kept at every larger level *)
Theorem C55_kept : forall t a a', (a <= a')%Q -> (one_tailed t (Fin a) = Ok REJECT -> one_tailed t (Fin a') = Ok REJECT) /\ (two_tailed t (Fin a) = REJECT -> two_tailed t (Fin a') = REJECT).
Proof.
  intros [p b] a a' H. assert (M : forall x y, (x <= y)%Q -> dltb p (Fin x) = true -> dltb p (Fin y) = true).
  { intros x y L. destruct p as [p| | |]; cbn; try (intros; congruence). rewrite !negb_true_iff. intros E. apply not_true_iff_false. intros F. apply Qle_bool_iff in F.
    apply not_true_iff_false in E. apply E. apply Qle_bool_iff. lra. }
  assert (M' : forall x y, (y <= x)%Q -> dltb (Fin x) p = true -> dltb (Fin y) p = true).
  { intros x y L. destruct p as [p| | |]; cbn; try (intros; congruence). rewrite !negb_true_iff. intros E. apply not_true_iff_false. intros F. apply Qle_bool_iff in F.
    apply not_true_iff_false in E. apply E. apply Qle_bool_iff. lra. }
  unfold one_tailed, two_tailed, dgtb. cbn [only_two p_value]. change (ddiv (Fin a) (Fin 2)) with (Fin (a / 2)). change (ddiv (Fin a') (Fin 2)) with (Fin (a' / 2)).
  change (dsub d1 (Fin (a / 2))) with (Fin (1 + - (a / 2))). change (dsub d1 (Fin (a' / 2))) with (Fin (1 + - (a' / 2))).
  assert (D : (a / 2 + a / 2 == a)%Q) by field. assert (D' : (a' / 2 + a' / 2 == a')%Q) by field. set (h := (a / 2)%Q) in *. set (h' := (a' / 2)%Q) in *. clearbody h h'.
  split; destruct b; try discriminate.
  - destruct (dltb p (Fin a)) eqn:E; [|discriminate]. rewrite (M _ _ H E). reflexivity.
  - destruct (dltb p (Fin a)) eqn:E; [|discriminate]. rewrite (M _ _ H E). reflexivity.
  - destruct (dltb p (Fin h)) eqn:E; [rewrite (M h h') by (lra || exact E); reflexivity|]. destruct (dltb (Fin (1 + - h)) p) eqn:E2; [|discriminate]. rewrite (M' (1 + - h)%Q (1 + - h')%Q) by (lra || exact E2). destruct (dltb p (Fin h')); reflexivity.
Qed.
Print Assumptions C55_kept.
(** a p-value that is not a number rejects nothing *)
Theorem C55_nan : forall b a, two_tailed (mkTR NaN b) a = FAILED_TO_REJECT /\ one_tailed (mkTR NaN b) a <> Ok REJECT.
Proof. intros b a. unfold two_tailed, one_tailed, dgtb. cbn [only_two p_value]. replace (dltb (dsub d1 (ddiv a (Fin 2))) NaN) with false by (destruct (dsub d1 (ddiv a (Fin 2))); reflexivity). destruct b; split; try reflexivity; discriminate. Qed.
Print Assumptions C55_nan.
Example C55_case : one_tailed (mkTR (Fin (97 # 100)) false) (Fin (1 # 10)) = Ok FAILED_TO_REJECT /\ two_tailed (mkTR (Fin (97 # 100)) false) (Fin (1 # 10)) = REJECT /\ two_tailed (mkTR (Fin (97 # 100)) false) (Fin (5 # 100)) = FAILED_TO_REJECT.
Proof. repeat split; vm_compute; reflexivity. Qed.
