(** C131, continued: the t statistics without rounding are those of StatTestModel. *)
From Coq Require Import String ZArith QArith Qreals Reals Bool Lia Lqa List.
From Verif Require Import Base Spec BaseLemmas DblLemmas AttrModel InstanceListModel PerformanceModel StatModel StatTestModel RoundModel RoundStatModel.
Import ListNotations.
Local Open Scope list_scope.
Local Open Scope nat_scope.

(** The square root of StatTestModel is the exact one on the reals.  [sq] is exact at [d]: *)
Definition exact_root (sq : dbl -> dbl) (d : dbl) : Prop := rlift (sq d) = rsqrt d.
Lemma Q2R_0_iff q : (Q2R q = 0%R) <-> (q == 0)%Q.
Proof. split; [intros H; apply eqR_Qeq; rewrite H; symmetry; apply RMicromega.Q2R_0|intros H; rewrite (Qeq_eqR _ _ H); apply RMicromega.Q2R_0]. Qed.
Lemma rlift_zero d : is_rzero (rlift d) = deqb d d0.
Proof.
  destruct d as [q| | |]; try reflexivity. cbn [rlift is_rzero]. unfold deqb. destruct (Req_EM_T (Q2R q) 0) as [E|E].
  - apply Q2R_0_iff in E. symmetry. apply andb_true_iff. unfold d0. split; apply dleb_fin; rewrite E; discriminate.
  - symmetry. apply andb_false_iff. destruct (Qlt_le_dec 0 q) as [L|L]; [left; unfold d0; apply dleb_fin_false; exact L|].
    destruct (Qlt_le_dec q 0) as [L'|L']; [right; unfold d0; apply dleb_fin_false; exact L'|]. exfalso. apply E, Q2R_0_iff. Lqa.lra.
Qed.
Lemma zero_cases q : (Q2R q = 0%R /\ (q ?= 0)%Q = Eq) \/ (Q2R q <> 0%R /\ ((q ?= 0)%Q = Lt \/ (q ?= 0)%Q = Gt)).
Proof.
  destruct (q ?= 0)%Q eqn:C.
  - left. split; [apply Q2R_0_iff, Qeq_alt, C|reflexivity].
  - right. split; [|left; reflexivity]. intros E. apply Q2R_0_iff, Qeq_alt in E. congruence.
  - right. split; [|right; reflexivity]. intros E. apply Q2R_0_iff, Qeq_alt in E. congruence.
Qed.
Lemma rlift_mul a b : rlift (dmul a b) = StatTestModel.rmul (rlift a) (rlift b).
Proof.
  destruct a as [x| | |], b as [y| | |]; try reflexivity; cbn [rlift StatTestModel.rmul dmul dsgn]; try (rewrite Q2R_mult; reflexivity).
  1-2: destruct (zero_cases x) as [[E C]|[E [C|C]]]; rewrite C; destruct (Req_EM_T (Q2R x) 0); try contradiction; try reflexivity.
  1: destruct (x ?= 0)%Q; reflexivity.
  all: try (destruct (zero_cases y) as [[E C]|[E [C|C]]]; rewrite C; destruct (Req_EM_T (Q2R y) 0); try contradiction; reflexivity).
Qed.
Lemma rlift_div a b : rlift (ddiv a b) = StatTestModel.rdiv (rlift a) (rlift b).
Proof.
  destruct a as [x| | |], b as [y| | |]; try reflexivity; cbn [rlift StatTestModel.rdiv ddiv].
  - destruct (zero_cases y) as [[E C]|[E C]]; destruct (Req_EM_T (Q2R y) 0) as [E'|E']; try contradiction.
    + assert (Qeq_bool y 0 = true) as -> by (apply Qeq_bool_iff, Qeq_alt, C).
      destruct (zero_cases x) as [[Ex Cx]|[Ex [Cx|Cx]]]; rewrite Cx; destruct (Req_EM_T (Q2R x) 0); try contradiction; reflexivity.
    + assert (~ y == 0)%Q as N. { intros H. apply E, Q2R_0_iff, H. }
      destruct (Qeq_bool y 0) eqn:B; [exfalso; apply N, Qeq_bool_iff, B|]. cbn [rlift]. rewrite Q2R_div by exact N. reflexivity.
  - f_equal. apply RMicromega.Q2R_0.
  - f_equal. apply RMicromega.Q2R_0.
  - destruct (y ?= 0)%Q; reflexivity.
  - destruct (y ?= 0)%Q; reflexivity.
Qed.
(** Replacing the factor in front by another one multiplies the result. *)
Lemma refactor s w m d : s <> 0%R -> w <> 0%R ->
  StatTestModel.rdiv (StatTestModel.rmul (RFin s) m) d = StatTestModel.rmul (RFin (s / w)) (StatTestModel.rdiv (StatTestModel.rmul (RFin w) m) d).
Proof.
  intros Hs Hw. assert (s / w <> 0)%R as Hq. { unfold Rdiv. apply Rmult_integral_contrapositive_currified; [exact Hs|apply Rinv_neq_0_compat, Hw]. }
  destruct m as [x| |]; cbn [StatTestModel.rmul].
  - destruct d as [y| |]; cbn [StatTestModel.rdiv].
    + destruct (Req_EM_T y 0) as [E|E].
      * destruct (Req_EM_T x 0) as [X|X].
        -- rewrite X, !Rmult_0_r. destruct (Req_EM_T 0 0); [reflexivity|contradiction].
        -- destruct (Req_EM_T (s * x) 0) as [H|_]; [exfalso; apply Rmult_integral in H; tauto|]. destruct (Req_EM_T (w * x) 0) as [H|_]; [exfalso; apply Rmult_integral in H; tauto|].
           cbn [StatTestModel.rmul]. destruct (Req_EM_T (s / w) 0); [contradiction|reflexivity].
      * cbn [StatTestModel.rmul]. f_equal. field. split; assumption.
    + cbn [StatTestModel.rmul]. f_equal. ring.
    + reflexivity.
  - destruct (Req_EM_T s 0); [contradiction|]. destruct (Req_EM_T w 0); [contradiction|]. destruct d; cbn [StatTestModel.rdiv StatTestModel.rmul]; try reflexivity.
    destruct (Req_EM_T (s / w) 0); [contradiction|reflexivity].
  - reflexivity.
Qed.
(** The variance of the differences. *)
Definition variance (ds : list dbl) : dbl :=
  let mean := ddiv (dsum ds) (dofnat (length ds)) in
  ddiv (dsum (map (fun d => StatTestModel.sq (dsub d mean)) ds)) (dofZ (Z.of_nat (length ds) - 1)).
(** Paired t: if [sq] is exact at the variance, the result without rounding is that of StatTestModel up to the root of the number
    of results. *)
Theorem C131_same_paired : forall sq c1 c2 w,
  0 < exp_size c1 -> sq (dofnat (exp_size c1)) = Fin w -> ~ (w == 0)%Q -> (forall ds, differences c1 c2 = Ok ds -> exact_root sq (variance ds)) ->
  pairedt_stat c1 c2 = rmap (fun t => StatTestModel.rmul (RFin (sqrt (INR (exp_size c1)) / Q2R w)) (rlift t)) (r_pairedt_stat (fun d => d) sq c1 c2).
Proof.
  intros sq c1 c2 w Hp Hn Hw Hv. unfold pairedt_stat, r_pairedt_stat. destruct (negb (exp_size c1 =? exp_size c2)); [reflexivity|].
  change (r_differences (fun d => d) c1 c2) with (differences c1 c2). destruct (differences c1 c2) as [ds| | |] eqn:E; try reflexivity. cbn [bind].
  assert (length ds = exp_size c1) as L. { unfold differences in E. apply mapM_ok in E. rewrite <- (Forall2_len _ _ _ E). apply seq_length. }
  specialize (Hv ds eq_refl). unfold exact_root, variance in Hv. rewrite L in Hv. rewrite <- Hv.
  change (r_sum (fun d => d)) with dsum. change (rnat (fun d => d)) with dofnat. change (RoundModel.rdiv (fun d => d)) with ddiv. change (RoundModel.rmul (fun d => d)) with dmul.
  change (rsub (fun d => d)) with dsub. change (rpow2 (fun d => d)) with StatTestModel.sq. rewrite rlift_zero. set (mean := ddiv (dsum ds) (dofnat (exp_size c1))). set (v := ddiv (dsum (map _ ds)) _). clearbody mean.
  destruct (deqb (sq v) d0); [reflexivity|]. unfold rmap; cbn [bind]; f_equal. rewrite rlift_div, rlift_mul, Hn. cbn [rlift].
  assert (rsqrt (dofnat (exp_size c1)) = RFin (sqrt (INR (exp_size c1)))) as ->.
  { unfold dofnat, rsqrt. cbn. destruct (Qle_bool 0 _) eqn:B; [f_equal|].
    - f_equal. unfold Q2R. cbn. rewrite Rinv_1, Rmult_1_r, INR_IZR_INZ. reflexivity.
    - exfalso. assert (Qle_bool 0 (inject_Z (Z.of_nat (exp_size c1))) = true) as B'; [apply Qle_bool_iff; change 0%Q with (inject_Z 0); rewrite <- Zle_Qle; lia|congruence]. }
  apply refactor.
  - apply Rgt_not_eq, sqrt_lt_R0, lt_0_INR, Hp.
  - intros H. apply Hw, Q2R_0_iff, H.
Qed.
Theorem C131_same_5x2 : forall sq c1 c2,
  (forall ds mv, differences c1 c2 = Ok ds -> five ds = Ok mv -> exact_root sq (ddiv (snd mv) (Fin 5))) ->
  paired5x2t_stat c1 c2 = rmap rlift (r_paired5x2t_stat (fun d => d) sq c1 c2).
Proof.
  intros sq c1 c2 Hv. unfold paired5x2t_stat, r_paired5x2t_stat.
  destruct (negb (ten_results c1 c2)); [reflexivity|].
  change (r_differences (fun d => d) c1 c2) with (differences c1 c2). change (r_five (fun d => d)) with five.
  destruct (differences c1 c2) as [ds| | |] eqn:E; try reflexivity. cbn [bind].
  destruct (five ds) as [mv| | |] eqn:F; try reflexivity. cbn [bind].
  specialize (Hv ds mv eq_refl F). unfold exact_root in *. rewrite <- Hv.
  change (RoundModel.rdiv (fun d => d)) with ddiv. rewrite !rlift_zero.
  destruct (deqb (sq (ddiv (snd mv) (Fin 5))) d0); [reflexivity|].
  destruct (idxn ds 0) as [d| | |]; try reflexivity. unfold rmap; cbn [bind]; f_equal. rewrite rlift_div. reflexivity.
Qed.
Theorem C131_same_combined : forall sq c1 c2 w, sq (Fin 10) = Fin w -> ~ (w == 0)%Q ->
  (forall ds mv, differences c1 c2 = Ok ds -> five ds = Ok mv -> exact_root sq (ddiv (snd mv) (Fin 5))) ->
  combined5x2t_stat c1 c2 = rmap (fun t => StatTestModel.rmul (RFin (sqrt 10 / Q2R w)) (rlift t)) (r_combined5x2t_stat (fun d => d) sq c1 c2).
Proof.
  intros sq c1 c2 w H10 Hw Hv. unfold combined5x2t_stat, r_combined5x2t_stat.
  destruct (negb (ten_results c1 c2)); [reflexivity|].
  change (r_differences (fun d => d) c1 c2) with (differences c1 c2). change (r_five (fun d => d)) with five.
  destruct (differences c1 c2) as [ds| | |] eqn:E; try reflexivity. cbn [bind].
  destruct (five ds) as [mv| | |] eqn:F; try reflexivity. cbn [bind].
  specialize (Hv ds mv eq_refl F). unfold exact_root in *. rewrite <- Hv, H10.
  change (RoundModel.rdiv (fun d => d)) with ddiv. change (RoundModel.rmul (fun d => d)) with dmul. rewrite !rlift_zero.
  destruct (deqb (sq (ddiv (snd mv) (Fin 5))) d0); [reflexivity|]. unfold rmap; cbn [bind]; f_equal. rewrite !rlift_div, rlift_mul. cbn [rlift].
  assert (Q2R 5 = 5%R) as E5. { unfold Q2R. cbn. Lra.lra. }
  assert (rsqrt (Fin 10) = RFin (sqrt 10)) as E10. { unfold rsqrt. cbn. f_equal. f_equal. unfold Q2R. cbn. Lra.lra. }
  rewrite E5, E10. assert (Q2R w <> 0%R) as Hw'. { intros H. apply Hw, Q2R_0_iff, H. }
  assert (sqrt 10 <> 0)%R as Hs by (apply Rgt_not_eq, sqrt_lt_R0; Lra.lra).
  destruct (rlift (fst mv)) as [x| |]; cbn [StatTestModel.rmul].
  - assert (StatTestModel.rdiv (RFin (sqrt 10 * x)) (RFin 5) = StatTestModel.rmul (RFin (sqrt 10)) (RFin (x / 5))) as ->.
    { cbn. destruct (Req_EM_T 5 0); [Lra.lra|]. f_equal. field. }
    assert (StatTestModel.rdiv (RFin (Q2R w * x)) (RFin 5) = StatTestModel.rmul (RFin (Q2R w)) (RFin (x / 5))) as ->.
    { cbn. destruct (Req_EM_T 5 0); [Lra.lra|]. f_equal. field. }
    apply refactor; assumption.
  - destruct (Req_EM_T (sqrt 10) 0); [contradiction|]. destruct (Req_EM_T (Q2R w) 0); [contradiction|].
    change (StatTestModel.rdiv RInf (RFin 5)) with RInf. pose proof (refactor (sqrt 10) (Q2R w) RInf (rlift (sq (ddiv (snd mv) (Fin 5)))) Hs Hw') as H. cbn [StatTestModel.rmul] in H.
    destruct (Req_EM_T (sqrt 10) 0); [contradiction|]. destruct (Req_EM_T (Q2R w) 0); [contradiction|]. exact H.
  - reflexivity.
Qed.
(** Differences 2, 2, 2, -2 have variance 4. *)
Definition root4 (d : dbl) : dbl := match d with Fin q => if Qeq_bool q 4 then Fin 2 else d0 | _ => d end.
Definition four1 : experiment := mkExp (map (fun q => PError (Fin q)) [2; 2; 2; 0]%Q) false false.
Definition four2 : experiment := mkExp (map (fun q => PError (Fin q)) [0; 0; 0; 2]%Q) false false.
Example C131_same_paired_case : root4 (dofnat (exp_size four1)) = Fin 2 /\ (forall ds, differences four1 four2 = Ok ds -> exact_root root4 (variance ds)) /\
  exists t, r_pairedt_stat (fun d => d) root4 four1 four2 = Ok (Fin t) /\ (t == 1)%Q /\
    pairedt_stat four1 four2 = Ok (RFin (sqrt 4 / 2 * Q2R t)).
Proof.
  assert (root4 (dofnat (exp_size four1)) = Fin 2) as H1 by reflexivity.
  assert (forall ds, differences four1 four2 = Ok ds -> exact_root root4 (variance ds)) as H2.
  { intros ds E. cbn in E. injection E as <-. assert (exists q, variance [Fin (2 + - 0); Fin (2 + - 0); Fin (2 + - 0); Fin (0 + - (2))] = Fin q /\ (q == 4)%Q) as (q & Eq & Hq).
    { eexists. split; [reflexivity|reflexivity]. }
    unfold exact_root. rewrite Eq. unfold root4, rsqrt. rewrite (proj2 (Qeq_bool_iff q 4) Hq).
    assert (Qle_bool 0 q = true) as -> by (apply Qle_bool_iff; rewrite Hq; discriminate). cbn [rlift]. f_equal.
    rewrite (Qeq_eqR _ _ Hq). replace (Q2R 4) with (2 * 2)%R by (unfold Q2R; cbn; Lra.lra). rewrite sqrt_square by Lra.lra. unfold Q2R; cbn; Lra.lra. }
  split; [exact H1|]. split; [exact H2|]. eexists. split; [reflexivity|]. split; [reflexivity|].
  rewrite (C131_same_paired root4 four1 four2 2 ltac:(cbn; lia) H1 ltac:(discriminate) H2). cbn [exp_size four1 results map length].
  replace (INR 4) with 4%R by (cbn; Lra.lra). replace (Q2R 2) with 2%R by (unfold Q2R; cbn; Lra.lra). reflexivity.
Qed.
Print Assumptions C131_same_paired.
Print Assumptions C131_same_5x2.
Print Assumptions C131_same_combined.
