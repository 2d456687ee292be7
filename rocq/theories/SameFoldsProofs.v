(** Proofs for C165. *)
From Coq Require Import String ZArith QArith Qreals Reals Bool Lia Lqa Permutation Arith List.
From Verif Require Import Base Spec BaseLemmas DblLemmas AttrModel InstanceListModel StatModel StatSpec PerformanceModel PerformanceProofs DataSetProofs CovProofs StatTestModel StatTestSpec StatTestProofs RepeatSpec ExperimentModel ExperimentSpec ExperimentProofs.
Import ListNotations.
Local Open Scope list_scope.
Local Open Scope nat_scope.

(** * The same list several times *)
Lemma again_S {A} n (l : list A) : again (S n) l = l ++ again n l.
Proof. reflexivity. Qed.
Lemma again_len {A} n (l : list A) : length (again n l) = n * length l.
Proof. induction n as [|n IH]; [reflexivity|]. rewrite again_S, app_length, IH. lia. Qed.
Lemma again_map {A B} (f : A -> B) n l : map f (again n l) = again n (map f l).
Proof. induction n as [|n IH]; [reflexivity|]. rewrite !again_S, map_app, IH. reflexivity. Qed.
Lemma combine_same {A B} (a a' : list A) (b b' : list B) : length a = length b -> combine (a ++ a') (b ++ b') = combine a b ++ combine a' b'.
Proof. revert b. induction a as [|x a IH]; intros [|y b] L; try discriminate; [reflexivity|]. cbn. f_equal. apply IH. injection L as L. exact L. Qed.
Lemma again_combine {A B} n (a : list A) (b : list B) : length a = length b -> combine (again n a) (again n b) = again n (combine a b).
Proof. intros L. induction n as [|n IH]; [reflexivity|]. rewrite !again_S, combine_same, IH by exact L. reflexivity. Qed.
Lemma again_diffs n qs rs : length qs = length rs -> diffs (again n qs) (again n rs) = again n (diffs qs rs).
Proof. intros L. unfold diffs. rewrite again_combine by exact L. apply again_map. Qed.
Lemma again_countb {A} (f : A -> bool) n l : countb f (again n l) = n * countb f l.
Proof. induction n as [|n IH]; [reflexivity|]. rewrite again_S, DataSetProofs.countb_app, IH. lia. Qed.
Lemma again_qsum n l : (qsum (again n l) == qofn n * qsum l)%Q.
Proof.
  induction n as [|n IH]; [change (qofn 0) with 0%Q; cbn; ring|]. rewrite again_S, DblLemmas.qsum_app, IH. assert (E : (qofn (S n) == qofn n + 1)%Q) by (unfold qofn; rewrite Nat2Z.inj_succ, <- Z.add_1_r, inject_Z_plus; reflexivity). rewrite E. ring.
Qed.
Lemma again_mean n l : 0 < n -> l <> [] -> (qmean (again n l) == qmean l)%Q.
Proof.
  intros Hn Hl. unfold qmean. rewrite again_qsum, again_len. assert (0 < qofn n)%Q by (apply qofn_pos, Hn). assert (0 < qofn (length l))%Q by (apply qofn_pos; destruct l; [congruence|cbn; lia]).
  assert (E : (qofn (n * length l) == qofn n * qofn (length l))%Q) by (unfold qofn; rewrite Nat2Z.inj_mul, inject_Z_mult; reflexivity). rewrite E. field. split; lra.
Qed.
Lemma again_sqdev n l : 0 < n -> l <> [] -> (sqdev (again n l) == qofn n * sqdev l)%Q.
Proof.
  intros Hn Hl. rewrite <- (PerformanceProofs.sqdev_with (qmean l) (again n l)) by (symmetry; apply again_mean; assumption). rewrite (again_map (fun q => ((q - qmean l) * (q - qmean l))%Q)), again_qsum. reflexivity.
Qed.
Lemma again_rates n e e' qs : rates e qs -> results e' = again n (results e) -> rates e' (again n qs).
Proof. unfold rates. intros H ->. rewrite again_map, H, <- again_map. reflexivity. Qed.
Lemma again_wins n l l' : length l = length l' -> wins (again n l) (again n l') = n * wins l l'.
Proof. intros L. unfold wins. rewrite again_combine by exact L. apply again_countb. Qed.

(** * The statistic *)
Definition growth (r n : nat) : R := sqrt (INR (r * n - 1) / INR (n - 1)).
Lemma Q2R_qofn n : Q2R (qofn n) = INR n.
Proof. apply INR_Q2R. Qed.
Lemma growth_more r n : 2 <= r -> 2 <= n -> (1 < growth r n)%R.
Proof.
  intros Hr Hn. unfold growth. rewrite <- sqrt_1 at 1. apply sqrt_lt_1; [Lra.lra| |].
  - apply Rmult_le_pos; [apply pos_INR|]. apply Rlt_le, Rinv_0_lt_compat, lt_0_INR. lia.
  - apply (Rmult_lt_reg_r (INR (n - 1))); [apply lt_0_INR; lia|]. unfold Rdiv. rewrite Rmult_assoc, Rinv_l, Rmult_1_r, Rmult_1_l by (apply not_0_INR; lia). apply lt_INR. nia.
Qed.
Lemma deviation_again r n s : 1 <= r -> 2 <= n -> (0 <= s)%Q -> sqrt (Q2R (qofn r * s / qofn (r * n - 1))) = (sqrt (INR r) * sqrt (Q2R (s / qofn (n - 1))) / growth r n)%R.
Proof.
  intros Hr Hn Hs. assert (P1 : (0 < INR (n - 1))%R) by (apply lt_0_INR; lia). assert (P2 : (0 < INR (r * n - 1))%R) by (apply lt_0_INR; nia). assert (P3 : (0 < INR r)%R) by (apply lt_0_INR; lia).
  assert (N1 : ~ (qofn (n - 1) == 0)%Q) by (pose proof (qofn_pos (n - 1) ltac:(lia)); lra). assert (N2 : ~ (qofn (r * n - 1) == 0)%Q) by (pose proof (qofn_pos (r * n - 1) ltac:(nia)); lra).
  assert (HS : (0 <= Q2R s)%R) by (replace 0%R with (Q2R 0) by (unfold Q2R; cbn; Lra.lra); apply Qle_Rle, Hs).
  rewrite !Q2R_div, Q2R_mult, !Q2R_qofn by assumption. unfold growth. assert (P4 : (0 < INR (r * n - 1) / INR (n - 1))%R) by (apply Rmult_lt_0_compat; [exact P2|apply Rinv_0_lt_compat, P1]).
  assert (P5 : (0 <= Q2R s / INR (n - 1))%R) by (apply Rmult_le_pos; [exact HS|apply Rlt_le, Rinv_0_lt_compat, P1]).
  rewrite <- sqrt_mult by (try exact P5; Lra.lra). rewrite <- sqrt_div; [|apply Rmult_le_pos; [Lra.lra|exact P5]|exact P4]. f_equal. field. split; Lra.lra.
Qed.
Lemma t_value_again r ds : 1 <= r -> 2 <= length ds -> ~ (sqdev ds == 0)%Q -> t_value (again r ds) = (growth r (length ds) * t_value ds)%R.
Proof.
  intros Hr Hn Hs. assert (Ne : ds <> []) by (intros ->; cbn in Hn; lia). unfold t_value. rewrite again_len, (Qeq_eqR _ _ (again_mean r ds ltac:(lia) Ne)).
  rewrite (Qeq_eqR (sqdev (again r ds) / qofn (r * length ds - 1)) (qofn r * sqdev ds / qofn (r * length ds - 1))) by (rewrite (again_sqdev r ds ltac:(lia) Ne); reflexivity).
  rewrite (deviation_again r (length ds) (sqdev ds) Hr Hn (sqdev_nonneg _)). rewrite mult_INR, sqrt_mult by apply pos_INR.
  assert (G : (0 < growth r (length ds))%R) by (apply sqrt_lt_R0, Rmult_lt_0_compat; [apply lt_0_INR; nia|apply Rinv_0_lt_compat, lt_0_INR; lia]).
  assert (A : (0 < sqrt (INR r))%R) by (apply sqrt_lt_R0, lt_0_INR; lia).
  assert (B : (0 < sqrt (Q2R (sqdev ds / qofn (length ds - 1))))%R).
  { apply sqrt_lt_R0. pose proof (sqdev_nonneg ds) as P. pose proof (qofn_pos (length ds - 1) ltac:(lia)) as P1. assert (P2 : (0 < sqdev ds / qofn (length ds - 1))%Q) by (apply Qlt_shift_div_l; [exact P1|]; rewrite Qmult_0_l; destruct (Qlt_le_dec 0 (sqdev ds)); [assumption|exfalso; apply Hs; lra]).
    apply Qlt_Rlt in P2. replace (Q2R 0) with 0%R in P2 by (unfold Q2R; cbn; Lra.lra). exact P2. }
  field. repeat split; Lra.lra.
Qed.

(** * Repeated runs *)
Section Runs.
  Context {M : Type} (train : M -> ilist -> res M) (test : M -> ilist -> res perf) (HI : forall m1 m2 tr, train m1 tr = train m2 tr).
  Lemma rounds_same fs : forall m m1 m' m1' ps ps', rounds train test m fs m' ps -> rounds train test m1 fs m1' ps' -> ps = ps'.
  Proof.
    induction fs as [|[tr te] fs IH]; intros m m1 m' m1' ps ps' A B; [inversion A; inversion B; reflexivity|].
    inversion A as [|? ? ? a1 p1 ? ? q1 T1 T2 T3]; inversion B as [|? ? ? b1 p2 ? ? q2 U1 U2 U3]; subst. rewrite (HI m m1 tr) in T1.
    assert (a1 = b1) as -> by congruence. f_equal; [congruence|eapply IH; eassumption].
  Qed.
  Lemma rounds_join fs fs' : forall m m1 m' ps ps', rounds train test m fs m1 ps -> rounds train test m1 fs' m' ps' -> rounds train test m (fs ++ fs') m' (ps ++ ps').
  Proof. intros m m1 m' ps ps' A B. induction A; [exact B|]. cbn [app]. econstructor; eauto. Qed.
  Lemma rounds_start fs : forall m m0 m' ps, rounds train test m fs m' ps -> exists m1, rounds train test m0 fs m1 ps.
  Proof.
    intros m m0 m' ps A. revert m0. induction A as [m|m tr te m1 p fs m' ps T1 T2 A IH]; intros m0; [exists m0; constructor|]. rewrite (HI m m0 tr) in T1.
    exists m'. econstructor; eassumption.
  Qed.
  Lemma rounds_again r fs : forall m m' ps, rounds train test m fs m' ps -> exists m1, rounds train test m (concat (repeat fs r)) m1 (again r ps).
  Proof.
    induction r as [|r IH]; intros m m' ps A; [exists m; constructor|]. destruct (rounds_start fs m m' m' ps A) as (m2 & B). destruct (IH _ _ _ B) as (m1 & C).
    exists m1. cbn [repeat concat]. rewrite again_S. eapply rounds_join; eassumption.
  Qed.
End Runs.
