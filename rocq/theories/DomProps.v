(** C150: a classifier that is on no fold worse than another is never called worse; and what becoming better does to a verdict. *)
From Coq Require Import String ZArith QArith Qreals Reals Bool Lia Lra Lqa Qfield Arith List.
From Verif Require Import Base Spec BaseLemmas DblLemmas AttrModel InstanceListModel StatModel StatSpec CovProofs CovAllProofs PerformanceModel PerformanceProofs DataSetProofs ListProofs StatTestModel StatTestSpec StatTestProofs StatTestProps DomSpec.
Import ListNotations.
Local Open Scope list_scope.
Local Open Scope nat_scope.

(** ** sign test *)
Lemma tosses_count n k : countb (fun t => trues t <=? S k) (tosses (S n)) = countb (fun t => trues t <=? k) (tosses n) + countb (fun t => trues t <=? S k) (tosses n).
Proof. cbn [tosses]. rewrite countb_app, !countb_map. f_equal. Qed.
Lemma tosses_count_0 n : countb (fun t => trues t <=? 0) (tosses (S n)) = countb (fun t => trues t <=? 0) (tosses n).
Proof. rewrite (at_most_count_0 n), (at_most_count_0 (S n)). apply cnt_S0. Qed.
Lemma at_most_step n : (forall k, at_most (S n) (S k) == (at_most n k + at_most n (S k)) / 2)%Q /\ (at_most (S n) 0 == at_most n 0 / 2)%Q.
Proof.
  assert (P : ~ (qofn (length (tosses n)) == 0)%Q) by (rewrite tosses_length; pose proof (qofn_pos (2 ^ n) (pow2_pos n)); lra).
  assert (L : (qofn (length (tosses (S n))) == 2 * qofn (length (tosses n)))%Q) by (rewrite !tosses_length; rewrite Nat.pow_succ_r by lia; replace (2 * 2 ^ n) with (2 ^ n + 2 ^ n) by lia; rewrite qofn_plus; lra).
  unfold at_most. split; [intros k|]; rewrite L; [rewrite tosses_count, qofn_plus|rewrite tosses_count_0]; field; exact P.
Qed.
Lemma half_up (x y : Q) : (x <= y)%Q -> (x <= (x + y) / 2)%Q /\ ((x + y) / 2 <= y)%Q.
Proof. intros H. split; [apply Qle_shift_div_l|apply Qle_shift_div_r]; try reflexivity; lra. Qed.
(** one more win, one fewer defeat *)
Lemma more_wins n k : (at_most n k <= at_most (S n) (S k))%Q.
Proof. rewrite (proj1 (at_most_step n) k). apply half_up, at_most_mono. lia. Qed.
Lemma fewer_defeats n k : (at_most (S n) k <= at_most n k)%Q.
Proof.
  destruct k as [|k]; [rewrite (proj2 (at_most_step n)); apply Qle_shift_div_r; [reflexivity|]; pose proof (at_most_pos n 0); lra|]. rewrite (proj1 (at_most_step n) k). apply half_up, at_most_mono. lia.
Qed.
Lemma better_count a b a' b' : a <= a' -> b' <= b -> (at_most (a + b) a <= at_most (a' + b') a')%Q.
Proof.
  intros Ha Hb. assert (E : exists i j, a' = i + a /\ b = j + b') by (exists (a' - a), (b - b'); lia). destruct E as (i & j & -> & ->). clear Ha Hb.
  apply Qle_trans with (at_most (a + b') a).
  - induction j as [|j IH]; [apply Qle_refl|]. eapply Qle_trans; [|exact IH]. replace (a + (S j + b')) with (S (a + (j + b'))) by lia. apply fewer_defeats.
  - induction i as [|i IH]; [apply Qle_refl|]. eapply Qle_trans; [exact IH|]. replace (S i + a + b') with (S (i + a + b')) by lia. apply more_wins.
Qed.
Lemma rates_errors e qs : rates e qs -> errors e = map Fin qs.
Proof. intros H. exact H. Qed.
Lemma wins_better qs qs' rs : never_worse qs' qs -> length qs = length rs ->
  wins (map Fin qs) (map Fin rs) <= wins (map Fin qs') (map Fin rs) /\ wins (map Fin rs) (map Fin qs') <= wins (map Fin rs) (map Fin qs).
Proof.
  intros H. revert rs. induction H as [|q' q qs' qs Hq H IH]; intros [|r rs] L; try discriminate; [split; apply Nat.le_refl|]. destruct (IH rs ltac:(now injection L)) as [A B].
  unfold wins, countb in *. cbn [map combine filter fst snd]. split.
  - destruct (dltb (Fin q) (Fin r)) eqn:E; [|destruct (dltb (Fin q') (Fin r)); cbn [length]; lia]. apply dltb_q in E. replace (dltb (Fin q') (Fin r)) with true by (symmetry; apply dltb_q; lra). cbn [length]. lia.
  - destruct (dltb (Fin r) (Fin q')) eqn:E; [|destruct (dltb (Fin r) (Fin q)); cbn [length]; lia]. apply dltb_q in E. replace (dltb (Fin r) (Fin q)) with true by (symmetry; apply dltb_q; lra). cbn [length]. lia.
Qed.
(** Sign test: if the first classifier gets better on some folds and worse on none, its p-value does not go down, that of the other does not go up, and the verdict
    (1: the first is worse, -1: the second is worse) does not go up, at any level. *)
Theorem C150_sign_monotone : forall c1 c1' c2 qs qs' rs alpha, rates c1 qs -> rates c1' qs' -> rates c2 rs -> length qs = length rs -> never_worse qs' qs ->
  1 <= wins (errors c1) (errors c2) + wins (errors c2) (errors c1) <= 12 -> 1 <= wins (errors c1') (errors c2) + wins (errors c2) (errors c1') <= 12 ->
  exists p p' q q' r r', sign_compare c1 c2 = Ok (mkTR (Fin p) false) /\ sign_compare c1' c2 = Ok (mkTR (Fin p') false) /\
    sign_compare c2 c1 = Ok (mkTR (Fin q) false) /\ sign_compare c2 c1' = Ok (mkTR (Fin q') false) /\ (p <= p')%Q /\ (q' <= q)%Q /\
    decide sign_compare c1 c2 (Fin alpha) = Ok r /\ decide sign_compare c1' c2 (Fin alpha) = Ok r' /\ (r' <= r)%Z.
Proof.
  intros c1 c1' c2 qs qs' rs alpha H1 H1' H2 L N T T'. pose proof (Forall2_len _ _ _ N) as LN.
  assert (S1 : exp_size c1 = exp_size c2) by (rewrite (rates_len _ _ H1), (rates_len _ _ H2); exact L).
  assert (S2 : exp_size c1' = exp_size c2) by (rewrite (rates_len _ _ H1'), (rates_len _ _ H2); congruence).
  destruct (C51_partial c1 c2 S1 T) as (p & E1 & Hp & _). destruct (C51_partial c1' c2 S2 T') as (p' & E2 & Hp' & _).
  destruct (C51_partial c2 c1 (eq_sym S1) ltac:(lia)) as (q & E3 & Hq & _). destruct (C51_partial c2 c1' (eq_sym S2) ltac:(lia)) as (q' & E4 & Hq' & _).
  rewrite (rates_errors _ _ H1), (rates_errors _ _ H1'), (rates_errors _ _ H2) in *. destruct (wins_better qs qs' rs N L) as [A B].
  assert (PP : (p <= p')%Q) by (rewrite Hp, Hp'; apply better_count; assumption).
  assert (QQ : (q' <= q)%Q) by (rewrite Hq, Hq'; apply better_count; assumption).
  destruct (C54_decision sign_compare c1 c2 p q alpha E1 E3) as (r & R & R1 & R2 & R3). destruct (C54_decision sign_compare c1' c2 p' q' alpha E2 E4) as (r' & R' & R1' & R2' & R3').
  exists p, p', q, q', r, r'. repeat (split; [assumption|]). 
  destruct (Qlt_le_dec p alpha) as [Z|Z]; [apply R1 in Z as ->|].
  - destruct (Qlt_le_dec p' alpha) as [Y|Y]; [apply R1' in Y as ->; lia|]. destruct (Qlt_le_dec q' alpha) as [X|X]; [assert (r' = (-1)%Z) by (apply R2'; split; assumption); lia|assert (r' = 0%Z) by (apply R3'; split; assumption); lia].
  - assert (Y : (alpha <= p')%Q) by lra. destruct (Qlt_le_dec q' alpha) as [X|X]; [assert (r' = (-1)%Z) by (apply R2'; split; assumption); subst r'|].
    + destruct (Qlt_le_dec q alpha) as [W|W]; [assert (r = (-1)%Z) by (apply R2; split; assumption); lia|assert (r = 0%Z) by (apply R3; split; assumption); lia].
    + assert (r' = 0%Z) by (apply R3'; split; assumption). assert (r = 0%Z) by (apply R3; split; [assumption|lra]). lia.
Qed.
(** A classifier that is on no fold worse, and better on m of them: the verdict is against the other classifier if 1/2^m is below the level, and none otherwise. *)
Theorem C150_sign : forall c1 c2 qs rs alpha, rates c1 qs -> rates c2 rs -> never_worse qs rs -> let m := wins (errors c1) (errors c2) in 1 <= m <= 12 -> (alpha <= 1)%Q ->
  decide sign_compare c1 c2 (Fin alpha) = Ok (if dltb (Fin (1 / qofn (2 ^ m))) (Fin alpha) then (-1)%Z else 0%Z).
Proof.
  intros c1 c2 qs rs alpha H1 H2 N m Hm A. pose proof (Forall2_len _ _ _ N) as L.
  assert (S1 : exp_size c1 = exp_size c2) by (rewrite (rates_len _ _ H1), (rates_len _ _ H2); exact L).
  assert (Z : wins (errors c2) (errors c1) = 0).
  { rewrite (rates_errors _ _ H1), (rates_errors _ _ H2). clear -N. induction N as [|q r qs rs Hq N IH]; [reflexivity|]. unfold wins, countb in *. cbn [map combine filter fst snd].
    replace (dltb (Fin r) (Fin q)) with false by (symmetry; apply dltb_fin_false; exact Hq). exact IH. }
  destruct (C51_partial c1 c2 S1) as (p & E1 & Hp & _); [fold m; rewrite Z; lia|]. fold m in Hp. rewrite Z, Nat.add_0_r in Hp.
  destruct (C51_partial c2 c1 (eq_sym S1)) as (q & E2 & Hq & _); [fold m; rewrite Z; lia|]. fold m in Hq. rewrite Z in Hq. cbn [Nat.add] in Hq.
  assert (P1 : (p == 1)%Q).
  { rewrite Hp. unfold at_most. rewrite (countb_ext_in _ (fun _ => true)); [|intros t Ht; apply Nat.leb_le; rewrite <- (tosses_len m t Ht); rewrite <- (trues_negb t); lia].
    assert (C : forall l : list (list bool), countb (fun _ => true) l = length l) by (intros l; unfold countb; induction l as [|x l IH]; cbn; congruence). rewrite C. field. rewrite tosses_length. pose proof (qofn_pos (2 ^ m) (pow2_pos m)). lra. }
  assert (Q1 : (q == 1 / qofn (2 ^ m))%Q) by (rewrite Hq; unfold at_most; rewrite at_most_count_0, cnt_0, tosses_length; reflexivity).
  destruct (C54_decision sign_compare c1 c2 p q alpha E1 E2) as (r & R & _ & R2 & R3). rewrite R. f_equal.
  destruct (dltb (Fin (1 / qofn (2 ^ m))) (Fin alpha)) eqn:D; [apply dltb_q in D; apply R2; split; lra|apply dltb_fin_false in D; apply R3; split; lra].
Qed.
Print Assumptions C150_sign_monotone.
Print Assumptions C150_sign.

(** ** t tests *)
Lemma worse_diffs qs rs : never_worse qs rs -> Forall (fun d => (d <= 0)%Q) (diffs qs rs).
Proof. unfold diffs. induction 1 as [|q r qs rs H N IH]; cbn [combine map fst snd]; constructor; [lra|exact IH]. Qed.
Lemma qsum_le0 ds : Forall (fun d => (d <= 0)%Q) ds -> (qsum ds <= 0)%Q.
Proof. induction 1 as [|d ds H N IH]; [apply Qle_refl|]. rewrite qsum_step. lra. Qed.
Lemma Q2R_le0 q : (q <= 0)%Q -> (Q2R q <= 0)%R.
Proof. intros H. apply Qle_Rle in H. replace (Q2R 0) with 0%R in H by (unfold Q2R; cbn; Lra.lra). exact H. Qed.
Lemma over_sqrt x v : (x <= 0)%R -> (x / sqrt v <= 0)%R.
Proof.
  intros H. unfold Rdiv. destruct (Req_EM_T (sqrt v) 0) as [E|N].
  - rewrite E. rewrite Rinv_0. Lra.lra.
  - pose proof (sqrt_pos v). assert (0 < / sqrt v)%R by (apply Rinv_0_lt_compat; Lra.lra). Lra.nra.
Qed.
Lemma tail_verdict tdist cmp c1 c2 n t alpha : upper_tail tdist -> (t <= 0)%R -> (alpha <= 1 # 2)%Q ->
  cmp c1 c2 = Ok (mkTR (tdist (RFin t) n) false) -> cmp c2 c1 = Ok (mkTR (tdist (RFin (- t)) n) false) ->
  decide cmp c1 c2 (Fin alpha) = Ok (if dltb (tdist (RFin (- t)) n) (Fin alpha) then (-1)%Z else 0%Z).
Proof.
  intros [U V] Ht A E1 E2. rewrite (decide_value _ _ _ _ _ _ E1 E2). destruct (U t n) as (p & p' & P & _ & _). pose proof (V t n p P Ht) as H. rewrite P.
  replace (dltb (Fin p) (Fin alpha)) with false by (symmetry; apply dltb_fin_false; lra). reflexivity.
Qed.
(** A classifier that is on no fold worse: the statistic of the three t tests is not positive, and up to level one half the verdict is never against it. *)
Theorem C150_t : forall tdist c1 c2 qs rs alpha, upper_tail tdist -> rates c1 qs -> rates c2 rs -> never_worse qs rs -> (alpha <= 1 # 2)%Q ->
  (2 <= length qs -> forall t, pairedt_stat c1 c2 = Ok t -> exists x, t = RFin x /\ (x <= 0)%R /\
     decide (pairedt_compare tdist) c1 c2 (Fin alpha) = Ok (if dltb (tdist (RFin (- x)) (Z.of_nat (length qs) - 1)%Z) (Fin alpha) then (-1)%Z else 0%Z)) /\
  (forall t, paired5x2t_stat c1 c2 = Ok t -> exists x, t = RFin x /\ (x <= 0)%R /\
     decide (paired5x2t_compare tdist) c1 c2 (Fin alpha) = Ok (if dltb (tdist (RFin (- x)) 5%Z) (Fin alpha) then (-1)%Z else 0%Z)) /\
  (forall t, combined5x2t_stat c1 c2 = Ok t -> exists x, t = RFin x /\ (x <= 0)%R /\
     decide (combined5x2t_compare tdist) c1 c2 (Fin alpha) = Ok (if dltb (tdist (RFin (- x)) 5%Z) (Fin alpha) then (-1)%Z else 0%Z)).
Proof.
  intros tdist c1 c2 qs rs alpha U H1 H2 N A. pose proof (Forall2_len _ _ _ N) as L. pose proof (worse_diffs _ _ N) as W.
  assert (T : forall B (m : res B) t, (if negb (ten_results c1 c2) then Throw StatTestNotApplicable else m) = Ok t -> length qs = 10 /\ length rs = 10).
  { intros B m t E. unfold ten_results in E. rewrite (rates_len _ _ H1), (rates_len _ _ H2), L, Nat.eqb_refl in E. destruct (Nat.eqb_spec (length rs) 10); [split; congruence|discriminate]. }
  split; [|split].
  - intros L2 t E. pose proof E as E0. rewrite (pairedt_fin _ _ _ _ H1 H2 L L2) in E. destruct (Qeq_bool (sqdev (diffs qs rs)) 0); [discriminate|]. injection E as <-. eexists. split; [reflexivity|].
    assert (X : (t_value (diffs qs rs) <= 0)%R).
    { unfold t_value. apply over_sqrt. assert (M : (qmean (diffs qs rs) <= 0)%Q).
      { unfold qmean. apply Qle_shift_div_r; [apply qofn_pos; rewrite diffs_len by exact L; lia|]. rewrite Qmult_0_l. apply qsum_le0. exact W. }
      apply Q2R_le0 in M. pose proof (sqrt_pos (INR (length (diffs qs rs)))). Lra.nra. }
    split; [exact X|]. destruct (C52_degrees_partial tdist _ _ _ _ H1 H2 L L2 _ E0) as [E1 E2]. apply (tail_verdict tdist _ _ _ _ _ _ U X A E1 E2).
  - intros t E. destruct (T _ _ _ E) as [L1 L2]. pose proof (proj1 (C52_five_by_two _ _ _ _ H1 H2 L1 L2)) as O. pose proof E as E0. rewrite (paired5x2t_fin _ _ _ _ H1 H2 L1 L2) in E. destruct (Qeq_bool (pair_var (diffs qs rs)) 0); [discriminate|]. injection E as <-. eexists. split; [reflexivity|].
    assert (X : (t5_value (diffs qs rs) <= 0)%R).
    { unfold t5_value. apply over_sqrt, Q2R_le0. destruct W; [apply Qle_refl|assumption]. }
    split; [exact X|]. destruct O as [[F _]|(u & O1 & O2)]; [congruence|]. rewrite O1 in E0. injection E0 as ->.
    apply (tail_verdict tdist _ _ _ _ _ _ U X A); [exact (proj1 (proj2 (C52_degrees tdist c1 c2)) _ O1)|exact (proj1 (proj2 (C52_degrees tdist c2 c1)) _ O2)].
  - intros t E. destruct (T _ _ _ E) as [L1 L2]. pose proof (proj2 (C52_five_by_two _ _ _ _ H1 H2 L1 L2)) as O. pose proof E as E0. rewrite (combined5x2t_fin _ _ _ _ H1 H2 L1 L2) in E. destruct (Qeq_bool (pair_var (diffs qs rs)) 0); [discriminate|]. injection E as <-. eexists. split; [reflexivity|].
    assert (X : (c5_value (diffs qs rs) <= 0)%R).
    { unfold c5_value. apply over_sqrt. assert (M : (mean_sum (diffs qs rs) <= 0)%Q).
      { unfold mean_sum. apply qsum_le0. clear -W. remember (diffs qs rs) as ds. clear Heqds. revert W. apply (well_founded_induction (Wf_nat.well_founded_ltof _ (@length Q)) (fun ds => Forall (fun d => (d <= 0)%Q) ds -> Forall (fun d => (d <= 0)%Q) (map (fun p => ((fst p + snd p) / 2)%Q) (pairs_of ds)))).
        intros [|a [|b ds']] IH W; cbn [pairs_of map]; try constructor.
        - inversion W as [|? ? Ha W']; subst. inversion W' as [|? ? Hb W'']; subst. cbn [fst snd]. apply Qle_shift_div_r; [reflexivity|]. lra.
        - apply IH; [unfold ltof; cbn; lia|]. inversion W as [|? ? Ha W']; subst. inversion W'; subst. assumption. }
      apply Q2R_le0 in M. pose proof (sqrt_pos (Q2R 10)). unfold Rdiv. Lra.nra. }
    split; [exact X|]. destruct O as [[F _]|(u & O1 & O2)]; [congruence|]. rewrite O1 in E0. injection E0 as ->.
    apply (tail_verdict tdist _ _ _ _ _ _ U X A); [exact (proj2 (proj2 (C52_degrees tdist c1 c2)) _ O1)|exact (proj2 (proj2 (C52_degrees tdist c2 c1)) _ O2)].
Qed.
Print Assumptions C150_t.

(** Monotonicity fails for the paired t test: a classifier that is better than the other on every fold, and then becomes better still on one fold, has a larger p-value against the other, and at every
    level between the two it loses the verdict it had. *)
Theorem C150_t_monotone_refuted : exists qs qs' rs, never_worse qs' qs /\ never_worse qs rs /\
  forall tdist, upper_tail tdist -> falling tdist -> exists p p', (p < p')%Q /\ (p' <= 1 # 2)%Q /\
    forall alpha, (p < alpha)%Q -> (alpha <= p')%Q ->
      decide (pairedt_compare tdist) (exp_of qs) (exp_of rs) (Fin alpha) = Ok (-1)%Z /\ decide (pairedt_compare tdist) (exp_of qs') (exp_of rs) (Fin alpha) = Ok 0%Z.
Proof.
  set (rs := [1; 1; 1]%Q). set (qs := [99 # 100; 99 # 100; 98 # 100]%Q). set (qs' := [99 # 100; 99 # 100; 0]%Q).
  exists qs, qs', rs. assert (N : never_worse qs rs) by (repeat constructor; vm_compute; discriminate). assert (N' : never_worse qs' rs) by (repeat constructor; vm_compute; discriminate).
  split; [repeat constructor; vm_compute; discriminate|]. split; [exact N|]. intros tdist U F.
  pose proof (pairedt_fin _ _ qs rs (rates_exp_of qs) (rates_exp_of rs) eq_refl ltac:(cbn; lia)) as E. pose proof (pairedt_fin _ _ qs' rs (rates_exp_of qs') (rates_exp_of rs) eq_refl ltac:(cbn; lia)) as E'.
  replace (Qeq_bool (sqdev (diffs qs rs)) 0) with false in E by reflexivity. replace (Qeq_bool (sqdev (diffs qs' rs)) 0) with false in E' by reflexivity.
  pose proof (C52_value_partial _ _ _ _ (rates_exp_of qs) (rates_exp_of rs) eq_refl ltac:(cbn; lia)) as V. pose proof (C52_value_partial _ _ _ _ (rates_exp_of qs') (rates_exp_of rs) eq_refl ltac:(cbn; lia)) as V'.
  cbv zeta in V, V'. apply proj2 in V. apply proj2 in V'. specialize (V _ E). specialize (V' _ E'). set (t := t_value (diffs qs rs)) in *. set (t' := t_value (diffs qs' rs)) in *. clearbody t t'.
  assert (M : (qmean (diffs qs rs) == -4 # 300)%Q) by (vm_compute; reflexivity). assert (M' : (qmean (diffs qs' rs) == -34 # 100)%Q) by (vm_compute; reflexivity).
  assert (S : (sqdev (diffs qs rs) / qofn (length qs - 1) == 3 # 90000)%Q) by (vm_compute; reflexivity). assert (S' : (sqdev (diffs qs' rs) / qofn (length qs' - 1) == 3267 # 10000)%Q) by (vm_compute; reflexivity).
  rewrite (Qeq_eqR _ _ M), (Qeq_eqR _ _ S) in V. rewrite (Qeq_eqR _ _ M'), (Qeq_eqR _ _ S') in V'. unfold Q2R in V, V'. cbn [Qnum Qden length INR qs qs'] in V, V'. destruct V as [V W], V' as [V' W'].
  assert (T : (t = -4)%R) by Lra.nra. assert (T1 : (-2 < t' <= 0)%R) by Lra.nra.
  destruct (proj1 (C150_t tdist _ _ qs rs (1 # 2) U (rates_exp_of qs) (rates_exp_of rs) N ltac:(apply Qle_refl)) ltac:(cbn; lia) _ E) as (x & X & _ & _). injection X as <-.
  destruct U as [U1 U2]. destruct (U1 t 2%Z) as (a & p & A & P & AP). destruct (U1 t' 2%Z) as (a' & p' & A' & P' & AP').
  exists p, p'. split; [apply (F (- t') (- t) 2%Z p' p)%R; [Lra.lra|Lra.lra|exact P'|exact P]|]. split; [pose proof (U2 _ _ _ A' (proj2 T1)); lra|].
  intros alpha Ha Ha'. assert (HA : (alpha <= 1 # 2)%Q) by (pose proof (U2 _ _ _ A' (proj2 T1)); lra).
  destruct (proj1 (C150_t tdist _ _ qs rs alpha (conj U1 U2) (rates_exp_of qs) (rates_exp_of rs) N HA) ltac:(cbn; lia) _ E) as (x & X & _ & D). injection X as <-. cbn [length qs Z.of_nat Pos.of_succ_nat Pos.succ] in D. change (3 - 1)%Z with 2%Z in D. 
  destruct (proj1 (C150_t tdist _ _ qs' rs alpha (conj U1 U2) (rates_exp_of qs') (rates_exp_of rs) N' HA) ltac:(cbn; lia) _ E') as (x & X & _ & D'). injection X as <-. cbn [length qs' Z.of_nat Pos.of_succ_nat Pos.succ] in D'. change (3 - 1)%Z with 2%Z in D'.
  rewrite P in D. rewrite P' in D'. rewrite D, D'. split; f_equal.
  - replace (dltb (Fin p) (Fin alpha)) with true by (symmetry; apply dltb_q; exact Ha). reflexivity.
  - replace (dltb (Fin p') (Fin alpha)) with false by (symmetry; apply dltb_fin_false; exact Ha'). reflexivity.
Qed.
Print Assumptions C150_t_monotone_refuted.

(** ** a concrete case *)
Definition ex_tail (t : rdbl) (_ : Z) : dbl :=
  match t with
  | RFin x => if Rlt_dec x 0 then Fin (1 - 1 / (2 + inject_Z (Int_part (- x)))) else Fin (1 / (2 + inject_Z (Int_part x)))
  | _ => NaN
  end.
Lemma int_part_pos x : (0 <= x)%R -> (0 <= Int_part x)%Z.
Proof. intros H. destruct (base_Int_part x) as [A B]. apply le_IZR. destruct (Z_lt_le_dec (Int_part x) 0) as [F|F]; [|apply IZR_le; exact F]. assert (G : (Int_part x + 1 <= 0)%Z) by lia. apply IZR_le in G. rewrite plus_IZR in G. Lra.lra. Qed.
Lemma int_part_two s t : (s + 2 <= t)%R -> (Int_part s < Int_part t)%Z.
Proof. intros H. destruct (base_Int_part s) as [A B], (base_Int_part t) as [C D]. apply lt_IZR. Lra.lra. Qed.
Lemma int_pos x : (0 <= x)%R -> (0 <= inject_Z (Int_part x))%Q.
Proof. intros H. apply int_part_pos in H. change 0%Q with (inject_Z 0). rewrite <- Zle_Qle. exact H. Qed.
Lemma one_over y : (0 <= y)%Q -> (0 < 1 / (2 + y))%Q /\ (1 / (2 + y) <= 1 # 2)%Q.
Proof. intros H. split; [apply Qlt_shift_div_l; lra|apply Qle_shift_div_r; lra]. Qed.
Lemma ex_tail_ok : upper_tail ex_tail /\ falling ex_tail.
Proof.
  split; [split|].
  - intros t n. cbn [ex_tail]. rewrite Ropp_involutive. destruct (Rlt_dec t 0) as [A|A], (Rlt_dec (- t) 0) as [B|B]; try (exfalso; Lra.lra); do 2 eexists; (split; [reflexivity|]); (split; [reflexivity|]); try lra.
    assert (t = 0%R) as -> by Lra.lra. replace (- 0)%R with 0%R by Lra.lra. assert (Z : Int_part 0 = 0%Z). { destruct (base_Int_part 0) as [C D]. assert (E : (0 <= Int_part 0)%Z) by (apply int_part_pos; Lra.lra). apply le_IZR in C. lia. } rewrite Z. reflexivity.
  - intros t n p E H. cbn [ex_tail] in E. destruct (Rlt_dec t 0) as [A|A]; injection E as <-.
    + destruct (one_over (inject_Z (Int_part (- t)))) as [B C]; [apply int_pos; Lra.lra|]. lra.
    + assert (t = 0%R) as -> by Lra.lra. assert (Z : Int_part 0 = 0%Z). { destruct (base_Int_part 0) as [C D]. assert (E : (0 <= Int_part 0)%Z) by (apply int_part_pos; Lra.lra). apply le_IZR in C. lia. } rewrite Z. discriminate.
  - intros s t n p p' H0 H E E'. cbn [ex_tail] in E, E'. destruct (Rlt_dec s 0); [exfalso; Lra.lra|]. destruct (Rlt_dec t 0); [exfalso; Lra.lra|]. injection E as <-. injection E' as <-.
    pose proof (int_part_two s t H) as L. rewrite Zlt_Qlt in L. pose proof (int_pos s H0) as P. apply Qlt_shift_div_l; [lra|]. unfold Qdiv. rewrite Qmult_1_l, Qmult_comm. apply Qlt_shift_div_r; lra.
Qed.
Example C150_case :
  (** six folds, better on five: the verdict falls at 5 percent, not at 3; with one fold lost instead it does not fall at 5 percent either *)
  let c2 := exp_of [2 # 10; 2 # 10; 2 # 10; 2 # 10; 2 # 10; 2 # 10]%Q in let c1 := exp_of [1 # 10; 1 # 10; 1 # 10; 1 # 10; 1 # 10; 2 # 10]%Q in let c0 := exp_of [3 # 10; 1 # 10; 1 # 10; 1 # 10; 1 # 10; 2 # 10]%Q in
  decide sign_compare c1 c2 (Fin (5 # 100)) = Ok (-1)%Z /\ decide sign_compare c1 c2 (Fin (3 # 100)) = Ok 0%Z /\ decide sign_compare c0 c2 (Fin (5 # 100)) = Ok 0%Z /\
  (upper_tail ex_tail /\ falling ex_tail).
Proof. cbv zeta. split; [vm_compute; reflexivity|]. split; [vm_compute; reflexivity|]. split; [vm_compute; reflexivity|]. exact ex_tail_ok. Qed.
