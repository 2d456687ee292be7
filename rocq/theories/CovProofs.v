(** Covariance matrix and standard deviations. *)
From Coq Require Import String ZArith QArith Qreals Qfield Reals Bool Lia Lra Lqa Sorting.Sorted Permutation Arith List.
From Verif Require Import Base Spec BaseLemmas DblLemmas AttrModel AttrProofs DataSetProofs InstanceListModel StatModel ListSpec StatSpec ListProofs.
Import ListNotations.
Local Open Scope list_scope.
Local Open Scope nat_scope.

Definition dev (avg r : list Q) (i : nat) : Q := (nth i r 0 - nth i avg 0)%Q.

Lemma deviations_fin avg r : length r = length avg ->
  deviations (map Fin avg) (map Fin r) = map Fin (map (fun i => dev avg r i) (seq 0 (length r))).
Proof.
  unfold deviations. revert avg. induction r as [|x r IH]; intros [|a avg] H; simpl in *; try discriminate; [reflexivity|].
  injection H as H. rewrite (IH avg H). rewrite <- seq_shift, !map_map. reflexivity.
Qed.
Lemma add_prefix_fin row add : length row = length add ->
  exists r, add_prefix (map Fin row) (map Fin add) = map Fin r /\ length r = length row /\
    forall j, j < length row -> (nth j r 0 == nth j row 0 + nth j add 0)%Q.
Proof.
  revert add. induction row as [|x row IH]; intros [|a add] H; simpl in *; try discriminate.
  - exists []. repeat split; auto. intros; lia.
  - destruct (IH add) as (r & E & L & Hr); [lia|]. exists ((x + a)%Q :: r). rewrite E. split; [reflexivity|]. split; [simpl; lia|].
    intros [|j] Hj; [simpl; reflexivity|]. simpl. apply Hr. lia.
Qed.
Lemma add_matrix_fin d M A : length M = length A -> Forall (fun r => length r = d) M -> Forall (fun r => length r = d) A ->
  exists m, add_matrix (map (map Fin) M) (map (map Fin) A) = map (map Fin) m /\ length m = length M /\ Forall (fun r => length r = d) m /\
    forall i j, i < length M -> j < d -> (mget m i j == mget M i j + mget A i j)%Q.
Proof.
  revert A. induction M as [|x M IH]; intros [|a A] H HM HA; simpl in *; try discriminate.
  - exists []. repeat split; auto. intros; lia.
  - inversion HM; inversion HA; subst. destruct (IH A) as (m & E & L & F & Hm); [lia|assumption|assumption|].
    destruct (add_prefix_fin x a) as (r & Er & Lr & Hr); [congruence|].
    exists (r :: m). rewrite E, Er. split; [reflexivity|]. split; [simpl; lia|]. split; [constructor; [congruence|exact F]|].
    intros [|i] j Hi Hj; unfold mget; simpl; [apply Hr; lia|]. apply Hm; lia.
Qed.
Lemma outer_fin d (f : nat -> Q) :
  outer (map Fin (map f (seq 0 d))) = map (map Fin) (map (fun i => map (fun j => (f i * f j)%Q) (seq 0 d)) (seq 0 d)).
Proof. unfold outer. rewrite !map_map. apply map_ext. intros i. rewrite !map_map. reflexivity. Qed.
Lemma nth_map_seq {A} (f : nat -> A) d i (x : A) : i < d -> nth i (map f (seq 0 d)) x = f i.
Proof.
  intros H. rewrite (nth_indep _ x (f 0)) by (rewrite map_length, seq_length; exact H). rewrite map_nth, seq_nth by exact H. reflexivity.
Qed.

Lemma cov_step_fin d qa M x r : square d M -> length qa = d -> inst_vals x = map Fin r -> length r = d ->
  exists m, cov_step d (map Fin qa) (map (map Fin) M) x = Ok (map (map Fin) m) /\ square d m /\
    forall i j, i < d -> j < d -> (mget m i j == mget M i j + dev qa r i * dev qa r j)%Q.
Proof.
  intros [HM1 HM2] Hq Hx Hr. unfold cov_step. rewrite (inst_size_length x), Hx, !map_length, Hr, Hq, Nat.leb_refl. simpl.
  rewrite deviations_fin by congruence. rewrite Hr, outer_fin.
  destruct (add_matrix_fin d M (map (fun i => map (fun j => (dev qa r i * dev qa r j)%Q) (seq 0 d)) (seq 0 d))) as (m & E & L & F & Hm).
  - rewrite map_length, seq_length. exact HM1.
  - exact HM2.
  - apply Forall_map, Forall_forall. intros. rewrite map_length, seq_length. reflexivity.
  - exists m. rewrite E. split; [reflexivity|]. split; [split; [congruence|exact F]|]. intros i j Hi Hj. rewrite Hm by lia.
    apply Qplus_inj_l. unfold mget. rewrite nth_map_seq by exact Hi. rewrite nth_map_seq by exact Hj. reflexivity.
Qed.
Lemma cov_fold_fin d qa l rows M : square d M -> length qa = d ->
  Forall2 (fun x r => inst_vals x = map Fin r /\ length r = d) l rows ->
  exists m, foldM (cov_step d (map Fin qa)) l (map (map Fin) M) = Ok (map (map Fin) m) /\ square d m /\
    forall i j, i < d -> j < d -> (mget m i j == mget M i j + qsum (map (fun r => dev qa r i * dev qa r j) rows))%Q.
Proof.
  intros HM Hq H. revert M HM. induction H as [|x r l rows [Hx Hr] H IH]; intros M HM; cbn [foldM map].
  - exists M. split; [reflexivity|]. split; [exact HM|]. intros. simpl. ring.
  - destruct (cov_step_fin d qa M x r HM Hq Hx Hr) as (m1 & E1 & S1 & H1). rewrite E1. cbn [bind].
    destruct (IH m1 S1) as (m & E & S & Hm). exists m. split; [exact E|]. split; [exact S|]. intros i j Hi Hj.
    rewrite Hm by assumption. rewrite H1 by assumption. simpl. ring.
Qed.
Lemma qofn_pred_pos n : 2 <= n -> (0 < qofn (n - 1))%Q.
Proof. intros; apply qofn_pos; lia. Qed.
Lemma covariance_fin d qa l rows : 2 <= length l -> length qa = d ->
  Forall2 (fun x r => inst_vals x = map Fin r /\ length r = d) l rows ->
  exists m, covariance (map Fin qa) l = Ok (map (map Fin) m) /\ square d m /\
    forall i j, i < d -> j < d ->
      (mget m i j == qsum (map (fun r => dev qa r i * dev qa r j) rows) / qofn (length l - 1))%Q.
Proof.
  intros HL Hq H. destruct l as [|x0 l0] eqn:El; [simpl in HL; lia|]. rewrite <- El in *. 
  assert (H0 : atn l 0 = Ok x0) by (subst l; reflexivity).
  unfold covariance. rewrite H0. cbn [bind].
  assert (Hd : inst_size x0 = d). { subst l. inversion H as [|? r ? ? [Hx Hr]]; subst. rewrite inst_size_length, Hx, map_length. exact Hr. }
  rewrite Hd. assert (HR : repeat (repeat d0 d) d = map (map Fin) (repeat (repeat 0%Q d) d)).
  { generalize d at 2 4. intros n. induction n; simpl; [reflexivity|]. rewrite IHn, repeat_fin. reflexivity. }
  rewrite HR. assert (HS : square d (repeat (repeat 0%Q d) d)).
  { split; [apply repeat_length|]. apply Forall_forall. intros r Hr. apply repeat_spec in Hr. subst r. apply repeat_length. }
  destruct (cov_fold_fin d qa l rows _ HS Hq H) as (m & E & S & Hm). rewrite E. cbn [bind].
  pose proof (qofn_pred_pos _ HL) as HP.
  exists (map (map (fun v => v / qofn (length l - 1)))%Q m). split; [|split].
  - f_equal. rewrite !map_map. apply map_ext. intros r. rewrite !map_map. apply map_ext. intros v. apply ddiv_fin.
    apply Qnot_eq_sym, Qlt_not_eq. exact HP.
  - destruct S as [S1 S2]. split; [rewrite map_length; exact S1|]. apply Forall_map. eapply Forall_impl; [|exact S2]. intros; simpl. rewrite map_length. assumption.
  - intros i j Hi Hj. destruct S as [S1 S2]. unfold mget.
    rewrite (nth_indep _ [] (map (fun v => v / qofn (length l - 1))%Q [])) by (rewrite map_length; lia). rewrite map_nth.
    assert (Hrow : length (nth i m []) = d). { rewrite Forall_forall in S2. apply S2. apply nth_In. lia. }
    rewrite (nth_indep _ 0%Q ((fun v => v / qofn (length l - 1))%Q 0%Q)) by (rewrite map_length; lia).
    rewrite (map_nth (fun v => v / qofn (length l - 1))%Q). fold (mget m i j). rewrite Hm by assumption.
    assert (HZ : mget (repeat (repeat 0%Q d) d) i j = 0%Q).
    { unfold mget. rewrite (nth_indep _ [] (repeat 0%Q d)) by (rewrite repeat_length; exact Hi). rewrite !nth_repeat. reflexivity. }
    rewrite HZ. rewrite Qplus_0_l. reflexivity.
Qed.
Lemma qsum_scale_r {A} (c : Q) (f : A -> Q) l : (qsum (map (fun x => f x * c) l) == qsum (map f l) * c)%Q.
Proof. rewrite (qsum_ext _ (fun x => c * f x)%Q) by (intros; ring). rewrite qsum_scale. ring. Qed.
Lemma quad_sum_squares d (u : nat -> Q) (f : list Q -> nat -> Q) rows :
  (qsum (map (fun i => qsum (map (fun j => u i * qsum (map (fun r => f r i * f r j) rows) * u j)%Q (seq 0 d))) (seq 0 d))
   == qsum (map (fun r => qsum (map (fun i => u i * f r i) (seq 0 d)) * qsum (map (fun i => u i * f r i) (seq 0 d))) rows))%Q.
Proof.
  transitivity (qsum (map (fun i => qsum (map (fun r => (u i * f r i) * qsum (map (fun j => u j * f r j) (seq 0 d))) rows)) (seq 0 d)))%Q.
  - apply qsum_ext. intros i _.
    transitivity (qsum (map (fun j => qsum (map (fun r => (u i * f r i) * (u j * f r j)) rows)) (seq 0 d)))%Q.
    + apply qsum_ext. intros j _. rewrite (qsum_ext (fun r => (u i * f r i) * (u j * f r j))%Q (fun r => (u i * u j) * (f r i * f r j))%Q) by (intros; ring).
      rewrite qsum_scale. ring.
    + rewrite qsum_swap. apply qsum_ext. intros r _. rewrite qsum_scale. reflexivity.
  - rewrite qsum_swap. apply qsum_ext. intros r _. rewrite qsum_scale_r. reflexivity.
Qed.
Lemma cov_psd d m rows qa n u : (0 < n)%Q -> 
  (forall i j, i < d -> j < d -> (mget m i j == qsum (map (fun r => dev qa r i * dev qa r j) rows) / n)%Q) ->
  (0 <= quad d m u)%Q.
Proof.
  intros Hn H. unfold quad.
  rewrite (qsum_ext _ (fun i => qsum (map (fun j => u i * qsum (map (fun r => dev qa r i * dev qa r j) rows) * u j) (seq 0 d)) * (1 / n))%Q).
  2:{ intros i Hi. apply in_seq in Hi. rewrite <- qsum_scale_r. apply qsum_ext. intros j Hj. apply in_seq in Hj. rewrite H by lia. field. apply Qnot_eq_sym, Qlt_not_eq; assumption. }
  rewrite qsum_scale_r, (quad_sum_squares d u (dev qa)). apply Qmult_le_0_compat.
  - apply qsum_nonneg. intros r _. set (z := qsum _). destruct (Qlt_le_dec z 0).
    + setoid_replace (z * z)%Q with ((- z) * (- z))%Q by ring. apply Qmult_le_0_compat; lra.
    + apply Qmult_le_0_compat; lra.
  - apply Qle_shift_div_l; [exact Hn|lra].
Qed.

(** * standard deviation of a continuous feature *)

Lemma sq_dev_fin k l qs a s0 : num_column k l (map Fin qs) ->
  exists s, foldM (fun s x => do v <- cont_at k x; Ok (dadd s (dpow2 (dsub v (Fin a))))) l (Fin s0) = Ok (Fin s) /\
    (s == s0 + qsum (map (fun q => (q - a) * (q - a)) qs))%Q.
Proof.
  unfold num_column. rewrite Forall2_map_r. intros H. revert s0. induction H as [|x q l qs Hx H IH]; intros s0; cbn [foldM map].
  - exists s0. split; [reflexivity|]. simpl. ring.
  - apply cont_at_ok in Hx. rewrite Hx. cbn [bind]. unfold dpow2, dsub. simpl dopp. simpl dadd. simpl dmul. simpl dadd.
    destruct (IH (s0 + (q + - a) * (q + - a))%Q) as (s & E & Hs). exists s. split; [exact E|]. rewrite Hs. simpl. ring.
Qed.
Lemma sq_nonneg z : (0 <= z * z)%Q.
Proof.
  destruct (Qlt_le_dec z 0).
  - setoid_replace (z * z)%Q with ((- z) * (- z))%Q by ring. apply Qmult_le_0_compat; lra.
  - apply Qmult_le_0_compat; lra.
Qed.
Lemma sqdev_nonneg qs : (0 <= sqdev qs)%Q.
Proof. apply qsum_nonneg. intros; apply sq_nonneg. Qed.
Lemma rsqrt_fin q : (0 <= q)%Q -> rsqrt (Fin q) = RFin (sqrt (Q2R q)).
Proof. intros H. unfold rsqrt. rewrite (proj2 (Qle_bool_iff 0 q) H). reflexivity. Qed.
Lemma num_column_length k l qs : num_column k l (map Fin qs) -> length qs = length l.
Proof. intros H. apply Forall2_len in H. rewrite map_length in H. auto. Qed.
Lemma std_value_fin k l qs : num_column k l (map Fin qs) -> 2 <= length l ->
  std_value k l = Ok (RFin (sqrt (Q2R (sqdev qs / qofn (length qs - 1))))).
Proof.
  intros H HL. destruct (cont_sum_fin _ _ _ H) as (s & Es & Hs). unfold std_value. rewrite Es. cbn [bind].
  pose proof (num_column_length _ _ _ H) as Hlen.
  unfold dofnat. rewrite ddiv_fin by (apply Qnot_eq_sym, Qlt_not_eq, (qofn_pos (length l)); lia).
  destruct (sq_dev_fin k l qs (s / qofn (length l))%Q 0%Q H) as (q & Eq & Hq). unfold sq_dev_sum, d0.
  change (inject_Z (Z.of_nat (length l))) with (qofn (length l)). rewrite Eq. cbn [bind].
  pose proof (qofn_pred_pos _ HL) as HP.
  change (inject_Z (Z.of_nat (length l - 1))) with (qofn (length l - 1)).
  rewrite ddiv_fin by (apply Qnot_eq_sym, Qlt_not_eq; exact HP).
  assert (EQ : (q == sqdev qs)%Q).
  { rewrite Hq, Qplus_0_l. unfold sqdev. apply qsum_ext. intros z _. unfold qmean. rewrite Hs, Hlen. reflexivity. }
  rewrite rsqrt_fin. 2:{ rewrite EQ. apply Qle_shift_div_l; [exact HP|]. rewrite Qmult_0_l. apply sqdev_nonneg. }
  do 3 f_equal. apply Qeq_eqR. rewrite EQ, Hlen. reflexivity.
Qed.
Lemma first_numeric k l qs : num_column k l (map Fin qs) -> l <> [] -> exists x v, atn l 0 = Ok x /\ get_attr x k = Ok (ACont v).
Proof. intros H Hne. destruct (first_of _ _ _ H Hne) as (x & v & Hx & _ & Hv). exists x, v. split; [exact Hx|]. apply get_attr_ok. exact Hv. Qed.
Lemma attr_std_fin k l qs : num_column k l (map Fin qs) -> 2 <= length l ->
  attr_std k l = Ok (Some (RFin (sqrt (Q2R (sqdev qs / qofn (length qs - 1)))))) /\
  cont_std k l = Ok [RFin (sqrt (Q2R (sqdev qs / qofn (length qs - 1))))].
Proof.
  intros H HL. destruct (first_numeric _ _ _ H) as (x & v & Hx & Hv); [intros ->; simpl in HL; lia|].
  unfold attr_std, cont_std. rewrite Hx. cbn [bind]. rewrite Hv. cbn [bind isContinuous isDiscreteIndexed].
  rewrite (std_value_fin _ _ _ H HL). split; reflexivity.
Qed.
Lemma attr_std_single k l q : num_column k l [Fin q] -> attr_std k l = Ok (Some RNaN) /\ cont_std k l = Ok [RNaN].
Proof.
  intros H. pose proof (num_column_length k l [q] H) as HL. simpl in HL.
  destruct (first_numeric k l [q] H) as (x & v & Hx & Hv); [intros ->; simpl in HL; lia|].
  assert (E : std_value k l = Ok RNaN).
  { destruct (cont_sum_fin k l [q] H) as (s & Es & Hs). unfold std_value. rewrite Es. cbn [bind].
    rewrite <- HL. unfold dofnat. rewrite ddiv_fin by discriminate.
    destruct (sq_dev_fin k l [q] (s / qofn 1)%Q 0%Q H) as (z & Ez & Hz). unfold sq_dev_sum, d0.
    change (inject_Z (Z.of_nat 1)) with (qofn 1). rewrite Ez. cbn [bind]. rewrite ddiv_00; [reflexivity| |reflexivity].
    rewrite Hz. simpl. rewrite Hs. simpl. rewrite qofn_1. field. }
  unfold attr_std, cont_std. rewrite Hx. cbn [bind]. rewrite Hv. cbn [bind isContinuous isDiscreteIndexed]. rewrite E. split; reflexivity.
Qed.
Lemma std_props qs : 2 <= length qs ->
  let s := sqrt (Q2R (sqdev qs / qofn (length qs - 1))) in
  (0 <= s)%R /\ (s * s * Q2R (qofn (length qs - 1)) = Q2R (sqdev qs))%R.
Proof.
  intros HL s. pose proof (qofn_pred_pos _ HL) as HP. split; [apply sqrt_pos|].
  unfold s. rewrite sqrt_sqrt.
  - rewrite <- Q2R_mult. apply Qeq_eqR. field. apply Qnot_eq_sym, Qlt_not_eq; assumption.
  - rewrite <- RMicromega.Q2R_0. apply Qle_Rle. apply Qle_shift_div_l; [exact HP|]. rewrite Qmult_0_l. apply sqdev_nonneg.
Qed.
Lemma qmean_times qs : qs <> [] -> (qmean qs * qofn (length qs) == qsum qs)%Q.
Proof. intros H. unfold qmean. field. apply Qnot_eq_sym, Qlt_not_eq, qofn_pos. destruct qs; [congruence|simpl; lia]. Qed.
Lemma sqdev_zero qs : 1 <= length qs -> ((sqdev qs == 0)%Q <-> (forall p q, In p qs -> In q qs -> p == q)%Q).
Proof.
  intros HL. split.
  - intros H p q Hp Hq. assert (HZ : forall z, In z qs -> (z == qmean qs)%Q).
    { intros z Hz. pose proof (qsum_zero_all (fun q => (q - qmean qs) * (q - qmean qs))%Q qs (fun x _ => sq_nonneg _) H z Hz) as E.
      apply Qmult_integral in E. destruct E; lra. }
    rewrite (HZ p Hp), (HZ q Hq). reflexivity.
  - intros H. destruct qs as [|q qs0] eqn:E; [simpl in HL; lia|]. rewrite <- E in *.
    assert (Hm : (qmean qs == q)%Q).
    { unfold qmean. rewrite <- (map_id qs) at 1. rewrite (qsum_ext _ (fun _ => q)) by (intros z Hz; apply H; [exact Hz|subst; left; reflexivity]).
      rewrite qsum_const. field. apply Qnot_eq_sym, Qlt_not_eq, qofn_pos. lia. }
    unfold sqdev. rewrite (qsum_ext _ (fun _ => 0%Q)); [rewrite qsum_const; ring|].
    intros z Hz. rewrite Hm. rewrite (H z q Hz) by (subst; left; reflexivity). ring.
Qed.
Lemma sqdev_shift qs c : 1 <= length qs -> (sqdev (map (fun q => q + c) qs) == sqdev qs)%Q.
Proof.
  intros HL. unfold sqdev. rewrite map_map.
  assert (Hm : (qmean (map (fun q => q + c) qs) == qmean qs + c)%Q).
  { unfold qmean. rewrite (qsum_plus (fun q => q) (fun _ => c)), qsum_const, map_id, map_length. field.
    apply Qnot_eq_sym, Qlt_not_eq, qofn_pos. lia. }
  apply qsum_ext. intros q _. rewrite Hm. ring.
Qed.
Lemma sqdev_scale qs a : 1 <= length qs -> (sqdev (map (fun q => a * q) qs) == a * a * sqdev qs)%Q.
Proof.
  intros HL. unfold sqdev. rewrite map_map.
  assert (Hm : (qmean (map (fun q => a * q) qs) == a * qmean qs)%Q).
  { unfold qmean. rewrite (qsum_scale a (fun q => q)), map_id, map_length. field.
    apply Qnot_eq_sym, Qlt_not_eq, qofn_pos. lia. }
  rewrite <- qsum_scale. apply qsum_ext. intros q _. rewrite Hm. ring.
Qed.
