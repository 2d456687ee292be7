(** C29-C36, C67, C68, C85: performance measures and testing. *)
From Coq Require Import String ZArith QArith Qreals Qfield Qminmax Reals Bool Lia Lra Lqa Permutation Arith List.
From Verif Require Import Base Spec BaseLemmas DblLemmas AttrModel DataSetModel DataSetSpec DataSetProofs InstanceListModel StatModel StatSpec ListProofs CovProofs PerformanceModel PerformanceSpec PerformanceProofs.
Import ListNotations.
Local Open Scope string_scope.
Local Open Scope list_scope.
Local Open Scope nat_scope.

(** a history used in the examples *)
Definition ex_pairs : list (string * string) :=
  [("a","a"); ("a","b"); ("b","b"); ("c","a"); ("b","b"); ("c","c")].
Definition ex_labels : list string := ["b"; "a"; "c"].

Definition ex_insts : list instance := [mkInst "b" [ACont (Fin 3)] None; mkInst "a" [ACont (Fin 1)] None; mkInst "b" [] None].

(** * C29 *)
Theorem C29_counts : forall L ps a p, cm_entry (classified L ps) a p = pair_count ps a p.
Proof. exact cm_entry_count. Qed.
Example C29_case : cm_entry (classified ex_labels ex_pairs) "b" "b" = 2 /\ cm_entry (classified ex_labels ex_pairs) "a" "b" = 1.
Proof. split; reflexivity. Qed.
Print Assumptions C29_counts.

(** * C30 *)
Theorem C30_accuracy : forall L ps,
  (cm_accuracy (classified L ps) = NaN <-> ps = []) /\
  (ps <> [] -> exists a e,
     cm_accuracy (classified L ps) = Fin a /\ accuracy_of (new_detail (classified L ps)) = Ok (Fin a) /\
     error_rate (new_detail (classified L ps)) = Fin e /\
     (a * qofn (length ps) == qofn (correct_count ps) /\ 0 <= a <= 1 /\ e == 1 - a)%Q /\
     ((a == 1)%Q <-> Forall (fun q => fst q = snd q) ps)).
Proof.
  intros L ps. rewrite accuracy_classified. split.
  - destruct ps; split; congruence.
  - intros Hne. unfold new_detail, accuracy_of, error_rate. rewrite accuracy_classified. destruct ps as [|q0 ps0] eqn:E; [congruence|]. rewrite <- E in *.
    assert (HL : 0 < length ps) by (rewrite E; simpl; lia). do 2 eexists.
    split; [reflexivity|]. split; [reflexivity|]. split; [reflexivity|].
    pose proof (qofn_neq0 _ HL) as HN. split; [split; [|split]|].
    + field. exact HN.
    + apply frac_bounds; [apply (countb_le (fun q : string * string => String.eqb (fst q) (snd q)))|exact HL].
    + ring.
    + assert (H1 : (qofn (correct_count ps) / qofn (length ps) == 1)%Q <-> correct_count ps = length ps).
      { rewrite <- qofn_inj. split; intros H.
        - transitivity ((qofn (correct_count ps) / qofn (length ps)) * qofn (length ps))%Q; [field; exact HN|]. rewrite H. ring.
        - rewrite H. field. exact HN. }
      rewrite H1. unfold correct_count. etransitivity; [apply (countb_full (fun q : string * string => String.eqb (fst q) (snd q)))|].
      split; apply Forall_impl; intros q Hq; apply String.eqb_eq; exact Hq.
Qed.
Example C30_case : deq (cm_accuracy (classified ex_labels ex_pairs)) (Fin (2#3)) /\ correct_count ex_pairs = 4.
Proof. split; reflexivity. Qed.
Print Assumptions C30_accuracy.

(** * C31: merging any number of matrices, in any order *)
Theorem C31_merge : forall L L' ps qs a p,
  cm_entry (cm_add (classified L ps) (classified L' qs)) a p = pair_count ps a p + pair_count qs a p /\
  cm_add (classified L ps) (classified L' qs) = classified L (ps ++ qs).
Proof.
  intros. split; [|apply cm_add_classified]. rewrite cm_add_classified, cm_entry_count. unfold pair_count.
  rewrite filter_app, app_length. reflexivity.
Qed.
Theorem C31_any_order : forall L pss pss', Permutation pss pss' ->
  fold_left cm_add (map (classified L) pss) (cm_empty L) = classified L (concat pss) /\
  fold_left cm_add (map (classified L) pss') (cm_empty L) = fold_left cm_add (map (classified L) pss) (cm_empty L).
Proof.
  assert (HF : forall L pss, fold_left cm_add (map (classified L) pss) (cm_empty L) = classified L (concat pss)).
  { intros L pss. change (cm_empty L) with (classified L []). transitivity (classified L ([] ++ concat pss)); [|reflexivity].
    generalize (@nil (string * string)). induction pss as [|ps pss IH]; intros acc; cbn [map fold_left concat].
    - rewrite app_nil_r. reflexivity.
    - rewrite cm_add_classified, IH, app_assoc. reflexivity. }
  intros L pss pss' H. split; [apply HF|]. rewrite !HF. apply classified_perm. symmetry.
  clear -H. induction H; simpl.
  - constructor.
  - apply Permutation_app_head; assumption.
  - rewrite !app_assoc. apply Permutation_app_tail, Permutation_app_comm.
  - etransitivity; eassumption.
Qed.
Theorem C31_order_of_classification : forall L ps qs, Permutation ps qs -> classified L ps = classified L qs.
Proof. exact classified_perm. Qed.
Example C31_case : cm_add (classified ["a"; "b"] [("a","b"); ("b","b")]) (classified ["a"; "b"] [("c","a"); ("a","b")])
  = classified ["a"; "b"] [("a","b"); ("c","a"); ("b","b"); ("a","b")].
Proof. reflexivity. Qed.
Print Assumptions C31_merge.
Print Assumptions C31_any_order.
Print Assumptions C31_order_of_classification.

(** * C32 *)
Theorem C32_precision_recall : forall L ps i c, nth_error L i = Some c -> 0 < actual_count ps c ->
  (exists r, nth_error (cm_recall (classified L ps)) i = Some (Some (Fin r)) /\
     (r * qofn (actual_count ps c) == qofn (pair_count ps c c) /\ 0 <= r <= 1)%Q) /\
  (0 < predicted_count ps c -> exists p, nth_error (cm_precision (classified L ps)) i = Some (Some (Fin p)) /\
     (p * qofn (predicted_count ps c) == qofn (pair_count ps c c) /\ 0 <= p <= 1)%Q) /\
  (predicted_count ps c = 0 -> nth_error (cm_precision (classified L ps)) i = Some (Some NaN)).
Proof.
  intros L ps i c Hi Ha. assert (Hin : mem_str c (map fst ps) = true) by (apply mem_str_in, actual_pos; exact Ha).
  rewrite precision_classified, recall_classified.
  rewrite (map_nth_error (fun c => if mem_str c (map fst ps) then Some (prec ps c) else None) i L Hi).
  rewrite (map_nth_error (fun c => if mem_str c (map fst ps) then Some (rec ps c) else None) i L Hi). rewrite Hin.
  split; [|split].
  - rewrite rec_fin by exact Ha. eexists. split; [reflexivity|]. split; [field; apply qofn_neq0; exact Ha|].
    apply frac_bounds; [apply pair_le_actual|exact Ha].
  - intros Hp. rewrite prec_fin by exact Hp. eexists. split; [reflexivity|]. split; [field; apply qofn_neq0; exact Hp|].
    apply frac_bounds; [apply pair_le_predicted|exact Hp].
  - intros Hp. rewrite prec_nan by exact Hp. reflexivity.
Qed.
Theorem C32_f_measure : forall L ps, Forall (fun c => 0 < actual_count ps c) L ->
  exists fs, cm_fmeasure (classified L ps) = Ok fs /\ length fs = length L /\
    forall i c, nth_error L i = Some c ->
    (0 < pair_count ps c c -> exists f p r,
       nth_error fs i = Some (Fin f) /\ nth_error (cm_precision (classified L ps)) i = Some (Some (Fin p)) /\
    nth_error (cm_recall (classified L ps)) i = Some (Some (Fin r)) /\
    (f * (p + r) == 2 * p * r /\ 0 < f /\ Qmin p r <= f <= Qmax p r)%Q) /\
    (pair_count ps c c = 0 -> 0 < predicted_count ps c -> nth_error fs i = Some (Fin 0)) /\
    (predicted_count ps c = 0 -> nth_error fs i = Some NaN).
Proof.
  intros L ps H. exists (map (fm ps) L). split; [|split; [apply map_length|]].
  { apply fmeasure_classified. eapply Forall_impl; [|exact H]. intros c Hc. apply actual_pos. exact Hc. }
  intros i c Hi. rewrite (map_nth_error (fm ps) i L Hi). rewrite Forall_forall in H. pose proof (H c (nth_error_In _ _ Hi)) as Ha.
  split; [|split].
  - intros Ht. pose proof (pair_le_predicted ps c c) as Hle. pose proof (pair_le_actual ps c c) as Hle2.
    assert (Hin : mem_str c (map fst ps) = true) by (apply mem_str_in, actual_pos; exact Ha).
    rewrite precision_classified, recall_classified.
    rewrite (map_nth_error (fun c => if mem_str c (map fst ps) then Some (prec ps c) else None) i L Hi).
    rewrite (map_nth_error (fun c => if mem_str c (map fst ps) then Some (rec ps c) else None) i L Hi). rewrite Hin.
    destruct (fm_fin ps c Ht) as (f & Ef & Hf). rewrite prec_fin, rec_fin by lia.
    exists f. do 2 eexists. split; [rewrite Ef; reflexivity|]. split; [reflexivity|]. split; [reflexivity|].
    assert (Ht' : (0 < qofn (pair_count ps c c))%Q) by (apply qofn_pos; exact Ht).
    assert (Ha' : (0 < qofn (actual_count ps c))%Q) by (apply qofn_pos; lia).
    assert (Hp' : (0 < qofn (predicted_count ps c))%Q) by (apply qofn_pos; lia).
    set (t := qofn (pair_count ps c c)) in *. set (a := qofn (actual_count ps c)) in *. set (p := qofn (predicted_count ps c)) in *.
    assert (Hpn : ~ (p == 0)%Q) by (apply Qnot_eq_sym, Qlt_not_eq; exact Hp').
    assert (Han : ~ (a == 0)%Q) by (apply Qnot_eq_sym, Qlt_not_eq; exact Ha').
    assert (Hsn : ~ (a + p == 0)%Q) by (apply Qnot_eq_sym, Qlt_not_eq; lra).
    split; [rewrite Hf; field; repeat split; assumption|]. split; [rewrite Hf; apply Qlt_shift_div_l; lra|].
    assert (H1 : (p <= a -> t / a <= f /\ f <= t / p)%Q).
    { intros Hpa. rewrite Hf. split.
      - apply Qle_shift_div_l; [lra|]. setoid_replace (t / a * (a + p))%Q with (t + t * (p / a))%Q by (field; assumption).
        assert (p / a <= 1)%Q by (apply Qle_shift_div_r; lra). nra.
      - apply Qle_shift_div_r; [lra|]. setoid_replace (t / p * (a + p))%Q with (t + t * (a / p))%Q by (field; assumption).
        assert (1 <= a / p)%Q by (apply Qle_shift_div_l; lra). nra. }
    assert (H2 : (a <= p -> t / p <= f /\ f <= t / a)%Q).
    { intros Hpa. rewrite Hf. split.
      - apply Qle_shift_div_l; [lra|]. setoid_replace (t / p * (a + p))%Q with (t + t * (a / p))%Q by (field; assumption).
        assert (a / p <= 1)%Q by (apply Qle_shift_div_r; lra). nra.
      - apply Qle_shift_div_r; [lra|]. setoid_replace (t / a * (a + p))%Q with (t + t * (p / a))%Q by (field; assumption).
        assert (1 <= p / a)%Q by (apply Qle_shift_div_l; lra). nra. }
    destruct (Qlt_le_dec a p) as [Hlt|Hle'].
    + destruct H2 as [G1 G2]; [apply Qlt_le_weak; exact Hlt|]. split.
      * eapply Qle_trans; [apply Q.le_min_l|exact G1].
      * eapply Qle_trans; [exact G2|apply Q.le_max_r].
    + destruct H1 as [G1 G2]; [exact Hle'|]. split.
      * eapply Qle_trans; [apply Q.le_min_r|exact G1].
      * eapply Qle_trans; [exact G2|apply Q.le_max_l].
  - intros Ht Hp. rewrite fm_zero by assumption. reflexivity.
  - intros Hp. rewrite fm_nan by assumption. reflexivity.
Qed.
Example C32_case : Forall (fun c => 0 < actual_count ex_pairs c) ex_labels /\ 0 < pair_count ex_pairs "a" "a" /\
    pair_count ex_pairs "c" "c" = 1 /\ predicted_count ex_pairs "b" = 3.
Proof. repeat split; try reflexivity; try (simpl; unfold actual_count, pair_count; simpl; lia). repeat constructor; unfold actual_count; simpl; lia. Qed.
Print Assumptions C32_precision_recall.
Print Assumptions C32_f_measure.

(** * C33 *)
Theorem C33_weighted_f : forall L ps, ps <> [] -> NoDup L ->
  Forall (fun c => 0 < actual_count ps c /\ 0 < predicted_count ps c) L ->
  exists w fs, cm_weighted (classified L ps) = Ok (Fin w) /\ cm_fmeasure (classified L ps) = Ok (map Fin fs) /\
    (w * qofn (length ps) == qdot fs (map (fun c => qofn (actual_count ps c)) L) /\ 0 <= w <= 1)%Q /\
    ((forall q, In q ps -> In (fst q) L) -> (qsum (map (fun c => qofn (actual_count ps c)) L) == qofn (length ps))%Q).
Proof.
  intros L ps Hne HN H.
  assert (H' : Forall (fun c => In c (map fst ps) /\ 0 < predicted_count ps c) L).
  { eapply Forall_impl; [|exact H]. intros c [H1 H2]. split; [apply actual_pos; exact H1|exact H2]. }
  destruct (weighted_classified L ps Hne H') as (w & Ew & Hw).
  assert (HF : exists fs, map (fm ps) L = map Fin fs /\ Forall2 (fun f c => (f == fq ps c)%Q) fs L).
  { clear -H. induction H as [|c L [Ha Hp] H (fs & E & F)]; [exists []; split; [reflexivity|constructor]|].
    destruct (fm_fq ps c Hp Ha) as (f & Ef & Hf). exists (f :: fs). simpl. rewrite Ef, E. split; [reflexivity|]. constructor; assumption. }
  destruct HF as (fs & Efs & Hfs). exists w, fs. split; [exact Ew|].
  split; [rewrite fmeasure_classified, Efs; [reflexivity|]; eapply Forall_impl; [|exact H']; intros c [Hc _]; exact Hc|].
  assert (HL : 0 < length ps) by (destruct ps; [congruence|simpl; lia]). pose proof (qofn_pos _ HL) as HLp.
  assert (HQ : (qdot fs (map (fun c => qofn (actual_count ps c)) L) == qsum (map (fun c => fq ps c * qofn (actual_count ps c)) L))%Q).
  { clear -Hfs. unfold qdot. induction Hfs as [|f c fs L Hf Hfs IH]; simpl; [reflexivity|]. rewrite IH, Hf. reflexivity. }
  split.
  - split; [rewrite HQ; exact Hw|].
    assert (B : (0 <= qsum (map (fun c => fq ps c * qofn (actual_count ps c)) L) <= qofn (length ps))%Q).
    { split.
      - apply qsum_nonneg. intros c _. apply Qmult_le_0_compat; [apply fq_bounds|apply qofn_nonneg].
      - eapply Qle_trans; [|apply (actual_sum L ps HN)]. apply qsum_le. intros c _. pose proof (fq_bounds ps c). pose proof (qofn_nonneg (actual_count ps c)). nra. }
    rewrite <- Hw in B. destruct B as [B1 B2]. split; nra.
  - intros Hc. assert (HQ' : forall (ks : list string) (f : string -> nat), (qsum (map (fun k => qofn (f k)) ks) == qofn (list_sum (map f ks)))%Q).
    { induction ks; intros; simpl; [symmetry; apply qofn_0|]. rewrite IHks, qofn_plus. reflexivity. }
    rewrite HQ'. apply qofn_inj. rewrite (map_ext _ (fun a => countb (fun q => String.eqb (fst q) a && true) ps)).
    + rewrite (count_by_key fst (fun _ => true)); [|exact HN|exact Hc]. apply (countb_full (fun _ => true)). apply Forall_forall. reflexivity.
    + intros a. unfold actual_count, countb. f_equal. apply filter_ext. intros; symmetry; apply andb_true_r.
Qed.
(** a declared label that occurs but is never predicted makes the result NaN *)
Theorem C33_unpredicted_nan : forall L ps, Forall (fun c => 0 < actual_count ps c) L ->
  Exists (fun c => predicted_count ps c = 0) L -> cm_weighted (classified L ps) = Ok NaN.
Proof.
  intros L ps H HE. unfold cm_weighted. rewrite fmeasure_classified by (eapply Forall_impl; [|exact H]; intros c Hc; apply actual_pos; exact Hc).
  cbn [bind]. rewrite classified_labels.
  assert (HF : forall L0 L' s, Forall (fun c => 0 < actual_count ps c) L' -> (s = NaN \/ Exists (fun c => predicted_count ps c = 0) L') ->
    foldM (fun s cf => match mfind (fst cf) (rows (classified L0 ps)) with
                       | Some r => Ok (dadd s (dmul (snd cf) (dofnat (csum r)))) | None => UB EndDeref end)
      (combine L' (map (fm ps) L')) s = Ok NaN).
  { clear. intros L0 L' s H. revert s. induction H as [|c L' Hc H IH]; intros s [->|HE]; try reflexivity.
    - inversion HE.
    - cbn [map combine foldM fst snd]. rewrite rows_find, (proj2 (mem_str_in _ _) (proj2 (actual_pos _ _) Hc)). cbn [bind]. apply IH. left. reflexivity.
    - cbn [map combine foldM fst snd]. rewrite rows_find, (proj2 (mem_str_in _ _) (proj2 (actual_pos _ _) Hc)). cbn [bind]. apply IH.
      inversion HE; subst; [left|right; assumption]. rewrite fm_nan by assumption. destruct s; reflexivity. }
  rewrite HF; [reflexivity|exact H|right; exact HE].
Qed.
Example C33_case : NoDup ex_labels /\ Forall (fun c => 0 < actual_count ex_pairs c /\ 0 < predicted_count ex_pairs c) ex_labels /\
  rmap (fun w => deqb w (Fin (59#90))) (cm_weighted (classified ex_labels ex_pairs)) = Ok true.
Proof. split; [|split; [|vm_compute; reflexivity]]; repeat constructor; simpl; try (unfold actual_count, predicted_count; simpl; lia); intuition discriminate. Qed.
Example C33_case_nan : Forall (fun c => 0 < actual_count [("a","b"); ("b","b")] c) ["a"; "b"] /\
  Exists (fun c => predicted_count [("a","b"); ("b","b")] c = 0) ["a"; "b"].
Proof. split; repeat constructor; unfold actual_count; simpl; lia. Qed.
Print Assumptions C33_weighted_f.
Print Assumptions C33_unpredicted_nan.

(** * C34: the F-measures are defined exactly when every declared label occurred as an actual label *)
Theorem C34_reports_defined_partial : forall L ps,
  (Forall (fun c => In c (map fst ps)) L ->
     succeeds (cm_fmeasure (classified L ps)) /\ succeeds (cm_weighted (classified L ps)) /\
     Forall (fun o => o <> None) (cm_precision (classified L ps)) /\ Forall (fun o => o <> None) (cm_recall (classified L ps))) /\
  (Exists (fun c => ~ In c (map fst ps)) L -> cm_fmeasure (classified L ps) = UB Uninit /\ cm_weighted (classified L ps) = UB Uninit /\
     In None (cm_precision (classified L ps)) /\ In None (cm_recall (classified L ps))).
Proof.
  intros L ps. split.
  - intros H. pose proof (fmeasure_classified L ps H) as E. split; [rewrite E; eexists; reflexivity|]. split.
    + unfold cm_weighted. rewrite E. cbn [bind]. rewrite classified_labels.
      assert (HF : forall L0 fs s, exists r, foldM (fun s cf => match mfind (fst cf) (rows (classified L0 ps)) with
                       | Some r => Ok (dadd s (dmul (snd cf) (dofnat (csum r)))) | None => UB EndDeref end) (combine L fs) s = Ok r).
      { clear E. intros L0. induction H as [|c L Hc H IH]; intros fs s; [eexists; reflexivity|]. destruct fs as [|f fs]; [eexists; reflexivity|].
        cbn [combine foldM fst snd]. rewrite rows_find, (proj2 (mem_str_in _ _) Hc). cbn [bind]. apply IH. }
      destruct (HF L (map (fm ps) L) d0) as (r & Er). rewrite Er. eexists; reflexivity.
    + rewrite precision_classified, recall_classified. split; apply Forall_map; (eapply Forall_impl; [|exact H]); intros c Hc; simpl; rewrite (proj2 (mem_str_in _ _) Hc); discriminate.
  - intros H. pose proof (fmeasure_uninit L ps H) as E. split; [exact E|]. split; [unfold cm_weighted; rewrite E; reflexivity|].
    rewrite precision_classified, recall_classified. apply Exists_exists in H. destruct H as (c & Hc & Hn).
    split; apply in_map_iff; exists c; (split; [|exact Hc]); destruct (mem_str c (map fst ps)) eqn:Em; try reflexivity; apply mem_str_in in Em; contradiction.
Qed.
(** reachable by testing a model on a composite instance whose second possible label does not occur *)
Theorem C34_missing_label_refuted : exists predict test m,
  test_model predict test = Ok (new_detail m) /\ cm_fmeasure m = UB Uninit /\ cm_weighted m = UB Uninit.
Proof.
  exists (fun x => Ok (label x)), [mkInst "a" [] (Some ["a"; "b"])], (classified ["a"; "b"] [("a","a")]).
  repeat split.
Qed.
(** testing on plain instances is safe *)
Theorem C34_plain_test_safe : forall predict test m, Forall (fun x => composite x = None) test ->
  test_model predict test = Ok (new_detail m) -> succeeds (cm_fmeasure m) /\ succeeds (cm_weighted m).
Proof.
  intros predict test m HC H. unfold test_model in H. apply bind_ok in H. destruct H as (m' & Hf & Hm). assert (Hm2 : m' = m) by (unfold new_detail in Hm; congruence). subst m'.
  assert (G : forall test m0 m', foldM (fun m x => do p <- predict x; Ok (classify m (label x) p)) test m0 = Ok m' ->
    exists fs, length fs = length test /\ m' = fold_left (fun m q => classify m (fst q) (snd q)) (combine (map label test) fs) m0).
  { clear. induction test as [|x test IH]; intros m0 m' H; cbn [foldM] in H.
    - injection H as <-. exists []. split; reflexivity.
    - apply bind_ok in H. destruct H as (m1 & H1 & H2). apply bind_ok in H1. destruct H1 as (p & Hp & H1). injection H1 as <-.
      destruct (IH _ _ H2) as (fs & HL & E). exists (p :: fs). split; [simpl; congruence|]. simpl. exact E. }
  destruct (G _ _ _ Hf) as (fs & HL & E). change (m = classified (union_possible test) (combine (map label test) fs)) in E. subst m.
  assert (HF : Forall (fun c => In c (map fst (combine (map label test) fs))) (union_possible test)).
  { apply Forall_forall. intros c Hc. rewrite map_fst_combine by (rewrite map_length; symmetry; exact HL).
    rewrite union_possible_flat in Hc. apply push_new_in in Hc. destruct Hc as [[]|Hc]. apply in_flat_map in Hc. destruct Hc as (x & Hx & Hc).
    rewrite Forall_forall in HC. unfold possible_labels in Hc. rewrite (HC x Hx) in Hc. destruct Hc as [<-|[]]. apply in_map. exact Hx. }
  destruct (proj1 (C34_reports_defined_partial _ _) HF) as (S1 & S2 & _). auto.
Qed.
Example C34_case : Forall (fun x => composite x = None) ex_insts /\ exists m, test_model (fun _ => Ok "b") ex_insts = Ok (new_detail m).
Proof. split; [repeat constructor|eexists; reflexivity]. Qed.
Print Assumptions C34_reports_defined_partial.
Print Assumptions C34_missing_label_refuted.
Print Assumptions C34_plain_test_safe.

(** * C35 *)
Theorem C35_mean_error : forall ps errs, ps <> [] -> Forall2 (fun p q => error_rate p = Fin q) ps errs ->
  exists m, exp_mean (exp_of ps) = Fin m /\ (m == qmean errs)%Q.
Proof. intros ps errs Hne H. apply exp_mean_fin; rewrite exp_of_results; assumption. Qed.
Theorem C35_mean_order : forall ps ps', Permutation ps ps' -> deq (exp_mean (exp_of ps)) (exp_mean (exp_of ps')).
Proof.
  intros ps ps' H. unfold exp_mean. rewrite !exp_of_results, (Permutation_length H).
  rewrite (fold_dadd_perm error_rate ps ps' d0 H). reflexivity.
Qed.
Theorem C35_mean_accuracy : forall ps accs, ps <> [] -> Forall2 (fun p a => accuracy_of p = Ok (Fin a)) ps accs ->
  exists m, exp_mean_class (exp_of ps) = Ok (Some (PClass (Fin m) (Fin (1 - m)))) /\ (m == qmean accs)%Q.
Proof.
  intros ps accs Hne H. apply exp_mean_class_fin; try (rewrite exp_of_results; assumption).
  apply exp_of_class. clear Hne. induction H as [|p a ps accs Hp H IH]; constructor; [|exact IH]. destruct p; [discriminate|reflexivity|reflexivity].
Qed.
(** the pooled detailed performance is the performance on all the pairs together *)
Theorem C35_mean_detailed : forall L pss, pss <> [] ->
  exp_mean_detail (exp_of (map (fun ps => new_detail (classified L ps)) pss)) = Ok (Some (new_detail (classified L (concat pss)))).
Proof.
  intros L pss Hne. unfold exp_mean_detail. rewrite exp_of_results.
  assert (HD : details_flag (exp_of (map (fun ps => new_detail (classified L ps)) pss)) = true).
  { destruct pss as [|q pss] using rev_ind; [congruence|]. rewrite map_app. apply exp_of_detail. }
  destruct pss as [|ps pss]; [congruence|]. cbn [map concat]. cbn [map] in HD. rewrite HD. cbn [matrix_of new_detail bind].
  assert (HF : forall qss acc, foldM (fun m q => do m' <- matrix_of q; Ok (cm_add m m')) (map (fun ps => new_detail (classified L ps)) qss) (classified L acc)
     = Ok (classified L (acc ++ concat qss))).
  { induction qss as [|qs qss IH]; intros acc; cbn [map foldM concat]; [rewrite app_nil_r; reflexivity|].
    cbn [matrix_of new_detail bind]. rewrite cm_add_classified, IH, app_assoc. reflexivity. }
  rewrite HF. reflexivity.
Qed.
Theorem C35_standard_deviation : forall ps errs, 2 <= length ps -> Forall2 (fun p q => error_rate p = Fin q) ps errs ->
  exp_std (exp_of ps) = RFin (sqrt (Q2R (sqdev errs / qofn (length errs - 1)))).
Proof. intros ps errs HL H. apply exp_std_fin; rewrite exp_of_results; assumption. Qed.
Theorem C35_standard_deviation_accuracy : forall ps accs, 2 <= length ps ->
  Forall2 (fun p a => accuracy_of p = Ok (Fin a) /\ error_rate p = Fin (1 - a)) ps accs ->
  exp_std_class (exp_of ps) = Ok (Some (RFin (sqrt (Q2R (sqdev accs / qofn (length accs - 1)))),
                                        RFin (sqrt (Q2R (sqdev accs / qofn (length accs - 1)))))).
Proof.
  intros ps accs HL H.
  assert (Ha : Forall2 (fun p a => accuracy_of p = Ok (Fin a)) ps accs) by (eapply Forall2_imp; [|exact H]; intros p a [Hp _]; exact Hp).
  assert (He : Forall2 (fun p q => error_rate p = Fin q) ps (map (fun a => 1 - a)%Q accs)) by (apply Forall2_map_r; eapply Forall2_imp; [|exact H]; intros p a [_ Hp]; exact Hp).
  assert (HLa : length ps = length accs) by (eapply Forall2_len; exact Ha).
  assert (HM : (qmean (map (fun a => 1 - a) accs) == 1 - qmean accs)%Q).
  { unfold qmean. rewrite map_length.
    assert (HS : (qsum (map (fun a => 1 - a) accs) == qofn (length accs) - qsum accs)%Q).
    { clear. induction accs as [|a accs IH]; [reflexivity|]. cbn [map length]. unfold qsum in *. cbn [fold_right]. rewrite IH, qofn_S. ring. }
    rewrite HS. field. apply qofn_neq0. lia. }
  rewrite (exp_std_class_fin _ accs (map (fun a => 1 - a)%Q accs)).
  - rewrite map_length. do 4 f_equal. f_equal. apply Qeq_eqR. apply Qmult_comp; [|reflexivity].
    unfold sqdev. rewrite map_map. apply qsum_ext. intros a _. rewrite HM. ring.
  - rewrite exp_of_results. exact HL.
  - apply exp_of_class. clear -Ha. induction Ha as [|p a ps accs Hp H IH]; constructor; [|exact IH]. destruct p; [discriminate|reflexivity|reflexivity].
  - split; rewrite exp_of_results; assumption.
  - exact HM.
Qed.
(** a single result has no standard deviation (0/0) *)
Theorem C35_single_result : forall p q, error_rate p = Fin q -> exp_std (exp_of [p]) = RNaN.
Proof.
  intros p q H. destruct (C35_mean_error [p] [q]) as (m & Em & Hm); [discriminate|repeat constructor; exact H|].
  assert (Hmq : (m == q)%Q) by (rewrite Hm; unfold qmean; simpl; change (qofn 1) with 1%Q; field).
  unfold exp_std. rewrite Em, exp_of_results. cbn [fold_left length]. rewrite H. unfold d0, size_minus_1, dofnat, dpow2. cbn [Nat.eqb Nat.sub dsub dopp dadd dmul].
  unfold dsub. cbn [dopp dadd dmul]. rewrite ddiv_00; [reflexivity| |reflexivity]. rewrite Hmq. ring.
Qed.
(** mixing plain error rates with a classification result added last reads a wrong type *)
Theorem C35_mixed_results_undefined : forall ps p q qs, is_classification p = true -> is_classification q = false ->
  exp_mean_class (exp_of (ps ++ q :: qs ++ [p])) = UB BadCast.
Proof. intros. apply exp_mean_class_bad; assumption. Qed.
Definition ex_results : list perf := [new_class (Fin (1#2)); new_class (Fin (3#4)); new_class (Fin 1)].
Example C35_case : Forall2 (fun p a => accuracy_of p = Ok (Fin a) /\ error_rate p = Fin (1 - a)) ex_results [1#2; 3#4; 1]%Q /\
  (qmean [1#2; 3#4; 1] == 3#4)%Q /\ (sqdev [1#2; 3#4; 1] / qofn 2 == 1#16)%Q.
Proof. split; [repeat constructor|split; reflexivity]. Qed.
Print Assumptions C35_mean_error.
Print Assumptions C35_mean_order.
Print Assumptions C35_mean_accuracy.
Print Assumptions C35_mean_detailed.
Print Assumptions C35_standard_deviation.
Print Assumptions C35_standard_deviation_accuracy.
Print Assumptions C35_single_result.
Print Assumptions C35_mixed_results_undefined.

(** * C36 *)
(** the experiment has at least one result and all its results are classification results *)
Definition classification_results (ps : list perf) : Prop := ps <> [] /\ Forall (fun p => is_classification p = true) ps.
Theorem C36_strict_order : forall ps qs rs,
  classification_results ps -> classification_results qs -> classification_results rs ->
  let better := fun a b => exp_better (exp_of a) (exp_of b) in
  succeeds (better ps qs) /\ better ps ps = Ok false /\
  (better ps qs = Ok true -> better qs ps = Ok false) /\
  (better ps qs = Ok true -> better qs rs = Ok true -> better ps rs = Ok true).
Proof.
  intros ps qs rs [Np Hp] [Nq Hq] [Nr Hr] better.
  destruct (exp_mean_class_ok ps Np Hp) as (ap & _ & Ep). destruct (exp_mean_class_ok qs Nq Hq) as (aq & _ & Eq).
  destruct (exp_mean_class_ok rs Nr Hr) as (ar & _ & Er). unfold better, exp_better. rewrite Ep, Eq, Er. cbn [bind accuracy_of new_class].
  repeat split.
  - eexists; reflexivity.
  - rewrite dltb_irrefl. reflexivity.
  - intros H. injection H as H. f_equal. apply not_true_iff_false. intros H'. pose proof (dltb_trans _ _ _ H H') as C. rewrite dltb_irrefl in C. discriminate.
  - intros H H'. injection H as H. injection H' as H'. f_equal. eapply dltb_trans; eassumption.
Qed.
(** what isBetter decides: the mean accuracy is strictly larger *)
Theorem C36_larger_mean : forall ps qs accs accs',
  ps <> [] -> qs <> [] -> Forall2 (fun p a => accuracy_of p = Ok (Fin a)) ps accs -> Forall2 (fun p a => accuracy_of p = Ok (Fin a)) qs accs' ->
  exists b, exp_better (exp_of ps) (exp_of qs) = Ok b /\ (b = true <-> qmean accs' < qmean accs)%Q.
Proof.
  intros ps qs accs accs' Np Nq Hp Hq. destruct (C35_mean_accuracy ps accs Np Hp) as (m & Em & Hm).
  destruct (C35_mean_accuracy qs accs' Nq Hq) as (m' & Em' & Hm'). exists (dltb (Fin m') (Fin m)). split.
  - unfold exp_better. rewrite Em, Em'. reflexivity.
  - rewrite dltb_fin, Hm, Hm'. reflexivity.
Qed.
(** negative transitivity holds when the accuracies are numbers ... *)
Theorem C36_negatively_transitive_partial : forall ps qs rs accs accs' accs'',
  ps <> [] -> qs <> [] -> rs <> [] ->
  Forall2 (fun p a => accuracy_of p = Ok (Fin a)) ps accs -> Forall2 (fun p a => accuracy_of p = Ok (Fin a)) qs accs' ->
  Forall2 (fun p a => accuracy_of p = Ok (Fin a)) rs accs'' ->
  exp_better (exp_of ps) (exp_of qs) = Ok false -> exp_better (exp_of qs) (exp_of rs) = Ok false ->
  exp_better (exp_of ps) (exp_of rs) = Ok false.
Proof.
  intros ps qs rs a1 a2 a3 Np Nq Nr Hp Hq Hr B1 B2.
  destruct (C36_larger_mean ps qs a1 a2 Np Nq Hp Hq) as (b1 & E1 & L1). destruct (C36_larger_mean qs rs a2 a3 Nq Nr Hq Hr) as (b2 & E2 & L2).
  destruct (C36_larger_mean ps rs a1 a3 Np Nr Hp Hr) as (b3 & E3 & L3). rewrite E1 in B1. rewrite E2 in B2. injection B1 as ->. injection B2 as ->.
  rewrite E3. f_equal. apply not_true_iff_false. intros ->. destruct L1 as [_ L1], L2 as [_ L2], L3 as [L3 _]. specialize (L3 eq_refl).
  destruct (Qlt_le_dec (qmean a2) (qmean a1)) as [C|C]; [specialize (L1 C); discriminate|].
  destruct (Qlt_le_dec (qmean a3) (qmean a2)) as [C'|C']; [specialize (L2 C'); discriminate|]. lra.
Qed.
(** ... and fails with an experiment tested on an empty set, whose accuracy is NaN *)
Theorem C36_nan_refuted : exists ps qs rs, classification_results ps /\ classification_results qs /\ classification_results rs /\
  exp_better (exp_of ps) (exp_of qs) = Ok false /\ exp_better (exp_of qs) (exp_of rs) = Ok false /\ exp_better (exp_of ps) (exp_of rs) = Ok true.
Proof.
  exists [new_class (Fin 1)], [new_detail (classified [] [])], [new_class (Fin 0)].
  repeat split; try discriminate; repeat constructor.
Qed.
(** an experiment without results, or whose last result is not a classification, gives a null mean *)
Theorem C36_null : forall ps qs p, is_classification p = false ->
  exp_better (exp_of []) (exp_of qs) = UB NullDeref /\ exp_better (exp_of (ps ++ [p])) (exp_of qs) = UB NullDeref.
Proof.
  intros ps qs p Hp. split; [reflexivity|]. unfold exp_better, exp_mean_class. rewrite exp_of_flag, Hp, orb_true_r. reflexivity.
Qed.
Example C36_case : classification_results ex_results /\ exp_better (exp_of ex_results) (exp_of [new_class (Fin (1#2))]) = Ok true.
Proof. split; [split; [discriminate|repeat constructor]|reflexivity]. Qed.
Print Assumptions C36_strict_order.
Print Assumptions C36_larger_mean.
Print Assumptions C36_negatively_transitive_partial.
Print Assumptions C36_nan_refuted.
Print Assumptions C36_null.

(** * C67 *)
Theorem C67_test_records_all : forall predict test f, Forall (fun x => predict x = Ok (f x)) test ->
  exists m, test_model predict test = Ok (new_detail m) /\ clabels m = union_possible test /\
    (forall a p, cm_entry m a p = length (filter (fun x => String.eqb (label x) a && String.eqb (f x) p) test)) /\
    cm_sum m = dofnat (length test).
Proof.
  intros predict test f H. exists (classified (union_possible test) (map (fun x => (label x, f x)) test)). repeat split.
  - unfold test_model. rewrite (test_fold predict f test _ H). reflexivity.
  - apply classified_labels.
  - intros a p. rewrite cm_entry_count. unfold pair_count. exact (countb_map _ _ _).
  - rewrite cm_sum_classified, map_length. reflexivity.
Qed.
(** an exception or other failure of the first failing prediction is the outcome of the test *)
Theorem C67_failure_propagates : forall predict l1 x l2 f e, Forall (fun x => predict x = Ok (f x)) l1 ->
  predict x = Throw e -> test_model predict (l1 ++ x :: l2) = Throw e.
Proof.
  intros predict l1 x l2 f e H Hx. unfold test_model. generalize (cm_empty (union_possible (l1 ++ x :: l2))).
  induction H as [|y l1 Hy H IH]; intros m; cbn [app foldM]; [rewrite Hx; reflexivity|]. rewrite Hy. cbn [bind]. apply IH.
Qed.
(** the simpler tester of validated models reports the same accuracy *)
Theorem C67_testers_agree : forall predict test f, Forall (fun x => predict x = Ok (f x)) test ->
  exists p p' a, test_model predict test = Ok p /\ test_classifier predict test = Ok p' /\ accuracy_of p = Ok a /\ accuracy_of p' = Ok a.
Proof.
  intros predict test f H. unfold test_model, test_classifier. rewrite (test_fold predict f test _ H), (classifier_fold predict f test 0 H).
  do 3 eexists. split; [reflexivity|]. split; [reflexivity|]. split; [reflexivity|]. cbn [accuracy_of new_class]. f_equal.
  fold (classified (union_possible test) (map (fun x => (label x, f x)) test)). unfold cm_accuracy.
  rewrite cm_trace_classified, cm_sum_classified, map_length. reflexivity.
Qed.
Example C67_case : Forall (fun x => (fun _ => Ok "b") x = Ok ((fun _ : instance => "b") x)) ex_insts.
Proof. repeat constructor. Qed.
Print Assumptions C67_test_records_all.
Print Assumptions C67_failure_propagates.
Print Assumptions C67_testers_agree.

(** * C68 *)
Theorem C68_most_frequent : forall vs, vs <> [] -> In (get_maximum vs) vs /\ forall v, occ vs v <= occ vs (get_maximum vs).
Proof. exact get_maximum_spec. Qed.
Example C68_case : get_maximum ["x"; "y"; "z"; "y"] = "y".
Proof. reflexivity. Qed.
Print Assumptions C68_most_frequent.

(** * C85 *)
Theorem C85_read_results : forall stod lines vals, lines <> [] -> Forall one_line lines ->
  Forall2 (fun s v => stod s = Ok v) lines vals ->
  exists e, exp_file stod (join_lines lines) = Ok e /\ map error_rate (results e) = vals /\ length (results e) = length lines /\
    exp_mean_class e = UB BadCast.
Proof.
  intros stod lines vals Hne H1 H2. exists (mkExp (map PError vals) false true). unfold exp_file. rewrite join_split by assumption.
  assert (E : mapM (fun line => do d <- stod line; Ok (PError d)) lines = Ok (map PError vals)).
  { apply mapM_ok. clear Hne H1. induction H2 as [|s v lines vals Hs H IH]; constructor; [rewrite Hs; reflexivity|exact IH]. }
  rewrite E. split; [reflexivity|]. cbn [results]. rewrite map_map, map_id, map_length. split; [reflexivity|].
  split; [symmetry; eapply Forall2_len; exact H2|]. destruct H2; [congruence|]. reflexivity.
Qed.
(** a text that ends in a newline (or an empty text) makes the reader throw *)
Theorem C85_final_newline_throws : forall stod lines vals, Forall one_line lines ->
  Forall2 (fun s v => stod s = Ok v) lines vals -> stod "" = Throw InvalidArgument ->
  exp_file stod (join_lines (lines ++ [""])) = Throw InvalidArgument.
Proof.
  intros stod lines vals H1 H2 H3. unfold exp_file. rewrite join_split.
  - clear H1. induction H2 as [|s v lines vals Hs H IH]; cbn [app mapM]; [rewrite H3; reflexivity|]. rewrite Hs. cbn [bind].
    destruct (mapM (fun line => do d <- stod line; Ok (PError d)) (lines ++ [""])); cbn [bind] in *; congruence.
  - destruct lines; discriminate.
  - apply Forall_app. split; [exact H1|]. constructor; [|constructor]. intros i. simpl. discriminate.
Qed.
Example C85_case : stod_ex "" = Throw InvalidArgument /\ Forall2 (fun s v => stod_ex s = Ok v) ["1"; "2"] [Fin 1; Fin 2] /\
  rmap (fun e => length (results e)) (exp_file stod_ex (join_lines ["1"; "2"])) = Ok 2.
Proof. repeat split; repeat constructor. Qed.
Print Assumptions C85_read_results.
Print Assumptions C85_final_newline_throws.
