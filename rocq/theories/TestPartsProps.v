(** Properties of testing on reordered, repeated and divided data: C140. *)
From Coq Require Import String ZArith QArith Bool Lia Lqa Permutation List.
From Verif Require Import Base Spec BaseLemmas DblLemmas AttrModel DataSetModel DataSetProofs InstanceListModel ListProofs ListProps StatSpec CovProofs PerformanceModel PerformanceSpec PerformanceProofs TestPartsProofs.
Import ListNotations.
Local Open Scope string_scope.
Local Open Scope list_scope.
Local Open Scope nat_scope.

(** a per-label report, as pairs of label and value *)
Definition by_label {A} (m : cmatrix) (vs : list A) : list (string * A) := combine (clabels m) vs.
(** * C140: the order of the test data *)
(** accuracy, error rate and confusion matrix are the same; the labels of the report may come in another order, with the same values *)
Theorem C140_order : forall predict l l' p, Permutation l l' -> test_model predict l = Ok p ->
  exists m m' p', test_model predict l' = Ok p' /\ matrix_of p = Ok m /\ matrix_of p' = Ok m' /\
    accuracy_of p' = accuracy_of p /\ error_rate p' = error_rate p /\ rows m' = rows m /\ Permutation (clabels m) (clabels m') /\
    Permutation (by_label m (cm_precision m)) (by_label m' (cm_precision m')) /\ Permutation (by_label m (cm_recall m)) (by_label m' (cm_recall m')) /\
    (forall fs, cm_fmeasure m = Ok fs -> exists fs', cm_fmeasure m' = Ok fs' /\ Permutation (by_label m fs) (by_label m' fs')) /\
    (forall w, cm_weighted m = Ok w -> exists w', cm_weighted m' = Ok w' /\ deq w w').
Proof.
  intros predict l l' p P T. apply test_answers in T. destruct T as (ps & A & ->). destruct (answers_perm _ _ _ P _ A) as (ps' & A' & P').
  set (L := union_possible l). set (L' := union_possible l'). assert (PL : Permutation L L') by (apply union_perm; exact P).
  exists (classified L ps), (classified L' ps), (new_detail (classified L' ps')). rewrite (classified_perm L' ps' ps) by (apply Permutation_sym; exact P').
  split; [apply test_answers; exists ps'; split; [exact A'|]; rewrite (classified_perm _ _ _ P'); reflexivity|]. split; [reflexivity|]. split; [reflexivity|].
  assert (EA : cm_accuracy (classified L' ps) = cm_accuracy (classified L ps)) by (rewrite !accuracy_classified; reflexivity).
  cbn [new_detail accuracy_of error_rate]. rewrite EA. split; [reflexivity|]. split; [reflexivity|].
  assert (ER : rows (classified L' ps) = rows (classified L ps)) by (rewrite !rows_classified; reflexivity).
  split; [exact ER|]. unfold by_label. rewrite !classified_labels. split; [exact PL|].
  rewrite !precision_classified, !recall_classified, !combine_map_self. split; [apply Permutation_map; exact PL|]. split; [apply Permutation_map; exact PL|].
  assert (F : forall fs, cm_fmeasure (classified L ps) = Ok fs -> exists fs', cm_fmeasure (classified L' ps) = Ok fs' /\ Permutation (combine L fs) (combine L' fs')).
  { intros fs E. unfold cm_fmeasure in *. rewrite precision_classified, recall_classified, combine_map_map, PerformanceProofs.mapM_map in *. apply (mapM_reorder _ _ _ PL _ E). }
  split; [exact F|]. intros w E. unfold cm_weighted in *. apply bind_ok in E. destruct E as (fs & Ef & E). destruct (F _ Ef) as (fs' & Ef' & PF). rewrite Ef'. cbn [bind].
  rewrite !classified_labels in *. apply bind_ok in E. destruct E as (s & Es & Ew). injection Ew as <-.
  set (t := fun c => option_map csum (mfind c (rows (classified L ps)))).
  assert (X : forall cs s0, foldM (fun s cf => match mfind (fst cf) (rows (classified L ps)) with Some r => Ok (dadd s (dmul (snd cf) (dofnat (csum r)))) | None => UB EndDeref end) cs s0 =
    foldM (fun s (cf : string * dbl) => match t (fst cf) with Some n => Ok (dadd s (dmul (snd cf) (dofnat n))) | None => UB EndDeref end) cs s0).
  { unfold t. induction cs as [|c cs IH]; intros s0; [reflexivity|]. cbn [foldM]. destruct (mfind (fst c) (rows (classified L ps))); cbn [option_map bind]; [apply IH|reflexivity]. }
  rewrite X in Es. destruct (wsum_perm t _ _ PF d0 d0 s (reflexivity _) Es) as (s' & Es' & D). rewrite ER, X, Es'. cbn [bind]. eexists. split; [reflexivity|].
  rewrite !cm_sum_classified, D. reflexivity.
Qed.
Print Assumptions C140_order.

(** * Testing on parts *)
(** A test on data that come in two parts succeeds exactly if the tests on the parts do; the counts add up, and the accuracy is the
    mean of the two accuracies weighted by the sizes of the parts. *)
Theorem C140_two_parts : forall predict l1 l2,
  (succeeds (test_model predict (l1 ++ l2)) <-> succeeds (test_model predict l1) /\ succeeds (test_model predict l2)) /\
  forall m1 m2, test_model predict l1 = Ok (new_detail m1) -> test_model predict l2 = Ok (new_detail m2) ->
  exists m, test_model predict (l1 ++ l2) = Ok (new_detail m) /\ (forall a p, cm_entry m a p = cm_entry m1 a p + cm_entry m2 a p) /\ rows m = rows (cm_add m1 m2) /\
    (l1 <> [] -> l2 <> [] -> exists a a1 a2, cm_accuracy m = Fin a /\ cm_accuracy m1 = Fin a1 /\ cm_accuracy m2 = Fin a2 /\
       (a * qofn (length l1 + length l2) == a1 * qofn (length l1) + a2 * qofn (length l2))%Q).
Proof.
  intros predict l1 l2. split.
  - split.
    + intros [p H]. apply test_answers in H. destruct H as (ps & A & _). apply answers_app in A. destruct A as (qs & qs' & A & A' & _).
      split; eexists; apply test_answers; eexists; (split; [|reflexivity]); [exact A|exact A'].
    + intros [[p H] [p' H']]. apply test_answers in H. apply test_answers in H'. destruct H as (ps & A & _), H' as (ps' & A' & _).
      eexists. apply test_answers. exists (ps ++ ps'). split; [apply answers_app; exists ps, ps'; repeat split; assumption|reflexivity].
  - intros m1 m2 H1 H2. apply test_answers in H1. apply test_answers in H2. destruct H1 as (ps & A & E1), H2 as (qs & B & E2). injection E1 as _ _ ->. injection E2 as _ _ ->.
    exists (classified (union_possible (l1 ++ l2)) (ps ++ qs)). split; [apply test_answers; exists (ps ++ qs); split; [apply answers_app; exists ps, qs; repeat split; assumption|reflexivity]|]. split.
    { intros a p. rewrite !cm_entry_count. unfold pair_count. rewrite filter_app, app_length. reflexivity. }
    split; [rewrite cm_add_classified, !rows_classified; reflexivity|].
    intros N1 N2. assert (Lp : length ps = length l1) by (eapply answers_len; eassumption). assert (Lq : length qs = length l2) by (eapply answers_len; eassumption).
    destruct (accuracy_value (union_possible (l1 ++ l2)) (ps ++ qs)) as (a & Ea & Ha); [destruct l1, ps; cbn in *; congruence|].
    destruct (accuracy_value (union_possible l1) ps) as (a1 & Ea1 & Ha1); [destruct l1, ps; cbn in *; congruence|].
    destruct (accuracy_value (union_possible l2) qs) as (a2 & Ea2 & Ha2); [destruct l2, qs; cbn in *; congruence|].
    exists a, a1, a2. split; [exact Ea|]. split; [exact Ea1|]. split; [exact Ea2|].
    rewrite app_length, correct_app in Ha. rewrite Lp, Lq in *. rewrite Ha, Ha1, Ha2. unfold qofn. rewrite Nat2Z.inj_add, inject_Z_plus. reflexivity.
Qed.
Print Assumptions C140_two_parts.

(** the tests of an experiment: every round its own predictions and its own test data *)
Definition rounds (rs : list ((instance -> res string) * ilist)) (es : list perf) : Prop :=
  Forall2 (fun r e => test_model (fst r) (snd r) = Ok e /\ snd r <> []) rs es.
Lemma rounds_answers rs es : rounds rs es -> exists qs, es = map (fun q => new_detail (classified (fst q) (snd q))) qs /\
  Forall2 (fun (r : (instance -> res string) * ilist) (q : list string * list (string * string)) => length (snd q) = length (snd r) /\ snd q <> []) rs qs.
Proof.
  induction 1 as [|r e rs es [T N] H IH]; [exists []; split; [reflexivity|constructor]|]. destruct IH as (qs & -> & F).
  apply test_answers in T. destruct T as (ps & A & ->). exists ((union_possible (snd r), ps) :: qs). split; [reflexivity|]. constructor; [|exact F]. cbn.
  pose proof (answers_len _ _ _ A) as L. split; [exact L|]. intros ->. destruct (snd r); [congruence|discriminate].
Qed.
Lemma merged qs L ps : foldM (fun m q => do m' <- matrix_of q; Ok (cm_add m m')) (map (fun q : list string * list (string * string) => new_detail (classified (fst q) (snd q))) qs) (classified L ps) =
  Ok (classified L (ps ++ concat (map snd qs))).
Proof.
  revert ps. induction qs as [|q qs IH]; intros ps; cbn [map foldM concat]; [rewrite app_nil_r; reflexivity|]. cbn [new_detail matrix_of bind]. rewrite cm_add_classified, IH, app_assoc. reflexivity.
Qed.
Lemma flag_of_details es : Forall (fun p => has_details p = true) es -> details_flag (exp_of es) = true.
Proof. induction es as [|e es IH] using rev_ind; [reflexivity|]. intros H. apply Forall_app in H. destruct H as [_ H]. inversion H; subst. unfold exp_of. rewrite fold_left_app. cbn. assumption. Qed.
Lemma flag_of_class es : Forall (fun p => is_classification p = true) es -> class_flag (exp_of es) = true.
Proof. induction es as [|e es IH] using rev_ind; [reflexivity|]. intros H. apply Forall_app in H. destruct H as [_ H]. inversion H; subst. unfold exp_of. rewrite fold_left_app. cbn. assumption. Qed.
(** The two ways of summing up an experiment: the mean of the accuracies of the rounds, and the accuracy of the merged matrix, which is
    the mean weighted by the sizes of the test sets.  They agree if all test sets have the same size. *)
Theorem C140_two_summaries : forall rs es, rs <> [] -> rounds rs es ->
  exists mean pooled accs, exp_mean_class (exp_of es) = Ok (Some (PClass (Fin mean) (Fin (1 - mean)))) /\
    (exists m, exp_mean_detail (exp_of es) = Ok (Some (new_detail m)) /\ cm_accuracy m = Fin pooled) /\
    Forall2 (fun e a => accuracy_of e = Ok (Fin a)) es accs /\
    (mean * qofn (length rs) == qsum accs)%Q /\
    (pooled * qsum (map (fun r => qofn (length (snd r))) rs) == qsum (map (fun p => fst p * qofn (length (snd (snd p)))) (combine accs rs)))%Q /\
    (forall n, Forall (fun r => length (snd r) = n) rs -> (mean == pooled)%Q).
Proof.
  intros rs es N R. destruct (rounds_answers rs es R) as (qs & E & F).
  assert (Q : exists accs, Forall2 (fun e a => accuracy_of e = Ok (Fin a)) es accs /\ Forall2 (fun (q : list string * list (string * string)) a => a * qofn (length (snd q)) == qofn (correct_count (snd q)))%Q qs accs).
  { subst es. clear R N. induction F as [|r q rs qs [L M] F IH]; [exists []; split; constructor|]. destruct IH as (accs & I1 & I2). destruct (accuracy_value (fst q) (snd q) M) as (a & Ea & Ha).
    exists (a :: accs). split; constructor; try assumption. cbn. rewrite Ea. reflexivity. }
  destruct Q as (accs & Q1 & Q2). assert (Ne : es <> []) by (subst es; destruct F; [congruence|discriminate]).
  assert (Lr : length accs = length rs) by (clear -Q2 F; revert accs Q2; induction F; intros accs Q2; inversion Q2; subst; cbn; [reflexivity|f_equal; apply IHF; assumption]).
  assert (Cl : Forall (fun p => is_classification p = true) es) by (subst es; clear; induction qs; cbn; constructor; [reflexivity|assumption]).
  assert (De : Forall (fun p => has_details p = true) es) by (subst es; clear; induction qs; cbn; constructor; [reflexivity|assumption]).
  destruct (exp_mean_class_fin (exp_of es) accs) as (mean & E1 & Hm).
  { rewrite exp_of_results. exact Ne. }
  { apply flag_of_class, Cl. }
  { rewrite exp_of_results. exact Q1. }
  set (ps := concat (map snd qs)). assert (Nps : ps <> []).
  { unfold ps. destruct F as [|r q rs qs [L M] F]; [congruence|]. cbn. intros X. apply app_eq_nil in X. destruct X; contradiction. }
  assert (MD : exists m, exp_mean_detail (exp_of es) = Ok (Some (new_detail m)) /\ exists L, m = classified L ps).
  { unfold exp_mean_detail. rewrite exp_of_results, (flag_of_details _ De). subst es. destruct qs as [|q qs]; [exfalso; apply Ne; reflexivity|]. cbn [map new_detail matrix_of bind]. rewrite merged. cbn [bind].
    eexists. split; [reflexivity|]. eexists. reflexivity. }
  destruct MD as (m & Em & L & Lm). destruct (accuracy_value L ps Nps) as (pooled & Ep & Hp). exists mean, pooled, accs.
  split; [exact E1|]. split; [exists m; split; [exact Em|rewrite Lm; exact Ep]|]. split; [exact Q1|].
  assert (Hmean : (mean * qofn (length rs) == qsum accs)%Q).
  { rewrite Hm. unfold qmean. rewrite Lr. field. apply qofn_neq0. destruct rs; [congruence|cbn; lia]. }
  split; [exact Hmean|].
  assert (Sz : (qofn (length ps) == qsum (map (fun r : (instance -> res string) * ilist => qofn (length (snd r))) rs))%Q).
  { unfold ps. clear -F. induction F as [|r q rs qs [L M] F IH]; [reflexivity|]. cbn [map concat]. rewrite app_length, L. unfold qsum in *. cbn [fold_right]. rewrite <- IH. unfold qofn. rewrite Nat2Z.inj_add, inject_Z_plus. reflexivity. }
  assert (Co : (qofn (correct_count ps) == qsum (map (fun p => fst p * qofn (length (snd (snd p)))) (combine accs rs)))%Q).
  { unfold ps. clear -F Q2. revert accs Q2. induction F as [|r q rs qs [L M] F IH]; intros accs Q2; inversion Q2 as [|? a ? accs' Ha Q2']; subst; [reflexivity|]. cbn [map concat combine fst snd]. rewrite correct_app. unfold qsum in *. cbn [fold_right fst snd].
    rewrite <- (IH _ Q2'). rewrite L in Ha. rewrite Ha. unfold qofn. rewrite Nat2Z.inj_add, inject_Z_plus. reflexivity. }
  assert (Hpool : (pooled * qsum (map (fun r => qofn (length (snd r))) rs) == qsum (map (fun p => fst p * qofn (length (snd (snd p)))) (combine accs rs)))%Q) by (rewrite <- Sz, <- Co; exact Hp).
  split; [exact Hpool|]. intros n All.
  assert (S1 : (qsum (map (fun r : (instance -> res string) * ilist => qofn (length (snd r))) rs) == qofn (length rs) * qofn n)%Q).
  { clear -All. induction All as [|r rs Hr All IH]; [reflexivity|]. cbn [map]. change (length (r :: rs)) with (S (length rs)). unfold qsum in *. cbn [fold_right]. rewrite IH. unfold ilist in *. rewrite Hr. unfold qofn. rewrite Nat2Z.inj_succ. unfold Z.succ. rewrite inject_Z_plus. ring. }
  assert (S2 : (qsum (map (fun p => fst p * qofn (length (snd (snd p)))) (combine accs rs)) == qsum accs * qofn n)%Q).
  { clear -All Lr. revert accs Lr. induction All as [|r rs Hr All IH]; intros [|a accs] Lr; try discriminate; [reflexivity|]. cbn [combine map fst snd]. unfold qsum in *. cbn [fold_right]. rewrite IH by (cbn in Lr; congruence). unfold ilist in *. rewrite Hr. ring. }
  rewrite S1, S2, <- Hmean in Hpool. assert (P1 : ~ (qofn (length rs) == 0)%Q) by (apply qofn_neq0; destruct rs; [congruence|cbn; lia]).
  assert (P2 : ~ (qofn n == 0)%Q).
  { apply qofn_neq0. destruct rs as [|r rs]; [congruence|]. inversion All; subst. inversion R as [|? e ? es' [_ Hne] _]; subst. cbn in Hne. unfold ilist in *. destruct (snd r); [congruence|cbn; lia]. }
  setoid_replace pooled with (pooled * (qofn (length rs) * qofn n) / (qofn (length rs) * qofn n))%Q by (field; split; assumption). rewrite Hpool. field. split; assumption.
Qed.
Print Assumptions C140_two_summaries.
(** With test sets of different sizes the two summaries of one experiment differ. *)
Definition say_a (x : instance) : res string := Ok "a".
Definition part1 : ilist := [mkInst "a" [] None].
Definition part2 : ilist := [mkInst "b" [] None; mkInst "b" [] None; mkInst "b" [] None].
Theorem C140_two_summaries_refuted : exists rs es mean pooled m, rounds rs es /\
  exp_mean_class (exp_of es) = Ok (Some (PClass (Fin mean) (Fin (1 - mean)))) /\ exp_mean_detail (exp_of es) = Ok (Some (new_detail m)) /\ cm_accuracy m = Fin pooled /\
  (mean == 1 # 2)%Q /\ (pooled == 1 # 4)%Q.
Proof.
  assert (R : rounds [(say_a, part1); (say_a, part2)] [new_detail (classified ["a"] [("a", "a")]); new_detail (classified ["b"] [("b", "a"); ("b", "a"); ("b", "a")])]).
  { repeat (apply Forall2_cons || apply Forall2_nil); (split; [reflexivity|discriminate]). }
  assert (Nil : [(say_a, part1); (say_a, part2)] <> []) by discriminate. destruct (C140_two_summaries _ _ Nil R) as (mean & pooled & accs & E1 & (m & E2 & E3) & A & H1 & H2 & _).
  exists [(say_a, part1); (say_a, part2)], [new_detail (classified ["a"] [("a", "a")]); new_detail (classified ["b"] [("b", "a"); ("b", "a"); ("b", "a")])], mean, pooled, m.
  split; [exact R|]. split; [exact E1|]. split; [exact E2|]. split; [exact E3|].
  inversion A as [|? a ? accs1 Ha A1]; subst. inversion A1 as [|? b ? accs2 Hb A2]; subst. inversion A2; subst.
  vm_compute in Ha. injection Ha as <-. vm_compute in Hb. injection Hb as <-.
  unfold qsum in *. cbn [map combine fold_right fst snd length part1 part2] in *. unfold qofn in *. cbn in H1, H2. unfold inject_Z in *. split; lra.
Qed.
Print Assumptions C140_two_summaries_refuted.

(** Repeating the test data changes neither accuracy nor error rate. *)
Theorem C140_repeated : forall predict l k m, l <> [] -> test_model predict l = Ok (new_detail m) ->
  exists m' a a', test_model predict (concat (repeat l (S k))) = Ok (new_detail m') /\ cm_accuracy m = Fin a /\ cm_accuracy m' = Fin a' /\ (a == a')%Q /\
    forall x y, cm_entry m' x y = S k * cm_entry m x y.
Proof.
  intros predict l k m N T. apply test_answers in T. destruct T as (ps & A & E). injection E as _ _ ->.
  assert (B : answers predict (concat (repeat l (S k))) (concat (repeat ps (S k)))).
  { induction k as [|k IH]; [cbn; rewrite !app_nil_r; exact A|]. apply answers_app. exists ps, (concat (repeat ps (S k))). repeat split; assumption. }
  assert (Lp : length ps = length l) by (eapply answers_len; eassumption). assert (Np : ps <> []) by (destruct l, ps; cbn in *; congruence).
  assert (C : correct_count (concat (repeat ps (S k))) = S k * correct_count ps) by (clear; induction (S k) as [|n IH]; [reflexivity|]; cbn [repeat concat]; rewrite correct_app, IH; reflexivity).
  assert (D : length (concat (repeat ps (S k))) = S k * length ps) by (clear; induction (S k) as [|n IH]; [reflexivity|]; cbn [repeat concat]; rewrite app_length, IH; reflexivity).
  destruct (accuracy_value (union_possible l) ps Np) as (a & Ea & Ha).
  destruct (accuracy_value (union_possible (concat (repeat l (S k)))) (concat (repeat ps (S k)))) as (a' & Ea' & Ha'); [cbn; intros X; apply app_eq_nil in X; destruct X; contradiction|].
  eexists. exists a, a'. split; [apply test_answers; eexists; split; [exact B|reflexivity]|]. split; [exact Ea|]. split; [exact Ea'|]. split.
  - rewrite C, D in Ha'. unfold qofn in *. rewrite !Nat2Z.inj_mul, !inject_Z_mult, <- Ha in Ha'.
    assert (P1 : ~ (inject_Z (Z.of_nat (S k)) == 0)%Q) by (apply (qofn_neq0 (S k)); lia). assert (P2 : ~ (inject_Z (Z.of_nat (length ps)) == 0)%Q) by (apply (qofn_neq0 (length ps)); destruct ps; [congruence|cbn; lia]).
    set (s := inject_Z (Z.of_nat (S k))) in *. set (n := inject_Z (Z.of_nat (length ps))) in *.
    setoid_replace a' with (a' * (s * n) / (s * n))%Q by (field; split; assumption). rewrite Ha'. field. split; assumption.
  - intros x y. rewrite !cm_entry_count. unfold pair_count. clear. induction (S k) as [|n IH]; [reflexivity|]. cbn [repeat concat]. rewrite filter_app, app_length, IH. reflexivity.
Qed.
Print Assumptions C140_repeated.

(** * Accuracy and recall *)
(** The accuracy is the mean of the recalls of the labels, weighted by how often the labels occur. *)
Theorem C140_recall : forall L ps, ps <> [] -> NoDup L -> (forall q, In q ps -> In (fst q) L) -> Forall (fun c => 0 < actual_count ps c) L ->
  exists a rs, cm_accuracy (classified L ps) = Fin a /\ cm_recall (classified L ps) = map (fun r => Some (Fin r)) rs /\ length rs = length L /\
    (a * qofn (length ps) == qsum (map (fun p => fst p * qofn (actual_count ps (snd p))) (combine rs L)))%Q.
Proof.
  intros L ps N D I P. destruct (accuracy_value L ps N) as (a & Ea & Ha). exists a, (map (fun c => qofn (pair_count ps c c) / qofn (actual_count ps c))%Q L).
  split; [exact Ea|]. split.
  { rewrite recall_classified, map_map. apply map_ext_in. intros c Hc. rewrite Forall_forall in P. specialize (P c Hc). replace (mem_str c (map fst ps)) with true by (symmetry; apply mem_str_in, actual_pos; exact P).
    unfold rec, dofnat, dofZ. fold (qofn (pair_count ps c c)) (qofn (actual_count ps c)). rewrite ddiv_fin by (apply qofn_neq0; exact P). reflexivity. }
  split; [apply map_length|]. rewrite Ha.
  assert (C : correct_count ps = list_sum (map (fun c => pair_count ps c c) L)).
  { rewrite <- (count_by_key fst (fun q => String.eqb (fst q) (snd q)) L ps D I : list_sum _ = correct_count ps). f_equal. apply map_ext. intros c. unfold countb, pair_count. f_equal. apply filter_ext. intros q.
    destruct (String.eqb_spec (fst q) c) as [->|]; cbn [andb]; [apply String.eqb_sym|reflexivity]. }
  rewrite C. clear -P. induction P as [|c L Hc P IH]; [reflexivity|]. cbn [map combine fst snd]. unfold qsum in *. cbn [fold_right fst snd]. rewrite <- IH.
  match goal with |- context [list_sum (?x :: ?y)] => change (list_sum (x :: y)) with (x + list_sum y) end. set (s := list_sum _). assert (E : (qofn (pair_count ps c c + s) == qofn (pair_count ps c c) + qofn s)%Q) by (unfold qofn; rewrite Nat2Z.inj_add, inject_Z_plus; reflexivity). rewrite E. field. apply qofn_neq0. exact Hc.
Qed.
Print Assumptions C140_recall.
Example C140_case : let l := [mkInst "a" [] None; mkInst "b" [] None; mkInst "b" [] None] in
  (exists m, test_model say_a l = Ok (new_detail m) /\ clabels m = ["a"; "b"] /\ cm_entry m "b" "a" = 2) /\
  (exists m, test_model say_a (rev l) = Ok (new_detail m) /\ clabels m = ["b"; "a"] /\ cm_entry m "b" "a" = 2) /\
  NoDup ["a"; "b"] /\ Forall (fun c => 0 < actual_count [("a", "a"); ("b", "a"); ("b", "a")] c) ["a"; "b"].
Proof.
  cbv zeta. split; [eexists; split; [reflexivity|]; split; reflexivity|]. split; [eexists; split; [reflexivity|]; split; reflexivity|].
  split; [repeat constructor; cbn; intuition discriminate|]. repeat constructor.
Qed.
