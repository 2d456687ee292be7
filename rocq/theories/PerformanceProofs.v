(** Lemmas about the performance model. *)
From Coq Require Import String ZArith QArith Qreals Qfield Reals Bool Lia Lra Lqa Permutation Sorting.Sorted Arith List.
From Verif Require Import Base Spec BaseLemmas DblLemmas AttrModel DataSetModel DataSetProofs DataFileProofs InstanceListModel StatModel StatSpec ListProofs CovProofs PerformanceModel PerformanceSpec.
Import ListNotations.
Local Open Scope list_scope.
Local Open Scope nat_scope.

(** * natural numbers as doubles *)
Lemma dadd_nat a b : dadd (dofnat a) (dofnat b) = dofnat (a + b).
Proof.
  unfold dofnat. simpl. f_equal. unfold inject_Z, Qplus. simpl. rewrite !Z.mul_1_r, <- Nat2Z.inj_add. reflexivity.
Qed.
Lemma fold_dadd_nat {A} (f : A -> nat) l n : fold_left (fun r x => dadd r (dofnat (f x))) l (dofnat n) = dofnat (n + list_sum (map f l)).
Proof.
  revert n. induction l as [|x l IH]; intros n; cbn [fold_left map]; [unfold list_sum; cbn [fold_right]; rewrite Nat.add_0_r; reflexivity|]. rewrite dadd_nat, IH. unfold list_sum. cbn [fold_right]. f_equal. lia.
Qed.
Lemma fold_dadd_nat_if {A} (b : A -> bool) (f : A -> nat) l n : (forall x, b x = false -> f x = 0) ->
  fold_left (fun r x => if b x then dadd r (dofnat (f x)) else r) l (dofnat n) = dofnat (n + list_sum (map f l)).
Proof.
  intros H. revert n. induction l as [|x l IH]; intros n; cbn [fold_left map]; [unfold list_sum; cbn [fold_right]; rewrite Nat.add_0_r; reflexivity|].
  destruct (b x) eqn:E.
  - rewrite dadd_nat, IH. unfold list_sum. cbn [fold_right]. f_equal. lia.
  - rewrite IH. unfold list_sum. cbn [fold_right]. rewrite (H x E). reflexivity.
Qed.

(** * the rows of a matrix built by classify *)
Definition rowof (ps : list (string * string)) (a : string) : counter :=
  cofl (map snd (filter (fun q => String.eqb (fst q) a) ps)).
Lemma classified_app L ps q : classified L (ps ++ [q]) = classify (classified L ps) (fst q) (snd q).
Proof. unfold classified. rewrite fold_left_app. reflexivity. Qed.
Lemma classified_labels L ps : clabels (classified L ps) = L.
Proof. induction ps as [|q ps IH] using rev_ind; [reflexivity|]. rewrite classified_app. simpl. exact IH. Qed.
Lemma cofl_app l x : cofl (l ++ [x]) = cput (cofl l) x.
Proof. unfold cofl. rewrite fold_left_app. reflexivity. Qed.
Lemma mem_str_app x l l' : mem_str x (l ++ l') = mem_str x l || mem_str x l'.
Proof. apply existsb_app. Qed.
Lemma rows_sorted L ps : msorted (rows (classified L ps)).
Proof. induction ps as [|q ps IH] using rev_ind; [apply msorted_nil|]. rewrite classified_app. simpl. apply mset_sorted. exact IH. Qed.
Lemma rows_find L ps a : mfind a (rows (classified L ps)) = if mem_str a (map fst ps) then Some (rowof ps a) else None.
Proof.
  induction ps as [|q ps IH] using rev_ind; [reflexivity|]. rewrite classified_app. simpl. rewrite mfind_mset.
  rewrite map_app, mem_str_app. simpl. rewrite orb_false_r. unfold rowof. rewrite filter_app, map_app. simpl.
  destruct (String.eqb_spec (fst q) a) as [E|E].
  - subst a. rewrite String.eqb_refl, orb_true_r. simpl. rewrite cofl_app. do 2 f_equal.
    rewrite IH. destruct (mem_str (fst q) (map fst ps)) eqn:Em; [reflexivity|].
    rewrite filter_none; [reflexivity|]. intros p Hp. apply String.eqb_neq. intros E.
    assert (In (fst q) (map fst ps)) by (rewrite <- E; apply in_map; exact Hp). apply mem_str_in in H. congruence.
  - simpl. rewrite app_nil_r. replace (String.eqb a (fst q)) with false; [rewrite orb_false_r; exact IH|].
    symmetry. apply String.eqb_neq. congruence.
Qed.
Definition akeys (ps : list (string * string)) : list string := mkeys (cofl (map fst ps)).
Lemma mfind_map_keys {V} (f : string -> V) ks a : mfind a (map (fun k => (k, f k)) ks) = if mem_str a ks then Some (f a) else None.
Proof.
  induction ks as [|k ks IH]; simpl; [reflexivity|]. destruct (String.eqb_spec a k) as [->|]; simpl; [reflexivity|exact IH].
Qed.
Lemma rows_classified L ps : rows (classified L ps) = map (fun a => (a, rowof ps a)) (akeys ps).
Proof.
  apply msorted_ext.
  - apply rows_sorted.
  - unfold msorted, mkeys. rewrite map_map, map_id. apply cofl_sorted.
  - intros a. rewrite rows_find, mfind_map_keys.
    assert (E : mem_str a (akeys ps) = mem_str a (map fst ps)) by (apply eq_true_iff_eq; rewrite !mem_str_in; apply in_cofl).
    rewrite E. reflexivity.
Qed.
Lemma countb_filter {A} (f g : A -> bool) l : countb f (filter g l) = countb (fun x => g x && f x) l.
Proof. unfold countb. rewrite filter_filter. reflexivity. Qed.
Lemma rowof_count ps a p : ccount (rowof ps a) p = pair_count ps a p.
Proof. unfold rowof. rewrite ccount_cofl, count_occ_countb, countb_map, countb_filter. reflexivity. Qed.
Lemma rowof_sum ps a : csum (rowof ps a) = actual_count ps a.
Proof. unfold rowof. rewrite csum_cofl, map_length. reflexivity. Qed.
Lemma cm_entry_count L ps a p : cm_entry (classified L ps) a p = pair_count ps a p.
Proof.
  unfold cm_entry. rewrite rows_find. destruct (mem_str a (map fst ps)) eqn:E; [apply rowof_count|].
  unfold pair_count. rewrite filter_none; [reflexivity|]. intros q Hq. apply andb_false_intro1. apply String.eqb_neq. intros Eq.
  assert (In a (map fst ps)) by (rewrite <- Eq; apply in_map; exact Hq). apply mem_str_in in H. congruence.
Qed.
(** counting per key and adding up counts everything once *)
Lemma count_by_key {A} (key : A -> string) (f : A -> bool) keys l : NoDup keys -> (forall x, In x l -> In (key x) keys) ->
  list_sum (map (fun k => countb (fun x => String.eqb (key x) k && f x) l) keys) = countb f l.
Proof.
  intros Hn. induction l as [|x l IH]; intros Hin.
  - clear. induction keys; simpl; auto.
  - rewrite countb_cons. rewrite (map_ext _ (fun k => (if String.eqb (key x) k && f x then 1 else 0) + countb (fun x => String.eqb (key x) k && f x) l)) by (intros; exact (countb_cons _ _ _)).
    assert (HS : forall (ks : list string) (f g : string -> nat), list_sum (map (fun v => f v + g v) ks) = list_sum (map f ks) + list_sum (map g ks)).
    { clear. induction ks; intros; simpl; [reflexivity|]. rewrite IHks; lia. }
    rewrite HS, IH by (intros; apply Hin; right; assumption). f_equal.
    specialize (Hin x (or_introl eq_refl)). clear IH HS. induction Hn as [|k ks Hk Hn IHn]; [destruct Hin|]. simpl.
    destruct (String.eqb_spec (key x) k) as [E|E]; simpl.
    + replace (list_sum _) with 0; [destruct (f x); reflexivity|]. symmetry. clear - Hk E. induction ks as [|k' ks IHk]; simpl; [reflexivity|].
      destruct (String.eqb_spec (key x) k'); simpl; [subst; simpl in Hk; exfalso; apply Hk; left; congruence|]. apply IHk. simpl in Hk; tauto.
    + apply IHn. destruct Hin; [congruence|assumption].
Qed.
Lemma akeys_nodup ps : NoDup (akeys ps).
Proof. apply msorted_nodup, cofl_sorted. Qed.
Lemma akeys_in ps x : In x ps -> In (fst x) (akeys ps).
Proof. intros H. apply in_cofl. apply in_map. exact H. Qed.
Lemma cm_sum_classified L ps : cm_sum (classified L ps) = dofnat (length ps).
Proof.
  unfold cm_sum. rewrite rows_classified. change d0 with (dofnat 0). rewrite (fold_dadd_nat (fun kv => csum (snd kv))). simpl. f_equal.
  rewrite map_map. simpl. rewrite (map_ext _ (fun a => countb (fun q => String.eqb (fst q) a && true) ps)).
  - rewrite (count_by_key fst (fun _ => true)); [|apply akeys_nodup|apply akeys_in]. unfold countb. clear. induction ps; simpl; auto.
  - intros a. rewrite rowof_sum. unfold actual_count, countb. f_equal. apply filter_ext. intros; symmetry; apply andb_true_r.
Qed.
Lemma mmem_ccount c k : mmem k c = false -> ccount c k = 0.
Proof. unfold mmem, ccount. destruct (mfind k c); [discriminate|reflexivity]. Qed.
Lemma cm_trace_classified L ps : cm_trace (classified L ps) = dofnat (correct_count ps).
Proof.
  unfold cm_trace. rewrite rows_classified. change d0 with (dofnat 0).
  rewrite (fold_dadd_nat_if (fun kv => mmem (fst kv) (snd kv)) (fun kv => ccount (snd kv) (fst kv))) by (intros; apply mmem_ccount; assumption).
  simpl. f_equal. rewrite map_map. simpl.
  rewrite (map_ext _ (fun a => countb (fun q => String.eqb (fst q) a && String.eqb (fst q) (snd q)) ps)).
  - rewrite (count_by_key fst (fun q => String.eqb (fst q) (snd q))); [reflexivity|apply akeys_nodup|apply akeys_in].
  - intros a. rewrite rowof_count. unfold pair_count, countb. f_equal. apply filter_ext. intros q.
    destruct (String.eqb_spec (fst q) a) as [->|]; simpl; [apply String.eqb_sym|reflexivity].
Qed.
Lemma cm_column_classified L ps p : cm_column (classified L ps) p = dofnat (predicted_count ps p).
Proof.
  unfold cm_column. rewrite rows_classified. change d0 with (dofnat 0).
  rewrite (fold_dadd_nat_if (fun kv => mmem p (snd kv)) (fun kv => ccount (snd kv) p)) by (intros; apply mmem_ccount; assumption).
  simpl. f_equal. rewrite map_map. simpl.
  rewrite (map_ext _ (fun a => countb (fun q => String.eqb (fst q) a && String.eqb (snd q) p) ps)) by (intros; apply rowof_count).
  apply (count_by_key fst (fun q => String.eqb (snd q) p)); [apply akeys_nodup|apply akeys_in].
Qed.

(** * accuracy *)
Lemma countb_le {A} (f : A -> bool) l : countb f l <= length l.
Proof. unfold countb. induction l; simpl; [lia|]. destruct (f a); simpl; lia. Qed.
Lemma countb_full {A} (f : A -> bool) l : countb f l = length l <-> Forall (fun x => f x = true) l.
Proof.
  induction l as [|x l IH]; [split; [constructor|reflexivity]|]. rewrite countb_cons. simpl. pose proof (countb_le f l).
  split.
  - destruct (f x) eqn:E; [|lia]. intros H'. constructor; [exact E|]. apply IH. lia.
  - intros H'. inversion H'; subst. rewrite H2. simpl. f_equal. apply IH. assumption.
Qed.
Lemma dofnat_fin n : dofnat n = Fin (qofn n). Proof. reflexivity. Qed.
Lemma qofn_neq0 n : 0 < n -> ~ (qofn n == 0)%Q.
Proof. intros H. apply Qnot_eq_sym, Qlt_not_eq, qofn_pos, H. Qed.
Lemma frac_bounds a b : a <= b -> 0 < b -> (0 <= qofn a / qofn b /\ qofn a / qofn b <= 1)%Q.
Proof.
  intros H Hb. pose proof (qofn_pos b Hb). split.
  - apply Qle_shift_div_l; [assumption|]. rewrite Qmult_0_l. apply qofn_nonneg.
  - apply Qle_shift_div_r; [assumption|]. rewrite Qmult_1_l. apply qofn_le. exact H.
Qed.
Lemma accuracy_classified L ps :
  cm_accuracy (classified L ps) = match ps with [] => NaN | _ => Fin (qofn (correct_count ps) / qofn (length ps)) end.
Proof.
  unfold cm_accuracy. rewrite cm_trace_classified, cm_sum_classified. destruct ps as [|q ps]; [reflexivity|].
  rewrite !dofnat_fin. apply ddiv_fin. apply qofn_neq0. simpl; lia.
Qed.

(** * merging *)
Lemma cadd_cpos c d : cpos c -> cpos d -> cpos (cadd c d).
Proof.
  intros Hc Hd. unfold cadd. revert c Hc. induction Hd as [|[k n] d Hn Hd IH]; intros c Hc; simpl; [exact Hc|].
  apply IH. unfold cputn. apply cpos_mset; [simpl in Hn; lia|exact Hc].
Qed.
Lemma mfind_ccount c k : cpos c -> mfind k c = if ccount c k =? 0 then None else Some (ccount c k).
Proof.
  intros H. unfold ccount. destruct (mfind k c) as [n|] eqn:E; [|reflexivity]. apply mfind_in in E.
  unfold cpos in H. rewrite Forall_forall in H. specialize (H _ E). simpl in H. destruct n; [lia|reflexivity].
Qed.
Lemma counter_ext c d : msorted c -> msorted d -> cpos c -> cpos d -> (forall k, ccount c k = ccount d k) -> c = d.
Proof. intros. apply msorted_ext; auto. intros k. rewrite !mfind_ccount by assumption. rewrite H3. reflexivity. Qed.
Lemma cofl_cpos l : cpos (cofl l).
Proof. apply cpos_fold_cput. constructor. Qed.
Lemma cadd_cofl l l' : cadd (cofl l) (cofl l') = cofl (l ++ l').
Proof.
  apply counter_ext; [apply cadd_sorted, cofl_sorted|apply cofl_sorted|apply cadd_cpos; apply cofl_cpos|apply cofl_cpos|].
  intros k. rewrite ccount_cadd by (apply msorted_nodup, cofl_sorted). rewrite !ccount_cofl, count_occ_app. reflexivity.
Qed.
Definition merge_row (acc : smap counter) (kv : string * counter) : smap counter :=
  match mfind (fst kv) acc with Some cur => mset (fst kv) (cadd cur (snd kv)) acc | None => memplace (fst kv) (snd kv) acc end.
Lemma merge_rows_find m' acc a : NoDup (mkeys m') ->
  mfind a (fold_left merge_row m' acc) =
  match mfind a acc, mfind a m' with Some c, Some d => Some (cadd c d) | Some c, None => Some c | None, o => o end.
Proof.
  revert acc. induction m' as [|[k d] m' IH]; intros acc Hn; simpl.
  - destruct (mfind a acc); reflexivity.
  - inversion Hn as [|? ? Hk Hn']; subst. rewrite IH by exact Hn'. unfold merge_row. simpl.
    assert (Hnone : a = k -> mfind a m' = None) by (intros ->; apply mfind_none; exact Hk).
    destruct (String.eqb_spec a k) as [E|E].
    + rewrite (Hnone E). subst a. destruct (mfind k acc) as [c|] eqn:Ec.
      * rewrite mfind_mset_same. reflexivity.
      * rewrite mfind_memplace, Ec, String.eqb_refl. reflexivity.
    + destruct (mfind k acc) as [c|] eqn:Ec.
      * rewrite mfind_mset_other by congruence. reflexivity.
      * rewrite mfind_memplace. destruct (mfind a acc) eqn:Ea; [reflexivity|].
        replace (String.eqb k a) with false by (symmetry; apply String.eqb_neq; congruence). reflexivity.
Qed.
Lemma merge_rows_sorted m' acc : msorted acc -> msorted (fold_left merge_row m' acc).
Proof.
  revert acc. induction m' as [|kv m' IH]; intros acc H; simpl; [exact H|]. apply IH. unfold merge_row.
  destruct (mfind (fst kv) acc); [apply mset_sorted|apply memplace_sorted]; exact H.
Qed.
Lemma rows_add L L' ps qs : rows (cm_add (classified L ps) (classified L' qs)) = rows (classified L (ps ++ qs)).
Proof.
  apply msorted_ext; [apply merge_rows_sorted, rows_sorted|apply rows_sorted|]. intros a.
  change (rows (cm_add (classified L ps) (classified L' qs))) with (fold_left merge_row (rows (classified L' qs)) (rows (classified L ps))).
  rewrite merge_rows_find by (apply msorted_nodup, rows_sorted). rewrite !rows_find.
  rewrite map_app, mem_str_app. unfold rowof. rewrite filter_app, map_app, <- cadd_cofl.
  assert (HN : forall rs, mem_str a (map fst rs) = false -> filter (fun q : string * string => String.eqb (fst q) a) rs = []).
  { intros rs H. apply filter_none. intros q Hq. apply String.eqb_neq. intros E.
    assert (Hi : In a (map fst rs)) by (rewrite <- E; apply in_map; exact Hq). apply mem_str_in in Hi. congruence. }
  destruct (mem_str a (map fst ps)) eqn:E1, (mem_str a (map fst qs)) eqn:E2; simpl; auto.
  - rewrite (HN _ E2). reflexivity.
  - rewrite (HN _ E1). simpl. f_equal. rewrite cadd_cofl. reflexivity.
Qed.
Lemma cm_add_classified L L' ps qs : cm_add (classified L ps) (classified L' qs) = classified L (ps ++ qs).
Proof.
  pose proof (rows_add L L' ps qs) as H. assert (HL : clabels (classified L (ps ++ qs)) = clabels (cm_add (classified L ps) (classified L' qs))) by (simpl; rewrite !classified_labels; reflexivity).
  destruct (cm_add (classified L ps) (classified L' qs)), (classified L (ps ++ qs)). simpl in *. congruence.
Qed.
Lemma classified_perm L ps qs : Permutation ps qs -> classified L ps = classified L qs.
Proof.
  intros H. assert (HR : rows (classified L ps) = rows (classified L qs)).
  { rewrite !rows_classified. unfold akeys. rewrite (cofl_perm _ _ (Permutation_map fst H)). apply map_ext. intros a. f_equal. unfold rowof.
    apply cofl_perm. apply Permutation_map. clear -H. induction H; simpl; auto.
    - destruct (String.eqb (fst x) a); [constructor|]; assumption.
    - destruct (String.eqb (fst y) a), (String.eqb (fst x) a); try reflexivity. apply perm_swap.
    - etransitivity; eassumption. }
  pose proof (classified_labels L ps). pose proof (classified_labels L qs).
  destruct (classified L ps), (classified L qs). simpl in *. congruence.
Qed.

(** * precision, recall, F *)
Lemma pair_le_actual ps a p : pair_count ps a p <= actual_count ps a.
Proof. unfold pair_count, actual_count. induction ps as [|q ps IH]; simpl; [lia|]. destruct (String.eqb (fst q) a), (String.eqb (snd q) p); simpl; lia. Qed.
Lemma pair_le_predicted ps a p : pair_count ps a p <= predicted_count ps p.
Proof. unfold pair_count, predicted_count. induction ps as [|q ps IH]; simpl; [lia|]. destruct (String.eqb (fst q) a), (String.eqb (snd q) p); simpl; lia. Qed.
Lemma actual_pos ps a : In a (map fst ps) <-> 0 < actual_count ps a.
Proof.
  unfold actual_count. induction ps as [|q ps IH]; simpl; [split; [tauto|lia]|]. destruct (String.eqb_spec (fst q) a) as [E|E]; simpl; split; try lia; auto.
  - intros [H|H]; [congruence|]. apply IH; exact H.
  - intros H. right. apply IH; exact H.
Qed.
Definition prec (ps : list (string * string)) (c : string) : dbl := ddiv (dofnat (pair_count ps c c)) (dofnat (predicted_count ps c)).
Definition rec (ps : list (string * string)) (c : string) : dbl := ddiv (dofnat (pair_count ps c c)) (dofnat (actual_count ps c)).
Definition fm (ps : list (string * string)) (c : string) : dbl := ddiv (Fin 2) (dadd (ddiv d1 (prec ps c)) (ddiv d1 (rec ps c))).
Lemma precision_classified L ps :
  cm_precision (classified L ps) = map (fun c => if mem_str c (map fst ps) then Some (prec ps c) else None) L.
Proof.
  unfold cm_precision. rewrite classified_labels. apply map_ext. intros c. rewrite rows_find.
  destruct (mem_str c (map fst ps)); [|reflexivity]. rewrite rowof_count, cm_column_classified. reflexivity.
Qed.
Lemma recall_classified L ps :
  cm_recall (classified L ps) = map (fun c => if mem_str c (map fst ps) then Some (rec ps c) else None) L.
Proof.
  unfold cm_recall. rewrite classified_labels. apply map_ext. intros c. rewrite rows_find.
  destruct (mem_str c (map fst ps)); [|reflexivity]. rewrite rowof_count, rowof_sum. reflexivity.
Qed.
Lemma combine_map_map {A B C} (f : A -> B) (g : A -> C) l : combine (map f l) (map g l) = map (fun x => (f x, g x)) l.
Proof. induction l; simpl; congruence. Qed.
Lemma mapM_map {A B C} (f : B -> res C) (g : A -> B) l : mapM f (map g l) = mapM (fun x => f (g x)) l.
Proof. induction l; simpl; [reflexivity|]. rewrite IHl. reflexivity. Qed.
Lemma fmeasure_classified L ps : Forall (fun c => In c (map fst ps)) L -> cm_fmeasure (classified L ps) = Ok (map (fm ps) L).
Proof.
  intros H. unfold cm_fmeasure. rewrite precision_classified, recall_classified, combine_map_map, mapM_map.
  apply mapM_total. intros c Hc. rewrite Forall_forall in H. specialize (H c Hc). apply mem_str_in in H. simpl. rewrite H. reflexivity.
Qed.
Lemma mapM_fail {A B} (f : A -> res B) u l : (forall x, In x l -> succeeds (f x) \/ f x = UB u) -> Exists (fun x => f x = UB u) l -> mapM f l = UB u.
Proof.
  induction l as [|x l IH]; intros H HE; [inversion HE|]. simpl. destruct (H x (or_introl eq_refl)) as [[y Hy]|Hx].
  - rewrite Hy. simpl. inversion HE; subst; [congruence|]. rewrite IH; auto. intros; apply H; right; assumption.
  - rewrite Hx. reflexivity.
Qed.
Lemma fmeasure_uninit L ps : Exists (fun c => ~ In c (map fst ps)) L -> cm_fmeasure (classified L ps) = UB Uninit.
Proof.
  intros H. unfold cm_fmeasure. rewrite precision_classified, recall_classified, combine_map_map, mapM_map. apply mapM_fail.
  - intros c _. simpl. destruct (mem_str c (map fst ps)); [left|right]; simpl; [eexists; reflexivity|reflexivity].
  - apply Exists_exists in H. destruct H as (c & Hc & Hn). apply Exists_exists. exists c. split; [exact Hc|]. simpl.
    destruct (mem_str c (map fst ps)) eqn:E; [apply mem_str_in in E; contradiction|reflexivity].
Qed.
Lemma prec_fin ps c : 0 < predicted_count ps c -> prec ps c = Fin (qofn (pair_count ps c c) / qofn (predicted_count ps c)).
Proof. intros H. unfold prec. rewrite !dofnat_fin. apply ddiv_fin. apply qofn_neq0; exact H. Qed.
Lemma rec_fin ps c : 0 < actual_count ps c -> rec ps c = Fin (qofn (pair_count ps c c) / qofn (actual_count ps c)).
Proof. intros H. unfold rec. rewrite !dofnat_fin. apply ddiv_fin. apply qofn_neq0; exact H. Qed.
Lemma prec_nan ps c : predicted_count ps c = 0 -> prec ps c = NaN.
Proof. intros H. unfold prec. pose proof (pair_le_predicted ps c c). rewrite H. replace (pair_count ps c c) with 0 by lia. reflexivity. Qed.
Lemma fm_nan ps c : predicted_count ps c = 0 -> fm ps c = NaN.
Proof. intros H. unfold fm. rewrite prec_nan by exact H. reflexivity. Qed.
Lemma fm_zero ps c : 0 < predicted_count ps c -> 0 < actual_count ps c -> pair_count ps c c = 0 -> fm ps c = Fin 0.
Proof.
  intros Hp Ha H0. unfold fm. rewrite prec_fin, rec_fin by assumption. rewrite H0.
  assert (E : forall n, 0 < n -> ddiv d1 (Fin (qofn 0 / qofn n)) = PInf).
  { intros n Hn. unfold d1. apply ddiv_pos0; [reflexivity|]. unfold Qdiv. setoid_replace (qofn 0) with 0%Q by apply qofn_0. ring. }
  rewrite !E by assumption. reflexivity.
Qed.
(** 2TP / (actual + predicted) *)
Lemma fm_fin ps c : 0 < pair_count ps c c ->
  exists f, fm ps c = Fin f /\ (f == (2 * qofn (pair_count ps c c)) / (qofn (actual_count ps c) + qofn (predicted_count ps c)))%Q.
Proof.
  intros H. pose proof (pair_le_actual ps c c). pose proof (pair_le_predicted ps c c). unfold fm. rewrite prec_fin, rec_fin by lia.
  set (t := qofn (pair_count ps c c)). set (a := qofn (actual_count ps c)). set (p := qofn (predicted_count ps c)).
  assert (Ht : (0 < t)%Q) by (apply qofn_pos; lia). assert (Ha : (0 < a)%Q) by (apply qofn_pos; lia). assert (Hp : (0 < p)%Q) by (apply qofn_pos; lia).
  assert (Htn : ~ (t == 0)%Q) by (apply Qnot_eq_sym, Qlt_not_eq; exact Ht).
  assert (Hpn : ~ (p == 0)%Q) by (apply Qnot_eq_sym, Qlt_not_eq; exact Hp).
  assert (Han : ~ (a == 0)%Q) by (apply Qnot_eq_sym, Qlt_not_eq; exact Ha).
  assert (D : forall b, (0 < b)%Q -> ~ (t / b == 0)%Q).
  { intros b Hb. apply Qnot_eq_sym, Qlt_not_eq. apply Qlt_shift_div_l; [exact Hb|]. rewrite Qmult_0_l. exact Ht. }
  unfold d1. rewrite !ddiv_fin by (apply D; assumption). simpl dadd.
  assert (E : (1 / (t / p) + 1 / (t / a) == (a + p) / t)%Q) by (field; repeat split; assumption).
  assert (Hsum : (0 < (a + p) / t)%Q) by (apply Qlt_shift_div_l; [exact Ht|lra]).
  rewrite ddiv_fin by (rewrite E; apply Qnot_eq_sym, Qlt_not_eq; exact Hsum).
  eexists; split; [reflexivity|]. rewrite E. field. split; [apply Qnot_eq_sym, Qlt_not_eq; lra|exact Htn].
Qed.

(** * weighted F *)
Definition fq (ps : list (string * string)) (c : string) : Q :=
  if pair_count ps c c =? 0 then 0%Q else ((2 * qofn (pair_count ps c c)) / (qofn (actual_count ps c) + qofn (predicted_count ps c)))%Q.
Lemma fm_fq ps c : 0 < predicted_count ps c -> 0 < actual_count ps c -> exists f, fm ps c = Fin f /\ (f == fq ps c)%Q.
Proof.
  intros Hp Ha. unfold fq. destruct (Nat.eqb_spec (pair_count ps c c) 0) as [E|E].
  - exists 0%Q. split; [apply fm_zero; assumption|reflexivity].
  - apply fm_fin. lia.
Qed.
Lemma fq_bounds ps c : (0 <= fq ps c <= 1)%Q.
Proof.
  unfold fq. destruct (Nat.eqb_spec (pair_count ps c c) 0) as [E|E]; [lra|].
  pose proof (pair_le_actual ps c c) as H1. pose proof (pair_le_predicted ps c c) as H2.
  apply qofn_le in H1, H2. assert (H0 : (0 < qofn (pair_count ps c c))%Q) by (apply qofn_pos; lia). split.
  - apply Qle_shift_div_l; lra.
  - apply Qle_shift_div_r; lra.
Qed.
Lemma weighted_fold L0 L ps s0 : Forall (fun c => In c (map fst ps) /\ 0 < predicted_count ps c) L ->
  exists s, foldM (fun s cf => match mfind (fst cf) (rows (classified L0 ps)) with
                             | Some r => Ok (dadd s (dmul (snd cf) (dofnat (csum r)))) | None => UB EndDeref end)
                  (combine L (map (fm ps) L)) (Fin s0) = Ok (Fin s) /\
    (s == s0 + qsum (map (fun c => fq ps c * qofn (actual_count ps c)) L))%Q.
Proof.
  intros H. revert s0.
  induction H as [|c L [Hc Hp] H IH]; intros s0.
  - exists s0. split; [reflexivity|]. simpl. ring.
  - cbn [map combine foldM fst snd]. rewrite rows_find. rewrite (proj2 (mem_str_in _ _) Hc).
    apply actual_pos in Hc. destruct (fm_fq ps c Hp Hc) as (f & Ef & Hf). rewrite Ef, rowof_sum, dofnat_fin. cbn [dmul dadd bind].
    destruct (IH (s0 + f * qofn (actual_count ps c))%Q) as (s & Es & Hs). exists s. split; [exact Es|]. rewrite Hs, Hf. simpl. ring.
Qed.
Lemma weighted_classified L ps : ps <> [] -> Forall (fun c => In c (map fst ps) /\ 0 < predicted_count ps c) L ->
  exists w, cm_weighted (classified L ps) = Ok (Fin w) /\
    (w * qofn (length ps) == qsum (map (fun c => fq ps c * qofn (actual_count ps c)) L))%Q.
Proof.
  intros Hne H. unfold cm_weighted. rewrite fmeasure_classified by (eapply Forall_impl; [|exact H]; intros c [Hc _]; exact Hc). cbn [bind].
  rewrite classified_labels. destruct (weighted_fold L L ps 0 H) as (s & E & Hs). unfold d0. rewrite E. cbn [bind].
  rewrite cm_sum_classified, dofnat_fin. assert (0 < length ps) by (destruct ps; [congruence|simpl; lia]).
  rewrite ddiv_fin by (apply qofn_neq0; assumption). eexists; split; [reflexivity|]. rewrite Hs. field. apply qofn_neq0; assumption.
Qed.
Lemma actual_sum L ps : NoDup L -> (qsum (map (fun c => qofn (actual_count ps c)) L) <= qofn (length ps))%Q.
Proof.
  intros HN. assert (HQ : forall (ks : list string) (f : string -> nat), (qsum (map (fun k => qofn (f k)) ks) == qofn (list_sum (map f ks)))%Q).
  { induction ks; intros; simpl; [symmetry; apply qofn_0|]. rewrite IHks, qofn_plus. reflexivity. }
  rewrite HQ. apply qofn_le. clear HQ.
  induction HN as [|c L Hc HN IH] in ps |- *; simpl; [lia|].
  assert (HS : actual_count ps c + list_sum (map (actual_count (filter (fun q => negb (String.eqb (fst q) c)) ps)) L) <= length ps).
  { specialize (IH (filter (fun q => negb (String.eqb (fst q) c)) ps)). unfold actual_count at 1.
    assert (HL : forall (f : string * string -> bool) l, length (filter f l) + length (filter (fun q => negb (f q)) l) = length l).
    { clear. induction l as [|x l IHl]; simpl; [reflexivity|]. destruct (f x); simpl; lia. }
    pose proof (HL (fun q => String.eqb (fst q) c) ps). lia. }
  replace (map (actual_count ps) L) with (map (actual_count (filter (fun q => negb (String.eqb (fst q) c)) ps)) L); [exact HS|].
  apply map_ext_in. intros d Hd. unfold actual_count. rewrite filter_filter. f_equal. apply filter_ext. intros q.
  destruct (String.eqb_spec (fst q) d) as [->|]; simpl; [|apply andb_false_r]. rewrite andb_true_r.
  apply negb_true_iff. apply String.eqb_neq. intros ->. contradiction.
Qed.

(** * experiments *)
Definition classification_only (e : experiment) (accs errs : list Q) : Prop :=
  Forall2 (fun p a => accuracy_of p = Ok (Fin a)) (results e) accs /\
  Forall2 (fun p q => error_rate p = Fin q) (results e) errs.
Lemma exp_mean_fin e errs : results e <> [] -> Forall2 (fun p q => error_rate p = Fin q) (results e) errs ->
  exists m, exp_mean e = Fin m /\ (m == qmean errs)%Q.
Proof.
  intros Hne H. unfold exp_mean. assert (HF : forall s0, exists s, fold_left (fun s p => dadd s (error_rate p)) (results e) (Fin s0) = Fin s /\ (s == s0 + qsum errs)%Q).
  { induction H as [|p q ps qs Hp H IH]; intros s0; simpl.
    - exists s0. split; [reflexivity|]. simpl; ring.
    - rewrite Hp. simpl. destruct ps as [|p' ps'].
      + inversion H; subst. eexists; split; [reflexivity|]. simpl. ring.
      + destruct IH with (s0 := (s0 + q)%Q) as (s & E & Hs); [discriminate|]. exists s. split; [exact E|]. rewrite Hs. simpl. ring. }
  destruct (HF 0%Q) as (s & E & Hs). unfold d0. rewrite E, dofnat_fin. assert (0 < length (results e)) by (destruct (results e); [congruence|simpl; lia]).
  rewrite ddiv_fin by (apply qofn_neq0; assumption). eexists; split; [reflexivity|]. unfold qmean. rewrite Hs, (Forall2_len _ _ _ H), Qplus_0_l. reflexivity.
Qed.
Lemma exp_mean_class_fin e accs : results e <> [] -> class_flag e = true -> Forall2 (fun p a => accuracy_of p = Ok (Fin a)) (results e) accs ->
  exists m, exp_mean_class e = Ok (Some (PClass (Fin m) (Fin (1 - m)))) /\ (m == qmean accs)%Q.
Proof.
  intros Hne Hc H. unfold exp_mean_class. rewrite Hc. destruct (results e) as [|p0 ps0] eqn:Er; [congruence|]. rewrite <- Er in *. clear Er.
  assert (HF : forall s0, exists s, foldM (fun s p => do a <- accuracy_of p; Ok (dadd s a)) (results e) (Fin s0) = Ok (Fin s) /\ (s == s0 + qsum accs)%Q).
  { clear Hne. induction H as [|p q ps qs Hp H IH]; intros s0; simpl.
    - exists s0. split; [reflexivity|]. ring.
    - rewrite Hp. simpl. destruct (IH (s0 + q)%Q) as (s & E & Hs). exists s. split; [exact E|]. rewrite Hs. ring. }
  destruct (HF 0%Q) as (s & E & Hs). unfold d0. rewrite E. cbn [bind orb negb]. rewrite dofnat_fin. assert (0 < length (results e)) by (destruct (results e); [congruence|simpl; lia]).
  rewrite ddiv_fin by (apply qofn_neq0; assumption). eexists; split; [reflexivity|]. unfold qmean. rewrite Hs, (Forall2_len _ _ _ H), Qplus_0_l. reflexivity.
Qed.
Lemma dev_fold {A} (f : A -> dbl) l qs m s0 : Forall2 (fun p q => f p = Fin q) l qs ->
  exists s, fold_left (fun s p => dadd s (dpow2 (dsub (f p) (Fin m)))) l (Fin s0) = Fin s /\ (s == s0 + qsum (map (fun q => (q - m) * (q - m)) qs))%Q.
Proof.
  intros H. revert s0. induction H as [|p q l qs Hp H IH]; intros s0; simpl.
  - exists s0. split; [reflexivity|]. ring.
  - rewrite Hp. simpl. destruct (IH (s0 + (q + - m) * (q + - m))%Q) as (s & E & Hs). exists s. split; [exact E|]. rewrite Hs. ring.
Qed.
Lemma sqdev_with m qs : (m == qmean qs)%Q -> (qsum (map (fun q => (q - m) * (q - m)) qs) == sqdev qs)%Q.
Proof. intros H. unfold sqdev. apply qsum_ext. intros q _. rewrite H. reflexivity. Qed.
Lemma rsqrt_dev s qs n : (s == sqdev qs)%Q -> 2 <= n ->
  rsqrt (ddiv (Fin s) (size_minus_1 n)) = RFin (sqrt (Q2R (sqdev qs / qofn (n - 1)))).
Proof.
  intros Hs Hn. unfold size_minus_1. destruct (Nat.eqb_spec n 0); [lia|]. rewrite dofnat_fin. pose proof (qofn_pred_pos _ Hn) as HP.
  rewrite ddiv_fin by (apply Qnot_eq_sym, Qlt_not_eq; exact HP). rewrite rsqrt_fin.
  - do 2 f_equal. apply Qeq_eqR. rewrite Hs. reflexivity.
  - rewrite Hs. apply Qle_shift_div_l; [exact HP|]. rewrite Qmult_0_l. apply sqdev_nonneg.
Qed.
Lemma exp_std_fin e errs : 2 <= length (results e) -> Forall2 (fun p q => error_rate p = Fin q) (results e) errs ->
  exp_std e = RFin (sqrt (Q2R (sqdev errs / qofn (length errs - 1)))).
Proof.
  intros HL H. destruct (exp_mean_fin e errs) as (m & Em & Hm); [intros E; rewrite E in HL; simpl in HL; lia|exact H|].
  unfold exp_std. rewrite Em. destruct (dev_fold error_rate _ _ m 0 H) as (s & E & Hs). unfold d0. rewrite E.
  rewrite <- (Forall2_len _ _ _ H). apply rsqrt_dev; [|exact HL]. rewrite Hs, Qplus_0_l. apply sqdev_with. exact Hm.
Qed.
Lemma exp_std_class_fin e accs errs : 2 <= length (results e) -> class_flag e = true -> classification_only e accs errs ->
  (qmean errs == 1 - qmean accs)%Q ->
  exp_std_class e = Ok (Some (RFin (sqrt (Q2R (sqdev accs / qofn (length accs - 1)))), RFin (sqrt (Q2R (sqdev errs / qofn (length errs - 1)))))).
Proof.
  intros HL Hc [Ha He] HM. destruct (exp_mean_class_fin e accs) as (m & Em & Hm); [intros E; rewrite E in HL; simpl in HL; lia|exact Hc|exact Ha|].
  unfold exp_std_class. rewrite Em. cbn [bind accuracy_of error_rate].
  assert (HF : forall l as_ es s1 s2, Forall2 (fun p a => accuracy_of p = Ok (Fin a)) l as_ -> Forall2 (fun p q => error_rate p = Fin q) l es ->
    exists t1 t2, foldM (fun s p => do a <- accuracy_of p; Ok (dadd (fst s) (dpow2 (dsub a (Fin m))), dadd (snd s) (dpow2 (dsub (error_rate p) (Fin (1 - m)))))) l (Fin s1, Fin s2) = Ok (Fin t1, Fin t2) /\
      (t1 == s1 + qsum (map (fun q => (q - m) * (q - m)) as_))%Q /\ (t2 == s2 + qsum (map (fun q => (q - (1 - m)) * (q - (1 - m))) es))%Q).
  { clear. induction l as [|p l IH]; intros as_ es s1 s2 H1 H2; inversion H1; inversion H2; subst; cbn [foldM map].
    - exists s1, s2. split; [reflexivity|]. simpl. split; ring.
    - rewrite H3. cbn [bind fst snd]. rewrite H8. simpl dsub. simpl dpow2. unfold dpow2. simpl dmul. simpl dadd.
      match goal with |- context [foldM _ l (Fin ?u, Fin ?v)] => destruct (IH l' l'0 u v) as (t1 & t2 & E & E1 & E2); [assumption|assumption|] end.
      exists t1, t2. split; [exact E|]. rewrite E1, E2. simpl. split; ring. }
  destruct (HF _ _ _ 0%Q 0%Q Ha He) as (t1 & t2 & E & E1 & E2). unfold d0. rewrite E. cbn [bind fst snd].
  pose proof (Forall2_len _ _ _ Ha) as La. pose proof (Forall2_len _ _ _ He) as Le. rewrite <- La, <- Le.
  rewrite (rsqrt_dev t1 accs), (rsqrt_dev t2 errs); auto.
  - rewrite E2, Qplus_0_l. apply sqdev_with. rewrite HM, Hm. reflexivity.
  - rewrite E1, Qplus_0_l. apply sqdev_with. exact Hm.
Qed.

(** * order of addition *)
Lemma dadd_swap s a b : deq (dadd (dadd s a) b) (dadd (dadd s b) a).
Proof. destruct s, a, b; simpl; auto. ring. Qed.
Lemma fold_dadd_proper {A} (f : A -> dbl) l s s' : deq s s' ->
  deq (fold_left (fun r x => dadd r (f x)) l s) (fold_left (fun r x => dadd r (f x)) l s').
Proof. revert s s'. induction l as [|x l IH]; intros s s' H; simpl; [exact H|]. apply IH. rewrite H. reflexivity. Qed.
Lemma fold_dadd_perm {A} (f : A -> dbl) l l' s : Permutation l l' ->
  deq (fold_left (fun r x => dadd r (f x)) l s) (fold_left (fun r x => dadd r (f x)) l' s).
Proof.
  intros H. revert s. induction H; intros s; simpl.
  - reflexivity.
  - apply IHPermutation.
  - apply fold_dadd_proper. apply dadd_swap.
  - etransitivity; [apply IHPermutation1|apply IHPermutation2].
Qed.
Lemma exp_of_results ps : results (exp_of ps) = ps.
Proof. induction ps as [|p ps IH] using rev_ind; [reflexivity|]. unfold exp_of. rewrite fold_left_app. simpl. f_equal. exact IH. Qed.
Lemma exp_of_flag ps p : class_flag (exp_of (ps ++ [p])) = is_classification p.
Proof. unfold exp_of. rewrite fold_left_app. reflexivity. Qed.
Lemma exp_of_detail ps p : details_flag (exp_of (ps ++ [p])) = has_details p.
Proof. unfold exp_of. rewrite fold_left_app. reflexivity. Qed.
Lemma exp_of_class ps : Forall (fun p => is_classification p = true) ps -> class_flag (exp_of ps) = true.
Proof.
  intros H. destruct ps as [|q ps] using rev_ind; [reflexivity|]. rewrite exp_of_flag. apply Forall_app in H. destruct H as [_ H].
  inversion H; assumption.
Qed.
(** mean accuracy of classification results *)
Lemma exp_mean_class_ok ps : ps <> [] -> Forall (fun p => is_classification p = true) ps ->
  exists accs, Forall2 (fun p a => accuracy_of p = Ok a) ps accs /\
    exp_mean_class (exp_of ps) = Ok (Some (new_class (ddiv (dsum accs) (dofnat (length ps))))).
Proof.
  intros Hne H. assert (HA : exists accs, Forall2 (fun p a => accuracy_of p = Ok a) ps accs).
  { clear Hne. induction H as [|p ps Hp H [accs IH]]; [exists []; constructor|].
    destruct p; try discriminate; eexists (_ :: accs); constructor; try reflexivity; exact IH. }
  destruct HA as [accs HA]. exists accs. split; [exact HA|]. unfold exp_mean_class. rewrite exp_of_results, exp_of_class by exact H.
  destruct ps as [|p0 ps0] eqn:E; [congruence|]. rewrite <- E in *. cbn [orb negb].
  assert (HF : forall l as_ s, Forall2 (fun p a => accuracy_of p = Ok a) l as_ ->
    foldM (fun s p => do a <- accuracy_of p; Ok (dadd s a)) l s = Ok (fold_left dadd as_ s)).
  { clear. intros l as_ s H. revert s. induction H as [|p a l as_ Hp H IH]; intros s; [reflexivity|]. cbn [foldM fold_left]. rewrite Hp. cbn [bind]. apply IH. }
  rewrite (HF _ _ _ HA). reflexivity.
Qed.
Lemma exp_mean_class_bad ps p q qs : is_classification p = true -> is_classification q = false ->
  exp_mean_class (exp_of (ps ++ q :: qs ++ [p])) = UB BadCast.
Proof.
  intros Hp Hq. unfold exp_mean_class. rewrite exp_of_results.
  replace (ps ++ q :: qs ++ [p]) with ((ps ++ q :: qs) ++ [p]) by (rewrite <- app_assoc; reflexivity).
  rewrite exp_of_flag, Hp. rewrite <- app_assoc. destruct q; try discriminate.
  assert (HF : forall l s, foldM (fun s p => do a <- accuracy_of p; Ok (dadd s a)) (l ++ (PError err :: qs) ++ [p]) s = UB BadCast).
  { clear. induction l as [|x l IH]; intros s; [reflexivity|]. cbn [foldM app]. destruct x; [reflexivity|apply IH|apply IH]. }
  destruct ps; cbn [app]; [reflexivity|]. cbn [orb negb]. change (p0 :: ps ++ PError err :: qs ++ [p]) with ((p0 :: ps) ++ (PError err :: qs) ++ [p]).
  rewrite HF. reflexivity.
Qed.

(** * the order on doubles *)
Lemma dltb_irrefl a : dltb a a = false.
Proof. destruct a; simpl; auto. apply negb_false_iff, Qle_bool_iff. apply Qle_refl. Qed.
Lemma dltb_trans a b c : dltb a b = true -> dltb b c = true -> dltb a c = true.
Proof.
  destruct a, b, c; simpl; auto; try discriminate. intros H1 H2. apply negb_true_iff in H1, H2. apply negb_true_iff.
  apply not_true_iff_false in H1, H2. apply not_true_iff_false. rewrite Qle_bool_iff in *. lra.
Qed.
Lemma dltb_neg_trans a b c : is_nan a = false -> is_nan b = false -> is_nan c = false -> dltb a b = false -> dltb b c = false -> dltb a c = false.
Proof.
  destruct a, b, c; simpl; auto; try discriminate. intros _ _ _ H1 H2. apply negb_false_iff in H1, H2. apply negb_false_iff.
  rewrite Qle_bool_iff in *. lra.
Qed.

(** * testing *)
Lemma test_fold predict f test m : Forall (fun x => predict x = Ok (f x)) test ->
  foldM (fun m x => do p <- predict x; Ok (classify m (label x) p)) test m =
  Ok (fold_left (fun m q => classify m (fst q) (snd q)) (map (fun x => (label x, f x)) test) m).
Proof. intros H. revert m. induction H as [|x test Hx H IH]; intros m; [reflexivity|]. cbn [foldM map fold_left]. rewrite Hx. cbn [bind]. apply IH. Qed.
Lemma classifier_fold predict f l k : Forall (fun x => predict x = Ok (f x)) l ->
  foldM (fun k x => do p <- predict x; Ok (if String.eqb (label x) p then S k else k)) l k =
  Ok (k + correct_count (map (fun x => (label x, f x)) l)).
Proof.
  intros H. revert k. induction H as [|x l Hx H IH]; intros k; [simpl; rewrite Nat.add_0_r; reflexivity|].
  cbn [foldM]. rewrite Hx. cbn [bind]. rewrite IH. unfold correct_count. simpl. destruct (String.eqb (label x) (f x)); simpl; f_equal; lia.
Qed.

(** * experiments from files *)
Lemma join_split ls : ls <> [] -> Forall one_line ls -> DataSetModel.split_lines (join_lines ls) = ls.
Proof.
  intros Hne H.
  assert (H1 : forall s, one_line s -> DataSetModel.has_char DataSetModel.nl s = false).
  { induction s as [|c s IH]; intros Hs; [reflexivity|]. cbn [DataSetModel.has_char]. apply orb_false_iff. split.
    - apply Ascii.eqb_neq. intros ->. exact (Hs 0 eq_refl).
    - apply IH. intros i. exact (Hs (S i)). }
  assert (H2 : forall s, DataSetModel.has_char DataSetModel.nl s = false -> DataSetModel.split_lines s = [s]).
  { induction s as [|c s IH]; intros Hs; [reflexivity|]. cbn [DataSetModel.has_char] in Hs. apply orb_false_iff in Hs. destruct Hs as [Hc Hs].
    cbn [DataSetModel.split_lines]. rewrite Hc, (IH Hs). reflexivity. }
  induction H as [|s ls Hs H IH]; [congruence|]. destruct ls as [|s' ls']; [apply H2, H1, Hs|].
  cbn [join_lines]. change (Ascii.ascii_of_nat 10) with DataSetModel.nl. rewrite DataFileProofs.split_lines_line by (apply H1, Hs).
  f_equal. apply IH. discriminate.
Qed.
