(** Lemmas about the instance list model. *)
From Coq Require Import String ZArith QArith Qfield Bool Lia Lqa Sorting.Sorted Permutation Arith List.
From Verif Require Import Base Spec BaseLemmas DblLemmas SortLemmas AttrModel AttrProofs DataSetProofs InstanceListModel ListSpec.
Import ListNotations.
Local Open Scope list_scope.
Local Open Scope nat_scope.

(** * reading features *)
Lemma get_attr_ok x k a : get_attr x k = Ok a <-> feature x k a.
Proof. unfold get_attr, feature. apply at_ok. Qed.
Lemma cont_at_ok k x v : cont_at k x = Ok v <-> numeric k x v.
Proof.
  unfold cont_at, numeric. rewrite bind_ok. split.
  - intros (a & Ha & Hv). destruct a; try discriminate. injection Hv as ->. apply get_attr_ok; exact Ha.
  - intros H. exists (ACont v). split; [apply get_attr_ok; exact H|reflexivity].
Qed.
Lemma disc_at_ok k x v : disc_at k x = Ok v <-> textual k x v.
Proof.
  unfold disc_at, textual. rewrite bind_ok. split.
  - intros (a & Ha & Hv). apply get_attr_ok in Ha. exists a; split; [exact Ha|].
    destruct a; try discriminate; injection Hv as ->; eauto.
  - intros (a & Ha & H). apply get_attr_ok in Ha. exists a; split; [exact Ha|].
    destruct H as [->|[->|(i & m & ->)]]; reflexivity.
Qed.
Lemma index_at_ok k x v : index_at k x = Ok v <-> indexed k x v.
Proof.
  unfold index_at, indexed. rewrite bind_ok. split.
  - intros (a & Ha & Hv). apply get_attr_ok in Ha. destruct a; try discriminate. injection Hv as <-. eauto.
  - intros (s & m & H). exists (AIdx s v m); split; [apply get_attr_ok; exact H|reflexivity].
Qed.
Lemma cont_column k l vs : num_column k l vs -> mapM (cont_at k) l = Ok vs.
Proof. intros H. apply mapM_ok. eapply Forall2_imp; [|exact H]. intros x y; apply cont_at_ok. Qed.
Lemma disc_column k l vs : text_column k l vs -> mapM (disc_at k) l = Ok vs.
Proof. intros H. apply mapM_ok. eapply Forall2_imp; [|exact H]. intros x y; apply disc_at_ok. Qed.
Lemma index_column_ok k l vs : index_column k l vs -> mapM (index_at k) l = Ok vs.
Proof. intros H. apply mapM_ok. eapply Forall2_imp; [|exact H]. intros x y; apply index_at_ok. Qed.

Lemma combine_in_Forall2 {A B} (P : A -> B -> Prop) l l' : Forall2 P l l' -> Forall (fun p => P (snd p) (fst p)) (combine l' l).
Proof. induction 1; simpl; constructor; auto. Qed.
Lemma map_snd_combine {A B} (l : list A) (l' : list B) : length l = length l' -> map snd (combine l l') = l'.
Proof. revert l'; induction l; intros [|b l'] H; simpl in *; try discriminate; [reflexivity|rewrite IHl by lia; reflexivity]. Qed.
Lemma map_fst_combine {A B} (l : list A) (l' : list B) : length l = length l' -> map fst (combine l l') = l.
Proof. revert l'; induction l; intros [|b l'] H; simpl in *; try discriminate; [reflexivity|rewrite IHl by lia; reflexivity]. Qed.
Lemma filter_map_snd {A B} (f : B -> bool) (l : list (A * B)) : filter f (map snd l) = map snd (filter (fun p => f (snd p)) l).
Proof. induction l as [|p l IH]; simpl; [reflexivity|]. destruct (f (snd p)); simpl; rewrite IH; reflexivity. Qed.
Lemma StronglySorted_map {A B} (R : B -> B -> Prop) (f : A -> B) l :
  StronglySorted (fun a b => R (f a) (f b)) l -> StronglySorted R (map f l).
Proof. induction 1; simpl; constructor; auto. apply Forall_map; exact H0. Qed.
Lemma filter_ext_Forall {A} (f g : A -> bool) l : Forall (fun x => f x = g x) l -> filter f l = filter g l.
Proof. induction 1; simpl; [reflexivity|]. rewrite H, IHForall; reflexivity. Qed.

Lemma filter_none {A} (f : A -> bool) l : (forall x, In x l -> f x = false) -> filter f l = [].
Proof. induction l as [|x l IH]; simpl; intros H; [reflexivity|]. rewrite (H x) by auto. apply IH; auto. Qed.

(** * C13 *)
Lemma deqb_equivb v w : is_nan v = false -> is_nan w = false -> deqb v w = equivb dltb v w.
Proof.
  intros Hv Hw. unfold deqb, equivb. destruct v, w; simpl in *; try reflexivity; try discriminate.
  rewrite !negb_involutive. apply andb_comm.
Qed.
Lemma sort_by_spec k l vs :
  num_column k l vs -> Forall (fun v => is_nan v = false) vs ->
  exists l' vs', sort_by k l = Ok l' /\ Permutation l l' /\ num_column k l' vs' /\
    StronglySorted (fun v w => dltb w v = false) vs' /\
    forall v, filter (has_number k v) l' = filter (has_number k v) l.
Proof.
  intros Hc Hn. pose proof (Forall2_len _ _ _ Hc) as HL. unfold sort_by. destruct (Nat.leb_spec (length l) 1) as [H1|H1].
  - exists l, vs. split; [reflexivity|]. split; [reflexivity|]. split; [exact Hc|]. split; [|reflexivity].
    rewrite HL in H1. destruct vs as [|v [|w vs]]; simpl in H1; try lia; repeat constructor.
  - rewrite (cont_column _ _ _ Hc). simpl. replace (existsb is_nan vs) with false.
    2:{ symmetry. apply not_true_is_false. intros E. apply existsb_exists in E. destruct E as (v & Hv & E).
        rewrite Forall_forall in Hn. rewrite Hn in E by exact Hv. discriminate. }
    set (lt := fun p q : dbl * instance => dltb (fst p) (fst q)).
    set (P := combine vs l).
    assert (HP : Forall (fun p => numeric k (snd p) (fst p)) P) by (apply combine_in_Forall2 in Hc; exact Hc).
    assert (HPn : Forall (fun p => is_nan (fst p) = false) P).
    { apply Forall_forall. intros [v x] Hp. apply in_combine_l in Hp. rewrite Forall_forall in Hn. apply Hn; exact Hp. }
    pose proof (swo_key _ _ (@fst dbl instance) dltb_swo) as Hw. fold lt in Hw.
    assert (HS : Permutation P (ssort lt P)) by (eapply ssort_perm; exact Hw).
    exists (map snd (ssort lt P)), (map fst (ssort lt P)).
    split; [reflexivity|]. split; [|split; [|split]].
    + rewrite <- (map_snd_combine vs l) at 1 by lia. apply Permutation_map. exact HS.
    + unfold num_column. apply (Permutation_Forall HS) in HP. clear - HP.
      induction HP; simpl; constructor; auto.
    + apply StronglySorted_map. eapply ssort_sorted; [exact Hw|exact HPn].
    + intros v. destruct (is_nan v) eqn:Ev.
      { assert (HF : forall x, has_number k v x = false)
          by (intros x; unfold has_number; destruct v; try discriminate; destruct (at_ (attrs x) k) as [[]| | |]; reflexivity).
        rewrite !filter_none; auto. }
      rewrite <- (map_snd_combine vs l) at 1 by lia. fold P. rewrite !filter_map_snd. f_equal.
      assert (HE : forall Q, Forall (fun p => numeric k (snd p) (fst p)) Q -> Forall (fun p => is_nan (fst p) = false) Q ->
                filter (fun p => has_number k v (snd p)) Q = filter (equivb lt (v, mkInst EmptyString [] None)) Q).
      { intros Q H Hq. apply filter_ext_Forall. rewrite Forall_forall in *. intros p Hp.
        specialize (H p Hp). specialize (Hq p Hp). unfold has_number.
        apply get_attr_ok in H. unfold get_attr in H. rewrite H. rewrite deqb_equivb by assumption. reflexivity. }
      rewrite !HE; auto using (Permutation_Forall HS).
      2,3: eapply Permutation_Forall; eauto.
      eapply ssort_filter; [exact Hw|exact Ev|exact HPn].
Qed.
Lemma sort_by_nan k l vs : num_column k l vs -> 2 <= length l -> Exists (fun v => is_nan v = true) vs -> sort_by k l = UB BadOrder.
Proof.
  intros Hc HL Hn. unfold sort_by. destruct (Nat.leb_spec (length l) 1); [lia|]. rewrite (cont_column _ _ _ Hc). simpl.
  replace (existsb is_nan vs) with true; [reflexivity|]. symmetry. apply existsb_exists. apply Exists_exists in Hn.
  destruct Hn as (v & ? & ?); eauto.
Qed.

(** * C14 *)
Definition of_class (c : string) (x : instance) : bool := String.eqb (label x) c.
Lemma class_lt_swo : swo (fun _ : instance => True) (fun x y => sltb (label x) (label y)).
Proof. apply (swo_key (fun _ => True) sltb label sltb_swo). Qed.
Lemma sort_class_stable l : is_stable_sort (fun x y => sltb (label x) (label y)) l (sort_class l).
Proof. eapply ssort_is_stable_sort; [exact class_lt_swo|]. apply Forall_forall; auto. Qed.
Lemma equivb_class x y : equivb (fun x y => sltb (label x) (label y)) x y = of_class (label x) y.
Proof.
  unfold equivb, of_class. destruct (String.eqb_spec (label y) (label x)) as [E|E].
  - rewrite E. unfold sltb. rewrite scompare_refl. reflexivity.
  - destruct (slt_total (label x) (label y)) as [H|[H|H]]; [| congruence |]; apply sltb_slt in H; rewrite H; simpl; auto.
    apply andb_false_r.
Qed.
Lemma filter_flat_map {A B} (f : B -> bool) (g : A -> list B) l : filter f (flat_map g l) = flat_map (fun a => filter f (g a)) l.
Proof. induction l; simpl; [reflexivity|]. rewrite filter_app, IHl; reflexivity. Qed.
Lemma filter_filter {A} (f g : A -> bool) l : filter f (filter g l) = filter (fun x => g x && f x) l.
Proof. induction l as [|x l IH]; simpl; [reflexivity|]. destruct (g x); simpl; [destruct (f x); rewrite IH; reflexivity|exact IH]. Qed.
Lemma flat_map_nil {A B} (f : A -> list B) l : (forall x, In x l -> f x = []) -> flat_map f l = [].
Proof. induction l; simpl; intros H; [reflexivity|]. rewrite H by auto. apply IHl; auto. Qed.
Lemma of_class_other c d l : c <> d -> filter (of_class c) (filter (of_class d) l) = [].
Proof.
  intros H. apply filter_none. intros x Hx. apply filter_In in Hx. destruct Hx as [_ Hx]. unfold of_class in *.
  apply String.eqb_eq in Hx. apply String.eqb_neq. congruence.
Qed.
Lemma blocks_filter l cs c : NoDup cs -> In c cs ->
  filter (of_class c) (flat_map (fun d => filter (of_class d) l) cs) = filter (of_class c) l.
Proof.
  rewrite filter_flat_map. induction 1 as [|d cs Hd Hn IH]; intros Hi; [destruct Hi|destruct Hi as [E|E]].
  - subst d. simpl. rewrite filter_filter. rewrite (filter_ext _ (of_class c)) by (intros; apply andb_diag).
    rewrite flat_map_nil; [apply app_nil_r|]. intros d Hd'. apply of_class_other. intros ->; auto.
  - simpl. rewrite of_class_other by (intros ->; auto). simpl. auto.
Qed.
Lemma blocks_sorted l cs : StronglySorted slt cs ->
  StronglySorted (fun a b => sltb (label b) (label a) = false) (flat_map (fun d => filter (of_class d) l) cs).
Proof.
  assert (HB : forall d m, StronglySorted (fun a b => sltb (label b) (label a) = false) (filter (of_class d) m)).
  { intros d m. induction m as [|x m IH]; simpl; [constructor|]. destruct (of_class d x) eqn:E; [|exact IH]. constructor; [exact IH|].
    apply Forall_forall. intros y Hy. apply filter_In in Hy. destruct Hy as [_ Hy]. unfold of_class in *.
    apply String.eqb_eq in E, Hy. rewrite E, Hy. unfold sltb. rewrite scompare_refl. reflexivity. }
  induction 1 as [|d cs Hs IH Hf]; simpl; [constructor|].
  assert (Hc : forall y, In y (flat_map (fun d => filter (of_class d) l) cs) -> slt d (label y)).
  { intros y Hy. apply in_flat_map in Hy. destruct Hy as (e & He & Hy). apply filter_In in Hy. destruct Hy as [_ Hy].
    apply String.eqb_eq in Hy. rewrite Hy. rewrite Forall_forall in Hf. apply Hf; exact He. }
  pose proof (HB d l) as HBd. assert (Hl : Forall (fun x => label x = d) (filter (of_class d) l)).
  { apply Forall_forall. intros x Hx. apply filter_In in Hx. apply String.eqb_eq. apply Hx. }
  induction HBd as [|x m HB' IHB Hx]; simpl; [exact IH|]. inversion Hl; subst. constructor; [apply IHB; assumption|].
  apply Forall_app. split; [exact Hx|]. apply Forall_forall. intros y Hy. apply Hc in Hy.
  unfold sltb. rewrite (proj2 (sgt_slt _ _) Hy). reflexivity.
Qed.
Lemma sort_class_blocks l : exists cs,
  StronglySorted slt cs /\ (forall c, In c cs <-> In c (map label l)) /\
  sort_class l = flat_map (fun c => filter (of_class c) l) cs.
Proof.
  exists (mkeys (cofl (map label l))). split; [apply cofl_sorted|]. split; [intros; apply in_cofl|].
  set (cs := mkeys (cofl (map label l))).
  eapply (stable_unique_aux (fun _ => True)); [exact class_lt_swo| | | | |].
  1,2: apply Forall_forall; auto.
  - apply (sort_class_stable l).
  - apply blocks_sorted. apply cofl_sorted.
  - intros x _. rewrite !(filter_ext _ _ (equivb_class x)).
    destruct (in_dec string_dec (label x) cs) as [Hi|Hi].
    + rewrite blocks_filter; [|apply msorted_nodup, cofl_sorted|exact Hi].
      unfold sort_class. transitivity (filter (equivb (fun x y => sltb (label x) (label y)) x) l).
      * rewrite <- (filter_ext _ _ (equivb_class x)). apply (ssort_filter (fun _ => True)); [exact class_lt_swo|exact I|apply Forall_forall; auto].
      * apply filter_ext. apply equivb_class.
    + rewrite !filter_none; auto.
      * intros y Hy. apply in_flat_map in Hy. destruct Hy as (e & He & Hy). apply filter_In in Hy. destruct Hy as [_ Hy].
        apply String.eqb_eq in Hy. apply String.eqb_neq. congruence.
      * intros y Hy. apply String.eqb_neq. intros E. apply Hi. unfold cs. apply in_cofl. rewrite <- E. apply in_map.
        eapply Permutation_in; [symmetry; eapply ssort_perm; exact class_lt_swo|exact Hy].
Qed.

(** * C15 *)
Lemma find_pos_app_in x l l' : In x l -> find_pos x (l ++ l') = find_pos x l.
Proof.
  induction l as [|y l IH]; simpl; [tauto|]. intros H. destruct (String.eqb_spec x y); [reflexivity|].
  rewrite IH; [reflexivity|]. destruct H; [congruence|assumption].
Qed.
Lemma find_pos_app_notin x l l' : ~ In x l -> find_pos x (l ++ l') = length l + find_pos x l'.
Proof.
  induction l as [|y l IH]; simpl; [reflexivity|]. intros H. destruct (String.eqb_spec x y); [subst; tauto|]. rewrite IH; [reflexivity|tauto].
Qed.
Lemma first_occurrences_push src : first_occurrences src (fold_left push_new src []).
Proof.
  split; [apply push_new_nodup; constructor|]. split; [intros; rewrite push_new_in; simpl; tauto|].
  induction src as [|z src IH] using rev_ind; intros x y i j Hx Hy.
  - simpl in Hx. destruct i; discriminate.
  - rewrite fold_left_app in *. simpl in *. set (acc := fold_left push_new src []) in *.
    assert (Hin : forall w, In w acc <-> In w src) by (intros; unfold acc; rewrite push_new_in; simpl; tauto).
    unfold push_new in Hx, Hy. destruct (mem_str z acc) eqn:Ez.
    + rewrite !find_pos_app_in; [apply IH; assumption| |]; apply Hin; eapply nth_error_In; eassumption.
    + assert (Hz : ~ In z src) by (rewrite <- Hin; intros H; apply mem_str_in in H; congruence).
      assert (Hcase : forall w k, nth_error (acc ++ [z]) k = Some w ->
                (k < length acc /\ nth_error acc k = Some w /\ In w src) \/ (k = length acc /\ w = z)).
      { intros w k Hk. destruct (Nat.lt_ge_cases k (length acc)) as [L|L].
        - left. rewrite nth_error_app1 in Hk by exact L. split; [exact L|]. split; [exact Hk|]. apply Hin. eapply nth_error_In; exact Hk.
        - right. rewrite nth_error_app2 in Hk by exact L. destruct (k - length acc) eqn:E; simpl in Hk.
          + injection Hk as <-. split; [lia|reflexivity].
          + destruct n; discriminate. }
      destruct (Hcase _ _ Hx) as [(Li & Hxi & Ix)|[-> ->]], (Hcase _ _ Hy) as [(Lj & Hyj & Iy)|[-> ->]].
      * rewrite !find_pos_app_in by assumption. apply IH; assumption.
      * rewrite (find_pos_app_in x) by assumption. rewrite (find_pos_app_notin z) by assumption.
        apply find_pos_lt in Ix. lia.
      * rewrite (find_pos_app_in y) by assumption. rewrite (find_pos_app_notin z) by assumption.
        apply find_pos_lt in Iy. lia.
      * lia.
Qed.
Lemma fold_left_map {A B C} (f : A -> C -> A) (g : B -> C) l a : fold_left (fun a x => f a (g x)) l a = fold_left f (map g l) a.
Proof. revert a; induction l; simpl; auto. Qed.
Lemma distinct_labels_map l : distinct_labels l = fold_left push_new (map label l) [].
Proof. unfold distinct_labels. apply (fold_left_map push_new label). Qed.
Lemma union_possible_flat l : union_possible l = fold_left push_new (flat_map possible_labels l) [].
Proof.
  unfold union_possible. generalize (@nil string). induction l as [|x l IH]; intros acc; simpl; [reflexivity|].
  rewrite fold_left_app. apply IH.
Qed.
Lemma value_list_ok k l vs : text_column k l vs -> value_list k l = Ok (fold_left push_new vs []).
Proof.
  unfold value_list. generalize (@nil string). intros acc H. revert acc. induction H as [|x v l vs Hx H IH]; intros acc; simpl; [reflexivity|].
  apply disc_at_ok in Hx. rewrite Hx. simpl. apply IH.
Qed.

(** * C16 *)
Lemma class_distribution_cofl l : class_distribution l = cofl (map label l).
Proof. unfold class_distribution, cofl. apply (fold_left_map cput label). Qed.

(** * C17 *)
Definition pair_is (v c : string) (p : string * instance) : bool := String.eqb (fst p) v && String.eqb (label (snd p)) c.
Lemma foldM_map_fst {S X V} (rd : X -> res V) (g : S -> V -> X -> res S) l vs s :
  Forall2 (fun x v => rd x = Ok v) l vs ->
  foldM (fun s x => do v <- rd x; g s v x) l s = foldM (fun s p => g s (fst p) (snd p)) (combine vs l) s.
Proof.
  intros H. revert s. induction H as [|x v l vs Hx H IH]; intros s; simpl; [reflexivity|].
  rewrite Hx. simpl. destruct (g s v x); simpl; auto.
Qed.
Lemma fold_repeat_nth {A} (a : A) n i : i < n -> nth_error (repeat a n) i = Some a.
Proof. revert i; induction n; intros i H; [lia|]. destruct i; simpl; [reflexivity|]. apply IHn; lia. Qed.
Lemma acd_fold values ps ds :
  NoDup values -> length ds = length values -> Forall (fun p => In (fst p) values) ps ->
  exists ds', foldM (fun ds (p : string * instance) => do c <- idxn ds (find_pos (fst p) values);
                     Ok (upd ds (find_pos (fst p) values) (cput c (label (snd p))))) ps ds = Ok ds' /\
    length ds' = length values /\
    forall i v d, nth_error values i = Some v -> nth_error ds i = Some d ->
      exists d', nth_error ds' i = Some d' /\ forall c, ccount d' c = ccount d c + countb (pair_is v c) ps.
Proof.
  intros Hn HL HF. revert ds HL. induction HF as [|p ps Hp HF IH]; intros ds HL.
  - exists ds. repeat split; auto. intros i v d Hv Hd. exists d. split; [exact Hd|]. intros; unfold countb; simpl; lia.
  - simpl. set (j := find_pos (fst p) values). assert (Hj : j < length ds) by (rewrite HL; apply find_pos_lt; exact Hp).
    destruct (nth_error ds j) as [c0|] eqn:Ec; [|apply nth_error_None in Ec; lia].
    unfold idxn. rewrite Ec. simpl.
    destruct (IH (upd ds j (cput c0 (label (snd p))))) as (ds' & E & L & Hs); [rewrite upd_length; exact HL|].
    exists ds'. split; [exact E|]. split; [exact L|]. intros i v d Hv Hd.
    destruct (Nat.eq_dec j i) as [<-|Hji].
    + destruct (Hs j v (cput c0 (label (snd p)))) as (d' & Hd' & Hc); [exact Hv|apply nth_upd_same; exact Hj|].
      exists d'; split; [exact Hd'|]. intros c. rewrite Hc, ccount_cput. rewrite Hd in Ec. injection Ec as <-.
      pose proof (find_pos_nth _ _ Hp) as Hfp. fold j in Hfp. rewrite Hv in Hfp. injection Hfp as ->.
      rewrite countb_cons. unfold pair_is at 2. rewrite String.eqb_refl. simpl. lia.
    + destruct (Hs i v d) as (d' & Hd' & Hc); [exact Hv|rewrite nth_upd_other by exact Hji; exact Hd|].
      exists d'; split; [exact Hd'|]. intros c. rewrite Hc, countb_cons. unfold pair_is at 2.
      destruct (String.eqb_spec (fst p) v) as [Ev|Ev]; simpl; [|lia].
      exfalso. apply Hji. unfold j. rewrite Ev. apply find_pos_unique; assumption.
Qed.
Lemma attr_class_distribution_spec k l vs : text_column k l vs ->
  exists values ds, value_list k l = Ok values /\ attr_class_distribution k l = Ok ds /\ length ds = length values /\
    forall i v d, nth_error values i = Some v -> nth_error ds i = Some d ->
      forall c, ccount d c = countb (pair_is v c) (combine vs l).
Proof.
  intros H. pose proof (first_occurrences_push vs) as (Hnd & Hin & _).
  exists (fold_left push_new vs []). unfold attr_class_distribution. rewrite (value_list_ok _ _ _ H). cbn [bind].
  set (values := fold_left push_new vs []) in *.
  rewrite (foldM_map_fst (disc_at k) (fun ds v x => do c <- idxn ds (find_pos v values); Ok (upd ds (find_pos v values) (cput c (label x)))) l vs).
  2:{ eapply Forall2_imp; [|exact H]. intros; apply disc_at_ok; assumption. }
  destruct (acd_fold values (combine vs l) (repeat [] (length values))) as (ds & E & L & Hs);
    [exact Hnd|apply repeat_length| |].
  { apply Forall_forall. intros [v x] Hp. apply in_combine_l in Hp. simpl. apply Hin; exact Hp. }
  exists ds. split; [reflexivity|]. split; [exact E|]. split; [exact L|]. intros i v d Hv Hd c.
  destruct (Hs i v []) as (d' & Hd' & Hc); [exact Hv|apply fold_repeat_nth; apply nth_error_Some; congruence|].
  rewrite Hd in Hd'. injection Hd' as <-. rewrite Hc. reflexivity.
Qed.
(** summing a two-way count over all distinct first components *)
Lemma count_rows values (ps : list (string * instance)) c : NoDup values -> Forall (fun p => In (fst p) values) ps ->
  list_sum (map (fun v => countb (pair_is v c) ps) values) = countb (fun p => String.eqb (label (snd p)) c) ps.
Proof.
  intros Hn HF. induction HF as [|p ps Hp HF IH].
  - clear. unfold countb; simpl. induction values; simpl; auto.
  - rewrite countb_cons, <- IH. rewrite (map_ext _ (fun v => (if pair_is v c p then 1 else 0) + countb (pair_is v c) ps)) by (intros; apply countb_cons).
    clear IH HF. assert (HS : forall vs (f g : string -> nat), list_sum (map (fun v => f v + g v) vs) = list_sum (map f vs) + list_sum (map g vs)).
    { induction vs; intros; simpl; [reflexivity|]. rewrite IHvs; lia. }
    rewrite HS. f_equal. unfold pair_is. induction Hn as [|v values Hv Hn IH]; [destruct Hp|]. simpl.
    destruct (String.eqb_spec (fst p) v) as [E|E]; simpl.
    + replace (list_sum _) with 0; [lia|]. symmetry. clear - Hv E. induction values as [|w values IHv]; simpl; [reflexivity|].
      destruct (String.eqb_spec (fst p) w); simpl; [subst; simpl in Hv; exfalso; apply Hv; left; congruence|]. apply IHv. simpl in Hv; tauto.
    + apply IH. destruct Hp; [congruence|assumption].
Qed.
Lemma countb_map {A B} (f : B -> bool) (g : A -> B) l : countb f (map g l) = countb (fun x => f (g x)) l.
Proof. induction l; simpl; [reflexivity|]. rewrite !countb_cons, IHl; reflexivity. Qed.
Lemma count_occ_countb l c : count_occ string_dec l c = countb (fun x => String.eqb x c) l.
Proof.
  induction l as [|x l IH]; simpl; [reflexivity|]. rewrite countb_cons. destruct (string_dec x c) as [E|E].
  - rewrite (proj2 (String.eqb_eq x c) E), IH; reflexivity.
  - rewrite (proj2 (String.eqb_neq x c) E), IH; reflexivity.
Qed.
Lemma class_count l c : ccount (class_distribution l) c = countb (of_class c) l.
Proof. rewrite class_distribution_cofl, ccount_cofl, count_occ_countb, countb_map. reflexivity. Qed.
Lemma attr_class_distribution_rows k l vs ds : text_column k l vs -> attr_class_distribution k l = Ok ds ->
  forall c, list_sum (map (fun d => ccount d c) ds) = ccount (class_distribution l) c.
Proof.
  intros H Hds c. destruct (attr_class_distribution_spec _ _ _ H) as (values & ds' & Hv & E & L & Hs).
  rewrite Hds in E. injection E as <-. rewrite (value_list_ok _ _ _ H) in Hv. injection Hv as <-.
  set (values := fold_left push_new vs []) in *. pose proof (first_occurrences_push vs) as (Hnd & Hin & _). fold values in Hnd, Hin.
  transitivity (list_sum (map (fun v => countb (pair_is v c) (combine vs l)) values)).
  - f_equal. apply list_ext. intros i. rewrite !nth_error_map.
    destruct (nth_error values i) as [v|] eqn:Ev, (nth_error ds i) as [d|] eqn:Ed; simpl; try reflexivity.
    + f_equal. eapply Hs; eassumption.
    + apply nth_error_None in Ed. assert (i < length values) by (apply nth_error_Some; congruence). lia.
    + apply nth_error_None in Ev. assert (i < length ds) by (apply nth_error_Some; congruence). lia.
  - rewrite count_rows.
    + rewrite class_count. rewrite <- (map_snd_combine vs l) at 2 by (symmetry; eapply Forall2_len; exact H).
      rewrite countb_map. reflexivity.
    + exact Hnd.
    + apply Forall_forall. intros [v x] Hp. apply in_combine_l in Hp. simpl. apply Hin; exact Hp.
Qed.
Lemma idx_class_distribution_spec k v l is_ : index_column k l is_ ->
  exists d, idx_class_distribution k v l = Ok d /\
    forall c, ccount d c = countb (fun p => (fst p =? v)%Z && String.eqb (label (snd p)) c) (combine is_ l).
Proof.
  intros H. unfold idx_class_distribution.
  assert (HG : forall c0, exists d, foldM (fun c x => do i <- index_at k x; Ok (if (i =? v)%Z then cput c (label x) else c)) l c0 = Ok d /\
    forall c, ccount d c = ccount c0 c + countb (fun p => (fst p =? v)%Z && String.eqb (label (snd p)) c) (combine is_ l)).
  { induction H as [|x i l is_ Hx H IH]; intros c0; simpl.
    - exists c0; split; [reflexivity|]. intros; unfold countb; simpl; lia.
    - apply index_at_ok in Hx. rewrite Hx. simpl. destruct (IH (if (i =? v)%Z then cput c0 (label x) else c0)) as (d & E & Hd).
      exists d; split; [exact E|]. intros c. rewrite Hd, countb_cons. simpl. destruct (i =? v)%Z; simpl; [rewrite ccount_cput; lia|lia]. }
  destruct (HG []) as (d & E & Hd). exists d. split; [exact E|exact Hd].
Qed.

(** * C18 *)
Lemma cont_sum_ok k l vs : num_column k l vs -> cont_sum k l = Ok (dsum vs).
Proof.
  unfold cont_sum, dsum. generalize d0. intros a H. revert a. induction H as [|x v l vs Hx H IH]; intros a; simpl; [reflexivity|].
  apply cont_at_ok in Hx. rewrite Hx. simpl. apply IH.
Qed.
Lemma cont_sum_fin k l qs : num_column k l (map Fin qs) -> exists s, cont_sum k l = Ok (Fin s) /\ (s == qsum qs)%Q.
Proof.
  intros H. rewrite (cont_sum_ok _ _ _ H). unfold dsum, d0. rewrite fold_dadd_fin. eexists; split; [reflexivity|].
  rewrite fold_left_qsum. ring.
Qed.
Lemma first_of {A B} (P : A -> B -> Prop) l vs : Forall2 P l vs -> l <> [] -> exists x v, atn l 0 = Ok x /\ nth_error vs 0 = Some v /\ P x v.
Proof. destruct 1; [congruence|]. intros _. exists x, y. repeat split; auto. Qed.
Lemma attr_average_cont k l qs : l <> [] -> num_column k l (map Fin qs) ->
  exists a, attr_average k l = Ok (Some (ACont (Fin a))) /\ cont_average k l = Ok [Fin a] /\ (a == qsum qs / qofn (length l))%Q.
Proof.
  intros Hne H. destruct (first_of _ _ _ H Hne) as (x & v & Hx & _ & Hv).
  destruct (cont_sum_fin _ _ _ H) as (s & Hs & Es). unfold attr_average, cont_average. rewrite Hx. cbn [bind].
  apply get_attr_ok in Hv. rewrite Hv. cbn [bind isDiscrete isContinuous isDiscreteIndexed]. rewrite Hs. cbn [bind].
  assert (0 < length l) by (destruct l; [congruence|simpl; lia]).
  unfold dofnat. rewrite ddiv_fin by (apply Qnot_eq_sym, Qlt_not_eq, (qofn_pos (length l)); assumption).
  exists (s / qofn (length l))%Q. repeat split. rewrite Es. reflexivity.
Qed.
Lemma qsum_bounds qs m M : (forall q, In q qs -> m <= q /\ q <= M)%Q -> (m * qofn (length qs) <= qsum qs /\ qsum qs <= M * qofn (length qs))%Q.
Proof.
  induction qs as [|q qs IH]; simpl; intros H.
  - split; (setoid_replace (qofn 0) with 0%Q by apply qofn_0); lra.
  - destruct IH as [I1 I2]; [auto|]. destruct (H q) as [H1 H2]; [auto|]. rewrite qofn_S.
    assert (forall z, z * (1 + qofn (length qs)) == z + z * qofn (length qs))%Q by (intros; ring). rewrite !H0. split; lra.
Qed.
Lemma get_maximum_spec vs : vs <> [] -> In (get_maximum vs) vs /\ forall v, occ vs v <= occ vs (get_maximum vs).
Proof.
  intros H. unfold get_maximum. fold (cofl vs). destruct (cmax_spec (cofl vs)) as [H1 H2].
  - apply cofl_sorted.
  - apply cpos_fold_cput. constructor.
  - intros E. destruct vs as [|v vs]; [congruence|]. assert (In v (mkeys (cofl (v :: vs)))) by (apply in_cofl; left; reflexivity).
    rewrite E in H0. destruct H0.
  - split; [apply in_cofl; exact H1|]. intros v. unfold occ. rewrite <- !ccount_cofl. apply H2.
Qed.

(** indexed averages *)
Lemma count_index_fold k l is_ m vals : index_column k l is_ -> Forall (fun i => (0 <= i < Z.of_nat m)%Z) is_ -> length vals = m ->
  exists r, foldM (count_index k) l (map Fin vals) = Ok (map Fin r) /\ length r = m /\
    forall j v, nth_error vals j = Some v -> exists w, nth_error r j = Some w /\ (w == v + qofn (countb (Z.eqb (Z.of_nat j)) is_))%Q.
Proof.
  intros H. revert vals. induction H as [|x i l is_ Hx H IH]; intros vals HF HL; simpl.
  - exists vals. repeat split; auto. intros j v Hv. exists v; split; [exact Hv|]. change (qofn (countb (Z.eqb (Z.of_nat j)) [])) with (qofn 0). rewrite qofn_0. ring.
  - inversion HF as [|? ? Hi HF']; subst. apply index_at_ok in Hx. unfold count_index at 1. rewrite Hx. cbn [bind].
    unfold idx. destruct (Z.ltb_spec i 0); [lia|]. rewrite nth_error_map.
    destruct (nth_error vals (Z.to_nat i)) as [v0|] eqn:Ev; [|apply nth_error_None in Ev; lia]. cbn [option_map bind].
    change (dadd (Fin v0) d1) with (Fin (v0 + 1)).
    assert (HU : forall (vals : list Q) n q, upd (map Fin vals) n (Fin q) = map Fin (upd vals n q)).
    { induction vals0; intros [|n] q; simpl; auto. f_equal; auto. }
    rewrite HU. destruct (IH (upd vals (Z.to_nat i) (v0 + 1)%Q) HF') as (r & E & L & Hr); [apply upd_length|].
    exists r. split; [exact E|]. split; [lia|]. intros j v Hv. rewrite countb_cons.
    destruct (Nat.eq_dec (Z.to_nat i) j) as [Ej|Ej].
    + subst j. destruct (Hr (Z.to_nat i) (v0 + 1)%Q) as (w & Hw & Ew); [apply nth_upd_same; lia|].
      exists w; split; [exact Hw|]. rewrite Ew. rewrite Z2Nat.id by lia. rewrite Z.eqb_refl. rewrite Hv in Ev. injection Ev as ->.
      rewrite qofn_plus, qofn_1. ring.
    + destruct (Hr j v) as (w & Hw & Ew); [rewrite nth_upd_other by exact Ej; exact Hv|].
      exists w; split; [exact Hw|]. rewrite Ew. destruct (Z.eqb_spec (Z.of_nat j) i); [lia|]. simpl. reflexivity.
Qed.
Lemma sum_index_counts m is_ : Forall (fun i => (0 <= i < Z.of_nat m)%Z) is_ ->
  (qsum (map (fun j => qofn (countb (Z.eqb (Z.of_nat j)) is_)) (seq 0 m)) == qofn (length is_))%Q.
Proof.
  induction 1 as [|i is_ Hi HF IH].
  - rewrite (qsum_ext _ (fun _ => 0%Q)) by (intros; apply qofn_0). rewrite qsum_const. simpl. rewrite qofn_0. ring.
  - rewrite (qsum_ext _ (fun j => (if (Z.of_nat j =? i)%Z then 1 else 0) + qofn (countb (Z.eqb (Z.of_nat j)) is_))%Q).
    2:{ intros j _. rewrite countb_cons, qofn_plus. destruct (Z.of_nat j =? i)%Z; [rewrite qofn_1|rewrite qofn_0]; reflexivity. }
    rewrite qsum_plus, IH. simpl length. rewrite qofn_S. apply Qplus_inj_r.
    assert (HS : forall a n, (qsum (map (fun j => if (Z.of_nat j =? i)%Z then 1 else 0) (seq a n)) == if (Z.of_nat a <=? i)%Z && (i <? Z.of_nat (a + n))%Z then 1 else 0)%Q).
    { intros a n. revert a. induction n as [|n IHn]; intros a; cbn [seq map qsum fold_right].
      - destruct (Z.leb_spec (Z.of_nat a) i), (Z.ltb_spec i (Z.of_nat (a + 0))); simpl; try reflexivity; lia.
      - fold (qsum (map (fun j => if (Z.of_nat j =? i)%Z then 1%Q else 0%Q) (seq (S a) n))). rewrite IHn.
        destruct (Z.eqb_spec (Z.of_nat a) i), (Z.leb_spec (Z.of_nat (S a)) i), (Z.ltb_spec i (Z.of_nat (S a + n))),
          (Z.leb_spec (Z.of_nat a) i), (Z.ltb_spec i (Z.of_nat (a + S n))); simpl; try lia; try reflexivity; ring. }
    rewrite HS. destruct (Z.leb_spec (Z.of_nat 0) i), (Z.ltb_spec i (Z.of_nat (0 + m))); simpl; try lia; reflexivity.
Qed.
Lemma repeat_fin n : repeat d0 n = map Fin (repeat 0%Q n).
Proof. induction n; simpl; [reflexivity|]. rewrite IHn; reflexivity. Qed.
Lemma cont_average_idx k l is_ s i0 m : index_column k l is_ -> Forall (fun i => (0 <= i < Z.of_nat m)%Z) is_ ->
  (exists x l', l = x :: l' /\ feature x k (AIdx s i0 m)) ->
  exists fs, cont_average k l = Ok (map Fin fs) /\ length fs = m /\
    forall j f, nth_error fs j = Some f -> (f == qofn (countb (Z.eqb (Z.of_nat j)) is_) / qofn (length l))%Q.
Proof.
  intros H HF (x & l' & -> & Hx). set (l := x :: l') in *. unfold cont_average. simpl (atn l 0). change (atn l 0) with (@Ok instance x). cbn [bind].
  apply get_attr_ok in Hx. rewrite Hx. cbn [bind isDiscreteIndexed idx_max].
  rewrite repeat_fin. destruct (count_index_fold k l is_ m (repeat 0%Q m) H HF) as (r & E & L & Hr); [apply repeat_length|].
  rewrite E. cbn [bind]. exists (map (fun v => v / qofn (length l))%Q r). split; [|split].
  - f_equal. rewrite !map_map. apply map_ext. intros v. unfold dofnat. apply ddiv_fin. apply Qnot_eq_sym, Qlt_not_eq, (qofn_pos (length l)). unfold l; simpl; lia.
  - rewrite map_length. exact L.
  - intros j f Hf. rewrite nth_error_map in Hf. destruct (nth_error r j) as [w|] eqn:Ew; [|discriminate]. injection Hf as <-.
    destruct (Hr j 0%Q) as (w' & Hw & Ew'); [apply fold_repeat_nth; rewrite <- L; apply nth_error_Some; congruence|].
    rewrite Ew in Hw. injection Hw as ->. rewrite Ew'. rewrite Qplus_0_l. reflexivity.
Qed.
Lemma count_index_bad k l is_ vals : index_column k l is_ -> Exists (fun i => ~ (0 <= i < Z.of_nat (length vals))%Z) is_ ->
  foldM (count_index k) l vals = UB BadIndex.
Proof.
  intros H. revert vals. induction H as [|x i l is_ Hx H IH]; intros vals HE; [inversion HE|]. simpl.
  apply index_at_ok in Hx. unfold count_index at 1. rewrite Hx. cbn [bind]. unfold idx.
  destruct (Z.ltb_spec i 0); [reflexivity|]. destruct (nth_error vals (Z.to_nat i)) eqn:E; [|reflexivity].
  cbn [bind]. assert (Z.to_nat i < length vals) by (apply nth_error_Some; congruence).
  inversion HE; subst; [lia|]. apply IH. rewrite upd_length. assumption.
Qed.
