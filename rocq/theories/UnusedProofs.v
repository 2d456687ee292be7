(** Features that a tree does not look at (C144). *)
From Coq Require Import String ZArith QArith Bool Lia Permutation List.
From Verif Require HeapProofs.
From Verif Require Import Base Spec BaseLemmas DblLemmas SortLemmas AttrModel DataSetModel InstanceListModel PartitionModel PerformanceModel ListSpec ListProofs PartitionProofs
  TreeModel TreeSpec TreeProofs EnsembleModel RenameProofs TreePredictProofs TreeGrowProofs InvSpec TreeInvProofs TreeInvGrowProofs ConstSpec ConstTreeProofs UnusedSpec.
Import ListNotations.
Local Open Scope string_scope.
Local Open Scope list_scope.
Local Open Scope nat_scope.

(** * Changing features other than the one in question *)
Section Hide.
  Context (h : instance -> instance).
  Hypothesis Hlab : forall x, label (h x) = label x.
  Definition seen (k : Z) (l : list instance) : Prop := Forall (fun x => get_attr (h x) k = get_attr x k) l.
  Lemma seen_in k l x : seen k l -> In x l -> get_attr (h x) k = get_attr x k.
  Proof. intros H Hx. unfold seen in H. rewrite Forall_forall in H. apply H, Hx. Qed.
  Lemma seen_cont k l x : seen k l -> In x l -> cont_at k (h x) = cont_at k x.
  Proof. intros H Hx. unfold cont_at. rewrite (seen_in k l x H Hx). reflexivity. Qed.
  Lemma seen_disc k l x : seen k l -> In x l -> disc_at k (h x) = disc_at k x.
  Proof. intros H Hx. unfold disc_at. rewrite (seen_in k l x H Hx). reflexivity. Qed.
  Lemma seen_index k l x : seen k l -> In x l -> index_at k (h x) = index_at k x.
  Proof. intros H Hx. unfold index_at. rewrite (seen_in k l x H Hx). reflexivity. Qed.
  Lemma h_labels l : map label (map h l) = map label l.
  Proof. rewrite map_map. apply map_ext, Hlab. Qed.
  Lemma h_class_distribution l : class_distribution (map h l) = class_distribution l.
  Proof. rewrite !class_distribution_cofl, h_labels. reflexivity. Qed.
  Lemma h_add_to gs i x : add_to (map (map h) gs) i (h x) = rmap (map (map h)) (add_to gs i x).
  Proof. unfold add_to. rewrite atn_map, bind_rmap, rmap_bind. apply bind_ext. intros l. cbn. f_equal. rewrite <- upd_map. f_equal. rewrite map_app. reflexivity. Qed.
  Section Lists.
    Context (k : Z) (l : ilist) (Hl : seen k l).
    Lemma h_value_list : value_list k (map h l) = value_list k l.
    Proof. unfold value_list. rewrite foldM_map. apply foldM_same. intros s x Hx. rewrite (seen_disc k l) by assumption. reflexivity. Qed.
    Lemma h_part_disc : part_disc k (map h l) = rmap (map (map h)) (part_disc k l).
    Proof.
      unfold part_disc. rewrite h_value_list, rmap_bind. apply bind_ext. intros vs. rewrite foldM_map. replace (repeat (@nil instance) (length vs)) with (map (map h) (repeat [] (length vs))) at 1 by (rewrite map_repeat_; reflexivity).
      apply (foldM_sim (map (map h))). intros gs x Hx. rewrite (seen_disc k l) by assumption. rewrite rmap_bind. apply bind_ext. intros v. apply h_add_to.
    Qed.
    Lemma h_part_idx v : part_idx k v (map h l) = rmap (map (map h)) (part_idx k v l).
    Proof.
      unfold part_idx. rewrite foldM_map. change [[]; []] with (map (map h) [[]; []]) at 1. apply (foldM_sim (map (map h))). intros gs x Hx. rewrite (seen_index k l) by assumption.
      rewrite rmap_bind. apply bind_ext. intros i. apply h_add_to.
    Qed.
    Lemma h_part_cont t : part_cont k t (map h l) = rmap (map (map h)) (part_cont k t l).
    Proof.
      unfold part_cont. rewrite foldM_map. change [[]; []] with (map (map h) [[]; []]) at 1. apply (foldM_sim (map (map h))). intros gs x Hx. rewrite (seen_cont k l) by assumption.
      rewrite rmap_bind. apply bind_ext. intros i. apply h_add_to.
    Qed.
    Lemma h_sort_by : sort_by k (map h l) = rmap (map h) (sort_by k l).
    Proof.
      unfold sort_by. rewrite map_length. destruct (length l <=? 1); [reflexivity|]. rewrite mapM_map'. rewrite (mapM_ext' (fun x => cont_at k (h x)) (cont_at k) l) by (intros x Hx; apply (seen_cont k l); assumption).
      rewrite rmap_bind. apply bind_ext. intros keys. destruct (existsb is_nan keys); [reflexivity|]. cbn. f_equal. rewrite combine_map_r.
      rewrite (ssort_map (fun p : dbl * instance => (fst p, h (snd p))) (fun p q => dltb (fst p) (fst q))) by reflexivity. rewrite !map_map. reflexivity.
    Qed.
    Lemma h_idx_class v : idx_class_distribution k v (map h l) = idx_class_distribution k v l.
    Proof. unfold idx_class_distribution. rewrite foldM_map. apply foldM_same. intros s x Hx. rewrite (seen_index k l), Hlab by assumption. reflexivity. Qed.
    Lemma h_attr_class : attr_class_distribution k (map h l) = attr_class_distribution k l.
    Proof.
      unfold attr_class_distribution. rewrite h_value_list. apply bind_ext. intros vs. rewrite foldM_map. apply foldM_same.
      intros s x Hx. rewrite (seen_disc k l), Hlab by assumption. reflexivity.
    Qed.
    Lemma h_head {B} (g : instance -> res B) : (do x <- atn (map h l) 0; g x) = (do x <- atn l 0; g (h x)).
    Proof. rewrite atn_map, bind_rmap. reflexivity. Qed.
  End Lists.
  Lemma atn_in {A} (l : list A) i x : atn l i = Ok x -> In x l.
  Proof. unfold atn. destruct (nth_error l i) eqn:E; intros H; [injection H as <-; apply (nth_error_In _ _ E)|discriminate]. Qed.
  Section Build.
    Context (entropy : counter -> dbl) (mid : dbl -> dbl -> dbl).
    Lemma h_try_index data k st v : seen k data -> try_index entropy (map h data) k st v = try_index entropy data k st v.
    Proof. intros W. destruct st as [cd b]. unfold try_index. rewrite h_idx_class by exact W. rewrite map_length. reflexivity. Qed.
    Lemma h_try_cut n k l s x : seen k l -> In x l -> try_cut entropy mid n k s (h x) = try_cut entropy mid n k s x.
    Proof. intros W Hx. unfold try_cut. rewrite (seen_cont k l), Hlab by assumption. reflexivity. Qed.
    Lemma h_try_attr data cd b k : seen k data -> try_attr entropy mid (map h data, cd, b) k = rmap (fun st => (map h (fst (fst st)), snd (fst st), snd st)) (try_attr entropy mid (data, cd, b) k).
    Proof.
      unfold try_attr. intros W. rewrite h_head, rmap_bind.
      destruct (atn data 0) as [x0| | |] eqn:E0; cbn [bind]; try reflexivity.
      rewrite (seen_in k data) by (try assumption; apply (atn_in _ _ _ E0)). rewrite rmap_bind. apply bind_ext. intros c. destruct (isDiscreteIndexed c).
      { rewrite rmap_bind. apply bind_ext. intros m. rewrite (foldM_same (try_index entropy (map h data) k) (try_index entropy data k)) by (intros; apply h_try_index, W). rewrite rmap_bind. reflexivity. }
      destruct (isDiscrete c).
      { unfold disc_entropy. rewrite h_attr_class by exact W. rewrite map_length, rmap_bind. destruct (attr_class_distribution k data); reflexivity. }
      destruct (isContinuous c); [|reflexivity]. rewrite h_sort_by by exact W. rewrite bind_rmap, rmap_bind.
      destruct (sort_by k data) as [data'| | |] eqn:Es; cbn [bind]; try reflexivity. rewrite h_class_distribution, foldM_map, map_length.
      assert (W' : seen k data') by (apply (Permutation_Forall (sort_by_perm _ _ _ Es)), W).
      rewrite (foldM_same (fun s x => try_cut entropy mid (length data') k s (h x)) (try_cut entropy mid (length data') k)) by (intros; apply (h_try_cut _ _ data'); assumption).
      rewrite rmap_bind. reflexivity.
    Qed.
    Lemma h_split data k v : seen k data -> split (map h data) k v = rmap (map (fun p : condition * ilist => (fst p, map h (snd p)))) (split data k v).
    Proof.
      intros W. unfold split. rewrite h_head, rmap_bind. destruct (atn data 0) as [x0| | |] eqn:E0; cbn [bind]; try reflexivity.
      rewrite (seen_in k data) by (try assumption; apply (atn_in _ _ _ E0)). rewrite rmap_bind. apply bind_ext. intros c. destruct (isDiscreteIndexed c).
      { rewrite rmap_bind. apply bind_ext. intros m. rewrite h_part_idx by exact W. rewrite bind_rmap, rmap_bind. apply bind_ext. intros gs.
        rewrite !atn_map, bind_rmap, rmap_bind. apply bind_ext. intros g0. rewrite bind_rmap, rmap_bind. reflexivity. }
      destruct (isDiscrete c).
      { rewrite h_value_list by exact W. rewrite rmap_bind. apply bind_ext. intros vs. rewrite h_part_disc by exact W. rewrite bind_rmap, rmap_bind. apply bind_ext. intros gs.
        apply mapM_sim. intros iv _. rewrite atn_map, bind_rmap, rmap_bind. reflexivity. }
      destruct (isContinuous c); [|reflexivity].
      rewrite h_part_cont by exact W. rewrite bind_rmap, rmap_bind. apply bind_ext. intros gs. rewrite !atn_map, bind_rmap, rmap_bind. apply bind_ext. intros g0.
      rewrite bind_rmap, rmap_bind. reflexivity.
    Qed.
  End Build.
End Hide.

(** * A feature with one value only changes nothing in the search *)
Lemma flat_attr entropy mid k a data cd b : a_value a -> data <> [] -> (forall x, In x data -> get_attr x k = Ok a) -> cd = class_distribution data ->
  dltb (entropy cd) (b_entropy b) = false -> try_attr entropy mid (data, cd, b) k = Ok (data, cd, b).
Proof.
  intros Ha Hne G C B. unfold try_attr. destruct data as [|x0 data0]; [contradiction|]. change (atn (x0 :: data0) 0) with (Ok x0). cbn [bind]. set (E := x0 :: data0) in *.
  rewrite (G x0 (or_introl eq_refl)). cbn [bind].
  assert (LD : 0 < length E) by (cbn; lia). assert (SD : csum (class_distribution E) = length E) by (rewrite class_distribution_cofl, csum_cofl, map_length; reflexivity). clearbody E.
  destruct a as [v|v|v i m|d] eqn:Ea; cbn [isDiscreteIndexed isDiscrete isContinuous idx_max bind].
  - unfold disc_entropy. rewrite (flat_disc k v E Hne) by (intros x Hx; unfold disc_at; rewrite (G x Hx); reflexivity). cbn [bind fold_left].
    rewrite not_better; [reflexivity|]. rewrite <- B. apply dltb_proper; [|reflexivity]. rewrite dadd_0_l, (whole_share _ _ LD SD), dmul_1_l, C. reflexivity.
  - reflexivity.
  - assert (K : forall vs, foldM (try_index entropy E k) vs (cd, b) = Ok (cd, b)).
    { induction vs as [|w vs IH]; [reflexivity|]. cbn [foldM]. unfold try_index at 1. rewrite (flat_idx k i) by (intros x Hx; unfold index_at; rewrite (G x Hx); reflexivity). cbn [bind].
      destruct (i =? Z.of_nat w)%Z; [|exact IH]. rewrite SD, (proj2 (Nat.ltb_lt _ _) LD). rewrite <- C.
      assert (E0 : csubd cd cd = []). { rewrite C, class_distribution_cofl. rewrite (csubd_split _ _ []); [reflexivity|]. rewrite app_nil_r. reflexivity. }
      rewrite E0. cbn [bind].
      replace (cadd [] cd) with cd by (rewrite C, class_distribution_cofl; change [] with (cofl []) at 1; rewrite cadd_cofl; reflexivity).
      rewrite not_better; [exact IH|]. change (csum []) with 0.
      destruct (empty_side (entropy []) (entropy cd) (length E)) as [H|H]; [exact LD|rewrite H; reflexivity|].
      rewrite <- B. apply dltb_proper; [exact H|reflexivity]. }
    rewrite K. reflexivity.
  - assert (Hd : is_nan d = false) by (destruct d; try reflexivity; exfalso; apply Ha; reflexivity).
    assert (Hc : forall x, In x E -> cont_at k x = Ok d) by (intros x Hx; unfold cont_at; rewrite (G x Hx); reflexivity).
    rewrite (flat_sort k d E Hd Hc). cbn [bind]. destruct (flat_cuts entropy mid (length E) k d E Hd Hc (mkScan None (class_distribution E) [] b) (or_introl eq_refl)) as (s & Es & Hs).
    rewrite Es. cbn [bind]. rewrite Hs. reflexivity.
Qed.

(** * The best split of one feature, and the best split so far *)
Definition nothing : best := mkBest PInf (-1) d0.
Definition opt (b m b2 : best) : Prop := if dltb (b_entropy m) (b_entropy b) then b2 = m else b2 = b.
Lemma dlt_total x y : is_nan x = false -> is_nan y = false -> dltb x y = false -> dleb y x = true.
Proof. destruct x as [p| | |], y as [q| | |]; try (cbn; congruence). intros _ _ H. apply Qle_bool_iff. apply Qnot_lt_le. intros L. apply dltb_fin in L. congruence. Qed.
Lemma dle_lt_trans x y z : dleb x y = true -> dltb y z = true -> dltb x z = true.
Proof.
  destruct x as [p| | |], y as [q| | |], z as [r| | |]; try (cbn; congruence). rewrite !dltb_fin. intros H. apply Qle_lt_trans. apply Qle_bool_iff. exact H.
Qed.
Lemma dlt_le_trans x y z : dltb x y = true -> dleb y z = true -> dltb x z = true.
Proof.
  destruct x as [p| | |], y as [q| | |], z as [r| | |]; try (cbn; congruence). rewrite !dltb_fin. intros H H1. apply Qlt_le_trans with q; [exact H|]. apply Qle_bool_iff. exact H1.
Qed.
Lemma dlt_num x y : dltb x y = true -> is_nan x = false /\ is_nan y = false.
Proof. destruct x, y; cbn; try discriminate; split; reflexivity. Qed.
Lemma opt_step b m b2 e k v : is_nan (b_entropy m) = false -> opt b m b2 -> opt b (better m e k v) (better b2 e k v) /\ is_nan (b_entropy (better m e k v)) = false.
Proof.
  intros N H. unfold opt in *. assert (EB : better m e k v = if dltb e (b_entropy m) then mkBest e k v else m) by reflexivity. rewrite EB. clear EB.
  destruct (dltb e (b_entropy m)) eqn:L; cbn [b_entropy].
  - split; [|apply (dlt_num _ _ L)]. destruct (dltb (b_entropy m) (b_entropy b)) eqn:L1; subst b2; unfold better.
    + rewrite L, (dlt_trans _ _ _ L L1). reflexivity.
    + destruct (dltb e (b_entropy b)); reflexivity.
  - split; [|exact N]. destruct (dltb (b_entropy m) (b_entropy b)) eqn:L1; subst b2; unfold better; [rewrite L; reflexivity|].
    destruct (dltb e (b_entropy b)) eqn:L2; [|reflexivity]. destruct (dlt_num _ _ L2) as [Ne Nb].
    rewrite (dle_lt_trans _ _ _ (dlt_total _ _ Ne N L) L2) in L1. discriminate.
Qed.
Lemma opt_nothing b : opt b nothing b.
Proof. unfold opt. cbn [nothing b_entropy]. destruct (b_entropy b); reflexivity. Qed.
(** the first best of feature [k] *)
Definition of_feature (k : Z) (m : best) : Prop := m = nothing \/ b_attr m = k.
Lemma better_of k m e v : of_feature k m -> of_feature k (better m e k v).
Proof. intros H. unfold better. destruct (dltb _ _); [right; reflexivity|exact H]. Qed.

Section Opt.
  Context (entropy : counter -> dbl) (mid : dbl -> dbl -> dbl) (shape : list kind).
  Definition opt_up (k : nat) (b m b2 : best) : Prop :=
    if dltb (b_entropy m) (b_entropy b) then b_entropy b2 = b_entropy m /\ b_attr b2 = b_attr m /\ (nth_error shape k = Some KDisc \/ b_value b2 = b_value m) else b2 = b.
  Lemma opt_weaker k b m b2 : opt b m b2 -> opt_up k b m b2.
  Proof. unfold opt, opt_up. destruct (dltb _ _); [intros ->|trivial]. split; [reflexivity|]. split; [reflexivity|right; reflexivity]. Qed.
  Lemma try_attr_opt k data cd b l2 cd2 b2 : k < length shape -> tabular shape data -> data <> [] -> try_attr entropy mid (data, cd, b) (Z.of_nat k) = Ok (l2, cd2, b2) ->
    exists m, try_attr entropy mid (data, cd, nothing) (Z.of_nat k) = Ok (l2, cd2, m) /\ is_nan (b_entropy m) = false /\ of_feature (Z.of_nat k) m /\ opt_up k b m b2.
  Proof.
    intros Hk T Hne E. destruct (nth_error shape k) as [kd|] eqn:Ek; [|apply nth_error_None in Ek; lia].
    unfold try_attr in E |- *. destruct data as [|x0 data0]; [contradiction|]. set (data := x0 :: data0) in *. change (atn data 0) with (Ok x0) in *. cbn [bind] in E |- *.
    destruct (typed_at _ x0 _ _ (tab_in _ data x0 T (or_introl eq_refl)) Ek) as (a & _ & Ha & Hga & _). rewrite Hga in *. cbn [bind] in E |- *.
    destruct kd as [| |m|]; simpl in Ha.
    - destruct Ha as [w ->]. cbn [isDiscreteIndexed isDiscrete] in E |- *. apply bind_ok in E as (e & Ee & E). injection E as <- <- <-. rewrite Ee. cbn [bind]. eexists. split; [reflexivity|].
      assert (O := opt_step b nothing b e (Z.of_nat k) (b_value nothing) eq_refl (opt_nothing b)). destruct O as [O N]. split; [exact N|]. split; [apply better_of; left; reflexivity|].
      unfold opt_up. unfold opt in O. revert O. unfold better. cbn [b_value nothing b_entropy]. destruct (dltb e PInf) eqn:L1; cbn [b_entropy].
      + destruct (dltb e (b_entropy b)); [|trivial]. intros _. cbn. split; [reflexivity|]. split; [reflexivity|left; exact Ek].
      + destruct (dltb e (b_entropy b)) eqn:L2; [|destruct (b_entropy b); trivial]. exfalso. destruct e, (b_entropy b); discriminate.
    - destruct Ha as [w ->]. cbn in E |- *. injection E as <- <- <-. eexists. split; [reflexivity|]. split; [reflexivity|]. split; [left; reflexivity|]. apply opt_weaker, opt_nothing.
    - destruct Ha as (w & i & ->). cbn [isDiscreteIndexed idx_max bind] in E |- *. apply bind_ok in E as (r & Er & E). injection E as <- <- <-.
      assert (G : forall vs cd b mm b2 r, is_nan (b_entropy mm) = false -> of_feature (Z.of_nat k) mm -> opt b mm b2 -> foldM (try_index entropy data (Z.of_nat k)) vs (cd, b2) = Ok r ->
        exists m', foldM (try_index entropy data (Z.of_nat k)) vs (cd, mm) = Ok (fst r, m') /\ is_nan (b_entropy m') = false /\ of_feature (Z.of_nat k) m' /\ opt b m' (snd r)).
      { induction vs as [|v vs IH]; intros cd0 b0 mm b1 r0 N F O E; cbn [foldM] in E |- *; [injection E as <-; exists mm; split; [reflexivity|]; split; [exact N|]; split; [exact F|exact O]|].
        unfold try_index at 1. unfold try_index at 1 in E. destruct (idx_class_distribution (Z.of_nat k) (Z.of_nat v) data) as [d| | |]; cbn [bind] in E |- *; try discriminate.
        destruct (0 <? csum d); cbn [bind] in E |- *; [|apply (IH _ _ _ _ _ N F O E)].
        match type of E with foldM _ _ (?c, better _ ?e _ ?v') = _ => destruct (opt_step b0 mm b1 e (Z.of_nat k) v' N O) as [O' N'] end.
        apply (IH _ _ _ _ _ N' (better_of _ _ _ _ F) O' E). }
      destruct (G _ _ _ _ _ _ (eq_refl : is_nan (b_entropy nothing) = false) (or_introl eq_refl) (opt_nothing b) Er) as (m' & Em & N & F & O). rewrite Em. cbn [bind fst snd]. exists m'. split; [reflexivity|]. split; [exact N|]. split; [exact F|]. apply opt_weaker, O.
    - destruct Ha as (q & ->). cbn [isDiscreteIndexed isDiscrete isContinuous] in E |- *. destruct (sort_by (Z.of_nat k) data) as [s| | |]; cbn [bind] in E |- *; try discriminate.
      apply bind_ok in E as (sc & Esc & E). injection E as <- <- <-.
      assert (G : forall l p L R mm b2 r, is_nan (b_entropy mm) = false -> of_feature (Z.of_nat k) mm -> opt b mm b2 -> foldM (try_cut entropy mid (length s) (Z.of_nat k)) l (mkScan p L R b2) = Ok r ->
        exists m', foldM (try_cut entropy mid (length s) (Z.of_nat k)) l (mkScan p L R mm) = Ok (mkScan (s_prev r) (s_left r) (s_right r) m') /\ is_nan (b_entropy m') = false /\ of_feature (Z.of_nat k) m' /\ opt b m' (s_best r)).
      { induction l as [|x l IH]; intros p L R mm b1 r0 N F O E; cbn [foldM] in E |- *; [injection E as <-; exists mm; split; [reflexivity|]; split; [exact N|]; split; [exact F|exact O]|].
        unfold try_cut at 1. unfold try_cut at 1 in E. destruct (cont_at (Z.of_nat k) x) as [v| | |]; cbn [bind] in E |- *; try discriminate. cbn [s_prev s_left s_right s_best] in E |- *.
        destruct p as [p|]; [|cbn [bind] in *; apply (IH _ _ _ _ _ _ N F O E)].
        destruct (negb (deqb v p)); cbn [bind] in E |- *; [|apply (IH _ _ _ _ _ _ N F O E)].
        match type of E with foldM _ _ (mkScan _ _ _ (better _ ?e _ ?v')) = _ => destruct (opt_step b mm b1 e (Z.of_nat k) v' N O) as [O' N'] end.
        apply (IH _ _ _ _ _ _ N' (better_of _ _ _ _ F) O' E). }
      destruct (G _ _ _ _ _ _ _ (eq_refl : is_nan (b_entropy nothing) = false) (or_introl eq_refl) (opt_nothing b) Esc) as (m' & Em & N & F & O). rewrite Em. cbn [bind s_best]. exists m'. split; [reflexivity|]. split; [exact N|]. split; [exact F|]. apply opt_weaker, O.
  Qed.
End Opt.

(** * The children of a node over the same data in another order *)
Section Children.
  Context (entropy : counter -> dbl) (mid : dbl -> dbl -> dbl) (shape : list kind) (u : units) (rarr : nat -> Z -> list nat).
  Hypothesis Hent : entropy_finite entropy.
  Hypothesis Hmid : mid_exact mid.
  Hypothesis Hu : increasing u.
  Hypothesis Hrarr : rarr_perm rarr.
  Notation build := (TreeModel.build entropy mid rarr).
  Lemma children_same param stump f d d' b b' ch : tabular shape d -> d <> [] -> same_data u d d' -> proper shape d (b_attr b) (b_value b) -> best_rel shape u b b' ->
    (do parts <- split d (b_attr b) (b_value b); mapM (fun p => build param stump f (snd p) (fst p)) parts) = Ok ch ->
    exists ch', (do parts <- split d' (b_attr b') (b_value b'); mapM (fun p => build param stump f (snd p) (fst p)) parts) = Ok ch' /\
      forall x y, typed shape x -> rescaled u x y -> picks ch ch' x y.
  Proof.
    intros Td Hned HD Hb B E. pose proof (build_same entropy mid shape u Hent Hmid Hu rarr Hrarr param stump f) as IH.
    destruct (split_same shape u Hu d d' b b' Td Hned HD Hb B) as (parts & parts' & Ep & Ep' & HP).
    rewrite Ep in E. rewrite Ep'. cbn [bind] in E |- *. rename E into Ech.
    destruct (split_proper shape d _ _ Td Hned Hb) as (parts2 & Ep2 & (_ & Pp & _) & _ & Pne). rewrite Ep in Ep2. injection Ep2 as <-.
    assert (Tp : Forall (fun p => tabular shape (snd p)) parts).
    { apply Forall_forall. intros p Hp. assert (Hc' : exists parts3, split d (b_attr b) (b_value b) = Ok parts3 /\ parts_ok shape d parts3).
      { destruct (split_proper shape d _ _ Td Hned Hb) as (p3 & E3 & O3 & _). exists p3. split; assumption. }
      destruct Hc' as (p3 & E3 & (O3 & _)). rewrite Ep in E3. injection E3 as <-. apply (tab_incl shape d); [|exact Td]. intros x Hx. apply (Permutation_in x O3). apply in_concat. exists (snd p). split; [apply in_map, Hp|exact Hx]. }
    destruct HP as [(HP & _)|(k & vs & vs' & Hk & PV & -> & -> & _)].
    - assert (G : exists ch', mapM (fun p => build param stump f (snd p) (fst p)) parts' = Ok ch' /\ Forall2 (fun n n' => cond_twin shape u (t_cond n) (t_cond n') /\ answers shape u n n') ch ch').
      { apply mapM_ok in Ech. clear - IH HP Ech Tp Pne Hent Hmid Hu Hrarr. revert ch Ech. induction HP as [|p p' parts parts' (C1 & C2 & C3) _ IHp]; intros ch Ech; inversion Ech as [|? t ? ch0 Et Ech0]; subst.
        - exists []. split; [reflexivity|constructor].
        - inversion Tp; inversion Pne; subst. destruct (IHp ltac:(assumption) ltac:(assumption) ch0 Ech0) as (ch' & E' & F').
          destruct (IH (snd p) (snd p') (fst p) (fst p') t ltac:(assumption) ltac:(assumption) C3 C2 Et) as (t' & Et' & A).
          exists (t' :: ch'). split; [apply mapM_ok; constructor; [exact Et'|apply mapM_ok, E']|]. constructor; [|exact F'].
          split; [|exact A]. rewrite (build_cond _ _ _ _ _ _ _ _ _ Et), (build_cond _ _ _ _ _ _ _ _ _ Et'). exact C1. }
      destruct G as (ch' & -> & F). eexists. split; [reflexivity|]. intros x y Tx R.
      apply (picks_pointwise shape u); [exact Tx|exact R|]. clear - F Tx R. induction F as [|n n' ch ch' (C & A) _ IHF]; constructor; [split; [exact C|exact (A x y Tx R)]|exact IHF].
    - set (part := fun d w => (text_cond k w, filter (fun x => String.eqb w (colD (Z.of_nat k) x)) d)).
      assert (G : forall w, In w vs -> exists t t', build param stump f (snd (part d w)) (text_cond k w) = Ok t /\ build param stump f (snd (part d' w)) (text_cond k w) = Ok t' /\ answers shape u t t').
      { intros w Hw. apply mapM_ok in Ech. assert (In (part d w) (text_parts k d vs)) as Hin by (apply in_map_iff; exists w; split; [reflexivity|exact Hw]).
        destruct (In_nth_error _ _ Hin) as (i & Hi). destruct (Forall2_nth_ex _ _ _ _ _ Ech Hi) as (t & _ & Et). cbn [fst snd part] in Et.
        destruct (IH (snd (part d w)) (snd (part d' w)) (text_cond k w) (text_cond k w) t) as (t' & Et' & A); [| | |reflexivity|exact Et|].
        - exact (proj1 (Forall_forall _ _) Tp _ Hin). - exact (proj1 (Forall_forall _ _) Pne _ Hin).
        - apply same_data_filter; [exact HD|]. intros x y Hx R. rewrite (rescaled_colD u shape x y k R (tab_in shape d x Td Hx) Hk). reflexivity.
        - exists t, t'. split; [exact Et|]. split; [exact Et'|exact A]. }
      set (child := fun d w => got (build param stump f (snd (part d w)) (text_cond k w))).
      assert (E1 : ch = map (child d) vs).
      { transitivity (map (fun p : condition * ilist => got (build param stump f (snd p) (fst p))) (text_parts k d vs)).
        - apply (mapM_map _ _ _ Ech). intros p _ t0 Et. rewrite Et. reflexivity.
        - unfold text_parts. rewrite map_map. reflexivity. }
      assert (E2 : mapM (fun p => build param stump f (snd p) (fst p)) (text_parts k d' vs') = Ok (map (child d') vs')).
      { assert (G' : forall w, In w vs' -> exists t', build param stump f (snd (part d' w)) (text_cond k w) = Ok t').
        { intros w Hw. destruct (G w (Permutation_in w (Permutation_sym PV) Hw)) as (_ & t' & _ & Et' & _). exists t'. exact Et'. }
        unfold text_parts. clear - G'. induction vs' as [|w vs' IHv]; [reflexivity|]. cbn [map mapM]. destruct (G' w (or_introl eq_refl)) as (t' & Et').
        cbn [fst snd]. cbn [part snd] in Et'. rewrite Et'. cbn [bind]. rewrite IHv by (intros v Hv; apply G'; right; exact Hv). cbn [bind]. unfold child, part. cbn [snd]. rewrite Et'. reflexivity. }
      rewrite E2. eexists. split; [reflexivity|]. rewrite E1. intros x y Tx R.
      apply (picks_text shape u k vs vs' (child d) (child d') x y Tx R Hk PV). intros w Hw. destruct (G w Hw) as (t1 & t1' & A1 & A2 & A3).
      unfold child. rewrite A1, A2. cbn [got]. split; [exact (build_cond _ _ _ _ _ _ _ _ _ A1)|]. split; [exact (build_cond _ _ _ _ _ _ _ _ _ A2)|exact (A3 x y Tx R)].
  Qed.
End Children.

(** * The search with and without the values of one feature *)
Section Flat.
  Context (entropy : counter -> dbl) (mid : dbl -> dbl -> dbl) (shape : list kind) (rarr : nat -> Z -> list nat).
  Hypothesis Hent : entropy_finite entropy.
  Hypothesis Hmid : mid_exact mid.
  Hypothesis Hrarr : rarr_perm rarr.
  Context (pos : nat) (a : attr) (h : instance -> instance).
  Hypothesis Ha : a_value a.
  Hypothesis Hlab : forall x, label (h x) = label x.
  Hypothesis Hcomp : forall x, composite (h x) = composite x.
  Hypothesis Hother : forall x k, typed shape x -> k <> Z.of_nat pos -> get_attr (h x) k = get_attr x k.
  Hypothesis Hpos : forall x, typed shape x -> get_attr (h x) (Z.of_nat pos) = Ok a.
  Hypothesis Htyped : forall x, typed shape x -> typed shape (h x).
  Notation best_rel := (best_rel shape same_units).

  Lemma same_incr_ : increasing same_units. Proof. intros i. reflexivity. Qed.
  Lemma h_tab l : tabular shape l -> tabular shape (map h l).
  Proof. intros T. apply Forall_forall. intros x Hx. apply in_map_iff in Hx as (y & <- & Hy). apply Htyped, (tab_in _ _ _ T Hy). Qed.
  Lemma h_seen l k : tabular shape l -> k <> Z.of_nat pos -> seen h k l.
  Proof. intros T Hk. apply Forall_forall. intros x Hx. apply Hother; [exact (tab_in _ _ _ T Hx)|exact Hk]. Qed.
  Definition overtaken (B B' : best) : Prop :=
    best_rel B B' \/ (b_attr B = Z.of_nat pos /\ forall e, dltb e (b_entropy B) = true -> dltb e (b_entropy B') = true).
  Lemma nothing_rel : best_rel nothing nothing.
  Proof. split; [reflexivity|]. split; [reflexivity|]. cbn. intros j Hj. lia. Qed.
  Lemma value_rel_eq j v w x y : value_rel shape same_units j v w -> (nth_error shape j = Some KDisc \/ x = v) -> (nth_error shape j = Some KDisc \/ y = w) -> value_rel shape same_units j x y.
  Proof. unfold value_rel. intros H [E| ->]; [rewrite E in *; trivial|]. intros [E| ->]; [rewrite E in *; trivial|exact H]. Qed.
  Lemma merge_rel k B m B2 B' m' B2' : of_feature (Z.of_nat k) m -> is_nan (b_entropy m) = false -> is_nan (b_entropy m') = false -> k <> pos ->
    best_rel m m' -> opt_up shape k B m B2 -> opt_up shape k B' m' B2' ->
    (b_attr B = Z.of_nat pos /\ forall e, dltb e (b_entropy B) = true -> dltb e (b_entropy B') = true) -> overtaken B2 B2'.
  Proof.
    intros F N N' Hk (M1 & M2 & M3) O O' (Hp & L). unfold opt_up in O, O'. destruct (dltb (b_entropy m) (b_entropy B)) eqn:L1.
    - left. assert (L2 : dltb (b_entropy m') (b_entropy B') = true) by (rewrite (dltb_proper _ _ (symmetry M1) _ _ (reflexivity _)); apply L, L1). rewrite L2 in O'.
      destruct O as (O1 & O2 & O3), O' as (O1' & O2' & O3'). split; [rewrite O1, O1'; exact M1|]. split; [rewrite O2, O2'; exact M2|].
      intros j Hj. rewrite O2 in Hj. assert (j = k). { destruct F as [-> |F]; [cbn in Hj; lia|]. rewrite F in Hj. lia. } subst j. apply (value_rel_eq k (b_value m) (b_value m')); [apply M3, Hj|exact O3|exact O3'].
    - subst B2. right. split; [exact Hp|]. intros e He. destruct (dltb (b_entropy m') (b_entropy B')) eqn:L2; [|subst B2'; apply L, He].
      destruct O' as (-> & _). rewrite (dltb_proper _ _ (reflexivity e) _ _ (symmetry M1)).
      destruct (dlt_num _ _ He) as [_ NB]. exact (dlt_le_trans _ _ _ He (dlt_total _ _ N NB L1)).
  Qed.
  Lemma step_other k la lb cd B B' la2 cd2 B2 lb2 cd2' B2' : k < length shape -> k <> pos -> tabular shape la -> la <> [] -> Permutation (map h la) lb -> overtaken B B' ->
    try_attr entropy mid (la, cd, B) (Z.of_nat k) = Ok (la2, cd2, B2) -> try_attr entropy mid (lb, cd, B') (Z.of_nat k) = Ok (lb2, cd2', B2') ->
    Permutation la la2 /\ Permutation (map h la2) lb2 /\ cd2 = cd2' /\ overtaken B2 B2'.
  Proof.
    intros Hk Hp T Hne P W E E'. assert (S : seen h (Z.of_nat k) la) by (apply h_seen; [exact T|lia]).
    pose proof (h_try_attr h Hlab entropy mid la cd B (Z.of_nat k) S) as EH. rewrite E in EH. unfold rmap in EH. cbn [bind fst snd] in EH.
    assert (Th : tabular shape (map h la)) by (apply h_tab, T). assert (Hneh : map h la <> []) by (destruct la; [contradiction|discriminate]).
    assert (HS : same_data same_units (map h la) lb) by (apply same_data_perm, P).
    assert (PP : Permutation la la2).
    { destruct (try_attr_opt entropy mid shape k la cd B la2 cd2 B2 Hk T Hne E) as (m & Em & _).
      exact (proj1 (try_attr_same entropy mid shape same_units Hmid same_incr_ la la cd nothing nothing k la2 cd2 m Hk T Hne (same_data_perm _ _ (Permutation_refl la)) nothing_rel Em)). }
    destruct W as [W|W].
    - destruct (try_attr_same entropy mid shape same_units Hmid same_incr_ (map h la) lb cd B B' k (map h la2) cd2 B2 Hk Th Hneh HS W EH) as (P1 & l2' & b2' & E2 & P2 & B2r).
      rewrite E' in E2. injection E2 as <- <- <-. split; [exact PP|]. split; [|split; [reflexivity|left; exact B2r]]. rewrite <- P2, <- P. apply Permutation_map, Permutation_sym, PP.
    - destruct (try_attr_opt entropy mid shape k (map h la) cd B _ _ _ Hk Th Hneh EH) as (m & Em & N & F & O).
      assert (Tb : tabular shape lb) by exact (tab_perm _ _ _ P Th). assert (Hneb : lb <> []) by (intros ->; apply Hneh, Permutation_nil, Permutation_sym, P).
      destruct (try_attr_opt entropy mid shape k lb cd B' _ _ _ Hk Tb Hneb E') as (m' & Em' & N' & F' & O').
      destruct (try_attr_same entropy mid shape same_units Hmid same_incr_ (map h la) lb cd nothing nothing k (map h la2) cd2 m Hk Th Hneh HS nothing_rel Em) as (P1 & l2' & b2' & E2 & P2 & Mr).
      rewrite Em' in E2. injection E2 as <- <- <-. split; [exact PP|]. split; [rewrite <- P2, <- P; apply Permutation_map, Permutation_sym, PP|]. split; [reflexivity|].
      exact (merge_rel k B m B2 B' m' B2' F N N' Hp Mr O O' W).
  Qed.
  Lemma step_pos la cd B B' la2 cd2 B2 : pos < length shape -> tabular shape la -> la <> [] -> overtaken B B' ->
    try_attr entropy mid (la, cd, B) (Z.of_nat pos) = Ok (la2, cd2, B2) -> Permutation la la2 /\ overtaken B2 B'.
  Proof.
    intros Hk T Hne W E. destruct (try_attr_opt entropy mid shape pos la cd B la2 cd2 B2 Hk T Hne E) as (m & Em & N & F & O).
    split; [exact (proj1 (try_attr_same entropy mid shape same_units Hmid same_incr_ la la cd nothing nothing pos la2 cd2 m Hk T Hne (same_data_perm _ _ (Permutation_refl la)) nothing_rel Em))|].
    unfold opt_up in O. destruct (dltb (b_entropy m) (b_entropy B)) eqn:L; [|subst; exact W]. destruct O as (O1 & O2 & _).
    right. split. { rewrite O2. destruct F as [-> |F]; [|exact F]. cbn [nothing b_entropy] in L. destruct (b_entropy B); discriminate. }
    intros e He. rewrite O1 in He. pose proof (dlt_trans _ _ _ He L) as L2. destruct W as [(W & _)|(_ & W)]; [|apply W, L2]. rewrite (dltb_proper _ _ (reflexivity e) _ _ (symmetry W)). exact L2.
  Qed.
  Lemma fold_flat ks : (forall k, In k ks -> k < length shape) -> forall la lb cd B B' la2 cd2 B2 lb2 cd2' B2', tabular shape la -> la <> [] -> Permutation (map h la) lb -> overtaken B B' ->
    keeps entropy la (la, cd, B) -> keeps entropy lb (lb, cd, B') ->
    foldM (try_attr entropy mid) (map Z.of_nat ks) (la, cd, B) = Ok (la2, cd2, B2) -> foldM (try_attr entropy mid) (map Z.of_nat ks) (lb, cd, B') = Ok (lb2, cd2', B2') ->
    Permutation la la2 /\ Permutation (map h la2) lb2 /\ overtaken B2 B2'.
  Proof.
    induction ks as [|k ks IH]; intros Hks la lb cd B B' la2 cd2 B2 lb2 cd2' B2' T Hne P W Ka Kb E E'.
    - injection E as <- <- <-. injection E' as <- <- <-. split; [reflexivity|]. split; [exact P|exact W].
    - cbn [map foldM] in E, E'. apply bind_ok in E as (((l1 & cd1) & b1) & E1 & E). apply bind_ok in E' as (((l1' & cd1') & b1') & E1' & E').
      pose proof (try_attr_keeps entropy mid la _ _ _ Ka E1) as Ka1. pose proof (try_attr_keeps entropy mid lb _ _ _ Kb E1') as Kb1.
      assert (Hneb : lb <> []) by (intros ->; apply Hne; apply Permutation_sym, Permutation_nil in P; destruct la; [reflexivity|discriminate]).
      assert (G : Permutation la l1 /\ Permutation (map h l1) l1' /\ cd1 = cd1' /\ overtaken b1 b1').
      { destruct (Nat.eq_dec k pos) as [-> |Hk]; [|exact (step_other k la lb cd B B' l1 cd1 b1 l1' cd1' b1' (Hks k (or_introl eq_refl)) Hk T Hne P W E1 E1')].
        destruct (step_pos la cd B B' l1 cd1 b1 (Hks pos (or_introl eq_refl)) T Hne W E1) as (P1 & W1).
        destruct Kb as (_ & Kb2 & Kb3). cbn [fst snd] in Kb2, Kb3.
        assert (C1 : cd1 = cd). { destruct Ka1 as (_ & Ka1 & _). destruct Ka as (_ & Ka & _). cbn [fst snd] in *. congruence. }
        rewrite (flat_attr entropy mid (Z.of_nat pos) a lb cd B' Ha Hneb) in E1'; [|intros x Hx; apply (Permutation_in x (Permutation_sym P)) in Hx; apply in_map_iff in Hx as (y & <- & Hy); apply Hpos, (tab_in _ _ _ T Hy)|exact Kb2|rewrite Kb2; exact Kb3].
        injection E1' as <- <- <-. split; [exact P1|]. split; [rewrite <- P; apply Permutation_map, Permutation_sym, P1|]. split; [exact C1|exact W1]. }
      destruct G as (P1 & P2 & <- & W1).
      assert (CA : class_distribution la = class_distribution l1) by (rewrite !class_distribution_cofl; apply cofl_perm, Permutation_map, P1).
      assert (CB : class_distribution lb = class_distribution l1') by (rewrite !class_distribution_cofl; apply cofl_perm, Permutation_map, Kb1).
      destruct (IH (fun j Hj => Hks j (or_intror Hj)) l1 l1' cd1 b1 b1' la2 cd2 B2 lb2 cd2' B2') as (Q1 & Q2 & Q3); try assumption.
      + exact (tab_perm _ _ _ P1 T). + intros ->. apply Hne, Permutation_nil, Permutation_sym, P1.
      + destruct Ka1 as (_ & K2 & K3). cbn [fst snd] in *. split; [reflexivity|]. cbn [fst snd]. rewrite <- CA. split; assumption.
      + destruct Kb1 as (_ & K2 & K3). cbn [fst snd] in *. split; [reflexivity|]. cbn [fst snd]. rewrite <- CB. split; assumption.
      + split; [etransitivity; eassumption|]. split; assumption.
  Qed.
  Lemma dlt_irrefl d : dltb d d = false.
  Proof. destruct d as [q| | |]; try reflexivity. apply (deqb_refl (Fin q) eq_refl). Qed.
  Lemma search_flat param l l2 b : tabular shape l -> l <> [] -> search entropy mid rarr param l = Ok (l2, b) -> b_attr b <> Z.of_nat pos ->
    exists l2' b', search entropy mid rarr param (map h l) = Ok (l2', b') /\ Permutation l l2 /\ Permutation (map h l2) l2' /\ best_rel b b'.
  Proof.
    intros T Hne E Hb. assert (Th := h_tab l T). assert (Hneh : map h l <> []) by (destruct l; [contradiction|discriminate]).
    destruct (search_ok entropy mid shape Hent Hmid rarr param (map h l) Hrarr Th Hneh) as (l2' & b' & E' & _ & _). exists l2', b'. split; [exact E'|].
    unfold search in E, E'. apply bind_ok in E as (x0 & E0 & E). apply bind_ok in E as (ks & Ek & E). apply bind_ok in E as (((l3 & cd3) & b3) & Ef & E). injection E as -> ->.
    apply bind_ok in E' as (y0 & E0' & E'). apply bind_ok in E' as (ks' & Ek' & E'). apply bind_ok in E' as (((l3' & cd3') & b3') & Ef' & E'). injection E' as -> ->.
    assert (Tx : typed shape x0) by exact (tab_in _ _ _ T (atn_in _ _ _ E0)). assert (Ty : typed shape y0) by exact (tab_in _ _ _ Th (atn_in _ _ _ E0')).
    assert (AO : attr_order rarr param y0 = attr_order rarr param x0) by (unfold attr_order, attr_count; rewrite <- (Forall2_len _ _ _ Tx), <- (Forall2_len _ _ _ Ty); reflexivity).
    rewrite AO, Ek in Ek'. injection Ek' as <-. destruct (attr_order_ok shape rarr param x0 Hrarr Tx) as (ns & En & Hns). rewrite Ek in En. injection En as ->.
    rewrite (h_class_distribution h Hlab) in Ef'.
    set (b0 := mkBest (entropy (class_distribution l)) (-1) d0) in *.
    destruct (fold_flat ns Hns l (map h l) (class_distribution l) b0 b0 l2 cd3 b l2' cd3' b' T Hne (Permutation_refl _)) with (4 := Ef) (5 := Ef') as (P1 & P2 & W).
    - left. split; [reflexivity|]. split; [reflexivity|]. cbn. intros j Hj. lia.
    - split; [reflexivity|]. split; [reflexivity|]. apply dlt_irrefl.
    - split; [reflexivity|]. cbn [fst snd b_entropy]. rewrite (h_class_distribution h Hlab). split; [reflexivity|]. apply dlt_irrefl.
    - split; [exact P1|]. split; [exact P2|]. destruct W as [W|(W & _)]; [exact W|contradiction].
  Qed.

  (** * The tree *)
  Notation build := (TreeModel.build entropy mid rarr).
  Lemma rescaled_refl_ x : rescaled same_units x x. Proof. apply rescaled_same. Qed.
  Lemma h_satisfy c x : typed shape x -> c_index c <> Z.of_nat pos -> satisfy c (h x) = satisfy c x.
  Proof.
    intros T Hc. unfold satisfy, index_at, disc_at, cont_at. rewrite (Hother x _ T Hc). reflexivity.
  Qed.
  Lemma pick_flat ch ch' x o' : typed shape x -> Forall2 (fun n n' => t_cond n = t_cond n' /\ c_index (t_cond n) <> Z.of_nat pos /\ same_at n n' x (h x)) ch ch' ->
    pick ch' (h x) = Ok o' -> exists o, pick ch x = Ok o /\ match o, o' with None, None => True | Some n, Some n' => same_at n n' x (h x) | _, _ => False end.
  Proof.
    intros T. induction 1 as [|n n' ch ch' (C & Hc & A) _ IH]; intros E; [injection E as <-; exists None; split; [reflexivity|exact I]|]. cbn [pick] in E |- *. rewrite <- C, (h_satisfy _ _ T Hc) in E.
    destruct (satisfy (t_cond n) x) as [[|]|e|k|]; cbn [bind] in E |- *; try discriminate; [injection E as <-; exists (Some n); split; [reflexivity|exact A]|apply IH, E].
  Qed.
  Lemma same_at_trans t1 t2 t3 x y z : same_at t1 t2 x y -> same_at t2 t3 y z -> same_at t1 t3 x z.
  Proof. intros (A & B) (A' & B'). split; [intros mi; rewrite A; apply A'|rewrite B; exact B']. Qed.
  Lemma node_at lab leaf d c c' ch ch' x : (leaf = false -> picks ch ch' x (h x)) -> same_at (Node lab leaf d c ch) (Node lab leaf d c' ch') x (h x).
  Proof.
    intros H. assert (C1 : isComposite x = isComposite (h x)) by (unfold isComposite; rewrite Hcomp; reflexivity).
    assert (C2 : possible_labels x = possible_labels (h x)) by (unfold possible_labels; rewrite Hcomp, ?Hlab; reflexivity). destruct leaf.
    - split; [|reflexivity]. intros mi. cbn [node_predict]. rewrite C1, C2. reflexivity.
    - destruct (H eq_refl) as (o & o' & E & E' & P). split.
      + intros mi. destruct (isComposite x) eqn:Ex.
        * rewrite (predict_composite mi _ _ _ _ _ Ex), (predict_composite mi _ _ _ _ _ (eq_sym C1)), E, E', C2. cbn [bind].
          destruct o, o'; try contradiction; [rewrite (proj1 P mi)|]; reflexivity.
        * rewrite (predict_plain mi _ _ _ _ _ Ex), (predict_plain mi _ _ _ _ _ (eq_sym C1)), E, E'. cbn [bind].
          destruct o, o'; try contradiction; [exact (proj1 P mi)|reflexivity].
      + rewrite !probability_pick, E, E'. cbn [bind]. destruct o, o'; try contradiction; [exact (proj2 P)|reflexivity].
  Qed.
  Lemma h_heads l : class_labels (map h l) = class_labels l /\ distinct_labels (map h l) = distinct_labels l.
  Proof.
    split; [unfold class_labels; rewrite map_map; apply map_ext, Hlab|].
    unfold distinct_labels. generalize (@nil string). induction l as [|x l IH]; intros acc; [reflexivity|]. cbn. rewrite Hlab. apply IH.
  Qed.
  Lemma proper_flat d k v : tabular shape d -> k <> Z.of_nat pos -> proper shape d k v -> proper shape (map h d) k v.
  Proof.
    intros T Hk (j & Ej & H). exists j. split; [exact Ej|].
    assert (CI : forall x, In x d -> colI k (h x) = colI k x) by (intros x Hx; unfold colI, index_at; rewrite (Hother x k (tab_in _ _ _ T Hx) Hk); reflexivity).
    assert (CD : forall x, In x d -> colD k (h x) = colD k x) by (intros x Hx; unfold colD, disc_at; rewrite (Hother x k (tab_in _ _ _ T Hx) Hk); reflexivity).
    assert (CC : forall x, In x d -> colC k (h x) = colC k x) by (intros x Hx; unfold colC, cont_at; rewrite (Hother x k (tab_in _ _ _ T Hx) Hk); reflexivity).
    destruct H as [(m & w & A & B & (x & Hx & C) & (y & Hy & D))|[(A & x & y & Hx & Hy & D)|(A & q & x & y & B & Hx & Hy & C & D)]].
    - left. exists m, w. split; [exact A|]. split; [exact B|]. split; [exists (h x)|exists (h y)]; rewrite CI by assumption; split; try assumption; apply in_map; assumption.
    - right; left. split; [exact A|]. exists (h x), (h y). rewrite !CD by assumption. split; [apply in_map, Hx|]. split; [apply in_map, Hy|exact D].
    - right; right. split; [exact A|]. exists q, (h x), (h y). rewrite !CC by assumption. split; [exact B|]. split; [apply in_map, Hx|]. split; [apply in_map, Hy|]. split; assumption.
  Qed.
  Lemma split_index d k v parts : split d k v = Ok parts -> Forall (fun p => c_index (fst p) = k) parts.
  Proof.
    unfold split. intros E. apply bind_ok in E as (x0 & _ & E). apply bind_ok in E as (c & _ & E). destruct (isDiscreteIndexed c).
    { apply bind_ok in E as (m & _ & E). apply bind_ok in E as (gs & _ & E). apply bind_ok in E as (g0 & _ & E). apply bind_ok in E as (g1 & _ & E). injection E as <-. repeat constructor. }
    destruct (isDiscrete c).
    { apply bind_ok in E as (vs & _ & E). apply bind_ok in E as (gs & _ & E). apply mapM_ok in E. induction E as [|iv p l parts H _ IH]; constructor; [|exact IH]. apply bind_ok in H as (g & _ & H). injection H as <-. reflexivity. }
    destruct (isContinuous c); [|injection E as <-; constructor].
    apply bind_ok in E as (gs & _ & E). apply bind_ok in E as (g0 & _ & E). apply bind_ok in E as (g1 & _ & E). injection E as <-. repeat constructor.
  Qed.
  Lemma build_flat param stump : forall fuel l c t, tabular shape l -> l <> [] -> build param stump fuel l c = Ok t -> ignores pos t ->
    exists t', build param stump fuel (map h l) c = Ok t' /\ forall x, typed shape x -> same_at t t' x (h x).
  Proof.
    induction fuel as [|f IH]; intros l c t T Hne E I; [discriminate E|].
    cbn [TreeModel.build] in E |- *. destruct (h_heads l) as [-> ->].
    assert (Leaf : forall lab d x, same_at (Node lab true d c []) (Node lab true d c []) x (h x)) by (intros; apply node_at; discriminate).
    destruct (length (distinct_labels l) =? 1); [injection E as <-; eexists; split; [reflexivity|intros; apply Leaf]|].
    destruct (stump && negb (c_index c =? -1)%Z); [injection E as <-; eexists; split; [reflexivity|intros; apply Leaf]|].
    apply bind_ok in E as ((d & b) & Es & E).
    destruct (search_ok entropy mid shape Hent Hmid rarr param l Hrarr T Hne) as (d0' & b0 & Es0 & P0 & Hb). rewrite Es in Es0. injection Es0 as <- <-.
    assert (Td : tabular shape d) by exact (tab_perm _ _ _ P0 T). assert (Hned : d <> []) by (intros ->; apply Hne, Permutation_nil, Permutation_sym, P0).
    destruct (Z.eqb_spec (b_attr b) (-1)) as [Eb|Eb].
    { injection E as <-. destruct (search_flat param l d b T Hne Es) as (d' & b' & Es' & _ & _ & (_ & Ba & _)); [rewrite Eb; lia|]. rewrite Es'. cbn [bind]. rewrite <- Ba, Eb. eexists. split; [reflexivity|intros; apply Leaf]. }
    destruct Hb as [Hb|Hb]; [contradiction|].
    apply bind_ok in E as (parts & Ep & E). apply bind_ok in E as (ch & Ech & E). injection E as <-. inversion I as [|? ? ? ? I1 I2]; subst.
    destruct (split_proper shape d _ _ Td Hned Hb) as (parts2 & Ep2 & (O3 & Pp & _) & P2 & Pne). rewrite Ep in Ep2. injection Ep2 as <-.
    assert (Tp : Forall (fun p => tabular shape (snd p)) parts).
    { apply Forall_forall. intros p Hp. apply (tab_incl shape d); [|exact Td]. intros x Hx. apply (Permutation_in x O3). apply in_concat. exists (snd p). split; [apply in_map, Hp|exact Hx]. }
    assert (Hpos' : b_attr b <> Z.of_nat pos). { destruct parts as [|p0 parts]; [cbn in P2; lia|]. pose proof (split_index _ _ _ _ Ep) as SI. inversion SI as [|? ? S0 _]; subst.
      cbn [mapM] in Ech. apply bind_ok in Ech as (t0 & E0 & Ech). apply bind_ok in Ech as (ts & _ & Ech). injection Ech as <-. inversion I1 as [|? ? J _]; subst. rewrite (build_cond _ _ _ _ _ _ _ _ _ E0), S0 in J. exact J. }
    clear P2. destruct (search_flat param l d b T Hne Es Hpos') as (d' & b' & Es' & _ & P2 & B). rewrite Es'. cbn [bind]. rewrite <- (proj1 (proj2 B)). destruct (Z.eqb_spec (b_attr b) (-1)); [contradiction|]. rewrite (proj1 (proj2 B)).
    (* the children over the flattened data in the order of [d] *)
    assert (G : exists ch1, mapM (fun p => build param stump f (snd p) (fst p)) (map (fun p : condition * ilist => (fst p, map h (snd p))) parts) = Ok ch1 /\
      Forall2 (fun n n' => t_cond n = t_cond n' /\ c_index (t_cond n) <> Z.of_nat pos /\ forall x, typed shape x -> same_at n n' x (h x)) ch ch1).
    { apply mapM_ok in Ech. clear - IH Ech Tp Pne I1 I2. induction Ech as [|p t parts ch Et _ IHp]; [exists []; split; [reflexivity|constructor]|].
      inversion Tp; inversion Pne; inversion I1; inversion I2; subst. destruct IHp as (ch1 & E1 & F1); try assumption.
      destruct (IH (snd p) (fst p) t) as (t' & Et' & A); try assumption. exists (t' :: ch1). split; [cbn [map mapM fst snd]; rewrite Et'; cbn [bind]; rewrite E1; reflexivity|].
      constructor; [|exact F1]. split; [rewrite (build_cond _ _ _ _ _ _ _ _ _ Et), (build_cond _ _ _ _ _ _ _ _ _ Et'); reflexivity|]. split; assumption. }
    destruct G as (ch1 & E1 & F1).
    assert (Hb' : proper shape (map h d) (b_attr b) (b_value b)). { exact (proper_flat d _ _ Td Hpos' Hb). }
    destruct (children_same entropy mid shape same_units rarr Hent Hmid same_incr_ Hrarr param stump f (map h d) d' b b' ch1) as (ch2 & E2 & K2).
    { apply h_tab, Td. } { destruct d; [contradiction|discriminate]. } { apply same_data_perm, P2. } { exact Hb'. } { exact B. }
    { rewrite (h_split h) by (apply h_seen; assumption). rewrite Ep. unfold rmap. cbn [bind]. exact E1. }
    apply bind_ok in E2 as (parts' & Ep' & E2). rewrite Ep'. cbn [bind]. rewrite E2. cbn [bind]. eexists. split; [reflexivity|].
    intros x Tx. apply node_at. intros _. destruct (K2 (h x) (h x) (Htyped _ Tx) (rescaled_refl_ _)) as (o1 & o2 & Q1 & Q2 & Q3).
    destruct (pick_flat ch ch1 x o1 Tx) with (2 := Q1) as (o & Q0 & Q4).
    { clear - F1 Tx. induction F1 as [|m m' ch ch1 (A & B & C) _ IH]; constructor; [split; [exact A|split; [exact B|exact (C x Tx)]]|exact IH]. }
    exists o, o2. split; [exact Q0|]. split; [exact Q2|]. destruct o as [m|], o1 as [m1|], o2 as [m2|]; try contradiction; [|exact Logic.I]. exact (same_at_trans _ _ _ _ _ _ Q4 Q3).
  Qed.
End Flat.
