(** A feature that is the same in all training instances: decision trees (C138). *)
From Coq Require Import String ZArith QArith Bool Lia Permutation List.
From Verif Require HeapProofs.
From Verif Require Import Base Spec BaseLemmas DblLemmas SortLemmas AttrModel DataSetModel InstanceListModel PartitionModel PerformanceModel ListSpec ListProofs PartitionProofs
  TreeModel TreeProofs EnsembleModel RenameProofs ConstSpec.
Import ListNotations.
Local Open Scope string_scope.
Local Open Scope list_scope.
Local Open Scope nat_scope.

Lemma foldM_sim_inv {S S' X} (I : S -> Prop) (phi : S -> S') (g : S -> X -> res S) (g' : S' -> X -> res S') l :
  (forall s x, In x l -> I s -> g' (phi s) x = rmap phi (g s x)) -> (forall s x s1, In x l -> I s -> g s x = Ok s1 -> I s1) ->
  forall s, I s -> foldM g' l (phi s) = rmap phi (foldM g l s).
Proof.
  induction l as [|x l IH]; intros H1 H2 s Hs; [reflexivity|]. cbn [foldM]. rewrite (H1 s x (or_introl eq_refl) Hs), bind_rmap, rmap_bind.
  destruct (g s x) as [s1| | |] eqn:E; cbn [bind]; try reflexivity. apply IH; [intros; apply H1; [right|]; assumption|intros s' x' s1' Hx; apply H2; right; exact Hx|exact (H2 s x s1 (or_introl eq_refl) Hs E)].
Qed.
Lemma foldM_keeps {S X} (I : S -> Prop) (g : S -> X -> res S) l : (forall s x s1, In x l -> I s -> g s x = Ok s1 -> I s1) ->
  forall s s', I s -> foldM g l s = Ok s' -> I s'.
Proof.
  induction l as [|x l IH]; intros H s s' Hs E; cbn [foldM] in E; [injection E as <-; exact Hs|]. apply bind_ok in E as (s1 & E1 & E).
  apply (IH (fun s x s1 Hx => H s x s1 (or_intror Hx)) s1 s'); [exact (H s x s1 (or_introl eq_refl) Hs E1)|exact E].
Qed.
Lemma foldM_same {A B} (f g : A -> B -> res A) xs : (forall a x, In x xs -> f a x = g a x) -> forall a, foldM f xs a = foldM g xs a.
Proof.
  intros H. induction xs as [|x xs IH]; intros a; [reflexivity|]. cbn [foldM]. rewrite (H a x (or_introl eq_refl)). destruct (g a x); cbn [bind]; try reflexivity.
  apply IH. intros; apply H; right; assumption.
Qed.
Lemma ssort_flat {A} (lt : A -> A -> bool) l : (forall x y, In x l -> In y l -> lt x y = false) -> ssort lt l = l.
Proof.
  intros H. induction l as [|x l IH]; [reflexivity|]. unfold ssort in *. cbn [fold_right]. rewrite IH by (intros; apply H; right; assumption).
  destruct l as [|y l]; [reflexivity|]. cbn [sinsert]. rewrite H; [reflexivity|right; left; reflexivity|left; reflexivity].
Qed.
Lemma sort_by_perm k l l' : sort_by k l = Ok l' -> Permutation l l'.
Proof.
  unfold sort_by. destruct (length l <=? 1); [intros E; injection E as <-; reflexivity|]. intros E. apply bind_ok in E as (keys & Ek & E). destruct (existsb is_nan keys) eqn:E0; [discriminate|]. injection E as <-.
  rewrite <- (ssort_perm (fun p q : dbl * instance => dltb (fst p) (fst q)) (combine keys l)).
  assert (L : length keys = length l).
  { clear E0. revert keys Ek. induction l as [|x l IH]; intros keys Ek; cbn [mapM] in Ek; [injection Ek as <-; reflexivity|]. apply bind_ok in Ek as (v & _ & Ek). apply bind_ok in Ek as (vs & Ev & Ek). injection Ek as <-. cbn. f_equal. apply IH, Ev. }
  clear Ek E0. revert l L. induction keys as [|d keys IH]; intros [|x l] L; try discriminate; [reflexivity|]. cbn. apply perm_skip, IH. injection L as L. exact L.
Qed.
Lemma add_to_in (P : instance -> Prop) (gs : list ilist) g x gs' : Forall (Forall P) gs -> P x -> add_to gs g x = Ok gs' -> Forall (Forall P) gs'.
Proof.
  intros H Hx E. unfold add_to in E. unfold ilist in *. apply bind_ok in E as (l & El & E). injection E as <-. unfold atn in El. destruct (nth_error gs g) as [l0|] eqn:En; [|discriminate]. injection El as ->.
  assert (Hl : Forall P l) by (rewrite Forall_forall in H; apply H, (nth_error_In _ _ En)). clear En.
  assert (Hn : Forall P (l ++ [x])) by (apply Forall_app; split; [exact Hl|constructor; [exact Hx|constructor]]).
  revert g. induction H as [|l1 gs H1 H2 IH]; intros g; [destruct g; apply Forall_nil|]. destruct g as [|g]; cbn [upd]; apply Forall_cons; try assumption. apply IH.
Qed.
Lemma nth_all {A} (P : A -> Prop) l i x : Forall P l -> atn l i = Ok x -> P x.
Proof. unfold atn. intros H E. destruct (nth_error l i) eqn:En; [|discriminate]. injection E as <-. rewrite Forall_forall in H. apply H, (nth_error_In _ _ En). Qed.
Lemma split_within (P : instance -> Prop) data k v parts : Forall P data -> split data k v = Ok parts -> Forall (fun p => Forall P (snd p)) parts.
Proof.
  intros H E. unfold split in E. apply bind_ok in E as (x0 & _ & E). apply bind_ok in E as (a & _ & E). rewrite Forall_forall in H.
  assert (E2 : Forall (Forall P) [[]; []]) by (repeat constructor).
  destruct (isDiscreteIndexed a).
  { apply bind_ok in E as (m & _ & E). apply bind_ok in E as (gs & Eg & E). apply bind_ok in E as (g0 & E0 & E). apply bind_ok in E as (g1 & E1 & E). injection E as <-.
    assert (G : Forall (Forall P) gs). { refine (foldM_keeps (Forall (Forall P)) _ _ _ _ _ E2 Eg). intros s x s1 Hx Hs Es. apply bind_ok in Es as (i & _ & Es). exact (add_to_in P _ _ _ _ Hs (H x Hx) Es). }
    repeat constructor; cbn [snd]; eapply nth_all; eassumption. }
  destruct (isDiscrete a).
  { apply bind_ok in E as (vs & _ & E). apply bind_ok in E as (gs & Eg & E). unfold part_disc in Eg. apply bind_ok in Eg as (vs' & _ & Eg).
    assert (G : Forall (Forall P) gs).
    { refine (foldM_keeps (Forall (Forall P)) _ _ _ _ _ _ Eg); [intros s x s1 Hx Hs Es; apply bind_ok in Es as (i & _ & Es); exact (add_to_in P _ _ _ _ Hs (H x Hx) Es)|].
      apply Forall_forall. intros g Hg. apply repeat_spec in Hg. subst g. constructor. }
    revert parts E. induction (combine (seq 0 (length vs)) vs) as [|iv l IH]; intros parts E; cbn [mapM] in E; [injection E as <-; constructor|].
    apply bind_ok in E as (p & Ep & E). apply bind_ok in E as (ps & Eps & E). injection E as <-. apply bind_ok in Ep as (g & Egg & Ep). injection Ep as <-. constructor; [eapply nth_all; eassumption|apply IH, Eps]. }
  destruct (isContinuous a); [|injection E as <-; constructor].
  apply bind_ok in E as (gs & Eg & E). apply bind_ok in E as (g0 & E0 & E). apply bind_ok in E as (g1 & E1 & E). injection E as <-.
  assert (G : Forall (Forall P) gs). { refine (foldM_keeps (Forall (Forall P)) _ _ _ _ _ E2 Eg). intros s x s1 Hx Hs Es. apply bind_ok in Es as (i & _ & Es). exact (add_to_in P _ _ _ _ Hs (H x Hx) Es). }
  repeat constructor; cbn [snd]; eapply nth_all; eassumption.
Qed.
Lemma idx_class_sub k v l d : idx_class_distribution k v l = Ok d -> exists l1 l2, Permutation (map label l) (l1 ++ l2) /\ d = cofl l1.
Proof.
  unfold idx_class_distribution. assert (G : forall l acc d, foldM (fun c x => do i <- index_at k x; Ok (if (i =? v)%Z then cput c (label x) else c)) l (cofl acc) = Ok d ->
    exists l1 l2, Permutation (map label l) (l1 ++ l2) /\ d = cofl (acc ++ l1)).
  { clear. induction l as [|x l IH]; intros acc d E; cbn [foldM] in E.
    - injection E as <-. exists [], []. split; [apply perm_nil|rewrite app_nil_r; reflexivity].
    - apply bind_ok in E as (c & Ec & E). apply bind_ok in Ec as (i & _ & Ec). injection Ec as <-. destruct (i =? v)%Z.
      + replace (cput (cofl acc) (label x)) with (cofl (acc ++ [label x])) in E by (unfold cofl; rewrite fold_left_app; reflexivity).
        destruct (IH _ _ E) as (l1 & l2 & P & ->). exists (label x :: l1), l2. cbn [map app]. split; [apply perm_skip, P|]. rewrite <- app_assoc. reflexivity.
      + destruct (IH _ _ E) as (l1 & l2 & P & ->). exists l1, (label x :: l2). cbn [map]. split; [|reflexivity]. rewrite P. apply Permutation_middle. }
  intros E. apply (G l [] d E).
Qed.

(** columns with one value only *)
Lemma flat_disc k v l : l <> [] -> (forall x, In x l -> disc_at k x = Ok v) -> attr_class_distribution k l = Ok [class_distribution l].
Proof.
  intros Hne H. unfold attr_class_distribution.
  assert (HV : value_list k l = Ok [v]).
  { unfold value_list. assert (G : forall l', (forall x, In x l' -> disc_at k x = Ok v) -> foldM (fun acc x => do v <- disc_at k x; Ok (push_new acc v)) l' [v] = Ok [v]).
    { induction l' as [|x l' IH]; intros H'; [reflexivity|]. cbn [foldM]. rewrite (H' x (or_introl eq_refl)). cbn [bind]. unfold push_new. cbn [mem_str existsb]. rewrite String.eqb_refl. apply IH. intros; apply H'; right; assumption. }
    destruct l as [|x l]; [contradiction|]. cbn [foldM]. rewrite (H x (or_introl eq_refl)). cbn [bind]. apply (G l). intros; apply H; right; assumption. }
  rewrite HV. cbn [bind length repeat]. unfold class_distribution. generalize (@nil (string * nat)). clear HV Hne. induction l as [|x l IH]; intros c; [reflexivity|].
  cbn [foldM fold_left]. rewrite (H x (or_introl eq_refl)). cbn [bind find_pos]. rewrite String.eqb_refl. cbn [idxn nth_error bind upd]. apply IH. intros; apply H; right; assumption.
Qed.
Lemma flat_idx k i v l : (forall x, In x l -> index_at k x = Ok i) -> idx_class_distribution k v l = Ok (if (i =? v)%Z then class_distribution l else []).
Proof.
  intros H. unfold idx_class_distribution, class_distribution. generalize (@nil (string * nat)). induction l as [|x l IH]; intros c; [destruct (i =? v)%Z; reflexivity|].
  cbn [foldM fold_left]. rewrite (H x (or_introl eq_refl)). cbn [bind]. rewrite IH by (intros; apply H; right; assumption). destruct (i =? v)%Z; reflexivity.
Qed.
Lemma deqb_refl d : is_nan d = false -> deqb d d = true /\ dltb d d = false.
Proof. destruct d; cbn [is_nan]; intros H; try discriminate; split; try reflexivity; unfold deqb, dleb, dltb; rewrite (proj2 (Qle_bool_iff q q) (Qle_refl q)); reflexivity. Qed.
Lemma flat_sort k d l : is_nan d = false -> (forall x, In x l -> cont_at k x = Ok d) -> sort_by k l = Ok l.
Proof.
  intros Hd H. unfold sort_by. destruct (length l <=? 1); [reflexivity|].
  assert (M : mapM (cont_at k) l = Ok (repeat d (length l))).
  { induction l as [|x l IH]; [reflexivity|]. cbn [mapM length repeat]. rewrite (H x (or_introl eq_refl)), IH by (intros; apply H; right; assumption). reflexivity. }
  rewrite M. cbn [bind]. assert (N : existsb is_nan (repeat d (length l)) = false) by (induction l; [reflexivity|]; cbn; rewrite Hd; apply IHl; [intros; apply H; right; assumption|]; cbn [mapM] in M; rewrite (H a (or_introl eq_refl)) in M; cbn [bind] in M; destruct (mapM (cont_at k) l); cbn [bind] in M; try discriminate; injection M as <-; reflexivity).
  rewrite N. f_equal. rewrite ssort_flat.
  - clear. induction l as [|x l IH]; [reflexivity|]. cbn. rewrite IH. reflexivity.
  - intros p q Hp Hq. destruct p as [dp xp], q as [dq xq]. apply in_combine_l, repeat_spec in Hp. apply in_combine_l, repeat_spec in Hq. subst. cbn [fst]. apply (deqb_refl d Hd).
Qed.
Lemma flat_cuts entropy mid n k d l : is_nan d = false -> (forall x, In x l -> cont_at k x = Ok d) ->
  forall s, s_prev s = None \/ s_prev s = Some d -> exists s', foldM (try_cut entropy mid n k) l s = Ok s' /\ s_best s' = s_best s.
Proof.
  intros Hd. induction l as [|x l IH]; intros H s Hs; [exists s; split; reflexivity|]. cbn [foldM]. unfold try_cut at 1. rewrite (H x (or_introl eq_refl)). cbn [bind].
  assert (H' : forall x, In x l -> cont_at k x = Ok d) by (intros; apply H; right; assumption).
  destruct Hs as [-> | ->]; [|rewrite (proj1 (deqb_refl d Hd)); cbn [negb]]; cbn [bind].
  - destruct (IH H' (mkScan (Some d) (crem (s_left s) (label x)) (cput (s_right s) (label x)) (s_best s)) (or_intror eq_refl)) as (s' & E & B). exists s'. split; [exact E|exact B].
  - destruct (IH H' (mkScan (Some d) (crem (s_left s) (label x)) (cput (s_right s) (label x)) (s_best s)) (or_intror eq_refl)) as (s' & E & B). exists s'. split; [exact E|exact B].
Qed.

Section Const.
  Context (pos : nat) (a : attr).
  Hypothesis Ha : a_value a.
  Notation wf := (with_feature pos a).
  Notation up := (moved pos).
  Notation wide x := (pos <= length (attrs x)).

  Lemma get_moved b x k : wide x -> get_attr (with_feature pos b x) (up k) = get_attr x k.
  Proof.
    intros W. unfold get_attr, at_, moved. cbn [with_feature attrs]. unfold insert_at. assert (Lf : length (firstn pos (attrs x)) = pos) by (apply firstn_length_le; exact W).
    destruct (Z.ltb_spec k (Z.of_nat pos)) as [L|L].
    - destruct (Z.ltb_spec k 0); [reflexivity|]. rewrite nth_error_app1 by (rewrite Lf; lia). replace (nth_error (firstn pos (attrs x)) (Z.to_nat k)) with (nth_error (attrs x) (Z.to_nat k)); [reflexivity|].
      rewrite <- (firstn_skipn pos (attrs x)) at 1. rewrite nth_error_app1 by (rewrite Lf; lia). reflexivity.
    - destruct (Z.ltb_spec (k + 1) 0); [lia|]. destruct (Z.ltb_spec k 0); [lia|]. rewrite nth_error_app2 by (rewrite Lf; lia). rewrite Lf.
      replace (Z.to_nat (k + 1) - pos) with (S (Z.to_nat k - pos)) by lia. cbn [nth_error]. rewrite <- (firstn_skipn pos (attrs x)) at 2. rewrite nth_error_app2 by (rewrite Lf; lia). rewrite Lf. reflexivity.
  Qed.
  Lemma get_new b x : wide x -> get_attr (with_feature pos b x) (Z.of_nat pos) = Ok b.
  Proof.
    intros W. unfold get_attr, at_. cbn [with_feature attrs]. unfold insert_at. destruct (Z.ltb_spec (Z.of_nat pos) 0); [lia|].
    rewrite Nat2Z.id, nth_error_app2, firstn_length_le, Nat.sub_diag by (rewrite ?firstn_length_le; trivial). reflexivity.
  Qed.
  Lemma cont_moved b x k : wide x -> cont_at (up k) (with_feature pos b x) = cont_at k x.
  Proof. intros W. unfold cont_at. rewrite get_moved by exact W. reflexivity. Qed.
  Lemma disc_moved b x k : wide x -> disc_at (up k) (with_feature pos b x) = disc_at k x.
  Proof. intros W. unfold disc_at. rewrite get_moved by exact W. reflexivity. Qed.
  Lemma index_moved b x k : wide x -> index_at (up k) (with_feature pos b x) = index_at k x.
  Proof. intros W. unfold index_at. rewrite get_moved by exact W. reflexivity. Qed.
  Lemma wf_labels l : map label (map wf l) = map label l.
  Proof. rewrite map_map. reflexivity. Qed.
  Lemma wf_class_distribution l : class_distribution (map wf l) = class_distribution l.
  Proof. rewrite !class_distribution_cofl, wf_labels. reflexivity. Qed.
  Lemma wf_add_to gs i x : add_to (map (map wf) gs) i (wf x) = rmap (map (map wf)) (add_to gs i x).
  Proof. unfold add_to. rewrite atn_map, bind_rmap, rmap_bind. apply bind_ext. intros l. cbn. f_equal. rewrite <- upd_map. f_equal. rewrite map_app. reflexivity. Qed.
  Lemma in_reach l x : reaches pos l -> In x l -> wide x.
  Proof. intros H Hx. unfold reaches in H. rewrite Forall_forall in H. apply H, Hx. Qed.

  Section Lists.
    Context (l : ilist) (Hl : reaches pos l).
    Lemma wf_value_list k : value_list (up k) (map wf l) = value_list k l.
    Proof. unfold value_list. rewrite foldM_map. apply foldM_same. intros s x Hx. rewrite disc_moved by (apply (in_reach l); assumption). reflexivity. Qed.
    Lemma wf_part_disc k : part_disc (up k) (map wf l) = rmap (map (map wf)) (part_disc k l).
    Proof.
      unfold part_disc. rewrite wf_value_list, rmap_bind. apply bind_ext. intros vs. rewrite foldM_map. replace (repeat (@nil instance) (length vs)) with (map (map wf) (repeat [] (length vs))) at 1 by (rewrite map_repeat_; reflexivity).
      apply (foldM_sim (map (map wf))). intros gs x Hx. rewrite disc_moved by (apply (in_reach l); assumption). rewrite rmap_bind. apply bind_ext. intros v. apply wf_add_to.
    Qed.
    Lemma wf_part_idx k v : part_idx (up k) v (map wf l) = rmap (map (map wf)) (part_idx k v l).
    Proof.
      unfold part_idx. rewrite foldM_map. change [[]; []] with (map (map wf) [[]; []]) at 1. apply (foldM_sim (map (map wf))). intros gs x Hx. rewrite index_moved by (apply (in_reach l); assumption).
      rewrite rmap_bind. apply bind_ext. intros i. apply wf_add_to.
    Qed.
    Lemma wf_part_cont k t : part_cont (up k) t (map wf l) = rmap (map (map wf)) (part_cont k t l).
    Proof.
      unfold part_cont. rewrite foldM_map. change [[]; []] with (map (map wf) [[]; []]) at 1. apply (foldM_sim (map (map wf))). intros gs x Hx. rewrite cont_moved by (apply (in_reach l); assumption).
      rewrite rmap_bind. apply bind_ext. intros i. apply wf_add_to.
    Qed.
    Lemma wf_sort_by k : sort_by (up k) (map wf l) = rmap (map wf) (sort_by k l).
    Proof.
      unfold sort_by. rewrite map_length. destruct (length l <=? 1); [reflexivity|]. rewrite mapM_map'. rewrite (mapM_ext' (fun x => cont_at (up k) (wf x)) (cont_at k) l) by (intros x Hx; apply cont_moved, (in_reach l); assumption).
      rewrite rmap_bind. apply bind_ext. intros keys. destruct (existsb is_nan keys); [reflexivity|]. cbn. f_equal. rewrite combine_map_r.
      rewrite (ssort_map (fun p : dbl * instance => (fst p, wf (snd p))) (fun p q => dltb (fst p) (fst q))) by reflexivity. rewrite !map_map. reflexivity.
    Qed.
    Lemma wf_idx_class k v : idx_class_distribution (up k) v (map wf l) = idx_class_distribution k v l.
    Proof. unfold idx_class_distribution. rewrite foldM_map. apply foldM_same. intros s x Hx. rewrite index_moved by (apply (in_reach l); assumption). reflexivity. Qed.
    Lemma wf_attr_class k : attr_class_distribution (up k) (map wf l) = attr_class_distribution k l.
    Proof.
      unfold attr_class_distribution. rewrite wf_value_list. apply bind_ext. intros vs. rewrite foldM_map. apply foldM_same.
      intros s x Hx. rewrite disc_moved by (apply (in_reach l); assumption). reflexivity.
    Qed.
    Lemma wf_head {B} (g : instance -> res B) : (do x <- atn (map wf l) 0; g x) = (do x <- atn l 0; g (wf x)).
    Proof. rewrite atn_map, bind_rmap. reflexivity. Qed.
  End Lists.

  Section Build.
    Context (entropy : counter -> dbl) (mid : dbl -> dbl -> dbl) (rarr : nat -> Z -> list nat) (stump : bool).
    Definition up_best (b : best) : best := mkBest (b_entropy b) (up (b_attr b)) (b_value b).
    Lemma better_moved b e k v : better (up_best b) e (up k) v = up_best (better b e k v).
    Proof. unfold better. cbn [up_best b_entropy]. destruct (dltb e (b_entropy b)); reflexivity. Qed.
    Lemma wf_try_index data k st v : reaches pos data ->
      try_index entropy (map wf data) (up k) (fst st, up_best (snd st)) v = rmap (fun st => (fst st, up_best (snd st))) (try_index entropy data k st v).
    Proof.
      intros W. destruct st as [cd b]. unfold try_index. cbn [fst snd]. rewrite wf_idx_class by exact W. rewrite rmap_bind. apply bind_ext. intros d. rewrite map_length.
      destruct (0 <? csum d); [|reflexivity]. rewrite better_moved. reflexivity.
    Qed.
    Definition up_scan (s : scan) : scan := mkScan (s_prev s) (s_left s) (s_right s) (up_best (s_best s)).
    Lemma wf_try_cut n k s x : wide x -> try_cut entropy mid n (up k) (up_scan s) (wf x) = rmap up_scan (try_cut entropy mid n k s x).
    Proof.
      intros W. unfold try_cut. rewrite cont_moved by exact W. rewrite rmap_bind. apply bind_ext. intros v. cbn [s_prev s_left s_right s_best up_scan label with_feature].
      destruct (s_prev s) as [p|]; [|reflexivity]. destruct (negb (deqb v p)); [rewrite better_moved|]; reflexivity.
    Qed.
    Notation up_st := (fun st : ilist * counter * best => (map wf (fst (fst st)), snd (fst st), up_best (snd st))).
    Lemma wf_try_attr st k : reaches pos (fst (fst st)) -> try_attr entropy mid (up_st st) (up k) = rmap up_st (try_attr entropy mid st k).
    Proof.
      destruct st as [[data cd] b]. unfold try_attr. cbn [fst snd]. intros W. rewrite wf_head, rmap_bind.
      destruct (atn data 0) as [x0| | |] eqn:E0; cbn [bind]; try reflexivity. assert (W0 : wide x0) by (apply (in_reach data); [exact W|unfold atn in E0; destruct (nth_error data 0) eqn:En; [injection E0 as <-; apply (nth_error_In _ _ En)|discriminate]]).
      rewrite get_moved by exact W0. rewrite rmap_bind. apply bind_ext. intros c. destruct (isDiscreteIndexed c).
      { rewrite rmap_bind. apply bind_ext. intros m.
        pose proof (foldM_sim (fun st : counter * best => (fst st, up_best (snd st))) (try_index entropy data k) (try_index entropy (map wf data) (up k)) (seq 0 m)) as F.
        specialize (F ltac:(intros s v _; apply wf_try_index, W) (cd, b)). cbn [fst snd] in F. refine (eq_trans (f_equal (fun r => bind r _) F) _). rewrite bind_rmap, rmap_bind. reflexivity. }
      destruct (isDiscrete c).
      { unfold disc_entropy. rewrite wf_attr_class by exact W. rewrite map_length, rmap_bind. destruct (attr_class_distribution k data); cbn [bind]; try reflexivity. change (b_value (up_best b)) with (b_value b). rewrite better_moved. reflexivity. }
      destruct (isContinuous c); [|reflexivity]. rewrite wf_sort_by by exact W. rewrite bind_rmap, rmap_bind.
      destruct (sort_by k data) as [data'| | |] eqn:Es; cbn [bind]; try reflexivity. rewrite wf_class_distribution, foldM_map, map_length.
      assert (W' : reaches pos data') by (apply (Permutation_Forall (sort_by_perm _ _ _ Es)), W).
      pose proof (foldM_sim up_scan (try_cut entropy mid (length data') k) (fun s x => try_cut entropy mid (length data') (up k) s (wf x)) data') as F.
      specialize (F ltac:(intros s v Hv; apply wf_try_cut, (in_reach data'); assumption) (mkScan None (class_distribution data') [] b)). unfold up_scan at 1 in F. cbn [s_prev s_left s_right s_best] in F.
      refine (eq_trans (f_equal (fun r => bind r _) F) _). rewrite bind_rmap, rmap_bind. reflexivity.
    Qed.
    (** ** What the search keeps *)
    Definition keeps (data0 : ilist) (st : ilist * counter * best) : Prop :=
      Permutation data0 (fst (fst st)) /\ snd (fst st) = class_distribution data0 /\ dltb (entropy (class_distribution data0)) (b_entropy (snd st)) = false.
    Lemma dlt_trans x y z : dltb x y = true -> dltb y z = true -> dltb x z = true.
    Proof.
      destruct x as [p| | |], y as [q| | |], z as [r| | |]; try (cbn; congruence). rewrite !dltb_fin. apply Qlt_trans.
    Qed.
    Lemma better_keeps E b e k v : dltb E (b_entropy b) = false -> dltb E (b_entropy (better b e k v)) = false.
    Proof.
      intros H. unfold better. destruct (dltb e (b_entropy b)) eqn:L; [|exact H]. cbn [b_entropy]. destruct (dltb E e) eqn:L2; [|reflexivity]. rewrite (dlt_trans _ _ _ L2 L) in H. discriminate.
    Qed.
    Lemma try_attr_keeps data0 st k st' : keeps data0 st -> try_attr entropy mid st k = Ok st' -> keeps data0 st'.
    Proof.
      destruct st as [[data cd] b]. intros (P & C & B) E. cbn [fst snd] in *. unfold try_attr in E. apply bind_ok in E as (x0 & _ & E). apply bind_ok in E as (c & _ & E).
      assert (L : Permutation (map label data0) (map label data)) by (apply Permutation_map, P).
      destruct (isDiscreteIndexed c).
      { apply bind_ok in E as (m & _ & E). apply bind_ok in E as (r & Er & E). injection E as <-.
        assert (K : fst r = class_distribution data0 /\ dltb (entropy (class_distribution data0)) (b_entropy (snd r)) = false).
        { refine (foldM_keeps (fun r : counter * best => fst r = class_distribution data0 /\ dltb (entropy (class_distribution data0)) (b_entropy (snd r)) = false) _ _ _ (cd, b) r _ Er); [|split; assumption].
          intros [cd1 b1] v [cd2 b2] _ [C1 B1] E1. cbn [fst snd] in *. unfold try_index in E1. apply bind_ok in E1 as (d & Ed & E1).
          destruct (0 <? csum d); injection E1 as <- <-; [|split; assumption]. destruct (idx_class_sub _ _ _ _ Ed) as (l1 & l2 & P1 & ->). split; [|apply better_keeps, B1].
          rewrite C1, class_distribution_cofl, (csubd_split (map label data0) l1 l2) by (rewrite L; exact P1). rewrite cadd_cofl. apply cofl_perm. rewrite L, P1. apply Permutation_app_comm. }
        destruct K as [K1 K2]. split; [exact P|]. split; assumption. }
      destruct (isDiscrete c).
      { apply bind_ok in E as (e & _ & E). injection E as <-. split; [exact P|]. split; [exact C|apply better_keeps, B]. }
      destruct (isContinuous c); [|injection E as <-; split; [exact P|split; assumption]].
      apply bind_ok in E as (data' & Es & E). apply bind_ok in E as (s & Ef & E). injection E as <-. split; [cbn [fst]; rewrite P; exact (sort_by_perm _ _ _ Es)|]. split; [exact C|]. cbn [snd].
      refine (foldM_keeps (fun s => dltb (entropy (class_distribution data0)) (b_entropy (s_best s)) = false) _ _ _ _ _ _ Ef); [|exact B].
      intros s0 x s1 _ H0 E1. unfold try_cut in E1. apply bind_ok in E1 as (v & _ & E1). destruct (s_prev s0); [|injection E1 as <-; exact H0].
      destruct (negb _); injection E1 as <-; [apply better_keeps|]; exact H0.
    Qed.
    (** ** The new feature is never chosen *)
    Lemma mapM_const {A B} (g : A -> res B) v l : (forall x, In x l -> g x = Ok v) -> mapM g l = Ok (repeat v (length l)).
    Proof. induction l as [|x l IH]; intros H; [reflexivity|]. cbn [mapM length repeat]. rewrite (H x (or_introl eq_refl)), IH by (intros; apply H; right; assumption). reflexivity. Qed.
    Lemma not_better b e k v : dltb e (b_entropy b) = false -> better b e k v = b.
    Proof. intros H. unfold better. rewrite H. reflexivity. Qed.
    Lemma dofnat_fin n : dofnat n = Fin (inject_Z (Z.of_nat n)).
    Proof. reflexivity. Qed.
    Lemma whole_share n c : 0 < n -> csum c = n -> deq (share n c) d1.
    Proof.
      intros Hn Hc. unfold share. rewrite Hc. rewrite dofnat_fin. assert (Z : ~ (inject_Z (Z.of_nat n) == 0)%Q) by (unfold Qeq; cbn; lia).
      rewrite ddiv_fin by exact Z. cbn. unfold Qdiv. apply Qmult_inv_r, Z.
    Qed.
    Lemma dmul_1_l d : deq (dmul d1 d) d.
    Proof. destruct d; try reflexivity. cbn. ring. Qed.
    Lemma dadd_0_l d : deq (dadd d0 d) d.
    Proof. destruct d; try reflexivity. cbn. ring. Qed.
    Lemma empty_side e0 E n : 0 < n -> let e := ddiv (dadd (dmul e0 (dofnat 0)) (dmul E (dofnat n))) (dofnat n) in e = NaN \/ deq e E.
    Proof.
      intros Hn. rewrite !dofnat_fin. set (q := inject_Z (Z.of_nat n)). assert (Z : ~ (q == 0)%Q) by (unfold q, Qeq; cbn; lia). assert (P : (q ?= 0)%Q = Gt) by (unfold q, Qcompare; cbn; destruct n; [lia|reflexivity]).
      destruct e0 as [x| | |]; [|left; destruct E; reflexivity..]. destruct E as [y| | |]; [right|right|right|left; reflexivity].
      - cbn [dmul dadd]. rewrite ddiv_fin by exact Z. cbn [deq]. change (inject_Z (Z.of_nat 0)) with 0%Q. field. exact Z.
      - cbn [dmul dsgn]. rewrite P. cbn [dadd ddiv]. rewrite P. reflexivity.
      - cbn [dmul dsgn]. rewrite P. cbn [dadd ddiv]. rewrite P. reflexivity.
    Qed.
    Lemma new_attr data0 st : data0 <> [] -> reaches pos (fst (fst st)) -> keeps data0 st -> try_attr entropy mid (up_st st) (Z.of_nat pos) = Ok (up_st st).
    Proof.
      destruct st as [[data cd] b]. cbn [fst snd]. intros Hne W (P & C & B). cbn [fst snd] in *. unfold try_attr.
      destruct data as [|x0 data]. { apply Permutation_sym, Permutation_nil in P. contradiction. }
      change (atn (map wf (x0 :: data)) 0) with (Ok (wf x0)). cbn [bind]. set (D := x0 :: data) in *. rewrite get_new by (apply (in_reach D); [exact W|left; reflexivity]). cbn [bind].
      assert (CD : class_distribution (map wf D) = class_distribution data0) by (rewrite wf_class_distribution, !class_distribution_cofl; apply cofl_perm, Permutation_map, Permutation_sym, P).
      assert (LD : 0 < length (map wf D)) by (rewrite map_length; cbn; lia).
      assert (SD : csum (class_distribution (map wf D)) = length (map wf D)) by (rewrite class_distribution_cofl, csum_cofl, map_length; reflexivity).
      assert (G : forall x, In x (map wf D) -> get_attr x (Z.of_nat pos) = Ok a).
      { intros x Hx. apply in_map_iff in Hx as (y & <- & Hy). apply get_new, (in_reach D); assumption. }
      assert (Hne' : map wf D <> []) by discriminate. revert CD LD SD G Hne'. generalize (map wf D). clear P W Hne. intros E CD LD SD G Hne'.
      destruct a as [v|v|v i m|d] eqn:Ea; cbn [isDiscreteIndexed isDiscrete isContinuous idx_max bind].
      - unfold disc_entropy. rewrite (flat_disc (Z.of_nat pos) v E Hne') by (intros x Hx; unfold disc_at; rewrite (G x Hx); reflexivity). cbn [bind fold_left].
        rewrite not_better; [reflexivity|]. cbn [up_best b_entropy]. rewrite <- B. apply dltb_proper; [|reflexivity]. rewrite dadd_0_l, (whole_share _ _ LD SD), dmul_1_l, CD. reflexivity.
      - reflexivity.
      - assert (K : forall vs, foldM (try_index entropy E (Z.of_nat pos)) vs (cd, up_best b) = Ok (cd, up_best b)).
        { induction vs as [|w vs IH]; [reflexivity|]. cbn [foldM]. unfold try_index at 1. rewrite (flat_idx (Z.of_nat pos) i) by (intros x Hx; unfold index_at; rewrite (G x Hx); reflexivity). cbn [bind].
          destruct (i =? Z.of_nat w)%Z; [|exact IH]. rewrite SD, (proj2 (Nat.ltb_lt _ _) LD). rewrite C, CD. cbn [bind].
          assert (E0 : csubd (class_distribution data0) (class_distribution data0) = []). { rewrite class_distribution_cofl. rewrite (csubd_split _ _ []); [reflexivity|]. rewrite app_nil_r. reflexivity. }
          rewrite E0. change (cadd [] (class_distribution data0)) with (cadd (cofl []) (class_distribution data0)).
          replace (cadd (cofl []) (class_distribution data0)) with (class_distribution data0) by (rewrite class_distribution_cofl, cadd_cofl; reflexivity).
          rewrite <- C. rewrite not_better; [rewrite IH; reflexivity|]. cbn [up_best b_entropy]. change (csum []) with 0. rewrite C, <- CD.
          destruct (empty_side (entropy []) (entropy (class_distribution E)) (length E)) as [H|H]; [exact LD|rewrite H; reflexivity|].
          rewrite CD in H |- *. rewrite <- B. apply dltb_proper; [exact H|reflexivity]. }
        rewrite K. reflexivity.
      - assert (Hd : is_nan d = false) by (destruct d; try reflexivity; exfalso; apply Ha; reflexivity).
        assert (Hc : forall x, In x E -> cont_at (Z.of_nat pos) x = Ok d) by (intros x Hx; unfold cont_at; rewrite (G x Hx); reflexivity).
        rewrite (flat_sort (Z.of_nat pos) d E Hd Hc). cbn [bind]. destruct (flat_cuts entropy mid (length E) (Z.of_nat pos) d E Hd Hc (mkScan None (class_distribution E) [] (up_best b)) (or_introl eq_refl)) as (s & Es & Hs).
        rewrite Es. cbn [bind]. rewrite Hs. reflexivity.
    Qed.
    Lemma seq_moved n : pos <= n -> map Z.of_nat (seq 0 (S n)) = map up (map Z.of_nat (seq 0 pos)) ++ Z.of_nat pos :: map up (map Z.of_nat (seq pos (n - pos))).
    Proof.
      intros H. replace (S n) with (pos + S (n - pos)) by lia. rewrite seq_app, map_app. cbn [Nat.add seq map]. f_equal; [|f_equal].
      - rewrite map_map. apply map_ext_in. intros i Hi. apply in_seq in Hi. unfold moved. destruct (Z.ltb_spec (Z.of_nat i) (Z.of_nat pos)); lia.
      - rewrite <- seq_shift, !map_map. apply map_ext_in. intros i Hi. apply in_seq in Hi. unfold moved. destruct (Z.ltb_spec (Z.of_nat i) (Z.of_nat pos)); lia.
    Qed.
    Lemma keeps_reach data0 st : reaches pos data0 -> keeps data0 st -> reaches pos (fst (fst st)).
    Proof. intros W (P & _). exact (Permutation_Forall P W). Qed.
    Lemma wf_search data : reaches pos data -> search entropy mid rarr None (map wf data) = rmap (fun r => (map wf (fst r), up_best (snd r))) (search entropy mid rarr None data).
    Proof.
      intros W. unfold search. rewrite wf_head, rmap_bind. destruct (atn data 0) as [x0| | |] eqn:E0; cbn [bind]; try reflexivity.
      assert (Hne : data <> []) by (intros ->; discriminate E0).
      assert (W0 : wide x0) by (apply (in_reach data); [exact W|unfold atn in E0; destruct (nth_error data 0) eqn:En; [injection E0 as <-; apply (nth_error_In _ _ En)|discriminate]]).
      unfold attr_order. cbn [bind]. replace (attr_count (wf x0)) with (S (attr_count x0)) by (unfold attr_count, with_feature, insert_at; cbn [attrs]; rewrite app_length; cbn [length]; rewrite firstn_length_le, skipn_length by exact W0; lia).
      rewrite (seq_moved (attr_count x0) W0). replace (seq 0 (attr_count x0)) with (seq 0 pos ++ seq pos (attr_count x0 - pos)) by (rewrite <- seq_app; f_equal; unfold attr_count; lia).
      rewrite wf_class_distribution, map_app. set (st0 := (data, class_distribution data, mkBest (entropy (class_distribution data)) (-1) d0) : ilist * counter * best).
      assert (M1 : up (-1)%Z = (-1)%Z) by (unfold moved; destruct (Z.ltb_spec (-1) (Z.of_nat pos)); lia).
      assert (S0 : (map wf data, class_distribution data, mkBest (entropy (class_distribution data)) (-1) d0) = up_st st0) by (cbn [st0 fst snd]; unfold up_best; cbn [b_entropy b_attr b_value]; rewrite M1; reflexivity).
      match goal with |- bind (foldM ?f ?l ?s) ?k = rmap ?g (bind (foldM ?f ?l' ?s') ?k') => change (bind (foldM f l s) k = rmap g (bind (foldM f l' st0) k')); replace s with (up_st st0) by (symmetry; exact S0) end. assert (K0 : keeps data st0). { split; [reflexivity|]. split; [reflexivity|]. cbn [st0 snd b_entropy]. destruct (entropy (class_distribution data)) as [q| | |] eqn:E; try reflexivity; apply (deqb_refl (Fin q) eq_refl). }
      assert (F : forall ks st, keeps data st -> foldM (try_attr entropy mid) (map up ks) (up_st st) = rmap up_st (foldM (try_attr entropy mid) ks st)).
      { intros ks st Hs. rewrite foldM_map. apply (foldM_sim_inv (keeps data) up_st (try_attr entropy mid) (fun s k => try_attr entropy mid s (up k))); [| |exact Hs].
        - intros s k _ H. apply wf_try_attr, (keeps_reach data); assumption.
        - intros s k s1 _ H E. exact (try_attr_keeps data s k s1 H E). }
      rewrite !HeapProofs.foldM_app, (F _ st0 K0), bind_rmap, rmap_bind. destruct (foldM (try_attr entropy mid) (map Z.of_nat (seq 0 pos)) st0) as [st1| | |] eqn:E1; cbn [bind]; try reflexivity.
      assert (K1 : keeps data st1) by (refine (foldM_keeps (keeps data) _ _ _ _ _ K0 E1); intros s k s1 _ H E; exact (try_attr_keeps data s k s1 H E)).
      cbn [foldM]. rewrite (new_attr data st1 Hne (keeps_reach data st1 W K1) K1). cbn [bind]. rewrite (F _ st1 K1), bind_rmap. apply bind_ext. intros [[d c] b]. reflexivity.
    Qed.
    Definition up_cond (c : condition) : condition := mkCond (up (c_index c)) (c_cmp c) (c_value c).
    Notation up_part := (fun p : condition * ilist => (up_cond (fst p), map wf (snd p))).
    Lemma wf_split data k v : reaches pos data -> split (map wf data) (up k) v = rmap (map up_part) (split data k v).
    Proof.
      intros W. unfold split. rewrite wf_head, rmap_bind. destruct (atn data 0) as [x0| | |] eqn:E0; cbn [bind]; try reflexivity.
      assert (W0 : wide x0) by (apply (in_reach data); [exact W|unfold atn in E0; destruct (nth_error data 0) eqn:En; [injection E0 as <-; apply (nth_error_In _ _ En)|discriminate]]).
      rewrite get_moved by exact W0. rewrite rmap_bind. apply bind_ext. intros c. destruct (isDiscreteIndexed c).
      { rewrite rmap_bind. apply bind_ext. intros m. rewrite wf_part_idx by exact W. rewrite bind_rmap, rmap_bind. apply bind_ext. intros gs.
        rewrite !atn_map, bind_rmap, rmap_bind. apply bind_ext. intros g0. rewrite bind_rmap, rmap_bind. reflexivity. }
      destruct (isDiscrete c).
      { rewrite wf_value_list by exact W. rewrite rmap_bind. apply bind_ext. intros vs. rewrite wf_part_disc by exact W. rewrite bind_rmap, rmap_bind. apply bind_ext. intros gs.
        apply mapM_sim. intros iv _. rewrite atn_map, bind_rmap, rmap_bind. reflexivity. }
      destruct (isContinuous c); [|reflexivity].
      rewrite wf_part_cont by exact W. rewrite bind_rmap, rmap_bind. apply bind_ext. intros gs. rewrite !atn_map, bind_rmap, rmap_bind. apply bind_ext. intros g0.
      rewrite bind_rmap, rmap_bind. reflexivity.
    Qed.
    Lemma search_within data r : search entropy mid rarr None data = Ok r -> Permutation data (fst r).
    Proof.
      unfold search. intros E. apply bind_ok in E as (x0 & E0 & E). apply bind_ok in E as (ks & _ & E). apply bind_ok in E as (st & Es & E). destruct st as [[d c] b]. injection E as <-. cbn [fst].
      apply (foldM_keeps (keeps data)) in Es; [apply Es|intros s k s1 _ H E; exact (try_attr_keeps data s k s1 H E)|].
      split; [reflexivity|]. split; [reflexivity|]. cbn [snd b_entropy]. destruct (entropy (class_distribution data)) as [q| | |]; try reflexivity. apply (deqb_refl (Fin q) eq_refl).
    Qed.
    Lemma up_none k : (up k =? -1)%Z = (k =? -1)%Z.
    Proof. unfold moved. destruct (Z.ltb_spec k (Z.of_nat pos)); [reflexivity|]. destruct (Z.eqb_spec (k + 1) (-1)), (Z.eqb_spec k (-1)); try reflexivity; lia. Qed.
    Lemma wf_build fuel : forall data c, reaches pos data -> build entropy mid rarr None stump fuel (map wf data) (up_cond c) = rmap (moved_tree pos) (build entropy mid rarr None stump fuel data c).
    Proof.
      induction fuel as [|fuel IH]; intros data c W; [reflexivity|]. cbn [build].
      assert (EL : class_labels (map wf data) = class_labels data) by (unfold class_labels; rewrite map_map; reflexivity).
      assert (ED : distinct_labels (map wf data) = distinct_labels data) by (unfold distinct_labels; clear; generalize (@nil string); induction data as [|x data IH]; intros acc; [reflexivity|]; cbn; apply IH).
      rewrite EL, ED. destruct (_ =? 1); [reflexivity|]. cbn [up_cond c_index]. rewrite up_none. destruct (stump && _); [reflexivity|]. rewrite wf_search by exact W. rewrite bind_rmap, rmap_bind.
      destruct (search entropy mid rarr None data) as [[data' b]| | |] eqn:Es; cbn [bind]; try reflexivity. cbn [fst snd].
      assert (W' : reaches pos data') by (exact (Permutation_Forall (search_within data (data', b) Es) W)).
      cbn [up_best b_attr b_value]. rewrite up_none. destruct (b_attr b =? -1)%Z; [reflexivity|]. rewrite wf_split by exact W'. rewrite bind_rmap, rmap_bind.
      destruct (split data' (b_attr b) (b_value b)) as [parts| | |] eqn:Ep; cbn [bind]; try reflexivity.
      pose proof (split_within (fun x => wide x) data' _ _ _ W' Ep) as WP. rewrite Forall_forall in WP.
      rewrite mapM_map'. rewrite (mapM_sim (moved_tree pos) (fun p => build entropy mid rarr None stump fuel (snd p) (fst p))) by (intros x Hx; apply IH, WP, Hx).
      rewrite bind_rmap, rmap_bind. reflexivity.
    Qed.
  End Build.

  Section Use.
    Context (max_item : counter -> list string -> string).
    Lemma moved_cond t : t_cond (moved_tree pos t) = up_cond (t_cond t).
    Proof. destruct t; reflexivity. Qed.
    Lemma wf_satisfy b c x : wide x -> satisfy (up_cond c) (with_feature pos b x) = satisfy c x.
    Proof.
      intros W. unfold satisfy. cbn [up_cond c_value c_cmp c_index]. destruct (c_value c) as [[v|v|v i m|t]|]; try reflexivity.
      - rewrite disc_moved by exact W. reflexivity.
      - rewrite index_moved by exact W. reflexivity.
      - rewrite cont_moved by exact W. reflexivity.
    Qed.
    Lemma wf_node_predict b : forall t x, wide x -> node_predict max_item (moved_tree pos t) (with_feature pos b x) = node_predict max_item t x.
    Proof.
      fix IH 1. intros [lab leaf dist c ch] x W. cbn [moved_tree node_predict]. change (isComposite (with_feature pos b x)) with (isComposite x). change (possible_labels (with_feature pos b x)) with (possible_labels x).
      destruct (isComposite x).
      - destruct leaf; [reflexivity|]. induction ch as [|n ch IHc]; [reflexivity|]. cbn [map]. rewrite moved_cond, wf_satisfy by exact W. apply bind_ext. intros s. destruct s; [|exact IHc]. rewrite (IH n x W). reflexivity.
      - destruct leaf; [reflexivity|]. induction ch as [|n ch IHc]; [reflexivity|]. cbn [map]. rewrite moved_cond, wf_satisfy by exact W. apply bind_ext. intros s. destruct s; [apply (IH n x W)|exact IHc].
    Qed.
    Lemma wf_node_probability b : forall t x, wide x -> node_probability (moved_tree pos t) (with_feature pos b x) = node_probability t x.
    Proof.
      fix IH 1. intros [lab leaf dist c ch] x W. cbn [moved_tree node_probability]. destruct leaf; [reflexivity|].
      induction ch as [|n ch IHc]; [reflexivity|]. cbn [map]. rewrite moved_cond, wf_satisfy by exact W. apply bind_ext. intros s. destruct s; [apply (IH n x W)|exact IHc].
    Qed.
    Lemma wf_tree_predict b t x : wide x -> tree_predict max_item (moved_tree pos t) (with_feature pos b x) = tree_predict max_item t x.
    Proof. intros W. unfold tree_predict. rewrite wf_node_predict by exact W. reflexivity. Qed.
    Lemma wf_accuracy_on t l : reaches pos l -> accuracy_on max_item (moved_tree pos t) (map wf l) = accuracy_on max_item t l.
    Proof.
      intros W. unfold accuracy_on, test_classifier. f_equal. rewrite foldM_map, map_length. f_equal. apply foldM_same. intros k x Hx. rewrite wf_tree_predict by (apply (in_reach l); assumption). reflexivity.
    Qed.
    Lemma wf_prune_node l : reaches pos l -> forall t plug plug', (forall t, plug' (moved_tree pos t) = moved_tree pos (plug t)) ->
      prune_node max_item (map wf l) plug' (moved_tree pos t) = rmap (moved_tree pos) (prune_node max_item l plug t).
    Proof.
      intros W. fix IH 1. intros [lab leaf dist c ch] plug plug' Hp. cbn [moved_tree prune_node]. destruct leaf; [reflexivity|].
      change (Node lab false dist (mkCond (up (c_index c)) (c_cmp c) (c_value c)) (map (moved_tree pos) ch)) with (moved_tree pos (Node lab false dist c ch)).
      change (Node lab true dist (mkCond (up (c_index c)) (c_cmp c) (c_value c)) (map (moved_tree pos) ch)) with (moved_tree pos (Node lab true dist c ch)).
      rewrite !Hp, !wf_accuracy_on by exact W. rewrite rmap_bind. apply bind_ext. intros before. rewrite rmap_bind. apply bind_ext. intros after.
      destruct (dltb after before); [|reflexivity]. rewrite rmap_bind.
      set (go := fix go (done todo : list tree) : res (list tree) :=
                   match todo with
                   | [] => Ok done
                   | n :: todo' => do n' <- prune_node max_item l (fun n0 => plug (Node lab false dist c (done ++ n0 :: todo'))) n; go (done ++ [n']) todo'
                   end).
      set (go' := fix go (done todo : list tree) : res (list tree) :=
                   match todo with
                   | [] => Ok done
                   | n :: todo' => do n' <- prune_node max_item (map wf l) (fun n0 => plug' (Node lab false dist (mkCond (up (c_index c)) (c_cmp c) (c_value c)) (done ++ n0 :: todo'))) n; go (done ++ [n']) todo'
                   end).
      assert (G : forall done, go' (map (moved_tree pos) done) (map (moved_tree pos) ch) = rmap (map (moved_tree pos)) (go done ch)).
      { induction ch as [|n ch IHc]; intros done; [reflexivity|]. cbn [map go go'].
        rewrite (IH n (fun n0 => plug (Node lab false dist c (done ++ n0 :: ch)))).
        - rewrite bind_rmap, rmap_bind. apply bind_ext. intros n'. fold go go'. rewrite <- IHc. rewrite map_app. reflexivity.
        - intros t. rewrite <- Hp. cbn [moved_tree]. rewrite map_app. reflexivity. }
      specialize (G []). cbn [map] in G. rewrite G, bind_rmap. reflexivity.
    Qed.
    Lemma wf_strat rarr ratio seed l : part_strat rarr ratio seed (map wf l) = rmap (map (map wf)) (part_strat rarr ratio seed l).
    Proof.
      unfold part_strat. rewrite map_length. set (phi := fun st : counter * list ilist => (fst st, map (map wf) (snd st))).
      pose proof (foldM_sim phi (strat_step l ratio) (strat_step (map wf l) ratio) (rarr (length l) seed)) as F. match type of F with ?A -> _ => assert (H : A) end; [clear F|specialize (F H ([], [[]; []])); change (phi ([], [[]; []])) with (@nil (string * nat), [@nil instance; @nil instance]) in F; unfold counter, smap, ilist in *; rewrite F, bind_rmap, rmap_bind; reflexivity].
      intros [cs gs] i _. unfold strat_step, phi. cbn [fst snd]. rewrite atn_map, bind_rmap, rmap_bind. apply bind_ext. intros x. rewrite map_length, wf_class_distribution. cbn [label with_feature].
      rewrite wf_add_to, bind_rmap, rmap_bind. reflexivity.
    Qed.
    Lemma strat_within (P : instance -> Prop) rarr ratio seed l gs : Forall P l -> part_strat rarr ratio seed l = Ok gs -> Forall (Forall P) gs.
    Proof.
      intros H E. unfold part_strat in E. apply bind_ok in E as (st & Es & E). injection E as <-. refine (foldM_keeps (fun st : counter * list ilist => Forall (Forall P) (snd st)) _ _ _ _ _ _ Es); [|repeat constructor].
      intros [cs gs] i [cs' gs'] _ Hs E1. unfold strat_step in E1. apply bind_ok in E1 as (x & Ex & E1). apply bind_ok in E1 as (gs1 & Eg & E1). injection E1 as <- <-. exact (add_to_in P _ _ _ _ Hs (nth_all P _ _ _ H Ex) Eg).
    Qed.
    Lemma no_condition_moved : no_condition = up_cond no_condition.
    Proof. unfold up_cond, moved, no_condition. cbn [c_index c_cmp c_value]. destruct (Z.ltb_spec (-1) (Z.of_nat pos)); [reflexivity|lia]. Qed.
    Lemma wf_build0 entropy mid rarr stump fuel data : reaches pos data -> build entropy mid rarr None stump fuel (map wf data) no_condition = rmap (moved_tree pos) (build entropy mid rarr None stump fuel data no_condition).
    Proof. intros W. rewrite <- wf_build by exact W. rewrite <- no_condition_moved. reflexivity. Qed.
    Lemma wf_tree_train entropy mid rarr do_prune ratio seed fuel l : reaches pos l ->
      tree_train max_item entropy mid rarr do_prune ratio seed fuel (map wf l) = rmap (moved_tree pos) (tree_train max_item entropy mid rarr do_prune ratio seed fuel l).
    Proof.
      intros W. unfold tree_train. destruct do_prune; [|apply wf_build0, W]. rewrite wf_strat, bind_rmap, rmap_bind.
      destruct (part_strat rarr ratio seed l) as [gs| | |] eqn:Eg; cbn [bind]; try reflexivity. pose proof (strat_within (fun x => wide x) _ _ _ _ _ W Eg) as WG.
      rewrite !atn_map, bind_rmap, rmap_bind. unfold ilist in *. destruct (atn gs 1) as [g1| | |] eqn:E1; cbn [bind]; try reflexivity. rewrite wf_build0 by (exact (nth_all _ _ _ _ WG E1)). rewrite bind_rmap, rmap_bind. apply bind_ext. intros t.
      rewrite bind_rmap, rmap_bind. unfold ilist in *. destruct (atn gs 0) as [g0| | |] eqn:E0; cbn [bind]; try reflexivity. unfold prune. apply wf_prune_node; [exact (nth_all _ _ _ _ WG E0)|reflexivity].
    Qed.
    Lemma wf_votes b forest x : wide x -> votes max_item (map (moved_tree pos) forest) (with_feature pos b x) = votes max_item forest x.
    Proof. intros W. unfold votes. rewrite mapM_map'. apply mapM_ext'. intros t _. apply wf_tree_predict, W. Qed.
    Lemma rearrange_in {A} (p : list nat) (l : list A) x : In x (rearrange p l) -> In x l.
    Proof. unfold rearrange. intros H. apply in_flat_map in H as (i & _ & H). destruct (nth_error l i) eqn:E; [|destruct H]. destruct H as [<-|[]]. apply (nth_error_In _ _ E). Qed.
    Lemma wf_ensemble_train entropy mid rarr pick size fuel forest l : reaches pos l ->
      ensemble_train entropy mid rarr pick None size fuel (map (moved_tree pos) forest) (map wf l) = rmap (map (moved_tree pos)) (ensemble_train entropy mid rarr pick None size fuel forest l).
    Proof.
      intros W. unfold ensemble_train.
      rewrite (mapM_sim (moved_tree pos) (fun i => build entropy mid rarr None false fuel (bootstrap pick (Z.of_nat i) l) no_condition)).
      - rewrite bind_rmap, rmap_bind. apply bind_ext. intros new. cbn. rewrite map_app. reflexivity.
      - intros i _. unfold bootstrap. rewrite map_length, rearrange_map. apply wf_build0. apply Forall_forall. intros x Hx. apply (in_reach l); [exact W|]. apply (rearrange_in _ _ _ Hx).
    Qed.
  End Use.
End Const.
