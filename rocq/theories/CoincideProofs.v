(** When two different classifiers are the same classifier: neighbours, majority, trees and ensembles. *)
From Coq Require Import String ZArith QArith Bool Lia Lqa Permutation List.
From Verif Require Import Base Spec BaseLemmas DblLemmas SortLemmas AttrModel AttrProofs InstanceListModel ListSpec ListProofs PartitionModel PartitionProofs
  DistanceModel DistanceSpec DistanceProofs TreeModel EnsembleModel EnsembleProofs.
Import ListNotations.
Local Open Scope string_scope.
Local Open Scope list_scope.
Local Open Scope nat_scope.

(** * All instances as neighbours *)
Lemma filter_all {A} (f : A -> bool) l : (forall x, In x l -> f x = true) -> filter f l = l.
Proof. induction l as [|x l IH]; intros H; [reflexivity|]. cbn. rewrite (H x (or_introl eq_refl)), IH; [reflexivity|]. intros y Hy. apply H. right. exact Hy. Qed.
Lemma all_eligible q data : composite q = None -> filter (eligible q) data = data.
Proof. intros Hq. apply filter_all. intros x _. unfold eligible, isComposite. rewrite Hq. reflexivity. Qed.
Lemma knn_all dist data k q d : composite q = None ->
  (forall x, In x data -> dist x q = Ok (d x) /\ is_nan (d x) = false) -> length data <= Z.to_nat k ->
  exists ns, nearest dist data k q = Ok ns /\ Permutation ns data.
Proof.
  intros Hq HD Hk. rewrite (nearest_total dist data k q d); [|intros x Hx _; apply HD, Hx]. rewrite (all_eligible q data Hq).
  eexists. split; [reflexivity|]. pose proof (ssort_perm (fun x y => dltb (d x) (d y)) data) as P.
  rewrite firstn_all2; [apply Permutation_sym, P|]. rewrite <- (Permutation_length P). exact Hk.
Qed.

(** * The nearest neighbour of a training instance *)
Lemma get_maximum_one c : get_maximum [c] = c.
Proof. unfold get_maximum, cmax. cbn. reflexivity. Qed.
Lemma cmax_single c n : cmax [(c, S n)] = c.
Proof. reflexivity. Qed.
Lemma nearest_one dist data q d x0 : composite q = None -> In x0 data ->
  (forall x, In x data -> dist x q = Ok (d x) /\ is_nan (d x) = false) ->
  exists y, nearest dist data 1 q = Ok [y] /\ In y data /\ (forall x, In x data -> dltb (d x) (d y) = false).
Proof.
  intros Hq H0 HD. rewrite (nearest_total dist data 1 q d); [|intros x Hx _; apply HD, Hx]. rewrite (all_eligible q data Hq).
  pose proof (ssort_perm (fun x y => dltb (d x) (d y)) data) as P.
  assert (F : Forall (fun x => is_nan (d x) = false) data) by (apply Forall_forall; intros x Hx; apply HD, Hx).
  destruct (nearest_sorted d data F) as (_ & HS & _).
  destruct (ssort (fun x y => dltb (d x) (d y)) data) as [|y s] eqn:E.
  { apply Permutation_sym, Permutation_nil in P. subst. destruct H0. }
  exists y. assert (Hy : In y data) by (apply (Permutation_in _ (Permutation_sym P)); left; reflexivity).
  split; [reflexivity|]. split; [exact Hy|]. intros x Hx. apply (Permutation_in _ P) in Hx. destruct Hx as [<-|Hx].
  - apply not_true_iff_false. intros K. destruct (d y); try discriminate K. apply dltb_fin in K. lra.
  - inversion HS as [|? ? HS' HF]; subst. rewrite Forall_forall in HF. apply HF, Hx.
Qed.

(** * One class *)
Lemma distinct_one c l : l <> [] -> (forall x, In x l -> label x = c) -> distinct_labels l = [c].
Proof.
  intros Hn H. destruct l as [|x l]; [congruence|]. unfold distinct_labels. cbn [fold_left]. rewrite (H x (or_introl eq_refl)).
  change (push_new [] c) with [c]. assert (K : forall l, (forall x, In x l -> label x = c) -> fold_left (fun acc x => push_new acc (label x)) l [c] = [c]).
  { clear. induction l as [|x l IH]; intros H; [reflexivity|]. cbn [fold_left]. rewrite (H x (or_introl eq_refl)).
    assert (push_new [c] c = [c]) as ->. { unfold push_new. cbn. rewrite String.eqb_refl. reflexivity. } apply IH. intros y Hy. apply H. right. exact Hy. }
  apply K. intros y Hy. apply H. right. exact Hy.
Qed.
Lemma labels_one c (l : ilist) : (forall x, In x l -> label x = c) -> map label l = repeat c (length l).
Proof. induction l as [|x l IH]; intros H; [reflexivity|]. cbn. rewrite (H x (or_introl eq_refl)), IH; [reflexivity|]. intros y Hy. apply H. right. exact Hy. Qed.
Lemma max_one c n : get_maximum (repeat c (S n)) = c.
Proof. destruct (get_maximum_spec (repeat c (S n))) as (H & _); [discriminate|]. apply repeat_spec in H. exact H. Qed.
Lemma max_labels c l : l <> [] -> (forall x, In x l -> label x = c) -> get_maximum (class_labels l) = c.
Proof. intros Hn H. unfold class_labels. rewrite (labels_one c l H). destruct l; [congruence|]. cbn [length]. apply max_one. Qed.
Lemma build_one entropy mid rarr param stump f l cd c : l <> [] -> (forall x, In x l -> label x = c) ->
  build entropy mid rarr param stump (S f) l cd = Ok (Node c true (class_distribution l) cd []).
Proof.
  intros Hn H. cbn [build]. rewrite (distinct_one c l Hn H). cbn [length Nat.eqb]. rewrite (max_labels c l Hn H). rewrite class_distribution_cofl. reflexivity.
Qed.
Lemma dummy_one max_item old l c q : l <> [] -> (forall x, In x l -> label x = c) -> composite q = None -> dummy_predict max_item (dummy_train old l) q = c.
Proof.
  intros Hn H Hq. unfold dummy_predict, isComposite. rewrite Hq. unfold dummy_train. rewrite class_distribution_cofl. apply (max_labels c l Hn H).
Qed.
Lemma votes_one c n : cmax (fold_left cput (repeat c (S n)) []) = c.
Proof. apply max_one. Qed.

(** * Node data come from the training data *)
Lemma sort_incl k l l' : sort_by k l = Ok l' -> forall x, In x l' -> In x l.
Proof.
  unfold sort_by. destruct (length l <=? 1); [intros H; injection H as <-; auto|]. intros H. apply bind_ok in H as (keys & _ & H).
  destruct (existsb is_nan keys); [discriminate|]. injection H as <-. intros x Hx. apply in_map_iff in Hx as ((v & y) & <- & Hx).
  apply (Permutation_in _ (Permutation_sym (ssort_perm _ _))) in Hx. apply in_combine_r in Hx. exact Hx.
Qed.
Lemma upd_in {A} (l : list A) i v y : In y (upd l i v) -> y = v \/ In y l.
Proof.
  revert i. induction l as [|a l IH]; intros i H; [destruct i; destruct H|]. destruct i; cbn in H.
  - destruct H as [<-|H]; [left; reflexivity|right; right; exact H].
  - destruct H as [<-|H]; [right; left; reflexivity|]. apply IH in H as [H|H]; [left; exact H|right; right; exact H].
Qed.
Lemma groups_incl (step : instance -> res nat) l : forall gs gs', foldM (fun gs x => do i <- step x; add_to gs i x) l gs = Ok gs' ->
  forall g x, In g gs' -> In x g -> In x l \/ exists g0, In g0 gs /\ In x g0.
Proof.
  induction l as [|y l IH]; intros gs gs' H g x Hg Hx; cbn [foldM] in H; [injection H as <-; right; eauto|].
  apply bind_ok in H as (gs1 & H1 & H). apply bind_ok in H1 as (i & _ & H1). unfold add_to in H1. apply bind_ok in H1 as (g1 & E1 & H1). injection H1 as <-.
  destruct (IH _ _ H g x Hg Hx) as [K|(g0 & K1 & K2)]; [left; right; exact K|].
  apply upd_in in K1 as [->|K1]; [|right; eauto]. apply in_app_or in K2 as [K2|[<-|[]]]; [|left; left; reflexivity].
  right. exists g1. split; [|exact K2]. apply atn_ok, nth_error_In in E1. exact E1.
Qed.
Lemma foldM_bind_ext {S X} (f g : S -> X -> res S) l : (forall s x, f s x = g s x) -> forall s, foldM f l s = foldM g l s.
Proof. intros H. induction l as [|x l IH]; intros s; [reflexivity|]. cbn [foldM]. rewrite H. destruct (g s x); cbn [bind]; [apply IH|reflexivity..]. Qed.
Lemma part_idx_incl k v l gs : part_idx k v l = Ok gs -> forall g x, In g gs -> In x g -> In x l.
Proof.
  unfold part_idx. intros H g x Hg Hx. rewrite (foldM_bind_ext _ (fun gs x => do i <- (do i <- index_at k x; Ok (if (i =? v)%Z then 0 else 1)); add_to gs i x)) in H.
  2: { intros s y. destruct (index_at k y); reflexivity. }
  destruct (groups_incl _ _ _ _ H g x Hg Hx) as [K|(g0 & [<-|[<-|[]]] & [])]. exact K.
Qed.
Lemma part_cont_incl k t l gs : part_cont k t l = Ok gs -> forall g x, In g gs -> In x g -> In x l.
Proof.
  unfold part_cont. intros H g x Hg Hx. rewrite (foldM_bind_ext _ (fun gs x => do i <- (do v <- cont_at k x; Ok (if dleb v t then 0 else 1)); add_to gs i x)) in H.
  2: { intros s y. destruct (cont_at k y); reflexivity. }
  destruct (groups_incl _ _ _ _ H g x Hg Hx) as [K|(g0 & [<-|[<-|[]]] & [])]. exact K.
Qed.
Lemma part_disc_incl k l gs : part_disc k l = Ok gs -> forall g x, In g gs -> In x g -> In x l.
Proof.
  unfold part_disc. intros H g x Hg Hx. apply bind_ok in H as (vs & _ & H).
  rewrite (foldM_bind_ext _ (fun gs x => do i <- (do v <- disc_at k x; Ok (find_pos v vs)); add_to gs i x)) in H.
  2: { intros s y. destruct (disc_at k y); reflexivity. }
  destruct (groups_incl _ _ _ _ H g x Hg Hx) as [K|(g0 & K & J)]; [exact K|]. apply repeat_spec in K. subst. destruct J.
Qed.
Lemma split_incl data k v parts : split data k v = Ok parts -> forall p x, In p parts -> In x (snd p) -> In x data.
Proof.
  unfold split. intros H p x Hp Hx. apply bind_ok in H as (x0 & _ & H). apply bind_ok in H as (a & _ & H).
  destruct (isDiscreteIndexed a).
  - apply bind_ok in H as (m & _ & H). apply bind_ok in H as (gs & Eg & H). apply bind_ok in H as (g0 & E0 & H). apply bind_ok in H as (g1 & E1 & H). injection H as <-.
    apply atn_ok, nth_error_In in E0. apply atn_ok, nth_error_In in E1. destruct Hp as [<-|[<-|[]]]; cbn [snd] in Hx; [exact (part_idx_incl _ _ _ _ Eg _ x E0 Hx)|exact (part_idx_incl _ _ _ _ Eg _ x E1 Hx)].
  - destruct (isDiscrete a).
    + apply bind_ok in H as (vs & _ & H). apply bind_ok in H as (gs & Eg & H). apply mapM_ok in H. 
      assert (exists g, In g gs /\ snd p = g) as (g & Hg & E).
      { clear -H Hp. induction H as [|iv p' l ps E _ IH]; [destruct Hp|]. destruct Hp as [->|Hp]; [|apply IH, Hp].
        apply bind_ok in E as (g & E & E'). injection E' as <-. exists g. split; [apply atn_ok, nth_error_In in E; exact E|reflexivity]. }
      rewrite E in Hx. exact (part_disc_incl _ _ _ Eg g x Hg Hx).
    + destruct (isContinuous a); [|injection H as <-; destruct Hp].
      apply bind_ok in H as (gs & Eg & H). apply bind_ok in H as (g0 & E0 & H). apply bind_ok in H as (g1 & E1 & H). injection H as <-.
      apply atn_ok, nth_error_In in E0. apply atn_ok, nth_error_In in E1. destruct Hp as [<-|[<-|[]]]; cbn [snd] in Hx; [exact (part_cont_incl _ _ _ _ Eg _ x E0 Hx)|exact (part_cont_incl _ _ _ _ Eg _ x E1 Hx)].
Qed.
Lemma try_attr_incl entropy mid ks : forall data cd b data' cd' b', foldM (try_attr entropy mid) ks (data, cd, b) = Ok (data', cd', b') -> forall x, In x data' -> In x data.
Proof.
  induction ks as [|k ks IH]; intros data cd b data' cd' b' H x Hx; cbn [foldM] in H; [injection H as -> -> ->; exact Hx|].
  apply bind_ok in H as ([[d1 cd1] b1] & H1 & H). specialize (IH _ _ _ _ _ _ H x Hx). clear H Hx.
  unfold try_attr in H1. apply bind_ok in H1 as (x0 & _ & H1). apply bind_ok in H1 as (a & _ & H1). destruct (isDiscreteIndexed a).
  - apply bind_ok in H1 as (m & _ & H1). apply bind_ok in H1 as (r & _ & H1). injection H1 as <- _ _. exact IH.
  - destruct (isDiscrete a); [apply bind_ok in H1 as (e & _ & H1); injection H1 as <- _ _; exact IH|].
    destruct (isContinuous a); [|injection H1 as <- _ _; exact IH].
    apply bind_ok in H1 as (d2 & Es & H1). apply bind_ok in H1 as (s & _ & H1). injection H1 as <- _ _. exact (sort_incl _ _ _ Es x IH).
Qed.
Lemma search_incl entropy mid rarr param data data' b : search entropy mid rarr param data = Ok (data', b) -> forall x, In x data' -> In x data.
Proof.
  unfold search. intros H. apply bind_ok in H as (x0 & _ & H). apply bind_ok in H as (ks & _ & H). apply bind_ok in H as ([[d1 cd1] b1] & H1 & H). injection H as <- <-.
  exact (try_attr_incl _ _ _ _ _ _ _ _ _ H1).
Qed.

(** * A subset of all attributes *)
Lemma search_all entropy mid rarr m seed data : (forall x, In x data -> attr_count x <= m) ->
  search entropy mid rarr (Some (m, seed)) data = search entropy mid rarr None data.
Proof.
  intros H. unfold search. destruct data as [|x data]; [reflexivity|]. cbn [atn nth_error bind]. unfold attr_order.
  assert (m <? attr_count x = false) as -> by (apply Nat.ltb_ge, H; left; reflexivity). reflexivity.
Qed.
Lemma mapM_in_ext {A B} (f g : A -> res B) l : (forall x, In x l -> f x = g x) -> mapM f l = mapM g l.
Proof. induction l as [|x l IH]; intros H; [reflexivity|]. cbn [mapM]. rewrite (H x (or_introl eq_refl)), IH; [reflexivity|]. intros y Hy. apply H. right. exact Hy. Qed.
Lemma build_all entropy mid rarr m seed stump : forall fuel data c, (forall x, In x data -> attr_count x <= m) ->
  build entropy mid rarr (Some (m, seed)) stump fuel data c = build entropy mid rarr None stump fuel data c.
Proof.
  induction fuel as [|f IH]; intros data c H; [reflexivity|]. cbn [build]. destruct (length (distinct_labels data) =? 1); [reflexivity|].
  destruct (stump && negb (c_index c =? -1)%Z); [reflexivity|]. rewrite (search_all entropy mid rarr m seed data H).
  destruct (search entropy mid rarr None data) as [[data' b]| | |] eqn:Es; cbn [bind]; [|reflexivity..].
  destruct (b_attr b =? -1)%Z; [reflexivity|]. destruct (split data' (b_attr b) (b_value b)) as [parts| | |] eqn:Ep; cbn [bind]; [|reflexivity..].
  rewrite (mapM_in_ext _ (fun p => build entropy mid rarr None stump f (snd p) (fst p)) parts); [reflexivity|].
  intros p Hp. apply IH. intros x Hx. apply H. apply (search_incl _ _ _ _ _ _ _ Es). exact (split_incl _ _ _ _ Ep p x Hp Hx).
Qed.
Lemma boot_in {A} (pick : Z -> nat -> list nat) seed (l : list A) x : In x (bootstrap pick seed l) -> In x l.
Proof. apply rearrange_incl. Qed.
Lemma ensemble_all entropy mid rarr pick m seed size fuel forest l : (forall x, In x l -> attr_count x <= m) ->
  ensemble_train entropy mid rarr pick (Some (m, seed)) size fuel forest l = ensemble_train entropy mid rarr pick None size fuel forest l.
Proof.
  intros H. unfold ensemble_train. rewrite (mapM_in_ext _ (fun i => build entropy mid rarr None false fuel (bootstrap pick (Z.of_nat i) l) no_condition)); [reflexivity|].
  intros i _. apply build_all. intros x Hx. apply H, (boot_in _ _ _ _ Hx).
Qed.
(** a forest of one tree *)
Lemma ensemble_single max_item t x : ensemble_predict max_item [t] x = tree_predict max_item t x.
Proof. unfold ensemble_predict, votes. cbn [mapM]. destruct (tree_predict max_item t x); reflexivity. Qed.
