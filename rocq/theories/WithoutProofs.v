(** Lemmas about leaving a class out of the training data. *)
From Coq Require Import String ZArith QArith Bool Lia Lqa Permutation Arith List.
From Verif Require Import Base Spec BaseLemmas DblLemmas AttrModel InstanceListModel ListSpec ListProofs PartitionModel PartitionProofs PerformanceModel EnsembleModel GaussianModel GaussianProofs.
Import ListNotations.
Local Open Scope list_scope.
Local Open Scope nat_scope.

(** the training data without the instances labelled [c] *)
Definition without (c : string) (l : ilist) : ilist := filter (fun x => negb (String.eqb (label x) c)) l.
(** a map without the key [c] *)
Definition no_key {V} (c : string) (m : smap V) : smap V := filter (fun kv => negb (String.eqb (fst kv) c)) m.

Lemma no_key_find {V} c (m : smap V) k : mfind k (no_key c m) = if String.eqb k c then None else mfind k m.
Proof.
  induction m as [|[k' v] m IH]; cbn [no_key filter mfind fst]; [destruct (String.eqb k c); reflexivity|]. fold (no_key c m). destruct (String.eqb_spec k' c) as [->|H']; cbn [negb].
  - rewrite IH. destruct (String.eqb_spec k c); reflexivity.
  - cbn [mfind]. rewrite IH. destruct (String.eqb_spec k k') as [->|Hk]; [destruct (String.eqb_spec k' c); congruence|reflexivity].
Qed.
Lemma no_key_keys {V} c (m : smap V) : mkeys (no_key c m) = filter (fun k => negb (String.eqb k c)) (mkeys m).
Proof. induction m as [|[k v] m IH]; [reflexivity|]. cbn [no_key filter mkeys map fst]. destruct (String.eqb k c); cbn [negb]; [exact IH|]. cbn [mkeys map fst]. f_equal. exact IH. Qed.
Lemma no_key_sorted {V} c (m : smap V) : msorted m -> msorted (no_key c m).
Proof.
  unfold msorted. rewrite no_key_keys. induction 1 as [|k ks H IH F]; cbn [filter]; [constructor|]. destruct (negb _); [|exact IH]. constructor; [exact IH|]. rewrite Forall_forall in *. intros x Hx. apply filter_In in Hx as [Hx _]. apply F, Hx.
Qed.
Lemma without_labels c l : map label (without c l) = filter (fun k => negb (String.eqb k c)) (map label l).
Proof. unfold without. induction l as [|x l IH]; [reflexivity|]. cbn [filter map]. destruct (String.eqb (label x) c); cbn [negb map]; [exact IH|]. f_equal. exact IH. Qed.
Lemma distribution_cofl l : class_distribution l = cofl (map label l).
Proof. unfold class_distribution, cofl. generalize (@nil (string * nat)). induction l as [|x l IH]; intros c; [reflexivity|]. cbn [fold_left map]. apply IH. Qed.
Lemma filter_occ c ls k : count_occ string_dec (filter (fun k => negb (String.eqb k c)) ls) k = if String.eqb k c then 0 else count_occ string_dec ls k.
Proof.
  induction ls as [|x ls IH]; [destruct (String.eqb k c); reflexivity|]. cbn [filter count_occ]. destruct (String.eqb_spec x c) as [->|Hx]; cbn [negb].
  - rewrite IH. destruct (String.eqb_spec k c) as [|Hk]; [reflexivity|]. destruct (string_dec c k); [congruence|reflexivity].
  - cbn [count_occ]. destruct (string_dec x k) as [->|]; rewrite IH; [destruct (String.eqb_spec k c); [congruence|reflexivity]|reflexivity].
Qed.
Lemma cofl_find ls k : mfind k (cofl ls) = match count_occ string_dec ls k with 0 => None | S n => Some (S n) end.
Proof.
  destruct (mfind k (cofl ls)) as [n|] eqn:E.
  - assert (C : ccount (cofl ls) k = n) by (unfold ccount; rewrite E; reflexivity). rewrite ccount_cofl in C. rewrite C. destruct n as [|n]; [|reflexivity].
    exfalso. apply count_occ_not_In in C. apply C. apply in_cofl. apply mfind_in in E. apply (in_map fst) in E. exact E.
  - destruct (count_occ string_dec ls k) eqn:C; [reflexivity|]. exfalso. assert (Hi : In k (mkeys (cofl ls))) by (apply in_cofl, (count_occ_In string_dec); lia).
    apply in_map_iff in Hi as ([k' v] & Ek & Hi). cbn in Ek. subst. apply in_mfind in Hi; [congruence|apply msorted_nodup, cofl_sorted].
Qed.
Lemma prior_without c l : class_distribution (without c l) = no_key c (class_distribution l).
Proof.
  rewrite !distribution_cofl, without_labels. apply msorted_ext; [apply cofl_sorted|apply no_key_sorted, cofl_sorted|]. intros k. rewrite no_key_find, !cofl_find, filter_occ. destruct (String.eqb k c); reflexivity.
Qed.

(** * the most frequent label *)
Lemma cmax_fold_without c m : forall b b', b = b' \/ fst b = c /\ snd b' <= snd b -> fst (fold_left cmax_step m b) <> c -> fold_left cmax_step (no_key c m) b' = fold_left cmax_step m b.
Proof.
  induction m as [|[k n] m IH]; intros b b' R N; cbn [fold_left no_key filter fst] in *; [destruct R as [->|[E _]]; [reflexivity|congruence]|]. fold (no_key c m).
  destruct (String.eqb_spec k c) as [->|Hk]; cbn [negb fold_left].
  - apply IH; [|exact N]. unfold cmax_step. cbn [snd]. destruct (Nat.ltb_spec (snd b) n) as [L|L]; [|exact R]. right. cbn [fst snd]. split; [reflexivity|]. destruct R as [->|[_ R]]; lia.
  - apply IH; [|exact N]. unfold cmax_step. cbn [snd]. destruct R as [->|[E R]]; [left; reflexivity|]. destruct (Nat.ltb_spec (snd b) n) as [L|L], (Nat.ltb_spec (snd b') n) as [L'|L']; try lia; [left; reflexivity|right; split; [exact E|exact L]|right; split; [exact E|exact R]].
Qed.
Lemma cmax_without c m : cmax m <> c -> cmax (no_key c m) = cmax m.
Proof. intros H. unfold cmax in *. rewrite (cmax_fold_without c m (EmptyString, 0) (EmptyString, 0)); auto. Qed.

(** * the class with the best score *)
Lemma dlt_chain x m v : is_nan x = false -> is_nan m = false -> dltb x m = false -> dltb x v = true -> dltb m v = true.
Proof.
  destruct x as [a| | |], m as [b| | |], v as [c| | |]; intros Hx Hm H1 H2; try discriminate; try reflexivity.
  apply dltb_fin_false in H1. apply dltb_fin in H2. apply dltb_fin. lra.
Qed.
Lemma dlt_not_nan x v : dltb x v = true -> is_nan x = false /\ is_nan v = false.
Proof. destruct x, v; intros H; try discriminate; split; reflexivity. Qed.
Lemma gauss_without prior metric metric' c ls : forall st st' r,
  (forall x m, x <> c -> mmem x prior = true -> metric x = Ok m -> metric' x = Ok m) ->
  is_nan (fst st) = false -> st = st' \/ snd st = c /\ (forall v, dltb (fst st) v = true -> dltb (fst st') v = true) ->
  foldM (gauss_step prior metric) ls st = Ok r -> snd r <> c -> foldM (gauss_step (no_key c prior) metric') (filter (fun k => negb (String.eqb k c)) ls) st' = Ok r.
Proof.
  induction ls as [|k ls IH]; intros st st' r HM Hn R E N; cbn [foldM filter] in *.
  - injection E as <-. destruct R as [->|[E _]]; [reflexivity|congruence].
  - unfold gauss_step at 1 in E. apply bind_ok in E as (s1 & E1 & E). destruct (String.eqb_spec k c) as [->|Hk]; cbn [negb].
    + destruct (mmem c prior) eqn:Em; [|injection E1 as <-; exact (IH st st' r HM Hn R E N)]. apply bind_ok in E1 as (m & Emet & E1). injection E1 as <-. unfold dgtb in E. destruct (dltb (fst st) m) eqn:L; [|exact (IH st st' r HM Hn R E N)].
      destruct (dlt_not_nan _ _ L) as (_ & Hm). apply (IH (m, c) st' r HM); [exact Hm| |exact E|exact N]. right. cbn [fst snd]. split; [reflexivity|]. intros v Hv.
      assert (Hs : dltb (fst st) v = true).
      { clear - L Hv. destruct (fst st) as [a| | |], m as [b| | |], v as [d| | |]; try discriminate; try reflexivity. apply dltb_fin in L, Hv. apply dltb_fin. lra. }
      destruct R as [<-|[_ R]]; [exact Hs|exact (R v Hs)].
    + cbn [foldM]. unfold gauss_step at 1. assert (Ek : mmem k (no_key c prior) = mmem k prior) by (unfold mmem; rewrite no_key_find; destruct (String.eqb_spec k c); [congruence|reflexivity]). rewrite Ek.
      destruct (mmem k prior) eqn:Em; [|cbn [bind]; injection E1 as <-; exact (IH st st' r HM Hn R E N)]. apply bind_ok in E1 as (m & Emet & E1). injection E1 as <-. rewrite (HM k m Hk Em Emet). cbn [bind]. unfold dgtb in *. destruct (dltb (fst st) m) eqn:L.
      * destruct (dlt_not_nan _ _ L) as (_ & Hm). replace (dltb (fst st') m) with true by (symmetry; destruct R as [<-|[_ R]]; [exact L|exact (R m L)]). apply (IH (m, k) (m, k) r HM); [exact Hm|left; reflexivity|exact E|exact N].
      * destruct R as [<-|[Rc R]]; [rewrite L; exact (IH st st r HM Hn (or_introl eq_refl) E N)|]. apply (IH st _ r HM Hn); [|exact E|exact N]. right. split; [exact Rc|]. destruct (dltb (fst st') m) eqn:L'; [|exact R]. cbn [fst]. intros v Hv.
        destruct (dlt_not_nan _ _ L') as (_ & Hm). exact (dlt_chain _ _ _ Hn Hm L Hv).
Qed.
(** labels that are not counted are passed over *)
Lemma gauss_skip prior metric c ls st : mmem c prior = false -> foldM (gauss_step prior metric) (filter (fun k => negb (String.eqb k c)) ls) st = foldM (gauss_step prior metric) ls st.
Proof.
  intros H. revert st. induction ls as [|k ls IH]; intros st; [reflexivity|]. cbn [filter foldM]. destruct (String.eqb_spec k c) as [->|Hk]; cbn [negb foldM].
  - unfold gauss_step at 2. rewrite H. cbn [bind]. apply IH.
  - destruct (gauss_step prior metric st k); cbn [bind]; auto.
Qed.
Lemma gauss_predict_without prior metric metric' c q a :
  (forall x m, x <> c -> mmem x prior = true -> metric x = Ok m -> metric' x = Ok m) ->
  gauss_predict prior metric q = Ok a -> a <> c -> gauss_predict (no_key c prior) metric' q = Ok a.
Proof.
  intros HM E N. unfold gauss_predict in *. apply bind_ok in E as (st0 & E0 & E). apply bind_ok in E as (r & Er & E). injection E as <-. destruct (composite q) as [ls|].
  - apply bind_ok in E0 as (d & Ed & E0). injection E0 as <-. rewrite Ed. cbn [bind fst snd] in *. rewrite <- (gauss_skip (no_key c prior) metric' c ls) by (unfold mmem; rewrite no_key_find, String.eqb_refl; reflexivity).
    rewrite (gauss_without prior metric metric' c ls (dopp dbl_max, d) (dopp dbl_max, d) r HM eq_refl (or_introl eq_refl) Er N). reflexivity.
  - injection E0 as <-. cbn [bind fst snd] in *. rewrite no_key_keys. destruct (string_dec (cmax prior) c) as [Hc|Hc].
    + rewrite (gauss_without prior metric metric' c (mkeys prior) (dopp dbl_max, cmax prior) (dopp dbl_max, cmax (no_key c prior)) r HM eq_refl); [reflexivity| |exact Er|exact N]. right. cbn [fst snd]. split; [exact Hc|auto].
    + rewrite (cmax_without c prior Hc). rewrite (gauss_without prior metric metric' c (mkeys prior) (dopp dbl_max, cmax prior) (dopp dbl_max, cmax prior) r HM eq_refl (or_introl eq_refl) Er N). reflexivity.
Qed.

(** * class means *)
Lemma of_class_without c x l : x <> c -> filter (of_class x) (without c l) = filter (of_class x) l.
Proof.
  intros H. unfold without. induction l as [|y l IH]; [reflexivity|]. cbn [filter]. destruct (String.eqb_spec (label y) c) as [E|E]; cbn [negb filter].
  - rewrite IH. unfold of_class. destruct (String.eqb_spec (label y) x); [congruence|reflexivity].
  - rewrite IH. reflexivity.
Qed.
Lemma distinct_without c l x : In x (distinct_labels (without c l)) <-> In x (distinct_labels l) /\ x <> c.
Proof.
  rewrite !distinct_in, without_labels, filter_In. split; intros [A B]; (split; [exact A|]); destruct (String.eqb_spec x c); cbn in *; congruence.
Qed.
Lemma average_label l x m : average_instance (filter (of_class x) l) = Ok m -> label m = x.
Proof.
  unfold average_instance, average. intros E. apply bind_ok in E as ((c & r) & E1 & E). apply bind_ok in E as (v & _ & E). injection E as <-. apply bind_ok in E1 as (x0 & E0 & E1). apply bind_ok in E1 as (r' & _ & E1). injection E1 as <- _. cbn [label fst].
  unfold atn in E0. destruct (filter (of_class x) l) as [|y g] eqn:Ef; [discriminate|]. cbn in E0. injection E0 as <-. assert (Hy : In y (filter (of_class x) l)) by (rewrite Ef; left; reflexivity). apply filter_In in Hy as [_ Hy]. unfold of_class in Hy. apply String.eqb_eq in Hy. exact Hy.
Qed.
Lemma means_find l cs : forall ms x, mapM (fun x => average_instance (filter (of_class x) l)) cs = Ok ms ->
  find (fun m => String.eqb (label m) x) ms = if in_dec string_dec x cs then match average_instance (filter (of_class x) l) with Ok m => Some m | _ => None end else None.
Proof.
  induction cs as [|c cs IH]; intros ms x E; cbn [mapM] in E; [injection E as <-; reflexivity|]. apply bind_ok in E as (m & Em & E). apply bind_ok in E as (ms' & E' & E). injection E as <-. cbn [find]. rewrite (average_label l c m Em).
  destruct (String.eqb_spec c x) as [->|Hc].
  - destruct (in_dec string_dec x (x :: cs)) as [_|Hn]; [rewrite Em; reflexivity|]. exfalso. apply Hn. left; reflexivity.
  - rewrite (IH ms' x E'). destruct (in_dec string_dec x cs) as [H|H], (in_dec string_dec x (c :: cs)) as [H'|H']; try reflexivity; exfalso; cbn [In] in *; tauto.
Qed.
Lemma mapM_sub {A B} (f : A -> res B) cs ms : mapM f cs = Ok ms -> forall cs', incl cs' cs -> exists ms', mapM f cs' = Ok ms'.
Proof.
  intros E. assert (F : forall x, In x cs -> exists m, f x = Ok m).
  { revert ms E. induction cs as [|c cs IH]; intros ms E x Hx; [destruct Hx|]. cbn [mapM] in E. apply bind_ok in E as (m & Em & E). apply bind_ok in E as (ms' & E' & _). destruct Hx as [<-|Hx]; [eauto|exact (IH _ E' x Hx)]. }
  induction cs' as [|c cs' IH]; intros I; [exists []; reflexivity|]. destruct (F c (I c (or_introl eq_refl))) as (m & Em). destruct IH as (ms' & E'); [intros x Hx; apply I; right; exact Hx|]. exists (m :: ms'). cbn [mapM]. rewrite Em. cbn [bind]. rewrite E'. reflexivity.
Qed.
Lemma kmeans_without old old' l m c : kmeans_train old l = Ok m -> exists m', kmeans_train old' (without c l) = Ok m' /\ km_prior m' = no_key c (km_prior m) /\
  forall dist q x, x <> c -> kmeans_metric dist m' q x = kmeans_metric dist m q x.
Proof.
  unfold kmeans_train. intros E. rewrite (proj1 (part_class_spec l)) in E. cbn [bind] in E. rewrite (proj1 (part_class_spec (without c l))). cbn [bind].
  assert (EM : forall {A B C} (f : B -> res C) (g : A -> B) cs, mapM f (map g cs) = mapM (fun x => f (g x)) cs).
  { intros A B C f g cs. induction cs as [|x cs IH]; [reflexivity|]. cbn [map mapM]. rewrite IH. reflexivity. }
  rewrite EM in *. apply bind_ok in E as (ms & E & Em). injection Em as <-.
  assert (EE : forall cs, ~ In c cs -> mapM (fun x => average_instance (filter (of_class x) (without c l))) cs = mapM (fun x => average_instance (filter (of_class x) l)) cs).
  { induction cs as [|x cs IH]; intros Hn; [reflexivity|]. cbn [mapM]. rewrite of_class_without by (intros ->; apply Hn; left; reflexivity). rewrite IH by (intros H; apply Hn; right; exact H). reflexivity. }
  destruct (mapM_sub _ _ _ E (distinct_labels (without c l))) as (ms' & E'); [intros x Hx; apply distinct_without in Hx; apply Hx|].
  rewrite EE by (intros H; apply distinct_without in H; tauto). rewrite E'. cbn [bind]. eexists; split; [reflexivity|]. cbn [km_prior]. split; [apply prior_without|]. intros dist q x Hx. unfold kmeans_metric. cbn [km_means]. rewrite (means_find l _ ms x E), (means_find l _ ms' x E').
  destruct (in_dec string_dec x (distinct_labels l)) as [H|H], (in_dec string_dec x (distinct_labels (without c l))) as [H'|H']; try reflexivity; exfalso; rewrite distinct_without in H'; tauto.
Qed.
