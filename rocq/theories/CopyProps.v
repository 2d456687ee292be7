(** A feature that repeats another one (C145). *)
From Coq Require Import String ZArith QArith Bool Lia Lqa Permutation List.
From Verif Require Import Base Spec BaseLemmas DblLemmas AttrModel InstanceListModel PartitionModel PerformanceModel StatSpec ListSpec ListProofs PartitionProofs CovProofs DistanceModel GaussianModel GaussianSpec GaussianProofs DiscrimSpec DiscrimProofs BayesProofs DiscrimProps PerformanceProofs
  TreeModel TreeSpec TreeProofs TreePredictProofs TreeGrowProofs EnsembleModel TreeProps RenameProofs FeatOrderSpec InvSpec TreeInvProofs TreeInvGrowProofs ConstSpec ConstTreeProofs UnusedSpec UnusedProofs UnusedProps CopySpec CopyProofs.
Import ListNotations.
Local Open Scope string_scope.
Local Open Scope list_scope.
Local Open Scope nat_scope.

(** * Trees never ask for the later one of two features that say the same, in the same or in other units *)
Theorem C145_tree : forall entropy mid rarr shape f j k data t, entropy_finite entropy -> mid_exact mid -> rarr_perm rarr -> (0 < fst f)%Q -> j < k -> k < length shape ->
  tabular shape data -> data <> [] -> repeats f j k data ->
  (forall max_item ratio seed fuel, tree_train max_item entropy mid rarr false ratio seed fuel data = Ok t -> ignores k t /\
     exists t', tree_train max_item entropy mid rarr false ratio seed fuel (map (without k) data) = Ok t' /\
       forall mi x, typed shape x -> tree_predict mi t x = tree_predict mi t' (without k x) /\ node_probability t x = node_probability t' (without k x)) /\
  (forall fuel, stump_train entropy mid rarr fuel data = Ok t -> ignores k t /\
     exists t', stump_train entropy mid rarr fuel (map (without k) data) = Ok t' /\
       forall mi x, typed shape x -> tree_predict mi t x = tree_predict mi t' (without k x) /\ node_probability t x = node_probability t' (without k x)).
Proof.
  intros entropy mid rarr shape f j k data t He Hm Hr Hf Hjk Hk T Hne R. split.
  - intros mi ratio seed fuel E. assert (I : ignores k t) by exact (build_copy entropy mid shape rarr f j k He Hm Hr Hf Hjk Hk false fuel data no_condition t T Hne R E).
    split; [exact I|]. exact (proj1 (C144_unused entropy mid rarr shape k data t He Hm Hr T Hne Hk I) mi ratio seed fuel E).
  - intros fuel E. assert (I : ignores k t) by exact (build_copy entropy mid shape rarr f j k He Hm Hr Hf Hjk Hk true fuel data no_condition t T Hne R E).
    split; [exact I|]. exact (proj2 (C144_unused entropy mid rarr shape k data t He Hm Hr T Hne Hk I) fuel E).
Qed.
Print Assumptions C145_tree.
Theorem C145_bagging : forall entropy mid rarr pick shape f j k size fuel data forest, entropy_finite entropy -> mid_exact mid -> rarr_perm rarr -> (0 < fst f)%Q -> j < k -> k < length shape ->
  tabular shape data -> repeats f j k data -> ensemble_train entropy mid rarr pick None size fuel [] data = Ok forest ->
  Forall (ignores k) forest /\ exists forest', ensemble_train entropy mid rarr pick None size fuel [] (map (without k) data) = Ok forest' /\
    forall mi x, typed shape x -> ensemble_predict mi forest x = ensemble_predict mi forest' (without k x) /\ ensemble_probability mi forest x = ensemble_probability mi forest' (without k x).
Proof.
  intros entropy mid rarr pick shape f j k size fuel data forest He Hm Hr Hf Hjk Hk T R E.
  assert (I : Forall (ignores k) forest); [|split; [exact I|exact (C144_bagging entropy mid rarr pick shape k size fuel data forest He Hm Hr T Hk E I)]].
  unfold ensemble_train in E. apply bind_ok in E as (new & E & Ef). injection Ef as <-. cbn [app]. apply mapM_ok in E. clear - E He Hm Hr Hf Hjk Hk T R.
  induction E as [|i t ns new Et _ IH]; constructor; [|exact IH].
  assert (S : incl (bootstrap pick (Z.of_nat i) data) data) by (intros x Hx; unfold bootstrap in Hx; apply (rearrange_in _ _ _ Hx)).
  apply (build_copy entropy mid shape rarr f j k He Hm Hr Hf Hjk Hk false fuel (bootstrap pick (Z.of_nat i) data) no_condition t); [exact (tab_incl shape data _ S T)| |intros x a b Hx; apply R, S, Hx|exact Et].
  intros En. rewrite En in Et. destruct fuel; discriminate Et.
Qed.
Print Assumptions C145_bagging.
(** pruning turns nodes into leaves and asks for no new feature *)
Lemma prune_ignores mi i l : forall t plug r, ignores i t -> prune_node mi l plug t = Ok r -> ignores i r /\ t_cond r = t_cond t.
Proof.
  induction t as [lab leaf d c ch IH] using tree_rect2. intros plug r I E. cbn [prune_node] in E. destruct leaf; [injection E as <-; split; [exact I|reflexivity]|].
  apply bind_ok in E as (before & _ & E). apply bind_ok in E as (after & _ & E). destruct (dltb after before); [|injection E as <-; split; [constructor|reflexivity]].
  apply bind_ok in E as (ch' & E & Er). injection Er as <-. split; [|reflexivity]. inversion I as [|? ? ? ? I1 I2]; subst.
  assert (G : forall todo done r, Forall (fun t => forall plug r, ignores i t -> prune_node mi l plug t = Ok r -> ignores i r /\ t_cond r = t_cond t) todo ->
    Forall (fun n => c_index (t_cond n) <> Z.of_nat i) todo -> Forall (ignores i) todo -> Forall (fun n => c_index (t_cond n) <> Z.of_nat i) done -> Forall (ignores i) done ->
    (fix go (done todo : list tree) : res (list tree) :=
       match todo with
       | [] => Ok done
       | n :: todo' => do n' <- prune_node mi l (fun n => plug (Node lab false d c (done ++ n :: todo'))) n; go (done ++ [n']) todo'
       end) done todo = Ok r -> Forall (fun n => c_index (t_cond n) <> Z.of_nat i) r /\ Forall (ignores i) r).
  { clear. induction todo as [|n todo IHt]; intros done r IH I1 I2 D1 D2 E; [injection E as <-; split; assumption|]. apply bind_ok in E as (n' & En & E). inversion IH; inversion I1; inversion I2; subst.
    destruct (H1 _ _ H9 En) as (J1 & J2). apply (IHt (done ++ [n']) r); try assumption; apply Forall_app; (split; [assumption|]); constructor; try constructor; [rewrite J2|]; assumption. }
  destruct (G ch [] ch' IH I1 I2 (Forall_nil _) (Forall_nil _) E) as (G1 & G2). constructor; assumption.
Qed.
Theorem C145_pruned : forall max_item entropy mid rarr shape f j k data q seed fuel t, entropy_finite entropy -> mid_exact mid -> rarr_perm rarr -> (0 < fst f)%Q -> j < k -> k < length shape ->
  tabular shape data -> repeats f j k data -> tree_train max_item entropy mid rarr true (Fin q) seed fuel data = Ok t ->
  ignores k t /\ forall mi x y, composite x = composite y -> (forall i, i <> Z.of_nat k -> get_attr x i = get_attr y i) -> tree_predict mi t x = tree_predict mi t y /\ node_probability t x = node_probability t y.
Proof.
  intros mi entropy mid rarr shape f j k data q seed fuel t He Hm Hr Hf Hjk Hk T R E. unfold tree_train in E. apply bind_ok in E as (gs & Es & E). apply bind_ok in E as (g1 & E1 & E). apply bind_ok in E as (t0 & Et & E). apply bind_ok in E as (g0 & _ & E).
  assert (S : incl g1 data).
  { destruct (part_strat_spec rarr q seed data (Hr _ _)) as (h0 & h1 & Es' & P & _). rewrite Es in Es'. injection Es' as ->. injection E1 as <-. intros x Hx. apply (Permutation_in x P), in_or_app. right. exact Hx. }
  assert (I0 : ignores k t0). { apply (build_copy entropy mid shape rarr f j k He Hm Hr Hf Hjk Hk false fuel g1 no_condition t0); [exact (tab_incl shape data _ S T)| |intros x a b Hx; apply R, S, Hx|exact Et]. intros ->. destruct fuel; discriminate Et. }
  destruct (prune_ignores mi k g0 t0 _ t I0 E) as (I & _). split; [exact I|]. intros mi' x y C H. apply C144_path; [exact C|]. intros i A. apply H.
  assert (G : forall t x i, asked t x i -> ignores k t -> i <> Z.of_nat k).
  { clear. intros t x i. induction 1 as [lab d c before n after x B|lab d c before n after x i B S A IH]; intros I; inversion I as [|? ? ? ? I1 I2]; subst; rewrite Forall_forall in I1, I2.
    - apply I1, in_or_app. right. left. reflexivity.
    - apply IH, I2, in_or_app. right. left. reflexivity. }
  exact (G t x i A I).
Qed.
Print Assumptions C145_pruned.
(** a feature given once more at the end *)
Lemma twice_attrs shape j x : typed shape x -> j < length shape -> exists a, nth_error (attrs x) j = Some a /\ attrs (twice j x) = attrs x ++ [a].
Proof.
  intros T H. pose proof (Forall2_len _ _ _ T). unfold twice. cbn [attrs]. destruct (nth_error (attrs x) j) as [a|] eqn:E; [exists a; split; reflexivity|apply nth_error_None in E; lia].
Qed.
Theorem C145_twice : forall max_item entropy mid rarr shape j data ratio seed fuel t, entropy_finite entropy -> mid_exact mid -> rarr_perm rarr -> j < length shape -> tabular shape data -> data <> [] ->
  tree_train max_item entropy mid rarr false ratio seed fuel (map (twice j) data) = Ok t ->
  exists t', tree_train max_item entropy mid rarr false ratio seed fuel data = Ok t' /\
    forall mi x, typed shape x -> tree_predict mi t (twice j x) = tree_predict mi t' x /\ node_probability t (twice j x) = node_probability t' x.
Proof.
  intros mi entropy mid rarr shape j data ratio seed fuel t He Hm Hr Hj T Hne E. destruct (nth_error shape j) as [kd|] eqn:Ek; [|apply nth_error_None in Ek; lia]. set (n := length shape) in *.
  assert (TT : forall x, typed shape x -> typed (shape ++ [kd]) (twice j x)).
  { intros x Tx. destruct (twice_attrs shape j x Tx Hj) as (a & Ea & EA). unfold typed. rewrite EA. apply Forall2_app; [exact Tx|]. destruct (typed_at shape x j kd Tx Ek) as (a' & Ea' & Ha & _). rewrite Ea in Ea'. injection Ea' as <-. repeat constructor. exact Ha. }
  assert (WT : forall x, typed shape x -> without n (twice j x) = x).
  { intros x Tx. destruct (twice_attrs shape j x Tx Hj) as (a & Ea & EA). pose proof (Forall2_len _ _ _ Tx) as L. unfold without. rewrite EA. unfold n. rewrite L, firstn_app, Nat.sub_diag, firstn_all, skipn_all2 by (rewrite app_length; cbn; lia). cbn. rewrite !app_nil_r. destruct x; reflexivity. }
  assert (WL : map (without n) (map (twice j) data) = data). { rewrite map_map. rewrite <- (map_id data) at 2. apply map_ext_in. intros x Hx. apply WT, (tab_in _ _ _ T Hx). }
  destruct (C145_tree entropy mid rarr (shape ++ [kd]) (1, 0)%Q j n (map (twice j) data) t He Hm Hr) as [H _]; [reflexivity|exact Hj|rewrite app_length; cbn; unfold n; lia|..].
  { apply Forall_forall. intros x Hx. apply in_map_iff in Hx as (y & <- & Hy). apply TT, (tab_in _ _ _ T Hy). }
  { destruct data; [contradiction|discriminate]. }
  { intros x a b Hx Ha Hb. apply in_map_iff in Hx as (y & <- & Hy). pose proof (tab_in _ _ _ T Hy) as Ty. destruct (twice_attrs shape j y Ty Hj) as (a' & Ea & EA). pose proof (Forall2_len _ _ _ Ty) as L.
    rewrite EA in Ha, Hb. rewrite nth_error_app1 in Ha by lia. rewrite nth_error_app2 in Hb by (unfold n; lia). unfold n in Hb. rewrite <- L, Nat.sub_diag in Hb. cbn in Hb. assert (a = b) as -> by congruence. destruct b as [| | |[q| | |]]; try reflexivity. cbn. ring. }
  destruct (H mi ratio seed fuel E) as (_ & t' & Et' & A). unfold ilist in *. rewrite WL in Et'. exists t'. split; [exact Et'|]. intros mi' x Tx. specialize (A mi' (twice j x) (TT x Tx)). rewrite WT in A by exact Tx. exact A.
Qed.
Print Assumptions C145_twice.


(** * A random forest draws features, and may draw the repeated one *)
Definition pair_ex : list instance := [mkInst "a" [ADisc "u"] None; mkInst "b" [ADisc "v"] None].
Theorem C145_forest_refuted : exists f rarr, rarr_perm rarr /\ tabular [KDisc; KDisc] (map (twice 0) pair_ex) /\ repeats (1, 0)%Q 0 1 (map (twice 0) pair_ex) /\
  ensemble_train ex_entropy ex_mid rarr (fun _ n => seq 0 n) (Some (1, 1%Z)) 1 2 [] (map (twice 0) pair_ex) = Ok f /\ ~ Forall (ignores 1) f.
Proof.
  eexists. exists (fun n _ => rev (seq 0 n)). split; [intros n s; apply Permutation_sym, Permutation_rev|]. split; [repeat constructor; eexists; reflexivity|].
  split. { intros x a b Hx Ha Hb. repeat destruct Hx as [<-|Hx]; try contradiction; cbn in Ha, Hb; injection Ha as <-; injection Hb as <-; reflexivity. }
  split; [vm_compute; reflexivity|]. intros H. inversion H as [|? ? H1 _]; subst. inversion H1 as [|? ? ? ? H2 _]; subst. inversion H2 as [|? ? H3 _]; subst. apply H3. reflexivity.
Qed.
Print Assumptions C145_forest_refuted.

(** * Distances: the repeated feature counts twice *)
Definition plane_ex : list instance := [mkInst "a" [ACont (Fin 4); ACont (Fin 0)] None; mkInst "b" [ACont (Fin 0); ACont (Fin 5)] None].
Theorem C145_knn_refuted : exists data j q, tabular [KCont; KCont] data /\ typed [KCont; KCont] q /\ knn_predict eucl data 1 q = Ok "a" /\ knn_predict eucl (map (twice j) data) 1 (twice j q) = Ok "b".
Proof.
  exists plane_ex, 0, (mkInst "?" [ACont (Fin 0); ACont (Fin 0)] None). split; [repeat constructor; eexists; reflexivity|]. split; [repeat constructor; eexists; reflexivity|]. split; vm_compute; reflexivity.
Qed.
Print Assumptions C145_knn_refuted.
Theorem C145_kmeans_refuted : exists data j q m m', tabular [KCont; KCont] data /\ typed [KCont; KCont] q /\ kmeans_train (mkKM [] []) data = Ok m /\ kmeans_train (mkKM [] []) (map (twice j) data) = Ok m' /\
  kmeans_predict eucl m q = Ok "a" /\ kmeans_predict eucl m' (twice j q) = Ok "b".
Proof.
  exists plane_ex, 0, (mkInst "?" [ACont (Fin 0); ACont (Fin 0)] None). eexists _, _. split; [repeat constructor; eexists; reflexivity|]. split; [repeat constructor; eexists; reflexivity|].
  split; [vm_compute; reflexivity|]. split; [vm_compute; reflexivity|]. split; vm_compute; reflexivity.
Qed.
Print Assumptions C145_kmeans_refuted.

(** * Naive Bayes: the term of the repeated feature is added once more *)
Lemma twice_text j n x r : reads_text x r -> length (snd r) = n -> j < n -> reads_text (twice j x) (fst r, snd r ++ [nth j (snd r) ""]).
Proof.
  intros (HL & HA) L Hj. split; [exact HL|]. cbn [twice attrs snd]. rewrite HA, nth_error_map, map_app, (nth_error_nth' _ "") by lia. reflexivity.
Qed.
Lemma values_twice j n s c i : Forall (fun r => length (snd r) = n) s -> j < n -> i <= n ->
  values (map (fun r => (fst r, snd r ++ [nth j (snd r) ""])) s) c i = values s c (if i =? n then j else i).
Proof.
  intros HL Hj Hi. unfold values, tmembers. induction HL as [|r s Hr _ IH]; [reflexivity|]. cbn [map filter fst]. destruct (String.eqb (fst r) c); [|exact IH]. cbn [map snd]. rewrite IH. f_equal.
  destruct (Nat.eqb_spec i n) as [-> |Ne]; [rewrite app_nth2, Hr, Nat.sub_diag by lia; reflexivity|rewrite app_nth1 by lia; reflexivity].
Qed.
Theorem C145_bayes_texts : forall ln f std_vec, log_reads ln f ->
  forall n j l s, j < n -> Forall2 reads_text l s -> Forall (fun r => length (snd r) = n) s -> l <> [] ->
  exists m m', bayes_train std_vec bayes_empty l = Ok m /\ bayes_train std_vec bayes_empty (map (twice j) l) = Ok m' /\
  forall q vs c, attrs q = map ADisc vs -> length vs = n -> In c (map label l) ->
    exists r r', bayes_metric ln m q c = Ok (Fin r) /\ bayes_metric ln m' (twice j q) c = Ok (Fin r') /\ (r' == r + f (smoothed s c j (nth j vs "")))%Q.
Proof.
  intros ln f std_vec Hln n j l s Hj HR HL Hne. destruct (C103_discrete_bayes ln f std_vec Hln n l s HR HL Hne ltac:(lia)) as (m & Em & HM).
  set (s' := map (fun r => (fst r, snd r ++ [nth j (snd r) ""])) s).
  assert (HL' : Forall (fun r => length (snd r) = S n) s').
  { apply Forall_forall. intros r Hr. apply in_map_iff in Hr as (r0 & <- & Hr). rewrite Forall_forall in HL. cbn [snd]. rewrite app_length, (HL r0 Hr). cbn. lia. }
  assert (HR' : Forall2 reads_text (map (twice j) l) s').
  { unfold s'. clear - HR HL Hj. induction HR as [|x r l s Hx _ IH]; [constructor|]. inversion HL; subst. constructor; [apply (twice_text j (length (snd r))); auto|]. apply IH. assumption. }
  destruct (C103_discrete_bayes ln f std_vec Hln (S n) _ s' HR' HL' ltac:(destruct l; [contradiction|discriminate]) ltac:(lia)) as (m' & Em' & HM').
  exists m, m'. split; [exact Em|]. split; [exact Em'|]. intros q vs c Hq Lv Hc. destruct (proj1 (HM q vs Hq Lv) c Hc) as (r & Er & Dr).
  destruct (proj1 (HM' (twice j q) (vs ++ [nth j vs ""]) ltac:(exact (proj2 (twice_text j n q (label q, vs) (conj eq_refl Hq) Lv Hj))) ltac:(rewrite app_length; cbn; lia)) c) as (r' & Er' & Dr').
  { rewrite map_map. exact Hc. }
  exists r, r'. split; [exact Er|]. split; [exact Er'|]. rewrite Dr', Dr.
  assert (FQ : tfrequency s' c = tfrequency s c).
  { unfold tfrequency, tmembers, s'. rewrite map_length. f_equal. f_equal. clear. induction s as [|r s IH]; [reflexivity|]. cbn [map filter fst]. destruct (String.eqb (fst r) c); cbn [length]; rewrite IH; reflexivity. }
  rewrite FQ, seq_S, map_app, qsum_app. cbn [map plus]. unfold s'.
  rewrite (map_ext_in (fun i => f (smoothed (map (fun r0 => (fst r0, snd r0 ++ [nth j (snd r0) ""])) s) c i (nth i (vs ++ [nth j vs ""]) ""))) (fun i => f (smoothed s c i (nth i vs "")))).
  2: { intros i Hi. apply in_seq in Hi. unfold smoothed. rewrite (values_twice j n s c i HL Hj) by lia. destruct (Nat.eqb_spec i n); [lia|]. rewrite app_nth1 by lia. reflexivity. }
  unfold smoothed at 2. rewrite (values_twice j n s c n HL Hj) by lia. rewrite Nat.eqb_refl, app_nth2, Lv, Nat.sub_diag by lia. cbn [nth]. unfold smoothed, qsum. cbn [fold_right]. ring.
Qed.
Print Assumptions C145_bayes_texts.
(** hence the answer may change: 1/6 * 2/3 < 5/6 * 1/4, but 1/6 * 2/3 * 2/3 > 5/6 * 1/4 * 1/4 *)
Definition rare_ex : list instance := mkInst "a" [ADisc "x"] None :: mkInst "b" [ADisc "x"] None :: repeat (mkInst "b" [ADisc "y"] None) 4.
Definition weighs (f : Q -> Q) : Prop :=
  (f (1 # 6) + f (2 # 3) < f (5 # 6) + f (1 # 4))%Q /\ (f (5 # 6) + f (1 # 4) + f (1 # 4) < f (1 # 6) + f (2 # 3) + f (2 # 3))%Q /\
  forall p, In p [1 # 6; 2 # 3; 5 # 6; 1 # 4]%Q -> (-100 < f p)%Q.
Lemma of_two l q score c c' r : (forall k, allowed l q k -> k = c \/ k = c') -> allowed l q c -> (score c' < score c)%Q -> DiscrimProps.best l q score r -> r = Ok c.
Proof. intros H A L (k & -> & Ak & Hk). destruct (H k Ak) as [->| ->]; [reflexivity|]. pose proof (Hk c A). lra. Qed.
Theorem C145_bayes_refuted : forall ln f std_vec, log_reads ln f -> weighs f ->
  exists m m', bayes_train std_vec bayes_empty rare_ex = Ok m /\ bayes_train std_vec bayes_empty (map (twice 0) rare_ex) = Ok m' /\
    bayes_predict ln m (mkInst "?" [ADisc "x"] None) = Ok "b" /\ bayes_predict ln m' (twice 0 (mkInst "?" [ADisc "x"] None)) = Ok "a".
Proof.
  intros ln f std_vec Hln (H1 & H2 & HB). set (s := ("a", ["x"]) :: ("b", ["x"]) :: repeat ("b", ["y"]) 4). set (s' := ("a", ["x"; "x"]) :: ("b", ["x"; "x"]) :: repeat ("b", ["y"; "y"]) 4).
  assert (FE : forall p p', (p == p')%Q -> (f p == f p')%Q) by apply Hln.
  assert (HM : (- (inject_Z (2 ^ 1024 - 2 ^ 971)) < -300)%Q) by (vm_compute; reflexivity).
  assert (B1 : (-100 < f (1 # 6))%Q) by (apply HB; cbn; tauto). assert (B2 : (-100 < f (2 # 3))%Q) by (apply HB; cbn; tauto). assert (B3 : (-100 < f (5 # 6))%Q) by (apply HB; cbn; tauto). assert (B4 : (-100 < f (1 # 4))%Q) by (apply HB; cbn; tauto).
  assert (E1 : (f (tfrequency s "a") == f (1 # 6))%Q) by (apply FE; vm_compute; reflexivity). assert (E2 : (f (tfrequency s "b") == f (5 # 6))%Q) by (apply FE; vm_compute; reflexivity).
  assert (E3 : (f (smoothed s "a" 0 "x") == f (2 # 3))%Q) by (apply FE; vm_compute; reflexivity). assert (E4 : (f (smoothed s "b" 0 "x") == f (1 # 4))%Q) by (apply FE; vm_compute; reflexivity).
  assert (E1' : (f (tfrequency s' "a") == f (1 # 6))%Q) by (apply FE; vm_compute; reflexivity). assert (E2' : (f (tfrequency s' "b") == f (5 # 6))%Q) by (apply FE; vm_compute; reflexivity).
  assert (E3' : (f (smoothed s' "a" 0 "x") == f (2 # 3))%Q) by (apply FE; vm_compute; reflexivity). assert (E4' : (f (smoothed s' "b" 0 "x") == f (1 # 4))%Q) by (apply FE; vm_compute; reflexivity).
  assert (E5' : (f (smoothed s' "a" 1 "x") == f (2 # 3))%Q) by (apply FE; vm_compute; reflexivity). assert (E6' : (f (smoothed s' "b" 1 "x") == f (1 # 4))%Q) by (apply FE; vm_compute; reflexivity).
  destruct (C103_discrete_bayes ln f std_vec Hln 1 rare_ex s) as (m & Em & HP); [repeat constructor|repeat constructor|discriminate|lia|].
  destruct (C103_discrete_bayes ln f std_vec Hln 2 (map (twice 0) rare_ex) s') as (m' & Em' & HP'); [repeat constructor|repeat constructor|discriminate|lia|].
  exists m, m'. split; [exact Em|]. split; [exact Em'|]. split.
  - destruct (HP (mkInst "?" [ADisc "x"] None) ["x"] eq_refl eq_refl) as (_ & HBest). eapply (of_two rare_ex _ _ "b" "a"); [| | |apply HBest].
    + intros k (K & _). cbn in K. intuition.
    + split; [right; left; reflexivity|exact I].
    + cbn [seq map nth]. unfold qsum. cbn [fold_right]. rewrite E1, E2, E3, E4. lra.
    + exists "b". split; [split; [right; left; reflexivity|exact I]|]. cbn [seq map nth]. unfold qsum. cbn [fold_right]. rewrite E2, E4. lra.
  - destruct (HP' (twice 0 (mkInst "?" [ADisc "x"] None)) ["x"; "x"] eq_refl eq_refl) as (_ & HBest). eapply (of_two (map (twice 0) rare_ex) _ _ "a" "b"); [| | |apply HBest].
    + intros k (K & _). cbn in K. intuition.
    + split; [left; reflexivity|exact I].
    + cbn [seq map nth]. unfold qsum. cbn [fold_right]. rewrite E1', E2', E3', E4', E5', E6'. lra.
    + exists "a". split; [split; [left; reflexivity|exact I]|]. cbn [seq map nth]. unfold qsum. cbn [fold_right]. rewrite E1', E3', E5'. lra.
Qed.
Print Assumptions C145_bayes_refuted.

(** * Linear and quadratic discriminants: the matrix to be inverted has no inverse *)
Section Singular.
  Context (s : sample) (a b : Q) (j k : nat).
  Hypothesis H : forall r, In r s -> (coord r k == a * coord r j + b)%Q.
  Lemma class_mean_line c : members s c <> [] -> (class_mean s c k == a * class_mean s c j + b)%Q.
  Proof.
    intros Hne. unfold class_mean, qmean. rewrite !map_length. assert (N : ~ (qofn (length (members s c)) == 0)%Q) by (apply qofn_neq0; destruct (members s c); [contradiction|cbn; lia]).
    rewrite (qsum_ext (fun r => coord r k) (fun r => a * coord r j + b)%Q) by (intros r Hr; apply H; unfold members in Hr; apply filter_In in Hr; apply Hr).
    rewrite (qsum_plus (fun r => a * coord r j)%Q (fun _ => b)), qsum_scale, qsum_const. field. exact N.
  Qed.
  Lemma away_line r : In r s -> (coord r k - class_mean s (fst r) k == a * (coord r j - class_mean s (fst r) j))%Q.
  Proof.
    intros Hr. rewrite class_mean_line, (H r Hr); [ring|]. intros E. assert (In r (members s (fst r))) by (apply filter_In; split; [exact Hr|apply String.eqb_refl]). rewrite E in *. contradiction.
  Qed.
  Lemma pooled_line i : (pooled_cov s k i == a * pooled_cov s j i)%Q.
  Proof.
    unfold pooled_cov. rewrite (qsum_ext _ (fun r => a * ((coord r j - class_mean s (fst r) j) * (coord r i - class_mean s (fst r) i)))%Q) by (intros r Hr; rewrite (away_line r Hr); ring).
    rewrite qsum_scale. unfold Qdiv. ring.
  Qed.
  Lemma class_line c i : (class_cov s c k i == a * class_cov s c j i)%Q.
  Proof.
    unfold class_cov. rewrite (qsum_ext _ (fun r => a * ((coord r j - class_mean s c j) * (coord r i - class_mean s c i)))%Q).
    { rewrite qsum_scale. unfold Qdiv. ring. }
    intros r Hr. unfold members in Hr. apply filter_In in Hr as (Hr & E). apply String.eqb_eq in E. subst c. rewrite (away_line r Hr). ring.
  Qed.
End Singular.
Lemma no_inverse d P S w a j k : entries d P w -> j < d -> k < d -> j <> k -> (forall i, (w k i == a * w j i)%Q) -> ~ inverse_of d P S.
Proof.
  intros (_ & HP) Hj Hk Hjk HW (_ & HI). pose proof (HI k k Hk Hk) as E1. pose proof (HI j k Hj Hk) as E2. rewrite Nat.eqb_refl in E1. destruct (Nat.eqb_spec j k); [contradiction|].
  assert (E : (qsum (map (fun i => mget P k i * mget S i k) (seq 0 d)) == a * qsum (map (fun i => mget P j i * mget S i k) (seq 0 d)))%Q).
  { rewrite <- qsum_scale. apply qsum_ext. intros i Hi. apply in_seq in Hi. rewrite (HP k i), (HP j i), (HW i) by lia. ring. }
  rewrite E1, E2 in E. lra.
Qed.
(** whatever the inversion returns for it, it is not an inverse *)
Theorem C145_discriminants : forall s a b j k d, (forall r, In r s -> (coord r k == a * coord r j + b)%Q) -> j < d -> k < d -> j <> k ->
  (forall P S, entries d P (pooled_cov s) -> ~ inverse_of d P S) /\ (forall c P S, entries d P (class_cov s c) -> ~ inverse_of d P S).
Proof.
  intros s a b j k d H Hj Hk Hjk. split.
  - intros P S HP. apply (no_inverse d P S (pooled_cov s) a j k HP Hj Hk Hjk). exact (pooled_line s a b j k H).
  - intros c P S HP. apply (no_inverse d P S (class_cov s c) a j k HP Hj Hk Hjk). exact (class_line s a b j k H c).
Qed.
Print Assumptions C145_discriminants.

(** * Cases *)
(** degrees Celsius and Fahrenheit: the tree asks for the first, and the second could have been left out *)
Definition weather_ex : list instance :=
  [mkInst "ice" [ACont (Fin (-10)); ADisc "w"; ACont (Fin 14)] None; mkInst "rain" [ACont (Fin 10); ADisc "w"; ACont (Fin 50)] None;
   mkInst "sun" [ACont (Fin 25); ADisc "s"; ACont (Fin 77)] None; mkInst "rain" [ACont (Fin 15); ADisc "s"; ACont (Fin 59)] None].
Example C145_case : repeats (9 # 5, 32)%Q 0 2 weather_ex /\ tabular [KCont; KDisc; KCont] weather_ex /\
  exists t t', tree_train ex_max ex_entropy ex_mid ex_rarr false (Fin (1#5)) 1 4 weather_ex = Ok t /\ tree_train ex_max ex_entropy ex_mid ex_rarr false (Fin (1#5)) 1 4 (map (without 2) weather_ex) = Ok t' /\
    ignores 2 t /\ ~ ignores 0 t /\ tree_predict ex_max t (mkInst "" [ACont (Fin (-5)); ADisc "s"; ACont (Fin 23)] None) = Ok "ice" /\ tree_predict ex_max t' (mkInst "" [ACont (Fin (-5)); ADisc "s"] None) = Ok "ice".
Proof.
  split. { intros x a b Hx Ha Hb. repeat destruct Hx as [<-|Hx]; try contradiction; cbn in Ha, Hb; injection Ha as <-; injection Hb as <-; reflexivity. }
  split; [repeat constructor; eexists; reflexivity|]. do 2 eexists. split; [vm_compute; reflexivity|]. split; [vm_compute; reflexivity|]. split; [repeat (constructor || (cbn; discriminate))|].
  split. { intros H. inversion H as [|? ? ? ? H1 _]; subst. inversion H1 as [|? ? H2 _]; subst. apply H2. reflexivity. }
  split; vm_compute; reflexivity.
Qed.
(** there is something to learn from the temperatures alone: with one of them the pooled covariance is invertible *)
Example C145_discriminants_case : let s := [("a", [0; 32]); ("a", [10; 50]); ("b", [20; 68]); ("b", [30; 86])]%Q in
  (forall r, In r s -> (coord r 1 == (9 # 5) * coord r 0 + 32)%Q) /\ (pooled_cov s 0 0 == 50)%Q /\ (pooled_cov s 0 0 * pooled_cov s 1 1 - pooled_cov s 0 1 * pooled_cov s 1 0 == 0)%Q.
Proof. split; [|split; vm_compute; reflexivity]. intros r Hr. repeat destruct Hr as [<-|Hr]; try contradiction; vm_compute; reflexivity. Qed.
