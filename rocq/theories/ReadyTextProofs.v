(** Training and asking the library's classifiers on discrete and on mixed data: proofs. *)
From Coq Require Import String ZArith QArith Bool Lia Lqa Permutation Arith List.
From Verif Require Import Base Spec BaseLemmas DblLemmas SortLemmas AttrModel AttrProofs DataSetModel InstanceListModel PartitionModel PerformanceModel
  StatSpec ListSpec ListProofs PartitionProofs CovProofs PerformanceProofs DistanceModel DistanceSpec DistanceProofs DistanceProps
  GaussianModel GaussianSpec GaussianProofs GaussianProps DiscrimSpec DiscrimProofs BayesProofs CoincideGaussProofs
  TreeModel TreeSpec TreeProofs TreeGrowProofs TreePredictProofs EnsembleModel EnsembleProofs EnsembleProps NetModel NetSpec NetTrainProofs NetProps SoftModel SoftSpec SoftProofs SoftTrainProofs SoftProps SvmModel LibModel LibSpec ReadySpec ReadyProofs ReadyTextSpec.
Import ListNotations.
Local Open Scope string_scope.
Local Open Scope list_scope.
Local Open Scope nat_scope.

(** * Any mixture of features *)
Section Rows.
  Context (E : env) (HE : sound E) (shape : list kind) (L : list string).
  Notation P := (row_of shape).
  Lemma row_plain x : P x -> isComposite x = false.
  Proof. intros (H & _). unfold isComposite. rewrite H. reflexivity. Qed.
  Lemma row_tabular l : Forall P l -> tabular shape l.
  Proof. intros F. eapply Forall_impl; [|exact F]. intros x H. exact (proj2 H). Qed.
  Lemma knn_rows (Q : instance -> Prop) l m k : (forall x, Q x -> composite x = None) -> Forall Q l -> l <> [] -> incl (map label l) L -> (1 <= k)%Z -> measures_all Q m -> answers_all E Q L (KnnC (Some (l, k, m))).
  Proof.
    intros HQ F N HL Hk Hm q Hq. cbn [predict]. rewrite Forall_forall in F.
    destruct (C47_neighbours m l k q (fun x => match m x q with Ok v => v | _ => d0 end) l) as (ns & rest & En & _ & Hlen & _).
    - intros x Hx _. destruct (Hm x q (F x Hx) Hq) as (v & -> & Hv). split; [reflexivity|exact Hv].
    - exists (fun _ => true). split; [clear; induction l as [|x l' IH]; [reflexivity|cbn; rewrite <- IH; reflexivity]|].
      intros x. split; [|reflexivity]. intros _. unfold may_answer. rewrite (HQ q Hq). discriminate.
    - destruct (C48_majority m l k q ns En) as (c & Ec & Hc & _).
      + intros ->. cbn in Hlen. destruct l; [congruence|]. cbn [length] in Hlen. lia.
      + exists c. split; [exact Ec|]. apply in_map_iff in Hc as (x & <- & Hx). apply HL, in_map, (C48_training_label m l k q ns En x Hx).
  Qed.
  Lemma eucl_rows : measures_all P eucl.
  Proof.
    intros x y (_ & Hx) (_ & Hy). assert (Fi : forall z, typed shape z -> Forall finite (attrs z)).
    { intros z Hz. unfold typed in Hz. remember (attrs z) as az. clear -Hz. induction Hz as [|k a ks az Hk _ IH]; constructor; [|exact IH]. intros w Hw. destruct k; cbn in Hk; [destruct Hk as (v & ->)|destruct Hk as (v & ->)|destruct Hk as (v & i & ->)|destruct Hk as (v & ->)]; try discriminate. injection Hw as <-. eexists. reflexivity. }
    destruct (eucl_fin x y) as (v & Ev & _); [rewrite <- (Forall2_len _ _ _ Hx), <- (Forall2_len _ _ _ Hy); reflexivity|apply Fi, Hx|apply Fi, Hy|]. exists (Fin v). split; [exact Ev|reflexivity].
  Qed.
  Definition row_answers (t : tree) : Prop := forall q, P q -> exists y, tree_predict (e_max_item E) t q = Ok y /\ In y L.
  Lemma tagged_rows : forall t, tagged L t -> fits_tree shape t -> row_answers t.
  Proof.
    intros t Ht Hf q Hq. rewrite (tree_predict_plain _ _ _ (row_plain _ Hq)). revert Ht Hf. induction t as [lab leaf ds c ch IH] using tree_rect2; intros Ht Hf.
    inversion Ht as [? ? ? ? ? Hin Hts]; subst. inversion Hf as [? ? ? ? ? Hc Hft]; subst. destruct leaf.
    - exists lab. split; [apply predict_leaf_plain, row_plain, Hq|exact Hin].
    - rewrite (predict_plain _ _ _ _ _ _ (row_plain _ Hq)). destruct (pick_total shape ch q (proj2 Hq) Hc) as (o & -> & Ho). cbn [bind].
      destruct o as [n|]; [|exists lab; split; [reflexivity|exact Hin]]. rewrite Forall_forall in IH, Hts, Hft. apply (IH n Ho); auto.
  Qed.
  Lemma build_rows param stump fuel data c : Forall P data -> data <> [] -> length data <= fuel -> incl (map label data) L ->
    exists t, build (e_entropy E) (e_mid E) (e_rarr E) param stump fuel data c = Ok t /\ tagged L t /\ fits_tree shape t.
  Proof.
    intros F N Hf HL. destruct (build_ok (e_entropy E) (e_mid E) (e_rarr E) shape (so_entropy E HE) (so_mid E HE) (so_rarr E HE) param stump fuel data c (row_tabular _ F) N Hf) as (t & Et & G & _ & Ft).
    exists t. split; [exact Et|]. split; [eapply grown_tagged; eassumption|exact Ft].
  Qed.
  Lemma tree_rows prune ratio seed l : Forall P l -> l <> [] -> incl (map label l) L -> length l <= e_fuel E ->
    (prune = true -> exists q, ratio = Fin q /\ exists c, In c (map label l) /\ leaves_one q (occ (map label l) c)) ->
    exists t, tree_train (e_max_item E) (e_entropy E) (e_mid E) (e_rarr E) prune ratio seed (e_fuel E) l = Ok t /\ row_answers t.
  Proof.
    intros F N HL Hf Hq. unfold tree_train. destruct prune.
    - destruct (Hq eq_refl) as (q & -> & c & Hc & Ho). destruct (part_strat_spec (e_rarr E) q seed l (so_rarr E HE _ _)) as (g0 & g1 & Eg & PP & _).
      destruct (leaves_some (e_rarr E) q seed l c (so_rarr E HE _ _) Hc Ho g0 g1 Eg) as (x1 & Hx1 & _). rewrite Eg. cbn [bind].
      change (atn [g0; g1] 1) with (Ok g1 : res ilist). change (atn [g0; g1] 0) with (Ok g0 : res ilist). cbn [bind].
      assert (FP : Forall P (g0 ++ g1)) by (rewrite Forall_forall in *; intros x Hx; apply F; eapply Permutation_in; eassumption).
      apply Forall_app in FP as [F0 F1].
      assert (N1 : g1 <> []) by (intros ->; destruct Hx1).
      assert (LP : length g1 <= length l) by (rewrite <- (Permutation_length PP), app_length; lia).
      destruct (build_rows None false (e_fuel E) g1 no_condition F1 N1) as (t & -> & Tt & Ft); [lia| |].
      { intros y Hy. apply in_map_iff in Hy as (x & <- & Hx). apply HL, in_map. eapply Permutation_in; [exact PP|]. apply in_app_iff. right. exact Hx. }
      cbn [bind].
      destruct (prune_node_total (e_max_item E) shape g0 (row_tabular _ F0)) with (t := t) (plug := fun t : tree => t) as (t' & Et & Ft' & _); [|exact Ft|auto|].
      { eapply Forall_impl; [|exact F0]. intros x Hx Hi. rewrite (row_plain _ Hx) in Hi. discriminate. }
      exists t'. split; [exact Et|]. apply tagged_rows; [|exact Ft']. eapply pruned_tagged; [|exact Tt]. exact (proj1 (prune_node_ok _ _ _ _ _ Et)).
    - destruct (build_rows None false (e_fuel E) l no_condition F N Hf HL) as (t & -> & Tt & Ft). exists t. split; [reflexivity|]. apply tagged_rows; assumption.
  Qed.
  Lemma stump_rows l : Forall P l -> l <> [] -> incl (map label l) L -> length l <= e_fuel E ->
    exists t, stump_train (e_entropy E) (e_mid E) (e_rarr E) (e_fuel E) l = Ok t /\ row_answers t.
  Proof.
    intros F N HL Hf. unfold stump_train. destruct (build_rows None true (e_fuel E) l no_condition F N Hf HL) as (t & -> & Tt & Ft). exists t. split; [reflexivity|]. apply tagged_rows; assumption.
  Qed.
  Lemma forest_rows f q : Forall row_answers f -> f <> [] -> P q -> exists y, ensemble_predict (e_max_item E) f q = Ok y /\ In y L.
  Proof.
    intros F N Hq. destruct (mapM_forall (fun t => tree_predict (e_max_item E) t q) (fun _ p => In p L) f) as (vs & Ev & Hvs).
    { intros t Ht. rewrite Forall_forall in F. exact (F t Ht q Hq). }
    destruct (C66_most_votes (e_max_item E) f q vs N Ev) as (y & Ey & Hy & _). exists y. split; [exact Ey|].
    clear -Hy Hvs. induction Hvs as [|a b l l' H _ IH]; [contradiction|]. destruct Hy as [<-|Hy]; [exact H|apply IH, Hy].
  Qed.
  Lemma ensemble_rows param size old l : Forall P l -> l <> [] -> incl (map label l) L -> length l <= e_fuel E -> Forall row_answers old -> 1 <= size ->
    exists f, ensemble_train (e_entropy E) (e_mid E) (e_rarr E) (e_pick E) param size (e_fuel E) old l = Ok f /\ Forall row_answers f /\ f <> [].
  Proof.
    intros F N HL Hf Ho Hs. unfold ensemble_train.
    destruct (mapM_forall (fun i => build (e_entropy E) (e_mid E) (e_rarr E) param false (e_fuel E) (bootstrap (e_pick E) (Z.of_nat i) l) no_condition) (fun _ t => row_answers t) (seq 0 size)) as (ts & Ets & Hts).
    { intros i _. destruct (so_pick E HE (Z.of_nat i) (length l)) as [Pl Pf].
      assert (Hi : incl (bootstrap (e_pick E) (Z.of_nat i) l) l) by apply rearrange_incl.
      assert (Hl : length (bootstrap (e_pick E) (Z.of_nat i) l) = length l) by (unfold bootstrap; rewrite rearrange_length by exact Pf; exact Pl).
      destruct (build_rows param false (e_fuel E) (bootstrap (e_pick E) (Z.of_nat i) l) no_condition) as (t & Et & Tt & Ft).
      - rewrite Forall_forall in *. intros x Hx. apply F, Hi, Hx.
      - intros H. rewrite H in Hl. destruct l; [congruence|discriminate].
      - lia.
      - intros y Hy. apply in_map_iff in Hy as (x & <- & Hx). apply HL, in_map, Hi, Hx.
      - exists t. split; [exact Et|]. apply tagged_rows; assumption. }
    rewrite Ets. cbn [bind]. exists (old ++ ts). split; [reflexivity|]. split.
    - apply Forall_app. split; [exact Ho|]. clear -Hts. induction Hts; constructor; assumption.
    - intros H. apply app_eq_nil in H as [_ ->]. apply Forall2_len in Hts. rewrite seq_length in Hts. cbn in Hts. lia.
  Qed.
  (** all classes that do not care about the mixture *)
  Lemma rows_train c l p : Forall P l -> l <> [] -> incl (map label l) L -> kept E P (length shape) L c -> reads_rows c = true -> fits P l c p -> length l < e_fuel E ->
    exists c', train E c l (Some p) = Ok (c', l) /\ answers_all E P L c' /\ fresh c' = fresh c /\ kept E P (length shape) L c'.
  Proof.
    intros F N HL Hk Hr Hp Hf. destruct c as [k|k|m|m|m|m|m|t|t|f|f|m|m|m|m|m|m]; try discriminate Hr; cbn [fits] in Hp; cbn [train kept] in *.
    - destruct Hp as (s & m & n & -> & Hn & Hm). cbn. eexists. split; [reflexivity|]. split; [|split; [reflexivity|exact I]]. apply knn_rows; try assumption. intros x H. exact (proj1 H).
    - eexists. split; [reflexivity|]. split; [|split; [reflexivity|exact I]]. intros q Hq. cbn [predict]. eexists. split; [reflexivity|].
      apply HL. apply (C88_dummy (e_max_item E) m l q N). exact (row_plain q Hq).
    - eexists. split; [reflexivity|]. split; [|split; [reflexivity|exact I]]. intros q Hq. cbn [predict].
      destruct (proj1 (C89_random_partial (e_random E (random_train m l) q) m l q) (row_plain q Hq) N) as (y & Ey & Hy). exists y. split; [exact Ey|apply HL, Hy].
    - assert (exists s b r, p = PC45 s b r /\ (b = true -> exists q, r = Fin q /\ exists c, In c (map label l) /\ leaves_one q (occ (map label l) c))) as (s & b & r & -> & Hb).
      { destruct Hp as [(s & r & ->)|(s & q & -> & H)]; [exists s, false, r; split; [reflexivity|discriminate]|]. exists s, true, (Fin q). split; [reflexivity|]. intros _. exists q. split; [reflexivity|exact H]. }
      cbn [as_c45 deref_param bind fst snd]. destruct (tree_rows b r s l F N HL) as (t' & -> & A); [lia|exact Hb|]. cbn [bind]. eexists. split; [reflexivity|]. split; [exact A|split; [reflexivity|exact I]].
    - destruct (stump_rows l F N HL) as (t' & -> & A); [lia|]. cbn [bind]. eexists. split; [reflexivity|]. split; [exact A|split; [reflexivity|exact I]].
    - destruct Hp as (s & n & Hp & Hn). destruct (ensemble_rows None (Z.to_nat n) f l F N HL) as (f' & Ef & A & Ne); [lia|exact Hk|lia|].
      assert (as_bagging (Some p) = Ok (s, n)) as -> by (destruct Hp as [->|(k & ->)]; reflexivity). cbn [bind fst snd]. rewrite Ef. cbn [bind]. eexists. split; [reflexivity|]. split; [|split; [reflexivity|exact A]].
      intros q Hq. exact (forest_rows f' q A Ne Hq).
    - destruct Hp as (s & n & k & -> & Hn). destruct (ensemble_rows (Some (Z.to_nat k, s)) (Z.to_nat n) f l F N HL) as (f' & Ef & A & Ne); [lia|exact Hk|lia|].
      cbn [as_forest deref_param bind]. rewrite Ef. cbn [bind]. eexists. split; [reflexivity|]. split; [|split; [reflexivity|exact A]].
      intros q Hq. exact (forest_rows f' q A Ne Hq).
  Qed.
End Rows.

(** * Words *)
Lemma text_row d x : text_inst d x <-> row_of (repeat KDisc d) x.
Proof.
  unfold text_inst, row_of, typed. split; intros (H & R); (split; [exact H|]).
  - destruct R as (v & Lv & ->). subst d. clear. induction v as [|a v IH]; cbn; constructor; [exists a; reflexivity|exact IH].
  - remember (attrs x) as l. clear -R. remember (repeat KDisc d) as s. revert d Heqs. induction R as [|k a s l Hk _ IH]; intros d E; [destruct d; [|discriminate]; exists []; split; reflexivity|].
    destruct d as [|d]; [discriminate|]. cbn in E. injection E as -> ->. destruct (IH d eq_refl) as (v & Lv & ->). destruct Hk as (w & ->). exists (w :: v). split; [cbn; congruence|reflexivity].
Qed.
Lemma text_count d x : text_inst d x -> attr_count x = d.
Proof. intros (_ & v & L & E). unfold attr_count. rewrite E, map_length. exact L. Qed.
Lemma text_atn d x i : text_inst d x -> i < d -> exists w, get_attr x (Z.of_nat i) = Ok (ADisc w).
Proof.
  intros (_ & v & L & E) H. unfold get_attr. rewrite E.
  destruct (nth_error v i) as [q|] eqn:En; [|apply nth_error_None in En; lia]. exists q.
  unfold at_. replace (Z.of_nat i <? 0)%Z with false by (symmetry; apply Z.ltb_ge; lia). rewrite Nat2Z.id, nth_error_map, En. reflexivity.
Qed.
Lemma text_class d l c : texts d l -> In c (map label l) -> texts d (filter (of_class c) l).
Proof.
  intros (N & D & F) H. repeat split; [apply class_nonempty, H|exact D|]. rewrite Forall_forall in *. intros x Hx. apply filter_In in Hx as [Hx _]. apply F, Hx.
Qed.
Lemma text_values d l i : Forall (text_inst d) l -> i < d -> exists vs, mapM (disc_at (Z.of_nat i)) l = Ok vs /\ length vs = length l.
Proof.
  intros F Hi. induction F as [|x l Hx F (vs & E & Lv)]; [exists []; split; reflexivity|]. cbn [mapM]. unfold disc_at at 1. destruct (text_atn d x i Hx Hi) as (w & ->). cbn [bind disc_value]. rewrite E. cbn [bind]. eexists. split; [reflexivity|cbn; congruence].
Qed.
Lemma text_first d l : texts d l -> exists x, atn l 0 = Ok x /\ In x l /\ text_inst d x.
Proof. intros (N & _ & F). destruct l as [|x l]; [congruence|]. inversion F; subst. exists x. split; [reflexivity|]. split; [left; reflexivity|assumption]. Qed.
Lemma text_average d l : texts d l -> exists a, average_instance l = Ok a /\ text_inst d a /\ (exists x, In x l /\ label a = label x).
Proof.
  intros T. destruct (text_first d l T) as (x & Ex & Hx & Tx). destruct T as (N & D & F).
  assert (M : forall xs, (forall i, In i xs -> i < d) -> exists ws, mapM (fun i => attr_average (Z.of_nat i) l) xs = Ok (map (fun w => Some (ADisc w)) ws) /\ length ws = length xs).
  { induction xs as [|i xs IH]; intros H; [exists []; split; reflexivity|]. destruct (IH ltac:(intros j Hj; apply H; right; exact Hj)) as (ws & Ew & Lw). cbn [mapM]. unfold attr_average at 1. rewrite Ex. cbn [bind].
    destruct (text_atn d x i Tx (H i (or_introl eq_refl))) as (w & ->). cbn [bind isDiscrete]. destruct (text_values d l i F (H i (or_introl eq_refl))) as (vs & -> & _). cbn [bind]. rewrite Ew. cbn [bind]. exists (get_maximum vs :: ws). split; [reflexivity|cbn; congruence]. }
  destruct (M (seq 0 d) ltac:(intros i Hi; apply in_seq in Hi; lia)) as (ws & Ew & Lw). rewrite seq_length in Lw.
  exists (mkInst (label x) (map ADisc ws) None). split; [|split; [split; [reflexivity|exists ws; split; [exact Lw|reflexivity]]|exists x; split; [exact Hx|reflexivity]]].
  unfold average_instance, average. rewrite Ex. cbn [bind]. rewrite (text_count d x Tx), Ew. cbn [bind fst snd].
  replace (mapM (fun o : option attr => match o with Some x0 => Ok x0 | None => UB NullDeref end) (map (fun w => Some (ADisc w)) ws)) with (Ok (map ADisc ws) : res (list attr)); [reflexivity|].
  clear. induction ws as [|w ws IH]; [reflexivity|]. cbn [map mapM bind]. rewrite <- IH. reflexivity.
Qed.
Lemma text_distributions d l : texts d l -> exists ds, all_attr_distribution l = Ok ds /\ length ds = d.
Proof.
  intros T. destruct (text_first d l T) as (x & Ex & Hx & Tx). destruct T as (N & D & F). unfold all_attr_distribution. rewrite Ex. cbn [bind]. rewrite (text_count d x Tx).
  destruct (mapM_forall (fun i => attr_distribution (Z.of_nat i) l) (fun _ _ => True) (seq 0 d)) as (ds & Ed & Hd).
  - intros i Hi. apply in_seq in Hi. unfold attr_distribution. rewrite Ex. cbn [bind]. destruct (text_atn d x i Tx ltac:(lia)) as (w & ->). cbn [bind isDiscrete].
    destruct (foldM_exists (fun c x => do v <- disc_at (Z.of_nat i) x; Ok (cput c v)) l) with (s := @nil (string * nat)) as (c & ->); [|exists c; split; [reflexivity|exact I]].
    intros s y Hy. rewrite Forall_forall in F. unfold disc_at. destruct (text_atn d y i (F y Hy) ltac:(lia)) as (v & ->). eexists. reflexivity.
  - exists ds. split; [exact Ed|]. apply Forall2_len in Hd. rewrite seq_length in Hd. symmetry. exact Hd.
Qed.
Lemma text_check d x : text_inst d x -> 1 <= d -> discrete_check x = false.
Proof. intros (_ & v & Lv & Ex) D. unfold discrete_check. rewrite Ex. destruct v as [|w v]; [cbn in Lv; lia|reflexivity]. Qed.
Lemma text_vector d x : text_inst d x -> inst_vector x = [].
Proof. intros (_ & v & _ & Ex). rewrite inst_vector_concat, Ex. clear. induction v as [|w v IH]; [reflexivity|exact IH]. Qed.

Section Texts.
  Context (E : env) (HE : sound E) (d : nat) (L : list string).
  Lemma gauss_texts l metric q : l <> [] -> incl (map label l) L -> text_inst d q -> (forall c, In c (map label l) -> exists v, metric c = Ok v) ->
    exists y, gauss_predict (class_distribution l) metric q = Ok y /\ In y L.
  Proof.
    intros N HL Hq H. destruct (C49_answers (class_distribution l) metric q) as (y & Ey).
    - rewrite (proj1 Hq). discriminate.
    - intros c Hc. apply H, mmem_prior, mmem_keys, Hc.
    - exists y. split; [exact Ey|]. apply HL. eapply C49_seen_label; [exact N|exact (proj1 Hq)|exact Ey].
  Qed.
  Lemma kmeans_texts old l m : texts d l -> incl (map label l) L -> measures_all (text_inst d) m ->
    exists k, kmeans_train old l = Ok k /\ answers_all E (text_inst d) L (KMeansC (Some (k, m))).
  Proof.
    intros C HL Hm. destruct (kmeans_means old l (fun _ x => text_inst d x)) as (k & Ek & Pk & Hk).
    { intros c Hc. destruct (text_average d _ (text_class d l c C Hc)) as (a & Ea & Ta & x & Hx & La). exists a. split; [exact Ea|]. split; [|exact Ta]. apply filter_In in Hx as [_ Hx]. rewrite La. apply String.eqb_eq. unfold of_class in Hx. exact Hx. }
    exists k. split; [exact Ek|]. intros q Hq. cbn [predict]. unfold kmeans_predict. rewrite Pk. apply gauss_texts; [exact (proj1 C)|exact HL|exact Hq|].
    intros c Hc. unfold kmeans_metric. destruct (Hk c Hc) as (x & -> & Hx). destruct (Hm q x Hq Hx) as (v & -> & _). eexists. reflexivity.
  Qed.
  Definition dists_ok (m : bayes) : Prop := Forall (fun kv => length (snd kv) = d) (nb_dists m).
  Definition has_dists (m : bayes) (g : string * ilist) : Prop := exists v, mfind (fst g) (nb_dists m) = Some v.
  Lemma bayes_texts old l : texts d l -> incl (map label l) L -> dists_ok old ->
    exists m, bayes_train (e_std E) old l = Ok m /\ dists_ok m /\ answers_all E (text_inst d) L (BayesC m).
  Proof.
    intros C HL Ho.
    set (ok := fun g : string * ilist => texts d (snd g)).
    assert (Hg : Forall ok (GaussianProofs.labelled l)).
    { apply Forall_map, Forall_forall. intros c Hc. apply distinct_in in Hc. apply (text_class d l c C Hc). }
    assert (St : forall st g, ok g -> exists t, bayes_disc st g = Ok t /\ (dists_ok st -> dists_ok t) /\ has_dists t g).
    { intros st g Cg. unfold bayes_disc. destruct (text_distributions d _ Cg) as (ds & -> & Ld). cbn [bind]. eexists. split; [reflexivity|]. split.
      - intros B. unfold dists_ok. cbn [nb_dists]. apply Forall_memplace; assumption.
      - unfold has_dists. cbn [nb_dists]. rewrite mfind_memplace, String.eqb_refl. destruct (mfind _ (nb_dists st)); eexists; reflexivity. }
    assert (Hst0 : dists_ok (mkNB (class_distribution l) (nb_means old) (nb_devs old) (nb_dists old))) by exact Ho.
    destruct (fold_inv dists_ok bayes_disc ok (fun s g Hs Hok => match St s g Hok with ex_intro _ t (conj Et (conj H _)) => ex_intro _ t (conj Et (H Hs)) end) _ _ Hst0 Hg) as (m & Em & Hm).
    edestruct (fold_covers bayes_disc has_dists ok (GaussianProofs.labelled l)) as (m' & Em' & Hc); [|  |exact Hg|].
    { intros s g Hok. destruct (St s g Hok) as (t & Et & _ & H). exists t. split; [exact Et|exact H]. }
    { intros s g t h Et (v & Ev). unfold bayes_disc in Et. apply bind_ok in Et as (a & _ & Et). injection Et as <-.
      unfold has_dists. cbn [nb_dists]. rewrite mfind_memplace, Ev. eexists. reflexivity. }
    rewrite Em in Em'. injection Em' as <-.
    assert (G0 : exists g, atn (GaussianProofs.labelled l) 0 = Ok g /\ In g (GaussianProofs.labelled l)).
    { apply atn_hd. unfold GaussianProofs.labelled. intros H. apply map_eq_nil in H. destruct C as (N & _). destruct l as [|x l']; [congruence|].
      assert (In (label x) (distinct_labels (x :: l'))) as Hx by (apply distinct_in; left; reflexivity). rewrite H in Hx. destruct Hx. }
    destruct G0 as (g & Eg & Hin).
    assert (Et : bayes_train (e_std E) old l = Ok m).
    { unfold bayes_train. rewrite class_lists_spec. cbn [bind]. rewrite Eg. cbn [bind]. pose proof (proj1 (Forall_forall _ _) Hg g Hin) as Cg.
      destruct (text_first d _ Cg) as (x & -> & _ & Tx). cbn [bind]. destruct (text_atn d x 0 Tx (proj1 (proj2 C))) as (w & Ew). change (Z.of_nat 0) with 0%Z in Ew. rewrite Ew. cbn [bind isDiscrete]. exact Em. }
    exists m. split; [exact Et|]. split; [exact Hm|]. intros q Hq. cbn [predict]. unfold bayes_predict. rewrite (bayes_train_prior _ _ _ _ Et).
    apply gauss_texts; [exact (proj1 C)|exact HL|exact Hq|]. intros c Hcin. rewrite Forall_forall in Hc.
    assert (NE : exists v, mfind c (nb_dists m) = Some v). { destruct (Hc (c, filter (of_class c) l)) as (v & Ev); [|exists v; exact Ev]. apply in_map_iff. exists c. split; [reflexivity|]. apply distinct_in, Hcin. }
    destruct NE as (v & Ev). unfold bayes_metric. destruct (nb_dists m) as [|kv rest] eqn:Ed; [discriminate Ev|]. unfold bayes_ll_disc. rewrite Ed, Ev. cbn [bind]. rewrite (text_count _ _ Hq).
    assert (Lv : length v = d) by (unfold dists_ok in Hm; rewrite Ed in Hm; rewrite Forall_forall in Hm; apply mfind_in in Ev; exact (Hm _ Ev)).
    eapply foldM_exists. intros s i Hi. apply in_seq in Hi. destruct (text_atn d q i Hq) as (a & ->); [lia|]. cbn [bind disc_value].
    destruct (nth_error v i) as [u|] eqn:Eu; [|apply nth_error_None in Eu; lia]. rewrite (proj2 (atn_ok v i u) Eu). eexists. reflexivity.
  Qed.
  Lemma texts_train c l p : texts d l -> incl (map label l) L -> kept E (text_inst d) d L c -> reads_words c = true -> fits (text_inst d) l c p -> length l < e_fuel E ->
    exists c', train E c l (Some p) = Ok (c', l) /\ answers_all E (text_inst d) L c' /\ fresh c' = fresh c /\ kept E (text_inst d) d L c'.
  Proof.
    intros T HL Hk Hr Hp Hf. destruct (reads_rows c) eqn:Rr.
    - pose proof T as (N & D & F). destruct (rows_train E HE (repeat KDisc d) L c l p) as (c' & Et & A & Fc & K); try assumption.
      + eapply Forall_impl; [|exact F]. intros x. apply text_row.
      + rewrite repeat_length. destruct c; try discriminate Rr; try exact I; cbn [kept] in *; (eapply Forall_impl; [|exact Hk]); intros t Ht q Hq; apply Ht, text_row, Hq.
      + destruct c; try discriminate Rr; try exact Hp. cbn [fits] in *. destruct Hp as (s & m0 & k0 & -> & Hn & Hm). exists s, m0, k0. split; [reflexivity|]. split; [exact Hn|]. intros x y Hx Hy. apply Hm; apply text_row; assumption.
      + exists c'. split; [exact Et|]. split; [intros q Hq; apply A, text_row, Hq|]. split; [exact Fc|]. rewrite repeat_length in K. destruct c, c'; try discriminate Rr; try discriminate Fc; try exact I; cbn [kept] in *; (eapply Forall_impl; [|exact K]); intros t0 Ht q Hq; apply Ht, text_row, Hq.
    - destruct c as [k|k|m|m|m|m|m|t|t|f|f|m|m|m|m|m|m]; try discriminate Rr; try discriminate Hr; cbn [train].
      + destruct Hp as (s & m0 & Hp & Hm). destruct (kmeans_texts (match k with Some m => fst m | None => mkKM [] [] end) l m0 T HL Hm) as (km & -> & R).
        cbn [bind]. destruct Hp as [->|(n & ->)]; cbn; (eexists; split; [reflexivity|]; split; [exact R|split; [reflexivity|exact I]]).
      + destruct (bayes_texts m l T HL Hk) as (m' & -> & S' & R). cbn [bind]. eexists. split; [reflexivity|]. split; [exact R|split; [reflexivity|exact S']].
  Qed.
  Lemma texts_refused c l p : texts d l -> refuses_words c = true -> train E c l p = Throw DiscreteNotAllowed.
  Proof.
    intros T Hr. destruct (text_first d l T) as (x & Ex & _ & Tx). pose proof (text_check d x Tx (proj1 (proj2 T))) as Dc.
    assert (In' : initialize l = Throw DiscreteNotAllowed) by (unfold initialize; rewrite Ex; cbn [bind]; rewrite Dc; reflexivity).
    destruct c as [k|k|m|m|m|m|m|t|t|f|f|m|m|m|m|m|m]; try discriminate Hr; cbn [train]; rewrite ?In'; try reflexivity.
    - unfold lda_train. rewrite Ex. cbn [bind]. rewrite Dc. reflexivity.
    - unfold qda_train. rewrite Ex. cbn [bind]. rewrite Dc. reflexivity.
    - destruct p as [[]|]; unfold svm_null, svm_train; rewrite Ex; cbn [bind]; rewrite Dc; reflexivity.
  Qed.

  (** The soft tree multiplies the one number of an instance, the bias, with one weight per feature and the bias. *)
  Lemma text_gate x n a b : text_inst d x -> 1 <= d -> length (s_w n) = S d -> soft_output (e_exp E) (inst_vector x) (SNode n a b) = Throw VectorSizeMismatch.
  Proof. intros T D Hn. rewrite (text_vector d x T). cbn [soft_output]. unfold vdot_chk. rewrite Hn. cbn [biased length]. destruct d; [lia|reflexivity]. Qed.
  Lemma leaf_error labels cv n : s_w0s n <> [] -> Forall (fun x => In (label x) labels) cv -> forall k, exists e,
    foldM (fun st x => do c <- class_index labels (label x); do o <- soft_output (e_exp E) (inst_vector x) (snd st); do i <- arg_max (fst o); Ok (if Nat.eqb i c then fst st else S (fst st), snd o)) cv (k, SLeaf n) = Ok (e, SLeaf n).
  Proof.
    intros N F. induction F as [|x cv Hx F IH]; intros k; [exists k; reflexivity|]. cbn [foldM fst snd]. unfold class_index. replace (mem_str (label x) labels) with true by (symmetry; apply mem_str_in, Hx).
    cbn [bind soft_output fst snd]. destruct (arg_max_ok _ N) as (i & -> & _). cbn [bind]. apply IH.
  Qed.
  Lemma draws rnd k n : length (draw rnd k n) = n.
  Proof. unfold draw. rewrite map_length, seq_length. reflexivity. Qed.
  Lemma round_texts labels par cv tmp n a b data best bn i : 1 <= d -> data <> [] -> Forall (text_inst d) data -> Forall (text_inst d) cv -> Forall (fun x => In (label x) labels) cv ->
    length (s_w n) = S d -> 1 <= sp_epochs par \/ cv <> [] ->
    split_round (e_exp E) (e_perm E) labels par cv [] tmp (SNode n a b, data, best, bn) i = Throw VectorSizeMismatch.
  Proof.
    intros D Nd Fd Fc Lc Wn H. unfold split_round, descent. cbn [fst snd]. destruct data as [|x0 data'] eqn:Ed; [congruence|]. cbn [atn nth_error bind]. rewrite <- Ed in *.
    destruct (sp_epochs par) as [|ep].
    - cbn [seq foldM bind fst snd g_tree]. destruct cv as [|x cv']; [destruct H; [lia|congruence]|]. inversion Fc as [|? ? Tx _]; inversion Lc as [|? ? Lx _]; subst.
      unfold soft_error. cbn [foldM]. unfold class_index at 1. rewrite (proj2 (mem_str_in _ _) Lx). cbn [bind snd]. rewrite (text_gate x n a b Tx D Wn). reflexivity.
    - cbn [seq foldM]. assert (Ps : Permutation (shuffle (e_perm E) (sp_seed par) data) data) by (apply rearrange_perm, (so_perm E HE)).
      destruct (shuffle (e_perm E) (sp_seed par) data) as [|z zs] eqn:Es; [apply Permutation_nil in Ps; congruence|].
      assert (Tz : text_inst d z) by (rewrite Forall_forall in Fd; apply Fd; eapply Permutation_in; [exact Ps|left; reflexivity]).
      cbn [foldM]. unfold grad_inst at 1. cbn [g_tree]. rewrite (text_gate z n a b Tz D Wn). reflexivity.
  Qed.
  Lemma soft_texts l s f q a cv tr m : texts d l -> f_ratio f = Fin q -> part_strat (e_rarr E) (Fin q) s l = Ok [cv; tr] -> length l < e_fuel E ->
    (tr = [] -> train E (SoftC m) l (Some (PSoft s f a)) = Throw OutOfRange) /\
    (tr <> [] -> (1 <= f_epoch f)%Z \/ cv <> [] -> train E (SoftC m) l (Some (PSoft s f a)) = Throw VectorSizeMismatch).
  Proof.
    intros T Eq Ep Hf. destruct (text_first d l T) as (x0 & Ex & _ & Tx). destruct T as (N & D & F).
    assert (In' : incl (cv ++ tr) l).
    { destruct (part_strat_spec (e_rarr E) q s l (so_rarr E HE _ _)) as (g0 & g1 & Eg & PP & _). rewrite Ep in Eg. injection Eg as <- <-. intros x Hx. eapply Permutation_in; eassumption. }
    assert (Fc : Forall (text_inst d) (cv ++ tr)) by (rewrite Forall_forall in *; intros x Hx; apply F, In', Hx). apply Forall_app in Fc as [Fc Ft].
    assert (Lc : Forall (fun x => In (label x) (distinct_labels l)) cv) by (apply Forall_forall; intros x Hx; apply distinct_in, in_map, In', in_app_iff; left; exact Hx).
    destruct (e_fuel E) as [|fu] eqn:Ef; [lia|].
    assert (Nl : distinct_labels l <> []) by (intros H; destruct l as [|x l']; [congruence|]; assert (H' : In (label x) (distinct_labels (x :: l'))) by (apply distinct_in; left; reflexivity); rewrite H in H'; destruct H').
    cbn [train deref_param bind get_seed as_linear as_soft fst snd]. unfold new_node at 1. rewrite Ex. cbn [bind]. unfold soft_train. unfold new_node at 1. unfold new_node at 2. rewrite Ex. cbn [bind sp_ratio sp_seed].
    unfold split_lists. rewrite Eq, Ep. cbn [bind]. change (atn [cv; tr] 1) with (Ok tr : res ilist). change (atn [cv; tr] 0) with (Ok cv : res ilist). cbn [bind fst snd]. rewrite Ef. cbn [grow]. unfold find_split at 1 2. cbn [sub bind].
    set (root := mkSn _ _ _ _). assert (Nr : s_w0s root <> []) by (intros H; apply (f_equal (@length dbl)) in H; cbn [root s_w0s] in H; rewrite draws in H; destruct (distinct_labels l); [congruence|discriminate]).
    assert (Wr : length (s_w root) = S d) by (cbn [root s_w]; rewrite draws, (text_count d x0 Tx); reflexivity).
    destruct (leaf_error (distinct_labels l) cv root Nr Lc 0) as (e & Ee). unfold soft_error at 1 2. rewrite Ee. cbn [bind snd sub s_node put].
    split.
    - intros ->. reflexivity.
    - intros Nt Hep. destruct tr as [|y tr'] eqn:Et; [congruence|]. rewrite <- Et in *. assert (Ey : atn tr 0 = Ok y) by (rewrite Et; reflexivity). unfold create_node, new_node. rewrite Ey. cbn [bind fst snd copy_from].
      change (seq 0 11) with (0 :: seq 1 10). cbn [foldM]. rewrite round_texts; [rewrite ?Ex; reflexivity|exact D|exact Nt|exact Ft|exact Fc|exact Lc|exact Wr|]. destruct Hep as [Hep|Hep]; [left; cbn [sp_epochs]; lia|right; exact Hep].
  Qed.
End Texts.
