(** Training and asking the library's classifiers on clean numeric data: proofs. *)
From Coq Require Import String ZArith QArith Bool Lia Lqa Permutation Arith List.
From Verif Require Import Base Spec BaseLemmas DblLemmas SortLemmas AttrModel AttrProofs DataSetModel InstanceListModel PartitionModel PerformanceModel
  StatSpec ListSpec ListProofs PartitionProofs CovProofs PerformanceProofs DistanceModel DistanceSpec DistanceProofs DistanceProps
  GaussianModel GaussianSpec GaussianProofs GaussianProps DiscrimSpec DiscrimProofs BayesProofs CoincideGaussProofs
  TreeModel TreeSpec TreeProofs TreeGrowProofs TreePredictProofs EnsembleModel EnsembleProofs EnsembleProps NetModel NetSpec NetTrainProofs NetProps SoftModel SoftSpec SoftProofs SoftTrainProofs SoftProps LibModel ReadySpec.
Import ListNotations.
Local Open Scope string_scope.
Local Open Scope list_scope.
Local Open Scope nat_scope.

(** * Clean data *)
Lemma clean_count d x : clean_inst d x -> attr_count x = d.
Proof. intros (_ & v & L & E). unfold attr_count. rewrite E, map_length. exact L. Qed.
Lemma clean_atn d x i : clean_inst d x -> i < d -> exists q, get_attr x (Z.of_nat i) = Ok (ACont (Fin q)).
Proof.
  intros (_ & v & L & E) H. unfold get_attr. rewrite E.
  destruct (nth_error v i) as [q|] eqn:En; [|apply nth_error_None in En; lia]. exists q.
  unfold at_. replace (Z.of_nat i <? 0)%Z with false by (symmetry; apply Z.ltb_ge; lia). rewrite Nat2Z.id, nth_error_map, En. reflexivity.
Qed.
Lemma clean_class d l c : clean d l -> In c (map label l) -> clean d (filter (of_class c) l).
Proof.
  intros (N & D & F) H. repeat split; [apply class_nonempty, H|exact D|]. rewrite Forall_forall in *. intros x Hx. apply filter_In in Hx as [Hx _]. apply F, Hx.
Qed.
Lemma clean_reads d l : Forall (clean_inst d) l -> exists s, Forall2 reads_numbers l s /\ Forall (fun r => length (snd r) = d) s.
Proof.
  induction 1 as [|x l (_ & v & L & E) _ (s & R & F)]; [exists []; split; constructor|].
  exists ((label x, v) :: s). split; constructor; try assumption. split; [reflexivity|exact E].
Qed.
Lemma clean_mean d l c : clean d l -> In c (map label l) -> exists a, average_instance (filter (of_class c) l) = Ok a /\ label a = c /\ clean_inst d a.
Proof.
  intros (N & D & F) H. destruct (clean_reads _ _ F) as (s & R & L). destruct (mean_attrs d l s c R L H) as (a & E & La & av & Ea & Lv & _).
  exists a. split; [exact E|]. split; [exact La|]. split; [|exists av; split; assumption].
  unfold average_instance in E. apply bind_ok in E as (r & _ & E). apply bind_ok in E as (at' & _ & E). injection E as <-. reflexivity.
Qed.
Lemma clean_uniform d l : Forall (clean_inst d) l -> uniform (repeat None d) l.
Proof.
  intros F. eapply Forall_impl; [|exact F]. intros x (_ & v & L & E). rewrite E. subst d. clear. induction v as [|q v IH]; cbn; [constructor|]. constructor; [eexists; reflexivity|exact IH].
Qed.
Lemma foldM_exists {S B} (f : S -> B -> res S) xs : (forall s x, In x xs -> exists t, f s x = Ok t) -> forall s, exists t, foldM f xs s = Ok t.
Proof.
  induction xs as [|x xs IH]; intros H s; cbn [foldM]; [exists s; reflexivity|]. destruct (H s x (or_introl eq_refl)) as (t & ->). cbn [bind]. apply IH.
  intros s' y Hy. apply H. right. exact Hy.
Qed.

Lemma cb_occ c l : cb c l = occ (map label l) c.
Proof. rewrite occ_countb. reflexivity. Qed.
Lemma leaves_some rarr q seed l c : Permutation (rarr (length l) seed) (seq 0 (length l)) -> In c (map label l) -> leaves_one q (occ (map label l) c) ->
  forall g0 g1, part_strat rarr (Fin q) seed l = Ok [g0; g1] -> exists x, In x g1 /\ label x = c.
Proof.
  intros HP Hc Ho g0 g1 Eg. destruct (part_strat_spec rarr q seed l HP) as (h0 & h1 & Eh & _ & H). rewrite Eg in Eh. injection Eh as <- <-.
  destruct (H c) as (H0 & H1). rewrite <- cb_occ in Ho. unfold leaves_one in Ho.
  assert (N : 0 < cb c l). { rewrite cb_occ. unfold occ. apply count_occ_In, Hc. }
  assert (K : ceiln (qofn (cb c l) * q) <= cb c l - 1).
  { destruct (le_lt_dec (ceiln (qofn (cb c l) * q)) (cb c l - 1)) as [K|K]; [exact K|]. apply ceil_lt in K.
    assert (qofn (cb c l - 1) == qofn (cb c l) - 1)%Q as Eq. { destruct (cb c l) as [|n]; [lia|]. replace (S n - 1) with n by lia. rewrite qofn_S. ring. }
    rewrite Eq in K. exfalso. apply (Qlt_irrefl (qofn (cb c l) - 1)). eapply Qlt_le_trans; eassumption. }
  assert (0 < cb c g1) as P by lia. unfold cb in P.
  destruct (filter (of_class c) g1) as [|x r] eqn:Ef.
  - unfold countb in P. rewrite Ef in P. cbn in P. lia.
  - assert (In x (filter (of_class c) g1)) as Hx by (rewrite Ef; left; reflexivity). apply filter_In in Hx as [Hx Hl]. exists x. split; [exact Hx|]. apply String.eqb_eq, Hl.
Qed.

Section Ready.
  Context (E : env) (HE : sound E) (d : nat) (L : list string).

  (** * k-NN *)
  Lemma knn_ready l m k : clean d l -> incl (map label l) L -> (1 <= k)%Z -> measures d m -> ready E d L (KnnC (Some (l, k, m))).
  Proof.
    intros (N & D & F) HL Hk Hm q Hq. cbn [predict]. rewrite Forall_forall in F.
    destruct (C47_neighbours m l k q (fun x => match m x q with Ok v => v | _ => d0 end) l) as (ns & rest & En & _ & Hlen & _).
    - intros x Hx _. destruct (Hm x q (F x Hx) Hq) as (v & -> & Hv). split; [reflexivity|exact Hv].
    - exists (fun _ => true). split; [clear; induction l as [|x l' IH]; [reflexivity|cbn; rewrite <- IH; reflexivity]|].
      intros x. split; [|reflexivity]. intros _. unfold may_answer. rewrite (proj1 Hq). discriminate.
    - destruct (C48_majority m l k q ns En) as (c & Ec & Hc & _).
      + intros ->. cbn in Hlen. destruct l; [congruence|]. cbn [length] in Hlen. lia.
      + exists c. split; [exact Ec|]. apply in_map_iff in Hc as (x & <- & Hx). apply HL, in_map, (C48_training_label m l k q ns En x Hx).
  Qed.
  Lemma eucl_measures : measures d eucl.
  Proof.
    intros x y Hx Hy. pose proof (clean_count _ _ Hx) as Cx. pose proof (clean_count _ _ Hy) as Cy.
    assert (Fi : forall z, clean_inst d z -> Forall finite (attrs z)).
    { intros z (_ & v & _ & Ez). rewrite Ez. apply Forall_map, Forall_forall. intros q _ w [= <-]. eexists. reflexivity. }
    destruct (eucl_fin x y) as (v & Ev & _); [unfold attr_count in *; congruence|apply Fi, Hx|apply Fi, Hy|]. exists (Fin v). split; [exact Ev|reflexivity].
  Qed.

  (** * Gaussian models *)
  Lemma gauss_ready l metric q : l <> [] -> incl (map label l) L -> clean_inst d q -> (forall c, In c (map label l) -> exists v, metric c = Ok v) ->
    exists y, gauss_predict (class_distribution l) metric q = Ok y /\ In y L.
  Proof.
    intros N HL Hq H. destruct (C49_answers (class_distribution l) metric q) as (y & Ey).
    - rewrite (proj1 Hq). discriminate.
    - intros c Hc. apply H, mmem_prior, mmem_keys, Hc.
    - exists y. split; [exact Ey|]. apply HL. eapply C49_seen_label; [exact N|exact (proj1 Hq)|exact Ey].
  Qed.
  Lemma kmeans_ready old l m : clean d l -> incl (map label l) L -> measures d m ->
    exists k, kmeans_train old l = Ok k /\ ready E d L (KMeansC (Some (k, m))).
  Proof.
    intros C HL Hm. destruct (kmeans_means old l (fun _ x => clean_inst d x)) as (k & Ek & Pk & Hk).
    { intros c Hc. exact (clean_mean d l c C Hc). }
    exists k. split; [exact Ek|]. intros q Hq. cbn [predict]. unfold kmeans_predict. rewrite Pk. apply gauss_ready; [exact (proj1 C)|exact HL|exact Hq|].
    intros c Hc. unfold kmeans_metric. destruct (Hk c Hc) as (x & -> & Hx). destruct (Hm q x Hq Hx) as (v & -> & _). eexists. reflexivity.
  Qed.
  Lemma keeps : keeps_dims (e_inverse E).
  Proof. exact (so_inverse E HE). Qed.
  Lemma lda_ready old l : clean d l -> incl (map label l) L -> exists m, lda_train (e_inverse E) (e_ln E) old l = Ok m /\ ready E d L (LdaC m).
  Proof.
    intros C HL. destruct (lda_total (e_inverse E) (e_ln E) (repeat None d) old l keeps (clean_uniform _ _ (proj2 (proj2 C))) (proj1 C)) as (m & Em & H).
    exists m. split; [exact Em|]. intros q Hq. cbn [predict]. unfold lda_predict. rewrite (proj1 (lda_train_prior _ _ _ _ _ Em)).
    apply gauss_ready; [exact (proj1 C)|exact HL|exact Hq|]. intros c Hc. destruct (H c Hc) as ((w & Ew) & w0 & E0). unfold lda_metric. rewrite Ew, E0. eexists. reflexivity.
  Qed.
  Lemma qda_ready old l : clean d l -> incl (map label l) L -> exists m, qda_train (e_inverse E) (e_det E) (e_ln E) old l = Ok m /\ ready E d L (QdaC m).
  Proof.
    intros C HL. destruct (qda_total (e_inverse E) (e_det E) (e_ln E) (repeat None d) old l keeps (clean_uniform _ _ (proj2 (proj2 C))) (proj1 C)) as (m & Em & H).
    exists m. split; [exact Em|]. intros q Hq. cbn [predict]. unfold qda_predict. rewrite (proj1 (qda_train_prior _ _ _ _ _ _ Em)).
    apply gauss_ready; [exact (proj1 C)|exact HL|exact Hq|]. intros c Hc. destruct (H c Hc) as ((W & EW) & (w & Ew) & w0 & E0). unfold qda_metric. rewrite EW, Ew, E0. eexists. reflexivity.
  Qed.

  (** * Naive Bayes *)
  Lemma inst_vector_clean x : clean_inst d x -> length (inst_vector x) = d.
  Proof.
    intros (_ & v & Lv & Ex). rewrite inst_vector_concat, Ex, <- Lv. clear. induction v as [|q v IH]; cbn; [reflexivity|]. cbn in IH. rewrite IH. reflexivity.
  Qed.
  Lemma Forall_mset {V} (P : string * V -> Prop) k v (m : smap V) : Forall P m -> P (k, v) -> Forall P (mset k v m).
  Proof.
    intros F Pv. induction F as [|[k' v'] m' Pk F' IH]; cbn; [constructor; [exact Pv|constructor]|].
    destruct (String.compare k k'); repeat constructor; assumption.
  Qed.
  Lemma Forall_memplace {V} (P : string * V -> Prop) k v (m : smap V) : Forall P m -> P (k, v) -> Forall P (memplace k v m).
  Proof. intros F Pv. unfold memplace. destruct (mmem k m); [exact F|]. apply Forall_mset; assumption. Qed.
  Definition bayes_ok (m : bayes) : Prop := steady E d L (BayesC m).
  Definition has_class (m : bayes) (g : string * ilist) : Prop := (exists v, mfind (fst g) (nb_means m) = Some v) /\ exists v, mfind (fst g) (nb_devs m) = Some v.
  Lemma bayes_ready old l : clean d l -> incl (map label l) L -> bayes_ok old ->
    exists m, bayes_train (e_std E) old l = Ok m /\ bayes_ok m /\ ready E d L (BayesC m).
  Proof.
    intros C HL Ho.
    set (ok := fun g : string * ilist => clean d (snd g) /\ exists a, average_instance (snd g) = Ok a /\ clean_inst d a).
    assert (Hg : Forall ok (GaussianProofs.labelled l)).
    { apply Forall_map, Forall_forall. intros c Hc. apply distinct_in in Hc. split; [apply (clean_class d l c C Hc)|].
      destruct (clean_mean d l c C Hc) as (a & Ea & _ & Ca). exists a. split; assumption. }
    assert (St : forall st g, ok g -> exists t, bayes_cont (e_std E) st g = Ok t /\ (bayes_ok st -> bayes_ok t) /\ has_class t g).
    { intros st g (Cg & a & Ea & Ca). unfold bayes_cont. rewrite Ea. cbn [bind]. destruct (so_std E HE d _ Cg) as (s & -> & Ls). cbn [bind]. eexists. split; [reflexivity|]. split.
      - intros (B1 & B2 & B3). unfold bayes_ok. cbn [steady nb_dists nb_means nb_devs]. split; [exact B1|]. split; apply Forall_memplace; try assumption. cbn [snd]. apply inst_vector_clean, Ca.
      - unfold has_class. cbn [nb_means nb_devs]. rewrite !mfind_memplace, String.eqb_refl. destruct (mfind _ (nb_means st)), (mfind _ (nb_devs st)); split; eexists; reflexivity. }
    assert (Hst0 : bayes_ok (mkNB (class_distribution l) (nb_means old) (nb_devs old) (nb_dists old))) by exact Ho.
    destruct (fold_inv bayes_ok (bayes_cont (e_std E)) ok (fun s g Hs Hok => match St s g Hok with ex_intro _ t (conj Et (conj H _)) => ex_intro _ t (conj Et (H Hs)) end) _ _ Hst0 Hg) as (m & Em & Hm).
    edestruct (fold_covers (bayes_cont (e_std E)) has_class ok (GaussianProofs.labelled l)) as (m' & Em' & Hc); [|  |exact Hg|].
    { intros s g Hok. destruct (St s g Hok) as (t & Et & _ & H). exists t. split; [exact Et|exact H]. }
    { intros s g t h Et ((v & Ev) & v' & Ev'). unfold bayes_cont in Et. apply bind_ok in Et as (a & _ & Et). apply bind_ok in Et as (sd & _ & Et). injection Et as <-.
      unfold has_class. cbn [nb_means nb_devs]. rewrite !mfind_memplace, Ev, Ev'. split; eexists; reflexivity. }
    rewrite Em in Em'. injection Em' as <-.
    assert (Et : bayes_train (e_std E) old l = Ok m).
    { unfold bayes_train. rewrite class_lists_spec. cbn [bind].
      assert (exists g, atn (GaussianProofs.labelled l) 0 = Ok g /\ ok g) as (g & -> & Cg & _).
      { destruct (atn_hd (GaussianProofs.labelled l)) as (g & Eg & Hin); [|exists g; split; [exact Eg|rewrite Forall_forall in Hg; apply Hg, Hin]].
        unfold GaussianProofs.labelled. intros H. apply map_eq_nil in H. destruct C as (N & _). destruct l as [|x l']; [congruence|].
        assert (In (label x) (distinct_labels (x :: l'))) as Hx by (apply distinct_in; left; reflexivity). rewrite H in Hx. destruct Hx. }
      cbn [bind]. destruct (atn_hd (snd g) (proj1 Cg)) as (x & -> & Hx). cbn [bind].
      pose proof (proj2 (proj2 Cg)) as F. rewrite Forall_forall in F. destruct (clean_atn d x 0 (F x Hx)) as (q & Eq); [apply (proj1 (proj2 C))|]. change (Z.of_nat 0) with 0%Z in Eq.
      rewrite Eq. cbn [bind isDiscrete]. exact Em. }
    exists m. split; [exact Et|]. split; [exact Hm|]. intros q Hq. cbn [predict]. unfold bayes_predict. rewrite (bayes_train_prior _ _ _ _ Et).
    apply gauss_ready; [exact (proj1 C)|exact HL|exact Hq|]. intros c Hin. unfold bayes_metric. destruct Hm as (-> & M1 & M2).
    rewrite Forall_forall in Hc. destruct (Hc (c, filter (of_class c) l)) as ((v & Ev) & v' & Ev').
    { apply in_map_iff. exists c. split; [reflexivity|]. apply distinct_in, Hin. }
    cbn [fst] in Ev, Ev'. unfold bayes_ll_cont. rewrite (clean_count _ _ Hq).
    assert (Lv : length v = d) by (rewrite Forall_forall in M1; apply mfind_in in Ev; exact (M1 _ Ev)).
    assert (Lv' : length v' = d) by (rewrite Forall_forall in M2; apply mfind_in in Ev'; exact (M2 _ Ev')).
    eapply foldM_exists. intros s i Hi. apply in_seq in Hi. destruct (clean_atn d q i Hq) as (a & ->); [lia|]. cbn [bind cont_value]. rewrite Ev, Ev'. unfold idxn.
    destruct (nth_error v i) as [u|] eqn:Eu; [|apply nth_error_None in Eu; lia]. destruct (nth_error v' i) as [u'|] eqn:Eu'; [|apply nth_error_None in Eu'; lia]. eexists. reflexivity.
  Qed.

  (** * Trees *)
  Definition answers (t : tree) : Prop := forall q, clean_inst d q -> exists y, tree_predict (e_max_item E) t q = Ok y /\ In y L.
  Inductive tagged : tree -> Prop :=
  | tagged_node lab leaf ds c ch : In lab L -> Forall tagged ch -> tagged (Node lab leaf ds c ch).
  Lemma clean_typed x : clean_inst d x -> typed (repeat KCont d) x.
  Proof.
    intros (_ & v & Lv & Ex). unfold typed. rewrite Ex, <- Lv. clear. induction v as [|q v IH]; cbn; [constructor|]. constructor; [exists q; reflexivity|exact IH].
  Qed.
  Lemma clean_tabular l : Forall (clean_inst d) l -> tabular (repeat KCont d) l.
  Proof. intros F. eapply Forall_impl; [|exact F]. apply clean_typed. Qed.
  Lemma clean_plain x : clean_inst d x -> isComposite x = false.
  Proof. intros (H & _). unfold isComposite. rewrite H. reflexivity. Qed.
  Lemma grown_tagged : forall t data, grown data t -> incl (map label data) L -> tagged t.
  Proof.
    induction t as [lab leaf ds c ch IH] using tree_rect2; intros data Hg HL.
    inversion Hg as [? ? ? ? [Hin _] _|? ? ? ? groups ? [Hin _] _ _ HP _ _ Hch]; subst; constructor; try (apply HL, Hin); [constructor|].
    apply Forall_forall. intros n Hn. destruct (In_nth_error _ _ Hn) as [i Hi].
    assert (exists g, nth_error groups i = Some g) as [g Hgi].
    { destruct (nth_error groups i) eqn:En; [eexists; reflexivity|]. apply nth_error_None in En.
      assert (i < length ch) by (apply nth_error_Some; congruence). rewrite (Forall2_len _ _ _ Hch) in En. lia. }
    rewrite Forall_forall in IH. apply (IH n Hn g (Forall2_nth _ _ _ _ _ _ Hch Hgi Hi)).
    intros y Hy. apply in_map_iff in Hy as (x & <- & Hx). apply HL, in_map, (Permutation_in _ HP). apply in_concat. exists g. split; [exact (nth_error_In _ _ Hgi)|exact Hx].
  Qed.
  Lemma pruned_tagged : forall t t', pruned t t' -> tagged t -> tagged t'.
  Proof.
    induction t as [lab leaf ds c ch IH] using tree_rect2; intros t' Hp Ht. inversion Hp as [? ? leaf' ? ? ? ch' _ Hch]; subst. inversion Ht as [? ? ? ? ? Hin Hts]; subst.
    constructor; [exact Hin|]. clear -IH Hch Hts. induction Hch as [|a b l l' H _ IHl]; [constructor|]. inversion IH; subst. inversion Hts; subst. constructor; auto.
  Qed.
  Lemma tagged_answers : forall t, tagged t -> fits_tree (repeat KCont d) t -> answers t.
  Proof.
    intros t Ht Hf q Hq. rewrite (tree_predict_plain _ _ _ (clean_plain _ Hq)). revert Ht Hf. induction t as [lab leaf ds c ch IH] using tree_rect2; intros Ht Hf.
    inversion Ht as [? ? ? ? ? Hin Hts]; subst. inversion Hf as [? ? ? ? ? Hc Hft]; subst. destruct leaf.
    - exists lab. split; [apply predict_leaf_plain, clean_plain, Hq|exact Hin].
    - rewrite (predict_plain _ _ _ _ _ _ (clean_plain _ Hq)). destruct (pick_total (repeat KCont d) ch q (clean_typed _ Hq) Hc) as (o & -> & Ho). cbn [bind].
      destruct o as [n|]; [|exists lab; split; [reflexivity|exact Hin]]. rewrite Forall_forall in IH, Hts, Hft. apply (IH n Ho); auto.
  Qed.
  Lemma build_answers param stump fuel data c : Forall (clean_inst d) data -> data <> [] -> length data <= fuel -> incl (map label data) L ->
    exists t, build (e_entropy E) (e_mid E) (e_rarr E) param stump fuel data c = Ok t /\ tagged t /\ fits_tree (repeat KCont d) t.
  Proof.
    intros F N Hf HL. destruct (build_ok (e_entropy E) (e_mid E) (e_rarr E) (repeat KCont d) (so_entropy E HE) (so_mid E HE) (so_rarr E HE) param stump fuel data c (clean_tabular _ F) N Hf) as (t & Et & G & _ & Ft).
    exists t. split; [exact Et|]. split; [eapply grown_tagged; eassumption|exact Ft].
  Qed.
  Lemma tree_ready prune ratio seed l : clean d l -> incl (map label l) L -> length l <= e_fuel E ->
    (prune = true -> exists q, ratio = Fin q /\ exists c, In c (map label l) /\ leaves_one q (occ (map label l) c)) ->
    exists t, tree_train (e_max_item E) (e_entropy E) (e_mid E) (e_rarr E) prune ratio seed (e_fuel E) l = Ok t /\ answers t.
  Proof.
    intros (N & D & F) HL Hf Hq. unfold tree_train. destruct prune.
    - destruct (Hq eq_refl) as (q & -> & c & Hc & Ho). destruct (part_strat_spec (e_rarr E) q seed l (so_rarr E HE _ _)) as (g0 & g1 & Eg & P & _).
      destruct (leaves_some (e_rarr E) q seed l c (so_rarr E HE _ _) Hc Ho g0 g1 Eg) as (x1 & Hx1 & _). rewrite Eg. cbn [bind].
      change (atn [g0; g1] 1) with (Ok g1 : res ilist). change (atn [g0; g1] 0) with (Ok g0 : res ilist). cbn [bind].
      assert (FP : Forall (clean_inst d) (g0 ++ g1)) by (rewrite Forall_forall in *; intros x Hx; apply F; eapply Permutation_in; eassumption).
      apply Forall_app in FP as [F0 F1].
      assert (N1 : g1 <> []) by (intros ->; destruct Hx1).
      assert (LP : length g1 <= length l) by (rewrite <- (Permutation_length P), app_length; lia).
      destruct (build_answers None false (e_fuel E) g1 no_condition F1 N1) as (t & -> & Tt & Ft); [lia| |].
      { intros y Hy. apply in_map_iff in Hy as (x & <- & Hx). apply HL, in_map. eapply Permutation_in; [exact P|]. apply in_app_iff. right. exact Hx. }
      cbn [bind].
      destruct (prune_node_total (e_max_item E) (repeat KCont d) g0 (clean_tabular _ F0)) with (t := t) (plug := fun t : tree => t) as (t' & Et & Ft' & _); [|exact Ft|auto|].
      { eapply Forall_impl; [|exact F0]. intros x Hx Hi. rewrite (clean_plain _ Hx) in Hi. discriminate. }
      exists t'. split; [exact Et|]. apply tagged_answers; [|exact Ft']. eapply pruned_tagged; [|exact Tt]. exact (proj1 (prune_node_ok _ _ _ _ _ Et)).
    - destruct (build_answers None false (e_fuel E) l no_condition F N Hf HL) as (t & -> & Tt & Ft). exists t. split; [reflexivity|]. apply tagged_answers; assumption.
  Qed.
  Lemma stump_ready l : clean d l -> incl (map label l) L -> length l <= e_fuel E ->
    exists t, stump_train (e_entropy E) (e_mid E) (e_rarr E) (e_fuel E) l = Ok t /\ answers t.
  Proof.
    intros (N & D & F) HL Hf. unfold stump_train. destruct (build_answers None true (e_fuel E) l no_condition F N Hf HL) as (t & -> & Tt & Ft). exists t. split; [reflexivity|]. apply tagged_answers; assumption.
  Qed.

  (** * Ensembles *)
  Lemma forest_answers f q : Forall answers f -> f <> [] -> clean_inst d q -> exists y, ensemble_predict (e_max_item E) f q = Ok y /\ In y L.
  Proof.
    intros F N Hq. destruct (mapM_forall (fun t => tree_predict (e_max_item E) t q) (fun _ p => In p L) f) as (vs & Ev & Hvs).
    { intros t Ht. rewrite Forall_forall in F. exact (F t Ht q Hq). }
    destruct (C66_most_votes (e_max_item E) f q vs N Ev) as (y & Ey & Hy & _). exists y. split; [exact Ey|].
    clear -Hy Hvs. induction Hvs as [|a b l l' H _ IH]; [contradiction|]. destruct Hy as [<-|Hy]; [exact H|apply IH, Hy].
  Qed.
  Lemma ensemble_ready param size old l : clean d l -> incl (map label l) L -> length l <= e_fuel E -> Forall answers old -> 1 <= size ->
    exists f, ensemble_train (e_entropy E) (e_mid E) (e_rarr E) (e_pick E) param size (e_fuel E) old l = Ok f /\ Forall answers f /\ f <> [].
  Proof.
    intros (N & D & F) HL Hf Ho Hs. unfold ensemble_train.
    destruct (mapM_forall (fun i => build (e_entropy E) (e_mid E) (e_rarr E) param false (e_fuel E) (bootstrap (e_pick E) (Z.of_nat i) l) no_condition) (fun _ t => answers t) (seq 0 size)) as (ts & Ets & Hts).
    { intros i _. destruct (so_pick E HE (Z.of_nat i) (length l)) as [Pl Pf].
      assert (Hi : incl (bootstrap (e_pick E) (Z.of_nat i) l) l) by apply rearrange_incl.
      assert (Hl : length (bootstrap (e_pick E) (Z.of_nat i) l) = length l) by (unfold bootstrap; rewrite rearrange_length by exact Pf; exact Pl).
      destruct (build_answers param false (e_fuel E) (bootstrap (e_pick E) (Z.of_nat i) l) no_condition) as (t & Et & Tt & Ft).
      - rewrite Forall_forall in *. intros x Hx. apply F, Hi, Hx.
      - intros H. rewrite H in Hl. destruct l; [congruence|discriminate].
      - lia.
      - intros y Hy. apply in_map_iff in Hy as (x & <- & Hx). apply HL, in_map, Hi, Hx.
      - exists t. split; [exact Et|]. apply tagged_answers; assumption. }
    rewrite Ets. cbn [bind]. exists (old ++ ts). split; [reflexivity|]. split.
    - apply Forall_app. split; [exact Ho|]. clear -Hts. induction Hts; constructor; assumption.
    - intros H. apply app_eq_nil in H as [_ ->]. apply Forall2_len in Hts. rewrite seq_length in Hts. cbn in Hts. lia.
  Qed.

  (** * Networks *)
  Lemma clean_size x : clean_inst d x -> inst_size x = d.
  Proof.
    intros (_ & v & Lv & Ex). unfold inst_size. rewrite Ex, <- Lv. clear. assert (G : forall v k, fold_left (fun s a => s + attr_size a) (map (fun q => ACont (Fin q)) v) k = k + length v).
    { induction v0 as [|q v0 IH]; intros k; cbn [map fold_left length]; [lia|]. rewrite IH. cbn. lia. }
    rewrite G. reflexivity.
  Qed.
  Lemma clean_net l : clean d l -> net_data l d.
  Proof.
    intros (N & D & F). split.
    - destruct l as [|x0 l']; [congruence|]. exists x0, l'. split; [reflexivity|]. inversion F as [|? ? Hx _]; subst.
      apply (discrete_check_uniform (repeat None d) (x0 :: l') x0 (clean_uniform _ _ F)). left. reflexivity.
    - eapply Forall_impl; [|exact F]. intros x Hx. split; [apply clean_size, Hx|]. rewrite (proj1 Hx). discriminate.
  Qed.
  Lemma randomness_of : randomness (e_rarr E) (e_perm E) (e_weights E).
  Proof. constructor; [exact (so_rarr E HE)|exact (so_perm E HE)|exact (so_rows E HE)|exact (so_cols E HE)]. Qed.
  (** the label of the query plays no part *)
  Definition relabelled (c : string) (x : instance) : instance := mkInst c (attrs x) (composite x).
  Lemma relabelled_fits labels c q : In c labels -> clean_inst d q -> NetTrainProofs.fits d labels (relabelled c q).
  Proof. intros Hc Hq. split; [exact (clean_size q Hq)|]. split; [cbn; rewrite (proj1 Hq); discriminate|exact Hc]. Qed.
  Lemma choose_in labels y q c : composite q = None -> choose labels y q = Ok c -> In c labels.
  Proof. intros Hq H. unfold choose in H. rewrite Hq in H. apply bind_ok in H as (i & _ & H). unfold atn in H. destruct (nth_error labels i) eqn:En; [|discriminate]. injection H as <-. exact (nth_error_In _ _ En). Qed.
  Lemma net_ready output l y q : l <> [] -> incl (map label l) L -> clean_inst d q ->
    (forall x, NetTrainProofs.fits d (distinct_labels l) x -> exists o c, (forall y, output (input_vector x) y = Ok o) /\ choose (distinct_labels l) o x = Ok c) ->
    exists c, rmap fst (net_predict output (distinct_labels l) y q) = Ok c /\ In c L.
  Proof.
    intros N HL Hq H. destruct l as [|x0 l']; [congruence|].
    destruct (H (relabelled (label x0) q)) as (o & c & Ho & Hc). { apply relabelled_fits; [apply distinct_in; left; reflexivity|exact Hq]. }
    exists c. change (input_vector (relabelled (label x0) q)) with (input_vector q) in Ho. change (choose (distinct_labels (x0 :: l')) o q = Ok c) in Hc.
    unfold net_predict. rewrite Ho. cbn [bind]. rewrite Hc. split; [reflexivity|]. apply HL, distinct_in. eapply choose_in; [exact (proj1 Hq)|exact Hc].
  Qed.
  Lemma clean_init l : clean d l -> initialize l = Ok (distinct_labels l, d).
  Proof. intros C. exact (net_data_init l d (clean_net l C)). Qed.
  Lemma linear_ready old l p q : clean d l -> incl (map label l) L -> p_ratio p = Fin q ->
    exists m, linear_train (e_exp E) (e_rarr E) (e_perm E) (e_weights E) old l p = Ok m /\ ready E d L (LinearC m).
  Proof.
    intros C HL Hq. destruct (C77_linear (e_exp E) _ _ _ randomness_of old l d p q (clean_net l C) Hq) as (m & Em & Lm & Wm & _).
    exists m. split; [exact Em|]. intros x Hx. cbn [predict]. unfold linear_predict. rewrite Lm in *. apply net_ready; [exact (proj1 C)|exact HL|exact Hx|].
    intros z Hz. apply (linear_output_shape (distinct_labels l) d (li_W m) z Hz Wm). exact (net_data_labels l d (clean_net l C)).
  Qed.
  Lemma mlp_ready old l p q h hs : clean d l -> incl (map label l) L -> p_ratio p = Fin q -> p_hidden p = h :: hs ->
    exists m, mlp_train (e_exp E) (e_tanh E) (e_rarr E) (e_perm E) (e_weights E) old l p = Ok m /\ ready E d L (MlpC m).
  Proof.
    intros C HL Hq Hh. destruct (C77_mlp (e_exp E) (e_tanh E) _ _ _ randomness_of old l d p q h hs (clean_net l C) Hq Hh) as (m & Em & Lm & _ & Wm & Vm & _).
    exists m. split; [exact Em|]. intros x Hx. cbn [predict]. unfold mlp_predict. rewrite Lm in *. apply net_ready; [exact (proj1 C)|exact HL|exact Hx|].
    intros z Hz. apply (mlp_output_shape (e_exp E) (e_tanh E) (distinct_labels l) (ml_act m) d h (ml_W m) (ml_V m) z Hz Wm Vm). exact (net_data_labels l d (clean_net l C)).
  Qed.
  Lemma deep_ready old l p q : clean d l -> incl (map label l) L -> p_ratio p = Fin q -> p_hidden p <> [] -> de_weights old = [] ->
    exists m, deep_train (e_exp E) (e_tanh E) (e_rarr E) (e_perm E) (e_weights E) old l p = Ok m /\ ready E d L (DeepC m).
  Proof.
    intros C HL Hq Hh Ho. destruct (C77_deep (e_exp E) (e_tanh E) _ _ _ randomness_of old l d p q (clean_net l C) Hq Hh Ho) as (m & Em & Lm & _ & _ & Wm & _).
    exists m. split; [exact Em|]. intros x Hx. cbn [predict]. unfold deep_predict. rewrite Lm in *. apply net_ready; [exact (proj1 C)|exact HL|exact Hx|].
    intros z Hz. apply (deep_output_shape (e_exp E) (e_tanh E) (distinct_labels l) (de_act m) d (p_hidden p) (de_weights m) z Hz Wm Hh). exact (net_data_labels l d (clean_net l C)).
  Qed.

  (** * Soft trees *)
  Lemma soft_ready l p q : clean d l -> incl (map label l) L -> sp_ratio p = Fin q -> length l < e_fuel E -> (Z.of_nat (length l) < 2147483647)%Z ->
    (forall c, In c (map label l) -> leaves_one q (occ (map label l) c)) ->
    exists m, soft_train (e_exp E) (e_rarr E) (e_perm E) (e_rand E (sp_seed p)) (e_fuel E) l p = Ok m /\ ready E d L (SoftC (Some m)).
  Proof.
    intros C HL Hq Hf Hi Ho. destruct (part_strat_spec (e_rarr E) q (sp_seed p) l (so_rarr E HE _ _)) as (va & tr & Ep & P & _).
    assert (Lv : length va <= length l) by (rewrite <- (Permutation_length P), app_length; lia).
    destruct (C97_train_partial (e_exp E) (e_rarr E) (e_perm E) (e_rand E (sp_seed p)) l p d q tr va (e_fuel E)) as (m & Em & Lm & Tm); auto.
    - exact (so_rarr E HE).
    - intros s n. exact (so_perm E HE n s).
    - exact (proj1 C).
    - destruct C as (_ & _ & F). eapply Forall_impl; [|exact F]. intros x (_ & v & Lx & Ex). rewrite Ex, map_length. split; [exact Lx|]. apply Forall_map, Forall_forall. intros a _. eexists. reflexivity.
    - intros x Hx. apply (leaves_some (e_rarr E) q (sp_seed p) l (label x) (so_rarr E HE _ _) (in_map label l x Hx) (Ho _ (in_map label l x Hx)) va tr Ep).
    - lia.
    - lia.
    - exists m. split; [exact Em|]. intros x Hx. cbn [predict]. unfold soft_predict.
      destruct (soft_output_laid (e_exp E) (length (SoftModel.so_labels m)) d (inst_vector x) (so_root m) Tm (inst_vector_clean x Hx)) as (o & t' & -> & Hl). unfold rmap. cbn [bind fst snd].
      assert (Nl : SoftModel.so_labels m <> []) by (rewrite Lm; exact (net_data_labels l d (clean_net l C))).
      destruct (arg_max_ok o) as (i & -> & Hlt). { intros ->. destruct (SoftModel.so_labels m); [congruence|discriminate]. }
      cbn [bind fst]. destruct (nth_error (SoftModel.so_labels m) i) as [c|] eqn:En; [|apply nth_error_None in En; lia]. exists c. split; [reflexivity|].
      apply HL, distinct_in. rewrite <- Lm. exact (nth_error_In _ _ En).
  Qed.
End Ready.
