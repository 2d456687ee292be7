(** C158: the answer is a label with the highest reported probability. *)
From Coq Require Import String ZArith QArith Bool Lia Lqa Permutation List.
From Verif Require Import Base Spec BaseLemmas DblLemmas AttrModel InstanceListModel PartitionModel PerformanceModel PerformanceProofs SortLemmas ListSpec ListProofs DistanceModel TreeModel TreeProps TreePredictProofs
  EnsembleModel EnsembleProofs EnsembleProps GaussianModel GaussianProps NetModel SoftModel SoftProps LibModel LibProps MostModel MostSpec MostProofs.
Import ListNotations.
Local Open Scope string_scope.
Local Open Scope list_scope.
Local Open Scope nat_scope.

(** Whatever trained classifier of the library answers a plain query: no label has a higher reported probability than the answer.  Where nothing
    is reported (the map is empty) this says nothing; see C158_reported. *)
Theorem C158_plain : forall E c0 l p c l' x s m, train E c0 l p = Ok (c, l') -> composite x = None -> predict E c x = Ok s -> probability E c x = Ok m ->
  ordinary m -> most m (fun _ => True) s.
Proof.
  intros E c0 l p c l' x s m T Hx Ep Pr O. apply train_sound in T. assert (C : isComposite x = false) by (unfold isComposite; rewrite Hx; reflexivity).
  destruct c as [[[[kl k] kd]|]|[]|m0|m0|m0|d|ls|[t|]|[t|]|f|f|m0|m0|m0|m0|[m0|]|m0]; cbn [predict probability sound] in *; try discriminate;
    try (injection Pr as <-; intros c' v' _ F; discriminate F).
  - exact (knn_counts _ _ _ _ _ _ Ep Pr).
  - destruct T as (vs & ->). injection Ep as <-. injection Pr as <-. unfold dummy_predict. rewrite C. apply (maximum_most vs).
  - injection Pr as <-. intros c' v' _ F. destruct (O _ _ F) as (q & -> & _). apply (uniform ls x T) in F as [I U]. exists q, q. split; [reflexivity|]. split; [|apply Qle_refl].
    apply (uniform ls x T). split; [|congruence]. unfold random_predict in Ep. rewrite C in Ep. destruct (length ls); [discriminate Ep|]. apply atn_ok in Ep. exact (nth_error_In _ _ Ep).
  - rewrite tree_predict_plain in Ep by exact C. destruct (fair_plain _ _ _ C t s T Ep) as (vs & _ & P & ->). rewrite P in Pr. injection Pr as <-. apply maximum_most.
  - rewrite tree_predict_plain in Ep by exact C. destruct (fair_plain _ _ _ C t s T Ep) as (vs & _ & P & ->). rewrite P in Pr. injection Pr as <-. apply maximum_most.
  - exact (votes_counts _ _ _ _ _ Ep Pr).
  - exact (votes_counts _ _ _ _ _ Ep Pr).
  - apply rmap_fst in Ep as (y1 & Ep). apply rmap_fst in Pr as (y2 & Pr). exact (net_plain _ _ _ _ _ _ _ _ T Hx Ep Pr O).
  - apply rmap_fst in Ep as (y1 & Ep). apply rmap_fst in Pr as (y2 & Pr). exact (net_plain _ _ _ _ _ _ _ _ T Hx Ep Pr O).
  - apply rmap_fst in Ep as (y1 & Ep). apply rmap_fst in Pr as (y2 & Pr). exact (net_plain _ _ _ _ _ _ _ _ T Hx Ep Pr O).
  - apply rmap_fst in Ep as (y1 & Ep). apply rmap_fst in Pr as (y2 & Pr). exact (net_plain _ _ _ _ _ _ _ _ T Hx Ep Pr O).
  - apply soft_silent in Pr as ->. intros c' v' _ F. discriminate F.
Qed.
(** Composite queries: the same among the possible labels, for all but the random classifier. *)
Theorem C158_composite_partial : forall E c0 l p c l' x ps s m, train E c0 l p = Ok (c, l') -> composite x = Some ps -> ps <> [] -> ~ In "" ps -> picks_most (e_max_item E) ->
  (forall ls, c <> RandomC ls) -> predict E c x = Ok s -> probability E c x = Ok m -> ordinary m -> most m (fun a => In a ps) s.
Proof.
  intros E c0 l p c l' x ps s m T Hx Hp He HM NR Ep Pr O. apply train_sound in T. assert (C : isComposite x = true) by (unfold isComposite; rewrite Hx; reflexivity).
  assert (L : possible_labels x = ps) by (unfold possible_labels; rewrite Hx; reflexivity).
  assert (G : forall vs, most (probabilities (cofl vs)) (fun a => In a ps) (e_max_item E (cofl vs) ps)).
  { intros vs. apply counts_most. intros c' I. unfold occ. rewrite <- !ccount_cofl. apply HM; [exact Hp|exact I]. }
  assert (TR : forall full t, fair full t -> tree_predict (e_max_item E) t x = Ok s -> node_probability t x = Ok m -> most m (fun a => In a ps) s).
  { intros full t F Et En. unfold tree_predict in Et. apply bind_ok in Et as (q & Eq & Et). destruct (fair_composite _ _ _ _ Hx Hp He HM t q F Eq) as (vs & P & ->).
    rewrite P in En. injection En as <-. pose proof (proj1 (HM (cofl vs) ps Hp)) as I. destruct (String.eqb_spec (e_max_item E (cofl vs) ps) "") as [Z|_]; [rewrite Z in I; contradiction|].
    injection Et as <-. apply G. }
  destruct c as [[[[kl k] kd]|]|[]|m0|m0|m0|d|ls|[t|]|[t|]|f|f|m0|m0|m0|m0|[m0|]|m0]; cbn [predict probability sound] in *; try discriminate;
    try (injection Pr as <-; intros c' v' _ F; discriminate F).
  - apply (most_weaken m (fun _ => True)); [auto|]. exact (knn_counts _ _ _ _ _ _ Ep Pr).
  - destruct T as (vs & ->). injection Ep as <-. injection Pr as <-. unfold dummy_predict. rewrite C, L. apply G.
  - destruct (NR ls). reflexivity.
  - exact (TR _ t T Ep Pr).
  - exact (TR _ t T Ep Pr).
  - apply (most_weaken m (fun _ => True)); [auto|]. exact (votes_counts _ _ _ _ _ Ep Pr).
  - apply (most_weaken m (fun _ => True)); [auto|]. exact (votes_counts _ _ _ _ _ Ep Pr).
  - apply rmap_fst in Ep as (y1 & Ep). apply rmap_fst in Pr as (y2 & Pr). exact (net_composite _ _ _ _ _ _ _ _ _ T Hx Ep Pr O).
  - apply rmap_fst in Ep as (y1 & Ep). apply rmap_fst in Pr as (y2 & Pr). exact (net_composite _ _ _ _ _ _ _ _ _ T Hx Ep Pr O).
  - apply rmap_fst in Ep as (y1 & Ep). apply rmap_fst in Pr as (y2 & Pr). exact (net_composite _ _ _ _ _ _ _ _ _ T Hx Ep Pr O).
  - apply rmap_fst in Ep as (y1 & Ep). apply rmap_fst in Pr as (y2 & Pr). exact (net_composite _ _ _ _ _ _ _ _ _ T Hx Ep Pr O).
  - apply soft_silent in Pr as ->. intros c' v' _ F. discriminate F.
Qed.
(** Where labels are counted, probabilities are reported whenever a plain query is answered: the answer has a positive one, and all of them are ordinary numbers. *)
Theorem C158_reported : forall E c0 l p c l' x s, train E c0 l p = Ok (c, l') -> l <> [] -> counting c -> composite x = None -> predict E c x = Ok s ->
  exists m q, probability E c x = Ok m /\ (forall c' v, mfind c' m = Some v -> exists q', v = Fin q') /\ mfind s m = Some (Fin q) /\ (0 < q)%Q.
Proof.
  intros E c0 l p c l' x s T Hl K Hx Ep. assert (C : isComposite x = false) by (unfold isComposite; rewrite Hx; reflexivity).
  assert (G : forall vs, vs <> [] -> exists q, (forall c' v, mfind c' (probabilities (cofl vs)) = Some v -> exists q', v = Fin q') /\ mfind (get_maximum vs) (probabilities (cofl vs)) = Some (Fin q) /\ (0 < q)%Q).
  { intros vs Hv. destruct (get_maximum_spec vs Hv) as [I _]. exists (qofn (occ vs (get_maximum vs)) / qofn (length vs))%Q. split; [|split].
    - intros c' v F. rewrite share_find in F by exact Hv. destruct (in_dec string_dec c' vs); [injection F as <-; eauto|discriminate F].
    - rewrite share_find by exact Hv. destruct (in_dec string_dec (get_maximum vs) vs); [reflexivity|contradiction].
    - apply Qlt_shift_div_l; [apply qofn_pos; destruct vs; [congruence|cbn; lia]|]. rewrite Qmult_0_l. apply qofn_pos. apply (proj1 (count_occ_In string_dec vs _)). exact I. }
  assert (GE : forall f, f <> [] -> ensemble_predict (e_max_item E) f x = Ok s -> exists m q, ensemble_probability (e_max_item E) f x = Ok m /\
      (forall c' v, mfind c' m = Some v -> exists q', v = Fin q') /\ mfind s m = Some (Fin q) /\ (0 < q)%Q).
  { intros f Hf E0. unfold ensemble_predict in E0. apply bind_ok in E0 as (vs & Ev & E0). injection E0 as <-. unfold ensemble_probability. rewrite Ev. cbn [bind].
    assert (vs <> []) as Hv by (intros ->; apply mapM_ok in Ev; inversion Ev; congruence). destruct (G vs Hv) as (q & A & B & D). exists (probabilities (cofl vs)), q. auto. }
  pose proof (train_sound _ _ _ _ _ _ T) as S.
  destruct c as [[[[kl k] kd]|]|[]|m0|m0|m0|d|ls|[t|]|[t|]|f|f|m0|m0|m0|m0|[m0|]|m0]; cbn [counting] in K; try contradiction; cbn [predict probability sound] in *; try discriminate.
  - destruct K as [K1 K2]. unfold knn_predict in Ep. unfold knn_probability. apply bind_ok in Ep as (ns & En & Ep). rewrite En. rewrite C in Ep. cbn [andb] in Ep. injection Ep as <-.
    assert (ns <> []) as Hn.
    { intros ->. unfold nearest in En. apply bind_ok in En as (ds & E1 & En). apply bind_ok in En as (ss & E2 & En). injection En as En. apply map_eq_nil in En.
      assert (length ss = length ds) as Ls by (destruct (length ds <=? 1); [injection E2 as <-; reflexivity|]; destruct (existsb _ ds); [discriminate|]; injection E2 as <-; symmetry; apply Permutation_length, ssort_perm).
      apply mapM_ok in E1. assert (length ds = length (filter (eligible x) kl)) as Ld by (clear - E1; induction E1; [reflexivity|cbn; congruence]).
      assert (filter (eligible x) kl = kl) as Fl by (clear - C; induction kl as [|a kl IH]; [reflexivity|]; cbn [filter]; rewrite IH; replace (eligible x a) with true by (unfold eligible; rewrite C; reflexivity); reflexivity).
      rewrite Fl in Ld. destruct kl as [|a kl]; [congruence|]. destruct ss as [|a' ss]; [cbn in *; lia|]. destruct (Z.to_nat k) eqn:Zk; [lia|discriminate En]. }
    cbn [bind]. fold (probabilities (class_distribution ns)). rewrite class_distribution_cofl. destruct (G (map label ns)) as (q & A & B & D); [destruct ns; [congruence|discriminate]|].
    exists (probabilities (cofl (map label ns))), q. auto.
  - destruct S as (vs & ->). injection Ep as <-. unfold dummy_predict. rewrite C. destruct c0; cbn [train] in T; try (repeat (apply bind_ok in T as (? & ? & T)); discriminate T).
    + injection T as T _. unfold dummy_train in T. rewrite class_distribution_cofl in T. rewrite <- T. destruct (G (map label l)) as (q & A & B & D); [destruct l; [congruence|discriminate]|].
      exists (probabilities (cofl (map label l))), q. auto.
    + apply bind_ok in T as ([[? ?] ?] & _ & T). apply bind_ok in T as (? & _ & T). discriminate T.
    + destruct p as [[]|]; try (apply bind_ok in T as (y0 & _ & T); destruct (negb (discrete_check y0)); discriminate T); apply bind_ok in T as (? & _ & T); discriminate T.
  - unfold random_predict in Ep. rewrite C in Ep. destruct (length ls) as [|n] eqn:Ln; [discriminate Ep|]. apply atn_ok, nth_error_In in Ep.
    assert (U : ddiv d1 (dofnat (length ls)) = Fin (1 / qofn (length ls))).
    { rewrite dofnat_fin. unfold d1. rewrite ddiv_fin; [reflexivity|]. assert (0 < length ls) as P by lia. apply qofn_pos in P. lra. }
    exists (random_probability ls x), (1 / qofn (length ls))%Q. split; [reflexivity|]. split; [|split].
    + intros c' v F. apply (uniform ls x S) in F as [_ ->]. rewrite U. eauto.
    + apply (uniform ls x S). split; [exact Ep|]. symmetry. exact U.
    + apply Qlt_shift_div_l; [apply qofn_pos; lia|lra].
  - rewrite tree_predict_plain in Ep by exact C. destruct (fair_plain _ _ _ C t s S Ep) as (vs & Hv & P & ->). destruct (G vs (Hv eq_refl)) as (q & A & B & D). exists (probabilities (cofl vs)), q. auto.
  - exact (GE f K Ep).
  - exact (GE f K Ep).
Qed.
(** Among all labels this fails for composite queries: the answer has to be a possible label, while the reported probabilities are those of all labels. *)
Theorem C158_composite_refuted : exists E c0 l p c l' x ps s m v, picks_most (e_max_item E) /\ train E c0 l p = Ok (c, l') /\ composite x = Some ps /\ ps <> [] /\ ~ In "" ps /\
  predict E c x = Ok s /\ probability E c x = Ok m /\ mfind s m = Some (Fin v) /\ exists a w, mfind a m = Some (Fin w) /\ (v < w)%Q.
Proof.
  exists ex_env, (DummyC []), [pt "a" 1; pt "a" 2; pt "b" 3], None. eexists _, _, (mkInst "" [ACont (Fin 1)] (Some ["b"])), ["b"], "b", _, _.
  split; [exact ex_max_best|]. split; [reflexivity|]. split; [reflexivity|]. split; [discriminate|]. split; [intros [X|[]]; discriminate X|]. split; [vm_compute; reflexivity|].
  split; [vm_compute; reflexivity|]. split; [vm_compute; reflexivity|]. exists "a". eexists. split; [vm_compute; reflexivity|]. reflexivity.
Qed.
(** The random classifier may answer a composite query with a possible label it has never seen, which has no probability at all. *)
Theorem C158_random_refuted : exists E c0 l p c l' x ps s m w, train E c0 l p = Ok (c, l') /\ composite x = Some ps /\ predict E c x = Ok s /\ probability E c x = Ok m /\
  mfind s m = None /\ mfind "a" m = Some (Fin w) /\ In "a" ps /\ (0 < w)%Q.
Proof.
  exists ex_env, (RandomC []), [pt "a" 1; pt "b" 3], None. eexists _, _, (mkInst "" [ACont (Fin 1)] (Some ["z"; "a"])), ["z"; "a"], "z", _, _.
  split; [reflexivity|]. split; [reflexivity|]. split; [vm_compute; reflexivity|]. split; [vm_compute; reflexivity|]. split; [reflexivity|]. split; [reflexivity|].
  split; [right; left; reflexivity|]. reflexivity.
Qed.
(** A soft tree answers but reports nothing, or fails, when asked for probabilities. *)
Theorem C158_soft_refuted : forall E n ls x, probability E (SoftC (Some (mkSoft ls (SLeaf n)))) x = Ok [] /\ forall a b, probability E (SoftC (Some (mkSoft ls (SNode n a b)))) x = UB NullDeref.
Proof. intros E n ls x. split; [reflexivity|]. intros a b. exact (proj2 (C97_probability_refuted x) n a b). Qed.
(** K-means, the two discriminants, Bayes and the support vector machine report nothing, trained or not. *)
Theorem C158_nothing : forall E c x, (exists m, c = KMeansC m) \/ (exists m, c = LdaC m) \/ (exists m, c = QdaC m) \/ (exists m, c = BayesC m) \/ (exists m, c = SvmC m) -> probability E c x = Ok [].
Proof. intros E c x [ [m ->] | [ [m ->] | [ [m ->] | [ [m ->] | [m ->] ] ] ] ]; reflexivity. Qed.
(** Two neighbours say "a", one says "b"; a stump's side holds "b" twice and "a" once. *)
Example C158_case : exists c l, train ex_env (KnnC None) [pt "a" 1; pt "b" 2; pt "a" 3; pt "b" 9] (Some (PKnn 1 eucl 3)) = Ok (c, l) /\ predict ex_env c (pt "?" 2) = Ok "a" /\ probability ex_env c (pt "?" 2) = Ok [("a", Fin (2 # 3)); ("b", Fin (1 # 3))] /\
  exists t l2, train ex_env (StumpC None) ex_data None = Ok (t, l2) /\ predict ex_env t (ex_row "?" 2 "w" 1) = Ok "b" /\ probability ex_env t (ex_row "?" 2 "w" 1) = Ok [("a", Fin (1 # 3)); ("b", Fin (2 # 3))].
Proof.
  eexists _, _. split; [reflexivity|]. split; [vm_compute; reflexivity|]. split; [vm_compute; reflexivity|].
  eexists _, _. split; [vm_compute; reflexivity|]. split; vm_compute; reflexivity.
Qed.
Print Assumptions C158_plain.
Print Assumptions C158_composite_partial.
Print Assumptions C158_reported.
Print Assumptions C158_composite_refuted.
Print Assumptions C158_random_refuted.
Print Assumptions C158_soft_refuted.
Print Assumptions C158_nothing.
