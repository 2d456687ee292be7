(** The label that a query carries: proofs. *)
From Coq Require Import String ZArith QArith Bool Lia Lqa Permutation Arith List.
From Verif Require Import Base Spec BaseLemmas DblLemmas SortLemmas AttrModel AttrProofs InstanceListModel ListSpec ListProofs PerformanceModel PerformanceSpec PerformanceProofs TestPartsProofs
  DistanceModel DistanceSpec DistanceProofs DistanceProps GaussianModel TreeModel TreeSpec TreeProofs TreeGrowProofs EnsembleModel NetModel SoftModel SvmModel LibModel LibSpec ReadySpec ReadyProofs ReadyTextSpec ReadyTextProofs LeakSpec.
Import ListNotations.
Local Open Scope string_scope.
Local Open Scope list_scope.
Local Open Scope nat_scope.

Lemma sq_refl x : same_question x x.
Proof. split; reflexivity. Qed.
(** * Trees *)
Lemma satisfy_label c x x' : same_question x x' -> satisfy c x = satisfy c x'.
Proof. intros [H _]. unfold satisfy, index_at, disc_at, cont_at, get_attr. rewrite H. reflexivity. Qed.
Lemma isC_label x x' : same_question x x' -> isComposite x = isComposite x'.
Proof. intros [_ H]. unfold isComposite. rewrite H. reflexivity. Qed.
Lemma poss_label x x' : same_question x x' -> isComposite x = true -> possible_labels x = possible_labels x'.
Proof. intros [_ H] C. unfold possible_labels. unfold isComposite in C. rewrite <- H. destruct (composite x); [reflexivity|discriminate]. Qed.
Lemma node_label mi x x' : same_question x x' -> forall t, node_predict mi t x = node_predict mi t x'.
Proof.
  intros S t. induction t as [lab leaf ds c ch IH] using tree_rect2. cbn [node_predict]. rewrite <- (isC_label x x' S). destruct (isComposite x) eqn:C.
  - rewrite <- (poss_label x x' S C). destruct leaf; [reflexivity|]. generalize (mi ds (possible_labels x)). intros pc. induction IH as [|n ch Hn _ IHch]; [reflexivity|].
    rewrite <- (satisfy_label _ _ _ S). destruct (satisfy (t_cond n) x) as [[|]| | |]; cbn [bind]; try reflexivity; [rewrite Hn; reflexivity|exact IHch].
  - destruct leaf; [reflexivity|]. induction IH as [|n ch Hn _ IHch]; [reflexivity|].
    rewrite <- (satisfy_label _ _ _ S). destruct (satisfy (t_cond n) x) as [[|]| | |]; cbn [bind]; try reflexivity; [exact Hn|exact IHch].
Qed.
Lemma tree_label mi x x' t : same_question x x' -> tree_predict mi t x = tree_predict mi t x'.
Proof.
  intros S. unfold tree_predict. rewrite (node_label mi x x' S). destruct (node_predict mi t x') as [p| | |]; try reflexivity. cbn [bind]. rewrite <- (isC_label _ _ S). destruct (isComposite x) eqn:C; [rewrite (poss_label _ _ S C)|rewrite !andb_false_r]; reflexivity.
Qed.
Lemma prob_label x x' : same_question x x' -> forall t, node_probability t x = node_probability t x'.
Proof.
  intros S t. induction t as [lab leaf ds c ch IH] using tree_rect2. cbn [node_probability]. destruct leaf; [reflexivity|]. induction IH as [|n ch Hn _ IHch]; [reflexivity|].
  rewrite <- (satisfy_label _ _ _ S). destruct (satisfy (t_cond n) x) as [[|]| | |]; cbn [bind]; try reflexivity; [exact Hn|exact IHch].
Qed.
Lemma votes_label mi f x x' : same_question x x' -> EnsembleModel.votes mi f x = EnsembleModel.votes mi f x'.
Proof. intros S. unfold EnsembleModel.votes. induction f as [|t f IH]; [reflexivity|]. cbn [mapM]. rewrite IH, (tree_label mi x x' t S). reflexivity. Qed.
(** * Neighbours *)
Lemma nearest_label d data k x x' : blind d -> same_question x x' -> nearest d data k x = nearest d data k x'.
Proof.
  intros B S. unfold nearest. assert (Ee : filter (eligible x) data = filter (eligible x') data).
  { apply filter_ext. intros y. unfold eligible. rewrite <- (isC_label _ _ S). destruct (isComposite x) eqn:C; [rewrite (poss_label _ _ S C)|]; reflexivity. }
  rewrite Ee. replace (mapM (fun y => do v <- d y x; Ok (v, y)) (filter (eligible x') data)) with (mapM (fun y => do v <- d y x'; Ok (v, y)) (filter (eligible x') data)); [reflexivity|].
  clear Ee. induction (filter (eligible x') data) as [|y l IH]; [reflexivity|]. cbn [mapM]. rewrite IH, (B y y x x' (sq_refl y) S). reflexivity.
Qed.
Lemma eucl_blind : blind eucl.
Proof. intros x x' y y' [Hx _] [Hy _]. rewrite !eucl_eq. rewrite Hx, Hy. reflexivity. Qed.
Lemma maha_blind m : blind (fun x y => Ok (mahalanobis m x y)).
Proof. intros x x' y y' [Hx _] [Hy _]. unfold mahalanobis. rewrite !inst_vector_concat, Hx, Hy. reflexivity. Qed.
(** * Scores *)
Lemma gauss_label prior m m' x x' : same_question x x' -> (forall c, m c = m' c) -> gauss_predict prior m x = gauss_predict prior m' x'.
Proof.
  intros [_ H] M. unfold gauss_predict. rewrite <- H. destruct (match composite x with Some ls => do c <- atn ls 0; Ok (c, ls) | None => Ok (cmax prior, mkeys prior) end) as [st| | |]; try reflexivity. cbn [bind].
  replace (foldM (gauss_step prior m') (snd st) (dopp dbl_max, fst st)) with (foldM (gauss_step prior m) (snd st) (dopp dbl_max, fst st)); [reflexivity|].
  generalize (dopp dbl_max, fst st). induction (snd st) as [|c l IH]; intros s; [reflexivity|]. cbn [foldM]. unfold gauss_step at 1 3. rewrite <- M. destruct (mmem c prior); [|apply IH]. destruct (m c); cbn [bind]; try reflexivity. apply IH.
Qed.
Lemma predict_label E c x x' : same_question x x' -> blind_parts E c -> predict E c x = predict E c x'.
Proof.
  intros S B. pose proof S as [Ha Hc]. assert (V : inst_vector x = inst_vector x') by (rewrite !inst_vector_concat, Ha; reflexivity).
  destruct c as [[((l & k) & d)|]|[(m & d)|]|m|m|m|m|m|[t|]|[t|]|f|f|m|m|m|m|[m|]|m]; cbn [predict blind_parts] in *; try reflexivity.
  - unfold knn_predict. rewrite (nearest_label d l k x x' B S), <- (isC_label _ _ S). destruct (isComposite x) eqn:C; [rewrite (poss_label _ _ S C)|]; reflexivity.
  - apply gauss_label; [exact S|]. intros c. unfold kmeans_metric. destruct (find _ _) as [y|]; [rewrite (B x x' y y S (sq_refl y))|]; reflexivity.
  - apply gauss_label; [exact S|]. intros c. unfold lda_metric. rewrite V. reflexivity.
  - apply gauss_label; [exact S|]. intros c. unfold qda_metric. rewrite V. reflexivity.
  - apply gauss_label; [exact S|]. intros c. unfold bayes_metric, bayes_ll_cont, bayes_ll_disc, attr_count, get_attr. rewrite Ha. reflexivity.
  - unfold dummy_predict. rewrite <- (isC_label _ _ S). destruct (isComposite x) eqn:C; [rewrite (poss_label _ _ S C)|]; reflexivity.
  - unfold random_predict. rewrite (B x x' S), <- (isC_label _ _ S). destruct (isComposite x) eqn:C; [rewrite (poss_label _ _ S C)|]; reflexivity.
  - apply tree_label, S.
  - apply tree_label, S.
  - unfold ensemble_predict. rewrite (votes_label _ _ _ _ S). reflexivity.
  - unfold ensemble_predict. rewrite (votes_label _ _ _ _ S). reflexivity.
  - unfold linear_predict, net_predict, choose, input_vector. rewrite V, Hc. reflexivity.
  - unfold mlp_predict, net_predict, choose, input_vector. rewrite V, Hc. reflexivity.
  - unfold deep_predict, net_predict, choose, input_vector. rewrite V, Hc. reflexivity.
  - unfold net_predict, choose, input_vector. rewrite V, Hc. reflexivity.
  - unfold soft_predict. rewrite V. reflexivity.
  - unfold svm_predict, inst_nodes. change (inst_vals x) with (inst_vector x). change (inst_vals x') with (inst_vector x'). rewrite V. reflexivity.
Qed.
(** * Counting *)
Definition hits (f : instance -> string) (l : ilist) : nat := length (filter (fun x => String.eqb (label x) (f x)) l).
Lemma hits_app f l l' : hits f (l ++ l') = hits f l + hits f l'.
Proof. unfold hits. rewrite filter_app, app_length. reflexivity. Qed.
Lemma hits_perm f l l' : Permutation l l' -> hits f l = hits f l'.
Proof. intros P. unfold hits. induction P; cbn; repeat match goal with |- context[String.eqb ?a ?b] => destruct (String.eqb a b) end; cbn; congruence. Qed.
Lemma hits_same f g c : (forall x, In x g -> f x = c) -> hits f g = occ (map label g) c.
Proof.
  intros H. unfold hits, occ. induction g as [|x g IH]; [reflexivity|]. cbn [filter map count_occ]. rewrite (H x (or_introl eq_refl)).
  destruct (string_dec (label x) c) as [->|N]; [rewrite String.eqb_refl; cbn [length]|rewrite (proj2 (String.eqb_neq _ _) N)]; rewrite IH; auto; intros y Hy; apply H; right; exact Hy.
Qed.
Lemma hits_groups f gs tops : Forall (fun g => forall x y, In x g -> In y g -> f x = f y) gs -> Forall2 (fun g t => forall c, occ (map label g) c <= t) gs tops ->
  hits f (concat gs) <= fold_right Nat.add 0 tops.
Proof.
  intros S F. induction F as [|g t gs tops H F IH]; [cbn; lia|]. inversion S as [|? ? Sg Ss]; subst. cbn [concat fold_right]. rewrite hits_app. specialize (IH Ss).
  enough (hits f g <= t) by lia. destruct g as [|x g]; [cbn; lia|]. rewrite (hits_same f (x :: g) (f x)); [apply H|]. intros y Hy. apply Sg; [exact Hy|left; reflexivity].
Qed.
Lemma answers_hits predict f l ps : TestPartsProofs.answers predict l ps -> (forall x y, In x l -> predict x = Ok y -> f x = y) -> correct_count ps = hits f l.
Proof.
  intros A. unfold correct_count, hits. induction A as [|x q l ps [E P] A IH]; intros H; [reflexivity|]. cbn [filter]. rewrite E, (H x (snd q) (or_introl eq_refl) P).
  destruct (String.eqb (label x) (snd q)); cbn [length]; rewrite IH; auto; intros y z Hy; apply H; right; exact Hy.
Qed.
Definition said (r : res string) : string := match r with Ok y => y | _ => "" end.
Lemma test_bound predict l gs tops p : (forall x y, same_question x y -> predict x = predict y) -> groups l gs -> Forall2 (fun g t => forall c, occ (map label g) c <= t) gs tops ->
  l <> [] -> test_model predict l = Ok p -> exists a, accuracy_of p = Ok (Fin a) /\ (a * qofn (length l) <= qofn (fold_right Nat.add 0%nat tops))%Q.
Proof.
  intros B (P & S) F N T. apply test_answers in T as (ps & A & ->). pose proof (answers_len _ _ _ A) as La.
  destruct (accuracy_value (union_possible l) ps) as (a & Ea & Ha); [destruct ps; [destruct l; [congruence|discriminate]|discriminate]|].
  exists a. split; [cbn [new_detail accuracy_of]; rewrite Ea; reflexivity|]. rewrite <- La, Ha. rewrite (answers_hits predict (fun x => said (predict x)) l ps A); [|intros x y _ ->; reflexivity].
  apply qofn_le. rewrite (hits_perm _ _ _ P). apply hits_groups; [|exact F]. eapply Forall_impl; [|exact S]. intros g H x y Hx Hy. cbn. rewrite (B x y (H x y Hx Hy)). reflexivity.
Qed.

(** * One neighbour *)
Lemma one_nearest E d (P : instance -> Prop) l q : (forall x, P x -> composite x = None) -> Forall P l -> (forall x y, P x -> P y -> exists v, d x y = Ok (Fin v) /\ (0 <= v)%Q) ->
  In q l -> (exists v, d q q = Ok (Fin v) /\ (v == 0)%Q) -> exists x v, In x l /\ d x q = Ok (Fin v) /\ (v == 0)%Q /\ predict E (KnnC (Some (l, 1%Z, d))) q = Ok (label x).
Proof.
  intros HP F Hd Hq (v0 & E0 & Z0). rewrite Forall_forall in F. set (g := fun x => match d x q with Ok v => v | _ => d0 end).
  destruct (C47_neighbours d l 1 q g l) as (ns & rest & En & St & Ln & Hr).
  - intros x Hx _. destruct (Hd x q (F x Hx) (F q Hq)) as (v & Ev & _). unfold g. rewrite Ev. split; reflexivity.
  - exists (fun _ => true). split; [clear; induction l as [|x l' IH]; [reflexivity|cbn; rewrite <- IH; reflexivity]|].
    intros x. split; [|reflexivity]. intros _. unfold may_answer. rewrite (HP q (F q Hq)). discriminate.
  - destruct ns as [|x [|y ns]]; cbn [length] in Ln; [destruct l; [destruct Hq|cbn in Ln; lia]| |destruct l; [destruct Hq|cbn in Ln; lia]].
    assert (Hx : In x l) by (apply (C48_training_label d l 1 q [x] En x); left; reflexivity).
    destruct (Hd x q (F x Hx) (F q Hq)) as (v & Ev & Nv). exists x, v. split; [exact Hx|]. split; [exact Ev|]. split.
    + assert (Hin : In q (x :: rest)) by (eapply Permutation_in; [exact (proj1 St)|exact Hq]). destruct Hin as [->|Hin].
      * rewrite E0 in Ev. injection Ev as <-. exact Z0.
      * pose proof (Hr x q (or_introl eq_refl) Hin) as D. unfold g in D. rewrite E0, Ev in D. apply dltb_fin_false in D. lra.
    + cbn [predict]. unfold knn_predict. rewrite En. cbn [bind length Nat.eqb]. rewrite andb_false_r. reflexivity.
Qed.
Lemma hits_all f l : (forall x, In x l -> f x = label x) -> hits f l = length l.
Proof. intros H. unfold hits. induction l as [|x l IH]; [reflexivity|]. cbn [filter]. rewrite (H x (or_introl eq_refl)), String.eqb_refl. cbn [length]. rewrite IH; [reflexivity|]. intros y Hy. apply H. right. exact Hy. Qed.
Lemma perfect predict l : l <> [] -> (forall x, In x l -> predict x = Ok (label x)) -> exists p a, test_model predict l = Ok p /\ accuracy_of p = Ok (Fin a) /\ (a == 1)%Q.
Proof.
  intros N H. assert (A : TestPartsProofs.answers predict l (map (fun x => (label x, label x)) l)).
  { clear N. induction l as [|x l IH]; constructor; [split; [reflexivity|apply H; left; reflexivity]|]. apply IH. intros y Hy. apply H. right. exact Hy. }
  destruct (accuracy_value (union_possible l) (map (fun x => (label x, label x)) l)) as (a & Ea & Ha); [destruct l; [congruence|discriminate]|].
  eexists. exists a. split; [apply test_answers; eexists; split; [exact A|reflexivity]|]. split; [cbn [new_detail accuracy_of]; rewrite Ea; reflexivity|].
  rewrite (answers_hits predict label l _ A) in Ha by (intros x y Hx E; rewrite (H x Hx) in E; injection E as ->; reflexivity). rewrite (hits_all label l) in Ha by reflexivity. rewrite map_length in Ha.
  assert (Nz : ~ (qofn (length l) == 0)%Q) by (apply qofn_neq0; destruct l; [congruence|cbn; lia]). apply (Qmult_inj_r _ _ (qofn (length l)) Nz). rewrite Ha. ring.
Qed.
