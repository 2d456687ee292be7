(** C152: the label that a query carries is not read; what follows for the accuracy on data with contradictions, and one nearest neighbour on its training data. *)
From Coq Require Import String ZArith QArith Bool Lia Lqa Permutation Arith List.
From Verif Require Import Base Spec BaseLemmas DblLemmas AttrModel AttrProofs DataSetModel InstanceListModel PartitionModel PerformanceModel PerformanceSpec PerformanceProofs TestPartsProofs DistanceModel DistanceSpec DistanceProofs DistanceProps
  GaussianModel TreeModel TreeSpec EnsembleModel NetModel SoftModel SvmModel LibModel LibSpec LibProps
  ReadySpec ReadyProofs ReadyProps ReadyTextSpec ReadyTextProofs ReadyTextProps LeakSpec LeakProofs.
Import ListNotations.
Local Open Scope string_scope.
Local Open Scope list_scope.
Local Open Scope nat_scope.

(** A prediction does not depend on the label the query carries: not for any class, and not for any state of the object. *)
Theorem C152_label : forall E c x y, same_question x y -> blind_parts E c -> predict E c x = predict E c y.
Proof. intros E c x y. exact (predict_label E c x y). Qed.
Print Assumptions C152_label.
(** nor do the probabilities *)
Theorem C152_probability : forall x y, same_question x y ->
  (forall d l k, blind d -> knn_probability d l k x = knn_probability d l k y) /\
  (forall t, node_probability t x = node_probability t y) /\
  (forall E f, ensemble_probability (e_max_item E) f x = ensemble_probability (e_max_item E) f y) /\
  (forall out labels m, net_probability out labels m x = net_probability out labels m y).
Proof.
  intros x y S. split; [|split; [|split]].
  - intros d l k B. unfold knn_probability. rewrite (nearest_label d l k x y B S). reflexivity.
  - exact (prob_label x y S).
  - intros E f. unfold ensemble_probability. rewrite (votes_label _ f x y S). reflexivity.
  - intros out labels m. unfold net_probability, input_vector. rewrite !inst_vector_concat. destruct S as [-> _]. reflexivity.
Qed.
Print Assumptions C152_probability.
(** the library's own distances do not look at labels *)
Theorem C152_distances : blind eucl /\ forall m, blind (fun x y => Ok (mahalanobis m x y)).
Proof. split; [exact eucl_blind|exact maha_blind]. Qed.
Print Assumptions C152_distances.
(** Giving the test data other labels changes the actual labels in the result, not the predicted ones. *)
Theorem C152_test : forall E c l r p, (forall m, c <> AutoC m) -> blind_parts E c -> (forall x, same_question x (r x)) -> test E c l = Ok p ->
  exists qs, length qs = length l /\ p = new_detail (classified (union_possible l) (combine (map label l) qs)) /\
    test E c (map r l) = Ok (new_detail (classified (union_possible (map r l)) (combine (map label (map r l)) qs))).
Proof.
  intros E c l r p Ha B S T. assert (Et : forall l, test E c l = test_model (predict E c) l) by (intros; destruct c; try reflexivity; exfalso; eapply Ha; reflexivity). rewrite Et in *.
  apply test_answers in T as (ps & A & ->). exists (map snd ps). split; [rewrite map_length; exact (answers_len _ _ _ A)|].
  assert (Es : ps = combine (map label l) (map snd ps)).
  { clear -A. induction A as [|x q l ps [Eq _] _ IH]; [reflexivity|]. cbn [map combine]. rewrite <- IH, <- Eq. destruct q; reflexivity. }
  split; [f_equal; f_equal; exact Es|]. apply test_answers. eexists. split; [|reflexivity].
  clear -A B S. induction A as [|x q l ps [_ P] _ IH]; [constructor|]. cbn [map combine]. constructor; [|exact IH]. split; [reflexivity|]. cbn [snd]. rewrite <- P. symmetry. apply predict_label; [apply S|exact B].
Qed.
Print Assumptions C152_test.
(** Contradictions in the data bound the accuracy of every classifier, however it was trained: of the instances that ask the same question, at most as many
    are answered correctly as the most frequent label among them has. *)
Theorem C152_bound : forall E c l gs tops p, (forall m, c <> AutoC m) -> blind_parts E c -> groups l gs ->
  Forall2 (fun g t => forall y, occ (map label g) y <= t) gs tops -> l <> [] -> test E c l = Ok p ->
  exists a, accuracy_of p = Ok (Fin a) /\ (a * qofn (length l) <= qofn (fold_right Nat.add 0%nat tops))%Q.
Proof.
  intros E c l gs tops p Ha B G F N T. eapply (test_bound (predict E c)); [|exact G|exact F|exact N|].
  - intros x y S. apply predict_label; assumption.
  - rewrite <- T. destruct c; try reflexivity. exfalso. eapply Ha. reflexivity.
Qed.
Print Assumptions C152_bound.
(** [ps]: disjoint pairs of instances that ask the same and are labelled differently; each costs one mistake *)
Theorem C152_pairs : forall E c l ps rest p, (forall m, c <> AutoC m) -> blind_parts E c -> Permutation l (concat (map (fun q => [fst q; snd q]) ps) ++ rest) ->
  Forall (fun q => same_question (fst q) (snd q) /\ label (fst q) <> label (snd q)) ps -> l <> [] -> test E c l = Ok p ->
  exists a, accuracy_of p = Ok (Fin a) /\ (a * qofn (length l) <= qofn (length l) - qofn (length ps))%Q.
Proof.
  intros E c l ps rest p Ha B P F N T.
  destruct (C152_bound E c l (map (fun q => [fst q; snd q]) ps ++ map (fun x => [x]) rest) (repeat 1 (length ps) ++ repeat 1 (length rest)) p Ha B) as (a & Ea & La); [| |exact N|exact T|].
  - split.
    + rewrite P, concat_app. apply Permutation_app_head. clear. induction rest as [|x rest IH]; [constructor|]. cbn. apply perm_skip, IH.
    + apply Forall_app. split; apply Forall_map; [|apply Forall_forall; intros x _ y z [<-|[]] [<-|[]]; apply sq_refl].
      eapply Forall_impl; [|exact F]. intros q ([S1 S2] & _) x y [<-|[<-|[]]] [<-|[<-|[]]]; split; congruence.
  - apply Forall2_app; [|clear; induction rest as [|x rest IH]; [constructor|]; cbn; constructor; [|exact IH]; intros y; cbn; destruct (string_dec (label x) y); lia].
    clear -F. induction F as [|q ps (_ & Hq) _ IH]; [constructor|]. cbn. constructor; [|exact IH]. intros y. cbn. destruct (string_dec (label (fst q)) y) as [<-|], (string_dec (label (snd q)) _) as [e|]; try lia. congruence.
  - exists a. split; [exact Ea|]. eapply Qle_trans; [exact La|].
    assert (Es : fold_right Nat.add 0 (repeat 1 (length ps) ++ repeat 1 (length rest)) = length ps + length rest) by (rewrite <- repeat_app; generalize (length ps + length rest); intros n; induction n; cbn; congruence).
    assert (El : length l = length ps + length ps + length rest).
    { rewrite (Permutation_length P), app_length. f_equal. clear. induction ps as [|q ps IH]; [reflexivity|]. cbn [map concat]. rewrite app_length, IH. cbn. lia. }
    rewrite Es, El, !qofn_plus. lra.
Qed.
Print Assumptions C152_pairs.
(** One nearest neighbour on a training instance: the answer is the label of an instance at distance zero. *)
Theorem C152_one_nearest : forall E shape l q, Forall (row_of shape) l -> In q l ->
  exists x v, In x l /\ eucl x q = Ok (Fin v) /\ (v == 0)%Q /\ predict E (KnnC (Some (l, 1%Z, eucl))) q = Ok (label x).
Proof.
  intros E shape l q F Hq. rewrite Forall_forall in F.
  assert (Fi : forall z, typed shape z -> Forall finite (attrs z)).
  { intros z Hz. unfold typed in Hz. remember (attrs z) as az. clear -Hz. induction Hz as [|k a ks az Hk _ IH]; constructor; [|exact IH]. intros w Hw. destruct k; cbn in Hk; [destruct Hk as (v & ->)|destruct Hk as (v & ->)|destruct Hk as (v & i & ->)|destruct Hk as (v & ->)]; try discriminate. injection Hw as <-. eexists. reflexivity. }
  apply (one_nearest E eucl (row_of shape) l q).
  - intros x H. exact (proj1 H).
  - apply Forall_forall. exact F.
  - intros x y (_ & Hx) (_ & Hy). apply C45_finite; [unfold attr_count; rewrite <- (Forall2_len _ _ _ Hx), <- (Forall2_len _ _ _ Hy); reflexivity|apply Fi, Hx|apply Fi, Hy].
  - exact Hq.
  - apply C45_self, Fi, (F q Hq).
Qed.
Print Assumptions C152_one_nearest.
(** without contradictions it makes no mistake on its training data *)
Theorem C152_perfect : forall E shape l s, l <> [] -> Forall (row_of shape) l -> consistent eucl l ->
  exists c p a, train E (KnnC None) l (Some (PKnn s eucl 1)) = Ok (c, l) /\ test E c l = Ok p /\ accuracy_of p = Ok (Fin a) /\ (a == 1)%Q.
Proof.
  intros E shape l s N F C. exists (KnnC (Some (l, 1%Z, eucl))).
  destruct (perfect (predict E (KnnC (Some (l, 1%Z, eucl)))) l N) as (p & a & T & Ea & Ha).
  - intros q Hq. destruct (C152_one_nearest E shape l q F Hq) as (x & v & Hx & Ev & Zv & ->). rewrite (C x q v Hx Hq Ev Zv). reflexivity.
  - exists p, a. split; [reflexivity|]. split; [exact T|]. split; assumption.
Qed.
Print Assumptions C152_perfect.

(** ** Cases *)
Definition xor : ilist := [row "a" [0; 0]; row "b" [0; 1]; row "b" [1; 0]; row "a" [1; 1]]%Q.
Definition torn : ilist := [row "a" [0]; row "b" [0]; row "a" [1]; row "b" [0]; row "c" [2]]%Q.
Lemma xor_rows : Forall (row_of [KCont; KCont]) xor.
Proof. repeat constructor; eexists; reflexivity. Qed.
Lemma xor_consistent : consistent eucl xor.
Proof.
  intros x y v Hx Hy E Z. repeat (destruct Hx as [<-|Hx]; [repeat (destruct Hy as [<-|Hy]; [try reflexivity; vm_compute in E; injection E as <-; vm_compute in Z; discriminate Z|]); destruct Hy|]). destruct Hx.
Qed.
Example C152_case : consistent eucl xor /\ same_question (row "a" [0]%Q) (row "b" [0]%Q) /\
  Permutation torn (concat (map (fun q => [fst q; snd q]) [(row "a" [0], row "b" [0])]) ++ [row "a" [1]; row "b" [0]; row "c" [2]])%Q /\
  groups torn [[row "a" [0]; row "b" [0]; row "b" [0]]; [row "a" [1]]; [row "c" [2]]]%Q /\
  (exists p a, test clean_env (KnnC (Some (torn, 1%Z, eucl))) torn = Ok p /\ accuracy_of p = Ok (Fin a) /\ (a == 3 # 5)%Q) /\
  (exists p a, test clean_env (KnnC (Some (torn, 3%Z, eucl))) torn = Ok p /\ accuracy_of p = Ok (Fin a) /\ (a == 3 # 5)%Q).
Proof.
  split; [exact xor_consistent|]. split; [split; reflexivity|]. split; [apply Permutation_refl|]. split.
  - split; [cbn; apply perm_skip, perm_skip; apply perm_swap|]. repeat (apply Forall_cons; [intros x y Hx Hy; cbn in Hx, Hy; intuition subst; split; reflexivity|]). apply Forall_nil.
  - split; (eexists; eexists; split; [vm_compute; reflexivity|split; [vm_compute; reflexivity|vm_compute; reflexivity]]).
Qed.
(** Three neighbours: no contradictions, and not a single training instance is answered correctly. *)
Theorem C152_three_refuted : exists E l, Forall (row_of [KCont; KCont]) l /\ consistent eucl l /\
  exists p a, test E (KnnC (Some (l, 3%Z, eucl))) l = Ok p /\ accuracy_of p = Ok (Fin a) /\ (a == 0)%Q.
Proof. exists clean_env, xor. split; [exact xor_rows|]. split; [exact xor_consistent|]. eexists; eexists; split; [vm_compute; reflexivity|split; [vm_compute; reflexivity|vm_compute; reflexivity]]. Qed.
Print Assumptions C152_three_refuted.
