(** C148: what training does to the list it is given, and what the next training on the same list sees of it. *)
From Coq Require Import String ZArith QArith Bool Lia Permutation Arith List.
From Verif Require Import Base Spec BaseLemmas DblLemmas SortLemmas AttrModel DataSetModel InstanceListModel PartitionModel PerformanceModel DistanceModel
  GaussianModel TreeModel TreeSpec TreeProofs EnsembleModel NetModel SoftModel SolverModel SvmModel ListSpec ListProofs InvSpec TreeInvProofs TreeInvGrowProofs InvProps ModelInvSpec
  DistanceSpec ModelInvProofs ModelInvProps TreeProps SvmProps SvmTrainProps LibModel LibSpec LibProps OneListSpec.
Import ListNotations.
Local Open Scope string_scope.
Local Open Scope list_scope.
Local Open Scope nat_scope.

Lemma by_class_sort l s : by_class l s -> s = sort_class l.
Proof.
  intros H. unfold sort_class. apply (stable_sort_unique (fun _ => True)); [|apply Forall_forall; intros; exact I|exact H].
  exact (swo_key (fun _ => True) sltb label sltb_swo).
Qed.
Lemma sort_by_class l : by_class l (sort_class l).
Proof. exact (sort_class_stable l). Qed.
Lemma sort_twice l : sort_class (sort_class l) = sort_class l.
Proof.
  symmetry. apply by_class_sort. destruct (sort_by_class l) as (P & S & F). split; [apply Permutation_refl|]. split; [exact S|reflexivity].
Qed.
Lemma svm_train_list fe ft fp fuel old l q m l' : svm_train fe ft fp fuel old l q = Ok (m, l') -> l' = sort_class l.
Proof.
  unfold svm_train. intros H. apply bind_ok in H as (x0 & _ & H). destruct (negb _); [discriminate H|].
  apply bind_ok in H as (st & _ & H). apply bind_ok in H as ([ws nz] & _ & H). apply bind_ok in H as (rh & _ & H). apply bind_ok in H as (nsv & _ & H).
  apply bind_ok in H as (nzs & _ & H). apply bind_ok in H as (r2 & _ & H). injection H as _ <-. reflexivity.
Qed.

(** Training leaves the caller's list as it is, except that of a support vector machine, which leaves it ordered by label (SvmModel.cpp:33). *)
Theorem C148_list : forall E c l p c' l', train E c l p = Ok (c', l') -> (is_svm c = false -> l' = l) /\ (is_svm c = true -> by_class l l').
Proof.
  intros E c l p c' l' H. split; intros Hc.
  - destruct c; try discriminate Hc; cbn [train] in H; try (injection H as _ <-; reflexivity);
      repeat (match type of H with bind _ _ = Ok _ => apply bind_ok in H as (? & _ & H) | (let '(_, _) := ?a in _) = Ok _ => destruct a end);
      try (injection H as _ <-; reflexivity).
  - destruct c as [| | | | | | | | | | | | | | | |old]; try discriminate Hc. cbn [train] in H. destruct p as [[]|]; try (apply bind_ok in H as (x0 & _ & H); destruct (negb _); discriminate H).
    + apply bind_ok in H as ([m k] & H & Ek). injection Ek as _ <-. apply svm_train_list in H as ->. apply sort_by_class.
    + apply bind_ok in H as ([m k] & H & Ek). injection Ek as _ <-. unfold svm_null in H. apply bind_ok in H as (x0 & _ & H). destruct (negb _); [discriminate H|].
      destruct (Nat.leb _ _); [discriminate H|]. apply bind_ok in H as ([m1 k1] & H & Ek). injection Ek as _ <-. apply svm_train_list in H as ->. apply sort_by_class.
Qed.
(** A sequence of trainings on one list: each one works on the list as it was given to the first, until a support vector machine has been
    trained, and on the list ordered by label from then on. *)
Theorem C148_sequence : forall E jobs l ms l', train_all E l jobs = Ok (ms, l') ->
  exists s, by_class l s /\ l' = (if svm_before jobs (length jobs) then s else l) /\ length ms = length jobs /\
    forall k c p, nth_error jobs k = Some (c, p) ->
      exists m r, nth_error ms k = Some m /\ train E c (if svm_before jobs k then s else l) p = Ok (m, r).
Proof.
  intros E jobs l ms l' H. exists (sort_class l). split; [apply sort_by_class|].
  assert (G : forall jobs a ms l' (b : bool), a = (if b then sort_class l else l) -> train_all E a jobs = Ok (ms, l') ->
    l' = (if b || svm_before jobs (length jobs) then sort_class l else l) /\ length ms = length jobs /\
    forall k c p, nth_error jobs k = Some (c, p) -> exists m r, nth_error ms k = Some m /\ train E c (if b || svm_before jobs k then sort_class l else l) p = Ok (m, r)).
  { clear. induction jobs as [|[c p] jobs IH]; intros a ms l' b Ea H.
    - cbn in H. injection H as <- <-. rewrite orb_false_r. split; [exact Ea|]. split; [reflexivity|]. intros [|k] c p Hk; discriminate Hk.
    - cbn [train_all] in H. destruct (train E c a p) as [[m l1]| | |] eqn:Et; try discriminate H. destruct (train_all E l1 jobs) as [[ms1 l2]| | |] eqn:Er; try discriminate H. injection H as <- <-.
      destruct (C148_list _ _ _ _ _ _ Et) as [K1 K2].
      assert (E1 : l1 = (if b || is_svm c then sort_class l else l)).
      { destruct (is_svm c); [|rewrite orb_false_r; rewrite (K1 eq_refl); exact Ea]. rewrite orb_true_r. rewrite (by_class_sort _ _ (K2 eq_refl)), Ea. destruct b; [apply sort_twice|reflexivity]. }
      destruct (IH l1 ms1 l2 (b || is_svm c) E1 Er) as (A & B & C). cbn [length svm_before firstn existsb fst] in *. rewrite orb_assoc. split; [exact A|]. split; [congruence|].
      intros [|k] c' p' Hk.
      + cbn in Hk. injection Hk as <- <-. exists m, l1. split; [reflexivity|]. cbn. rewrite orb_false_r, <- Ea. exact Et.
      + cbn [nth_error] in *. destruct (C k c' p' Hk) as (m' & r & Em & Etr). exists m', r. split; [exact Em|]. unfold svm_before in *. cbn [firstn existsb fst]. rewrite orb_assoc. exact Etr. }
  destruct (G jobs l ms l' false eq_refl H) as (A & B & C). cbn [orb] in *. split; [exact A|]. split; [exact B|exact C].
Qed.
(** Other support vector machines do not notice: a machine is trained on the ordered list to what it is trained to on the list itself, errors
    included, if discrete features are found in all instances or in none. *)
Theorem C148_svm : forall E old l s p, by_class l s -> (forall x y, In x l -> In y l -> discrete_check x = discrete_check y) ->
  train E (SvmC old) s p = train E (SvmC old) l p.
Proof.
  intros E old l s p Hs HD. rewrite (by_class_sort l s Hs) in *. clear s Hs.
  assert (HA : (l = [] /\ sort_class l = []) \/ (exists x y, atn l 0 = Ok x /\ atn (sort_class l) 0 = Ok y /\ discrete_check x = discrete_check y)).
  { destruct l as [|x l]; [left; split; reflexivity|right]. destruct (sort_by_class (x :: l)) as (P & _). destruct (sort_class (x :: l)) as [|y t] eqn:Es; [apply Permutation_sym, Permutation_nil in P; discriminate P|].
    exists x, y. split; [reflexivity|]. split; [reflexivity|]. apply HD; [left; reflexivity|]. apply (Permutation_in y (Permutation_sym P)). left. reflexivity. }
  destruct HA as [[-> ->]|(x & y & Ex & Ey & Exy)]; [reflexivity|].
  assert (T : forall q, svm_train (e_exp E) (e_tanh E) (e_pow E) (e_fuel E) old (sort_class l) q = svm_train (e_exp E) (e_tanh E) (e_pow E) (e_fuel E) old l q).
  { intros q. unfold svm_train. rewrite Ex, Ey. cbn [bind]. rewrite <- Exy. destruct (negb (discrete_check x)); [reflexivity|]. rewrite sort_twice. reflexivity. }
  cbn [train]. destruct p as [[]|]; try (rewrite Ex, Ey; cbn [bind]; rewrite <- Exy; reflexivity).
  - rewrite T. reflexivity.
  - unfold svm_null. rewrite Ex, Ey. cbn [bind]. rewrite <- Exy. destruct (negb (discrete_check x)); [reflexivity|]. rewrite sort_twice, T. reflexivity.
Qed.
(** Unpruned trees and stumps: the tree may be stored differently, its answers are the same. *)
Theorem C148_tree : forall E shape c p l s c1 l1, entropy_finite (e_entropy E) -> mid_exact (e_mid E) -> rarr_perm (e_rarr E) -> tabular shape l -> l <> [] -> by_class l s ->
  (exists o seed ratio, c = TreeC o /\ p = Some (PC45 seed false ratio)) \/ (exists o, c = StumpC o) -> train E c l p = Ok (c1, l1) ->
  exists c2, train E c s p = Ok (c2, s) /\ forall x, typed shape x -> predict E c1 x = predict E c2 x.
Proof.
  intros E shape c p l s c1 l1 He Hm Hr T Hne Hs Hc Ht. destruct Hs as (P & _).
  assert (G : forall stump t, build (e_entropy E) (e_mid E) (e_rarr E) None stump (e_fuel E) l no_condition = Ok t ->
    exists t', build (e_entropy E) (e_mid E) (e_rarr E) None stump (e_fuel E) s no_condition = Ok t' /\ forall x, typed shape x -> tree_predict (e_max_item E) t x = tree_predict (e_max_item E) t' x).
  { intros stump t Eb. destruct (build_same (e_entropy E) (e_mid E) shape same_units He Hm increasing_same (e_rarr E) Hr None stump _ l s no_condition no_condition t T Hne (same_data_perm _ _ P) eq_refl Eb) as (t' & Eb' & A).
    exists t'. split; [exact Eb'|]. intros x Tx. apply answers_agree in A. destruct (A x x Tx (rescaled_self x)) as [A1 _]. apply A1. }
  destruct Hc as [(o & seed & ratio & -> & ->)|(o & ->)]; cbn [train as_c45 deref_param bind fst snd] in *.
  - apply bind_ok in Ht as (t & Et & Ec). injection Ec as <- <-. destruct (G false t Et) as (t' & Et' & A). unfold tree_train in *. rewrite Et'. cbn [bind]. exists (TreeC (Some t')). split; [reflexivity|exact A].
  - apply bind_ok in Ht as (t & Et & Ec). injection Ec as <- <-. destruct (G true t Et) as (t' & Et' & A). unfold stump_train in *. rewrite Et'. cbn [bind]. exists (StumpC (Some t')). split; [reflexivity|exact A].
Qed.
(** The dummy and the random classifier are trained to the same object. *)
Theorem C148_dummy_random : forall E c p l s, by_class l s -> (exists m, c = DummyC m) \/ (exists m, c = RandomC m) ->
  exists c1, train E c l p = Ok (c1, l) /\ train E c s p = Ok (c1, s).
Proof.
  intros E c p l s (P & _) [(m & ->)|(m & ->)]; cbn [train].
  - rewrite (proj1 (C118_dummy_and_random m [] l s P)). eexists. split; reflexivity.
  - rewrite (proj2 (C118_dummy_and_random [] m l s P)). eexists. split; reflexivity.
Qed.
(** k-means with the library's distance: the centres may differ in the last place only by rounding; in exact arithmetic the answers are the same. *)
Theorem C148_kmeans : forall E shape o seed l s, Forall (fun kd => kd = KDisc \/ kd = KCont) shape -> tabular shape l -> by_class l s ->
  exists c1 c2, train E (KMeansC o) l (Some (new_kmeans_param seed)) = Ok (c1, l) /\ train E (KMeansC o) s (Some (new_kmeans_param seed)) = Ok (c2, s) /\
    forall q, typed shape q -> predict E c1 q = predict E c2 q.
Proof.
  intros E shape o seed l s HM T (P & _). destruct (C120_kmeans shape l s HM T P) as (m & m' & E1 & E2 & A).
  assert (R : forall old k, kmeans_train old k = kmeans_train (mkKM [] []) k) by (intros; reflexivity).
  exists (KMeansC (Some (m, eucl))), (KMeansC (Some (m', eucl))). cbn [train as_kmeans new_kmeans_param deref_param bind]. rewrite (R _ l), (R _ s), E1, E2. cbn [bind]. split; [reflexivity|]. split; [reflexivity|exact A].
Qed.
(** k nearest neighbours when no two labels compete for the last place *)
Theorem C148_knn : forall E o seed k l s q (d : instance -> dbl) f dist, by_class l s ->
  (forall x, In x l -> may_answer q x -> dist x q = Ok (d x) /\ is_nan (d x) = false) ->
  (forall x, f x = true <-> may_answer q x) -> decided d (filter f l) (Z.to_nat k) ->
  exists c1 c2, train E (KnnC o) l (Some (PKnn seed dist k)) = Ok (c1, l) /\ train E (KnnC o) s (Some (PKnn seed dist k)) = Ok (c2, s) /\ predict E c1 q = predict E c2 q.
Proof.
  intros E o seed k l s q d f dist (P & _) H Hf D. eexists _, _. cbn [train as_knn deref_param bind fst snd]. split; [reflexivity|]. split; [reflexivity|].
  cbn [predict]. exact (proj1 (C120_knn_partial dist l s k q d f H Hf D P)).
Qed.
(** Otherwise the answer of the nearest neighbour classifier depends on whether a support vector machine has been trained on the list before, and so does
    that of an ensemble, whose samples are drawn by position. *)
Definition svm_job : classifier * option param := (SvmC svm_empty, Some (PSvm 1 parS)).
Definition knn_job : classifier * option param := (KnnC None, Some (new_knn_param 1 1)).
Definition bag_job : classifier * option param := (BaggingC [], Some (PBagging 1 1)).
Definition asked (E : env) (l : ilist) (jobs : list (classifier * option param)) (k : nat) (q : instance) : res string :=
  match train_all E l jobs with Ok (ms, _) => match nth_error ms k with Some m => predict E m q | None => UB Uninit end | Throw e => Throw e | UB k => UB k | Diverge => Diverge end.
Theorem C148_knn_refuted : exists E l q, Forall (fun x => exists v, attrs x = [ACont (Fin v)]) (q :: l) /\
  asked E l [knn_job; svm_job] 0 q = Ok "b" /\ asked E l [svm_job; knn_job] 1 q = Ok "a".
Proof.
  exists ex_env, [pt "b" 2; pt "a" 0], (pt "?" 1). split; [repeat constructor; eexists; reflexivity|]. split; vm_compute; reflexivity.
Qed.
Definition first_env : env := mkEnv (fun d => d) (fun d => d) idp (fun d => d) (fun m => m) (fun _ => d1) (fun _ => Ok []) ex_entropy ex_mid ex_max
  ex_rarr (fun _ n => seq 0 n) (fun _ n => repeat 0 n) (fun _ _ _ => []) (fun _ _ => d0) (fun _ _ => 0) 20.
Theorem C148_ensemble_refuted : exists E l q, Forall (fun x => exists v, attrs x = [ACont (Fin v)]) (q :: l) /\
  (forall seed n, Forall (fun i => i < n) (e_pick E seed n) /\ length (e_pick E seed n) = n) /\
  asked E l [bag_job; svm_job] 0 q = Ok "b" /\ asked E l [svm_job; bag_job] 1 q = Ok "a".
Proof.
  exists first_env, [pt "b" 2; pt "a" 0], (pt "?" 1). split; [repeat constructor; eexists; reflexivity|]. split; [|split; vm_compute; reflexivity].
  intros seed n. cbn. split; [|apply repeat_length]. apply Forall_forall. intros i Hi. pose proof (repeat_spec _ _ _ Hi) as ->. destruct n; [destruct Hi|lia].
Qed.
(** three trainings on one list that is not ordered: the machine orders it, the second machine and the tree still answer as if trained alone *)
Example C148_case : let l := [pt "b" 2; pt "a" 0; pt "b" 3; pt "a" 1] in let tree := (TreeC None, Some (PC45 1 false d0)) in
  (exists ms, train_all ex_env l [svm_job; svm_job; tree] = Ok (ms, [pt "a" 0; pt "a" 1; pt "b" 2; pt "b" 3])) /\
  (exists ms, train_all ex_env l [tree; knn_job] = Ok (ms, l)) /\
  map (fun v => asked ex_env l [svm_job; svm_job; tree] 2 (pt "?" v)) [0; 5]%Q = map (fun v => asked ex_env l [tree] 0 (pt "?" v)) [0; 5]%Q /\
  asked ex_env l [svm_job; svm_job; tree] 1 (pt "?" 5) = Ok "b" /\ asked ex_env l [svm_job] 0 (pt "?" 5) = Ok "b".
Proof. cbv zeta. split; [eexists; vm_compute; reflexivity|]. split; [eexists; vm_compute; reflexivity|]. repeat split; vm_compute; reflexivity. Qed.
Print Assumptions C148_list.
Print Assumptions C148_sequence.
Print Assumptions C148_svm.
Print Assumptions C148_tree.
Print Assumptions C148_dummy_random.
Print Assumptions C148_kmeans.
Print Assumptions C148_knn.
Print Assumptions C148_knn_refuted.
Print Assumptions C148_ensemble_refuted.
