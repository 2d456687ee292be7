(** C137: a support vector machine and training data that it can tell apart. *)
From Coq Require Import String ZArith QArith Qabs Bool Lia Lqa Permutation Sorted List.
From Verif Require Import Base Spec BaseLemmas DblLemmas ListProofs AttrModel InstanceListModel PerformanceModel SolverModel SvmModel SvmSpec SvmTrainSpec KernelProofs
  SolverInvProofs SolverTermProofs SvmProofs SvmProps SvmTrainProofs SvmTrainProps SepSpec SepProofs.
Import ListNotations.
Local Open Scope string_scope.
Local Open Scope list_scope.
Local Open Scope nat_scope.

(** When the loop of the solver ends, its multipliers and offset put every training vector of a separable problem on its side, with a margin of
    0.999 or more, whatever was shrunk on the way. *)
Theorem C137_solution dexp dtanh dpow p gamma coef0 C vs signs c s s' : svm_case dexp dtanh dpow p gamma coef0 C vs signs ->
  separable dexp dtanh dpow p gamma coef0 C vs signs -> visited dexp dtanh dpow p vs signs c s -> solve_iter dexp dtanh dpow c s = Ok (Leave s') ->
  exists a r, represents C vs signs s' a /\ calculate_rho s' = Ok (Fin r) /\
    forall k, k < length vs -> (999 # 1000 <= ylab signs k * decision dexp dtanh dpow p gamma coef0 vs signs a r k)%Q.
Proof.
  intros H Hs V E. destruct (final_optimal dexp dtanh dpow p gamma coef0 C vs signs H c s s' V E) as (a & r & R & Er & Hf & _ & Hm). exists a, r. split; [exact R|]. split; [exact Er|].
  intros k Hk. exact (right_side dexp dtanh dpow p gamma coef0 C vs signs a r (case_libm _ _ _ _ _ _ _ _ _ H) Hs Hf Hm k Hk).
Qed.

Lemma solve_loop_more dexp dtanh dpow fuel : forall fuel' c s s1, fuel <= fuel' -> solve_loop dexp dtanh dpow fuel c s = Ok s1 -> solve_loop dexp dtanh dpow fuel' c s = Ok s1.
Proof.
  induction fuel as [|fuel IH]; intros [|fuel'] c s s1 Hf E; try discriminate; [lia|]. cbn [solve_loop] in *. destruct (solve_iter dexp dtanh dpow c s) as [[s'|c' s']| | |]; cbn [bind] in *; try discriminate; [exact E|].
  apply IH; [lia|exact E].
Qed.
Lemma svm_solve_more dexp dtanh dpow p vs signs fuel fuel' r : fuel <= fuel' -> svm_solve dexp dtanh dpow p vs signs fuel = Ok r -> svm_solve dexp dtanh dpow p vs signs fuel' = Ok r.
Proof.
  intros Hf. unfold svm_solve, solve. intros E. apply bind_ok in E as (s0 & E0 & E). rewrite E0. cbn [bind]. apply bind_ok in E as (s1 & E1 & E). rewrite (solve_loop_more _ _ _ _ _ _ _ _ Hf E1). exact E.
Qed.
Lemma svm_solve_same dexp dtanh dpow p vs signs f1 f2 r1 r2 : svm_solve dexp dtanh dpow p vs signs f1 = Ok r1 -> svm_solve dexp dtanh dpow p vs signs f2 = Ok r2 -> r1 = r2.
Proof.
  intros E1 E2. apply (svm_solve_more _ _ _ _ _ _ f1 (Nat.max f1 f2)) in E1; [|lia]. apply (svm_solve_more _ _ _ _ _ _ f2 (Nat.max f1 f2)) in E2; [|lia]. congruence.
Qed.

(** A machine trained on data that it can tell apart, class by class, gives every training instance its own class, provided that every two-class
    run ends before its first shrinking (missing: the runs that shrink, for which it is false). *)
Theorem C137_separable_partial dexp dtanh dpow p gamma coef0 C l fuel m l' : train_case dexp dtanh dpow p gamma coef0 C l ->
  svm_train dexp dtanh dpow fuel svm_empty l p = Ok (m, l') ->
  (forall a b, In a (map label l) -> In b (map label l) -> a <> b -> told_apart dexp dtanh dpow p gamma coef0 C a b l) ->
  (forall a b, In a (map label l) -> In b (map label l) -> a <> b ->
    exists r, svm_solve dexp dtanh dpow p (pair_vectors a b l) (pair_signs a b l) (Nat.min (length (pair_vectors a b l)) 1000) = Ok r) ->
  forall x, In x l -> svm_predict dexp dtanh dpow m x = Ok (label x).
Proof.
  intros T E Hsep Hfast x Hx. set (cl := cs l).
  assert (Hcl : classes_of l cl). { split; [unfold cl, cs; rewrite class_distribution_cofl; apply cofl_sorted|]. intros k. apply cs_in. }
  assert (Hq : finite_values x). { pose proof (tc_finite _ _ _ _ _ _ _ _ T) as F. rewrite Forall_forall in F. apply F, Hx. }
  destruct (C73_decision_values _ _ _ _ _ _ _ _ _ _ _ x cl T Hcl E Hq) as (vals & Ev & Hl & Hv).
  destruct (C74_votes _ _ _ _ _ _ _ _ _ _ _ x cl T Hcl E Hq) as (vals' & b & c & Ev' & Ep & Eb & _ & Hmax & _). rewrite Ev in Ev'. injection Ev' as <-.
  rewrite Ep. f_equal. assert (In (label x) cl) as Ht by (apply (proj2 Hcl), in_map, Hx). apply In_nth_error in Ht as (t & Et).
  enough (b = t) as -> by congruence.
  assert (ND : NoDup cl). { destruct Hcl as [S _]. clear -S. induction S as [|z zs _ IH F]; constructor; [|exact IH]. intros H. rewrite Forall_forall in F. apply (slt_irrefl z), F, H. }
  apply (winner (length cl) vals t b Hl); [apply nth_error_Some; congruence|apply nth_error_Some; congruence| |exact Hmax].
  intros i j v Hin Hij. apply In_nth_error in Hin as (q & Eq).
  assert (nth_error (class_pairs (length cl)) q = Some (i, j) /\ nth_error vals q = Some v) as [Eq1 Eq2].
  { clear -Eq. revert q vals Eq. induction (class_pairs (length cl)) as [|z zs IH]; intros q [|w ws] Eq; cbn in Eq; destruct q; try discriminate; cbn in *; [injection Eq as -> ->; split; reflexivity|apply (IH q ws Eq)]. }
  destruct (Hv q i j Eq1) as (a & a' & rho & al & v' & Ea & Ea' & Es & Ev2 & Hval). rewrite Eq2 in Ev2. injection Ev2 as ->.
  assert (i < j) as Lij by (apply (in_class_pairs (length cl) i j), (nth_error_In _ _ Eq1)).
  assert (Hne : a <> a'). { intros ->. assert (i = j); [|lia]. apply (proj1 (NoDup_nth_error cl) ND); [apply nth_error_Some; congruence|congruence]. }
  assert (Ha : In a (map label l)) by (apply (proj2 Hcl), (nth_error_In _ _ Ea)). assert (Ha' : In a' (map label l)) by (apply (proj2 Hcl), (nth_error_In _ _ Ea')).
  destruct (Hfast a a' Ha Ha' Hne) as (r & Er). pose proof (svm_solve_same _ _ _ _ _ _ _ _ _ _ Er Es) as ->.
  pose proof (C73_pair_case _ _ _ _ _ _ _ _ _ _ T Hne) as Hc.
  destruct (C72_before_shrinking_partial _ _ _ _ _ _ _ _ _ _ _ _ Hc (le_n _) Er) as (mu & rho' & Erho & Hlen & Hmu & Hf & _ & Hmar). injection Erho as <-. rewrite map_length in Hlen.
  assert (Hal : forall k, k < length (pair_vectors a a' l) -> (nth k al 0%Q == mu k)%Q). { intros k Hk. destruct (Hmu k Hk) as (d & Ed & Hd). apply qnth in Ed. subst d. exact Hd. }
  assert (Hlab : label x = a \/ label x = a').
  { destruct Hij as [->| ->]; [left|right]; congruence. }
  destruct (pair_index a a' l x Hx Hne Hlab) as (k & Hk & Ek & Esk).
  pose proof (right_side dexp dtanh dpow p gamma coef0 C _ _ mu rho (tc_libm _ _ _ _ _ _ _ _ T) (told_separable dexp dtanh dpow p gamma coef0 C a a' l (Hsep a a' Ha Ha' Hne)) Hf Hmar k Hk) as R.
  assert (Ed : (pair_decision dexp dtanh dpow p gamma coef0 a a' l al rho (qvec x) == decision dexp dtanh dpow p gamma coef0 (pair_vectors a a' l) (pair_signs a a' l) mu rho k)%Q).
  { unfold pair_decision, decision. rewrite (pair_sum dexp dtanh dpow p gamma coef0 _ al _ mu (qvec x) (case_signs _ _ _ _ _ _ _ _ _ Hc) Hlen Hal). unfold kern, gram. rewrite Ek. reflexivity. }
  rewrite <- Ed, <- Hval in R. unfold ylab in R. rewrite Esk in R. unfold wins, dgtb, d0.
  destruct (String.eqb_spec (label x) a) as [La|La]; unfold sign in R.
  - rewrite (proj2 (dltb_fin _ _)) by lra. apply Nat.eqb_eq. apply (proj1 (NoDup_nth_error cl) ND); [apply nth_error_Some; congruence|congruence].
  - rewrite (proj2 (dltb_fin_false _ _)) by lra. apply Nat.eqb_eq. apply (proj1 (NoDup_nth_error cl) ND); [apply nth_error_Some; congruence|]. destruct Hlab; [contradiction|congruence].
Qed.
(** For the linear kernel: planes between the classes, with a penalty above 1.001 times the squared length of the normal vector. *)
Theorem C137_planes_partial dexp dtanh dpow p gamma coef0 C l fuel m l' : train_case dexp dtanh dpow p gamma coef0 C l -> p_kernel p = LINEAR ->
  svm_train dexp dtanh dpow fuel svm_empty l p = Ok (m, l') ->
  (forall a b, In a (map label l) -> In b (map label l) -> a <> b -> plane_apart C a b l) ->
  (forall a b, In a (map label l) -> In b (map label l) -> a <> b ->
    exists r, svm_solve dexp dtanh dpow p (pair_vectors a b l) (pair_signs a b l) (Nat.min (length (pair_vectors a b l)) 1000) = Ok r) ->
  forall x, In x l -> svm_predict dexp dtanh dpow m x = Ok (label x).
Proof.
  intros T Hk E Hs Hf. apply (C137_separable_partial _ _ _ _ _ _ _ _ _ _ _ T E); [|exact Hf]. intros a b Ha Hb Hn. apply plane_told; [exact Hk|apply Hs; assumption].
Qed.

(** Without the condition on the run it is false: class a at -2 and 1, class b at -3.  The plane 2 x + 5 tells them apart and C is 1000;
    the run shrinks, the write-back corrupts the multipliers, and the instance at -2 is taken for a b. *)
Definition par137 : svm_param := mkParam LINEAR 1 (Fin 1) (Fin 0) (Fin 1000) true.
Definition data137 : ilist := [pt "a" (-(2)); pt "a" 1; pt "b" (-(3))].
Theorem C137_refuted : exists p C l m l' x, train_case idd idd idp p 1 0 C l /\ p_kernel p = LINEAR /\ p_shrinking p = true /\
  (forall a b, In a (map label l) -> In b (map label l) -> a <> b -> plane_apart C a b l) /\
  svm_train idd idd idp 20 svm_empty l p = Ok (m, l') /\ In x l /\ label x = "a" /\ svm_predict idd idd idp m x = Ok "b".
Proof.
  exists par137, 1000%Q, data137. do 2 eexists. exists (pt "a" (-(2))). split; [|split; [reflexivity|split; [reflexivity|split; [|split; [vm_compute; reflexivity|split; [left; reflexivity|split; [reflexivity|vm_compute; reflexivity]]]]]]].
  - constructor; try reflexivity; [apply libm_id|discriminate|repeat constructor|]. intros x [<-|[<-|[<-|[]]]]; vm_compute; discriminate.
  - intros a b Ha Hb Hn. assert ((a = "a" /\ b = "b") \/ (a = "b" /\ b = "a")) as [[-> ->]|[-> ->]].
    { cbn in Ha, Hb. destruct Ha as [<-|[<-|[<-|[]]]], Hb as [<-|[<-|[<-|[]]]]; tauto || (left; split; reflexivity) || (right; split; reflexivity). }
    + exists [2%Q], 5%Q. split; [|split; [|vm_compute; reflexivity]]; intros x [<-|[<-|[<-|[]]]] Hl; try discriminate Hl; vm_compute; discriminate.
    + exists [(-(2))%Q], (-(5))%Q. split; [|split; [|vm_compute; reflexivity]]; intros x [<-|[<-|[<-|[]]]] Hl; try discriminate Hl; vm_compute; discriminate.
Qed.
(** a case of the theorem: three classes on a line *)
Definition data137b : ilist := [pt "c" 4; pt "a" 0; pt "b" 2].
Example C137_case : exists m l', svm_train idd idd idp 20 svm_empty data137b par137 = Ok (m, l') /\
  (forall x, In x data137b -> svm_predict idd idd idp m x = Ok (label x)).
Proof.
  assert (match svm_train idd idd idp 20 svm_empty data137b par137 with Ok _ => true | _ => false end = true) as H by (vm_compute; reflexivity).
  destruct (svm_train idd idd idp 20 svm_empty data137b par137) as [[m l']| | |] eqn:E; try discriminate H. exists m, l'. split; [reflexivity|].
  assert (L : forall a b, In a (map label data137b) -> In b (map label data137b) -> a <> b -> In (a, b) [("a", "b"); ("a", "c"); ("b", "c"); ("b", "a"); ("c", "a"); ("c", "b")]).
  { intros a b Ha Hb Hn. cbn in Ha, Hb. destruct Ha as [<-|[<-|[<-|[]]]], Hb as [<-|[<-|[<-|[]]]]; cbn; tauto. }
  apply (C137_planes_partial idd idd idp par137 1 0 1000 data137b 20 m l'); [|reflexivity|exact E| |].
  - constructor; try reflexivity; [apply libm_id|discriminate|repeat constructor|]. intros x [<-|[<-|[<-|[]]]]; vm_compute; discriminate.
  - intros a b Ha Hb Hn. pose proof (L a b Ha Hb Hn) as Hi. cbn [In] in Hi. destruct Hi as [Hi|[Hi|[Hi|[Hi|[Hi|[Hi|[]]]]]]]; injection Hi as <- <-.
    1: exists [(-(1))%Q], 1%Q. 2: exists [(-(1))%Q], 2%Q. 3: exists [(-(1))%Q], 3%Q. 4: exists [1%Q], (-(1))%Q. 5: exists [1%Q], (-(2))%Q. 6: exists [1%Q], (-(3))%Q.
    all: split; [|split; [|vm_compute; reflexivity]]; intros x [<-|[<-|[<-|[]]]] Hl; try discriminate Hl; vm_compute; discriminate.
  - intros a b Ha Hb Hn. pose proof (L a b Ha Hb Hn) as Hi. cbn [In] in Hi. destruct Hi as [Hi|[Hi|[Hi|[Hi|[Hi|[Hi|[]]]]]]]; injection Hi as <- <-; eexists; vm_compute; reflexivity.
Qed.

Print Assumptions C137_solution.
Print Assumptions C137_separable_partial.
Print Assumptions C137_planes_partial.
Print Assumptions C137_refuted.
