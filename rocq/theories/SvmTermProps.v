(** Termination of training a support vector machine: property C114. *)
From Coq Require Import String ZArith QArith Qabs Bool Lia Lra Lqa Permutation List.
From Verif Require Import Base Spec BaseLemmas DblLemmas SortLemmas AttrModel InstanceListModel PerformanceModel SolverModel SvmSpec SvmModel SvmTrainSpec
  ListProofs KernelProofs SolverProofs SolverInvProofs SvmProofs SolverTermProofs SvmTrainProofs SvmProps SvmTrainProps.
Import ListNotations.
Local Open Scope string_scope.
Local Open Scope list_scope.
Local Open Scope nat_scope.

(** ** The two-class solver *)
(** with enough iterations the solver returns, and more iterations do not change the answer *)
Theorem C114_solver dexp dtanh dpow p gamma coef0 C vs signs : svm_case dexp dtanh dpow p gamma coef0 C vs signs ->
  exists bound r al, forall fuel, bound <= fuel -> svm_solve dexp dtanh dpow p vs signs fuel = Ok (Fin r, al).
Proof.
  intros H. pose proof H as [Hm Hg Hc HC Hpos Hdeg Hs Hr].
  destruct (solve_terminates dexp dtanh dpow Hm p gamma coef0 C Hg Hc HC Hdeg Hpos vs (ylab signs) (ylab_sign signs) Hr _ (ylab_vec signs _ Hs)) as (bound & ro & Hb).
  destruct (run_ok dexp dtanh dpow p gamma coef0 C vs signs H bound) as [E|(r & al & a & E & _)]; pose proof (Hb bound (le_n _)) as Eb;
    change (svm_solve dexp dtanh dpow p vs signs bound = Ok ro) in Eb; rewrite Eb in E; [discriminate|]. injection E as ->.
  exists bound, r, al. exact Hb.
Qed.
(** there is no infinite run of the main loop, wherever it starts *)
Theorem C114_no_infinite_run dexp dtanh dpow p gamma coef0 C vs signs (run : nat -> Z * solver) : svm_case dexp dtanh dpow p gamma coef0 C vs signs ->
  visited dexp dtanh dpow p vs signs (fst (run 0)) (snd (run 0)) ->
  ~ (forall n, solve_iter dexp dtanh dpow (fst (run n)) (snd (run n)) = Ok (Again (fst (run (S n))) (snd (run (S n))))).
Proof.
  intros H V Hrun. destruct (visited_inv dexp dtanh dpow p gamma coef0 C vs signs H _ _ V) as (a & I). pose proof H as [Hm Hg Hc HC Hpos Hdeg Hs Hr].
  destruct (nat_bound (objective (length vs) (ylab signs) (kern dexp dtanh dpow p gamma coef0 vs) a - lowest dexp dtanh dpow p gamma coef0 C vs)
    (full_gain dexp dtanh dpow p gamma coef0 vs) (full_gain_pos _ _ _ _ _ _ _)) as (N & HN).
  destruct (loop_terminates dexp dtanh dpow Hm p gamma coef0 C Hg Hc Hdeg Hpos vs (ylab signs) (ylab_sign signs) Hr N (fst (run 0)) _ a I) as (fuel & s' & E).
  { unfold kern in HN. lra. }
  assert (forall fuel n, solve_loop dexp dtanh dpow fuel (fst (run n)) (snd (run n)) = Diverge) as Hd.
  { clear - Hrun. induction fuel as [|fuel IH]; intros n; [reflexivity|]. cbn [solve_loop]. rewrite Hrun. cbn [bind]. apply IH. }
  rewrite Hd in E. discriminate E.
Qed.

(** ** SvmModel::train *)
Lemma solve_more dexp dtanh dpow fuel fuel' l b y p x r : fuel <= fuel' -> solve dexp dtanh dpow fuel l b y p x = Ok r -> solve dexp dtanh dpow fuel' l b y p x = Ok r.
Proof.
  intros Hf. unfold solve. intros E. apply bind_ok in E as (s & -> & E). cbn [bind]. apply bind_ok in E as (s' & Es & E).
  rewrite (loop_more dexp dtanh dpow fuel _ _ _ Es fuel' Hf). exact E.
Qed.
Lemma foldM_more {A B} (f g : A -> B -> res A) l : (forall a x r, f a x = Ok r -> g a x = Ok r) -> forall a r, foldM f l a = Ok r -> foldM g l a = Ok r.
Proof.
  intros H. induction l as [|x l IH]; intros a r; [exact (fun E => E)|]. cbn [foldM]. intros E. apply bind_ok in E as (b & Eb & E). rewrite (H _ _ _ Eb). exact (IH b r E).
Qed.
Lemma pair_step_more dexp dtanh dpow fuel fuel' p start counts x st ij r : fuel <= fuel' ->
  pair_step dexp dtanh dpow fuel p start counts x st ij = Ok r -> pair_step dexp dtanh dpow fuel' p start counts x st ij = Ok r.
Proof.
  intros Hf. unfold pair_step. destruct ij as [i j]. intros E.
  apply bind_ok in E as (si & -> & E). cbn [bind]. apply bind_ok in E as (sj & -> & E). cbn [bind]. apply bind_ok in E as (ci & -> & E). cbn [bind].
  apply bind_ok in E as (cj & -> & E). cbn [bind]. apply bind_ok in E as (x1 & -> & E). cbn [bind]. apply bind_ok in E as (x2 & -> & E). cbn [bind].
  apply bind_ok in E as (w & Ew & E). assert (solve_single dexp dtanh dpow fuel' p (x1 ++ x2) (repeat d1 ci ++ repeat (dopp d1) cj) = Ok w) as ->; [|exact E].
  unfold solve_single in *. apply bind_ok in Ew as (r0 & Er & Ew). rewrite (solve_more _ _ _ _ _ _ _ _ _ _ _ Hf Er). exact Ew.
Qed.
Lemma train_more dexp dtanh dpow fuel fuel' old l p r : fuel <= fuel' -> svm_train dexp dtanh dpow fuel old l p = Ok r -> svm_train dexp dtanh dpow fuel' old l p = Ok r.
Proof.
  intros Hf. unfold svm_train. intros E. apply bind_ok in E as (x0 & -> & E). cbn [bind]. destruct (negb (discrete_check x0)); [exact E|].
  apply bind_ok in E as (st & -> & E). cbn [bind]. apply bind_ok in E as (ws & Ew & E).
  rewrite (foldM_more _ (pair_step dexp dtanh dpow fuel' p st _ _) _ (fun a x r => pair_step_more _ _ _ _ _ _ _ _ _ a x r Hf) _ _ Ew). exact E.
Qed.
(** a bound that serves all pairs of classes *)
Lemma pairs_bound dexp dtanh dpow p gamma coef0 C l : train_case dexp dtanh dpow p gamma coef0 C l -> forall names,
  exists bound, forall fuel, bound <= fuel -> forall a b, In a names -> In b names -> a <> b ->
    svm_solve dexp dtanh dpow p (pair_vectors a b l) (pair_signs a b l) fuel <> Diverge.
Proof.
  intros T names.
  assert (forall pairs : list (string * string), exists bound, forall fuel, bound <= fuel -> forall a b, In (a, b) pairs -> a <> b ->
    svm_solve dexp dtanh dpow p (pair_vectors a b l) (pair_signs a b l) fuel <> Diverge) as H.
  { induction pairs as [|(a & b) pairs (B & HB)]; [exists 0; intros ? _ ? ? []|]. destruct (string_dec a b) as [<-|Hab].
    - exists B. intros fuel Hf a' b' [E|Hi] Hne; [injection E as <- <-; contradiction|]. apply HB; assumption.
    - destruct (C114_solver _ _ _ _ _ _ _ _ _ (pair_case dexp dtanh dpow p gamma coef0 C l T a b Hab)) as (B1 & r & al & H1).
      exists (Nat.max B B1). intros fuel Hf a' b' [E|Hi] Hne; [injection E as <- <-; rewrite (H1 fuel) by lia; discriminate|]. apply HB; [lia|assumption..]. }
  destruct (H (list_prod names names)) as (B & HB). exists B. intros fuel Hf a b Ha Hb. apply HB; [exact Hf|]. apply in_prod; assumption.
Qed.
(** training a fresh model on continuous data returns, and the trained model answers every query with a class of the data *)
Theorem C114_train dexp dtanh dpow p gamma coef0 C l x0 : train_case dexp dtanh dpow p gamma coef0 C l ->
  nth_error l 0 = Some x0 -> discrete_check x0 = true ->
  exists bound m, (forall fuel, bound <= fuel -> svm_train dexp dtanh dpow fuel svm_empty l p = Ok (m, sort_class l)) /\
    forall q, finite_values q -> exists c, svm_predict dexp dtanh dpow m q = Ok c /\ In c (map label l).
Proof.
  intros T E0 Hd. destruct (pairs_bound _ _ _ _ _ _ _ _ T (cs l)) as (B & HB).
  destruct (train_ok dexp dtanh dpow p gamma coef0 C l T B x0 E0 Hd) as [[_ (a & b & Ha & Hb & Hab & Eu)]|(m & ws & nzb & E & _)].
  - exfalso. apply (HB B (le_n _) a b Ha Hb Hab Eu).
  - exists B, m. split; [intros fuel Hf; apply (train_more _ _ _ B fuel); assumption|]. intros q Hq.
    assert (classes_of l (cs l)) as Hcl. { split; [unfold cs; rewrite class_distribution_cofl; apply cofl_sorted|apply cs_in]. }
    destruct (C74_votes _ _ _ _ _ _ _ _ _ _ _ q _ T Hcl E Hq) as (_ & _ & c & _ & Ep & _ & Hc & _). exists c. split; assumption.
Qed.

(** ** Concrete cases *)
(** identical vectors with different labels, where the curvature of the pair is zero and every step ends on a bound *)
Definition twins : list (list Q) := [[1]; [1]; [1]]%Q.
Example C114_case : svm_case idd idd idp par1 1 0 10 twins [true; false; true] /\
  exists r x y z, svm_solve idd idd idp par1 twins [true; false; true] 4 = Ok (Fin r, [Fin x; Fin y; Fin z]) /\ (x + z == y /\ y == 10)%Q.
Proof.
  split.
  - constructor; try reflexivity; [apply libm_id|discriminate|]. intros k Hk. simpl in Hk. destruct k as [|[|[|k]]]; [| | |lia]; vm_compute; discriminate.
  - vm_compute. do 4 eexists. split; [reflexivity|]. split; reflexivity.
Qed.
Example C114_train_case : train_case idd idd idp parS 1 0 10 data3 /\ nth_error data3 0 = Some (pt "c" 4) /\ discrete_check (pt "c" 4) = true.
Proof. split; [apply C73_case|]. split; reflexivity. Qed.

Print Assumptions C114_solver.
Print Assumptions C114_no_infinite_run.
Print Assumptions C114_train.
