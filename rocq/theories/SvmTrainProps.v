(** Support vector machine model: properties C73, C74 and the part of C50 about retraining. *)
From Coq Require Import String ZArith QArith Qabs Bool Lia Lra Lqa Permutation Sorted List.
From Verif Require Import Base Spec BaseLemmas DblLemmas SortLemmas AttrModel InstanceListModel PerformanceModel SolverModel SvmSpec SvmModel SvmTrainSpec
  ListProofs KernelProofs SolverProofs SolverInvProofs SvmProofs SvmTrainProofs SvmProps.
Import ListNotations.
Local Open Scope string_scope.
Local Open Scope list_scope.
Local Open Scope nat_scope.

(** ** C73 *)
(** decision values are computed for exactly the pairs i < j of class numbers, each once *)
Theorem C73_pairs c : NoDup (class_pairs c) /\ (forall i j, In (i, j) (class_pairs c) <-> i < j /\ j < c).
Proof. split; [apply class_pairs_nodup|apply in_class_pairs]. Qed.
(** training a fresh model never fails other than by not stopping *)
Theorem C73_train_safe dexp dtanh dpow p gamma coef0 C l fuel x0 : train_case dexp dtanh dpow p gamma coef0 C l ->
  nth_error l 0 = Some x0 -> discrete_check x0 = true ->
  svm_train dexp dtanh dpow fuel svm_empty l p = Diverge \/
  exists m, svm_train dexp dtanh dpow fuel svm_empty l p = Ok (m, sort_class l).
Proof.
  intros T E0 Hd. destruct (train_ok dexp dtanh dpow p gamma coef0 C l T fuel x0 E0 Hd) as [[E _]|(m & ws & nzb & E & _)]; [left; exact E|right; exists m; exact E].
Qed.
Lemma train_inv dexp dtanh dpow p gamma coef0 C l fuel m l' : train_case dexp dtanh dpow p gamma coef0 C l ->
  svm_train dexp dtanh dpow fuel svm_empty l p = Ok (m, l') -> exists ws nzb, trained dexp dtanh dpow p l fuel m ws nzb /\ cs l <> [].
Proof.
  intros T E. assert (exists x0, nth_error l 0 = Some x0 /\ discrete_check x0 = true) as (x0 & E0 & Hd).
  { unfold svm_train in E. apply bind_ok in E as (x0 & E0 & E). exists x0. unfold atn in E0. destruct (nth_error l 0); [|discriminate]. injection E0 as ->. split; [reflexivity|].
    destruct (discrete_check x0); [reflexivity|discriminate]. }
  destruct (train_ok dexp dtanh dpow p gamma coef0 C l T fuel x0 E0 Hd) as [[E' _]|(m' & ws & nzb & E' & H)]; rewrite E in E'; [discriminate|]. injection E' as <- ->.
  exists ws, nzb. split; [exact H|]. intros Hc. assert (In (label x0) (cs l)) as Hi by (apply cs_in, in_map, (nth_error_In l 0 E0)). rewrite Hc in Hi. exact Hi.
Qed.
Lemma classes_of_cs l cl : classes_of l cl -> cl = cs l.
Proof.
  intros [H1 H2]. apply sorted_set_unique; [exact H1|unfold cs; rewrite class_distribution_cofl; apply cofl_sorted|]. intros k. rewrite H2. symmetry. apply cs_in.
Qed.
(** For every query the model answers one decision value per pair of classes, and the value of the pair (a, b) is
    sum of sign * multiplier * kernel over the training instances of the two classes, minus the offset, with the multipliers
    and offset the two-class solver returns for these instances. *)
Theorem C73_decision_values dexp dtanh dpow p gamma coef0 C l fuel m l' q classes : train_case dexp dtanh dpow p gamma coef0 C l ->
  classes_of l classes -> svm_train dexp dtanh dpow fuel svm_empty l p = Ok (m, l') -> finite_values q ->
  exists vals, predict_values dexp dtanh dpow m (inst_nodes q) = Ok vals /\ length vals = length (class_pairs (length classes)) /\
    forall t i j, nth_error (class_pairs (length classes)) t = Some (i, j) ->
      exists a b rho al v, nth_error classes i = Some a /\ nth_error classes j = Some b /\
        svm_solve dexp dtanh dpow p (pair_vectors a b l) (pair_signs a b l) fuel = Ok (Fin rho, map Fin al) /\
        nth_error vals t = Some (Fin v) /\ (v == pair_decision dexp dtanh dpow p gamma coef0 a b l al rho (qvec q))%Q.
Proof.
  intros T Hcl E Hq. rewrite (classes_of_cs l classes Hcl). destruct (train_inv _ _ _ _ _ _ _ _ _ _ _ T E) as (ws & nzb & H & _).
  exact (predict_ok dexp dtanh dpow p gamma coef0 C l T fuel m ws nzb q H Hq).
Qed.
(** the two-class problems are cases of the solver's theorems (C91-C93) *)
Theorem C73_pair_case dexp dtanh dpow p gamma coef0 C l a b : train_case dexp dtanh dpow p gamma coef0 C l -> a <> b ->
  svm_case dexp dtanh dpow p gamma coef0 C (pair_vectors a b l) (pair_signs a b l).
Proof. intros T Hab. apply (pair_case dexp dtanh dpow p gamma coef0 C l T a b Hab). Qed.

(** ** C74 *)
Theorem C74_votes dexp dtanh dpow p gamma coef0 C l fuel m l' q classes : train_case dexp dtanh dpow p gamma coef0 C l ->
  classes_of l classes -> svm_train dexp dtanh dpow fuel svm_empty l p = Ok (m, l') -> finite_values q ->
  exists vals b c, predict_values dexp dtanh dpow m (inst_nodes q) = Ok vals /\ svm_predict dexp dtanh dpow m q = Ok c /\
    nth_error classes b = Some c /\ In c (map label l) /\
    (forall k, k < length classes -> votes (length classes) vals k <= votes (length classes) vals b) /\
    (forall k, k < b -> votes (length classes) vals k < votes (length classes) vals b).
Proof.
  intros T Hcl E Hq. pose proof Hcl as [_ Hin]. rewrite (classes_of_cs l classes Hcl) in *. destruct (train_inv _ _ _ _ _ _ _ _ _ _ _ T E) as (ws & nzb & H & Hne).
  destruct (predict_ok dexp dtanh dpow p gamma coef0 C l T fuel m ws nzb q H Hq) as (vals & Ev & Hl & _).
  destruct (count_votes_ok (length (cs l)) vals Hl) as (vs & Evs & Hvl & Hv).
  destruct (best_vote_ok (length (cs l)) vs) as (b & v & Eb & Hb & Hmax & Hfirst); [destruct (cs l); [contradiction|simpl; lia]|exact Hvl|].
  assert (b < length (cs l)) as Hbl by (rewrite <- Hvl; apply nth_error_Some; congruence).
  destruct (nth_lt (cs l) b Hbl) as (c & Ec). rewrite (Hv b Hbl) in Hb. injection Hb as <-. exists vals, b, c. split; [exact Ev|]. split.
  { unfold svm_predict. rewrite Ev. cbn [bind]. rewrite (tr_ncl _ _ _ _ _ _ _ _ _ H), Evs. cbn [bind]. rewrite Eb. cbn [bind]. rewrite (tr_dist _ _ _ _ _ _ _ _ _ H). apply idxn_some. exact Ec. }
  split; [exact Ec|]. split; [apply Hin, (nth_error_In _ _ Ec)|]. split.
  - intros k Hk. apply (Hmax k). apply Hv, Hk.
  - intros k Hk. apply (Hfirst k _ Hk). apply Hv. lia.
Qed.
(** every pair gives one vote *)
Theorem C74_total c vals : length vals = length (class_pairs c) ->
  2 * list_sum (map (votes c vals) (seq 0 c)) = c * (c - 1).
Proof. intros H. rewrite votes_total by exact H. apply class_pairs_length. Qed.
(** with two classes: the first one if and only if its decision value is positive *)
Theorem C74_two_classes dexp dtanh dpow p gamma coef0 C l fuel m l' q a b : train_case dexp dtanh dpow p gamma coef0 C l ->
  classes_of l [a; b] -> svm_train dexp dtanh dpow fuel svm_empty l p = Ok (m, l') -> finite_values q ->
  exists rho al, svm_solve dexp dtanh dpow p (pair_vectors a b l) (pair_signs a b l) fuel = Ok (Fin rho, map Fin al) /\
    svm_predict dexp dtanh dpow m q = Ok (if Qlt_le_dec 0 (pair_decision dexp dtanh dpow p gamma coef0 a b l al rho (qvec q)) then a else b).
Proof.
  intros T Hcl E Hq. destruct (C73_decision_values _ _ _ _ _ _ _ _ _ _ _ q _ T Hcl E Hq) as (vals & Ev & Hl & Hv).
  destruct (Hv 0 0 1 eq_refl) as (a' & b' & rho & al & v & Ea & Eb & Es & E0 & Hd). injection Ea as <-. injection Eb as <-. exists rho, al. split; [exact Es|].
  destruct (C74_votes _ _ _ _ _ _ _ _ _ _ _ q _ T Hcl E Hq) as (vals' & k & c & Ev' & Ep & Ek & _ & Hmax & _). rewrite Ev in Ev'. injection Ev' as <-.
  rewrite Ep. f_equal. destruct vals as [|v' [|]]; try discriminate. cbn in E0. injection E0 as ->.
  pose proof (Hmax 0 ltac:(simpl; lia)) as M0. pose proof (Hmax 1 ltac:(simpl; lia)) as M1. cbn [length] in M0, M1.
  unfold votes, class_pairs, countb in M0, M1. cbn [seq flat_map map app combine Nat.sub filter wins] in M0, M1.
  assert (dgtb (Fin v) d0 = if Qlt_le_dec 0 v then true else false) as Hgt.
  { unfold dgtb, d0. destruct (Qlt_le_dec 0 v) as [L|L]; [apply dltb_fin; exact L|apply dltb_fin_false; exact L]. }
  rewrite Hgt in M0, M1. destruct k as [|[|k]]; [| |destruct k; discriminate].
  - injection Ek as <-. destruct (Qlt_le_dec 0 (pair_decision _ _ _ _ _ _ _ _ _ _ _ _)) as [L|L]; [reflexivity|]. destruct (Qlt_le_dec 0 v) as [L'|L']; [lra|]. simpl in M1. lia.
  - injection Ek as <-. destruct (Qlt_le_dec 0 (pair_decision _ _ _ _ _ _ _ _ _ _ _ _)) as [L|L]; [|reflexivity]. destruct (Qlt_le_dec 0 v) as [L'|L']; [|lra]. simpl in M0. lia.
Qed.

(** ** C50: training a model twice *)
(** train appends to the offsets, support vectors and counts of the previous training, which prediction then uses:
    after retraining on other data the answers are not those of a fresh model. *)
Definition pt (c : string) (q : Q) : instance := mkInst c [ACont (Fin q)] None.
Definition parS : svm_param := mkParam LINEAR 1 (Fin 1) (Fin 0) (Fin 10) false.
Theorem C50_svm_refuted : exists data1 data2 m1 m2 fresh l1 l2 x,
  svm_train idd idd idp 20 svm_empty data1 parS = Ok (m1, l1) /\
  svm_train idd idd idp 20 m1 data2 parS = Ok (m2, l2) /\
  svm_train idd idd idp 20 svm_empty data2 parS = Ok (fresh, l2) /\
  svm_predict idd idd idp m2 x = Ok "b" /\ svm_predict idd idd idp fresh x = Ok "a".
Proof.
  exists [pt "a" 0; pt "b" 1], [pt "a" 10; pt "b" 11]. do 5 eexists. exists (pt "?" 9).
  split; [vm_compute; reflexivity|]. split; [vm_compute; reflexivity|]. split; [vm_compute; reflexivity|]. split; vm_compute; reflexivity.
Qed.

(** ** A concrete case: three classes on a line *)
Definition data3 : ilist := [pt "c" 4; pt "a" 0; pt "b" 2; pt "a" (1 # 2)].
Example C73_case : train_case idd idd idp parS 1 0 10 data3 /\ classes_of data3 ["a"; "b"; "c"] /\ finite_values (pt "?" 1) /\
  exists m l', svm_train idd idd idp 20 svm_empty data3 parS = Ok (m, l').
Proof.
  split; [|split; [|split]].
  - constructor; try reflexivity; [apply libm_id|discriminate|repeat constructor|].
    intros x [<-|[<-|[<-|[<-|[]]]]]; vm_compute; discriminate.
  - split; [repeat constructor|]. intros c. cbn. intuition.
  - reflexivity.
  - assert (match svm_train idd idd idp 20 svm_empty data3 parS with Ok _ => true | _ => false end = true) as H by (vm_compute; reflexivity).
    destruct (svm_train idd idd idp 20 svm_empty data3 parS) as [[m l']| | |]; try discriminate H. exists m, l'. reflexivity.
Qed.
Example C74_case : match svm_train idd idd idp 20 svm_empty data3 parS with
  | Ok (m, _) => svm_predict idd idd idp m (pt "?" (1 # 4)) = Ok "a" /\ svm_predict idd idd idp m (pt "?" (9 # 4)) = Ok "b" /\ svm_predict idd idd idp m (pt "?" 5) = Ok "c"
  | _ => False end.
Proof. vm_compute. auto. Qed.

Print Assumptions C73_pairs.
Print Assumptions C73_train_safe.
Print Assumptions C73_decision_values.
Print Assumptions C73_pair_case.
Print Assumptions C74_votes.
Print Assumptions C74_total.
Print Assumptions C74_two_classes.
Print Assumptions C50_svm_refuted.
