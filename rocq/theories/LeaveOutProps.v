(** C157: leaving one out. *)
From Coq Require Import String ZArith QArith Bool Lia Lqa Permutation List.
From Verif Require Import Base Spec BaseLemmas DblLemmas AttrModel DataSetModel InstanceListModel PerformanceModel GaussianModel ListSpec
  ExperimentModel ExperimentSpec ExperimentProofs ExperimentProps PerformanceSpec PerformanceProofs GaussianProps LibModel LibSpec LibProps LeaveOutSpec LeaveOutProofs.
Import ListNotations.
Local Open Scope string_scope.
Local Open Scope list_scope.
Local Open Scope nat_scope.

(** As many folds as instances: the run succeeds, leaves every instance out once, and answers it with a most frequent class of the others. *)
Theorem C157_rounds : forall E kfold skfold sample old p d, fold_provider kfold (fun l => l) -> no_empty_fold kfold -> insts d <> [] -> Forall plain (insts d) ->
  exists c' e xs, execute E kfold skfold sample (KFold (length (insts d))) (mkExper (DummyC old) (Some p) d) = Ok (c', e) /\ Permutation xs (insts d) /\ Forall2 (scored (insts d)) xs (results e).
Proof.
  intros E kfold skfold sample old p d HF HN Hl HP. destruct (loo E kfold skfold sample old p d HF HN Hl HP) as (c' & xs & ps & H & P & F). exists c', (exp_of ps), xs. rewrite exp_of_results. auto.
Qed.
(** Classes of equal size: every single answer is wrong, the mean accuracy is 0. *)
Theorem C157_balanced : forall E kfold skfold sample old p d c' e, fold_provider kfold (fun l => l) -> no_empty_fold kfold -> balanced (insts d) -> Forall plain (insts d) ->
  execute E kfold skfold sample (KFold (length (insts d))) (mkExper (DummyC old) (Some p) d) = Ok (c', e) ->
  Forall (fun q => exists a, accuracy_of q = Ok (Fin a) /\ (a == 0)%Q) (results e) /\ exists m, exp_mean_class e = Ok (Some (PClass (Fin m) (Fin (1 - m)))) /\ (m == 0)%Q.
Proof.
  intros E kfold skfold sample old p d c' e HF HN [(y & z & Hy & Hz & Nyz) B] HP H. assert (Hl : insts d <> []) by (intros X; rewrite X in Hy; destruct Hy).
  destruct (loo E kfold skfold sample old p d HF HN Hl HP) as (c1 & xs & ps & H' & P & F). rewrite H' in H. injection H as <- <-. rewrite exp_of_results.
  assert (W : forall x q, In x (insts d) -> scored (insts d) x q -> exists a, accuracy_of q = Ok (Fin a) /\ (a == 0)%Q).
  { intros x q Hx (rest & g & a & Pr & (_ & G) & Ea & Va). exists a. split; [exact Ea|]. destruct (String.eqb_spec (label x) g) as [<-|N]; [exfalso|exact Va].
    assert (O : exists o, In o (insts d) /\ label o <> label x) by (destruct (string_dec (label y) (label x)) as [e|n]; [exists z; split; [exact Hz|congruence]|exists y; split; [exact Hy|exact n]]).
    destruct O as (o & Ho & No). pose proof (occ_rest _ _ _ Pr (label o)) as O1. pose proof (occ_rest _ _ _ Pr (label x)) as O2. pose proof (B x o Hx Ho). specialize (G (label o)).
    destruct (string_dec (label x) (label o)); [congruence|]. destruct (string_dec (label x) (label x)); [lia|congruence]. }
  split.
  - apply Forall_forall. intros q Hq. assert (I : exists x, In x xs /\ scored (insts d) x q) by (clear - F Hq; induction F as [|x r xs ps S F IH]; [destruct Hq|destruct Hq as [<-|Hq]; [exists x; split; [left; reflexivity|exact S]|destruct (IH Hq) as (x' & I' & S'); exists x'; split; [right; exact I'|exact S']]]).
    destruct I as (x & Ix & S). apply (W x q); [apply (Permutation_in _ P Ix)|exact S].
  - destruct (mean_of (insts d) xs ps (fun _ => 0%Q)) as (m & Em & Vm); [intros ->; apply Permutation_nil in P; congruence|exact P|exact W|exact F|]. exists m. split; [exact Em|]. rewrite Vm, qsum_const. unfold Qdiv. ring.
Qed.
(** A class at least two instances ahead of every other: it is the answer each time, and the mean accuracy is its share of the data. *)
Theorem C157_ahead : forall E kfold skfold sample old p d c' e a, fold_provider kfold (fun l => l) -> no_empty_fold kfold -> insts d <> [] -> ahead_by_two a (insts d) -> Forall plain (insts d) ->
  execute E kfold skfold sample (KFold (length (insts d))) (mkExper (DummyC old) (Some p) d) = Ok (c', e) ->
  exists m, exp_mean_class e = Ok (Some (PClass (Fin m) (Fin (1 - m)))) /\ (m == qofn (occ (map label (insts d)) a) / qofn (length (insts d)))%Q.
Proof.
  intros E kfold skfold sample old p d c' e a HF HN Hl A HP H.
  destruct (loo E kfold skfold sample old p d HF HN Hl HP) as (c1 & xs & ps & H' & P & F). rewrite H' in H. injection H as <- <-.
  destruct (mean_of (insts d) xs ps (fun x => if string_dec (label x) a then 1 else 0)%Q) as (m & Em & Vm); [intros ->; apply Permutation_nil in P; congruence|exact P| |exact F|].
  - intros x q Hx (rest & g & v & Pr & (_ & G) & Ea & Va). exists v. split; [exact Ea|]. assert (g = a) as ->.
    { destruct (string_dec g a) as [->|N]; [reflexivity|exfalso]. specialize (A g N). specialize (G a). pose proof (occ_rest _ _ _ Pr a) as O1. pose proof (occ_rest _ _ _ Pr g) as O2.
      destruct (string_dec (label x) a), (string_dec (label x) g); subst; lia. }
    rewrite Va. destruct (String.eqb_spec (label x) a), (string_dec (label x) a); try congruence; reflexivity.
  - exists m. split; [exact Em|]. rewrite Vm. assert (S : forall l, (qsum (map (fun x => if string_dec (label x) a then 1 else 0) l) == qofn (occ (map label l) a))%Q).
    { clear. induction l as [|x l IH]; [reflexivity|]. cbn [map qsum fold_right]. unfold qsum in IH. rewrite IH. unfold occ. cbn [count_occ]. destruct (string_dec (label x) a); [|ring]. unfold qofn. rewrite Nat2Z.inj_succ, <- Z.add_1_l, inject_Z_plus. reflexivity. }
    rewrite S. reflexivity.
Qed.
(** ** Cases *)
Definition loo_of (l : ilist) : res (list dbl) := accs (execute ex_env kf skf boot (KFold (length l)) (mkExper (DummyC []) (Some (PPlain 1)) (mkDS l def_empty))).
(** One instance ahead is not enough, and the names of the classes decide: two "b" and one "a" give no right answer, two "a" and one "b" two. *)
Theorem C157_one_ahead_refuted : loo_of [pt "b" 1; pt "b" 2; pt "a" 3] = Ok [Fin (0 # 1); Fin (0 # 1); Fin (0 # 1)] /\ loo_of [pt "a" 1; pt "a" 2; pt "b" 3] = Ok [Fin (1 # 1); Fin (1 # 1); Fin (0 # 1)].
Proof. split; vm_compute; reflexivity. Qed.
Lemma kf_no_empty : no_empty_fold kf.
Proof.
  intros l K seed i HK Hi. unfold kf, mod_fold. cbn [snd]. intros X. apply map_eq_nil in X.
  destruct (nth_error l i) as [x|] eqn:Ex; [|apply nth_error_None in Ex; lia]. assert (I : In (i, x) (filter (fun p : nat * instance => fst p =? i) (combine (map (fun j => j mod K) (seq 0 (length l))) l))); [|rewrite X in I; destruct I].
  apply filter_In. split; [|cbn [fst]; apply Nat.eqb_refl]. apply nth_error_split in Ex as (l1 & l2 & -> & L). rewrite app_length. cbn [length]. rewrite seq_app, map_app. cbn [seq map].
  replace (0 + length l1) with i by lia. rewrite Nat.mod_small by lia. clear - L. assert (Lm : length (map (fun j => j mod K) (seq 0 (length l1))) = length l1) by (rewrite map_length, seq_length; reflexivity).
  revert Lm. generalize (map (fun j => j mod K) (seq 0 (length l1))). generalize (map (fun j => j mod K) (seq (S i) (length l2))). clear L. induction l1 as [|y l1 IH]; intros u [|v vs] Lm; try discriminate; [left; reflexivity|]. right. apply IH. injection Lm as Lm. exact Lm.
Qed.
Definition loo_even : ilist := [pt "a" 1; pt "b" 2; pt "b" 3; pt "a" 4].
Definition loo_ahead : ilist := [pt "b" 1; pt "a" 2; pt "b" 3; pt "b" 4].
Example C157_case : fold_provider kf (fun l => l) /\ no_empty_fold kf /\ balanced loo_even /\ ahead_by_two "b" loo_ahead /\
  loo_of loo_even = Ok [Fin (0 # 1); Fin (0 # 1); Fin (0 # 1); Fin (0 # 1)] /\ loo_of loo_ahead = Ok [Fin (1 # 1); Fin (0 # 1); Fin (1 # 1); Fin (1 # 1)].
Proof.
  split; [exact (proj1 C56_contract_met)|]. split; [exact kf_no_empty|]. split.
  { split; [exists (pt "a" 1), (pt "b" 2); cbn; split; [tauto|split; [tauto|discriminate]]|]. intros x y Hx Hy. cbn in Hx, Hy. destruct Hx as [<-|[<-|[<-|[<-|[]]]]], Hy as [<-|[<-|[<-|[<-|[]]]]]; reflexivity. }
  split; [|split; vm_compute; reflexivity]. intros c N. unfold occ. cbn [loo_ahead map pt label count_occ].
  destruct (string_dec "b" c) as [<-|_]; [congruence|]. destruct (string_dec "b" "b"); [|congruence]. destruct (string_dec "a" "b"); [discriminate|]. destruct (string_dec "a" c); lia.
Qed.
Print Assumptions C157_rounds.
Print Assumptions C157_balanced.
Print Assumptions C157_ahead.
Print Assumptions C157_one_ahead_refuted.
