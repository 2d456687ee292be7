(** Property C128: the names of the classes do not matter. *)
From Coq Require Import String ZArith QArith Bool Lia List Ascii.
From Verif Require Import Base Spec BaseLemmas DblLemmas AttrModel DataSetModel InstanceListModel PartitionModel PerformanceModel DistanceModel
  GaussianModel TreeModel EnsembleModel NetModel SoftModel SvmModel ExperimentModel ExperimentProofs LibModel LibSpec TreeProps ModelInvProps LibProps
  RenameSpec RenameProofs RenameModelProofs RenameTreeProofs RenameNetProofs RenameLibProofs.
Import ListNotations.
Local Open Scope string_scope.
Local Open Scope list_scope.
Local Open Scope nat_scope.

(** Training any classifier of the library on renamed data and asking it about a renamed query gives the renamed answer; where
    the one fails, throws or is undefined, so does the other. *)
Theorem C128_answers : forall f E, keeps_order f -> label_blind f E -> forall c l p q, param_blind f p ->
  answer E c (map (rename f) l) p (rename f q) = rmap f (answer E c l p q).
Proof.
  intros f E Hf HE c l p q Hp. unfold answer. rewrite <- (ren_fresh f c) at 1. rewrite (ren_train f E Hf HE).
  destruct (train E (fresh c) l p) as [r| | |] eqn:T; cbn [rmap bind]; try reflexivity.
  apply (ren_predict f E Hf HE), (train_blind f E _ _ _ _ Hp T).
Qed.
(** so do the tests: the confusion matrix has the new names, accuracy and error rate are the same *)
Theorem C128_scores : forall f E, keeps_order f -> label_blind f E -> forall c l p te, param_blind f p ->
  score E c (map (rename f) l) p (map (rename f) te) = rmap (rename_perf f) (score E c l p te).
Proof.
  intros f E Hf HE c l p te Hp. unfold score. rewrite <- (ren_fresh f c) at 1. rewrite (ren_train f E Hf HE).
  destruct (train E (fresh c) l p) as [r| | |] eqn:T; cbn [rmap bind]; try reflexivity.
  apply (ren_test_c f E Hf HE), (train_blind f E _ _ _ _ Hp T).
Qed.
(** and so do all nine experiment runs, round by round *)
Theorem C128_experiments : forall f E kfold skfold sample, keeps_order f -> label_blind f E -> sampling_blind f kfold skfold sample ->
  forall r c p d d', param_blind f p -> insts d' = map (rename f) (insts d) ->
  rmap (fun o => results (snd o)) (execute E kfold skfold sample r (mkExper (fresh c) p d')) =
  rmap (fun o => map (rename_perf f) (results (snd o))) (execute E kfold skfold sample r (mkExper (fresh c) p d)).
Proof.
  intros f E kfold skfold sample Hf HE HS r c p d d' Hp Hd. rewrite <- (ren_fresh f c) at 1.
  rewrite (ren_execute f E p Hf HE Hp kfold skfold sample HS r (fresh c) d d' Hd) by (destruct c; exact I).
  destruct (execute _ _ _ _ _ _); reflexivity.
Qed.
(** what a user reads off a performance object *)
Theorem C128_figures : forall f p, accuracy_of (rename_perf f p) = accuracy_of p /\ error_rate (rename_perf f p) = error_rate p.
Proof. intros f [e|a e|a e m]; split; reflexivity. Qed.
(** The linear perceptron, the two kinds of network and the soft tree only ask whether two labels are equal: for them every
    injective renaming will do. *)
Theorem C128_orderless : forall f E, (forall s t, f s = f t -> s = t) -> f "" = "" -> forall c l p q, orderless c = true ->
  answer E c (map (rename f) l) p (rename f q) = rmap f (answer E c l p q).
Proof.
  intros f E inj f0 c l p q Hc. unfold answer. rewrite <- (ren_fresh f c) at 1. assert (orderless (fresh c) = true) as Hc' by (destruct c; exact Hc).
  rewrite (inj_train f E inj) by exact Hc'. destruct (train E (fresh c) l p) as [r| | |] eqn:T; cbn [rmap bind]; try reflexivity.
  apply (inj_predict f E inj f0), (train_orderless E _ _ _ _ T Hc').
Qed.

(** * The contracts can be met *)
Lemma occ_rk {V} f (Hf : keeps_order f) (m : smap V) k : mfind (f k) (rkey f m) = mfind k m.
Proof.
  induction m as [|[k' v] m IH]; [reflexivity|]. cbn [rkey map mfind fst snd]. rewrite <- IH.
  destruct (String.eqb_spec k k') as [->|N]; [rewrite String.eqb_refl; reflexivity|]. destruct (String.eqb_spec (f k) (f k')) as [E|_]; [|reflexivity].
  destruct (N (f_inj f Hf _ _ E)).
Qed.
Example C128_env_case : forall f, keeps_order f -> label_blind f ex_env.
Proof.
  intros f Hf. split; [|split; [|split]]; cbn [ex_env e_entropy e_max_item e_std e_random].
  - intros [|a [|b c]]; reflexivity.
  - intros d ls. unfold ex_max. assert (hd "" (map f ls) = f (hd "" ls)) as -> by (destruct ls; [symmetry; apply Hf|reflexivity]).
    generalize (hd "" ls) as b. induction ls as [|l ls IH]; intros b; [reflexivity|]. cbn [map fold_left]. rewrite <- IH. f_equal.
    unfold ccount. rewrite !(occ_rk f Hf). destruct (Nat.ltb _ _); reflexivity.
  - reflexivity.
  - reflexivity.
Qed.
Lemma combine_map_both {A B} (g : A -> B) {X} (s : list X) l : map (fun q => (fst q, g (snd q))) (combine s l) = combine s (map g l).
Proof. revert l; induction s as [|x s IH]; intros [|a l]; cbn; [reflexivity..|]. rewrite IH. reflexivity. Qed.
Example C128_sampling_case : forall f, sampling_blind f kf skf boot.
Proof.
  assert (forall f l K i, mod_fold (map (rename f) l) K i = (map (rename f) (fst (mod_fold l K i)), map (rename f) (snd (mod_fold l K i)))) as H.
  { intros f l K i. unfold mod_fold. cbn [fst snd]. rewrite map_length, <- (combine_map_both (rename f)).
    assert (forall (P : nat -> bool) (c : list (nat * instance)), map snd (filter (fun q => P (fst q)) (map (fun q => (fst q, rename f (snd q))) c)) =
      map (rename f) (map snd (filter (fun q => P (fst q)) c))) as F.
    { intros P c. induction c as [|[n x] c IH]; [reflexivity|]. cbn [map filter fst snd]. destruct (P n); cbn [map snd]; rewrite IH; reflexivity. }
    f_equal; [apply (F (fun n => negb (n =? i)))|apply (F (fun n => n =? i))]. }
  intros f. split; [|split]; intros; unfold kf, skf, boot; [apply H| |reflexivity]. rewrite <- concat_map. apply H.
Qed.
Example C128_metric_case : forall f, metric_blind f eucl.
Proof. intros f x y. reflexivity. Qed.

(** * A case: names become "class ..." *)
Definition long_name (s : string) : string := if String.eqb s "" then "" else ("class " ++ s)%string.
Lemma long_name_keeps_order : keeps_order long_name.
Proof.
  split; [|reflexivity]. intros s t H. unfold long_name. destruct t as [|b t]; [destruct s; discriminate H|]. destruct s as [|a s]; [reflexivity|]. exact H.
Qed.
Example C128_case :
  map (fun q => answer ex_env (KnnC None) ex_points (Some (PKnn 1 eucl 1)) (kpt "" q)) [1%Q; 9%Q] = [Ok "a"; Ok "b"] /\
  map (fun q => answer ex_env (KnnC None) (map (rename long_name) ex_points) (Some (PKnn 1 eucl 1)) (kpt "" q)) [1%Q; 9%Q] = [Ok "class a"; Ok "class b"] /\
  score ex_env (DummyC []) (map (rename long_name) ex_mixed) None (map (rename long_name) ex_mixed) =
    rmap (rename_perf long_name) (score ex_env (DummyC []) ex_mixed None ex_mixed) /\
  rmap (rename_perf long_name) (score ex_env (DummyC []) ex_mixed None ex_mixed) <> score ex_env (DummyC []) ex_mixed None ex_mixed.
Proof. split; [vm_compute; reflexivity|]. split; [vm_compute; reflexivity|]. split; [vm_compute; reflexivity|vm_compute; discriminate]. Qed.

(** * Limits *)
Definition swap_ab (s : string) : string := if String.eqb s "a" then "b" else if String.eqb s "b" then "a" else s.
(** an injective renaming that changes the alphabetical order also changes who wins a tie *)
Theorem C128_order_refuted : (forall s t, swap_ab s = swap_ab t -> s = t) /\ swap_ab "" = "" /\
  answer ex_env (DummyC []) ex_points None (kpt "" 0) = Ok "a" /\ answer ex_env (DummyC []) (map (rename swap_ab) ex_points) None (kpt "" 0) = Ok "a".
Proof.
  split; [|repeat split; vm_compute; reflexivity]. intros s t. unfold swap_ab.
  destruct (String.eqb_spec s "a"), (String.eqb_spec s "b"), (String.eqb_spec t "a"), (String.eqb_spec t "b"); subst; congruence.
Qed.
(** a class with the empty name is confused with "no answer" *)
Definition zero_name (s : string) : string := ("0" ++ s)%string.
Definition nameless : ilist := [kpt "" 0; kpt "" 1].
Definition asked (names : list string) : instance := mkInst "" [ACont (Fin 0)] (Some names).
Theorem C128_empty_refuted : (forall s t, sltb s t = true -> sltb (zero_name s) (zero_name t) = true) /\
  answer ex_env (TreeC None) nameless (Some (PC45 1 false d0)) (asked ["z"; ""]) = Ok "z" /\
  answer ex_env (TreeC None) (map (rename zero_name) nameless) (Some (PC45 1 false d0)) (rename zero_name (asked ["z"; ""])) = Ok (zero_name "").
Proof. split; [intros s t H; exact H|]. split; vm_compute; reflexivity. Qed.
(** the same swap leaves the linear perceptron alone, and a whole cross-validation of the tree survives long names *)
Definition two_rows : ilist := [kpt "a" 3; kpt "b" 0; kpt "a" 2; kpt "b" 1].
Definition lin1 : param := PLinear 1 (mkLF d1 d1 d0 1).
Example C128_orderless_case :
  map (fun q => answer ex_env (LinearC (mkLin [] [] (mkMat 0 []))) two_rows (Some lin1) (kpt "" q)) [3%Q; (-3)%Q] = [Ok "a"; Ok "b"] /\
  map (fun q => answer ex_env (LinearC (mkLin [] [] (mkMat 0 []))) (map (rename swap_ab) two_rows) (Some lin1) (kpt "" q)) [3%Q; (-3)%Q] = [Ok "b"; Ok "a"].
Proof. split; vm_compute; reflexivity. Qed.
Example C128_experiments_case :
  rmap (fun o => results (snd o)) (execute ex_env kf skf boot (KFold 2) (mkExper (TreeC None) (Some (PC45 1 false d0)) (mkDS (map (rename long_name) ex_far) def_empty))) =
  Ok [PDetail (Fin (1 # 2)) (Fin (1 # 2)) (mkCM [("class a", [("class b", 1)]); ("class b", [("class b", 1)])] ["class a"; "class b"]);
      PDetail (Fin (1 # 2)) (Fin (1 # 2)) (mkCM [("class a", [("class a", 1)]); ("class b", [("class a", 1)])] ["class a"; "class b"])] /\
  rmap (fun o => results (snd o)) (execute ex_env kf skf boot (KFold 2) (mkExper (TreeC None) (Some (PC45 1 false d0)) (mkDS ex_far def_empty))) =
  Ok [PDetail (Fin (1 # 2)) (Fin (1 # 2)) (mkCM [("a", [("b", 1)]); ("b", [("b", 1)])] ["a"; "b"]);
      PDetail (Fin (1 # 2)) (Fin (1 # 2)) (mkCM [("a", [("a", 1)]); ("b", [("a", 1)])] ["a"; "b"])].
Proof. split; vm_compute; reflexivity. Qed.
Print Assumptions C128_answers.
Print Assumptions C128_scores.
Print Assumptions C128_experiments.
Print Assumptions C128_figures.
Print Assumptions C128_orderless.
Print Assumptions C128_order_refuted.
Print Assumptions C128_empty_refuted.
