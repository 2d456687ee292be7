(** C135: every classifier can be trained on clean numeric data and then answers every clean query with a known label. *)
From Coq Require Import String ZArith QArith Bool Lia Permutation Arith List.
From Verif Require Import Base Spec BaseLemmas DblLemmas AttrModel AttrProofs DataSetModel InstanceListModel PartitionModel PerformanceModel DistanceModel
  GaussianModel TreeModel TreeSpec EnsembleModel NetModel SoftModel SvmModel SvmTrainSpec SvmProps SvmTrainProps SvmTermProps ExperimentSpec ExperimentProofs LibModel LibSpec LibProps
  ReadySpec ReadyProofs ReadyLibProofs.
Import ListNotations.
Local Open Scope string_scope.
Local Open Scope list_scope.
Local Open Scope nat_scope.

(** Training returns, leaves the list as it was, and the classifier then answers every clean query with one of the labels it has been shown. *)
Theorem C135_train : forall E d L c l p, sound E -> clean d l -> incl (map label l) L -> steady E d L c -> suits d l c p -> length l < e_fuel E ->
  exists c', train E c l (Some p) = Ok (c', l) /\ ready E d L c' /\ fresh c' = fresh c /\ ((forall m, c <> DeepC m) -> steady E d L c').
Proof.
  intros E d L c l p HE C HL Hs Hp Hf. destruct (train_ready E d L c l p HE C HL Hs Hp Hf) as (c' & Et & Fc & R & St). exists c'. split; [exact Et|]. split; [exact R|]. split; [exact Fc|].
  intros Hd. destruct St as [St|(m & ->)]; [exact St|]. exfalso. destruct c; try discriminate Fc. eapply Hd. reflexivity.
Qed.
Print Assumptions C135_train.
(** a new object qualifies, and then only labels of the training data are answered *)
Theorem C135_new : forall E d c l p, sound E -> clean d l -> suits d l c p -> length l < e_fuel E ->
  exists c', train E (fresh c) l (Some p) = Ok (c', l) /\ ready E d (map label l) c'.
Proof.
  intros E d c l p HE C Hp Hf. destruct (C135_train E d (map label l) (fresh c) l p HE C) as (c' & Et & R & _); [intros x Hx; exact Hx| | |exact Hf|exists c'; split; assumption].
  - destruct c; cbn; repeat split; constructor.
  - apply (suits_class d l c (fresh c) p); [destruct c; reflexivity|exact Hp].
Qed.
Print Assumptions C135_new.
(** the support vector machine: given enough steps; the training list is sorted by class *)
Theorem C135_svm : forall E d l s q gamma coef0 C, clean d l -> train_case (e_exp E) (e_tanh E) (e_pow E) q gamma coef0 C l ->
  exists bound m, forall n, bound <= n ->
    train (with_fuel n E) (SvmC svm_empty) l (Some (PSvm s q)) = Ok (SvmC m, sort_class l) /\ ready (with_fuel n E) d (map label l) (SvmC m).
Proof.
  intros E d l s q gamma coef0 C Hc T. destruct l as [|x0 l'] eqn:El; [destruct Hc; congruence|]. rewrite <- El in *.
  assert (Hd : discrete_check x0 = true).
  { destruct Hc as (_ & _ & F). rewrite Forall_forall in F. destruct (F x0 ltac:(rewrite El; left; reflexivity)) as (_ & v & _ & Ex). unfold discrete_check. rewrite Ex. clear. induction v; [reflexivity|cbn; assumption]. }
  destruct (C114_train _ _ _ q gamma coef0 C l x0 T) as (B & m & Ht & Hp); [rewrite El; reflexivity|exact Hd|].
  exists B, m. intros n Hn. cbn [train with_fuel e_exp e_tanh e_pow e_fuel]. rewrite (Ht n Hn). split; [reflexivity|]. intros z Hz. cbn [predict with_fuel e_exp e_tanh e_pow]. apply Hp.
  destruct Hz as (_ & v & _ & Ex). unfold finite_values, qvec. change (inst_vals z) with (inst_vector z). rewrite inst_vector_concat, Ex. clear. induction v as [|a v IH]; [reflexivity|]. cbn in *. rewrite <- IH. reflexivity.
Qed.
Print Assumptions C135_svm.
(** Testing returns on any clean list, the empty one included. *)
Theorem C135_test : forall E d L c l, (forall m, c <> AutoC m) -> ready E d L c -> Forall (clean_inst d) l -> exists p, test E c l = Ok p.
Proof. exact test_ready. Qed.
Print Assumptions C135_test.
(** An experiment goes through and gives a result for every round, if the settings suit the lists it trains on. *)
Theorem C135_experiment : forall E d c p kfold skfold sample r data, sound E -> clean d (insts data) -> length (insts data) < e_fuel E ->
  (forall m, c <> DeepC m) -> steady E d (map label (insts data)) c ->
  fold_provider kfold (fun l => l) -> fold_provider skfold (@concat instance) -> (forall l s, resample (sample l s) l) ->
  (forall tr, trains_on E kfold skfold sample r (get_seed p) (insts data) tr -> tr <> [] /\ suits d tr c p) ->
  exists c' e, execute E kfold skfold sample r (mkExper c (Some p) data) = Ok (c', e) /\ length (results e) = round_count r /\
    fresh c' = fresh c /\ steady E d (map label (insts data)) c'.
Proof.
  intros E d c p kfold skfold sample r data HE C Hf Hd Hs P1 P2 P3 Hu.
  destruct (execute_ok E HE d (insts data) p c Hd C Hf Hs kfold skfold sample P1 P2 P3 r data eq_refl Hu) as (c' & e & Ee & Hl & F & S'). exists c', e. repeat split; assumption.
Qed.
Print Assumptions C135_experiment.

(** ** A concrete library *)
Definition zeros (_ : Z) (r c : nat) : list (list dbl) := map (fun i => repeat (dofnat i) c) (seq 0 r).
Definition clean_env : env :=
  mkEnv (fun _ => d1) (fun x => x) (fun x _ => x) (fun x => x) (fun m => m) (fun _ => d1)
        (fun l => match l with [] => Throw OutOfRange | x :: _ => Ok (map (fun _ => d1) (attrs x)) end)
        (fun c => dofnat (List.length c)) (fun a b => ddiv (dadd a b) (Fin 2)) (fun _ ls => hd "" ls)
        (fun n _ => seq 0 n) (fun _ n => seq 0 n) (fun _ n => seq 0 n) zeros (fun _ i => dofnat i) (fun _ _ => 1) 20.
Lemma clean_env_sound : sound clean_env.
Proof.
  constructor; cbn.
  - intros n m H. exact H.
  - intros d [|x l] (N & _ & F); [congruence|]. inversion F as [|? ? Hx _]; subst. eexists. split; [reflexivity|]. rewrite map_length. exact (clean_count d x Hx).
  - intros c. eexists. reflexivity.
  - intros a b. exact (Qeq_refl _).
  - intros; apply Permutation_refl.
  - intros; apply Permutation_refl.
  - intros s r c. unfold zeros. rewrite map_length, seq_length. reflexivity.
  - intros s r c. unfold zeros. apply Forall_map, Forall_forall. intros i _. apply repeat_length.
  - intros s n. split; [apply seq_length|]. apply Forall_forall. intros i Hi. apply in_seq in Hi. lia.
Qed.
Definition row (c : string) (v : list Q) : instance := mkInst c (map (fun q => ACont (Fin q)) v) None.
Definition rows : ilist := [row "a" [0; 1]; row "b" [3; 5]; row "a" [1; 0]; row "b" [4; 4]; row "a" [0; 2]; row "b" [5; 5]]%Q.
Lemma rows_clean : clean 2 rows.
Proof. split; [discriminate|]. split; [lia|]. repeat constructor; eexists; (split; [|reflexivity]); reflexivity. Qed.
Definition lin : lin_fields := mkLF d1 d1 (Fin (1 # 3)) 1.
(** one object and one parameter of every class of the theorem *)
Definition every : list (classifier * param) :=
  [(KnnC None, PKnn 1 eucl 3); (KMeansC None, PKMeans 1 eucl); (LdaC lda_empty, PPlain 1); (QdaC qda_empty, PPlain 1); (BayesC bayes_empty, PPlain 1);
   (DummyC [], PPlain 1); (RandomC [], PPlain 1); (TreeC None, PC45 1 true (Fin (1 # 5))); (StumpC None, PPlain 1); (BaggingC [], PBagging 1 2); (ForestC [], PForest 1 2 1);
   (LinearC (mkLin [] [] (mkMat 0 [])), PLinear 1 lin); (MlpC (mkMlp [] [] (mkMat 0 []) (mkMat 0 []) NetModel.SIGMOID), PMlp 1 lin 2 NetModel.SIGMOID);
   (DeepC deep_empty, PDeep 1 lin [2; 2]%Z NetModel.SIGMOID); (SoftC None, PSoft 1 (mkLF d1 d1 (Fin (1 # 3)) 0) d0)].
Lemma rows_leave c : In c (map label rows) -> leaves_one (1 # 3) (occ (map label rows) c).
Proof. intros H. repeat (destruct H as [<-|H]; [vm_compute; discriminate|]). destruct H. Qed.
Example C135_case : sound clean_env /\ clean 2 rows /\ length rows < e_fuel clean_env /\
  Forall (fun cp => steady clean_env 2 ["a"; "b"] (fst cp) /\ suits 2 rows (fst cp) (snd cp)) every /\
  map (fun cp => match train clean_env (fst cp) rows (Some (snd cp)) with
                 | Ok (c, _) => map (fun q => match predict clean_env c q with Ok y => y | _ => "?" end) [row "" [0; 0]; row "" [5; 4]]%Q
                 | _ => []
                 end) every =
  [["a"; "b"]; ["a"; "b"]; ["a"; "b"]; ["a"; "b"]; ["a"; "b"]; ["a"; "a"]; ["b"; "b"]; ["a"; "b"]; ["a"; "b"]; ["a"; "b"]; ["a"; "b"]; ["b"; "b"]; ["b"; "b"]; ["b"; "b"]; ["b"; "b"]].
Proof.
  split; [exact clean_env_sound|]. split; [exact rows_clean|]. split; [cbn; lia|]. split.
  - assert (eucl_m : measures 2 eucl) by apply eucl_measures.
    repeat apply Forall_cons; try apply Forall_nil; (split; [repeat constructor|]); cbn [fst snd suits]; try exact I.
    + exists 1%Z, eucl, 3%Z. split; [reflexivity|]. split; [lia|exact eucl_m].
    + exists 1%Z, eucl. split; [left; reflexivity|exact eucl_m].
    + right. exists 1%Z, (1 # 5). split; [reflexivity|]. exists "a". split; [left; reflexivity|vm_compute; discriminate].
    + exists 1%Z, 2%Z. split; [left; reflexivity|lia].
    + exists 1%Z, 2%Z, 1%Z. split; [reflexivity|lia].
    + exists 1%Z, lin, (1 # 3). split; [left; reflexivity|reflexivity].
    + exists 1%Z, lin, 2%Z, NetModel.SIGMOID, (1 # 3). split; reflexivity.
    + exists 1%Z, lin, [2; 2]%Z, NetModel.SIGMOID, (1 # 3). split; [reflexivity|]. split; [reflexivity|discriminate].
    + exists 1%Z, (mkLF d1 d1 (Fin (1 # 3)) 0), d0, (1 # 3). split; [reflexivity|]. split; [reflexivity|]. split; [exact rows_leave|vm_compute; reflexivity].
  - vm_compute. reflexivity.
Qed.
(** Without the condition on the share of a pruning set: every class with a single instance ends up in the pruning set as a whole, no instance is
    left for growing, and training throws. *)
Theorem C135_prune_refuted : exists E l, sound E /\ clean 1 l /\ length l < e_fuel E /\
  train E (TreeC None) l (Some (PC45 1 true (Fin (1 # 5)))) = Throw OutOfRange.
Proof.
  exists clean_env, [row "a" [0]; row "b" [1]]%Q. split; [exact clean_env_sound|]. split; [|split; [cbn; lia|vm_compute; reflexivity]].
  split; [discriminate|]. split; [lia|]. repeat constructor; eexists; (split; [|reflexivity]); reflexivity.
Qed.
Print Assumptions C135_prune_refuted.
(** Auto encoders: they have one output per feature, but predict takes the largest output as the position of a label. *)
Theorem C135_auto_refuted : exists E l p m, sound E /\ clean 2 l /\ train E (fresh (AutoC m)) l (Some p) = Ok (AutoC m, l) /\
  Forall (fun q => predict E (AutoC m) q = Throw OutOfRange) l.
Proof.
  exists clean_env, [row "a" [0; 1]; row "a" [1; 1]]%Q, (PMlp 1 (mkLF d1 d1 (Fin (1 # 5)) 0) 1 NetModel.SIGMOID). eexists. split; [exact clean_env_sound|]. split.
  - split; [discriminate|]. split; [lia|]. repeat constructor; eexists; (split; [|reflexivity]); reflexivity.
  - split; [vm_compute; reflexivity|]. repeat constructor; vm_compute; reflexivity.
Qed.
Print Assumptions C135_auto_refuted.
(** ** Cases for the experiments and for the support vector machine *)
Example C135_experiment_case : let data := mkDS rows def_empty in let p := PC45 1 true (Fin (1 # 5)) in
  (forall tr, trains_on clean_env kf skf boot (KFold 3) 1 rows tr -> tr <> [] /\ suits 2 tr (TreeC None) p) /\
  exists c e, execute clean_env kf skf boot (KFold 3) (mkExper (TreeC None) (Some p) data) = Ok (c, e) /\ length (results e) = 3.
Proof.
  split.
  - intros tr (i & Hi & ->). destruct i as [|[|[|i]]]; [| | |lia]; (split; [discriminate|]); right; exists 1%Z, (1 # 5); (split; [reflexivity|]); exists "a"; (split; [vm_compute; tauto|vm_compute; discriminate]).
  - eexists _, _. vm_compute. split; reflexivity.
Qed.
Example C135_svm_case : clean 1 data3 /\ train_case idd idd idp parS 1 0 10 data3 /\
  exists m, svm_train idd idd idp 20 svm_empty data3 parS = Ok (m, [pt "a" 0; pt "a" (1 # 2); pt "b" 2; pt "c" 4]).
Proof.
  split; [|split; [apply C73_case|eexists; vm_compute; reflexivity]]. split; [discriminate|]. split; [lia|]. repeat constructor; eexists [_]; split; reflexivity.
Qed.
