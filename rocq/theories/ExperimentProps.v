(** Properties of experiments: C56, C57, C58, C59. *)
From Coq Require Import String ZArith QArith Bool Lia Permutation List.
From Verif Require Import Base Spec BaseLemmas AttrModel InstanceListModel ListSpec ListProofs PartitionModel PartitionProofs PartitionProps PerformanceModel ExperimentModel ExperimentSpec ExperimentProofs.
Import ListNotations.
Local Open Scope string_scope.
Local Open Scope list_scope.
Local Open Scope nat_scope.

(** * C56: K-fold runs *)
(** For every model: a run that returns went through K rounds that are a cross validation of the data, and its results
    are those of the rounds in order. *)
Theorem C56_kfold : forall M train test kfold, fold_provider kfold (fun l => l) ->
  forall K seed l (m : M) m' e, 1 <= K -> kfold_run train test kfold K seed l m = Ok (m', e) ->
  exists fs, length fs = K /\ cross_validation fs l /\ rounds train test m fs m' (results e) /\ length (results e) = K.
Proof.
  intros M train test kfold C K seed l m m' e HK H. unfold kfold_run in H. rewrite run_folds_pairs in H. apply run_pairs_rounds in H as (ps & R & ->). rewrite results_adds. cbn [results exp_empty app].
  exists (map (kfold l K seed) (seq 0 K)). rewrite map_length, seq_length. split; [reflexivity|]. split; [apply C; exact HK|]. split; [exact R|]. rewrite (rounds_len _ _ _ _ _ _ R), map_length, seq_length. reflexivity.
Qed.
Print Assumptions C56_kfold.
Theorem C56_stratified : forall M train test skfold, fold_provider skfold (@concat instance) ->
  forall K seed l (m : M) m' e, 1 <= K -> skfold_run train test skfold K seed l m = Ok (m', e) ->
  exists fs, length fs = K /\ cross_validation fs l /\ rounds train test m fs m' (results e) /\ length (results e) = K.
Proof.
  intros M train test skfold C K seed l m m' e HK H. unfold skfold_run in H. destruct (part_class_spec l) as [E P]. rewrite E in H. cbn [bind] in H. rewrite run_folds_pairs in H.
  apply run_pairs_rounds in H as (ps & R & ->). rewrite results_adds. cbn [results exp_empty app]. set (gs := map (fun c => filter (of_class c) l) (distinct_labels l)) in *.
  exists (map (skfold gs K seed) (seq 0 K)). rewrite map_length, seq_length. split; [reflexivity|]. split.
  - destruct (C gs K seed HK) as [A B]. split; [eapply Forall_impl; [|exact A]; cbv beta; intros f Hf; rewrite Hf; exact P|rewrite B; exact P].
  - split; [exact R|]. rewrite (rounds_len _ _ _ _ _ _ R), map_length, seq_length. reflexivity.
Qed.
Print Assumptions C56_stratified.
(** a run fails only if training or testing fails *)
Theorem C56_total : forall M train test kfold skfold, (forall (m : M) tr, exists m', train m tr = Ok m') -> (forall m te, exists p, test m te = Ok p) ->
  forall K seed l m, (exists m' e, kfold_run train test kfold K seed l m = Ok (m', e)) /\ (exists m' e, skfold_run train test skfold K seed l m = Ok (m', e)).
Proof.
  intros M train test kfold skfold HT HS K seed l m. unfold kfold_run, skfold_run. destruct (part_class_spec l) as [E _]. rewrite E. cbn [bind]. rewrite !run_folds_pairs. split.
  - destruct (rounds_total train test (map (kfold l K seed) (seq 0 K)) HT HS m) as (m' & ps & R). exists m', (fold_left exp_add ps exp_empty). apply run_pairs_rounds. exists ps. split; [exact R|reflexivity].
  - destruct (rounds_total train test (map (skfold (map (fun c => filter (of_class c) l) (distinct_labels l)) K seed) (seq 0 K)) HT HS m) as (m' & ps & R). exists m', (fold_left exp_add ps exp_empty). apply run_pairs_rounds. exists ps. split; [exact R|reflexivity].
Qed.
Print Assumptions C56_total.
(** the contract is met by the usual provider *)
Theorem C56_contract_met : fold_provider (fun l K (_ : Z) => mod_fold l K) (fun l => l) /\ fold_provider (fun gs K (_ : Z) => mod_fold (concat gs) K) (@concat instance).
Proof.
  split; [apply (mod_fold_provider (fun _ l => l)); intros; apply Permutation_refl|]. intros gs K seed HK. exact (mod_fold_provider (fun _ l => l) (fun _ _ => Permutation_refl _) (concat gs) K seed HK).
Qed.
Print Assumptions C56_contract_met.
(** a model that stores what it was trained on and answers with its size *)
Definition count_train (_ : nat) (tr : ilist) : res nat := Ok (length tr).
Definition count_test (m : nat) (te : ilist) : res perf := Ok (PError (dofnat (10 * m + length te))).
Definition five_list : ilist := map (fun s => mkInst s [] None) ["a"; "b"; "a"; "c"; "a"].
Example C56_case : kfold_run count_train count_test (fun l K (_ : Z) => mod_fold l K) 2 1 five_list 0 = Ok (3, mkExp [PError (dofnat 23); PError (dofnat 32)] false false) /\
  skfold_run count_train count_test (fun gs K (_ : Z) => mod_fold (concat gs) K) 2 1 five_list 0 = Ok (3, mkExp [PError (dofnat 23); PError (dofnat 32)] false false).
Proof. split; vm_compute; reflexivity. Qed.

(** * C57: repeated cross validation *)
(** The R repetitions are R cross validations of the data, R * K results in all ... *)
Theorem C57_partial : forall M train test kfold, fold_provider kfold (fun l => l) ->
  forall R K seed l (m : M) m' e, 1 <= K -> mxkfold_run train test kfold R K seed l m = Ok (m', e) ->
  exists reps, length reps = R /\ Forall (fun fs => length fs = K /\ cross_validation fs l) reps /\ rounds train test m (concat reps) m' (results e) /\ length (results e) = R * K.
Proof.
  intros M train test kfold C R K seed l m m' e HK H. unfold mxkfold_run in H. rewrite (repeatM_ext _ _ _ _ (run_folds_pairs train test _ _)), repeat_pairs in H. apply run_pairs_rounds in H as (ps & Rd & ->). rewrite results_adds. cbn [results exp_empty app].
  set (fs := map (kfold l K seed) (seq 0 K)) in *. assert (L : length fs = K) by (unfold fs; rewrite map_length, seq_length; reflexivity). exists (repeat fs R). split; [apply repeat_length|]. split.
  - apply Forall_forall. intros x Hx. apply repeat_spec in Hx as ->. split; [exact L|apply C; exact HK].
  - split; [exact Rd|]. rewrite (rounds_len _ _ _ _ _ _ Rd). clear Rd. induction R as [|R IH]; [reflexivity|]. cbn [repeat concat]. rewrite app_length, IH, L. reflexivity.
Qed.
Print Assumptions C57_partial.
(** ... but all repetitions use the very same folds in the same order: a model whose training does not depend on its
    earlier state gives the same K results R times over.  For every fold provider, data set, K, R and seed. *)
Theorem C57_same_folds_refuted : forall M train test kfold R K seed l (m : M) m' e,
  (forall m1 m2 tr, train m1 tr = train m2 tr) -> mxkfold_run train test kfold R K seed l m = Ok (m', e) ->
  exists ps, length ps = K /\ results e = concat (repeat ps R) /\ (1 <= R -> exists m1, rounds train test m (map (kfold l K seed) (seq 0 K)) m1 ps).
Proof.
  intros M train test kfold R K seed l m m' e HI H. unfold mxkfold_run in H. rewrite (repeatM_ext _ _ _ _ (run_folds_pairs train test _ _)), repeat_pairs in H. apply run_pairs_rounds in H as (ps & Rd & ->). rewrite results_adds. cbn [results exp_empty app].
  set (fs := map (kfold l K seed) (seq 0 K)) in *. assert (L : length fs = K) by (unfold fs; rewrite map_length, seq_length; reflexivity). clearbody fs.
  assert (D : forall fs m m1 m' m1' ps ps', rounds train test m fs m' ps -> rounds train test m1 fs m1' ps' -> ps = ps').
  { clear - HI. induction fs as [|[tr te] fs IH]; intros m m1 m' m1' ps ps' A B; [inversion A; inversion B; reflexivity|].
    inversion A as [|? ? ? a1 p1 ? ? q1 T1 T2 T3]; inversion B as [|? ? ? b1 p2 ? ? q2 U1 U2 U3]; subst. rewrite (HI m m1 tr) in T1.
    assert (a1 = b1) as -> by congruence. f_equal; [congruence|eapply IH; eassumption]. }
  assert (S : forall fs fs' m m' ps, rounds train test m (fs ++ fs') m' ps -> exists m1 ps1 ps2, rounds train test m fs m1 ps1 /\ rounds train test m1 fs' m' ps2 /\ ps = ps1 ++ ps2).
  { clear. induction fs as [|[tr te] fs IH]; intros fs' m m' ps A; [exists m, [], ps; split; [constructor|split; [exact A|reflexivity]]|]. cbn [app] in A. inversion A; subst.
    match goal with X : rounds _ _ _ (fs ++ fs') _ _ |- _ => apply IH in X as (m2 & p1 & p2 & X1 & X2 & ->) end.
    eexists m2, (_ :: p1), p2. split; [econstructor; eassumption|]. split; [exact X2|reflexivity]. }
  destruct R as [|R].
  - cbn in Rd. inversion Rd; subst. exists (repeat (PError d0) (length fs)). split; [apply repeat_length|]. split; [reflexivity|]. intros F. inversion F.
  - cbn [repeat concat] in Rd. destruct (S _ _ _ _ _ Rd) as (m1 & p1 & p2 & A & B & ->). exists p1. split; [rewrite (rounds_len _ _ _ _ _ _ A); exact L|]. split; [|intros _; exists m1; exact A].
    cbn [repeat concat]. f_equal. clear Rd. revert m1 p2 A B. assert (G : forall R m0 m1 m2 p2, rounds train test m0 fs m2 p1 -> rounds train test m1 (concat (repeat fs R)) m' p2 -> p2 = concat (repeat p1 R)).
    { clear - D S. induction R as [|R IH]; intros m0 m1 m2 p2 A B; [cbn in B; inversion B; reflexivity|]. cbn [repeat concat] in *. destruct (S _ _ _ _ _ B) as (m3 & q3 & q4 & A' & B' & ->).
      assert (q3 = p1) as -> by (eapply D; eassumption). f_equal. eapply IH; eassumption. }
    intros m1 p2 A B. eapply G; eassumption.
Qed.
Print Assumptions C57_same_folds_refuted.
(** the stratified variant: R times the same cross validation *)
Theorem C57_stratified_partial : forall M train test skfold, fold_provider skfold (@concat instance) ->
  forall R K seed l (m : M) m' e, 1 <= K -> smxkfold_run train test skfold R K seed l m = Ok (m', e) ->
  exists fs, length fs = K /\ cross_validation fs l /\ rounds train test m (concat (repeat fs R)) m' (results e) /\ length (results e) = R * K.
Proof.
  intros M train test skfold C R K seed l m m' e HK H. unfold smxkfold_run in H. destruct (part_class_spec l) as [E P]. set (gs := map (fun c => filter (of_class c) l) (distinct_labels l)) in *.
  rewrite (repeatM_ext _ _ (run_pairs train test (map (skfold gs K seed) (seq 0 K)))) in H by (intros st; rewrite E; cbn [bind]; apply run_folds_pairs).
  rewrite repeat_pairs in H. apply run_pairs_rounds in H as (ps & Rd & ->). rewrite results_adds. cbn [results exp_empty app].
  assert (L : length (map (skfold gs K seed) (seq 0 K)) = K) by (rewrite map_length, seq_length; reflexivity).
  exists (map (skfold gs K seed) (seq 0 K)). split; [exact L|]. split; [|split; [exact Rd|]].
  - destruct (C gs K seed HK) as [A B]. split; [eapply Forall_impl; [|exact A]; cbv beta; intros f Hf; rewrite Hf; exact P|rewrite B; exact P].
  - rewrite (rounds_len _ _ _ _ _ _ Rd). clear - L. induction R as [|R IH]; [reflexivity|]. cbn [repeat concat]. rewrite app_length, L, IH. reflexivity.
Qed.
Print Assumptions C57_stratified_partial.
Example C57_case : exists l K seed, mxkfold_run count_train count_test (fun l K (_ : Z) => mod_fold l K) 3 K seed l 0 = Ok (3, mkExp (concat (repeat [PError (dofnat 23); PError (dofnat 32)] 3)) false false).
Proof. exists five_list, 2, 1%Z. vm_compute. reflexivity. Qed.

(** * C58: separate test set *)
(** [held] is tested in every round; in every round the training data, the fold left out and [held] together are the
    data, so no training set shares an occurrence with [held]. *)
Definition separate (held : ilist) (fs : list (ilist * ilist)) (l : ilist) : Prop :=
  Forall (fun f => snd f = held /\ exists left_out, Permutation (fst f ++ left_out ++ held) l) fs.
Lemma hold_out_spec perm seed l : Permutation (perm seed (length l)) (seq 0 (length l)) ->
  exists g0 g1, hold_out perm seed l = Ok (g0, g1) /\ Permutation (g0 ++ g1) l /\ length g0 = Nat.min (length l) (ceiln (qofn (length l) * (1 # 4))).
Proof. intros P. destruct (C26_random_split perm (1 # 4) seed l P) as (l' & g0 & g1 & E & P' & A & L). exists g0, g1. unfold hold_out. rewrite E. cbn. split; [reflexivity|]. rewrite A. split; assumption. Qed.
Lemma shold_out_spec rarr seed l : Permutation (rarr (length l) seed) (seq 0 (length l)) -> exists g0 g1, shold_out rarr seed l = Ok (g0, g1) /\ Permutation (g0 ++ g1) l.
Proof. intros P. destruct (C27_class_proportions_partial rarr (1 # 4) seed l P) as (g0 & g1 & E & P' & _). exists g0, g1. unfold shold_out. rewrite E. cbn. split; [reflexivity|exact P']. Qed.
Lemma separate_folds (cv : nat -> ilist * ilist) K g0 g1 gl l : Permutation gl g1 -> cross_validation (map cv (seq 0 K)) gl -> Permutation (g0 ++ g1) l ->
  separate g0 (map (fun i => (fst (cv i), g0)) (seq 0 K)) l.
Proof.
  intros P1 [A _] P. apply Forall_forall. intros f Hf. apply in_map_iff in Hf as (i & <- & Hi). cbn [fst snd]. split; [reflexivity|]. exists (snd (cv i)). rewrite Forall_forall in A.
  specialize (A (cv i) (in_map _ _ _ Hi)). rewrite app_assoc, A, P1. rewrite Permutation_app_comm. exact P.
Qed.
Lemma separate_repeat held fs l R : separate held fs l -> separate held (concat (repeat fs R)) l.
Proof. intros H. induction R as [|R IH]; [constructor|]. cbn [repeat concat]. apply Forall_app. split; assumption. Qed.
Lemma repeat_total_len {A} (fs : list A) K R : length fs = K -> length (concat (repeat fs R)) = R * K.
Proof. intros L. induction R as [|R IH]; [reflexivity|]. cbn [repeat concat]. rewrite app_length, IH, L. reflexivity. Qed.
Theorem C58_separate : forall M train test kfold perm, fold_provider kfold (fun l => l) ->
  forall R K seed l (m : M) m' e, 1 <= K -> Permutation (perm seed (length l)) (seq 0 (length l)) -> mxkfold_sep_run train test kfold perm R K seed l m = Ok (m', e) ->
  exists held fs, length held = Nat.min (length l) (ceiln (qofn (length l) * (1 # 4))) /\ length fs = R * K /\ separate held fs l /\ rounds train test m fs m' (results e).
Proof.
  intros M train test kfold perm C R K seed l m m' e HK P H. destruct (hold_out_spec perm seed l P) as (g0 & g1 & E & PG & L). unfold mxkfold_sep_run in H. rewrite E in H. cbn [bind fst snd] in H.
  rewrite (repeatM_ext _ _ _ _ (run_separate_pairs train test _ _ _)), repeat_pairs in H. apply run_pairs_rounds in H as (ps & Rd & ->). rewrite results_adds. cbn [results exp_empty app].
  eexists g0, _. split; [exact L|]. split; [|split; [|exact Rd]].
  - apply repeat_total_len. rewrite map_length, seq_length. reflexivity.
  - apply separate_repeat. eapply separate_folds; [apply Permutation_refl|apply C; exact HK|exact PG].
Qed.
Print Assumptions C58_separate.
Theorem C58_stratified : forall M train test skfold rarr, fold_provider skfold (@concat instance) ->
  forall R K seed l (m : M) m' e, 1 <= K -> Permutation (rarr (length l) seed) (seq 0 (length l)) -> smxkfold_sep_run train test skfold rarr R K seed l m = Ok (m', e) ->
  exists held fs, length fs = R * K /\ separate held fs l /\ rounds train test m fs m' (results e).
Proof.
  intros M train test skfold rarr C R K seed l m m' e HK P H. destruct (shold_out_spec rarr seed l P) as (g0 & g1 & E & PG). unfold smxkfold_sep_run in H. rewrite E in H. cbn [bind fst snd] in H.
  destruct (part_class_spec g1) as [Ec Pc]. set (gs := map (fun c => filter (of_class c) g1) (distinct_labels g1)) in *.
  rewrite (repeatM_ext _ _ (run_pairs train test (map (fun i => (fst (skfold gs K seed i), g0)) (seq 0 K)))) in H by (intros st; rewrite Ec; cbn [bind]; apply run_separate_pairs).
  rewrite repeat_pairs in H. apply run_pairs_rounds in H as (ps & Rd & ->). rewrite results_adds. cbn [results exp_empty app].
  eexists g0, _. split; [|split; [|exact Rd]].
  - apply repeat_total_len. rewrite map_length, seq_length. reflexivity.
  - apply separate_repeat. eapply separate_folds; [exact Pc|apply C; exact HK|exact PG].
Qed.
Print Assumptions C58_stratified.
(** the single-repetition variants are the case R = 1 *)
Theorem C58_once : forall M train test kfold skfold perm rarr K seed l (m : M),
  kfold_sep_run train test kfold perm K seed l m = mxkfold_sep_run train test kfold perm 1 K seed l m /\
  skfold_sep_run train test skfold rarr K seed l m = smxkfold_sep_run train test skfold rarr 1 K seed l m.
Proof.
  intros. unfold kfold_sep_run, mxkfold_sep_run, skfold_sep_run, smxkfold_sep_run, repeatM. cbn [seq foldM]. split.
  - destruct (hold_out perm seed l) as [h| | |]; try reflexivity. cbn [bind]. match goal with |- ?a = _ => destruct a; reflexivity end.
  - destruct (shold_out rarr seed l) as [h| | |]; try reflexivity. cbn [bind]. match goal with |- ?a = _ => destruct a; reflexivity end.
Qed.
Print Assumptions C58_once.
Example C58_case : mxkfold_sep_run count_train count_test (fun l K (_ : Z) => mod_fold l K) (fun _ n => seq 0 n) 2 2 1 five_list 0 = Ok (2, mkExp [PError (dofnat 12); PError (dofnat 22); PError (dofnat 12); PError (dofnat 22)] false false).
Proof. vm_compute. reflexivity. Qed.

(** * C59: bootstrap runs *)
Theorem C59_bootstrap : forall M train test bootstrap, (forall l s, resample (bootstrap l s) l) ->
  forall n seed l (m : M) m' e, bootstrap_run train test bootstrap n seed l m = Ok (m', e) ->
  exists seeds, length seeds = n /\ NoDup seeds /\ rounds train test m (map (fun s => (bootstrap l s, l)) seeds) m' (results e) /\ length (results e) = n /\
    Forall (fun s => resample (bootstrap l s) l) seeds.
Proof.
  intros M train test bootstrap C n seed l m m' e H. set (seeds := map (fun i => (Z.of_nat i + seed)%Z) (seq 0 n)). exists seeds.
  assert (H' : run_pairs train test (map (fun s => (bootstrap l s, l)) seeds) (m, exp_empty) = Ok (m', e)).
  { rewrite <- H. unfold run_pairs, bootstrap_run, seeds. rewrite !foldM_map. reflexivity. }
  apply run_pairs_rounds in H' as (ps & Rd & ->). rewrite results_adds. cbn [results exp_empty app].
  assert (L : length seeds = n) by (unfold seeds; rewrite map_length, seq_length; reflexivity). split; [exact L|]. split.
  - unfold seeds. apply FinFun.Injective_map_NoDup; [intros i j E; lia|apply seq_NoDup].
  - split; [exact Rd|]. split; [rewrite (rounds_len _ _ _ _ _ _ Rd), map_length; exact L|]. apply Forall_forall. intros s _. apply C.
Qed.
Print Assumptions C59_bootstrap.
Theorem C59_single : forall M train test kfold K seed l (m : M) m' p, fold_provider kfold (fun l => l) -> 1 <= K -> singlek_run train test kfold K seed l m = Ok (m', p) ->
  exists tr te, Permutation (tr ++ te) l /\ rounds train test m [(tr, te)] m' [p].
Proof.
  intros M train test kfold K seed l m m' p C HK H. unfold singlek_run, single_run in H. exists (fst (kfold l K seed 0)), (snd (kfold l K seed 0)). split.
  - destruct (C l K seed HK) as [A _]. rewrite Forall_forall in A. apply A. apply in_map. apply in_seq. lia.
  - destruct (train m (fst (kfold l K seed 0))) as [m1| | |] eqn:E1; try discriminate H. cbn [bind] in H. destruct (test m1 (snd (kfold l K seed 0))) as [q| | |] eqn:E2; try discriminate H. cbn [bind] in H. injection H as <- <-.
    econstructor; [exact E1|exact E2|constructor].
Qed.
Print Assumptions C59_single.
Example C59_case : (forall l s, resample ((fun (l : ilist) (_ : Z) => rev l) l s) l) /\ bootstrap_run count_train count_test (fun l _ => rev l) 3 7 five_list 0 = Ok (5, mkExp (repeat (PError (dofnat 55)) 3) false false).
Proof. split; [intros l s; split; [apply rev_length|intros x Hx; apply in_rev; exact Hx]|vm_compute; reflexivity]. Qed.
