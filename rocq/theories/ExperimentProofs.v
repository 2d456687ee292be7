(** Proofs about experiments. *)
From Coq Require Import String ZArith QArith Bool Lia Permutation List.
From Verif Require Import Base Spec BaseLemmas AttrModel DataSetProofs InstanceListModel ListSpec ListProofs PartitionModel PartitionProofs PerformanceModel ExperimentModel ExperimentSpec.
Import ListNotations.
Local Open Scope list_scope.
Local Open Scope nat_scope.

Lemma results_adds ps e : results (fold_left exp_add ps e) = results e ++ ps.
Proof. revert e. induction ps as [|p ps IH]; intros e; [symmetry; apply app_nil_r|]. cbn [fold_left]. rewrite IH. cbn. rewrite <- app_assoc. reflexivity. Qed.
Section R.
  Context {M : Type} (train : M -> ilist -> res M) (test : M -> ilist -> res perf).
  Notation rounds := (rounds train test).
  (** every loop of the experiments is this one, over the list of its (training, test) pairs *)
  Definition run_pairs (fs : list (ilist * ilist)) (st : M * experiment) : res (M * experiment) :=
    foldM (fun st f => do m <- train (fst st) (fst f); do p <- test m (snd f); Ok (m, exp_add (snd st) p)) fs st.
  Lemma run_pairs_rounds fs : forall m e m' e', run_pairs fs (m, e) = Ok (m', e') <-> exists ps, rounds m fs m' ps /\ e' = fold_left exp_add ps e.
  Proof.
    induction fs as [|[tr te] fs IH]; intros m e m' e'.
    - cbn. split.
      + intros H. injection H as <- <-. exists []. split; [constructor|reflexivity].
      + intros (ps & H & ->). inversion H; subst. reflexivity.
    - unfold run_pairs. cbn [foldM fst snd]. split.
      + intros H. destruct (train m tr) as [m1| | |] eqn:E1; try discriminate H. cbn [bind] in H. destruct (test m1 te) as [p| | |] eqn:E2; try discriminate H. cbn [bind] in H.
        apply IH in H as (ps & R & ->). exists (p :: ps). split; [econstructor; eassumption|reflexivity].
      + intros (ps & H & ->). inversion H as [|? ? ? m1 p ? ? ps' T1 T2 R']; subst. rewrite T1. cbn [bind]. rewrite T2. cbn [bind]. apply IH. eexists. split; [eassumption|reflexivity].
  Qed.
  Lemma rounds_len m fs m' ps : rounds m fs m' ps -> length ps = length fs.
  Proof. induction 1; cbn; congruence. Qed.
  Lemma rounds_app m fs m' ps fs' m'' ps' : rounds m fs m' ps -> rounds m' fs' m'' ps' -> rounds m (fs ++ fs') m'' (ps ++ ps').
  Proof. intros H H'. induction H; [exact H'|]. cbn. econstructor; eauto. Qed.
  Lemma run_folds_pairs cv K st : run_folds train test cv K st = run_pairs (map cv (seq 0 K)) st.
  Proof. unfold run_folds, run_pairs. rewrite foldM_map. reflexivity. Qed.
  Lemma run_separate_pairs cv K te st : run_separate train test cv K te st = run_pairs (map (fun i => (fst (cv i), te)) (seq 0 K)) st.
  Proof. unfold run_separate, run_pairs. rewrite foldM_map. reflexivity. Qed.
  Lemma run_pairs_app fs fs' st : run_pairs (fs ++ fs') st = bind (run_pairs fs st) (run_pairs fs').
  Proof.
    unfold run_pairs. revert st. induction fs as [|f fs IH]; intros st; [reflexivity|]. cbn [app foldM].
    match goal with |- bind ?a _ = _ => destruct a as [s| | |] end; cbn [bind]; [apply IH|reflexivity..].
  Qed.
  Lemma foldM_const {S} (f : S -> res S) n : forall s a b, foldM (fun s _ => f s) (seq a n) s = foldM (fun s _ => f s) (seq b n) s.
  Proof. induction n as [|n IH]; intros s a b; [reflexivity|]. cbn [seq foldM]. destruct (f s); cbn [bind]; [apply IH|reflexivity..]. Qed.
  Lemma repeat_pairs fs n : forall st, repeatM n (run_pairs fs) st = run_pairs (concat (repeat fs n)) st.
  Proof.
    induction n as [|n IH]; intros st; [reflexivity|]. cbn [repeat concat]. rewrite run_pairs_app. unfold repeatM in *. cbn [seq foldM].
    destruct (run_pairs fs st) as [s| | |]; cbn [bind]; [rewrite (foldM_const _ _ _ 1 0); apply IH|reflexivity..].
  Qed.
  Lemma repeatM_ext {S} n (f g : S -> res S) s : (forall s, f s = g s) -> repeatM n f s = repeatM n g s.
  Proof. intros H. unfold repeatM. apply foldM_ext. intros; apply H. Qed.
  Lemma rounds_total fs : (forall m tr, exists m', train m tr = Ok m') -> (forall m te, exists p, test m te = Ok p) -> forall m, exists m' ps, rounds m fs m' ps.
  Proof.
    intros HT HS. induction fs as [|[tr te] fs IH]; intros m; [exists m, []; constructor|]. destruct (HT m tr) as [m1 E1], (HS m1 te) as [p E2], (IH m1) as (m' & ps & R).
    exists m', (p :: ps). econstructor; eassumption.
  Qed.
End R.
(** A fold provider: instance [i] of the shuffled data goes to fold [i mod K]. *)
Definition mod_fold (l : ilist) (K : nat) (i : nat) : ilist * ilist :=
  let ps := combine (map (fun j => j mod K) (seq 0 (length l))) l in
  (map snd (filter (fun p => negb (fst p =? i)) ps), map snd (filter (fun p => fst p =? i) ps)).
Lemma mod_fold_provider (sh : Z -> ilist -> ilist) : (forall s l, Permutation (sh s l) l) -> fold_provider (fun l K seed => mod_fold (sh seed l) K) (fun l => l).
Proof.
  intros P l K seed HK. assert (G : cross_validation (map (mod_fold (sh seed l) K) (seq 0 K)) (sh seed l)).
  { generalize (sh seed l). clear l. intros l. set (ps := combine (map (fun j => j mod K) (seq 0 (length l))) l).
    assert (LL : length (map (fun j => j mod K) (seq 0 (length l))) = length l) by (rewrite map_length, seq_length; reflexivity).
    assert (Es : map snd ps = l) by (unfold ps; revert LL; generalize (map (fun j => j mod K) (seq 0 (length l))); intros vs; revert vs; induction l as [|x l IH]; intros [|v vs] LL; try discriminate; [reflexivity|]; cbn; f_equal; apply IH; injection LL as LL; exact LL).
    split.
    - apply Forall_forall. intros f Hf. apply in_map_iff in Hf as (i & <- & _). unfold mod_fold. fold ps. cbn [fst snd]. rewrite <- map_app. rewrite <- Es at 1. apply Permutation_map.
      clear. induction ps as [|p ps IH]; [constructor|]. cbn [filter]. destruct (fst p =? i); cbn [negb].
      + etransitivity; [symmetry; apply Permutation_middle|]. constructor. exact IH.
      + cbn [app]. constructor. exact IH.
    - rewrite flat_map_concat_map, map_map. unfold mod_fold. fold ps. cbn [snd]. etransitivity; [apply groups_perm|rewrite Es; apply Permutation_refl].
      apply Forall_forall. intros [v x] Hv. cbn. apply in_combine_l in Hv. apply in_map_iff in Hv as (j & <- & _). apply Nat.mod_upper_bound. lia. }
  destruct G as [G1 G2]. split.
  - eapply Forall_impl; [|exact G1]. cbv beta. intros f Hf. etransitivity; [exact Hf|apply P].
  - etransitivity; [exact G2|apply P].
Qed.
