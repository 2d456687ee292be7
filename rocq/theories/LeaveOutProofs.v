(** Proofs for C157. *)
From Coq Require Import String ZArith QArith Bool Lia Lqa Permutation List.
From Verif Require Import Base Spec BaseLemmas DblLemmas AttrModel DataSetModel InstanceListModel PartitionModel PerformanceModel DistanceModel GaussianModel
  TreeModel TreeSpec TreeGrowProofs EnsembleModel ListSpec ListProofs ExperimentModel ExperimentSpec ExperimentProofs ExperimentProps PartitionProofs StatSpec PerformanceSpec PerformanceProofs TestPartsProofs PerformanceProps LibModel LibSpec LeaveOutSpec.
Import ListNotations.
Local Open Scope string_scope.
Local Open Scope list_scope.
Local Open Scope nat_scope.

(** * Folds of one instance *)
Lemma all_ones {A} : forall (ls : list (list A)), Forall (fun l => l <> []) ls -> length (concat ls) = length ls -> Forall (fun l => length l = 1) ls.
Proof.
  assert (G : forall ls : list (list A), Forall (fun l => l <> []) ls -> length ls <= length (concat ls)) by (induction 1 as [|l ls N _ IH]; [cbn; lia|]; cbn [concat length]; rewrite app_length; destruct l; [congruence|cbn [length]; lia]).
  induction ls as [|l ls IH]; intros N E; [constructor|]. inversion N as [|? ? Nl Nls]; subst. cbn [concat length] in E. rewrite app_length in E. pose proof (G ls Nls). destruct l as [|x l]; [congruence|]. cbn [length] in E. constructor; [cbn; lia|apply IH; [exact Nls|cbn in E; lia]].
Qed.
Definition one_left_out (f : ilist * ilist) (l : ilist) : Prop := exists x, snd f = [x] /\ In x l /\ Permutation (x :: fst f) l.
Lemma folds_of_one kfold l seed : fold_provider kfold (fun l => l) -> no_empty_fold kfold -> l <> [] ->
  let fs := map (kfold l (length l) seed) (seq 0 (length l)) in Forall (fun f => one_left_out f l) fs /\ Permutation (flat_map snd fs) l.
Proof.
  intros HF HN Hl fs. destruct (HF l (length l) seed) as [P1 P2]; [destruct l; [congruence|cbn; lia]|]. fold fs in P1, P2. split; [|exact P2].
  assert (NE : Forall (fun l => l <> []) (map snd fs)). { apply Forall_map, Forall_forall. intros f Hf. apply in_map_iff in Hf as (i & <- & Hi). apply in_seq in Hi. apply HN; lia. }
  assert (LE : length (concat (map snd fs)) = length (map snd fs)). { rewrite <- flat_map_concat_map. etransitivity; [exact (Permutation_length P2)|]. rewrite map_length. unfold fs. rewrite map_length, seq_length. reflexivity. }
  pose proof (all_ones _ NE LE) as H1. rewrite Forall_map in H1. rewrite Forall_forall in *. intros f Hf. specialize (H1 f Hf). specialize (P1 f Hf). destruct f as [tr te]. cbn [fst snd] in *. destruct te as [|x [|y te]]; try discriminate H1.
  exists x. split; [reflexivity|]. assert (P : Permutation (x :: tr) l) by (rewrite <- P1; apply Permutation_cons_append). split; [apply (Permutation_in _ P); left; reflexivity|exact P].
Qed.
(** testing on one instance *)
Lemma test_one predict x c : predict x = Ok c -> exists p a, test_model predict [x] = Ok p /\ accuracy_of p = Ok (Fin a) /\ (a == if String.eqb (label x) c then 1 else 0)%Q.
Proof.
  intros E. assert (A : TestPartsProofs.answers predict [x] [(label x, c)]) by (constructor; [split; [reflexivity|exact E]|constructor]).
  destruct (accuracy_value (union_possible [x]) [(label x, c)]) as (a & Ea & Ha); [discriminate|]. eexists. exists a. split; [apply test_answers; eexists; split; [exact A|reflexivity]|].
  split; [cbn [new_detail accuracy_of]; rewrite Ea; reflexivity|]. assert (Q1 : (qofn 1 == 1)%Q) by reflexivity. assert (Q0 : (qofn 0 == 0)%Q) by reflexivity. unfold correct_count in Ha. cbn [filter fst snd length] in Ha. destruct (String.eqb (label x) c); cbn [length] in Ha; rewrite ?Q1, ?Q0, Qmult_1_r in Ha; exact Ha.
Qed.
(** * The rounds *)
Lemma dummy_rounds E p l : Forall plain l -> forall fs old, Forall (fun f => one_left_out f l) fs ->
  exists c' ps, rounds (train_copy E (Some p)) (test E) (DummyC old) fs c' ps /\ Forall2 (scored l) (flat_map snd fs) ps.
Proof.
  intros HP. induction fs as [|[tr te] fs IH]; intros old F; [exists (DummyC old), []; split; constructor|].
  inversion F as [|? ? (x & Ex & Ix & Px) F']; subst. cbn [fst snd] in *. subst te. destruct (IH (class_distribution tr) F') as (c' & ps & R & S).
  rewrite Forall_forall in HP. assert (Ep : predict E (DummyC (class_distribution tr)) x = Ok (get_maximum (map label tr))).
  { cbn [predict]. unfold dummy_predict, isComposite. rewrite (HP x Ix). rewrite class_distribution_cofl. reflexivity. }
  destruct (test_one _ x _ Ep) as (q & a & Eq & Ea & Va). exists c', (q :: ps). split.
  - econstructor; [reflexivity| |exact R]. exact Eq.
  - cbn [flat_map snd app]. constructor; [|exact S]. exists tr, (get_maximum (map label tr)), a. split; [exact Px|]. split; [|split; [exact Ea|exact Va]].
    destruct tr as [|y tr]; [split; [intros N; congruence|intros c; apply Nat.le_0_l]|]. destruct (get_maximum_spec (map label (y :: tr))) as [G1 G2]; [discriminate|]. split; [intros _; exact G1|exact G2].
Qed.
Lemma loo E kfold skfold sample old p d : fold_provider kfold (fun l => l) -> no_empty_fold kfold -> insts d <> [] -> Forall plain (insts d) ->
  exists c' xs ps, execute E kfold skfold sample (KFold (length (insts d))) (mkExper (DummyC old) (Some p) d) = Ok (c', exp_of ps) /\ Permutation xs (insts d) /\ Forall2 (scored (insts d)) xs ps.
Proof.
  intros HF HN Hl HP. destruct (folds_of_one kfold (insts d) (get_seed p) HF HN Hl) as [F P]. destruct (dummy_rounds E p _ HP _ old F) as (c' & ps & R & S).
  exists c', (flat_map snd (map (kfold (insts d) (length (insts d)) (get_seed p)) (seq 0 (length (insts d))))), ps. split; [|split; assumption].
  unfold execute. cbn [x_param x_model x_data]. rewrite andb_false_r. unfold kfold_run. rewrite run_folds_pairs. apply run_pairs_rounds. exists ps. split; [exact R|reflexivity].
Qed.
(** * The mean *)
Lemma mean_of l xs ps (w : instance -> Q) : xs <> [] -> Permutation xs l -> (forall x q, In x l -> scored l x q -> exists a, accuracy_of q = Ok (Fin a) /\ (a == w x)%Q) -> Forall2 (scored l) xs ps ->
  exists m, exp_mean_class (exp_of ps) = Ok (Some (PClass (Fin m) (Fin (1 - m)))) /\ (m == qsum (map w l) / qofn (length l))%Q.
Proof.
  intros Hx P W F. assert (A : exists accs, Forall2 (fun q a => accuracy_of q = Ok (Fin a)) ps accs /\ Forall2 (fun x a => a == w x)%Q xs accs).
  { assert (I : incl xs l) by (intros x Ix; apply (Permutation_in _ P Ix)). clear P Hx. induction F as [|x q xs ps S F IH]; [exists []; split; constructor|].
    destruct (W x q (I x (or_introl eq_refl)) S) as (a & Ea & Va). destruct IH as (accs & F1 & F2); [intros y Hy; apply I; right; exact Hy|]. exists (a :: accs). split; constructor; assumption. }
  destruct A as (accs & F1 & F2). destruct (C35_mean_accuracy ps accs) as (m & Em & Vm); [intros ->; inversion F; congruence|exact F1|]. exists m. split; [exact Em|]. rewrite Vm. unfold qmean.
  assert (L : length accs = length l) by (rewrite <- (Permutation_length P); clear - F2; induction F2; cbn; congruence). rewrite L. assert (S : (qsum accs == qsum (map w xs))%Q).
  { clear - F2. induction F2 as [|x a xs accs V F IH]; [reflexivity|]. cbn. rewrite V, IH. reflexivity. }
  rewrite S, (qsum_perm _ _ (Permutation_map w P)). reflexivity.
Qed.
Lemma occ_rest x rest l : Permutation (x :: rest) l -> forall c, occ (map label l) c = (if string_dec (label x) c then 1 else 0) + occ (map label rest) c.
Proof.
  intros P c. unfold occ. pose proof (proj1 (Permutation_count_occ string_dec _ _) (Permutation_map label P) c) as Q. rewrite <- Q. cbn [map count_occ]. destruct (string_dec (label x) c); reflexivity.
Qed.
