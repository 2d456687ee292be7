(** Training and asking the library's classifiers on clean numeric data: all classifiers together, and experiments. *)
From Coq Require Import String ZArith QArith Bool Lia Permutation Arith List.
From Verif Require Import Base Spec BaseLemmas AttrModel DataSetModel InstanceListModel ListProofs PartitionModel PartitionProofs PerformanceModel
  GaussianModel GaussianProofs TreeModel EnsembleModel EnsembleProps NetModel SoftModel SvmModel ExperimentModel ExperimentSpec ExperimentProofs ExperimentProps LibModel LibSpec ReadySpec ReadyProofs.
Import ListNotations.
Local Open Scope list_scope.
Local Open Scope nat_scope.

Lemma init_first (l : ilist) : l <> [] -> exists x, atn l 0 = Ok x.
Proof. destruct l; [congruence|]. intros _. eexists. reflexivity. Qed.
Lemma train_ready E d L c l p : sound E -> clean d l -> incl (map label l) L -> steady E d L c -> suits d l c p -> length l < e_fuel E ->
  exists c', train E c l (Some p) = Ok (c', l) /\ fresh c' = fresh c /\ ready E d L c' /\ (steady E d L c' \/ exists m, c' = DeepC m).
Proof.
  intros HE C HL Hs Hp Hf. pose proof (proj1 C) as N.
  destruct c as [k|k|m|m|m|m|m|t|t|f|f|m|m|m|m|m|m]; cbn [suits] in Hp; cbn [train]; try contradiction.
  - destruct Hp as (s & m & n & -> & Hn & Hm). cbn. eexists. split; [reflexivity|]. split; [reflexivity|]. split; [|left; exact I]. apply knn_ready; assumption.
  - destruct Hp as (s & m & Hp & Hm). destruct (kmeans_ready E d L (match k with Some m => fst m | None => mkKM [] [] end) l m C HL Hm) as (km & -> & R).
    cbn [bind]. destruct Hp as [->|(n & ->)]; cbn; (eexists; split; [reflexivity|]; split; [reflexivity|]; split; [exact R|left; exact I]).
  - destruct (lda_ready E HE d L m l C HL) as (m' & -> & R). cbn [bind]. eexists. split; [reflexivity|]. split; [reflexivity|]. split; [exact R|left; exact I].
  - destruct (qda_ready E HE d L m l C HL) as (m' & -> & R). cbn [bind]. eexists. split; [reflexivity|]. split; [reflexivity|]. split; [exact R|left; exact I].
  - destruct (bayes_ready E HE d L m l C HL Hs) as (m' & -> & S' & R). cbn [bind]. eexists. split; [reflexivity|]. split; [reflexivity|]. split; [exact R|left; exact S'].
  - eexists. split; [reflexivity|]. split; [reflexivity|]. split; [|left; exact I]. intros q Hq. cbn [predict]. eexists. split; [reflexivity|].
    apply HL. apply (C88_dummy (e_max_item E) m l q N). exact (clean_plain d q Hq).
  - eexists. split; [reflexivity|]. split; [reflexivity|]. split; [|left; exact I]. intros q Hq. cbn [predict].
    destruct (proj1 (C89_random_partial (e_random E (random_train m l) q) m l q) (clean_plain d q Hq) N) as (y & Ey & Hy). exists y. split; [exact Ey|apply HL, Hy].
  - assert (exists s b r, p = PC45 s b r /\ (b = true -> exists q, r = Fin q /\ exists c, In c (map label l) /\ leaves_one q (occ (map label l) c))) as (s & b & r & -> & Hb).
    { destruct Hp as [(s & r & ->)|(s & q & -> & H)]; [exists s, false, r; split; [reflexivity|discriminate]|]. exists s, true, (Fin q). split; [reflexivity|]. intros _. exists q. split; [reflexivity|exact H]. }
    cbn [as_c45 deref_param bind fst snd]. destruct (tree_ready E HE d L b r s l C HL) as (t' & -> & A); [lia|exact Hb|]. cbn [bind]. eexists. split; [reflexivity|]. split; [reflexivity|]. split; [exact A|left; exact I].
  - destruct (stump_ready E HE d L l C HL) as (t' & -> & A); [lia|]. cbn [bind]. eexists. split; [reflexivity|]. split; [reflexivity|]. split; [exact A|left; exact I].
  - destruct Hp as (s & n & Hp & Hn). destruct (ensemble_ready E HE d L None (Z.to_nat n) f l C HL) as (f' & Ef & A & Ne); [lia|exact Hs|lia|].
    assert (as_bagging (Some p) = Ok (s, n)) as -> by (destruct Hp as [->|(k & ->)]; reflexivity). cbn [bind fst snd]. rewrite Ef. cbn [bind]. eexists. split; [reflexivity|]. split; [reflexivity|].
    split; [|left; exact A]. intros q Hq. exact (forest_answers E d L f' q A Ne Hq).
  - destruct Hp as (s & n & k & -> & Hn). destruct (ensemble_ready E HE d L (Some (Z.to_nat k, s)) (Z.to_nat n) f l C HL) as (f' & Ef & A & Ne); [lia|exact Hs|lia|].
    cbn [as_forest deref_param bind]. rewrite Ef. cbn [bind]. eexists. split; [reflexivity|]. split; [reflexivity|].
    split; [|left; exact A]. intros q Hq. exact (forest_answers E d L f' q A Ne Hq).
  - destruct Hp as (s & f & q & Hp & Hq). rewrite (clean_init d l C). cbn [bind].
    assert (as_linear (Some p) = Ok (net_of s f [] NetModel.SIGMOID)) as -> by (destruct Hp as [->|[(h & a & ->)|[(hs & a & ->)|(a & ->)]]]; reflexivity). cbn [bind].
    destruct (linear_ready E HE d L m l (net_of s f [] NetModel.SIGMOID) q C HL Hq) as (m' & -> & R). cbn [bind]. eexists. split; [reflexivity|]. split; [reflexivity|]. split; [exact R|left; exact I].
  - destruct Hp as (s & f & h & a & q & -> & Hq). rewrite (clean_init d l C). cbn [bind as_mlp deref_param].
    destruct (mlp_ready E HE d L m l (net_of s f [Z.to_nat h] a) q (Z.to_nat h) [] C HL Hq eq_refl) as (m' & -> & R). cbn [bind]. eexists. split; [reflexivity|]. split; [reflexivity|]. split; [exact R|left; exact I].
  - destruct Hp as (s & f & hs & a & q & -> & Hq & Hh). rewrite (clean_init d l C). cbn [bind as_deep deref_param].
    destruct (deep_ready E HE d L m l (net_of s f (map Z.to_nat hs) a) q C HL Hq) as (m' & -> & R); [destruct hs; [congruence|discriminate]|exact Hs|]. cbn [bind]. eexists. split; [reflexivity|]. split; [reflexivity|].
    split; [exact R|right; eexists; reflexivity].
  - destruct Hp as (s & f & a & q & -> & Hq & Ho & Hi). cbn [deref_param bind get_seed as_linear as_soft sp_seed].
    assert (exists r, new_node (e_rand E s) l 0 = Ok r) as (r & ->). { unfold new_node. destruct (init_first l N) as (x & ->). eexists. reflexivity. }
    cbn [bind]. destruct (soft_ready E HE d L l (mkSPar s (f_decay f) (f_ratio f) (Z.to_nat (f_epoch f)) a) q C HL Hq Hf Hi Ho) as (m' & Em & R). cbn [sp_seed] in Em. rewrite Em. cbn [bind].
    eexists. split; [reflexivity|]. split; [reflexivity|]. split; [exact R|left; exact I].
Qed.
Lemma suits_class d l c c' p : fresh c' = fresh c -> suits d l c p -> suits d l c' p.
Proof. destruct c, c'; cbn; intros H; try discriminate H; auto. Qed.
Lemma test_ready E d L c l : (forall m, c <> AutoC m) -> ready E d L c -> Forall (clean_inst d) l -> exists p, test E c l = Ok p.
Proof.
  intros Ha R F. assert (exists p, test_model (predict E c) l = Ok p) as H.
  { unfold test_model. destruct (foldM_exists (fun m x => do p <- predict E c x; Ok (classify m (label x) p)) l) with (s := cm_empty (union_possible l)) as (m & ->); [|eexists; reflexivity].
    intros s x Hx. rewrite Forall_forall in F. destruct (R x (F x Hx)) as (y & -> & _). eexists. reflexivity. }
  destruct c; try exact H. exfalso. eapply Ha. reflexivity.
Qed.

(** * Experiments *)
Section Runs.
  Context (E : env) (HE : sound E) (d : nat) (L : list string) (p : param) (c0 : classifier) (Hd : forall m, c0 <> DeepC m).
  Definition usable (l : ilist) : Prop := clean d l /\ incl (map label l) L /\ suits d l c0 p /\ length l < e_fuel E.
  Definition going (c : classifier) : Prop := fresh c = fresh c0 /\ steady E d L c.
  Lemma round_ok c tr te : going c -> usable tr -> Forall (clean_inst d) te -> exists c' q, train_copy E (Some p) c tr = Ok c' /\ test E c' te = Ok q /\ going c'.
  Proof.
    intros (G1 & G2) (C & HL & Hs & Hf) Ht. destruct (train_ready E d L c tr p HE C HL G2 (suits_class d tr c0 c p G1 Hs) Hf) as (c' & Et & Fc & R & St).
    assert (fresh c' = fresh c0) as F0 by congruence.
    destruct (test_ready E d L c' te) as (q & Eq); [|exact R|exact Ht|].
    { intros m ->. destruct c0; try discriminate F0. exact Hs. }
    exists c', q. unfold train_copy, rmap. rewrite Et. split; [reflexivity|]. split; [exact Eq|]. split; [exact F0|].
    destruct St as [St|(m & ->)]; [exact St|]. exfalso. destruct c0; try discriminate F0. eapply Hd. reflexivity.
  Qed.
  Lemma pairs_ok fs : Forall (fun f => usable (fst f) /\ Forall (clean_inst d) (snd f)) fs -> forall c e, going c ->
    exists c' e', run_pairs (train_copy E (Some p)) (test E) fs (c, e) = Ok (c', e') /\ length (results e') = length (results e) + length fs /\ going c'.
  Proof.
    induction 1 as [|[tr te] fs (U & T) _ IH]; intros c e G.
    - exists c, e. split; [reflexivity|]. split; [cbn; lia|exact G].
    - destruct (round_ok c tr te G U T) as (c1 & q & E1 & E2 & G1). destruct (IH c1 (exp_add e q) G1) as (c' & e' & Er & Hr & G'). exists c', e'. split; [|split; [|exact G']].
      + unfold run_pairs in *. cbn [foldM fst snd] in *. rewrite E1. cbn [bind]. rewrite E2. cbn [bind]. exact Er.
      + rewrite Hr. cbn [exp_add results]. rewrite app_length. cbn. lia.
  Qed.
End Runs.
Section Execute.
  Context (E : env) (HE : sound E) (d : nat) (l : ilist) (p : param) (c : classifier) (Hd : forall m, c <> DeepC m).
  Context (HC : clean d l) (Hf : length l < e_fuel E) (Hs : steady E d (map label l) c).
  Context (kfold : ilist -> nat -> Z -> nat -> ilist * ilist) (skfold : list ilist -> nat -> Z -> nat -> ilist * ilist) (sample : ilist -> Z -> ilist).
  Context (P1 : fold_provider kfold (fun l => l)) (P2 : fold_provider skfold (@concat instance)) (P3 : forall l s, resample (sample l s) l).
  Notation U := (usable E d (map label l) p c).
  Lemma part_usable tr : incl tr l -> length tr <= length l -> tr <> [] -> suits d tr c p -> U tr.
  Proof.
    intros Hi Hl N Hp. destruct HC as (_ & D & F). split; [|split; [|split; [exact Hp|lia]]].
    - split; [exact N|]. split; [exact D|]. rewrite Forall_forall in *. intros x Hx. apply F, Hi, Hx.
    - intros y Hy. apply in_map_iff in Hy as (x & <- & Hx). apply in_map, Hi, Hx.
  Qed.
  Lemma incl_clean te : incl te l -> Forall (clean_inst d) te.
  Proof. intros Hi. destruct HC as (_ & D & F). rewrite Forall_forall in *. intros x Hx. apply F, Hi, Hx. Qed.
  Lemma perm_parts {A} (a b rest : list A) m : Permutation (a ++ b) rest -> incl rest m -> length rest <= length m -> incl a m /\ length a <= length m /\ incl b m.
  Proof.
    intros Hp Hi Hl. pose proof (Permutation_length Hp) as Hn. rewrite app_length in Hn. split; [|split; [lia|]]; intros x Hx; apply Hi; eapply Permutation_in; try exact Hp; apply in_app_iff; auto.
  Qed.
  Lemma folds_ok (rest : ilist) (cv : nat -> ilist * ilist) K : incl rest l -> length rest <= length l -> (1 <= K -> cross_validation (map cv (seq 0 K)) rest) ->
    (forall i, i < K -> fst (cv i) <> [] /\ suits d (fst (cv i)) c p) ->
    Forall (fun f => U (fst f) /\ Forall (clean_inst d) (snd f)) (map cv (seq 0 K)) /\ Forall (fun i => U (fst (cv i))) (seq 0 K).
  Proof.
    intros Hi Hl HV Hu.
    assert (G : forall i, i < K -> U (fst (cv i)) /\ Forall (clean_inst d) (snd (cv i))).
    { intros i Hk. destruct HV as [V _]; [lia|]. rewrite Forall_forall in V. specialize (V (cv i)). destruct (perm_parts _ _ _ l (V ltac:(apply in_map, in_seq; lia)) Hi Hl) as (A & B & C).
      destruct (Hu i Hk) as (N & Hp). split; [apply part_usable; assumption|apply incl_clean, C]. }
    split; [apply Forall_map|]; apply Forall_forall; intros i Hx; apply in_seq in Hx; apply G; lia.
  Qed.
  Lemma sep_ok te (cv : nat -> ilist * ilist) K : Forall (clean_inst d) te -> Forall (fun i => U (fst (cv i))) (seq 0 K) ->
    Forall (fun f => U (fst f) /\ Forall (clean_inst d) (snd f)) (map (fun i => (fst (cv i), te)) (seq 0 K)).
  Proof. intros Ht Hu. apply Forall_map. eapply Forall_impl; [|exact Hu]. intros i H. split; [exact H|exact Ht]. Qed.
  Lemma Forall_repeated {A} (P : A -> Prop) fs n : Forall P fs -> Forall P (concat (repeat fs n)) /\ length (concat (repeat fs n)) = n * length fs.
  Proof. intros H. induction n as [|n (IH1 & IH2)]; cbn [repeat concat]; [split; [constructor|reflexivity]|]. split; [apply Forall_app; split; assumption|]. rewrite app_length, IH2. cbn. lia. Qed.
  Lemma run_ok fs : Forall (fun f => U (fst f) /\ Forall (clean_inst d) (snd f)) fs ->
    exists c' e, run_pairs (train_copy E (Some p)) (test E) fs (c, exp_empty) = Ok (c', e) /\ length (results e) = length fs /\ going E d (map label l) c c'.
  Proof. intros F. destruct (pairs_ok E HE d (map label l) p c Hd fs F c exp_empty) as (c' & e & Er & Hl & G); [split; [reflexivity|exact Hs]|]. exists c', e. split; [exact Er|]. split; [exact Hl|exact G]. Qed.
  Lemma execute_ok r dset : insts dset = l -> (forall tr, trains_on E kfold skfold sample r (get_seed p) l tr -> tr <> [] /\ suits d tr c p) ->
    exists c' e, execute E kfold skfold sample r (mkExper c (Some p) dset) = Ok (c', e) /\ length (results e) = round_count r /\ going E d (map label l) c c'.
  Proof.
    intros Ed Hu. unfold execute. cbn [x_param x_data x_model]. rewrite Ed, andb_false_r. destruct (part_class_spec l) as [Ec Pc].
    assert (SV : forall rest gs K, part_class rest = Ok gs -> 1 <= K -> cross_validation (map (skfold gs K (get_seed p)) (seq 0 K)) rest).
    { intros rest gs K Eg HK. destruct (part_class_spec rest) as [Er Pr]. rewrite Er in Eg. injection Eg as <-. destruct (P2 (map (fun c => filter (of_class c) rest) (distinct_labels rest)) K (get_seed p) HK) as [A B].
      split; [eapply Forall_impl; [|exact A]; cbv beta; intros f Hx; rewrite Hx; exact Pr|rewrite B; exact Pr]. }
    assert (Il : incl l l) by (intros x Hx; exact Hx).
    destruct r as [K|K|M K|M K|K|K|M K|M K|n]; cbn [trains_on round_count] in *.
    - unfold kfold_run. rewrite run_folds_pairs. destruct (folds_ok l (kfold l K (get_seed p)) K Il (le_n _) (P1 l K _)) as (F & _); [intros i Hi; apply Hu; exists i; auto|].
      destruct (run_ok _ F) as (c' & e & Er & Hl & G). rewrite map_length, seq_length in Hl. eauto.
    - unfold skfold_run. rewrite Ec. cbn [bind]. rewrite run_folds_pairs. destruct (folds_ok l _ K Il (le_n _) (SV l _ K Ec)) as (F & _); [intros i Hi; apply Hu; exists i; eauto|].
      destruct (run_ok _ F) as (c' & e & Er & Hl & G). rewrite map_length, seq_length in Hl. eauto.
    - unfold mxkfold_run. rewrite (repeatM_ext _ _ _ _ (run_folds_pairs _ _ _ _)), repeat_pairs. destruct (folds_ok l (kfold l K (get_seed p)) K Il (le_n _) (P1 l K _)) as (F & _); [intros i Hi; apply Hu; exists i; auto|].
      destruct (Forall_repeated _ _ M F) as (F' & Lf). destruct (run_ok _ F') as (c' & e & Er & Hl & G). rewrite Lf, map_length, seq_length in Hl. eauto.
    - unfold smxkfold_run. set (gs := map (fun c => filter (of_class c) l) (distinct_labels l)) in *.
      rewrite (repeatM_ext _ _ (run_pairs (train_copy E (Some p)) (test E) (map (skfold gs K (get_seed p)) (seq 0 K)))) by (intros st; rewrite Ec; cbn [bind]; apply run_folds_pairs).
      rewrite repeat_pairs. destruct (folds_ok l _ K Il (le_n _) (SV l _ K Ec)) as (F & _); [intros i Hi; apply Hu; exists i; eauto|].
      destruct (Forall_repeated _ _ M F) as (F' & Lf). destruct (run_ok _ F') as (c' & e & Er & Hl & G). rewrite Lf, map_length, seq_length in Hl. eauto.
    - unfold kfold_sep_run. destruct (hold_out_spec (e_perm E) (get_seed p) l (so_perm E HE _ _)) as (g0 & g1 & Eh & PG & _). rewrite Eh. cbn [bind fst snd]. rewrite run_separate_pairs.
      destruct (perm_parts _ _ _ l PG Il (le_n _)) as (I0 & _ & I1). assert (length g1 <= length l) by (rewrite <- (Permutation_length PG), app_length; lia).
      destruct (folds_ok g1 (kfold g1 K (get_seed p)) K I1) as (_ & F); [assumption|apply P1|intros i Hi; apply Hu; exists i, (g0, g1); auto|].
      destruct (run_ok _ (sep_ok g0 _ K (incl_clean _ I0) F)) as (c' & e & Er & Hl & G). rewrite map_length, seq_length in Hl. eauto.
    - unfold skfold_sep_run. destruct (shold_out_spec (e_rarr E) (get_seed p) l (so_rarr E HE _ _)) as (g0 & g1 & Eh & PG). rewrite Eh. cbn [bind fst snd]. destruct (part_class_spec g1) as [Eg _]. rewrite Eg. cbn [bind]. rewrite run_separate_pairs.
      destruct (perm_parts _ _ _ l PG Il (le_n _)) as (I0 & _ & I1). assert (length g1 <= length l) by (rewrite <- (Permutation_length PG), app_length; lia).
      destruct (folds_ok g1 _ K I1 ltac:(assumption) (SV g1 _ K Eg)) as (_ & F); [intros i Hi; apply Hu; exists i, (g0, g1); eauto|].
      destruct (run_ok _ (sep_ok g0 _ K (incl_clean _ I0) F)) as (c' & e & Er & Hl & G). rewrite map_length, seq_length in Hl. eauto.
    - unfold mxkfold_sep_run. destruct (hold_out_spec (e_perm E) (get_seed p) l (so_perm E HE _ _)) as (g0 & g1 & Eh & PG & _). rewrite Eh. cbn [bind fst snd]. rewrite (repeatM_ext _ _ _ _ (run_separate_pairs _ _ _ _ _)), repeat_pairs.
      destruct (perm_parts _ _ _ l PG Il (le_n _)) as (I0 & _ & I1). assert (length g1 <= length l) by (rewrite <- (Permutation_length PG), app_length; lia).
      destruct (folds_ok g1 (kfold g1 K (get_seed p)) K I1) as (_ & F); [assumption|apply P1|intros i Hi; apply Hu; exists i, (g0, g1); auto|].
      destruct (Forall_repeated _ _ M (sep_ok g0 _ K (incl_clean _ I0) F)) as (F' & Lf). destruct (run_ok _ F') as (c' & e & Er & Hl & G). rewrite Lf, map_length, seq_length in Hl. eauto.
    - unfold smxkfold_sep_run. destruct (shold_out_spec (e_rarr E) (get_seed p) l (so_rarr E HE _ _)) as (g0 & g1 & Eh & PG). rewrite Eh. cbn [bind fst snd]. destruct (part_class_spec g1) as [Eg _].
      set (gs := map (fun c => filter (of_class c) g1) (distinct_labels g1)) in *.
      rewrite (repeatM_ext _ _ (run_pairs (train_copy E (Some p)) (test E) (map (fun i => (fst (skfold gs K (get_seed p) i), g0)) (seq 0 K)))) by (intros st; rewrite Eg; cbn [bind]; apply run_separate_pairs).
      rewrite repeat_pairs.
      destruct (perm_parts _ _ _ l PG Il (le_n _)) as (I0 & _ & I1). assert (length g1 <= length l) by (rewrite <- (Permutation_length PG), app_length; lia).
      destruct (folds_ok g1 _ K I1 ltac:(assumption) (SV g1 _ K Eg)) as (_ & F); [intros i Hi; apply Hu; exists i, (g0, g1); eauto|].
      destruct (Forall_repeated _ _ M (sep_ok g0 _ K (incl_clean _ I0) F)) as (F' & Lf). destruct (run_ok _ F') as (c' & e & Er & Hl & G). rewrite Lf, map_length, seq_length in Hl. eauto.
    - unfold bootstrap_run.
      assert (F : Forall (fun f => U (fst f) /\ Forall (clean_inst d) (snd f)) (map (fun i => (sample l (Z.of_nat i + get_seed p)%Z, l)) (seq 0 n))).
      { apply Forall_map, Forall_forall. intros i Hi. apply in_seq in Hi. cbn [fst snd]. split; [|apply incl_clean, Il].
        destruct (Hu (sample l (Z.of_nat i + get_seed p)%Z)) as (N & Hp); [exists i; split; [lia|reflexivity]|]. destruct (P3 l (Z.of_nat i + get_seed p)%Z) as (Lr & Ir). apply part_usable; [exact Ir|lia|exact N|exact Hp]. }
      destruct (run_ok _ F) as (c' & e & Er & Hl & G). rewrite map_length, seq_length in Hl. exists c', e. split; [|split; assumption]. rewrite <- Er. unfold run_pairs. rewrite foldM_map. reflexivity.
  Qed.
End Execute.
