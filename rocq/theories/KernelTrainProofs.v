(** Training and asking a support vector machine on two data sets with the same kernel values (C136). *)
From Coq Require Import String ZArith QArith Qabs Bool Lia Morphisms Permutation List.
From Verif Require Import Base Spec BaseLemmas DblLemmas AttrModel InstanceListModel PerformanceModel SolverModel SvmModel KernelProofs ListProofs RenameProofs KernelViewSpec KernelViewProofs.
Import ListNotations.
Local Open Scope string_scope.
Local Open Scope list_scope.
Local Open Scope nat_scope.
Notation deql := (Forall2 deq).

Section Train.
Context (dexp dtanh : dbl -> dbl) (dpow : dbl -> Z -> dbl) (p : svm_param).
Notation K := (training_kernel dexp dtanh dpow p).
(** corresponding vectors *)
Variable Rn : list node -> list node -> Prop.
Hypothesis HK : forall v v' w w', Rn v v' -> Rn w w' -> deq (K v w) (K v' w').

Definition wsol (r r' : dbl * list dbl) : Prop := deq (fst r) (fst r') /\ deql (snd r) (snd r').
Lemma single_same fuel x x' py : Forall2 Rn x x' -> length x = length py -> alike wsol (solve_single dexp dtanh dpow fuel p x py) (solve_single dexp dtanh dpow fuel p x' py).
Proof.
  intros X L. unfold solve_single. rewrite <- L. eapply alike_bind.
  - apply solve_same; [eapply Forall2_len; exact X|]. intros i j v w v' w' Ev Ew Ev' Ew'. destruct (Forall2_nth_r _ _ _ X _ _ Ev') as (v1 & E1 & R1). destruct (Forall2_nth_r _ _ _ X _ _ Ew') as (w1 & E2 & R2).
    apply HK; congruence.
  - intros r r' [H1 H2]. eapply alike_bind with (R := deql).
    + apply alike_mapM. intros i _. eapply alike_bind; [apply alike_idxn, H2|]. intros a a' Ha. eapply alike_bind with (R := eq); [apply alike_same; reflexivity|]. intros y ? <-. cbn. dq.
    + intros u u' Hu. split; assumption.
Qed.
Lemma mark_same al al' off from n nz : deql al al' -> alike eq (mark al off from n nz) (mark al' off from n nz).
Proof.
  intros H. unfold mark. apply alike_foldM; [|reflexivity]. intros u ? k _ <-. eapply alike_bind with (R := eq); [apply alike_same; reflexivity|]. intros b ? <-. destruct b; [reflexivity|].
  eapply alike_bind; [apply alike_idxn, H|]. intros a a' Ha. unfold dgtb. rewrite (dltb_proper d0 d0 (reflexivity d0) _ _ (dabs_deq _ _ Ha)). apply alike_same. reflexivity.
Qed.
Definition pst (s s' : list (dbl * list dbl) * list bool) : Prop := Forall2 wsol (fst s) (fst s') /\ snd s = snd s'.
Lemma mapM_length {A B} (f : A -> res B) l ys : mapM f l = Ok ys -> length ys = length l.
Proof. intros H. apply mapM_ok in H. symmetry. eapply Forall2_len; exact H. Qed.
Lemma pair_step_same fuel start counts x x' s s' ij : Forall2 Rn x x' -> pst s s' ->
  alike pst (pair_step dexp dtanh dpow fuel p start counts x s ij) (pair_step dexp dtanh dpow fuel p start counts x' s' ij).
Proof.
  intros X [S1 S2]. destruct ij as [i j]. unfold pair_step. do 4 (eapply alike_bind with (R := eq); [apply alike_same; reflexivity|]; intros ? ? <-).
  rename a into si, a0 into sj, a1 into ci, a2 into cj.
  assert (M : forall s n, alike (fun u u' => Forall2 Rn u u' /\ length u = n) (mapM (fun k => idxn x (s + k)) (seq 0 n)) (mapM (fun k => idxn x' (s + k)) (seq 0 n))).
  { intros t n. assert (A : alike (Forall2 Rn) (mapM (fun k => idxn x (t + k)) (seq 0 n)) (mapM (fun k => idxn x' (t + k)) (seq 0 n))) by (apply alike_mapM; intros; apply alike_idxn, X).
    destruct (mapM (fun k => idxn x (t + k)) (seq 0 n)) eqn:E, (mapM (fun k => idxn x' (t + k)) (seq 0 n)); cbn in *; auto. split; [exact A|]. apply mapM_length in E. rewrite seq_length in E. exact E. }
  eapply alike_bind; [apply M|]. intros x1 x1' [X1 L1]. eapply alike_bind; [apply M|]. intros x2 x2' [X2 L2].
  eapply alike_bind; [apply single_same; [apply Forall2_app; eassumption|rewrite !app_length, !repeat_length; lia]|]. intros w w' [W1 W2]. rewrite <- S2.
  eapply alike_bind; [apply mark_same, W2|]. intros nz ? <-. eapply alike_bind; [apply mark_same, W2|]. intros nz2 ? <-. split; [|reflexivity]. cbn. apply Forall2_app; [exact S1|]. repeat constructor; assumption.
Qed.
Lemma write_coef_same nz al al' off from n q row row' : deql al al' -> deql row row' -> alike deql (write_coef nz al off from n q row) (write_coef nz al' off from n q row').
Proof.
  intros A H. unfold write_coef. eapply alike_bind with (R := fun r r' => deql (fst r) (fst r') /\ snd r = snd r'); [|intros r r' [R1 _]; exact R1].
  apply alike_foldM; [|split; [exact H|reflexivity]]. intros [u m] [u' m'] k _ [U1 U2]. cbn in U1, U2. subst m'. eapply alike_bind with (R := eq); [apply alike_same; reflexivity|]. intros b ? <-. destruct b; [|split; [exact U1|reflexivity]].
  eapply alike_bind; [apply alike_idxn, A|]. intros a a' Ha. cbn [fst snd]. eapply alike_bind; [apply alike_set; [exact U1|exact Ha]|]. intros v v' Hv. split; [exact Hv|reflexivity].
Qed.
Lemma coef_step_same start counts nzs nz ws ws' st st' ij : Forall2 wsol ws ws' -> Forall2 deql (fst st) (fst st') /\ snd st = snd st' ->
  alike (fun a a' => Forall2 deql (fst a) (fst a') /\ snd a = snd a') (coef_step start counts nzs nz ws st ij) (coef_step start counts nzs nz ws' st' ij).
Proof.
  intros W [H1 H2]. destruct ij as [i j], st as [m q], st' as [m' q']. cbn in H1, H2. subst q'. unfold coef_step. do 4 (eapply alike_bind with (R := eq); [apply alike_same; reflexivity|]; intros ? ? <-).
  eapply alike_bind; [apply alike_idxn, W|]. intros w w' [_ Ww]. eapply alike_bind with (R := eq); [apply alike_same; reflexivity|]; intros qi ? <-.
  eapply alike_bind; [apply alike_idxn, H1|]. intros r1 r1' Hr1. eapply alike_bind; [apply write_coef_same; eassumption|]. intros t1 t1' Ht1. eapply alike_bind; [apply alike_set; eassumption|]. intros m1 m1' Hm1.
  eapply alike_bind with (R := eq); [apply alike_same; reflexivity|]; intros qj ? <-.
  eapply alike_bind; [apply alike_idxn, Hm1|]. intros r2 r2' Hr2. eapply alike_bind; [apply write_coef_same; eassumption|]. intros t2 t2' Ht2. eapply alike_bind; [apply alike_set; eassumption|]. intros m2 m2' Hm2.
  split; [exact Hm2|reflexivity].
Qed.
(** two machines that are the same up to the vectors they stand for *)
Record msame (m m' : svm) : Prop := {
  ms_dist : m_dist m = m_dist m'; ms_rho : deql (m_rho m) (m_rho m'); ms_nsv : m_nsv m = m_nsv m'; ms_sv : Forall2 Rn (m_sv m) (m_sv m');
  ms_coef : Forall2 deql (m_coef m) (m_coef m'); ms_par : m_par m = Some p /\ m_par m' = Some p; ms_ncl : m_ncl m = m_ncl m'; ms_nprob : m_nprob m = m_nprob m' }.
Lemma Forall2_resize {A B} (R : A -> B -> Prop) a b n u v : R a b -> Forall2 R u v -> Forall2 R (resize a n u) (resize b n v).
Proof.
  intros Hab H. unfold resize. rewrite (Forall2_len _ _ _ H). apply Forall2_app; [|apply Forall2_rep, Hab]. clear Hab. revert n. induction H; intros [|n]; cbn; constructor; auto.
Qed.
Lemma select_marked x x' nz : Forall2 Rn x x' -> Forall2 Rn (map fst (filter snd (combine x nz))) (map fst (filter snd (combine x' nz))).
Proof. intros H. revert nz. induction H as [|v v' x x' Hv _ IH]; intros [|b nz]; cbn; try constructor. destruct b; cbn; [constructor; auto|auto]. Qed.
Lemma Forall2_map2 {A B C D} (R : C -> D -> Prop) (g : A -> C) (h : B -> D) u v : Forall2 (fun a b => R (g a) (h b)) u v -> Forall2 R (map g u) (map h v).
Proof. induction 1; cbn; constructor; auto. Qed.

(** [f] turns the instances of [l] into corresponding ones *)
Variables (f : instance -> instance) (l : list instance).
Hypothesis Hlab : forall x, label (f x) = label x.
Hypothesis Hcheck : forall x, In x l -> discrete_check (f x) = discrete_check x.
Hypothesis Hrel : forall x, In x l -> Rn (inst_nodes x) (inst_nodes (f x)).
Lemma sort_same : sort_class (map f l) = map f (sort_class l).
Proof. unfold sort_class. apply ssort_map. intros a b. rewrite !Hlab. reflexivity. Qed.
Lemma dist_same k : class_distribution (map f k) = class_distribution k.
Proof. unfold class_distribution. generalize (@nil (string * nat)). induction k as [|x k IH]; intros c; [reflexivity|]. cbn. rewrite Hlab. apply IH. Qed.
Lemma train_same fuel : alike (fun r r' => msame (fst r) (fst r') /\ snd r' = map f (snd r)) (svm_train dexp dtanh dpow fuel svm_empty l p) (svm_train dexp dtanh dpow fuel svm_empty (map f l) p).
Proof.
  unfold svm_train. eapply alike_bind with (R := fun x x' => In x l /\ x' = f x).
  { unfold atn. rewrite nth_error_map. destruct (nth_error l 0) eqn:E; cbn; [|reflexivity]. split; [eapply nth_error_In; exact E|reflexivity]. }
  intros x0 ? [Hx ->]. rewrite (Hcheck _ Hx). destruct (discrete_check x0); cbn [negb]; [|reflexivity]. rewrite sort_same, map_length, dist_same. cbn zeta.
  set (sl := sort_class l). assert (X : Forall2 Rn (map inst_nodes sl) (map inst_nodes (map f sl))).
  { rewrite map_map. assert (I : incl sl l). { unfold sl. intros y Hy. eapply Permutation_in; [apply Permutation_sym, (proj1 (sort_class_stable l))|exact Hy]. }
    clearbody sl. induction sl as [|y sl IH]; cbn; constructor; [apply Hrel, I; left; reflexivity|]. apply IH. intros z Hz. apply I. right. exact Hz. }
  set (x := map inst_nodes sl) in *. set (x' := map inst_nodes (map f sl)) in *. clearbody x x'.
  eapply alike_bind with (R := eq); [apply alike_same; reflexivity|]; intros start ? <-.
  eapply alike_bind with (R := pst); [apply alike_foldM; [intros; apply pair_step_same; assumption|split; [constructor|reflexivity]]|]. intros [ws nz] [ws' nz'] [W N]. cbn in W, N. subst nz'.
  eapply alike_bind with (R := deql). { apply alike_mapM. intros i _. eapply alike_bind; [apply alike_idxn, W|]. intros w w' [H _]. exact H. }
  intros rhos rhos' Hr. eapply alike_bind with (R := eq); [apply alike_same; reflexivity|]; intros nsv ? <-. eapply alike_bind with (R := eq); [apply alike_same; reflexivity|]; intros nzs ? <-.
  eapply alike_bind with (R := fun a a' => Forall2 deql (fst a) (fst a') /\ snd a = snd a').
  - apply alike_foldM; [intros; apply coef_step_same; assumption|]. split; [|reflexivity]. cbn [fst]. apply Forall2_same. intros a. apply Forall2_same. reflexivity.
  - intros r r' [H1 _]. split; [|reflexivity]. constructor; cbn; auto. apply select_marked; exact X.
Qed.

(** asking *)
Lemma coef_sum_same c c' kv kv' from n a a' : deql c c' -> deql kv kv' -> deq a a' -> alike deq (coef_sum c kv from n a) (coef_sum c' kv' from n a').
Proof.
  intros C V A. unfold coef_sum. apply alike_foldM; [|exact A]. intros u u' k _ Hu. eapply alike_bind; [apply alike_idxn, C|]. intros b b' Hb. eapply alike_bind; [apply alike_idxn, V|]. intros d d' Hd. cbn. dq.
Qed.
Lemma predict_same m m' q q' : msame m m' -> (forall v v', Rn v v' -> deq (kernel_fun dexp dtanh dpow p (inst_nodes q) v) (kernel_fun dexp dtanh dpow p (inst_nodes q') v')) ->
  alike eq (svm_predict dexp dtanh dpow m q) (svm_predict dexp dtanh dpow m' q').
Proof.
  intros M Hq. unfold svm_predict. eapply alike_bind with (R := deql).
  - unfold predict_values. destruct (ms_par _ _ M) as [-> ->]. eapply alike_bind with (R := deql).
    + pose proof (ms_sv _ _ M) as V. induction V as [|v v' vs vs' Hv _ IH]; cbn [mapM bind]; [constructor|]. destruct (mapM _ vs), (mapM _ vs'); cbn in *; auto; constructor; auto.
    + intros kv kv' Hk. rewrite <- (ms_ncl _ _ M), <- (ms_nsv _ _ M). eapply alike_bind with (R := eq); [apply alike_same; reflexivity|]; intros start ? <-.
      eapply alike_bind with (R := fun a a' => deql (fst a) (fst a') /\ snd a = snd a'); [|intros a a' [H _]; exact H]. apply alike_foldM; [|split; [constructor|reflexivity]].
      intros [rs n] [rs' n'] [i j] _ [H1 H2]. cbn in H1, H2. subst n'. do 4 (eapply alike_bind with (R := eq); [apply alike_same; reflexivity|]; intros ? ? <-).
      eapply alike_bind; [apply alike_idxn, (ms_coef _ _ M)|]. intros c1 c1' C1. eapply alike_bind; [apply alike_idxn, (ms_coef _ _ M)|]. intros c2 c2' C2.
      eapply alike_bind; [apply coef_sum_same; [eassumption..|reflexivity]|]. intros s1 s1' S1. eapply alike_bind; [apply coef_sum_same; eassumption|]. intros s2 s2' S2.
      eapply alike_bind; [apply alike_idxn, (ms_rho _ _ M)|]. intros r r' Hr. split; [|reflexivity]. cbn [fst]. apply Forall2_app; [exact H1|]. repeat constructor. dq.
  - intros vals vals' V. rewrite <- (ms_ncl _ _ M), <- (ms_dist _ _ M). eapply alike_bind with (R := eq).
    + unfold count_votes. eapply alike_bind with (R := eq); [|intros ? ? <-; reflexivity]. apply alike_foldM; [|reflexivity]. intros [vt n] ? [i j] _ <-. eapply alike_bind; [apply alike_idxn, V|]. intros a a' Ha.
      unfold dgtb. rewrite (dltb_proper d0 d0 (reflexivity d0) _ _ Ha). apply alike_same. reflexivity.
    + intros votes ? <-. apply alike_same. reflexivity.
Qed.
End Train.
Lemma alike_eq {A} (x y : res A) : alike eq x y -> x = y.
Proof. destruct x, y; cbn; try tauto; congruence. Qed.
