(** Property C136: a support vector machine sees the features only through the kernel. *)
From Coq Require Import String ZArith QArith Qabs Bool Lia Lqa Morphisms Permutation List.
From Verif Require Import Base Spec BaseLemmas DblLemmas AttrModel InstanceListModel PerformanceModel SolverModel SvmModel SvmSpec SvmProps SvmTrainSpec KernelProofs ReadySpec
  FeatOrderSpec FeatOrderProofs KernelViewSpec KernelViewProofs KernelTrainProofs.
Import ListNotations.
Local Open Scope string_scope.
Local Open Scope list_scope.
Local Open Scope nat_scope.

(** Whatever is done to the features: when the kernel values stay, so does the machine, and so do its answers. *)
Theorem C136_kernel_view : forall dexp dtanh dpow fuel p f l,
  relabels_nothing f -> (forall x, In x l -> discrete_check (f x) = discrete_check x) -> unseen dexp dtanh dpow p f l ->
  alike (machines_agree dexp dtanh dpow f (unseen_query dexp dtanh dpow p f l)) (svm_train dexp dtanh dpow fuel svm_empty l p) (svm_train dexp dtanh dpow fuel svm_empty (map f l) p).
Proof.
  intros dexp dtanh dpow fuel p f l Hf Hd Hu. set (Rn := fun v v' => exists u, In u l /\ v = inst_nodes u /\ v' = inst_nodes (f u)).
  assert (HK : forall v v' w w', Rn v v' -> Rn w w' -> deq (training_kernel dexp dtanh dpow p v w) (training_kernel dexp dtanh dpow p v' w')).
  { intros v v' w w' (a & Ia & -> & ->) (b & Ib & -> & ->). apply deq_sym. apply Hu; assumption. }
  pose proof (train_same dexp dtanh dpow p Rn HK f l Hf Hd ltac:(intros x Hx; exists x; auto) fuel) as A.
  destruct (svm_train dexp dtanh dpow fuel svm_empty l p) as [[m k]| | |], (svm_train dexp dtanh dpow fuel svm_empty (map f l) p) as [[m' k']| | |]; cbn in A; try exact A.
  destruct A as [M Hk]. cbn in M, Hk. destruct M as [M1 M2 M3 M4 M5 M6 M7 M8] eqn:EM. repeat split; cbn [fst snd]; auto. intros q Hq. symmetry. apply alike_eq.
  eapply predict_same with (p := p) (Rn := Rn); [exact M|]. intros v v' (u & Iu & -> & ->). apply deq_sym, Hq, Iu.
Qed.

(** ** Scalar products and distances *)
Section Finite.
Context (dexp dtanh : dbl -> dbl) (dpow : dbl -> Z -> dbl) (p : svm_param) (gamma coef0 : Q).
Hypothesis Hm : libm dexp dtanh dpow.
Hypothesis Hg : p_gamma p = Fin gamma.
Hypothesis Hc : p_coef0 p = Fin coef0.
Lemma training_is_kernel v w : deq (training_kernel dexp dtanh dpow p (svec v) (svec w)) (kernel_fun dexp dtanh dpow p (svec v) (svec w)).
Proof.
  unfold training_kernel, kernel_fun. destruct (p_kernel p); try reflexivity. apply (exp_value _ _ _ Hm). apply dmul_proper; [reflexivity|].
  destruct (dot_dense v v) as (a & -> & A), (dot_dense w w) as (b & -> & B), (dot_dense v w) as (c & -> & C), (rbf_dense v w) as (d & -> & D). cbn. rewrite A, B, C, D, sqdist_dot. reflexivity.
Qed.
Lemma finite_nodes x : finite_values x -> inst_nodes x = svec (qvec x).
Proof. intros H. unfold inst_nodes, svec. rewrite <- H. reflexivity. Qed.
Lemma kernel_kept f (P : instance -> Prop) : (forall x, P x -> finite_values x) -> (keeps_products f P \/ p_kernel p = RBF /\ keeps_distances f P) -> forall x y, P x -> P y ->
  deq (kernel_fun dexp dtanh dpow p (inst_nodes (f x)) (inst_nodes (f y))) (kernel_fun dexp dtanh dpow p (inst_nodes x) (inst_nodes y)) /\
  deq (training_kernel dexp dtanh dpow p (inst_nodes (f x)) (inst_nodes (f y))) (training_kernel dexp dtanh dpow p (inst_nodes x) (inst_nodes y)).
Proof.
  intros HP HK x y Px Py.
  assert (F : finite_values (f x) /\ finite_values (f y)). { destruct HK as [H|[_ H]]; split; first [apply (H x y)|apply (H y x)]; assumption. }
  destruct F as [Fx Fy]. rewrite !finite_nodes by auto.
  assert (E : deq (kernel_fun dexp dtanh dpow p (svec (qvec (f x))) (svec (qvec (f y)))) (kernel_fun dexp dtanh dpow p (svec (qvec x)) (svec (qvec y)))).
  { rewrite !(kernel_fun_spec dexp dtanh dpow Hm p gamma coef0 Hg Hc). unfold textbook_kernel. destruct HK as [H|[-> H]].
    - assert (D : forall u v, P u -> P v -> (qdot (qvec (f u)) (qvec (f v)) == qdot (qvec u) (qvec v))%Q) by (intros; apply H; assumption).
      destruct (p_kernel p); [cbn; apply D; assumption|apply (pow_value _ _ _ Hm)|apply (exp_value _ _ _ Hm)|apply (tanh_value _ _ _ Hm)]; cbn; [rewrite (D x y) by assumption; reflexivity| |rewrite (D x y) by assumption; reflexivity].
      rewrite !sqdist_dot, (D x x), (D y y), (D x y) by assumption. reflexivity.
    - apply (exp_value _ _ _ Hm). cbn. rewrite (proj2 (H x y Px Py)). reflexivity. }
  split; [exact E|]. rewrite !training_is_kernel. exact E.
Qed.
End Finite.

Lemma view_finite dexp dtanh dpow p gamma coef0 fuel f (P : instance -> Prop) l : libm dexp dtanh dpow -> p_gamma p = Fin gamma -> p_coef0 p = Fin coef0 ->
  relabels_nothing f -> (forall x, P x -> discrete_check (f x) = discrete_check x) -> (forall x, P x -> finite_values x) -> (keeps_products f P \/ p_kernel p = RBF /\ keeps_distances f P) -> Forall P l ->
  alike (machines_agree dexp dtanh dpow f P) (svm_train dexp dtanh dpow fuel svm_empty l p) (svm_train dexp dtanh dpow fuel svm_empty (map f l) p).
Proof.
  intros Hm Hg Hc Hf Hd HP HK Hl. rewrite Forall_forall in Hl. pose proof (kernel_kept dexp dtanh dpow p gamma coef0 Hm Hg Hc f P HP HK) as KK.
  assert (A : alike (machines_agree dexp dtanh dpow f (unseen_query dexp dtanh dpow p f l)) (svm_train dexp dtanh dpow fuel svm_empty l p) (svm_train dexp dtanh dpow fuel svm_empty (map f l) p)).
  { apply C136_kernel_view; [exact Hf|intros; apply Hd; auto|]. intros x y Ix Iy. apply KK; auto. }
  destruct (svm_train dexp dtanh dpow fuel svm_empty l p), (svm_train dexp dtanh dpow fuel svm_empty (map f l) p); cbn in *; try exact A.
  destruct A as (A1 & A2 & A3 & A4 & A5 & A6). repeat split; auto. intros q Pq. apply A6. intros x Ix. apply KK; auto.
Qed.
(** Any change of the features that keeps the scalar products (a rotation, a reflection, another order) leaves the machine as it is, for all four kernels. *)
Theorem C136_products : forall dexp dtanh dpow p gamma coef0 fuel f (P : instance -> Prop) l, libm dexp dtanh dpow -> p_gamma p = Fin gamma -> p_coef0 p = Fin coef0 ->
  relabels_nothing f -> (forall x, P x -> discrete_check (f x) = discrete_check x) -> (forall x, P x -> finite_values x) -> keeps_products f P -> Forall P l ->
  alike (machines_agree dexp dtanh dpow f P) (svm_train dexp dtanh dpow fuel svm_empty l p) (svm_train dexp dtanh dpow fuel svm_empty (map f l) p).
Proof. intros. eapply view_finite; eauto. Qed.
(** With the radial kernel, keeping the distances is enough. *)
Theorem C136_distances : forall dexp dtanh dpow p gamma coef0 fuel f (P : instance -> Prop) l, libm dexp dtanh dpow -> p_gamma p = Fin gamma -> p_coef0 p = Fin coef0 -> p_kernel p = RBF ->
  relabels_nothing f -> (forall x, P x -> discrete_check (f x) = discrete_check x) -> (forall x, P x -> finite_values x) -> keeps_distances f P -> Forall P l ->
  alike (machines_agree dexp dtanh dpow f P) (svm_train dexp dtanh dpow fuel svm_empty l p) (svm_train dexp dtanh dpow fuel svm_empty (map f l) p).
Proof. intros. eapply view_finite; eauto. Qed.

(** ** Clean numeric data *)
Lemma vals_numbers x v : attrs x = map (fun q => ACont (Fin q)) v -> inst_vals x = map Fin v.
Proof.
  intros E. unfold inst_vals. rewrite E. clear. change (map Fin v) with ([] ++ map Fin v). generalize (@nil dbl). induction v as [|q v IH]; intros a; cbn; [rewrite app_nil_r; reflexivity|]. rewrite IH, <- app_assoc. reflexivity.
Qed.
Lemma numbers_qvec x v : attrs x = map (fun q => ACont (Fin q)) v -> finite_values x /\ qvec x = v.
Proof.
  intros E. apply vals_numbers in E. assert (Q : qvec x = v). { unfold qvec. rewrite E, map_map. cbn. apply map_id. } split; [|exact Q]. unfold finite_values. rewrite Q. exact E.
Qed.
Lemma numbers_check x v : attrs x = map (fun q => ACont (Fin q)) v -> discrete_check x = true.
Proof. intros E. unfold discrete_check. rewrite E. clear. induction v; cbn; auto. Qed.
(** a change of the rows of numbers, read off the instances *)
Section Rows.
Variables (n : nat) (f : instance -> instance) (g : list Q -> list Q).
Hypothesis Hfg : forall x v, length v = n -> attrs x = map (fun q => ACont (Fin q)) v -> attrs (f x) = map (fun q => ACont (Fin q)) (g v).
Lemma rows_check x : clean_inst n x -> discrete_check (f x) = discrete_check x.
Proof. intros (_ & v & L & E). rewrite (numbers_check x v E), (numbers_check (f x) (g v)); [reflexivity|]. apply Hfg; assumption. Qed.
Lemma rows_finite x : clean_inst n x -> finite_values x.
Proof. intros (_ & v & L & E). apply (numbers_qvec x v E). Qed.
Lemma rows_products : (forall v w, length v = n -> length w = n -> (qdot (g v) (g w) == qdot v w)%Q) -> keeps_products f (clean_inst n).
Proof.
  intros H x y (_ & v & L & E) (_ & w & L' & E'). destruct (numbers_qvec _ _ (Hfg _ _ L E)) as [F ->], (numbers_qvec _ _ (Hfg _ _ L' E')) as [F' ->], (numbers_qvec _ _ E) as [_ ->], (numbers_qvec _ _ E') as [_ ->]. split; [exact F|]. apply H; assumption.
Qed.
Lemma rows_distances : (forall v w, length v = n -> length w = n -> (sqdist (g v) (g w) == sqdist v w)%Q) -> keeps_distances f (clean_inst n).
Proof.
  intros H x y (_ & v & L & E) (_ & w & L' & E'). destruct (numbers_qvec _ _ (Hfg _ _ L E)) as [F ->], (numbers_qvec _ _ (Hfg _ _ L' E')) as [F' ->], (numbers_qvec _ _ E) as [_ ->], (numbers_qvec _ _ E') as [_ ->]. split; [exact F|]. apply H; assumption.
Qed.
End Rows.

(** The order in which the features are listed is irrelevant (completing C134 for this classifier). *)
Theorem C136_feature_order : forall dexp dtanh dpow p gamma coef0 fuel n o l, libm dexp dtanh dpow -> p_gamma p = Fin gamma -> p_coef0 p = Fin coef0 ->
  arrangement n o -> Forall (clean_inst n) l ->
  alike (machines_agree dexp dtanh dpow (reorder o) (clean_inst n)) (svm_train dexp dtanh dpow fuel svm_empty l p) (svm_train dexp dtanh dpow fuel svm_empty (map (reorder o) l) p).
Proof.
  intros dexp dtanh dpow p gamma coef0 fuel n o l Hm Hg Hc Ho Hl.
  assert (R : forall x v, length v = n -> attrs x = map (fun q => ACont (Fin q)) v -> attrs (reorder o x) = map (fun q => ACont (Fin q)) (arrange 0%Q o v)).
  { intros x v L E. cbn. rewrite E. apply (arrange_map n o Ho). exact L. }
  apply C136_products with (gamma := gamma) (coef0 := coef0); auto; [intros x; reflexivity|apply (rows_check n _ _ R)|apply rows_finite|].
  apply (rows_products n _ _ R). intros v w Lv Lw. unfold qdot. transitivity (qsum (map (fun pr : Q * Q => (fst pr * snd pr)%Q) (arrange (0, 0)%Q o (combine v w)))).
  - assert (EE : combine (arrange 0%Q o v) (arrange 0%Q o w) = arrange (0, 0)%Q o (combine v w)); [|rewrite EE; reflexivity]. unfold arrange. clear Ho R. induction o as [|j o IH]; [reflexivity|]. cbn. rewrite IH, combine_nth by lia. reflexivity.
  - apply qsum_perm, Permutation_map, (arrange_perm n o Ho). rewrite combine_length. lia.
Qed.
(** A machine with the radial kernel does not care where the origin is. *)
Theorem C136_shift : forall dexp dtanh dpow p gamma coef0 fuel n t l, libm dexp dtanh dpow -> p_gamma p = Fin gamma -> p_coef0 p = Fin coef0 -> p_kernel p = RBF ->
  length t = n -> Forall (clean_inst n) l ->
  alike (machines_agree dexp dtanh dpow (moved t) (clean_inst n)) (svm_train dexp dtanh dpow fuel svm_empty l p) (svm_train dexp dtanh dpow fuel svm_empty (map (moved t) l) p).
Proof.
  intros dexp dtanh dpow p gamma coef0 fuel n t l Hm Hg Hc Hk Ht Hl. set (g := fun v : list Q => map (fun pr : Q * Q => (fst pr + snd pr)%Q) (combine v t)).
  assert (R : forall x v, length v = n -> attrs x = map (fun q => ACont (Fin q)) v -> attrs (moved t x) = map (fun q => ACont (Fin q)) (g v)).
  { intros x v _ E. cbn. rewrite E. unfold g. clear. revert t. induction v as [|a v IH]; intros [|b t]; cbn; [reflexivity..|]. rewrite IH. reflexivity. }
  apply C136_distances with (gamma := gamma) (coef0 := coef0); auto; [intros x; reflexivity|apply (rows_check n _ _ R)|apply rows_finite|].
  apply (rows_distances n _ _ R). subst n. unfold g. clear. induction t as [|b t IH]; intros [|x v] [|y w] Lv Lw; try discriminate; [reflexivity|]. cbn. rewrite IH by (cbn in *; congruence). ring.
Qed.
(** A feature that is the same everywhere is ignored by the radial kernel; a feature that is zero everywhere by every kernel. *)
Theorem C136_constant_feature : forall dexp dtanh dpow p gamma coef0 fuel n c l, libm dexp dtanh dpow -> p_gamma p = Fin gamma -> p_coef0 p = Fin coef0 ->
  (p_kernel p = RBF \/ (c == 0)%Q) -> Forall (clean_inst n) l ->
  alike (machines_agree dexp dtanh dpow (with_feature c) (clean_inst n)) (svm_train dexp dtanh dpow fuel svm_empty l p) (svm_train dexp dtanh dpow fuel svm_empty (map (with_feature c) l) p).
Proof.
  intros dexp dtanh dpow p gamma coef0 fuel n c l Hm Hg Hc Hk Hl. set (g := fun v : list Q => v ++ [c]).
  assert (R : forall x v, length v = n -> attrs x = map (fun q => ACont (Fin q)) v -> attrs (with_feature c x) = map (fun q => ACont (Fin q)) (g v)).
  { intros x v _ E. cbn. rewrite E. unfold g. rewrite map_app. reflexivity. }
  destruct Hk as [Hk|Hz].
  - apply C136_distances with (gamma := gamma) (coef0 := coef0); auto; [intros x; reflexivity|apply (rows_check n _ _ R)|apply rows_finite|].
    apply (rows_distances n _ _ R). unfold g. clear. induction n as [|n IH]; intros [|x v] [|y w] Lv Lw; try discriminate; [cbn; ring|]. cbn. rewrite IH by (cbn in *; congruence). ring.
  - apply C136_products with (gamma := gamma) (coef0 := coef0); auto; [intros x; reflexivity|apply (rows_check n _ _ R)|apply rows_finite|].
    apply (rows_products n _ _ R). unfold g. clear - Hz. induction n as [|n IH]; intros [|x v] [|y w] Lv Lw; try discriminate; [cbn; rewrite Hz; ring|]. cbn [app]. rewrite !qdot_cons, IH by (cbn in *; congruence). ring.
Qed.

(** ** Concrete cases *)
Definition at2 (c : string) (u v : Q) : instance := mkInst c [ACont (Fin u); ACont (Fin v)] None.
Definition view_ex : ilist := [at2 "b" 2 0; at2 "a" 0 1; at2 "a" 0 0].
Definition dsq (d : dbl) (_ : Z) : dbl := dmul d d.
Lemma libm_sq : libm idd idd dsq.
Proof.
  destruct libm_id as [A B _ D E _]. constructor; auto.
  - intros a b ? H. apply dmul_proper; exact H.
  - intros q ? _. exists (q * q)%Q. reflexivity.
Qed.
(** the identity in the place of exp makes a usable, though not a textbook, kernel of the radial one *)
Definition parK (k : kernel_type) : svm_param := mkParam k 2 (Fin 1) (Fin 1) (Fin 1) false.
Definition answers (p : svm_param) (l qs : ilist) : res (list string) := do r <- svm_train idd idd dsq 20 svm_empty l p; mapM (svm_predict idd idd dsq (fst r)) qs.
Definition view_qs : ilist := [at2 "?" 2 2; at2 "?" 0 2; at2 "?" (1 # 2) 1].
Example C136_order_case : arrangement 2 [1; 0] /\ Forall (clean_inst 2) view_ex /\ map (reorder [1; 0]) view_ex = [at2 "b" 0 2; at2 "a" 1 0; at2 "a" 0 0] /\
  answers (parK POLYNOM) view_ex view_qs = Ok ["b"; "a"; "a"] /\
  answers (parK POLYNOM) (map (reorder [1; 0]) view_ex) (map (reorder [1; 0]) view_qs) = Ok ["b"; "a"; "a"] /\
  answers (parK POLYNOM) (map (with_feature 0) view_ex) (map (with_feature 0) view_qs) = Ok ["b"; "a"; "a"].
Proof.
  split; [unfold arrangement; apply perm_swap|]. split; [repeat apply Forall_cons; try apply Forall_nil; (split; [reflexivity|]); eexists [_; _]; (split; reflexivity)|]. split; [reflexivity|]. vm_compute. repeat split.
Qed.
Example C136_shift_case : map (moved [3; -(1)]%Q) view_ex = [at2 "b" 5 (-(1)); at2 "a" 3 0; at2 "a" 3 (-(1))] /\
  answers (parK RBF) view_ex view_qs = Ok ["b"; "a"; "a"] /\
  answers (parK RBF) (map (moved [3; -(1)]%Q) view_ex) (map (moved [3; -(1)]%Q) view_qs) = Ok ["b"; "a"; "a"] /\
  answers (parK RBF) (map (with_feature 7) view_ex) (map (with_feature 7) view_qs) = Ok ["b"; "a"; "a"].
Proof. vm_compute. repeat split. Qed.
(** The other kernels do care: with the quadratic kernel, moving the two training points and the query by -1 changes the answer. *)
Definition pt1 (c : string) (u : Q) : instance := mkInst c [ACont (Fin u)] None.
Definition parP : svm_param := mkParam POLYNOM 2 (Fin 1) (Fin 0) (Fin 10) false.
Theorem C136_shift_polynomial_refuted : exists fuel l t q m k m' k', libm idd idd dsq /\ Forall (clean_inst 1) (q :: l) /\ length t = 1 /\
  svm_train idd idd dsq fuel svm_empty l parP = Ok (m, k) /\ svm_train idd idd dsq fuel svm_empty (map (moved t) l) parP = Ok (m', k') /\
  svm_predict idd idd dsq m q = Ok "b" /\ svm_predict idd idd dsq m' (moved t q) = Ok "a".
Proof.
  exists 20, [pt1 "a" 0; pt1 "b" 1], [-(1)]%Q, (pt1 "?" (-(1))). do 4 eexists. split; [exact libm_sq|]. split; [repeat apply Forall_cons; try apply Forall_nil; (split; [reflexivity|]); eexists [_]; (split; reflexivity)|].
  split; [reflexivity|]. split; [vm_compute; reflexivity|]. split; [vm_compute; reflexivity|]. vm_compute. split; reflexivity.
Qed.
Print Assumptions C136_kernel_view.
Print Assumptions C136_products.
Print Assumptions C136_distances.
Print Assumptions C136_feature_order.
Print Assumptions C136_shift.
Print Assumptions C136_constant_feature.
Print Assumptions C136_shift_polynomial_refuted.
