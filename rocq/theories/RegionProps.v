(** C154: between two queries with the same answer. *)
From Coq Require Import String ZArith QArith Bool Lia Lqa Psatz Permutation Arith List.
From Verif Require Import SvmTrainSpec SvmProps SvmTrainProps SepProps KernelViewProps Base Spec BaseLemmas DblLemmas AttrModel AttrProofs DataSetModel InstanceListModel PartitionModel PerformanceModel StatSpec ListSpec ListProofs
  DistanceModel DistanceSpec DistanceProofs GaussianModel GaussianSpec GaussianProofs GaussianProps TreeSpec TreeModel TreeProps CovAllProofs PerformanceProofs DiscrimSpec DiscrimProofs
  ModelInvSpec CoincideGaussProofs SolverModel SvmModel SvmSpec NetModel NetSpec NetProofs NetProps BayesProofs CoincideProofs RegionSpec RegionProofs.
Import ListNotations.
Local Open Scope string_scope.
Local Open Scope list_scope.
Local Open Scope nat_scope.

(** The linear discriminant: along the way between two queries with the same answer the answer does not change. *)
Theorem C154_lda : forall inverse ln f shape l m, log_reads ln f -> inverts (dim shape) inverse -> uniform shape l -> l <> [] ->
  (forall c, In c (map label l) -> 2 <= length (members (sample_of l) c)) -> invertible (dim shape) (pooled_cov (sample_of l)) -> lda_train inverse ln lda_empty l = Ok m ->
  convex (dim shape) (fun x => forall c r, In c (map label l) -> lda_metric m x c = Ok (Fin r) -> above_floor r) (lda_predict m).
Proof.
  intros inverse ln f shape l m Hln HI HU Hn H2 HV Em t x y z c (Ht & Cx & Cy & u & v & w & Hu & Hv & Hw & Lw & M) Ox Oy. pose proof M as (Lu & Lv & _).
  destruct (lda_formula inverse ln f shape l Hln HI HU Hn H2 HV) as (m' & S & Em' & _ & HM). rewrite Em in Em'. injection Em' as <-. pose proof (lda_train_prior _ _ _ _ _ Em) as [HP _]. unfold lda_predict. rewrite HP.
  apply (gauss_between _ _ _ _ x y z c t 0 Ht Cx Cy). intros e He. rewrite class_distribution_cofl in He. apply (proj1 (in_cofl _ _)) in He.
  destruct (HM x u e (row_vals _ _ Hu) ltac:(lia) He) as (r1 & E1 & V1). destruct (HM y v e (row_vals _ _ Hv) ltac:(lia) He) as (r2 & E2 & V2). destruct (HM z w e (row_vals _ _ Hw) Lw He) as (r3 & E3 & V3).
  exists r1, r2, r3. split; [exact E1|]. split; [exact E2|]. split; [exact E3|]. pose proof (Ox e r1 He E1) as F1. pose proof (Oy e r2 He E2) as F2. split; [exact F1|]. split; [exact F2|].
  pose proof (lda_mixed t (dim shape) S (sample_of l) e u v w M Lw) as MX.
  assert (R : (r3 == (1 - t) * r1 + t * r2)%Q).
  { pose proof (lda_linear (dim shape) S (sample_of l) e u) as Q1. pose proof (lda_linear (dim shape) S (sample_of l) e v) as Q2. pose proof (lda_linear (dim shape) S (sample_of l) e w) as Q3. unfold mixed in MX. rewrite <- Q1, <- Q2, <- Q3 in MX. rewrite V1, V2, V3. lra. }
  split; [|rewrite R; ring]. unfold above_floor in *. rewrite R. destruct (Qlt_le_dec 0 t) as [Tp|Tp]; [nra|]. assert (T0 : (t == 0)%Q) by lra. rewrite T0. lra.
Qed.
(** k-means *)
Theorem C154_kmeans : forall old n l s m, Forall2 reads_numbers l s -> Forall (fun r => length (snd r) = n) s -> kmeans_train old l = Ok m ->
  convex n (fun x => forall c r, In c (map label l) -> kmeans_metric eucl m x c = Ok (Fin r) -> above_floor r) (kmeans_predict eucl m).
Proof.
  intros old n l s m HR HL Em t x y z c (Ht & Cx & Cy & u & v & w & Hu & Hv & Hw & Lw & M) Ox Oy. pose proof M as (Lu & Lv & Mi).
  destruct (kmeans_formula old n l s HR HL) as (m' & Em' & HP & HM). rewrite Em in Em'. injection Em' as <-. unfold kmeans_predict. rewrite HP.
  apply (gauss_between _ _ _ _ x y z c t (t * (1 - t) * qsum (map (fun j => (nth j u 0 - nth j v 0) * (nth j u 0 - nth j v 0)) (seq 0 n)))%Q Ht Cx Cy). intros e He. rewrite class_distribution_cofl in He. apply (proj1 (in_cofl _ _)) in He.
  destruct (HM x u e Hu ltac:(lia) He) as (r1 & E1 & V1). destruct (HM y v e Hv ltac:(lia) He) as (r2 & E2 & V2). destruct (HM z w e Hw Lw He) as (r3 & E3 & V3).
  exists r1, r2, r3. split; [exact E1|]. split; [exact E2|]. split; [exact E3|]. pose proof (Ox e r1 He E1) as F1. pose proof (Oy e r2 He E2) as F2. split; [exact F1|]. split; [exact F2|].
  set (D := qsum (map (fun j => (nth j u 0 - nth j v 0) * (nth j u 0 - nth j v 0)) (seq 0 n))%Q) in *.
  assert (R : (r3 == (1 - t) * r1 + t * r2 + t * (1 - t) * D)%Q).
  { rewrite V1, V2, V3. set (A := qsum (map (fun j => away s e u j * away s e u j) (seq 0 n))%Q). set (B := qsum (map (fun j => away s e v j * away s e v j) (seq 0 n))%Q).
    assert (Q : (qsum (map (fun j => away s e w j * away s e w j) (seq 0 n)) == (1 - t) * A + (t * B + - (t * (1 - t)) * D))%Q); [|rewrite Q; ring].
    unfold A, B, D. rewrite <- !sum_scale. rewrite (sum_zip (fun j => (1 - t) * (away s e u j * away s e u j))%Q (fun j => t * (away s e v j * away s e v j) + - (t * (1 - t)) * ((nth j u 0 - nth j v 0) * (nth j u 0 - nth j v 0)))%Q).
    - apply Qplus_comp; [reflexivity|]. apply sum_zip. intros. reflexivity.
    - intros j Hj. apply in_seq in Hj. pose proof (Mi j ltac:(lia)) as Mj. unfold mixed in Mj. unfold away. rewrite Mj. ring. }
  assert (D0 : (0 <= D)%Q) by (unfold D; clear; induction (seq 0 n) as [|j js IH]; cbn [map]; [cbn; lra|]; change (qsum (?x :: ?y)) with (x + qsum y)%Q; pose proof (qsq_nonneg (nth j u 0 - nth j v 0)%Q); lra).
  split; [|exact R]. unfold above_floor in *. rewrite R. assert (K : (0 <= t * (1 - t) * D)%Q) by (apply Qmult_le_0_compat; [apply Qmult_le_0_compat; lra|exact D0]). destruct (Qlt_le_dec 0 t) as [Tp|Tp]; [nra|]. assert (T0 : (t == 0)%Q) by lra. rewrite T0 in K |- *. lra.
Qed.
(** the linear perceptron *)
Theorem C154_linear : forall m d W, li_labels m <> [] -> NoDup (li_labels m) -> is_mat (li_W m) (length (li_labels m)) (S d) W ->
  convex d (fun x => composite x = None \/ forall v j, has_row v x -> j < length (li_labels m) -> (- MAXQ < weigh (S d) W (with_bias (fun i => nth i v 0)) j)%Q) (fun x => rmap fst (linear_predict m x)).
Proof.
  intros m d W Hl ND HW t x y z c (Ht & Cx & Cy & u & v & w & Hu & Hv & Hw & Lw & M) Ox Oy Ex Ey. pose proof M as (Lu & Lv & _).
  assert (Nc : composite z <> Some []). { intros N. destruct (linear_predict m x) as [[c0 y0]| | |] eqn:E; try discriminate Ex. unfold linear_predict, net_predict in E. apply bind_ok in E as (o & _ & E). apply bind_ok in E as (c' & E & _). unfold choose in E. rewrite Cx, N in E. discriminate E. }
  assert (MW : forall i, mixed t (weigh (S d) W (with_bias (fun j => nth j u 0)) i)%Q (weigh (S d) W (with_bias (fun j => nth j v 0)) i)%Q (weigh (S d) W (with_bias (fun j => nth j w 0)) i)%Q) by (intros i; apply weigh_mixed; assumption).
  assert (Ix : in_range (li_labels m) x (scores (fun z => z) d [(length (li_labels m), W)] (fun j => nth j u 0%Q))) by (destruct Ox as [N|H]; [left; exact N|right; intros j Hj; exact (H u j Hu Hj)]).
  assert (Iy : in_range (li_labels m) y (scores (fun z => z) d [(length (li_labels m), W)] (fun j => nth j v 0%Q))) by (destruct Oy as [N|H]; [left; exact N|right; intros j Hj; exact (H v j Hv Hj)]).
  assert (Iz : in_range (li_labels m) z (scores (fun z => z) d [(length (li_labels m), W)] (fun j => nth j w 0%Q))).
  { destruct Ox as [N|Hx]; [left; congruence|]. destruct Oy as [N|Hy]; [left; congruence|]. right. intros j Hj. pose proof (Hx u j Hu Hj) as A. pose proof (Hy v j Hv Hj) as B. pose proof (MW j) as K. unfold mixed in K. change (scores (fun z => z) d [(length (li_labels m), W)] (fun j => nth j w 0%Q) j) with (weigh (S d) W (with_bias (fun j => nth j w 0%Q)) j). rewrite K. destruct (Qlt_le_dec 0 t) as [Tp|Tp]; [nra|]. assert (T0 : (t == 0)%Q) by lra. rewrite T0. lra. }
  pose proof (row_vec _ _ Hu) as Vu. pose proof (row_vec _ _ Hv) as Vv. pose proof (row_vec _ _ Hw) as Vw. rewrite Lu, Lw in Vu. rewrite Lv, Lw in Vv. rewrite Lw in Vw.
  destruct (C76_linear m d W x _ Hl HW Vu ltac:(congruence) Ix) as (cx & ox & Px & Kx). destruct (C76_linear m d W y _ Hl HW Vv ltac:(congruence) Iy) as (cy & oy & Py & Ky). destruct (C76_linear m d W z _ Hl HW Vw Nc Iz) as (cz & oz & Pz & Kz).
  rewrite Px in Ex. rewrite Py in Ey. injection Ex as ->. injection Ey as ->. rewrite Pz. cbn. f_equal. exact (chosen_mixed (li_labels m) x y z t _ _ _ c cz Ht Cx Cy ND MW Kx Ky Kz).
Qed.
(** the support vector machine for two classes with the linear kernel *)
Theorem C154_svm : forall dexp dtanh dpow m n, flat_machine m -> convex n (fun _ => True) (svm_predict dexp dtanh dpow m).
Proof.
  intros dexp dtanh dpow m n HM t x y z c (Ht & _ & _ & u & v & w & Hu & Hv & Hw & Lw & M) _ _ Ex Ey.
  assert (N : forall v x, has_row v x -> inst_nodes x = nodelist (map Fin v)) by (intros v' x' H; unfold inst_nodes; rewrite (row_vals _ _ H); reflexivity).
  destruct (flat_values dexp dtanh dpow m t u v w x y z c c HM M (N _ _ Hu) (N _ _ Hv) (N _ _ Hw) Ex Ey) as (a & b & e & Ea & Eb & Ee & MX). pose proof HM as (E2 & _).
  rewrite (two_classes dexp dtanh dpow m x a E2 Ea) in Ex. rewrite (two_classes dexp dtanh dpow m y b E2 Eb) in Ey. rewrite (two_classes dexp dtanh dpow m z e E2 Ee). exact (flat_side t a b e _ c Ht MX Ex Ey).
Qed.
(** ... and what training makes of two classes is such a machine *)
Lemma kernel_mixed dexp dtanh dpow p gamma coef0 t u v w e : p_kernel p = LINEAR -> mixed_rows t u v w -> mixed t (kernel_value dexp dtanh dpow p gamma coef0 e u) (kernel_value dexp dtanh dpow p gamma coef0 e v) (kernel_value dexp dtanh dpow p gamma coef0 e w).
Proof. intros Hk M. unfold kernel_value, SvmSpec.textbook_kernel. rewrite Hk. cbn [SvmSpec.qval]. pose proof (qdot_mixed t u v w e M) as Q. unfold mixed in *. rewrite (KernelProofs.qdot_comm e u), (KernelProofs.qdot_comm e v), (KernelProofs.qdot_comm e w). exact Q. Qed.
Theorem C154_svm_trained : forall dexp dtanh dpow p gamma coef0 C l fuel m l' a b n, train_case dexp dtanh dpow p gamma coef0 C l -> p_kernel p = LINEAR -> classes_of l [a; b] ->
  svm_train dexp dtanh dpow fuel svm_empty l p = Ok (m, l') -> convex n (fun _ => True) (svm_predict dexp dtanh dpow m).
Proof.
  intros dexp dtanh dpow p gamma coef0 C l fuel m l' a b n T Hk HC E t x y z c (Ht & _ & _ & u & v & w & Hu & Hv & Hw & Lw & M) _ _ Ex Ey.
  destruct (KernelViewProps.numbers_qvec x u Hu) as (Fx & Qx). destruct (KernelViewProps.numbers_qvec y v Hv) as (Fy & Qy). destruct (KernelViewProps.numbers_qvec z w Hw) as (Fz & Qz).
  assert (G : forall q, finite_values q -> exists r, svm_predict dexp dtanh dpow m q = side [a; b] (Fin r) /\ exists a' b' rho al, nth_error [a; b] 0 = Some a' /\ nth_error [a; b] 1 = Some b' /\
    svm_solve dexp dtanh dpow p (pair_vectors a' b' l) (pair_signs a' b' l) fuel = Ok (Fin rho, map Fin al) /\ (r == pair_decision dexp dtanh dpow p gamma coef0 a' b' l al rho (qvec q))%Q).
  { intros q Fq. destruct (C73_decision_values dexp dtanh dpow p gamma coef0 C l fuel m l' q [a; b] T HC E Fq) as (vals & Ev & Lv & HV). destruct (HV 0 0 1 eq_refl) as (a' & b' & rho & al & r & Ea & Eb & Es & Er & Vr).
    destruct (C74_votes dexp dtanh dpow p gamma coef0 C l fuel m l' q [a; b] T HC E Fq) as (vals' & k & c' & Ev' & Ec & Ek & _ & Mx & Fi). rewrite Ev in Ev'. injection Ev' as <-. cbn in Lv. destruct vals as [|v0 [|? ?]]; try discriminate Lv. injection Er as ->.
    exists r. split; [|exists a', b', rho, al; auto]. rewrite Ec. unfold side. assert (k < 2) by (change 2 with (length [a; b]); apply nth_error_Some; congruence).
    pose proof (Mx (if dgtb (Fin r) d0 then 0 else 1)) as K. unfold votes, countb in K. change (class_pairs (length [a; b])) with [(0, 1)] in K. cbn [combine filter wins] in K. destruct (dgtb (Fin r) d0), k as [|[|k]]; try lia; cbn in K, Ek |- *; try (injection Ek as ->; reflexivity); lia. }
  destruct (G x Fx) as (r1 & E1 & a1 & b1 & rho & al & A1 & B1 & S1 & V1). destruct (G y Fy) as (r2 & E2 & a2 & b2 & rho2 & al2 & A2 & B2 & S2 & V2). destruct (G z Fz) as (r3 & E3 & a3 & b3 & rho3 & al3 & A3 & B3 & S3 & V3).
  injection A1 as <-. injection A2 as <-. injection A3 as <-. injection B1 as <-. injection B2 as <-. injection B3 as <-. rewrite S1 in S2, S3. injection S2 as <- I2. injection S3 as <- I3.
  assert (al2 = al) by (clear - I2; revert al2 I2; induction al as [|h al IH]; intros [|h' al2] I2; try discriminate I2; [reflexivity|injection I2 as -> I2; f_equal; auto]). subst al2.
  assert (al3 = al) by (clear - I3; revert al3 I3; induction al as [|h al IH]; intros [|h' al3] I3; try discriminate I3; [reflexivity|injection I3 as -> I3; f_equal; auto]). subst al3.
  rewrite E1 in Ex. rewrite E2 in Ey. rewrite E3. apply (flat_side t (Fin r1) (Fin r2) (Fin r3) _ c Ht); [|exact Ex|exact Ey]. exists r1, r2, r3. split; [reflexivity|]. split; [reflexivity|]. split; [reflexivity|].
  rewrite Qx in V1. rewrite Qy in V2. rewrite Qz in V3. unfold pair_decision in *.
  match type of V1 with (_ == qsum (map _ ?L) - _)%Q => pose proof (mixed_sum t (fun tr => sign (fst (fst tr)) * snd (fst tr) * kernel_value dexp dtanh dpow p gamma coef0 (snd tr) u)%Q (fun tr => sign (fst (fst tr)) * snd (fst tr) * kernel_value dexp dtanh dpow p gamma coef0 (snd tr) v)%Q (fun tr => sign (fst (fst tr)) * snd (fst tr) * kernel_value dexp dtanh dpow p gamma coef0 (snd tr) w)%Q L) as MS end.
  unfold mixed in *. rewrite V1, V2, V3. rewrite MS; [ring|]. intros tr _. pose proof (kernel_mixed dexp dtanh dpow p gamma coef0 t u v w (snd tr) Hk M) as K. unfold mixed in K. rewrite K. ring.
Qed.
(** The decision stump on numbers: in the whole box between two queries it gives only their two answers. *)
Theorem C154_stump : forall entropy mid rarr max_item n data fuel t, entropy_finite entropy -> mid_exact mid -> TreeSpec.rarr_perm rarr -> tabular (repeat KCont n) data -> data <> [] ->
  stump_train entropy mid rarr fuel data = Ok t -> forall x y z, in_box x y z -> tree_predict max_item t z = tree_predict max_item t x \/ tree_predict max_item t z = tree_predict max_item t y.
Proof. intros entropy mid rarr max_item n data fuel t He Hm Hr Ht Hne H x y z B. apply cut_between; [|exact B]. exact (stump_shape entropy mid rarr n data fuel t He Hm Hr Ht Hne H). Qed.
Lemma way_box n t x y z : on_the_way n t x y z -> in_box x y z.
Proof.
  intros (Ht & Cx & Cy & u & v & w & Hu & Hv & Hw & Lw & Lu & Lv & M). unfold has_row in *. split; [exact Cx|]. split; [exact Cy|]. rewrite Hu, Hv, Hw, !map_length. split; [exact Lu|]. split; [exact Lv|].
  intros i a b c. rewrite !nth_error_map. destruct (nth_error u i) as [p|] eqn:Ep; [|discriminate]. destruct (nth_error v i) as [q|] eqn:Eq; [|discriminate]. destruct (nth_error w i) as [r|] eqn:Er; [|discriminate]. cbn [option_map]. intros E1 E2 E3. injection E1 as <-. injection E2 as <-. injection E3 as <-.
  assert (Hi : i < length w) by (apply nth_error_Some; congruence). pose proof (M i Hi) as Mi. rewrite (nth_error_nth _ _ 0%Q Ep), (nth_error_nth _ _ 0%Q Eq), (nth_error_nth _ _ 0%Q Er) in Mi. unfold mixed in Mi. right. right. exists p, q, r. split; [reflexivity|]. split; [reflexivity|]. split; [reflexivity|].
  destruct (Qlt_le_dec p q) as [L|L]; [left|right]; split; rewrite Mi; nra.
Qed.
Theorem C154_stump_convex : forall entropy mid rarr max_item n data fuel t, entropy_finite entropy -> mid_exact mid -> TreeSpec.rarr_perm rarr -> tabular (repeat KCont n) data -> data <> [] ->
  stump_train entropy mid rarr fuel data = Ok t -> convex n (fun _ => True) (tree_predict max_item t).
Proof. intros entropy mid rarr max_item n data fuel tr He Hm Hr Ht Hne H t x y z c B _ _ Ex Ey. destruct (C154_stump entropy mid rarr max_item n data fuel tr He Hm Hr Ht Hne H x y z (way_box _ _ _ _ _ B)) as [->| ->]; assumption. Qed.
(** Any tree: two queries that reach the same node bring the whole box between them there. *)
Theorem C154_tree : forall t p x y z, in_box x y z -> stops t p x -> stops t p y -> stops t p z.
Proof.
  intros t p x y z B (Px & Nx) (Py & Ny). split; [apply (box_passes x y z B); assumption|]. revert t Px Py Nx Ny. induction p as [|k p IH]; intros t Px Py Nx Ny i H; cbn [app] in *.
  - cbn [passes] in H. destruct H as (L & R & n & En & _).
    assert (G : forall q, (forall i, ~ passes t [i] q) -> forall j c, nth_error (map t_cond (t_children t)) j = Some c -> ~ satisfied c q).
    { intros q Hq j. induction j as [j IHj] using lt_wf_ind. intros c Ec Hs. apply (Hq j). cbn [passes]. split; [exact L|]. split; [split; [exists c; auto|]; intros j' c' Hj'; apply IHj; exact Hj'|].
      rewrite nth_error_map in Ec. destruct (nth_error (t_children t) j) as [n'|]; [exists n'; auto|discriminate Ec]. }
    destruct R as ((c & Ec & Sc) & _). exact (box_unsatisfied x y z c B (G x Nx i c Ec) (G y Ny i c Ec) Sc).
  - cbn [passes] in Px, Py, H. destruct Px as (L & Rx & n & En & Px). destruct Py as (_ & Ry & n' & En' & Py). rewrite En in En'. injection En' as <-. destruct H as (_ & _ & n' & En' & H). rewrite En in En'. injection En' as <-.
    apply (IH n Px Py) with (i := i); [| |exact H]; intros j Hj; [apply (Nx j)|apply (Ny j)]; cbn [passes]; (split; [exact L|]; split; [assumption|]; exists n; auto).
Qed.
(** Two ways that cross: a classifier whose answers are constant along both gives the same answer on both.  With the corners of a
    square this is exclusive or, which none of the five classifiers above can learn. *)
Theorem C154_crossing : forall n ok predict t s a b c d z p q, convex n ok predict -> on_the_way n t a b z -> on_the_way n s c d z -> ok a -> ok b -> ok c -> ok d ->
  predict a = Ok p -> predict b = Ok p -> predict c = Ok q -> predict d = Ok q -> p = q.
Proof. intros n ok predict t s a b c d z p q HC W1 W2 Oa Ob Oc Od Ea Eb Ec Ed. pose proof (HC _ _ _ _ _ W1 Oa Ob Ea Eb). pose proof (HC _ _ _ _ _ W2 Oc Od Ec Ed). congruence. Qed.
Definition pt2 (a b : Q) : instance := mkInst "" [ACont (Fin a); ACont (Fin b)] None.
Theorem C154_xor : forall ok predict p q, convex 2 ok predict -> (forall x, of_numbers 2 x -> ok x) ->
  predict (pt2 0 0) = Ok p -> predict (pt2 1 1) = Ok p -> predict (pt2 0 1) = Ok q -> predict (pt2 1 0) = Ok q -> p = q.
Proof.
  intros ok predict p q HC HO E1 E2 E3 E4.
  assert (W1 : on_the_way 2 (1#2) (pt2 0 0) (pt2 1 1) (pt2 (1#2) (1#2))) by (split; [lra|]; split; [reflexivity|]; split; [reflexivity|]; exists [0; 0]%Q, [1; 1]%Q, [1#2; 1#2]%Q; repeat (split; [reflexivity|]); intros [|[|i]] Hi; cbn in Hi; try lia; unfold mixed; cbn; reflexivity).
  assert (W2 : on_the_way 2 (1#2) (pt2 0 1) (pt2 1 0) (pt2 (1#2) (1#2))) by (split; [lra|]; split; [reflexivity|]; split; [reflexivity|]; exists [0; 1]%Q, [1; 0]%Q, [1#2; 1#2]%Q; repeat (split; [reflexivity|]); intros [|[|i]] Hi; cbn in Hi; try lia; unfold mixed; cbn; reflexivity).
  assert (O : forall a b, ok (pt2 a b)) by (intros a b; apply HO; exists [a; b]; split; reflexivity). apply (C154_crossing 2 ok predict _ _ _ _ _ _ _ p q HC W1 W2); auto.
Qed.
(** The nearest neighbour, the decision tree and the quadratic discriminant: another answer in the middle. *)
Definition three : ilist := [pt "a" 0; pt "b" 10; pt "a" 20].
Lemma way1 : on_the_way 1 (1#2) (pt "" 0) (pt "" 20) (pt "" 10).
Proof. split; [lra|]. split; [reflexivity|]. split; [reflexivity|]. exists [0]%Q, [20]%Q, [10]%Q. repeat (split; [reflexivity|]). intros [|i] Hi; cbn in Hi; try lia. unfold mixed. cbn. reflexivity. Qed.
Theorem C154_knn_refuted : exists l, ~ convex 1 (fun _ => True) (knn_predict eucl l 1).
Proof. exists three. intros H. specialize (H _ _ _ _ "a" way1 I I eq_refl eq_refl). vm_compute in H. discriminate H. Qed.
Theorem C154_tree_refuted : exists l t, tree_train ex_max ex_entropy ex_mid ex_rarr false d0 0 10 l = Ok t /\ ~ convex 1 (fun _ => True) (tree_predict ex_max t).
Proof. exists three. eexists. split; [vm_compute; reflexivity|]. intros H. specialize (H _ _ _ _ "a" way1 I I eq_refl eq_refl). vm_compute in H. discriminate H. Qed.
Definition rise (d : dbl) : dbl := dsub d d1.
Definition narrow : ilist := [pt "a" 9; pt "a" 11; pt "b" 0; pt "b" 20].
Theorem C154_qda_refuted : exists l m, qda_train inv1 (fun c => match c with [[v]] => v | _ => NaN end) rise qda_empty l = Ok m /\ ~ convex 1 (fun _ => True) (qda_predict m).
Proof. exists narrow. eexists. split; [vm_compute; reflexivity|]. intros H. specialize (H (1#2) (pt "" (-40)) (pt "" 60) (pt "" 10) "b"). 
  assert (W : on_the_way 1 (1#2) (pt "" (-40)) (pt "" 60) (pt "" 10)) by (split; [lra|]; split; [reflexivity|]; split; [reflexivity|]; exists [-40]%Q, [60]%Q, [10]%Q; repeat (split; [reflexivity|]); intros [|i] Hi; cbn in Hi; try lia; unfold mixed; cbn; reflexivity).
  specialize (H W I I eq_refl eq_refl). vm_compute in H. discriminate H. Qed.
(** Two of the classifiers of the theorems, with the hypotheses met and both answers present; and the stump the answers of which differ. *)
Example C154_case : (exists m, lda_train inv1 (fun _ => d0) lda_empty ex_d1 = Ok m /\ lda_predict m (pt "" 9) = Ok "b" /\ lda_predict m (pt "" 1) = Ok "a") /\
  Forall2 reads_numbers ex_d1 [("a", [0]); ("a", [2]); ("b", [10]); ("b", [12])]%Q /\
  (exists m, kmeans_train (mkKM [] []) ex_d1 = Ok m /\ kmeans_predict eucl m (pt "" 5) = Ok "a" /\ kmeans_predict eucl m (pt "" 7) = Ok "b") /\
  (exists t, stump_train ex_entropy ex_mid ex_rarr 5 ex_d1 = Ok t /\ tree_predict ex_max t (pt "" 5) = Ok "a" /\ tree_predict ex_max t (pt "" 7) = Ok "b") /\
  tabular (repeat KCont 1) ex_d1 /\ in_box (pt "" 5) (pt "" 7) (pt "" 6).
Proof.
  split; [eexists; split; [vm_compute; reflexivity|split; vm_compute; reflexivity]|]. split; [repeat constructor|]. split; [eexists; split; [vm_compute; reflexivity|split; vm_compute; reflexivity]|]. split; [eexists; split; [vm_compute; reflexivity|split; vm_compute; reflexivity]|].
  split; [repeat (constructor; [constructor; [eexists; reflexivity|constructor]|]); constructor|]. split; [reflexivity|]. split; [reflexivity|]. split; [reflexivity|]. split; [reflexivity|]. intros [|i] a b c Ea Eb Ec; [|destruct i; discriminate Ea]. injection Ea as <-. injection Eb as <-. injection Ec as <-. right. right. exists 5%Q, 7%Q, 6%Q. repeat (split; [reflexivity|]). left. split; lra.
Qed.
Example C154_svm_case : exists m l', svm_train idd idd idp 20 svm_empty [pt "a" 0; pt "b" 2] par137 = Ok (m, l') /\ flat_machine m /\ svm_predict idd idd idp m (pt "" (1#2)) = Ok "a" /\ svm_predict idd idd idp m (pt "" 3) = Ok "b" /\ classes_of [pt "a" 0; pt "b" 2] ["a"; "b"].
Proof.
  do 2 eexists. split; [vm_compute; reflexivity|]. split; [|split; [vm_compute; reflexivity|split; [vm_compute; reflexivity|split; [repeat constructor|intros c; cbn; tauto]]]].
  split; [reflexivity|]. split; [eexists; split; reflexivity|]. split; [|split; repeat constructor; eexists; reflexivity]. cbn [m_sv]. repeat constructor; [exists [0]%Q|exists [2]%Q]; vm_compute; reflexivity.
Qed.
Print Assumptions C154_lda.
Print Assumptions C154_kmeans.
Print Assumptions C154_linear.
Print Assumptions C154_svm.
Print Assumptions C154_svm_trained.
Print Assumptions C154_stump.
Print Assumptions C154_stump_convex.
Print Assumptions C154_tree.
Print Assumptions C154_crossing.
Print Assumptions C154_xor.
Print Assumptions C154_knn_refuted.
Print Assumptions C154_tree_refuted.
Print Assumptions C154_qda_refuted.
