(** Order and units of the training data of naive Bayes, k-means and k-nearest neighbours: proofs. *)
From Coq Require Import String ZArith QArith Bool Lia Lqa Permutation Sorted Arith List.
From Verif Require Import Base Spec BaseLemmas DblLemmas SortLemmas AttrModel AttrProofs DataSetModel InstanceListModel PartitionModel PerformanceModel
  StatSpec ListSpec ListProofs PartitionProofs CovProofs CovAllProofs PerformanceProofs DistanceModel DistanceSpec DistanceProofs
  GaussianModel GaussianSpec GaussianProofs DiscrimSpec DiscrimProofs BayesProofs TreeSpec TreeProofs TreeBestProofs InvSpec TreeInvProofs TreeInvGrowProofs ModelInvSpec ModelInvProofs.
Import ListNotations.
Local Open Scope string_scope.
Local Open Scope list_scope.
Local Open Scope nat_scope.

(** * k nearest neighbours: order *)
Section Split.
  Context {A : Type} (d : A -> dbl) (z : A).
  Let lower x := dltb (d x) (d z).
  Let upper x := dltb (d z) (d x).
  Let same x := negb (lower x) && negb (upper x).
  Lemma split3 s : is_nan (d z) = false -> Forall (fun x => is_nan (d x) = false) s -> StronglySorted (fun a b => dltb (d b) (d a) = false) s ->
    s = filter lower s ++ filter same s ++ filter upper s.
  Proof.
    intros Hz F. induction s as [|x s IH]; intros HS; [reflexivity|]. inversion F as [|? ? Fx F']; subst. apply StronglySorted_inv in HS as [HS1 HS2]. specialize (IH F' HS1).
    pose proof dltb_swo as W. rewrite Forall_forall in HS2, F'.
    assert (NL : lower x = false -> filter lower s = []).
    { intros E. assert (G : forall y, In y s -> lower y = false) by (intros y Hy; apply (swo_incomp _ _ W (d y) (d x) (d z)); auto).
      clear -G. induction s as [|y s IHs]; [reflexivity|]. cbn [filter]. rewrite (G y (or_introl eq_refl)). apply IHs. intros; apply G; right; assumption. }
    assert (NS : upper x = true -> filter same s = []).
    { intros E. assert (G : forall y, In y s -> same y = false).
      { intros y Hy. unfold same. assert (U : upper y = true).
        { unfold upper in *. destruct (dltb (d z) (d y)) eqn:K; [reflexivity|]. rewrite (swo_incomp _ _ W (d z) (d y) (d x)) in E; auto. }
        rewrite U. apply andb_false_r. }
      clear -G. induction s as [|y s IHs]; [reflexivity|]. cbn [filter]. rewrite (G y (or_introl eq_refl)). apply IHs. intros; apply G; right; assumption. }
    cbn [filter]. destruct (lower x) eqn:EL.
    - assert (U : upper x = false) by (apply (lt_asym _ _ W (d x) (d z)); assumption). assert (Sx : same x = false) by (unfold same; rewrite EL; reflexivity). rewrite U, Sx. cbn [app]. f_equal. exact IH.
    - rewrite (NL eq_refl) in *. cbn [app] in *. destruct (upper x) eqn:EU.
      + assert (Sx : same x = false) by (unfold same; rewrite EU; apply andb_false_r). rewrite Sx. rewrite (NS eq_refl) in *. cbn [app] in *. f_equal. exact IH.
      + assert (Sx : same x = true) by (unfold same; rewrite EL, EU; reflexivity). rewrite Sx. cbn [app]. f_equal. exact IH.
  Qed.
End Split.
Lemma firstn_same_labels {A} (lab : A -> string) c (l : list A) n : (forall x, In x l -> lab x = c) -> n <= length l -> map lab (firstn n l) = repeat c n.
Proof.
  revert l. induction n as [|n IH]; intros [|x l] H L; cbn in L; try lia; [reflexivity|reflexivity|]. cbn [firstn map repeat]. rewrite (H x (or_introl eq_refl)), IH; [reflexivity|intros; apply H; right; assumption|lia].
Qed.
Lemma deq_incomp a b : is_nan a = false -> is_nan b = false -> dltb a b = false -> dltb b a = false -> deq a b.
Proof.
  intros Ha Hb H1 H2. destruct a as [p| | |], b as [q| | |]; cbn in *; try discriminate; try exact I.
  apply dltb_fin_false in H1, H2. lra.
Qed.
Lemma cut_labels (d : instance -> dbl) k el el' : Permutation el el' -> Forall (fun x => is_nan (d x) = false) el -> decided d el k ->
  Permutation (map label (firstn k (ssort (fun x y => dltb (d x) (d y)) el))) (map label (firstn k (ssort (fun x y => dltb (d x) (d y)) el'))).
Proof.
  intros P F D. assert (F' : Forall (fun x => is_nan (d x) = false) el') by (rewrite Forall_forall in *; intros x Hx; apply F, (Permutation_in _ (Permutation_sym P) Hx)).
  pose proof (swo_key _ _ d dltb_swo) as W. set (lt := fun x y => dltb (d x) (d y)) in *. fold lt in W.
  set (s := ssort lt el). set (s' := ssort lt el').
  pose proof (ssort_perm lt el) as Ps. pose proof (ssort_perm lt el') as Ps'. fold s in Ps. fold s' in Ps'.
  assert (PP : Permutation s s') by (rewrite <- Ps, <- Ps'; exact P).
  pose proof (ssort_sorted _ _ W el F) as HS. pose proof (ssort_sorted _ _ W el' F') as HS'. fold s in HS. fold s' in HS'.
  assert (Fs : Forall (fun x => is_nan (d x) = false) s) by (rewrite Forall_forall in *; intros x Hx; apply F, (Permutation_in _ (Permutation_sym Ps) Hx)).
  assert (Fs' : Forall (fun x => is_nan (d x) = false) s') by (rewrite Forall_forall in *; intros x Hx; apply F', (Permutation_in _ (Permutation_sym Ps') Hx)).
  destruct k as [|k]; [reflexivity|].
  destruct (Nat.le_gt_cases (length s) (S k)) as [L|L].
  { rewrite !firstn_all2; [apply Permutation_map, PP| |exact L]. rewrite <- (Permutation_length PP). exact L. }
  destruct (nth_error s k) as [z|] eqn:Ez; [|apply nth_error_None in Ez; lia].
  assert (Iz : In z s) by (eapply nth_error_In, Ez). assert (Nz : is_nan (d z) = false) by (rewrite Forall_forall in Fs; apply Fs, Iz).
  pose proof (split3 d z s Nz Fs HS) as E3. pose proof (split3 d z s' Nz Fs' HS') as E3'.
  set (low := fun x => dltb (d x) (d z)) in *. set (up := fun x => dltb (d z) (d x)) in *. set (sm := fun x => negb (low x) && negb (up x)) in *.
  pose proof (filter_perm low _ _ PP) as PA. pose proof (filter_perm sm _ _ PP) as PB.
  set (a := length (filter low s)). set (b := length (filter sm s)).
  assert (La : length (filter low s') = a) by (unfold a; symmetry; apply Permutation_length, PA). assert (Lb : length (filter sm s') = b) by (unfold b; symmetry; apply Permutation_length, PB).
  assert (Zl : low z = false) by (apply (swo_irrefl _ _ dltb_swo), Nz). assert (Zu : up z = false) by (apply (swo_irrefl _ _ dltb_swo), Nz).
  assert (Ha : a <= k).
  { destruct (Nat.le_gt_cases a k) as [G|G]; [exact G|]. rewrite E3, nth_error_app1 in Ez by (fold a; exact G). apply nth_error_In, filter_In in Ez as [_ Ez]. congruence. }
  assert (Hb : S k <= a + b).
  { destruct (Nat.le_gt_cases (S k) (a + b)) as [G|G]; [exact G|]. rewrite E3, app_assoc, nth_error_app2 in Ez by (rewrite app_length; fold a b; lia). apply nth_error_In, filter_In in Ez as [_ Ez]. congruence. }
  assert (C : forall t, t = filter low t ++ filter sm t ++ filter up t -> length (filter low t) = a -> length (filter sm t) = b -> firstn (S k) t = filter low t ++ firstn (S k - a) (filter sm t)).
  { intros t Et L1 L2. rewrite Et at 1. rewrite firstn_app, L1, (firstn_all2 (filter low t)) by lia. f_equal. rewrite firstn_app, L2. replace (S k - a - b) with 0 by lia. cbn [firstn]. apply app_nil_r. }
  rewrite (C s E3 eq_refl eq_refl), (C s' E3' La Lb), !map_app. apply Permutation_app; [apply Permutation_map, PA|].
  destruct (Nat.eq_dec (S k) (a + b)) as [Eq|Ne].
  { rewrite !firstn_all2; [apply Permutation_map, PB|fold b in Lb; rewrite Lb; lia|fold b; lia]. }
  assert (NA : nearer d el z = a) by (unfold nearer, a; apply Permutation_length, filter_perm, Ps).
  assert (NB : not_farther d el z = a + b).
  { unfold not_farther. rewrite (Permutation_length (filter_perm (fun y => negb (dltb (d z) (d y))) _ _ Ps)).
    assert (G : forall t, Forall (fun x => is_nan (d x) = false) t -> length (filter (fun y => negb (dltb (d z) (d y))) t) = length (filter low t) + length (filter sm t)).
    { induction t as [|x t IHt]; intros Ft; [reflexivity|]. inversion Ft as [|? ? Fx Ft']; subst. cbn [filter]. unfold sm at 1. fold (up x).
      destruct (low x) eqn:EL, (up x) eqn:EU; cbn [negb andb length]; rewrite ?IHt by exact Ft'; try lia.
      unfold low, up in *. rewrite (lt_asym _ _ dltb_swo (d x) (d z)) in EU; auto; discriminate. }
    apply G, Fs. }
  assert (LB : forall x, In x s -> sm x = true -> label x = label z).
  { intros x Hx Sx. symmetry. unfold sm in Sx. apply andb_true_iff in Sx as [S1 S2]. apply negb_true_iff in S1, S2.
    apply D; [exact (Permutation_in _ (Permutation_sym Ps) Iz)|exact (Permutation_in _ (Permutation_sym Ps) Hx)| |lia].
    apply deq_incomp; [exact Nz|rewrite Forall_forall in Fs; apply Fs, Hx|exact S2|exact S1]. }
  rewrite !(firstn_same_labels label (label z)); [reflexivity| |lia| |fold b; lia].
  - intros x Hx. apply filter_In in Hx as [Hx Sx]. apply LB; [exact (Permutation_in _ (Permutation_sym PP) Hx)|exact Sx].
  - intros x Hx. apply filter_In in Hx as [Hx Sx]. apply LB; assumption.
Qed.
Lemma knn_of_labels dist dist' data data' k q q' ns ns' : nearest dist data k q = Ok ns -> nearest dist' data' k q' = Ok ns' -> composite q = composite q' ->
  Permutation (map label ns) (map label ns') ->
  knn_predict dist data k q = knn_predict dist' data' k q' /\ knn_probability dist data k q = knn_probability dist' data' k q'.
Proof.
  intros E E' Hc P. unfold knn_predict, knn_probability. rewrite E, E'. cbn [bind]. rewrite !class_distribution_cofl.
  rewrite (cofl_perm _ _ P). split; [|reflexivity].
  assert (L : length ns = length ns') by (apply Permutation_length in P; rewrite !map_length in P; exact P). rewrite <- L.
  unfold isComposite, possible_labels. rewrite <- Hc. destruct (composite q) as [ls|]; cbn [andb]; [destruct (Nat.eqb (length ns) 0); [reflexivity|]|]; f_equal; unfold get_maximum;
  change (class_labels ns) with (map label ns); change (class_labels ns') with (map label ns'); change (cmax (cofl (map label ns)) = cmax (cofl (map label ns'))); rewrite (cofl_perm _ _ P); reflexivity.
Qed.
Lemma eligible_comp q q' x y : composite q = composite q' -> label x = label y -> eligible q x = eligible q' y.
Proof. intros Hc Hl. unfold eligible, isComposite, possible_labels. rewrite Hc, Hl. destruct (composite q'); reflexivity. Qed.
Lemma knn_order dist data data' k q (d : instance -> dbl) :
  (forall x, In x data -> may_answer q x -> dist x q = Ok (d x) /\ is_nan (d x) = false) ->
  Permutation data data' -> decided d (filter (eligible q) data) (Z.to_nat k) ->
  knn_predict dist data k q = knn_predict dist data' k q /\ knn_probability dist data k q = knn_probability dist data' k q.
Proof.
  intros H P D. assert (H' : forall x, In x data' -> may_answer q x -> dist x q = Ok (d x) /\ is_nan (d x) = false) by (intros x Hx; apply H, (Permutation_in _ (Permutation_sym P) Hx)).
  apply (knn_of_labels _ _ _ _ _ _ _ _ _ (nearest_total dist data k q d H) (nearest_total dist data' k q d H') eq_refl).
  apply cut_labels; [apply filter_perm, P| |exact D]. apply Forall_forall. intros x Hx. apply filter_In in Hx as [Hx He]. apply H; [exact Hx|apply eligible_iff, He].
Qed.

(** * Euclidean distances in a common unit *)
Lemma gapq_rescale f a b a' b' : converted f a a' -> converted f b b' -> (fst f * fst f == 1)%Q \/ (exists v, a = ACont v) ->
  (gapq a' b' == fst f * fst f * gapq a b)%Q.
Proof.
  intros Ha Hb HK.
  assert (Hcase : forall c c', converted f c c' -> c = c' /\ (forall v, c <> ACont (Fin v)) \/ exists v w, c = ACont (Fin v) /\ c' = ACont (Fin w) /\ (w == fst f * v + snd f)%Q).
  { intros c c' H. destruct c as [v|v|v i m|[v| | |]], c' as [w|w|w j m'|[w| | |]]; cbn in H; try discriminate H; try (left; split; [exact H|discriminate]).
    right. exists v, w. auto. }
  destruct (Hcase a a' Ha) as [[<- Na]|(v & w & -> & -> & E)], (Hcase b b' Hb) as [[<- Nb]|(v' & w' & -> & -> & E')].
  - destruct HK as [K|[v ->]]; [rewrite K; ring|]. destruct v as [v| | |]; [destruct (Na v eq_refl)| | |]; cbn; destruct b as [| | |[]]; cbn; ring.
  - destruct a as [| | |[v| | |]]; cbn; try ring. destruct (Na v eq_refl).
  - destruct b as [| | |[x| | |]]; cbn; try ring. destruct (Nb x eq_refl).
  - cbn [gapq]. rewrite E, E'. ring.
Qed.
Lemma distq_rescale a : forall (u : units) xs ys xs' ys', (forall i, (fst (u i) == a)%Q) -> length xs = length ys -> length xs = length xs' -> length ys = length ys' ->
  (forall i c c', nth_error xs i = Some c -> nth_error xs' i = Some c' -> converted (u i) c c') ->
  (forall i c c', nth_error ys i = Some c -> nth_error ys' i = Some c' -> converted (u i) c c') ->
  (a * a == 1)%Q \/ Forall (fun c => exists v, c = ACont v) xs ->
  (distq xs' ys' == a * a * distq xs ys)%Q.
Proof.
  intros u xs. revert u. induction xs as [|x xs IH]; intros u [|y ys] [|x' xs'] [|y' ys'] Hu L1 L2 L3 Cx Cy HK; try discriminate; [unfold distq; cbn; ring|].
  rewrite !distq_cons. rewrite (IH (fun i => u (S i)) ys xs' ys'); [| |injection L1 as ->; reflexivity|injection L2 as ->; reflexivity|injection L3 as ->; reflexivity| | |].
  - rewrite (gapq_rescale (u 0) x y x' y' (Cx 0 _ _ eq_refl eq_refl) (Cy 0 _ _ eq_refl eq_refl)); [rewrite (Hu 0); ring|].
    rewrite (Hu 0). destruct HK as [HK|HK]; [left; exact HK|right; inversion HK; assumption].
  - intros i. apply Hu.
  - intros i. apply (Cx (S i)).
  - intros i. apply (Cy (S i)).
  - destruct HK as [HK|HK]; [left; exact HK|right; inversion HK; assumption].
Qed.
Lemma rescaled_finite u x y : rescaled u x y -> Forall finite (attrs x) -> Forall finite (attrs y).
Proof.
  intros (_ & _ & L & C) F. apply Forall_forall. intros b Hb. apply In_nth_error in Hb as [i Hi].
  destruct (nth_error (attrs x) i) as [a|] eqn:Ea; [|apply nth_error_None in Ea; assert (i < length (attrs y)) by (apply nth_error_Some; congruence); lia].
  pose proof (C i a b Ea Hi) as K. intros v ->. rewrite Forall_forall in F. pose proof (F a (nth_error_In _ _ Ea)) as Fa.
  destruct v as [v| | |]; [exists v; reflexivity| | |]; cbn in K; destruct a as [| | |[w| | |]]; try discriminate K; cbn in K; try discriminate K; destruct (Fa _ eq_refl) as [q Eq]; discriminate Eq.
Qed.
Lemma eucl_rescale a u x y x' y' : common_factor a u -> (a * a == 1)%Q \/ only_numbers x ->
  attr_count x = attr_count y -> Forall finite (attrs x) -> Forall finite (attrs y) -> rescaled u x x' -> rescaled u y y' ->
  exists r r', eucl x y = Ok (Fin r) /\ eucl x' y' = Ok (Fin r') /\ (r' == a * a * r)%Q.
Proof.
  intros Hu HK L Fx Fy Rx Ry. pose proof (rescaled_finite _ _ _ Rx Fx) as Fx'. pose proof (rescaled_finite _ _ _ Ry Fy) as Fy'.
  destruct Rx as (_ & _ & Lx & Cx). destruct Ry as (_ & _ & Ly & Cy). unfold attr_count in L.
  destruct (eucl_fin x y L Fx Fy) as (r & E & Hr). destruct (eucl_fin x' y') as (r' & E' & Hr'); [lia|assumption|assumption|].
  exists r, r'. split; [exact E|]. split; [exact E'|]. rewrite Hr', Hr. apply (distq_rescale a u); assumption.
Qed.

(** * k nearest neighbours: units *)
Lemma Forall2_firstn {A B} (R : A -> B -> Prop) n : forall l l', Forall2 R l l' -> Forall2 R (firstn n l) (firstn n l').
Proof. induction n as [|n IH]; intros l l' H; [constructor|]. destruct H; cbn [firstn]; constructor; auto. Qed.
Definition eu (q x : instance) : dbl := match eucl x q with Ok v => v | _ => d0 end.
Lemma knn_units a u data data' k q q' : ~ (a == 0)%Q -> common_factor a u -> (a * a == 1)%Q \/ Forall only_numbers data ->
  Forall finite (attrs q) -> Forall (fun x => attr_count x = attr_count q /\ Forall finite (attrs x)) data ->
  Forall2 (rescaled u) data data' -> rescaled u q q' ->
  exists ns ns', nearest eucl data k q = Ok ns /\ nearest eucl data' k q' = Ok ns' /\ Forall2 (rescaled u) ns ns'.
Proof.
  intros Ha Hu HK Fq Fd HR Rq.
  assert (G : forall x y, In x data -> rescaled u x y -> exists r r', eucl x q = Ok (Fin r) /\ eucl y q' = Ok (Fin r') /\ (r' == a * a * r)%Q).
  { intros x y Hx R. rewrite Forall_forall in Fd. destruct (Fd x Hx) as (L & Fx). apply (eucl_rescale a u x q y q' Hu); try assumption.
    destruct HK as [HK|HK]; [left; exact HK|right; rewrite Forall_forall in HK; apply HK, Hx]. }
  assert (I1 : forall x, In x data -> exists y, In y data' /\ rescaled u x y).
  { intros x Hx. apply In_nth_error in Hx as [i Hi]. destruct (Forall2_nth_ex _ _ _ _ _ HR Hi) as (y & Hy & R). exists y. split; [eapply nth_error_In, Hy|exact R]. }
  assert (I2 : forall y, In y data' -> exists x, In x data /\ rescaled u x y).
  { intros y Hy. apply In_nth_error in Hy as [i Hi]. destruct (Forall2_nth_ex _ _ _ _ _ (Forall2_flip _ _ _ HR) Hi) as (x & Hx & R). exists x. split; [eapply nth_error_In, Hx|exact R]. }
  assert (N : forall x, In x data -> may_answer q x -> eucl x q = Ok (eu q x) /\ is_nan (eu q x) = false).
  { intros x Hx _. destruct (I1 x Hx) as (y & _ & R). destruct (G x y Hx R) as (r & r' & E & _). unfold eu. rewrite E. split; reflexivity. }
  assert (N' : forall x, In x data' -> may_answer q' x -> eucl x q' = Ok (eu q' x) /\ is_nan (eu q' x) = false).
  { intros y Hy _. destruct (I2 y Hy) as (x & Hx & R). destruct (G x y Hx R) as (r & r' & _ & E & _). unfold eu. rewrite E. split; reflexivity. }
  eexists _, _. split; [apply (nearest_total eucl data k q _ N)|]. split; [apply (nearest_total eucl data' k q' _ N')|].
  apply Forall2_firstn. set (rel := fun x y => rescaled u x y /\ In x data).
  assert (SR : Forall2 rel (ssort (fun x y => dltb (eu q x) (eu q y)) (filter (eligible q) data)) (ssort (fun x y => dltb (eu q' x) (eu q' y)) (filter (eligible q') data'))).
  { apply ssort_rel.
    - intros x x' y y' (R1 & H1) (R2 & H2). destruct (G x x' H1 R1) as (r1 & r1' & E1 & E1' & V1). destruct (G y y' H2 R2) as (r2 & r2' & E2 & E2' & V2).
      unfold eu. rewrite E1, E1', E2, E2'. assert (P : (0 < a * a)%Q) by (destruct (Q_dec a 0) as [[?|?]|?]; [nra|nra|contradiction]).
      destruct (Qlt_le_dec r1 r2) as [L|L].
      + rewrite (proj2 (dltb_fin r1 r2) L). symmetry. apply dltb_fin. rewrite V1, V2. apply Qmult_lt_l; assumption.
      + rewrite (proj2 (dltb_fin_false r1 r2) L). symmetry. apply dltb_fin_false. rewrite V1, V2. apply Qmult_le_l; assumption.
    - assert (Q1 : forall D : list instance, (forall x, In x D -> In x data) -> forall D', Forall2 (rescaled u) D D' -> Forall2 rel (filter (eligible q) D) (filter (eligible q') D')).
      { intros D ID D' F. induction F as [|x y D D' R _ IH]; [constructor|]. cbn [filter]. rewrite <- (eligible_comp q q' x y (proj1 (proj2 Rq)) (proj1 R)).
        assert (IH' := IH (fun z Hz => ID z (or_intror Hz))). destruct (eligible q x); [constructor; [split; [exact R|apply ID; left; reflexivity]|exact IH']|exact IH']. }
      apply Q1; [auto|exact HR]. }
  clear -SR. induction SR as [|x y l l' R _ IH]; constructor; [apply R|exact IH].
Qed.

(** * k-means *)
Definition mean_kinds (shape : list kind) : Prop := Forall (fun kd => kd = KDisc \/ kd = KCont) shape.
Lemma attr_average_same shape u k l l' : mean_kinds shape -> k < length shape -> tabular shape l -> l <> [] -> same_data u l l' ->
  exists a b, attr_average (Z.of_nat k) l = Ok (Some a) /\ attr_average (Z.of_nat k) l' = Ok (Some b) /\ converted (u k) a b /\ finite a.
Proof.
  intros HM Hk T N HS. pose proof (same_data_tab _ _ _ _ HS T) as T'. pose proof (same_data_ne _ _ _ HS N) as N'.
  destruct (nth_error shape k) as [kd|] eqn:Ek; [|apply nth_error_None in Ek; lia].
  unfold mean_kinds in HM. rewrite Forall_forall in HM. destruct (HM kd (nth_error_In _ _ Ek)) as [->| ->].
  - assert (G : forall l0, tabular shape l0 -> l0 <> [] -> attr_average (Z.of_nat k) l0 = Ok (Some (ADisc (get_maximum (map (colD (Z.of_nat k)) l0))))).
    { intros l0 T0 N0. destruct l0 as [|x l0]; [congruence|]. unfold attr_average. change (atn (x :: l0) 0) with (@Ok instance x). cbn [bind].
      inversion T0 as [|? ? Tx _]; subst. pose proof (typed_disc _ x k Tx Ek) as Fx. apply get_attr_ok in Fx. rewrite Fx. cbn [bind isDiscrete].
      rewrite (disc_column _ _ _ (tab_text _ _ _ T0 Ek)). reflexivity. }
    rewrite (G l T N), (G l' T' N'). eexists _, _. split; [reflexivity|]. split; [reflexivity|]. split; [|intros v E; discriminate E]. cbn [converted]. f_equal. unfold get_maximum.
    change (cmax (cofl (map (colD (Z.of_nat k)) l)) = cmax (cofl (map (colD (Z.of_nat k)) l'))). rewrite (cofl_perm _ _ (disc_values_perm shape u k l l' Ek T HS)). reflexivity.
  - destruct (attr_average_cont (Z.of_nat k) l (map (colC (Z.of_nat k)) l) N) as (a & Ea & _ & Va); [rewrite map_map; apply (tab_num shape l k T Ek)|].
    destruct (attr_average_cont (Z.of_nat k) l' (map (colC (Z.of_nat k)) l') N') as (b & Eb & _ & Vb); [rewrite map_map; apply (tab_num shape l' k T' Ek)|].
    rewrite Ea, Eb. eexists _, _. split; [reflexivity|]. split; [reflexivity|]. split; [|intros v E; injection E as <-; eexists; reflexivity]. cbn [converted]. rewrite Vb, Va. rewrite <- (same_data_len _ _ _ HS).
    assert (Pn : (0 < qofn (length l))%Q) by (apply qofn_pos; destruct l; [congruence|cbn; lia]).
    assert (E : (qsum (map (colC (Z.of_nat k)) l') == fst (u k) * qsum (map (colC (Z.of_nat k)) l) + snd (u k) * qofn (length l))%Q).
    { destruct HS as (p & P & F). rewrite (qsum_perm _ _ (Permutation_map (colC (Z.of_nat k)) P)), (Permutation_length P). pose proof (tab_perm _ _ _ P T) as Tp. clear -F Tp Ek.
      induction F as [|x y p l' R _ IH]; [change (0 == fst (u k) * 0 + snd (u k) * 0)%Q; ring|]. inversion Tp as [|? ? Tx Tp']; subst. cbn [map length]. change (qsum (?h :: ?t)) with (h + qsum t)%Q.
      change (qsum (?h :: ?t)) with (h + qsum t)%Q. rewrite (IH Tp'), (rescaled_colC u shape x y k R Tx Ek).
      assert (QS : (qofn (S (length p)) == 1 + qofn (length p))%Q) by (unfold qofn; rewrite Nat2Z.inj_succ, <- Z.add_1_l, inject_Z_plus; reflexivity). rewrite QS. ring. }
    rewrite E. field. lra.
Qed.
Lemma average_same shape u l l' : mean_kinds shape -> tabular shape l -> l <> [] -> same_data u l l' -> (forall x y, In x l -> In y l -> label x = label y) ->
  exists a b, average_instance l = Ok a /\ average_instance l' = Ok b /\ rescaled u a b /\ length (attrs a) = length shape /\ Forall finite (attrs a) /\
    (forall x, In x l -> label a = label x) /\ typed shape a.
Proof.
  intros HM T N HS HL. pose proof (same_data_tab _ _ _ _ HS T) as T'. pose proof (same_data_ne _ _ _ HS N) as N'.
  assert (G : forall n, n <= length shape -> exists aa bb, mapM (fun i => attr_average (Z.of_nat i) l) (seq (length shape - n) n) = Ok (map Some aa) /\
      mapM (fun i => attr_average (Z.of_nat i) l') (seq (length shape - n) n) = Ok (map Some bb) /\ length aa = n /\ length bb = n /\ Forall finite aa /\
      Forall2 has_kind (skipn (length shape - n) shape) aa /\
      forall i a b, nth_error aa i = Some a -> nth_error bb i = Some b -> converted (u (length shape - n + i)) a b).
  { induction n as [|n IH]; intros Hn.
    - exists [], []. rewrite Nat.sub_0_r, skipn_all. repeat split; try constructor. intros [|i] a b E; discriminate E.
    - destruct (IH ltac:(lia)) as (aa & bb & E1 & E2 & L1 & L2 & F & K & C). set (o := length shape - S n) in *. replace (length shape - n) with (S o) in * by lia.
      destruct (attr_average_same shape u o l l' HM ltac:(lia) T N HS) as (a & b & Ea & Eb & Cab & Fa).
      exists (a :: aa), (b :: bb). cbn [seq mapM map]. rewrite Ea, Eb. cbn [bind]. rewrite E1, E2. cbn [bind length]. repeat split; try congruence; [constructor; assumption| |].
      + destruct (nth_error shape o) as [kd|] eqn:Ek; [|apply nth_error_None in Ek; lia].
        assert (Es : skipn o shape = kd :: skipn (S o) shape).
        { clear -Ek. clearbody o. revert o Ek. induction shape as [|k0 sh IHo]; intros [|o] E; try discriminate E; [injection E as ->; reflexivity|]. cbn [skipn]. exact (IHo o E). }
        rewrite Es. constructor; [|exact K].
        unfold mean_kinds in HM. rewrite Forall_forall in HM. destruct (HM kd (nth_error_In _ _ Ek)) as [->| ->].
        * assert (X : exists v, a = ADisc v); [|exact X]. unfold attr_average in Ea. destruct l as [|x l]; [congruence|]. change (atn (x :: l) 0) with (@Ok instance x) in Ea. cbn [bind] in Ea.
          inversion T as [|? ? Tx _]; subst. pose proof (typed_disc _ x o Tx Ek) as Fx. apply get_attr_ok in Fx. rewrite Fx in Ea. cbn [bind isDiscrete] in Ea.
          apply bind_ok in Ea as (vs & _ & Ea). injection Ea as <-. eexists; reflexivity.
        * assert (X : exists v, a = ACont v); [|destruct X as [v ->]; destruct (Fa v eq_refl) as [q ->]; exists q; reflexivity]. unfold attr_average in Ea. destruct l as [|x l]; [congruence|]. change (atn (x :: l) 0) with (@Ok instance x) in Ea. cbn [bind] in Ea.
          inversion T as [|? ? Tx _]; subst. pose proof (typed_cont _ x o Tx Ek) as Fx. apply get_attr_ok in Fx. rewrite Fx in Ea. cbn [bind isDiscrete isContinuous] in Ea.
          apply bind_ok in Ea as (vs & _ & Ea). injection Ea as <-. eexists; reflexivity.
      + intros [|i] a' b' Ha Hb; [injection Ha as <-; injection Hb as <-; rewrite Nat.add_0_r; exact Cab|]. replace (o + S i) with (S o + i) by lia. apply C; assumption. }
  destruct (G (length shape) (le_n _)) as (aa & bb & E1 & E2 & L1 & L2 & F & K & C). rewrite Nat.sub_diag in *.
  assert (HD : forall l0, l0 <> [] -> tabular shape l0 -> exists x, atn l0 0 = Ok x /\ In x l0 /\ attr_count x = length shape).
  { intros [|x l0] N0 T0; [congruence|]. exists x. split; [reflexivity|]. split; [left; reflexivity|]. inversion T0 as [|? ? Tx _]; subst. symmetry. exact (Forall2_len _ _ _ Tx). }
  assert (M : forall xs, mapM (fun o : option attr => match o with Some x => Ok x | None => UB NullDeref end) (map Some xs) = Ok xs).
  { induction xs as [|x xs IH]; [reflexivity|]. cbn [map mapM bind]. rewrite IH. reflexivity. }
  destruct (HD l N T) as (x & Ex & Ix & Lx). destruct (HD l' N' T') as (y & Ey & Iy & Ly).
  assert (HLx : forall z, In z l -> label x = label z) by (intros z Hz; apply HL; assumption).
  assert (Exy : label x = label y).
  { pose proof (proj2 (in_same_labels u l l' (label y) HS) (in_map label _ _ Iy)) as I0. apply in_map_iff in I0 as (z & Ez & Iz). rewrite <- Ez. apply HLx, Iz. }
  exists (mkInst (label x) aa None), (mkInst (label y) bb None). unfold average_instance, average. rewrite Ex, Ey. cbn [bind]. rewrite Lx, Ly, E1, E2. cbn [bind fst snd]. rewrite !M. cbn [bind].
  split; [reflexivity|]. split; [reflexivity|]. split; [|split; [exact L1|split; [exact F|split; [exact HLx|exact K]]]].
  split; [exact Exy|]. split; [reflexivity|]. split; [cbn [attrs]; congruence|]. exact C.
Qed.
Lemma find_mapM (g : string -> res instance) cs xs c : mapM g cs = Ok xs -> NoDup cs -> In c cs -> (forall c x, In c cs -> g c = Ok x -> label x = c) ->
  exists x, g c = Ok x /\ find (fun x => String.eqb (label x) c) xs = Some x.
Proof.
  revert xs. induction cs as [|c0 cs IH]; intros xs E ND Hc HL; [destruct Hc|]. cbn [mapM] in E. apply bind_ok in E as (x0 & E0 & E). apply bind_ok in E as (xs' & E' & E). injection E as <-.
  inversion ND as [|? ? Nc ND']; subst. cbn [find]. rewrite (HL c0 x0 (or_introl eq_refl) E0). destruct (String.eqb_spec c0 c) as [->|Ne]; [exists x0; split; [exact E0|reflexivity]|].
  destruct Hc as [->|Hc]; [congruence|]. apply (IH xs' E' ND' Hc). intros; apply HL; [right|]; assumption.
Qed.
Lemma mapM_total {A B} (g : A -> res B) xs : (forall x, In x xs -> exists y, g x = Ok y) -> exists ys, mapM g xs = Ok ys.
Proof.
  induction xs as [|x xs IH]; intros H; [exists []; reflexivity|]. destruct (H x (or_introl eq_refl)) as (y & E). destruct IH as (ys & E'); [intros; apply H; right; assumption|].
  exists (y :: ys). cbn [mapM]. rewrite E. cbn [bind]. rewrite E'. reflexivity.
Qed.
Lemma mapM_map {A B C} (f : A -> B) (g : B -> res C) xs : mapM g (map f xs) = mapM (fun x => g (f x)) xs.
Proof. induction xs as [|x xs IH]; [reflexivity|]. cbn [map mapM]. destruct (g (f x)); cbn [bind]; try reflexivity. rewrite IH. reflexivity. Qed.
Lemma kmeans_same a shape u l l' : mean_kinds shape -> tabular shape l -> same_data u l l' -> common_factor a u -> (a * a == 1)%Q \/ Forall (fun kd => kd = KCont) shape ->
  exists m m', kmeans_train (mkKM [] []) l = Ok m /\ kmeans_train (mkKM [] []) l' = Ok m' /\ km_prior m = class_distribution l /\ km_prior m' = class_distribution l' /\
  forall q q', typed shape q -> rescaled u q q' -> forall c, In c (map label l) ->
    exists r r', kmeans_metric eucl m q c = Ok (Fin r) /\ kmeans_metric eucl m' q' c = Ok (Fin r') /\ (r' == a * a * r)%Q.
Proof.
  intros HM T HS Hu HK. pose proof (same_data_tab _ _ _ _ HS T) as T'.
  assert (G : forall c, In c (map label l) -> exists x y, average_instance (filter (of_class c) l) = Ok x /\ average_instance (filter (of_class c) l') = Ok y /\ rescaled u x y /\
     length (attrs x) = length shape /\ Forall finite (attrs x) /\ label x = c /\ typed shape x).
  { intros c Hc. pose proof (class_nonempty l c Hc) as N.
    assert (LC : forall x, In x (filter (of_class c) l) -> label x = c) by (intros x Hx; apply filter_In in Hx as [_ Hx]; apply String.eqb_eq, Hx).
    destruct (average_same shape u (filter (of_class c) l) (filter (of_class c) l') HM) as (x & y & E1 & E2 & R & L & F & HL & Tx).
    - apply (tab_incl shape l); [intros z Hz; apply filter_In in Hz; apply Hz|exact T].
    - exact N.
    - apply same_data_filter; [exact HS|]. intros x y _ R. unfold of_class. rewrite (proj1 R). reflexivity.
    - intros x y Hx Hy. rewrite (LC x Hx), (LC y Hy). reflexivity.
    - exists x, y. repeat split; try assumption; try apply R. destruct (filter (of_class c) l) as [|z zs]; [congruence|]. rewrite (HL z (or_introl eq_refl)). apply LC. left; reflexivity. }
  assert (TR : forall l0 (g : string -> res instance), (forall c, g c = average_instance (filter (of_class c) l0)) -> (forall c, In c (map label l0) -> exists x, g c = Ok x /\ label x = c) ->
     exists m, kmeans_train (mkKM [] []) l0 = Ok m /\ km_prior m = class_distribution l0 /\
       forall c, In c (map label l0) -> exists x, g c = Ok x /\ find (fun x => String.eqb (label x) c) (km_means m) = Some x).
  { intros l0 g Hg H. destruct (mapM_total g (distinct_labels l0)) as (xs & Exs); [intros c Hc; destruct (H c (proj1 (distinct_in l0 c) Hc)) as (x & E & _); exists x; exact E|].
    exists (mkKM (class_distribution l0) xs). unfold kmeans_train. rewrite (proj1 (part_class_spec l0)). cbn [bind]. rewrite mapM_map.
    assert (EG : forall cs, mapM (fun c => average_instance (filter (of_class c) l0)) cs = mapM g cs) by (induction cs as [|c cs IH]; [reflexivity|]; cbn [mapM]; rewrite <- Hg, IH; reflexivity). rewrite EG, Exs. cbn [bind]. split; [reflexivity|]. split; [reflexivity|]. intros c Hc. cbn [km_means].
    apply (find_mapM g (distinct_labels l0)); [exact Exs|apply distinct_nodup|apply distinct_in, Hc|]. intros c' x Hc' E. destruct (H c' (proj1 (distinct_in l0 c') Hc')) as (x' & E' & L'). congruence. }
  destruct (TR l (fun c => average_instance (filter (of_class c) l)) (fun _ => eq_refl)) as (m & Em & Pm & Fm).
  { intros c Hc. destruct (G c Hc) as (x & y & E1 & _ & _ & _ & _ & L & _). exists x. split; assumption. }
  destruct (TR l' (fun c => average_instance (filter (of_class c) l')) (fun _ => eq_refl)) as (m' & Em' & Pm' & Fm').
  { intros c Hc. destruct (G c (proj2 (in_same_labels u l l' c HS) Hc)) as (x & y & _ & E2 & R & _ & _ & L & _). exists y. split; [exact E2|]. rewrite <- (proj1 R). exact L. }
  exists m, m'. split; [exact Em|]. split; [exact Em'|]. split; [exact Pm|]. split; [exact Pm'|]. intros q q' Tq Rq c Hc.
  destruct (G c Hc) as (x & y & E1 & E2 & R & Lx & Fx & Lc & Tx). destruct (Fm c Hc) as (x1 & Ex1 & Fx1). destruct (Fm' c (proj1 (in_same_labels u l l' c HS) Hc)) as (y1 & Ey1 & Fy1).
  rewrite E1 in Ex1. injection Ex1 as <-. rewrite E2 in Ey1. injection Ey1 as <-.
  assert (TF : forall z, typed shape z -> Forall finite (attrs z)).
  { intros z Tz. unfold typed in Tz. revert HM. clear -Tz. induction Tz as [|kd b sh bs Hk _ IH]; intros HM; [constructor|]. inversion HM as [|? ? H1 H2]; subst. constructor; [|apply IH, H2].
    destruct H1 as [->| ->]; destruct Hk as [v ->]; intros w E; [discriminate E|injection E as <-; exists v; reflexivity]. }
  destruct (eucl_rescale a u q x q' y Hu) as (r & r' & Er & Er' & V); [|unfold attr_count; rewrite Lx; symmetry; exact (Forall2_len _ _ _ Tq)|apply TF, Tq|exact Fx|exact Rq|exact R|].
  - destruct HK as [HK|HK]; [left; exact HK|right]. unfold only_numbers. unfold typed in Tq. clear -Tq HK. induction Tq as [|kd b sh bs Hk _ IH]; [constructor|]. inversion HK; subst. constructor; [destruct Hk as [v ->]; eexists; reflexivity|apply IH; assumption].
  - unfold kmeans_metric. rewrite Fx1, Fy1, Er, Er'. cbn [bind dopp]. eexists _, _. split; [reflexivity|]. split; [reflexivity|]. rewrite V. ring.
Qed.

(** * Naive Bayes *)
Lemma numbers_shape n l s : Forall2 reads_numbers l s -> Forall (fun r => length (snd r) = n) s -> uniform (repeat None n) l /\ s = sample_of l.
Proof.
  intros H F. assert (U : uniform (repeat None n) l).
  { induction H as [|x r l s Hx _ IH]; [constructor|]. inversion F as [|? ? Lr F']; subst. constructor; [|apply IH, F']. rewrite (proj2 Hx). clear.
    induction (snd r) as [|v vs IHv]; [constructor|]. cbn [length repeat map]. constructor; [exists v; reflexivity|exact IHv]. }
  split; [exact U|]. apply (reads_rows _ l s U). clear -H. induction H as [|x r l s Hx _ IH]; constructor; [|exact IH]. split; [apply Hx|].
  rewrite inst_vals_concat, (proj2 Hx), map_map. induction (snd r) as [|v vs IHv]; [reflexivity|]. cbn [map concat] in *. rewrite IHv. reflexivity.
Qed.
Lemma dim_repeat n : dim (repeat None n) = n.
Proof. unfold dim. induction n as [|n IH]; [reflexivity|]. change (S (list_sum (map width (repeat None n))) = S n). f_equal. exact IH. Qed.
Lemma shape_numbers n l : uniform (repeat None n) l -> Forall2 reads_numbers l (sample_of l) /\ Forall (fun r => length (snd r) = n) (sample_of l).
Proof.
  intros U. unfold sample_of. split.
  - apply Forall2_map_r. induction U as [|x l Hx _ IH]; constructor; [|exact IH]. split; [reflexivity|]. cbn [snd]. unfold row. revert Hx. generalize (attrs x). clear. induction n as [|n IH]; intros aa H; inversion H as [|? a ? aa' Ha H']; subst; [reflexivity|].
    destruct Ha as (q & ->). cbn [map concat blk app]. rewrite <- (IH _ H'). reflexivity.
  - apply Forall_map. eapply Forall_impl; [|exact U]. intros x Hx. cbn [snd]. destruct (fits_vals _ _ Hx) as (_ & ->). apply dim_repeat.
Qed.
Lemma wof_repeat n : forall u j, j < n -> wof (repeat None n) u j = u j.
Proof.
  induction n as [|n IH]; intros u j Hj; [lia|]. destruct j as [|j]; [reflexivity|]. exact (IH (fun i => u (S i)) j ltac:(lia)).
Qed.
Lemma bayes_cont_same ln f std_vec n u l l' (sd sd' : string -> list Q) : log_reads ln f -> reversible u -> uniform (repeat None n) l -> l <> [] -> 1 <= n -> same_data u l l' ->
  (forall c, In c (map label l) -> std_vec (filter (of_class c) l) = Ok (map Fin (sd c)) /\ length (sd c) = n /\ Forall (fun z => ~ z == 0)%Q (sd c)) ->
  (forall c, In c (map label l) -> std_vec (filter (of_class c) l') = Ok (map Fin (sd' c)) /\ length (sd' c) = n) ->
  (forall c j, In c (map label l) -> j < n -> (nth j (sd' c) 0 * nth j (sd' c) 0 == (fst (u j) * nth j (sd c) 0) * (fst (u j) * nth j (sd c) 0))%Q) ->
  exists m m', bayes_train std_vec bayes_empty l = Ok m /\ bayes_train std_vec bayes_empty l' = Ok m' /\ nb_prior m = class_distribution l /\ nb_prior m' = class_distribution l' /\
  forall q q', Forall2 fits (repeat None n) (attrs q) -> rescaled u q q' -> forall c, In c (map label l) ->
    exists r r', bayes_metric ln m q c = Ok (Fin r) /\ bayes_metric ln m' q' c = Ok (Fin r') /\ (r == r')%Q.
Proof.
  intros Hln Hu U Hn H1 HS Hsd Hsd' HV. destruct (same_data_sample _ u l l' U HS) as (U' & SS). pose proof (same_data_ne _ _ _ HS Hn) as Hn'.
  destruct (shape_numbers n l U) as (R & F). destruct (shape_numbers n l' U') as (R' & F').
  assert (NZ : forall c, In c (map label l) -> forall j, j < n -> ~ (nth j (sd c) 0 == 0)%Q).
  { intros c Hc j Hj. destruct (Hsd c Hc) as (_ & L & NZ). rewrite Forall_forall in NZ. apply NZ, nth_In. lia. }
  assert (NZ' : forall c, In c (map label l) -> Forall (fun z => ~ z == 0)%Q (sd' c)).
  { intros c Hc. apply Forall_forall. intros z Hz E. destruct (In_nth _ _ 0%Q Hz) as (j & Hj & <-). destruct (Hsd' c Hc) as (_ & L'). rewrite L' in Hj.
    pose proof (HV c j Hc Hj) as V. rewrite E in V. assert (Z : ((fst (u j) * nth j (sd c) 0) * (fst (u j) * nth j (sd c) 0) == 0)%Q) by (rewrite <- V; ring).
    apply Qmult_integral in Z. assert (Z' : (fst (u j) * nth j (sd c) 0 == 0)%Q) by (destruct Z; assumption). apply Qmult_integral in Z' as [Z'|Z']; [exact (Hu j Z')|exact (NZ c Hc j Hj Z')]. }
  destruct (bayes_cont_spec ln f Hln std_vec n l _ R F Hn H1 sd Hsd) as (m & Em & Pm & HM).
  destruct (bayes_cont_spec ln f Hln std_vec n l' _ R' F' Hn' H1 sd') as (m' & Em' & Pm' & HM').
  { intros c Hc. apply (in_same_labels u l l' c HS) in Hc. destruct (Hsd' c Hc) as (A & B). split; [exact A|]. split; [exact B|apply NZ', Hc]. }
  exists m, m'. split; [exact Em|]. split; [exact Em'|]. split; [exact Pm|]. split; [exact Pm'|]. intros q q' Hq Rq c Hc.
  destruct (rescaled_row _ u q q' Hq Rq) as (Hq' & RV). rewrite dim_repeat in *.
  assert (AQ : forall z, Forall2 fits (repeat None n) (attrs z) -> attrs z = map (fun v => ACont (Fin v)) (row z) /\ length (row z) = n).
  { intros z Hz. destruct (shape_numbers n [z] (Forall_cons _ Hz (Forall_nil _))) as (A & B). inversion A as [|? ? ? ? Az _]; subst. split; [apply Az|exact (Forall_inv B)]. }
  destruct (AQ q Hq) as (Aq & Lq). destruct (AQ q' Hq') as (Aq' & Lq').
  destruct (HM q (row q) c Aq Lq Hc) as (r & Er & Vr). destruct (HM' q' (row q') c Aq' Lq' (proj1 (in_same_labels u l l' c HS) Hc)) as (r' & Er' & Vr').
  exists r, r'. split; [exact Er|]. split; [exact Er'|]. rewrite Vr, Vr'. rewrite (proj2 Hln _ _ (same_frequency n _ _ _ c SS)).
  assert (E : (qsum (map (fun j => (away (sample_of l') c (row q') j / nth j (sd' c) 0) * (away (sample_of l') c (row q') j / nth j (sd' c) 0)) (seq 0 n)) ==
               qsum (map (fun j => (away (sample_of l) c (row q) j / nth j (sd c) 0) * (away (sample_of l) c (row q) j / nth j (sd c) 0)) (seq 0 n)))%Q); [|rewrite E; reflexivity].
  apply ssum_ext. intros j Hj. rewrite (same_away n _ _ _ c (row q) (row q') j SS (RV j Hj) Hj) by (apply two_members, Hc). rewrite (wof_repeat n u j Hj).
  pose proof (Hu j) as Nu. pose proof (NZ c Hc j Hj) as Ns. pose proof (HV c j Hc Hj) as V.
  assert (Ns' : ~ (nth j (sd' c) 0 == 0)%Q) by (pose proof (NZ' c Hc) as K; rewrite Forall_forall in K; apply K, nth_In; destruct (Hsd' c Hc); lia).
  set (z := nth j (sd c) 0%Q) in *. set (z' := nth j (sd' c) 0%Q) in *. set (w := away (sample_of l) c (row q) j). set (a := fst (u j)) in *.
  transitivity ((a * w) * (a * w) / (z' * z'))%Q; [field; exact Ns'|]. rewrite V. field. auto.
Qed.
Lemma tmembers_perm (s s' : tsample) c : Permutation s s' -> Permutation (tmembers s c) (tmembers s' c).
Proof. intros P. apply filter_perm, P. Qed.
Lemma smoothed_perm (s s' : tsample) c i v : Permutation s s' -> (smoothed s c i v == smoothed s' c i v)%Q /\ (tfrequency s c == tfrequency s' c)%Q.
Proof.
  intros P. pose proof (tmembers_perm s s' c P) as PM. assert (PV : Permutation (values s c i) (values s' c i)) by (apply Permutation_map, PM).
  split; unfold smoothed, tfrequency.
  - unfold occ. rewrite (proj1 (Permutation_count_occ string_dec _ _) PV v), (Permutation_length PV).
    assert (PN : length (nodup string_dec (values s c i)) = length (nodup string_dec (values s' c i))).
    { apply Permutation_length, NoDup_Permutation; try apply NoDup_nodup. intros x. rewrite !nodup_In. split; apply Permutation_in; [exact PV|apply Permutation_sym, PV]. }
    rewrite PN. reflexivity.
  - rewrite (Permutation_length PM), (Permutation_length P). reflexivity.
Qed.
Lemma bayes_disc_same ln f std_vec n l l' s : log_reads ln f -> Forall2 reads_text l s -> Forall (fun r => length (snd r) = n) s -> l <> [] -> 1 <= n -> Permutation l l' ->
  exists m m', bayes_train std_vec bayes_empty l = Ok m /\ bayes_train std_vec bayes_empty l' = Ok m' /\ nb_prior m = class_distribution l /\ nb_prior m' = class_distribution l' /\
  forall q vs, attrs q = map ADisc vs -> length vs = n -> forall c, In c (map label l) ->
    exists r r', bayes_metric ln m q c = Ok (Fin r) /\ bayes_metric ln m' q c = Ok (Fin r') /\ (r == r')%Q.
Proof.
  intros Hln R F Hn H1 P. destruct (Permutation_Forall2 P R) as (s' & Ps & R').
  assert (F' : Forall (fun r => length (snd r) = n) s') by (rewrite Forall_forall in *; intros r Hr; apply F, (Permutation_in _ (Permutation_sym Ps) Hr)).
  assert (Hn' : l' <> []) by (intros ->; apply Permutation_sym, Permutation_nil in P; contradiction).
  destruct (bayes_disc_spec ln f Hln std_vec n l s R F Hn H1) as (m & Em & HM). destruct (bayes_disc_spec ln f Hln std_vec n l' s' R' F' Hn' H1) as (m' & Em' & HM').
  exists m, m'. split; [exact Em|]. split; [exact Em'|]. split; [exact (bayes_train_prior _ _ _ _ Em)|]. split; [exact (bayes_train_prior _ _ _ _ Em')|]. intros q vs Hq Lq c Hc.
  destruct (HM q vs c Hq Lq Hc) as (r & Er & Vr). destruct (HM' q vs c Hq Lq (Permutation_in _ (Permutation_map label P) Hc)) as (r' & Er' & Vr').
  exists r, r'. split; [exact Er|]. split; [exact Er'|]. rewrite Vr, Vr'. rewrite (proj2 Hln _ _ (proj2 (smoothed_perm s s' c 0 EmptyString Ps))).
  rewrite (ssum_ext n _ (fun i => f (smoothed s' c i (nth i vs EmptyString)))); [reflexivity|]. intros i _. apply (proj2 Hln), (smoothed_perm s s' c i _ Ps).
Qed.
