(** C132: growing a decision tree in rounded arithmetic. *)
From Coq Require Import String ZArith QArith Qabs Bool Lia Permutation Lqa List.
From Verif Require Import Base Spec BaseLemmas DblLemmas AttrModel InstanceListModel PartitionModel PerformanceModel ListSpec ListProofs
  TreeModel TreeSpec TreeProofs TreeGrowProofs TreePredictProofs TreeProps RoundModel RoundSpec RoundProofs RoundPerfProofs RoundTreeModel RoundTreeSpec RoundTreeProofs.
Import ListNotations.
Local Open Scope string_scope.
Local Open Scope list_scope.
Local Open Scope nat_scope.

(** Without rounding it is the code of TreeModel. *)
Theorem C132_same_code : r_build (fun d => d) = fun entropy rarr param stump => build entropy (fun a b => ddiv (dadd a b) (Fin 2)) rarr param stump.
Proof. reflexivity. Qed.
(** Growing ends and gives a tree that divides its data properly, if rounded midpoints tell the values of each continuous
    column apart and, when there are indexed columns, [h * n / n] never comes out below [h]. *)
Theorem C132_terminates : forall R entropy rarr param stump shape data c,
  rounding R -> entropy_finite entropy -> on_grid R entropy -> rarr_perm rarr -> tabular shape data -> data <> [] ->
  (Z.of_nat (length data) <= 2 ^ 53)%Z -> column_apart R shape data ->
  ((exists j m, nth_error shape j = Some (KIdx m)) -> steady R entropy data) ->
  exists t, (forall fuel, length data <= fuel -> r_build R entropy rarr param stump fuel data c = Ok t) /\ grown data t /\ fits_tree shape t.
Proof.
  intros R entropy rarr param stump shape data c HR He Hg Hr Ht Hne Hs Ha Hst.
  destruct (r_build_ok R HR entropy rarr shape He Hg Hr param stump data Ht Hs Ha Hst (length data) data c (part_of_refl _) Hne (le_n _)) as (t & E & G & _ & F).
  exists t. split; [|split; assumption]. intros fuel Hf. exact (r_build_mono R entropy rarr param stump _ _ _ _ E fuel Hf).
Qed.
(** In binary64 the midpoint tells two numbers apart as soon as they differ by more than eight units in the last place. *)
Theorem C132_midpoint : forall p v, spread p v ->
  exists q, b64 (ddiv (b64 (Fin (p + v))) (Fin 2)) = Fin q /\ (p <= q < v)%Q.
Proof.
  intros p v H. apply (spread_apart p v H). destruct H as (_ & _ & _ & _ & H). assert (0 < 1 # (2 ^ 1071)%positive)%Q by reflexivity. lra.
Qed.
(** So with doubles training ends on every table without indexed columns whose continuous columns are spread, and the tree is as
    good on its training data as the largest class and returns only labels it has seen. *)
Theorem C132_doubles : forall max_item entropy rarr param stump shape data c,
  entropy_finite entropy -> on_grid b64 entropy -> rarr_perm rarr -> tabular shape data -> data <> [] -> (Z.of_nat (length data) <= 2 ^ 53)%Z ->
  (forall j m, nth_error shape j <> Some (KIdx m)) ->
  (forall j x y p v, In x data -> In y data -> feature x (Z.of_nat j) (ACont (Fin p)) -> feature y (Z.of_nat j) (ACont (Fin v)) -> (p < v)%Q -> spread p v) ->
  exists t, (forall fuel, length data <= fuel -> r_build b64 entropy rarr param stump fuel data c = Ok t) /\ grown data t /\
    (forall x, typed shape x -> isComposite x = false -> exists p, tree_predict max_item t x = Ok p /\ In p (map label data)) /\
    (Forall (fun x => isComposite x = false) data -> forall l, occ (map label data) l <= hits (tree_predict max_item t) data).
Proof.
  intros max_item entropy rarr param stump shape data c He Hg Hr Ht Hne Hs Hi Hsp.
  destruct (C132_terminates b64 entropy rarr param stump shape data c rounding_b64 He Hg Hr Ht Hne Hs) as (t & E & G & F).
  { intros j x y p v _ Hx Hy Fx Fy L. apply (spread_apart p v (Hsp j x y p v Hx Hy Fx Fy L) L). }
  { intros (j & m & H). exfalso. exact (Hi j m H). }
  exists t. split; [exact E|]. split; [exact G|]. split.
  - intros x Hx Hp. rewrite (tree_predict_plain max_item t x Hp). exact (predict_in max_item shape t data x G F Hx Hp).
  - intros Hp l. rewrite (hits_plain max_item t data Hp). exact (proj1 (grown_best max_item shape t data G F Ht Hp) l).
Qed.
(** Whole numbers of moderate size are spread. *)
Theorem C132_whole : forall a b, (a < b)%Z -> (Z.abs a <= 2 ^ 49)%Z -> (Z.abs b <= 2 ^ 49)%Z -> spread (inject_Z a) (inject_Z b).
Proof.
  intros a b L Ha Hb.
  assert (forall z, (Z.abs z <= 2 ^ 49)%Z -> Qabs (inject_Z z) <= inject_Z (2 ^ 49))%Q as A.
  { intros z Hz. change (Qabs (inject_Z z)) with (inject_Z (Z.abs z)). rewrite Zle_Qle in Hz. exact Hz. }
  assert (1 <= inject_Z b - inject_Z a)%Q as D. { assert (a + 1 <= b)%Z as L' by lia. rewrite Zle_Qle, inject_Z_plus in L'. change (inject_Z 1) with 1%Q in L'. lra. }
  pose proof (A a Ha) as Aa. pose proof (A b Hb) as Ab.
  assert (inject_Z (2 ^ 49) <= inject_Z (2 ^ 1022))%Q as B by discriminate.
  assert ((1 # (2 ^ 50)%positive) * inject_Z (2 ^ 49) == 1 # 2)%Q as H by reflexivity.
  assert (forall x, x <= inject_Z (2 ^ 49) -> (1 # (2 ^ 50)%positive) * x <= 1 # 2)%Q as M.
  { intros x Hx. rewrite <- H, !(Qmult_comm (1 # (2 ^ 50)%positive)). apply Qmult_le_compat_r; [exact Hx|discriminate]. }
  split; [|split; [|split; [|split]]].
  - eapply Qle_trans; [exact Aa|exact B].
  - eapply Qle_trans; [exact Ab|exact B].
  - pose proof (M _ Aa). lra.
  - pose proof (M _ Ab). lra.
  - assert (1 # (2 ^ 1071)%positive < 1)%Q by reflexivity. lra.
Qed.
(** The condition on indexed columns is needed: a node whose instances all have the same index, with two classes and an entropy
    for which [h * n / n] comes out below [h], is split into itself and nothing for ever. *)
Theorem C132_unsteady_diverges : forall R entropy rarr m w data h,
  rounding R -> entropy_finite entropy -> w < m -> Forall (fun x => exists s, attrs x = [AIdx s (Z.of_nat w) m]) data -> data <> [] ->
  (Z.of_nat (length data) <= 2 ^ 53)%Z -> length (distinct_labels data) <> 1 ->
  entropy (class_distribution data) = Fin h -> ~ steady_at R (Fin h) (length data) ->
  forall fuel c, r_build R entropy rarr None false fuel data c = Diverge.
Proof.
  intros R entropy rarr m w data h HR He Hw Hd Hne Hs Hl Hh Hu. rewrite class_distribution_cofl in Hh.
  exact (hang R HR entropy rarr He m w data h Hw Hd Hne Hs Hh Hu Hl).
Qed.
(** The entropy of 3 against 8 in binary64 is such a number: training never returns. *)
Definition h38 : Q := 7614244326340210 # (2 ^ 53)%positive.
Definition entropy38 (c : counter) : dbl := match map snd c with [] | [_] => d0 | [3; 8] => Fin h38 | _ => d1 end.
Definition row38 (l : string) : instance := mkInst l [AIdx "v" 0 1] None.
Definition data38 : list instance := repeat (row38 "a") 3 ++ repeat (row38 "b") 8.
Theorem C132_indexed_refuted : exists entropy shape data, entropy_finite entropy /\ on_grid b64 entropy /\ tabular shape data /\ data <> [] /\
  forall rarr fuel c, r_build b64 entropy rarr None false fuel data c = Diverge.
Proof.
  assert (entropy_finite entropy38) as He.
  { intros c. unfold entropy38. destruct (map snd c) as [|x r]; [eexists; reflexivity|].
    destruct x as [|[|[|[|x]]]], r as [|y r]; try (eexists; reflexivity).
    destruct y as [|[|[|[|[|[|[|[|[|y]]]]]]]]]; try (eexists; reflexivity). destruct r; eexists; reflexivity. }
  exists entropy38, [KIdx 1], data38. split; [exact He|]. split; [|split; [|split; [discriminate|]]].
  - intros c. unfold entropy38. assert (deq (b64 d0) d0) as Z0 by (vm_compute; reflexivity). assert (deq (b64 d1) d1) as Z1 by (vm_compute; reflexivity).
    assert (deq (b64 (Fin h38)) (Fin h38)) as Zh by (vm_compute; reflexivity).
    destruct (map snd c) as [|x r]; try assumption. destruct x as [|[|[|[|x]]]], r as [|y r]; try assumption.
    destruct y as [|[|[|[|[|[|[|[|[|y]]]]]]]]]; try assumption. destruct r; assumption.
  - repeat (apply Forall_cons || apply Forall_nil); unfold typed; simpl; repeat (apply Forall2_cons || apply Forall2_nil); simpl; repeat eexists.
  - intros rarr. apply (C132_unsteady_diverges b64 entropy38 rarr 1 0 data38 h38 rounding_b64 He); [lia| | | | |reflexivity|].
    + repeat (apply Forall_cons || apply Forall_nil); eexists; reflexivity.
    + discriminate.
    + discriminate.
    + vm_compute. discriminate.
    + unfold steady_at. intros H. vm_compute in H. discriminate H.
Qed.
(** The same two classes as 4 against 8 are steady. *)
Example C132_steady_case : steady_at b64 (Fin (8271273552127356 # (2 ^ 53)%positive)) 12 /\ steady_at b64 d1 2 /\ steady_at b64 d0 7.
Proof. repeat split; vm_compute; reflexivity. Qed.
Example C132_case : exists t, r_build b64 ex_entropy ex_rarr None false 5 ex_data no_condition = Ok t /\ height t = 2 /\ length (t_children t) = 2 /\
  hits (tree_predict ex_max t) ex_data = 5.
Proof. eexists. split; [vm_compute; reflexivity|]. repeat split; vm_compute; reflexivity. Qed.
(** the hypotheses of C132_terminates hold for this table, indexed column included *)
Example C132_case_hyps : on_grid b64 ex_entropy /\ column_apart b64 ex_shape ex_data /\ steady b64 ex_entropy ex_data.
Proof.
  split; [|split].
  - intros [|a [|b c]]; vm_compute; reflexivity.
  - intros j x y p v Hj Hx Hy Fx Fy. assert (forall z q, In z ex_data -> feature z (Z.of_nat j) (ACont (Fin q)) -> exists i, q = inject_Z i /\ (0 <= i <= 5)%Z) as H.
    { intros z q Hz [_ E]. assert (j = 0) as ->. { destruct j as [|[|[|[|j]]]]; try discriminate Hj; [reflexivity|]. destruct j; discriminate Hj. }
      cbn in Hz. repeat (destruct Hz as [<-|Hz]; [cbn in E; injection E as <-; eexists; split; [reflexivity|lia]|]). contradiction. }
    destruct (H x p Hx Fx) as (i & -> & Hi), (H y v Hy Fy) as (i' & -> & Hi'). intros L. apply spread_apart; [|exact L].
    apply C132_whole; [rewrite Zlt_Qlt; exact L|lia|lia].
  - intros s Hs P. pose proof (part_of_length _ _ P) as Hl. change (length ex_data) with 5 in Hl. unfold ex_entropy.
    assert (forall n, n <= 5 -> 0 < n -> steady_at b64 d0 n /\ steady_at b64 d1 n) as H.
    { intros n Hn Hp. destruct n as [|[|[|[|[|[|n]]]]]]; try lia; split; vm_compute; reflexivity. }
    destruct (H (length s) Hl) as [H0 H1]; [destruct s; [contradiction|cbn; lia]|]. destruct (class_distribution s) as [|? [|? ?]]; assumption.
Qed.
Example C132_midpoint_case : spread (1 # 10) (3 # 10) /\ spread 0 1 /\ ~ spread near1 near2.
Proof.
  split; [repeat split; vm_compute; congruence|]. split; [repeat split; vm_compute; congruence|]. intros (_ & _ & H & _). vm_compute in H. discriminate H.
Qed.
Print Assumptions C132_same_code.
Print Assumptions C132_terminates.
Print Assumptions C132_midpoint.
Print Assumptions C132_doubles.
Print Assumptions C132_whole.
Print Assumptions C132_unsteady_diverges.
Print Assumptions C132_indexed_refuted.
