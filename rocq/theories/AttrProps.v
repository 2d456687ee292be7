(** C01-C05: attributes, instances, sparse vectors. *)
From Coq Require Import String ZArith QArith Bool Lia Lqa Sorting.Sorted Arith List.
From Verif Require Import Base Spec BaseLemmas DblLemmas AttrModel AttrProofs.
Import ListNotations.
Local Open Scope nat_scope.
Local Open Scope string_scope.

(** a concrete instance with one attribute of each kind, used in the examples *)
Definition ex_inst : instance :=
  mkInst "yes" [ADisc "red"; ACont (Fin (5#2)); AIdx "b" 1 3; ABin "true"; ACont (Fin 0)] None.

(** * C01 *)
Theorem C01_kinds_exclusive : forall a, trues [isDiscrete a; isContinuous a; isDiscreteIndexed a; isBinary a] = 1.
Proof. intros []; reflexivity. Qed.
Theorem C01_attribute_size : forall a, attr_size a = length (attr_vals a).
Proof. exact attr_size_length. Qed.
Theorem C01_instance_size : forall i, inst_size i = length (inst_vals i) /\ inst_vector i = inst_vals i.
Proof. intros i; split; [apply inst_size_length|rewrite inst_vector_concat, inst_vals_concat; reflexivity]. Qed.
(** the numeric vector of an instance is the concatenation of its attributes' vectors, in order *)
Theorem C01_instance_vector : forall i, inst_vals i = concat (map attr_vals (attrs i)).
Proof. exact inst_vals_concat. Qed.
Example C01_case : inst_size ex_inst = 5 /\ inst_vals ex_inst = [Fin (5#2); d0; d1; d0; Fin 0].
Proof. split; reflexivity. Qed.
Print Assumptions C01_kinds_exclusive.
Print Assumptions C01_attribute_size.
Print Assumptions C01_instance_size.
Print Assumptions C01_instance_vector.

(** * C02 *)
Theorem C02_one_hot : forall v index maxIndex,
  length (attr_vals (AIdx v index maxIndex)) = maxIndex /\
  forall j, j < maxIndex ->
    nth_error (attr_vals (AIdx v index maxIndex)) j =
    Some (if (Z.of_nat j =? index)%Z then Fin 1 else Fin 0).
Proof. intros v k m; split; [apply one_hot_length|intros j H; apply one_hot_nth; exact H]. Qed.
Theorem C02_unknown_is_zero : forall v index maxIndex,
  ~ in_range maxIndex index -> Forall (fun x => x = Fin 0) (attr_vals (AIdx v index maxIndex)).
Proof.
  intros v k m H. apply Forall_forall. intros x Hx. apply In_nth_error in Hx. destruct Hx as [j Hj].
  assert (j < m) by (rewrite <- (one_hot_length 0 m k); apply nth_error_Some; simpl in Hj; congruence).
  simpl in Hj. rewrite one_hot_nth in Hj by assumption. injection Hj as <-.
  destruct (Z.eqb_spec (Z.of_nat (0 + j)) k) as [E|E]; simpl in E; [|destruct (Z.eqb_spec (Z.of_nat j) k); [contradiction|reflexivity]]. elim H. unfold in_range; lia.
Qed.
Example C02_case : attr_vals (AIdx "b" 1 3) = [Fin 0; Fin 1; Fin 0] /\ attr_vals (AIdx "?" (-1) 2) = [Fin 0; Fin 0].
Proof. split; reflexivity. Qed.
Example C02_case_unknown : ~ in_range 2 (-1).
Proof. unfold in_range; lia. Qed.
Print Assumptions C02_one_hot.
Print Assumptions C02_unknown_is_zero.

(** * C03 *)
(** the node list holds exactly the non-zero positions of the dense vector, in increasing position order *)
Theorem C03_sparse_entries : forall i (j : nat) x,
  In (Z.of_nat j, x) (inst_nodes i) <-> nth_error (inst_vals i) j = Some x /\ deqb x (Fin 0) = false.
Proof.
  intros i j x. unfold inst_nodes, nodelist. rewrite nodes_from_in. split.
  - intros (k & Hk & Hn & Hz). assert (j = k) by lia. subst; auto.
  - intros [Hn Hz]. exists j; repeat split; auto.
Qed.
Theorem C03_sparse_increasing : forall i,
  StronglySorted (fun p q => (fst p < fst q)%Z) (inst_nodes i) /\
  Forall (fun p => in_range (inst_size i) (fst p)) (inst_nodes i).
Proof.
  intros i; split; [apply nodes_from_sorted|]. apply Forall_forall. intros [k x] H.
  apply nodes_from_in in H. destruct H as (j & -> & Hn & _). unfold in_range; simpl.
  rewrite inst_size_length. assert (j < length (inst_vals i)) by (apply nth_error_Some; congruence). lia.
Qed.
(** for finite vectors the sparse dot product is the dense one *)
Theorem C03_dot_agrees : forall i i' v w,
  inst_vals i = map Fin v -> inst_vals i' = map Fin w ->
  deq (ndot (inst_nodes i) (inst_nodes i')) (Fin (qdot v w)).
Proof. intros i i' v w H H'. unfold inst_nodes. rewrite H, H'. apply ndot_dense. Qed.
Example C03_case :
  inst_nodes ex_inst = [(0%Z, Fin (5#2)); (2%Z, d1)] /\
  inst_vals ex_inst = map Fin [5#2; 0; 1; 0; 0]%Q /\
  deq (ndot (inst_nodes ex_inst) (inst_nodes ex_inst)) (Fin (29#4)).
Proof. repeat split. Qed.
Print Assumptions C03_sparse_entries.
Print Assumptions C03_sparse_increasing.
Print Assumptions C03_dot_agrees.

(** * C04 *)
Theorem C04_subset_is_projection_partial : forall i fs r,
  inst_subset i fs = Ok r <->
  (label r = label i /\ composite r = None /\
   Forall2 (fun k a => in_range (length (attrs i)) k /\ nth_error (attrs i) (Z.to_nat k) = Some a) fs (attrs r)).
Proof. exact inst_subset_ok. Qed.
Theorem C04_subset_throws : forall i fs,
  (inst_subset i fs = Throw OutOfRange <-> Exists (fun k => ~ in_range (length (attrs i)) k) fs) /\
  (inst_subset i fs <> Throw OutOfRange -> exists r, inst_subset i fs = Ok r).
Proof.
  intros i fs; split.
  - rewrite inst_subset_throw. tauto.
  - intros H. destruct (inst_subset_total i fs) as [?|?]; [assumption|contradiction].
Qed.
(** a subset of a subset is the subset of the composed index list *)
Theorem C04_subset_composes : forall i fs gs r, inst_subset i fs = Ok r ->
  inst_subset r gs = (do ks <- mapM (fun g => at_ fs g) gs; inst_subset i ks).
Proof. exact inst_subset_compose. Qed.
(** the claim in brackets is false: the possible labels of a composite instance are lost *)
Theorem C04_composite_labels_refuted : exists i fs r,
  inst_subset i fs = Ok r /\ possible_labels i <> possible_labels r.
Proof.
  exists (mkInst "a" [ADisc "x"] (Some ["b"; "c"])), [0%Z], (mkInst "a" [ADisc "x"] None).
  split; [reflexivity|discriminate].
Qed.
Example C04_case : inst_subset ex_inst [3; 0]%Z = Ok (mkInst "yes" [ABin "true"; ADisc "red"] None) /\
  inst_subset ex_inst [5]%Z = Throw OutOfRange.
Proof. split; reflexivity. Qed.
Print Assumptions C04_subset_is_projection_partial.
Print Assumptions C04_subset_throws.
Print Assumptions C04_subset_composes.
Print Assumptions C04_composite_labels_refuted.

(** * C05 *)
(** what is true: labels accumulate *)
Theorem C05_set_possible_partial : forall i ls, isComposite i = true ->
  possible_labels (set_possible i ls) = (possible_labels i ++ ls)%list /\
  label (set_possible i ls) = label i /\ attrs (set_possible i ls) = attrs i /\ isComposite (set_possible i ls) = true.
Proof. intros [l a [c|]] ls H; [repeat split|discriminate]. Qed.
Theorem C05_set_possible_fresh : forall l a ls,
  possible_labels (set_possible (new_composite0 l a) ls) = ls.
Proof. reflexivity. Qed.
Theorem C05_set_possible_refuted : exists i ls ls',
  isComposite i = true /\ possible_labels (set_possible (set_possible i ls) ls') <> ls'.
Proof. exists (new_composite0 "a" []), ["a"; "b"], ["c"]. split; [reflexivity|discriminate]. Qed.
(** for every composite instance that already has labels, setting any labels fails to replace them *)
Theorem C05_set_possible_never_replaces : forall i ls, isComposite i = true ->
  possible_labels i <> [] -> possible_labels (set_possible i ls) <> ls.
Proof.
  intros [l a [c|]] ls H Hn E; [|discriminate]. cbn in Hn, E.
  assert (length (c ++ ls)%list = length ls) as Hl by (rewrite E; reflexivity). rewrite app_length in Hl.
  destruct c; [contradiction|]. simpl in Hl; lia.
Qed.
Example C05_case : possible_labels (set_possible (new_composite "a" [] ["a"]) ["b"; "c"]) = ["a"; "b"; "c"].
Proof. reflexivity. Qed.
Print Assumptions C05_set_possible_partial.
Print Assumptions C05_set_possible_fresh.
Print Assumptions C05_set_possible_refuted.
Print Assumptions C05_set_possible_never_replaces.
