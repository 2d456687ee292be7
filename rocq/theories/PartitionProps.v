(** C22-C27: partitions. *)
From Coq Require Import String ZArith QArith Bool Lia Lqa Permutation Arith SpecFloat List.
From Verif Require Import Base Spec BaseLemmas DblLemmas AttrModel InstanceListModel ListSpec ListProofs PartitionModel PartitionProofs ListProps.
Import ListNotations.
Local Open Scope string_scope.
Local Open Scope list_scope.
Local Open Scope nat_scope.

(** * C22: one group per distinct label in first-occurrence order; group of [c] = the instances labelled [c], in order *)
Theorem C22_partition_by_class : forall l, exists labels,
  first_occurrences (map label l) labels /\
  part_class l = Ok (map (fun c => filter (fun x => String.eqb (label x) c) l) labels) /\
  Permutation (concat (map (fun c => filter (fun x => String.eqb (label x) c) l) labels)) l.
Proof.
  intros l. exists (distinct_labels l). split; [apply C15_distinct_labels|]. apply part_class_spec.
Qed.
Example C22_case : rmap (map (map label)) (part_class ex_list) = Ok [["b"; "b"]; ["a"]; ["c"]].
Proof. reflexivity. Qed.
Print Assumptions C22_partition_by_class.

(** * C23 *)
Theorem C23_partition_by_value : forall k l vs, text_column k l vs ->
  exists values gs, first_occurrences vs values /\ part_disc k l = Ok gs /\
    gs = map (fun v => select (String.eqb v) vs l) values /\
    Forall (fun g => g <> []) gs /\ Permutation (concat gs) l.
Proof.
  intros k l vs H. destruct (part_disc_spec k l vs H) as (values & Hv & E & P & F).
  destruct (C15_value_list k l vs H) as (r & Hr & FO). rewrite Hv in Hr. injection Hr as <-.
  exists values, (map (fun v => select (String.eqb v) vs l) values). auto.
Qed.
Example C23_case : rmap (map (map label)) (part_disc 1 ex_list) = Ok [["b"; "c"]; ["a"; "b"]].
Proof. reflexivity. Qed.
Print Assumptions C23_partition_by_value.

(** * C24 *)
Theorem C24_partition_by_index : forall k v l is_, index_column k l is_ ->
  exists g0 g1, part_idx k v l = Ok [g0; g1] /\ g0 = select (Z.eqb v) is_ l /\ g1 = select (fun i => negb (Z.eqb v i)) is_ l /\
    Permutation (g0 ++ g1) l.
Proof. intros k v l is_ H. destruct (part_idx_spec k v l is_ H) as [E P]. do 2 eexists. split; [exact E|]. auto. Qed.
Example C24_case : rmap (map (map label)) (part_idx 2 0 ex_list) = Ok [["b"; "b"; "c"]; ["a"]].
Proof. reflexivity. Qed.
Print Assumptions C24_partition_by_index.

(** * C25 *)
Theorem C25_partition_by_threshold : forall k t l vs, num_column k l vs ->
  exists g0 g1, part_cont k t l = Ok [g0; g1] /\ g0 = select (fun v => dleb v t) vs l /\
    g1 = select (fun v => negb (dleb v t)) vs l /\ Permutation (g0 ++ g1) l.
Proof. intros k t l vs H. destruct (part_cont_spec k t l vs H) as [E P]. do 2 eexists. split; [exact E|]. auto. Qed.
(** a NaN is not below any threshold, so it goes to the second group *)
Theorem C25_nan_second : forall t, dleb NaN t = false.
Proof. reflexivity. Qed.
Example C25_case : rmap (map (map label)) (part_cont 0 (Fin (3#2)) ex_list) = Ok [["a"; "c"]; ["b"; "b"]].
Proof. reflexivity. Qed.
Print Assumptions C25_partition_by_threshold.
Print Assumptions C25_nan_second.

(** * C26: [perm] is what std::shuffle does; it only has to permute *)
Theorem C26_random_split : forall perm q seed l,
  Permutation (perm seed (length l)) (seq 0 (length l)) ->
  exists l' g0 g1, part_random perm (Fin q) seed l = Ok (l', [g0; g1]) /\
    Permutation l' l /\ g0 ++ g1 = l' /\ length g0 = Nat.min (length l) (ceiln (qofn (length l) * q)).
Proof.
  intros perm q seed l HP. pose proof (part_random_spec perm q seed l) as E. cbv zeta in E. set (l' := shuffle perm seed l) in *.
  assert (P : Permutation l' l) by (apply rearrange_perm; exact HP).
  exists l'. do 2 eexists. split; [exact E|]. split; [exact P|]. split; [apply firstn_skipn|].
  rewrite firstn_length, (Permutation_length P). apply Nat.min_comm.
Qed.
(** [ceiln] is the ceiling (0 for negative numbers) *)
Theorem C26_ceiling : forall q k, (qofn k < q)%Q <-> k < ceiln q.
Proof. exact ceil_lt. Qed.
Example C26_case : rmap (fun r => map (map label) (snd r)) (part_random (fun _ n => rev (seq 0 n)) (Fin (3#10)) 1 ex_list) = Ok [["c"; "b"]; ["a"; "b"]].
Proof. reflexivity. Qed.
Example C26_case_perm : Permutation (rev (seq 0 4)) (seq 0 4).
Proof. symmetry; apply Permutation_rev. Qed.
Print Assumptions C26_random_split.
Print Assumptions C26_ceiling.

(** * C27 (exact arithmetic) *)
Theorem C27_class_proportions_partial : forall rarr q seed l,
  Permutation (rarr (length l) seed) (seq 0 (length l)) ->
  exists g0 g1, part_strat rarr (Fin q) seed l = Ok [g0; g1] /\ Permutation (g0 ++ g1) l /\
    forall c, let n_c := occ (map label l) c in
      occ (map label g0) c = Nat.min n_c (ceiln (qofn n_c * q)) /\ occ (map label g0) c + occ (map label g1) c = n_c.
Proof.
  intros rarr q seed l HP. destruct (part_strat_spec rarr q seed l HP) as (g0 & g1 & E & P & H). exists g0, g1. split; [exact E|]. split; [exact P|].
  intros c. assert (HC : forall m, occ (map label m) c = cb c m) by (intros m; unfold occ; rewrite count_occ_countb, countb_map; reflexivity).
  cbv zeta. rewrite !HC. apply H.
Qed.
(** The bound is computed as [list.size() * ratio * probability] in doubles (Partition.cpp:96-98).  With 41 instances,
    28 of one class and ratio 0.25 the rounded product exceeds 7 = 28/4, so the class contributes 8 instances to the
    first group instead of 7. *)
Definition fofZ (z : Z) : spec_float := binary_normalize 53 1024 z 0 false.
Definition fmul := SFmul 53 1024.
Definition fdiv := SFdiv 53 1024.
Theorem C27_rounding_refuted : exists n n_c : Z, (n_c * 1 = 7 * 4)%Z /\ (n_c <= n)%Z /\
  SFltb (fofZ 7) (fmul (fmul (fofZ n) (fdiv (fofZ 1) (fofZ 4))) (fdiv (fofZ n_c) (fofZ n))) = true.
Proof. exists 41%Z, 28%Z. split; [reflexivity|]. split; [lia|]. vm_compute. reflexivity. Qed.
Example C27_case : rmap (map (map label)) (part_strat (fun n _ => rev (seq 0 n)) (Fin (1#2)) 1 ex_list) = Ok [["c"; "b"; "a"]; ["b"]].
Proof. reflexivity. Qed.
Print Assumptions C27_class_proportions_partial.
Print Assumptions C27_rounding_refuted.
