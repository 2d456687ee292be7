(** C161: choosing features commutes with what is done with lists of instances. *)
From Coq Require Import String ZArith QArith Bool Lia Lqa Permutation Arith List.
From Verif Require Import Base Spec BaseLemmas AttrModel AttrProofs DataSetModel InstanceListModel PartitionModel StatModel FilterModel DistanceModel ListSpec ListProofs StatSpec DistanceSpec ChooseSpec ChooseProofs.
Import ListNotations.
Local Open Scope string_scope.
Local Open Scope list_scope.
Local Open Scope nat_scope.

(** getSubSetOfFeatures: the result has the label, the chosen features in the given order, and nothing else. *)
Theorem C161_subset : forall fs l l', mapM (fun x => inst_subset x fs) l = Ok l' <-> reduced fs l l'.
Proof.
  intros fs l l'. split.
  - intros E. apply mapM_ok in E. unfold reduced. induction E as [|x y l l' H E IH]; constructor; [apply picks_subset, H|exact IH].
  - intros F. induction F as [|x y l l' H F IH]; cbn; [reflexivity|]. apply picks_subset in H. rewrite H. cbn. rewrite IH. reflexivity.
Qed.
Print Assumptions C161_subset.

(** Sorting, shuffling and drawing with replacement give the same order, before or after the choice; if one fails so does the other. *)
Theorem C161_order : forall fs l l', reduced fs l l' ->
  (forall k j, moved fs k j -> alike (reduced fs) (sort_by k l) (sort_by j l')) /\ reduced fs (sort_class l) (sort_class l') /\
  (forall perm seed, reduced fs (shuffle perm seed l) (shuffle perm seed l')) /\ (forall pick seed, reduced fs (bootstrap pick seed l) (bootstrap pick seed l')).
Proof.
  intros fs l l' F. split; [intros; apply sort_reduced; assumption|]. split; [apply sort_class_reduced, F|]. split; intros; [apply shuffle_reduced, F|apply bootstrap_reduced, F].
Qed.
Print Assumptions C161_order.

(** The parts: every way of dividing the list puts the same instances together. *)
Theorem C161_parts : forall fs l l', reduced fs l l' ->
  alike (reduced_all fs) (part_class l) (part_class l') /\
  (forall k j, moved fs k j -> alike (reduced_all fs) (part_disc k l) (part_disc j l') /\ (forall v, alike (reduced_all fs) (part_idx k v l) (part_idx j v l')) /\ forall t, alike (reduced_all fs) (part_cont k t l) (part_cont j t l')) /\
  (forall rarr ratio seed, alike (reduced_all fs) (part_strat rarr ratio seed l) (part_strat rarr ratio seed l')) /\
  (forall perm ratio seed, alike (fun r r' => reduced fs (fst r) (fst r') /\ reduced_all fs (snd r) (snd r')) (part_random perm ratio seed l) (part_random perm ratio seed l')).
Proof.
  intros fs l l' F. split; [apply part_class_reduced, F|]. split; [|split; intros; [apply part_strat_reduced, F|apply part_random_reduced, F]].
  intros k j M. split; [apply part_disc_reduced; assumption|]. split; intros; [apply part_idx_reduced|apply part_cont_reduced]; assumption.
Qed.
Print Assumptions C161_parts.

(** The statistics of a chosen feature are those of the same feature of the full list. *)
Theorem C161_statistics : forall fs l l' k j, reduced fs l l' -> moved fs k j ->
  class_distribution l' = class_distribution l /\ distinct_labels l' = distinct_labels l /\ value_list j l' = value_list k l /\
  attr_average j l' = attr_average k l /\ cont_average j l' = cont_average k l /\ attr_std j l' = attr_std k l /\ cont_std j l' = cont_std k l /\
  attr_distribution j l' = attr_distribution k l /\ attr_class_distribution j l' = attr_class_distribution k l /\ (forall v, idx_class_distribution j v l' = idx_class_distribution k v l).
Proof.
  intros fs l l' k j F M. split; [apply (reduced_classes fs), F|]. split; [apply (reduced_distinct fs), F|]. split; [apply (value_list_reduced fs); assumption|].
  split; [apply (attr_average_reduced fs); assumption|]. split; [apply (cont_average_reduced fs); assumption|]. split; [apply (attr_std_reduced fs); assumption|].
  split; [apply (cont_std_reduced fs); assumption|]. split; [apply (attr_distribution_reduced fs); assumption|]. split; [apply (attr_class_distribution_reduced fs); assumption|].
  intros v. apply (idx_class_distribution_reduced fs); assumption.
Qed.
Print Assumptions C161_statistics.

(** Normalising and then choosing is choosing and then normalising.  A feature chosen twice is one shared object, which Normalize would
    change twice: here each feature is chosen at most once. *)
Theorem C161_normalise : forall fs l l' r, NoDup fs -> reduced fs l l' -> normalize l = Ok r -> exists r', normalize l' = Ok r' /\ Forall2 (picks_normalised fs) r r'.
Proof. intros fs l l' r _. apply normalize_reduced. Qed.
Print Assumptions C161_normalise.
(** The converse fails: normalising the full list may fail on a feature that was not chosen. *)
Theorem C161_normalise_refuted : exists fs l l' r', reduced fs l l' /\ normalize l' = Ok r' /\ forall r, normalize l <> Ok r.
Proof.
  exists [0%Z], [mkInst "a" [ACont (Fin 1); ACont (Fin 2)] None; mkInst "a" [ACont (Fin 1)] None], [mkInst "a" [ACont (Fin 1)] None; mkInst "a" [ACont (Fin 1)] None].
  eexists. split; [apply C161_subset; reflexivity|]. split; [vm_compute; reflexivity|]. intros r E. vm_compute in E. discriminate.
Qed.
Print Assumptions C161_normalise_refuted.

(** Choosing each feature at most once brings instances closer together, never further apart. *)
Theorem C161_distance : forall fs x y x' y', NoDup fs -> attr_count x = attr_count y -> Forall finite (attrs x) -> Forall finite (attrs y) -> picks fs x x' -> picks fs y y' ->
  exists p q, eucl x y = Ok (Fin p) /\ eucl x' y' = Ok (Fin q) /\ (0 <= q <= p)%Q.
Proof. exact eucl_reduced. Qed.
Print Assumptions C161_distance.
(** Choosing a feature twice can bring them further apart. *)
Theorem C161_distance_refuted : exists fs x y x' y' p q, attr_count x = attr_count y /\ Forall finite (attrs x) /\ Forall finite (attrs y) /\ picks fs x x' /\ picks fs y y' /\
  eucl x y = Ok (Fin p) /\ eucl x' y' = Ok (Fin q) /\ (p < q)%Q.
Proof.
  exists [0%Z; 0%Z], (mkInst "a" [ACont (Fin 1)] None), (mkInst "a" [ACont (Fin 2)] None), (mkInst "a" [ACont (Fin 1); ACont (Fin 1)] None), (mkInst "a" [ACont (Fin 2); ACont (Fin 2)] None).
  do 2 eexists. split; [reflexivity|]. split; [constructor; [intros v E; injection E as <-; eexists; reflexivity|constructor]|]. split; [constructor; [intros v E; injection E as <-; eexists; reflexivity|constructor]|].
  split; [apply picks_subset; reflexivity|]. split; [apply picks_subset; reflexivity|]. split; [vm_compute; reflexivity|]. split; [vm_compute; reflexivity|]. reflexivity.
Qed.
Print Assumptions C161_distance_refuted.

(** The covariance matrix of the reduced instances is the part of the full one at the chosen rows and columns. *)
Theorem C161_covariance : forall n fs l l' rows centre, 2 <= List.length l -> List.length centre = n -> Forall2 (fun x q => numbers q x /\ List.length q = n) l rows -> reduced fs l l' ->
  exists m m', covariance (map Fin centre) l = Ok (map (map Fin) m) /\ covariance (map Fin (choose fs centre)) l' = Ok (map (map Fin) m') /\
    square n m /\ square (List.length fs) m' /\
    forall i j, i < List.length fs -> j < List.length fs -> (mget m' i j == mget m (Z.to_nat (nth i fs 0%Z)) (Z.to_nat (nth j fs 0%Z)))%Q.
Proof. exact covariance_reduced. Qed.
Print Assumptions C161_covariance.

(** The possible labels of composite instances are lost: the label of an instance is all that is left. *)
Theorem C161_possible_refuted : exists fs l l', reduced fs l l' /\ union_possible l' <> union_possible l.
Proof.
  exists [0%Z], [mkInst "a" [ACont (Fin 1)] (Some ["a"; "b"])], [mkInst "a" [ACont (Fin 1)] None]. split; [apply C161_subset; reflexivity|]. vm_compute. discriminate.
Qed.
Print Assumptions C161_possible_refuted.
Theorem C161_possible : forall fs l l', reduced fs l l' -> Forall (fun x => composite x = None) l -> union_possible l' = union_possible l.
Proof.
  intros fs l l' F. unfold union_possible. generalize (@nil string). induction F as [|x y l l' (Hl & Hc & _) F IH]; intros acc H; [reflexivity|]. inversion H as [|? ? Hx H']; subst.
  cbn [fold_left]. unfold possible_labels at 2 4. rewrite Hc, Hx, Hl. apply IH, H'.
Qed.
Print Assumptions C161_possible.

(** Three instances with two numbers and a word; the word and the second number are chosen. *)
Example C161_case : let l := [mkInst "b" [ACont (Fin 5); ADisc "red"; ACont (Fin 3)] None; mkInst "a" [ACont (Fin 1); ADisc "blue"; ACont (Fin 1)] None; mkInst "b" [ACont (Fin 2); ADisc "red"; ACont (Fin 2)] None] in
  let l' := [mkInst "b" [ACont (Fin 3); ADisc "red"] None; mkInst "a" [ACont (Fin 1); ADisc "blue"] None; mkInst "b" [ACont (Fin 2); ADisc "red"] None] in
  reduced [2%Z; 1%Z] l l' /\ moved [2%Z; 1%Z] 2%Z 0%Z /\ moved [2%Z; 1%Z] 1%Z 1%Z /\
  sort_by 0%Z l' = Ok [mkInst "a" [ACont (Fin 1); ADisc "blue"] None; mkInst "b" [ACont (Fin 2); ADisc "red"] None; mkInst "b" [ACont (Fin 3); ADisc "red"] None] /\
  part_disc 1%Z l' = Ok [[mkInst "b" [ACont (Fin 3); ADisc "red"] None; mkInst "b" [ACont (Fin 2); ADisc "red"] None]; [mkInst "a" [ACont (Fin 1); ADisc "blue"] None]] /\
  eucl (mkInst "b" [ACont (Fin 5); ADisc "red"; ACont (Fin 3)] None) (mkInst "a" [ACont (Fin 1); ADisc "blue"; ACont (Fin 1)] None) = Ok (Fin 21) /\
  eucl (mkInst "b" [ACont (Fin 3); ADisc "red"] None) (mkInst "a" [ACont (Fin 1); ADisc "blue"] None) = Ok (Fin 5).
Proof.
  cbv zeta. split; [apply C161_subset; reflexivity|]. split; [split; [unfold in_range; cbn; lia|reflexivity]|]. split; [split; [unfold in_range; cbn; lia|reflexivity]|].
  split; [vm_compute; reflexivity|]. split; [vm_compute; reflexivity|]. split; vm_compute; reflexivity.
Qed.
