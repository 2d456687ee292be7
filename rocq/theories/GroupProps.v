(** C166: the names of lists of instances.  C167: the solution of a two-class problem. *)
From Coq Require Import String ZArith QArith Bool Lia Permutation Arith List.
From Verif Require Import Base Spec BaseLemmas AttrModel InstanceListModel ListSpec ListProofs ListProps PartitionModel PartitionProofs GaussianModel GaussianProofs SolverModel SvmModel GroupModel GroupProofs.
Import ListNotations.
Local Open Scope string_scope.
Local Open Scope list_scope.
Local Open Scope nat_scope.

(** * C166 *)
(** Dividing by class gives one list for each label, in the order in which the labels first occur; the list named [c] has exactly the
    instances labelled [c], in order, and is not empty. *)
Theorem C166_by_class : forall l, exists gs, groups_class l = Ok gs /\ first_occurrences (map label l) (map group_label gs) /\ part_class l = Ok (map held gs) /\
  Forall (fun g => same g = Some (group_label g) /\ held g <> [] /\ held g = filter (fun x => String.eqb (label x) (group_label g)) l) gs.
Proof.
  intros l. exists (map (fun c => mkGroup (Some c) (filter (of_class c) l)) (distinct_labels l)). split; [apply groups_class_named|].
  rewrite !map_map. cbn [group_label same held]. rewrite map_id. split; [apply C15_distinct_labels|]. split; [apply part_class_spec|].
  apply Forall_map, Forall_forall. intros c Hc. cbn [group_label same held]. split; [reflexivity|]. split; [apply class_nonempty, distinct_in, Hc|reflexivity].
Qed.
(** So the name is the label of everything in the list. *)
Theorem C166_true_name : forall l gs g x, groups_class l = Ok gs -> In g gs -> In x (held g) -> label x = group_label g.
Proof.
  intros l gs g x E Hg Hx. rewrite groups_class_named in E. injection E as <-. apply in_map_iff in Hg as (c & <- & _). apply filter_of_class_in in Hx. exact Hx.
Qed.
(** LDA, QDA and naive Bayes cast every list of a division by class to InstanceListOfSameClass and ask its name: always defined, and the
    name is the label of that list. *)
Theorem C166_cast : forall l, exists gs, groups_class l = Ok gs /\ Forall (fun g => class_name g = Ok (group_label g)) gs /\ class_lists l = Ok (map (fun g => (group_label g, held g)) gs) /\ named_lists l = class_lists l.
Proof.
  intros l. exists (map (fun c => mkGroup (Some c) (filter (of_class c) l)) (distinct_labels l)). split; [apply groups_class_named|]. split; [apply Forall_map, Forall_forall; reflexivity|].
  split; [rewrite class_lists_spec, map_map; reflexivity|apply named_lists_same].
Qed.
(** Every other way of dividing gives the lists of C23-C27, all without a name: their name is the empty text, and the cast is undefined. *)
Definition nameless (gs : list group) (lists : list ilist) : Prop := map held gs = lists /\ Forall (fun g => group_label g = "" /\ class_name g = UB BadCast) gs.
Theorem C166_others_nameless :
  (forall k l lists, part_disc k l = Ok lists -> exists gs, groups_disc k l = Ok gs /\ nameless gs lists) /\
  (forall k v l lists, part_idx k v l = Ok lists -> exists gs, groups_idx k v l = Ok gs /\ nameless gs lists) /\
  (forall k t l lists, part_cont k t l = Ok lists -> exists gs, groups_cont k t l = Ok gs /\ nameless gs lists) /\
  (forall rarr ratio seed l lists, part_strat rarr ratio seed l = Ok lists -> exists gs, groups_strat rarr ratio seed l = Ok gs /\ nameless gs lists) /\
  (forall perm ratio seed l l' lists, part_random perm ratio seed l = Ok (l', lists) -> exists gs, groups_random perm ratio seed l = Ok (l', gs) /\ nameless gs lists).
Proof.
  assert (N : forall lists, nameless (unnamed lists) lists).
  { intros lists. split; [unfold unnamed; rewrite map_map; apply map_id|]. apply Forall_map, Forall_forall. intros g _. split; reflexivity. }
  repeat split; intros.
  - exists (unnamed lists). rewrite groups_disc_unnamed, H. split; [reflexivity|apply N].
  - exists (unnamed lists). rewrite groups_idx_unnamed, H. split; [reflexivity|apply N].
  - exists (unnamed lists). rewrite groups_cont_unnamed, H. split; [reflexivity|apply N].
  - exists (unnamed lists). rewrite groups_strat_unnamed, H. split; [reflexivity|apply N].
  - exists (unnamed lists). rewrite groups_random_unnamed, H. split; [reflexivity|apply N].
Qed.
(** They fail as the divisions of C23-C27 fail, and never otherwise. *)
Theorem C166_others_fail : forall k v t rarr perm ratio seed l,
  groups_disc k l = rmap (map (mkGroup None)) (part_disc k l) /\ groups_idx k v l = rmap (map (mkGroup None)) (part_idx k v l) /\ groups_cont k t l = rmap (map (mkGroup None)) (part_cont k t l) /\
  groups_strat rarr ratio seed l = rmap (map (mkGroup None)) (part_strat rarr ratio seed l) /\ groups_random perm ratio seed l = rmap (fun r => (fst r, map (mkGroup None) (snd r))) (part_random perm ratio seed l).
Proof. intros. repeat split; [apply groups_disc_unnamed|apply groups_idx_unnamed|apply groups_cont_unnamed|apply groups_strat_unnamed|apply groups_random_unnamed]. Qed.
(** Dividing a list of a division by class again gives that list alone, with its name. *)
Theorem C166_again : forall l gs g, groups_class l = Ok gs -> In g gs -> groups_class (held g) = Ok [g].
Proof.
  intros l gs g E Hg. destruct (C166_by_class l) as (gs' & E' & _ & _ & F). rewrite E' in E. injection E as ->. rewrite Forall_forall in F. destruct (F g Hg) as (Es & Hn & _).
  rewrite (groups_class_once (group_label g)); [|exact Hn|intros x Hx; exact (C166_true_name l gs g x E' Hg Hx)]. destruct g as [s h]. cbn [same held group_label] in *. destruct s as [c|]; [reflexivity|discriminate].
Qed.
(** The name does not follow later changes: whatever is done to the list, the name stays. *)
Inductive edited : group -> group -> Prop :=
| edited_not : forall g, edited g g
| edited_add : forall g h x, edited g h -> edited g (group_add h x)
| edited_list : forall g h f, edited g h -> edited g (group_edit f h).
Theorem C166_name_stays : forall g h, edited g h -> group_label h = group_label g /\ class_name h = class_name g.
Proof. intros g h H. induction H as [g|g h x _ IH|g h f _ IH]; [split; reflexivity|exact IH|exact IH]. Qed.
(** So it is false that the name of a list is the label of what is in it, once an instance has been added by hand. *)
Theorem C166_false_name_refuted : exists l gs g x, groups_class l = Ok gs /\ In g gs /\ In x (held (group_add g x)) /\ label x <> group_label (group_add g x).
Proof.
  exists [mkInst "a" [] None], [mkGroup (Some "a") [mkInst "a" [] None]], (mkGroup (Some "a") [mkInst "a" [] None]), (mkInst "b" [] None).
  split; [reflexivity|]. split; [left; reflexivity|]. split; [right; left; reflexivity|]. cbn. discriminate.
Qed.
Example C166_case : rmap (map (fun g => (group_label g, map label (held g)))) (groups_class ex_list) = Ok [("b", ["b"; "b"]); ("a", ["a"]); ("c", ["c"])] /\
  rmap (map (fun g => (group_label g, map label (held g)))) (groups_disc 1 ex_list) = Ok [("", ["b"; "c"]); ("", ["a"; "b"])].
Proof. split; reflexivity. Qed.

(** * C167 *)
(** Positions from 0 to one below the number of multipliers can be read and written; a write is seen at its position only, and leaves
    [rho] and the number of multipliers alone. *)
Theorem C167_read_write : forall s i v, in_range (length (sol_alpha s)) i -> exists s', set_alpha s i v = Ok s' /\ get_alpha s' i = Ok v /\ (forall j, j <> i -> get_alpha s' j = get_alpha s j) /\ get_rho s' = get_rho s /\ length (sol_alpha s') = length (sol_alpha s).
Proof.
  intros s i v [H0 H1]. assert (Hi : Z.to_nat i < length (sol_alpha s)) by lia. unfold set_alpha, get_alpha, idx. assert (Eb : (i <? 0)%Z = false) by (apply Z.ltb_ge; lia). rewrite Eb.
  destruct (nth_error (sol_alpha s) (Z.to_nat i)) as [a|] eqn:Ea; [|apply nth_error_None in Ea; lia]. cbn [bind]. eexists; split; [reflexivity|]. cbn [sol_alpha sol_rho get_rho]. rewrite nth_upd_same by exact Hi. split; [reflexivity|].
  split; [|split; [reflexivity|apply upd_length]]. intros j Hj. destruct (Z.ltb_spec j 0) as [|Hj0]; [reflexivity|]. rewrite nth_upd_other by lia. reflexivity.
Qed.
(** Any other position is outside the array: undefined, for reading and for writing. *)
Theorem C167_outside : forall s i v, ~ in_range (length (sol_alpha s)) i -> get_alpha s i = UB BadIndex /\ set_alpha s i v = UB BadIndex.
Proof.
  intros s i v H. assert (E : idx (sol_alpha s) i = UB BadIndex).
  { unfold idx. destruct (Z.ltb_spec i 0) as [|Hi]; [reflexivity|]. destruct (nth_error (sol_alpha s) (Z.to_nat i)) as [a|] eqn:Ea; [|reflexivity]. exfalso. apply H. split; [exact Hi|]. assert (Z.to_nat i < length (sol_alpha s)) by (apply nth_error_Some; congruence). lia. }
  unfold get_alpha, set_alpha. rewrite E. split; reflexivity.
Qed.
(** The last loop of solveSingle multiplies every multiplier by the label of its sample and keeps [rho]. *)
Theorem C167_signs : forall y s, length y = length (sol_alpha s) -> exists s', sign_loop (length y) y s = Ok s' /\ get_rho s' = get_rho s /\ sol_alpha s' = map (fun p => dmul (fst p) (snd p)) (combine (sol_alpha s) y).
Proof.
  intros y s H. destruct (sign_loop_spec (length y) y s) as (s' & E & Er & El & En); [lia|lia|]. exists s'. split; [exact E|]. split; [exact Er|]. apply list_ext. intros i. rewrite En, nth_error_map. clear - H. revert y H i.
  destruct s as [r al]. cbn [sol_alpha]. induction al as [|a al IH]; intros [|b y] H i; try discriminate; [destruct i; reflexivity|]. destruct i as [|i]; [reflexivity|]. cbn [nth_error combine length]. change (S i <? S (length y)) with (i <? length y). apply IH. simpl in H. lia.
Qed.
(** The solver returns one multiplier for each sample. That loop is what the model of the support vector machine uses: the solution of the solver, changed in place, is the result of solveSingle. *)
Theorem C167_solve_single : forall dexp dtanh dpow fuel p x py r al, let y := map (fun v => if dgtb v d0 then d1 else dopp d1) py in
  solve dexp dtanh dpow fuel (length py) (repeat (dopp d1) (length py)) y p x = Ok (r, al) ->
  length al = length py /\
  exists s, sign_loop (length py) y (mkSolution r al) = Ok s /\ solve_single dexp dtanh dpow fuel p x py = Ok (get_rho s, sol_alpha s).
Proof.
  intros dexp dtanh dpow fuel p x py r al y E. pose proof (solve_number _ _ _ _ _ _ _ _ _ _ _ E) as L. split; [exact L|]. assert (Ly : length y = length py) by (unfold y; apply map_length).
  destruct (sign_loop_spec (length py) y (mkSolution r al)) as (s & Es & Er & El & En); [cbn [sol_alpha]; lia|lia|]. exists s. split; [exact Es|].
  destruct (mapM_products al y (length py)) as (q & Eq & Lq & Hq); [lia|lia|]. unfold solve_single. fold y. rewrite E. cbn [bind fst snd]. rewrite Eq. cbn [bind]. unfold get_rho. rewrite Er. cbn [sol_rho]. do 2 f_equal.
  cbn [sol_alpha] in *. apply list_ext. intros i. rewrite En. destruct (Nat.ltb_spec i (length py)) as [Hi|Hi]; [apply Hq; exact Hi|]. rewrite (proj2 (nth_error_None q i)), (proj2 (nth_error_None al i)) by lia. reflexivity.
Qed.
Example C167_case : sign_loop 2 [Fin 1; Fin (-(1))] (mkSolution (Fin 3) [Fin (1 # 2); Fin (1 # 4)]) = Ok (mkSolution (Fin 3) [Fin (1 # 2); Fin (-(1) # 4)]) /\ get_alpha (mkSolution (Fin 3) [Fin 1]) 1 = UB BadIndex.
Proof. split; reflexivity. Qed.

Print Assumptions C166_by_class.
Print Assumptions C166_true_name.
Print Assumptions C166_cast.
Print Assumptions C166_others_nameless.
Print Assumptions C166_others_fail.
Print Assumptions C166_again.
Print Assumptions C166_name_stays.
Print Assumptions C166_false_name_refuted.
Print Assumptions C167_read_write.
Print Assumptions C167_outside.
Print Assumptions C167_signs.
Print Assumptions C167_solve_single.
