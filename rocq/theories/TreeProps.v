(** Properties C28, C60 - C64. *)
From Coq Require Import String ZArith QArith Bool Lia Permutation Lqa SpecFloat List.
From Verif Require Import Base Spec BaseLemmas DblLemmas AttrModel InstanceListModel PartitionModel PerformanceModel
  ListSpec ListProofs PartitionProofs TreeModel TreeSpec TreeProofs TreeGrowProofs TreePredictProofs.
Import ListNotations.
Local Open Scope string_scope.
Local Open Scope list_scope.
Local Open Scope nat_scope.

(** * A concrete data set: one continuous, one discrete, one indexed, one binary column *)
Definition ex_shape : list kind := [KCont; KDisc; KIdx 2; KBin].
Definition ex_row (l : string) (q : Q) (d : string) (i : Z) : instance :=
  mkInst l [ACont (Fin q); ADisc d; AIdx "" i 2; ABin "true"] None.
Definition ex_data : list instance :=
  [ex_row "a" 1 "u" 0; ex_row "b" 3 "u" 1; ex_row "a" 2 "w" 0; ex_row "b" 2 "w" 1; ex_row "a" 5 "z" 1].
Definition ex_entropy (c : counter) : dbl := match c with [] | [_] => d0 | _ => d1 end.
Definition ex_mid (a b : dbl) : dbl := ddiv (dadd a b) (Fin 2).
Definition ex_rarr (n : nat) (_ : Z) : list nat := seq 0 n.
Definition ex_max (d : counter) (ls : list string) : string :=
  fold_left (fun b l => if Nat.ltb (ccount d b) (ccount d l) then l else b) ls (hd "" ls).
Lemma ex_tabular : tabular ex_shape ex_data.
Proof.
  repeat (apply Forall_cons || apply Forall_nil); unfold typed, ex_row; simpl;
    repeat (apply Forall2_cons || apply Forall2_nil); simpl; repeat eexists.
Qed.
Lemma ex_entropy_finite : entropy_finite ex_entropy.
Proof. intros [|[k n] [|]]; eexists; reflexivity. Qed.
Lemma ex_mid_exact : mid_exact ex_mid.
Proof. intros a b. unfold ex_mid. simpl. unfold Qeq_bool; simpl. reflexivity. Qed.
Lemma ex_rarr_perm : rarr_perm ex_rarr.
Proof. intros n s. apply Permutation_refl. Qed.
Lemma ex_max_in : max_item_in ex_max.
Proof.
  intros d ls H. unfold ex_max. destruct ls as [|a ls]; [contradiction|]. cbn [hd fold_left].
  rewrite Nat.ltb_irrefl. clear H.
  assert (forall b, In (fold_left (fun b l => if Nat.ltb (ccount d b) (ccount d l) then l else b) ls b) (b :: ls)) as H; [|apply H].
  induction ls as [|x ls IH]; intros b; [left; reflexivity|]. cbn [fold_left]. destruct (Nat.ltb (ccount d b) (ccount d x)).
  - right. apply IH.
  - destruct (IH b) as [H|H]; [left; exact H|right; right; exact H].
Qed.

(** * C28 *)
(** the cut values the three kinds of splits can use: none for discrete columns, an index for indexed columns, any number
    but NaN for continuous columns *)
Definition possible_cut (k : kind) (v : dbl) : Prop :=
  match k with KBin => False | KDisc => True | KIdx _ => exists w, v = dofnat w | KCont => is_nan v = false end.
Theorem C28_children_match_conditions : forall shape data j kd v,
  tabular shape data -> data <> [] -> nth_error shape j = Some kd -> possible_cut kd v ->
  exists parts, split data (Z.of_nat j) v = Ok parts /\
    Permutation (concat (map snd parts)) data /\
    forall i c g x, nth_error parts i = Some (c, g) -> In x data -> (In x g <-> routed (map fst parts) i x).
Proof.
  intros shape data j kd v Ht Hne Hk Hv. destruct (split_spec shape data j kd v Ht Hne Hk Hv) as (parts & E & (A & _ & _ & B) & _).
  exists parts. split; [exact E|]. split; [exact A|exact B].
Qed.
(** The test made at prediction time is the one the routing speaks about, and it never fails on data of the same shape. *)
Theorem C28_test_decides : forall shape data j kd v parts c g x,
  tabular shape data -> data <> [] -> nth_error shape j = Some kd -> possible_cut kd v ->
  split data (Z.of_nat j) v = Ok parts -> In (c, g) parts -> typed shape x ->
  exists b, satisfy c x = Ok b /\ (b = true <-> satisfied c x).
Proof.
  intros shape data j kd v parts c g x Ht Hne Hk Hv E Hin Hx.
  destruct (split_spec shape data j kd v Ht Hne Hk Hv) as (parts' & E' & (_ & F & _ & _) & _).
  assert (parts' = parts) as -> by congruence. apply (satisfy_spec shape); [|exact Hx]. exact (proj1 (Forall_forall _ _) F _ Hin).
Qed.
Example C28_case : rmap (map (fun p => map label (snd p))) (split ex_data 0 (Fin 2)) = Ok [["a"; "a"; "b"]; ["b"; "a"]].
Proof. reflexivity. Qed.
Example C28_case_hyps : tabular ex_shape ex_data /\ ex_data <> [] /\ nth_error ex_shape 0 = Some KCont /\ possible_cut KCont (Fin 2).
Proof. split; [exact ex_tabular|]. split; [discriminate|]. split; reflexivity. Qed.
Print Assumptions C28_children_match_conditions.
Print Assumptions C28_test_decides.

(** * C60 *)
(** Growing finishes, needs no more levels than there are instances, and every child gets strictly fewer instances (part
    of [grown]); exact arithmetic. *)
Theorem C60_growing_terminates_partial : forall entropy mid rarr param stump shape data c,
  entropy_finite entropy -> mid_exact mid -> rarr_perm rarr -> tabular shape data -> data <> [] ->
  exists t, (forall fuel, length data <= fuel -> build entropy mid rarr param stump fuel data c = Ok t) /\ grown data t.
Proof.
  intros entropy mid rarr param stump shape data c He Hm Hr Ht Hne.
  destruct (build_ok entropy mid rarr shape He Hm Hr param stump (length data) data c Ht Hne (le_n _)) as (t & E & G & _ & _).
  exists t. split; [|exact G].
  assert (forall f1 d c1 t1, build entropy mid rarr param stump f1 d c1 = Ok t1 -> forall f2, f1 <= f2 -> build entropy mid rarr param stump f2 d c1 = Ok t1) as Hmono.
  { clear. induction f1 as [|f1 IH]; intros d c1 t1 H f2 Hf; [discriminate H|]. destruct f2 as [|f2]; [lia|].
    cbn [build] in *. destruct (length (distinct_labels d) =? 1); [exact H|].
    destruct (stump && negb (c_index c1 =? -1)%Z); [exact H|].
    destruct (search entropy mid rarr param d) as [[d' b]| | |]; try discriminate H. cbn [bind] in *.
    destruct (b_attr b =? -1)%Z; [exact H|]. destruct (split d' (b_attr b) (b_value b)) as [parts| | |]; try discriminate H. cbn [bind] in *.
    apply bind_ok in H. destruct H as (ch & Hch & H). apply bind_ok. exists ch. split; [|exact H].
    apply mapM_ok in Hch. apply mapM_ok. refine (Forall2_imp _ _ _ _ _ Hch). intros p n Hp. apply (IH _ _ _ Hp). lia. }
  intros fuel Hf. exact (Hmono _ _ _ _ E fuel Hf).
Qed.
(** DecisionTree::train without pruning always succeeds; with pruning it succeeds when some class keeps an instance in the
    second part of the stratified split. *)
Theorem C60_training_terminates_partial : forall max_item entropy mid rarr do_prune q seed shape data,
  entropy_finite entropy -> mid_exact mid -> rarr_perm rarr -> tabular shape data -> data <> [] ->
  Forall (fun x => isComposite x = true -> possible_labels x <> []) data ->
  (do_prune = true -> exists c, ceiln (qofn (occ (map label data) c) * q) < occ (map label data) c) ->
  exists t, tree_train max_item entropy mid rarr do_prune (Fin q) seed (length data) data = Ok t.
Proof.
  intros max_item entropy mid rarr do_prune q seed shape data He Hm Hr Ht Hne Hcomp Hprune. unfold tree_train. destruct do_prune.
  2:{ destruct (build_ok entropy mid rarr shape He Hm Hr None false (length data) data no_condition Ht Hne (le_n _)) as (t & E & _). exists t. exact E. }
  destruct (part_strat_spec rarr q seed data (Hr _ _)) as (g0 & g1 & Es & HP & Hcnt). rewrite Es. cbn [bind atn nth_error].
  destruct (Hprune eq_refl) as (c & Hc). destruct (Hcnt c) as [H0 H1].
  assert (forall l, cb c l = occ (map label l) c) as Hocc by (intros l; symmetry; apply occ_countb). rewrite !Hocc in *.
  assert (g1 <> []) as Hg1. { intros ->. change (occ (map label []) c) with 0 in H1. lia. }
  assert (incl g1 data /\ incl g0 data) as [I1 I0].
  { split; intros x Hx; apply (Permutation_in _ HP), in_or_app; [right|left]; exact Hx. }
  assert (length g1 <= length data) as Hl. { rewrite <- (Permutation_length HP), app_length. lia. }
  destruct (build_ok entropy mid rarr shape He Hm Hr None false (length data) g1 no_condition (tab_incl _ _ _ I1 Ht) Hg1 Hl) as (t & E & _ & _ & F).
  rewrite E. cbn [bind].
  destruct (prune_node_total max_item shape g0 (tab_incl _ _ _ I0 Ht)) with (t := t) (plug := fun t : tree => t) as (t' & Et & _); [|exact F|auto|].
  - apply Forall_forall. intros x Hx. apply (proj1 (Forall_forall _ _) Hcomp), I0, Hx.
  - exists t'. exact Et.
Qed.
(** With pruning on (the default) training throws on every data set in which no class occurs twice: the stratified split
    rounds up and leaves nothing for growing. *)
Theorem C60_pruned_training_refuted : forall max_item entropy mid rarr q seed fuel data,
  rarr_perm rarr -> (0 < q)%Q -> NoDup (map label data) ->
  tree_train max_item entropy mid rarr true (Fin q) seed (S fuel) data = Throw OutOfRange.
Proof.
  intros max_item entropy mid rarr q seed fuel data Hr Hq Hnd. unfold tree_train.
  destruct (part_strat_spec rarr q seed data (Hr _ _)) as (g0 & g1 & Es & HP & Hcnt). rewrite Es. cbn [bind atn nth_error].
  assert (g1 = []) as ->; [|reflexivity].
  destruct g1 as [|x g1]; [reflexivity|]. exfalso. destruct (Hcnt (label x)) as [H0 H1].
  assert (forall l, cb (label x) l = occ (map label l) (label x)) as Hocc by (intros l; symmetry; apply occ_countb). rewrite !Hocc in *.
  assert (occ (map label data) (label x) <= 1) as Hle by (apply NoDup_count_occ; exact Hnd).
  assert (1 <= occ (map label (x :: g1)) (label x)) as Hge by (unfold occ; apply count_occ_In; left; reflexivity).
  assert (occ (map label data) (label x) = 1) as E1 by lia. rewrite E1 in *.
  assert (0 < ceiln (qofn 1 * q)) as Hc. { apply ceil_lt. rewrite qofn_0, qofn_1. lra. }
  lia.
Qed.
Example C60_pruned_case : NoDup (map label [ex_row "a" 1 "u" 0; ex_row "b" 3 "u" 1]) /\
  tree_train ex_max ex_entropy ex_mid ex_rarr true (Fin (1#5)) 1 9 [ex_row "a" 1 "u" 0; ex_row "b" 3 "u" 1] = Throw OutOfRange.
Proof. split; [repeat constructor; simpl; intuition discriminate|vm_compute; reflexivity]. Qed.

(** Machine arithmetic: binary64 numbers of the standard library. *)
Definition fofZ (z : Z) : spec_float := binary_normalize 53 1024 z 0 false.
Definition fadd := SFadd 53 1024.
Definition fmul := SFmul 53 1024.
Definition fdiv := SFdiv 53 1024.
(** exact for the dyadic numbers used below *)
Definition fofQ (q : Q) : spec_float := fdiv (fofZ (Qnum q)) (fofZ (Zpos (Qden q))).
Definition dblof (f : spec_float) : dbl :=
  match f with
  | S754_zero _ => Fin 0
  | S754_finite s m e => let z := if s then Zneg m else Zpos m in
                         match e with
                         | Zneg p => Fin (z # (2 ^ p)%positive)
                         | _ => Fin (inject_Z (z * 2 ^ e))
                         end
  | _ => NaN
  end.
(** (previousValue + value) / 2 in binary64, DecisionNode.cpp:181 *)
Definition machine_mid (a b : dbl) : dbl :=
  match a, b with Fin x, Fin y => dblof (fdiv (fadd (fofQ x) (fofQ y)) (fofZ 2)) | _, _ => NaN end.
Definition near1 : Q := (4503599627370497 # 4503599627370496)%Q.
Definition near2 : Q := (4503599627370498 # 4503599627370496)%Q.
Definition near_data : list instance := [mkInst "a" [ACont (Fin near1)] None; mkInst "b" [ACont (Fin near2)] None].
(** Two neighbouring doubles whose rounded midpoint is the larger one: the split sends everything to the first child and
    the constructor recurses for ever. *)
Theorem C60_rounding_refuted :
  exists data, tabular [KCont] data /\ data <> [] /\
    forall fuel c, build ex_entropy machine_mid ex_rarr None false fuel data c = Diverge.
Proof.
  exists near_data. split; [|split; [discriminate|]].
  - repeat (apply Forall_cons || apply Forall_nil); unfold typed; simpl; repeat (apply Forall2_cons || apply Forall2_nil); simpl; repeat eexists.
  - induction fuel as [|f IH]; intros c; [reflexivity|]. cbn [build].
    assert (length (distinct_labels near_data) =? 1 = false) as -> by reflexivity. cbn [andb].
    assert (exists b c1 c2, search ex_entropy machine_mid ex_rarr None near_data = Ok (near_data, b) /\ (b_attr b =? -1)%Z = false /\
       split near_data (b_attr b) (b_value b) = Ok [(c1, near_data); (c2, [])]) as (b & c1 & c2 & E1 & E2 & E3).
    { do 3 eexists. split; [vm_compute; reflexivity|]. split; vm_compute; reflexivity. }
    rewrite E1. cbn [bind]. rewrite E2, E3. cbn [bind mapM fst snd]. rewrite IH. reflexivity.
Qed.
(** An indexed column in which all instances have the same index: the weighted entropy of the "split" is (0*0 + h*n)/n,
    DecisionNode.cpp:155.  With 11 instances, 3 of one class and 8 of the other, h = 0x1.b0d1d684df672p-1 and the rounded
    value is smaller than h, so the split that separates nothing is taken. *)
Theorem C60_indexed_rounding_refuted : exists (h : spec_float) (n : Z),
  SFltb (fdiv (fadd (fmul (fofZ 0) (fofZ 0)) (fmul h (fofZ n))) (fofZ n)) h = true.
Proof. exists (S754_finite false 0x1b0d1d684df672 (-53)), 11%Z. vm_compute. reflexivity. Qed.
Example C60_case : exists t, build ex_entropy ex_mid ex_rarr None false 5 ex_data no_condition = Ok t /\ height t = 2 /\ length (t_children t) = 2.
Proof. eexists. split; [vm_compute; reflexivity|]. split; vm_compute; reflexivity. Qed.
Print Assumptions C60_growing_terminates_partial.
Print Assumptions C60_training_terminates_partial.
Print Assumptions C60_pruned_training_refuted.
Print Assumptions C60_rounding_refuted.
Print Assumptions C60_indexed_rounding_refuted.

(** * C61 *)
Theorem C61_known_label : forall max_item entropy mid rarr param stump shape data c fuel t x,
  entropy_finite entropy -> mid_exact mid -> rarr_perm rarr -> tabular shape data -> data <> [] -> length data <= fuel ->
  build entropy mid rarr param stump fuel data c = Ok t -> typed shape x -> isComposite x = false ->
  exists p, tree_predict max_item t x = Ok p /\ In p (map label data).
Proof.
  intros max_item entropy mid rarr param stump shape data c fuel t x He Hm Hr Ht Hne Hf E Hx Hp.
  destruct (build_ok entropy mid rarr shape He Hm Hr param stump fuel data c Ht Hne Hf) as (t' & E' & G & _ & F).
  assert (t' = t) as -> by congruence. rewrite (tree_predict_plain max_item t x Hp). exact (predict_in max_item shape t data x G F Hx Hp).
Qed.
Theorem C61_possible_label : forall max_item entropy mid rarr param stump shape data c fuel t x,
  max_item_in max_item -> entropy_finite entropy -> mid_exact mid -> rarr_perm rarr -> tabular shape data -> data <> [] -> length data <= fuel ->
  build entropy mid rarr param stump fuel data c = Ok t -> typed shape x -> isComposite x = true -> possible_labels x <> [] ->
  exists p, tree_predict max_item t x = Ok p /\ In p (possible_labels x).
Proof.
  intros max_item entropy mid rarr param stump shape data c fuel t x Hmax He Hm Hr Ht Hne Hf E Hx Hp Hpos.
  destruct (build_ok entropy mid rarr shape He Hm Hr param stump fuel data c Ht Hne Hf) as (t' & E' & G & _ & F).
  assert (t' = t) as -> by congruence. destruct (predict_possible max_item shape Hmax t x F Hx Hp Hpos) as (p & Ep & Hin).
  unfold tree_predict. rewrite Ep. cbn [bind]. destruct (String.eqb p "" && isComposite x); [|exists p; split; [reflexivity|exact Hin]].
  destruct (possible_labels x) as [|q r]; [contradiction|]. exists q. split; [reflexivity|left; reflexivity].
Qed.
Definition ex_composite : instance := mkInst "a" [ACont (Fin 4); ADisc "new"; AIdx "" 1 2; ABin "true"] (Some ["b"; "z"]).
Example C61_case : exists t, build ex_entropy ex_mid ex_rarr None false 5 ex_data no_condition = Ok t /\
  tree_predict ex_max t (ex_row "?" 4 "new" 1) = Ok "b" /\ tree_predict ex_max t ex_composite = Ok "b".
Proof. eexists. split; [vm_compute; reflexivity|]. split; vm_compute; reflexivity. Qed.
Print Assumptions C61_known_label.
Print Assumptions C61_possible_label.

(** * C62 *)
(** plain instances *)
Theorem C62_majority_partial : forall max_item entropy mid rarr param stump shape data c fuel t,
  entropy_finite entropy -> mid_exact mid -> rarr_perm rarr -> tabular shape data -> data <> [] -> length data <= fuel ->
  Forall (fun x => isComposite x = false) data ->
  build entropy mid rarr param stump fuel data c = Ok t ->
  forall l, occ (map label data) l <= hits (tree_predict max_item t) data.
Proof.
  intros max_item entropy mid rarr param stump shape data c fuel t He Hm Hr Ht Hne Hf Hp E.
  destruct (build_ok entropy mid rarr shape He Hm Hr param stump fuel data c Ht Hne Hf) as (t' & E' & G & _ & F).
  assert (t' = t) as -> by congruence. rewrite (hits_plain max_item t data Hp). exact (proj1 (grown_best max_item shape t data G F Ht Hp)).
Qed.
(** an unpruned tree classifies at least as many of its training instances correctly as any pruned version of it *)
Theorem C62_best_of_prunings_partial : forall max_item entropy mid rarr param stump shape data c fuel t t',
  entropy_finite entropy -> mid_exact mid -> rarr_perm rarr -> tabular shape data -> data <> [] -> length data <= fuel ->
  Forall (fun x => isComposite x = false) data ->
  build entropy mid rarr param stump fuel data c = Ok t -> pruned t t' ->
  hits (tree_predict max_item t') data <= hits (tree_predict max_item t) data.
Proof.
  intros max_item entropy mid rarr param stump shape data c fuel t t' He Hm Hr Ht Hne Hf Hp E Hpr.
  destruct (build_ok entropy mid rarr shape He Hm Hr param stump fuel data c Ht Hne Hf) as (t1 & E' & G & _ & F).
  assert (t1 = t) as -> by congruence. rewrite !(hits_plain max_item _ data Hp). exact (proj2 (grown_best max_item shape t data G F Ht Hp) t' Hpr).
Qed.
(** composite instances: a tie between two classes is broken by the order of each instance's possible labels *)
Theorem C62_composite_refuted :
  exists data t, tabular [] data /\ data <> [] /\ Forall (fun x => In (label x) (possible_labels x)) data /\
    build ex_entropy ex_mid ex_rarr None false (length data) data no_condition = Ok t /\
    hits (tree_predict ex_max t) data = 0 /\ occ (map label data) "a" = 1.
Proof.
  exists [mkInst "a" [] (Some ["b"; "a"]); mkInst "b" [] (Some ["a"; "b"])]. eexists.
  split; [repeat constructor|]. split; [discriminate|]. split; [repeat constructor; simpl; tauto|].
  split; [vm_compute; reflexivity|]. split; vm_compute; reflexivity.
Qed.
Example C62_case : exists t, build ex_entropy ex_mid ex_rarr None false 5 ex_data no_condition = Ok t /\
  hits (tree_predict ex_max t) ex_data = 5 /\ Forall (fun x => isComposite x = false) ex_data.
Proof. eexists. split; [vm_compute; reflexivity|]. split; [vm_compute; reflexivity|]. repeat constructor. Qed.
Print Assumptions C62_majority_partial.
Print Assumptions C62_best_of_prunings_partial.
Print Assumptions C62_composite_refuted.

(** * C63 *)
Theorem C63_pruning_never_hurts : forall max_item t l t',
  prune max_item t l = Ok t' ->
  pruned t t' /\ hits (tree_predict max_item t) l <= hits (tree_predict max_item t') l.
Proof. intros max_item t l t' H. exact (prune_node_ok max_item l t (fun t => t) t' H). Qed.
(** pruning a tree that was grown on data of the same shape as the pruning set always finishes *)
Theorem C63_pruning_finishes : forall max_item entropy mid rarr param stump shape data c fuel t l,
  entropy_finite entropy -> mid_exact mid -> rarr_perm rarr -> tabular shape data -> data <> [] -> length data <= fuel ->
  build entropy mid rarr param stump fuel data c = Ok t ->
  tabular shape l -> Forall (fun x => isComposite x = true -> possible_labels x <> []) l ->
  exists t', prune max_item t l = Ok t'.
Proof.
  intros max_item entropy mid rarr param stump shape data c fuel t l He Hm Hr Ht Hne Hf E Hl Hc.
  destruct (build_ok entropy mid rarr shape He Hm Hr param stump fuel data c Ht Hne Hf) as (t1 & E' & G & _ & F).
  assert (t1 = t) as -> by congruence.
  destruct (prune_node_total max_item shape l Hl Hc t (fun t => t) F ltac:(auto)) as (t' & Et & _). exists t'. exact Et.
Qed.
(** the pruned tree gives a prediction for exactly what the original tree gave one for: only [leaf] flags changed *)
Definition ex_prune_set : list instance := [ex_row "b" 5 "u" 1; ex_row "b" 1 "u" 0; ex_row "b" 2 "w" 1].
Example C63_case : exists t t', build ex_entropy ex_mid ex_rarr None false 5 ex_data no_condition = Ok t /\
  prune ex_max t ex_prune_set = Ok t' /\ t <> t' /\
  hits (tree_predict ex_max t) ex_prune_set = 1 /\ hits (tree_predict ex_max t') ex_prune_set = 2.
Proof. do 2 eexists. split; [vm_compute; reflexivity|]. split; [vm_compute; reflexivity|]. split; [discriminate|]. split; vm_compute; reflexivity. Qed.
Print Assumptions C63_pruning_never_hurts.
Print Assumptions C63_pruning_finishes.

(** * C64 *)
Theorem C64_stump_height : forall entropy mid rarr shape data fuel t,
  entropy_finite entropy -> mid_exact mid -> rarr_perm rarr -> tabular shape data -> data <> [] ->
  stump_train entropy mid rarr fuel data = Ok t ->
  height t <= 1 /\ Forall (fun n => t_leaf n = true) (t_children t).
Proof.
  intros entropy mid rarr shape data fuel t He Hm Hr Ht Hne E.
  pose proof (build_stump entropy mid rarr shape He Hm Hr None fuel data no_condition t Ht Hne E) as H. split.
  - destruct t as [lab leaf d c ch]. cbn [t_children] in H. cbn [height]. clear E. induction H as [|n ch [_ Hn] _ IH]; [simpl; lia|].
    assert (height n = 0) as Hh by (destruct n as [? ? ? ? chn]; simpl in Hn; rewrite Hn; reflexivity).
    cbn [map fold_right]. rewrite Hh. lia.
  - refine (Forall_impl _ _ H). intros n [Hn _]. exact Hn.
Qed.
(** and it is built for every non-empty well typed training set *)
Theorem C64_stump_finishes : forall entropy mid rarr shape data,
  entropy_finite entropy -> mid_exact mid -> rarr_perm rarr -> tabular shape data -> data <> [] ->
  exists t, stump_train entropy mid rarr (length data) data = Ok t /\ grown data t.
Proof.
  intros entropy mid rarr shape data He Hm Hr Ht Hne.
  destruct (build_ok entropy mid rarr shape He Hm Hr None true (length data) data no_condition Ht Hne (le_n _)) as (t & E & G & _ & _).
  exists t. split; [exact E|exact G].
Qed.
Example C64_case : exists t, stump_train ex_entropy ex_mid ex_rarr 5 ex_data = Ok t /\ height t = 1 /\ length (t_children t) = 2.
Proof. eexists. split; [vm_compute; reflexivity|]. split; vm_compute; reflexivity. Qed.
Print Assumptions C64_stump_height.
Print Assumptions C64_stump_finishes.
