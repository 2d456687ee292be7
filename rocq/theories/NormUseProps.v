(** Property C153: normalising the data before training. *)
From Coq Require Import String ZArith QArith Qreals Reals Bool Lia Lqa Permutation Arith List.
From Verif Require Import Base Spec BaseLemmas DblLemmas AttrModel InstanceListModel PartitionModel PerformanceModel StatModel StatSpec ListSpec CovProofs
  TreeModel TreeSpec TreeProofs TreeGrowProofs TreePredictProofs TreeProps EnsembleModel EnsembleProofs EnsembleProps InvSpec InvProps
  DistanceModel DistanceSpec DistanceProofs GaussianModel GaussianSpec DiscrimSpec GaussianProps DiscrimProps ModelInvSpec ModelInvProps
  FilterModel FilterSpec FilterProofs NormProofs FilterProps NormUseSpec NormUseProofs.
Import ListNotations.
Local Open Scope string_scope.
Local Open Scope list_scope.
Local Open Scope nat_scope.

(** Normalised data is the same data in other units (one positive factor and one shift per feature). *)
Theorem C153_rescales : forall ks l l', number_columns ks l -> 2 <= length l -> normalised l l' -> exists u, increasing u /\ Forall2 (rescaled u) l l'.
Proof. exact rescales. Qed.
(** The units in which the data came do not matter: the result is the same, real numbers and NaN included. *)
Theorem C153_units : forall u ks l l', number_columns ks l -> 2 <= length l -> increasing u -> Forall2 (rescaled u) l l' -> normalize l' = normalize l.
Proof. exact units_same. Qed.
(** Normalising twice is normalising once. *)
Theorem C153_idempotent : forall ks l l', number_columns ks l -> 2 <= length l -> normalised l l' -> normalize l' = normalize l /\ normalised l' l'.
Proof.
  intros ks l l' HK HL HN. destruct (rescales ks l l' HK HL HN) as (u & Hu & HR). pose proof (units_same u ks l l' HK HL Hu HR) as E. split; [exact E|]. destruct HN as (r & Er & Hs). exists r. split; [congruence|exact Hs].
Qed.
(** Training a tree on some rows of the normalised data and asking it about others gives what the data itself would give. *)
Theorem C153_tree : forall ks l l' max_item entropy mid rarr do_prune w seed shape p fuel t,
  number_columns ks l -> 2 <= length l -> normalised l l' -> tabular shape l -> entropy_finite entropy -> mid_exact mid -> rarr_perm rarr ->
  tree_train max_item entropy mid rarr do_prune (Fin w) seed fuel (rearrange p l) = Ok t ->
  exists t', tree_train max_item entropy mid rarr do_prune (Fin w) seed fuel (rearrange p l') = Ok t' /\
    Forall2 (fun x z => tree_predict max_item t x = tree_predict max_item t' z /\ node_probability t x = node_probability t' z) l l'.
Proof.
  intros ks l l' mi entropy mid rarr dp w seed shape p fuel t HK HL HN T He Hm Hr E. destruct (rescales ks l l' HK HL HN) as (u & Hu & HR).
  assert (Tp : tabular shape (rearrange p l)) by (apply (tab_incl shape l); [apply rearrange_incl|exact T]).
  destruct (C119_pruned_tree u mi entropy mid rarr dp w seed shape (rearrange p l) (rearrange p l') fuel t He Hm Hr Hu Tp (rearrange_pointwise _ p l l' HR) E) as (t' & E' & A).
  exists t'. split; [exact E'|]. clear -T HR A. unfold ilist in *. induction HR as [|x z l l' Hxz HR IH]; constructor; inversion T; subst; [|apply IH; assumption]. destruct (A x z) as (A1 & A2); [assumption|assumption|]. split; [apply A1|exact A2].
Qed.
Theorem C153_forest : forall ks l l' max_item entropy mid rarr pick param size shape,
  number_columns ks l -> 2 <= length l -> normalised l l' -> tabular shape l -> entropy_finite entropy -> mid_exact mid -> rarr_perm rarr -> draws pick ->
  exists forest forest', ensemble_train entropy mid rarr pick param size (length l) [] l = Ok forest /\ ensemble_train entropy mid rarr pick param size (length l) [] l' = Ok forest' /\
    Forall2 (fun x z => ensemble_predict max_item forest x = ensemble_predict max_item forest' z /\ ensemble_probability max_item forest x = ensemble_probability max_item forest' z) l l'.
Proof.
  intros ks l l' mi entropy mid rarr pick param size shape HK HL HN T He Hm Hr Hd. destruct (rescales ks l l' HK HL HN) as (u & Hu & HR). assert (Hne : l <> []) by (destruct l; [cbn in HL; lia|discriminate]).
  destruct (C119_forest u mi entropy mid rarr pick param size shape l l' He Hm Hr Hd Hu T Hne HR) as (f & f' & E & E' & A). exists f, f'. split; [exact E|]. split; [exact E'|].
  clear -T HR A. unfold ilist in *. induction HR as [|x z l l' Hxz HR IH]; constructor; inversion T; subst; [|apply IH; assumption]. apply A; assumption.
Qed.
(** The linear discriminant too, as long as no score falls below the floor the search for the best label starts from. *)
Theorem C153_lda : forall ks l l' inverse ln f shape s, number_columns ks l -> 2 <= length l -> normalised l l' ->
  log_reads ln f -> inverts (dim shape) inverse -> uniform shape l -> Forall2 reads l s -> (forall c, In c (map label l) -> 2 <= length (members s c)) -> invertible (dim shape) (pooled_cov s) ->
  exists m m', lda_train inverse ln lda_empty l = Ok m /\ lda_train inverse ln lda_empty l' = Ok m' /\
    Forall2 (fun x z => (forall c r, In c (map label l) -> lda_metric m x c = Ok (Fin r) \/ lda_metric m' z c = Ok (Fin r) -> above_floor r) -> lda_predict m x = lda_predict m' z) l l'.
Proof.
  intros ks l l' inverse ln f shape s HK HL HN Hln HI HU HS H2 HV. destruct (rescales ks l l' HK HL HN) as (u & Hu & HR). assert (Hne : l <> []) by (destruct l; [cbn in HL; lia|discriminate]).
  assert (Hv : reversible u) by (intros i; specialize (Hu i); lra). assert (HD : same_data u l l') by (exists l; split; [apply Permutation_refl|exact HR]).
  destruct (C121_lda inverse ln f shape u l l' s Hln HI Hv HU Hne HS H2 HV HD) as (m & m' & E & E' & A). exists m, m'. split; [exact E|]. split; [exact E'|].
  assert (G : forall x z, In x l -> rescaled u x z -> (forall c r, In c (map label l) -> lda_metric m x c = Ok (Fin r) \/ lda_metric m' z c = Ok (Fin r) -> above_floor r) -> lda_predict m x = lda_predict m' z).
  { intros x z Hx Hxz. apply A; [|exact Hxz]. exact (proj1 (Forall_forall _ _) HU x Hx). }
  revert G. generalize (map label l). clear -HR. intros cs G. unfold ilist in *. induction HR as [|x z l l' Hxz HR IH]; constructor; [apply G; [left; reflexivity|exact Hxz]|]. apply IH. intros y y' Hy. apply G. right. exact Hy.
Qed.

Definition pt (c : string) (a b : Q) : instance := mkInst c [ACont (Fin a); ACont (Fin b)] None.
Lemma column_of i l qs qs' : num_column (Z.of_nat i) l (map Fin qs) -> map (fun x => nth_error (attrs x) i) l = map (fun q => Some (ACont (Fin q))) qs' -> qs = qs'.
Proof.
  revert qs qs'. induction l as [|x l IH]; intros [|q qs] [|q' qs'] H E; inversion H as [|? ? ? ? (_ & N) H']; subst; try discriminate; [reflexivity|]. rewrite Nat2Z.id in N. cbn in E. injection E as E1 E2. f_equal; [congruence|]. exact (IH qs qs' H' E2).
Qed.
(** Standard deviations 7 and 1: neighbours are not the same before and after. *)
Definition far : ilist := [pt "a" 0 2; pt "b" 13 1; pt "a" 2 0].
Definition near : ilist := [pt "a" (-5#7) 1; pt "b" (8#7) 0; pt "a" (-3#7) (-1)].
Definition line : ilist := [pt "a" 0 0; pt "a" 1 1; pt "b" 2 2].
Definition line' : ilist := [pt "a" (-1) (-1); pt "a" 0 0; pt "b" 1 1].
Definition beyond : ilist := [pt "b" 10 10; pt "b" 11 11; pt "b" 12 12].
Definition beyond' : ilist := [pt "b" (-1) (-1); pt "b" 0 0; pt "b" 1 1].
Ltac columns := unfold number_columns; repeat constructor; eexists; reflexivity.
Ltac column s v v' := match goal with Hq : num_column ?i ?l (map Fin ?qs), Hq' : num_column ?i ?l' (map Fin ?qs') |- _ =>
  rewrite (column_of _ l qs v Hq eq_refl), (column_of _ l' qs' v' Hq' eq_refl); exists s; split; [reflexivity|]; split; [vm_compute; reflexivity|repeat constructor; vm_compute; reflexivity] end.
Ltac by_columns s0 v0 w0 s1 v1 w1 := apply (normalised_intro [true; true]); [columns|columns|cbn; lia|
  repeat constructor; intros [|[|[|?]]] ? Hk; discriminate Hk|
  intros [|[|i]] qs qs' Hk Hq Hq'; [column s0 v0 w0|column s1 v1 w1|destruct i; discriminate Hk]].
Lemma far_near : normalised far near.
Proof. by_columns 7%Q [0; 13; 2]%Q [-5#7; 8#7; -3#7]%Q 1%Q [2; 1; 0]%Q [1; 0; -1]%Q. Qed.
Lemma line_line' : normalised line line'.
Proof. by_columns 1%Q [0; 1; 2]%Q [-1; 0; 1]%Q 1%Q [0; 1; 2]%Q [-1; 0; 1]%Q. Qed.
Lemma beyond_beyond' : normalised beyond beyond'.
Proof. by_columns 1%Q [10; 11; 12]%Q [-1; 0; 1]%Q 1%Q [10; 11; 12]%Q [-1; 0; 1]%Q. Qed.
Theorem C153_knn_refuted : exists l l', number_columns [true; true] l /\ 2 <= length l /\ normalised l l' /\
  exists p x z, In (x, z) (combine l l') /\ knn_predict eucl (rearrange p l) 1 x = Ok "a" /\ knn_predict eucl (rearrange p l') 1 z = Ok "b".
Proof.
  exists far, near. split; [columns|]. split; [cbn; lia|]. split; [exact far_near|]. exists [0; 1], (pt "a" 2 0), (pt "a" (-3#7) (-1)). split; [right; right; left; reflexivity|]. split; vm_compute; reflexivity.
Qed.
(** Normalising the training data and the test data each on its own compares rows that were moved differently. *)
Theorem C153_separately_refuted : exists l l' s s' t t', normalised l l' /\ normalised s s' /\ number_columns [true; true] (l ++ s) /\
  tree_train ex_max ex_entropy ex_mid ex_rarr false (Fin (1#5)) 1 3 l = Ok t /\ tree_train ex_max ex_entropy ex_mid ex_rarr false (Fin (1#5)) 1 3 l' = Ok t' /\
  Forall (fun x => label x = "b" /\ tree_predict ex_max t x = Ok "b") s /\ exists z, In z s' /\ label z = "b" /\ tree_predict ex_max t' z = Ok "a".
Proof.
  exists line, line', beyond, beyond'. eexists _, _. split; [exact line_line'|]. split; [exact beyond_beyond'|]. split; [columns|]. split; [vm_compute; reflexivity|]. split; [vm_compute; reflexivity|].
  split; [repeat constructor; vm_compute; reflexivity|]. exists (pt "b" (-1) (-1)). split; [left; reflexivity|]. split; vm_compute; reflexivity.
Qed.
Example C153_case : number_columns [true; true] line /\ tabular [KCont; KCont] line /\ normalised line line' /\ normalize line' = normalize line /\
  Forall2 (rescaled fahrenheit) line (map in_fahrenheit line) /\ normalize (map in_fahrenheit line) = normalize line /\
  exists t t', tree_train ex_max ex_entropy ex_mid ex_rarr false (Fin (1#5)) 1 3 line = Ok t /\ tree_train ex_max ex_entropy ex_mid ex_rarr false (Fin (1#5)) 1 3 line' = Ok t' /\ t <> t' /\
    map (tree_predict ex_max t) line = [Ok "a"; Ok "a"; Ok "b"] /\ map (tree_predict ex_max t') line' = [Ok "a"; Ok "a"; Ok "b"].
Proof.
  assert (K : number_columns [true; true] line) by columns. assert (R : Forall2 (rescaled fahrenheit) line (map in_fahrenheit line)) by (generalize line as l; induction l; constructor; [apply in_fahrenheit_ok|assumption]).
  split; [exact K|]. split; [repeat constructor; eexists; reflexivity|]. split; [exact line_line'|]. split; [eapply C153_idempotent; [exact K|cbn; lia|exact line_line']|]. split; [exact R|].
  split; [eapply C153_units; [exact K|cbn; lia|exact fahrenheit_increasing|exact R]|].
  eexists _, _. split; [vm_compute; reflexivity|]. split; [vm_compute; reflexivity|]. split; [discriminate|]. split; vm_compute; reflexivity.
Qed.
Print Assumptions C153_rescales.
Print Assumptions C153_units.
Print Assumptions C153_idempotent.
Print Assumptions C153_tree.
Print Assumptions C153_forest.
Print Assumptions C153_lda.
Print Assumptions C153_knn_refuted.
Print Assumptions C153_separately_refuted.
Print Assumptions C153_case.
