(** Queries with a list of possible labels (C147). *)
From Coq Require Import String ZArith QArith Bool Lia Lqa Permutation Arith List.
From Verif Require Import Base Spec BaseLemmas SortLemmas DblLemmas AttrModel InstanceListModel ListSpec ListProofs PartitionProofs DistanceModel
  GaussianModel GaussianSpec GaussianProofs GaussianProps TreeModel TreeSpec TreeGrowProofs EnsembleModel EnsembleProps DistanceSpec DistanceProofs NearProofs NarrowSpec.
Import ListNotations.
Local Open Scope string_scope.
Local Open Scope list_scope.
Local Open Scope nat_scope.

(** * Scores *)
Lemma not_less_deq v v' : is_nan v = false -> is_nan v' = false -> dltb v v' = false -> dltb v' v = false -> deq v v'.
Proof.
  destruct v as [a| | |], v' as [b| | |]; cbn; try discriminate; try reflexivity; intros _ _ H1 H2; try discriminate.
  apply Bool.negb_false_iff in H1. apply Bool.negb_false_iff in H2. apply Qle_bool_iff in H1. apply Qle_bool_iff in H2. apply Qle_antisym; assumption.
Qed.
Lemma gauss_narrow prior metric q ls c v c' : composite q = None -> gauss_predict prior metric q = Ok c -> In c (mkeys prior) -> metric c = Ok v -> dltb (dopp dbl_max) v = true -> In c ls ->
  gauss_predict prior metric (narrowed ls q) = Ok c' -> exists v', metric c' = Ok v' /\ In c' ls /\ In c' (mkeys prior) /\ deq v v'.
Proof.
  intros Hq E Hc Ev Hv Hls E'.
  assert (A : exists c0 v0, In c0 (candidates (mkeys prior) q) /\ In c0 (mkeys prior) /\ metric c0 = Ok v0 /\ dltb (dopp dbl_max) v0 = true).
  { exists c, v. unfold candidates. rewrite Hq. repeat split; assumption. }
  assert (B : exists c0 v0, In c0 (candidates (mkeys prior) (narrowed ls q)) /\ In c0 (mkeys prior) /\ metric c0 = Ok v0 /\ dltb (dopp dbl_max) v0 = true).
  { exists c, v. unfold candidates, narrowed. cbn. repeat split; assumption. }
  destruct (C49_maximal _ _ _ _ E A) as (w & Ew & _ & Mw). rewrite Ev in Ew. injection Ew as <-.
  destruct (C49_argmax _ _ _ _ E' B) as (v' & pre & post & Ev' & Hk & Nv' & EC & _).
  destruct (C49_maximal _ _ _ _ E' B) as (w & Ew & Hin & Mv'). rewrite Ev' in Ew. injection Ew as <-. cbn in Hin.
  exists v'. split; [exact Ev'|]. split; [exact Hin|]. split; [exact Hk|].
  apply not_less_deq; [destruct v; [reflexivity..|discriminate]|exact Nv'| |].
  - apply (Mw c' v'); [unfold candidates; rewrite Hq; exact Hk|exact Hk|exact Ev'].
  - apply (Mv' c v); [exact Hls|exact Hc|exact Ev].
Qed.

(** * Trees *)
Lemma satisfy_attrs c x y : attrs x = attrs y -> satisfy c x = satisfy c y.
Proof. intros E. unfold satisfy, index_at, disc_at, cont_at, get_attr. rewrite E. reflexivity. Qed.
Section Tree.
  Context (max_item : counter -> list string -> string) (HM : max_item_best max_item).
  Lemma clear_choice c ls dist : In c ls -> (forall c', In c' ls -> c' <> c -> ccount dist c' < ccount dist c) -> max_item dist ls = c.
  Proof.
    intros Hc H. assert (ls <> []) as N by (intros ->; contradiction). destruct (HM dist ls N) as (Hin & Hmax). destruct (string_dec (max_item dist ls) c) as [E|Ne]; [exact E|].
    pose proof (H _ Hin Ne). pose proof (Hmax c Hc). lia.
  Qed.
  Lemma node_narrow c ls q : c <> "" -> In c ls -> composite q = None -> forall t, clear c ls t -> node_predict max_item t q = Ok c -> node_predict max_item t (narrowed ls q) = Ok c.
  Proof.
    intros Ne Hc Hq. apply (tree_rect2 (fun t => clear c ls t -> node_predict max_item t q = Ok c -> node_predict max_item t (narrowed ls q) = Ok c)).
    intros lab leaf dist cond ch IH H E. inversion H as [? ? ? ? ? HL HC]; subst. cbn [node_predict] in *. unfold isComposite in *. rewrite Hq in E. cbn [narrowed composite]. change (possible_labels (narrowed ls q)) with ls.
    destruct leaf; [injection E as ->; rewrite (clear_choice c ls dist Hc (HL eq_refl)); reflexivity|].
    clear H. revert IH HC E. induction ch as [|n ch IHc]; intros IH HC E; [injection E as ->; rewrite (clear_choice c ls dist Hc (HL eq_refl)); reflexivity|].
    rewrite (satisfy_attrs (t_cond n) (narrowed ls q) q) by reflexivity. destruct (satisfy (t_cond n) q) as [b|e|u|]; try discriminate. cbn [bind] in *. inversion IH as [|? ? I1 I2]; subst. inversion HC as [|? ? C1 C2]; subst.
    destruct b; [|apply IHc; assumption]. rewrite (I1 C1 E). cbn [bind]. destruct (String.eqb_spec c ""); [contradiction|reflexivity].
  Qed.
  Lemma tree_narrow c ls q t : c <> "" -> In c ls -> composite q = None -> clear c ls t -> tree_predict max_item t q = Ok c -> tree_predict max_item t (narrowed ls q) = Ok c.
  Proof.
    intros Ne Hc Hq H E. unfold tree_predict in *. destruct (node_predict max_item t q) as [p|e|u|] eqn:EN; try discriminate. cbn [bind] in E. unfold isComposite in E. rewrite Hq, andb_false_r in E. injection E as ->.
    rewrite (node_narrow c ls q Ne Hc Hq t H EN). cbn [bind]. destruct (String.eqb_spec c ""); [contradiction|reflexivity].
  Qed.
End Tree.

(** * Nearest neighbours *)
Lemma firstn_filter {A} (p : A -> bool) k : forall l, Forall (fun x => p x = true) (firstn k l) -> firstn k (filter p l) = firstn k l.
Proof.
  induction k as [|k IH]; intros [|x l] H; try reflexivity. cbn [firstn] in H. inversion H as [|? ? Hx H']; subst. cbn [filter firstn]. rewrite Hx. cbn [firstn]. rewrite IH by exact H'. reflexivity.
Qed.
Section Knn.
  Context (dist : instance -> instance -> res dbl) (data : ilist) (k : Z) (q : instance) (d : instance -> dbl).
  Context (Hq : composite q = None) (HD : forall x, In x data -> dist x q = Ok (d x) /\ is_nan (d x) = false).
  Lemma plain_nearest : nearest dist data k q = Ok (firstn (Z.to_nat k) (ssort (fun x y => dltb (d x) (d y)) data)).
  Proof.
    rewrite (nearest_total dist data k q d) by (intros x Hx _; apply HD, Hx). do 3 f_equal. induction data as [|x l IH]; [reflexivity|]. cbn [filter]. replace (eligible q x) with true by (unfold eligible, isComposite; rewrite Hq; reflexivity). f_equal.
    apply IH. intros y Hy. apply HD. right. exact Hy.
  Qed.
  Lemma narrow_nearest ls : (forall x, In x data -> dist x (narrowed ls q) = dist x q) ->
    nearest dist data k (narrowed ls q) = Ok (firstn (Z.to_nat k) (filter (fun x => mem_str (label x) ls) (ssort (fun x y => dltb (d x) (d y)) data))).
  Proof.
    intros HE. rewrite (nearest_total dist data k (narrowed ls q) d) by (intros x Hx _; rewrite (HE x Hx); apply HD, Hx). do 2 f_equal.
    rewrite (filter_ssort (fun x => is_nan (d x) = false) (fun x y => dltb (d x) (d y))); [reflexivity|apply (swo_key (fun v => is_nan v = false) dltb d), dltb_swo|].
    apply Forall_forall. intros x Hx. apply HD, Hx.
  Qed.
End Knn.
Lemma mem_str_same ls ls' c : same_labels ls ls' -> mem_str c ls = mem_str c ls'.
Proof.
  intros H. unfold mem_str. apply eq_true_iff_eq. rewrite !existsb_exists. split; intros (x & Hx & E); apply String.eqb_eq in E; subst x; exists c; (split; [apply H, Hx|apply String.eqb_refl]).
Qed.
Lemma eucl_narrow x ls q : eucl x (narrowed ls q) = eucl x q.
Proof. reflexivity. Qed.
Lemma mahalanobis_narrow m x ls q : mahalanobis m x (narrowed ls q) = mahalanobis m x q.
Proof. reflexivity. Qed.
