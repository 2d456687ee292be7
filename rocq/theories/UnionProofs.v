(** Proofs for C164. *)
From Coq Require Import String ZArith QArith Bool Lia Permutation Sorted Arith List.
From Verif Require Import Base BaseLemmas SortLemmas Spec AttrModel InstanceListModel ListProofs DistanceModel DistanceSpec DistanceProofs NearProofs NearProps.
Import ListNotations.
Local Open Scope string_scope.
Local Open Scope list_scope.
Local Open Scope nat_scope.

Section Sort.
  Context {A : Type} (P : A -> Prop) (lt : A -> A -> bool) (W : swo P lt).
  Definition upto (x : A) (l : list A) : list A := filter (fun p => negb (lt x p)) l.
  (** one element more, with the number of elements before it *)
  Lemma ssort_after l1 x l2 : Forall P l1 -> P x -> Forall P l2 ->
    exists a b, ssort lt (l1 ++ x :: l2) = a ++ x :: b /\ ssort lt (l1 ++ l2) = a ++ b /\ length (upto x l1) <= length a.
  Proof.
    intros H1 Hx H2. induction l1 as [|y l1 IH].
    - cbn [app]. change (ssort lt (x :: l2)) with (sinsert lt x (ssort lt l2)). generalize (ssort lt l2). intros l. induction l as [|z l (a & b & E1 & E2 & _)]; [exists [], []; repeat split; cbn; lia|]. cbn [sinsert].
      destruct (lt z x); [|exists [], (z :: l); repeat split; cbn; lia]. exists (z :: a), b. rewrite E1, E2. repeat split. cbn. lia.
    - inversion H1 as [|? ? Hy H1']; subst. destruct (IH H1') as (a & b & E1 & E2 & L). cbn [app]. change (ssort lt (y :: l1 ++ x :: l2)) with (sinsert lt y (ssort lt (l1 ++ x :: l2))). change (ssort lt (y :: l1 ++ l2)) with (sinsert lt y (ssort lt (l1 ++ l2))).
      assert (HP : Forall P (l1 ++ x :: l2)) by (apply Forall_app; split; [exact H1'|constructor; assumption]).
      pose proof (ssort_sorted P lt W _ HP) as HS. rewrite E1 in *. rewrite E2. assert (HB : Forall (fun z => lt z x = false) b).
      { clear -HS. induction a as [|z a IH]; cbn [app] in HS; apply StronglySorted_inv in HS as (S1 & S2); [exact S2|apply IH, S1]. }
      assert (PB : Forall P b).
      { apply Forall_forall. intros z Hz. rewrite Forall_forall in HP. apply HP. eapply Permutation_in; [symmetry; apply (ssort_perm lt)|]. rewrite E1. apply in_or_app. right. right. exact Hz. }
      assert (LU : length (upto x (y :: l1)) = (if lt x y then 0 else 1) + length (upto x l1)) by (unfold upto; cbn [filter]; destruct (lt x y); reflexivity). rewrite LU. clear LU.
      assert (G : exists a' b', sinsert lt y (a ++ x :: b) = a' ++ x :: b' /\ sinsert lt y (a ++ b) = a' ++ b' /\ (if lt x y then 0 else 1) + length a <= length a').
      { clear E1 E2 IH HS HP L. induction a as [|z a (a' & b' & E1 & E2 & L)].
        + cbn [app sinsert]. destruct (lt x y) eqn:E.
          * exists [], (sinsert lt y b). repeat split. cbn. lia.
          * exists [y], b. split; [reflexivity|]. split; [|cbn; lia]. destruct b as [|z b]; [reflexivity|]. cbn [sinsert app]. inversion HB; inversion PB; subst. rewrite (swo_incomp _ _ W z x y); auto.
        + cbn [app sinsert]. destruct (lt z y); [exists (z :: a'), b'; rewrite E1, E2; repeat split; cbn [length]; lia|]. exists (y :: z :: a), b. repeat split. cbn [length]. destruct (lt x y); lia. }
      destruct G as (a' & b' & G1 & G2 & G3). exists a', b'. repeat split; [exact G1|exact G2|lia].
  Qed.
  Lemma drop_one k l1 x l2 : Forall P l1 -> P x -> Forall P l2 -> k <= length (upto x l1) -> firstn k (ssort lt (l1 ++ x :: l2)) = firstn k (ssort lt (l1 ++ l2)).
  Proof.
    intros H1 Hx H2 L. destruct (ssort_after l1 x l2 H1 Hx H2) as (a & b & E1 & E2 & L'). rewrite E1, E2, !firstn_app. replace (k - length a) with 0 by lia. reflexivity.
  Qed.
  (** elements after the first [k] of a sorted part do not count *)
  Lemma drop_rest k pre a1 a2 post : Forall P pre -> Forall P (a1 ++ a2) -> Forall P post -> StronglySorted (fun a b => lt b a = false) (a1 ++ a2) -> k <= length a1 \/ a2 = [] ->
    firstn k (ssort lt (pre ++ (a1 ++ a2) ++ post)) = firstn k (ssort lt (pre ++ a1 ++ post)).
  Proof.
    intros Hp Ha Hq HS [L| ->]; [|rewrite app_nil_r; reflexivity]. revert Ha HS. induction a2 as [|x a2 IH] using rev_ind; intros Ha HS; [rewrite app_nil_r; reflexivity|].
    assert (HF : Forall P (a1 ++ a2) /\ P x) by (rewrite app_assoc in Ha; apply Forall_app in Ha as (Ha & Hx); inversion Hx; split; assumption).
    assert (HS' : StronglySorted (fun a b => lt b a = false) (a1 ++ a2) /\ Forall (fun y => lt x y = false) a1).
    { rewrite app_assoc in HS. clear -HS. generalize dependent a1. intros a1 HS. assert (G : forall l, StronglySorted (fun a b => lt b a = false) (l ++ [x]) -> StronglySorted (fun a b => lt b a = false) l /\ Forall (fun y => lt x y = false) l).
      { induction l as [|y l IH]; intros H; [split; constructor|]. cbn [app] in H. apply StronglySorted_inv in H as (S1 & S2). destruct (IH S1) as (A1 & A2). apply Forall_app in S2 as (S2 & S3). inversion S3; subst. split; constructor; assumption. }
      destruct (G _ HS) as (A1 & A2). split; [exact A1|]. apply Forall_app in A2. tauto. }
    destruct HF as (HF & Hx), HS' as (S1 & S2). rewrite <- (IH HF S1). clear IH.
    replace (pre ++ (a1 ++ a2 ++ [x]) ++ post) with ((pre ++ a1 ++ a2) ++ x :: post) by (rewrite <- !app_assoc; reflexivity).
    replace (pre ++ (a1 ++ a2) ++ post) with ((pre ++ a1 ++ a2) ++ post) by (rewrite <- !app_assoc; reflexivity).
    apply drop_one; [apply Forall_app; split; assumption|exact Hx|exact Hq|]. unfold upto. rewrite !filter_app, !app_length.
    assert (E : filter (fun p => negb (lt x p)) a1 = a1). { clear -S2. induction S2 as [|y l H _ IH]; [reflexivity|]. cbn [filter]. rewrite H. cbn [negb]. f_equal. exact IH. }
    rewrite E. lia.
  Qed.
  Lemma ssort_P l : Forall P l -> Forall P (ssort lt l).
  Proof. intros H. apply Forall_forall. intros y Hy. rewrite Forall_forall in H. apply H. eapply Permutation_in; [symmetry; apply ssort_perm|exact Hy]. Qed.
  Lemma ssort_join a b : Forall P a -> Forall P b -> ssort lt (ssort lt a ++ ssort lt b) = ssort lt (a ++ b).
  Proof.
    intros Ha Hb. assert (Hab : Forall P (ssort lt a ++ ssort lt b)) by (apply Forall_app; split; apply ssort_P; assumption).
    apply (stable_sort_unique P lt W); [apply Forall_app; split; assumption|]. destruct (ssort_is_stable_sort P lt W _ Hab) as (Q1 & Q2 & Q3). split; [|split; [exact Q2|]].
    - rewrite (ssort_perm lt a) at 1. rewrite (ssort_perm lt b) at 1. exact Q1.
    - intros x Hx. rewrite Q3.
      + rewrite !filter_app. assert (Px : P x) by (apply in_app_or in Hx as [Hx|Hx]; rewrite Forall_forall in Ha, Hb; auto). rewrite !(ssort_filter P lt W x) by assumption. reflexivity.
      + apply in_or_app. apply in_app_or in Hx as [Hx|Hx]; [left|right]; (eapply Permutation_in; [apply ssort_perm|exact Hx]).
  Qed.
  (** the first [k] of two lists together are among the first [k] of each *)
  Lemma first_of_two k a b : Forall P a -> Forall P b -> firstn k (ssort lt (a ++ b)) = firstn k (ssort lt (firstn k (ssort lt a) ++ firstn k (ssort lt b))).
  Proof.
    intros Ha Hb. rewrite <- (ssort_join a b Ha Hb). pose proof (ssort_P a Ha) as Pa. pose proof (ssort_P b Hb) as Pb. pose proof (ssort_sorted P lt W a Ha) as Sa. pose proof (ssort_sorted P lt W b Hb) as Sb.
    set (sa := ssort lt a) in *. set (sb := ssort lt b) in *. clearbody sa sb.
    assert (C : forall s : list A, k <= length (firstn k s) \/ skipn k s = []).
    { intros s. destruct (Nat.le_gt_cases (length s) k) as [L|L]; [right; apply skipn_all2, L|left; rewrite firstn_length_le by lia; lia]. }
    assert (PF : forall s, Forall P s -> Forall P (firstn k s)) by (intros s H; rewrite <- (firstn_skipn k s) in H; apply Forall_app in H; tauto).
    transitivity (firstn k (ssort lt ([] ++ firstn k sa ++ sb))).
    - rewrite <- (drop_rest k [] (firstn k sa) (skipn k sa) sb); rewrite ?firstn_skipn; auto.
    - cbn [app]. rewrite <- (app_nil_r sb) at 1. rewrite <- (firstn_skipn k sb) at 1. rewrite (drop_rest k (firstn k sa) (firstn k sb) (skipn k sb) []); rewrite ?firstn_skipn, ?app_nil_r; auto.
  Qed.
End Sort.
