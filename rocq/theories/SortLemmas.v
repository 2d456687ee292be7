(** Stable sorting: an independent specification, and proof that [ssort] is the only list meeting it. *)
From Coq Require Import String ZArith QArith Bool Lia Lqa Permutation Sorted Arith List.
From Verif Require Import Base Spec BaseLemmas.
Import ListNotations.
Local Open Scope nat_scope.

Section S.
  Context {A : Type} (P : A -> Prop) (lt : A -> A -> bool).
  (** strict weak order on the elements satisfying [P] *)
  Record swo : Prop := {
    swo_irrefl : forall x, P x -> lt x x = false;
    swo_trans : forall x y z, P x -> P y -> P z -> lt x y = true -> lt y z = true -> lt x z = true;
    swo_incomp : forall x y z, P x -> P y -> P z -> lt x y = false -> lt y z = false -> lt x z = false }.
  Notation equivb := (equivb lt).
  Notation is_stable_sort := (is_stable_sort lt).

  Hypothesis W : swo.

  Lemma lt_asym x y : P x -> P y -> lt x y = true -> lt y x = false.
  Proof.
    intros Hx Hy H. destruct (lt y x) eqn:E; [|reflexivity].
    pose proof (swo_trans W x y x Hx Hy Hx H E) as T. rewrite (swo_irrefl W x Hx) in T; discriminate.
  Qed.
  Lemma equivb_refl x : P x -> equivb x x = true.
  Proof. intros H; unfold equivb; rewrite (swo_irrefl W x H); reflexivity. Qed.

  Lemma sinsert_perm x l : Permutation (x :: l) (sinsert lt x l).
  Proof.
    induction l as [|y l IH]; simpl; [reflexivity|]. destruct (lt y x); [|reflexivity].
    rewrite perm_swap. constructor; exact IH.
  Qed.
  Lemma ssort_perm l : Permutation l (ssort lt l).
  Proof.
    induction l as [|x l IH]; simpl; [reflexivity|]. rewrite <- sinsert_perm. constructor; exact IH.
  Qed.
  Lemma sinsert_sorted x l : P x -> Forall P l ->
    StronglySorted (fun a b => lt b a = false) l -> StronglySorted (fun a b => lt b a = false) (sinsert lt x l).
  Proof.
    intros Hx; induction l as [|y l IH]; intros HP H; simpl; [repeat constructor|].
    inversion HP as [|? ? Hy Hl]; subst. apply StronglySorted_inv in H as [H1 H2].
    destruct (lt y x) eqn:E.
    - constructor; [apply IH; assumption|]. apply Forall_forall; intros z Hz.
      apply (Permutation_in (l' := x :: l)) in Hz; [|apply Permutation_sym, sinsert_perm].
      destruct Hz as [<-|Hz]; [apply lt_asym; assumption|]. rewrite Forall_forall in H2; auto.
    - constructor; [constructor; assumption|]. constructor; [exact E|].
      rewrite Forall_forall in *. intros z Hz. apply (swo_incomp W z y x); auto.
  Qed.
  Lemma ssort_sorted l : Forall P l -> StronglySorted (fun a b => lt b a = false) (ssort lt l).
  Proof.
    induction l as [|x l IH]; intros H; simpl; [constructor|]. inversion H; subst.
    apply sinsert_sorted; auto. rewrite Forall_forall in *; intros y Hy; apply H3.
    eapply Permutation_in; [apply Permutation_sym, ssort_perm|exact Hy].
  Qed.
  Lemma sinsert_filter x z l : P x -> P z -> Forall P l ->
    filter (equivb z) (sinsert lt x l) = filter (equivb z) (x :: l).
  Proof.
    intros Hx Hz; induction l as [|y l IH]; intros HP; [reflexivity|]. inversion HP as [|? ? Hy Hl]; subst.
    cbn [sinsert]. destruct (lt y x) eqn:E; [|reflexivity].
    cbn [filter]. rewrite IH by assumption. cbn [filter].
    destruct (equivb z y) eqn:Ey, (equivb z x) eqn:Ex; try reflexivity. exfalso.
    unfold equivb in Ey, Ex. apply andb_true_iff in Ey as [Y1 Y2]; apply andb_true_iff in Ex as [X1 X2].
    apply negb_true_iff in Y1, Y2, X1, X2.
    pose proof (swo_incomp W y z x Hy Hz Hx Y2 X1). congruence.
  Qed.
  Lemma ssort_filter z l : P z -> Forall P l -> filter (equivb z) (ssort lt l) = filter (equivb z) l.
  Proof.
    intros Hz; induction l as [|x l IH]; intros H; [reflexivity|]. inversion H; subst. simpl ssort.
    rewrite sinsert_filter; auto.
    - cbn [filter]. rewrite IH by assumption. reflexivity.
    - rewrite Forall_forall in *; intros y Hy; apply H3.
      eapply Permutation_in; [apply Permutation_sym, ssort_perm|exact Hy].
  Qed.
  Theorem ssort_is_stable_sort l : Forall P l -> is_stable_sort l (ssort lt l).
  Proof.
    intros H; split; [apply ssort_perm|split; [apply ssort_sorted; exact H|]].
    intros x Hx; apply ssort_filter; [rewrite Forall_forall in H; auto|exact H].
  Qed.

  Lemma stable_unique_aux l1 l2 : Forall P l1 -> Forall P l2 ->
    StronglySorted (fun a b => lt b a = false) l1 -> StronglySorted (fun a b => lt b a = false) l2 ->
    (forall x, P x -> filter (equivb x) l1 = filter (equivb x) l2) -> l1 = l2.
  Proof.
    revert l2; induction l1 as [|a l1 IH]; intros [|b l2] P1 P2 S1 S2 F; [reflexivity|..].
    - inversion P2; subst. specialize (F b H1). simpl in F. rewrite equivb_refl in F by assumption. discriminate.
    - inversion P1; subst. specialize (F a H1). simpl in F. rewrite equivb_refl in F by assumption. discriminate.
    - inversion P1 as [|? ? Pa P1']; inversion P2 as [|? ? Pb P2']; subst.
      apply StronglySorted_inv in S1 as [S1 M1]; apply StronglySorted_inv in S2 as [S2 M2].
      rewrite Forall_forall in M1, M2.
      assert (Hba : lt b a = false).
      { assert (Hin : In b (a :: l1)).
        { assert (In b (filter (equivb b) (b :: l2))) as Hb by (simpl; rewrite equivb_refl by assumption; left; reflexivity).
          rewrite <- F in Hb by assumption. apply filter_In in Hb; tauto. }
        destruct Hin as [->|Hin]; [apply (swo_irrefl W); assumption|auto]. }
      assert (Hab : lt a b = false).
      { assert (Hin : In a (b :: l2)).
        { assert (In a (filter (equivb a) (a :: l1))) as Hb by (simpl; rewrite equivb_refl by assumption; left; reflexivity).
          rewrite F in Hb by assumption. apply filter_In in Hb; tauto. }
        destruct Hin as [->|Hin]; [apply (swo_irrefl W); assumption|auto]. }
      assert (a = b) as ->.
      { pose proof (F a Pa) as Fa. simpl in Fa. rewrite equivb_refl in Fa by assumption.
        unfold equivb in Fa at 2. rewrite Hab, Hba in Fa; simpl in Fa. congruence. }
      f_equal. apply IH; auto. intros x Px. specialize (F x Px). simpl in F. destruct (equivb x b); congruence.
  Qed.
  Theorem stable_sort_unique l l' : Forall P l -> is_stable_sort l l' -> l' = ssort lt l.
  Proof.
    intros H (HP & HS & HF).
    assert (H' : Forall P l') by (rewrite Forall_forall in *; intros y Hy; apply H; eapply Permutation_in; [apply Permutation_sym, HP|exact Hy]).
    pose proof (ssort_perm l) as HP2.
    apply stable_unique_aux; auto; [|apply ssort_sorted; exact H|].
    - rewrite Forall_forall in *; intros y Hy; apply H. eapply Permutation_in; [apply Permutation_sym, HP2|exact Hy].
    - intros x Px. rewrite ssort_filter by assumption.
      destruct (existsb (fun y => equivb x y) l) eqn:E.
      + apply existsb_exists in E as (y & Hy & E). rewrite Forall_forall in H. pose proof (H y Hy) as Py.
        assert (EQ : forall z, P z -> equivb x z = equivb y z).
        { intros z Pz. unfold equivb in *. apply andb_true_iff in E as [E1 E2]. apply negb_true_iff in E1, E2.
          assert (lt x z = lt y z) as ->.
          { destruct (lt x z) eqn:G, (lt y z) eqn:G'; try reflexivity.
            - rewrite (swo_incomp W x y z) in G by assumption; discriminate.
            - rewrite (swo_incomp W y x z) in G' by assumption; discriminate. }
          assert (lt z x = lt z y) as ->; [|reflexivity].
          destruct (lt z x) eqn:G, (lt z y) eqn:G'; try reflexivity.
          - rewrite (swo_incomp W z y x) in G by assumption; discriminate.
          - rewrite (swo_incomp W z x y) in G' by assumption; discriminate. }
        rewrite Forall_forall in H'.
        rewrite (filter_ext_in (equivb x) (equivb y) l') by auto.
        rewrite (filter_ext_in (equivb x) (equivb y) l) by auto. apply HF; exact Hy.
      + assert (G : forall m, (forall z, In z m -> In z l) -> filter (equivb x) m = []).
        { induction m as [|z m IHm]; intros Hm; simpl; [reflexivity|].
          destruct (equivb x z) eqn:Ez; [|apply IHm; intros w Hw; apply Hm; right; exact Hw].
          exfalso. assert (T : existsb (fun y => equivb x y) l = true); [|congruence].
          apply existsb_exists; exists z; split; [apply Hm; left; reflexivity|exact Ez]. }
        rewrite !G; auto. intros z Hz. eapply Permutation_in; [apply Permutation_sym, HP|exact Hz].
  Qed.
End S.

(** Order of class labels. *)
Lemma sltb_swo : swo (fun _ => True) sltb.
Proof.
  split; intros *.
  - intros _. destruct (sltb x x) eqn:E; [|reflexivity]. apply sltb_slt in E. destruct (slt_irrefl _ E).
  - intros _ _ _ H1 H2. apply sltb_slt. eapply slt_trans; apply sltb_slt; eassumption.
  - intros _ _ _ H1 H2. destruct (sltb x z) eqn:E; [|reflexivity]. apply sltb_slt in E.
    destruct (slt_total y z) as [L|[->|L]].
    + apply sltb_slt in L; congruence.
    + apply sltb_slt in E; congruence.
    + assert (slt x y) as L' by (eapply slt_trans; eassumption). apply sltb_slt in L'; congruence.
Qed.
(** Comparing through a key. *)
Lemma swo_key {A B} (P : B -> Prop) (lt : B -> B -> bool) (f : A -> B) :
  swo P lt -> swo (fun a => P (f a)) (fun x y => lt (f x) (f y)).
Proof. intros [H1 H2 H3]; split; intros; eauto. Qed.

(** Order of doubles that are not NaN. *)
Lemma dltb_swo : swo (fun d => is_nan d = false) dltb.
Proof.
  split.
  - intros [q| | |]; simpl; intros; try reflexivity; try discriminate.
    apply negb_false_iff, Qle_bool_iff, Qle_refl.
  - intros [x| | |] [y| | |] [z| | |]; simpl; intros; try reflexivity; try discriminate.
    apply negb_true_iff in H2, H3. apply negb_true_iff.
    destruct (Qle_bool z x) eqn:E; [|reflexivity]. apply Qle_bool_iff in E.
    assert (~ (y <= x)%Q) by (rewrite <- Qle_bool_iff; congruence).
    assert (~ (z <= y)%Q) by (rewrite <- Qle_bool_iff; congruence). lra.
  - intros [x| | |] [y| | |] [z| | |]; simpl; intros; try reflexivity; try discriminate.
    apply negb_false_iff in H2, H3. apply negb_false_iff. apply Qle_bool_iff in H2, H3. apply Qle_bool_iff. lra.
Qed.

(** first [k] of a sorted list: nothing outside is smaller than anything inside. *)
Lemma sorted_firstn_le {A} (lt : A -> A -> bool) k l x y :
  StronglySorted (fun a b => lt b a = false) l -> In x (firstn k l) -> In y (skipn k l) -> lt y x = false.
Proof.
  revert l; induction k as [|k IH]; intros [|a l]; simpl; try tauto. intros H Hx Hy.
  apply StronglySorted_inv in H as [H1 H2]. destruct Hx as [<-|Hx]; [|eapply IH; eassumption].
  rewrite Forall_forall in H2; apply H2. rewrite <- (firstn_skipn k l), in_app_iff; auto.
Qed.
