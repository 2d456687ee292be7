(** Decision trees do not depend on the order of the training data nor on the units of their features: proofs. *)
From Coq Require Import String ZArith QArith Bool Lia Permutation Sorted Lqa List.
From Verif Require Import Base Spec BaseLemmas DblLemmas AttrModel InstanceListModel PartitionModel PerformanceModel
  ListSpec ListProofs PartitionProofs TreeModel TreeSpec TreeProofs TreeGrowProofs TreePredictProofs TreeBestSpec TreeBestProofs InvSpec.
Import ListNotations.
Local Open Scope string_scope.
Local Open Scope list_scope.
Local Open Scope nat_scope.

(** * Related instances *)
Lemma Forall2_nth_ex {A B} (R : A -> B -> Prop) l l' i a : Forall2 R l l' -> nth_error l i = Some a -> exists b, nth_error l' i = Some b /\ R a b.
Proof.
  intros H. revert i. induction H as [|x y l l' Hxy _ IH]; intros [|i] E; try discriminate E; [|exact (IH i E)].
  injection E as <-. exists y. split; [reflexivity|exact Hxy].
Qed.
Lemma rescaled_at u x y i a : rescaled u x y -> nth_error (attrs x) i = Some a -> exists b, nth_error (attrs y) i = Some b /\ converted (u i) a b.
Proof.
  intros (_ & _ & L & H) E. destruct (nth_error (attrs y) i) as [b|] eqn:F.
  - exists b. split; [reflexivity|exact (H i a b E F)].
  - apply nth_error_None in F. assert (i < length (attrs x)) by (apply nth_error_Some; congruence). lia.
Qed.
Lemma converted_kind f a b kd : converted f a b -> has_kind kd a -> has_kind kd b.
Proof.
  intros H K. destruct kd; simpl in K.
  - destruct K as [v ->]. simpl in H. subst b. exists v. reflexivity.
  - destruct K as [v ->]. simpl in H. subst b. exists v. reflexivity.
  - destruct K as (v & i & ->). simpl in H. subst b. exists v, i. reflexivity.
  - destruct K as [q ->]. simpl in H. destruct b as [|v|v i m'|[w| | |]]; try discriminate H. exists w. reflexivity.
Qed.
Lemma rescaled_typed u shape x y : rescaled u x y -> typed shape x -> typed shape y.
Proof.
  intros R T. unfold typed in *. assert (L : length (attrs x) = length (attrs y)) by apply R.
  assert (G : forall i kd, nth_error shape i = Some kd -> exists b, nth_error (attrs y) i = Some b /\ has_kind kd b).
  { intros i kd Hi. destruct (Forall2_nth_ex _ _ _ _ _ T Hi) as (a & Ha & Hk). destruct (rescaled_at _ _ _ _ _ R Ha) as (b & Hb & Hc).
    exists b. split; [exact Hb|exact (converted_kind _ _ _ _ Hc Hk)]. }
  pose proof (Forall2_len _ _ _ T) as LT. rewrite L in LT. clear - G LT. revert G LT. generalize (attrs y) as bs.
  induction shape as [|kd shape IH]; intros [|b bs] G LT; try discriminate LT; constructor.
  - destruct (G 0 kd eq_refl) as (b' & Hb & Hk). injection Hb as <-. exact Hk.
  - apply IH; [|simpl in LT; lia]. intros i kd' Hi. exact (G (S i) kd' Hi).
Qed.
Lemma rescaled_colD u shape x y k : rescaled u x y -> typed shape x -> nth_error shape k = Some KDisc -> colD (Z.of_nat k) x = colD (Z.of_nat k) y.
Proof.
  intros R T Hk. destruct (typed_disc _ x k T Hk) as [_ Hx]. destruct (typed_disc _ y k (rescaled_typed _ _ _ _ R T) Hk) as [_ Hy].
  rewrite Nat2Z.id in Hx, Hy. pose proof (proj2 (proj2 (proj2 R)) _ _ _ Hx Hy) as H. simpl in H. congruence.
Qed.
Lemma rescaled_colI u shape x y k m : rescaled u x y -> typed shape x -> nth_error shape k = Some (KIdx m) -> colI (Z.of_nat k) x = colI (Z.of_nat k) y.
Proof.
  intros R T Hk. destruct (typed_idx _ x k m T Hk) as [s [_ Hx]]. destruct (typed_idx _ y k m (rescaled_typed _ _ _ _ R T) Hk) as [s' [_ Hy]].
  rewrite Nat2Z.id in Hx, Hy. pose proof (proj2 (proj2 (proj2 R)) _ _ _ Hx Hy) as H. simpl in H. congruence.
Qed.
Lemma rescaled_colC u shape x y k : rescaled u x y -> typed shape x -> nth_error shape k = Some KCont ->
  (colC (Z.of_nat k) y == fst (u k) * colC (Z.of_nat k) x + snd (u k))%Q.
Proof.
  intros R T Hk. destruct (typed_cont _ x k T Hk) as [_ Hx]. destruct (typed_cont _ y k (rescaled_typed _ _ _ _ R T) Hk) as [_ Hy].
  rewrite Nat2Z.id in Hx, Hy. exact (proj2 (proj2 (proj2 R)) _ _ _ Hx Hy).
Qed.
Lemma affine_le (f : Q * Q) a b a' b' : (0 < fst f)%Q -> (a' == fst f * a + snd f)%Q -> (b' == fst f * b + snd f)%Q -> (a <= b)%Q <-> (a' <= b')%Q.
Proof.
  intros Hp Ha Hb. rewrite Ha, Hb. split; intros H.
  - apply Qplus_le_compat; [|apply Qle_refl]. apply Qmult_le_l; assumption.
  - apply Qplus_le_l in H. apply Qmult_le_l in H; assumption.
Qed.
Lemma affine_dleb (f : Q * Q) a b a' b' : (0 < fst f)%Q -> (a' == fst f * a + snd f)%Q -> (b' == fst f * b + snd f)%Q ->
  dleb (Fin a) (Fin b) = dleb (Fin a') (Fin b').
Proof.
  intros Hp Ha Hb. pose proof (affine_le f a b a' b' Hp Ha Hb) as H. destruct (dleb (Fin a) (Fin b)) eqn:E, (dleb (Fin a') (Fin b')) eqn:E'; try reflexivity.
  - apply dleb_fin, H, dleb_fin in E. congruence.
  - apply dleb_fin, H, dleb_fin in E'. congruence.
Qed.
Lemma dltb_dleb a b : dltb (Fin a) (Fin b) = negb (dleb (Fin b) (Fin a)).
Proof. reflexivity. Qed.
Lemma rescaled_same x : rescaled same_units x x.
Proof.
  repeat split; try reflexivity. intros i a b Ha Hb. rewrite Ha in Hb. injection Hb as <-. destruct a as [| | |[q| | |]]; simpl; try reflexivity. ring.
Qed.
Lemma same_data_perm l l' : Permutation l l' -> same_data same_units l l'.
Proof.
  intros P. exists l'. split; [exact P|]. clear P. induction l' as [|x l' IH]; constructor; [apply rescaled_same|exact IH].
Qed.
Lemma same_data_pointwise u l l' : Forall2 (rescaled u) l l' -> same_data u l l'.
Proof. intros H. exists l. split; [reflexivity|exact H]. Qed.
Lemma Forall2_flip {A B} (R : A -> B -> Prop) l l' : Forall2 R l l' -> Forall2 (fun b a => R a b) l' l.
Proof. induction 1; constructor; assumption. Qed.
Lemma Forall2_labels u l l' : Forall2 (rescaled u) l l' -> map label l = map label l'.
Proof. induction 1 as [|x y l l' R _ IH]; [reflexivity|]. cbn [map]. rewrite IH, (proj1 R). reflexivity. Qed.
Lemma same_data_labels u l l' : same_data u l l' -> Permutation (map label l) (map label l').
Proof. intros (p & P & H). rewrite <- (Forall2_labels _ _ _ H). apply Permutation_map, P. Qed.
Lemma same_data_len u l l' : same_data u l l' -> length l = length l'.
Proof. intros H. pose proof (Permutation_length (same_data_labels _ _ _ H)) as E. rewrite !map_length in E. exact E. Qed.
Lemma same_data_ne u l l' : same_data u l l' -> l <> [] -> l' <> [].
Proof. intros H Hn ->. apply same_data_len in H. destruct l; [congruence|discriminate H]. Qed.
Lemma same_data_tab u shape l l' : same_data u l l' -> tabular shape l -> tabular shape l'.
Proof.
  intros (p & P & H) T. pose proof (tab_perm _ _ _ P T) as Tp. clear P T. induction H as [|x y p l' R _ IH]; [constructor|].
  inversion Tp; subst. constructor; [apply (rescaled_typed _ _ _ _ R); assumption|apply IH; assumption].
Qed.
Lemma Forall2_filter u (f g : instance -> bool) l l' : Forall2 (rescaled u) l l' -> (forall x y, In x l -> rescaled u x y -> f x = g y) ->
  Forall2 (rescaled u) (filter f l) (filter g l').
Proof.
  induction 1 as [|x y l l' R _ IH]; intros H; [constructor|]. cbn [filter]. rewrite (H x y (or_introl eq_refl) R).
  assert (IH' := IH (fun a b Ha => H a b (or_intror Ha))). destruct (g y); [constructor; assumption|exact IH'].
Qed.
Lemma same_data_filter u (f g : instance -> bool) l l' : same_data u l l' -> (forall x y, In x l -> rescaled u x y -> f x = g y) ->
  same_data u (filter f l) (filter g l').
Proof.
  intros (p & P & H) E. exists (filter f p). split; [apply filter_perm, P|]. apply Forall2_filter; [exact H|].
  intros x y Hx R. apply E; [exact (Permutation_in _ (Permutation_sym P) Hx)|exact R].
Qed.
Lemma same_data_perm_r u l l' s' : same_data u l l' -> Permutation l' s' -> same_data u l s'.
Proof.
  intros (p & P & H) P'. destruct (Permutation_Forall2 P' (Forall2_flip _ _ _ H)) as (q & Q1 & Q2). exists q.
  split; [etransitivity; eassumption|]. exact (Forall2_flip _ _ _ Q2).
Qed.
Lemma same_data_perm_l u l l' s : same_data u l l' -> Permutation l s -> same_data u s l'.
Proof. intros (p & P & H) P'. exists p. split; [|exact H]. etransitivity; [apply Permutation_sym; exact P'|exact P]. Qed.
Lemma dadd_comm a b : deq (dadd a b) (dadd b a).
Proof. destruct a, b; simpl; try exact I. ring. Qed.
Lemma dadd_assoc a b c : deq (dadd (dadd a b) c) (dadd a (dadd b c)).
Proof. destruct a, b, c; simpl; try exact I. ring. Qed.
Lemma fold_dadd_perm {A} (f : A -> dbl) l l' : Permutation l l' -> forall a b, deq a b -> deq (fold_left (fun s d => dadd s (f d)) l a) (fold_left (fun s d => dadd s (f d)) l' b).
Proof.
  induction 1 as [|x l l' _ IH|x y l|l1 l2 l3 _ IH1 _ IH2]; intros a b E; cbn [fold_left].
  - exact E.
  - apply IH. rewrite E. reflexivity.
  - assert (R : deq (dadd (dadd a (f y)) (f x)) (dadd (dadd b (f x)) (f y))).
    { rewrite E, dadd_assoc, (dadd_comm (f y)), <- dadd_assoc. reflexivity. }
    revert R. generalize (dadd (dadd a (f y)) (f x)), (dadd (dadd b (f x)) (f y)). clear. induction l as [|z l IH]; intros a b E; cbn [fold_left]; [exact E|].
    apply IH. rewrite E. reflexivity.
  - rewrite (IH1 a b E). apply IH2. reflexivity.
Qed.

Section Inv.
  Context (entropy : counter -> dbl) (mid : dbl -> dbl -> dbl) (shape : list kind) (u : units).
  Hypothesis Hent : entropy_finite entropy.
  Hypothesis Hmid : mid_exact mid.
  Hypothesis Hu : increasing u.
  Notation key k := (colC (Z.of_nat k)).

  (** * Sorted data: ties may be exchanged *)
  Inductive ties (k : nat) : list instance -> list instance -> Prop :=
  | ties_nil : ties k [] []
  | ties_skip x l l' : ties k l l' -> ties k (x :: l) (x :: l')
  | ties_swap x y l : (key k x == key k y)%Q -> ties k (x :: y :: l) (y :: x :: l)
  | ties_trans l1 l2 l3 : ties k l1 l2 -> ties k l2 l3 -> ties k l1 l3.
  Lemma ties_refl k l : ties k l l.
  Proof. induction l; constructor; assumption. Qed.
  Lemma ties_perm k l l' : ties k l l' -> Permutation l l'.
  Proof. induction 1; [constructor|constructor; assumption|apply perm_swap|etransitivity; eassumption]. Qed.
  Lemma ties_front k x a b : (forall y, In y a -> (key k y == key k x)%Q) -> ties k (x :: a ++ b) (a ++ x :: b).
  Proof.
    induction a as [|y a IH]; intros H; [apply ties_refl|]. apply (ties_trans k _ (y :: x :: a ++ b)).
    - apply ties_swap. symmetry. apply H. left; reflexivity.
    - cbn [app]. apply ties_skip, IH. intros z Hz. apply H. right; exact Hz.
  Qed.
  Lemma sorted_remove k a x b : sorted_by k (a ++ x :: b) -> sorted_by k (a ++ b).
  Proof.
    unfold sorted_by. induction a as [|y a IH]; cbn [app]; intros H; inversion H as [|? ? Hs Hf]; subst; [exact Hs|].
    constructor; [apply IH, Hs|]. apply Forall_forall. intros z Hz. apply (proj1 (Forall_forall _ _) Hf).
    apply in_app_or in Hz. apply in_or_app. destruct Hz; [left|right; right]; assumption.
  Qed.
  Lemma sorted_ties k : forall l l', Permutation l l' -> sorted_by k l -> sorted_by k l' -> ties k l l'.
  Proof.
    induction l as [|x l IH]; intros l' P S1 S2.
    - apply Permutation_nil in P. subst l'. constructor.
    - assert (Hx : In x l') by (apply (Permutation_in _ P); left; reflexivity).
      apply in_split in Hx as (a & b & ->). apply (ties_trans k _ (x :: a ++ b)).
      + apply ties_skip, IH; [exact (Permutation_cons_app_inv _ _ P)|inversion S1; assumption|exact (sorted_remove _ _ _ _ S2)].
      + apply ties_front. intros y Hy. assert (Hyl : In y (x :: l)).
        { apply (Permutation_in _ (Permutation_sym P)). apply in_or_app. left; exact Hy. }
        assert (L1 : (key k x <= key k y)%Q).
        { destruct Hyl as [->|Hyl]; [apply Qle_refl|]. inversion S1 as [|? ? _ Hf]; subst. exact (proj1 (Forall_forall _ _) Hf y Hyl). }
        assert (L2 : (key k y <= key k x)%Q) by (apply (sorted_app k a (x :: b) S2); [exact Hy|left; reflexivity]). lra.
  Qed.
  Lemma sorted_rescaled k l l' : nth_error shape k = Some KCont -> tabular shape l -> Forall2 (rescaled u) l l' -> sorted_by k l' -> sorted_by k l.
  Proof.
    intros Hk T H. induction H as [|x y l l' R HF IH]; intros S; [constructor|]. inversion T as [|? ? Tx Tl]; inversion S as [|? ? Sl Sf]; subst.
    constructor; [apply IH; assumption|]. clear IH. induction HF as [|a b l l' Rab HF IH]; [constructor|].
    inversion Sf; inversion Tl; inversion Sl; subst. constructor; [|apply IH; assumption || (constructor; assumption)].
    apply (affine_le (u k) _ _ (key k y) (key k b) (Hu k)); [apply (rescaled_colC u shape); assumption|apply (rescaled_colC u shape); assumption|assumption].
  Qed.
  Lemma sorted_related k l l' : nth_error shape k = Some KCont -> tabular shape l -> same_data u l l' -> sorted_by k l -> sorted_by k l' ->
    exists p, ties k l p /\ Forall2 (rescaled u) p l'.
  Proof.
    intros Hk T (p & P & H) S1 S2. exists p. split; [|exact H]. apply sorted_ties; [exact P|exact S1|].
    apply (sorted_rescaled k p l' Hk); [exact (tab_perm _ _ _ P T)|exact H|exact S2].
  Qed.

  (** * The best split so far *)
  Definition value_rel (v : units) (j : nat) (a b : dbl) : Prop :=
    match nth_error shape j with
    | Some KCont => exists p q, a = Fin p /\ b = Fin q /\ (q == fst (v j) * p + snd (v j))%Q
    | Some (KIdx _) => a = b
    | _ => True
    end.
  Definition best_rel (v : units) (b b' : best) : Prop :=
    deq (b_entropy b) (b_entropy b') /\ b_attr b = b_attr b' /\ forall j, b_attr b = Z.of_nat j -> value_rel v j (b_value b) (b_value b').
  Lemma better_rel v b b' e e' k x x' : best_rel v b b' -> deq e e' -> value_rel v k x x' -> best_rel v (better b e (Z.of_nat k) x) (better b' e' (Z.of_nat k) x').
  Proof.
    intros (A & B & C) E V. unfold better. rewrite (dltb_proper _ _ E _ _ A). destruct (dltb e' (b_entropy b')); [|repeat split; assumption].
    split; [exact E|]. split; [reflexivity|]. cbn [b_attr b_value]. intros j Hj. apply Nat2Z.inj in Hj. subst j. exact V.
  Qed.
  Lemma best_rel_trans b1 b2 b3 : best_rel same_units b1 b2 -> best_rel u b2 b3 -> best_rel u b1 b3.
  Proof.
    intros (A & B & C) (A' & B' & C'). split; [rewrite A; exact A'|]. split; [congruence|]. intros j Hj.
    pose proof (C j Hj) as V. pose proof (C' j (eq_trans (eq_sym B) Hj)) as V'. unfold value_rel in *.
    destruct (nth_error shape j) as [[| |m|]|]; try exact I; [congruence|].
    destruct V as (p & q & E1 & E2 & H). destruct V' as (p' & q' & E1' & E2' & H'). exists p, q'. split; [exact E1|]. split; [exact E2'|].
    rewrite E2 in E1'. injection E1' as <-. rewrite H', H. cbn [same_units fst snd]. ring.
  Qed.

  (** * Scanning a sorted column *)
  Definition prev_rel (v : units) (k : nat) (p p' : option dbl) : Prop :=
    match p, p' with None, None => True | Some (Fin a), Some (Fin b) => (b == fst (v k) * a + snd (v k))%Q | _, _ => False end.
  Definition scan_rel (v : units) (k : nat) (s s' : scan) : Prop :=
    prev_rel v k (s_prev s) (s_prev s') /\ s_left s = s_left s' /\ s_right s = s_right s' /\ best_rel v (s_best s) (s_best s').
  Lemma deqb_dleb a b : deqb (Fin a) (Fin b) = dleb (Fin a) (Fin b) && dleb (Fin b) (Fin a).
  Proof. reflexivity. Qed.
  Lemma cut_step v n k x y s s' : increasing v -> nth_error shape k = Some KCont -> typed shape x -> typed shape y -> label x = label y ->
    (key k y == fst (v k) * key k x + snd (v k))%Q -> scan_rel v k s s' ->
    exists t t', try_cut entropy mid n (Z.of_nat k) s x = Ok t /\ try_cut entropy mid n (Z.of_nat k) s' y = Ok t' /\ scan_rel v k t t' /\
      s_left t = crem (s_left s) (label x) /\ s_right t = cput (s_right s) (label x).
  Proof.
    intros Hv Hk Tx Ty Hl Hc (P & L & R & B). unfold try_cut.
    rewrite (proj2 (cont_at_ok _ _ _) (typed_cont _ x k Tx Hk)), (proj2 (cont_at_ok _ _ _) (typed_cont _ y k Ty Hk)). cbn [bind].
    rewrite <- Hl, <- L, <- R. unfold prev_rel in P. destruct (s_prev s) as [[p| | |]|], (s_prev s') as [[p'| | |]|]; try contradiction.
    - rewrite !deqb_dleb, (affine_dleb (v k) _ _ _ _ (Hv k) Hc P), (affine_dleb (v k) _ _ _ _ (Hv k) P Hc).
      destruct (negb _) eqn:E.
      + eexists _, _. split; [reflexivity|]. split; [reflexivity|]. split; [|split; reflexivity].
        split; [exact Hc|]. split; [reflexivity|]. split; [reflexivity|]. cbn [s_best]. apply better_rel; [exact B|reflexivity|].
        unfold value_rel. rewrite Hk. pose proof (Hmid p (key k x)) as M. pose proof (Hmid p' (key k y)) as M'.
        destruct (mid (Fin p) (Fin (key k x))) as [m| | |]; try contradiction M. destruct (mid (Fin p') (Fin (key k y))) as [m'| | |]; try contradiction M'.
        cbn [deq] in M, M'. exists m, m'. split; [reflexivity|]. split; [reflexivity|]. rewrite M, M', Hc, P. field.
      + eexists _, _. split; [reflexivity|]. split; [reflexivity|]. split; [|split; reflexivity].
        split; [exact P|]. split; [reflexivity|]. split; [reflexivity|exact B].
    - eexists _, _. split; [reflexivity|]. split; [reflexivity|]. split; [|split; reflexivity].
      split; [exact Hc|]. split; [reflexivity|]. split; [reflexivity|exact B].
  Qed.
  Lemma same_incr : increasing same_units.
  Proof. intros i. reflexivity. Qed.
  Lemma same_colC x k : (key k x == fst (same_units k) * key k x + snd (same_units k))%Q.
  Proof. cbn [same_units fst snd]. ring. Qed.
  (** pointwise related data *)
  Lemma cut_fold_pointwise n k : nth_error shape k = Some KCont -> forall l l', Forall2 (rescaled u) l l' -> tabular shape l -> forall s s' t, scan_rel u k s s' ->
    foldM (try_cut entropy mid n (Z.of_nat k)) l s = Ok t ->
    exists t', foldM (try_cut entropy mid n (Z.of_nat k)) l' s' = Ok t' /\ scan_rel u k t t'.
  Proof.
    intros Hk l l' H. induction H as [|x y l l' R _ IH]; intros T s s' t Hs E.
    - injection E as <-. exists s'. split; [reflexivity|exact Hs].
    - inversion T as [|? ? Tx Tl]; subst.
      destruct (cut_step u n k x y s s' Hu Hk Tx (rescaled_typed _ _ _ _ R Tx) (proj1 R) (rescaled_colC _ _ _ _ _ R Tx Hk) Hs) as (s1 & s1' & E1 & E1' & H1 & _).
      cbn [foldM] in E |- *. rewrite E1 in E. rewrite E1'. cbn [bind] in E |- *. exact (IH Tl s1 s1' t H1 E).
  Qed.
  (** the effect of one step, label and number apart *)
  Definition next_prev (p : option dbl) (v : dbl) : option dbl := match p with Some p => if deqb v p then Some p else Some v | None => Some v end.
  Definition next_best (n : nat) (k : Z) (s : scan) (v : dbl) : best :=
    match s_prev s with
    | Some p => if deqb v p then s_best s else
        better (s_best s) (dadd (dmul (share n (s_left s)) (entropy (s_left s))) (dmul (share n (s_right s)) (entropy (s_right s)))) k (mid p v)
    | None => s_best s
    end.
  Lemma try_cut_eq n k s x : nth_error shape k = Some KCont -> typed shape x ->
    try_cut entropy mid n (Z.of_nat k) s x =
    Ok (mkScan (next_prev (s_prev s) (Fin (key k x))) (crem (s_left s) (label x)) (cput (s_right s) (label x)) (next_best n (Z.of_nat k) s (Fin (key k x)))).
  Proof.
    intros Hk Tx. unfold try_cut, next_prev, next_best. rewrite (proj2 (cont_at_ok _ _ _) (typed_cont _ x k Tx Hk)). cbn [bind].
    destruct (s_prev s) as [p|]; [|reflexivity]. destruct (deqb (Fin (key k x)) p); reflexivity.
  Qed.
  Definition prev_fin (s : scan) : Prop := match s_prev s with None | Some (Fin _) => True | _ => False end.
  Lemma deqb_fin a b : deqb (Fin a) (Fin b) = true <-> (a == b)%Q.
  Proof.
    rewrite deqb_dleb, andb_true_iff, !dleb_fin. split; [intros [A B]; lra|intros H; split; lra].
  Qed.
  (** after a step the next instance with the same number changes the counts only *)
  Lemma next_tie n k s x y s1 : prev_fin s -> (key k x == key k y)%Q -> s_prev s1 = next_prev (s_prev s) (Fin (key k x)) ->
    next_prev (s_prev s1) (Fin (key k y)) = s_prev s1 /\ next_best n (Z.of_nat k) s1 (Fin (key k y)) = s_best s1.
  Proof.
    intros F E H. unfold next_best. rewrite H. unfold prev_fin in F. destruct (s_prev s) as [[p| | |]|]; try contradiction; cbn [next_prev].
    - destruct (deqb (Fin (key k x)) (Fin p)) eqn:D; cbn [next_prev].
      + apply deqb_fin in D. rewrite (proj2 (deqb_fin (key k y) p)) by lra. split; reflexivity.
      + rewrite (proj2 (deqb_fin (key k y) (key k x))) by lra. split; reflexivity.
    - rewrite (proj2 (deqb_fin (key k y) (key k x))) by lra. split; reflexivity.
  Qed.
  Lemma scan_rel_fin v k s s' : scan_rel v k s s' -> prev_fin s /\ prev_fin s'.
  Proof.
    intros (P & _). unfold prev_rel, prev_fin in *. destruct (s_prev s) as [[p| | |]|], (s_prev s') as [[p'| | |]|]; try contradiction; split; exact I.
  Qed.
  Lemma scan_rel_refl_r v k s s' : scan_rel v k s s' -> scan_rel same_units k s' s'.
  Proof.
    intros (P & _ & _ & (A & B & C)). split; [|split; [reflexivity|split; [reflexivity|]]].
    - unfold prev_rel in *. destruct (s_prev s) as [[p| | |]|], (s_prev s') as [[p'| | |]|]; try contradiction; [cbn; ring|exact I].
    - split; [reflexivity|]. split; [reflexivity|]. intros j Hj. rewrite <- B in Hj. specialize (C j Hj). unfold value_rel in *.
      destruct (nth_error shape j) as [[| |m|]|]; try exact I; [reflexivity|]. destruct C as (p & q & _ & -> & _). exists q, q. split; [reflexivity|]. split; [reflexivity|]. cbn. ring.
  Qed.
  Lemma scan_rel_trans v k s1 s2 s3 : (forall b1 b2 b3, best_rel same_units b1 b2 -> best_rel v b2 b3 -> best_rel v b1 b3) ->
    scan_rel same_units k s1 s2 -> scan_rel v k s2 s3 -> scan_rel v k s1 s3.
  Proof.
    intros HT (P & L & R & B) (P' & L' & R' & B'). split; [|split; [congruence|split; [congruence|exact (HT _ _ _ B B')]]].
    unfold prev_rel in *. destruct (s_prev s1) as [[p1| | |]|], (s_prev s2) as [[p2| | |]|], (s_prev s3) as [[p3| | |]|]; try contradiction; [|exact I].
    rewrite P', P. cbn [same_units fst snd]. ring.
  Qed.
  Lemma best_rel_trans' v b1 b2 b3 : best_rel same_units b1 b2 -> best_rel v b2 b3 -> best_rel v b1 b3.
  Proof.
    intros (A & B & C) (A' & B' & C'). split; [rewrite A; exact A'|]. split; [congruence|]. intros j Hj.
    pose proof (C j Hj) as V. pose proof (C' j (eq_trans (eq_sym B) Hj)) as V'. unfold value_rel in *.
    destruct (nth_error shape j) as [[| |m|]|]; try exact I; [congruence|].
    destruct V as (p & q & E1 & E2 & H). destruct V' as (p' & q' & E1' & E2' & H'). exists p, q'. split; [exact E1|]. split; [exact E2'|].
    rewrite E2 in E1'. injection E1' as <-. rewrite H', H. cbn [same_units fst snd]. ring.
  Qed.
  Lemma cut_swap n k x y s s' rest done : nth_error shape k = Some KCont -> typed shape x -> typed shape y -> (key k x == key k y)%Q ->
    scan_rel same_units k s s' -> s_left s = cofl (label x :: label y :: rest) -> s_right s = cofl done ->
    exists s1 s2 s1' s2', try_cut entropy mid n (Z.of_nat k) s x = Ok s1 /\ try_cut entropy mid n (Z.of_nat k) s1 y = Ok s2 /\
      try_cut entropy mid n (Z.of_nat k) s' y = Ok s1' /\ try_cut entropy mid n (Z.of_nat k) s1' x = Ok s2' /\
      scan_rel same_units k s2 s2' /\ s_left s2 = cofl rest /\ s_right s2 = cofl (done ++ [label x] ++ [label y]).
  Proof.
    intros Hk Tx Ty E Hs HL HR. destruct (scan_rel_fin _ _ _ _ Hs) as [F F'].
    set (y' := mkInst (label x) (attrs y) (composite y)).
    assert (Ty' : typed shape y') by exact Ty. assert (Ky : key k y' = key k y) by reflexivity.
    destruct (cut_step same_units n k x y' s s' same_incr Hk Tx Ty' eq_refl) as (t & t' & Et & Et' & (P & _ & _ & B) & _).
    { rewrite Ky, E. cbn [same_units fst snd]. ring. } { exact Hs. }
    rewrite (try_cut_eq n k s x Hk Tx) in Et. rewrite (try_cut_eq n k s' y' Hk Ty') in Et'. rewrite Ky in Et'. injection Et as Et. injection Et' as Et'.
    rewrite (try_cut_eq n k s x Hk Tx), (try_cut_eq n k s' y Hk Ty). eexists _, _, _, _.
    split; [reflexivity|]. split; [apply try_cut_eq; assumption|]. split; [reflexivity|]. split; [apply try_cut_eq; assumption|].
    destruct Hs as (_ & L & R & _).
    match goal with |- context [next_best n (Z.of_nat k) (mkScan ?p ?l ?r ?b) (Fin (key k y))] => destruct (next_tie n k s x y (mkScan p l r b) F E eq_refl) as [N1 N2] end.
    match goal with |- context [next_best n (Z.of_nat k) (mkScan ?p ?l ?r ?b) (Fin (key k x))] => destruct (next_tie n k s' y x (mkScan p l r b) F' (Qeq_sym _ _ E) eq_refl) as [N3 N4] end.
    cbn [s_prev s_left s_right s_best] in *. rewrite N1, N2, N3, N4. subst t t'. cbn [s_prev s_best] in P, B.
    assert (C1 : crem (crem (s_left s) (label x)) (label y) = cofl rest) by (rewrite HL, crem_cofl, crem_cofl; reflexivity).
    assert (C2 : crem (crem (s_left s') (label y)) (label x) = cofl rest).
    { rewrite <- L, HL, (cofl_perm (label x :: label y :: rest) (label y :: label x :: rest)) by apply perm_swap. rewrite crem_cofl, crem_cofl; reflexivity. }
    assert (C3 : cput (cput (s_right s) (label x)) (label y) = cofl (done ++ [label x] ++ [label y])) by (rewrite HR, !cput_cofl, <- app_assoc; reflexivity).
    assert (C4 : cput (cput (s_right s') (label y)) (label x) = cofl (done ++ [label x] ++ [label y])).
    { rewrite <- R, HR, !cput_cofl, <- app_assoc. apply cofl_perm. apply Permutation_app_head, perm_swap. }
    rewrite C1, C2, C3, C4. split; [|split; reflexivity]. split; [exact P|]. split; [reflexivity|]. split; [reflexivity|exact B].
  Qed.
  (** exchanging ties *)
  Lemma cut_fold_same n k : nth_error shape k = Some KCont -> forall l, tabular shape l -> forall s s' t, scan_rel same_units k s s' ->
    foldM (try_cut entropy mid n (Z.of_nat k)) l s = Ok t ->
    exists t', foldM (try_cut entropy mid n (Z.of_nat k)) l s' = Ok t' /\ scan_rel same_units k t t'.
  Proof.
    intros Hk l T. induction T as [|x l Tx _ IH]; intros s s' t Hs E.
    - injection E as <-. exists s'. split; [reflexivity|exact Hs].
    - destruct (cut_step same_units n k x x s s' same_incr Hk Tx Tx eq_refl (same_colC x k) Hs) as (s1 & s1' & E1 & E1' & H1 & _).
      cbn [foldM] in E |- *. rewrite E1 in E. rewrite E1'. cbn [bind] in E |- *. exact (IH s1 s1' t H1 E).
  Qed.
  Lemma cut_fold_ties n k : nth_error shape k = Some KCont -> forall l l', ties k l l' -> tabular shape l -> forall s s' t done, scan_rel same_units k s s' ->
    s_left s = cofl (map label l) -> s_right s = cofl done ->
    foldM (try_cut entropy mid n (Z.of_nat k)) l s = Ok t ->
    exists t', foldM (try_cut entropy mid n (Z.of_nat k)) l' s' = Ok t' /\ scan_rel same_units k t t'.
  Proof.
    intros Hk l l' H. induction H as [|x l l' _ IH|x y l Hxy|l1 l2 l3 H1 IH1 _ IH2]; intros T s s' t done Hs HL HR E.
    - injection E as <-. exists s'. split; [reflexivity|exact Hs].
    - inversion T as [|? ? Tx Tl]; subst.
      destruct (cut_step same_units n k x x s s' same_incr Hk Tx Tx eq_refl (same_colC x k) Hs) as (s1 & s1' & E1 & E1' & H1 & L1 & R1).
      cbn [foldM] in E |- *. rewrite E1 in E. rewrite E1'. cbn [bind] in E |- *.
      apply (IH Tl s1 s1' t (done ++ [label x]) H1); [rewrite L1, HL; apply crem_cofl|rewrite R1, HR; apply cput_cofl|exact E].
    - inversion T as [|? ? Tx Tl0]; inversion Tl0 as [|? ? Ty Tl]; subst.
      destruct (cut_swap n k x y s s' (map label l) done Hk Tx Ty Hxy Hs HL HR) as (s1 & s2 & s1' & s2' & E1 & E2 & E1' & E2' & H2 & _).
      cbn [foldM] in E |- *. rewrite E1 in E. cbn [bind] in E. rewrite E2 in E. cbn [bind] in E.
      rewrite E1'. cbn [bind]. rewrite E2'. cbn [bind]. exact (cut_fold_same n k Hk l Tl s2 s2' t H2 E).
    - destruct (IH1 T s s' t done Hs HL HR E) as (t2 & E2 & Ht).
      assert (P := ties_perm _ _ _ H1).
      destruct (IH2 (tab_perm _ _ _ P T) s' s' t2 done (scan_rel_refl_r _ _ _ _ Hs)) as (t3 & E3 & Ht3); [| |exact E2|].
      + destruct Hs as (_ & <- & _). rewrite HL. apply cofl_perm, Permutation_map, P.
      + destruct Hs as (_ & _ & <- & _). exact HR.
      + exists t3. split; [exact E3|]. exact (scan_rel_trans _ _ _ _ _ (best_rel_trans' _) Ht Ht3).
  Qed.

  (** * The search *)
  Lemma best_rel_refl_l b b' : best_rel u b b' -> best_rel same_units b b.
  Proof.
    intros (A & B & C). split; [reflexivity|]. split; [reflexivity|]. intros j Hj. specialize (C j Hj). unfold value_rel in *.
    destruct (nth_error shape j) as [[| |m|]|]; try exact I; [reflexivity|]. destruct C as (p & q & -> & _). exists p, p. split; [reflexivity|]. split; [reflexivity|]. cbn. ring.
  Qed.
  Lemma sort_by_sorted k l : nth_error shape k = Some KCont -> tabular shape l ->
    exists s, sort_by (Z.of_nat k) l = Ok s /\ Permutation l s /\ sorted_by k s.
  Proof.
    intros Hk T. destruct (sort_by_spec (Z.of_nat k) l _ (tab_num _ _ _ T Hk)) as (s & vs & E & P & N & S & _).
    { apply Forall_forall. intros d Hd. apply in_map_iff in Hd. destruct Hd as (x & <- & _). reflexivity. }
    exists s. split; [exact E|]. split; [exact P|]. pose proof (tab_perm _ _ _ P T) as Ts.
    assert (vs = map (fun x => Fin (key k x)) s) as ->.
    { clear - N Ts Hk. induction N as [|x v s vs Hv _ IH]; [reflexivity|]. inversion Ts as [|? ? Tx Tl]; subst. cbn [map]. rewrite <- IH by exact Tl. f_equal.
      pose proof (feature_fun _ _ _ _ Hv (typed_cont _ x k Tx Hk)) as H. congruence. }
    clear - S. unfold sorted_by. induction s as [|x s IH]; [constructor|]. inversion S as [|? ? Sl Sf]; subst. constructor; [apply IH, Sl|].
    apply Forall_forall. intros y Hy. apply dltb_fin_false. apply (proj1 (Forall_forall _ _) Sf). apply (in_map (fun x => Fin (key k x))), Hy.
  Qed.
  Lemma same_cofl l l' : same_data u l l' -> cofl (map label l) = cofl (map label l').
  Proof. intros H. apply cofl_perm, (same_data_labels _ _ _ H). Qed.
  Lemma disc_values_perm k l l' : nth_error shape k = Some KDisc -> tabular shape l -> same_data u l l' ->
    Permutation (map (colD (Z.of_nat k)) l) (map (colD (Z.of_nat k)) l').
  Proof.
    intros Hk T (p & P & H). transitivity (map (colD (Z.of_nat k)) p); [apply Permutation_map, P|].
    pose proof (tab_perm _ _ _ P T) as Tp. clear - Hk Tp H. induction H as [|x y p l' R _ IH]; [constructor|]. inversion Tp; subst. cbn [map].
    rewrite (rescaled_colD u shape x y k R) by assumption. constructor. apply IH. assumption.
  Qed.
  Lemma tab_in l x : tabular shape l -> In x l -> typed shape x.
  Proof. intros H. apply Forall_forall, H. Qed.
  Lemma disc_entropy_same k l l' e : nth_error shape k = Some KDisc -> tabular shape l -> same_data u l l' ->
    disc_entropy entropy l (Z.of_nat k) = Ok e -> exists e', disc_entropy entropy l' (Z.of_nat k) = Ok e' /\ deq e e'.
  Proof.
    intros Hk T H E. pose proof (same_data_tab _ _ _ _ H T) as T'. unfold disc_entropy in *.
    assert (D : forall l, tabular shape l -> attr_class_distribution (Z.of_nat k) l =
      Ok (map (fun w => cofl (map label (filter (fun x => String.eqb w (colD (Z.of_nat k) x)) l))) (fold_left push_new (map (colD (Z.of_nat k)) l) []))).
    { intros d Td. apply acd_exact; [apply (tab_text shape); assumption|]. intros x Hx. apply disc_at_ok. eexists; split; [apply (typed_disc shape); [exact (tab_in _ _ Td Hx)|exact Hk]|left; reflexivity]. }
    rewrite (D l T) in E. rewrite (D l' T'). cbn [bind] in E |- *. injection E as <-. eexists. split; [reflexivity|].
    rewrite <- (same_data_len _ _ _ H).
    match goal with |- deq (fold_left ?f (map ?g ?vs) _) (fold_left _ (map ?g' ?vs') _) => set (F := f); set (G := g); set (G' := g') end.
    assert (GG : forall w, G w = G' w).
    { intros w. unfold G, G'. apply same_cofl. apply same_data_filter; [exact H|]. intros x y Hx R. rewrite (rescaled_colD u shape x y k R (tab_in _ _ T Hx) Hk). reflexivity. }
    rewrite (map_ext G G' GG). unfold F. apply (fold_dadd_perm (fun d => dmul (share (length l) d) (entropy d))); [|reflexivity].
    apply Permutation_map, push_perm, disc_values_perm; assumption.
  Qed.
  Lemma index_same k m l l' : nth_error shape k = Some (KIdx m) -> tabular shape l -> same_data u l l' -> forall vs cd b b' r, best_rel u b b' ->
    foldM (try_index entropy l (Z.of_nat k)) vs (cd, b) = Ok r ->
    exists b2, foldM (try_index entropy l' (Z.of_nat k)) vs (cd, b') = Ok (fst r, b2) /\ best_rel u (snd r) b2.
  Proof.
    intros Hk T H. pose proof (same_data_tab _ _ _ _ H T) as T'. induction vs as [|v vs IH]; intros cd b b' r Hb E.
    - injection E as <-. exists b'. split; [reflexivity|exact Hb].
    - cbn [foldM] in E |- *. unfold try_index at 1 in E. unfold try_index at 1. rewrite (index_dbl _ _ _ _ _ T Hk) in E. rewrite (index_dbl _ _ _ _ _ T' Hk). cbn [bind] in E |- *.
      rewrite <- (same_cofl (filter (fun x => (colI (Z.of_nat k) x =? Z.of_nat v)%Z) l)).
      2:{ apply same_data_filter; [exact H|]. intros x y Hx R. rewrite (rescaled_colI u shape x y k m R (tab_in _ _ T Hx) Hk). reflexivity. }
      rewrite <- (same_data_len _ _ _ H). destruct (0 <? _); cbn [bind] in E |- *; [|exact (IH cd b b' r Hb E)].
      refine (IH _ _ _ r _ E). apply better_rel; [exact Hb|reflexivity|]. unfold value_rel. rewrite Hk. reflexivity.
  Qed.
  Lemma try_attr_same l l' cd b b' k l2 cd2 b2 : k < length shape -> tabular shape l -> l <> [] -> same_data u l l' -> best_rel u b b' ->
    try_attr entropy mid (l, cd, b) (Z.of_nat k) = Ok (l2, cd2, b2) ->
    Permutation l l2 /\ exists l2' b2', try_attr entropy mid (l', cd, b') (Z.of_nat k) = Ok (l2', cd2, b2') /\ Permutation l' l2' /\ best_rel u b2 b2'.
  Proof.
    intros Hk T Hne H Hb E. pose proof (same_data_tab _ _ _ _ H T) as T'. pose proof (same_data_ne _ _ _ H Hne) as Hne'.
    destruct (nth_error shape k) as [kd|] eqn:Ek; [|apply nth_error_None in Ek; lia].
    unfold try_attr in E |- *. destruct l as [|x0 l0] eqn:El; [contradiction|]. destruct l' as [|y0 l0'] eqn:El'; [contradiction|]. rewrite <- El, <- El' in *.
    assert (A1 : atn l 0 = Ok x0) by (rewrite El; reflexivity). assert (A2 : atn l' 0 = Ok y0) by (rewrite El'; reflexivity). rewrite A1 in E. rewrite A2. cbn [bind] in E |- *.
    destruct (typed_at _ x0 _ _ (tab_in l x0 T ltac:(rewrite El; left; reflexivity)) Ek) as (a & _ & Ha & Hga & _).
    destruct (typed_at _ y0 _ _ (tab_in l' y0 T' ltac:(rewrite El'; left; reflexivity)) Ek) as (a' & _ & Ha' & Hga' & _).
    rewrite Hga in E. rewrite Hga'. cbn [bind] in E |- *. destruct kd as [| |m|]; simpl in Ha, Ha'.
    - destruct Ha as [w ->]. destruct Ha' as [w' ->]. cbn [isDiscreteIndexed isDiscrete] in E |- *.
      apply bind_ok in E as (e & Ee & E). injection E as <- <- <-. split; [reflexivity|].
      destruct (disc_entropy_same k l l' e Ek T H Ee) as (e' & -> & He). cbn [bind]. eexists _, _. split; [reflexivity|]. split; [reflexivity|].
      apply better_rel; [exact Hb|exact He|]. unfold value_rel. rewrite Ek. exact I.
    - destruct Ha as [w ->]. destruct Ha' as [w' ->]. cbn in E |- *. injection E as <- <- <-. split; [reflexivity|]. eexists _, _. split; [reflexivity|]. split; [reflexivity|exact Hb].
    - destruct Ha as (w & i & ->). destruct Ha' as (w' & i' & ->). cbn [isDiscreteIndexed idx_max bind] in E |- *.
      apply bind_ok in E as (r & Er & E). injection E as <- <- <-. split; [reflexivity|].
      destruct (index_same k m l l' Ek T H _ _ _ _ _ Hb Er) as (b2' & -> & B2). cbn [bind fst snd]. eexists _, _. split; [reflexivity|]. split; [reflexivity|exact B2].
    - destruct Ha as (q & ->). destruct Ha' as (q' & ->). cbn [isDiscreteIndexed isDiscrete isContinuous] in E |- *.
      destruct (sort_by_sorted k l Ek T) as (s & Es & Ps & Ss). destruct (sort_by_sorted k l' Ek T') as (s' & Es' & Ps' & Ss').
      rewrite Es in E. rewrite Es'. cbn [bind] in E |- *. apply bind_ok in E as (sc & Esc & E). injection E as <- <- <-. split; [exact Ps|].
      assert (HS : same_data u s s') by (apply (same_data_perm_l u l); [apply (same_data_perm_r u l l'); assumption|exact Ps]).
      pose proof (tab_perm _ _ _ Ps T) as Ts.
      destruct (sorted_related k s s' Ek Ts HS Ss Ss') as (p & Hp & HF).
      rewrite !class_distribution_cofl in *. rewrite <- (same_data_len _ _ _ HS).
      destruct (cut_fold_ties (length s) k Ek s p Hp Ts (mkScan None (cofl (map label s)) [] b) (mkScan None (cofl (map label s)) [] b) sc []) as (t1 & E1 & R1).
      { split; [exact I|]. split; [reflexivity|]. split; [reflexivity|]. exact (best_rel_refl_l _ _ Hb). }
      { reflexivity. } { reflexivity. } { exact Esc. }
      destruct (cut_fold_pointwise (length s) k Ek p s' HF (tab_perm _ _ _ (ties_perm _ _ _ Hp) Ts) (mkScan None (cofl (map label s)) [] b) (mkScan None (cofl (map label s')) [] b') t1) with (2 := E1) as (t2 & E2 & R2).
      { split; [exact I|]. split; [exact (same_cofl _ _ HS)|]. split; [reflexivity|exact Hb]. }
      rewrite E2. cbn [bind]. eexists _, _. split; [reflexivity|]. split; [exact Ps'|].
      exact (proj2 (proj2 (proj2 (scan_rel_trans u k sc t1 t2 (best_rel_trans' u) R1 R2)))).
  Qed.
  Lemma attr_fold_same ks : (forall k, In k ks -> k < length shape) -> forall l l' cd b b' r, tabular shape l -> l <> [] -> same_data u l l' -> best_rel u b b' ->
    foldM (try_attr entropy mid) (map Z.of_nat ks) (l, cd, b) = Ok r ->
    exists l2 cd2 b2 l2' b2', r = (l2, cd2, b2) /\ foldM (try_attr entropy mid) (map Z.of_nat ks) (l', cd, b') = Ok (l2', cd2, b2') /\
      Permutation l l2 /\ Permutation l' l2' /\ best_rel u b2 b2'.
  Proof.
    induction ks as [|k ks IH]; intros Hks l l' cd b b' r T Hne H Hb E.
    - injection E as <-. exists l, cd, b, l', b'. repeat (split; [reflexivity|]). exact Hb.
    - cbn [map foldM] in E |- *. apply bind_ok in E as (((l1 & cd1) & b1) & E1 & E).
      destruct (try_attr_same l l' cd b b' k l1 cd1 b1 (Hks k (or_introl eq_refl)) T Hne H Hb E1) as (P1 & l1' & b1' & E1' & P1' & B1). rewrite E1'. cbn [bind].
      destruct (IH (fun j Hj => Hks j (or_intror Hj)) l1 l1' cd1 b1 b1' r) as (l2 & cd2 & b2 & l2' & b2' & -> & E2 & P2 & P2' & B2); try assumption.
      + exact (tab_perm _ _ _ P1 T). + intros ->. apply Hne, Permutation_nil, Permutation_sym, P1.
      + apply (same_data_perm_l u l); [apply (same_data_perm_r u l l'); assumption|exact P1].
      + exists l2, cd2, b2, l2', b2'. split; [reflexivity|]. split; [exact E2|]. split; [etransitivity; eassumption|]. split; [etransitivity; eassumption|exact B2].
  Qed.
  Lemma search_same rarr param l l' l2 b : rarr_perm rarr -> tabular shape l -> l <> [] -> same_data u l l' ->
    search entropy mid rarr param l = Ok (l2, b) ->
    exists l2' b', search entropy mid rarr param l' = Ok (l2', b') /\ same_data u l2 l2' /\ Permutation l l2 /\ Permutation l' l2' /\ best_rel u b b'.
  Proof.
    intros Hr T Hne H E. pose proof (same_data_tab _ _ _ _ H T) as T'. pose proof (same_data_ne _ _ _ H Hne) as Hne'.
    unfold search in E |- *. destruct l as [|x0 l0] eqn:El; [contradiction|]. destruct l' as [|y0 l0'] eqn:El'; [contradiction|]. rewrite <- El, <- El' in *.
    assert (A1 : atn l 0 = Ok x0) by (rewrite El; reflexivity). assert (A2 : atn l' 0 = Ok y0) by (rewrite El'; reflexivity). rewrite A1 in E. rewrite A2. cbn [bind] in E |- *.
    assert (Tx : typed shape x0) by (apply (tab_in l x0 T); rewrite El; left; reflexivity).
    assert (Ty : typed shape y0) by (apply (tab_in l' y0 T'); rewrite El'; left; reflexivity).
    assert (AO : attr_order rarr param y0 = attr_order rarr param x0).
    { unfold attr_order, attr_count. rewrite <- (Forall2_len _ _ _ Tx), <- (Forall2_len _ _ _ Ty). reflexivity. }
    rewrite AO. destruct (attr_order_ok shape rarr param x0 Hr Tx) as (ks & Eks & Hks). rewrite Eks in E |- *. cbn [bind] in E |- *.
    rewrite !class_distribution_cofl in *. rewrite <- (same_cofl _ _ H).
    apply bind_ok in E as (r & Er & E).
    assert (B0 : best_rel u (mkBest (entropy (cofl (map label l))) (-1) d0) (mkBest (entropy (cofl (map label l))) (-1) d0)).
    { split; [reflexivity|]. split; [reflexivity|]. cbn [b_attr]. intros j Hj. lia. }
    destruct (attr_fold_same ks Hks l l' _ _ _ r T Hne H B0 Er) as (l2a & cd2 & b2 & l2' & b2' & -> & E2 & P2 & P2' & B2). injection E as -> ->.
    exists l2', b2'. split; [apply bind_ok; eexists; split; [exact E2|reflexivity]|].
    split; [apply (same_data_perm_l u l); [apply (same_data_perm_r u l l'); assumption|exact P2]|]. split; [exact P2|]. split; [exact P2'|exact B2].
  Qed.
End Inv.
