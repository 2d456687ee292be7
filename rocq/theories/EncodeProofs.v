(** Lemmas for C149. *)
From Coq Require Import String ZArith QArith Bool Lia Lqa Arith List.
From Verif Require Import Base Spec BaseLemmas DblLemmas AttrModel InstanceListModel StatSpec DistanceModel DistanceSpec DistanceProofs FilterSpec FilterProofs RenameProofs RoundDistProofs SortLemmas EncodeSpec.
Import ListNotations.
Local Open Scope string_scope.
Local Open Scope list_scope.
Local Open Scope nat_scope.

Lemma distq_app xs ys xs' ys' : length xs = length ys -> (distq (xs ++ xs') (ys ++ ys') == distq xs ys + distq xs' ys')%Q.
Proof.
  revert ys. induction xs as [|a xs IH]; intros [|b ys] H; try discriminate.
  - cbn [app]. assert (distq [] [] == 0)%Q as -> by reflexivity. lra.
  - cbn [app]. rewrite !distq_cons, (IH ys) by (now injection H). lra.
Qed.
Definition bit (b : bool) : Q := if b then 1 else 0.
(** indicators of two values *)
Lemma block_dist v u vs : NoDup vs ->
  (distq (zero_one (vs, v)) (zero_one (vs, u)) == if String.eqb v u then 0 else bit (existsb (String.eqb v) vs) + bit (existsb (String.eqb u) vs))%Q.
Proof.
  unfold zero_one, indicators. cbn [fst snd]. induction vs as [|w vs IH]; intros N.
  - cbn. destruct (String.eqb v u); reflexivity.
  - inversion N as [|? ? N1 N2]; subst. cbn [map existsb]. rewrite distq_cons, (IH N2). clear IH.
    assert (F : forall z, String.eqb z w = true -> existsb (String.eqb z) vs = false).
    { intros z Hz. apply String.eqb_eq in Hz as ->. apply not_true_is_false. intros E. apply existsb_exists in E as (y & Hy & Ey). apply String.eqb_eq in Ey as <-. contradiction. }
    destruct (String.eqb_spec v u) as [->|Nu].
    + cbn [gapq]. lra.
    + destruct (String.eqb v w) eqn:Ev, (String.eqb u w) eqn:Eu; cbn [gapq orb bit].
      * apply String.eqb_eq in Ev, Eu. congruence.
      * rewrite (F v Ev). cbn [bit]. lra.
      * rewrite (F u Eu). cbn [bit]. lra.
      * lra.
Qed.
Lemma in_existsb v vs : In v vs -> existsb (String.eqb v) vs = true.
Proof. intros H. apply existsb_exists. exists v. split; [exact H|apply String.eqb_refl]. Qed.
Lemma zero_one_length p : length (zero_one p) = length (fst p).
Proof. unfold zero_one, indicators. rewrite !map_length. reflexivity. Qed.
Lemma zero_one_finite p : Forall finite (zero_one p).
Proof. apply Forall_forall. intros a Ha. unfold zero_one in Ha. apply in_map_iff in Ha as (b & <- & _). intros w E. injection E as <-. eexists. reflexivity. Qed.

(** the distances before and after *)
Lemma encoded_distance known x q : described known x -> askable known q ->
  (distq (attrs x) (attrs q) == distq (kept known (attrs x)) (kept known (attrs q)) + qofn (differ known (attrs x) (attrs q)))%Q /\
  (distq (attrs (hot known x)) (attrs (hot known q)) + qofn (unknown known (attrs q)) ==
   distq (kept known (attrs x)) (kept known (attrs q)) + 2 * qofn (differ known (attrs x) (attrs q)))%Q /\
  length (attrs (hot known x)) = length (attrs (hot known q)) /\ length (kept known (attrs x)) = length (kept known (attrs q)).
Proof.
  unfold described, askable, hot. cbn [attrs]. generalize (attrs x), (attrs q). clear x q. intros xs ys H. revert ys. induction H as [|vs a known xs Ha H IH]; intros ys K; inversion K as [|? b ? ys' Hb K']; subst.
  - cbn. repeat split; try reflexivity.
  - rename ys' into ys. specialize (IH ys K') as (I1 & I2 & I3 & I4). rewrite app_length in I3. rewrite app_length in I3. rewrite distq_app in I2 by exact I4. unfold kept, replaced in *. cbn [combine flat_map fst snd differ unknown].
    destruct vs as [|w vs].
    + cbn [app]. rewrite !distq_cons. cbn [Nat.add]. rewrite distq_app by exact I4. split; [|split; [|split]].
      * rewrite I1. lra.
      * lra.
      * cbn [length]. rewrite !app_length. lia.
      * cbn [length]. lia.
    + destruct Ha as (N & v & -> & Hv), Hb as (u & ->). cbn [app text flat_map]. set (ww := w :: vs) in *.
      assert (L : length (zero_one (ww, v)) = length (zero_one (ww, u))) by (rewrite !zero_one_length; reflexivity).
      rewrite distq_cons, I1. split; [|split; [|split]].
      * cbn [gapq]. destruct (String.eqb v u); cbn [Nat.add]; [lra|]. rewrite qofn_S. lra.
      * rewrite distq_app by exact I4. rewrite distq_app by exact L. rewrite (block_dist v u ww N), (in_existsb v ww Hv).
        destruct (String.eqb_spec v u) as [->|Nu]; cbn [Nat.add].
        -- rewrite (in_existsb u ww Hv). cbn [Nat.add]. lra.
        -- destruct (existsb (String.eqb u) ww); cbn [bit Nat.add]; rewrite ?qofn_S; lra.
      * rewrite !app_length, L. lia.
      * exact I4.
Qed.
Lemma described_finite known x : described known x -> Forall finite (attrs x) /\ Forall finite (attrs (hot known x)).
Proof.
  unfold described, hot. cbn [attrs]. generalize (attrs x). clear x. intros xs H. assert (G : Forall finite xs /\ Forall finite (kept known xs)).
  { induction H as [|vs a known xs Ha H [I1 I2]]; [split; constructor|]. unfold kept in *. cbn [combine flat_map fst snd].
    destruct vs; [destruct Ha as [Ha _]; split; constructor; assumption|]. destruct Ha as (_ & v & -> & _). split; [constructor; [intros w E; discriminate E|exact I1]|exact I2]. }
  split; [exact (proj1 G)|]. apply Forall_app. split; [exact (proj2 G)|]. apply Forall_forall. intros a Ha. apply in_flat_map in Ha as (p & _ & Ha). exact (proj1 (Forall_forall _ _) (zero_one_finite p) a Ha).
Qed.
Lemma askable_finite known x : askable known x -> Forall finite (attrs x) /\ Forall finite (attrs (hot known x)).
Proof.
  unfold askable, hot. cbn [attrs]. generalize (attrs x). clear x. intros xs H. assert (G : Forall finite xs /\ Forall finite (kept known xs)).
  { induction H as [|vs a known xs Ha H [I1 I2]]; [split; constructor|]. unfold kept in *. cbn [combine flat_map fst snd].
    destruct vs; [split; constructor; assumption|]. destruct Ha as (v & ->). split; [constructor; [intros w E; discriminate E|exact I1]|exact I2]. }
  split; [exact (proj1 G)|]. apply Forall_app. split; [exact (proj2 G)|]. apply Forall_forall. intros a Ha. apply in_flat_map in Ha as (p & _ & Ha). exact (proj1 (Forall_forall _ _) (zero_one_finite p) a Ha).
Qed.
(** without other features: the neighbours are the same *)
Lemma kept_none known xs : Forall (fun vs => vs <> []) known -> kept known xs = [].
Proof.
  intros H. revert xs. induction H as [|vs known Hv H IH]; intros [|a xs]; try reflexivity. unfold kept in *. cbn [combine flat_map fst snd]. destruct vs; [congruence|apply IH].
Qed.
Lemma hot_nearest known data k q : Forall (fun vs => vs <> []) known -> Forall (described known) data -> askable known q ->
  exists ns, nearest eucl data k q = Ok ns /\ nearest eucl (map (hot known) data) k (hot known q) = Ok (map (hot known) ns) /\ incl ns data.
Proof.
  intros HK HD HQ. rewrite Forall_forall in HD.
  set (d := fun x => Fin (distq (attrs x) (attrs q))). set (d' := fun x => Fin (distq (attrs x) (attrs (hot known q)))).
  destruct (askable_finite _ _ HQ) as [Q1 Q2].
  assert (A : forall x, In x data -> exists a b, eucl x q = Ok (Fin a) /\ eucl (hot known x) (hot known q) = Ok (Fin b) /\ (a == distq (attrs x) (attrs q))%Q /\ (b == 2 * a - qofn (unknown known (attrs q)))%Q).
  { intros x Hx. destruct (described_finite _ _ (HD x Hx)) as [X1 X2]. destruct (encoded_distance known x q (HD x Hx) HQ) as (E1 & E2 & E3 & _).
    assert (L : length (attrs x) = length (attrs q)) by (pose proof (Forall2_len _ _ _ (HD x Hx)); pose proof (Forall2_len _ _ _ HQ); congruence).
    destruct (eucl_fin x q L X1 Q1) as (a & Ea & Ha). destruct (eucl_fin (hot known x) (hot known q) E3 X2 Q2) as (b & Eb & Hb).
    exists a, b. split; [exact Ea|]. split; [exact Eb|]. split; [exact Ha|]. rewrite !(kept_none known _ HK) in *. change (distq [] []) with 0%Q in *. lra. }
  set (val := fun r : res dbl => match r with Ok v => v | _ => d0 end).
  rewrite (nearest_total eucl data k q (fun x => val (eucl x q))).
  2:{ intros x Hx _. destruct (A x Hx) as (a & b & Ea & _). rewrite Ea. split; reflexivity. }
  rewrite (nearest_total eucl (map (hot known) data) k (hot known q) (fun x => val (eucl x (hot known q)))).
  2:{ intros x Hx _. apply in_map_iff in Hx as (z & <- & Hz). destruct (A z Hz) as (a & b & _ & Eb & _). rewrite Eb. split; reflexivity. }
  eexists. split; [reflexivity|]. 
  assert (EF : filter (eligible (hot known q)) (map (hot known) data) = map (hot known) (filter (eligible q) data)).
  { clear. induction data as [|x l IH]; [reflexivity|]. cbn [map filter]. change (eligible (hot known q) (hot known x)) with (eligible q x). destruct (eligible q x); cbn [map]; rewrite IH; reflexivity. }
  rewrite EF. split.
  - f_equal. rewrite <- firstn_map. f_equal.
    rewrite (ssort_map (hot known) (fun x y => dltb (val (eucl (hot known x) (hot known q))) (val (eucl (hot known y) (hot known q)))) _ (fun _ _ => eq_refl)). f_equal.
    apply ssort_ext. intros x y Hx Hy. apply filter_In in Hx as [Hx _]. apply filter_In in Hy as [Hy _].
    destruct (A x Hx) as (a & b & Ea & Eb & _ & Hb), (A y Hy) as (a' & b' & Ea' & Eb' & _ & Hb'). rewrite Ea, Eb, Ea', Eb'. cbn [val dltb].
    f_equal. destruct (Qle_bool b' b) eqn:B1, (Qle_bool a' a) eqn:B2; try reflexivity.
    + apply Qle_bool_iff in B1. assert (Z : Qle_bool a' a = true) by (apply Qle_bool_iff; lra). congruence.
    + apply Qle_bool_iff in B2. assert (Z : Qle_bool b' b = true) by (apply Qle_bool_iff; lra). congruence.
  - intros x Hx. assert (G : forall n (l : list instance), In x (firstn n l) -> In x l).
    { intros n l. revert n. induction l as [|y l IH]; intros [|n] H; cbn in H; try contradiction. destruct H as [->|H]; [left; reflexivity|right; apply (IH n); exact H]. }
    apply G in Hx. eapply Permutation.Permutation_in in Hx; [|apply Permutation.Permutation_sym, ssort_perm]. apply filter_In in Hx. apply Hx.
Qed.
Lemma labels_hot known ns : class_labels (map (hot known) ns) = class_labels ns.
Proof. unfold class_labels. rewrite map_map. reflexivity. Qed.
(** only features the distance does not look at *)
Lemma unmeasured_zero x q : Forall (fun a => ~ measured a) (attrs x) -> length (attrs x) = length (attrs q) -> eucl x q = Ok d0.
Proof.
  intros H L. rewrite eucl_eq. revert L. generalize (attrs q). induction H as [|a xs Ha H IH]; intros [|b ys] L; try discriminate; [reflexivity|]. cbn [eucl_l].
  destruct a as [v|v|v i m|v]; try (exfalso; apply Ha; unfold measured; eauto; fail); destruct b; cbn [gstep]; apply IH; now injection L.
Qed.
