(** The conditions of a tree come from the values met in training (C155). *)
From Coq Require Import String ZArith QArith Bool Lia Lqa Permutation List.
From Verif Require Import Base Spec BaseLemmas DblLemmas AttrModel AttrProofs InstanceListModel PartitionModel PerformanceModel ListSpec PartitionProofs
  TreeModel TreeSpec TreeProofs TreePredictProofs TreeGrowProofs EnsembleModel RenameProofs EnsembleProofs InvSpec TreeInvProofs TreeInvGrowProofs TreeInvGrowProofs BeyondSpec.
Import ListNotations.
Local Open Scope string_scope.
Local Open Scope list_scope.
Local Open Scope nat_scope.

(** where a condition comes from *)
Definition cond_met (data : list instance) (c : condition) : Prop :=
  exists j, c_index c = Z.of_nat j /\
    match c_value c with
    | Some (ADisc v) => met data j (ADisc v)
    | Some (AIdx _ i _) => i = (-1)%Z \/ exists s m, met data j (AIdx s i m)
    | Some (ACont (Fin q)) => exists u v, met data j (ACont (Fin u)) /\ met data j (ACont (Fin v)) /\ (u <= q)%Q /\ (q < v)%Q
    | _ => False
    end.
Inductive conds_met (data : list instance) : tree -> Prop :=
| conds_met_node lab leaf dist c ch : Forall (fun n => cond_met data (t_cond n)) ch -> Forall (conds_met data) ch -> conds_met data (Node lab leaf dist c ch).

Lemma met_incl l l' k a : incl l l' -> met l k a -> met l' k a.
Proof. intros H (x & Hx & E). exists x. split; [apply H, Hx|exact E]. Qed.
Lemma cond_met_incl l l' c : incl l l' -> cond_met l c -> cond_met l' c.
Proof.
  intros H (j & E & M). exists j. split; [exact E|]. destruct (c_value c) as [[v|v|s i m|[q| | |]]|]; try contradiction.
  - exact (met_incl _ _ _ _ H M).
  - destruct M as [M|(s' & m' & M)]; [left; exact M|right; exists s', m'; exact (met_incl _ _ _ _ H M)].
  - destruct M as (u & v & A & B & C). exists u, v. split; [exact (met_incl _ _ _ _ H A)|]. split; [exact (met_incl _ _ _ _ H B)|exact C].
Qed.
Lemma conds_met_incl l l' : incl l l' -> forall t, conds_met l t -> conds_met l' t.
Proof.
  intros H. induction t as [lab leaf d c ch IH] using tree_rect2; intros M. inversion M as [? ? ? ? ? A B]; subst. constructor.
  - eapply Forall_impl; [|exact A]. intros n. apply cond_met_incl, H.
  - rewrite Forall_forall in *. intros n Hn. apply (IH n Hn), (B n Hn).
Qed.
Lemma met_feature l x j a : In x l -> feature x (Z.of_nat j) a -> met l j a.
Proof. intros Hx (_ & E). rewrite Nat2Z.id in E. exists x. split; assumption. Qed.

(** * The conditions of a split *)
Lemma split_met shape data k v parts : tabular shape data -> data <> [] -> proper shape data k v -> split data k v = Ok parts -> Forall (fun p => cond_met data (fst p)) parts.
Proof.
  intros Ht Hne (j & -> & H) E. assert (HT : forall x, In x data -> typed shape x) by (apply Forall_forall, Ht).
  destruct H as [(m & w & A & -> & (x & Hx & C) & _)|[(A & _)|(A & q & x & y & -> & Hx & Hy & C & D)]].
  - destruct (split_spec shape data j _ (dofnat w) Ht Hne A) as (parts' & E' & _ & Ep); [exists w; reflexivity|]. rewrite E in E'. injection E' as <-. rewrite Ep. rewrite to_int_nat.
    repeat constructor; exists j; (split; [reflexivity|]); cbn [fst c_value]; [right|left; reflexivity]. destruct (typed_idx _ x _ _ (HT x Hx) A) as (s & F). rewrite C in F. exists s, m. exact (met_feature _ _ _ _ Hx F).
  - destruct (split_spec shape data j _ v Ht Hne A I) as (parts' & E' & _ & Ep). rewrite E in E'. injection E' as <-. rewrite Ep. apply Forall_forall. intros p Hp. apply in_map_iff in Hp as (w & <- & Hw). exists j. split; [reflexivity|]. cbn [fst c_value].
    apply push_new_in in Hw as [[]|Hw]. apply in_map_iff in Hw as (z & <- & Hz). exact (met_feature _ _ _ _ Hz (typed_disc _ z _ (HT z Hz) A)).
  - destruct (split_spec shape data j _ (Fin q) Ht Hne A) as (parts' & E' & _ & Ep); [reflexivity|]. rewrite E in E'. injection E' as <-. rewrite Ep.
    repeat constructor; exists j; (split; [reflexivity|]); cbn [fst c_value]; exists (colC (Z.of_nat j) x), (colC (Z.of_nat j) y);
      (split; [exact (met_feature _ _ _ _ Hx (typed_cont _ x _ (HT x Hx) A))|]); (split; [exact (met_feature _ _ _ _ Hy (typed_cont _ y _ (HT y Hy) A))|]); split; assumption.
Qed.

(** * The conditions of a whole tree *)
Section Grow.
  Context (entropy : counter -> dbl) (mid : dbl -> dbl -> dbl) (rarr : nat -> Z -> list nat) (shape : list kind).
  Hypothesis Hent : entropy_finite entropy.
  Hypothesis Hmid : mid_exact mid.
  Hypothesis Hrarr : rarr_perm rarr.
  Lemma build_met param stump : forall fuel data c t, tabular shape data -> build entropy mid rarr param stump fuel data c = Ok t -> conds_met data t /\ t_cond t = c.
  Proof.
    induction fuel as [|f IH]; intros data c t Ht E; [discriminate E|]. cbn [build] in E.
    assert (Hleaf : forall lab d, Ok (Node lab true d c []) = Ok t -> conds_met data t /\ t_cond t = c) by (intros lab d H; injection H as <-; split; [constructor; constructor|reflexivity]).
    destruct (length (distinct_labels data) =? 1); [exact (Hleaf _ _ E)|]. destruct (stump && negb (c_index c =? -1)%Z); [exact (Hleaf _ _ E)|].
    destruct data as [|x0 data1] eqn:Ed; [discriminate E|]. rewrite <- Ed in *. assert (Hne : data <> []) by (rewrite Ed; discriminate).
    destruct (search_ok entropy mid shape Hent Hmid rarr param data Hrarr Ht Hne) as (data' & b & Es & HP & Hb). rewrite Es in E. cbn [bind] in E.
    destruct (Z.eqb_spec (b_attr b) (-1)) as [Eb|Eb]; [exact (Hleaf _ _ E)|]. destruct Hb as [Hb|Hb]; [contradiction|].
    assert (Hne' : data' <> []) by (intros ->; apply Hne, Permutation_nil, Permutation_sym, HP). pose proof (tab_perm _ _ _ HP Ht) as Ht'.
    apply bind_ok in E as (parts & Esp & E). apply bind_ok in E as (ch & Ech & E). injection E as <-. split; [|reflexivity].
    destruct (split_proper shape data' _ _ Ht' Hne' Hb) as (parts' & Esp' & (P1 & _) & _ & _). rewrite Esp in Esp'. injection Esp' as <-. pose proof (split_met shape data' _ _ parts Ht' Hne' Hb Esp) as M.
    assert (I' : incl data' data) by (intros x Hx; apply (Permutation_in _ (Permutation_sym HP)), Hx).
    assert (Hin : forall p, In p parts -> incl (snd p) data) by (intros p Hp x Hx; apply I', (Permutation_in _ P1), in_concat; exists (snd p); split; [apply in_map, Hp|exact Hx]).
    assert (K : forall ps ts, incl ps parts -> mapM (fun p => build entropy mid rarr param stump f (snd p) (fst p)) ps = Ok ts -> Forall (fun n => cond_met data (t_cond n)) ts /\ Forall (conds_met data) ts).
    { induction ps as [|p ps IHp]; intros ts I E; cbn [mapM] in E; [injection E as <-; split; constructor|]. apply bind_ok in E as (t & Et & E). apply bind_ok in E as (ts' & Ets & E). injection E as <-.
      assert (Hp : In p parts) by (apply I; left; reflexivity). destruct (IH (snd p) (fst p) t (tab_incl _ _ _ (Hin p Hp) Ht) Et) as [C Ec]. destruct (IHp ts' ltac:(intros z Hz; apply I; right; exact Hz) Ets) as [A B]. split; constructor; try assumption.
      - rewrite Ec. apply (cond_met_incl data'); [exact I'|]. rewrite Forall_forall in M. exact (M p Hp).
      - exact (conds_met_incl _ _ (Hin p Hp) t C). }
    destruct (K parts ch (incl_refl _) Ech) as [A B]. constructor; assumption.
  Qed.
End Grow.
Lemma pruned_met data : forall t t', pruned t t' -> conds_met data t -> conds_met data t'.
Proof.
  induction t as [lab leaf d c ch IH] using tree_rect2; intros t' Hp M. inversion Hp as [? ? leaf' ? ? ? ch' _ Hch]; subst. inversion M as [? ? ? ? ? A B]; subst. clear Hp M.
  constructor; induction Hch as [|a b l l' H _ IHl]; try constructor; inversion IH; subst; inversion A; subst; inversion B; subst; auto. rewrite (pruned_cond _ _ H). assumption.
Qed.

(** * Queries *)
Lemma alike_get data x y k : alike data x y -> get_attr x (Z.of_nat k) = get_attr y (Z.of_nat k) \/ exists a b, get_attr x (Z.of_nat k) = Ok a /\ get_attr y (Z.of_nat k) = Ok b /\ beyond data k a b.
Proof.
  intros (_ & L & H). unfold get_attr, at_. destruct (Z.ltb_spec (Z.of_nat k) 0) as [N|_]; [lia|]. rewrite Nat2Z.id.
  destruct (nth_error (attrs x) k) as [a|] eqn:Ea; destruct (nth_error (attrs y) k) as [b|] eqn:Eb.
  - destruct (H k a b Ea Eb) as [->|B]; [left; reflexivity|right; exists a, b; auto].
  - apply nth_error_None in Eb. assert (k < length (attrs x)) by (apply nth_error_Some; congruence). lia.
  - apply nth_error_None in Ea. assert (k < length (attrs y)) by (apply nth_error_Some; congruence). lia.
  - left. reflexivity.
Qed.
Lemma below_side p u q : dleb p (Fin u) = true -> (u <= q)%Q -> dleb p (Fin q) = true /\ dgtb p (Fin q) = false.
Proof.
  unfold dgtb. destruct p as [p| | |]; intros H L; try discriminate H; try (split; reflexivity). apply dleb_fin in H. split; [apply dleb_fin; lra|]. destruct (dltb (Fin q) (Fin p)) eqn:E; [|reflexivity]. apply dltb_fin in E. lra.
Qed.
Lemma above_side p v q : dleb (Fin v) p = true -> (q < v)%Q -> dleb p (Fin q) = false /\ dgtb p (Fin q) = true.
Proof.
  unfold dgtb. destruct p as [p| | |]; intros H L; try discriminate H; try (split; reflexivity). apply dleb_fin in H. split; [|apply dltb_fin; lra]. destruct (dleb (Fin p) (Fin q)) eqn:E; [|reflexivity]. apply dleb_fin in E. lra.
Qed.
Lemma alike_satisfy data c x y : alike data x y -> cond_met data c -> satisfy c x = satisfy c y.
Proof.
  intros A (j & Ej & M). unfold satisfy, index_at, disc_at, cont_at. rewrite Ej. destruct (alike_get data x y j A) as [->|(a & b & -> & -> & B)]; [reflexivity|]. cbn [bind].
  destruct (c_value c) as [[v|v|s i m|[q| | |]]|]; try contradiction.
  - destruct B as [(p & p' & -> & -> & _)|[(s & s' & -> & -> & N & N')|(s & i & m & s' & i' & m' & -> & -> & H)]]; [reflexivity| |].
    + cbn. destruct (String.eqb_spec s v) as [->|_]; [contradiction|]. destruct (String.eqb_spec s' v) as [->|_]; [contradiction|reflexivity].
    + destruct (H _ M) as (? & ? & ? & D & _). discriminate D.
  - destruct (Z.eqb_spec i (-1)) as [Hi|Hi]; [reflexivity|]. destruct M as [M|(s0 & m0 & M)]; [contradiction|]. destruct B as [(p & p' & -> & -> & _)|[(t & t' & -> & -> & N & N')|(t & n & l & t' & n' & l' & -> & -> & H)]]; [reflexivity|reflexivity|].
    destruct (H _ M) as (? & ? & ? & D & N & N'). injection D as <- <- <-. cbn. destruct (Z.eqb_spec n i) as [->|_]; [contradiction|]. destruct (Z.eqb_spec n' i) as [->|_]; [contradiction|reflexivity].
  - destruct M as (u & v & Mu & Mv & Lu & Lv). destruct B as [(p & p' & -> & -> & B)|[(t & t' & -> & -> & _)|(t & n & l & t' & n' & l' & -> & -> & _)]]; [|reflexivity|reflexivity]. cbn [cont_value bind].
    destruct B as [[B B']|[B B']].
    + destruct (below_side p u q (B u Mu) Lu) as [-> ->]. destruct (below_side p' u q (B' u Mu) Lu) as [-> ->]. reflexivity.
    + destruct (above_side p v q (B v Mv) Lv) as [-> ->]. destruct (above_side p' v q (B' v Mv) Lv) as [-> ->]. reflexivity.
Qed.
Lemma same_pick ch x y : Forall (fun n => satisfy (t_cond n) x = satisfy (t_cond n) y) ch -> pick ch x = pick ch y.
Proof. induction 1 as [|n ch E _ IH]; [reflexivity|]. cbn [pick]. rewrite E, IH. reflexivity. Qed.
Lemma pick_in : forall ch x n, pick ch x = Ok (Some n) -> In n ch.
Proof. induction ch as [|m ch IH]; intros x n E; cbn [pick] in E; [discriminate E|]. destruct (satisfy (t_cond m) x) as [[|]| | |]; cbn [bind] in E; try discriminate E; [injection E as ->; left; reflexivity|right; exact (IH x n E)]. Qed.
Lemma node_alike mi data : forall t x y, conds_met data t -> alike data x y -> node_predict mi t x = node_predict mi t y /\ node_probability t x = node_probability t y.
Proof.
  induction t as [lab leaf d c ch IH] using tree_rect2. intros x y M A. pose proof (proj1 A) as C. inversion M as [? ? ? ? ? Mc Mt]; subst.
  assert (C1 : isComposite x = isComposite y) by (unfold isComposite; rewrite C; reflexivity).
  assert (PL : isComposite x = true -> possible_labels x = possible_labels y) by (unfold isComposite, possible_labels; rewrite C; destruct (composite y); [reflexivity|discriminate]). destruct leaf.
  - split; [|reflexivity]. cbn [node_predict]. rewrite <- C1. destruct (isComposite x); [rewrite PL|]; reflexivity.
  - assert (E : pick ch x = pick ch y) by (apply same_pick; eapply Forall_impl; [|exact Mc]; intros n; apply alike_satisfy, A). rewrite !probability_pick, E. rewrite Forall_forall in IH, Mt.
    assert (K : forall n, pick ch y = Ok (Some n) -> node_predict mi n x = node_predict mi n y /\ node_probability n x = node_probability n y) by (intros n En; apply pick_in in En; apply (IH n En); [exact (Mt n En)|exact A]).
    destruct (isComposite x) eqn:Ex.
    + rewrite (predict_composite mi _ _ _ _ _ Ex), (predict_composite mi _ _ _ _ _ (eq_sym C1)), E, PL by reflexivity. destruct (pick ch y) as [[n|]| | |]; cbn [bind]; try (split; reflexivity). destruct (K n eq_refl) as [-> ->]. split; reflexivity.
    + rewrite (predict_plain mi _ _ _ _ _ Ex), (predict_plain mi _ _ _ _ _ (eq_sym C1)), E. destruct (pick ch y) as [[n|]| | |]; cbn [bind]; try (split; reflexivity). exact (K n eq_refl).
Qed.
Lemma tree_alike mi data t x y : conds_met data t -> alike data x y -> tree_predict mi t x = tree_predict mi t y /\ node_probability t x = node_probability t y.
Proof.
  intros M A. destruct (node_alike mi data t x y M A) as [E1 E2]. split; [|exact E2]. pose proof (proj1 A) as C. unfold tree_predict, isComposite, possible_labels. rewrite E1, C. destruct (composite y); [reflexivity|]. apply bind_ext. intros p. rewrite !andb_false_r. reflexivity.
Qed.
