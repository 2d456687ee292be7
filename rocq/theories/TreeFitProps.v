(** Property C127: an unpruned tree classifies its training data when one feature tells the classes apart. *)
From Coq Require Import String ZArith QArith Bool Lia Permutation Sorted Lqa List.
From Verif Require Import Base Spec BaseLemmas DblLemmas AttrModel InstanceListModel PartitionModel PerformanceModel
  ListSpec ListProofs PartitionProofs PerformanceProofs TreeModel TreeSpec TreeProofs TreeGrowProofs TreePredictProofs TreeProps EnsembleModel EnsembleProofs EnsembleProps
  TreeBestSpec TreeBestProofs TreeBestProps.
Import ListNotations.
Local Open Scope string_scope.
Local Open Scope list_scope.
Local Open Scope nat_scope.

(** * Vocabulary *)
(** Feature [k] tells the classes of [data] apart: instances with the same value there have the same label.  The indices of
    an indexed feature lie in its declared range. *)
Definition tells_apart (shape : list kind) (k : nat) (data : list instance) : Prop :=
  match nth_error shape k with
  | Some KCont => forall x y p q, In x data -> In y data -> nth_error (attrs x) k = Some (ACont (Fin p)) -> nth_error (attrs y) k = Some (ACont (Fin q)) ->
                    (p == q)%Q -> label x = label y
  | Some KDisc => forall x y v, In x data -> In y data -> nth_error (attrs x) k = Some (ADisc v) -> nth_error (attrs y) k = Some (ADisc v) -> label x = label y
  | Some (KIdx m) =>
      (forall x s i m', In x data -> nth_error (attrs x) k = Some (AIdx s i m') -> (0 <= i < Z.of_nat m)%Z) /\
      (forall x y s s' i m1 m2, In x data -> In y data -> nth_error (attrs x) k = Some (AIdx s i m1) -> nth_error (attrs y) k = Some (AIdx s' i m2) -> label x = label y)
  | _ => False
  end.
(** all elements alike *)
Definition pure (l : list string) : Prop := forall a b, In a l -> In b l -> a = b.
(** Contract of DiscreteDistribution::entropy (Math): zero for one class, positive for several, and cutting off instances of a
    single class lowers the average. *)
Definition hval (entropy : counter -> dbl) (l : list string) : Q := match entropy (cofl l) with Fin q => q | _ => 0%Q end.
Definition entropy_proper (entropy : counter -> dbl) : Prop :=
  (forall l, l <> [] -> pure l -> hval entropy l == 0)%Q /\
  (forall l, l <> [] -> ~ pure l -> 0 < hval entropy l)%Q /\
  (forall l1 l2, l1 <> [] -> l2 <> [] -> pure l1 -> ~ pure (l1 ++ l2) ->
     qofn (length l2) * hval entropy l2 < qofn (length (l1 ++ l2)) * hval entropy (l1 ++ l2))%Q.

(** * Proof *)
Section Fit.
  Context (entropy : counter -> dbl) (shape : list kind) (allowed : nat -> Prop).
  Hypothesis Hent : entropy_proper entropy.

  Lemma impurity_hval l : impurity entropy l = hval entropy (map label l).
  Proof. reflexivity. Qed.
  Lemma pure_dec l : {pure l} + {~ pure l}.
  Proof.
    destruct l as [|a l]; [left; intros b c []|]. destruct (forallb (String.eqb a) l) eqn:E.
    - left. rewrite forallb_forall in E. assert (forall b, In b (a :: l) -> b = a) as H.
      { intros b [<-|Hb]; [reflexivity|]. symmetry. apply String.eqb_eq, E, Hb. }
      intros b c Hb Hc. rewrite (H b Hb), (H c Hc). reflexivity.
    - right. intros Hp. enough (forallb (String.eqb a) l = true) by congruence. apply forallb_forall. intros b Hb.
      apply String.eqb_eq, Hp; [left; reflexivity|right; exact Hb].
  Qed.
  Lemma hval_perm l l' : Permutation l l' -> hval entropy l = hval entropy l'.
  Proof. intros HP. unfold hval. rewrite (cofl_perm _ _ HP). reflexivity. Qed.
  Lemma pure_perm l l' : Permutation l l' -> pure l -> pure l'.
  Proof. intros HP H a b Ha Hb. apply H; eapply Permutation_in; try eassumption; apply Permutation_sym, HP. Qed.
  Lemma filter_split {A} (f : A -> bool) l : Permutation (filter f l ++ filter (fun x => negb (f x)) l) l.
  Proof.
    induction l as [|x l IH]; [constructor|]. cbn [filter]. destruct (f x); cbn [negb app]; [constructor; exact IH|].
    apply Permutation_sym. eapply perm_trans; [|apply Permutation_middle]. constructor. apply Permutation_sym, IH.
  Qed.
  (** cutting off a pure part *)
  Lemma cut_lowers (f : instance -> bool) data : ~ pure (map label data) -> pure (map label (filter f data)) -> filter f data <> [] ->
    (split_impurity entropy data [filter f data; filter (fun x => negb (f x)) data] < impurity entropy data)%Q.
  Proof.
    intros Hmix Hp Hne. pose proof (filter_split f data) as HP. set (g1 := filter f data) in *. set (g2 := filter (fun x => negb (f x)) data) in *.
    pose proof (Permutation_map label HP) as HPm. rewrite map_app in HPm.
    assert (g2 <> []) as Hne2.
    { intros E. rewrite E in HPm. cbn [map] in HPm. rewrite app_nil_r in HPm. apply Hmix. exact (pure_perm _ _ HPm Hp). }
    destruct Hent as (E1 & _ & E3).
    assert (map label g1 <> []) as N1 by (intros E; apply map_eq_nil in E; contradiction).
    assert (map label g2 <> []) as N2 by (intros E; apply map_eq_nil in E; contradiction).
    assert (~ pure (map label g1 ++ map label g2)) as Hmix' by (intros H; apply Hmix; exact (pure_perm _ _ HPm H)).
    specialize (E3 _ _ N1 N2 Hp Hmix'). specialize (E1 _ N1 Hp). rewrite (hval_perm _ _ HPm), (Permutation_length HPm), !map_length in E3.
    unfold split_impurity. cbn [map qsum fold_right]. rewrite !impurity_hval.
    assert (0 < qofn (length data))%Q as Hn.
    { apply qofn_pos. destruct data; [|simpl; lia]. exfalso. apply Hne. reflexivity. }
    set (n := qofn (length data)) in *. set (n2 := qofn (length g2)) in *. set (h2 := hval entropy (map label g2)) in *. set (h := hval entropy (map label data)) in *.
    set (h1 := hval entropy (map label g1)) in *. set (n1 := qofn (length g1)) in *. clearbody n n2 h2 h h1 n1.
    apply Qle_lt_trans with (n2 * h2 / n)%Q.
    - rewrite E1. apply Qle_lteq. right. field. intros E. rewrite E in Hn. inversion Hn.
    - apply Qlt_shift_div_r; [exact Hn|]. rewrite (Qmult_comm h n). exact E3.
  Qed.
  Lemma col x k kd : typed shape x -> nth_error shape k = Some kd -> exists a, nth_error (attrs x) k = Some a /\ has_kind kd a.
  Proof.
    unfold typed. intros H. revert k. induction H as [|s a sh at' Hsa _ IH]; intros [|k] E; try discriminate E; [|exact (IH k E)].
    injection E as <-. exists a. split; [reflexivity|exact Hsa].
  Qed.
  (** a smallest value of a continuous column *)
  Lemma least k data : tabular shape data -> data <> [] -> nth_error shape k = Some KCont ->
    exists x q, In x data /\ nth_error (attrs x) k = Some (ACont (Fin q)) /\
      forall y p, In y data -> nth_error (attrs y) k = Some (ACont (Fin p)) -> (q <= p)%Q.
  Proof.
    intros Ht Hne Hk. induction Ht as [|x l Hx Hl IH]; [contradiction|].
    assert (exists q, nth_error (attrs x) k = Some (ACont (Fin q))) as (q & Hq).
    { destruct (col x k KCont Hx Hk) as (a & Ha & (q & ->)). exists q. exact Ha. }
    destruct l as [|y l].
    - exists x, q. split; [left; reflexivity|]. split; [exact Hq|]. intros y p [<-|[]] Hp. rewrite Hq in Hp. injection Hp as <-. apply Qle_refl.
    - destruct IH as (z & r & Hz & Hr & Hmin); [discriminate|]. destruct (Qlt_le_dec r q) as [Hlt|Hle].
      + exists z, r. split; [right; exact Hz|]. split; [exact Hr|]. intros w p [<-|Hw] Hp; [|exact (Hmin w p Hw Hp)].
        rewrite Hq in Hp. injection Hp as <-. lra.
      + exists x, q. split; [left; reflexivity|]. split; [exact Hq|]. intros w p [<-|Hw] Hp.
        * rewrite Hq in Hp. injection Hp as <-. apply Qle_refl.
        * pose proof (Hmin w p Hw Hp). lra.
  Qed.
  (** a node that stops has one class *)
  Lemma stop_pure k data : tabular shape data -> data <> [] -> allowed k -> tells_apart shape k data ->
    none_below entropy shape allowed data (impurity entropy data) -> pure (map label data).
  Proof.
    intros Ht Hne Ha Hk Hno. destruct (pure_dec (map label data)) as [H|Hmix]; [exact H|exfalso]. unfold tells_apart in Hk.
    destruct (nth_error shape k) as [[| |m|]|] eqn:Ek; try contradiction.
    - set (value := fun x => match nth_error (attrs x) k with Some (ADisc v) => v | _ => "" end).
      set (vs := nodup string_dec (map value data)).
      assert (candidate shape allowed data k (map (fun v => filter (has_text k v) data) vs)) as Hc.
      { apply cand_values; [exact Ha|exact Ek|apply NoDup_nodup|]. intros v. unfold vs. rewrite nodup_In, in_map_iff. split.
        - intros (x & <- & Hx). exists x. split; [exact Hx|]. destruct (col x k KDisc (proj1 (Forall_forall _ _) Ht x Hx) Ek) as (a & Hax & (w & ->)).
          unfold has_text, value. rewrite Hax. apply String.eqb_refl.
        - intros (x & Hx & Hv). exists x. split; [|exact Hx]. unfold has_text in Hv. unfold value.
          destruct (nth_error (attrs x) k) as [[w| |? ? ?|?]|]; try discriminate Hv. apply String.eqb_eq, Hv. }
      specialize (Hno k _ Hc). destruct Hent as (E1 & E2 & _).
      assert (0 < impurity entropy data)%Q as Hpos by (apply E2; [intros E; apply map_eq_nil in E; contradiction|exact Hmix]).
      enough (split_impurity entropy data (map (fun v => filter (has_text k v) data) vs) == 0)%Q by lra.
      unfold split_impurity. rewrite map_map. assert (forall v, In v vs -> (impurity entropy (filter (has_text k v) data) == 0)%Q) as Hz.
      { intros v Hv. apply E1.
        - unfold vs in Hv. rewrite nodup_In, in_map_iff in Hv. destruct Hv as (x & <- & Hx). intros E. apply map_eq_nil in E.
          assert (In x (filter (has_text k (value x)) data)) as Hin; [|rewrite E in Hin; exact Hin].
          apply filter_In. split; [exact Hx|]. destruct (col x k KDisc (proj1 (Forall_forall _ _) Ht x Hx) Ek) as (a & Hax & (w & ->)).
          unfold has_text, value. rewrite Hax. apply String.eqb_refl.
        - intros a b Ha' Hb. apply in_map_iff in Ha'. destruct Ha' as (x & <- & Hx). apply in_map_iff in Hb. destruct Hb as (y & <- & Hy).
          apply filter_In in Hx, Hy. destruct Hx as (Hx & Vx), Hy as (Hy & Vy). unfold has_text in Vx, Vy.
          destruct (nth_error (attrs x) k) as [[w| |? ? ?|?]|] eqn:Ex; try discriminate Vx.
          destruct (nth_error (attrs y) k) as [[w'| |? ? ?|?]|] eqn:Ey; try discriminate Vy.
          apply String.eqb_eq in Vx, Vy. subst w w'. exact (Hk x y v Hx Hy Ex Ey). }
      clear - Hz. induction vs as [|v vs IH]; [reflexivity|]. cbn [map qsum fold_right]. change (fold_right Qplus 0%Q) with qsum.
      rewrite IH by (intros w Hw; apply Hz; right; exact Hw). rewrite (Hz v (or_introl eq_refl)). ring.
    - destruct Hk as (Hrange & Hsame). destruct data as [|x0 data0] eqn:Ed; [contradiction|]. rewrite <- Ed in *.
      assert (In x0 data) as Hx0 by (rewrite Ed; left; reflexivity).
      destruct (col x0 k (KIdx m) (proj1 (Forall_forall _ _) Ht x0 Hx0) Ek) as (a & Hax & (s & i & ->)).
      pose proof (Hrange x0 s i m Hx0 Hax) as Hi.
      assert (candidate shape allowed data k [filter (has_index k (Z.to_nat i)) data; filter (fun x => negb (has_index k (Z.to_nat i) x)) data]) as Hc
        by (apply cand_index with m; [exact Ha|exact Ek|lia]).
      specialize (Hno k _ Hc). refine (Qlt_irrefl (impurity entropy data) (Qle_lt_trans _ _ _ Hno (cut_lowers _ data Hmix _ _))).
      + intros c d Hc' Hd. apply in_map_iff in Hc'. destruct Hc' as (x & <- & Hx). apply in_map_iff in Hd. destruct Hd as (y & <- & Hy).
        apply filter_In in Hx, Hy. destruct Hx as (Hx & Vx), Hy as (Hy & Vy). unfold has_index in Vx, Vy.
        destruct (nth_error (attrs x) k) as [[w|?|s1 i1 m1|?]|] eqn:Ex; try discriminate Vx.
        destruct (nth_error (attrs y) k) as [[w'|?|s2 i2 m2|?]|] eqn:Ey; try discriminate Vy.
        apply Z.eqb_eq in Vx, Vy. subst i1 i2. exact (Hsame x y s1 s2 _ m1 m2 Hx Hy Ex Ey).
      + intros E. assert (In x0 (filter (has_index k (Z.to_nat i)) data)) as Hin; [|rewrite E in Hin; exact Hin].
        apply filter_In. split; [exact Hx0|]. unfold has_index. rewrite Hax. apply Z.eqb_eq. lia.
    - destruct (least k data Ht Hne Ek) as (x0 & q & Hx0 & Hq & Hmin).
      assert (candidate shape allowed data k [filter (at_most k q) data; filter (fun x => negb (at_most k q x)) data]) as Hc by (apply cand_cut; assumption).
      specialize (Hno k _ Hc). refine (Qlt_irrefl (impurity entropy data) (Qle_lt_trans _ _ _ Hno (cut_lowers _ data Hmix _ _))).
      + intros c d Hc' Hd. apply in_map_iff in Hc'. destruct Hc' as (x & <- & Hx). apply in_map_iff in Hd. destruct Hd as (y & <- & Hy).
        apply filter_In in Hx, Hy. destruct Hx as (Hx & Vx), Hy as (Hy & Vy). unfold at_most in Vx, Vy.
        destruct (nth_error (attrs x) k) as [[w|?|? ? ?|[px| | |]]|] eqn:Ex; try discriminate Vx.
        destruct (nth_error (attrs y) k) as [[w'|?|? ? ?|[py| | |]]|] eqn:Ey; try discriminate Vy.
        apply Qle_bool_iff in Vx, Vy. apply (Hk x y px py Hx Hy Ex Ey). pose proof (Hmin x px Hx Ex). pose proof (Hmin y py Hy Ey). lra.
      + intros E. assert (In x0 (filter (at_most k q) data)) as Hin; [|rewrite E in Hin; exact Hin].
        apply filter_In. split; [exact Hx0|]. unfold at_most. rewrite Hq. apply Qle_bool_iff, Qle_refl.
  Qed.
  Lemma tells_incl k data data' : incl data' data -> tells_apart shape k data -> tells_apart shape k data'.
  Proof.
    intros Hi. unfold tells_apart. destruct (nth_error shape k) as [[| |m|]|]; auto.
    - intros H x y v Hx Hy. apply H; apply Hi; assumption.
    - intros (H1 & H2). split; [intros x s i m' Hx; apply H1, Hi, Hx|intros x y s s' i m1 m2 Hx Hy; apply H2; apply Hi; assumption].
    - intros H x y p q Hx Hy. apply H; apply Hi; assumption.
  Qed.
  Lemma candidate_incl data k gs : candidate shape allowed data k gs -> Forall (fun g => incl g data) gs.
  Proof.
    assert (forall f : instance -> bool, incl (filter f data) data) as H by (intros f x Hx; apply filter_In in Hx; exact (proj1 Hx)).
    intros [k' m w _ _ _|k' vs _ _ _ _|k' t _ _]; [repeat constructor; apply H| |repeat constructor; apply H].
    apply Forall_forall. intros g Hg. apply in_map_iff in Hg. destruct Hg as (v & <- & _). apply H.
  Qed.
  Lemma nth_right {A B} (R : A -> B -> Prop) l l' i b : Forall2 R l l' -> nth_error l' i = Some b -> exists a, nth_error l i = Some a /\ R a b.
  Proof. exact (nth_left R l l' i b). Qed.
  (** the tree gives every training instance its label *)
  Lemma fit max_item k : allowed k -> forall t data data2, greedy entropy shape allowed data t -> grown data2 t -> fits_tree shape t -> incl data data2 -> incl data2 data ->
    tabular shape data -> tells_apart shape k data -> Forall (fun x => isComposite x = false) data ->
    forall x, In x data -> node_predict max_item t x = Ok (label x).
  Proof.
    intros Ha. induction t as [lab leaf d c ch IH] using tree_rect2; intros data data2 Hg Hgr Hf H12 H21 Ht Hk Hpl x Hx.
    pose proof (proj1 (Forall_forall _ _) Hpl x Hx) as Hplx. pose proof (proj1 (Forall_forall _ _) Ht x Hx) as Htx.
    assert (data <> []) as Hne by (intros E; rewrite E in Hx; exact Hx).
    assert (forall lab d c, pure (map label data) -> grown data2 (Node lab true d c []) -> node_predict max_item (Node lab true d c []) x = Ok (label x)) as Hleaf.
    { intros lab' d' c' Hp Hg'. rewrite predict_leaf_plain by exact Hplx. f_equal.
      inversion Hg' as [? ? ? ? [Hin _] _|]; subst. apply Hp; [|apply in_map; exact Hx].
      apply in_map_iff in Hin. destruct Hin as (y & <- & Hy). apply in_map, H21, Hy. }
    destruct Hg as [Hg]. inversion Hg as [? ? ? Hp|? ? ? Hno|? ? ? data' k' gs ? HP Hc _ _ _ Hroute Hsub]; subst.
    - apply Hleaf; [|exact Hgr]. intros a b Ha' Hb. apply in_map_iff in Ha'. destruct Ha' as (y & <- & Hy). apply in_map_iff in Hb. destruct Hb as (z & <- & Hz). exact (Hp y z Hy Hz).
    - apply Hleaf; [|exact Hgr]. exact (stop_pure k data Ht Hne Ha Hk Hno).
    - inversion Hgr as [|? ? ? ? groups ? _ _ _ HPg _ Hrg Hchg]; subst.
      inversion Hf as [? ? ? ? ? Hcf Hft]; subst.
      assert (In x (concat groups)) as Hxg by (eapply Permutation_in; [apply Permutation_sym, HPg|apply H12, Hx]).
      apply in_concat in Hxg. destruct Hxg as (g & Hgin & Hxg). destruct (In_nth_error _ _ Hgin) as (i & Hi).
      pose proof (proj1 (Hrg i g x Hi (H12 _ Hx)) Hxg) as Hr.
      destruct (pick_routed shape ch x Htx Hcf i Hr) as (n & Hn & Ep).
      rewrite predict_plain by exact Hplx. rewrite Ep. cbn [bind].
      destruct (nth_left _ _ _ i n Hsub Hn) as (gi & Hgi & Hgreedy). destruct (nth_left _ _ _ i n Hchg Hn) as (gi' & Hgi' & Hgrown).
      assert (gi' = g) as -> by congruence.
      assert (incl gi data) as Hincl.
      { intros y Hy. apply (Permutation_in y (Permutation_sym HP)). exact (proj1 (Forall_forall _ _) (candidate_incl _ _ _ Hc) gi (nth_error_In _ _ Hgi) y Hy). }
      assert (incl g data) as Hincl'.
      { intros y Hy. apply H21. apply (Permutation_in y HPg). apply in_concat. exists g. split; assumption. }
      refine (proj1 (Forall_forall _ _) IH n (nth_error_In _ _ Hn) gi g Hgreedy Hgrown _ _ _ _ _ _ x _).
      + exact (proj1 (Forall_forall _ _) Hft n (nth_error_In _ _ Hn)).
      + intros y Hy. apply (Hrg i g y Hi (H12 _ (Hincl y Hy))). apply (Hroute i gi y Hgi (Hincl y Hy)), Hy.
      + intros y Hy. apply (Hroute i gi y Hgi (Hincl' y Hy)). apply (Hrg i g y Hi (H12 _ (Hincl' y Hy))), Hy.
      + apply Forall_forall. intros y Hy. exact (proj1 (Forall_forall _ _) Ht y (Hincl y Hy)).
      + exact (tells_incl k data gi Hincl Hk).
      + apply Forall_forall. intros y Hy. exact (proj1 (Forall_forall _ _) Hpl y (Hincl y Hy)).
      + apply (Hroute i gi x Hgi Hx), Hr.
  Qed.
End Fit.

(** * C127 *)
(** If one feature tells the classes apart, an unpruned tree gives every training instance its own label. *)
Theorem C127_fits : forall max_item entropy mid rarr ratio seed shape data k,
  entropy_finite entropy -> entropy_proper entropy -> mid_exact mid -> rarr_perm rarr -> tabular shape data -> data <> [] ->
  Forall (fun x => isComposite x = false) data -> tells_apart shape k data ->
  exists t, tree_train max_item entropy mid rarr false ratio seed (length data) data = Ok t /\
    forall x, In x data -> tree_predict max_item t x = Ok (label x).
Proof.
  intros max_item entropy mid rarr ratio seed shape data k He Hp Hm Hr Ht Hne Hpl Hk.
  destruct (build_ok entropy mid rarr shape He Hm Hr None false (length data) data no_condition Ht Hne (le_n _)) as (t & E & G & _ & F).
  exists t. split; [exact E|]. intros x Hx. rewrite tree_predict_plain by exact (proj1 (Forall_forall _ _) Hpl x Hx).
  pose proof (build_greedy entropy mid shape He Hm rarr None Hr (length data) data no_condition t Ht Hne E) as Hg.
  refine (fit entropy shape _ Hp max_item k _ t data data Hg G F (incl_refl _) (incl_refl _) Ht Hk Hpl x Hx).
  cbn [looked_at]. unfold tells_apart in Hk. destruct (nth_error shape k) eqn:Ek; [|contradiction]. apply nth_error_Some. congruence.
Qed.
(** Bagging and random forests: every tree knows the instances of its own sample, if the telling feature is among those it looks at. *)
Theorem C127_forest : forall max_item entropy mid rarr pick param size shape data k forest,
  entropy_finite entropy -> entropy_proper entropy -> mid_exact mid -> rarr_perm rarr -> draws pick -> tabular shape data -> data <> [] ->
  Forall (fun x => isComposite x = false) data -> tells_apart shape k data -> looked_at rarr param (length shape) k ->
  ensemble_train entropy mid rarr pick param size (length data) [] data = Ok forest ->
  forall i t j x, nth_error forest i = Some t -> In j (pick (Z.of_nat i) (length data)) -> nth_error data j = Some x ->
    tree_predict max_item t x = Ok (label x).
Proof.
  intros max_item entropy mid rarr pick param size shape data k forest He Hp Hm Hr Hd Ht Hne Hpl Hk Hl E i t j x Hi Hj Hx.
  unfold ensemble_train in E. apply bind_ok in E. destruct E as (ts & E & H). injection H as <-. apply mapM_ok in E. cbn [app] in Hi.
  destruct (nth_left _ _ _ i t E Hi) as (i' & Hi' & Hb).
  assert (i' = i) as ->.
  { pose proof (nth_error_nth _ _ 0 Hi') as H. rewrite seq_nth in H; [lia|]. rewrite <- (seq_length size 0). apply nth_error_Some. congruence. }
  destruct (Hd (Z.of_nat i) (length data)) as [Hlen Hf]. set (sample := bootstrap pick (Z.of_nat i) data) in *.
  assert (incl sample data) as Hs by (unfold sample, bootstrap; apply rearrange_incl).
  assert (In x sample) as Hxs.
  { unfold sample, bootstrap, rearrange. apply in_flat_map. exists j. split; [exact Hj|]. rewrite Hx. left. reflexivity. }
  assert (length sample = length data) as Hsl by (unfold sample, bootstrap; rewrite rearrange_length by exact Hf; exact Hlen).
  assert (sample <> []) as Hsne by (intros Eb; rewrite Eb in Hxs; exact Hxs).
  pose proof (tab_incl _ _ _ Hs Ht) as Hts.
  destruct (build_ok entropy mid rarr shape He Hm Hr param false (length data) sample no_condition Hts Hsne) as (t' & E' & G & _ & F); [lia|].
  assert (t' = t) as -> by congruence.
  pose proof (build_greedy entropy mid shape He Hm rarr param Hr (length data) sample no_condition t Hts Hsne E') as Hg.
  assert (Forall (fun x => isComposite x = false) sample) as Hps by (apply Forall_forall; intros y Hy; exact (proj1 (Forall_forall _ _) Hpl y (Hs y Hy))).
  rewrite tree_predict_plain by exact (proj1 (Forall_forall _ _) Hps x Hxs).
  exact (fit entropy shape _ Hp max_item k Hl t sample sample Hg G F (incl_refl _) (incl_refl _) Hts (tells_incl shape k _ _ Hs Hk) Hps x Hxs).
Qed.

(** ** The contract can be met: Gini impurity, and the entropy of the examples *)
Definition sumsq (c : counter) : nat := fold_right (fun kv s => snd kv * snd kv + s) 0 c.
Definition gini (c : counter) : dbl := Fin (1 - qofn (sumsq c) / (qofn (csum c) * qofn (csum c))).
Lemma sumsq_mset k n c : msorted c -> sumsq (mset k n c) + ccount c k * ccount c k = sumsq c + n * n.
Proof.
  unfold msorted, ccount; induction c as [|[k' n'] c IH]; simpl; intros H; [lia|].
  apply StronglySorted_inv in H as [H1 H2]. destruct (String.compare k k') eqn:E; simpl.
  - apply scompare_eq in E; subst. rewrite String.eqb_refl; lia.
  - destruct (String.eqb_spec k k') as [->|Hk]; [exfalso; exact (slt_irrefl _ E)|].
    assert (mfind k c = None) as ->; [|lia]. apply mfind_none. intros Hin. rewrite Forall_forall in H2.
    apply (slt_irrefl k). eapply slt_trans; [exact E|auto].
  - apply sgt_slt, slt_neq in E. destruct (String.eqb_spec k k'); [congruence|]. specialize (IH H1); lia.
Qed.
Lemma sumsq_cons a l : sumsq (cofl (a :: l)) = sumsq (cofl l) + 2 * count_occ string_dec l a + 1.
Proof.
  rewrite (cofl_perm (a :: l) (l ++ [a]) (Permutation_cons_append l a)), cofl_app. unfold cput.
  pose proof (sumsq_mset a (S (ccount (cofl l) a)) (cofl l) (cofl_sorted l)) as H. rewrite ccount_cofl in *. lia.
Qed.
Lemma sumsq_block a m l : sumsq (cofl (repeat a m ++ l)) = sumsq (cofl l) + 2 * m * count_occ string_dec l a + m * m.
Proof.
  induction m as [|m IH]; [cbn [repeat app]; lia|]. cbn [repeat app]. rewrite sumsq_cons, IH, count_occ_app, count_occ_repeat_eq by reflexivity. lia.
Qed.
Lemma sumsq_least a l : count_occ string_dec l a * count_occ string_dec l a <= sumsq (cofl l).
Proof.
  induction l as [|b l IH]; [cbn; lia|]. rewrite sumsq_cons. cbn [count_occ]. destruct (string_dec b a) as [->|]; lia.
Qed.
Lemma pure_repeat a l : pure (a :: l) -> a :: l = repeat a (length (a :: l)).
Proof.
  intros H. assert (forall b, In b l -> b = a) as Hb by (intros b Hb; apply H; [right; exact Hb|left; reflexivity]). clear H. cbn [length repeat]. f_equal.
  induction l as [|b l IH]; [reflexivity|]. cbn [length repeat]. rewrite (Hb b (or_introl eq_refl)) at 1. f_equal. apply IH. intros c Hc. apply Hb. right. exact Hc.
Qed.
Lemma occ_less a l : (exists b, In b l /\ b <> a) -> count_occ string_dec l a < length l.
Proof.
  intros (b & Hb & Hn). induction l as [|c l IH]; [destruct Hb|]. cbn [count_occ length]. destruct Hb as [<-|Hb].
  - destruct (string_dec c a); [contradiction|]. pose proof (count_occ_bound string_dec a l). lia.
  - specialize (IH Hb). destruct (string_dec c a); lia.
Qed.
Lemma sumsq_most l : sumsq (cofl l) <= length l * length l.
Proof. induction l as [|a l IH]; [cbn; lia|]. rewrite sumsq_cons. cbn [length]. pose proof (count_occ_bound string_dec a l). lia. Qed.
Lemma not_pure a l : ~ pure (a :: l) -> exists b, In b l /\ b <> a.
Proof.
  intros H. destruct (Exists_dec (fun b => b <> a) l (fun b => match string_dec b a with left e => right (fun n => n e) | right n => left n end)) as [He|Hn].
  - apply Exists_exists in He. destruct He as (b & Hb & Hne). exists b. split; assumption.
  - exfalso. apply H. assert (forall b, In b (a :: l) -> b = a) as Hall.
    { intros b [<-|Hb]; [reflexivity|]. destruct (string_dec b a) as [E|E]; [exact E|]. exfalso. apply Hn, Exists_exists. exists b. split; assumption. }
    intros b c Hb Hc. rewrite (Hall b Hb), (Hall c Hc). reflexivity.
Qed.
Lemma hval_gini l : (hval gini l == 1 - qofn (sumsq (cofl l)) / (qofn (length l) * qofn (length l)))%Q.
Proof. unfold hval, gini. rewrite csum_cofl. reflexivity. Qed.
Lemma qofn_mul' a b : (qofn (a * b) == qofn a * qofn b)%Q.
Proof. unfold qofn. rewrite Nat2Z.inj_mul, inject_Z_mult. reflexivity. Qed.
Lemma qofn_add' a b : (qofn (a + b) == qofn a + qofn b)%Q.
Proof. unfold qofn. rewrite Nat2Z.inj_add, inject_Z_plus. reflexivity. Qed.
Lemma qofn_lt' a b : a < b -> (qofn a < qofn b)%Q.
Proof. intros H. unfold qofn. rewrite <- Zlt_Qlt. lia. Qed.
Theorem C127_gini : entropy_finite gini /\ entropy_proper gini.
Proof.
  split; [intros c; eexists; reflexivity|]. split; [|split].
  - intros [|a l] Hne Hp; [contradiction|]. rewrite hval_gini. rewrite (pure_repeat a l Hp).
    set (m := length (a :: l)). assert (0 < m) as Hm by (unfold m; simpl; lia). clearbody m. rewrite repeat_length.
    assert (sumsq (cofl (repeat a m)) = m * m) as -> by (rewrite <- (app_nil_r (repeat a m)), sumsq_block; cbn; lia).
    rewrite qofn_mul'. pose proof (qofn_pos m Hm) as H. field. intros E. rewrite E in H. inversion H.
  - intros [|a l] Hne Hp; [contradiction|]. rewrite hval_gini.
    assert (sumsq (cofl (a :: l)) < length (a :: l) * length (a :: l)) as Hs.
    { rewrite sumsq_cons. pose proof (occ_less a l (not_pure a l Hp)). pose proof (sumsq_most l). cbn [length]. lia. }
    apply qofn_lt' in Hs. rewrite qofn_mul' in Hs. assert (0 < qofn (length (a :: l)))%Q as H by (apply qofn_pos; simpl; lia).
    set (n := qofn (length (a :: l))) in *. set (s := qofn (sumsq (cofl (a :: l)))) in *. clearbody n s.
    enough (s / (n * n) < 1)%Q by lra. apply Qlt_shift_div_r; [nra|lra].
  - intros [|a l1] l2 N1 N2 Hp Hmix; [contradiction|]. rewrite !hval_gini. rewrite (pure_repeat a l1 Hp) in *.
    set (m := length (a :: l1)) in *. assert (0 < m) as Hm by (unfold m; simpl; lia). clearbody m. rewrite sumsq_block, app_length, repeat_length.
    assert (count_occ string_dec l2 a < length l2) as Hlt.
    { apply occ_less. destruct m as [|m]; [lia|]. cbn [repeat app] in Hmix. destruct (not_pure a _ Hmix) as (b & Hb & Hn). exists b. split; [|exact Hn].
      apply in_app_or in Hb. destruct Hb as [Hb|Hb]; [apply repeat_spec in Hb; contradiction|exact Hb]. }
    pose proof (sumsq_least a l2) as Hle. set (o := count_occ string_dec l2 a) in *. set (s := sumsq (cofl l2)) in *. set (r := length l2) in *.
    assert (0 < r) as Hr by lia. clearbody o s r. apply qofn_lt' in Hlt. pose proof (qofn_pos m Hm) as Qm. pose proof (qofn_pos r Hr) as Qr.
    assert (qofn o * qofn o <= qofn s)%Q as Qs.
    { rewrite <- qofn_mul'. unfold qofn. rewrite <- Zle_Qle. lia. }
    rewrite !qofn_add', !qofn_mul'. change (qofn 2) with 2%Q.
    set (O := qofn o) in *. set (S := qofn s) in *. set (R := qofn r) in *. set (M := qofn m) in *. clearbody O S R M.
    assert (R * (1 - S / (R * R)) == R - S / R)%Q as -> by (field; lra).
    assert ((M + R) * (1 - (S + 2 * M * O + M * M) / ((M + R) * (M + R))) == M + R - (S + 2 * M * O + M * M) / (M + R))%Q as -> by (field; lra).
    enough ((S + 2 * M * O + M * M) / (M + R) < M + S / R)%Q by lra.
    apply Qlt_shift_div_r; [lra|]. assert ((M + S / R) * (M + R) == M * M + M * R + M * S / R + S)%Q as -> by (field; lra).
    enough (2 * M * O < M * R + M * S / R)%Q by lra.
    assert (M * R + M * S / R == M * (R + S / R))%Q as -> by (field; lra).
    assert (2 * M * O == M * (2 * O))%Q as -> by ring. apply Qmult_lt_l; [exact Qm|].
    enough (2 * O - R < S / R)%Q by lra. apply Qlt_shift_div_l; [exact Qr|]. nra.
Qed.
Lemma ex_entropy_proper : entropy_proper ex_entropy.
Proof.
  assert (forall l, l <> [] -> pure l -> hval ex_entropy l = 0%Q) as Hz.
  { intros [|a l] Hne Hp; [contradiction|]. rewrite (pure_repeat a l Hp). unfold hval. cbn [length]. generalize (length l) as m. intros m.
    assert (exists n, cofl (repeat a (S m)) = [(a, n)]) as (n & ->); [|reflexivity]. induction m as [|m (n & IH)]; [exists 1; reflexivity|].
    exists (S n). cbn [repeat]. rewrite (cofl_perm (a :: a :: repeat a m) ((a :: repeat a m) ++ [a]) (Permutation_cons_append _ a)), cofl_app.
    change (a :: repeat a m) with (repeat a (S m)). rewrite IH. unfold cput, ccount. cbn [mfind]. rewrite String.eqb_refl. cbn [mset].
    assert (String.compare a a = Eq) as -> by (apply scompare_eq; reflexivity). reflexivity. }
  assert (forall l, l <> [] -> ~ pure l -> hval ex_entropy l = 1%Q) as Ho.
  { intros l Hne Hp. unfold hval. destruct (cofl l) as [|(k, n) [|(k', n') c]] eqn:E; [| |reflexivity]; exfalso; apply Hp; intros a b Ha Hb;
      apply in_cofl in Ha, Hb; rewrite E in Ha, Hb; cbn in Ha, Hb; [contradiction|]. destruct Ha as [<-|[]], Hb as [<-|[]]. reflexivity. }
  split; [|split].
  - intros l Hne Hp. rewrite (Hz l Hne Hp). reflexivity.
  - intros l Hne Hp. rewrite (Ho l Hne Hp). reflexivity.
  - intros l1 l2 N1 N2 Hp Hm. rewrite (Ho (l1 ++ l2)); [|intros E; apply app_eq_nil in E; tauto|exact Hm]. rewrite app_length, qofn_add'.
    assert (0 < qofn (length l1))%Q by (apply qofn_pos; destruct l1; [contradiction|simpl; lia]).
    assert (0 < qofn (length l2))%Q by (apply qofn_pos; destruct l2; [contradiction|simpl; lia]).
    destruct (pure_dec l2) as [P2|P2]; [rewrite (Hz l2 N2 P2)|rewrite (Ho l2 N2 P2)]; lra.
Qed.
(** Three classes along one line, interleaved: a, b, a, c.  No single threshold is enough; the tree finds all of them. *)
Definition line_row (l : string) (q : Q) : instance := mkInst l [ADisc "same"; ACont (Fin q)] None.
Definition line_data : list instance := [line_row "a" 3; line_row "b" 2; line_row "c" (9#2); line_row "a" 1; line_row "a" 1].
Example C127_case : exists t, tree_train ex_max gini ex_mid ex_rarr false (Fin 0) 1 5 line_data = Ok t /\ height t = 3 /\
  map (tree_predict ex_max t) line_data = [Ok "a"; Ok "b"; Ok "c"; Ok "a"; Ok "a"].
Proof. eexists. split; [vm_compute; reflexivity|]. split; vm_compute; reflexivity. Qed.
Example C127_case_hyps : tabular [KDisc; KCont] line_data /\ tells_apart [KDisc; KCont] 1 line_data /\ ~ tells_apart [KDisc; KCont] 0 line_data.
Proof.
  split; [repeat constructor; eexists; reflexivity|]. split.
  - intros x y p q Hx Hy Ex Ey Epq. cbn [line_data In] in Hx, Hy.
    repeat (destruct Hx as [<-|Hx]; [repeat (destruct Hy as [<-|Hy]; [cbn in Ex, Ey; injection Ex as <-; injection Ey as <-; (reflexivity || discriminate Epq)|]); destruct Hy|]). destruct Hx.
  - intros H. cbn in H. specialize (H (line_row "a" 3) (line_row "b" 2) "same" ltac:(left; reflexivity) ltac:(right; left; reflexivity) eq_refl eq_refl). discriminate H.
Qed.
Print Assumptions C127_fits.
Print Assumptions C127_forest.
Print Assumptions C127_gini.
