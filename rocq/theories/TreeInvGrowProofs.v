(** Growing decision trees from the same data in another order or in other units: the trees give the same answers. *)
From Coq Require Import String ZArith QArith Bool Lia Permutation Sorted Lqa List.
From Verif Require Import Base Spec BaseLemmas DblLemmas AttrModel InstanceListModel PartitionModel PerformanceModel
  ListSpec ListProofs DataSetProofs PartitionProofs PerformanceProofs TreeModel TreeSpec TreeProofs TreeGrowProofs TreePredictProofs TreeBestSpec TreeBestProofs InvSpec TreeInvProofs.
Import ListNotations.
Local Open Scope string_scope.
Local Open Scope list_scope.
Local Open Scope nat_scope.

Lemma probability_pick lab d c ch x :
  node_probability (Node lab false d c ch) x = do o <- pick ch x; match o with None => Ok (probabilities d) | Some n => node_probability n x end.
Proof.
  cbn [node_probability]. induction ch as [|n ch IH]; [reflexivity|].
  cbn [pick]. destruct (satisfy (t_cond n) x) as [[]| | |]; try reflexivity. cbn [bind]. exact IH.
Qed.

Section Grow.
  Context (entropy : counter -> dbl) (mid : dbl -> dbl -> dbl) (shape : list kind) (u : units).
  Hypothesis Hent : entropy_finite entropy.
  Hypothesis Hmid : mid_exact mid.
  Hypothesis Hu : increasing u.
  Context (rarr : nat -> Z -> list nat).
  Hypothesis Hrarr : rarr_perm rarr.

  (** same label and probabilities *)
  Definition same_at (t t' : tree) (x y : instance) : Prop :=
    (forall mi, node_predict mi t x = node_predict mi t' y) /\ node_probability t x = node_probability t' y.
  Definition answers (t t' : tree) : Prop := forall x y, typed shape x -> rescaled u x y -> same_at t t' x y.
  Definition picks (ch ch' : list tree) (x y : instance) : Prop :=
    exists o o', pick ch x = Ok o /\ pick ch' y = Ok o' /\
      match o, o' with None, None => True | Some n, Some n' => same_at n n' x y | _, _ => False end.
  Lemma rescaled_composite x y : rescaled u x y -> isComposite x = isComposite y /\ possible_labels x = possible_labels y.
  Proof. intros (L & C & _). unfold isComposite, possible_labels. rewrite C, L. split; reflexivity. Qed.
  Lemma same_node lab leaf d c c' ch ch' x y : rescaled u x y -> (leaf = false -> picks ch ch' x y) -> same_at (Node lab leaf d c ch) (Node lab leaf d c' ch') x y.
  Proof.
    intros R H. destruct (rescaled_composite x y R) as [C1 C2]. destruct leaf.
    - split; [|reflexivity]. intros mi. cbn [node_predict]. rewrite C1, C2. reflexivity.
    - destruct (H eq_refl) as (o & o' & E & E' & P). split.
      + intros mi. destruct (isComposite x) eqn:Ex.
        * rewrite (predict_composite mi _ _ _ _ _ Ex), (predict_composite mi _ _ _ _ _ (eq_sym C1)), E, E', C2. cbn [bind].
          destruct o, o'; try contradiction; [rewrite (proj1 P mi)|]; reflexivity.
        * rewrite (predict_plain mi _ _ _ _ _ Ex), (predict_plain mi _ _ _ _ _ (eq_sym C1)), E, E'. cbn [bind].
          destruct o, o'; try contradiction; [exact (proj1 P mi)|reflexivity].
      + rewrite !probability_pick, E, E'. cbn [bind]. destruct o, o'; try contradiction; [exact (proj2 P)|reflexivity].
  Qed.
  (** children whose conditions correspond one by one *)
  Definition cond_twin (c c' : condition) : Prop := forall x y, typed shape x -> rescaled u x y -> exists b, satisfy c x = Ok b /\ satisfy c' y = Ok b.
  Lemma picks_pointwise ch ch' x y : typed shape x -> rescaled u x y ->
    Forall2 (fun n n' => cond_twin (t_cond n) (t_cond n') /\ same_at n n' x y) ch ch' -> picks ch ch' x y.
  Proof.
    intros T R. induction 1 as [|n n' ch ch' (C & A) _ (o & o' & E & E' & P)].
    - exists None, None. repeat split.
    - destruct (C x y T R) as (b & S1 & S2). unfold picks. cbn [pick]. rewrite S1, S2. cbn [bind]. destruct b.
      + exists (Some n), (Some n'). split; [reflexivity|]. split; [reflexivity|exact A].
      + exists o, o'. split; [exact E|]. split; [exact E'|exact P].
  Qed.
  (** children of a text column: the one for the text of the instance, if there is one *)
  Definition text_cond (k : nat) (w : string) : condition := mkCond (Z.of_nat k) CEq (Some (ADisc w)).
  Lemma pick_text k child vs x : typed shape x -> nth_error shape k = Some KDisc -> (forall w, In w vs -> t_cond (child w) = text_cond k w) ->
    pick (map child vs) x = Ok (if existsb (String.eqb (colD (Z.of_nat k) x)) vs then Some (child (colD (Z.of_nat k) x)) else None).
  Proof.
    intros T Hk. induction vs as [|w vs IH]; intros H; [reflexivity|]. cbn [map pick existsb].
    rewrite (H w (or_introl eq_refl)). unfold satisfy, text_cond. cbn [c_value c_index].
    rewrite (proj2 (disc_at_ok _ _ (colD (Z.of_nat k) x))) by (eexists; split; [apply (typed_disc shape x k T Hk)|left; reflexivity]). cbn [bind].
    destruct (String.eqb_spec (colD (Z.of_nat k) x) w) as [->|Ne]; cbn [orb]; [reflexivity|]. apply IH. intros v Hv. apply H. right. exact Hv.
  Qed.
  Lemma existsb_perm {A} (f : A -> bool) l l' : Permutation l l' -> existsb f l = existsb f l'.
  Proof. induction 1 as [|x l l' _ IH|x y l|l1 l2 l3 _ IH1 _ IH2]; cbn [existsb]; [reflexivity|rewrite IH; reflexivity|destruct (f x), (f y); reflexivity|congruence]. Qed.
  Lemma picks_text k vs vs' child child' x y : typed shape x -> rescaled u x y -> nth_error shape k = Some KDisc -> Permutation vs vs' ->
    (forall w, In w vs -> t_cond (child w) = text_cond k w /\ t_cond (child' w) = text_cond k w /\ same_at (child w) (child' w) x y) ->
    picks (map child vs) (map child' vs') x y.
  Proof.
    intros T R Hk P H. unfold picks. rewrite (pick_text k child vs x T Hk) by (intros w Hw; apply H, Hw).
    rewrite (pick_text k child' vs' y (rescaled_typed _ _ _ _ R T) Hk).
    2:{ intros w Hw. apply H. exact (Permutation_in w (Permutation_sym P) Hw). }
    eexists _, _. split; [reflexivity|]. split; [reflexivity|]. rewrite <- (rescaled_colD u shape x y k R T Hk), (existsb_perm _ _ _ P).
    destruct (existsb (String.eqb (colD (Z.of_nat k) x)) vs') eqn:E; [|exact I]. apply existsb_exists in E. destruct E as (w & Hw & E). apply String.eqb_eq in E. subst w.
    apply H. exact (Permutation_in _ (Permutation_sym P) Hw).
  Qed.

  (** conditions of numeric and indexed columns *)
  Lemma twin_cont k p q cmp : nth_error shape k = Some KCont -> (q == fst (u k) * p + snd (u k))%Q ->
    cond_twin (mkCond (Z.of_nat k) cmp (Some (ACont (Fin p)))) (mkCond (Z.of_nat k) cmp (Some (ACont (Fin q)))).
  Proof.
    intros Hk E x y T R. unfold satisfy. cbn [c_value c_index c_cmp].
    rewrite (proj2 (cont_at_ok _ _ _) (typed_cont _ x k T Hk)), (proj2 (cont_at_ok _ _ _) (typed_cont _ y k (rescaled_typed _ _ _ _ R T) Hk)). cbn [bind].
    pose proof (rescaled_colC u shape x y k R T Hk) as Hc.
    destruct cmp; eexists; (split; [reflexivity|]); [reflexivity| |].
    - f_equal. symmetry. exact (affine_dleb _ _ _ _ _ (Hu k) Hc E).
    - f_equal. unfold dgtb. rewrite !dltb_dleb. f_equal. symmetry. exact (affine_dleb _ _ _ _ _ (Hu k) Hc E).
  Qed.
  Lemma twin_idx k s i m m' : nth_error shape k = Some (KIdx m') ->
    cond_twin (mkCond (Z.of_nat k) CEq (Some (AIdx s i m))) (mkCond (Z.of_nat k) CEq (Some (AIdx s i m))).
  Proof.
    intros Hk x y T R. unfold satisfy. cbn [c_value c_index]. destruct (i =? -1)%Z; [exists true; split; reflexivity|].
    destruct (typed_idx _ x k m' T Hk) as (s1 & Hx). destruct (typed_idx _ y k m' (rescaled_typed _ _ _ _ R T) Hk) as (s2 & Hy).
    rewrite (proj2 (index_at_ok _ _ (colI (Z.of_nat k) x))) by (eexists _, _; exact Hx).
    rewrite (proj2 (index_at_ok _ _ (colI (Z.of_nat k) y))) by (eexists _, _; exact Hy).
    cbn [bind]. rewrite (rescaled_colI u shape x y k m' R T Hk). eexists. split; reflexivity.
  Qed.
  Lemma twin_text k w : nth_error shape k = Some KDisc -> cond_twin (text_cond k w) (text_cond k w).
  Proof.
    intros Hk x y T R. unfold satisfy, text_cond. cbn [c_value c_index]. pose proof (rescaled_typed _ _ _ _ R T) as Ty.
    rewrite (proj2 (disc_at_ok _ _ (colD (Z.of_nat k) x))) by (eexists; split; [apply (typed_disc shape x k T Hk)|left; reflexivity]).
    rewrite (proj2 (disc_at_ok _ _ (colD (Z.of_nat k) y))) by (eexists; split; [apply (typed_disc shape y k Ty Hk)|left; reflexivity]).
    cbn [bind]. rewrite (rescaled_colD u shape x y k R T Hk). eexists. split; reflexivity.
  Qed.

  (** * The parts *)
  Definition part_twin (Rel : list instance -> list instance -> Prop) (p p' : condition * list instance) : Prop :=
    cond_twin (fst p) (fst p') /\ c_index (fst p) = c_index (fst p') /\ Rel (snd p) (snd p').
  Definition text_parts (k : nat) (d : list instance) (vs : list string) : list (condition * list instance) :=
    map (fun w => (text_cond k w, filter (fun x => String.eqb w (colD (Z.of_nat k) x)) d)) vs.
  Lemma split_same d d' b b' : tabular shape d -> d <> [] -> same_data u d d' -> proper shape d (b_attr b) (b_value b) -> best_rel shape u b b' ->
    exists parts parts', split d (b_attr b) (b_value b) = Ok parts /\ split d' (b_attr b') (b_value b') = Ok parts' /\
      (Forall2 (part_twin (same_data u)) parts parts' /\ (Forall2 (rescaled u) d d' -> Forall2 (part_twin (Forall2 (rescaled u))) parts parts') \/
       exists k vs vs', nth_error shape k = Some KDisc /\ Permutation vs vs' /\ parts = text_parts k d vs /\ parts' = text_parts k d' vs' /\
         (Forall2 (rescaled u) d d' -> vs = vs')).
  Proof.
    intros T Hne H Hp (_ & Ba & Bv). rewrite <- Ba. pose proof (same_data_tab _ _ _ _ H T) as T'. pose proof (same_data_ne _ _ _ H Hne) as Hne'.
    destruct Hp as (j & Ej & Hp). specialize (Bv j Ej). rewrite Ej in *. clear Ba. unfold value_rel in Bv.
    destruct Hp as [(m & w & A & V & _)|[(A & _)|(A & q & x & y & V & _)]]; rewrite A in Bv.
    - rewrite <- Bv. destruct (split_spec shape d j _ (b_value b) T Hne A (ex_intro _ w V)) as (parts & E & _ & Ep).
      destruct (split_spec shape d' j _ (b_value b) T' Hne' A (ex_intro _ w V)) as (parts' & E' & _ & Ep').
      exists parts, parts'. split; [exact E|]. split; [exact E'|]. left. subst parts parts'.
      assert (F : forall x y, In x d -> rescaled u x y -> (to_int (b_value b) =? colI (Z.of_nat j) x)%Z = (to_int (b_value b) =? colI (Z.of_nat j) y)%Z).
      { intros x y Hx R. rewrite (rescaled_colI u shape x y j m R (tab_in shape d x T Hx) A). reflexivity. }
      split; [|intros HF]; repeat constructor; cbn [fst snd].
      all: try (apply (twin_idx j _ _ _ m A)).
      all: first [apply same_data_filter; [exact H|] | apply Forall2_filter; [exact HF|]]; intros x y Hx R; rewrite (F x y Hx R); reflexivity.
    - destruct (split_spec shape d j _ (b_value b) T Hne A I) as (parts & E & _ & Ep). destruct (split_spec shape d' j _ (b_value b') T' Hne' A I) as (parts' & E' & _ & Ep').
      exists parts, parts'. split; [exact E|]. split; [exact E'|]. right. subst parts parts'. eexists j, _, _. split; [exact A|].
      split; [apply push_perm, (disc_values_perm shape u j d d' A T H)|]. split; [reflexivity|]. split; [reflexivity|].
      intros HF. f_equal. clear - HF T A. induction HF as [|x y d d' R _ IH]; [reflexivity|]. inversion T; subst. cbn [map]. rewrite (rescaled_colD u shape x y j R) by assumption.
      f_equal. apply IH. assumption.
    - destruct Bv as (p & q' & V1 & V2 & Hpq). rewrite V1, V2.
      destruct (split_spec shape d j _ (Fin p) T Hne A eq_refl) as (parts & E & _ & Ep). destruct (split_spec shape d' j _ (Fin q') T' Hne' A eq_refl) as (parts' & E' & _ & Ep').
      exists parts, parts'. split; [exact E|]. split; [exact E'|]. left. subst parts parts'.
      assert (F : forall x y, In x d -> rescaled u x y -> dleb (Fin (colC (Z.of_nat j) x)) (Fin p) = dleb (Fin (colC (Z.of_nat j) y)) (Fin q')).
      { intros a c Hx R. exact (affine_dleb _ _ _ _ _ (Hu j) (rescaled_colC u shape a c j R (tab_in shape d a T Hx) A) Hpq). }
      split; [|intros HF]; repeat constructor; cbn [fst snd].
      all: try (apply twin_cont; assumption).
      all: first [apply same_data_filter; [exact H|] | apply Forall2_filter; [exact HF|]]; intros a c Hx R; rewrite (F a c Hx R); reflexivity.
  Qed.
  Lemma distinct_same l l' : same_data u l l' -> length (distinct_labels l) = length (distinct_labels l').
  Proof.
    intros H. assert (D : forall l acc, fold_left (fun acc x => push_new acc (label x)) l acc = fold_left push_new (map label l) acc).
    { induction l0 as [|x l0 IH]; intros acc; [reflexivity|]. apply IH. }
    unfold distinct_labels. rewrite !D. apply Permutation_length, push_perm, (same_data_labels _ _ _ H).
  Qed.
  Lemma heads_same l l' : same_data u l l' -> get_maximum (class_labels l) = get_maximum (class_labels l') /\ fold_left cput (class_labels l) [] = fold_left cput (class_labels l') [].
  Proof.
    intros H. assert (E : fold_left cput (class_labels l) [] = fold_left cput (class_labels l') []) by exact (same_cofl u l l' H).
    split; [|exact E]. unfold get_maximum. rewrite E. reflexivity.
  Qed.
  Notation build := (build entropy mid rarr).
  Lemma mapM_map {A B} (f : A -> res B) l r : mapM f l = Ok r -> forall g, (forall a, In a l -> forall b, f a = Ok b -> g a = b) -> r = map g l.
  Proof.
    intros H. apply mapM_ok in H. induction H as [|a b l r E _ IH]; intros g G; [reflexivity|]. cbn [map]. rewrite (G a (or_introl eq_refl) b E). f_equal.
    apply IH. intros a' Ha'. apply G. right. exact Ha'.
  Qed.
  Definition got (r : res tree) : tree := match r with Ok t => t | _ => Node "" true [] no_condition [] end.
  Lemma build_cond param stump fuel d c t : build param stump fuel d c = Ok t -> t_cond t = c.
  Proof.
    destruct fuel as [|f]; [discriminate|]. cbn [TreeModel.build]. intros H.
    destruct (length (distinct_labels d) =? 1); [injection H as <-; reflexivity|].
    destruct (stump && negb (c_index c =? -1)%Z); [injection H as <-; reflexivity|].
    apply bind_ok in H as ((d2 & b) & _ & H). destruct (b_attr b =? -1)%Z; [injection H as <-; reflexivity|].
    apply bind_ok in H as (parts & _ & H). apply bind_ok in H as (ch & _ & H). injection H as <-. reflexivity.
  Qed.
  Lemma build_same param stump : forall fuel l l' c c' t, tabular shape l -> l <> [] -> same_data u l l' -> c_index c = c_index c' ->
    build param stump fuel l c = Ok t -> exists t', build param stump fuel l' c' = Ok t' /\ answers t t'.
  Proof.
    induction fuel as [|f IH]; intros l l' c c' t T Hne H Hc E; [discriminate E|].
    cbn [TreeModel.build] in E |- *. rewrite <- (distinct_same _ _ H), <- Hc. destruct (heads_same _ _ H) as [<- <-].
    assert (Leaf : forall lab d, answers (Node lab true d c []) (Node lab true d c' [])) by (intros lab d x y _ R; apply same_node; [exact R|discriminate]).
    destruct (length (distinct_labels l) =? 1); [injection E as <-; eexists; split; [reflexivity|apply Leaf]|].
    destruct (stump && negb (c_index c =? -1)%Z); [injection E as <-; eexists; split; [reflexivity|apply Leaf]|].
    apply bind_ok in E as ((d & b) & Es & E).
    destruct (search_same entropy mid shape u Hmid Hu rarr param l l' d b Hrarr T Hne H Es) as (d' & b' & Es' & HD & P & P' & B). rewrite Es'. cbn [bind].
    destruct (search_ok entropy mid shape Hent Hmid rarr param l Hrarr T Hne) as (d0' & b0 & Es0 & _ & Hb). rewrite Es in Es0. injection Es0 as <- <-.
    assert (Ba : b_attr b' = b_attr b) by (symmetry; apply B). rewrite Ba.
    destruct (Z.eqb_spec (b_attr b) (-1)) as [Eb|Eb]; [injection E as <-; eexists; split; [reflexivity|apply Leaf]|]. destruct Hb as [Hb|Hb]; [contradiction|].
    assert (Td : tabular shape d) by exact (tab_perm _ _ _ P T). assert (Hned : d <> []) by (intros ->; apply Hne, Permutation_nil, Permutation_sym, P).
    destruct (split_same d d' b b' Td Hned HD Hb B) as (parts & parts' & Ep & Ep' & HP). rewrite Ba in Ep'.
    rewrite Ep in E. rewrite Ep'. cbn [bind] in E |- *. apply bind_ok in E as (ch & Ech & E). injection E as <-.
    destruct (split_proper shape d _ _ Td Hned Hb) as (parts2 & Ep2 & (_ & Pp & _) & _ & Pne). rewrite Ep in Ep2. injection Ep2 as <-.
    assert (Tp : Forall (fun p => tabular shape (snd p)) parts).
    { apply Forall_forall. intros p Hp. assert (Hc' : exists parts3, split d (b_attr b) (b_value b) = Ok parts3 /\ parts_ok shape d parts3).
      { destruct (split_proper shape d _ _ Td Hned Hb) as (p3 & E3 & O3 & _). exists p3. split; assumption. }
      destruct Hc' as (p3 & E3 & (O3 & _)). rewrite Ep in E3. injection E3 as <-. apply (tab_incl shape d); [|exact Td]. intros x Hx. apply (Permutation_in x O3). apply in_concat. exists (snd p). split; [apply in_map, Hp|exact Hx]. }
    destruct HP as [(HP & _)|(k & vs & vs' & Hk & PV & -> & -> & _)].
    - assert (G : exists ch', mapM (fun p => build param stump f (snd p) (fst p)) parts' = Ok ch' /\ Forall2 (fun n n' => cond_twin (t_cond n) (t_cond n') /\ answers n n') ch ch').
      { apply mapM_ok in Ech. clear - IH HP Ech Tp Pne. revert ch Ech. induction HP as [|p p' parts parts' (C1 & C2 & C3) _ IHp]; intros ch Ech; inversion Ech as [|? t ? ch0 Et Ech0]; subst.
        - exists []. split; [reflexivity|constructor].
        - inversion Tp; inversion Pne; subst. destruct (IHp ltac:(assumption) ltac:(assumption) ch0 Ech0) as (ch' & E' & F').
          destruct (IH (snd p) (snd p') (fst p) (fst p') t ltac:(assumption) ltac:(assumption) C3 C2 Et) as (t' & Et' & A).
          exists (t' :: ch'). split; [apply mapM_ok; constructor; [exact Et'|apply mapM_ok, E']|]. constructor; [|exact F'].
          split; [|exact A]. rewrite (build_cond _ _ _ _ _ _ Et), (build_cond _ _ _ _ _ _ Et'). exact C1. }
      destruct G as (ch' & -> & F). cbn [bind]. eexists. split; [reflexivity|]. intros x y Tx R. apply same_node; [exact R|]. intros _.
      apply picks_pointwise; [exact Tx|exact R|]. clear - F Tx R. induction F as [|n n' ch ch' (C & A) _ IHF]; constructor; [split; [exact C|exact (A x y Tx R)]|exact IHF].
    - set (part := fun d w => (text_cond k w, filter (fun x => String.eqb w (colD (Z.of_nat k) x)) d)).
      assert (G : forall w, In w vs -> exists t t', build param stump f (snd (part d w)) (text_cond k w) = Ok t /\ build param stump f (snd (part d' w)) (text_cond k w) = Ok t' /\ answers t t').
      { intros w Hw. apply mapM_ok in Ech. assert (In (part d w) (text_parts k d vs)) as Hin by (apply in_map_iff; exists w; split; [reflexivity|exact Hw]).
        destruct (In_nth_error _ _ Hin) as (i & Hi). destruct (Forall2_nth_ex _ _ _ _ _ Ech Hi) as (t & _ & Et). cbn [fst snd part] in Et.
        destruct (IH (snd (part d w)) (snd (part d' w)) (text_cond k w) (text_cond k w) t) as (t' & Et' & A); [| | |reflexivity|exact Et|].
        - exact (proj1 (Forall_forall _ _) Tp _ Hin). - exact (proj1 (Forall_forall _ _) Pne _ Hin).
        - apply same_data_filter; [exact HD|]. intros x y Hx R. rewrite (rescaled_colD u shape x y k R (tab_in shape d x Td Hx) Hk). reflexivity.
        - exists t, t'. split; [exact Et|]. split; [exact Et'|exact A]. }
      set (child := fun d w => got (build param stump f (snd (part d w)) (text_cond k w))).
      assert (E1 : ch = map (child d) vs).
      { transitivity (map (fun p : condition * ilist => got (build param stump f (snd p) (fst p))) (text_parts k d vs)).
        - apply (mapM_map _ _ _ Ech). intros p _ t0 Et. rewrite Et. reflexivity.
        - unfold text_parts. rewrite map_map. reflexivity. }
      assert (E2 : mapM (fun p => build param stump f (snd p) (fst p)) (text_parts k d' vs') = Ok (map (child d') vs')).
      { assert (G' : forall w, In w vs' -> exists t', build param stump f (snd (part d' w)) (text_cond k w) = Ok t').
        { intros w Hw. destruct (G w (Permutation_in w (Permutation_sym PV) Hw)) as (_ & t' & _ & Et' & _). exists t'. exact Et'. }
        unfold text_parts. clear - G'. induction vs' as [|w vs' IHv]; [reflexivity|]. cbn [map mapM]. destruct (G' w (or_introl eq_refl)) as (t' & Et').
        cbn [fst snd]. cbn [part snd] in Et'. rewrite Et'. cbn [bind]. rewrite IHv by (intros v Hv; apply G'; right; exact Hv). cbn [bind]. unfold child, part. cbn [snd]. rewrite Et'. reflexivity. }
      rewrite E2. cbn [bind]. eexists. split; [reflexivity|]. rewrite E1. intros x y Tx R. apply same_node; [exact R|]. intros _.
      apply (picks_text k vs vs' (child d) (child d') x y Tx R Hk PV). intros w Hw. destruct (G w Hw) as (t1 & t1' & A1 & A2 & A3).
      unfold child. rewrite A1, A2. cbn [got]. split; [exact (build_cond _ _ _ _ _ _ A1)|]. split; [exact (build_cond _ _ _ _ _ _ A2)|exact (A3 x y Tx R)].
  Qed.

  (** * Corresponding trees, instance by instance: also the shape is the same, and pruning keeps it *)
  Inductive twin : tree -> tree -> Prop :=
  | twin_node lab leaf dist c c' ch ch' : Forall2 (fun n n' => cond_twin (t_cond n) (t_cond n')) ch ch' -> Forall2 twin ch ch' ->
      twin (Node lab leaf dist c ch) (Node lab leaf dist c' ch').
  Lemma twin_answers : forall t t', twin t t' -> answers t t'.
  Proof.
    induction t as [lab leaf d c ch IH] using tree_rect2. intros t' H x y T R. inversion H as [? ? ? ? c' ? ch' HC HT]; subst.
    apply same_node; [exact R|]. intros _. apply picks_pointwise; [exact T|exact R|]. clear H. revert ch' HC HT. induction IH as [|n ch Hn _ IHch]; intros ch' HC HT.
    - inversion HT; subst. constructor.
    - inversion HC; inversion HT; subst. match goal with H : _ :: _ = _ :: _ |- _ => injection H as -> -> end. constructor.
      + split; [assumption|]. apply Hn; assumption.
      + apply IHch; assumption.
  Qed.
  Lemma sinsert_rel {A} (R : A -> A -> Prop) (f g : A -> A -> bool) x x' l l' : (forall a a' b b', R a a' -> R b b' -> f a b = g a' b') ->
    R x x' -> Forall2 R l l' -> Forall2 R (sinsert f x l) (sinsert g x' l').
  Proof.
    intros H Hx. induction 1 as [|y y' l l' Hy Hl IH]; cbn [sinsert]; [repeat constructor; exact Hx|].
    rewrite (H _ _ _ _ Hy Hx). destruct (g y' x'); constructor; try assumption. constructor; assumption.
  Qed.
  Lemma ssort_rel {A} (R : A -> A -> Prop) (f g : A -> A -> bool) l l' : (forall a a' b b', R a a' -> R b b' -> f a b = g a' b') ->
    Forall2 R l l' -> Forall2 R (ssort f l) (ssort g l').
  Proof. intros H. unfold ssort. induction 1 as [|x x' l l' Hx _ IH]; [constructor|]. cbn [fold_right]. apply sinsert_rel; assumption. Qed.
  Lemma sort_pointwise k l l' s s' : nth_error shape k = Some KCont -> tabular shape l -> Forall2 (rescaled u) l l' ->
    sort_by (Z.of_nat k) l = Ok s -> sort_by (Z.of_nat k) l' = Ok s' -> Forall2 (rescaled u) s s'.
  Proof.
    intros Hk T H E E'. unfold sort_by in E, E'. rewrite <- (Forall2_len _ _ _ H) in E'. destruct (length l <=? 1); [injection E as <-; injection E' as <-; exact H|].
    apply bind_ok in E as (ks & Ek & E). apply bind_ok in E' as (ks' & Ek' & E'). destruct (existsb is_nan ks); [discriminate E|]. destruct (existsb is_nan ks'); [discriminate E'|].
    injection E as <-. injection E' as <-.
    set (R := fun p p' : dbl * instance => rescaled u (snd p) (snd p') /\ exists a a', fst p = Fin a /\ fst p' = Fin a' /\ (a' == fst (u k) * a + snd (u k))%Q).
    assert (F : Forall2 R (combine ks l) (combine ks' l')).
    { apply mapM_ok in Ek. apply mapM_ok in Ek'. clear - T H Ek Ek' Hk. revert ks ks' Ek Ek'. induction H as [|x y l l' Hxy _ IH]; intros ks ks' Ek Ek'; inversion Ek as [|? a ? ks0 Ea Eks]; inversion Ek' as [|? a' ? ks0' Ea' Eks']; subst; [constructor|].
      inversion T as [|? ? Tx Tl]; subst. cbn [combine]. constructor; [|apply IH; assumption]. split; [exact Hxy|]. cbn [fst].
      rewrite (proj2 (cont_at_ok _ _ _) (typed_cont _ x k Tx Hk)) in Ea. rewrite (proj2 (cont_at_ok _ _ _) (typed_cont _ y k (rescaled_typed _ _ _ _ Hxy Tx) Hk)) in Ea'.
      injection Ea as <-. injection Ea' as <-. eexists _, _. split; [reflexivity|]. split; [reflexivity|]. exact (rescaled_colC u shape x y k Hxy Tx Hk). }
    assert (G : Forall2 R (ssort (fun p q => dltb (fst p) (fst q)) (combine ks l)) (ssort (fun p q => dltb (fst p) (fst q)) (combine ks' l'))).
    { apply ssort_rel; [|exact F]. intros p p' q q' (_ & a & a' & -> & -> & Ha) (_ & c & c' & -> & -> & Hc). rewrite !dltb_dleb. f_equal. exact (affine_dleb _ _ _ _ _ (Hu k) Hc Ha). }
    clear - G. induction G as [|p p' ps ps' (HR & _) _ IH]; constructor; assumption.
  Qed.
  Lemma try_attr_pointwise k l l' cd cd' b b' l2 cd2 b2 l2' cd2' b2' : k < length shape -> tabular shape l -> Forall2 (rescaled u) l l' ->
    try_attr entropy mid (l, cd, b) (Z.of_nat k) = Ok (l2, cd2, b2) -> try_attr entropy mid (l', cd', b') (Z.of_nat k) = Ok (l2', cd2', b2') ->
    Forall2 (rescaled u) l2 l2'.
  Proof.
    intros Hk T H E E'. destruct (nth_error shape k) as [kd|] eqn:Ek; [|apply nth_error_None in Ek; lia].
    unfold try_attr in E, E'. apply bind_ok in E as (x0 & A1 & E). apply bind_ok in E' as (y0 & A2 & E').
    assert (Tx : typed shape x0 /\ typed shape y0).
    { clear - H A1 A2 T. destruct H as [|x y xs ys R H]; [discriminate A1|]. injection A1 as <-. injection A2 as <-. inversion T as [|? ? Tx0 Tl0]; subst. split; [exact Tx0|exact (rescaled_typed _ _ _ _ R Tx0)]. }
    destruct Tx as [Tx Ty]. destruct (typed_at _ x0 _ _ Tx Ek) as (a & _ & Ha & Hga & _). destruct (typed_at _ y0 _ _ Ty Ek) as (a' & _ & Ha' & Hga' & _).
    rewrite Hga in E. rewrite Hga' in E'. cbn [bind] in E, E'. destruct kd as [| |m|]; simpl in Ha, Ha'.
    - destruct Ha as [w ->]. destruct Ha' as [w' ->]. cbn [isDiscreteIndexed isDiscrete] in E, E'. apply bind_ok in E as (e & _ & E). apply bind_ok in E' as (e' & _ & E').
      injection E as <- <- <-. injection E' as <- <- <-. exact H.
    - destruct Ha as [w ->]. destruct Ha' as [w' ->]. cbn in E, E'. injection E as <- <- <-. injection E' as <- <- <-. exact H.
    - destruct Ha as (w & i & ->). destruct Ha' as (w' & i' & ->). cbn [isDiscreteIndexed idx_max bind] in E, E'. apply bind_ok in E as (e & _ & E). apply bind_ok in E' as (e' & _ & E').
      injection E as <- <- <-. injection E' as <- <- <-. exact H.
    - destruct Ha as (q & ->). destruct Ha' as (q' & ->). cbn [isDiscreteIndexed isDiscrete isContinuous] in E, E'.
      apply bind_ok in E as (s & Es & E). apply bind_ok in E' as (s' & Es' & E'). apply bind_ok in E as (e & _ & E). apply bind_ok in E' as (e' & _ & E').
      injection E as <- <- <-. injection E' as <- <- <-. exact (sort_pointwise k l l' s s' Ek T H Es Es').
  Qed.
  Lemma fold_pointwise ks : (forall k, In k ks -> k < length shape) -> forall l l' cd cd' b b' l2 cd2 b2 l2' cd2' b2', tabular shape l -> l <> [] -> same_data u l l' -> Forall2 (rescaled u) l l' ->
    best_rel shape u b b' -> cd = cd' ->
    foldM (try_attr entropy mid) (map Z.of_nat ks) (l, cd, b) = Ok (l2, cd2, b2) -> foldM (try_attr entropy mid) (map Z.of_nat ks) (l', cd', b') = Ok (l2', cd2', b2') ->
    Forall2 (rescaled u) l2 l2'.
  Proof.
    induction ks as [|k ks IH]; intros Hks l l' cd cd' b b' l2 cd2 b2 l2' cd2' b2' T Hne H HF Hb Hcd E E'; subst cd'.
    - injection E as <- <- <-. injection E' as <- <- <-. exact HF.
    - cbn [map foldM] in E, E'. apply bind_ok in E as (((l1 & cd1) & b1) & E1 & E). apply bind_ok in E' as (((l1' & cd1') & b1') & E1' & E').
      pose proof (try_attr_pointwise k l l' _ _ _ _ _ _ _ _ _ _ (Hks k (or_introl eq_refl)) T HF E1 E1') as HF1.
      destruct (try_attr_same entropy mid shape u Hmid Hu l l' cd b b' k l1 cd1 b1 (Hks k (or_introl eq_refl)) T Hne H Hb E1) as (P1 & l1a & b1a & E1a & P1' & B1).
      rewrite E1' in E1a. injection E1a as <- <- <-.
      refine (IH (fun j Hj => Hks j (or_intror Hj)) l1 l1' _ _ b1 b1' l2 cd2 b2 l2' cd2' b2' _ _ _ HF1 B1 _ E E').
      + exact (tab_perm _ _ _ P1 T). + intros ->. apply Hne, Permutation_nil, Permutation_sym, P1. + apply same_data_pointwise, HF1. + reflexivity.
  Qed.
  Lemma search_pointwise param l l' d b d' b' : tabular shape l -> l <> [] -> Forall2 (rescaled u) l l' ->
    search entropy mid rarr param l = Ok (d, b) -> search entropy mid rarr param l' = Ok (d', b') -> Forall2 (rescaled u) d d'.
  Proof.
    intros T Hne HF E E'. pose proof (same_data_pointwise _ _ _ HF) as H. pose proof (same_data_tab _ _ _ _ H T) as T'.
    unfold search in E, E'. apply bind_ok in E as (x0 & A1 & E). apply bind_ok in E' as (y0 & A2 & E').
    assert (Tx : typed shape x0 /\ typed shape y0).
    { clear - HF A1 A2 T. destruct HF as [|x y xs ys R HF]; [discriminate A1|]. injection A1 as <-. injection A2 as <-. inversion T as [|? ? Tx0 Tl0]; subst. split; [exact Tx0|exact (rescaled_typed _ _ _ _ R Tx0)]. }
    destruct Tx as [Tx Ty].
    assert (AO : attr_order rarr param y0 = attr_order rarr param x0).
    { unfold attr_order, attr_count. rewrite <- (Forall2_len _ _ _ Tx), <- (Forall2_len _ _ _ Ty). reflexivity. }
    rewrite AO in E'. destruct (attr_order_ok shape rarr param x0 Hrarr Tx) as (ks & Eks & Hks). rewrite Eks in E, E'. cbn [bind] in E, E'.
    rewrite !class_distribution_cofl in E, E'. rewrite <- (same_cofl u _ _ H) in E'.
    apply bind_ok in E as (((l2 & cd2) & b2) & Er & E). apply bind_ok in E' as (((l2' & cd2') & b2') & Er' & E'). injection E as <- <-. injection E' as <- <-.
    refine (fold_pointwise ks Hks _ _ _ _ _ _ _ _ _ _ _ _ T Hne H HF _ eq_refl Er Er').
    split; [reflexivity|]. split; [reflexivity|]. cbn [b_attr]. intros j Hj. lia.
  Qed.
  Lemma build_twin param stump : forall fuel l l' c c' t t', tabular shape l -> l <> [] -> Forall2 (rescaled u) l l' -> c_index c = c_index c' ->
    build param stump fuel l c = Ok t -> build param stump fuel l' c' = Ok t' -> twin t t'.
  Proof.
    induction fuel as [|f IH]; intros l l' c c' t t' T Hne HF Hc E E'; [discriminate E|]. pose proof (same_data_pointwise _ _ _ HF) as H.
    cbn [TreeModel.build] in E, E'. rewrite <- (distinct_same _ _ H), <- Hc in E'. destruct (heads_same _ _ H) as [HM HD]. rewrite <- HM, <- HD in E'.
    assert (Leaf : forall lab d, twin (Node lab true d c []) (Node lab true d c' [])) by (intros lab d; constructor; constructor).
    destruct (length (distinct_labels l) =? 1); [injection E as <-; injection E' as <-; apply Leaf|].
    destruct (stump && negb (c_index c =? -1)%Z); [injection E as <-; injection E' as <-; apply Leaf|].
    apply bind_ok in E as ((d & b) & Es & E). apply bind_ok in E' as ((d' & b') & Es' & E').
    destruct (search_same entropy mid shape u Hmid Hu rarr param l l' d b Hrarr T Hne H Es) as (d1 & b1 & Es1 & HD1 & P & P' & B). rewrite Es' in Es1. injection Es1 as <- <-.
    pose proof (search_pointwise param l l' d b d' b' T Hne HF Es Es') as HF1.
    destruct (search_ok entropy mid shape Hent Hmid rarr param l Hrarr T Hne) as (d0' & b0 & Es0 & _ & Hb). rewrite Es in Es0. injection Es0 as <- <-.
    assert (Ba : b_attr b' = b_attr b) by (symmetry; apply B). rewrite Ba in E'.
    destruct (Z.eqb_spec (b_attr b) (-1)) as [Eb|Eb]; [injection E as <-; injection E' as <-; apply Leaf|]. destruct Hb as [Hb|Hb]; [contradiction|].
    assert (Td : tabular shape d) by exact (tab_perm _ _ _ P T). assert (Hned : d <> []) by (intros ->; apply Hne, Permutation_nil, Permutation_sym, P).
    destruct (split_same d d' b b' Td Hned HD1 Hb B) as (parts & parts' & Ep & Ep' & HP). rewrite Ba in Ep'.
    rewrite Ep in E. rewrite Ep' in E'. cbn [bind] in E, E'. apply bind_ok in E as (ch & Ech & E). injection E as <-. apply bind_ok in E' as (ch' & Ech' & E'). injection E' as <-.
    destruct (split_proper shape d _ _ Td Hned Hb) as (parts2 & Ep2 & (O3 & _) & _ & Pne). rewrite Ep in Ep2. injection Ep2 as <-.
    assert (Tp : Forall (fun p => tabular shape (snd p)) parts).
    { apply Forall_forall. intros p Hp. apply (tab_incl shape d); [|exact Td]. intros x Hx. apply (Permutation_in x O3). apply in_concat. exists (snd p). split; [apply in_map, Hp|exact Hx]. }
    assert (HQ : Forall2 (part_twin (Forall2 (rescaled u))) parts parts').
    { destruct HP as [(_ & HP)|(k & vs & vs' & Hk & _ & -> & -> & Hvs)]; [exact (HP HF1)|]. rewrite <- (Hvs HF1). unfold text_parts. clear Tp Pne Ech Ech' Ep Ep' O3 Hvs.
      induction vs as [|w vs IHv]; cbn [map]; constructor; [|exact IHv]. split; [apply twin_text; exact Hk|]. split; [reflexivity|]. cbn [snd]. apply Forall2_filter; [exact HF1|].
      intros x y Hx R. rewrite (rescaled_colD u shape x y k R (tab_in shape d x Td Hx) Hk). reflexivity. }
    apply mapM_ok in Ech. apply mapM_ok in Ech'.
    assert (G : Forall2 (fun n n' => cond_twin (t_cond n) (t_cond n')) ch ch' /\ Forall2 twin ch ch').
    { clear - IH HQ Ech Ech' Tp Pne. revert ch ch' Ech Ech'. induction HQ as [|p p' parts parts' (C1 & C2 & C3) _ IHp]; intros ch ch' Ech Ech'; inversion Ech as [|? t ? ch0 Et Ech0]; inversion Ech' as [|? t' ? ch0' Et' Ech0']; subst; [split; constructor|].
      inversion Tp; inversion Pne; subst. destruct (IHp ltac:(assumption) ltac:(assumption) ch0 ch0' Ech0 Ech0') as (F1 & F2). split; constructor; try assumption.
      - rewrite (build_cond _ _ _ _ _ _ Et), (build_cond _ _ _ _ _ _ Et'). exact C1.
      - exact (IH (snd p) (snd p') (fst p) (fst p') t t' ltac:(assumption) ltac:(assumption) C3 C2 Et Et'). }
    constructor; apply G.
  Qed.
  (** pruning *)
  Lemma tree_predict_same mi t t' x y : answers t t' -> typed shape x -> rescaled u x y -> tree_predict mi t x = tree_predict mi t' y.
  Proof.
    intros A T R. unfold tree_predict. rewrite (proj1 (A x y T R) mi). destruct (rescaled_composite x y R) as [-> ->]. reflexivity.
  Qed.
  Lemma accuracy_same mi t t' l l' : answers t t' -> tabular shape l -> Forall2 (rescaled u) l l' -> accuracy_on mi t l = accuracy_on mi t' l'.
  Proof.
    intros A T H. unfold accuracy_on, test_classifier. rewrite <- (Forall2_len _ _ _ H).
    assert (E : forall k, foldM (fun k x => do p <- tree_predict mi t x; Ok (if String.eqb (label x) p then S k else k)) l k =
                          foldM (fun k x => do p <- tree_predict mi t' x; Ok (if String.eqb (label x) p then S k else k)) l' k).
    { induction H as [|x y l l' R _ IH]; intros k; [reflexivity|]. inversion T; subst. cbn [foldM]. rewrite (tree_predict_same mi t t' x y A ltac:(assumption) R), (proj1 R).
      destruct (tree_predict mi t' y); try reflexivity. cbn [bind]. apply IH. assumption. }
    rewrite E. reflexivity.
  Qed.
  Lemma prune_twin mi l l' : tabular shape l -> Forall2 (rescaled u) l l' -> forall t plug plug' t' r, twin t t' ->
    (forall n n', twin n n' -> cond_twin (t_cond n) (t_cond n') \/ (t_cond n = t_cond t /\ t_cond n' = t_cond t') -> twin (plug n) (plug' n')) ->
    prune_node mi l plug t = Ok r -> exists r', prune_node mi l' plug' t' = Ok r' /\ twin r r' /\ t_cond r = t_cond t /\ t_cond r' = t_cond t'.
  Proof.
    intros T HF. induction t as [lab leaf d c ch IH] using tree_rect2. intros plug plug' t' r Ht Hplug E.
    inversion Ht as [? ? ? ? c' ? ch' HC HT]; subst. cbn [prune_node] in E |- *. destruct leaf.
    { injection E as <-. eexists. split; [reflexivity|]. split; [exact Ht|]. split; reflexivity. }
    assert (A1 : accuracy_on mi (plug (Node lab false d c ch)) l = accuracy_on mi (plug' (Node lab false d c' ch')) l').
    { apply accuracy_same; [|exact T|exact HF]. apply twin_answers, Hplug; [exact Ht|]. right. split; reflexivity. }
    assert (Hl : twin (Node lab true d c ch) (Node lab true d c' ch')) by (constructor; assumption).
    assert (A2 : accuracy_on mi (plug (Node lab true d c ch)) l = accuracy_on mi (plug' (Node lab true d c' ch')) l').
    { apply accuracy_same; [|exact T|exact HF]. apply twin_answers, Hplug; [exact Hl|]. right. split; reflexivity. }
    rewrite A1, A2 in E. apply bind_ok in E as (before & -> & E). apply bind_ok in E as (after & -> & E). cbn [bind].
    destruct (dltb after before).
    2:{ injection E as <-. eexists. split; [reflexivity|]. split; [exact Hl|]. split; reflexivity. }
    apply bind_ok in E as (chr & Eg & E). injection E as <-. revert Eg.
    match goal with |- ?go [] ch = Ok chr -> exists r', (do ch'0 <- ?go' [] ch'; _) = Ok r' /\ _ => set (G := go); set (G' := go') end. intros Eg.
    assert (Main : forall done done', Forall2 (fun n n' => cond_twin (t_cond n) (t_cond n')) done done' -> Forall2 twin done done' -> G done ch = Ok chr ->
      exists chr', G' done' ch' = Ok chr' /\ Forall2 (fun n n' => cond_twin (t_cond n) (t_cond n')) chr chr' /\ Forall2 twin chr chr').
    { clear Eg Ht Hl A1 A2. cbn [t_cond] in Hplug. revert ch' HC HT. induction IH as [|n ch Hn _ IHch]; intros ch' HC HT done done' D1 D2 Eg.
      - inversion HT; subst. cbn in Eg |- *. injection Eg as <-. exists done'. split; [reflexivity|]. split; assumption.
      - inversion HC as [|? n' ? ch2 C1 C2]; subst. inversion HT as [|? ? ? ? T1 T2]; subst. unfold G in Eg. cbn in Eg. fold G in Eg. apply bind_ok in Eg as (m & Em & Eg).
        destruct (Hn (fun n => plug (Node lab false d c (done ++ n :: ch))) (fun n => plug' (Node lab false d c' (done' ++ n :: ch2))) n' m T1) with (2 := Em) as (m' & Em' & Tm & Cm & Cm').
        { intros a a' Ta Ca. apply Hplug; [|right; split; reflexivity].
          assert (Ca' : cond_twin (t_cond a) (t_cond a')) by (destruct Ca as [Ca|[-> ->]]; [exact Ca|exact C1]).
          constructor; (apply Forall2_app; [assumption|]); constructor; assumption. }
        destruct (IHch ch2 C2 T2 (done ++ [m]) (done' ++ [m'])) as (chr' & Eg' & F).
        + apply Forall2_app; [exact D1|]. constructor; [|constructor]. rewrite Cm, Cm'. exact C1.
        + apply Forall2_app; [exact D2|]. constructor; [exact Tm|constructor].
        + exact Eg.
        + exists chr'. split; [|exact F]. unfold G'. cbn. rewrite Em'. cbn [bind]. exact Eg'. }
    destruct (Main [] [] (Forall2_nil _) (Forall2_nil _) Eg) as (chr' & Eg' & F1 & F2). rewrite Eg'. cbn [bind]. eexists. split; [reflexivity|].
    split; [constructor; assumption|]. split; reflexivity.
  Qed.
  (** stratified parts *)
  Lemma add_to_rel {A} (R : A -> A -> Prop) gs gs' i x x' r : Forall2 (Forall2 R) gs gs' -> R x x' -> add_to gs i x = Ok r ->
    exists r', add_to gs' i x' = Ok r' /\ Forall2 (Forall2 R) r r'.
  Proof.
    intros H Hx E. unfold add_to in E |- *. apply bind_ok in E as (g & Eg & E). injection E as <-. unfold atn in Eg |- *.
    destruct (nth_error gs i) as [g0|] eqn:En; [|discriminate Eg]. injection Eg as ->. destruct (Forall2_nth_ex _ _ _ _ _ H En) as (g' & -> & Hg). cbn [bind].
    eexists. split; [reflexivity|]. assert (Hg2 : Forall2 R (g ++ [x]) (g' ++ [x'])) by (apply Forall2_app; [exact Hg|repeat constructor; exact Hx]).
    clear - H Hg2. revert i. induction H as [|a a' gs gs' Ha Hgs IH]; intros [|i]; cbn [upd]; constructor; auto.
  Qed.
  Lemma strat_pointwise ratio seed l l' gs : Forall2 (rescaled u) l l' -> part_strat rarr ratio seed l = Ok gs ->
    exists gs', part_strat rarr ratio seed l' = Ok gs' /\ Forall2 (Forall2 (rescaled u)) gs gs'.
  Proof.
    intros H E. unfold part_strat in *. rewrite <- (Forall2_len _ _ _ H). apply bind_ok in E as (st & E & Eo). injection Eo as <-.
    assert (Main : forall is cs gs0 gs0' st, Forall2 (Forall2 (rescaled u)) gs0 gs0' -> foldM (strat_step l ratio) is (cs, gs0) = Ok st ->
      exists st', foldM (strat_step l' ratio) is (cs, gs0') = Ok st' /\ Forall2 (Forall2 (rescaled u)) (snd st) (snd st')).
    { induction is as [|i is IH]; intros cs gs0 gs0' r HG Er.
      - injection Er as <-. eexists. split; [reflexivity|exact HG].
      - cbn [foldM] in Er |- *. apply bind_ok in Er as ((cs1 & gs1) & E1 & Er). unfold strat_step in E1. apply bind_ok in E1 as (x & Ex & E1).
        apply bind_ok in E1 as (gs2 & E2 & E1). injection E1 as <- <-. unfold strat_step at 1. unfold atn in Ex |- *.
        destruct (nth_error l i) as [x0|] eqn:En; [|discriminate Ex]. injection Ex as ->. destruct (Forall2_nth_ex _ _ _ _ _ H En) as (y & -> & Hxy). cbn [bind].
        rewrite <- (proj1 Hxy), <- (Forall2_len _ _ _ H), !class_distribution_cofl in *. rewrite <- (same_cofl u _ _ (same_data_pointwise _ _ _ H)).
        destruct (add_to_rel _ _ _ _ _ _ _ HG Hxy E2) as (gs2' & -> & HG2). cbn [bind]. exact (IH _ _ _ _ HG2 Er). }
    destruct (Main _ _ _ [[]; []] _ (Forall2_cons _ _ (Forall2_nil _) (Forall2_cons _ _ (Forall2_nil _) (Forall2_nil _))) E) as (st' & Es' & F).
    exists (snd st'). split; [apply bind_ok; exists st'; split; [exact Es'|reflexivity]|exact F].
  Qed.
End Grow.
