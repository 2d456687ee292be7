(** A feature that repeats an earlier one is never chosen by the tree search (C145). *)
From Coq Require Import String ZArith QArith Bool Lia Permutation List.
From Verif Require HeapProofs.
From Verif Require Import Base Spec BaseLemmas DblLemmas SortLemmas AttrModel DataSetModel InstanceListModel PartitionModel PerformanceModel ListSpec ListProofs PartitionProofs
  TreeModel TreeSpec TreeProofs EnsembleModel RenameProofs TreePredictProofs TreeGrowProofs InvSpec TreeInvProofs TreeInvGrowProofs ConstSpec ConstTreeProofs UnusedSpec UnusedProofs CopySpec.
Import ListNotations.
Local Open Scope string_scope.
Local Open Scope list_scope.
Local Open Scope nat_scope.

Lemma foldM_two {S S' X} (R : S -> S' -> Prop) (g : S -> X -> res S) (g' : S' -> X -> res S') l :
  (forall s s' x s1, In x l -> R s s' -> g s x = Ok s1 -> exists s1', g' s' x = Ok s1' /\ R s1 s1') ->
  forall s s' t, R s s' -> foldM g l s = Ok t -> exists t', foldM g' l s' = Ok t' /\ R t t'.
Proof.
  intros H. assert (G : forall m, incl m l -> forall s s' t, R s s' -> foldM g m s = Ok t -> exists t', foldM g' m s' = Ok t' /\ R t t'); [|apply G, incl_refl].
  induction m as [|x m IH]; intros I s s' t HR E; cbn [foldM] in E |- *; [injection E as <-; exists s'; split; [reflexivity|exact HR]|].
  apply bind_ok in E as (s1 & E1 & E). destruct (H s s' x s1 (I x (or_introl eq_refl)) HR E1) as (s1' & -> & R1). cbn [bind].
  apply (IH (fun y Hy => I y (or_intror Hy)) s1 s1' t R1 E).
Qed.

(** * Two features with the same values are searched with the same result *)
Section Column.
  Context (entropy : counter -> dbl) (mid : dbl -> dbl -> dbl) (j k : Z) (l : ilist).
  Hypothesis Hc : forall x, In x l -> get_attr x j = get_attr x k.
  Definition level (b b' : best) : Prop := b_entropy b = b_entropy b'.
  Lemma better_level b b' e v v' : level b b' -> level (better b e k v) (better b' e j v').
  Proof. unfold level, better. intros H. rewrite <- H. destruct (dltb e (b_entropy b)); [reflexivity|exact H]. Qed.
  Lemma col_cont x : In x l -> cont_at j x = cont_at k x. Proof. intros H. unfold cont_at. rewrite (Hc x H). reflexivity. Qed.
  Lemma col_disc x : In x l -> disc_at j x = disc_at k x. Proof. intros H. unfold disc_at. rewrite (Hc x H). reflexivity. Qed.
  Lemma col_index x : In x l -> index_at j x = index_at k x. Proof. intros H. unfold index_at. rewrite (Hc x H). reflexivity. Qed.
  Lemma col_sort : sort_by j l = sort_by k l.
  Proof. unfold sort_by. rewrite (mapM_ext' (cont_at j) (cont_at k) l) by exact col_cont. reflexivity. Qed.
  Lemma col_class : attr_class_distribution j l = attr_class_distribution k l.
  Proof.
    assert (EV : value_list j l = value_list k l) by (unfold value_list; apply foldM_same; intros s x Hx; rewrite col_disc by exact Hx; reflexivity).
    unfold attr_class_distribution. rewrite EV.
    apply bind_ext. intros vs. apply foldM_same. intros s x Hx. rewrite col_disc by exact Hx. reflexivity.
  Qed.
  Lemma col_idx v : idx_class_distribution j v l = idx_class_distribution k v l.
  Proof. unfold idx_class_distribution. apply foldM_same. intros s x Hx. rewrite col_index by exact Hx. reflexivity. Qed.
  Lemma col_try_attr cd b b' l2 cd2 b2 : level b b' -> try_attr entropy mid (l, cd, b) k = Ok (l2, cd2, b2) ->
    exists b2', try_attr entropy mid (l, cd, b') j = Ok (l2, cd2, b2') /\ level b2 b2'.
  Proof.
    intros HL E. unfold try_attr in *. apply bind_ok in E as (x0 & E0 & E). rewrite E0. cbn [bind]. rewrite (Hc x0 (atn_in _ _ _ E0)). apply bind_ok in E as (a & -> & E). cbn [bind].
    destruct (isDiscreteIndexed a).
    { apply bind_ok in E as (m & -> & E). cbn [bind]. apply bind_ok in E as ((cd3 & b3) & Er & E). injection E as <- <- <-.
      destruct (foldM_two (fun s s' : counter * best => fst s = fst s' /\ level (snd s) (snd s')) (try_index entropy l k) (try_index entropy l j) (seq 0 m)) with (3 := Er) (s' := (cd, b')) as ((cd3' & b3') & Er' & H1 & H2).
      - intros [cd1 b1] [cd1' b1'] v s1 _ [H1 H2] E1. cbn [fst snd] in *. subst cd1'. unfold try_index in *. rewrite col_idx. apply bind_ok in E1 as (d & -> & E1). cbn [bind].
        destruct (0 <? csum d); injection E1 as <-; eexists; (split; [reflexivity|]); cbn [fst snd]; (split; [reflexivity|]); [apply better_level|]; exact H2.
      - split; [reflexivity|exact HL].
      - cbn [fst snd] in *. subst cd3'. rewrite Er'. cbn [bind fst snd]. exists b3'. split; [reflexivity|exact H2]. }
    destruct (isDiscrete a).
    { unfold disc_entropy in *. rewrite col_class. destruct (attr_class_distribution k l) as [ds| | |]; cbn [bind] in *; try discriminate. injection E as <- <- <-. eexists. split; [reflexivity|]. apply better_level, HL. }
    destruct (isContinuous a); [|injection E as <- <- <-; exists b'; split; [reflexivity|exact HL]].
    rewrite col_sort. destruct (sort_by k l) as [d| | |] eqn:Es; cbn [bind] in *; try discriminate. apply bind_ok in E as (s & Er & E). injection E as <- <- <-.
    destruct (foldM_two (fun s s' : scan => s_prev s = s_prev s' /\ s_left s = s_left s' /\ s_right s = s_right s' /\ level (s_best s) (s_best s')) (try_cut entropy mid (length d) k) (try_cut entropy mid (length d) j) d) with (3 := Er) (s' := mkScan None (class_distribution d) [] b') as (s' & Er' & H).
    - intros [p1 l1 r1 b1] [p2 l2' r2 b2'] x s1 Hx (H1 & H2 & H3 & H4) E1. cbn [s_prev s_left s_right s_best] in *. subst p2 l2' r2. unfold try_cut in *. cbn [s_prev s_left s_right s_best] in *.
      rewrite col_cont by exact (Permutation_in x (Permutation_sym (sort_by_perm _ _ _ Es)) Hx). destruct (cont_at k x) as [v| | |]; cbn [bind] in *; try discriminate. destruct p1 as [p|]; [|injection E1 as <-; eexists; split; [reflexivity|]; cbn; repeat (split; [reflexivity|]); exact H4].
      destruct (negb (deqb v p)); injection E1 as <-; (eexists; split; [reflexivity|]); cbn [s_prev s_left s_right s_best]; repeat (split; [reflexivity|]); [apply better_level|]; exact H4.
    - cbn. repeat (split; [reflexivity|]). exact HL.
    - rewrite Er'. cbn [bind]. exists (s_best s'). split; [reflexivity|apply H].
  Qed.
End Column.

(** * The search never chooses the later one of two features that say the same *)
Section Copy.
  Context (entropy : counter -> dbl) (mid : dbl -> dbl -> dbl) (shape : list kind) (rarr : nat -> Z -> list nat) (f : Q * Q) (j k : nat).
  Hypothesis Hent : entropy_finite entropy.
  Hypothesis Hmid : mid_exact mid.
  Hypothesis Hrarr : rarr_perm rarr.
  Hypothesis Hf : (0 < fst f)%Q.
  Hypothesis Hjk : j < k.
  Hypothesis Hk : k < length shape.
  (** feature [k] in the place of feature [j] *)
  Definition shown (x : instance) : instance := match nth_error (attrs x) k with Some b => mkInst (label x) (upd (attrs x) j b) (composite x) | None => x end.
  Definition fu : units := fun i => if i =? j then f else (1%Q, 0%Q).
  Lemma fu_incr : increasing fu.
  Proof. intros i. unfold fu. destruct (i =? j); [exact Hf|reflexivity]. Qed.
  Lemma shown_label x : label (shown x) = label x.
  Proof. unfold shown. destruct (nth_error (attrs x) k); reflexivity. Qed.
  Lemma get_nth x i a : nth_error (attrs x) i = Some a -> get_attr x (Z.of_nat i) = Ok a.
  Proof. intros E. unfold get_attr, at_. destruct (Z.ltb_spec (Z.of_nat i) 0); [lia|]. rewrite Nat2Z.id, E. reflexivity. Qed.
  Lemma upd_nth {A} (l : list A) i v m : nth_error (upd l i v) m = if (m =? i) && (i <? length l) then Some v else nth_error l m.
  Proof.
    revert i m. induction l as [|y l IH]; intros i m; [destruct i; cbn; rewrite andb_false_r; reflexivity|]. destruct i as [|i], m as [|m]; cbn [upd nth_error]; try reflexivity. rewrite IH. reflexivity.
  Qed.
  Lemma shown_nth x i : typed shape x -> nth_error (attrs (shown x)) i = if i =? j then nth_error (attrs x) k else nth_error (attrs x) i.
  Proof.
    intros T. pose proof (Forall2_len _ _ _ T) as L. unfold shown. destruct (nth_error (attrs x) k) as [b|] eqn:E; [|apply nth_error_None in E; lia]. cbn [attrs]. rewrite upd_nth.
    assert ((j <? length (attrs x)) = true) as -> by (apply Nat.ltb_lt; lia). rewrite andb_true_r. reflexivity.
  Qed.
  Lemma shown_there x i : typed shape x -> i < length shape -> exists b, nth_error (attrs (shown x)) i = Some b /\ nth_error (attrs x) (if i =? j then k else i) = Some b.
  Proof.
    intros T Hi. rewrite shown_nth by exact T. pose proof (Forall2_len _ _ _ T) as L.
    destruct (i =? j); [destruct (nth_error (attrs x) k) eqn:E|destruct (nth_error (attrs x) i) eqn:E]; try (apply nth_error_None in E; lia); eexists; split; reflexivity.
  Qed.
  Lemma shown_rescaled l x : tabular shape l -> repeats f j k l -> In x l -> rescaled fu x (shown x).
  Proof.
    intros T R Hx. pose proof (tab_in _ _ _ T Hx) as Tx. split; [symmetry; apply shown_label|]. split; [unfold shown; destruct (nth_error (attrs x) k); reflexivity|].
    split; [unfold shown; destruct (nth_error (attrs x) k); [cbn [attrs]; symmetry; apply upd_length|reflexivity]|].
    intros i a b Ea Eb. rewrite shown_nth in Eb by exact Tx. unfold fu. destruct (Nat.eqb_spec i j) as [-> |Ne]; [exact (R x a b Hx Ea Eb)|].
    rewrite Ea in Eb. injection Eb as <-. destruct a as [| | |[q| | |]]; try reflexivity. cbn. ring.
  Qed.
  (** the bests of the two features on the same data in different orders *)
  Lemma rivals la lb cd l2 cd2 m l2' cd2' m' : tabular shape la -> la <> [] -> repeats f j k la -> Permutation la lb ->
    try_attr entropy mid (la, cd, nothing) (Z.of_nat j) = Ok (l2, cd2, m) -> try_attr entropy mid (lb, cd, nothing) (Z.of_nat k) = Ok (l2', cd2', m') -> deq (b_entropy m) (b_entropy m').
  Proof.
    intros T Hne R P E E'. assert (Tb : tabular shape lb) by exact (tab_perm _ _ _ P T).
    assert (Rb : repeats f j k lb) by (intros x a b Hx; apply R, (Permutation_in x (Permutation_sym P)), Hx).
    assert (SD : same_data fu la (map shown lb)).
    { exists lb. split; [exact P|]. assert (G : forall m, incl m lb -> Forall2 (rescaled fu) m (map shown m)); [|apply G, incl_refl].
      induction m0 as [|x m0 IH]; intros I; constructor; [apply (shown_rescaled lb); [exact Tb|exact Rb|apply I; left; reflexivity]|]. apply IH. intros y Hy. apply I. right. exact Hy. }
    destruct (try_attr_same entropy mid shape fu Hmid fu_incr la (map shown lb) cd nothing nothing j l2 cd2 m ltac:(lia) T Hne SD) as (_ & l3 & m3 & E3 & _ & (B & _)); [split; [reflexivity|]; split; [reflexivity|]; cbn; intros; lia|exact E|].
    rewrite B. assert (S : seen shown (Z.of_nat k) lb).
    { apply Forall_forall. intros x Hx. pose proof (tab_in _ _ _ Tb Hx) as Tx. destruct (shown_there x k Tx Hk) as (b & E1 & E2). destruct (Nat.eqb_spec k j) as [? |_]; [lia|]. rewrite (get_nth _ _ _ E1), (get_nth _ _ _ E2). reflexivity. }
    pose proof (h_try_attr shown shown_label entropy mid lb cd nothing (Z.of_nat k) S) as EH. rewrite E' in EH. unfold rmap in EH. cbn [bind fst snd] in EH.
    destruct (col_try_attr entropy mid (Z.of_nat j) (Z.of_nat k) (map shown lb)) with (2 := eq_refl (b_entropy nothing) : level nothing nothing) (3 := EH) as (m4 & E4 & L4).
    { intros x Hx. apply in_map_iff in Hx as (y & <- & Hy). pose proof (tab_in _ _ _ Tb Hy) as Ty. destruct (shown_there y k Ty Hk) as (b & E1 & E2). destruct (shown_there y j Ty ltac:(lia)) as (b' & E1' & E2').
      destruct (Nat.eqb_spec k j) as [? |_]; [lia|]. rewrite Nat.eqb_refl in E2'. rewrite (get_nth _ _ _ E1), (get_nth _ _ _ E1'). congruence. }
    unfold ilist in *. rewrite E4 in E3. injection E3 as _ _ <-. rewrite L4. reflexivity.
  Qed.
  (** nothing in the rest of the search makes the best worse or brings feature [k] in *)
  Lemma step_best i la cd B l2 cd2 B2 : i < length shape -> tabular shape la -> la <> [] -> try_attr entropy mid (la, cd, B) (Z.of_nat i) = Ok (l2, cd2, B2) ->
    (forall e, dltb e (b_entropy B) = false -> dltb e (b_entropy B2) = false) /\ (i <> k -> b_attr B <> Z.of_nat k -> b_attr B2 <> Z.of_nat k).
  Proof.
    intros Hi T Hne E. destruct (try_attr_opt entropy mid shape i la cd B l2 cd2 B2 Hi T Hne E) as (m & _ & N & F & O). unfold opt_up in O. destruct (dltb (b_entropy m) (b_entropy B)) eqn:L; [|subst B2; split; auto].
    destruct O as (O1 & O2 & _). split.
    - intros e He. rewrite O1. destruct (dltb e (b_entropy m)) eqn:L2; [|reflexivity]. rewrite (dlt_trans _ _ _ L2 L) in He. discriminate.
    - intros Hik _. rewrite O2. destruct F as [-> |F]; [|rewrite F; lia]. cbn [nothing b_entropy] in L. destruct (b_entropy B); discriminate.
  Qed.
  Lemma fold_best ns : (forall i, In i ns -> i < length shape /\ i <> k) -> forall data0 st st', tabular shape data0 -> data0 <> [] -> keeps entropy data0 st ->
    foldM (try_attr entropy mid) (map Z.of_nat ns) st = Ok st' ->
    keeps entropy data0 st' /\ (forall e, dltb e (b_entropy (snd st)) = false -> dltb e (b_entropy (snd st')) = false) /\ (b_attr (snd st) <> Z.of_nat k -> b_attr (snd st') <> Z.of_nat k).
  Proof.
    induction ns as [|i ns IH]; intros Hns data0 st st' T Hne K E; cbn [map foldM] in E; [injection E as <-; auto|].
    apply bind_ok in E as (s1 & E1 & E). pose proof (try_attr_keeps entropy mid data0 st _ s1 K E1) as K1. destruct (IH (fun i Hi => Hns i (or_intror Hi)) data0 s1 st' T Hne K1 E) as (A & B & C).
    destruct st as [[la cd] b], s1 as [[l1 cd1] b1]. destruct K as (P & _). cbn [fst snd] in *. destruct (Hns i (or_introl eq_refl)) as (Hi & Hik).
    destruct (step_best i la cd b l1 cd1 b1 Hi) with (3 := E1) as (S1 & S2); [exact (tab_perm _ _ _ P T)|intros ->; apply Hne, Permutation_nil, Permutation_sym, P|].
    split; [exact A|]. split; [intros e He; apply B, S1, He|intros Hb; apply C, S2; assumption].
  Qed.
  Lemma search_copy l l2 b : tabular shape l -> l <> [] -> repeats f j k l -> search entropy mid rarr None l = Ok (l2, b) -> b_attr b <> Z.of_nat k.
  Proof.
    intros T Hne R E. unfold search in E. apply bind_ok in E as (x0 & E0 & E). cbn [attr_order bind] in E. apply bind_ok in E as (((l9 & cd9) & b9) & Ef & E). injection E as <- <-.
    pose proof (tab_in _ _ _ T (atn_in _ _ _ E0)) as Tx. unfold attr_count in Ef. rewrite <- (Forall2_len _ _ _ Tx) in Ef. set (n := length shape) in *.
    assert (ES : seq 0 n = seq 0 j ++ j :: seq (S j) (k - S j) ++ k :: seq (S k) (n - S k)).
    { replace n with (j + (1 + ((k - S j) + (1 + (n - S k))))) at 1 by lia. rewrite !seq_app. cbn [seq app]. f_equal. f_equal. replace (0 + j + 1) with (S j) by lia. f_equal. replace (S j + (k - S j)) with k by lia. f_equal. f_equal. lia. }
    rewrite ES, map_app, HeapProofs.foldM_app in Ef. cbn [map foldM] in Ef. rewrite map_app in Ef. apply bind_ok in Ef as (s1 & F1 & Ef). apply bind_ok in Ef as (s2 & F2 & Ef). rewrite HeapProofs.foldM_app in Ef.
    apply bind_ok in Ef as (s3 & F3 & Ef). cbn [map foldM] in Ef. apply bind_ok in Ef as (s4 & F4 & F5).
    assert (K0 : keeps entropy l (l, class_distribution l, mkBest (entropy (class_distribution l)) (-1) d0)) by (split; [reflexivity|]; split; [reflexivity|apply dlt_irrefl]).
    destruct (fold_best (seq 0 j)) with (5 := F1) (data0 := l) as (K1 & _ & A1); try assumption; [intros i Hi; apply in_seq in Hi; unfold n in *; lia|].
    pose proof (try_attr_keeps entropy mid l _ _ _ K1 F2) as K2.
    destruct (fold_best (seq (S j) (k - S j))) with (5 := F3) (data0 := l) as (K3 & B3 & A3); try assumption; [intros i Hi; apply in_seq in Hi; unfold n in *; lia|].
    pose proof (try_attr_keeps entropy mid l _ _ _ K3 F4) as K4.
    destruct (fold_best (seq (S k) (n - S k))) with (5 := F5) (data0 := l) as (_ & _ & A5); try assumption; [intros i Hi; apply in_seq in Hi; unfold n in *; lia|].
    apply A5. destruct s1 as [[l1 c1] b1], s2 as [[l2' c2] b2], s3 as [[l3' c3] b3], s4 as [[l4 c4] b4]. cbn [fst snd] in *.
    assert (W : forall d c x, keeps entropy l (d, c, x) -> tabular shape d /\ d <> [] /\ repeats f j k d /\ c = class_distribution l /\ Permutation l d).
    { intros d c x (P & C & _). cbn [fst snd] in *. split; [exact (tab_perm _ _ _ P T)|]. split; [intros ->; apply Hne, Permutation_nil, Permutation_sym, P|]. split; [intros y u v Hy; apply R, (Permutation_in y (Permutation_sym P)), Hy|]. split; assumption. }
    destruct (W _ _ _ K1) as (T1 & N1 & R1 & C1 & P1). destruct (W _ _ _ K3) as (T3 & N3 & R3 & C3 & P3). clear W. subst c1 c3.
    assert (Hj : j < length shape) by lia.
    destruct (try_attr_opt entropy mid shape j _ _ _ _ _ _ Hj T1 N1 F2) as (m & Em & Nm & Fm & Om). destruct (try_attr_opt entropy mid shape k _ _ _ _ _ _ Hk T3 N3 F4) as (m' & Em' & Nm' & Fm' & Om').
    assert (D : deq (b_entropy m) (b_entropy m')) by (apply (rivals l1 l3' (class_distribution l)) with (5 := Em) (6 := Em'); try assumption; rewrite <- P1; exact P3).
    assert (L : dltb (b_entropy m') (b_entropy b3) = false).
    { rewrite <- (dltb_proper _ _ D _ _ (reflexivity _)). apply B3. unfold opt_up in Om. destruct (dltb (b_entropy m) (b_entropy b1)) eqn:L; [destruct Om as (-> & _); apply dlt_irrefl|subst b2; exact L]. }
    unfold opt_up in Om'. rewrite L in Om'. subst b4. apply A3.
    destruct (step_best j l1 _ b1 l2' c2 b2 Hj T1 N1 F2) as (_ & A2). apply A2; [lia|]. apply A1. cbn. lia.
  Qed.
  Lemma build_copy stump : forall fuel l c t, tabular shape l -> l <> [] -> repeats f j k l -> build entropy mid rarr None stump fuel l c = Ok t -> ignores k t.
  Proof.
    induction fuel as [|fuel IH]; intros l c t T Hne R E; [discriminate E|]. cbn [TreeModel.build] in E.
    destruct (length (distinct_labels l) =? 1); [injection E as <-; constructor|]. destruct (stump && negb (c_index c =? -1)%Z); [injection E as <-; constructor|].
    apply bind_ok in E as ((d & b) & Es & E). destruct (search_ok entropy mid shape Hent Hmid rarr None l Hrarr T Hne) as (d0' & b0 & Es0 & P0 & Hb). rewrite Es in Es0. injection Es0 as <- <-.
    destruct (Z.eqb_spec (b_attr b) (-1)) as [Eb|Eb]; [injection E as <-; constructor|]. destruct Hb as [Hb|Hb]; [contradiction|].
    assert (Td : tabular shape d) by exact (tab_perm _ _ _ P0 T). assert (Hned : d <> []) by (intros ->; apply Hne, Permutation_nil, Permutation_sym, P0).
    pose proof (search_copy l d b T Hne R Es) as Hbk. apply bind_ok in E as (parts & Ep & E). apply bind_ok in E as (ch & Ech & E). injection E as <-.
    destruct (split_proper shape d _ _ Td Hned Hb) as (parts2 & Ep2 & (O3 & Pp & _) & P2 & Pne). rewrite Ep in Ep2. injection Ep2 as <-.
    assert (Sub : Forall (fun p => incl (snd p) l) parts).
    { apply Forall_forall. intros p Hp x Hx. apply (Permutation_in x (Permutation_sym P0)), (Permutation_in x O3), in_concat. exists (snd p). split; [apply in_map, Hp|exact Hx]. }
    pose proof (split_index _ _ _ _ Ep) as SI. apply mapM_ok in Ech.
    assert (G : Forall (fun n => c_index (t_cond n) <> Z.of_nat k) ch /\ Forall (ignores k) ch); [|destruct G; constructor; assumption].
    clear - IH Ech Sub Pne SI Hbk T R. induction Ech as [|p t parts ch Et _ IHp]; [split; constructor|]. inversion Sub; inversion Pne; inversion SI; subst. destruct IHp as (G1 & G2); try assumption.
    split; constructor; try assumption.
    - rewrite (build_cond _ _ _ _ _ _ _ _ _ Et). congruence.
    - apply (IH (snd p) (fst p)); try assumption; [apply (tab_incl shape l); assumption|]. intros x u v Hx. apply R. auto.
  Qed.
End Copy.
