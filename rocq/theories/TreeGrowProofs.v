(** Proofs about the decision tree model: children, growing, predicting, pruning. *)
From Coq Require Import String ZArith QArith Bool Lia Permutation Lqa List.
From Verif Require Import Base Spec BaseLemmas DblLemmas AttrModel InstanceListModel PartitionModel PerformanceModel
  ListSpec ListProofs DataSetProofs PartitionProofs TreeModel TreeSpec TreeProofs.
Import ListNotations.
Local Open Scope string_scope.
Local Open Scope list_scope.
Local Open Scope nat_scope.

(** * Conditions on well typed instances *)
(** the condition tests a column of its own kind *)
Definition fits (shape : list kind) (c : condition) : Prop :=
  exists j kd, c_index c = Z.of_nat j /\ nth_error shape j = Some kd /\
    match c_value c, kd with
    | Some (ADisc _), KDisc => True
    | Some (AIdx _ _ _), KIdx _ => True
    | Some (ACont _), KCont => c_cmp c <> CEq
    | _, _ => False
    end.
Lemma feature_fun x k a b : feature x k a -> feature x k b -> a = b.
Proof. intros [_ H] [_ H']. congruence. Qed.
Lemma satisfy_spec shape c x : fits shape c -> typed shape x -> exists b, satisfy c x = Ok b /\ (b = true <-> satisfied c x).
Proof.
  intros (j & kd & Hj & Hk & Hm) Hx. unfold satisfy, satisfied. rewrite Hj.
  destruct (c_value c) as [[v|v|v i m|t]|]; destruct kd; try contradiction.
  - pose proof (typed_disc _ x j Hx Hk) as Hf. rewrite (proj2 (disc_at_ok _ _ (colD (Z.of_nat j) x))).
    2:{ eexists; split; [exact Hf|left; reflexivity]. }
    cbn [bind]. eexists; split; [reflexivity|]. rewrite String.eqb_eq. split.
    + intros <-. eexists; split; [exact Hf|reflexivity].
    + intros (a & Ha & ->). pose proof (feature_fun _ _ _ _ Hf Ha) as E. injection E as E. exact E.
  - destruct (typed_idx _ x j m0 Hx Hk) as [s Hf]. destruct (Z.eqb_spec i (-1)) as [->|Hi].
    + exists true. split; [reflexivity|]. split; [|reflexivity]. intros _. eexists; split; [exact Hf|left; reflexivity].
    + rewrite (proj2 (index_at_ok _ _ (colI (Z.of_nat j) x))) by (eexists _, _; exact Hf).
      cbn [bind]. eexists; split; [reflexivity|]. rewrite Z.eqb_eq. split.
      * intros <-. eexists; split; [exact Hf|right; eexists _, _; reflexivity].
      * intros (a & Ha & [H|(s' & m' & ->)]); [contradiction|]. pose proof (feature_fun _ _ _ _ Hf Ha) as E. injection E as _ E _. exact E.
  - pose proof (typed_cont _ x j Hx Hk) as Hf.
    destruct (c_cmp c); [contradiction Hm; reflexivity| |];
      rewrite (proj2 (cont_at_ok _ _ _) Hf); cbn [bind]; eexists; split; [reflexivity| |reflexivity|]; (split;
      [intros H; eexists; split; [exact Hf|]; eexists; split; [reflexivity|exact H]
      |intros (a & Ha & w & -> & H); pose proof (feature_fun _ _ _ _ Hf Ha) as E; injection E as E; rewrite E; exact H]).
Qed.

(** * Splitting *)
Definition cut_ok (kd : kind) (v : dbl) : Prop :=
  match kd with KBin => False | KDisc => True | KIdx _ => exists w, v = dofnat w | KCont => is_nan v = false end.
Lemma routed_two c0 c1 i x : routed [c0; c1] i x <-> (i = 0 /\ satisfied c0 x) \/ (i = 1 /\ satisfied c1 x /\ ~ satisfied c0 x).
Proof.
  unfold routed. split.
  - intros ((c & Hc & Hs) & Hn). destruct i as [|[|i]]; simpl in Hc.
    + injection Hc as <-. left. split; [reflexivity|exact Hs].
    + injection Hc as <-. right. split; [reflexivity|]. split; [exact Hs|]. exact (Hn 0 c0 ltac:(lia) eq_refl).
    + destruct i; discriminate Hc.
  - intros [[-> H]|(-> & H & Hn)].
    + split; [exists c0; split; [reflexivity|exact H]|]. intros j c Hj. lia.
    + split; [exists c1; split; [reflexivity|exact H]|]. intros j c Hj Hc. destruct j; [|lia]. simpl in Hc. injection Hc as <-. exact Hn.
Qed.
Lemma mapM_zip {A B C} (F : A -> B) (G : A -> C) vs : forall pre,
  mapM (fun iv => do g <- atn (pre ++ map G vs) (fst iv); Ok (F (snd iv), g)) (combine (seq (length pre) (length vs)) vs)
  = Ok (map (fun v => (F v, G v)) vs).
Proof.
  induction vs as [|v vs IH]; intros pre; [reflexivity|]. cbn [length seq combine mapM fst snd].
  assert (atn (pre ++ map G (v :: vs)) (length pre) = Ok (G v)) as ->.
  { apply atn_ok. rewrite nth_error_app2 by lia. rewrite Nat.sub_diag. reflexivity. }
  cbn [bind]. specialize (IH (pre ++ [G v])). rewrite app_length in IH. cbn [length] in IH. rewrite Nat.add_1_r in IH.
  rewrite <- app_assoc in IH. cbn [app] in IH. cbn [map]. rewrite IH. reflexivity.
Qed.
Lemma to_int_nat w : to_int (dofnat w) = Z.of_nat w.
Proof. unfold to_int, dofnat. simpl. apply Z.quot_1_r. Qed.

Definition parts_ok (shape : list kind) (data : list instance) (parts : list (condition * list instance)) : Prop :=
  Permutation (concat (map snd parts)) data /\ Forall (fun p => fits shape (fst p)) parts /\
  Forall (fun p => (0 <= c_index (fst p))%Z) parts /\
  forall i c g x, nth_error parts i = Some (c, g) -> In x data -> (In x g <-> routed (map fst parts) i x).
Lemma fits_nonneg shape c : fits shape c -> (0 <= c_index c)%Z.
Proof. intros (j & kd & -> & _). lia. Qed.

Lemma two_parts shape data c0 c1 (f : instance -> bool) :
  fits shape c0 -> fits shape c1 -> (forall x, In x data -> f x = true <-> satisfied c0 x) ->
  (forall x, In x data -> f x = false -> satisfied c1 x) ->
  parts_ok shape data [(c0, filter f data); (c1, filter (fun x => negb (f x)) data)].
Proof.
  intros F0 F1 H0 H1. split; [|split; [|split]].
  - simpl. rewrite app_nil_r. apply Permutation_sym, filter_split.
  - repeat constructor; assumption.
  - pose proof (fits_nonneg _ _ F0). pose proof (fits_nonneg _ _ F1). repeat constructor; assumption.
  - intros i c g x Hi Hx. cbn [map fst]. rewrite routed_two.
    destruct i as [|[|i]]; simpl in Hi; [| |destruct i; discriminate Hi]; injection Hi as <- <-; rewrite filter_In.
    + split; [intros [_ E]; left; split; [reflexivity|apply H0; assumption]|].
      intros [[_ E]|(E & _)]; [|discriminate E]. split; [exact Hx|apply H0; assumption].
    + split.
      * intros [_ E]. apply negb_true_iff in E. right. split; [reflexivity|]. split; [apply H1; assumption|].
        intros Hs. apply (H0 x Hx) in Hs. congruence.
      * intros [[E _]|(_ & _ & E)]; [discriminate E|]. split; [exact Hx|]. apply negb_true_iff. destruct (f x) eqn:Ef; [|reflexivity].
        contradiction E. apply H0; assumption.
Qed.
Lemma satisfied_idx shape x j m0 s i m : typed shape x -> nth_error shape j = Some (KIdx m0) ->
  satisfied (mkCond (Z.of_nat j) CEq (Some (AIdx s i m))) x <-> i = (-1)%Z \/ colI (Z.of_nat j) x = i.
Proof.
  intros Hx Hk. destruct (typed_idx _ x j m0 Hx Hk) as [s' Hf]. unfold satisfied; cbn [c_index c_value]. split.
  - intros (a & Ha & [H|(s1 & m1 & ->)]); [left; exact H|]. right.
    pose proof (feature_fun _ _ _ _ Hf Ha) as E. injection E as _ E _. exact E.
  - intros H. eexists; split; [exact Hf|]. destruct H as [H| <-]; [left; exact H|right; eexists _, _; reflexivity].
Qed.
Lemma satisfied_disc shape x j v : typed shape x -> nth_error shape j = Some KDisc ->
  satisfied (mkCond (Z.of_nat j) CEq (Some (ADisc v))) x <-> colD (Z.of_nat j) x = v.
Proof.
  intros Hx Hk. pose proof (typed_disc _ x j Hx Hk) as Hf. unfold satisfied; cbn [c_index c_value]. split.
  - intros (a & Ha & ->). pose proof (feature_fun _ _ _ _ Hf Ha) as E. injection E as E. exact E.
  - intros <-. eexists; split; [exact Hf|reflexivity].
Qed.
Lemma satisfied_cont shape x j t o : typed shape x -> nth_error shape j = Some KCont ->
  satisfied (mkCond (Z.of_nat j) o (Some (ACont t))) x <->
  match o with CLt => dleb (Fin (colC (Z.of_nat j) x)) t = true | CGt => dltb t (Fin (colC (Z.of_nat j) x)) = true | CEq => False end.
Proof.
  intros Hx Hk. pose proof (typed_cont _ x j Hx Hk) as Hf. unfold satisfied; cbn [c_index c_value c_cmp]. split.
  - intros (a & Ha & v & -> & H). pose proof (feature_fun _ _ _ _ Hf Ha) as E. injection E as E. rewrite E. exact H.
  - intros H. eexists; split; [exact Hf|]. eexists; split; [reflexivity|exact H].
Qed.
Lemma split_spec shape data j kd v :
  tabular shape data -> data <> [] -> nth_error shape j = Some kd -> cut_ok kd v ->
  exists parts, split data (Z.of_nat j) v = Ok parts /\ parts_ok shape data parts /\
    parts = match kd with
            | KDisc => map (fun w => (mkCond (Z.of_nat j) CEq (Some (ADisc w)), filter (fun x => String.eqb w (colD (Z.of_nat j) x)) data))
                           (fold_left push_new (map (colD (Z.of_nat j)) data) [])
            | KIdx m => [(mkCond (Z.of_nat j) CEq (Some (AIdx "" (to_int v) m)), filter (fun x => (to_int v =? colI (Z.of_nat j) x)%Z) data);
                         (mkCond (Z.of_nat j) CEq (Some (AIdx "" (-1) m)), filter (fun x => negb (to_int v =? colI (Z.of_nat j) x)%Z) data)]
            | KCont => [(mkCond (Z.of_nat j) CLt (Some (ACont v)), filter (fun x => dleb (Fin (colC (Z.of_nat j) x)) v) data);
                        (mkCond (Z.of_nat j) CGt (Some (ACont v)), filter (fun x => negb (dleb (Fin (colC (Z.of_nat j) x)) v)) data)]
            | KBin => []
            end.
Proof.
  intros Ht Hne Hk Hv. unfold split. destruct data as [|x0 data1] eqn:Ed; [contradiction|]. rewrite <- Ed in *.
  assert (atn data 0 = Ok x0) as -> by (rewrite Ed; reflexivity). cbn [bind].
  assert (forall x, In x data -> typed shape x) as HT by (apply Forall_forall, Ht).
  destruct (typed_at _ x0 _ _ (HT x0 ltac:(rewrite Ed; left; reflexivity)) Hk) as (a & _ & Ha & -> & _). cbn [bind].
  destruct kd as [| |m|]; simpl in Ha, Hv.
  - destruct Ha as [w0 ->]. cbn [isDiscreteIndexed isDiscrete].
    destruct (part_disc_spec _ _ _ (tab_text _ _ _ Ht Hk)) as (values & Hval & -> & HP & _). rewrite Hval. cbn [bind].
    rewrite (value_list_ok _ _ _ (tab_text _ _ _ Ht Hk)) in Hval. injection Hval as Hval. rewrite <- Hval in *. clear Hval.
    set (vs := fold_left push_new (map (colD (Z.of_nat j)) data) []) in *.
    exists (map (fun w => (mkCond (Z.of_nat j) CEq (Some (ADisc w)), filter (fun x => String.eqb w (colD (Z.of_nat j) x)) data)) vs).
    split.
    { etransitivity; [exact (mapM_zip (fun v => mkCond (Z.of_nat j) CEq (Some (ADisc v))) (fun v => select (String.eqb v) (map (colD (Z.of_nat j)) data) data) vs [])|].
      f_equal. apply map_ext. intros w. rewrite select_map. reflexivity. }
    split; [|reflexivity].
    assert (NoDup vs) as Hnd by (apply push_new_nodup; constructor).
    split; [|split; [|split]].
    + rewrite map_map. cbn [snd]. etransitivity; [|exact HP]. apply Permutation_refl'. f_equal. apply map_ext.
      intros w. rewrite select_map. reflexivity.
    + apply Forall_forall. intros p Hp. apply in_map_iff in Hp. destruct Hp as (w & <- & _). exists j, KDisc. repeat split; assumption.
    + apply Forall_forall. intros p Hp. apply in_map_iff in Hp. destruct Hp as (w & <- & _). simpl. lia.
    + intros i c g x Hi Hx. rewrite map_map. cbn [fst]. rewrite nth_error_map in Hi.
      destruct (nth_error vs i) as [w|] eqn:Ew; [|discriminate Hi]. simpl in Hi. injection Hi as <- <-. rewrite filter_In, String.eqb_eq.
      unfold routed. split.
      * intros [_ ->]. split.
        -- eexists. split; [exact (map_nth_error _ _ _ Ew)|]. apply (satisfied_disc shape); [exact (HT x Hx)|exact Hk|reflexivity].
        -- intros i' c Hi' Hc. rewrite nth_error_map in Hc. destruct (nth_error vs i') as [w'|] eqn:Ew'; [|discriminate Hc].
           simpl in Hc. injection Hc as <-. rewrite (satisfied_disc shape x j w' (HT x Hx) Hk). intros <-.
           assert (i' < length vs) as Hl by (apply nth_error_Some; congruence).
           pose proof (proj1 (NoDup_nth_error vs) Hnd i' i Hl ltac:(congruence)). lia.
      * intros [(c & Hc & Hs) _]. split; [exact Hx|]. rewrite nth_error_map, Ew in Hc. simpl in Hc. injection Hc as <-.
        apply (satisfied_disc shape x j w (HT x Hx) Hk) in Hs. congruence.
  - contradiction.
  - destruct Ha as (s & i & ->). destruct Hv as [w ->]. cbn [isDiscreteIndexed idx_max bind].
    rewrite (proj1 (part_idx_spec _ (to_int (dofnat w)) _ _ (tab_index _ _ _ _ Ht Hk))). cbn [bind atn nth_error]. rewrite !select_map.
    eexists; split; [reflexivity|]. split; [|reflexivity]. rewrite to_int_nat. apply two_parts.
    + exists j, (KIdx m). repeat split; assumption.
    + exists j, (KIdx m). repeat split; assumption.
    + intros x Hx. rewrite (satisfied_idx shape x j m _ _ _ (HT x Hx) Hk), Z.eqb_eq. split; [intros <-; right; reflexivity|].
      intros [H|H]; [lia|congruence].
    + intros x Hx _. apply (satisfied_idx shape x j m _ _ _ (HT x Hx) Hk). left; reflexivity.
  - destruct Ha as (q & ->). cbn [isDiscreteIndexed isDiscrete isContinuous].
    rewrite (proj1 (part_cont_spec _ v _ _ (tab_num _ _ _ Ht Hk))). cbn [bind atn nth_error]. rewrite !select_map.
    eexists; split; [reflexivity|]. split; [|reflexivity]. apply two_parts.
    + exists j, KCont. repeat split; try assumption. discriminate.
    + exists j, KCont. repeat split; try assumption. discriminate.
    + intros x Hx. rewrite (satisfied_cont shape x j v CLt (HT x Hx) Hk). reflexivity.
    + intros x Hx Hf. apply (satisfied_cont shape x j v CGt (HT x Hx) Hk).
      destruct v; simpl in *; try discriminate; try reflexivity. apply dltb_fin. apply dleb_fin_false in Hf. exact Hf.
Qed.

Lemma push_two k l x y : In x l -> In y l -> colD k x <> colD k y -> 2 <= length (fold_left push_new (map (colD k) l) []).
Proof.
  intros Hx Hy Hn. set (vs := fold_left push_new (map (colD k) l) []).
  assert (In (colD k x) vs) as Ix by (apply push_new_in; right; apply in_map, Hx).
  assert (In (colD k y) vs) as Iy by (apply push_new_in; right; apply in_map, Hy).
  destruct vs as [|a [|b vs]]; simpl in *; try contradiction; [|lia].
  destruct Ix as [Ex|[]]. destruct Iy as [Ey|[]]. congruence.
Qed.
Lemma filter_ne {A} (f : A -> bool) l x : In x l -> f x = true -> filter f l <> [].
Proof. intros Hx Hf E. assert (In x (filter f l)) as H by (apply filter_In; split; assumption). rewrite E in H. contradiction. Qed.
Lemma split_proper shape data k v :
  tabular shape data -> data <> [] -> proper shape data k v ->
  exists parts, split data k v = Ok parts /\ parts_ok shape data parts /\ 2 <= length parts /\ Forall (fun p => snd p <> []) parts.
Proof.
  intros Ht Hne (j & -> & H).
  destruct H as [(m & w & A & -> & (x & Hx & C) & (y & Hy & D))|[(A & x & y & Hx & Hy & D)|(A & q & x & y & -> & Hx & Hy & C & D)]].
  - destruct (split_spec shape data j _ (dofnat w) Ht Hne A) as (parts & E & P & Ep); [exists w; reflexivity|].
    exists parts. split; [exact E|]. split; [exact P|]. rewrite Ep, to_int_nat. split; [simpl; lia|]. repeat constructor; simpl.
    + apply (filter_ne _ _ x Hx). apply Z.eqb_eq. congruence.
    + apply (filter_ne _ _ y Hy). apply negb_true_iff, Z.eqb_neq. congruence.
  - destruct (split_spec shape data j _ v Ht Hne A I) as (parts & E & P & Ep).
    exists parts. split; [exact E|]. split; [exact P|]. rewrite Ep. split; [rewrite map_length; exact (push_two _ _ x y Hx Hy D)|].
    apply Forall_forall. intros p Hp. apply in_map_iff in Hp. destruct Hp as (w & <- & Hw). simpl.
    apply push_new_in in Hw. destruct Hw as [[]|Hw]. apply in_map_iff in Hw. destruct Hw as (z & <- & Hz).
    apply (filter_ne _ _ z Hz), String.eqb_refl.
  - destruct (split_spec shape data j _ (Fin q) Ht Hne A eq_refl) as (parts & E & P & Ep).
    exists parts. split; [exact E|]. split; [exact P|]. rewrite Ep. split; [simpl; lia|]. repeat constructor; cbn [snd].
    + apply (filter_ne _ _ x Hx). apply dleb_fin. exact C.
    + apply (filter_ne _ _ y Hy). apply negb_true_iff, dleb_fin_false. exact D.
Qed.
Lemma concat_smaller {A} (gs : list (list A)) l : Permutation (concat gs) l -> 2 <= length gs -> Forall (fun g => g <> []) gs ->
  Forall (fun g => g <> [] /\ length g < length l) gs.
Proof.
  intros HP H2 Hn. rewrite <- (Permutation_length HP). clear HP l. apply Forall_forall. intros g Hg.
  split; [exact (proj1 (Forall_forall _ _) Hn g Hg)|].
  destruct (in_split g gs Hg) as (l1 & l2 & ->). rewrite concat_app, app_length. cbn [concat]. rewrite app_length.
  assert (forall l : list (list A), Forall (fun g => g <> []) l -> l <> [] -> 0 < length (concat l)) as Hpos.
  { intros [|h t] Hf Hl; [contradiction|]. inversion Hf; subst. simpl. rewrite app_length. destruct h; [contradiction|simpl; lia]. }
  apply Forall_app in Hn. destruct Hn as [Hn1 Hn2]. inversion Hn2; subst. rewrite app_length in H2. simpl in H2.
  destruct l1 as [|a l1]; [|pose proof (Hpos (a :: l1) Hn1 ltac:(discriminate)); lia].
  destruct l2 as [|b l2]; [simpl in H2; lia|]. pose proof (Hpos (b :: l2) ltac:(assumption) ltac:(discriminate)). lia.
Qed.

(** * Growing *)
Lemma tree_rect2 (P : tree -> Prop) : (forall lab leaf d c ch, Forall P ch -> P (Node lab leaf d c ch)) -> forall t, P t.
Proof.
  intros H. fix IH 1. intros [lab leaf d c ch]. apply H. induction ch as [|t ch IHch]; constructor; [apply IH|exact IHch].
Qed.
(** every condition below the root fits the columns *)
Inductive fits_tree (shape : list kind) : tree -> Prop :=
| fits_node lab leaf d c ch : Forall (fun t => fits shape (t_cond t)) ch -> Forall (fits_tree shape) ch -> fits_tree shape (Node lab leaf d c ch).

Lemma get_maximum_majority data : data <> [] -> majority (map label data) (get_maximum (class_labels data)).
Proof.
  intros H. apply get_maximum_spec. intros E. apply H. apply map_eq_nil in E. exact E.
Qed.
Lemma Forall2_of_map {A B C} (R : B -> C -> Prop) (f : A -> B) (g : A -> C) l :
  (forall x, In x l -> R (f x) (g x)) -> Forall2 R (map f l) (map g l).
Proof. induction l as [|x l IH]; simpl; intros H; constructor; [apply H; left; reflexivity|apply IH; intros; apply H; right; assumption]. Qed.
Lemma mapM_forall {A B} (f : A -> res B) (P : A -> B -> Prop) l : (forall x, In x l -> exists y, f x = Ok y /\ P x y) ->
  exists ys, mapM f l = Ok ys /\ Forall2 P l ys.
Proof.
  induction l as [|x l IH]; intros H; [exists []; split; [reflexivity|constructor]|].
  destruct (H x (or_introl eq_refl)) as (y & E & Py). destruct IH as (ys & Es & Ps); [intros; apply H; right; assumption|].
  exists (y :: ys). cbn [mapM]. rewrite E. cbn [bind]. rewrite Es. split; [reflexivity|constructor; assumption].
Qed.

Section Grow.
  Context (entropy : counter -> dbl) (mid : dbl -> dbl -> dbl) (rarr : nat -> Z -> list nat) (shape : list kind).
  Hypothesis Hent : entropy_finite entropy.
  Hypothesis Hmid : mid_exact mid.
  Hypothesis Hrarr : rarr_perm rarr.

  Lemma build_ok param stump : forall fuel data c, tabular shape data -> data <> [] -> length data <= fuel ->
    exists t, build entropy mid rarr param stump fuel data c = Ok t /\ grown data t /\ t_cond t = c /\ fits_tree shape t.
  Proof.
    induction fuel as [|f IH]; intros data c Ht Hne Hf.
    { destruct data; [contradiction|simpl in Hf; lia]. }
    cbn [build].
    assert (majority (map label data) (get_maximum (class_labels data))) as Hmaj by (apply get_maximum_majority, Hne).
    assert (forall l, ccount (fold_left cput (class_labels data) []) l = occ (map label data) l) as Hdist by (intros l; apply ccount_cofl).
    assert (exists t, Ok (Node (get_maximum (class_labels data)) true (fold_left cput (class_labels data) []) c []) = Ok t
              /\ grown data t /\ t_cond t = c /\ fits_tree shape t) as Hleaf.
    { eexists; split; [reflexivity|]. split; [constructor; assumption|]. split; [reflexivity|]. constructor; constructor. }
    destruct (length (distinct_labels data) =? 1); [exact Hleaf|].
    destruct (stump && negb (c_index c =? -1)%Z); [exact Hleaf|].
    destruct (search_ok entropy mid shape Hent Hmid rarr param data Hrarr Ht Hne) as (data' & b & Es & HP & Hb). rewrite Es. cbn [bind].
    destruct (Z.eqb_spec (b_attr b) (-1)) as [Eb|Eb]; [exact Hleaf|]. destruct Hb as [Hb|Hb]; [contradiction|].
    assert (data' <> []) as Hne'. { intros ->. apply Hne, Permutation_nil, Permutation_sym, HP. }
    destruct (split_proper shape data' _ _ (tab_perm _ _ _ HP Ht) Hne' Hb) as (parts & Esp & (P1 & P2 & P3 & P4) & H2 & Hnon).
    rewrite Esp. cbn [bind].
    assert (Permutation (concat (map snd parts)) data) as HPc by (etransitivity; [exact P1|apply Permutation_sym, HP]).
    assert (Forall (fun g => g <> [] /\ length g < length data) (map snd parts)) as Hsm.
    { apply concat_smaller; [exact HPc|rewrite map_length; exact H2|]. apply Forall_map. exact Hnon. }
    destruct (mapM_forall (fun p => build entropy mid rarr param stump f (snd p) (fst p))
                (fun p t => grown (snd p) t /\ t_cond t = fst p /\ fits_tree shape t) parts) as (ch & Ech & Hch).
    { intros p Hp. assert (In (snd p) (map snd parts)) as Hin by (apply in_map, Hp).
      destruct (proj1 (Forall_forall _ _) Hsm _ Hin) as [N L]. apply IH; [|exact N|lia].
      apply (tab_incl _ data); [|exact Ht]. intros x Hx. apply (Permutation_in _ HPc). apply in_concat. exists (snd p). split; assumption. }
    rewrite Ech. cbn [bind]. eexists; split; [reflexivity|].
    assert (map t_cond ch = map fst parts) as Hc.
    { clear - Hch. induction Hch as [|p t parts ch (_ & E & _) _ IH]; [reflexivity|]. simpl. rewrite E, IH. reflexivity. }
    split; [|split; [reflexivity|]].
    - apply grown_inner with (groups := map snd parts); try assumption.
      + rewrite <- (Forall2_len _ _ _ Hch). exact H2.
      + intros i g x Hi Hx. rewrite Hc. rewrite nth_error_map in Hi. destruct (nth_error parts i) as [[cd g']|] eqn:Ei; [|discriminate Hi].
        simpl in Hi. injection Hi as <-. apply (P4 i cd g' x Ei). apply (Permutation_in _ HP), Hx.
      + apply Forall2_map_l. refine (Forall2_imp _ _ _ _ _ Hch). intros p t (G & _). exact G.
    - constructor.
      + apply Forall_forall. intros t Hin. assert (In (t_cond t) (map fst parts)) as Hin' by (rewrite <- Hc; apply in_map, Hin).
        apply in_map_iff in Hin'. destruct Hin' as (p & <- & Hp). exact (proj1 (Forall_forall _ _) P2 p Hp).
      + clear - Hch. induction Hch as [|p t parts ch (_ & _ & F) _ IH]; constructor; assumption.
  Qed.
  Lemma build_leaf_shape param stump : forall fuel data c t, build entropy mid rarr param stump fuel data c = Ok t ->
    stump = true -> c_index c <> (-1)%Z -> t_leaf t = true /\ t_children t = [].
  Proof.
    intros [|f] data c t H -> Hc; [discriminate H|]. cbn [build] in H. destruct (length (distinct_labels data) =? 1).
    - injection H as <-. split; reflexivity.
    - apply Z.eqb_neq in Hc. rewrite Hc in H. simpl in H. injection H as <-. split; reflexivity.
  Qed.
  Lemma build_stump param fuel data c t : tabular shape data -> data <> [] ->
    build entropy mid rarr param true fuel data c = Ok t ->
    Forall (fun n => t_leaf n = true /\ t_children n = []) (t_children t).
  Proof.
    intros Ht Hne H. destruct fuel as [|f]; [discriminate H|]. cbn [build] in H.
    destruct (length (distinct_labels data) =? 1); [injection H as <-; constructor|].
    destruct (true && negb (c_index c =? -1)%Z); [injection H as <-; constructor|].
    destruct (search_ok entropy mid shape Hent Hmid rarr param data Hrarr Ht Hne) as (data' & b & Es & HP & Hb). rewrite Es in H. cbn [bind] in H.
    destruct (Z.eqb_spec (b_attr b) (-1)) as [Eb|Eb]; [injection H as <-; constructor|]. destruct Hb as [Hb|Hb]; [contradiction|].
    assert (data' <> []) as Hne'. { intros ->. apply Hne, Permutation_nil, Permutation_sym, HP. }
    destruct (split_proper shape data' _ _ (tab_perm _ _ _ HP Ht) Hne' Hb) as (parts & Esp & (P1 & P2 & P3 & P4) & H2 & Hnon).
    rewrite Esp in H. cbn [bind] in H. apply bind_ok in H. destruct H as (ch & Ech & H). injection H as <-. cbn [t_children].
    apply mapM_ok in Ech. clear - Ech P3. revert P3; induction Ech as [|p t parts ch E _ IH]; intros P3; [constructor|].
    inversion P3; subst. constructor; [|apply IH; assumption]. refine (build_leaf_shape _ _ _ _ _ _ E eq_refl _).
    assert (0 <= c_index (@fst condition ilist p))%Z as Hp by assumption. lia.
  Qed.
End Grow.
