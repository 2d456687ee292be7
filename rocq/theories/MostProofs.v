(** Proofs for C158. *)
From Coq Require Import String ZArith QArith Bool Lia Lqa Permutation List.
From Verif Require Import Base Spec BaseLemmas DblLemmas AttrModel InstanceListModel PartitionModel PerformanceModel PerformanceProofs ListSpec ListProofs PartitionProofs
  DistanceModel TreeModel TreeSpec TreeProofs TreeGrowProofs TreePredictProofs TreeProbProps EnsembleModel EnsembleProofs EnsembleProps GaussianModel NetModel KernelProofs GaussianProofs
  SoftModel LibModel MostModel MostSpec.
Import ListNotations.
Local Open Scope string_scope.
Local Open Scope list_scope.
Local Open Scope nat_scope.

(** * Counts *)
Lemma shares vs : vs <> [] -> probabilities (cofl vs) = map (fun kv => (fst kv, Fin (qofn (snd kv) / qofn (length vs)))) (cofl vs).
Proof.
  intros H. assert (0 < csum (cofl vs)) by (rewrite csum_cofl; destruct vs; [congruence|simpl; lia]). rewrite probabilities_fin by assumption. rewrite csum_cofl. reflexivity.
Qed.
Lemma share_find vs c : vs <> [] -> mfind c (probabilities (cofl vs)) = if in_dec string_dec c vs then Some (Fin (qofn (occ vs c) / qofn (length vs))) else None.
Proof.
  intros H. rewrite shares by exact H. rewrite (mfind_map (fun kv => Fin (qofn (snd kv) / qofn (length vs)))). cbn [snd].
  pose proof (ccount_cofl vs c) as C. unfold ccount in C. unfold occ. rewrite <- C.
  destruct (mfind c (cofl vs)) as [n|] eqn:F; destruct (in_dec string_dec c vs) as [I|N]; try reflexivity; exfalso.
  - apply N. apply in_cofl. destruct (in_dec string_dec c (mkeys (cofl vs))) as [Y|Y]; [exact Y|]. apply mfind_none in Y. congruence.
  - apply in_cofl in I. apply mfind_none in F. tauto.
Qed.
Lemma counts_most vs (allowed : string -> Prop) c : (forall c', allowed c' -> occ vs c' <= occ vs c) -> most (probabilities (cofl vs)) allowed c.
Proof.
  intros H c' v' A F. destruct vs as [|v vs]; [discriminate F|]. rewrite share_find in F by discriminate. rewrite share_find by discriminate. set (ws := v :: vs) in *.
  assert (Z : 0 < length ws) by (cbn; lia). destruct (in_dec string_dec c' ws) as [I|]; [|discriminate F]. injection F as <-.
  assert (0 < occ ws c') by (apply (proj1 (count_occ_In string_dec ws c')); exact I). specialize (H c' A).
  destruct (in_dec string_dec c ws) as [I'|N]; [|exfalso; apply N; apply (count_occ_In string_dec); unfold occ in *; lia].
  eexists _, _. split; [reflexivity|]. split; [reflexivity|]. pose proof (qofn_pos _ Z) as P.
  unfold Qdiv. apply Qmult_le_compat_r; [apply qofn_le; exact H|]. apply Qlt_le_weak, Qinv_lt_0_compat, P.
Qed.
Lemma maximum_most vs allowed : most (probabilities (cofl vs)) allowed (get_maximum vs).
Proof.
  destruct vs as [|v vs]; [intros c' v' _ F; discriminate F|]. apply counts_most. intros c' _. apply get_maximum_spec. discriminate.
Qed.

(** * Trees *)
Inductive fair (full : bool) : tree -> Prop :=
| fair_node ls leaf c ch : (full = true -> ls <> []) -> Forall (fair full) ch -> fair full (Node (get_maximum ls) leaf (cofl ls) c ch).
Lemma build_fair entropy mid rarr param stump : forall fuel data c t, build entropy mid rarr param stump fuel data c = Ok t -> fair (negb stump) t.
Proof.
  induction fuel as [|f IH]; intros data c t E; [discriminate E|]. cbn [build] in E. fold (cofl (class_labels data)) in E.
  assert (N : forall ch leaf, data <> [] -> Forall (fair (negb stump)) ch -> fair (negb stump) (Node (get_maximum (class_labels data)) leaf (cofl (class_labels data)) c ch)).
  { intros ch leaf Hd F. constructor; [intros _ X|exact F]. apply map_eq_nil in X. contradiction. }
  destruct (length (distinct_labels data) =? 1) eqn:E1; [injection E as <-; apply N; [intros ->; discriminate E1|constructor]|].
  destruct (stump && negb (c_index c =? -1)%Z) eqn:E2; [injection E as <-; apply andb_true_iff in E2 as [-> _]; constructor; [discriminate|constructor]|].
  destruct (search entropy mid rarr param data) as [[data' b]| | |] eqn:Es; try discriminate. cbn [bind] in E.
  assert (Hd : data <> []) by (intros ->; discriminate Es).
  destruct (b_attr b =? -1)%Z; [injection E as <-; apply N; [exact Hd|constructor]|].
  destruct (split data' (b_attr b) (b_value b)) as [parts| | |]; try discriminate. cbn [bind] in E.
  destruct (mapM _ parts) as [ch| | |] eqn:Em; try discriminate. cbn [bind] in E. injection E as <-.
  apply N; [exact Hd|]. apply mapM_ok in Em. clear - Em IH. induction Em; constructor; eauto.
Qed.
Lemma pruned_fair full : forall t t', fair full t -> pruned t t' -> fair full t'.
Proof.
  induction t as [lab leaf d c ch IH] using tree_rect2. intros t' F P. inversion F as [ls lf cc chh Hl Hc]; subst. inversion P as [? ? ? ? ? ? ch' _ Hp]; subst.
  constructor; [exact Hl|]. clear - IH Hc Hp. revert ch' Hp. induction IH as [|t ch Ht _ IHc]; intros ch' Hp; inversion Hp; subst; constructor; inversion Hc; subst; auto.
Qed.
Lemma tree_train_fair max_item entropy mid rarr b ratio seed fuel l t : tree_train max_item entropy mid rarr b ratio seed fuel l = Ok t -> fair true t.
Proof.
  unfold tree_train. destruct b; [|apply (build_fair entropy mid rarr None false)].
  intros E. apply bind_ok in E as (gs & _ & E). apply bind_ok in E as (g1 & _ & E). apply bind_ok in E as (t0 & Eb & E). apply bind_ok in E as (g0 & _ & E).
  apply (pruned_fair true t0); [apply (build_fair entropy mid rarr None false _ _ _ _ Eb)|]. apply (prune_node_ok max_item g0 t0 (fun t => t) t). exact E.
Qed.
Section Tree.
  Context (max_item : counter -> list string -> string).
  Lemma fair_plain full x : isComposite x = false -> forall t s, fair full t -> node_predict max_item t x = Ok s ->
    exists vs, (full = true -> vs <> []) /\ node_probability t x = Ok (probabilities (cofl vs)) /\ s = get_maximum vs.
  Proof.
    intros Hx. induction t as [lab leaf d c ch IH] using tree_rect2. intros s F E. inversion F as [ls lf cc chh Hl Hc]; subst. destruct leaf.
    - cbn [node_predict] in E. rewrite Hx in E. injection E as <-. exists ls. auto.
    - rewrite predict_plain in E by exact Hx. rewrite probability_eq. apply bind_ok in E as (o & Eo & E). rewrite Eo. cbn [bind]. destruct o as [n|].
      + assert (I : In n ch). { clear - Eo. induction ch as [|a ch IH]; [discriminate Eo|]. cbn [pick] in Eo. apply bind_ok in Eo as (b & _ & Eo). destruct b; [injection Eo as ->; left; reflexivity|right; apply IH, Eo]. }
        exact (proj1 (Forall_forall _ _) IH n I s (proj1 (Forall_forall _ _) Hc n I) E).
      + injection E as <-. exists ls. auto.
  Qed.
  Lemma fair_composite full x ps : composite x = Some ps -> ps <> [] -> ~ In "" ps -> picks_most max_item -> forall t s, fair full t -> node_predict max_item t x = Ok s ->
    exists vs, node_probability t x = Ok (probabilities (cofl vs)) /\ s = max_item (cofl vs) ps.
  Proof.
    intros Hx Hp He HM. assert (Hc0 : isComposite x = true) by (unfold isComposite; rewrite Hx; reflexivity). assert (Hps : possible_labels x = ps) by (unfold possible_labels; rewrite Hx; reflexivity).
    induction t as [lab leaf d c ch IH] using tree_rect2. intros s F E. inversion F as [ls lf cc chh Hl Hc]; subst. destruct leaf.
    - cbn [node_predict] in E. rewrite Hc0 in E. injection E as <-. exists ls. auto.
    - rewrite TreePredictProofs.predict_composite in E by exact Hc0. rewrite probability_eq. apply bind_ok in E as (o & Eo & E). rewrite Eo. cbn [bind]. destruct o as [n|].
      + assert (I : In n ch). { clear - Eo. induction ch as [|a ch IH]; [discriminate Eo|]. cbn [pick] in Eo. apply bind_ok in Eo as (b & _ & Eo). destruct b; [injection Eo as ->; left; reflexivity|right; apply IH, Eo]. }
        apply bind_ok in E as (p & Ep & E). destruct (proj1 (Forall_forall _ _) IH n I p (proj1 (Forall_forall _ _) Hc n I) Ep) as (vs & P1 & P2).
        exists vs. split; [exact P1|]. rewrite <- P2. assert (In p (possible_labels x)) by (rewrite P2; apply HM, Hp).
        destruct (String.eqb_spec p "") as [->|]; [contradiction|]. injection E as <-. reflexivity.
      + injection E as <-. exists ls. auto.
  Qed.
End Tree.

(** * Networks *)
Lemma foldM_app {A B} (f : A -> B -> res A) l1 l2 a : foldM f (l1 ++ l2) a = do b <- foldM f l1 a; foldM f l2 b.
Proof. revert a. induction l1 as [|x l1 IH]; intros a; [reflexivity|]. cbn [app foldM]. destruct (f a x); try reflexivity. cbn [bind]. apply IH. Qed.
Lemma gt_keep a b a' : dgtb a b = true -> dgtb a' b = false -> dgtb a' a = false.
Proof.
  unfold dgtb. destruct a, b, a'; simpl; auto; try discriminate. intros H1 H2. apply negb_true_iff in H1. apply negb_false_iff in H2. apply negb_false_iff.
  apply not_true_iff_false in H1. rewrite Qle_bool_iff in *. lra.
Qed.
Lemma gt_irrefl a : dgtb a a = false.
Proof. unfold dgtb. destruct a; simpl; auto. apply negb_false_iff, Qle_bool_iff. apply Qle_refl. Qed.
Lemma max_scan_top : forall v w best, nth_error w (fst best) = Some (snd best) -> (forall j a, nth_error w j = Some a -> dgtb a (snd best) = false) ->
  exists b, nth_error (w ++ v) (max_scan (length w) v best) = Some b /\ forall j a, nth_error (w ++ v) j = Some a -> dgtb a b = false.
Proof.
  induction v as [|a v IH]; intros w best Hb Hm.
  - rewrite app_nil_r. cbn [max_scan]. exists (snd best). auto.
  - cbn [max_scan]. replace (w ++ a :: v) with ((w ++ [a]) ++ v) by (rewrite <- app_assoc; reflexivity). replace (S (length w)) with (length (w ++ [a])) by (rewrite app_length; cbn; lia).
    apply IH; destruct (dgtb a (snd best)) eqn:G; cbn [fst snd].
    + rewrite nth_error_app2 by lia. rewrite Nat.sub_diag. reflexivity.
    + rewrite nth_error_app1; [exact Hb|]. apply nth_error_Some. congruence.
    + intros j b Hj. destruct (Nat.lt_ge_cases j (length w)) as [L|L]; [rewrite nth_error_app1 in Hj by exact L; exact (gt_keep _ _ _ G (Hm j b Hj))|].
      rewrite nth_error_app2 in Hj by exact L. destruct (j - length w) as [|[|k]]; [injection Hj as <-; apply gt_irrefl|discriminate Hj|discriminate Hj].
    + intros j b Hj. destruct (Nat.lt_ge_cases j (length w)) as [L|L]; [rewrite nth_error_app1 in Hj by exact L; exact (Hm j b Hj)|].
      rewrite nth_error_app2 in Hj by exact L. destruct (j - length w) as [|[|k]]; [injection Hj as <-; exact G|discriminate Hj|discriminate Hj].
Qed.
Lemma max_index_top y i : max_index y = Ok i -> exists b, nth_error y i = Some b /\ forall j a, nth_error y j = Some a -> dgtb a b = false.
Proof.
  destruct y as [|a y]; [discriminate|]. intros H. injection H as <-. apply (max_scan_top y [a] (0, a)); [reflexivity|].
  intros [|[|j]] b Hb; [injection Hb as <-; apply gt_irrefl|discriminate Hb|discriminate Hb].
Qed.
(** the map of probabilities holds the output at the position of the label *)
Definition entry (labels : list string) (y : list dbl) (n : nat) (c : string) (v : dbl) : Prop := exists i, i < n /\ nth_error labels i = Some c /\ nth_error y i = Some v.
Lemma entries labels y : NoDup labels -> forall n m, foldM (fun m i => do c <- idxn labels i; do v <- idxn y i; Ok (mset c v m)) (seq 0 n) [] = Ok m ->
  forall c v, mfind c m = Some v <-> entry labels y n c v.
Proof.
  intros ND. induction n as [|n IH]; intros m E c v.
  - injection E as <-. split; [discriminate|]. intros (i & L & _). lia.
  - rewrite seq_S, foldM_app in E. apply bind_ok in E as (m0 & E0 & E). cbn [foldM plus] in E. apply bind_ok in E as (m1 & E & E1). injection E1 as <-.
    apply bind_ok in E as (cn & Ec & E). apply bind_ok in E as (vn & Ev & E). injection E as <-. apply idxn_ok in Ec, Ev. specialize (IH m0 E0 c v).
    rewrite mfind_mset. destruct (String.eqb_spec cn c) as [->|N].
    + split; [intros H; injection H as <-; exists n; split; [lia|auto]|]. intros (i & L & A & B). f_equal.
      assert (i = n) as -> by (apply (proj1 (NoDup_nth_error labels) ND); [apply nth_error_Some; congruence|congruence]). congruence.
    + rewrite IH. split; intros (i & L & A & B); exists i; (split; [|split; [exact A|exact B]]); [lia|]. destruct (Nat.eq_dec i n) as [->|]; [congruence|lia].
Qed.
Lemma net_plain output labels y x s m y1 y2 : NoDup labels -> composite x = None -> net_predict output labels y x = Ok (s, y1) -> net_probability output labels y x = Ok (m, y2) ->
  ordinary m -> most m (fun _ => True) s.
Proof.
  intros ND Hx E P O. unfold net_predict in E. unfold net_probability in P. apply bind_ok in E as (o & Eo & E). rewrite Eo in P. cbn [bind] in P.
  apply bind_ok in E as (c & Ec & E). injection E as -> _. apply bind_ok in P as (m0 & Em & P). injection P as -> _. pose proof (entries _ _ ND _ _ Em) as En.
  unfold choose in Ec. rewrite Hx in Ec. apply bind_ok in Ec as (i & Ei & Ec). apply atn_ok in Ec. destruct (max_index_top _ _ Ei) as (b & Hb & Top).
  assert (Fs : mfind s m = Some b). { apply En. exists i. split; [apply nth_error_Some; congruence|]. split; [exact Ec|exact Hb]. }
  intros c' v' _ F. destruct (O _ _ F) as (q' & -> & _). destruct (O _ _ Fs) as (q & -> & _). exists q, q'. split; [reflexivity|]. split; [exact Fs|].
  apply En in F as (j & _ & _ & Hj). specialize (Top j _ Hj). apply dltb_fin_false in Top. exact Top.
Qed.
Definition leading (labels ps : list string) (y : list dbl) (p0 : string) (n : nat) (st : dbl * string) : Prop :=
  (st = (dopp dbl_max, p0) \/ exists i, nth_error labels i = Some (snd st) /\ nth_error y i = Some (fst st) /\ i < n /\ dgtb (fst st) (dopp dbl_max) = true) /\
  forall c v, In c ps -> entry labels y n c v -> dgtb v (fst st) = false.
Lemma composite_leads labels ps y p0 : forall n st, foldM (composite_step labels ps y) (seq 0 n) (dopp dbl_max, p0) = Ok st -> leading labels ps y p0 n st.
Proof.
  induction n as [|n IH]; intros st E.
  - injection E as <-. split; [left; reflexivity|]. intros c v _ (i & L & _). lia.
  - rewrite seq_S, foldM_app in E. apply bind_ok in E as (s0 & E0 & E). cbn [foldM plus] in E. apply bind_ok in E as (s1 & E & E1). injection E1 as <-.
    destruct (IH s0 E0) as [W T]. unfold composite_step in E. apply bind_ok in E as (c & Ec & E). apply atn_ok in Ec.
    assert (Widen : forall st, (st = (dopp dbl_max, p0) \/ exists i, nth_error labels i = Some (snd st) /\ nth_error y i = Some (fst st) /\ i < n /\ dgtb (fst st) (dopp dbl_max) = true) ->
              (st = (dopp dbl_max, p0) \/ exists i, nth_error labels i = Some (snd st) /\ nth_error y i = Some (fst st) /\ i < S n /\ dgtb (fst st) (dopp dbl_max) = true)).
    { intros u [->|(i & A & B & L & G)]; [left; reflexivity|right; exists i; repeat split; auto with arith]. }
    destruct (mem_str c ps) eqn:Mc.
    + apply bind_ok in E as (v & Ev & E). apply idxn_ok in Ev. injection E as <-. destruct (dgtb v (fst s0)) eqn:G.
      * split.
        -- right. exists n. cbn [fst snd]. split; [exact Ec|]. split; [exact Ev|]. split; [lia|].
           destruct W as [->|(i & _ & _ & _ & G')]; [exact G|]. unfold dgtb in *. exact (dltb_trans _ _ _ G' G).
        -- cbn [fst]. intros c' v' I (i & L & A & B). destruct (Nat.eq_dec i n) as [->|N]; [assert (v' = v) as -> by congruence; apply gt_irrefl|].
           apply (gt_keep _ _ _ G). apply (T c'); [exact I|]. exists i. split; [lia|auto].
      * split; [apply Widen, W|]. intros c' v' I (i & L & A & B). destruct (Nat.eq_dec i n) as [->|N]; [assert (v' = v) as -> by congruence; exact G|].
        apply (T c'); [exact I|]. exists i. split; [lia|auto].
    + injection E as <-. split; [apply Widen, W|]. intros c' v' I (i & L & A & B). destruct (Nat.eq_dec i n) as [->|N].
      * assert (c' = c) as -> by congruence. exfalso. apply mem_str_in in I. congruence.
      * apply (T c'); [exact I|]. exists i. split; [lia|auto].
Qed.
Lemma net_composite output labels y x ps s m y1 y2 : NoDup labels -> composite x = Some ps -> net_predict output labels y x = Ok (s, y1) -> net_probability output labels y x = Ok (m, y2) ->
  ordinary m -> most m (fun c => In c ps) s.
Proof.
  intros ND Hx E P O. unfold net_predict in E. unfold net_probability in P. apply bind_ok in E as (o & Eo & E). rewrite Eo in P. cbn [bind] in P.
  apply bind_ok in E as (c & Ec & E). injection E as -> _. apply bind_ok in P as (m0 & Em & P). injection P as -> _. pose proof (entries _ _ ND _ _ Em) as En.
  unfold choose in Ec. rewrite Hx in Ec. unfold NetModel.predict_composite in Ec. apply bind_ok in Ec as (p0 & _ & Ec). apply bind_ok in Ec as (st & Es & Ec). injection Ec as <-.
  destruct (composite_leads _ _ _ _ _ _ Es) as [W T]. intros c' v' I F. destruct (O _ _ F) as (q' & -> & Big). pose proof (proj1 (En _ _) F) as Fe. specialize (T c' _ I Fe).
  destruct W as [->|(i & A & B & L & _)]; [unfold dgtb in T; cbn [fst] in T; congruence|].
  assert (Fs : mfind (snd st) m = Some (fst st)) by (apply En; exists i; auto). destruct (O _ _ Fs) as (q & Eq & _). exists q, q'. split; [reflexivity|]. split; [rewrite <- Eq; exact Fs|].
  rewrite Eq in T. apply dltb_fin_false in T. exact T.
Qed.
Lemma linear_nodup e r p w old l q m : linear_train e r p w old l q = Ok m -> NoDup (li_labels m).
Proof.
  unfold linear_train. intros E. apply bind_ok in E as (i & Ei & E). apply bind_ok in E as (sp & _ & E). apply bind_ok in E as (r0 & _ & E). injection E as <-.
  unfold initialize in Ei. apply bind_ok in Ei as (x0 & _ & Ei). destruct (discrete_check x0); [injection Ei as <-|discriminate]. apply distinct_nodup.
Qed.
Lemma mlp_nodup e t r p w old l q m : mlp_train e t r p w old l q = Ok m -> NoDup (ml_labels m).
Proof.
  unfold mlp_train. intros E. apply bind_ok in E as (i & Ei & E). apply bind_ok in E as (sp & _ & E). apply bind_ok in E as (h & _ & E). apply bind_ok in E as (r0 & _ & E). injection E as <-.
  unfold initialize in Ei. apply bind_ok in Ei as (x0 & _ & Ei). destruct (discrete_check x0); [injection Ei as <-|discriminate]. apply distinct_nodup.
Qed.
Lemma auto_nodup e t r p w old l q m : auto_train e t r p w old l q = Ok m -> NoDup (au_labels m).
Proof.
  unfold auto_train. intros E. apply bind_ok in E as (i & Ei & E). apply bind_ok in E as (sp & _ & E). apply bind_ok in E as (y0 & _ & E). apply bind_ok in E as (h & _ & E). apply bind_ok in E as (r0 & _ & E). injection E as <-.
  unfold initialize in Ei. apply bind_ok in Ei as (x0 & _ & Ei). destruct (discrete_check x0); [injection Ei as <-|discriminate]. apply distinct_nodup.
Qed.
Lemma deep_nodup e t r p w old l q m : deep_train e t r p w old l q = Ok m -> NoDup (de_labels m).
Proof.
  unfold deep_train. intros E. apply bind_ok in E as (i & Ei & E). apply bind_ok in E as (sp & _ & E). apply bind_ok in E as (ws & _ & E). apply bind_ok in E as (r0 & _ & E). injection E as <-.
  unfold initialize in Ei. apply bind_ok in Ei as (x0 & _ & Ei). destruct (discrete_check x0); [injection Ei as <-|discriminate]. apply distinct_nodup.
Qed.

(** * The whole library *)
Definition sound (c : classifier) : Prop :=
  match c with
  | TreeC (Some t) => fair true t | StumpC (Some t) => fair false t
  | DummyC d => exists vs, d = cofl vs
  | RandomC ls => NoDup ls
  | LinearC m => NoDup (li_labels m) | MlpC m => NoDup (ml_labels m) | DeepC m => NoDup (de_labels m) | AutoC m => NoDup (au_labels m)
  | _ => True
  end.
Lemma train_sound E c0 l p c l' : train E c0 l p = Ok (c, l') -> sound c.
Proof.
  intros H. destruct c0; cbn [train] in H; try (repeat (apply bind_ok in H as (? & ? & H)); injection H as <- _; exact I).
  - injection H as <- _. cbn. exists (map label l). unfold dummy_train. apply class_distribution_cofl.
  - injection H as <- _. cbn. unfold random_train. rewrite class_distribution_cofl. apply msorted_nodup, cofl_sorted.
  - apply bind_ok in H as (a & _ & H). apply bind_ok in H as (t & Et & H). injection H as <- _. exact (tree_train_fair _ _ _ _ _ _ _ _ _ _ Et).
  - apply bind_ok in H as (t & Et & H). injection H as <- _. exact (build_fair _ _ _ _ _ _ _ _ _ Et).
  - apply bind_ok in H as ([[s n] k] & _ & H). apply bind_ok in H as (f & _ & H). injection H as <- _. exact I.
  - apply bind_ok in H as (i & _ & H). apply bind_ok in H as (a & _ & H). apply bind_ok in H as (n & En & H). injection H as <- _. exact (linear_nodup _ _ _ _ _ _ _ _ En).
  - apply bind_ok in H as (i & _ & H). apply bind_ok in H as (a & _ & H). apply bind_ok in H as (n & En & H). injection H as <- _. exact (mlp_nodup _ _ _ _ _ _ _ _ _ En).
  - apply bind_ok in H as (i & _ & H). apply bind_ok in H as (a & _ & H). apply bind_ok in H as (n & En & H). injection H as <- _. exact (deep_nodup _ _ _ _ _ _ _ _ _ En).
  - apply bind_ok in H as (i & _ & H). apply bind_ok in H as (a & _ & H). apply bind_ok in H as (n & En & H). injection H as <- _. exact (auto_nodup _ _ _ _ _ _ _ _ _ En).
  - destruct p as [[]|]; try (apply bind_ok in H as (x0 & _ & H); destruct (negb (discrete_check x0)); discriminate H); apply bind_ok in H as (r & _ & H); injection H as <- _; exact I.
Qed.
Lemma rmap_fst {A B} (r : res (A * B)) a : rmap fst r = Ok a -> exists b, r = Ok (a, b).
Proof. destruct r as [[a' b]| | |]; cbn; intros H; try discriminate. injection H as ->. eauto. Qed.
Lemma knn_counts d l k x s m : knn_predict d l k x = Ok s -> knn_probability d l k x = Ok m -> most m (fun _ => True) s.
Proof.
  unfold knn_predict, knn_probability. intros E P. apply bind_ok in E as (ns & En & E). rewrite En in P. cbn [bind] in P. injection P as <-.
  destruct ns as [|n ns]; [intros c' v' _ F; discriminate F|]. cbn [length Nat.eqb] in E. rewrite andb_false_r in E. injection E as <-.
  fold (probabilities (class_distribution (n :: ns))). rewrite class_distribution_cofl. apply maximum_most.
Qed.
Lemma votes_counts mi f x s m : ensemble_predict mi f x = Ok s -> ensemble_probability mi f x = Ok m -> most m (fun _ => True) s.
Proof.
  unfold ensemble_predict, ensemble_probability. intros E P. apply bind_ok in E as (vs & Ev & E). rewrite Ev in P. injection P as <-. injection E as <-.
  apply (maximum_most vs).
Qed.
Lemma most_weaken m (P Q : string -> Prop) c : (forall a, Q a -> P a) -> most m P c -> most m Q c.
Proof. intros H M c' v' A. apply M, H, A. Qed.
Lemma soft_silent t x m : node_probability (as_tree t) x = Ok m -> m = [].
Proof. destruct t as [n|n a b]; [intros H; injection H as <-; reflexivity|]. cbn. destruct a; cbn; discriminate. Qed.
Lemma uniform labels x : NoDup labels -> forall c v, mfind c (random_probability labels x) = Some v <-> In c labels /\ v = ddiv d1 (dofnat (length labels)).
Proof.
  intros _. unfold random_probability. set (u := ddiv d1 (dofnat (length labels))). clearbody u.
  assert (G : forall ls m c v, mfind c (fold_left (fun m c => mset c u m) ls m) = Some v <-> In c ls /\ v = u \/ ~ In c ls /\ mfind c m = Some v).
  { induction ls as [|a ls IH]; intros m c v; [cbn; tauto|]. cbn [fold_left]. rewrite IH. rewrite mfind_mset. destruct (String.eqb_spec a c) as [->|N]; cbn [In]; [|tauto].
    destruct (in_dec string_dec c ls); split; intros; intuition congruence. }
  intros c v. rewrite G. cbn. intuition discriminate.
Qed.
