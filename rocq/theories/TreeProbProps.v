(** Property C113: the class probabilities of a decision tree. *)
From Coq Require Import String ZArith QArith Bool Lia Permutation Lqa List.
From Verif Require Import Base Spec BaseLemmas DblLemmas AttrModel InstanceListModel PartitionModel PerformanceModel
  ListSpec ListProofs PartitionProofs TreeModel TreeSpec TreeProofs TreeGrowProofs TreePredictProofs TreeProps EnsembleModel EnsembleProofs.
Import ListNotations.
Local Open Scope string_scope.
Local Open Scope list_scope.
Local Open Scope nat_scope.

(** every node stores the counts of some label list *)
Inductive counted : tree -> Prop :=
| counted_node lab leaf ls c ch : Forall counted ch -> counted (Node lab leaf (cofl ls) c ch).
Lemma build_counted entropy mid rarr param stump : forall fuel data c t,
  build entropy mid rarr param stump fuel data c = Ok t -> counted t.
Proof.
  induction fuel as [|f IH]; intros data c t E; [discriminate E|]. cbn [build] in E.
  destruct (length (distinct_labels data) =? 1); [injection E as <-; apply counted_node; constructor|].
  destruct (stump && negb (c_index c =? -1)%Z); [injection E as <-; apply counted_node; constructor|].
  destruct (search entropy mid rarr param data) as [[data' b]| | |]; try discriminate. cbn [bind] in E.
  destruct (b_attr b =? -1)%Z; [injection E as <-; apply counted_node; constructor|].
  destruct (split data' (b_attr b) (b_value b)) as [parts| | |]; try discriminate. cbn [bind] in E.
  destruct (mapM _ parts) as [ch| | |] eqn:Em; try discriminate. cbn [bind] in E. injection E as <-.
  apply counted_node. apply mapM_ok in Em. clear - Em IH. induction Em; constructor; eauto.
Qed.
Lemma counted_labels ls gs : (forall l, ccount (cofl ls) l = occ gs l) -> cofl ls = cofl gs.
Proof.
  intros H. apply cofl_perm. apply (Permutation_count_occ string_dec). intros l. rewrite <- ccount_cofl. apply H.
Qed.
Lemma pruned_conds ch ch' : Forall2 pruned ch ch' -> map t_cond ch' = map t_cond ch.
Proof. induction 1 as [|t t' ch ch' H _ IH]; [reflexivity|]. simpl. rewrite IH. inversion H; reflexivity. Qed.
Lemma probability_eq lab d c ch x :
  node_probability (Node lab false d c ch) x = do o <- pick ch x; match o with None => Ok (probabilities d) | Some n => node_probability n x end.
Proof.
  cbn [node_probability]. induction ch as [|n ch IH]; [reflexivity|].
  cbn [pick]. destruct (satisfy (t_cond n) x) as [[]| | |]; try reflexivity. cbn [bind]. exact IH.
Qed.
(** the child that is picked is the one the instance is routed to *)
Lemma pick_where shape ch x : typed shape x -> Forall (fun t => fits shape (t_cond t)) ch ->
  (exists i n, pick ch x = Ok (Some n) /\ nth_error ch i = Some n /\ routed (map t_cond ch) i x) \/
  (pick ch x = Ok None /\ forall i, ~ routed (map t_cond ch) i x).
Proof.
  intros Hx. induction 1 as [|n ch Hn _ IH].
  - right. split; [reflexivity|]. intros i ((c & Hc & _) & _). destruct i; discriminate.
  - destruct (satisfy_spec shape _ x Hn Hx) as (b & Eb & Hb). cbn [pick]. rewrite Eb. cbn [bind]. destruct b.
    + left. exists 0, n. split; [reflexivity|]. split; [reflexivity|]. split; [exists (t_cond n); split; [reflexivity|apply Hb; reflexivity]|lia].
    + assert (Nn : ~ satisfied (t_cond n) x) by (intros S0; apply Hb in S0; discriminate).
      destruct IH as [(i & m & E & Hi & (c & Hc & Hs) & Hno)|[E Hno]].
      * left. exists (S i), m. split; [exact E|]. split; [exact Hi|]. split; [exists c; split; assumption|].
        intros [|j] c' Hj Hc'; [simpl in Hc'; injection Hc' as <-; exact Nn|]. exact (Hno j c' ltac:(lia) Hc').
      * right. split; [exact E|]. intros [|i] ((c & Hc & Hs) & Hn').
        -- simpl in Hc. injection Hc as <-. contradiction.
        -- apply (Hno i). split; [exists c; split; assumption|]. intros j c' Hj Hc'. exact (Hn' (S j) c' ltac:(lia) Hc').
Qed.
Lemma routed_unique cs i j x : routed cs i x -> routed cs j x -> i = j.
Proof.
  intros ((c & Hc & Hs) & Hi) ((c' & Hc' & Hs') & Hj). destruct (Nat.lt_trichotomy i j) as [H|[H|H]]; [|exact H|]; exfalso.
  - exact (Hj i c H Hc Hs).
  - exact (Hi j c' H Hc' Hs').
Qed.
Lemma concat_take {A} (gs : list (list A)) i g : nth_error gs i = Some g ->
  exists r, Permutation (g ++ r) (concat gs) /\ forall y, In y r -> exists j h, j <> i /\ nth_error gs j = Some h /\ In y h.
Proof.
  revert i. induction gs as [|a gs IH]; intros [|i] H; try discriminate.
  - injection H as ->. exists (concat gs). split; [apply Permutation_refl|]. intros y Hy. apply in_concat in Hy. destruct Hy as (h & Hh & Hy).
    apply In_nth_error in Hh. destruct Hh as [j Hj]. exists (S j), h. auto.
  - destruct (IH i H) as (r & P & Hr). exists (a ++ r). split.
    + cbn [concat]. rewrite app_assoc, (Permutation_app_comm g a), <- app_assoc. apply Permutation_app_head. exact P.
    + intros y Hy. apply in_app_iff in Hy. destruct Hy as [Hy|Hy].
      * exists 0, a. auto.
      * destruct (Hr y Hy) as (j & h & N & E & Hy'). exists (S j), h. auto.
Qed.
Lemma reach max_item shape : forall t t' data x, grown data t -> counted t -> fits_tree shape t -> pruned t t' -> typed shape x ->
  exists path g rest lab, stops t' path x /\ Permutation (g ++ rest) data /\
    (forall y, In y g -> passes t' path y) /\ (forall y, In y rest -> ~ passes t' path y) /\
    majority (map label g) lab /\ node_probability t' x = Ok (probabilities (cofl (map label g))) /\
    (isComposite x = false -> node_predict max_item t' x = Ok lab).
Proof.
  induction t as [lab leaf d c ch IH] using tree_rect2; intros t' data x Hg Hk Hf Hp Hx.
  inversion Hk as [? ? ls ? ? Hks]; subst. inversion Hp as [? ? leaf' ? ? ? ch' Hl Hpc]; subst.
  assert (Here : forall leaf0 ch0, majority (map label data) lab -> (forall l, ccount (cofl ls) l = occ (map label data) l) ->
    (forall i, ~ passes (Node lab leaf0 (cofl ls) c ch0) [i] x) ->
    node_probability (Node lab leaf0 (cofl ls) c ch0) x = Ok (probabilities (cofl ls)) ->
    (isComposite x = false -> node_predict max_item (Node lab leaf0 (cofl ls) c ch0) x = Ok lab) ->
    exists path g rest lab0, stops (Node lab leaf0 (cofl ls) c ch0) path x /\ Permutation (g ++ rest) data /\
    (forall y, In y g -> passes (Node lab leaf0 (cofl ls) c ch0) path y) /\ (forall y, In y rest -> ~ passes (Node lab leaf0 (cofl ls) c ch0) path y) /\
    majority (map label g) lab0 /\ node_probability (Node lab leaf0 (cofl ls) c ch0) x = Ok (probabilities (cofl (map label g))) /\
    (isComposite x = false -> node_predict max_item (Node lab leaf0 (cofl ls) c ch0) x = Ok lab0)).
  { intros leaf0 ch0 Hm Hd Hn E1 E2. exists [], data, [], lab. split; [split; [exact I|exact Hn]|]. rewrite app_nil_r. split; [apply Permutation_refl|].
    split; [intros; exact I|]. split; [intros y []|]. split; [exact Hm|]. split; [rewrite <- (counted_labels _ _ Hd); exact E1|exact E2]. }
  inversion Hg as [? ? ? ? Hm Hd|? ? ? ? groups ? Hm Hd _ HP Hne Hr Hch]; subst.
  - inversion Hpc; subst. rewrite (Hl eq_refl). apply Here; auto.
    + intros i (A & _). discriminate A.
    + intros Hc. apply predict_leaf_plain, Hc.
  - destruct leaf'.
    + apply Here; auto.
      * intros i (A & _). discriminate A.
      * intros Hc. apply predict_leaf_plain, Hc.
    + inversion Hf as [? ? ? ? ? Hfc Hft]; subst.
      assert (Hfc' : Forall (fun t => fits shape (t_cond t)) ch').
      { pose proof (pruned_conds _ _ Hpc) as E. apply Forall_forall. intros t Ht. assert (In (t_cond t) (map t_cond ch)) as Hi by (rewrite <- E; apply in_map, Ht).
        apply in_map_iff in Hi. destruct Hi as (u & <- & Hu). exact (proj1 (Forall_forall _ _) Hfc u Hu). }
      destruct (pick_where shape ch' x Hx Hfc') as [(i & n' & Ep & Hi & Hri)|[Ep Hno]].
      * rewrite (pruned_conds _ _ Hpc) in Hri.
        assert (exists n, nth_error ch i = Some n) as [n Hn].
        { destruct (nth_error ch i) eqn:E; [eexists; reflexivity|]. apply nth_error_None in E. rewrite (Forall2_len _ _ _ Hpc) in E. assert (i < length ch') by (apply nth_error_Some; congruence). lia. }
        assert (exists gi, nth_error groups i = Some gi) as [gi Hgi].
        { destruct (nth_error groups i) eqn:E; [eexists; reflexivity|]. apply nth_error_None in E. rewrite (Forall2_len _ _ _ Hch) in E. assert (i < length ch) by (apply nth_error_Some; congruence). lia. }
        destruct (concat_take groups i gi Hgi) as (others & Po & Ho).
        destruct (proj1 (Forall_forall _ _) IH n (nth_error_In _ _ Hn) n' gi x (Forall2_nth _ _ _ _ _ _ Hch Hgi Hn)
                    (proj1 (Forall_forall _ _) Hks n (nth_error_In _ _ Hn)) (proj1 (Forall_forall _ _) Hft n (nth_error_In _ _ Hn))
                    (Forall2_nth _ _ _ _ _ _ Hpc Hn Hi) Hx) as (path & g & rest & lab' & [S1 S2] & P & G1 & G2 & M & E1 & E2).
        assert (Sub : forall j h y, nth_error groups j = Some h -> In y h -> routed (map t_cond ch) j y).
        { intros j h y Hj Hy. apply (Hr j h y Hj); [|exact Hy]. apply (Permutation_in _ HP). apply in_concat. exists h. split; [exact (nth_error_In _ _ Hj)|exact Hy]. }
        exists (i :: path), g, (rest ++ others), lab'. split; [split|].
        -- cbn [passes t_leaf t_children]. rewrite (pruned_conds _ _ Hpc). repeat split; [apply Hri|apply Hri|eauto].
        -- intros j (_ & _ & m & Hm' & Hpm). cbn [t_children] in Hm'. assert (m = n') as -> by congruence. exact (S2 j Hpm).
        -- split; [rewrite <- HP, <- Po, app_assoc; apply Permutation_app_tail; exact P|]. split; [|split; [|split; [exact M|split]]].
           ++ intros y Hy. cbn [passes t_leaf t_children]. rewrite (pruned_conds _ _ Hpc). split; [reflexivity|].
              split; [|exists n'; split; [exact Hi|exact (G1 y Hy)]]. apply (Sub i gi); [exact Hgi|]. apply (Permutation_in _ P). apply in_app_iff; left; exact Hy.
           ++ intros y Hy (_ & Hry & m & Hm' & Hpm). cbn [t_children] in *. rewrite (pruned_conds _ _ Hpc) in Hry. assert (m = n') as -> by congruence.
              apply in_app_iff in Hy. destruct Hy as [Hy|Hy]; [exact (G2 y Hy Hpm)|].
              destruct (Ho y Hy) as (j & h & Nj & Hj & Hyh). exact (Nj (routed_unique _ _ _ _ (Sub j h y Hj Hyh) Hry)).
           ++ rewrite probability_eq, Ep. cbn [bind]. exact E1.
           ++ intros Hc. rewrite predict_plain by exact Hc. rewrite Ep. cbn [bind]. exact (E2 Hc).
      * apply Here; auto.
        -- intros i (_ & Hri & _). exact (Hno i Hri).
        -- rewrite probability_eq, Ep. reflexivity.
        -- intros Hc. rewrite predict_plain by exact Hc. rewrite Ep. reflexivity.
Qed.
(** For every trained tree, pruned in any way, and every query: the probabilities are the class frequencies among exactly
    the training instances that come through the node where the query stops, and add up to one; the predicted label is
    one of the most probable. *)
Theorem C113_frequencies : forall max_item entropy mid rarr param stump shape data c fuel t t' x,
  entropy_finite entropy -> mid_exact mid -> rarr_perm rarr -> tabular shape data -> data <> [] -> length data <= fuel ->
  build entropy mid rarr param stump fuel data c = Ok t -> pruned t t' -> typed shape x ->
  exists path g rest m, stops t' path x /\ Permutation (g ++ rest) data /\ g <> [] /\
    (forall y, In y g -> passes t' path y) /\ (forall y, In y rest -> ~ passes t' path y) /\
    node_probability t' x = Ok (map (fun kv => (fst kv, Fin (snd kv))) m) /\
    (forall l, mfind l m = None <-> ~ In l (map label g)) /\
    (forall l q, mfind l m = Some q -> (q == qofn (occ (map label g) l) / qofn (length g))%Q) /\
    (qsum (map snd m) == 1)%Q /\
    (isComposite x = false -> exists p, tree_predict max_item t' x = Ok p /\ majority (map label g) p).
Proof.
  intros max_item entropy mid rarr param stump shape data c fuel t t' x He Hm Hr Ht Hne Hf E Hp Hx.
  destruct (build_ok entropy mid rarr shape He Hm Hr param stump fuel data c Ht Hne Hf) as (t0 & E0 & G & _ & F).
  assert (t0 = t) as -> by congruence.
  destruct (reach max_item shape t t' data x G (build_counted _ _ _ _ _ _ _ _ _ E) F Hp Hx) as (path & g & rest & lab & S1 & P & G1 & G2 & M & E1 & E2).
  set (vs := map label g) in *.
  assert (Hv : vs <> []) by (destruct M as [M _]; intros Ev; rewrite Ev in M; destruct M).
  assert (0 < csum (cofl vs)) as Hc. { rewrite csum_cofl. destruct vs; [contradiction|simpl; lia]. }
  exists path, g, rest, (map (fun kv => (fst kv, (qofn (snd kv) / qofn (csum (cofl vs)))%Q)) (cofl vs)).
  split; [exact S1|]. split; [exact P|]. split; [intros ->; apply Hv; reflexivity|]. split; [exact G1|]. split; [exact G2|].
  fold vs. split; [rewrite E1, (probabilities_fin _ Hc), map_map; reflexivity|]. split; [|split; [|split]].
  - intros l. rewrite (mfind_map (fun kv => (qofn (snd kv) / qofn (csum (cofl vs)))%Q)). rewrite <- in_cofl, <- mfind_none.
    destruct (mfind l (cofl vs)); simpl; split; congruence.
  - intros l q H. rewrite (mfind_map (fun kv => (qofn (snd kv) / qofn (csum (cofl vs)))%Q)) in H.
    destruct (mfind l (cofl vs)) as [n|] eqn:En; [|discriminate H]. simpl in H. injection H as <-.
    assert (n = occ vs l) as ->. { unfold occ. rewrite <- ccount_cofl. unfold ccount. rewrite En. reflexivity. }
    rewrite csum_cofl. unfold vs at 2. rewrite map_length. reflexivity.
  - rewrite map_map. cbn [snd]. apply cofl_total, Hv.
  - intros Hcx. exists lab. split; [rewrite (tree_predict_plain max_item t' x Hcx); exact (E2 Hcx)|exact M].
Qed.
Example C113_case : exists t, stump_train ex_entropy ex_mid ex_rarr 5 ex_data = Ok t /\
  node_probability t (ex_row "?" 2 "w" 1) = Ok [("a", Fin (1 # 3)); ("b", Fin (2 # 3))] /\
  node_probability t (ex_row "?" 2 "w" 0) = Ok [("a", Fin (2 # 2))] /\ passes t [1] (ex_row "?" 2 "w" 1).
Proof.
  eexists. split; [vm_compute; reflexivity|]. split; [vm_compute; reflexivity|]. split; [vm_compute; reflexivity|].
  split; [reflexivity|]. split; [|eexists; split; [reflexivity|exact I]]. split.
  - eexists. split; [reflexivity|]. eexists. split; [|left; reflexivity]. split; [cbn; unfold in_range; lia|reflexivity].
  - intros [|j] c Hj Hc; [|lia]. injection Hc as <-. intros (a & [_ Ha] & Hs). injection Ha as <-. cbn in Hs. destruct Hs as [Hs|(s & m & Hs)]; discriminate.
Qed.
Print Assumptions C113_frequencies.
