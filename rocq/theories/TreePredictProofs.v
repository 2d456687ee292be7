(** Proofs about the decision tree model: predicting and pruning. *)
From Coq Require Import String ZArith QArith Bool Lia Permutation Lqa List.
From Verif Require Import Base Spec BaseLemmas DblLemmas AttrModel InstanceListModel PartitionModel PerformanceModel
  ListSpec ListProofs DataSetProofs PartitionProofs PerformanceProofs TreeModel TreeSpec TreeProofs TreeGrowProofs.
Import ListNotations.
Local Open Scope string_scope.
Local Open Scope list_scope.
Local Open Scope nat_scope.

Section Predict.
  Context (max_item : counter -> list string -> string).
  Notation node_predict := (node_predict max_item).
  Notation tree_predict := (tree_predict max_item).

  (** first child whose condition holds *)
  Fixpoint pick (ch : list tree) (x : instance) : res (option tree) :=
    match ch with
    | [] => Ok None
    | n :: ch' => do s <- satisfy (t_cond n) x; if s then Ok (Some n) else pick ch' x
    end.
  Lemma predict_leaf_plain lab d c ch x : isComposite x = false -> node_predict (Node lab true d c ch) x = Ok lab.
  Proof. intros H. simpl. rewrite H. reflexivity. Qed.
  Lemma predict_plain lab d c ch x : isComposite x = false ->
    node_predict (Node lab false d c ch) x = do o <- pick ch x; match o with None => Ok lab | Some n => node_predict n x end.
  Proof.
    intros H. cbn [TreeModel.node_predict]. rewrite H. induction ch as [|n ch IH]; [reflexivity|].
    cbn [pick]. destruct (satisfy (t_cond n) x) as [[]| | |]; try reflexivity. cbn [bind]. exact IH.
  Qed.
  Lemma predict_composite lab d c ch x : isComposite x = true ->
    node_predict (Node lab false d c ch) x = do o <- pick ch x;
      match o with None => Ok (max_item d (possible_labels x))
                 | Some n => do p <- node_predict n x; Ok (if String.eqb p "" then max_item d (possible_labels x) else p) end.
  Proof.
    intros H. cbn [TreeModel.node_predict]. rewrite H. induction ch as [|n ch IH]; [reflexivity|].
    cbn [pick]. destruct (satisfy (t_cond n) x) as [[]| | |]; try reflexivity. cbn [bind]. exact IH.
  Qed.
  Lemma predict_leaf_composite lab d c ch x : isComposite x = true -> node_predict (Node lab true d c ch) x = Ok (max_item d (possible_labels x)).
  Proof. intros H. simpl. rewrite H. reflexivity. Qed.

  Lemma pick_total shape ch x : typed shape x -> Forall (fun t => fits shape (t_cond t)) ch ->
    exists o, pick ch x = Ok o /\ match o with Some n => In n ch | None => True end.
  Proof.
    intros Hx. induction 1 as [|n ch Hn _ IH]; [exists None; split; [reflexivity|exact I]|]. cbn [pick].
    destruct (satisfy_spec shape _ x Hn Hx) as (b & -> & _). cbn [bind]. destruct b.
    - exists (Some n). split; [reflexivity|left; reflexivity].
    - destruct IH as (o & E & Ho). exists o. split; [exact E|]. destruct o; [right; exact Ho|exact I].
  Qed.
  Lemma pick_routed shape ch x : typed shape x -> Forall (fun t => fits shape (t_cond t)) ch ->
    forall i, routed (map t_cond ch) i x -> exists n, nth_error ch i = Some n /\ pick ch x = Ok (Some n).
  Proof.
    intros Hx. induction 1 as [|n ch Hn _ IH]; intros i ((c & Hc & Hs) & Hno); [destruct i; discriminate Hc|].
    destruct (satisfy_spec shape _ x Hn Hx) as (b & Eb & Hb). cbn [pick]. rewrite Eb. cbn [bind]. destruct i as [|i].
    - simpl in Hc. injection Hc as <-. rewrite (proj2 Hb Hs). exists n. split; reflexivity.
    - destruct b; [exfalso; apply (Hno 0 (t_cond n) ltac:(lia) eq_refl), Hb; reflexivity|].
      apply IH. split; [exists c; split; [exact Hc|exact Hs]|]. intros j c' Hj Hc'. exact (Hno (S j) c' ltac:(lia) Hc').
  Qed.

  (** * Which labels are predicted *)
  Lemma predict_in shape : forall t data x, grown data t -> fits_tree shape t -> typed shape x -> isComposite x = false ->
    exists p, node_predict t x = Ok p /\ In p (map label data).
  Proof.
    induction t as [lab leaf d c ch IH] using tree_rect2; intros data x Hg Hf Hx Hp.
    inversion Hg as [? ? ? ? [Hin _] _|? ? ? ? groups ? [Hin _] _ _ HP _ _ Hch]; subst.
    - exists lab. split; [apply predict_leaf_plain, Hp|exact Hin].
    - inversion Hf as [? ? ? ? ? Hc Hft]; subst. rewrite (predict_plain _ _ _ _ _ Hp).
      destruct (pick_total shape ch x Hx Hc) as (o & -> & Ho). cbn [bind]. destruct o as [n|]; [|exists lab; split; [reflexivity|exact Hin]].
      destruct (In_nth_error _ _ Ho) as [i Hi].
      assert (exists g, nth_error groups i = Some g) as [g Hgi].
      { destruct (nth_error groups i) eqn:E; [eexists; reflexivity|]. apply nth_error_None in E.
        assert (i < length ch) by (apply nth_error_Some; congruence). rewrite (Forall2_len _ _ _ Hch) in E. lia. }
      destruct (proj1 (Forall_forall _ _) IH n Ho g x (Forall2_nth _ _ _ _ _ _ Hch Hgi Hi) (proj1 (Forall_forall _ _) Hft n Ho) Hx Hp) as (p & E & Hl).
      exists p. split; [exact E|]. apply in_map_iff in Hl. destruct Hl as (y & <- & Hy). apply in_map.
      apply (Permutation_in _ HP). apply in_concat. exists g. split; [exact (nth_error_In _ _ Hgi)|exact Hy].
  Qed.
  Lemma predict_possible shape : max_item_in max_item -> forall t x, fits_tree shape t -> typed shape x -> isComposite x = true ->
    possible_labels x <> [] -> exists p, node_predict t x = Ok p /\ In p (possible_labels x).
  Proof.
    intros Hm. induction t as [lab leaf d c ch IH] using tree_rect2; intros x Hf Hx Hp Hne.
    destruct leaf; [eexists; split; [apply predict_leaf_composite, Hp|apply Hm, Hne]|].
    inversion Hf as [? ? ? ? ? Hc Hft]; subst. rewrite (predict_composite _ _ _ _ _ Hp).
    destruct (pick_total shape ch x Hx Hc) as (o & -> & Ho). cbn [bind]. destruct o as [n|]; [|eexists; split; [reflexivity|apply Hm, Hne]].
    destruct (proj1 (Forall_forall _ _) IH n Ho x (proj1 (Forall_forall _ _) Hft n Ho) Hx Hp Hne) as (p & -> & Hl). cbn [bind].
    eexists; split; [reflexivity|]. destruct (String.eqb p ""); [apply Hm, Hne|exact Hl].
  Qed.
  Lemma predict_total shape : forall t x, fits_tree shape t -> typed shape x -> exists p, node_predict t x = Ok p.
  Proof.
    induction t as [lab leaf d c ch IH] using tree_rect2; intros x Hf Hx. inversion Hf as [? ? ? ? ? Hc Hft]; subst.
    destruct (isComposite x) eqn:Hp.
    - destruct leaf; [eexists; apply predict_leaf_composite, Hp|]. rewrite (predict_composite _ _ _ _ _ Hp).
      destruct (pick_total shape ch x Hx Hc) as (o & -> & Ho). cbn [bind]. destruct o as [n|]; [|eexists; reflexivity].
      destruct (proj1 (Forall_forall _ _) IH n Ho x (proj1 (Forall_forall _ _) Hft n Ho) Hx) as (p & ->). cbn [bind]. eexists; reflexivity.
    - destruct leaf; [eexists; apply predict_leaf_plain, Hp|]. rewrite (predict_plain _ _ _ _ _ Hp).
      destruct (pick_total shape ch x Hx Hc) as (o & -> & Ho). cbn [bind]. destruct o as [n|]; [|eexists; reflexivity].
      exact (proj1 (Forall_forall _ _) IH n Ho x (proj1 (Forall_forall _ _) Hft n Ho) Hx).
  Qed.

  (** * Training accuracy *)
  Lemma countb_concat {A} (f : A -> bool) gs : countb f (concat gs) = list_sum (map (countb f) gs).
  Proof. induction gs as [|g gs IH]; [reflexivity|]. simpl. rewrite countb_app, IH. reflexivity. Qed.
  Lemma occ_countb l c : occ (map label l) c = countb (fun x => String.eqb (label x) c) l.
  Proof. unfold occ. rewrite count_occ_countb, countb_map. reflexivity. Qed.
  Lemma list_sum_le2 {A B} (f : A -> nat) (g : B -> nat) l l' : Forall2 (fun a b => f a <= g b) l l' -> list_sum (map f l) <= list_sum (map g l').
  Proof. induction 1; simpl; lia. Qed.
  Lemma countb_ext_in' {A} (f g : A -> bool) l : (forall x, In x l -> f x = g x) -> countb f l = countb g l.
  Proof.
    induction l as [|x l IH]; intros H; [reflexivity|]. rewrite !countb_cons. rewrite (H x (or_introl eq_refl)), IH; [reflexivity|].
    intros; apply H; right; assumption.
  Qed.
  Definition zipped {A B C} (f : A -> B -> C) l l' := map (fun p => f (fst p) (snd p)) (combine l l').
  Lemma hits_route shape lab d c ch groups data :
    Forall (fun t => fits shape (t_cond t)) ch -> tabular shape data -> Forall (fun x => isComposite x = false) data ->
    Permutation (concat groups) data -> length groups = length ch ->
    (forall i g x, nth_error groups i = Some g -> In x data -> (In x g <-> routed (map t_cond ch) i x)) ->
    hits (node_predict (Node lab false d c ch)) data = list_sum (map (fun p => hits (node_predict (snd p)) (fst p)) (combine groups ch)).
  Proof.
    intros Hc Ht Hpl HP Hlen Hr. unfold hits. rewrite <- (countb_perm _ _ _ HP), countb_concat.
    set (F := fun x => match node_predict (Node lab false d c ch) x with Ok p => String.eqb p (label x) | _ => false end).
    assert (forall i g n, nth_error groups i = Some g -> nth_error ch i = Some n ->
      countb F g = countb (fun x => match node_predict n x with Ok p => String.eqb p (label x) | _ => false end) g) as Hk.
    { intros i g n Hg Hn. apply countb_ext_in'. intros x Hx.
      assert (In x data) as Hxd. { apply (Permutation_in _ HP), in_concat. exists g. split; [exact (nth_error_In _ _ Hg)|exact Hx]. }
      destruct (pick_routed shape ch x (proj1 (Forall_forall _ _) Ht x Hxd) Hc i (proj1 (Hr i g x Hg Hxd) Hx)) as (n' & Hn' & Ep).
      unfold F. rewrite (predict_plain _ _ _ _ _ (proj1 (Forall_forall _ _) Hpl x Hxd)), Ep. cbn [bind]. assert (n' = n) as -> by congruence. reflexivity. }
    clearbody F. clear - Hk Hlen. revert ch Hlen Hk. induction groups as [|g gs IH]; intros [|n ch] Hlen Hk; try discriminate Hlen; [reflexivity|].
    simpl. rewrite (Hk 0 g n eq_refl eq_refl). f_equal. apply IH; [simpl in Hlen; lia|]. intros i g' n' A B. exact (Hk (S i) g' n' A B).
  Qed.
  Lemma hits_leaf lab d c ch data : Forall (fun x => isComposite x = false) data ->
    hits (node_predict (Node lab true d c ch)) data = occ (map label data) lab.
  Proof.
    intros H. rewrite occ_countb. unfold hits. apply countb_ext_in'. intros x Hx.
    rewrite (predict_leaf_plain _ _ _ _ _ (proj1 (Forall_forall _ _) H x Hx)). apply String.eqb_sym.
  Qed.
  Lemma occ_concat groups data c : Permutation (concat groups) data ->
    occ (map label data) c = list_sum (map (fun g => occ (map label g) c) groups).
  Proof.
    intros HP. rewrite occ_countb, <- (countb_perm _ _ _ HP), countb_concat. f_equal. apply map_ext. intros g. symmetry. apply occ_countb.
  Qed.
  Lemma pruned_cond t t' : pruned t t' -> t_cond t' = t_cond t.
  Proof. inversion 1; reflexivity. Qed.
  Lemma grown_best shape : forall t data, grown data t -> fits_tree shape t -> tabular shape data -> Forall (fun x => isComposite x = false) data ->
    (forall c, occ (map label data) c <= hits (node_predict t) data) /\
    forall t', pruned t t' -> hits (node_predict t') data <= hits (node_predict t) data.
  Proof.
    induction t as [lab leaf d c ch IH] using tree_rect2; intros data Hg Hf Ht Hpl.
    inversion Hg as [? ? ? ? [Hin Hmax] _|? ? ? ? groups ? [Hin Hmax] _ _ HP _ Hr Hch]; subst.
    - split; [intros e; rewrite (hits_leaf _ _ _ _ _ Hpl); apply Hmax|]. intros t' Hpr. inversion Hpr as [? ? leaf' ? ? ? ? Hl Hch]; subst.
      rewrite (Hl eq_refl), !(hits_leaf _ _ _ _ _ Hpl). lia.
    - inversion Hf as [? ? ? ? ? Hc Hft]; subst.
      pose proof (Forall2_len _ _ _ Hch) as Hlen.
      pose proof (hits_route shape lab d c ch groups data Hc Ht Hpl HP Hlen Hr) as Eh.
      assert (forall g, In g groups -> forall x, In x g -> In x data) as Hsub.
      { intros g Hgi x Hx. apply (Permutation_in _ HP), in_concat. exists g. split; assumption. }
      assert (Forall2 (fun g n => (forall e, occ (map label g) e <= hits (node_predict n) g) /\
                 forall n', pruned n n' -> hits (node_predict n') g <= hits (node_predict n) g) groups ch) as HH.
      { clear - IH Hch Hft Hsub Ht Hpl. revert IH Hft. induction Hch as [|g n gs ch Hgn _ IHch]; intros IH Hft; constructor.
        - inversion IH; subst. inversion Hft; subst.
          match goal with H : forall data, grown data n -> _ |- _ => apply H end; [exact Hgn|assumption| |].
          + apply (tab_incl _ data); [|exact Ht]. apply Hsub. left; reflexivity.
          + apply Forall_forall. intros x Hx. apply (proj1 (Forall_forall _ _) Hpl), (Hsub g (or_introl eq_refl)), Hx.
        - inversion IH; subst. inversion Hft; subst. apply IHch; [intros g' Hg'; apply Hsub; right; exact Hg'|assumption|assumption]. }
      assert (forall e, occ (map label data) e <= hits (node_predict (Node lab false d c ch)) data) as H1.
      { intros e. rewrite Eh, (occ_concat groups data e HP). clear - HH. induction HH as [|g n gs ch [H _] _ IH]; simpl; [lia|]. specialize (H e). lia. }
      split; [exact H1|]. intros t' Hpr. inversion Hpr as [? ? leaf' ? ? ? ch' Hl Hch']; subst. destruct leaf'.
      + rewrite (hits_leaf _ _ _ _ _ Hpl). apply H1.
      + rewrite Eh. assert (map t_cond ch' = map t_cond ch) as Econd.
        { clear - Hch'. induction Hch' as [|a b l l' H _ IH]; [reflexivity|]. simpl. rewrite (pruned_cond _ _ H), IH. reflexivity. }
        rewrite (hits_route shape lab d c ch' groups data).
        * clear - HH Hch'. revert ch' Hch'. induction HH as [|g n gs ch [_ H] _ IH]; intros ch' Hch'; inversion Hch'; subst; [simpl; lia|].
          simpl. match goal with Hp : pruned n ?y |- _ => specialize (H y Hp) end. 
          match goal with Hp : Forall2 pruned ch ?l |- _ => specialize (IH l Hp) end. lia.
        * apply Forall_map with (f := t_cond) (P := fits shape). rewrite Econd. apply Forall_map. exact Hc.
        * exact Ht.
        * exact Hpl.
        * exact HP.
        * rewrite Hlen. exact (Forall2_len _ _ _ Hch').
        * rewrite Econd. exact Hr.
  Qed.
  Lemma tree_predict_plain t x : isComposite x = false -> tree_predict t x = node_predict t x.
  Proof. intros H. unfold TreeModel.tree_predict. rewrite H. destruct (node_predict t x); try reflexivity. cbn [bind]. rewrite andb_false_r. reflexivity. Qed.
  Lemma hits_plain t data : Forall (fun x => isComposite x = false) data -> hits (tree_predict t) data = hits (node_predict t) data.
  Proof.
    intros H. unfold hits. apply countb_ext_in'. intros x Hx. rewrite (tree_predict_plain t x); [reflexivity|]. exact (proj1 (Forall_forall _ _) H x Hx).
  Qed.

  (** * Pruning *)
  Lemma test_hits p l k0 k : foldM (fun k x => do q <- p x; Ok (if String.eqb (label x) q then S k else k)) l k0 = Ok k -> k = k0 + hits p l.
  Proof.
    revert k0; induction l as [|x l IH]; intros k0 H; [injection H as <-; unfold hits, countb; simpl; lia|].
    cbn [foldM] in H. unfold hits. rewrite countb_cons. destruct (p x) as [q| | |]; try discriminate H. cbn [bind] in H. apply IH in H.
    rewrite String.eqb_sym in H. rewrite H. fold (hits p l). destruct (String.eqb q (label x)); lia.
  Qed.
  Lemma accuracy_hits t l a : accuracy_on max_item t l = Ok a -> a = ddiv (dofnat (hits (tree_predict t) l)) (dofnat (length l)).
  Proof.
    unfold accuracy_on, test_classifier. intros H. apply bind_ok in H. destruct H as (p & H & Ha).
    apply bind_ok in H. destruct H as (k & Hk & Hp). apply test_hits in Hk. injection Hp as <-. simpl in Ha. injection Ha as <-. rewrite Hk. reflexivity.
  Qed.
  Lemma accuracy_le t t' l a a' : accuracy_on max_item t l = Ok a -> accuracy_on max_item t' l = Ok a' -> dltb a' a = false ->
    hits (tree_predict t) l <= hits (tree_predict t') l.
  Proof.
    intros H H'. apply accuracy_hits in H. apply accuracy_hits in H'. subst. destruct l as [|x l]; [unfold hits, countb; simpl; lia|].
    rewrite !dofnat_fin. assert (0 < qofn (length (x :: l)))%Q as Hpos by (apply qofn_pos; simpl; lia).
    rewrite !ddiv_fin by lra. intros E. apply dltb_fin_false in E. apply qofn_le.
    set (n := qofn (length (x :: l))) in *. clearbody n.
    set (u := qofn (hits (tree_predict t) (x :: l))) in *. set (v := qofn (hits (tree_predict t') (x :: l))) in *.
    assert (u == (u / n) * n)%Q as Hu by (field; lra). assert (v == (v / n) * n)%Q as Hv by (field; lra).
    set (u' := (u / n)%Q) in *. set (v' := (v / n)%Q) in *. nra.
  Qed.
  Lemma prune_node_ok l : forall t plug t', prune_node max_item l plug t = Ok t' ->
    pruned t t' /\ hits (tree_predict (plug t)) l <= hits (tree_predict (plug t')) l.
  Proof.
    assert (forall t, pruned t t) as Hrefl.
    { induction t as [lab leaf d c ch IH] using tree_rect2. constructor; [tauto|]. clear - IH. induction IH; constructor; assumption. }
    induction t as [lab leaf d c ch IH] using tree_rect2. intros plug t' H. destruct leaf.
    - simpl in H. injection H as <-. split; [apply Hrefl|lia].
    - cbn [prune_node] in H. apply bind_ok in H. destruct H as (before & Hb & H). apply bind_ok in H. destruct H as (after & Ha & H).
      destruct (dltb after before) eqn:E.
      2:{ injection H as <-. split; [|exact (accuracy_le _ _ _ _ _ Hb Ha E)]. constructor; [reflexivity|]. clear - Hrefl. induction ch; constructor; auto. }
      clear Hb Ha E. apply bind_ok in H. destruct H as (ch' & H & Ht'). injection Ht' as <-.
      assert (forall todo done ch', Forall (fun t => forall plug t', prune_node max_item l plug t = Ok t' ->
                pruned t t' /\ hits (tree_predict (plug t)) l <= hits (tree_predict (plug t')) l) todo ->
              (fix go (done todo : list tree) : res (list tree) :=
                 match todo with
                 | [] => Ok done
                 | n :: todo' => do n' <- prune_node max_item l (fun n => plug (Node lab false d c (done ++ n :: todo'))) n;
                                 go (done ++ [n']) todo'
                 end) done todo = Ok ch' ->
              exists todo', ch' = done ++ todo' /\ Forall2 pruned todo todo' /\
                hits (tree_predict (plug (Node lab false d c (done ++ todo)))) l <= hits (tree_predict (plug (Node lab false d c ch'))) l) as Hgo.
      { clear. induction todo as [|n todo IHt]; intros done ch' HF H.
        - injection H as <-. exists []. rewrite app_nil_r. split; [reflexivity|]. split; [constructor|lia].
        - inversion HF as [|? ? Hn HFt]; subst. apply bind_ok in H. destruct H as (n' & En & H).
          destruct (Hn _ _ En) as [Pn Ln]. cbv beta in Ln. destruct (IHt _ _ HFt H) as (todo' & -> & P & L).
          exists (n' :: todo'). rewrite <- !app_assoc in L. rewrite <- !app_assoc. cbn [app] in *. split; [reflexivity|]. split; [constructor; assumption|]. lia. }
      destruct (Hgo ch [] ch' IH H) as (todo' & E & P & L). simpl in E. subst todo'. split; [constructor; [discriminate|exact P]|exact L].
  Qed.
  (** pruning always finishes when every prediction made on the way is defined *)
  Lemma accuracy_total shape t l : fits_tree shape t -> tabular shape l -> Forall (fun x => isComposite x = true -> possible_labels x <> []) l ->
    exists a, accuracy_on max_item t l = Ok a.
  Proof.
    intros Hf Ht Hp. unfold accuracy_on, test_classifier.
    assert (forall k, exists k', foldM (fun k x => do q <- tree_predict t x; Ok (if String.eqb (label x) q then S k else k)) l k = Ok k') as Hfold.
    { induction l as [|x l IH]; intros k; [eexists; reflexivity|]. inversion Ht; subst. inversion Hp as [|? ? Hx Hpl]; subst.
      assert (exists q, tree_predict t x = Ok q) as [q Hq].
      { unfold TreeModel.tree_predict. destruct (predict_total shape t x Hf ltac:(assumption)) as [p ->]. cbn [bind].
        destruct (String.eqb p "" && isComposite x) eqn:E; [|eexists; reflexivity]. apply andb_true_iff in E.
        destruct (possible_labels x) as [|q r]; [contradiction (Hx (proj2 E)); reflexivity|]. eexists; reflexivity. }
      cbn [foldM]. rewrite Hq. cbn [bind]. apply IH; assumption. }
    destruct (Hfold 0) as [k Hk]. rewrite Hk. cbn [bind]. eexists; reflexivity.
  Qed.
  Lemma prune_node_total shape l : tabular shape l -> Forall (fun x => isComposite x = true -> possible_labels x <> []) l ->
    forall t plug, fits_tree shape t -> (forall t', fits_tree shape t' -> t_cond t' = t_cond t -> fits_tree shape (plug t')) ->
    exists t', prune_node max_item l plug t = Ok t' /\ fits_tree shape t' /\ t_cond t' = t_cond t.
  Proof.
    intros Ht Hp. induction t as [lab leaf d c ch IH] using tree_rect2. intros plug Hf Hplug. destruct leaf.
    - eexists; split; [reflexivity|]. split; [exact Hf|reflexivity].
    - cbn [prune_node]. inversion Hf as [? ? ? ? ? Hc Hft]; subst.
      assert (forall b, fits_tree shape (Node lab b d c ch)) as Hb by (intros b; constructor; assumption).
      destruct (accuracy_total shape (plug (Node lab false d c ch)) l (Hplug _ (Hb false) eq_refl) Ht Hp) as [before ->]. cbn [bind].
      destruct (accuracy_total shape (plug (Node lab true d c ch)) l (Hplug _ (Hb true) eq_refl) Ht Hp) as [after ->]. cbn [bind].
      destruct (dltb after before); [|eexists; split; [reflexivity|]; split; [apply Hb|reflexivity]].
      assert (forall todo done, Forall (fun t => forall plug, fits_tree shape t ->
                (forall t', fits_tree shape t' -> t_cond t' = t_cond t -> fits_tree shape (plug t')) ->
                exists t', prune_node max_item l plug t = Ok t' /\ fits_tree shape t' /\ t_cond t' = t_cond t) todo ->
              Forall (fun t => fits shape (t_cond t)) (done ++ todo) -> Forall (fits_tree shape) (done ++ todo) ->
              exists ch', (fix go (done todo : list tree) : res (list tree) :=
                 match todo with
                 | [] => Ok done
                 | n :: todo' => do n' <- prune_node max_item l (fun n => plug (Node lab false d c (done ++ n :: todo'))) n;
                                 go (done ++ [n']) todo'
                 end) done todo = Ok ch' /\ Forall (fun t => fits shape (t_cond t)) ch' /\ Forall (fits_tree shape) ch') as Hgo.
      { clear - Hplug. induction todo as [|n todo IHt]; intros done HF H1 H2.
        - rewrite app_nil_r in *. exists done. split; [reflexivity|]. split; assumption.
        - inversion HF as [|? ? Hn HFt]; subst. apply Forall_app in H1. destruct H1 as [A1 A2]. inversion A2; subst.
          apply Forall_app in H2. destruct H2 as [B1 B2]. inversion B2; subst.
          destruct (Hn (fun n => plug (Node lab false d c (done ++ n :: todo)))) as (n' & En & Fn & Cn); [assumption| |].
          { intros t' Ft' Ct'. apply Hplug; [|reflexivity]. constructor; apply Forall_app; split; try assumption; constructor; try assumption. rewrite Ct'. assumption. }
          rewrite En. cbn [bind]. apply IHt; [exact HFt| |]; rewrite <- app_assoc; apply Forall_app; split; try assumption; constructor; try assumption.
          rewrite Cn. assumption. }
      destruct (Hgo ch [] IH Hc Hft) as (ch' & -> & F1 & F2). cbn [bind]. eexists; split; [reflexivity|]. split; [constructor; assumption|reflexivity].
  Qed.
End Predict.
