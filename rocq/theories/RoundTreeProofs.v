(** Proofs about growing trees in rounded arithmetic. *)
From Coq Require Import String ZArith QArith Qabs Bool Lia Permutation Lqa List Setoid Morphisms.
From Verif Require Import Base Spec BaseLemmas DblLemmas AttrModel InstanceListModel PartitionModel PerformanceModel
  ListSpec ListProofs DataSetProofs PartitionProofs TreeModel TreeSpec TreeProofs TreeGrowProofs RoundModel RoundSpec RoundProofs RoundPerfProofs
  RoundTreeModel RoundTreeSpec.
Import ListNotations.
Local Open Scope string_scope.
Local Open Scope list_scope.
Local Open Scope nat_scope.

Lemma part_of_refl l : part_of l l.
Proof. exists []. rewrite app_nil_r. apply Permutation_refl. Qed.
Lemma part_of_trans a b c : part_of a b -> part_of b c -> part_of a c.
Proof. intros [r H] [s K]. exists (r ++ s). rewrite app_assoc. etransitivity; [exact K|]. apply Permutation_app_tail, H. Qed.
Lemma part_of_perm a b c : Permutation a b -> part_of a c -> part_of b c.
Proof. intros P [r H]. exists r. etransitivity; [exact H|]. apply Permutation_app_tail, P. Qed.
Lemma part_of_in a b x : part_of a b -> In x a -> In x b.
Proof. intros [r H] Hx. apply (Permutation_in _ (Permutation_sym H)), in_or_app. left; exact Hx. Qed.
Lemma part_of_concat gs l g : Permutation (concat gs) l -> In g gs -> part_of g l.
Proof.
  intros HP Hg. destruct (in_split g gs Hg) as (l1 & l2 & ->). exists (concat l1 ++ concat l2). etransitivity; [apply Permutation_sym, HP|].
  rewrite concat_app. cbn [concat]. rewrite !app_assoc. apply Permutation_app_tail, Permutation_app_comm.
Qed.
Lemma colC_of x k p : feature x k (ACont (Fin p)) -> colC k x = p.
Proof. intros H. unfold colC. rewrite (proj2 (cont_at_ok k x (Fin p)) H). reflexivity. Qed.
Lemma deq_ltb d q h : deq d (Fin q) -> dltb d (Fin h) = dltb (Fin q) (Fin h).
Proof. intros E. rewrite E. reflexivity. Qed.

Section Rounded.
  Context (R : dbl -> dbl) (HR : rounding R).
  #[local] Instance R_proper3 : Proper (deq ==> deq) R. Proof. intros a b E. apply (r_ext R HR _ _ E). Qed.
  Context (entropy : counter -> dbl) (rarr : nat -> Z -> list nat) (shape : list kind).
  Hypothesis Hent : entropy_finite entropy.
  Hypothesis Hgrid : on_grid R entropy.
  Hypothesis Hrarr : rarr_perm rarr.

  (** the rounded value of the split that separates nothing *)
  Lemma no_split_value n h h0 : small n -> 0 < n ->
    deq (rdiv R (radd R (rmul R (Fin h0) (rnat R 0)) (rmul R (Fin h) (rnat R n))) (rnat R n)) (R (ddiv (R (dmul (Fin h) (dofnat n))) (dofnat n))).
  Proof.
    intros Hn Hp. unfold rdiv, radd, rmul. rewrite (rnat_exact R HR n Hn), (rnat_exact R HR 0 ltac:(cbn; lia)).
    assert (deq (dmul (Fin h0) (dofnat 0)) d0) as ->. { change (h0 * qofn 0 == 0)%Q. rewrite qofn_0. ring. }
    rewrite (R_0 R HR). assert (forall d, deq (dadd d0 d) d) as Z. { intros [q| | |]; cbn; try exact I. ring. }
    rewrite (Z (R (dmul (Fin h) (dofnat n)))), (r_idem R HR). reflexivity.
  Qed.
  Lemma r_try_index_good data k m h b v :
    tabular shape data -> data <> [] -> small (length data) -> steady_at R (Fin h) (length data) -> nth_error shape k = Some (KIdx m) -> entropy (cofl (map label data)) = Fin h ->
    good shape data h b ->
    exists b', r_try_index R entropy data (Z.of_nat k) (cofl (map label data), b) v = Ok (cofl (map label data), b') /\ good shape data h b'.
  Proof.
    intros Ht Hne Hsm Hst Hk Hh Hg. unfold r_try_index. rewrite (index_dbl _ _ _ _ (Z.of_nat v) Ht Hk). cbn [bind].
    set (f := fun x => (colI (Z.of_nat k) x =? Z.of_nat v)%Z). set (sel := filter f data). set (rest := filter (fun x => negb (f x)) data).
    rewrite csum_cofl, map_length. destruct (Nat.ltb_spec 0 (length sel)) as [Hsel|Hsel].
    2:{ exists b. split; [reflexivity|exact Hg]. }
    assert (Permutation (map label data) (map label sel ++ map label rest)) as HP.
    { rewrite <- map_app. apply Permutation_map, filter_split. }
    rewrite (csubd_split _ _ _ HP), cadd_cofl, csum_cofl, map_length.
    rewrite (cofl_perm (map label rest ++ map label sel) (map label data)).
    2:{ etransitivity; [apply Permutation_app_comm|apply Permutation_sym, HP]. }
    eexists; split; [reflexivity|]. apply good_better; [exact Hg|]. intros Hlt.
    exists k. split; [reflexivity|]. left. exists m, v. split; [exact Hk|]. split; [reflexivity|]. split.
    - destruct (filter_not_all f data (length_pos_ne _ Hsel)) as (x & Hx & Hf). exists x. split; [exact Hx|]. apply Z.eqb_eq, Hf.
    - destruct (list_eq_dec Nat.eq_dec (map (fun _ => 0) rest) []) as [E|E].
      + exfalso. assert (rest = []) as Er. { destruct rest; [reflexivity|discriminate E]. }
        assert (sel = data) as Es.
        { apply filter_all_eq. intros x Hx. destruct (f x) eqn:Ef; [reflexivity|].
          assert (In x rest) as Hr; [|rewrite Er in Hr; contradiction]. apply filter_In. split; [exact Hx|]. rewrite Ef; reflexivity. }
        rewrite Er, Es, Hh in Hlt. destruct (Hent (cofl (map label []))) as [h0 H0]. rewrite H0 in Hlt.
        assert (0 < length data) as Hn by (destruct data; [contradiction|simpl; lia]).
        unfold ilist in *. cbn [length] in Hlt. rewrite (no_split_value _ h h0 Hsm Hn) in Hlt. unfold steady_at in Hst. rewrite Hst in Hlt. discriminate Hlt.
      + destruct (filter_not_all (fun x => negb (f x)) data) as (y & Hy & Hf).
        { fold rest. intros Er. apply E. rewrite Er. reflexivity. }
        exists y. split; [exact Hy|]. intros Heq. unfold f in Hf. rewrite Heq, Z.eqb_refl in Hf. discriminate Hf.
  Qed.
  Lemma r_try_index_fold data k m h b vs :
    tabular shape data -> data <> [] -> small (length data) -> steady_at R (Fin h) (length data) -> nth_error shape k = Some (KIdx m) -> entropy (cofl (map label data)) = Fin h ->
    good shape data h b ->
    exists b', foldM (r_try_index R entropy data (Z.of_nat k)) vs (cofl (map label data), b) = Ok (cofl (map label data), b') /\ good shape data h b'.
  Proof.
    intros Ht Hne Hsm Hst Hk Hh. revert b; induction vs as [|v vs IH]; intros b Hg; [exists b; split; [reflexivity|exact Hg]|].
    destruct (r_try_index_good data k m h b v Ht Hne Hsm Hst Hk Hh Hg) as (b1 & E & G1). cbn [foldM]. rewrite E. cbn [bind].
    destruct (IH b1 G1) as (b2 & E2 & G2). exists b2. split; assumption.
  Qed.
  Lemma r_disc_good data k h b v :
    tabular shape data -> data <> [] -> small (length data) -> nth_error shape k = Some KDisc -> entropy (cofl (map label data)) = Fin h ->
    good shape data h b ->
    exists e, r_disc_entropy R entropy data (Z.of_nat k) = Ok e /\ good shape data h (better b e (Z.of_nat k) v).
  Proof.
    intros Ht Hne Hsm Hk Hh Hg. pose proof (tab_text _ _ _ Ht Hk) as Hc. unfold r_disc_entropy.
    destruct (attr_class_ok _ _ _ Hc) as [ds Eds].
    destruct data as [|x0 data0]; [contradiction|]. set (data := x0 :: data0) in *.
    destruct (forallb (fun x => String.eqb (colD (Z.of_nat k) x) (colD (Z.of_nat k) x0)) data) eqn:E.
    - rewrite (attr_class_single _ (colD (Z.of_nat k) x0) data Hne Hc).
      2:{ intros x Hx. apply String.eqb_eq. exact (proj1 (forallb_forall _ _) E x Hx). }
      cbn [bind fold_left]. eexists; split; [reflexivity|]. apply good_better; [exact Hg|]. intros Hlt. exfalso.
      unfold r_share in Hlt. rewrite csum_cofl, map_length, Hh in Hlt.
      assert (~ (qofn (length data) == 0)%Q) as Hz. { pose proof (qofn_pos (length data) ltac:(simpl; lia)). lra. }
      pose proof (Hgrid (cofl (map label data))) as G. rewrite Hh in G.
      unfold rdiv, rmul, radd in Hlt. rewrite (rnat_exact R HR _ Hsm), !dofnat_fin, (ddiv_fin _ _ Hz) in Hlt.
      assert (deq (Fin (qofn (length data) / qofn (length data))) d1) as E1. { unfold d1, deq. field. exact Hz. }
      rewrite E1, (R_1 R HR) in Hlt. assert (deq (dmul d1 (Fin h)) (Fin h)) as E2. { cbn. ring. }
      rewrite E2, G in Hlt. assert (deq (dadd d0 (Fin h)) (Fin h)) as E3. { cbn. ring. }
      rewrite E3, G in Hlt. apply dltb_fin in Hlt. lra.
    - rewrite Eds. cbn [bind]. eexists; split; [reflexivity|]. apply good_better; [exact Hg|]. intros _.
      exists k. split; [reflexivity|]. right; left. split; [exact Hk|].
      assert (exists x, In x data /\ String.eqb (colD (Z.of_nat k) x) (colD (Z.of_nat k) x0) = false) as (x & Hx & Hf).
      { clear - E. induction data as [|y data IH]; simpl in E; [discriminate|].
        destruct (String.eqb (colD (Z.of_nat k) y) (colD (Z.of_nat k) x0)) eqn:Ey; [|exists y; split; [left; reflexivity|exact Ey]].
        destruct (IH E) as (x & Hx & Hf). exists x. split; [right; exact Hx|exact Hf]. }
      exists x, x0. split; [exact Hx|]. split; [left; reflexivity|]. intros Heq. rewrite Heq, String.eqb_refl in Hf. discriminate.
  Qed.
  Lemma r_mid_between p v : ~ (p == v)%Q -> tells_apart R p v -> tells_apart R v p ->
    exists q, deq (r_mid R (Fin p) (Fin v)) (Fin q) /\ ((p <= q < v)%Q \/ (v <= q < p)%Q).
  Proof.
    intros N A B. destruct (Qlt_le_dec p v) as [L|L].
    - destruct (A L) as (q & E & H). exists q. split; [|left; exact H]. unfold r_mid, rdiv, radd. cbn [dadd]. rewrite E. reflexivity.
    - assert (v < p)%Q as L'. { destruct (Qlt_le_dec v p); [assumption|]. exfalso. apply N. lra. }
      destruct (B L') as (q & E & H). exists q. split; [|right; exact H]. unfold r_mid, rdiv, radd. cbn [dadd].
      assert (deq (Fin (p + v)) (Fin (v + p))) as ->. { unfold deq. ring. }
      rewrite E. reflexivity.
  Qed.
  Lemma r_cut_fold data n k h : column_apart R shape data -> nth_error shape k = Some KCont -> forall l s,
    tabular shape l -> incl l data -> tabular shape data -> good shape data h (s_best s) ->
    (s_prev s = None \/ exists x, In x data /\ s_prev s = Some (Fin (colC (Z.of_nat k) x))) ->
    exists s', foldM (r_try_cut R entropy n (Z.of_nat k)) l s = Ok s' /\ good shape data h (s_best s').
  Proof.
    intros Hap Hk. induction l as [|x l IH]; intros s Ht Hi Htd Hg Hp; [exists s; split; [reflexivity|exact Hg]|].
    inversion Ht as [|? ? Hx Htl]; subst. assert (In x data) as Hxd by (apply Hi; left; reflexivity).
    assert (incl l data) as Hil by (intros y Hy; apply Hi; right; exact Hy).
    cbn [foldM]. unfold r_try_cut at 1.
    rewrite (proj2 (cont_at_ok _ _ _) (typed_cont _ x k Hx Hk)). cbn [bind].
    destruct Hp as [Hp|(y & Hy & Hp)]; rewrite Hp.
    - cbn [bind]. apply IH; [exact Htl|exact Hil|exact Htd|exact Hg|]. right. exists x. split; [exact Hxd|reflexivity].
    - destruct (negb (deqb (Fin (colC (Z.of_nat k) x)) (Fin (colC (Z.of_nat k) y)))) eqn:E; cbn [bind].
      + apply IH; [exact Htl|exact Hil|exact Htd| |right; exists x; split; [exact Hxd|reflexivity]]. cbn [s_best].
        apply good_better; [exact Hg|]. intros _. exists k. split; [reflexivity|]. right; right. split; [exact Hk|].
        assert (typed shape y) as Hty by (exact (proj1 (Forall_forall _ _) Htd y Hy)).
        pose proof (Hap k y x _ _ Hk Hy Hxd (typed_cont _ y k Hty Hk) (typed_cont _ x k Hx Hk)) as A.
        pose proof (Hap k x y _ _ Hk Hxd Hy (typed_cont _ x k Hx Hk) (typed_cont _ y k Hty Hk)) as B.
        set (p := colC (Z.of_nat k) y) in *. set (v := colC (Z.of_nat k) x) in *.
        assert (~ p == v)%Q as Hvp.
        { intros Hq. apply negb_true_iff in E. unfold deqb in E. rewrite (proj2 (dleb_fin v p)), (proj2 (dleb_fin p v)) in E by lra. discriminate E. }
        destruct (r_mid_between p v Hvp A B) as (q & Eq & H). destruct (r_mid R (Fin p) (Fin v)) as [t| | |]; try contradiction. cbn [deq] in Eq.
        destruct H as [[H1 H2]|[H1 H2]].
        * exists t, y, x. split; [reflexivity|]. split; [exact Hy|]. split; [exact Hxd|]. fold p v. split; lra.
        * exists t, x, y. split; [reflexivity|]. split; [exact Hxd|]. split; [exact Hy|]. fold p v. split; lra.
      + apply IH; [exact Htl|exact Hil|exact Htd|exact Hg|]. right. exists y. split; [exact Hy|reflexivity].
  Qed.
  (** what the search needs of the data of a node *)
  Definition node_ok (data : list instance) : Prop :=
    tabular shape data /\ data <> [] /\ small (length data) /\ column_apart R shape data /\
    ((exists j m, nth_error shape j = Some (KIdx m)) -> steady_at R (entropy (cofl (map label data))) (length data)).
  Lemma r_try_attr_good data0 data h b k :
    Permutation data0 data -> node_ok data0 -> k < length shape -> entropy (cofl (map label data0)) = Fin h ->
    good shape data0 h b ->
    exists data' b', r_try_attr R entropy (data, cofl (map label data0), b) (Z.of_nat k) = Ok (data', cofl (map label data0), b')
      /\ Permutation data0 data' /\ good shape data0 h b'.
  Proof.
    intros HP (Ht & Hne & Hsm & Hap & Hst) Hk Hh Hg. pose proof (tab_perm _ _ _ HP Ht) as Ht'.
    assert (data <> []) as Hne'. { intros ->. apply Hne, Permutation_nil, Permutation_sym, HP. }
    assert (small (length data)) as Hsm' by (rewrite <- (Permutation_length HP); exact Hsm).
    assert (cofl (map label data) = cofl (map label data0)) as Hcd.
    { apply cofl_perm, Permutation_map, Permutation_sym, HP. }
    pose proof (good_perm _ _ _ _ _ HP Hg) as Hg'.
    assert (entropy (cofl (map label data)) = Fin h) as Hh' by (rewrite Hcd; exact Hh).
    destruct (nth_error shape k) as [kd|] eqn:Ek; [|apply nth_error_None in Ek; lia].
    pose proof (Permutation_length HP) as HL.
    destruct data as [|x0 data1]; [contradiction|]. set (data := x0 :: data1) in *.
    unfold r_try_attr. unfold data at 1. cbn [atn nth_error bind].
    destruct (typed_at _ x0 _ _ (proj1 (Forall_forall _ _) Ht' x0 (or_introl eq_refl)) Ek) as (a & _ & Ha & Hga & _).
    rewrite Hga. cbn [bind]. destruct kd as [| |m|]; simpl in Ha.
    - destruct Ha as [v ->]. cbn [isDiscreteIndexed isDiscrete].
      destruct (r_disc_good data k h b (b_value b) Ht' Hne' Hsm' Ek Hh' Hg') as (e & Ee & Ge). rewrite Ee. cbn [bind].
      eexists _, _. split; [reflexivity|]. split; [exact HP|]. exact (good_perm _ _ _ _ _ (Permutation_sym HP) Ge).
    - destruct Ha as [v ->]. cbn. eexists _, _. split; [reflexivity|]. split; [exact HP|exact Hg].
    - destruct Ha as (v & i & ->). cbn [isDiscreteIndexed idx_max bind].
      assert (steady_at R (Fin h) (length data)) as Hst'. { rewrite <- HL, <- Hh. apply Hst. exists k, m. exact Ek. }
      destruct (r_try_index_fold data k m h b (seq 0 m) Ht' Hne' Hsm' Hst' Ek Hh' Hg') as (b' & E & G). rewrite <- Hcd, E. cbn [bind fst snd].
      eexists _, _. split; [reflexivity|]. split; [exact HP|]. exact (good_perm _ _ _ _ _ (Permutation_sym HP) G).
    - destruct Ha as (v & ->). cbn [isDiscreteIndexed isDiscrete isContinuous].
      destruct (sort_by_spec (Z.of_nat k) data _ (tab_num _ _ _ Ht' Ek)) as (l' & vs' & Es & Ps & _).
      { apply Forall_forall. intros d Hd. apply in_map_iff in Hd. destruct Hd as (x & <- & _). reflexivity. }
      rewrite Es. cbn [bind].
      assert (Permutation data0 l') as HP' by (etransitivity; [exact HP|exact Ps]).
      destruct (r_cut_fold data0 (length l') k h Hap Ek l' (mkScan None (class_distribution l') [] b)) as (s & E & G).
      { exact (tab_perm _ _ _ Ps Ht'). }
      { intros x Hx. exact (Permutation_in _ (Permutation_sym HP') Hx). }
      { exact Ht. }
      { exact Hg. }
      { left; reflexivity. }
      rewrite E. cbn [bind]. eexists _, _. split; [reflexivity|]. split; [exact HP'|exact G].
  Qed.
  Lemma r_try_attr_fold data0 h ks : node_ok data0 -> entropy (cofl (map label data0)) = Fin h ->
    (forall k, In k ks -> k < length shape) -> forall data b, Permutation data0 data -> good shape data0 h b ->
    exists data' b', foldM (r_try_attr R entropy) (map Z.of_nat ks) (data, cofl (map label data0), b) = Ok (data', cofl (map label data0), b')
      /\ Permutation data0 data' /\ good shape data0 h b'.
  Proof.
    intros Hn Hh. induction ks as [|k ks IH]; intros Hks data b HP Hg.
    - exists data, b. split; [reflexivity|]. split; [exact HP|exact Hg].
    - destruct (r_try_attr_good data0 data h b k HP Hn (Hks k (or_introl eq_refl)) Hh Hg) as (d1 & b1 & E & P1 & G1).
      cbn [map foldM]. rewrite E. cbn [bind]. apply IH; [intros j Hj; apply Hks; right; exact Hj|exact P1|exact G1].
  Qed.
  Lemma r_search_ok param data : node_ok data ->
    exists data' b, r_search R entropy rarr param data = Ok (data', b) /\ Permutation data data' /\
      (b_attr b = (-1)%Z \/ proper shape data' (b_attr b) (b_value b)).
  Proof.
    intros Hn. pose proof Hn as (Ht & Hne & _). unfold r_search. destruct data as [|x0 data1] eqn:Ed; [contradiction|]. rewrite <- Ed in *.
    assert (atn data 0 = Ok x0) as -> by (rewrite Ed; reflexivity). cbn [bind].
    destruct (attr_order_ok shape rarr param x0 Hrarr) as (ks & -> & Hks).
    { apply (proj1 (Forall_forall _ _) Ht). rewrite Ed; left; reflexivity. }
    cbn [bind]. rewrite class_distribution_cofl. destruct (Hent (cofl (map label data))) as [h Hh].
    destruct (r_try_attr_fold data h ks Hn Hh Hks data (mkBest (entropy (cofl (map label data))) (-1) d0) (Permutation_refl _))
      as (d' & b & E & P & G).
    { split; [|left; reflexivity]. simpl. rewrite Hh. apply dleb_fin. lra. }
    exists d', b. split; [apply bind_ok; eexists; split; [exact E|reflexivity]|]. split; [exact P|]. exact (proj2 (good_perm _ _ _ _ _ P G)).
  Qed.
  Lemma column_apart_part s data : part_of s data -> column_apart R shape data -> column_apart R shape s.
  Proof. intros P H j x y p v Hj Hx Hy. apply (H j x y p v Hj (part_of_in _ _ _ P Hx) (part_of_in _ _ _ P Hy)). Qed.
  Lemma part_of_length s data : part_of s data -> length s <= length data.
  Proof. intros [r H]. rewrite (Permutation_length H), app_length. lia. Qed.

  (** [whole] is the training set, [data] the part that reaches a node *)
  Lemma r_build_ok param stump whole : tabular shape whole -> small (length whole) -> column_apart R shape whole ->
    ((exists j m, nth_error shape j = Some (KIdx m)) -> steady R entropy whole) ->
    forall fuel data c, part_of data whole -> data <> [] -> length data <= fuel ->
    exists t, r_build R entropy rarr param stump fuel data c = Ok t /\ grown data t /\ t_cond t = c /\ fits_tree shape t.
  Proof.
    intros Hw Hsw Haw Hsteady. induction fuel as [|f IH]; intros data c Hpart Hne Hf.
    { destruct data; [contradiction|simpl in Hf; lia]. }
    assert (tabular shape data) as Ht. { apply (tab_incl _ whole); [|exact Hw]. intros x. apply part_of_in, Hpart. }
    cbn [r_build].
    assert (majority (map label data) (get_maximum (class_labels data))) as Hmaj by (apply get_maximum_majority, Hne).
    assert (forall l, ccount (fold_left cput (class_labels data) []) l = occ (map label data) l) as Hdist by (intros l; apply ccount_cofl).
    assert (exists t, Ok (Node (get_maximum (class_labels data)) true (fold_left cput (class_labels data) []) c []) = Ok t
              /\ grown data t /\ t_cond t = c /\ fits_tree shape t) as Hleaf.
    { eexists; split; [reflexivity|]. split; [constructor; assumption|]. split; [reflexivity|]. constructor; constructor. }
    destruct (length (distinct_labels data) =? 1); [exact Hleaf|].
    destruct (stump && negb (c_index c =? -1)%Z); [exact Hleaf|].
    assert (node_ok data) as Hn.
    { split; [exact Ht|]. split; [exact Hne|]. split; [pose proof (part_of_length _ _ Hpart); lia|]. split; [exact (column_apart_part _ _ Hpart Haw)|].
      intros Hi. pose proof (Hsteady Hi data Hne Hpart) as S0. rewrite class_distribution_cofl in S0. exact S0. }
    destruct (r_search_ok param data Hn) as (data' & b & Es & HP & Hb). rewrite Es. cbn [bind].
    destruct (Z.eqb_spec (b_attr b) (-1)) as [Eb|Eb]; [exact Hleaf|]. destruct Hb as [Hb|Hb]; [contradiction|].
    assert (data' <> []) as Hne'. { intros ->. apply Hne, Permutation_nil, Permutation_sym, HP. }
    destruct (split_proper shape data' _ _ (tab_perm _ _ _ HP Ht) Hne' Hb) as (parts & Esp & (P1 & P2 & P3 & P4) & H2 & Hnon).
    rewrite Esp. cbn [bind].
    assert (Permutation (concat (map snd parts)) data) as HPc by (etransitivity; [exact P1|apply Permutation_sym, HP]).
    assert (Forall (fun g => g <> [] /\ length g < length data) (map snd parts)) as Hsm.
    { apply concat_smaller; [exact HPc|rewrite map_length; exact H2|]. apply Forall_map. exact Hnon. }
    destruct (mapM_forall (fun p => r_build R entropy rarr param stump f (snd p) (fst p))
                (fun p t => grown (snd p) t /\ t_cond t = fst p /\ fits_tree shape t) parts) as (ch & Ech & Hch).
    { intros p Hp. assert (In (snd p) (map snd parts)) as Hin by (apply in_map, Hp).
      destruct (proj1 (Forall_forall _ _) Hsm _ Hin) as [N L]. apply IH; [|exact N|lia].
      exact (part_of_trans _ _ _ (part_of_concat _ _ _ HPc Hin) Hpart). }
    rewrite Ech. cbn [bind]. eexists; split; [reflexivity|].
    assert (map t_cond ch = map fst parts) as Hc.
    { clear - Hch. induction Hch as [|p t parts ch (_ & E & _) _ IH]; [reflexivity|]. simpl. rewrite E, IH. reflexivity. }
    split; [|split; [reflexivity|]].
    - apply grown_inner with (groups := map snd parts); try assumption.
      + rewrite <- (Forall2_len _ _ _ Hch). exact H2.
      + intros i g x Hi Hx. rewrite Hc. rewrite nth_error_map in Hi. destruct (nth_error parts i) as [[cd g']|] eqn:Ei; [|discriminate Hi].
        simpl in Hi. injection Hi as <-. apply (P4 i cd g' x Ei). apply (Permutation_in _ HP), Hx.
      + apply Forall2_map_l. refine (Forall2_imp _ _ _ _ _ Hch). intros p t (G & _). exact G.
    - constructor.
      + apply Forall_forall. intros t Hin. assert (In (t_cond t) (map fst parts)) as Hin' by (rewrite <- Hc; apply in_map, Hin).
        apply in_map_iff in Hin'. destruct Hin' as (p & <- & Hp). exact (proj1 (Forall_forall _ _) P2 p Hp).
      + clear - Hch. induction Hch as [|p t parts ch (_ & _ & F) _ IH]; constructor; assumption.
  Qed.
  Lemma r_build_mono param stump : forall f1 d c1 t1, r_build R entropy rarr param stump f1 d c1 = Ok t1 ->
    forall f2, f1 <= f2 -> r_build R entropy rarr param stump f2 d c1 = Ok t1.
  Proof.
    induction f1 as [|f1 IH]; intros d c1 t1 H f2 Hf; [discriminate H|]. destruct f2 as [|f2]; [lia|].
    cbn [r_build] in *. destruct (length (distinct_labels d) =? 1); [exact H|].
    destruct (stump && negb (c_index c1 =? -1)%Z); [exact H|].
    destruct (r_search R entropy rarr param d) as [[d' b]| | |]; try discriminate H. cbn [bind] in *.
    destruct (b_attr b =? -1)%Z; [exact H|]. destruct (split d' (b_attr b) (b_value b)) as [parts| | |]; try discriminate H. cbn [bind] in *.
    apply bind_ok in H. destruct H as (ch & Hch & H). apply bind_ok. exists ch. split; [|exact H].
    apply mapM_ok in Hch. apply mapM_ok. refine (Forall2_imp _ _ _ _ _ Hch). intros p n Hp. apply (IH _ _ _ Hp). lia.
  Qed.

  (** ** The node that never ends *)
  Section Hang.
    Context (m w : nat) (data : list instance) (h : Q).
    Hypothesis Hw : w < m.
    Hypothesis Hdata : Forall (fun x => exists s, attrs x = [AIdx s (Z.of_nat w) m]) data.
    Hypothesis Hne : data <> [].
    Hypothesis Hsm : small (length data).
    Hypothesis Hh : entropy (cofl (map label data)) = Fin h.
    Hypothesis Hun : ~ steady_at R (Fin h) (length data).
    Lemma hang_col x : In x data -> colI 0 x = Z.of_nat w.
    Proof. intros Hx. destruct (proj1 (Forall_forall _ _) Hdata x Hx) as [s E]. unfold colI, index_at, get_attr. rewrite E. reflexivity. Qed.
    Lemma hang_tab : tabular [KIdx m] data.
    Proof. refine (Forall_impl _ _ Hdata). intros x [s E]. unfold typed. rewrite E. constructor; [eexists _, _; reflexivity|constructor]. Qed.
    Lemma hang_sel v : filter (fun x => (colI 0 x =? Z.of_nat v)%Z) data = if v =? w then data else [].
    Proof.
      destruct (Nat.eqb_spec v w) as [->|N].
      - apply filter_all_eq. intros x Hx. rewrite (hang_col x Hx). apply Z.eqb_refl.
      - assert (forall x, In x data -> (colI 0 x =? Z.of_nat v)%Z = false) as H. { intros x Hx. rewrite (hang_col x Hx). apply Z.eqb_neq. lia. }
        clear - H. induction data as [|x l IH]; [reflexivity|]. cbn [filter]. rewrite (H x (or_introl eq_refl)). apply IH. intros y Hy. apply H. right; exact Hy.
    Qed.
    Lemma hang_step b v : b_entropy b = Fin h \/ v <> w -> exists e, r_try_index R entropy data 0 (cofl (map label data), b) v
      = Ok (cofl (map label data), if v =? w then mkBest e 0 (dofnat w) else b).
    Proof.
      intros Hb. unfold r_try_index. change 0%Z with (Z.of_nat 0) at 1. rewrite (index_dbl [KIdx m] data 0 m (Z.of_nat v) hang_tab eq_refl). cbn [bind].
      change (Z.of_nat 0) with 0%Z. rewrite hang_sel. destruct (Nat.eqb_spec v w) as [->|N].
      2:{ exists d0. cbn. reflexivity. }
      rewrite csum_cofl, map_length. assert (0 < length data) as Hn by (destruct data; [contradiction|cbn; lia]). unfold ilist in *.
      rewrite (proj2 (Nat.ltb_lt 0 (length data)) Hn).
      assert (Permutation (map label data) (map label data ++ [])) as HP by (rewrite app_nil_r; apply Permutation_refl).
      rewrite (csubd_split _ _ _ HP), cadd_cofl. cbn [app]. destruct (Hent (cofl [])) as [h0 H0]. rewrite H0.
      destruct Hb as [Hb|Hb]; [|contradiction]. eexists. f_equal. f_equal. unfold better. rewrite Hb, Hh.
      change (csum (cofl [])) with 0. rewrite (no_split_value _ h h0 Hsm Hn). unfold steady_at in Hun. apply not_false_iff_true in Hun. rewrite Hun. reflexivity.
    Qed.
    Lemma hang_fold vs : forall b, NoDup vs -> In w vs -> b_entropy b = Fin h -> exists e,
      foldM (r_try_index R entropy data 0) vs (cofl (map label data), b) = Ok (cofl (map label data), mkBest e 0 (dofnat w)).
    Proof.
      assert (forall vs b, ~ In w vs -> foldM (r_try_index R entropy data 0) vs (cofl (map label data), b) = Ok (cofl (map label data), b)) as Hno.
      { induction vs0 as [|v vs0 IH]; intros b Hn; [reflexivity|]. cbn [foldM]. destruct (hang_step b v) as [e ->]; [right; intros ->; apply Hn; left; reflexivity|].
        destruct (Nat.eqb_spec v w) as [->|N]; [exfalso; apply Hn; left; reflexivity|]. cbn [bind]. apply IH. intros H. apply Hn. right; exact H. }
      induction vs as [|v vs IH]; intros b Hd Hin Hb; [contradiction|]. inversion Hd as [|? ? N Hd']; subst. cbn [foldM].
      destruct (hang_step b v (or_introl Hb)) as [e ->]. cbn [bind]. destruct (Nat.eqb_spec v w) as [->|Nv].
      - exists e. apply Hno, N.
      - apply IH; [exact Hd'| |exact Hb]. destruct Hin as [->|Hin]; [contradiction|exact Hin].
    Qed.
    Lemma hang_search : exists e, r_search R entropy rarr None data = Ok (data, mkBest e 0 (dofnat w)).
    Proof.
      unfold r_search. destruct data as [|x0 l] eqn:Ed; [contradiction|]. rewrite <- Ed in *. assert (atn data 0 = Ok x0) as -> by (rewrite Ed; reflexivity). cbn [bind].
      assert (In x0 data) as Hx0 by (rewrite Ed; left; reflexivity).
      destruct (proj1 (Forall_forall _ _) Hdata x0 Hx0) as [s E0]. unfold attr_order, attr_count. rewrite E0. cbn [length seq map bind foldM].
      unfold r_try_attr. assert (atn data 0 = Ok x0) as -> by (rewrite Ed; reflexivity). cbn [bind]. unfold get_attr. rewrite E0. change (Z.of_nat 0) with 0%Z. cbn [idx bind isDiscreteIndexed idx_max].
      rewrite class_distribution_cofl, Hh. destruct (hang_fold (seq 0 m) (mkBest (Fin h) (-1) d0)) as [e E].
      { apply seq_NoDup. }
      { apply in_seq. lia. }
      { reflexivity. }
      cbn. rewrite E. exists e. reflexivity.
    Qed.
    Lemma hang_split : exists c1 c2, split data 0 (dofnat w) = Ok [(c1, data); (c2, [])].
    Proof.
      destruct (split_spec [KIdx m] data 0 (KIdx m) (dofnat w) hang_tab Hne eq_refl) as (parts & E & _ & Ep); [exists w; reflexivity|].
      change (Z.of_nat 0) with 0%Z in *. rewrite E, Ep, to_int_nat.
      assert (forall x, In x data -> (Z.of_nat w =? colI 0 x)%Z = true) as Hc. { intros x Hx. rewrite (hang_col x Hx). apply Z.eqb_refl. }
      rewrite (filter_all_eq _ data Hc).
      assert (filter (fun x => negb (Z.of_nat w =? colI 0 x)%Z) data = []) as ->.
      { clear - Hc. induction data as [|x l IH]; [reflexivity|]. cbn [filter]. rewrite (Hc x (or_introl eq_refl)). apply IH. intros y Hy. apply Hc. right; exact Hy. }
      eexists _, _. reflexivity.
    Qed.
    Lemma hang : length (distinct_labels data) <> 1 -> forall fuel c, r_build R entropy rarr None false fuel data c = Diverge.
    Proof.
      intros Hl. induction fuel as [|f IH]; intros c; [reflexivity|]. cbn [r_build]. apply Nat.eqb_neq in Hl. rewrite Hl. cbn [andb].
      destruct hang_search as [e ->]. cbn [bind b_attr b_value]. destruct hang_split as (c1 & c2 & E). change (0 =? -1)%Z with false. cbv iota.
      rewrite E. cbn [bind mapM fst snd]. rewrite IH. reflexivity.
    Qed.
  End Hang.
End Rounded.

(** * Midpoints in binary64 *)
Definition least : Q := 1 # (2 ^ 1075)%positive.
Lemma round_error_any q : (Qabs (round_q q - q) <= ulp_half * Qabs q + least)%Q.
Proof.
  pose proof (round_error q) as E. pose proof (Qabs_nonneg q) as P.
  assert (0 <= ulp_half * Qabs q)%Q as P' by (apply Qmult_le_0_compat; [discriminate|exact P]).
  destruct (Z_lt_le_dec (-1074) (last_digit q)) as [L|L].
  - pose proof (last_digit_lower q L) as Lo. assert (pow2 (last_digit q - 1) == ulp_half * pow2 (last_digit q + 52))%Q as E1.
    { replace (last_digit q - 1)%Z with (-53 + (last_digit q + 52))%Z by lia. rewrite pow2_add. reflexivity. }
    rewrite E1 in E. assert (ulp_half * pow2 (last_digit q + 52) <= ulp_half * Qabs q)%Q as E2. { rewrite !(Qmult_comm ulp_half). apply Qmult_le_compat_r; [exact Lo|discriminate]. }
    assert (0 < least)%Q by reflexivity. lra.
  - assert (last_digit q = -1074)%Z as El by (pose proof (last_digit_low q); lia). rewrite El in E. change (pow2 (-1074 - 1)) with least in E. lra.
Qed.
Lemma b64_finite q : (Qabs q <= inject_Z (2 ^ 1023))%Q -> exists r, b64 (Fin q) = Fin r /\ (Qabs (r - q) <= ulp_half * Qabs q + least)%Q.
Proof.
  intros H. pose proof (round_error_any q) as E.
  assert (Qabs (round_q q) < pow2 1024)%Q as B.
  { assert (Qabs (round_q q) <= Qabs (round_q q - q) + Qabs q)%Q as T. { setoid_replace (round_q q) with ((round_q q - q) + q)%Q at 1 by ring. apply Qabs_triangle. }
    assert (ulp_half * Qabs q <= ulp_half * inject_Z (2 ^ 1023))%Q as E2. { rewrite !(Qmult_comm ulp_half). apply Qmult_le_compat_r; [exact H|discriminate]. }
    assert (ulp_half * inject_Z (2 ^ 1023) + least + inject_Z (2 ^ 1023) < pow2 1024)%Q as C by reflexivity. lra. }
  apply Qabs_Qlt_condition in B. destruct (b64_fin q (round_q q) (Qeq_refl _) B) as (r & Er & Hr). exists r. split; [exact Er|]. rewrite Hr. exact E.
Qed.
Lemma mid_bound u y M d s r1 r2 : (0 < u)%Q -> (u <= 1 # 1000)%Q -> (0 < y)%Q -> (0 <= M)%Q -> (Qabs s <= 2 * M)%Q ->
  (Qabs (r1 - s) <= u * Qabs s + y)%Q -> (Qabs (r2 - r1 / 2) <= u * Qabs (r1 / 2) + y)%Q -> (8 * (u * M) < d)%Q -> (16 * y < d)%Q ->
  (Qabs (r2 - s / 2) < d / 2)%Q.
Proof.
  intros Hu Hu' Hy HM Hs H1 H2 Hd1 Hd2.
  assert (forall a b, (a <= b)%Q -> (u * a <= u * b)%Q) as Mono. { intros a b H. rewrite !(Qmult_comm u). apply Qmult_le_compat_r; [exact H|lra]. }
  assert (u * Qabs s <= 2 * (u * M))%Q as A1. { pose proof (Mono _ _ Hs). lra. }
  assert (Qabs r1 <= 2 * M + 2 * (u * M) + y)%Q as A2.
  { assert (Qabs r1 <= Qabs (r1 - s) + Qabs s)%Q as T. { setoid_replace r1 with ((r1 - s) + s)%Q at 1 by ring. apply Qabs_triangle. } lra. }
  assert (Qabs (r1 / 2) == Qabs r1 / 2)%Q as A3. { unfold Qdiv. rewrite Qabs_Qmult. reflexivity. }
  assert (0 <= u * M)%Q as P by (apply Qmult_le_0_compat; lra).
  assert (u * (u * M) <= (1 # 1000) * (u * M))%Q as A4 by (apply Qmult_le_compat_r; assumption).
  assert (u * y <= (1 # 1000) * y)%Q as A5 by (apply Qmult_le_compat_r; lra).
  assert (u * Qabs (r1 / 2) <= (u * M) + u * (u * M) + u * y)%Q as A6.
  { rewrite A3. assert (Qabs r1 / 2 <= M + u * M + y)%Q as A7.
    { assert (Qabs r1 / 2 == Qabs r1 * (1 # 2))%Q as E by reflexivity. rewrite E. lra. }
    pose proof (Mono _ _ A7). lra. }
  assert (Qabs (r1 / 2 - s / 2) == Qabs (r1 - s) * (1 # 2))%Q as A8.
  { setoid_replace (r1 / 2 - s / 2)%Q with ((r1 - s) * (1 # 2))%Q by field. rewrite Qabs_Qmult. reflexivity. }
  assert (Qabs (r2 - s / 2) <= Qabs (r2 - r1 / 2) + Qabs (r1 / 2 - s / 2))%Q as T.
  { setoid_replace (r2 - s / 2)%Q with ((r2 - r1 / 2) + (r1 / 2 - s / 2))%Q by ring. apply Qabs_triangle. }
  assert (d / 2 == d * (1 # 2))%Q as -> by reflexivity. lra.
Qed.
Lemma spread_apart p v : spread p v -> tells_apart b64 p v.
Proof.
  intros (Bp & Bv & Gp & Gv & G0) L.
  assert (exists M, 0 <= M /\ Qabs p <= M /\ Qabs v <= M /\ M <= inject_Z (2 ^ 1022) /\ 8 * (ulp_half * M) < v - p)%Q as (M & M0 & Mp & Mv & MB & MG).
  { assert (forall x, 8 * (ulp_half * x) == (1 # (2 ^ 50)%positive) * x)%Q as E8. { intros x. rewrite Qmult_assoc. apply Qmult_comp; reflexivity. }
    destruct (Qlt_le_dec (Qabs p) (Qabs v)) as [C|C].
    - exists (Qabs v). repeat split; [apply Qabs_nonneg|lra|lra|exact Bv|rewrite E8; exact Gv].
    - exists (Qabs p). repeat split; [apply Qabs_nonneg|lra|lra|exact Bp|rewrite E8; exact Gp]. }
  assert (16 * least < v - p)%Q as G1. { assert (16 * least == 1 # (2 ^ 1071)%positive)%Q as -> by reflexivity. exact G0. }
  assert (inject_Z (2 ^ 1023) == 2 * inject_Z (2 ^ 1022))%Q as B2 by reflexivity.
  assert (Qabs (p + v) <= 2 * M)%Q as Hs. { eapply Qle_trans; [apply Qabs_triangle|]. lra. }
  destruct (b64_finite (p + v)) as (r1 & E1 & H1); [rewrite B2; lra|].
  assert (Qabs r1 <= inject_Z (2 ^ 1023) * 2)%Q as Hr1.
  { assert (Qabs r1 <= Qabs (r1 - (p + v)) + Qabs (p + v))%Q as T. { setoid_replace r1 with ((r1 - (p + v)) + (p + v))%Q at 1 by ring. apply Qabs_triangle. }
    assert (ulp_half * Qabs (p + v) <= (1 # 2) * Qabs (p + v))%Q as A by (apply Qmult_le_compat_r; [discriminate|apply Qabs_nonneg]).
    assert (least <= (1 # 2) * inject_Z (2 ^ 1023))%Q as A' by discriminate. clear - T A A' H1 Hs MB B2. set (B := inject_Z (2 ^ 1023)) in *. set (B' := inject_Z (2 ^ 1022)) in *. clearbody B B'. lra. }
  assert (Qabs (r1 / 2) == Qabs r1 * (1 # 2))%Q as Ha. { unfold Qdiv. rewrite Qabs_Qmult. reflexivity. }
  destruct (b64_finite (r1 / 2)) as (r2 & E2 & H2).
  { rewrite Ha. clear - Hr1. set (B := inject_Z (2 ^ 1023)) in *. clearbody B. lra. }
  exists r2. split; [rewrite E1, ddiv_fin by discriminate; exact E2|].
  pose proof (mid_bound ulp_half least M (v - p) (p + v) r1 r2 eq_refl ltac:(discriminate) eq_refl M0 Hs H1 H2 MG G1) as F.
  apply Qabs_Qlt_condition in F. assert ((p + v) / 2 == (p + v) * (1 # 2))%Q as X by reflexivity. assert ((v - p) / 2 == (v - p) * (1 # 2))%Q as Y by reflexivity.
  rewrite X, Y in F. clear - F. lra.
Qed.
