(** Proofs about the decision tree model: splitting and growing. *)
From Coq Require Import String ZArith QArith Bool Lia Sorted Permutation Lqa List.
From Verif Require Import Base Spec BaseLemmas DblLemmas SortLemmas AttrModel InstanceListModel PartitionModel PerformanceModel
  ListSpec ListProofs DataSetProofs PartitionProofs TreeModel TreeSpec.
Import ListNotations.
Local Open Scope string_scope.
Local Open Scope list_scope.
Local Open Scope nat_scope.

(** * Counters *)
Lemma merase_keys {V} k (m : smap V) x : In x (mkeys (merase k m)) -> In x (mkeys m).
Proof.
  induction m as [|[k' v] m IH]; simpl; [tauto|]. destruct (String.eqb k k'); simpl; [tauto|]. intros [H|H]; tauto.
Qed.
Lemma merase_sorted {V} k (m : smap V) : msorted m -> msorted (merase k m).
Proof.
  unfold msorted; induction m as [|[k' v] m IH]; simpl; intros H; [exact H|].
  inversion H as [|a b Hs Hf]; subst. destruct (String.eqb k k'); [exact Hs|]. simpl; constructor; [apply IH, Hs|].
  apply Forall_forall; intros x Hx. apply (proj1 (Forall_forall _ _) Hf), (merase_keys k), Hx.
Qed.
Lemma merase_cpos k (m : counter) : cpos m -> cpos (merase k m).
Proof.
  unfold cpos; induction m as [|[k' v] m IH]; simpl; intros H; [exact H|]. inversion H; subst.
  destruct (String.eqb k k'); [assumption|]. constructor; [assumption|apply IH; assumption].
Qed.
Lemma mfind_merase {V} k k' (m : smap V) : msorted m -> mfind k' (merase k m) = if String.eqb k k' then None else mfind k' m.
Proof.
  unfold msorted; induction m as [|[k0 v] m IH]; simpl; intros H; [destruct (String.eqb k k'); reflexivity|].
  inversion H as [|a b Hs Hf]; subst. destruct (String.eqb_spec k k0) as [->|Hk].
  - destruct (String.eqb_spec k0 k') as [->|Hk'].
    + apply mfind_none. intros Hin. apply (slt_irrefl k'). apply (proj1 (Forall_forall _ _) Hf), Hin.
    + destruct (String.eqb_spec k' k0) as [->|]; [congruence|reflexivity].
  - simpl. rewrite (IH Hs). destruct (String.eqb_spec k' k0) as [->|Hk'].
    + destruct (String.eqb_spec k k0); [congruence|reflexivity].
    + reflexivity.
Qed.
Lemma ccount_merase k k' (m : counter) : msorted m -> ccount (merase k m) k' = if String.eqb k k' then 0 else ccount m k'.
Proof. intros H. unfold ccount. rewrite (mfind_merase k k' m H). destruct (String.eqb k k'); reflexivity. Qed.
Lemma ccount_mset k n k' (m : counter) : ccount (mset k n m) k' = if String.eqb k k' then n else ccount m k'.
Proof. unfold ccount. rewrite mfind_mset. destruct (String.eqb k k'); reflexivity. Qed.
Lemma cpos_mfind (c : counter) k : cpos c -> mfind k c = if ccount c k =? 0 then None else Some (ccount c k).
Proof.
  intros H. unfold ccount. destruct (mfind k c) as [n|] eqn:E; [|reflexivity].
  apply mfind_in in E. pose proof (proj1 (Forall_forall _ _) H _ E) as Hn. simpl in Hn.
  destruct (Nat.eqb_spec n 0); [lia|reflexivity].
Qed.
Lemma counter_ext (c d : counter) : msorted c -> msorted d -> cpos c -> cpos d -> (forall k, ccount c k = ccount d k) -> c = d.
Proof.
  intros Hc Hd Pc Pd H. apply msorted_ext; [exact Hc|exact Hd|]. intros k.
  rewrite (cpos_mfind c k Pc), (cpos_mfind d k Pd), H. reflexivity.
Qed.
Lemma cofl_cpos l : cpos (cofl l).
Proof. apply cpos_fold_cput. constructor. Qed.
Lemma ccount_cons k0 n0 (d : counter) k : ccount ((k0, n0) :: d) k = if String.eqb k k0 then n0 else ccount d k.
Proof. unfold ccount; simpl. destruct (String.eqb k k0); reflexivity. Qed.
Lemma csubd_spec d : forall c, msorted c -> cpos c -> NoDup (mkeys d) ->
  msorted (csubd c d) /\ cpos (csubd c d) /\ forall k, ccount (csubd c d) k = ccount c k - ccount d k.
Proof.
  unfold csubd; induction d as [|[k0 n0] d IH]; intros c Hs Hp Hn.
  - simpl. split; [exact Hs|]. split; [exact Hp|]. intros k. unfold ccount at 3; simpl. lia.
  - inversion Hn as [|a b Hnot Hnd]; subst. cbn [fold_left fst snd].
    destruct (Nat.eqb_spec (ccount c k0 - n0) 0) as [E|E].
    + destruct (IH (merase k0 c) (merase_sorted k0 c Hs) (merase_cpos k0 c Hp) Hnd) as (A & B & C).
      split; [exact A|]. split; [exact B|]. intros k. rewrite C, (ccount_merase k0 k c Hs).
      rewrite ccount_cons. destruct (String.eqb_spec k0 k) as [<-|Hk].
      * rewrite String.eqb_refl. lia.
      * destruct (String.eqb_spec k k0); [congruence|]. reflexivity.
    + destruct (IH (mset k0 (ccount c k0 - n0) c) (mset_sorted _ _ c Hs) (cpos_mset c k0 (ccount c k0 - n0) ltac:(lia) Hp) Hnd) as (A & B & C).
      split; [exact A|]. split; [exact B|]. intros k. rewrite C, ccount_mset.
      rewrite ccount_cons. destruct (String.eqb_spec k0 k) as [<-|Hk].
      * rewrite String.eqb_refl. assert (ccount d k0 = 0) as ->; [|lia].
        unfold ccount. rewrite (proj2 (mfind_none k0 d) Hnot). reflexivity.
      * destruct (String.eqb_spec k k0); [congruence|]. reflexivity.
Qed.
Lemma csubd_split l l1 l2 : Permutation l (l1 ++ l2) -> csubd (cofl l) (cofl l1) = cofl l2.
Proof.
  intros H. destruct (csubd_spec (cofl l1) (cofl l) (cofl_sorted l) (cofl_cpos l) (msorted_nodup _ (cofl_sorted l1))) as (A & B & C).
  apply counter_ext; [exact A|apply cofl_sorted|exact B|apply cofl_cpos|]. intros k. rewrite C, !ccount_cofl.
  rewrite (proj1 (Permutation_count_occ string_dec _ _) H k), count_occ_app. lia.
Qed.
Lemma cadd_cofl l1 l2 : cadd (cofl l1) (cofl l2) = cofl (l1 ++ l2).
Proof.
  assert (forall d c, msorted c -> cpos c -> cpos d -> msorted (cadd c d) /\ cpos (cadd c d)) as Hc.
  { intros d; unfold cadd; induction d as [|[k n] d IH]; intros c Hs Hp Hd; [split; assumption|]. inversion Hd; subst.
    cbn [fold_left]. apply IH; [apply cputn_sorted, Hs| |assumption]. unfold cputn. apply cpos_mset; [simpl in *; lia|exact Hp]. }
  destruct (Hc (cofl l2) (cofl l1) (cofl_sorted l1) (cofl_cpos l1) (cofl_cpos l2)) as (A & B).
  apply counter_ext; [exact A|apply cofl_sorted|exact B|apply cofl_cpos|]. intros k.
  rewrite (ccount_cadd _ _ _ (msorted_nodup _ (cofl_sorted l2))), !ccount_cofl, count_occ_app. reflexivity.
Qed.

(** * Columns of well typed data *)
Definition colD (k : Z) (x : instance) : string := match disc_at k x with Ok v => v | _ => "" end.
Definition colI (k : Z) (x : instance) : Z := match index_at k x with Ok v => v | _ => 0%Z end.
Definition colC (k : Z) (x : instance) : Q := match cont_at k x with Ok (Fin v) => v | _ => 0%Q end.
Lemma typed_at shape x k kd : typed shape x -> nth_error shape k = Some kd ->
  exists a, nth_error (attrs x) k = Some a /\ has_kind kd a /\ get_attr x (Z.of_nat k) = Ok a /\ feature x (Z.of_nat k) a.
Proof.
  intros H Hk. assert (k < length (attrs x)) as Hlt.
  { rewrite <- (Forall2_len _ _ _ H). apply nth_error_Some. congruence. }
  destruct (nth_error (attrs x) k) as [a|] eqn:E; [|apply nth_error_Some in Hlt; congruence].
  assert (feature x (Z.of_nat k) a) as Hf.
  { split; [unfold in_range; lia|]. rewrite Nat2Z.id. exact E. }
  exists a. split; [reflexivity|]. split; [exact (Forall2_nth _ _ _ _ _ _ H Hk E)|]. split; [apply get_attr_ok, Hf|exact Hf].
Qed.
Lemma typed_disc shape x k : typed shape x -> nth_error shape k = Some KDisc -> feature x (Z.of_nat k) (ADisc (colD (Z.of_nat k) x)).
Proof.
  intros H Hk. destruct (typed_at _ _ _ _ H Hk) as (a & _ & (v & ->) & Hg & Hf).
  unfold colD, disc_at. rewrite Hg. exact Hf.
Qed.
Lemma typed_idx shape x k m : typed shape x -> nth_error shape k = Some (KIdx m) ->
  exists s, feature x (Z.of_nat k) (AIdx s (colI (Z.of_nat k) x) m).
Proof.
  intros H Hk. destruct (typed_at _ _ _ _ H Hk) as (a & _ & (v & i & ->) & Hg & Hf).
  unfold colI, index_at. rewrite Hg. exists v. exact Hf.
Qed.
Lemma typed_cont shape x k : typed shape x -> nth_error shape k = Some KCont -> feature x (Z.of_nat k) (ACont (Fin (colC (Z.of_nat k) x))).
Proof.
  intros H Hk. destruct (typed_at _ _ _ _ H Hk) as (a & _ & (v & ->) & Hg & Hf).
  unfold colC, cont_at. rewrite Hg. exact Hf.
Qed.
Lemma Forall2_self {A B} (P : A -> B -> Prop) (f : A -> B) l : Forall (fun x => P x (f x)) l -> Forall2 P l (map f l).
Proof. induction 1; simpl; constructor; assumption. Qed.
Lemma tab_text shape l k : tabular shape l -> nth_error shape k = Some KDisc -> text_column (Z.of_nat k) l (map (colD (Z.of_nat k)) l).
Proof.
  intros H Hk. apply Forall2_self. refine (Forall_impl _ _ H). intros x Hx. exists (ADisc (colD (Z.of_nat k) x)).
  split; [exact (typed_disc _ x k Hx Hk)|left; reflexivity].
Qed.
Lemma tab_index shape l k m : tabular shape l -> nth_error shape k = Some (KIdx m) -> index_column (Z.of_nat k) l (map (colI (Z.of_nat k)) l).
Proof.
  intros H Hk. apply Forall2_self. refine (Forall_impl _ _ H). intros x Hx. destruct (typed_idx _ x k m Hx Hk) as [s Hs].
  exists s, m. exact Hs.
Qed.
Lemma tab_num shape l k : tabular shape l -> nth_error shape k = Some KCont -> num_column (Z.of_nat k) l (map (fun x => Fin (colC (Z.of_nat k) x)) l).
Proof. intros H Hk. apply Forall2_self. refine (Forall_impl _ _ H). intros x Hx. exact (typed_cont _ x k Hx Hk). Qed.
Lemma tab_perm shape l l' : Permutation l l' -> tabular shape l -> tabular shape l'.
Proof. intros P H. apply Forall_forall. intros x Hx. apply (proj1 (Forall_forall _ _) H), (Permutation_in _ (Permutation_sym P) Hx). Qed.
Lemma tab_incl shape l l' : (forall x, In x l' -> In x l) -> tabular shape l -> tabular shape l'.
Proof. intros P H. apply Forall_forall. intros x Hx. apply (proj1 (Forall_forall _ _) H), P, Hx. Qed.

(** * The search for the best split *)
(** Splitting [data] on column [k] with value [v] leaves no part empty and no part equal to the whole. *)
Definition proper (shape : list kind) (data : list instance) (k : Z) (v : dbl) : Prop :=
  exists j, k = Z.of_nat j /\
    ((exists m w, nth_error shape j = Some (KIdx m) /\ v = dofnat w /\
        (exists x, In x data /\ colI k x = Z.of_nat w) /\ exists y, In y data /\ colI k y <> Z.of_nat w)
     \/ (nth_error shape j = Some KDisc /\ exists x y, In x data /\ In y data /\ colD k x <> colD k y)
     \/ (nth_error shape j = Some KCont /\ exists q x y, v = Fin q /\ In x data /\ In y data /\ (colC k x <= q)%Q /\ (q < colC k y)%Q)).
Lemma proper_perm shape d d' k v : Permutation d d' -> proper shape d k v -> proper shape d' k v.
Proof.
  intros P (j & Hk & H). exists j. split; [exact Hk|]. pose proof (fun x => Permutation_in x P) as Hin.
  destruct H as [(m & w & A & B & (x & Hx & C) & (y & Hy & D))|[(A & x & y & Hx & Hy & D)|(A & q & x & y & B & Hx & Hy & D)]].
  - left. exists m, w. split; [exact A|]. split; [exact B|]. split; [exists x|exists y]; auto.
  - right; left. split; [exact A|]. exists x, y. auto.
  - right; right. split; [exact A|]. exists q, x, y. auto.
Qed.
(** the best split found so far is no worse than not splitting, and proper if there is one *)
Definition good (shape : list kind) (data : list instance) (h : Q) (b : best) : Prop :=
  dleb (b_entropy b) (Fin h) = true /\ (b_attr b = (-1)%Z \/ proper shape data (b_attr b) (b_value b)).
Lemma good_better shape data h b e k v :
  good shape data h b -> (dltb e (Fin h) = true -> proper shape data k v) -> good shape data h (better b e k v).
Proof.
  intros [A B] H. unfold better. destruct (dltb e (b_entropy b)) eqn:E; [|split; assumption].
  assert (dltb e (Fin h) = true) as Hlt.
  { destruct e, (b_entropy b); simpl in *; try discriminate; try reflexivity.
    apply dltb_fin. apply dltb_fin in E. apply dleb_fin in A. lra. }
  split; simpl; [|right; apply H, Hlt].
  destruct e; simpl in *; try discriminate; try reflexivity. apply dleb_fin. apply dltb_fin in Hlt. lra.
Qed.
Lemma good_perm shape d d' h b : Permutation d d' -> good shape d h b -> good shape d' h b.
Proof. intros P [A B]. split; [exact A|]. destruct B as [B|B]; [left; exact B|right; exact (proper_perm _ _ _ _ _ P B)]. Qed.

Lemma filter_split {A} (f : A -> bool) l : Permutation l (filter f l ++ filter (fun x => negb (f x)) l).
Proof.
  induction l as [|x l IH]; [constructor|]. simpl. destruct (f x); simpl; [constructor; exact IH|].
  apply Permutation_cons_app, IH.
Qed.
Lemma idx_dist_filter k v l : (forall x, In x l -> index_at k x = Ok (colI k x)) ->
  idx_class_distribution k v l = Ok (cofl (map label (filter (fun x => (colI k x =? v)%Z) l))).
Proof.
  unfold idx_class_distribution, cofl. generalize (@nil (string * nat)) as c. induction l as [|x l IH]; intros c H; [reflexivity|].
  simpl. rewrite (H x (or_introl eq_refl)). simpl. rewrite IH; [|intros y Hy; apply H; right; exact Hy].
  destruct (colI k x =? v)%Z; reflexivity.
Qed.
Lemma deq_fin_lt d q h : deq d (Fin q) -> (h <= q)%Q -> dltb d (Fin h) = false.
Proof. intros E H. destruct d; simpl in E; try contradiction. apply dltb_fin_false. rewrite E. exact H. Qed.
Lemma dofnat_fin n : dofnat n = Fin (qofn n).
Proof. reflexivity. Qed.

Lemma index_dbl shape data k m v : tabular shape data -> nth_error shape k = Some (KIdx m) ->
  idx_class_distribution (Z.of_nat k) v data = Ok (cofl (map label (filter (fun x => (colI (Z.of_nat k) x =? v)%Z) data))).
Proof.
  intros Ht Hk. apply idx_dist_filter. intros x Hx. apply index_at_ok.
  destruct (typed_idx _ x k m (proj1 (Forall_forall _ _) Ht x Hx) Hk) as [s Hs]. exists s, m. exact Hs.
Qed.
Lemma filter_all_eq {A} (f : A -> bool) l : (forall x, In x l -> f x = true) -> filter f l = l.
Proof.
  induction l as [|x l IH]; simpl; intros H; [reflexivity|]. rewrite (H x (or_introl eq_refl)). f_equal. apply IH. intros; apply H; right; assumption.
Qed.
Lemma filter_not_all {A} (f : A -> bool) l : filter f l <> [] -> exists x, In x l /\ f x = true.
Proof. intros H. destruct (filter f l) as [|x r] eqn:E; [contradiction|]. exists x. apply filter_In. rewrite E. left; reflexivity. Qed.
Lemma length_pos_ne {A} (l : list A) : 0 < length l -> l <> [].
Proof. destruct l; simpl; [lia|discriminate]. Qed.

Section Search.
  Context (entropy : counter -> dbl) (mid : dbl -> dbl -> dbl) (shape : list kind).
  Hypothesis Hent : entropy_finite entropy.
  Hypothesis Hmid : mid_exact mid.

  Lemma try_index_good data k m h b v :
    tabular shape data -> data <> [] -> nth_error shape k = Some (KIdx m) -> entropy (cofl (map label data)) = Fin h ->
    good shape data h b ->
    exists b', try_index entropy data (Z.of_nat k) (cofl (map label data), b) v = Ok (cofl (map label data), b') /\ good shape data h b'.
  Proof.
    intros Ht Hne Hk Hh Hg. unfold try_index. rewrite (index_dbl _ _ _ _ (Z.of_nat v) Ht Hk). cbn [bind].
    set (f := fun x => (colI (Z.of_nat k) x =? Z.of_nat v)%Z). set (sel := filter f data). set (rest := filter (fun x => negb (f x)) data).
    rewrite csum_cofl, map_length. destruct (Nat.ltb_spec 0 (length sel)) as [Hsel|Hsel].
    2:{ exists b. split; [reflexivity|exact Hg]. }
    assert (Permutation (map label data) (map label sel ++ map label rest)) as HP.
    { rewrite <- map_app. apply Permutation_map, filter_split. }
    rewrite (csubd_split _ _ _ HP), cadd_cofl, csum_cofl, map_length.
    rewrite (cofl_perm (map label rest ++ map label sel) (map label data)).
    2:{ etransitivity; [apply Permutation_app_comm|apply Permutation_sym, HP]. }
    eexists; split; [reflexivity|]. apply good_better; [exact Hg|]. intros Hlt.
    exists k. split; [reflexivity|]. left. exists m, v. split; [exact Hk|]. split; [reflexivity|]. split.
    - destruct (filter_not_all f data (length_pos_ne _ Hsel)) as (x & Hx & Hf). exists x. split; [exact Hx|]. apply Z.eqb_eq, Hf.
    - destruct (list_eq_dec Nat.eq_dec (map (fun _ => 0) rest) []) as [E|E].
      + exfalso. assert (rest = []) as Er. { destruct rest; [reflexivity|discriminate E]. }
        assert (sel = data) as Es.
        { apply filter_all_eq. intros x Hx. destruct (f x) eqn:Ef; [reflexivity|].
          assert (In x rest) as Hr; [|rewrite Er in Hr; contradiction]. apply filter_In. split; [exact Hx|]. rewrite Ef; reflexivity. }
        rewrite Er, Es, Hh in Hlt. destruct (Hent (cofl (map label []))) as [h0 H0]. rewrite H0 in Hlt.
        assert (0 < length data) as Hn by (destruct data; [contradiction|simpl; lia]).
        assert (~ (qofn (length data) == 0)%Q) as Hz. { pose proof (qofn_pos _ Hn). lra. }
        rewrite !dofnat_fin in Hlt. cbn [dmul dadd length] in Hlt. rewrite (ddiv_fin _ _ Hz) in Hlt.
        apply dltb_fin in Hlt. assert ((h0 * qofn 0 + h * qofn (length data)) / qofn (length data) == h)%Q as Heq.
        { rewrite qofn_0. field. exact Hz. }
        rewrite Heq in Hlt. lra.
      + destruct (filter_not_all (fun x => negb (f x)) data) as (y & Hy & Hf).
        { fold rest. intros Er. apply E. rewrite Er. reflexivity. }
        exists y. split; [exact Hy|]. intros Heq. unfold f in Hf. rewrite Heq, Z.eqb_refl in Hf. discriminate Hf.
  Qed.
  Lemma try_index_fold data k m h b vs :
    tabular shape data -> data <> [] -> nth_error shape k = Some (KIdx m) -> entropy (cofl (map label data)) = Fin h ->
    good shape data h b ->
    exists b', foldM (try_index entropy data (Z.of_nat k)) vs (cofl (map label data), b) = Ok (cofl (map label data), b') /\ good shape data h b'.
  Proof.
    intros Ht Hne Hk Hh. revert b; induction vs as [|v vs IH]; intros b Hg; [exists b; split; [reflexivity|exact Hg]|].
    destruct (try_index_good data k m h b v Ht Hne Hk Hh Hg) as (b1 & E & G1). cbn [foldM]. rewrite E. cbn [bind].
    destruct (IH b1 G1) as (b2 & E2 & G2). exists b2. split; assumption.
  Qed.

  Lemma value_list_single k v : forall l, l <> [] -> (forall x, In x l -> colD k x = v) -> fold_left push_new (map (colD k) l) [] = [v].
  Proof.
    intros l Hne H. destruct l as [|x l]; [contradiction|]. simpl. unfold push_new at 2. simpl. rewrite (H x (or_introl eq_refl)).
    assert (forall l, (forall x, In x l -> colD k x = v) -> fold_left push_new (map (colD k) l) [v] = [v]) as Hr.
    { induction l0 as [|y l0 IH]; simpl; intros H0; [reflexivity|]. rewrite (H0 y (or_introl eq_refl)).
      unfold push_new at 2. simpl. rewrite String.eqb_refl. simpl. apply IH. intros; apply H0; right; assumption. }
    apply Hr. intros; apply H; right; assumption.
  Qed.
  Lemma attr_class_single k v l : l <> [] -> text_column k l (map (colD k) l) -> (forall x, In x l -> colD k x = v) ->
    attr_class_distribution k l = Ok [cofl (map label l)].
  Proof.
    intros Hne Hc H. unfold attr_class_distribution. rewrite (value_list_ok k l _ Hc), (value_list_single k v l Hne H). cbn [bind length repeat].
    assert (forall l c, (forall x, In x l -> disc_at k x = Ok v) ->
      foldM (fun ds x => do v0 <- disc_at k x; do c <- idxn ds (find_pos v0 [v]); Ok (upd ds (find_pos v0 [v]) (cput c (label x)))) l [c]
      = Ok [fold_left cput (map label l) c]) as Hr.
    { clear. induction l as [|x l IH]; simpl; intros c H; [reflexivity|]. rewrite (H x (or_introl eq_refl)). simpl.
      rewrite String.eqb_refl. simpl. apply IH. intros; apply H; right; assumption. }
    unfold cofl. apply Hr. intros x Hx. apply disc_at_ok.
    destruct (In_nth_error _ _ Hx) as [i Hi]. pose proof (Forall2_nth _ _ _ _ _ _ Hc Hi (map_nth_error (colD k) i l Hi)) as Ht.
    rewrite (H x Hx) in Ht. exact Ht.
  Qed.
  Lemma attr_class_ok k l vs : text_column k l vs -> exists ds, attr_class_distribution k l = Ok ds.
  Proof. intros H. destruct (attr_class_distribution_spec k l vs H) as (a & ds & _ & E & _). exists ds. exact E. Qed.

  Lemma disc_good data k h b v :
    tabular shape data -> data <> [] -> nth_error shape k = Some KDisc -> entropy (cofl (map label data)) = Fin h ->
    good shape data h b ->
    exists e, disc_entropy entropy data (Z.of_nat k) = Ok e /\ good shape data h (better b e (Z.of_nat k) v).
  Proof.
    intros Ht Hne Hk Hh Hg. pose proof (tab_text _ _ _ Ht Hk) as Hc. unfold disc_entropy.
    destruct (attr_class_ok _ _ _ Hc) as [ds Eds].
    destruct data as [|x0 data0]; [contradiction|]. set (data := x0 :: data0) in *.
    destruct (forallb (fun x => String.eqb (colD (Z.of_nat k) x) (colD (Z.of_nat k) x0)) data) eqn:E.
    - rewrite (attr_class_single _ (colD (Z.of_nat k) x0) data Hne Hc).
      2:{ intros x Hx. apply String.eqb_eq. exact (proj1 (forallb_forall _ _) E x Hx). }
      cbn [bind fold_left]. eexists; split; [reflexivity|]. apply good_better; [exact Hg|]. intros Hlt. exfalso.
      unfold share in Hlt. rewrite csum_cofl, map_length, Hh, !dofnat_fin in Hlt.
      assert (~ (qofn (length data) == 0)%Q) as Hz. { pose proof (qofn_pos (length data) ltac:(simpl; lia)). lra. }
      rewrite (ddiv_fin _ _ Hz) in Hlt. cbn [dmul dadd d0] in Hlt. apply dltb_fin in Hlt.
      assert (0 + qofn (length data) / qofn (length data) * h == h)%Q as Heq. { field. exact Hz. }
      rewrite Heq in Hlt. lra.
    - rewrite Eds. cbn [bind]. eexists; split; [reflexivity|]. apply good_better; [exact Hg|]. intros _.
      exists k. split; [reflexivity|]. right; left. split; [exact Hk|].
      assert (exists x, In x data /\ String.eqb (colD (Z.of_nat k) x) (colD (Z.of_nat k) x0) = false) as (x & Hx & Hf).
      { clear - E. induction data as [|y data IH]; simpl in E; [discriminate|].
        destruct (String.eqb (colD (Z.of_nat k) y) (colD (Z.of_nat k) x0)) eqn:Ey; [|exists y; split; [left; reflexivity|exact Ey]].
        destruct (IH E) as (x & Hx & Hf). exists x. split; [right; exact Hx|exact Hf]. }
      exists x, x0. split; [exact Hx|]. split; [left; reflexivity|]. intros Heq. rewrite Heq, String.eqb_refl in Hf. discriminate.
  Qed.

  Lemma cut_fold data n k h : nth_error shape k = Some KCont -> forall l s,
    tabular shape l -> incl l data -> good shape data h (s_best s) ->
    (s_prev s = None \/ exists x, In x data /\ s_prev s = Some (Fin (colC (Z.of_nat k) x))) ->
    exists s', foldM (try_cut entropy mid n (Z.of_nat k)) l s = Ok s' /\ good shape data h (s_best s').
  Proof.
    intros Hk. induction l as [|x l IH]; intros s Ht Hi Hg Hp; [exists s; split; [reflexivity|exact Hg]|].
    inversion Ht as [|? ? Hx Htl]; subst. assert (In x data) as Hxd by (apply Hi; left; reflexivity).
    assert (incl l data) as Hil by (intros y Hy; apply Hi; right; exact Hy).
    cbn [foldM]. unfold try_cut at 1.
    rewrite (proj2 (cont_at_ok _ _ _) (typed_cont _ x k Hx Hk)). cbn [bind].
    destruct Hp as [Hp|(y & Hy & Hp)]; rewrite Hp.
    - cbn [bind]. apply IH; [exact Htl|exact Hil|exact Hg|]. right. exists x. split; [exact Hxd|reflexivity].
    - destruct (negb (deqb (Fin (colC (Z.of_nat k) x)) (Fin (colC (Z.of_nat k) y)))) eqn:E; cbn [bind].
      + apply IH; [exact Htl|exact Hil| |right; exists x; split; [exact Hxd|reflexivity]]. cbn [s_best].
        apply good_better; [exact Hg|]. intros _. exists k. split; [reflexivity|]. right; right. split; [exact Hk|].
        set (p := colC (Z.of_nat k) y) in *. set (v := colC (Z.of_nat k) x) in *.
        pose proof (Hmid p v) as Hm. destruct (mid (Fin p) (Fin v)) as [q| | |] eqn:Em; try contradiction. cbn [deq] in Hm.
        assert (~ v == p)%Q as Hvp.
        { intros Hq. apply negb_true_iff in E. unfold deqb in E. rewrite (proj2 (dleb_fin v p)), (proj2 (dleb_fin p v)) in E by lra. discriminate E. }
        assert (q * 2 == p + v)%Q as Hq. { rewrite Hm. field. }
        destruct (Qlt_le_dec p v) as [Hlt|Hle].
        * exists q, y, x. split; [reflexivity|]. split; [exact Hy|]. split; [exact Hxd|]. fold p v. split; lra.
        * assert (v < p)%Q as Hlt. { destruct (Qlt_le_dec v p); [assumption|]. exfalso. apply Hvp. lra. }
          exists q, x, y. split; [reflexivity|]. split; [exact Hxd|]. split; [exact Hy|]. fold p v. split; lra.
      + apply IH; [exact Htl|exact Hil|exact Hg|]. right. exists y. split; [exact Hy|reflexivity].
  Qed.

  Lemma try_attr_good data0 data h b k :
    Permutation data0 data -> tabular shape data0 -> data0 <> [] -> k < length shape -> entropy (cofl (map label data0)) = Fin h ->
    good shape data0 h b ->
    exists data' b', try_attr entropy mid (data, cofl (map label data0), b) (Z.of_nat k) = Ok (data', cofl (map label data0), b')
      /\ Permutation data0 data' /\ good shape data0 h b'.
  Proof.
    intros HP Ht Hne Hk Hh Hg. pose proof (tab_perm _ _ _ HP Ht) as Ht'.
    assert (data <> []) as Hne'. { intros ->. apply Hne, Permutation_nil, Permutation_sym, HP. }
    assert (cofl (map label data) = cofl (map label data0)) as Hcd.
    { apply cofl_perm, Permutation_map, Permutation_sym, HP. }
    pose proof (good_perm _ _ _ _ _ HP Hg) as Hg'.
    assert (entropy (cofl (map label data)) = Fin h) as Hh' by (rewrite Hcd; exact Hh).
    destruct (nth_error shape k) as [kd|] eqn:Ek; [|apply nth_error_None in Ek; lia].
    destruct data as [|x0 data1]; [contradiction|]. set (data := x0 :: data1) in *.
    unfold try_attr. unfold data at 1. cbn [atn nth_error bind].
    destruct (typed_at _ x0 _ _ (proj1 (Forall_forall _ _) Ht' x0 (or_introl eq_refl)) Ek) as (a & _ & Ha & Hga & _).
    rewrite Hga. cbn [bind]. destruct kd as [| |m|]; simpl in Ha.
    - destruct Ha as [v ->]. cbn [isDiscreteIndexed isDiscrete].
      destruct (disc_good data k h b (b_value b) Ht' Hne' Ek Hh' Hg') as (e & Ee & Ge). rewrite Ee. cbn [bind].
      eexists _, _. split; [reflexivity|]. split; [exact HP|]. exact (good_perm _ _ _ _ _ (Permutation_sym HP) Ge).
    - destruct Ha as [v ->]. cbn. eexists _, _. split; [reflexivity|]. split; [exact HP|exact Hg].
    - destruct Ha as (v & i & ->). cbn [isDiscreteIndexed idx_max bind].
      destruct (try_index_fold data k m h b (seq 0 m) Ht' Hne' Ek Hh' Hg') as (b' & E & G). rewrite <- Hcd, E. cbn [bind fst snd].
      eexists _, _. split; [reflexivity|]. split; [exact HP|]. exact (good_perm _ _ _ _ _ (Permutation_sym HP) G).
    - destruct Ha as (v & ->). cbn [isDiscreteIndexed isDiscrete isContinuous].
      destruct (sort_by_spec (Z.of_nat k) data _ (tab_num _ _ _ Ht' Ek)) as (l' & vs' & Es & Ps & _).
      { apply Forall_forall. intros d Hd. apply in_map_iff in Hd. destruct Hd as (x & <- & _). reflexivity. }
      rewrite Es. cbn [bind].
      assert (Permutation data0 l') as HP' by (etransitivity; [exact HP|exact Ps]).
      destruct (cut_fold data0 (length l') k h Ek l' (mkScan None (class_distribution l') [] b)) as (s & E & G).
      { exact (tab_perm _ _ _ Ps Ht'). }
      { intros x Hx. exact (Permutation_in _ (Permutation_sym HP') Hx). }
      { exact Hg. }
      { left; reflexivity. }
      rewrite E. cbn [bind]. eexists _, _. split; [reflexivity|]. split; [exact HP'|exact G].
  Qed.
  Lemma try_attr_fold data0 h ks : tabular shape data0 -> data0 <> [] -> entropy (cofl (map label data0)) = Fin h ->
    (forall k, In k ks -> k < length shape) -> forall data b, Permutation data0 data -> good shape data0 h b ->
    exists data' b', foldM (try_attr entropy mid) (map Z.of_nat ks) (data, cofl (map label data0), b) = Ok (data', cofl (map label data0), b')
      /\ Permutation data0 data' /\ good shape data0 h b'.
  Proof.
    intros Ht Hne Hh. induction ks as [|k ks IH]; intros Hks data b HP Hg.
    - exists data, b. split; [reflexivity|]. split; [exact HP|exact Hg].
    - destruct (try_attr_good data0 data h b k HP Ht Hne (Hks k (or_introl eq_refl)) Hh Hg) as (d1 & b1 & E & P1 & G1).
      cbn [map foldM]. rewrite E. cbn [bind]. apply IH; [intros j Hj; apply Hks; right; exact Hj|exact P1|exact G1].
  Qed.

  Lemma attr_order_ok rarr param x0 : rarr_perm rarr -> typed shape x0 ->
    exists ks, attr_order rarr param x0 = Ok (map Z.of_nat ks) /\ forall k, In k ks -> k < length shape.
  Proof.
    intros Hr Hx. unfold attr_order, attr_count. rewrite <- (Forall2_len _ _ _ Hx). set (n := length shape).
    assert (exists ks, Ok (map Z.of_nat (seq 0 n)) = Ok (map Z.of_nat ks) /\ forall k, In k ks -> k < n) as Hall.
    { exists (seq 0 n). split; [reflexivity|]. intros k Hk. apply in_seq in Hk. lia. }
    destruct param as [[size seed]|]; [|exact Hall]. destruct (Nat.ltb_spec size n) as [Hs|Hs]; [|exact Hall].
    exists (map (fun j => nth j (rarr n seed) 0) (seq 0 size)).
    assert (length (rarr n seed) = n) as Hl by (rewrite (Permutation_length (Hr n seed)), seq_length; reflexivity).
    split.
    - rewrite map_map. apply mapM_total. intros j Hj. apply in_seq in Hj.
      rewrite (proj2 (atn_ok _ _ _) (nth_error_nth' (rarr n seed) 0 (n := j) ltac:(lia))). reflexivity.
    - intros k Hk. apply in_map_iff in Hk. destruct Hk as (j & <- & Hj). apply in_seq in Hj.
      assert (In (nth j (rarr n seed) 0) (rarr n seed)) as Hin by (apply nth_In; lia).
      apply (Permutation_in _ (Hr n seed)) in Hin. apply in_seq in Hin. lia.
  Qed.
  Lemma search_ok rarr param data : rarr_perm rarr -> tabular shape data -> data <> [] ->
    exists data' b, search entropy mid rarr param data = Ok (data', b) /\ Permutation data data' /\
      (b_attr b = (-1)%Z \/ proper shape data' (b_attr b) (b_value b)).
  Proof.
    intros Hr Ht Hne. unfold search. destruct data as [|x0 data1] eqn:Ed; [contradiction|]. rewrite <- Ed in *.
    assert (atn data 0 = Ok x0) as -> by (rewrite Ed; reflexivity). cbn [bind].
    destruct (attr_order_ok rarr param x0 Hr) as (ks & -> & Hks).
    { apply (proj1 (Forall_forall _ _) Ht). rewrite Ed; left; reflexivity. }
    cbn [bind]. rewrite class_distribution_cofl. destruct (Hent (cofl (map label data))) as [h Hh].
    destruct (try_attr_fold data h ks Ht ltac:(rewrite Ed; discriminate) Hh Hks data (mkBest (entropy (cofl (map label data))) (-1) d0) (Permutation_refl _))
      as (d' & b & E & P & G).
    { split; [|left; reflexivity]. simpl. rewrite Hh. apply dleb_fin. lra. }
    exists d', b. split; [apply bind_ok; eexists; split; [exact E|reflexivity]|]. split; [exact P|]. exact (proj2 (good_perm _ _ _ _ _ P G)).
  Qed.
End Search.
