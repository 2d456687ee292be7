(** Training data in which every instance is given several times: nearest neighbours and k-means (C141). *)
From Coq Require Import String ZArith QArith Bool Lia Lqa Permutation List.
From Verif Require Import Base Spec BaseLemmas DblLemmas SortLemmas AttrModel AttrProofs DataSetModel InstanceListModel PartitionModel PerformanceModel
  TreeInvProofs ListSpec ListProofs PartitionProofs PerformanceProofs DistanceModel DistanceSpec DistanceProofs GaussianModel ModelInvProofs ModelInvDistProofs FeatOrderSpec FeatOrderProofs ConstSpec ConstDistProofs
  TreeModel TreeProofs RepeatSpec RepeatProofs.
Import ListNotations.
Local Open Scope string_scope.
Local Open Scope list_scope.
Local Open Scope nat_scope.

(** * Nearest neighbours *)
Lemma firstn_each {A} m k (l : list A) : firstn (m * k) (each m l) = each m (firstn k l).
Proof.
  revert l. induction k as [|k IH]; intros l; [rewrite Nat.mul_0_r; reflexivity|]. destruct l as [|x l]; [unfold each; cbn; apply firstn_nil|].
  rewrite each_cons. cbn [firstn]. rewrite each_cons. replace (m * S k) with (length (repeat x m) + m * k) by (rewrite repeat_length; lia). rewrite firstn_app_2, IH. reflexivity.
Qed.
Lemma firstn_repeat {A} (x : A) k : forall m, k <= m -> firstn k (repeat x m) = repeat x k.
Proof. induction k as [|k IH]; intros [|m] H; try reflexivity; try lia. cbn [repeat firstn]. rewrite IH by lia. reflexivity. Qed.
Section Near.
  Context (dist : instance -> instance -> res dbl) (d : instance -> dbl) (m : nat) (data : ilist) (q : instance).
  Hypothesis Hm : 0 < m.
  Hypothesis Hd : forall x, In x data -> may_answer q x -> dist x q = Ok (d x) /\ is_nan (d x) = false.
  Notation order := (ssort (fun x y => dltb (d x) (d y)) (filter (eligible q) data)).
  Lemma near_plain k : nearest dist data k q = Ok (firstn (Z.to_nat k) order).
  Proof. exact (nearest_total dist data k q d Hd). Qed.
  Lemma near_each k : nearest dist (each m data) k q = Ok (firstn (Z.to_nat k) (each m order)).
  Proof.
    rewrite (nearest_total dist (each m data) k q d); [|intros x Hx; apply Hd, (in_each m), Hx]. unfold ilist in *. rewrite filter_each, ssort_each; [reflexivity| |exact Hm].
    intros x. destruct (d x); try reflexivity. apply dltb_fin_false, Qle_refl.
  Qed.
  Lemma neighbours_each k : nearest dist (each m data) (Z.of_nat (m * k)) q = rmap (each m) (nearest dist data (Z.of_nat k) q).
  Proof. rewrite near_each, near_plain, !Nat2Z.id, firstn_each. reflexivity. Qed.
  Lemma neighbour_first k : 1 <= k <= m -> nearest dist (each m data) (Z.of_nat k) q = rmap (fun l => match l with [] => [] | x :: _ => repeat x k end) (nearest dist data 1 q).
  Proof.
    intros Hk. rewrite near_each, near_plain, Nat2Z.id. unfold rmap. cbn [bind]. f_equal. change (Z.to_nat 1) with 1. unfold ilist. destruct order as [|x l]; [unfold each; cbn; apply firstn_nil|].
    rewrite each_cons, firstn_app, repeat_length, firstn_repeat by apply Hk. replace (k - m) with 0 by lia. cbn [firstn]. apply app_nil_r.
  Qed.
End Near.

(** * Sums and averages, infinities and NaN included *)
Lemma qofn_S n : (qofn (S n) == 1 + qofn n)%Q.
Proof. unfold qofn. rewrite Nat2Z.inj_succ, <- Z.add_1_l, inject_Z_plus. reflexivity. Qed.
Lemma pos_cmp q : (0 < q)%Q -> (q ?= 0)%Q = Gt.
Proof. intros H. apply Qgt_alt. exact H. Qed.
Lemma dmul_posinf q : (0 < q)%Q -> dmul (Fin q) PInf = PInf /\ dmul (Fin q) NInf = NInf.
Proof. intros H. unfold dmul. cbn [dsgn]. rewrite (pos_cmp q H). split; reflexivity. Qed.
Lemma dmul_nan q : dmul (Fin q) NaN = NaN.
Proof. unfold dmul; cbn [dsgn]; destruct (q ?= 0)%Q; reflexivity. Qed.
Lemma dmul_S n v : 0 < n -> deq (dmul (dofnat (S n)) v) (dadd v (dmul (dofnat n) v)).
Proof.
  intros Hn. rewrite !dofnat_fin. pose proof (qofn_pos _ Hn) as P. pose proof (qofn_S n) as E. assert (P' : (0 < qofn (S n))%Q) by (rewrite E; lra).
  destruct v as [v| | |]; [cbn [dmul dadd deq]; rewrite E; ring| | |exact I].
  - rewrite (proj1 (dmul_posinf _ P)), (proj1 (dmul_posinf _ P')). exact I.
  - rewrite (proj2 (dmul_posinf _ P)), (proj2 (dmul_posinf _ P')). exact I.
Qed.
Lemma dmul_1 v : deq (dmul (dofnat 1) v) v.
Proof. destruct v as [v| | |]; try exact I. cbn. ring. Qed.
Lemma dmul_add q a b : (0 < q)%Q -> deq (dmul (Fin q) (dadd a b)) (dadd (dmul (Fin q) a) (dmul (Fin q) b)).
Proof.
  intros P. destruct (dmul_posinf q P) as (E1 & E2).
  pose proof (dmul_nan q) as E3.
  destruct a as [a| | |], b as [b| | |]; cbn [dadd]; rewrite ?E1, ?E2, ?E3; cbn [dmul dadd deq]; try exact I; ring.
Qed.
Lemma fold_repeat v : forall n a, 0 < n -> deq (fold_left dadd (repeat v n) a) (dadd a (dmul (dofnat n) v)).
Proof.
  induction n as [|n IH]; intros a H; [lia|]. cbn [repeat fold_left]. destruct n as [|n]; [cbn [repeat fold_left]; rewrite dmul_1; reflexivity|].
  rewrite IH by lia. rewrite (dmul_S (S n)) by lia. apply FeatOrderProofs.dadd_assoc.
Qed.
Lemma fold_each m vs : 0 < m -> forall a b, deq b (dmul (dofnat m) a) -> deq (fold_left dadd (each m vs) b) (dmul (dofnat m) (fold_left dadd vs a)).
Proof.
  intros Hm. induction vs as [|v vs IH]; intros a b E; [exact E|]. rewrite each_cons, fold_left_app. cbn [fold_left]. apply IH.
  rewrite (fold_repeat v m b Hm), E. symmetry. rewrite dofnat_fin. apply dmul_add, qofn_pos, Hm.
Qed.
Lemma average_ratio m n s t : 0 < m -> 0 < n -> deq t (dmul (dofnat m) s) -> deq (ddiv t (dofnat (m * n))) (ddiv s (dofnat n)).
Proof.
  intros Hm Hn E. rewrite E. rewrite !dofnat_fin. pose proof (qofn_pos _ Hm) as P. pose proof (qofn_pos _ Hn) as Q. assert (M : 0 < m * n) by nia. pose proof (qofn_pos _ M) as R.
  assert (V : (qofn (m * n) == qofn m * qofn n)%Q) by (unfold qofn; rewrite Nat2Z.inj_mul, inject_Z_mult; reflexivity).
  destruct s as [s| | |]; [|rewrite (proj1 (dmul_posinf _ P))|rewrite (proj2 (dmul_posinf _ P))|rewrite dmul_nan; exact I].
  - cbn [dmul]. rewrite !ddiv_fin by lra. cbn [deq]. rewrite V. field. split; lra.
  - cbn [ddiv]. rewrite (pos_cmp _ Q), (pos_cmp _ R). exact I.
  - cbn [ddiv]. rewrite (pos_cmp _ Q), (pos_cmp _ R). exact I.
Qed.
Lemma mapM_repeat {A B} (f : A -> res B) x y n : f x = Ok y -> mapM f (repeat x n) = Ok (repeat y n).
Proof. intros E. induction n as [|n IH]; [reflexivity|]. cbn [repeat mapM]. rewrite E. cbn [bind]. rewrite IH. reflexivity. Qed.
Lemma mapM_each {A B} (f : A -> res B) m : forall l ys, mapM f l = Ok ys -> mapM f (each m l) = Ok (each m ys).
Proof.
  induction l as [|x l IH]; intros ys E; cbn [mapM] in E; [injection E as <-; reflexivity|]. apply bind_ok in E as (y & Ey & E). apply bind_ok in E as (ys' & Es & E). injection E as <-.
  rewrite !each_cons, mapM_app_, (mapM_repeat f x y m Ey). cbn [bind]. rewrite (IH _ Es). reflexivity.
Qed.
Lemma sum_values k l : forall a s, foldM (fun s x => do v <- cont_at k x; Ok (dadd s v)) l a = Ok s <-> exists vs, mapM (cont_at k) l = Ok vs /\ s = fold_left dadd vs a.
Proof.
  induction l as [|x l IH]; intros a s; cbn [foldM mapM].
  - split; [intros E; injection E as <-; exists []; split; reflexivity|intros (vs & E & ->); injection E as <-; reflexivity].
  - destruct (cont_at k x) as [v| | |]; cbn [bind]; try (split; [intros E; discriminate E|intros (vs & E & _); discriminate E]). rewrite IH. split.
    + intros (vs & E & ->). rewrite E. exists (v :: vs). split; reflexivity.
    + intros (vs & E & ->). apply bind_ok in E as (vs' & E' & E). injection E as <-. exists vs'. split; [exact E'|reflexivity].
Qed.
Section Means.
  Context (m : nat) (Hm : 0 < m).
  Definition like (o o' : option attr) : Prop := match o, o' with Some a, Some b => same_value a b | None, None => True | _, _ => False end.
  Lemma attr_average_each k l o : attr_average k l = Ok o -> exists o', attr_average k (each m l) = Ok o' /\ like o o'.
  Proof.
    unfold attr_average. destruct l as [|x0 l0] eqn:El; [intros E; discriminate E|]. rewrite (each_head m Hm). change (atn (x0 :: l0) 0) with (@Ok instance x0). rewrite <- El. cbn [bind].
    assert (Hn : 0 < length l) by (rewrite El; cbn; lia). destruct (get_attr x0 k) as [a0| | |]; cbn [bind]; try (intros E; discriminate E). destruct (isDiscrete a0); [|destruct (isContinuous a0)].
    - intros E. apply bind_ok in E as (vs & Ev & E). injection E as <-. rewrite (mapM_each _ m _ _ Ev). cbn [bind]. eexists. split; [reflexivity|]. rewrite (max_each m vs Hm). reflexivity.
    - intros E. apply bind_ok in E as (s & Es & E). injection E as <-. unfold cont_sum in *. apply sum_values in Es as (vs & Ev & ->).
      rewrite (proj2 (sum_values k (each m l) d0 (fold_left dadd (each m vs) d0))) by (exists (each m vs); split; [apply mapM_each, Ev|reflexivity]). cbn [bind]. eexists. split; [reflexivity|]. cbn [like same_value].
      rewrite each_length. symmetry. apply average_ratio; [exact Hm|exact Hn|]. apply fold_each; [exact Hm|]. cbn. ring.
    - intros E. injection E as <-. exists None. split; [reflexivity|exact I].
  Qed.
  Definition twins (a b : instance) : Prop := label a = label b /\ Forall2 same_value (attrs a) (attrs b).
  Lemma average_each l a : average_instance l = Ok a -> exists b, average_instance (each m l) = Ok b /\ twins a b.
  Proof.
    unfold average_instance, average. destruct l as [|x0 l0] eqn:El; [intros E; discriminate E|]. rewrite (each_head m Hm). change (atn (x0 :: l0) 0) with (@Ok instance x0). rewrite <- El. cbn [bind]. clear El.
    intros E. apply bind_ok in E as (la & E0 & E). apply bind_ok in E0 as (os & Eo & E0). injection E0 as <-. cbn [snd fst] in E. apply bind_ok in E as (aa & Ea & E). injection E as <-. apply some_inv in Ea. subst os.
    assert (G : forall is aa, mapM (fun i => attr_average (Z.of_nat i) l) is = Ok (map Some aa) -> exists bb, mapM (fun i => attr_average (Z.of_nat i) (each m l)) is = Ok (map Some bb) /\ Forall2 same_value aa bb).
    { induction is as [|i is IH]; intros as_ E; cbn [mapM] in E |- *; [injection E as E; destruct as_; [|discriminate E]; exists []; split; [reflexivity|constructor]|].
      apply bind_ok in E as (o & E1 & E). apply bind_ok in E as (os & E2 & E). injection E as E. destruct as_ as [|a as_]; [discriminate E|]. injection E as -> ->.
      destruct (attr_average_each _ _ _ E1) as (o' & E1' & L). destruct o' as [b|]; [|destruct L]. destruct (IH _ E2) as (bb & E2' & F). exists (b :: bb). rewrite E1'. cbn [bind]. rewrite E2'. split; [reflexivity|constructor; assumption]. }
    destruct (G _ _ Eo) as (bb & Eb & F). rewrite Eb. cbn [bind snd fst]. rewrite some_all. cbn [bind]. eexists. split; [reflexivity|]. split; [reflexivity|exact F].
  Qed.
  Lemma average_width n l a : width_n n l -> average_instance l = Ok a -> length (attrs a) = n.
  Proof.
    intros W E. unfold average_instance, average in E. destruct l as [|x0 l0]; [discriminate E|]. change (atn (x0 :: l0) 0) with (@Ok instance x0) in E. cbn [bind] in E.
    apply bind_ok in E as (la & E0 & E). apply bind_ok in E0 as (os & Eo & E0). injection E0 as <-. cbn [snd fst] in E. apply bind_ok in E as (aa & Ea & E). injection E as <-. apply mapM_len in Eo. apply mapM_len in Ea. cbn [attrs].
    rewrite seq_length in Eo. rewrite Ea, Eo. inversion W; subst; assumption || reflexivity.
  Qed.
  Lemma eucl_twins n q a b : length (attrs q) = n -> length (attrs a) = n -> twins a b -> exists r r', eucl q a = Ok r /\ eucl q b = Ok r' /\ deq r r'.
  Proof.
    intros Lq La (_ & F). assert (Lb : length (attrs b) = n) by (rewrite <- La; symmetry; exact (Forall2_len _ _ _ F)).
    destruct (gapt_all n q a Lq La) as (ts & Et). destruct (gapt_all n q b Lq Lb) as (ts' & Et').
    destruct (eucl_terms n q a ts Lq La Et) as (r & Er & Dr). destruct (eucl_terms n q b ts' Lq Lb Et') as (r' & Er' & Dr'). exists r, r'. split; [exact Er|]. split; [exact Er'|]. rewrite Dr, Dr'.
    apply fold_dadd_proper; [|reflexivity]. apply mapM_ok in Et. apply mapM_ok in Et'.
    assert (K : forall i t t', gapt q a i = Ok t -> gapt q b i = Ok t' -> deq t t').
    { intros i t t' E E'. unfold gapt in *. apply bind_ok in E as (u & Eu & E). rewrite Eu in E'. cbn [bind] in E'. apply bind_ok in E as (v & Ev & E). apply bind_ok in E' as (w & Ew & E').
      apply get_attr_ok in Ev. apply get_attr_ok in Ew. 
      assert (S : same_value v w) by (destruct Ev as (_ & Ev); destruct Ew as (_ & Ew); destruct (Forall2_nth_ex _ _ _ _ _ F Ev) as (w' & Ew' & S'); unfold ilist in *; congruence).
      destruct (gap_same v w u t S E) as (g & Eg & Dg). rewrite Eg in E'. injection E' as <-. symmetry. exact Dg. }
    clear -Et Et' K. revert ts' Et'. induction Et as [|i t is ts E _ IH]; intros ts' Et'; inversion Et' as [|? t' ? ts'' E' R]; subst; constructor; [exact (K _ _ _ E E')|exact (IH _ R)].
  Qed.
  Lemma find_twins ms ms' c : Forall2 twins ms ms' ->
    (find (fun x => String.eqb (label x) c) ms = None /\ find (fun x => String.eqb (label x) c) ms' = None) \/
    exists a b, In a ms /\ find (fun x => String.eqb (label x) c) ms = Some a /\ find (fun x => String.eqb (label x) c) ms' = Some b /\ twins a b.
  Proof.
    induction 1 as [|a b ms ms' T _ IH]; [left; split; reflexivity|]. cbn [find]. rewrite <- (proj1 T). destruct (String.eqb (label a) c).
    - right. exists a, b. split; [left; reflexivity|]. split; [reflexivity|]. split; [reflexivity|exact T].
    - destruct IH as [IH|(a' & b' & I & IH)]; [left; exact IH|right; exists a', b'; split; [right; exact I|exact IH]].
  Qed.
  Lemma kmeans_each n old old' l km : width_n n l -> kmeans_train old l = Ok km ->
    exists km', kmeans_train old' (each m l) = Ok km' /\ km_prior km' = times m (km_prior km) /\ Forall2 twins (km_means km) (km_means km') /\ Forall (fun x => length (attrs x) = n) (km_means km).
  Proof.
    intros W E. unfold kmeans_train in *. rewrite (proj1 (part_class_spec l)) in E. rewrite (proj1 (part_class_spec (each m l))). cbn [bind] in E |- *.
    apply bind_ok in E as (ms & Em & E). injection E as <-. cbn [km_prior km_means]. rewrite mapM_map in Em. unfold ilist in *. rewrite (distinct_each m l Hm), mapM_map.
    assert (G : forall cs ms, mapM (fun c => average_instance (filter (of_class c) l)) cs = Ok ms ->
      exists ms', mapM (fun c => average_instance (filter (of_class c) (each m l))) cs = Ok ms' /\ Forall2 twins ms ms' /\ Forall (fun x => length (attrs x) = n) ms).
    { induction cs as [|c cs IH]; intros as_ E; cbn [mapM] in E |- *; [injection E as <-; exists []; split; [reflexivity|]; split; constructor|].
      apply bind_ok in E as (a & E1 & E). apply bind_ok in E as (ms1 & E2 & E). injection E as <-. destruct (IH _ E2) as (ms' & E2' & F & L). destruct (average_each _ _ E1) as (b & E1' & T).
      exists (b :: ms'). rewrite filter_each, E1'. cbn [bind]. rewrite E2'. split; [reflexivity|]. split; constructor; try assumption. exact (average_width n _ _ (width_class n c l W) E1). }
    destruct (G _ _ Em) as (ms' & -> & F & L). cbn [bind]. eexists. split; [reflexivity|]. cbn [km_prior km_means]. rewrite !class_distribution_cofl. split; [apply lc_each, Hm|]. split; assumption.
  Qed.
  Lemma gauss_times prior metric q : gauss_predict (times m prior) metric q = gauss_predict prior metric q.
  Proof.
    unfold gauss_predict. rewrite times_keys, (cmax_times m prior Hm).
    assert (M : forall c, mmem c (times m prior) = mmem c prior).
    { intros c. unfold mmem, times. induction prior as [|kv p IH]; [reflexivity|]. cbn [map]. destruct kv as [k v]. cbn. destruct (String.eqb c k); [reflexivity|exact IH]. }
    assert (G : forall cs st, foldM (gauss_step (times m prior) metric) cs st = foldM (gauss_step prior metric) cs st).
    { induction cs as [|c cs IH]; intros st; [reflexivity|]. cbn [foldM]. unfold gauss_step at 1 3. rewrite M. destruct (mmem c prior); cbn [bind]; [|apply IH]. destruct (metric c); cbn [bind]; try reflexivity. apply IH. }
    destruct (composite q) as [ls|]; [destruct (atn ls 0); try reflexivity|]; cbn [bind]; rewrite G; reflexivity.
  Qed.
  Lemma kmeans_predict_each n km km' q : km_prior km' = times m (km_prior km) -> Forall2 twins (km_means km) (km_means km') -> Forall (fun x => length (attrs x) = n) (km_means km) -> length (attrs q) = n ->
    kmeans_predict eucl km' q = kmeans_predict eucl km q.
  Proof.
    intros Ep F L Lq. unfold kmeans_predict. rewrite Ep, gauss_times. symmetry. apply gauss_predict_ext; [reflexivity|]. intros c _. unfold kmeans_metric.
    destruct (find_twins _ _ c F) as [(-> & ->)|(a & b & I & -> & -> & T)]; [eexists _, _; split; [reflexivity|]; split; reflexivity|].
    destruct (eucl_twins n q a b Lq (proj1 (Forall_forall _ _) L a I) T) as (r & r' & -> & -> & D). cbn [bind]. eexists _, _. split; [reflexivity|]. split; [reflexivity|]. rewrite D. reflexivity.
  Qed.
End Means.
