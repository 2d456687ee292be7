(** When two different classifiers are the same classifier: k-means, nearest neighbour, discriminants and naive Bayes. *)
From Coq Require Import String ZArith QArith Bool Lia Lqa Permutation Sorted Arith List.
From Verif Require Import Base Spec BaseLemmas DblLemmas SortLemmas AttrModel AttrProofs DataSetModel InstanceListModel PartitionModel PerformanceModel
  StatSpec ListSpec ListProofs PartitionProofs CovProofs CovAllProofs PerformanceProofs DistanceModel DistanceSpec DistanceProofs
  GaussianModel GaussianSpec GaussianProofs DiscrimSpec DiscrimProofs BayesProofs TreeSpec TreeProofs InvSpec ModelInvSpec ModelInvProofs ModelInvDistProofs CoincideProofs.
Import ListNotations.
Local Open Scope string_scope.
Local Open Scope list_scope.
Local Open Scope nat_scope.

(** * The means of k-means *)
Lemma kmeans_means old l (ok : string -> instance -> Prop) : (forall c, In c (map label l) -> exists x, average_instance (filter (of_class c) l) = Ok x /\ label x = c /\ ok c x) ->
  exists m, kmeans_train old l = Ok m /\ km_prior m = class_distribution l /\
    forall c, In c (map label l) -> exists x, find (fun x => String.eqb (label x) c) (km_means m) = Some x /\ ok c x.
Proof.
  intros H. set (g := fun c => average_instance (filter (of_class c) l)).
  destruct (mapM_total g (distinct_labels l)) as (xs & Exs); [intros c Hc; destruct (H c (proj1 (distinct_in l c) Hc)) as (x & E & _); exists x; exact E|].
  exists (mkKM (class_distribution l) xs). unfold kmeans_train. rewrite (proj1 (part_class_spec l)). cbn [bind]. rewrite mapM_map. fold g. change (fun x => average_instance (filter (of_class x) l)) with g.
  rewrite Exs. cbn [bind]. split; [reflexivity|]. split; [reflexivity|]. intros c Hc. cbn [km_means].
  destruct (find_mapM g (distinct_labels l) xs c Exs (distinct_nodup l)) as (x & Ex & Fx); [apply distinct_in, Hc| |].
  - intros c' x Hc' E. destruct (H c' (proj1 (distinct_in l c') Hc')) as (x' & E' & L' & _). unfold g in E. congruence.
  - exists x. split; [exact Fx|]. destruct (H c Hc) as (x' & E' & _ & O'). unfold g in Ex. congruence.
Qed.
(** numbers *)
Lemma num_col' n l' s' i : Forall2 reads_numbers l' s' -> Forall (fun r => length (snd r) = n) s' -> i < n ->
  num_column (Z.of_nat i) l' (map Fin (map (fun r => coord r i) s')).
Proof.
  intros H F Hi. induction H as [|x r l' s' Hx H IH]; [constructor|]. inversion F; subst. constructor; [|apply IH; assumption].
  apply feature_nth. rewrite (proj2 Hx). apply (map_nth_error (fun q => ACont (Fin q))). unfold coord. apply nth_error_nth'. exact Hi.
Qed.
Lemma mean_attrs n l s c : Forall2 reads_numbers l s -> Forall (fun r => length (snd r) = n) s -> In c (map label l) ->
  exists a, average_instance (filter (of_class c) l) = Ok a /\ label a = c /\
    exists av, attrs a = map (fun q => ACont (Fin q)) av /\ length av = n /\ forall i, i < n -> (nth i av 0 == class_mean s c i)%Q.
Proof.
  intros HR HL Hc. pose proof (class_nonempty l c Hc) as N. pose proof (num_class l s HR c) as R. pose proof (num_members_len n s HL c) as F. unfold class_mean.
  assert (LC : forall x, In x (filter (of_class c) l) -> label x = c) by (intros x Hx; apply filter_In in Hx as [_ Hx]; apply String.eqb_eq, Hx).
  remember (filter (of_class c) l) as l' eqn:El. remember (members s c) as s' eqn:Es. clear El Es.
  assert (Hd : exists x, atn l' 0 = Ok x /\ attr_count x = n /\ label x = c).
  { destruct R as [|x r l' s' Hx R]; [congruence|]. exists x. split; [reflexivity|]. split; [|apply LC; left; reflexivity]. unfold attr_count. rewrite (proj2 Hx), map_length. inversion F; assumption. }
  destruct Hd as (x & E0 & Ex & Lx). unfold average_instance, average. rewrite E0. cbn [bind]. rewrite Ex.
  assert (G : forall i, exists a, i < n -> attr_average (Z.of_nat i) l' = Ok (Some (ACont (Fin a))) /\ (a == qmean (map (fun r => coord r i) s'))%Q).
  { intros i. destruct (Nat.lt_ge_cases i n) as [Hi|Hi]; [|exists 0%Q; lia].
    destruct (attr_average_cont (Z.of_nat i) l' (map (fun r => coord r i) s') N (num_col' n l' s' i R F Hi)) as (a & E & _ & Ea).
    exists a. intros _. split; [exact E|]. rewrite Ea. unfold qmean. rewrite map_length, (Forall2_len _ _ _ R). reflexivity. }
  assert (M : forall is_, Forall (fun i => i < n) is_ -> exists av, mapM (fun i => attr_average (Z.of_nat i) l') is_ = Ok (map (fun a => Some (ACont (Fin a))) av) /\
            Forall2 (fun a i => (a == qmean (map (fun r => coord r i) s'))%Q) av is_).
  { induction 1 as [|i is_ Hi _ (av & E & V)]; [exists []; split; [reflexivity|constructor]|]. destruct (G i) as (a & Ha). destruct (Ha Hi) as (Ea & Va).
    exists (a :: av). cbn [mapM]. rewrite Ea. cbn [bind]. rewrite E. cbn [bind]. split; [reflexivity|constructor; assumption]. }
  destruct (M (seq 0 n)) as (av & -> & V); [apply Forall_forall; intros i Hi; apply in_seq in Hi; lia|]. cbn [bind snd fst].
  assert (M2 : mapM (fun o : option attr => match o with Some x => Ok x | None => UB NullDeref end) (map (fun a => Some (ACont (Fin a))) av) = Ok (map (fun a => ACont (Fin a)) av)).
  { apply mapM_ok. rewrite Forall2_map_l, Forall2_map_r. clear. induction av; constructor; [reflexivity|assumption]. }
  rewrite M2. cbn [bind]. eexists. split; [reflexivity|]. cbn [attrs label]. split; [exact Lx|]. exists av. split; [reflexivity|].
  assert (Lv : length av = n) by (rewrite (Forall2_len _ _ _ V), seq_length; reflexivity). split; [exact Lv|]. intros i Hi.
  assert (K := Forall2_nth _ _ _ i (nth i av 0%Q) i V). apply K; [apply nth_error_nth'; rewrite Lv; exact Hi|].
  rewrite (nth_error_nth' _ 0) by (rewrite seq_length; exact Hi). rewrite seq_nth by exact Hi. reflexivity.
Qed.
Lemma distq_numbers : forall v w, length v = length w ->
  (distq (map (fun q => ACont (Fin q)) v) (map (fun q => ACont (Fin q)) w) == qsum (map (fun j => (nth j v 0 - nth j w 0) * (nth j v 0 - nth j w 0)) (seq 0 (length v))))%Q.
Proof.
  induction v as [|a v IH]; intros [|b w] H; try discriminate H; [reflexivity|]. cbn [map length seq]. rewrite distq_cons, IH by (now injection H).
  change (qsum (?x :: ?y)) with (x + qsum y)%Q. cbn [nth gapq]. rewrite <- seq_shift, map_map. reflexivity.
Qed.
Lemma numbers_finite v : Forall finite (map (fun q => ACont (Fin q)) v).
Proof. induction v; constructor; [|assumption]. intros w E. injection E as <-. eexists; reflexivity. Qed.
Lemma kmeans_formula old n l s : Forall2 reads_numbers l s -> Forall (fun r => length (snd r) = n) s ->
  exists m, kmeans_train old l = Ok m /\ km_prior m = class_distribution l /\
    forall q v c, attrs q = map (fun z => ACont (Fin z)) v -> length v = n -> In c (map label l) ->
      exists r, kmeans_metric eucl m q c = Ok (Fin r) /\ (r == - qsum (map (fun j => away s c v j * away s c v j) (seq 0 n)))%Q.
Proof.
  intros HR HL. destruct (kmeans_means old l (fun c a => exists av, attrs a = map (fun q => ACont (Fin q)) av /\ length av = n /\ forall i, i < n -> (nth i av 0 == class_mean s c i)%Q)) as (m & Em & Pm & HM).
  { intros c Hc. exact (mean_attrs n l s c HR HL Hc). }
  exists m. split; [exact Em|]. split; [exact Pm|]. intros q v c Hq Lv Hc. destruct (HM c Hc) as (x & Fx & av & Ax & La & Va). unfold kmeans_metric. rewrite Fx.
  destruct (eucl_fin q x) as (r & Er & Vr); [rewrite Hq, Ax, !map_length; lia|rewrite Hq; apply numbers_finite|rewrite Ax; apply numbers_finite|].
  rewrite Er. cbn [bind dopp]. eexists. split; [reflexivity|]. rewrite Vr, Hq, Ax, distq_numbers by lia. rewrite Lv. apply Qopp_comp, qsum_ext. intros j Hj. apply in_seq in Hj.
  unfold away. rewrite (Va j) by lia. reflexivity.
Qed.

(** * The discriminants *)
Lemma away_ext d S x y : (forall i, i < d -> (x i == y i)%Q) -> (quad d S x == quad d S y)%Q.
Proof. intros H. unfold quad. apply ssum_ext. intros i Hi. apply ssum_ext. intros j Hj. rewrite (H i Hi), (H j Hj). reflexivity. Qed.
Lemma lda_formula inverse ln f shape l : log_reads ln f -> inverts (dim shape) inverse -> uniform shape l -> l <> [] ->
  (forall c, In c (map label l) -> 2 <= length (members (sample_of l) c)) -> invertible (dim shape) (pooled_cov (sample_of l)) ->
  exists m S, lda_train inverse ln lda_empty l = Ok m /\ finv (dim shape) (pooled_cov (sample_of l)) (mget S) /\
    forall q v c, inst_vals q = map Fin v -> length v = dim shape -> In c (map label l) ->
      exists r, lda_metric m q c = Ok (Fin r) /\
        (r == f (frequency (sample_of l) c) - (1#2) * quad (dim shape) S (away (sample_of l) c v) + (1#2) * quad (dim shape) S (fun j => nth j v 0))%Q.
Proof.
  intros Hln HI HU Hn H2 HV. destruct (pooled_spec shape l HU Hn H2) as (m0 & E0 & V0). destruct (ism_list _ _ _ V0) as (P & -> & VP).
  destruct (inverts_entries _ inverse P _ HI VP HV) as (S & ES & VS).
  destruct (lda_spec inverse ln f Hln shape l HU Hn P S H2 E0 VP ES VS) as (m & Em & HM). exists m, S. split; [exact Em|]. split; [|exact HM].
  apply (finv_ext _ (mget P)); [exact (proj2 VP)|exact (finv_of _ _ _ VS)].
Qed.
Lemma choose_classes {T} (t0 : T) (L : list string) (R : string -> T -> Prop) : (forall c, In c L -> exists t, R c t) -> exists t : string -> T, forall c, In c L -> R c (t c).
Proof.
  intros H. assert (G : forall cs, exists t, forall c, In c cs -> In c L -> R c (t c)).
  { induction cs as [|c cs (t & Ht)]; [exists (fun _ => t0); intros ? []|]. destruct (in_dec string_dec c L) as [Hc|Hc].
    - destruct (H c Hc) as (p & Hp). exists (fun c' => if String.eqb c' c then p else t c'). intros c' Hc' Hl. destruct (String.eqb_spec c' c) as [->|Ne]; [exact Hp|].
      apply Ht; [destruct Hc' as [->|Hc']; [congruence|exact Hc']|exact Hl].
    - exists t. intros c' [<-|Hc'] Hl; [contradiction|apply Ht; assumption]. }
  destruct (G L) as (t & Ht). exists t. intros c Hc. apply Ht; exact Hc.
Qed.
Lemma qda_formula inverse determinant ln f shape l : log_reads ln f -> inverts (dim shape) inverse -> finds_determinant (dim shape) determinant ->
  uniform shape l -> l <> [] -> (forall c, In c (map label l) -> 2 <= length (members (sample_of l) c)) ->
  (forall c, In c (map label l) -> invertible (dim shape) (class_cov (sample_of l) c) /\ (0 < det (dim shape) (class_cov (sample_of l) c))%Q) ->
  exists m S, qda_train inverse determinant ln qda_empty l = Ok m /\
    (forall c, In c (map label l) -> finv (dim shape) (class_cov (sample_of l) c) (mget (S c))) /\
    forall q v c, inst_vals q = map Fin v -> length v = dim shape -> In c (map label l) ->
      exists r, qda_metric m q c = Ok (Fin r) /\
        (r == f (frequency (sample_of l) c) - (1#2) * f (det (dim shape) (class_cov (sample_of l) c)) - (1#2) * quad (dim shape) (S c) (away (sample_of l) c v))%Q.
Proof.
  intros Hln HI HD HU Hn H2 HV. set (d := dim shape) in *. set (s := sample_of l) in *.
  destruct (choose_classes ([], [], 0%Q) (map label l) (fun c (t : list (list Q) * list (list Q) * Q) =>
     (exists avg, cont_average_all (filter (of_class c) l) = Ok avg /\ covariance avg (filter (of_class c) l) = Ok (map (map Fin) (fst (fst t)))) /\
     entries d (fst (fst t)) (class_cov s c) /\
     (inverse (map (map Fin) (fst (fst t))) = map (map Fin) (snd (fst t)) /\ inverse_of d (fst (fst t)) (snd (fst t)) /\
      determinant (map (map Fin) (fst (fst t))) = Fin (snd t) /\ (0 < snd t)%Q) /\ (snd t == det d (class_cov s c))%Q)) as (t & Ht).
  { intros c Hc. destruct (class_mean_avg shape l c HU Hc) as (avg & Ea & Va). destruct (class_cov_cov shape l c avg HU Hc (H2 c Hc) Va) as (cov & Ec & Vc).
    destruct (ism_list _ _ _ Vc) as (P & -> & VP). destruct (HV c Hc) as (I0 & D0). destruct (inverts_entries d inverse P _ HI VP I0) as (S & ES & VS).
    destruct (HD P (proj1 VP)) as (D & ED & VD).
    assert (ED' : (D == det d (class_cov s c))%Q) by (rewrite VD; apply det_ext; exact (proj2 VP)).
    exists (P, S, D). cbn [fst snd]. split; [exists avg; split; assumption|]. split; [exact VP|]. split; [|exact ED']. split; [exact ES|]. split; [exact VS|]. split; [exact ED|]. rewrite ED'. exact D0. }
  destruct (qda_spec inverse determinant ln f Hln shape l HU Hn (fun c => fst (fst (t c))) (fun c => snd (fst (t c))) (fun c => snd (t c)) H2) as (m & Em & HM).
  - intros c Hc. apply (Ht c Hc).
  - intros c Hc. apply (Ht c Hc).
  - intros c Hc. apply (Ht c Hc).
  - exists m, (fun c => snd (fst (t c))). split; [exact Em|]. split.
    + intros c Hc. destruct (Ht c Hc) as (_ & VP & (_ & VS & _) & _). apply (finv_ext _ (mget (fst (fst (t c))))); [exact (proj2 VP)|exact (finv_of _ _ _ VS)].
    + intros q v c Hq Lv Hc. destruct (HM q v c Hq Lv Hc) as (r & Er & Vr). exists r. split; [exact Er|]. rewrite Vr.
      destruct (Ht c Hc) as (_ & _ & _ & ED). rewrite (proj2 Hln _ _ ED). reflexivity.
Qed.

(** * Equal class covariances *)
Lemma qofn_sub a b : b <= a -> (qofn (a - b) == qofn a - qofn b)%Q.
Proof. intros H. unfold qofn, Qeq, Qminus, Qplus, Qopp, inject_Z. cbn [Qnum Qden Pos.mul]. rewrite Nat2Z.inj_sub by exact H. lia. Qed.
Lemma qsum_scale_l {A} (f : A -> Q) (k : Q) l : (qsum (map (fun x => k * f x) l) == k * qsum (map f l))%Q.
Proof. induction l as [|x l IH]; [cbn; ring|]. cbn [map]. change (qsum (?x :: ?y)) with (x + qsum y)%Q. rewrite IH. ring. Qed.
Lemma length_by_class cs : forall l : ilist, NoDup cs -> (forall x, In x l -> In (label x) cs) -> (qofn (length l) == qsum (map (fun c => qofn (length (filter (of_class c) l))) cs))%Q.
Proof.
  assert (E : forall l : ilist, (qofn (length l) == qsum (map (fun _ => 1%Q) l))%Q).
  { induction l as [|x l IH]; [reflexivity|]. cbn [length map]. change (qsum (?x :: ?y)) with (x + qsum y)%Q. rewrite <- IH. unfold qofn. rewrite Nat2Z.inj_succ, <- Z.add_1_l. rewrite inject_Z_plus; reflexivity. }
  intros l N H. rewrite E, (qsum_by_class (fun _ => 1%Q) cs l N H). apply qsum_ext. intros c _. symmetry. apply E.
Qed.
Lemma pooled_common l w i j : l <> [] -> (forall c, In c (map label l) -> 2 <= length (members (sample_of l) c)) ->
  (forall c, In c (map label l) -> (class_cov (sample_of l) c i j == w)%Q) -> (pooled_cov (sample_of l) i j == w)%Q.
Proof.
  intros Hn H2 HC. set (s := sample_of l) in *. unfold pooled_cov.
  set (f := fun x => ((coord (label x, row x) i - class_mean s (label x) i) * (coord (label x, row x) j - class_mean s (label x) j))%Q).
  assert (E1 : (qsum (map (fun r => (coord r i - class_mean s (fst r) i) * (coord r j - class_mean s (fst r) j)) s) == qsum (map f l))%Q) by (unfold s at 3, sample_of; rewrite map_map; reflexivity).
  rewrite E1, (qsum_by_class f (distinct_labels l) l (distinct_nodup l)) by (intros y Hy; apply distinct_in, in_map, Hy).
  assert (E2 : (qsum (map (fun c => qsum (map f (filter (of_class c) l))) (distinct_labels l)) == qsum (map (fun c => w * (qofn (length (filter (of_class c) l)) - 1)) (distinct_labels l)))%Q).
  { apply qsum_ext. intros c Hc. apply distinct_in in Hc. rewrite <- (HC c Hc). unfold class_cov.
    assert (L : length (members s c) = length (filter (of_class c) l)) by (unfold s; rewrite members_sample, sample_length; reflexivity).
    pose proof (H2 c Hc) as H2c. rewrite L in *.
    assert (EQ : (qofn (length (filter (of_class c) l) - 1) == qofn (length (filter (of_class c) l)) - 1)%Q).
    { rewrite qofn_sub by lia. reflexivity. }
    rewrite EQ. assert (Nz : ~ (qofn (length (filter (of_class c) l)) - 1 == 0)%Q) by (intros Z; rewrite <- EQ in Z; assert (0 < qofn (length (filter (of_class c) l) - 1))%Q; [apply qofn_pos; lia|lra]).
    transitivity (qsum (map (fun r => (coord r i - class_mean s c i) * (coord r j - class_mean s c j)) (members s c)))%Q; [|field; exact Nz].
    unfold s at 3. rewrite members_sample. unfold sample_of. rewrite map_map. apply qsum_ext. intros y Hy. apply filter_In in Hy as [_ Hy].
    unfold of_class in Hy. apply String.eqb_eq in Hy. unfold f. rewrite Hy. unfold coord. cbn [snd]. reflexivity. }
  rewrite E2, qsum_scale_l.
  assert (E3 : (qsum (map (fun c => qofn (length (filter (of_class c) l)) - 1) (distinct_labels l)) == qofn (length l) - qofn (length (distinct_labels l)))%Q).
  { rewrite (length_by_class (distinct_labels l) l (distinct_nodup l)) by (intros y Hy; apply distinct_in, in_map, Hy).
    generalize (distinct_labels l). clear. induction l0 as [|c cs IH]; [reflexivity|]. cbn [map length]. rewrite !(fun a b => eq_refl : qsum (a :: b) = (a + qsum b)%Q). rewrite IH.
    assert (Es : (qofn (S (length cs)) == 1 + qofn (length cs))%Q) by (unfold qofn; rewrite Nat2Z.inj_succ, <- Z.add_1_l; rewrite inject_Z_plus; reflexivity). rewrite Es. ring. }
  rewrite E3. pose proof (classes_half l H2) as Hh. unfold s. rewrite sample_length, classes_distinct.
  assert (Hd : 1 <= length (distinct_labels l)).
  { destruct l as [|x l']; [congruence|]. assert (Hi : In (label x) (distinct_labels (x :: l'))) by (apply distinct_in; left; reflexivity). destruct (distinct_labels (x :: l')); [destruct Hi|cbn; lia]. }
  assert (EQ : (qofn (length l - length (distinct_labels l)) == qofn (length l) - qofn (length (distinct_labels l)))%Q).
  { apply qofn_sub. lia. }
  rewrite EQ. assert (0 < qofn (length l - length (distinct_labels l)))%Q by (apply qofn_pos; lia). field. rewrite EQ in H. lra.
Qed.
Lemma invertible_ext d w w' : (forall i j, i < d -> j < d -> (w i j == w' i j)%Q) -> invertible d w -> invertible d w'.
Proof. intros H (s & Hs). exists s. exact (finv_ext d w w' s H Hs). Qed.
Lemma quad_ext d S S' x : (forall i j, i < d -> j < d -> (mget S i j == mget S' i j)%Q) -> (quad d S x == quad d S' x)%Q.
Proof. intros H. unfold quad. apply ssum_ext. intros i Hi. apply ssum_ext. intros j Hj. rewrite (H i j Hi Hj). reflexivity. Qed.
Lemma lda_qda inverse determinant ln f shape l w : log_reads ln f -> inverts (dim shape) inverse -> finds_determinant (dim shape) determinant ->
  uniform shape l -> l <> [] -> (forall c, In c (map label l) -> 2 <= length (members (sample_of l) c)) ->
  (forall c i j, In c (map label l) -> i < dim shape -> j < dim shape -> (class_cov (sample_of l) c i j == w i j)%Q) -> invertible (dim shape) w -> (0 < det (dim shape) w)%Q ->
  exists m m', lda_train inverse ln lda_empty l = Ok m /\ qda_train inverse determinant ln qda_empty l = Ok m' /\
  forall q v, inst_vals q = map Fin v -> length v = dim shape -> exists k, forall c, In c (map label l) ->
    exists r r', lda_metric m q c = Ok (Fin r) /\ qda_metric m' q c = Ok (Fin r') /\ (r' == r + k)%Q.
Proof.
  intros Hln HI HD HU Hn H2 HC HV H0. set (d := dim shape) in *. set (s := sample_of l) in *.
  assert (HP : forall i j, i < d -> j < d -> (pooled_cov s i j == w i j)%Q) by (intros i j Hi Hj; apply pooled_common; [exact Hn|exact H2|intros c Hc; apply HC; assumption]).
  destruct (lda_formula inverse ln f shape l Hln HI HU Hn H2) as (m & S & Em & FS & HM). { apply (invertible_ext d w); [intros i j Hi Hj; symmetry; apply HP; assumption|exact HV]. }
  destruct (qda_formula inverse determinant ln f shape l Hln HI HD HU Hn H2) as (m' & S' & Em' & FS' & HM').
  { intros c Hc. split; [apply (invertible_ext d w); [intros i j Hi Hj; symmetry; apply HC; assumption|exact HV]|].
    fold d. fold s. rewrite (det_ext d _ w) by (intros i j Hi Hj; apply HC; assumption). exact H0. }
  exists m, m'. split; [exact Em|]. split; [exact Em'|]. intros q v Hq Lv. exists (- (1#2) * f (det d w) - (1#2) * quad d S (fun j => nth j v 0))%Q. intros c Hc.
  destruct (HM q v c Hq Lv Hc) as (r & Er & Vr). destruct (HM' q v c Hq Lv Hc) as (r' & Er' & Vr'). exists r, r'. split; [exact Er|]. split; [exact Er'|].
  rewrite Vr', Vr. fold d. fold s. rewrite (proj2 Hln (det d (class_cov s c)) (det d w)) by (apply det_ext; intros i j Hi Hj; apply HC; assumption).
  assert (EQ : (quad d (S' c) (away s c v) == quad d S (away s c v))%Q).
  { apply quad_ext. apply (finv_unique d w).
    - intros i j Hi Hj. rewrite <- !HP by assumption. apply pooled_sym.
    - apply (finv_ext d (class_cov s c)); [intros i j Hi Hj; apply HC; assumption|exact (FS' c Hc)].
    - apply (finv_ext d (pooled_cov s)); [exact HP|exact FS]. }
  rewrite EQ. ring.
Qed.

(** * Diagonal covariance *)
Lemma ssum_pick d i (g : nat -> Q) : i < d -> (ssum d (fun k => if Nat.eqb i k then g k else 0) == g i)%Q.
Proof.
  intros Hi. rewrite <- (ssum_delta d g i Hi). apply ssum_ext. intros k _. rewrite (Nat.eqb_sym k i). destruct (Nat.eqb i k); ring.
Qed.
Lemma diag_inv d D : (forall i, i < d -> ~ (D i == 0)%Q) -> finv d (fun i j => if Nat.eqb i j then D i else 0)%Q (fun i j => if Nat.eqb i j then / D i else 0)%Q.
Proof.
  intros HD i j Hi Hj. rewrite (ssum_ext d _ (fun k => if Nat.eqb i k then (D i * (if Nat.eqb k j then / D k else 0)) else 0)%Q).
  - rewrite (ssum_pick d i (fun k => D i * (if Nat.eqb k j then / D k else 0))%Q Hi). destruct (Nat.eqb i j); [apply Qmult_inv_r, HD, Hi|ring].
  - intros k _. destruct (Nat.eqb i k); [reflexivity|ring].
Qed.
Lemma quad_diag d S D x : (forall i, i < d -> ~ (D i == 0)%Q) -> (forall i j, i < d -> j < d -> (mget S i j == if Nat.eqb i j then / D i else 0)%Q) ->
  (quad d S x == ssum d (fun i => / D i * (x i * x i)))%Q.
Proof.
  intros HD HS. unfold quad. apply ssum_ext. intros i Hi.
  rewrite (ssum_ext d _ (fun j => if Nat.eqb i j then x i * / D i * x j else 0)%Q).
  - rewrite (ssum_pick d i (fun j => x i * / D i * x j)%Q Hi). ring.
  - intros j Hj. rewrite (HS i j Hi Hj). destruct (Nat.eqb i j); ring.
Qed.
Lemma lda_diag inverse ln f n l D : log_reads ln f -> inverts n inverse -> uniform (repeat None n) l -> l <> [] ->
  (forall c, In c (map label l) -> 2 <= length (members (sample_of l) c)) ->
  (forall i, i < n -> ~ (D i == 0)%Q) -> (forall i j, i < n -> j < n -> (pooled_cov (sample_of l) i j == if Nat.eqb i j then D i else 0)%Q) ->
  exists m, lda_train inverse ln lda_empty l = Ok m /\
  forall q v, inst_vals q = map Fin v -> length v = n -> exists k, forall c, In c (map label l) ->
    exists r, lda_metric m q c = Ok (Fin r) /\ (r == f (frequency (sample_of l) c) - (1#2) * ssum n (fun i => / D i * (away (sample_of l) c v i * away (sample_of l) c v i)) + k)%Q.
Proof.
  intros Hln HI HU Hn H2 HD HP. pose proof (lda_formula inverse ln f (repeat None n) l Hln) as K. rewrite dim_repeat in K.
  destruct (K HI HU Hn H2) as (m & S & Em & FS & HM).
  { apply (invertible_ext n (fun i j => if Nat.eqb i j then D i else 0)%Q); [intros i j Hi Hj; symmetry; apply HP; assumption|]. eexists. apply diag_inv, HD. }
  assert (HS : forall i j, i < n -> j < n -> (mget S i j == if Nat.eqb i j then / D i else 0)%Q).
  { apply (finv_unique n (fun i j => if Nat.eqb i j then D i else 0)%Q).
    - intros i j _ _. rewrite Nat.eqb_sym. destruct (Nat.eqb_spec j i) as [->|]; reflexivity.
    - apply (finv_ext n (pooled_cov (sample_of l))); [exact HP|exact FS].
    - apply diag_inv, HD. }
  exists m. split; [exact Em|]. intros q v Hq Lv. exists ((1#2) * quad n S (fun j => nth j v 0))%Q. intros c Hc. destruct (HM q v c Hq Lv Hc) as (r & Er & Vr).
  exists r. split; [exact Er|]. rewrite Vr. rewrite (quad_diag n S D (away (sample_of l) c v) HD HS). reflexivity.
Qed.
Lemma vals_of_numbers q v : attrs q = map (fun z => ACont (Fin z)) v -> inst_vals q = map Fin v.
Proof. intros E. rewrite inst_vals_concat, E, map_map. clear E. induction v as [|a v IH]; [reflexivity|]. cbn [map concat] in *. rewrite IH. reflexivity. Qed.

(** * The mean of one instance *)
Lemma attr_average_single x i a : nth_error (attrs x) i = Some a -> measured a -> finite a ->
  exists b, attr_average (Z.of_nat i) [x] = Ok (Some b) /\ same_attr a b /\ finite b.
Proof.
  intros Ha [[v ->]|[v ->]] Hf.
  - exists (ADisc v). unfold attr_average. cbn [atn nth_error bind]. unfold disc_at. unfold get_attr. cbn [mapM]. unfold get_attr. rewrite !at_nat.
    rewrite (proj2 (atn_ok _ _ _) Ha). cbn. split; [reflexivity|]. split; [reflexivity|]. intros w E; discriminate E.
  - destruct (Hf v eq_refl) as (q & ->). destruct (attr_average_cont (Z.of_nat i) [x] [q]) as (b & E & _ & V); [discriminate|constructor; [|constructor]; apply feature_nth; exact Ha|].
    exists (ACont (Fin b)). split; [exact E|]. split; [|intros w E'; injection E' as <-; eexists; reflexivity]. cbn. rewrite V. cbn. unfold Qdiv. change (/ qofn 1)%Q with 1%Q. ring.
Qed.
Lemma average_single x : Forall measured (attrs x) -> Forall finite (attrs x) ->
  exists a, average_instance [x] = Ok a /\ label a = label x /\ Forall2 same_attr (attrs x) (attrs a) /\ Forall finite (attrs a).
Proof.
  intros HM HF. assert (G : forall n, n <= attr_count x -> exists bs, mapM (fun i => attr_average (Z.of_nat i) [x]) (seq (attr_count x - n) n) = Ok (map Some bs) /\
    Forall2 same_attr (skipn (attr_count x - n) (attrs x)) bs /\ Forall finite bs).
  { unfold attr_count. induction n as [|n IH]; intros Hn.
    - exists []. rewrite Nat.sub_0_r, skipn_all. repeat constructor.
    - destruct IH as (bs & E & F & FB); [lia|]. set (k := length (attrs x) - S n) in *. assert (Ek : length (attrs x) - n = S k) by lia. rewrite Ek in *.
      destruct (nth_error (attrs x) k) as [a|] eqn:Ea; [|apply nth_error_None in Ea; lia].
      destruct (attr_average_single x k a Ea) as (b & Eb & Sb & Fb); [exact (proj1 (Forall_forall _ _) HM a (nth_error_In _ _ Ea))|exact (proj1 (Forall_forall _ _) HF a (nth_error_In _ _ Ea))|].
      exists (b :: bs). cbn [seq mapM]. rewrite Eb. cbn [bind]. rewrite E. cbn [bind map]. split; [reflexivity|]. split; [|constructor; assumption].
      assert (Es : skipn k (attrs x) = a :: skipn (S k) (attrs x)).
      { revert Ea. clear. generalize k. clear k. generalize (attrs x). induction l as [|y l IH]; intros [|k] H; try discriminate H; [injection H as ->; reflexivity|]. cbn [skipn]. apply IH. exact H. }
      rewrite Es. constructor; assumption. }
  destruct (G (attr_count x) (le_n _)) as (bs & E & F & FB). rewrite Nat.sub_diag in *. cbn [skipn] in F.
  unfold average_instance, average. cbn [atn nth_error bind]. rewrite E. cbn [bind snd fst].
  assert (M2 : mapM (fun o : option attr => match o with Some x => Ok x | None => UB NullDeref end) (map Some bs) = Ok bs).
  { clear. induction bs as [|b bs IH]; [reflexivity|]. cbn [map mapM bind]. rewrite IH. reflexivity. }
  rewrite M2. cbn [bind]. eexists. split; [reflexivity|]. cbn [label attrs]. split; [reflexivity|]. split; assumption.
Qed.
Lemma gapq_same a b q : same_attr a b -> finite a -> finite b -> (gapq q b == gapq a q)%Q.
Proof.
  intros H Ha Hb. destruct a as [v|v|v i m|v], b as [w|w|w j k|w]; cbn in H; try discriminate H; try contradiction.
  - injection H as ->. destruct q as [| | |[| | |]]; cbn; try reflexivity. rewrite String.eqb_sym. reflexivity.
  - injection H as ->. destruct q as [| | |[| | |]]; reflexivity.
  - injection H as -> -> ->. destruct q as [| | |[| | |]]; reflexivity.
  - destruct (Ha v eq_refl) as (p & ->). destruct (Hb w eq_refl) as (p' & ->). cbn in H. destruct q as [| | |[z| | |]]; cbn; try reflexivity. rewrite H. ring.
Qed.
Lemma distq_same xs bs qs : Forall2 same_attr xs bs -> Forall finite xs -> Forall finite bs -> length qs = length xs -> (distq qs bs == distq xs qs)%Q.
Proof.
  intros H. revert qs. induction H as [|a b xs bs H1 H2 IH]; intros qs Fx Fb L; destruct qs as [|q qs]; try discriminate L; [reflexivity|].
  inversion Fx; inversion Fb; subst. rewrite !distq_cons, IH by (try assumption; now injection L). rewrite (gapq_same a b q) by assumption. reflexivity.
Qed.
Lemma filter_unique l x : NoDup (map label l) -> In x l -> filter (of_class (label x)) l = [x].
Proof.
  induction l as [|y l IH]; intros N Hx; [destruct Hx|]. cbn [map] in N. inversion N as [|? ? N1 N2]; subst. cbn [filter]. unfold of_class at 1.
  assert (K : forall c, ~ In c (map label l) -> filter (of_class c) l = []).
  { clear. intros c H. induction l as [|z l IH]; [reflexivity|]. cbn [filter]. unfold of_class at 1. destruct (String.eqb_spec (label z) c) as [E|_]; [exfalso; apply H; left; exact E|]. apply IH. intros Hc. apply H. right. exact Hc. }
  destruct Hx as [->|Hx].
  - rewrite String.eqb_refl, K by exact N1. reflexivity.
  - destruct (String.eqb_spec (label y) (label x)) as [E|_]; [exfalso; apply N1; rewrite E; apply in_map, Hx|]. apply IH; assumption.
Qed.
(** k-means with one instance per class: the score of a class is minus its distance *)
Lemma kmeans_single old l : NoDup (map label l) -> Forall (fun x => Forall measured (attrs x) /\ Forall finite (attrs x)) l ->
  exists m, kmeans_train old l = Ok m /\ km_prior m = class_distribution l /\
    forall q x, In x l -> attr_count q = attr_count x -> Forall finite (attrs q) -> exists r, kmeans_metric eucl m q (label x) = Ok (Fin (- r)) /\ (r == distq (attrs x) (attrs q))%Q.
Proof.
  intros N F. rewrite Forall_forall in F.
  destruct (kmeans_means old l (fun c a => forall x, In x l -> label x = c -> Forall2 same_attr (attrs x) (attrs a) /\ Forall finite (attrs a))) as (m & Em & Pm & HM).
  { intros c Hc. apply in_map_iff in Hc as (x & <- & Hx). rewrite (filter_unique l x N Hx). destruct (F x Hx) as (F1 & F2). destruct (average_single x F1 F2) as (a & Ea & La & Sa & Fa).
    exists a. split; [exact Ea|]. split; [exact La|]. intros y Hy Ey. pose proof (filter_unique l y N Hy) as K. rewrite Ey, (filter_unique l x N Hx) in K. injection K as <-. split; assumption. }
  exists m. split; [exact Em|]. split; [exact Pm|]. intros q x Hx Lq Fq. destruct (HM (label x) (in_map label l x Hx)) as (a & Fa & Ha). destruct (Ha x Hx eq_refl) as (Sa & FA).
  unfold kmeans_metric. rewrite Fa. unfold attr_count in Lq. pose proof (Forall2_len _ _ _ Sa) as Ls. destruct (eucl_fin q a) as (r & Er & Vr); [lia|exact Fq|exact FA|]. rewrite Er. cbn [bind dopp].
  exists r. split; [reflexivity|]. rewrite Vr. apply distq_same; [exact Sa|apply F, Hx|exact FA|exact Lq].
Qed.
