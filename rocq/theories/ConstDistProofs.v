(** A feature that is the same in all training instances: nearest neighbours and k-means (C138). *)
From Coq Require Import String ZArith QArith Bool Lia Lqa Permutation List.
From Verif Require Import Base Spec BaseLemmas DblLemmas SortLemmas AttrModel AttrProofs DataSetModel InstanceListModel PartitionModel PerformanceModel
  ListSpec ListProofs PartitionProofs PerformanceProofs DistanceModel GaussianModel ModelInvProofs ModelInvDistProofs FeatOrderSpec FeatOrderProofs ConstSpec ConstTreeProofs RenameProofs.
Import ListNotations.
Local Open Scope string_scope.
Local Open Scope list_scope.
Local Open Scope nat_scope.

Lemma mapM_app_ {A B} (f : A -> res B) l1 l2 : mapM f (l1 ++ l2) = do a <- mapM f l1; do b <- mapM f l2; Ok (a ++ b).
Proof.
  induction l1 as [|x l1 IH]; cbn [app mapM bind]; [destruct (mapM f l2); reflexivity|]. destruct (f x); cbn [bind]; try reflexivity. rewrite IH.
  destruct (mapM f l1); cbn [bind]; try reflexivity. destruct (mapM f l2); reflexivity.
Qed.
Lemma insert_len {A} i (a : A) l : i <= length l -> length (insert_at i a l) = S (length l).
Proof. intros H. unfold insert_at. rewrite app_length. cbn [length]. rewrite firstn_length_le, skipn_length by exact H. lia. Qed.
Lemma insert_perm {A} i (a : A) l : Permutation (insert_at i a l) (l ++ [a]).
Proof. unfold insert_at. rewrite <- Permutation_middle. rewrite firstn_skipn. apply Permutation_cons_append. Qed.

Section Dist.
  Context (n pos : nat) (Hpos : pos <= n).
  Lemma get_low x b i : length (attrs x) = n -> i < pos -> get_attr (with_feature pos b x) (Z.of_nat i) = get_attr x (Z.of_nat i).
  Proof. intros L H. rewrite <- (get_moved pos b x (Z.of_nat i)) by lia. unfold moved. destruct (Z.ltb_spec (Z.of_nat i) (Z.of_nat pos)); [reflexivity|lia]. Qed.
  Lemma get_high x b i : length (attrs x) = n -> pos <= i -> get_attr (with_feature pos b x) (Z.of_nat (S i)) = get_attr x (Z.of_nat i).
  Proof. intros L H. rewrite <- (get_moved pos b x (Z.of_nat i)) by lia. unfold moved. destruct (Z.ltb_spec (Z.of_nat i) (Z.of_nat pos)); [lia|]. f_equal. lia. Qed.
  Lemma seq_insert : seq 0 (S n) = seq 0 pos ++ pos :: map S (seq pos (n - pos)).
  Proof. replace (S n) with (pos + S (n - pos)) by lia. rewrite seq_app. cbn [Nat.add seq]. rewrite <- seq_shift. reflexivity. Qed.
  (** columns of a data set with one more feature *)
  Lemma columns_insert {A} (t t' : nat -> res A) (v : A) ts : mapM t (seq 0 n) = Ok ts -> (forall i, i < pos -> t' i = t i) -> t' pos = Ok v -> (forall i, pos <= i -> i < n -> t' (S i) = t i) ->
    mapM t' (seq 0 (S n)) = Ok (insert_at pos v ts).
  Proof.
    intros E H1 H2 H3. rewrite seq_insert, mapM_app_. replace (seq 0 n) with (seq 0 pos ++ seq pos (n - pos)) in E by (rewrite <- seq_app; f_equal; lia). rewrite mapM_app_ in E.
    apply bind_ok in E as (u & E1 & E). apply bind_ok in E as (w & E2 & E). injection E as <-.
    rewrite (mapM_ext_in t' t (seq 0 pos)) by (intros i Hi; apply in_seq in Hi; apply H1; lia). rewrite E1. cbn [bind mapM]. rewrite H2. cbn [bind].
    rewrite mapM_map. rewrite (mapM_ext_in (fun i => t' (S i)) t (seq pos (n - pos))) by (intros i Hi; apply in_seq in Hi; apply H3; lia). rewrite E2. cbn [bind].
    pose proof (mapM_len _ _ _ E1) as L. rewrite seq_length in L. unfold insert_at. rewrite firstn_app, skipn_app, L, Nat.sub_diag, firstn_O, skipn_O, app_nil_r. rewrite firstn_all2, skipn_all2 by lia. reflexivity.
  Qed.
  Lemma eucl_insert x y a b g : length (attrs x) = n -> length (attrs y) = n -> gapd a b = Ok g ->
    exists r r', eucl x y = Ok r /\ eucl (with_feature pos a x) (with_feature pos b y) = Ok r' /\ deq r' (dadd r g).
  Proof.
    intros Lx Ly Eg. destruct (gapt_all n x y Lx Ly) as (ts & Et).
    assert (Et' : mapM (gapt (with_feature pos a x) (with_feature pos b y)) (seq 0 (S n)) = Ok (insert_at pos g ts)).
    { apply (columns_insert (gapt x y)); [exact Et| | |].
      - intros i Hi. unfold gapt. rewrite !get_low by assumption. reflexivity.
      - unfold gapt. rewrite !get_new by lia. cbn [bind]. exact Eg.
      - intros i Hi _. unfold gapt. rewrite !get_high by assumption. reflexivity. }
    destruct (eucl_terms n x y ts Lx Ly Et) as (r & Er & Dr).
    assert (LW : forall z c, length (attrs z) = n -> length (attrs (with_feature pos c z)) = S n) by (intros z c Lz; cbn [with_feature attrs]; rewrite insert_len; lia).
    destruct (eucl_terms (S n) (with_feature pos a x) (with_feature pos b y) _ (LW x a Lx) (LW y b Ly) Et') as (r' & Er' & Dr').
    exists r, r'. split; [exact Er|]. split; [exact Er'|]. rewrite Dr', (fold_dadd_perm _ _ (insert_perm pos g ts)), fold_left_app. cbn [fold_left]. rewrite Dr. reflexivity.
  Qed.
  Lemma shift_lt a b g : dltb (dadd a (Fin g)) (dadd b (Fin g)) = dltb a b.
  Proof.
    destruct a as [p| | |], b as [q| | |]; try reflexivity. cbn [dadd]. destruct (dltb (Fin p) (Fin q)) eqn:E.
    - apply dltb_fin in E. apply dltb_fin. lra.
    - apply dltb_fin_false in E. apply dltb_fin_false. lra.
  Qed.
  Lemma shift_nan a g : is_nan (dadd a (Fin g)) = is_nan a.
  Proof. destruct a; reflexivity. Qed.
  Lemma gap_finite a b : finite_value a -> finite_value b -> exists g, gapd a b = Ok (Fin g).
  Proof.
    destruct a as [t|t|t j m|[z| | |]], b as [t'|t'|t' j' m'|[z'| | |]]; cbn; intros Ha Hb; try destruct Ha; try destruct Hb; try (eexists; reflexivity).
    destruct (String.eqb t t'); eexists; reflexivity.
  Qed.
  Lemma nearest_insert a b data k q : width_n n data -> length (attrs q) = n -> finite_value a -> finite_value b ->
    nearest eucl (map (with_feature pos a) data) k (with_feature pos b q) = rmap (map (with_feature pos a)) (nearest eucl data k q).
  Proof.
    intros W Lq Fa Fb. destruct (gap_finite a b Fa Fb) as (g & Eg). unfold nearest. set (wf := with_feature pos a).
    assert (FE : filter (eligible (with_feature pos b q)) (map wf data) = map wf (filter (eligible q) data)).
    { clear W. induction data as [|x l IH]; [reflexivity|]. cbn [map filter]. rewrite <- (eligible_comp q (with_feature pos b q) x (wf x)) by reflexivity. destruct (eligible q x); cbn [map]; rewrite IH; reflexivity. }
    rewrite FE. set (el := filter (eligible q) data).
    assert (WE : Forall (fun x => length (attrs x) = n) el) by (apply Forall_forall; intros x Hx; apply filter_In in Hx as [Hx _]; unfold width_n in W; rewrite Forall_forall in W; apply W, Hx).
    set (T := fun (u : dbl * instance) (v : dbl * instance) => deq (fst v) (dadd (fst u) (Fin g)) /\ snd v = wf (snd u)).
    destruct (Forall2_mapM (fun x y => y = wf x /\ length (attrs x) = n) T (fun x => do d <- eucl x q; Ok (d, x)) (fun x => do d <- eucl x (with_feature pos b q); Ok (d, x)) el (map wf el)) as (us & vs & E1 & E2 & F).
    - clear -WE. induction WE as [|x l Hx _ IH]; cbn [map]; constructor; [split; [reflexivity|exact Hx]|exact IH].
    - intros x y (-> & Lx). destruct (eucl_insert x q a b (Fin g) Lx Lq Eg) as (r & r' & E & E' & D). unfold wf. rewrite E, E'. cbn [bind]. eexists _, _. repeat split. exact D.
    - unfold ilist in *. rewrite E1, E2. cbn [bind]. rewrite <- (Forall2_len _ _ _ F).
      assert (EX : existsb (fun p0 => is_nan (fst p0)) us = existsb (fun p0 => is_nan (fst p0)) vs).
      { clear -F. induction F as [|u v us vs H _ IH]; [reflexivity|]. cbn [existsb]. rewrite (nan_deq _ _ (proj1 H)), shift_nan, IH. reflexivity. }
      rewrite <- EX. assert (MP : forall s s', Forall2 T s s' -> map snd (firstn (Z.to_nat k) s') = map wf (map snd (firstn (Z.to_nat k) s))).
      { intros s s' Fs. apply (Forall2_firstn T (Z.to_nat k)) in Fs. revert Fs. generalize (firstn (Z.to_nat k) s) (firstn (Z.to_nat k) s'). clear. intros t t' Fs. induction Fs as [|u v t t' H _ IH]; [reflexivity|]. cbn [map]. rewrite IH, (proj2 H). reflexivity. }
      destruct (Nat.leb (length us) 1); [unfold rmap; cbn [bind]; f_equal; apply MP, F|]. destruct (existsb (fun p0 => is_nan (fst p0)) us); [reflexivity|].
      unfold rmap; cbn [bind]. f_equal. apply MP. revert F. generalize us vs. clear. intros us vs F.
      assert (SI : forall u v (s s' : list (dbl * instance)), T u v -> Forall2 T s s' -> Forall2 T (sinsert (fun p0 p' => dltb (fst p0) (fst p')) u s) (sinsert (fun p0 p' => dltb (fst p0) (fst p')) v s')).
      { intros u v s s' H F0. induction F0 as [|c d s s' H0 F0 IH]; cbn [sinsert]; [constructor; [exact H|constructor]|].
        assert (E : dltb (fst c) (fst u) = dltb (fst d) (fst v)) by (rewrite (proj1 H), (proj1 H0); symmetry; apply shift_lt). rewrite E. destruct (dltb (fst d) (fst v)); constructor; try assumption. constructor; assumption. }
      unfold ssort. induction F as [|u v us vs H _ IH]; [constructor|]. cbn [fold_right]. apply SI; assumption.
  Qed.

  (** * k-means *)
  Lemma wf_first a l : atn (map (with_feature pos a) l) 0 = rmap (with_feature pos a) (atn l 0).
  Proof. destruct l; reflexivity. Qed.
  Lemma average_moved a l i j : width_n n l -> (forall x, In x l -> get_attr (with_feature pos a x) (Z.of_nat j) = get_attr x (Z.of_nat i)) ->
    attr_average (Z.of_nat j) (map (with_feature pos a) l) = attr_average (Z.of_nat i) l.
  Proof.
    intros W H. unfold attr_average, ilist in *. rewrite wf_first. destruct (atn l 0) as [x0| | |] eqn:E0; try reflexivity. unfold rmap. cbn [bind].
    rewrite H by (apply first_in; assumption). destruct (get_attr x0 (Z.of_nat i)) as [a0| | |]; try reflexivity. cbn [bind].
    destruct (isDiscrete a0).
    - rewrite mapM_map, (mapM_ext_in _ (disc_at (Z.of_nat i)) l); [reflexivity|]. intros x Hx. unfold disc_at. rewrite H by exact Hx. reflexivity.
    - destruct (isContinuous a0); [|reflexivity]. unfold cont_sum, ilist. rewrite FeatOrderProofs.foldM_map, map_length.
      rewrite (foldM_ext_in _ (fun s x => do v <- cont_at (Z.of_nat i) x; Ok (dadd s v)) l); [reflexivity|]. intros s x Hx. unfold cont_at. rewrite H by exact Hx. reflexivity.
  Qed.
  Lemma mapM_const {A B} (f : A -> res B) v l : (forall x, In x l -> f x = Ok v) -> mapM f l = Ok (repeat v (length l)).
  Proof. induction l as [|x l IH]; intros H; [reflexivity|]. cbn [mapM length repeat]. rewrite (H x (or_introl eq_refl)). cbn [bind]. rewrite IH by (intros; apply H; right; assumption). reflexivity. Qed.
  Lemma sum_const c (f : instance -> res dbl) l : (forall x, In x l -> f x = Ok (Fin c)) -> forall s, exists r, foldM (fun s x => do v <- f x; Ok (dadd s v)) l (Fin s) = Ok (Fin r) /\ (r == s + c * inject_Z (Z.of_nat (length l)))%Q.
  Proof.
    induction l as [|x l IH]; intros H s; [exists s; split; [reflexivity|cbn; ring]|]. cbn [foldM]. rewrite (H x (or_introl eq_refl)). cbn [bind dadd].
    destruct (IH (fun y Hy => H y (or_intror Hy)) (s + c)%Q) as (r & E & D). exists r. split; [exact E|]. rewrite D. cbn [length]. rewrite Nat2Z.inj_succ, <- Z.add_1_r, inject_Z_plus. ring.
  Qed.
  Lemma average_new a l : width_n n l -> l <> [] -> plain_value a -> exists a', attr_average (Z.of_nat pos) (map (with_feature pos a) l) = Ok (Some a') /\ same_value a a'.
  Proof.
    intros W Hne Pa. assert (G : forall y, In y (map (with_feature pos a) l) -> get_attr y (Z.of_nat pos) = Ok a).
    { intros y Hy. apply in_map_iff in Hy as (x & <- & Hx). apply get_new. rewrite (width_in n l x W Hx). exact Hpos. }
    assert (Hne' : map (with_feature pos a) l <> []) by (destruct l; [contradiction|discriminate]). revert G Hne'. generalize (map (with_feature pos a) l). clear W Hne l. intros l G Hne.
    unfold attr_average. destruct l as [|x0 l0] eqn:El; [contradiction|]. rewrite <- El in *. assert (A0 : atn l 0 = Ok x0) by (rewrite El; reflexivity). rewrite A0. cbn [bind]. rewrite (G x0) by (rewrite El; left; reflexivity). cbn [bind].
    destruct a as [v|v|v i m|[c| | |]]; try (destruct Pa); cbn [isDiscrete isContinuous].
    - rewrite (mapM_const _ v) by (intros x Hx; unfold disc_at; rewrite (G x Hx); reflexivity). cbn [bind]. eexists. split; [reflexivity|]. cbn [same_value].
      destruct (get_maximum_spec (repeat v (length l))) as [I _]; [rewrite El; discriminate|]. symmetry. apply (repeat_spec _ _ _ I).
    - unfold cont_sum. destruct (sum_const c (cont_at (Z.of_nat pos)) l) with (s := 0%Q) as (r & E & D); [intros x Hx; unfold cont_at; rewrite (G x Hx); reflexivity|]. change d0 with (Fin 0). rewrite E. cbn [bind].
      eexists. split; [reflexivity|]. cbn [same_value]. unfold dofnat. assert (Z : ~ (inject_Z (Z.of_nat (length l)) == 0)%Q) by (rewrite El; cbn [length]; unfold Qeq; cbn; lia). rewrite ddiv_fin by exact Z. cbn [deq]. rewrite D. field. exact Z.
  Qed.
  Definition grown (a : attr) (x x' : instance) : Prop := exists a', same_value a a' /\ x' = with_feature pos a' x.
  Lemma some_inv (r : list (option attr)) aa : mapM (fun o : option attr => match o with Some x => Ok x | None => UB NullDeref end) r = Ok aa -> r = map Some aa.
  Proof.
    revert aa. induction r as [|o r IH]; intros aa E; cbn [mapM] in E; [injection E as <-; reflexivity|]. apply bind_ok in E as (v & E1 & E). apply bind_ok in E as (vs & E2 & E). injection E as <-.
    destruct o as [o|]; [|discriminate E1]. injection E1 as <-. cbn. f_equal. apply IH, E2.
  Qed.
  Lemma some_all xs : mapM (fun o : option attr => match o with Some x => Ok x | None => UB NullDeref end) (map Some xs) = Ok xs.
  Proof. induction xs as [|x xs IH]; [reflexivity|]. cbn [map mapM bind]. rewrite IH. reflexivity. Qed.
  Lemma insert_map {A B} (f : A -> B) i a l : insert_at i (f a) (map f l) = map f (insert_at i a l).
  Proof. unfold insert_at. rewrite map_app, firstn_map, skipn_map. reflexivity. Qed.
  Lemma average_insert a l m : width_n n l -> plain_value a -> average_instance l = Ok m -> exists m', average_instance (map (with_feature pos a) l) = Ok m' /\ grown a m m' /\ length (attrs m) = n.
  Proof.
    intros W Pa E. unfold average_instance, average in *. apply bind_ok in E as ((c & r) & E & E'). apply bind_ok in E as (x0 & E0 & E). apply bind_ok in E as (r' & Er & E). injection E as <- <-.
    apply bind_ok in E' as (aa & Ea & E'). injection E' as <-. cbn [fst snd] in *. pose proof (first_in _ _ E0) as I0. pose proof (width_in n l x0 W I0) as L0. unfold ilist in *. rewrite wf_first, E0. unfold rmap. cbn [bind].
    unfold attr_count in Er. rewrite L0 in Er. assert (L1 : attr_count (with_feature pos a x0) = S n) by (unfold attr_count; cbn [with_feature attrs]; rewrite insert_len; lia). rewrite L1.
    destruct (average_new a l W ltac:(intros ->; destruct I0) Pa) as (a' & Na & Sa).
    rewrite (columns_insert (fun i => attr_average (Z.of_nat i) l) (fun i => attr_average (Z.of_nat i) (map (with_feature pos a) l)) (Some a') r' Er).
    - cbn [bind fst snd label with_feature]. pose proof (some_inv _ _ Ea) as R. rewrite R, insert_map, some_all. cbn [bind]. eexists. split; [reflexivity|].
      split; [exists a'; split; [exact Sa|reflexivity]|]. cbn [attrs]. pose proof (mapM_len _ _ _ Er) as L. rewrite R, map_length, seq_length in L. exact L.
    - intros i Hi. apply average_moved; [exact W|]. intros x Hx. apply get_low; [apply (width_in n l); assumption|exact Hi].
    - exact Na.
    - intros i Hi _. apply average_moved; [exact W|]. intros x Hx. apply get_high; [apply (width_in n l); assumption|exact Hi].
  Qed.
  Lemma class_insert a c l : filter (of_class c) (map (with_feature pos a) l) = map (with_feature pos a) (filter (of_class c) l).
  Proof. induction l as [|x l IH]; [reflexivity|]. cbn [map filter]. change (of_class c (with_feature pos a x)) with (of_class c x). destruct (of_class c x); cbn [map]; rewrite IH; reflexivity. Qed.
  Lemma labels_insert a l : map label (map (with_feature pos a) l) = map label l.
  Proof. rewrite map_map. reflexivity. Qed.
  Lemma prior_insert a l : class_distribution (map (with_feature pos a) l) = class_distribution l.
  Proof. rewrite !class_distribution_cofl, labels_insert. reflexivity. Qed.
  Lemma part_class_insert a l : part_class (map (with_feature pos a) l) = rmap (map (map (with_feature pos a))) (part_class l).
  Proof.
    rewrite (proj1 (part_class_spec l)). unfold ilist. rewrite (proj1 (part_class_spec (map (with_feature pos a) l))). unfold rmap. cbn [bind]. f_equal. rewrite !distinct_labels_map, labels_insert, map_map. apply map_ext. intros c. apply class_insert.
  Qed.
  Lemma kmeans_insert a old old' l m : width_n n l -> plain_value a -> kmeans_train old l = Ok m ->
    exists m', kmeans_train old' (map (with_feature pos a) l) = Ok m' /\ km_prior m' = km_prior m /\ Forall2 (grown a) (km_means m) (km_means m') /\ Forall (fun x => length (attrs x) = n) (km_means m).
  Proof.
    intros W Pa E. unfold kmeans_train in *. apply bind_ok in E as (gs & Eg & E). apply bind_ok in E as (ms & Em & E). injection E as <-. cbn [km_prior km_means].
    rewrite part_class_insert, Eg. unfold rmap. cbn [bind]. rewrite prior_insert.
    assert (Wg : forall g, In g gs -> width_n n g).
    { intros g Hg. rewrite (proj1 (part_class_spec l)) in Eg. injection Eg as <-. apply in_map_iff in Hg as (c & <- & _). apply width_class, W. }
    assert (G : exists ms', mapM average_instance (map (map (with_feature pos a)) gs) = Ok ms' /\ Forall2 (grown a) ms ms' /\ Forall (fun x => length (attrs x) = n) ms).
    { clear Eg. revert ms Em. induction gs as [|g gs IH]; intros ms E; cbn [mapM] in E; [injection E as <-; exists []; split; [reflexivity|split; constructor]|].
      apply bind_ok in E as (u & E1 & E). apply bind_ok in E as (us & E2 & E). injection E as <-. destruct (average_insert a g u (Wg g (or_introl eq_refl)) Pa E1) as (u' & A & Gu & La).
      destruct (IH (fun g0 H0 => Wg g0 (or_intror H0)) us E2) as (us' & B & Gb & Fb). cbn [map mapM]. rewrite A. cbn [bind]. unfold ilist in *. rewrite B. eexists. split; [reflexivity|split; constructor; assumption]. }
    destruct G as (ms' & G1 & G2 & G3). unfold ilist in *. rewrite G1. eexists. split; [reflexivity|]. split; [reflexivity|]. split; assumption.
  Qed.
  Lemma gap_same a a' b g : same_value a a' -> gapd b a = Ok g -> exists g', gapd b a' = Ok g' /\ deq g' g.
  Proof.
    intros S E. assert (K : a = a' \/ exists v v', a = ACont v /\ a' = ACont v' /\ deq v v').
    { destruct a as [v|v|v i m|v], a' as [v'|v'|v' i' m'|v']; cbn [same_value] in S; try (left; congruence). right. exists v, v'. repeat split. exact S. }
    destruct K as [<-|(v & v' & -> & -> & D)].
    - exists g. split; [exact E|reflexivity].
    - destruct b; cbn in E |- *; injection E as <-; eexists; (split; [reflexivity|]); try reflexivity. unfold dpow2. rewrite D. reflexivity.
  Qed.
  Lemma find_grown a ms ms' c : Forall2 (grown a) ms ms' ->
    (find (fun x => String.eqb (label x) c) ms = None /\ find (fun x => String.eqb (label x) c) ms' = None) \/
    exists x x', find (fun x => String.eqb (label x) c) ms = Some x /\ find (fun x => String.eqb (label x) c) ms' = Some x' /\ grown a x x'.
  Proof.
    induction 1 as [|x x' ms ms' H _ IH]; [left; split; reflexivity|]. cbn [find]. destruct H as (a' & Sa & ->). cbn [with_feature label]. destruct (String.eqb (label x) c); [|exact IH].
    right. exists x, (with_feature pos a' x). split; [reflexivity|]. split; [reflexivity|]. exists a'. split; [exact Sa|reflexivity].
  Qed.
  Lemma metric_insert a b g prior ms ms' q c : Forall2 (grown a) ms ms' -> Forall (fun x => length (attrs x) = n) ms -> length (attrs q) = n -> gapd b a = Ok g ->
    (kmeans_metric eucl (mkKM prior ms) q c = Ok (dopp dbl_max) /\ kmeans_metric eucl (mkKM prior ms') (with_feature pos b q) c = Ok (dopp dbl_max)) \/
    exists x d d', In x ms /\ eucl q x = Ok d /\ kmeans_metric eucl (mkKM prior ms) q c = Ok (dopp d) /\ kmeans_metric eucl (mkKM prior ms') (with_feature pos b q) c = Ok (dopp d') /\ deq d' (dadd d g).
  Proof.
    intros F L Lq Eg. unfold kmeans_metric. cbn [km_means]. destruct (find_grown a ms ms' c F) as [(E & E')|(x & x' & E & E' & a' & Sa & ->)]; rewrite E, E'; [left; split; reflexivity|right].
    destruct (gap_same a a' b g Sa Eg) as (g' & Eg' & Dg). apply find_some in E as [Hx _]. rewrite Forall_forall in L.
    destruct (eucl_insert q x b a' g' Lq (L x Hx) Eg') as (d & d' & E1 & E2 & D). rewrite E1, E2. exists x, d, d'. repeat split; try assumption. rewrite D, Dg. reflexivity.
  Qed.
  Lemma gap_zero a b : plain_value a -> same_value a b -> exists g, gapd b a = Ok g /\ deq g d0.
  Proof.
    intros P S. destruct a as [v|v|v i m|[v| | |]]; try destruct P; destruct b as [w|w|w i m|[w| | |]]; cbn [same_value deq] in S; try discriminate S; try contradiction.
    - subst w. exists d0. cbn. rewrite String.eqb_refl. split; reflexivity.
    - cbn. eexists. split; [reflexivity|]. cbn. rewrite S. ring.
  Qed.
  Lemma kmeans_predict_same a b m m' q : plain_value a -> same_value a b -> km_prior m' = km_prior m -> Forall2 (grown a) (km_means m) (km_means m') -> Forall (fun x => length (attrs x) = n) (km_means m) -> length (attrs q) = n ->
    kmeans_predict eucl m' (with_feature pos b q) = kmeans_predict eucl m q.
  Proof.
    intros P S Ep F L Lq. destruct (gap_zero a b P S) as (g & Eg & Dg). unfold kmeans_predict. rewrite Ep. symmetry. apply gauss_predict_ext; [reflexivity|]. intros c _. destruct m as [pr ms], m' as [pr' ms']. cbn [km_prior km_means] in *. subst pr'.
    destruct (metric_insert a b g pr ms ms' q c F L Lq Eg) as [(E & E')|(x & d & d' & _ & _ & E & E' & D)]; rewrite E, E'; eexists _, _; (split; [reflexivity|]); (split; [reflexivity|]); [reflexivity|].
    rewrite D, Dg, dadd_0_r. reflexivity.
  Qed.
  Lemma kmeans_predict_room a b g m m' q : gapd b a = Ok (Fin g) -> (0 <= g)%Q -> km_prior m' = km_prior m -> Forall2 (grown a) (km_means m) (km_means m') -> Forall (fun x => length (attrs x) = n) (km_means m) -> length (attrs q) = n ->
    (forall x d, In x (km_means m) -> eucl q x = Ok d -> dltb (dadd d (Fin g)) dbl_max = true) ->
    kmeans_predict eucl m' (with_feature pos b q) = kmeans_predict eucl m q.
  Proof.
    intros Eg G0 Ep F L Lq R. unfold kmeans_predict. rewrite Ep. symmetry.
    set (Rel := fun u v : dbl => (u = dopp dbl_max /\ v = dopp dbl_max) \/ exists d d', u = dopp d /\ v = dopp d' /\ deq d' (dadd d (Fin g)) /\ dltb d dbl_max = true /\ dltb d' dbl_max = true).
    apply (gauss_predict_rel _ _ _ Rel); [reflexivity| | |left; split; reflexivity].
    - intros c _. destruct m as [pr ms], m' as [pr' ms']. cbn [km_prior km_means] in *. subst pr'.
      destruct (metric_insert a b (Fin g) pr ms ms' q c F L Lq Eg) as [(E & E')|(x & d & d' & Hx & Ed & E & E' & D)]; rewrite E, E'; eexists _, _; (split; [reflexivity|]); (split; [reflexivity|]); [left; split; reflexivity|].
      right. exists d, d'. split; [reflexivity|]. split; [reflexivity|]. split; [exact D|]. pose proof (R x d Hx Ed) as Rd. split; [|rewrite D; exact Rd].
      revert Rd. unfold dbl_max, dofZ. destruct d as [q0| | |]; cbn [dadd]; intros Rd; try exact Rd. apply dltb_fin in Rd. apply dltb_fin. lra.
    - assert (O1 : forall d, dltb d dbl_max = true -> dltb (dopp dbl_max) (dopp d) = true /\ dltb (dopp d) (dopp dbl_max) = false).
      { unfold dbl_max, dofZ. intros [z| | |] H; try discriminate H; [|split; reflexivity]. apply dltb_fin in H. cbn [dopp]. split; [apply dltb_fin|apply dltb_fin_false]; lra. }
      assert (O2 : forall d e, dltb (dopp d) (dopp e) = dltb e d).
      { intros [z| | |] [w| | |]; try reflexivity. cbn [dopp]. destruct (dltb (Fin w) (Fin z)) eqn:E; [apply dltb_fin in E; apply dltb_fin; lra|apply dltb_fin_false in E; apply dltb_fin_false; lra]. }
      intros u v x y [(-> & ->)|(d & d' & -> & -> & D & B & B')] [(-> & ->)|(e & e' & -> & -> & De & C & C')].
      + reflexivity.
      + rewrite (proj1 (O1 e C)), (proj1 (O1 e' C')). reflexivity.
      + rewrite (proj2 (O1 d B)), (proj2 (O1 d' B')). reflexivity.
      + rewrite !O2, D, De. symmetry. apply shift_lt.
  Qed.
End Dist.
