(** The order of the features: proofs. *)
From Coq Require Import String ZArith QArith Bool Lia Lqa Permutation Sorted Arith List.
From Verif Require Import Base Spec BaseLemmas DblLemmas SortLemmas AttrModel AttrProofs DataSetModel InstanceListModel PartitionModel PerformanceModel
  StatSpec ListSpec ListProofs PartitionProofs CovProofs CovAllProofs PerformanceProofs DistanceModel DistanceSpec DistanceProofs
  GaussianModel GaussianSpec GaussianProofs DiscrimSpec DiscrimProofs BayesProofs TreeSpec TreeProofs TreeBestProofs InvSpec TreeInvProofs TreeInvGrowProofs ModelInvSpec ModelInvProofs ModelInvDistProofs FeatOrderSpec.
Import ListNotations.
Local Open Scope string_scope.
Local Open Scope list_scope.
Local Open Scope nat_scope.

(** * Sums of doubles do not depend on the order *)
Lemma dadd_comm a b : deq (dadd a b) (dadd b a).
Proof. destruct a, b; cbn; try exact I. ring. Qed.
Lemma dadd_assoc a b c : deq (dadd (dadd a b) c) (dadd a (dadd b c)).
Proof. destruct a, b, c; cbn; try exact I. ring. Qed.
Lemma dadd_swap a b c : deq (dadd (dadd a b) c) (dadd (dadd a c) b).
Proof. rewrite (dadd_assoc a b c), (dadd_comm b c), (dadd_assoc a c b). reflexivity. Qed.
Lemma fold_dadd_deq l : forall a b, deq a b -> deq (fold_left dadd l a) (fold_left dadd l b).
Proof. induction l as [|x l IH]; intros a b H; [exact H|]. cbn [fold_left]. apply IH. rewrite H. reflexivity. Qed.
Lemma fold_dadd_perm l l' : Permutation l l' -> forall a, deq (fold_left dadd l a) (fold_left dadd l' a).
Proof.
  induction 1 as [|x l l' _ IH|x y l|l1 l2 l3 _ IH1 _ IH2]; intros a; cbn [fold_left]; [reflexivity|apply IH| |rewrite IH1; apply IH2].
  apply fold_dadd_deq, dadd_swap.
Qed.
(** a loop that adds one term for every index *)
Lemma foldM_terms {A} (t : A -> res dbl) xs : forall ts a, mapM t xs = Ok ts -> foldM (fun s i => do v <- t i; Ok (dadd s v)) xs a = Ok (fold_left dadd ts a).
Proof.
  induction xs as [|x xs IH]; intros ts a E; cbn [mapM] in E; [injection E as <-; reflexivity|].
  apply bind_ok in E as (v & E1 & E). apply bind_ok in E as (vs & E2 & E). injection E as <-. cbn [foldM fold_left]. rewrite E1. cbn [bind]. apply IH, E2.
Qed.
Lemma foldM_terms_inv {A} (t : A -> res dbl) xs : forall a r, foldM (fun s i => do v <- t i; Ok (dadd s v)) xs a = Ok r -> exists ts, mapM t xs = Ok ts.
Proof.
  induction xs as [|x xs IH]; intros a r E; [exists []; reflexivity|]. cbn [foldM] in E. apply bind_ok in E as (s & E1 & E). apply bind_ok in E1 as (v & E1 & _).
  destruct (IH _ _ E) as (ts & Et). exists (v :: ts). cbn [mapM]. rewrite E1. cbn [bind]. rewrite Et. reflexivity.
Qed.
Lemma foldM_ext_in {A B} (f g : A -> B -> res A) xs : (forall a x, In x xs -> f a x = g a x) -> forall a, foldM f xs a = foldM g xs a.
Proof.
  intros H. induction xs as [|x xs IH]; intros a; [reflexivity|]. cbn [foldM]. rewrite (H a x (or_introl eq_refl)). destruct (g a x); cbn [bind]; try reflexivity.
  apply IH. intros; apply H; right; assumption.
Qed.
Lemma mapM_ext_in {A B} (f g : A -> res B) xs : (forall x, In x xs -> f x = g x) -> mapM f xs = mapM g xs.
Proof.
  intros H. induction xs as [|x xs IH]; [reflexivity|]. cbn [mapM]. rewrite (H x (or_introl eq_refl)), IH by (intros; apply H; right; assumption). reflexivity.
Qed.

(** * Rearranging *)
Section Arr.
  Context (n : nat) (p : list nat) (Hp : arrangement n p).
  Lemma arr_len : length p = n.
  Proof. rewrite (Permutation_length Hp). apply seq_length. Qed.
  Lemma arr_lt j : In j p -> j < n.
  Proof. intros H. apply (Permutation_in _ Hp), in_seq in H. lia. Qed.
  Lemma arr_nth i : i < n -> nth i p 0 < n.
  Proof. intros H. apply arr_lt, nth_In. rewrite arr_len. exact H. Qed.
  Lemma arrange_len {A} (d : A) l : length (arrange d p l) = n.
  Proof. unfold arrange. rewrite map_length. apply arr_len. Qed.
  Lemma arrange_perm {A} (d : A) l : length l = n -> Permutation (arrange d p l) l.
  Proof.
    intros L. unfold arrange. rewrite (Permutation_map (fun j => nth j l d) Hp). apply Permutation_refl'. clear Hp. subst n. induction l as [|x l IH]; [reflexivity|].
    change (nth 0 (x :: l) d :: map (fun j => nth j (x :: l) d) (seq 1 (length l)) = x :: l). cbn [nth]. f_equal. rewrite <- seq_shift, map_map. exact IH.
  Qed.
  Lemma arrange_nth {A} (d : A) l i : i < n -> nth i (arrange d p l) d = nth (nth i p 0) l d.
  Proof. intros H. unfold arrange. rewrite (nth_indep _ d (nth 0 l d)) by (rewrite map_length, arr_len; exact H). apply (map_nth (fun j => nth j l d)). Qed.
  Lemma arrange_nth_error {A} (d : A) l i : length l = n -> i < n -> nth_error (arrange d p l) i = nth_error l (nth i p 0).
  Proof.
    intros L H. rewrite (nth_error_nth' (arrange d p l) d) by (rewrite arrange_len; exact H). rewrite (nth_error_nth' l d) by (rewrite L; apply arr_nth, H).
    f_equal. apply arrange_nth, H.
  Qed.
  Lemma map_arr_seq : map (fun i => nth i p 0) (seq 0 n) = p.
  Proof.
    rewrite <- arr_len. clear Hp. induction p as [|x q IH]; [reflexivity|]. cbn [length seq map nth]. f_equal. rewrite <- seq_shift, map_map. exact IH.
  Qed.
  (** a loop over the rearranged indices *)
  Lemma mapM_arr {A} (d : A) (t : nat -> res A) ts : mapM t (seq 0 n) = Ok ts -> mapM t p = Ok (arrange d p ts).
  Proof.
    intros E. assert (K : forall j, j < n -> t j = Ok (nth j ts d)).
    { intros j Hj. assert (G : forall a m us, mapM t (seq a m) = Ok us -> forall i, i < m -> t (a + i) = Ok (nth i us d)).
      { intros a m. revert a. induction m as [|m IH]; intros a us E0 i Hi; [lia|]. cbn [seq mapM] in E0. apply bind_ok in E0 as (v & E1 & E0). apply bind_ok in E0 as (vs & E2 & E0). injection E0 as <-.
        destruct i as [|i]; [rewrite Nat.add_0_r; exact E1|]. replace (a + S i) with (S a + i) by lia. cbn [nth]. apply (IH _ _ E2). lia. }
      apply (G 0 n ts E j Hj). }
    assert (I : forall j, In j p -> j < n) by exact arr_lt. unfold arrange. clear Hp E. induction p as [|j q IH]; [reflexivity|]. cbn [mapM map]. rewrite (K j) by (apply I; left; reflexivity). cbn [bind].
    rewrite IH by (intros; apply I; right; assumption). reflexivity.
  Qed.
  Lemma reorder_get x i : length (attrs x) = n -> i < n -> get_attr (reorder p x) (Z.of_nat i) = get_attr x (Z.of_nat (nth i p 0)).
  Proof.
    intros L H. unfold get_attr, at_. rewrite !Nat2Z.id. destruct (Z.ltb_spec (Z.of_nat i) 0); [lia|]. destruct (Z.ltb_spec (Z.of_nat (nth i p 0)) 0); [lia|].
    cbn [reorder attrs]. rewrite arrange_nth_error by assumption. reflexivity.
  Qed.
  Lemma reorder_count x : attr_count (reorder p x) = n.
  Proof. unfold attr_count. cbn. apply arrange_len. Qed.

  (** * Euclidean distance *)
  Definition gapd (a b : attr) : res dbl :=
    if isDiscrete a then if isDiscrete b then do v <- disc_value a; do w <- disc_value b; Ok (if String.eqb v w then d0 else d1) else Ok d0
    else if isContinuous a then if isContinuous b then do v <- cont_value a; do w <- cont_value b; Ok (dpow2 (dsub v w)) else Ok d0 else Ok d0.
  Lemma gapd_ok a b : exists g, gapd a b = Ok g.
  Proof. destruct a, b; cbn; eexists; reflexivity. Qed.
  Definition gapt (x y : instance) (i : nat) : res dbl := do a <- get_attr x (Z.of_nat i); do b <- get_attr y (Z.of_nat i); gapd a b.
  Lemma get_in x i : length (attrs x) = n -> i < n -> exists a, get_attr x (Z.of_nat i) = Ok a.
  Proof.
    intros L H. unfold get_attr, at_. rewrite Nat2Z.id. destruct (Z.ltb_spec (Z.of_nat i) 0); [lia|]. destruct (nth_error (attrs x) i) as [a|] eqn:E; [exists a; reflexivity|apply nth_error_None in E; lia].
  Qed.
  Lemma gapt_all x y : length (attrs x) = n -> length (attrs y) = n -> exists ts, mapM (gapt x y) (seq 0 n) = Ok ts.
  Proof.
    intros Lx Ly. apply mapM_total. intros i Hi. apply in_seq in Hi. unfold gapt. destruct (get_in x i Lx ltac:(lia)) as (a & ->). destruct (get_in y i Ly ltac:(lia)) as (b & ->). cbn [bind]. apply gapd_ok.
  Qed.
  Lemma dadd_0_r a : deq (dadd a d0) a.
  Proof. destruct a; cbn; try exact I. unfold Qeq; cbn. lia. Qed.
  Lemma eucl_terms x y ts : length (attrs x) = n -> length (attrs y) = n -> mapM (gapt x y) (seq 0 n) = Ok ts -> exists r, eucl x y = Ok r /\ deq r (fold_left dadd ts d0).
  Proof.
    intros Lx Ly E. unfold eucl, attr_count. rewrite Lx.
    assert (I : forall i, In i (seq 0 n) -> i < n) by (intros i Hi; apply in_seq in Hi; lia).
    revert ts E I. generalize (seq 0 n). intros is.
    assert (G : forall ts a b, mapM (gapt x y) is = Ok ts -> (forall i, In i is -> i < n) -> deq a b -> exists r, foldM (eucl_step x y) is a = Ok r /\ deq r (fold_left dadd ts b)).
    { induction is as [|i is IH]; intros ts a b E I D; cbn [mapM] in E; [injection E as <-; exists a; split; [reflexivity|exact D]|].
      apply bind_ok in E as (v & E1 & E). apply bind_ok in E as (vs & E2 & E). injection E as <-. cbn [foldM fold_left].
      destruct (get_in x i Lx (I i (or_introl eq_refl))) as (c & Ec). destruct (get_in y i Ly (I i (or_introl eq_refl))) as (c' & Ec').
      assert (S : exists r, eucl_step x y a i = Ok r /\ deq r (dadd b v)).
      { unfold eucl_step. unfold gapt in E1. rewrite Ec, Ec' in *. cbn [bind] in *. unfold gapd in E1.
        destruct c as [t|t|t j m|z], c' as [t'|t'|t' j' m'|z']; cbn in *; injection E1 as <-;
          try (exists a; split; [reflexivity|]; rewrite dadd_0_r; exact D);
          try (destruct (String.eqb t t'); eexists; (split; [reflexivity|]); rewrite ?dadd_0_r, D; reflexivity).
        eexists. split; [reflexivity|]. rewrite D. reflexivity. }
      destruct S as (r & Er & Dr). rewrite Er. cbn [bind]. apply (IH vs r (dadd b v) E2); [intros; apply I; right; assumption|exact Dr]. }
    intros ts E I. apply (G ts d0 d0 E I). reflexivity.
  Qed.
  Lemma eucl_reorder x y : length (attrs x) = n -> length (attrs y) = n ->
    exists r r', eucl x y = Ok r /\ eucl (reorder p x) (reorder p y) = Ok r' /\ deq r' r.
  Proof.
    intros Lx Ly. destruct (gapt_all x y Lx Ly) as (ts & Et).
    assert (Et' : mapM (gapt (reorder p x) (reorder p y)) (seq 0 n) = Ok (arrange d0 p ts)).
    { rewrite <- (mapM_arr d0 _ _ Et). replace (mapM (gapt x y) p) with (mapM (gapt x y) (map (fun i => nth i p 0) (seq 0 n))) by (rewrite map_arr_seq; reflexivity). rewrite mapM_map. apply mapM_ext_in. intros i Hi. apply in_seq in Hi. unfold gapt. rewrite !reorder_get by (assumption || lia). reflexivity. }
    destruct (eucl_terms x y ts Lx Ly Et) as (r & Er & Dr). destruct (eucl_terms (reorder p x) (reorder p y) _ (reorder_count x) (reorder_count y) Et') as (r' & Er' & Dr').
    exists r, r'. split; [exact Er|]. split; [exact Er'|]. rewrite Dr', Dr. apply fold_dadd_perm, arrange_perm.
    clear -Et. assert (G : forall (t : nat -> res dbl) xs us, mapM t xs = Ok us -> length us = length xs).
    { intros t. induction xs as [|x0 xs IH]; intros us E; cbn [mapM] in E; [injection E as <-; reflexivity|]. apply bind_ok in E as (v & _ & E). apply bind_ok in E as (vs & E2 & E). injection E as <-. cbn. f_equal. apply IH, E2. }
    rewrite (G _ _ _ Et). apply seq_length.
  Qed.

  (** * k nearest neighbours *)
  Lemma Forall2_mapM {A B C D} (R : A -> B -> Prop) (T : C -> D -> Prop) (f : A -> res C) (g : B -> res D) xs ys : Forall2 R xs ys -> (forall x y, R x y -> exists u v, f x = Ok u /\ g y = Ok v /\ T u v) ->
    exists us vs, mapM f xs = Ok us /\ mapM g ys = Ok vs /\ Forall2 T us vs.
  Proof.
    intros F H. induction F as [|x y xs ys Hxy _ (us & vs & E1 & E2 & IH)]; [exists [], []; repeat split; constructor|]. destruct (H x y Hxy) as (u & v & Eu & Ev & T0).
    exists (u :: us), (v :: vs). cbn [mapM]. rewrite Eu, Ev. cbn [bind]. rewrite E1, E2. repeat split. constructor; assumption.
  Qed.
  Lemma nan_deq a b : deq a b -> is_nan a = is_nan b.
  Proof. destruct a, b; cbn; intros H; try reflexivity; destruct H. Qed.
  Lemma nearest_reorder data k q : width_n n data -> length (attrs q) = n ->
    nearest eucl (map (reorder p) data) k (reorder p q) = rmap (map (reorder p)) (nearest eucl data k q).
  Proof.
    intros W Lq. unfold nearest.
    assert (FE : filter (eligible (reorder p q)) (map (reorder p) data) = map (reorder p) (filter (eligible q) data)).
    { clear W. induction data as [|x l IH]; [reflexivity|]. cbn [map filter]. rewrite <- (eligible_comp q (reorder p q) x (reorder p x)) by reflexivity. destruct (eligible q x); cbn [map]; rewrite IH; reflexivity. }
    rewrite FE. set (el := filter (eligible q) data).
    assert (WE : Forall (fun x => length (attrs x) = n) el) by (apply Forall_forall; intros x Hx; apply filter_In in Hx as [Hx _]; unfold width_n in W; rewrite Forall_forall in W; apply W, Hx).
    set (T := fun (a : dbl * instance) (b : dbl * instance) => deq (fst a) (fst b) /\ snd b = reorder p (snd a)).
    destruct (Forall2_mapM (fun x y => y = reorder p x /\ length (attrs x) = n) T (fun x => do d <- eucl x q; Ok (d, x)) (fun x => do d <- eucl x (reorder p q); Ok (d, x)) el (map (reorder p) el)) as (us & vs & E1 & E2 & F).
    - clear -WE. induction WE as [|x l Hx _ IH]; cbn [map]; constructor; [split; [reflexivity|exact Hx]|exact IH].
    - intros x y (-> & Lx). destruct (eucl_reorder x q Lx Lq) as (r & r' & E & E' & D). rewrite E, E'. cbn [bind]. eexists _, _. repeat split. cbn. symmetry. exact D.
    - unfold ilist in *. rewrite E1, E2. cbn [bind]. rewrite <- (Forall2_len _ _ _ F).
      assert (EX : existsb (fun p0 => is_nan (fst p0)) us = existsb (fun p0 => is_nan (fst p0)) vs).
      { clear -F. induction F as [|a b us vs H _ IH]; [reflexivity|]. cbn [existsb]. rewrite (nan_deq _ _ (proj1 H)), IH. reflexivity. }
      rewrite <- EX. assert (MP : forall s s', Forall2 T s s' -> map snd (firstn (Z.to_nat k) s') = map (reorder p) (map snd (firstn (Z.to_nat k) s))).
      { intros s s' Fs. apply (Forall2_firstn T (Z.to_nat k)) in Fs. revert Fs. generalize (firstn (Z.to_nat k) s) (firstn (Z.to_nat k) s'). clear. intros t t' Fs. induction Fs as [|a b t t' H _ IH]; [reflexivity|]. cbn [map]. rewrite IH, (proj2 H). reflexivity. }
      destruct (Nat.leb (length us) 1); [unfold rmap; cbn [bind]; f_equal; apply MP, F|]. destruct (existsb (fun p0 => is_nan (fst p0)) us); [reflexivity|].
      unfold rmap; cbn [bind]. f_equal. apply MP. revert F. generalize us vs. clear. intros us vs F.
      assert (SI : forall a b (s s' : list (dbl * instance)), T a b -> Forall2 T s s' -> Forall2 T (sinsert (fun p0 p' => dltb (fst p0) (fst p')) a s) (sinsert (fun p0 p' => dltb (fst p0) (fst p')) b s')).
      { intros a b s s' H F0. induction F0 as [|c d s s' H0 F0 IH]; cbn [sinsert]; [constructor; [exact H|constructor]|].
        assert (E : dltb (fst c) (fst a) = dltb (fst d) (fst b)) by (rewrite (proj1 H), (proj1 H0); reflexivity). rewrite E. destruct (dltb (fst d) (fst b)); constructor; try assumption. constructor; assumption. }
      unfold ssort. induction F as [|a b us vs H _ IH]; [constructor|]. cbn [fold_right]. apply SI; assumption.
  Qed.

  (** * Columns *)
  Lemma disc_at_reorder x i : length (attrs x) = n -> i < n -> disc_at (Z.of_nat i) (reorder p x) = disc_at (Z.of_nat (nth i p 0)) x.
  Proof. intros L H. unfold disc_at. rewrite reorder_get by assumption. reflexivity. Qed.
  Lemma cont_at_reorder x i : length (attrs x) = n -> i < n -> cont_at (Z.of_nat i) (reorder p x) = cont_at (Z.of_nat (nth i p 0)) x.
  Proof. intros L H. unfold cont_at. rewrite reorder_get by assumption. reflexivity. Qed.
  Lemma foldM_map {A B C} (f : A -> C -> res A) (g : B -> C) xs : forall a, foldM f (map g xs) a = foldM (fun a x => f a (g x)) xs a.
  Proof. induction xs as [|x xs IH]; intros a; [reflexivity|]. cbn [map foldM]. destruct (f a (g x)); cbn [bind]; [apply IH|reflexivity..]. Qed.
  Lemma width_in l x : width_n n l -> In x l -> length (attrs x) = n.
  Proof. unfold width_n. rewrite Forall_forall. auto. Qed.
  Lemma first_reorder l : atn (map (reorder p) l) 0 = rmap (reorder p) (atn l 0).
  Proof. destruct l; reflexivity. Qed.
  Lemma first_in {A} (l : list A) x : atn l 0 = Ok x -> In x l.
  Proof. destruct l; [discriminate|]. intros E. injection E as <-. left; reflexivity. Qed.
  Lemma attr_average_reorder l i : width_n n l -> i < n -> attr_average (Z.of_nat i) (map (reorder p) l) = attr_average (Z.of_nat (nth i p 0)) l.
  Proof.
    intros W H. unfold attr_average, ilist in *. rewrite first_reorder. destruct (atn l 0) as [x0| | |] eqn:E0; try reflexivity. unfold rmap. cbn [bind].
    rewrite reorder_get by (try apply (width_in l), first_in; assumption). destruct (get_attr x0 (Z.of_nat (nth i p 0))) as [a0| | |]; try reflexivity. cbn [bind].
    destruct (isDiscrete a0).
    - rewrite mapM_map, (mapM_ext_in _ (disc_at (Z.of_nat (nth i p 0))) l); [reflexivity|]. intros x Hx. apply disc_at_reorder; [apply (width_in l); assumption|exact H].
    - destruct (isContinuous a0); [|reflexivity]. unfold cont_sum, ilist. rewrite foldM_map, map_length.
      rewrite (foldM_ext_in _ (fun s x => do v <- cont_at (Z.of_nat (nth i p 0)) x; Ok (dadd s v)) l); [reflexivity|]. intros a x Hx. rewrite cont_at_reorder; [reflexivity|apply (width_in l); assumption|exact H].
  Qed.
  Lemma attr_distribution_reorder l i : width_n n l -> i < n -> attr_distribution (Z.of_nat i) (map (reorder p) l) = attr_distribution (Z.of_nat (nth i p 0)) l.
  Proof.
    intros W H. unfold attr_distribution, ilist in *. rewrite first_reorder. destruct (atn l 0) as [x0| | |] eqn:E0; try reflexivity. unfold rmap. cbn [bind].
    rewrite reorder_get by (try apply (width_in l), first_in; assumption). destruct (get_attr x0 (Z.of_nat (nth i p 0))) as [a0| | |]; try reflexivity. cbn [bind].
    destruct (isDiscrete a0); [|reflexivity]. rewrite foldM_map. apply foldM_ext_in. intros c x Hx. rewrite disc_at_reorder; [reflexivity|apply (width_in l); assumption|exact H].
  Qed.
  Lemma mapM_len {A B} (t : A -> res B) xs : forall us, mapM t xs = Ok us -> length us = length xs.
  Proof.
    induction xs as [|x0 xs IH]; intros us E; cbn [mapM] in E; [injection E as <-; reflexivity|]. apply bind_ok in E as (v & _ & E). apply bind_ok in E as (vs & E2 & E). injection E as <-. cbn. f_equal. apply IH, E2.
  Qed.
  Lemma columns_reorder {A} (d : A) (f : Z -> ilist -> res A) l r : (forall i, i < n -> f (Z.of_nat i) (map (reorder p) l) = f (Z.of_nat (nth i p 0)) l) ->
    mapM (fun i => f (Z.of_nat i) l) (seq 0 n) = Ok r -> mapM (fun i => f (Z.of_nat i) (map (reorder p) l)) (seq 0 n) = Ok (arrange d p r).
  Proof.
    intros H E. rewrite <- (mapM_arr d _ _ E). replace (mapM (fun i => f (Z.of_nat i) l) p) with (mapM (fun i => f (Z.of_nat i) l) (map (fun i => nth i p 0) (seq 0 n))) by (rewrite map_arr_seq; reflexivity).
    rewrite mapM_map. apply mapM_ext_in. intros i Hi. apply in_seq in Hi. apply H. lia.
  Qed.
  Lemma arrange_map {A B} (d : A) (d' : B) (f : A -> B) l : length l = n -> arrange d' p (map f l) = map f (arrange d p l).
  Proof.
    intros L. unfold arrange. rewrite map_map. apply map_ext_in. intros j Hj. rewrite (nth_indep _ d' (f d)) by (rewrite map_length, L; apply arr_lt, Hj). apply map_nth.
  Qed.
  Lemma average_reorder l a : width_n n l -> average_instance l = Ok a -> average_instance (map (reorder p) l) = Ok (reorder p a) /\ length (attrs a) = n /\ composite a = None.
  Proof.
    intros W E. unfold average_instance, average in *. apply bind_ok in E as ((c & r) & E & E'). apply bind_ok in E as (x0 & E0 & E). apply bind_ok in E as (r' & Er & E). injection E as <- <-.
    apply bind_ok in E' as (aa & Ea & E'). injection E' as <-. cbn [fst snd] in *. pose proof (first_in _ _ E0) as I0. pose proof (width_in l x0 W I0) as L0. unfold ilist in *. rewrite first_reorder, E0. unfold rmap. cbn [bind].
    unfold attr_count in Er. rewrite L0 in Er. rewrite reorder_count.
    rewrite (columns_reorder None attr_average l r' (fun i Hi => attr_average_reorder l i W Hi) Er). cbn [bind fst snd].
    assert (Lr : length r' = n) by (rewrite (mapM_len _ _ _ Er); apply seq_length).
    assert (R : r' = map Some aa).
    { clear -Ea. revert aa Ea. induction r' as [|o r IH]; intros aa E; cbn [mapM] in E; [injection E as <-; reflexivity|]. apply bind_ok in E as (v & E1 & E). apply bind_ok in E as (vs & E2 & E). injection E as <-.
      destruct o as [o|]; [|discriminate E1]. injection E1 as <-. cbn. f_equal. apply IH, E2. }
    assert (La : length aa = n) by (subst r'; rewrite map_length in Lr; exact Lr).
    rewrite R, (arrange_map (ADisc EmptyString) None Some aa La).
    assert (M : forall xs, mapM (fun o : option attr => match o with Some x => Ok x | None => UB NullDeref end) (map Some xs) = Ok xs).
    { induction xs as [|x xs IH]; [reflexivity|]. cbn [map mapM bind]. rewrite IH. reflexivity. }
    rewrite M. cbn [bind]. split; [reflexivity|]. split; [exact La|reflexivity].
  Qed.

  (** * k-means *)
  Lemma class_reorder c l : filter (of_class c) (map (reorder p) l) = map (reorder p) (filter (of_class c) l).
  Proof. induction l as [|x l IH]; [reflexivity|]. cbn [map filter]. change (of_class c (reorder p x)) with (of_class c x). destruct (of_class c x); cbn [map]; rewrite IH; reflexivity. Qed.
  Lemma labels_reorder l : map label (map (reorder p) l) = map label l.
  Proof. rewrite map_map. reflexivity. Qed.
  Lemma distinct_reorder l : distinct_labels (map (reorder p) l) = distinct_labels l.
  Proof. rewrite !distinct_labels_map, labels_reorder. reflexivity. Qed.
  Lemma prior_reorder l : class_distribution (map (reorder p) l) = class_distribution l.
  Proof. rewrite !class_distribution_cofl, labels_reorder. reflexivity. Qed.
  Lemma part_class_reorder l : part_class (map (reorder p) l) = rmap (map (map (reorder p))) (part_class l).
  Proof.
    rewrite (proj1 (part_class_spec l)). unfold ilist. rewrite (proj1 (part_class_spec (map (reorder p) l))). unfold rmap. cbn [bind]. f_equal. rewrite distinct_reorder, map_map. apply map_ext. intros c. apply class_reorder.
  Qed.
  Lemma width_class c l : width_n n l -> width_n n (filter (of_class c) l).
  Proof. intros W. apply Forall_forall. intros x Hx. apply filter_In in Hx as [Hx _]. apply (width_in l); assumption. Qed.
  Lemma kmeans_reorder old old' l m : width_n n l -> kmeans_train old l = Ok m ->
    kmeans_train old' (map (reorder p) l) = Ok (mkKM (km_prior m) (map (reorder p) (km_means m))) /\ Forall (fun a => length (attrs a) = n) (km_means m).
  Proof.
    intros W E. unfold kmeans_train in *. apply bind_ok in E as (gs & Eg & E). apply bind_ok in E as (ms & Em & E). injection E as <-. cbn [km_prior km_means].
    rewrite part_class_reorder, Eg. unfold rmap. cbn [bind]. rewrite prior_reorder.
    assert (Wg : forall g, In g gs -> width_n n g).
    { intros g Hg. rewrite (proj1 (part_class_spec l)) in Eg. injection Eg as <-. apply in_map_iff in Hg as (c & <- & _). apply width_class, W. }
    assert (G : mapM average_instance (map (map (reorder p)) gs) = Ok (map (reorder p) ms) /\ Forall (fun a => length (attrs a) = n) ms).
    { clear Eg. revert ms Em. induction gs as [|g gs IH]; intros ms E; cbn [mapM] in E; [injection E as <-; split; [reflexivity|constructor]|].
      apply bind_ok in E as (a & E1 & E). apply bind_ok in E as (as_ & E2 & E). injection E as <-. destruct (average_reorder g a (Wg g (or_introl eq_refl)) E1) as (A & La & _).
      destruct (IH (fun g0 H0 => Wg g0 (or_intror H0)) as_ E2) as (B & Fb). cbn [map mapM]. rewrite A. cbn [bind]. unfold ilist in *. rewrite B. split; [reflexivity|constructor; assumption]. }
    destruct G as (G1 & G2). unfold ilist in *. rewrite G1. split; [reflexivity|exact G2].
  Qed.
  Lemma kmeans_metric_reorder prior ms q c : Forall (fun a => length (attrs a) = n) ms -> length (attrs q) = n ->
    exists a b, kmeans_metric eucl (mkKM prior ms) q c = Ok a /\ kmeans_metric eucl (mkKM prior (map (reorder p) ms)) (reorder p q) c = Ok b /\ deq a b.
  Proof.
    intros F Lq. unfold kmeans_metric. cbn [km_means].
    assert (G : find (fun x => String.eqb (label x) c) (map (reorder p) ms) = option_map (reorder p) (find (fun x => String.eqb (label x) c) ms)).
    { clear. induction ms as [|x ms IH]; [reflexivity|]. cbn [map find label reorder]. destruct (String.eqb (label x) c); [reflexivity|exact IH]. }
    rewrite G. destruct (find (fun x => String.eqb (label x) c) ms) as [x|] eqn:E; cbn [option_map]; [|eexists _, _; repeat split; reflexivity].
    apply find_some in E as [Hx _]. rewrite Forall_forall in F. destruct (eucl_reorder q x Lq (F x Hx)) as (r & r' & E1 & E2 & D). rewrite E1, E2. cbn [bind]. eexists _, _. repeat split. rewrite D. reflexivity.
  Qed.
  Lemma kmeans_predict_reorder prior ms q : Forall (fun a => length (attrs a) = n) ms -> length (attrs q) = n ->
    kmeans_predict eucl (mkKM prior (map (reorder p) ms)) (reorder p q) = kmeans_predict eucl (mkKM prior ms) q.
  Proof.
    intros F Lq. unfold kmeans_predict. cbn [km_prior]. symmetry. apply gauss_predict_ext; [reflexivity|]. intros c _. apply kmeans_metric_reorder; assumption.
  Qed.

  (** * Naive Bayes *)
  Lemma gauss_predict_fwd prior metric metric' q q' c : composite q = composite q' ->
    (forall c a, metric c = Ok a -> exists b, metric' c = Ok b /\ deq a b) -> gauss_predict prior metric q = Ok c -> gauss_predict prior metric' q' = Ok c.
  Proof.
    intros Hc HM E. unfold gauss_predict in *. rewrite <- Hc. apply bind_ok in E as (st0 & E0 & E). rewrite E0. cbn [bind]. apply bind_ok in E as (st & E & E1). injection E1 as <-.
    assert (G : forall cs s s' t, fst s = fst s -> deq (fst s) (fst s') -> snd s = snd s' -> foldM (gauss_step prior metric) cs s = Ok t -> exists t', foldM (gauss_step prior metric') cs s' = Ok t' /\ snd t' = snd t).
    { induction cs as [|x cs IH]; intros s s' t _ D1 D2 Ef; cbn [foldM] in Ef; [injection Ef as <-; exists s'; split; [reflexivity|symmetry; exact D2]|].
      apply bind_ok in Ef as (s1 & Es & Ef). cbn [foldM]. unfold gauss_step in Es |- * at 1. destruct (mmem x prior).
      - apply bind_ok in Es as (a & Ea & Es). injection Es as <-. destruct (HM x a Ea) as (b & Eb & Dab). rewrite Eb. cbn [bind]. eapply IH; [reflexivity| | |exact Ef].
        + unfold dgtb. rewrite Dab, D1. destruct (dltb (fst s') b); cbn [fst]; [exact Dab|exact D1].
        + unfold dgtb. rewrite Dab, D1. destruct (dltb (fst s') b); [reflexivity|exact D2].
      - injection Es as <-. cbn [bind]. eapply IH; [reflexivity|exact D1|exact D2|exact Ef]. }
    destruct (G _ _ (dopp dbl_max, fst st0) _ eq_refl ltac:(reflexivity) eq_refl E) as (t' & Et & Es). rewrite Et. cbn [bind]. f_equal. exact Es.
  Qed.
  Definition arrange_all {A} (d : A) (m : smap (list A)) : smap (list A) := map (fun kv => (fst kv, arrange d p (snd kv))) m.
  Lemma mfind_arrange {A} (d : A) c m : mfind c (arrange_all d m) = option_map (arrange d p) (mfind c m).
  Proof. induction m as [|(k & v) m IH]; [reflexivity|]. cbn. destruct (String.eqb c k); [reflexivity|exact IH]. Qed.
  Lemma memplace_arrange {A} (d : A) c v m : arrange_all d (memplace c v m) = memplace c (arrange d p v) (arrange_all d m).
  Proof.
    unfold memplace. unfold mmem. rewrite mfind_arrange. destruct (mfind c m); [reflexivity|]. cbn [option_map].
    induction m as [|(k & w) m IH]; [reflexivity|]. cbn. destruct (String.compare c k); cbn; [reflexivity|reflexivity|]. f_equal. exact IH.
  Qed.
  Definition arrange_bayes (m : bayes) : bayes := mkNB (nb_prior m) (arrange_all d0 (nb_means m)) (arrange_all d0 (nb_devs m)) (arrange_all [] (nb_dists m)).
  Definition regroup (g : string * ilist) : string * ilist := (fst g, map (reorder p) (snd g)).
  Lemma class_lists_reorder l cl : class_lists l = Ok cl -> class_lists (map (reorder p) l) = Ok (map regroup cl).
  Proof.
    unfold class_lists. intros E. apply bind_ok in E as (gs & Eg & E). injection E as <-. rewrite part_class_reorder, Eg. unfold rmap. cbn [bind]. f_equal. rewrite distinct_reorder. clear.
    generalize (distinct_labels l). intros cs. revert gs. induction cs as [|c cs IH]; intros [|g gs]; try reflexivity. cbn [map combine]. rewrite <- IH. reflexivity.
  Qed.
  Lemma class_lists_sub l cl g : class_lists l = Ok cl -> In g cl -> forall x, In x (snd g) -> In x l.
  Proof.
    unfold class_lists. rewrite (proj1 (part_class_spec l)). cbn [bind]. intros E. injection E as <-. intros Hg x Hx. destruct g as (c & g). apply in_combine_r in Hg. apply in_map_iff in Hg as (c' & <- & _). apply filter_In in Hx. apply Hx.
  Qed.
  Lemma class_lists_groups l cl g : class_lists l = Ok cl -> In g cl -> snd g = filter (of_class (fst g)) l /\ In (fst g) (map label l).
  Proof.
    unfold class_lists. rewrite (proj1 (part_class_spec l)). cbn [bind]. intros E. injection E as <-. intros Hg.
    assert (G : forall cs, In g (combine cs (map (fun c => filter (of_class c) l) cs)) -> snd g = filter (of_class (fst g)) l /\ In (fst g) cs).
    { induction cs as [|c cs IH]; intros H; [destruct H|]. destruct H as [<-|H]; [split; [reflexivity|left; reflexivity]|]. destruct (IH H). split; [assumption|right; assumption]. }
    destruct (G _ Hg) as (A & B). split; [exact A|apply distinct_in, B].
  Qed.
  Lemma fold_reorder {S G G'} (f : S -> G -> res S) (f' : S -> G' -> res S) (h : S -> S) (k : G -> G') gs : (forall s g t, In g gs -> f s g = Ok t -> f' (h s) (k g) = Ok (h t)) ->
    forall s t, foldM f gs s = Ok t -> foldM f' (map k gs) (h s) = Ok (h t).
  Proof.
    intros H. induction gs as [|g gs IH]; intros s t E; cbn [foldM] in E; [injection E as <-; reflexivity|]. apply bind_ok in E as (s1 & E1 & E). cbn [map foldM]. rewrite (H s g s1 (or_introl eq_refl) E1). cbn [bind].
    apply IH; [intros; apply H; [right|]; assumption|exact E].
  Qed.
  Lemma all_dist_reorder l ds : width_n n l -> all_attr_distribution l = Ok ds -> all_attr_distribution (map (reorder p) l) = Ok (arrange [] p ds).
  Proof.
    intros W E. unfold all_attr_distribution in *. apply bind_ok in E as (x0 & E0 & E). unfold ilist in *. rewrite first_reorder, E0. unfold rmap. cbn [bind]. rewrite reorder_count.
    unfold attr_count in E. rewrite (width_in l x0 W (first_in _ _ E0)) in E. apply (columns_reorder [] attr_distribution l ds (fun i Hi => attr_distribution_reorder l i W Hi) E).
  Qed.
  Section Bayes.
    Context (ln : dbl -> dbl) (std_vec : ilist -> res (list dbl)).
    (** the first feature decides which version is trained *)
    Lemma same_version l cl (P : attr -> bool) (b : bool) : width_n n l -> Forall (fun x => Forall (fun a => P a = b) (attrs x)) l -> class_lists l = Ok cl ->
      forall g0 x0 a0, atn cl 0 = Ok g0 -> atn (snd g0) 0 = Ok x0 -> get_attr x0 0 = Ok a0 ->
      P a0 = b /\ exists a1, atn (map regroup cl) 0 = Ok (regroup g0) /\ atn (snd (regroup g0)) 0 = Ok (reorder p x0) /\ get_attr (reorder p x0) 0 = Ok a1 /\ P a1 = b.
    Proof.
      intros W F Ec g0 x0 a0 E0 E1 E2. pose proof (class_lists_sub l cl g0 Ec (first_in _ _ E0) x0 (first_in _ _ E1)) as Ix. pose proof (width_in l x0 W Ix) as Lx.
      rewrite Forall_forall in F. specialize (F x0 Ix). rewrite Forall_forall in F.
      assert (Hn : 0 < n) by (unfold get_attr, at_ in E2; cbn in E2; destruct (attrs x0); [discriminate E2|cbn in Lx; lia]).
      assert (IN : forall i a, get_attr x0 (Z.of_nat i) = Ok a -> In a (attrs x0)).
      { intros i a. unfold get_attr, at_. rewrite Nat2Z.id. destruct (Z.ltb_spec (Z.of_nat i) 0); [lia|]. destruct (nth_error (attrs x0) i) eqn:E; [|discriminate]. intros K. injection K as <-. eapply nth_error_In, E. }
      split; [apply F, (IN 0 a0 E2)|]. destruct (get_in x0 (nth 0 p 0) Lx (arr_nth 0 Hn)) as (a1 & Ea). exists a1. split; [destruct cl; [discriminate E0|injection E0 as ->; reflexivity]|].
      split; [destruct g0 as (c0 & [|y ys]); cbn [snd] in E1; [discriminate E1|injection E1 as ->; reflexivity]|]. split; [change 0%Z with (Z.of_nat 0); rewrite reorder_get by assumption; exact Ea|]. apply F, (IN _ _ Ea).
    Qed.
    Lemma bayes_disc_reorder old l m : width_n n l -> all_texts l -> bayes_train std_vec old l = Ok m -> bayes_train std_vec (arrange_bayes old) (map (reorder p) l) = Ok (arrange_bayes m).
    Proof.
      intros W T E. unfold bayes_train in *. apply bind_ok in E as (cl & Ec & E). apply bind_ok in E as (g0 & E0 & E). apply bind_ok in E as (x0 & E1 & E). apply bind_ok in E as (a0 & E2 & E).
      destruct (same_version l cl isDiscrete true W) with (g0 := g0) (x0 := x0) (a0 := a0) as (D0 & a1 & A0 & A1 & A2 & D1); try assumption.
      { eapply Forall_impl; [|exact T]. intros x Hx. eapply Forall_impl; [|exact Hx]. intros a (v & ->). reflexivity. }
      rewrite D0 in E. rewrite (class_lists_reorder l cl Ec). cbn [bind]. rewrite A0. cbn [bind]. rewrite A1. cbn [bind]. rewrite A2. cbn [bind]. rewrite D1, prior_reorder.
      apply (fold_reorder bayes_disc bayes_disc arrange_bayes regroup cl) in E; [exact E|].
      intros s g t Hg Es. unfold bayes_disc in *. apply bind_ok in Es as (ds & Ed & Es). injection Es as <-.
      assert (Wg : width_n n (snd g)) by (apply Forall_forall; intros x Hx; apply (width_in l); [exact W|apply (class_lists_sub l cl g Ec Hg), Hx]).
      cbn [regroup fst snd]. rewrite (all_dist_reorder _ _ Wg Ed). cbn [bind]. unfold arrange_bayes. cbn [nb_prior nb_means nb_devs nb_dists]. rewrite memplace_arrange. reflexivity.
    Qed.
    Lemma vector_numbers a : Forall (fun b => exists v, b = ACont v) (attrs a) -> inst_vector a = map (fun b => match b with ACont v => v | _ => d0 end) (attrs a).
    Proof.
      unfold inst_vector. intros F. assert (G : forall bs acc, Forall (fun b => exists v, b = ACont v) bs -> fold_left (fun r b => r ++ attr_vals b) bs acc = acc ++ map (fun b => match b with ACont v => v | _ => d0 end) bs).
      { induction bs as [|b bs IH]; intros acc Fb; [symmetry; apply app_nil_r|]. inversion Fb as [|? ? (v & ->) Fb']; subst. cbn [fold_left map attr_vals]. rewrite IH by exact Fb'. rewrite <- app_assoc. reflexivity. }
      apply (G (attrs a) [] F).
    Qed.
    Lemma average_numbers l a : width_n n l -> all_numbers l -> average_instance l = Ok a -> Forall (fun b => exists v, b = ACont v) (attrs a).
    Proof.
      intros W T E. unfold average_instance, average in E. apply bind_ok in E as ((c & r) & E & E'). apply bind_ok in E as (x0 & E0 & E). apply bind_ok in E as (r' & Er & E). injection E as <- <-.
      apply bind_ok in E' as (aa & Ea & E'). injection E' as <-. cbn [fst snd attrs] in *. unfold attr_count in Er. pose proof (first_in _ _ E0) as I0. rewrite (width_in l x0 W I0) in Er.
      assert (K : forall i o, attr_average (Z.of_nat i) l = Ok o -> exists v, o = Some (ACont v)).
      { intros i o Eo. unfold attr_average in Eo. unfold ilist in *. rewrite E0 in Eo. cbn [bind] in Eo. apply bind_ok in Eo as (a0 & Ea0 & Eo). unfold all_numbers in T. rewrite Forall_forall in T. specialize (T x0 I0). rewrite Forall_forall in T.
        unfold get_attr, at_ in Ea0. rewrite Nat2Z.id in Ea0. destruct (Z.ltb_spec (Z.of_nat i) 0); [lia|]. destruct (nth_error (attrs x0) i) eqn:En; [|discriminate Ea0]. injection Ea0 as <-.
        destruct (T _ (nth_error_In _ _ En)) as (v & ->). cbn [isDiscrete isContinuous] in Eo. apply bind_ok in Eo as (sm & _ & Eo). injection Eo as <-. eexists; reflexivity. }
      clear W T E0 I0. revert r' aa Er Ea. generalize (seq 0 n). induction l0 as [|i is IH]; intros r aa Er Ea; cbn [mapM] in Er; [injection Er as <-; injection Ea as <-; constructor|].
      apply bind_ok in Er as (o & E1 & Er). apply bind_ok in Er as (os & E2 & Er). injection Er as <-. destruct (K _ _ E1) as (v & ->). cbn [mapM bind] in Ea. apply bind_ok in Ea as (bs & E3 & Ea). injection Ea as <-.
      constructor; [exists v; reflexivity|]. apply (IH os bs E2 E3).
    Qed.
    Lemma bayes_cont_reorder old l m : width_n n l -> all_numbers l ->
      (forall c s, In c (map label l) -> std_vec (filter (of_class c) l) = Ok s -> std_vec (filter (of_class c) (map (reorder p) l)) = Ok (arrange d0 p s)) ->
      bayes_train std_vec old l = Ok m -> bayes_train std_vec (arrange_bayes old) (map (reorder p) l) = Ok (arrange_bayes m).
    Proof.
      intros W T HS E. unfold bayes_train in *. apply bind_ok in E as (cl & Ec & E). apply bind_ok in E as (g0 & E0 & E). apply bind_ok in E as (x0 & E1 & E). apply bind_ok in E as (a0 & E2 & E).
      destruct (same_version l cl isDiscrete false W) with (g0 := g0) (x0 := x0) (a0 := a0) as (D0 & a1 & A0 & A1 & A2 & D1); try assumption.
      { eapply Forall_impl; [|exact T]. intros x Hx. eapply Forall_impl; [|exact Hx]. intros a (v & ->). reflexivity. }
      rewrite D0 in E. rewrite (class_lists_reorder l cl Ec). cbn [bind]. rewrite A0. cbn [bind]. rewrite A1. cbn [bind]. rewrite A2. cbn [bind]. rewrite D1, prior_reorder.
      apply (fold_reorder (bayes_cont std_vec) (bayes_cont std_vec) arrange_bayes regroup cl) in E; [exact E|].
      intros s g t Hg Es. unfold bayes_cont in *. apply bind_ok in Es as (a & Ea & Es). apply bind_ok in Es as (sv & Ev & Es). injection Es as <-.
      assert (Sub : forall x, In x (snd g) -> In x l) by (apply (class_lists_sub l cl g Ec Hg)).
      assert (Wg : width_n n (snd g)) by (apply Forall_forall; intros x Hx; apply (width_in l); [exact W|apply Sub, Hx]).
      assert (Tg : all_numbers (snd g)) by (apply Forall_forall; intros x Hx; unfold all_numbers in T; rewrite Forall_forall in T; apply T, Sub, Hx).
      assert (Ev' : std_vec (map (reorder p) (snd g)) = Ok (arrange d0 p sv)) by (destruct (class_lists_groups l cl g Ec Hg) as (Gg & Ic); rewrite Gg, <- class_reorder; apply (HS _ _ Ic); rewrite <- Gg; exact Ev).
      destruct (average_reorder _ _ Wg Ea) as (Ea' & La & _). pose proof (average_numbers _ _ Wg Tg Ea) as Na. cbn [regroup fst snd]. unfold ilist in *. rewrite Ea'. cbn [bind].
      rewrite Ev'. cbn [bind]. unfold arrange_bayes. cbn [nb_prior nb_means nb_devs nb_dists]. rewrite !memplace_arrange.
      rewrite (vector_numbers a Na), (vector_numbers (reorder p a)).
      - cbn [attrs reorder]. rewrite (arrange_map (ADisc EmptyString) d0 _ (attrs a) La). reflexivity.
      - cbn [attrs reorder]. apply Forall_forall. intros b Hb. apply (Permutation_in _ (arrange_perm (ADisc EmptyString) (attrs a) La)) in Hb. rewrite Forall_forall in Na. apply Na, Hb.
    Qed.
    Lemma terms_reorder (t t' : nat -> res dbl) a b r : (forall i v, i < n -> t (nth i p 0) = Ok v -> t' i = Ok v) -> deq a b ->
      foldM (fun s i => do v <- t i; Ok (dadd s v)) (seq 0 n) a = Ok r -> exists r', foldM (fun s i => do v <- t' i; Ok (dadd s v)) (seq 0 n) b = Ok r' /\ deq r r'.
    Proof.
      intros H D E. destruct (foldM_terms_inv t _ _ _ E) as (ts & Et). rewrite (foldM_terms t _ _ _ Et) in E. injection E as <-. pose proof (mapM_arr d0 t ts Et) as Ep.
      assert (E' : mapM t' (seq 0 n) = Ok (arrange d0 p ts)).
      { rewrite <- map_arr_seq in Ep at 1. rewrite mapM_map in Ep. revert Ep. generalize (arrange d0 p ts).
        assert (I : forall i, In i (seq 0 n) -> i < n) by (intros i Hi; apply in_seq in Hi; lia). revert I. generalize (seq 0 n). clear -H. induction l as [|i is IH]; intros I us E; cbn [mapM] in *; [exact E|].
        apply bind_ok in E as (v & E1 & E). apply bind_ok in E as (vs & E2 & E). injection E as <-. rewrite (H i v (I i (or_introl eq_refl)) E1). cbn [bind]. rewrite (IH (fun j Hj => I j (or_intror Hj)) _ E2). reflexivity. }
      rewrite (foldM_terms t' _ _ _ E'). eexists. split; [reflexivity|]. rewrite (fold_dadd_deq ts a b D). symmetry. apply fold_dadd_perm, arrange_perm. rewrite (mapM_len _ _ _ Et). apply seq_length.
    Qed.
    Lemma idxn_arrange {A} (d : A) v i x : i < n -> idxn v (nth i p 0) = Ok x -> idxn (arrange d p v) i = Ok x.
    Proof.
      intros H E. unfold idxn in *. destruct (nth_error v (nth i p 0)) as [y|] eqn:En; [|discriminate E]. injection E as ->.
      rewrite (nth_error_nth' (arrange d p v) d) by (rewrite arrange_len; exact H). rewrite arrange_nth by exact H. rewrite (nth_error_nth _ _ d En). reflexivity.
    Qed.
    Lemma atn_arrange {A} (d : A) v i x : i < n -> atn v (nth i p 0) = Ok x -> atn (arrange d p v) i = Ok x.
    Proof.
      intros H E. unfold atn in *. destruct (nth_error v (nth i p 0)) as [y|] eqn:En; [|discriminate E]. injection E as ->.
      rewrite (nth_error_nth' (arrange d p v) d) by (rewrite arrange_len; exact H). rewrite arrange_nth by exact H. rewrite (nth_error_nth _ _ d En). reflexivity.
    Qed.
    Lemma bayes_metric_reorder m q c r : length (attrs q) = n -> bayes_metric ln m q c = Ok r -> exists r', bayes_metric ln (arrange_bayes m) (reorder p q) c = Ok r' /\ deq r r'.
    Proof.
      intros Lq E. unfold bayes_metric in *.
      assert (EL : match nb_dists (arrange_bayes m) with [] => bayes_ll_cont ln (arrange_bayes m) (reorder p q) c | _ => bayes_ll_disc ln (arrange_bayes m) (reorder p q) c end
                 = match nb_dists m with [] => bayes_ll_cont ln (arrange_bayes m) (reorder p q) c | _ => bayes_ll_disc ln (arrange_bayes m) (reorder p q) c end) by (cbn; destruct (nb_dists m); reflexivity).
      rewrite EL. destruct (nb_dists m) as [|e es] eqn:En.
      - unfold bayes_ll_cont in *. rewrite reorder_count. unfold attr_count in E. rewrite Lq in E.
        set (t := fun m q i => do a <- get_attr q (Z.of_nat i); do x <- cont_value a;
             do mi <- match mfind c (nb_means m) with Some v => idxn v i | None => UB EndDeref end;
             do si <- match mfind c (nb_devs m) with Some v => idxn v i | None => UB EndDeref end;
             Ok (dmul (dopp half) (dpow2 (ddiv (dsub x mi) si)))).
        assert (R : forall m q xs a, foldM (fun s i => do a <- get_attr q (Z.of_nat i); do x <- cont_value a;
             do mi <- match mfind c (nb_means m) with Some v => idxn v i | None => UB EndDeref end;
             do si <- match mfind c (nb_devs m) with Some v => idxn v i | None => UB EndDeref end;
             Ok (dadd s (dmul (dopp half) (dpow2 (ddiv (dsub x mi) si))))) xs a = foldM (fun s i => do v <- t m q i; Ok (dadd s v)) xs a).
        { intros m0 q0 xs a. apply foldM_ext_in. intros s i _. unfold t. destruct (get_attr q0 (Z.of_nat i)) as [b| | |]; try reflexivity. cbn [bind]. destruct (cont_value b); try reflexivity. cbn [bind].
          destruct (match mfind c (nb_means m0) with Some v => idxn v i | None => UB EndDeref end); try reflexivity. cbn [bind].
          destruct (match mfind c (nb_devs m0) with Some v => idxn v i | None => UB EndDeref end); reflexivity. }
        rewrite R in E. rewrite R. eapply terms_reorder; [|reflexivity|exact E]. intros i v Hi Ei. unfold t in *. rewrite reorder_get by assumption. apply bind_ok in Ei as (b & E1 & Ei). rewrite E1. cbn [bind].
        apply bind_ok in Ei as (x & E2 & Ei). rewrite E2. cbn [bind]. apply bind_ok in Ei as (mi & E3 & Ei). apply bind_ok in Ei as (si & E4 & Ei). cbn [arrange_bayes nb_means nb_devs]. rewrite !mfind_arrange.
        destruct (mfind c (nb_means m)) as [vm|]; [|discriminate E3]. destruct (mfind c (nb_devs m)) as [vs|]; [|discriminate E4]. cbn [option_map]. rewrite (idxn_arrange d0 _ _ _ Hi E3), (idxn_arrange d0 _ _ _ Hi E4). exact Ei.
      - unfold bayes_ll_disc in *. rewrite reorder_count. apply bind_ok in E as (ds & Ed & E). unfold attr_count in E. rewrite Lq in E. cbn [arrange_bayes nb_dists nb_prior]. rewrite mfind_arrange.
        destruct (mfind c (nb_dists m)) as [ds'|]; [|discriminate Ed]. injection Ed as ->. cbn [option_map bind].
        set (t := fun (ds : list counter) q i => do a <- get_attr q (Z.of_nat i); do x <- disc_value a; do d <- atn ds i; Ok (ln (laplace d x))).
        assert (R : forall ds q xs a, foldM (fun s i => do a <- get_attr q (Z.of_nat i); do x <- disc_value a; do d <- atn ds i; Ok (dadd s (ln (laplace d x)))) xs a = foldM (fun s i => do v <- t ds q i; Ok (dadd s v)) xs a).
        { intros ds0 q0 xs a. apply foldM_ext_in. intros s i _. unfold t. destruct (get_attr q0 (Z.of_nat i)) as [b| | |]; try reflexivity. cbn [bind]. destruct (disc_value b); try reflexivity. cbn [bind]. destruct (atn ds0 i); reflexivity. }
        rewrite R in E. rewrite R. eapply terms_reorder; [|reflexivity|exact E]. intros i v Hi Ei. unfold t in *. rewrite reorder_get by assumption. apply bind_ok in Ei as (b & E1 & Ei). rewrite E1. cbn [bind].
        apply bind_ok in Ei as (x & E2 & Ei). rewrite E2. cbn [bind]. apply bind_ok in Ei as (d & E3 & Ei). pose proof (atn_arrange [] _ _ _ Hi E3) as E3'. unfold counter, smap in *. rewrite E3'. exact Ei.
    Qed.
    Lemma bayes_predict_reorder m q c : length (attrs q) = n -> bayes_predict ln m q = Ok c -> bayes_predict ln (arrange_bayes m) (reorder p q) = Ok c.
    Proof.
      intros Lq E. unfold bayes_predict in *. cbn [arrange_bayes nb_prior]. eapply gauss_predict_fwd; [| |exact E]; [reflexivity|]. intros c0 a Ea. exact (bayes_metric_reorder m q c0 a Lq Ea).
    Qed.
  End Bayes.
End Arr.
