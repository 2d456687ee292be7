(** Lemmas for C161. *)
From Coq Require Import String ZArith QArith Bool Lia Lqa Permutation Arith List.
From Verif Require Import Base Spec BaseLemmas AttrModel AttrProofs DataSetModel InstanceListModel PartitionModel StatModel FilterModel DistanceModel ListSpec ListProofs DblLemmas StatSpec DistanceSpec DistanceProofs CovProofs ChooseSpec.
Import ListNotations.
Local Open Scope list_scope.
Local Open Scope nat_scope.

Lemma alike_bind {A A' B B'} (P : A -> A' -> Prop) (Q : B -> B' -> Prop) r r' f f' :
  alike P r r' -> (forall a a', P a a' -> alike Q (f a) (f' a')) -> alike Q (bind r f) (bind r' f').
Proof. destruct r, r'; cbn; intros H K; try contradiction; try exact H; auto. Qed.
Lemma bind_ext {A B} (r : res A) (f g : A -> res B) : (forall a, f a = g a) -> bind r f = bind r g.
Proof. intros H. destruct r; cbn; auto. Qed.
Lemma alike_refl {A} (r : res A) : alike eq r r.
Proof. destruct r; cbn; auto. Qed.
Lemma alike_eq {A} (r r' : res A) : alike eq r r' -> r = r'.
Proof. destruct r, r'; cbn; intros H; try contradiction; congruence. Qed.
Lemma alike_foldM {S S' X Y} (P : S -> S' -> Prop) (R : X -> Y -> Prop) f f' l l' :
  (forall s s' x y, P s s' -> R x y -> alike P (f s x) (f' s' y)) -> Forall2 R l l' -> forall s s', P s s' -> alike P (foldM f l s) (foldM f' l' s').
Proof. intros H F. induction F as [|x y l l' Hxy F IH]; intros s s' Hs; cbn [foldM]; [exact Hs|]. eapply alike_bind; [apply H; eassumption|]. exact IH. Qed.
Lemma alike_mapM {A B X Y} (P : A -> B -> Prop) (R : X -> Y -> Prop) f f' l l' :
  (forall x y, R x y -> alike P (f x) (f' y)) -> Forall2 R l l' -> alike (Forall2 P) (mapM f l) (mapM f' l').
Proof.
  intros H F. induction F as [|x y l l' Hxy F IH]; cbn [mapM]; [constructor|]. eapply alike_bind; [apply H; exact Hxy|]. intros a b Hab.
  eapply alike_bind; [exact IH|]. intros. constructor; assumption.
Qed.
Lemma foldM_same {S X Y} (R : X -> Y -> Prop) (f : S -> X -> res S) (f' : S -> Y -> res S) l l' s :
  (forall s x y, R x y -> f s x = f' s y) -> Forall2 R l l' -> foldM f l s = foldM f' l' s.
Proof. intros H F. revert s. induction F as [|x y l l' Hxy F IH]; intros s; cbn [foldM]; [reflexivity|]. rewrite (H s x y Hxy). destruct (f' s y); cbn; auto. Qed.
Lemma mapM_same {A X Y} (R : X -> Y -> Prop) (f : X -> res A) (f' : Y -> res A) l l' :
  (forall x y, R x y -> f x = f' y) -> Forall2 R l l' -> mapM f l = mapM f' l'.
Proof. intros H F. induction F as [|x y l l' Hxy F IH]; cbn [mapM]; [reflexivity|]. rewrite (H x y Hxy), IH. reflexivity. Qed.

Lemma Forall2_len {A B} (P : A -> B -> Prop) l l' : Forall2 P l l' -> List.length l = List.length l'.
Proof. intros F. induction F; cbn; congruence. Qed.
Lemma Forall2_same {A} (l : list A) : Forall2 eq l l.
Proof. induction l; constructor; auto. Qed.
Lemma Forall2_nth_error {A B} (P : A -> B -> Prop) l l' i : Forall2 P l l' ->
  match nth_error l i, nth_error l' i with Some a, Some b => P a b | None, None => True | _, _ => False end.
Proof. intros F. revert i. induction F; intros [|i]; cbn; auto. apply IHF. Qed.
Lemma Forall2_repeat {A B} (P : A -> B -> Prop) a b n : P a b -> Forall2 P (repeat a n) (repeat b n).
Proof. intros H. induction n; constructor; auto. Qed.
Lemma Forall2_upd {A B} (P : A -> B -> Prop) l l' i a b : Forall2 P l l' -> P a b -> Forall2 P (upd l i a) (upd l' i b).
Proof. intros F H. revert i. induction F; intros [|i]; cbn; constructor; auto. Qed.
Lemma alike_atn {A B} (P : A -> B -> Prop) l l' i : Forall2 P l l' -> alike P (atn l i) (atn l' i).
Proof. intros F. pose proof (Forall2_nth_error P l l' i F) as H. unfold atn. destruct (nth_error l i), (nth_error l' i); cbn; tauto. Qed.

(** * Instances *)
Section Choose.
  Context (fs : list Z).
  Lemma picks_subset x y : picks fs x y <-> inst_subset x fs = Ok y.
  Proof. rewrite inst_subset_ok. unfold picks, feature. tauto. Qed.
  Lemma picks_label x y : picks fs x y -> label y = label x.
  Proof. intros H; apply H. Qed.
  Lemma reduced_labels l l' : reduced fs l l' -> map label l' = map label l.
  Proof. intros F. induction F; cbn; [reflexivity|]. rewrite IHF, (picks_label _ _ H). reflexivity. Qed.
  Lemma reduced_length l l' : reduced fs l l' -> List.length l' = List.length l.
  Proof. intros F. symmetry. exact (Forall2_len _ _ _ F). Qed.
  Lemma reduced_distinct l l' : reduced fs l l' -> distinct_labels l' = distinct_labels l.
  Proof. intros F. rewrite !distinct_labels_map, (reduced_labels _ _ F). reflexivity. Qed.
  Lemma reduced_classes l l' : reduced fs l l' -> class_distribution l' = class_distribution l.
  Proof. intros F. rewrite !class_distribution_cofl, (reduced_labels _ _ F). reflexivity. Qed.
  Lemma picks_attr k j x y : moved fs k j -> picks fs x y -> get_attr y j = get_attr x k.
  Proof.
    intros [Hr Hn] (_ & _ & F). pose proof (Forall2_len _ _ _ F) as L. pose proof (Forall2_nth_error _ _ _ (Z.to_nat j) F) as H. rewrite Hn in H.
    destruct (nth_error (attrs y) (Z.to_nat j)) as [a|] eqn:E; [|contradiction]. rewrite (proj2 (get_attr_ok x k a) H). apply get_attr_ok. split; [|exact E].
    rewrite <- L. exact Hr.
  Qed.
  Lemma picks_cont k j x y : moved fs k j -> picks fs x y -> cont_at j y = cont_at k x.
  Proof. intros M P. unfold cont_at. rewrite (picks_attr k j x y M P). reflexivity. Qed.
  Lemma picks_disc k j x y : moved fs k j -> picks fs x y -> disc_at j y = disc_at k x.
  Proof. intros M P. unfold disc_at. rewrite (picks_attr k j x y M P). reflexivity. Qed.
  Lemma picks_index k j x y : moved fs k j -> picks fs x y -> index_at j y = index_at k x.
  Proof. intros M P. unfold index_at. rewrite (picks_attr k j x y M P). reflexivity. Qed.
  Lemma first_attr {A} k j l l' (f : attr -> res A) : moved fs k j -> reduced fs l l' ->
    (do x0 <- atn l' 0; do a <- get_attr x0 j; f a) = (do x0 <- atn l 0; do a <- get_attr x0 k; f a).
  Proof. intros M F. destruct F as [|x y l l' H F]; [reflexivity|]. cbn [atn nth_error bind]. rewrite (picks_attr k j x y M H). reflexivity. Qed.

  (** * Lists *)
  Lemma sinsert_rel {A B} (R : A -> B -> Prop) lt lt' : (forall a b a' b', R a a' -> R b b' -> lt a b = lt' a' b') ->
    forall x y l l', R x y -> Forall2 R l l' -> Forall2 R (sinsert lt x l) (sinsert lt' y l').
  Proof.
    intros H x y l l' Hx F. induction F as [|a b l l' Hab F IH]; cbn [sinsert]; [repeat constructor; exact Hx|].
    rewrite (H a x b y Hab Hx). destruct (lt' b y); repeat constructor; auto.
  Qed.
  Lemma ssort_rel {A B} (R : A -> B -> Prop) lt lt' : (forall a b a' b', R a a' -> R b b' -> lt a b = lt' a' b') ->
    forall l l', Forall2 R l l' -> Forall2 R (ssort lt l) (ssort lt' l').
  Proof. intros H l l' F. induction F; cbn; [constructor|]. apply sinsert_rel; auto. Qed.
  Lemma combine_rel {A X Y} (R : X -> Y -> Prop) (ks : list A) l l' : Forall2 R l l' -> Forall2 (fun p q => fst p = fst q /\ R (snd p) (snd q)) (combine ks l) (combine ks l').
  Proof. intros F. revert ks. induction F; intros [|k ks]; cbn; constructor; auto. Qed.
  Lemma map_snd_rel {A X Y} (R : X -> Y -> Prop) (l : list (A * X)) (l' : list (A * Y)) : Forall2 (fun p q => fst p = fst q /\ R (snd p) (snd q)) l l' -> Forall2 R (map snd l) (map snd l').
  Proof. intros F. induction F; cbn; constructor; tauto. Qed.
  Lemma sort_reduced k j l l' : moved fs k j -> reduced fs l l' -> alike (reduced fs) (sort_by k l) (sort_by j l').
  Proof.
    intros M F. unfold sort_by. rewrite (reduced_length _ _ F). destruct (Nat.leb (List.length l) 1); [exact F|].
    rewrite <- (mapM_same (fun x y => picks fs x y) (cont_at k) (cont_at j) l l'); [|intros x y P; symmetry; apply picks_cont; assumption|exact F].
    eapply alike_bind; [apply alike_refl|]. intros ks ? <-. destruct (existsb is_nan ks); [reflexivity|]. cbn [alike]. apply map_snd_rel. apply ssort_rel.
    - intros a b a' b' [E _] [E' _]. rewrite E, E'. reflexivity.
    - apply combine_rel. exact F.
  Qed.
  Lemma sort_class_reduced l l' : reduced fs l l' -> reduced fs (sort_class l) (sort_class l').
  Proof. intros F. apply ssort_rel; [|exact F]. intros a b a' b' P Q. rewrite (picks_label _ _ P), (picks_label _ _ Q). reflexivity. Qed.
  Lemma rearrange_reduced {X Y} (R : X -> Y -> Prop) p l l' : Forall2 R l l' -> Forall2 R (rearrange p l) (rearrange p l').
  Proof.
    intros F. unfold rearrange. induction p as [|i p IH]; cbn; [constructor|]. apply Forall2_app; [|exact IH].
    pose proof (Forall2_nth_error _ _ _ i F) as H. destruct (nth_error l i), (nth_error l' i); try contradiction; repeat constructor; auto.
  Qed.
  Lemma shuffle_reduced perm seed l l' : reduced fs l l' -> reduced fs (shuffle perm seed l) (shuffle perm seed l').
  Proof.
    intros F. unfold shuffle.
    match goal with |- reduced _ (rearrange (perm seed ?n) _) (rearrange (perm seed ?m) _) => replace m with n by (symmetry; exact (reduced_length _ _ F)) end.
    apply rearrange_reduced. exact F.
  Qed.
  Lemma bootstrap_reduced pick seed l l' : reduced fs l l' -> reduced fs (bootstrap pick seed l) (bootstrap pick seed l').
  Proof.
    intros F. unfold bootstrap.
    match goal with |- reduced _ (rearrange (pick seed ?n) _) (rearrange (pick seed ?m) _) => replace m with n by (symmetry; exact (reduced_length _ _ F)) end.
    apply rearrange_reduced. exact F.
  Qed.

  (** * Partitions *)
  Lemma add_to_reduced gs gs' g x y : reduced_all fs gs gs' -> picks fs x y -> alike (reduced_all fs) (add_to gs g x) (add_to gs' g y).
  Proof.
    intros F P. unfold add_to. eapply alike_bind; [exact (alike_atn _ _ _ g F)|]. intros l l' Hl. cbn [alike]. apply Forall2_upd; [exact F|].
    apply Forall2_app; [exact Hl|constructor; [exact P|constructor]].
  Qed.
  Lemma two_empty : reduced_all fs [[]; []] [[]; []].
  Proof. repeat constructor. Qed.
  Lemma part_class_reduced l l' : reduced fs l l' -> alike (reduced_all fs) (part_class l) (part_class l').
  Proof.
    intros F. unfold part_class. rewrite (reduced_distinct _ _ F). eapply alike_foldM; [|exact F|apply Forall2_repeat; constructor].
    intros gs gs' x y G P. rewrite (picks_label _ _ P). apply add_to_reduced; assumption.
  Qed.
  Lemma value_list_reduced k j l l' : moved fs k j -> reduced fs l l' -> value_list j l' = value_list k l.
  Proof. intros M F. symmetry. eapply foldM_same; [|exact F]. intros s x y P. rewrite (picks_disc k j x y M P). reflexivity. Qed.
  Lemma part_disc_reduced k j l l' : moved fs k j -> reduced fs l l' -> alike (reduced_all fs) (part_disc k l) (part_disc j l').
  Proof.
    intros M F. unfold part_disc. rewrite (value_list_reduced k j l l' M F). eapply alike_bind; [apply alike_refl|]. intros vs ? <-.
    eapply alike_foldM; [|exact F|apply Forall2_repeat; constructor]. intros gs gs' x y G P. rewrite (picks_disc k j x y M P).
    eapply alike_bind; [apply alike_refl|]. intros v ? <-. apply add_to_reduced; assumption.
  Qed.
  Lemma part_idx_reduced k j v l l' : moved fs k j -> reduced fs l l' -> alike (reduced_all fs) (part_idx k v l) (part_idx j v l').
  Proof.
    intros M F. unfold part_idx. eapply alike_foldM; [|exact F|exact two_empty]. intros gs gs' x y G P. rewrite (picks_index k j x y M P).
    eapply alike_bind; [apply alike_refl|]. intros i ? <-. apply add_to_reduced; assumption.
  Qed.
  Lemma part_cont_reduced k j t l l' : moved fs k j -> reduced fs l l' -> alike (reduced_all fs) (part_cont k t l) (part_cont j t l').
  Proof.
    intros M F. unfold part_cont. eapply alike_foldM; [|exact F|exact two_empty]. intros gs gs' x y G P. rewrite (picks_cont k j x y M P).
    eapply alike_bind; [apply alike_refl|]. intros i ? <-. apply add_to_reduced; assumption.
  Qed.
  Lemma part_strat_reduced rarr ratio seed l l' : reduced fs l l' -> alike (reduced_all fs) (part_strat rarr ratio seed l) (part_strat rarr ratio seed l').
  Proof.
    intros F. unfold part_strat. rewrite (reduced_length _ _ F).
    eapply alike_bind with (P := fun s s' => fst s = fst s' /\ reduced_all fs (snd s) (snd s')).
    - eapply alike_foldM with (R := eq); [|apply Forall2_same|split; [reflexivity|exact two_empty]].
      intros [c gs] [c' gs'] i ? [E G] <-. cbn [fst snd] in E, G. subst c'. unfold strat_step. rewrite (reduced_length _ _ F), (reduced_classes _ _ F).
      eapply alike_bind; [exact (alike_atn _ _ _ i F)|]. intros x y P. rewrite (picks_label _ _ P). eapply alike_bind; [apply add_to_reduced; eassumption|].
      intros a b Hab. split; [reflexivity|exact Hab].
    - intros s s' [_ G]. exact G.
  Qed.
  Lemma part_random_reduced perm ratio seed l l' : reduced fs l l' ->
    alike (fun r r' => reduced fs (fst r) (fst r') /\ reduced_all fs (snd r) (snd r')) (part_random perm ratio seed l) (part_random perm ratio seed l').
  Proof.
    intros F. unfold part_random. pose proof (shuffle_reduced perm seed l l' F) as S. rewrite (reduced_length _ _ S).
    eapply alike_bind with (P := reduced_all fs).
    - eapply alike_foldM; [|apply combine_rel; exact S|exact two_empty]. intros gs gs' p q G [E P]. rewrite E. apply add_to_reduced; assumption.
    - intros gs gs' G. split; assumption.
  Qed.

  (** * Statistics of one feature *)
  Ltac column M := eapply foldM_same; [|eassumption]; intros ? ? ? P;
    rewrite ?(picks_cont _ _ _ _ M P), ?(picks_disc _ _ _ _ M P), ?(picks_index _ _ _ _ M P); reflexivity.
  Lemma cont_sum_reduced k j l l' : moved fs k j -> reduced fs l l' -> cont_sum j l' = cont_sum k l.
  Proof. intros M F. symmetry. unfold cont_sum. column M. Qed.
  Lemma sq_dev_reduced k j avg l l' : moved fs k j -> reduced fs l l' -> sq_dev_sum j avg l' = sq_dev_sum k avg l.
  Proof. intros M F. symmetry. unfold sq_dev_sum. column M. Qed.
  Lemma count_index_reduced k j l l' v : moved fs k j -> reduced fs l l' -> foldM (count_index j) l' v = foldM (count_index k) l v.
  Proof. intros M F. symmetry. eapply foldM_same; [|exact F]. intros s x y P. unfold count_index. rewrite (picks_index _ _ _ _ M P). reflexivity. Qed.
  Lemma std_value_reduced k j l l' : moved fs k j -> reduced fs l l' -> std_value j l' = std_value k l.
  Proof.
    intros M F. unfold std_value. rewrite (cont_sum_reduced k j l l' M F), (reduced_length _ _ F). apply bind_ext. intros s. rewrite (sq_dev_reduced k j _ l l' M F). reflexivity.
  Qed.
  Lemma attr_average_reduced k j l l' : moved fs k j -> reduced fs l l' -> attr_average j l' = attr_average k l.
  Proof.
    intros M F. unfold attr_average. rewrite (reduced_length _ _ F), (cont_sum_reduced k j l l' M F).
    rewrite <- (mapM_same (fun x y => picks fs x y) (disc_at k) (disc_at j) l l'); [|intros x y P; symmetry; apply picks_disc; assumption|exact F].
    apply (first_attr k j l l' _ M F).
  Qed.
  Lemma cont_average_reduced k j l l' : moved fs k j -> reduced fs l l' -> cont_average j l' = cont_average k l.
  Proof.
    intros M F. unfold cont_average. rewrite (reduced_length _ _ F), (cont_sum_reduced k j l l' M F).
    erewrite (first_attr k j l l' _ M F). apply bind_ext. intros x0. apply bind_ext. intros a0. destruct (isDiscreteIndexed a0); [|reflexivity].
    apply bind_ext. intros m. rewrite (count_index_reduced k j l l' _ M F). reflexivity.
  Qed.
  Lemma attr_std_reduced k j l l' : moved fs k j -> reduced fs l l' -> attr_std j l' = attr_std k l.
  Proof. intros M F. unfold attr_std. rewrite (std_value_reduced k j l l' M F). apply (first_attr k j l l' _ M F). Qed.
  Lemma cont_std_reduced k j l l' : moved fs k j -> reduced fs l l' -> cont_std j l' = cont_std k l.
  Proof.
    intros M F. unfold cont_std. rewrite (reduced_length _ _ F), (std_value_reduced k j l l' M F).
    erewrite (first_attr k j l l' _ M F). apply bind_ext. intros x0. apply bind_ext. intros a0. destruct (isDiscreteIndexed a0); [|reflexivity].
    apply bind_ext. intros m. rewrite (count_index_reduced k j l l' _ M F). apply bind_ext. intros cs. f_equal. symmetry. column M.
  Qed.
  Lemma attr_distribution_reduced k j l l' : moved fs k j -> reduced fs l l' -> attr_distribution j l' = attr_distribution k l.
  Proof.
    intros M F. unfold attr_distribution.
    replace (foldM (fun c x => do v <- disc_at j x; Ok (cput c v)) l' []) with (foldM (fun c x => do v <- disc_at k x; Ok (cput c v)) l []) by (column M).
    apply (first_attr k j l l' _ M F).
  Qed.
  Lemma attr_class_distribution_reduced k j l l' : moved fs k j -> reduced fs l l' -> attr_class_distribution j l' = attr_class_distribution k l.
  Proof.
    intros M F. unfold attr_class_distribution. rewrite (value_list_reduced k j l l' M F). apply bind_ext. intros vs. symmetry. eapply foldM_same; [|exact F].
    intros s x y P. rewrite (picks_disc k j x y M P), (picks_label _ _ P). reflexivity.
  Qed.
  Lemma idx_class_distribution_reduced k j v l l' : moved fs k j -> reduced fs l l' -> idx_class_distribution j v l' = idx_class_distribution k v l.
  Proof.
    intros M F. unfold idx_class_distribution. symmetry. eapply foldM_same; [|exact F]. intros s x y P. rewrite (picks_index k j x y M P), (picks_label _ _ P). reflexivity.
  Qed.
End Choose.

(** * Normalisation *)
Lemma mapM_seq_nth {A} (g : nat -> res A) n vs k : mapM g (seq 0 n) = Ok vs -> k < n -> exists a, g k = Ok a /\ nth_error vs k = Some a.
Proof.
  intros E L. apply mapM_ok in E. pose proof (Forall2_nth_error _ _ _ k E) as H.
  assert (S : nth_error (seq 0 n) k = Some k) by (rewrite (nth_error_nth' _ 0) by (rewrite seq_length; exact L); rewrite seq_nth by exact L; reflexivity).
  rewrite S in H. destruct (nth_error vs k) as [a|]; [|contradiction]. exists a. auto.
Qed.
Lemma mapM_build {A B} (f : A -> res B) (P : A -> B -> Prop) l : (forall x, In x l -> exists b, f x = Ok b /\ P x b) -> exists bs, mapM f l = Ok bs /\ Forall2 P l bs.
Proof.
  intros H. induction l as [|x l IH]; cbn [mapM]; [exists []; split; [reflexivity|constructor]|].
  destruct (H x (or_introl eq_refl)) as (b & E & Pb). destruct IH as (bs & Es & F); [intros; apply H; right; assumption|].
  rewrite E. cbn [bind]. rewrite Es. exists (b :: bs). split; [reflexivity|constructor; assumption].
Qed.
Lemma moved_seq fs i : i < length fs -> moved fs (nth i fs 0%Z) (Z.of_nat i).
Proof. intros L. split; [unfold in_range; lia|]. rewrite Nat2Z.id. apply nth_error_nth'. exact L. Qed.
Lemma nth_error_seq n i : i < n -> nth_error (seq 0 n) i = Some i.
Proof. intros L. rewrite (nth_error_nth' _ 0) by (rewrite seq_length; exact L). rewrite seq_nth by exact L. reflexivity. Qed.
Lemma picked_column {A} (g : Z -> res A) (g' : nat -> res A) fs n vs : mapM (fun i => g (Z.of_nat i)) (seq 0 n) = Ok vs -> Forall (in_range n) fs ->
  (forall i, i < length fs -> g' i = g (nth i fs 0%Z)) ->
  exists vs', mapM g' (seq 0 (length fs)) = Ok vs' /\ forall i, i < length fs -> nth_error vs' i = nth_error vs (Z.to_nat (nth i fs 0%Z)).
Proof.
  intros E R H.
  destruct (mapM_build g' (fun i b => nth_error vs (Z.to_nat (nth i fs 0%Z)) = Some b) (seq 0 (length fs))) as (vs' & E' & F).
  - intros i Hi. apply in_seq in Hi. rewrite H by lia. rewrite Forall_forall in R. assert (Li : i < length fs) by lia. pose proof (R (nth i fs 0%Z) (nth_In fs 0%Z Li)) as Rk. unfold in_range in Rk.
    destruct Rk as [R0 R1]. destruct (mapM_seq_nth _ _ _ (Z.to_nat (nth i fs 0%Z)) E) as (a & Ga & Na); [apply Nat2Z.inj_lt; rewrite Z2Nat.id; assumption|]. rewrite Z2Nat.id in Ga by exact R0. exists a. auto.
  - exists vs'. split; [exact E'|]. intros i Hi. pose proof (Forall2_nth_error _ _ _ i F) as K. rewrite (nth_error_seq _ _ Hi) in K.
    destruct (nth_error vs' i); [symmetry; exact K|contradiction].
Qed.
Lemma nth_combine_seq {A} (l : list A) i a : nth_error l i = Some a -> nth_error (combine (seq 0 (length l)) l) i = Some (i, a).
Proof.
  intros H. assert (L : i < length l) by (apply nth_error_Some; congruence).
  assert (G : forall s (l : list A) i a, nth_error l i = Some a -> nth_error (combine (seq s (length l)) l) i = Some (s + i, a)).
  { clear. intros s l. revert s. induction l as [|b l IH]; intros s [|i] a H; cbn in *; try discriminate; [injection H as ->; rewrite Nat.add_0_r; reflexivity|].
    rewrite (IH (S s) i a H). rewrite Nat.add_succ_comm. reflexivity. }
  apply (G 0). exact H.
Qed.
Lemma picks_range fs x y : picks fs x y -> Forall (in_range (attr_count x)) fs.
Proof. intros (_ & _ & F). unfold attr_count. induction F as [|k a fs ys [H _] F IH]; constructor; assumption. Qed.
Lemma normalize_reduced fs l l' r : reduced fs l l' -> normalize l = Ok r -> exists r', normalize l' = Ok r' /\ Forall2 (picks_normalised fs) r r'.
Proof.
  intros F E. unfold normalize in E. apply bind_ok in E as (av & Ea & E). apply bind_ok in E as (sd & Es & E).
  unfold average in Ea. unfold std_all in Es. destruct F as [|x0 y0 l l' P0 F]; [discriminate Ea|]. cbn [atn nth_error bind] in Ea, Es.
  apply bind_ok in Ea as (va & Ea & Eav). injection Eav as <-. apply bind_ok in Es as (vs & Es & Esd). injection Esd as <-. cbn [snd] in E.
  assert (FF : reduced fs (x0 :: l) (y0 :: l')) by (constructor; assumption).
  assert (Ly : attr_count y0 = length fs) by (destruct P0 as (_ & _ & P0); symmetry; exact (Forall2_len _ _ _ P0)).
  destruct (picked_column (fun k => attr_average k (x0 :: l)) (fun i => attr_average (Z.of_nat i) (y0 :: l')) fs (attr_count x0) va Ea (picks_range _ _ _ P0)) as (va' & Ea' & Na).
  { intros i Hi. apply (attr_average_reduced fs _ _ _ _ (moved_seq fs i Hi) FF). }
  destruct (picked_column (fun k => attr_std k (x0 :: l)) (fun i => attr_std (Z.of_nat i) (y0 :: l')) fs (attr_count x0) vs Es (picks_range _ _ _ P0)) as (vs' & Es' & Ns).
  { intros i Hi. apply (attr_std_reduced fs _ _ _ _ (moved_seq fs i Hi) FF). }
  assert (N : forall x y z, picks fs x y -> normalize_instance va vs x = Ok z -> exists z', normalize_instance va' vs' y = Ok z' /\ picks_normalised fs z z').
  { intros x y z P Ez. unfold normalize_instance in *. apply bind_ok in Ez as (bs & Eb & Ez). injection Ez as <-. apply mapM_ok in Eb.
    destruct P as (Pl & Pc & Pf). pose proof (Forall2_len _ _ _ Pf) as Lf.
    destruct (mapM_build (fun p => norm_attr va' vs' (fst p) (snd p))
      (fun p b => in_range (length bs) (nth (fst p) fs 0%Z) /\ nth_error bs (Z.to_nat (nth (fst p) fs 0%Z)) = Some b) (combine (seq 0 (attr_count y)) (attrs y))) as (bs' & Eb' & Fb).
    - intros [i a] Hin. apply In_nth_error in Hin as (n & Hn).
      assert (Hi : i = n /\ nth_error (attrs y) n = Some a).
      { destruct (nth_error (attrs y) n) as [b|] eqn:En.
        - unfold attr_count in Hn. rewrite (nth_combine_seq _ _ _ En) in Hn. injection Hn as <- <-. auto.
        - apply nth_error_None in En. assert (n < length (combine (seq 0 (attr_count y)) (attrs y))) by (apply nth_error_Some; congruence). rewrite combine_length in *. lia. }
      destruct Hi as [-> Hi]. cbn [fst snd]. assert (Ln : n < length fs) by (rewrite Lf; apply nth_error_Some; congruence).
      pose proof (Forall2_nth_error _ _ _ n Pf) as Hx. rewrite Hi, (nth_error_nth' fs 0%Z Ln) in Hx. destruct Hx as [Rk Hx].
      pose proof (Forall2_nth_error _ _ _ (Z.to_nat (nth n fs 0%Z)) Eb) as Hb. unfold attr_count in Hb. rewrite (nth_combine_seq _ _ _ Hx) in Hb.
      destruct (nth_error bs (Z.to_nat (nth n fs 0%Z))) as [b|] eqn:Eb1; [|contradiction]. cbn [fst snd] in Hb. exists b. split; [|split; [|reflexivity]].
      + rewrite <- Hb. unfold norm_attr, atn. rewrite (Na n Ln), (Ns n Ln). reflexivity.
      + apply Forall2_len in Eb. rewrite combine_length, seq_length in Eb. unfold attr_count in Eb. unfold in_range in *. rewrite Nat.min_id in Eb. lia.
    - rewrite Eb'. exists (label y, bs', composite y). split; [reflexivity|]. unfold picks_normalised. cbn [fst snd]. split; [exact Pl|]. split; [exact Pc|].
      clear - Fb Lf.
      assert (G : forall s ys bs', Forall2 (fun (p : nat * attr) b => in_range (length bs) (nth (fst p) fs 0%Z) /\ nth_error bs (Z.to_nat (nth (fst p) fs 0%Z)) = Some b) (combine (seq s (length ys)) ys) bs' ->
                  s + length ys = length fs -> Forall2 (fun k b => in_range (length bs) k /\ nth_error bs (Z.to_nat k) = Some b) (skipn s fs) bs').
      { intros s ys. revert s. induction ys as [|a ys IH]; intros s bs'' H L; cbn in H, L.
        - inversion H; subst. rewrite skipn_all2 by lia. constructor.
        - inversion H as [|? b ? bs3 Hb Hr]; subst. assert (Ls : s < length fs) by lia. cbn [fst] in Hb.
          assert (Sk : skipn s fs = nth s fs 0%Z :: skipn (S s) fs).
          { clear - Ls. revert s Ls. induction fs as [|k fs IH]; intros [|s] Ls; cbn in *; try lia; [reflexivity|]. apply IH. lia. }
          rewrite Sk. constructor; [exact Hb|]. apply IH; [exact Hr|lia]. }
      apply (G 0 (attrs y) bs'); [exact Fb|]. cbn. symmetry. exact Lf. }
  apply mapM_ok in E.
  assert (K : exists r', mapM (normalize_instance va' vs') (y0 :: l') = Ok r' /\ Forall2 (picks_normalised fs) r r').
  { clear - N E FF. revert FF E. generalize (x0 :: l) (y0 :: l'). clear x0 y0 l l'. intros l l' FF E. revert r E. induction FF as [|x y l l' P FF IH]; intros r E; inversion E as [|? z ? zs Hz Hzs]; subst; cbn [mapM]; [exists []; split; [reflexivity|constructor]|].
    destruct (N _ _ _ P Hz) as (z' & E1 & P1). destruct (IH zs Hzs) as (r' & E2 & P2). rewrite E1. cbn [bind]. rewrite E2. exists (z' :: r'). split; [reflexivity|constructor; assumption]. }
  destruct K as (r' & E' & Fr). exists r'. split; [|exact Fr]. unfold normalize, average, std_all. cbn [atn nth_error bind]. rewrite Ly, Ea', Es'. exact E'.
Qed.

(** * Distance *)
Lemma qsum_incl {A} (f : A -> Q) l : (forall x, 0 <= f x)%Q -> NoDup l -> forall m, incl l m -> (qsum (map f l) <= qsum (map f m))%Q.
Proof.
  intros P. induction l as [|a l IH]; intros N m I; [apply qsum_nonneg; intros; apply P|]. inversion N as [|? ? Na Nl]; subst.
  destruct (in_split a m) as (m1 & m2 & ->); [apply I; left; reflexivity|].
  assert (I' : incl l (m1 ++ m2)).
  { intros z Hz. assert (Hm : In z (m1 ++ a :: m2)) by (apply I; right; exact Hz). apply in_app_iff in Hm as [Hm|[->|Hm]]; apply in_app_iff; [auto|contradiction|auto]. }
  pose proof (IH Nl _ I') as H. rewrite map_app in H |- *. cbn [map]. rewrite qsum_app in H |- *. cbn [qsum fold_right] in *. fold (qsum (map f l)) in *. fold (qsum (map f m2)) in *. lra.
Qed.
Definition at_pos (l : list attr) (k : nat) : attr := nth k l (ADisc "").
Lemma distq_seq xs ys : length xs = length ys -> (distq xs ys == qsum (map (fun k => gapq (at_pos xs k) (at_pos ys k)) (seq 0 (length xs))))%Q.
Proof.
  revert ys. induction xs as [|a xs IH]; intros [|b ys] L; try discriminate L; [reflexivity|]. rewrite distq_cons. rewrite IH by (injection L as L; exact L).
  cbn [length seq map]. rewrite <- seq_shift, map_map. reflexivity.
Qed.
Lemma distq_picks fs x y : forall xs ys, Forall2 (feature x) fs xs -> Forall2 (feature y) fs ys ->
  distq xs ys = qsum (map (fun k => gapq (at_pos (attrs x) (Z.to_nat k)) (at_pos (attrs y) (Z.to_nat k))) fs).
Proof.
  intros xs ys Fx. revert ys. induction Fx as [|k a fs xs [_ H] Fx IH]; intros ys Fy; inversion Fy as [|? b ? ys' [_ K] Fy']; subst; [reflexivity|].
  unfold distq in *. cbn [combine map fst snd]. cbn [qsum fold_right]. fold (qsum (map (fun p => gapq (fst p) (snd p)) (combine xs ys'))). rewrite (IH _ Fy').
  unfold at_pos at 3 4. rewrite (nth_error_nth _ _ (ADisc "") H), (nth_error_nth _ _ (ADisc "") K). reflexivity.
Qed.
Lemma picks_finite fs x y : picks fs x y -> Forall finite (attrs x) -> Forall finite (attrs y).
Proof.
  intros (_ & _ & F) H. induction F as [|k a fs ys [_ K] F IH]; constructor; [|exact IH]. rewrite Forall_forall in H. apply H. apply (nth_error_In _ _ K).
Qed.
Lemma eucl_reduced fs x y x' y' : NoDup fs -> length (attrs x) = length (attrs y) -> Forall finite (attrs x) -> Forall finite (attrs y) -> picks fs x x' -> picks fs y y' ->
  exists p q, eucl x y = Ok (Fin p) /\ eucl x' y' = Ok (Fin q) /\ (0 <= q <= p)%Q.
Proof.
  intros N L Hx Hy Px Py. destruct (eucl_fin x y L Hx Hy) as (p & Ep & Hp).
  assert (L' : length (attrs x') = length (attrs y')).
  { destruct Px as (_ & _ & Fx), Py as (_ & _ & Fy). rewrite <- (Forall2_len _ _ _ Fx). exact (Forall2_len _ _ _ Fy). }
  destruct (eucl_fin x' y' L' (picks_finite _ _ _ Px Hx) (picks_finite _ _ _ Py Hy)) as (q & Eq & Hq).
  exists p, q. split; [exact Ep|]. split; [exact Eq|]. rewrite Hp, Hq. split; [apply distq_nonneg|].
  pose proof (picks_range _ _ _ Px) as R. destruct Px as (_ & _ & Fx), Py as (_ & _ & Fy). rewrite (distq_picks fs x y _ _ Fx Fy), (distq_seq _ _ L).
  rewrite <- (map_map Z.to_nat (fun k => gapq (at_pos (attrs x) k) (at_pos (attrs y) k))). apply qsum_incl; [intros; apply gapq_nonneg| |].
  - rewrite Forall_forall in R. clear - N R. induction N as [|k fs H N IH]; cbn; constructor; [|apply IH; intros; apply R; right; assumption].
    rewrite in_map_iff. intros (k' & E & Hin). apply H. pose proof (R k (or_introl eq_refl)) as R1. pose proof (R k' (or_intror Hin)) as R2. unfold in_range in R1, R2. replace k with k' by (apply Z2Nat.inj; lia || exact E). exact Hin.
  - intros z Hz. apply in_map_iff in Hz as (k & <- & Hk). rewrite Forall_forall in R. pose proof (R k Hk) as Rk. unfold in_range, attr_count in Rk. apply in_seq. lia.
Qed.

(** * Covariance *)
Lemma numbers_vals q x : numbers q x -> inst_vals x = map Fin q.
Proof.
  intros H. unfold inst_vals. rewrite H. assert (G : forall acc, fold_left (fun r a => r ++ attr_vals a) (map (fun v => ACont (Fin v)) q) acc = acc ++ map Fin q).
  { clear. induction q as [|v q IH]; intros acc; cbn; [rewrite app_nil_r; reflexivity|]. rewrite IH, <- app_assoc. reflexivity. }
  apply G.
Qed.
Lemma numbers_picks fs q x y : picks fs x y -> numbers q x -> numbers (choose fs q) y.
Proof.
  intros (_ & _ & F) H. unfold numbers, choose. rewrite map_map. induction F as [|k a fs ys [_ K] F IH]; cbn; [reflexivity|]. f_equal; [|exact IH].
  rewrite H, nth_error_map in K. destruct (nth_error q (Z.to_nat k)) eqn:E; [|discriminate]. injection K as <-. rewrite (nth_error_nth _ _ 0%Q E). reflexivity.
Qed.
Lemma nth_choose fs q i : i < length fs -> nth i (choose fs q) 0%Q = nth (Z.to_nat (nth i fs 0%Z)) q 0%Q.
Proof. intros L. unfold choose. rewrite (nth_indep _ 0%Q ((fun k => nth (Z.to_nat k) q 0%Q) 0%Z)) by (rewrite map_length; exact L). apply (map_nth (fun k => nth (Z.to_nat k) q 0%Q)). Qed.
Lemma covariance_reduced n fs l l' rows centre : 2 <= length l -> length centre = n -> Forall2 (fun x q => numbers q x /\ length q = n) l rows -> reduced fs l l' ->
  exists m m', covariance (map Fin centre) l = Ok (map (map Fin) m) /\ covariance (map Fin (choose fs centre)) l' = Ok (map (map Fin) m') /\
    square n m /\ square (length fs) m' /\
    forall i j, i < length fs -> j < length fs -> (mget m' i j == mget m (Z.to_nat (nth i fs 0%Z)) (Z.to_nat (nth j fs 0%Z)))%Q.
Proof.
  intros L2 Lc F R.
  assert (F1 : Forall2 (fun x r => inst_vals x = map Fin r /\ length r = n) l rows).
  { clear - F. induction F as [|x q l rows [H L] F IH]; constructor; [|exact IH]. split; [apply numbers_vals, H|exact L]. }
  assert (F2 : Forall2 (fun x r => inst_vals x = map Fin r /\ length r = length fs) l' (map (choose fs) rows)).
  { clear - F R. revert rows F. induction R as [|x y l l' P R IH]; intros rows F; inversion F as [|? q ? rows' [H L] F']; subst; cbn; constructor; [|apply IH, F'].
    split; [apply numbers_vals, (numbers_picks _ _ _ _ P H)|apply map_length]. }
  assert (Fr : l <> [] -> Forall (in_range n) fs).
  { intros Hn. destruct R as [|x y l l' P R]; [congruence|]. inversion F as [|? q ? rows' [H L] F']; subst x0 l0 rows. pose proof (picks_range _ _ _ P) as K. unfold attr_count in K. rewrite H, map_length, L in K. exact K. }
  assert (Ll : length l' = length l) by (symmetry; exact (Forall2_len _ _ _ R)).
  destruct (covariance_fin n centre l rows L2 Lc F1) as (m & E & S & Hm).
  destruct (covariance_fin (length fs) (choose fs centre) l' (map (choose fs) rows)) as (m' & E' & S' & Hm'); [rewrite Ll; exact L2|apply map_length|exact F2|].
  exists m, m'. split; [exact E|]. split; [exact E'|]. split; [exact S|]. split; [exact S'|]. intros i j Hi Hj.
  assert (Rk : forall i, i < length fs -> Z.to_nat (nth i fs 0%Z) < n).
  { intros k Hk. assert (Hn : l <> []) by (destruct l; [cbn in L2; lia|discriminate]). pose proof (Fr Hn) as K. rewrite Forall_forall in K. pose proof (K _ (nth_In fs 0%Z Hk)) as K'. unfold in_range in K'. lia. }
  rewrite Hm' by assumption. rewrite Hm by (apply Rk; assumption). rewrite map_map.
  match goal with |- (?a / qofn (?u - 1) == ?b / qofn (?v - 1))%Q => replace u with v by (symmetry; exact Ll) end.
  assert (Es : forall a b c : Q, (a == b)%Q -> (a / c == b / c)%Q) by (intros a b c ->; reflexivity). apply Es. apply qsum_ext. intros r _. unfold dev.
  rewrite !nth_choose by assumption. reflexivity.
Qed.
