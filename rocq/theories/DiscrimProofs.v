(** Proofs about the linear and quadratic discriminants. *)
From Coq Require Import String ZArith QArith Bool Lia Lqa Permutation Sorted Arith List.
From Verif Require Import Base Spec BaseLemmas DblLemmas AttrModel AttrProofs DataSetModel InstanceListModel PartitionModel PerformanceModel StatSpec ListSpec ListProofs PartitionProofs CovProofs CovAllProofs PerformanceProofs DistanceModel GaussianModel GaussianSpec GaussianProofs DiscrimSpec.
Import ListNotations.
Local Open Scope string_scope.
Local Open Scope list_scope.
Local Open Scope nat_scope.

(** * Finite vectors and matrices up to equality of rationals *)
Notation ssum n f := (qsum (map f (seq 0 n))).
Definition isq (x : dbl) (q : Q) : Prop := deq x (Fin q).
Lemma isq_fin x q : isq x q -> exists r, x = Fin r /\ (r == q)%Q.
Proof. unfold isq. destruct x as [r| | |]; cbn; try contradiction. eauto. Qed.
Lemma fin_isq r q : (r == q)%Q -> isq (Fin r) q.
Proof. intros H. exact H. Qed.
Lemma isq_proper x q q' : (q == q')%Q -> isq x q -> isq x q'.
Proof. intros H K. apply isq_fin in K as (r & -> & K). apply fin_isq. rewrite K. exact H. Qed.
Lemma isq_add a b x y : isq a x -> isq b y -> isq (dadd a b) (x + y)%Q.
Proof. intros H K. apply isq_fin in H as (? & -> & H). apply isq_fin in K as (? & -> & K). apply fin_isq. rewrite H, K. reflexivity. Qed.
Lemma isq_mul a b x y : isq a x -> isq b y -> isq (dmul a b) (x * y)%Q.
Proof. intros H K. apply isq_fin in H as (? & -> & H). apply isq_fin in K as (? & -> & K). apply fin_isq. rewrite H, K. reflexivity. Qed.
Lemma isq_opp a x : isq a x -> isq (dopp a) (- x)%Q.
Proof. intros H. apply isq_fin in H as (? & -> & H). apply fin_isq. rewrite H. reflexivity. Qed.
Lemma isq_div a b x y : isq a x -> isq b y -> ~ (y == 0)%Q -> isq (ddiv a b) (x / y)%Q.
Proof.
  intros H K N. apply isq_fin in H as (? & -> & H). apply isq_fin in K as (? & -> & K).
  rewrite ddiv_fin by (rewrite K; exact N). apply fin_isq. rewrite H, K. reflexivity.
Qed.
Definition isv (v : list dbl) (n : nat) (f : nat -> Q) : Prop := length v = n /\ forall i, i < n -> isq (nth i v NaN) (f i).
Definition ism (m : list (list dbl)) (d : nat) (w : nat -> nat -> Q) : Prop :=
  dims d m /\ forall i j, i < d -> j < d -> isq (nth j (nth i m []) NaN) (w i j).
Lemma isv_ext v n f g : (forall i, i < n -> (f i == g i)%Q) -> isv v n f -> isv v n g.
Proof. intros H (L & V). split; [exact L|]. intros i Hi. eapply isq_proper; [apply H|apply V]; exact Hi. Qed.
Lemma ism_ext m d w w' : (forall i j, i < d -> j < d -> (w i j == w' i j)%Q) -> ism m d w -> ism m d w'.
Proof. intros H (L & V). split; [exact L|]. intros i j Hi Hj. eapply isq_proper; [apply H|apply V]; assumption. Qed.
Lemma isv_fin v : isv (map Fin v) (length v) (fun i => nth i v 0%Q).
Proof.
  split; [apply map_length|]. intros i Hi. rewrite (nth_indep _ NaN (Fin 0)) by (rewrite map_length; exact Hi). rewrite map_nth. reflexivity.
Qed.
Lemma isv_list v n f : isv v n f -> exists q, v = map Fin q /\ length q = n /\ forall i, i < n -> (nth i q 0 == f i)%Q.
Proof.
  revert v f. induction n as [|n IH]; intros [|x v] f (L & V); cbn in L; try discriminate; [exists []; repeat split; intros; lia|].
  destruct (isq_fin _ _ (V 0 ltac:(lia))) as (r & E & Hr). cbn in E. subst x.
  destruct (IH v (fun i => f (S i))) as (q & -> & Lq & Hq); [split; [lia|intros i Hi; apply (V (S i)); lia]|].
  exists (r :: q). split; [reflexivity|]. split; [cbn; lia|]. intros [|i] Hi; [exact Hr|apply Hq; lia].
Qed.
Lemma rows_list d m : Forall (fun r => exists f, isv r d f) m -> exists q, m = map (map Fin) q /\ Forall (fun r => length r = d) q.
Proof.
  induction 1 as [|r m (f & H) _ (q & -> & F)]; [exists []; split; [reflexivity|constructor]|].
  destruct (isv_list _ _ _ H) as (r' & -> & L & _). exists (r' :: q). split; [reflexivity|constructor; assumption].
Qed.
Lemma ism_fin m d : square d m -> ism (map (map Fin) m) d (mget m).
Proof.
  intros [L F]. split; [split; [rewrite map_length; exact L|apply Forall_map; eapply Forall_impl; [|exact F]; intros; rewrite map_length; assumption]|].
  intros i j Hi Hj. change (@nil dbl) with (map Fin []). rewrite map_nth. rewrite Forall_forall in F.
  assert (Lr : length (nth i m []) = d) by (apply F, nth_In; lia).
  apply (isv_fin (nth i m [])). rewrite Lr. exact Hj.
Qed.
Lemma ism_list m d w : ism m d w -> exists q, m = map (map Fin) q /\ entries d q w.
Proof.
  intros ((L & F) & V). destruct (rows_list d m) as (q & E & Fq).
  { apply Forall_forall. intros r Hr. destruct (In_nth _ _ [] Hr) as (i & Hi & <-). exists (w i). split; [rewrite Forall_forall in F; apply F, nth_In, Hi|].
    intros j Hj. apply V; lia. }
  exists q. split; [exact E|]. subst m. rewrite map_length in L. split; [split; assumption|].
  intros i j Hi Hj. specialize (V i j Hi Hj). pose proof (proj2 (ism_fin q d (conj L Fq)) i j Hi Hj) as K.
  apply isq_fin in V as (r & E & Hr). rewrite E in K. unfold isq in K. cbn in K. rewrite <- K. exact Hr.
Qed.
Lemma isv_dot_from u v : forall n f g a s, isv u n f -> isv v n g -> isq a s ->
  isq (fold_left (fun s p => dadd s (dmul (fst p) (snd p))) (combine u v) a) (s + ssum n (fun i => f i * g i))%Q.
Proof.
  revert v. induction u as [|x u IH]; intros [|y v] n f g a s (Lu & Vu) (Lv & Vv) Ha; cbn in Lu, Lv; subst n; try discriminate.
  - cbn. eapply isq_proper; [|exact Ha]. ring.
  - cbn [combine fold_left seq map qsum fold_right fst snd]. injection Lv as Lv.
    eapply isq_proper; [|apply (IH v (length u) (fun i => f (S i)) (fun i => g (S i)) _ (s + f O * g O)%Q)].
    + rewrite <- seq_shift, map_map. unfold qsum. cbn [fold_right]. ring.
    + split; [reflexivity|]. intros i Hi. apply (Vu (S i)). lia.
    + split; [exact Lv|]. intros i Hi. apply (Vv (S i)). lia.
    + apply isq_add; [exact Ha|]. apply isq_mul; [apply (Vu 0); lia|apply (Vv 0); lia].
Qed.
Lemma isv_dot u v n f g : isv u n f -> isv v n g -> isq (vdot u v) (ssum n (fun i => f i * g i))%Q.
Proof. intros H K. unfold vdot. eapply isq_proper; [|apply (isv_dot_from u v n f g d0 0%Q H K)]; [ring|reflexivity]. Qed.
Lemma isv_dot_opt u v n f g : isv u n f -> isv v n g -> exists r, dot_opt u v = Some r /\ isq r (ssum n (fun i => f i * g i))%Q.
Proof.
  intros H K. exists (vdot u v). split; [|apply isv_dot; assumption]. unfold dot_opt. rewrite (proj1 H), (proj1 K), Nat.eqb_refl. reflexivity.
Qed.
Lemma ism_row m d w i : ism m d w -> i < d -> isv (nth i m []) d (w i).
Proof. intros ((L & F) & V) Hi. split; [rewrite Forall_forall in F; apply F, nth_In; lia|]. intros j Hj. apply V; assumption. Qed.
Lemma ism_mul_right m v d w f : ism m d w -> isv v d f -> exists u, mul_right m v = Some u /\ isv u d (fun i => ssum d (fun j => w i j * f j))%Q.
Proof.
  intros H K. unfold mul_right. rewrite (dims_cols _ _ (proj1 H)), (proj1 K), Nat.eqb_refl. eexists. split; [reflexivity|].
  split; [rewrite map_length; apply (proj1 (proj1 H))|]. intros i Hi.
  rewrite (nth_indep _ NaN (vdot [] v)) by (rewrite map_length, (proj1 (proj1 H)); exact Hi). rewrite (map_nth (fun r => vdot r v)).
  apply isv_dot; [apply ism_row; assumption|exact K].
Qed.
Lemma ism_vmul_left m v d w f : ism m d w -> isv v d f -> isv (vmul_left v m) d (fun j => ssum d (fun i => f i * w i j))%Q.
Proof.
  intros H K. split; [rewrite vmul_left_length; apply dims_cols, (proj1 H)|]. intros j Hj. unfold vmul_left.
  rewrite (dims_cols _ _ (proj1 H)), nth_map_seq by exact Hj. apply isv_dot; [exact K|].
  split; [unfold mat_col; rewrite map_length; apply (proj1 (proj1 H))|]. intros i Hi. unfold mat_col.
  rewrite (nth_indep _ NaN (nth j [] d0)) by (rewrite map_length, (proj1 (proj1 H)); exact Hi). rewrite (map_nth (fun r => nth j r d0)).
  rewrite (nth_indep _ d0 NaN); [apply (proj2 H); assumption|]. rewrite (proj1 (ism_row _ _ _ _ H Hi)). exact Hj.
Qed.
Lemma ism_mul_left m v d w f : ism m d w -> isv v d f -> exists u, mul_left v m = Some u /\ isv u d (fun j => ssum d (fun i => f i * w i j))%Q.
Proof.
  intros H K. unfold mul_left. rewrite (proj1 (proj1 H)), (proj1 K), Nat.eqb_refl. eexists. split; [reflexivity|]. apply ism_vmul_left; assumption.
Qed.
Lemma isv_map v n f (g : dbl -> dbl) (h : Q -> Q) : (forall x q, isq x q -> isq (g x) (h q)) -> isv v n f -> isv (map g v) n (fun i => h (f i)).
Proof.
  intros H (L & V). split; [rewrite map_length; exact L|]. intros i Hi. rewrite (nth_indep _ NaN (g NaN)) by (rewrite map_length; lia). rewrite map_nth. apply H, V, Hi.
Qed.
Lemma ism_map m d w (g : dbl -> dbl) (h : Q -> Q) : (forall x q, isq x q -> isq (g x) (h q)) -> ism m d w -> ism (map (map g) m) d (fun i j => h (w i j)).
Proof.
  intros H K. split; [apply map_dims, (proj1 K)|]. intros i j Hi Hj. change (@nil dbl) with (map g []). rewrite map_nth.
  apply (isv_map _ _ _ g h H (ism_row _ _ _ _ K Hi)). exact Hj.
Qed.
Lemma isv_add u v n f g : isv u n f -> isv v n g -> isv (map (fun q => dadd (fst q) (snd q)) (combine u v)) n (fun i => f i + g i)%Q.
Proof.
  intros (Lu & Vu) (Lv & Vv). split; [rewrite map_length, combine_length; lia|]. intros i Hi.
  set (F := fun q : dbl * dbl => dadd (fst q) (snd q)).
  rewrite (nth_indep _ NaN (F (NaN, NaN))) by (rewrite map_length, combine_length; lia).
  rewrite map_nth, combine_nth by lia. apply isq_add; cbn [fst snd]; auto.
Qed.
Lemma ism_add m m' d w w' : ism m d w -> ism m' d w' -> ism (mat_add m m') d (fun i j => w i j + w' i j)%Q.
Proof.
  intros H K. split; [apply mat_add_dims; [exact (proj1 H)|exact (proj1 K)]|]. intros i j Hi Hj. unfold mat_add.
  rewrite (dims_cols _ _ (proj1 H)), (dims_cols _ _ (proj1 K)), (proj1 (proj1 H)), (proj1 (proj1 K)), !Nat.eqb_refl. cbn [andb].
  set (F := fun p : list dbl * list dbl => map (fun q => dadd (fst q) (snd q)) (combine (fst p) (snd p))).
  change (@nil dbl) with (F ([], [])). rewrite map_nth. rewrite combine_nth by (rewrite (proj1 (proj1 H)), (proj1 (proj1 K)); reflexivity).
  apply (isv_add _ _ _ _ _ (ism_row _ _ _ _ H Hi) (ism_row _ _ _ _ K Hi)). exact Hj.
Qed.

(** * Quadratic forms *)
Lemma ssum_ext n f g : (forall i, i < n -> (f i == g i)%Q) -> (ssum n f == ssum n g)%Q.
Proof. intros H. apply qsum_ext. intros i Hi. apply in_seq in Hi. apply H. lia. Qed.
Definition bil (d : nat) (w : nat -> nat -> Q) (a b : nat -> Q) : Q := ssum d (fun i => ssum d (fun j => a i * w i j * b j))%Q.
Lemma bil_swap d w a b : (forall i j, i < d -> j < d -> (w i j == w j i)%Q) -> (bil d w a b == bil d w b a)%Q.
Proof.
  intros H. unfold bil. rewrite (qsum_swap (fun i j => (a i * w i j * b j)%Q)). apply ssum_ext. intros j Hj. apply ssum_ext. intros i Hi. rewrite (H i j Hi Hj). ring.
Qed.
Lemma bil_sub d w a b : (forall i j, i < d -> j < d -> (w i j == w j i)%Q) ->
  (bil d w (fun i => a i - b i) (fun i => a i - b i) == bil d w a a - (2#1) * bil d w a b + bil d w b b)%Q.
Proof.
  intros H. assert (E : (bil d w (fun i => a i - b i) (fun i => a i - b i) == bil d w a a + (-1#1) * bil d w a b + (-1#1) * bil d w b a + bil d w b b)%Q).
  { unfold bil. rewrite <- !qsum_scale, <- !qsum_plus. apply ssum_ext. intros i Hi. rewrite <- !qsum_scale, <- !qsum_plus. apply ssum_ext. intros j Hj. ring. }
  rewrite E, (bil_swap d w b a H). ring.
Qed.
Lemma bil_right d w a b : (ssum d (fun i => ssum d (fun j => w i j * b j) * a i) == bil d w a b)%Q.
Proof. unfold bil. apply ssum_ext. intros i Hi. rewrite <- qsum_scale_r. apply ssum_ext. intros. ring. Qed.
Lemma bil_left d w a b : (ssum d (fun j => ssum d (fun i => a i * w i j) * b j) == bil d w a b)%Q.
Proof.
  unfold bil. rewrite (qsum_swap (fun i j => (a i * w i j * b j)%Q)). apply ssum_ext. intros j Hj. rewrite <- qsum_scale_r. reflexivity.
Qed.
Lemma quad_bil d m u : quad d m u = bil d (mget m) u u.
Proof. reflexivity. Qed.
Lemma bil_ext d w w' a a' b b' : (forall i j, i < d -> j < d -> (w i j == w' i j)%Q) -> (forall i, i < d -> (a i == a' i)%Q) -> (forall i, i < d -> (b i == b' i)%Q) ->
  (bil d w a b == bil d w' a' b')%Q.
Proof. intros H1 H2 H3. unfold bil. apply ssum_ext. intros i Hi. apply ssum_ext. intros j Hj. rewrite (H1 i j Hi Hj), (H2 i Hi), (H3 j Hj). reflexivity. Qed.
Lemma ssum_delta d f k : k < d -> (ssum d (fun i => (if Nat.eqb i k then 1 else 0) * f i) == f k)%Q.
Proof.
  intros Hk. assert (G : forall n o, (qsum (map (fun i => (if Nat.eqb i k then 1 else 0) * f i)%Q (seq o n)) == if (Nat.leb o k && Nat.ltb k (o + n))%bool then f k else 0)%Q).
  { induction n as [|n IH]; intros o; cbn [seq map qsum fold_right].
    - rewrite Nat.add_0_r. destruct (Nat.leb_spec o k), (Nat.ltb_spec k o); cbn; try reflexivity. lia.
    - change (fold_right Qplus 0%Q) with qsum. rewrite IH. destruct (Nat.eqb_spec o k) as [->|N].
      + destruct (Nat.leb_spec (S k) k); [lia|]. destruct (Nat.leb_spec k k); [|lia]. destruct (Nat.ltb_spec k (k + S n)); [|lia]. cbn. ring.
      + destruct (Nat.leb_spec (S o) k), (Nat.leb_spec o k), (Nat.ltb_spec k (S o + n)), (Nat.ltb_spec k (o + S n)); cbn; try lia; ring. }
  rewrite (G d 0). destruct (Nat.ltb_spec k (0 + d)); [reflexivity|lia].
Qed.
(** an inverse of a symmetric matrix is symmetric *)
Lemma inverse_symmetric d p s : (forall i j, i < d -> j < d -> (mget p i j == mget p j i)%Q) -> inverse_of d p s ->
  forall i j, i < d -> j < d -> (mget s i j == mget s j i)%Q.
Proof.
  intros Hs [_ H] i j Hi Hj.
  assert (E : forall i j, i < d -> j < d -> (mget s j i == ssum d (fun k => ssum d (fun l => mget s k i * mget p k l * mget s l j)))%Q).
  { clear i j Hi Hj. intros i j Hi Hj. transitivity (ssum d (fun k => (if Nat.eqb k j then 1 else 0) * mget s k i)%Q); [symmetry; apply (ssum_delta d (fun k => mget s k i)); exact Hj|].
    apply ssum_ext. intros k Hk. rewrite <- (H k j Hk Hj). rewrite <- qsum_scale_r. apply ssum_ext. intros l Hl. ring. }
  rewrite (E i j Hi Hj), (E j i Hj Hi). rewrite (qsum_swap (fun k l => (mget s k j * mget p k l * mget s l i)%Q)).
  apply ssum_ext. intros k Hk. apply ssum_ext. intros l Hl. rewrite (Hs k l Hk Hl). ring.
Qed.

(** * Samples *)
Lemma reads_rows shape l s : uniform shape l -> Forall2 reads l s -> s = map (fun x => (label x, row x)) l.
Proof.
  intros H F. pose proof (uniform_rows shape l H) as R. rewrite Forall2_map_r in R. clear H. induction F as [|x r l s Hx F IH]; [reflexivity|].
  inversion R as [|? ? ? ? [E L] R']; subst. rewrite (IH R'). cbn. f_equal. destruct Hx as [Hl Hv]. rewrite E in Hv. destruct r as [c v]. cbn in *. subst c. f_equal.
  assert (I : forall a b, map Fin a = map Fin b -> a = b) by (induction a as [|a0 a IHa]; intros [|b0 b] Hab; cbn in *; try discriminate; [reflexivity|]; injection Hab as -> Hab; f_equal; auto).
  apply I. symmetry. exact Hv.
Qed.
Definition sample_of (l : ilist) : sample := map (fun x => (label x, row x)) l.
Lemma members_sample l c : members (sample_of l) c = sample_of (filter (of_class c) l).
Proof. unfold members, sample_of. induction l as [|x l IH]; [reflexivity|]. cbn. unfold of_class at 1. destruct (String.eqb (label x) c); cbn; rewrite IH; reflexivity. Qed.
Lemma sample_length l : length (sample_of l) = length l.
Proof. apply map_length. Qed.
Lemma class_mean_avg shape l c : uniform shape l -> In c (map label l) ->
  exists avg, cont_average_all (filter (of_class c) l) = Ok avg /\ isv avg (dim shape) (class_mean (sample_of l) c).
Proof.
  intros H Hc. pose proof (class_nonempty l c Hc) as N.
  destruct (average_all shape (filter (of_class c) l)) as (av & E & L & V); [apply uniform_filter, H|destruct (filter (of_class c) l); [congruence|cbn; lia]|].
  exists (map Fin av). split; [exact E|]. rewrite <- L. eapply isv_ext; [|apply isv_fin]. intros i Hi. cbv beta. rewrite V by lia.
  unfold class_mean. rewrite members_sample. unfold sample_of, col. rewrite !map_map. reflexivity.
Qed.
Lemma class_cov_cov shape l c avg : uniform shape l -> In c (map label l) -> 2 <= length (members (sample_of l) c) ->
  isv avg (dim shape) (class_mean (sample_of l) c) ->
  exists cov, covariance avg (filter (of_class c) l) = Ok cov /\ ism cov (dim shape) (class_cov (sample_of l) c).
Proof.
  intros H Hc H2 Ha. rewrite members_sample, sample_length in H2. destruct (isv_list _ _ _ Ha) as (qa & -> & Lq & Hq).
  destruct (covariance_fin (dim shape) qa (filter (of_class c) l) (map row (filter (of_class c) l)) H2 Lq) as (m & E & Sq & V); [apply uniform_rows, uniform_filter, H|].
  exists (map (map Fin) m). split; [exact E|]. eapply ism_ext; [|apply ism_fin, Sq]. intros i j Hi Hj. cbv beta. rewrite (V i j Hi Hj).
  unfold class_cov. rewrite members_sample, sample_length. unfold sample_of. rewrite !map_map. apply Qmult_comp; [|reflexivity].
  apply qsum_ext. intros x Hx. unfold dev, coord. cbn [snd]. rewrite (Hq i Hi), (Hq j Hj). reflexivity.
Qed.
(** sums over a sample, class by class *)
Lemma qsum_filter_split {A} (p : A -> bool) (f : A -> Q) l : (qsum (map f l) == qsum (map f (filter p l)) + qsum (map f (filter (fun x => negb (p x)) l)))%Q.
Proof. induction l as [|x l IH]; [reflexivity|]. cbn. destruct (p x); cbn; change (fold_right Qplus 0%Q) with qsum; rewrite IH; ring. Qed.
Lemma filter_other c c' l : c' <> c -> filter (of_class c') (filter (fun x => negb (of_class c x)) l) = filter (of_class c') l.
Proof.
  intros N. induction l as [|x l IH]; [reflexivity|]. cbn [filter]. destruct (of_class c x) eqn:E; cbn [negb filter].
  - rewrite IH. unfold of_class in E. apply String.eqb_eq in E. unfold of_class at 2. rewrite E. destruct (String.eqb_spec c c'); [congruence|reflexivity].
  - rewrite IH. reflexivity.
Qed.
Lemma qsum_by_class (f : instance -> Q) cs : forall l, NoDup cs -> (forall x, In x l -> In (label x) cs) ->
  (qsum (map f l) == qsum (map (fun c => qsum (map f (filter (of_class c) l))) cs))%Q.
Proof.
  induction cs as [|c cs IH]; intros l N H.
  - destruct l as [|x l]; [reflexivity|]. destruct (H x (or_introl eq_refl)).
  - inversion N as [|? ? Hc N']; subst. rewrite (qsum_filter_split (of_class c) f l). cbn [map]. change (qsum (?a :: ?b)) with (a + qsum b)%Q.
    apply Qplus_comp; [reflexivity|]. rewrite (IH (filter (fun x => negb (of_class c x)) l) N').
    + apply qsum_ext. intros c' Hc'. rewrite (filter_other c c' l) by (intros ->; contradiction). reflexivity.
    + intros x Hx. apply filter_In in Hx as [Hx Hb]. destruct (H x Hx) as [->|K]; [|exact K]. unfold of_class in Hb. rewrite String.eqb_refl in Hb. discriminate.
Qed.
Lemma classes_distinct l : classes (sample_of l) = length (distinct_labels l).
Proof.
  unfold classes, sample_of. rewrite map_map. cbn [fst]. change (fun x => label x) with label.
  apply Permutation_length, NoDup_Permutation; [apply NoDup_nodup|apply distinct_nodup|]. intros c. rewrite nodup_In, distinct_in. reflexivity.
Qed.
Lemma classes_half l : (forall c, In c (map label l) -> 2 <= length (members (sample_of l) c)) -> 2 * length (distinct_labels l) <= length l.
Proof.
  intros H. assert (G : forall cs l, NoDup cs -> (forall c, In c cs -> 2 <= length (filter (of_class c) l)) -> 2 * length cs <= length l).
  { clear. induction cs as [|c cs IH]; intros l N H; [cbn; lia|]. inversion N as [|? ? Hc N']; subst.
    pose proof (H c (or_introl eq_refl)) as H2. specialize (IH (filter (fun x => negb (of_class c x)) l) N').
    assert (L : length l = length (filter (of_class c) l) + length (filter (fun x => negb (of_class c x)) l)).
    { clear. induction l as [|x l IH]; [reflexivity|]. cbn. destruct (of_class c x); cbn; lia. }
    cbn [length]. rewrite L. assert (2 * length cs <= length (filter (fun x => negb (of_class c x)) l)); [|lia]. apply IH.
    intros c' Hc'. rewrite (filter_other c c' l) by (intros ->; contradiction). apply H. right. exact Hc'. }
  apply G; [apply distinct_nodup|]. intros c Hc. apply distinct_in in Hc. apply H in Hc. rewrite members_sample, sample_length in Hc. exact Hc.
Qed.
Lemma dofZ_qofn (n : nat) k : k <= n -> isq (dofZ (Z.of_nat n - Z.of_nat k)) (qofn (n - k)).
Proof. intros H. unfold dofZ, qofn. apply fin_isq. rewrite Nat2Z.inj_sub by exact H. reflexivity. Qed.

Lemma pooled_spec shape l : uniform shape l -> l <> [] -> (forall c, In c (map label l) -> 2 <= length (members (sample_of l) c)) ->
  exists m, pooled l (labelled l) = Ok m /\ ism m (dim shape) (pooled_cov (sample_of l)).
Proof.
  intros H Hn H2. unfold pooled. destruct (atn_hd l Hn) as (x & E0 & Hx). rewrite E0. cbn [bind]. rewrite (inst_size_uniform _ _ _ H Hx).
  set (d := dim shape). set (s := sample_of l).
  set (sc := fun c i j => (class_cov s c i j * qofn (length (members s c) - 1))%Q).
  match goal with |- context [foldM ?f _ _] => set (F := f) end.
  assert (G : forall cs m w, (forall c, In c cs -> In c (map label l)) -> ism m d w ->
            exists m', foldM F (map (fun c => (c, filter (of_class c) l)) cs) m = Ok m' /\ ism m' d (fun i j => w i j + qsum (map (fun c => sc c i j) cs))%Q).
  { induction cs as [|c cs IH]; intros m w Hc Hm.
    - exists m. split; [reflexivity|]. eapply ism_ext; [|exact Hm]. intros. cbn. ring.
    - cbn [map foldM]. unfold F at 1. cbn [snd]. destruct (class_mean_avg shape l c H) as (avg & -> & Va); [apply Hc; left; reflexivity|]. cbn [bind].
      destruct (class_cov_cov shape l c avg H) as (cov & -> & Vc); [apply Hc; left; reflexivity|apply H2, Hc; left; reflexivity|exact Va|]. cbn [bind].
      destruct (IH (mat_add m (mat_scale (dofZ (Z.of_nat (length (filter (of_class c) l)) - 1)) cov)) (fun i j => w i j + sc c i j)%Q) as (m' & E & Hm').
      + intros c' Hc'. apply Hc. right. exact Hc'.
      + apply ism_add; [exact Hm|]. unfold mat_scale. unfold sc.
        apply (ism_map cov d _ _ (fun q => q * qofn (length (members s c) - 1))%Q); [|exact Vc]. intros y q Hy. apply isq_mul; [exact Hy|].
        unfold s. rewrite members_sample, sample_length. apply (dofZ_qofn _ 1). pose proof (H2 c (Hc c (or_introl eq_refl))) as K. rewrite members_sample, sample_length in K. lia.
      + exists m'. split; [exact E|]. eapply ism_ext; [|exact Hm']. intros i j _ _. cbn [map]. change (qsum (?a :: ?b)) with (a + qsum b)%Q. ring. }
  destruct (G (distinct_labels l) (repeat (repeat d0 d) d) (fun _ _ => 0)%Q) as (m & E & Hm).
  { intros c Hc. apply distinct_in, Hc. }
  { split; [split; [apply repeat_length|apply Forall_forall; intros r Hr; apply repeat_spec in Hr as ->; apply repeat_length]|].
    intros i j Hi Hj. rewrite (nth_indep _ [] (repeat d0 d)) by (rewrite repeat_length; exact Hi). rewrite nth_repeat.
    rewrite (nth_indep _ NaN d0) by (rewrite repeat_length; exact Hj). rewrite nth_repeat. reflexivity. }
  unfold labelled at 1. rewrite E. cbn [bind]. eexists. split; [reflexivity|].
  assert (LL : length (labelled l) = classes s) by (unfold labelled, s; rewrite map_length, classes_distinct; reflexivity).
  assert (Hh : 2 * classes s <= length l) by (unfold s; rewrite classes_distinct; apply classes_half, H2).
  assert (Hpos : 1 <= length l) by (destruct l; [congruence|cbn; lia]).
  assert (Hnz : ~ (qofn (length s - classes s) == 0)%Q).
  { intros Z. assert (0 < qofn (length s - classes s))%Q; [apply qofn_pos|lra].
    unfold s at 1. rewrite sample_length. assert (1 <= classes s); [|lia].
    unfold s. rewrite classes_distinct. assert (Hd : In (label x) (distinct_labels l)) by (apply distinct_in, in_map, Hx).
    destruct (distinct_labels l); [destruct Hd|cbn; lia]. }
  unfold mat_div. eapply ism_ext; [|apply (ism_map m d (fun i j => 0 + qsum (map (fun c : string => sc c i j) (distinct_labels l)))%Q (fun v => ddiv v (dofZ (Z.of_nat (length l) - Z.of_nat (length (labelled l))))) (fun q => q / qofn (length s - classes s))%Q); [|exact Hm]].
  - intros i j Hi Hj. cbv beta. unfold pooled_cov. apply Qmult_comp; [|reflexivity]. rewrite Qplus_0_l.
    set (f := fun x => ((coord (label x, row x) i - class_mean s (label x) i) * (coord (label x, row x) j - class_mean s (label x) j))%Q).
    assert (E1 : (qsum (map (fun r => (coord r i - class_mean s (fst r) i) * (coord r j - class_mean s (fst r) j)) s) == qsum (map f l))%Q).
    { unfold s at 3, sample_of. rewrite map_map. reflexivity. }
    rewrite E1. rewrite (qsum_by_class f (distinct_labels l) l (distinct_nodup l)) by (intros y Hy; apply distinct_in, in_map, Hy).
    apply qsum_ext. intros c Hc. apply distinct_in in Hc. unfold sc, class_cov.
    assert (Nz : ~ (qofn (length (members s c) - 1) == 0)%Q).
    { intros Z. assert (0 < qofn (length (members s c) - 1))%Q; [apply qofn_pos; pose proof (H2 c Hc); fold s in H0; lia|lra]. }
    transitivity (qsum (map (fun r => (coord r i - class_mean s c i) * (coord r j - class_mean s c j)) (members s c)))%Q; [field; exact Nz|].
    unfold s at 3. rewrite members_sample. unfold sample_of. rewrite map_map. apply qsum_ext. intros y Hy. apply filter_In in Hy as [_ Hy].
    unfold of_class in Hy. apply String.eqb_eq in Hy. unfold f. rewrite Hy. unfold coord. cbn [snd]. reflexivity.
  - intros y q Hy. apply isq_div; [exact Hy| |exact Hnz]. rewrite LL. unfold s at 2. rewrite sample_length. apply dofZ_qofn. lia.
Qed.

Lemma prob_spec l c : In c (map label l) -> exists p, prob (class_distribution l) c = Fin p /\ (p == frequency (sample_of l) c)%Q /\ (0 < p)%Q.
Proof.
  intros Hc. unfold prob. rewrite (proj2 (mmem_prior l c) Hc), class_count, class_distribution_cofl, csum_cofl, map_length.
  assert (Hl : 0 < length l) by (destruct l; [destruct Hc|cbn; lia]).
  assert (N : ~ (qofn (length l) == 0)%Q) by (intros Z; pose proof (qofn_pos _ Hl); lra).
  change (dofnat ?n) with (Fin (qofn n)). rewrite ddiv_fin by exact N. eexists. split; [reflexivity|].
  assert (E : countb (of_class c) l = length (filter (of_class c) l)) by reflexivity. rewrite E. split.
  - unfold frequency. rewrite members_sample, !sample_length. reflexivity.
  - apply Qlt_shift_div_l; [apply qofn_pos, Hl|]. rewrite Qmult_0_l. apply qofn_pos. pose proof (class_nonempty l c Hc). destruct (filter (of_class c) l); [congruence|cbn; lia].
Qed.
Lemma log_prob l c ln f : In c (map label l) -> log_reads ln f -> isq (ln (prob (class_distribution l) c)) (f (frequency (sample_of l) c)).
Proof.
  intros Hc (H1 & H2). destruct (prob_spec l c Hc) as (p & -> & Ep & Hp). destruct (H1 p Hp) as (r & -> & Hr). apply fin_isq. rewrite Hr. apply H2, Ep.
Qed.

Section Disc.
  Context (inverse : list (list dbl) -> list (list dbl)) (determinant : list (list dbl) -> dbl) (ln : dbl -> dbl) (f : Q -> Q) (Hln : log_reads ln f).
  Context (shape : list (option nat)) (l : ilist) (HU : uniform shape l) (Hn : l <> []).
  Let d := dim shape.
  Let s := sample_of l.
  Let mu := class_mean s.

  (** fold over the classes where every entry starts absent: after it, [has] holds for every class *)
  Lemma fold_fresh {S} (g : S -> string * ilist -> res S) (fresh has : S -> string -> Prop) :
    (forall st c, In c (map label l) -> fresh st c -> exists st', g st (c, filter (of_class c) l) = Ok st' /\ has st' c /\
       (forall c', c' <> c -> has st c' -> has st' c') /\ (forall c', c' <> c -> fresh st c' -> fresh st' c')) ->
    forall cs, NoDup cs -> (forall c, In c cs -> In c (map label l)) -> forall st, (forall c, In c cs -> fresh st c) ->
    exists st', foldM g (map (fun c => (c, filter (of_class c) l)) cs) st = Ok st' /\ (forall c, In c cs -> has st' c) /\ (forall c, ~ In c cs -> has st c -> has st' c).
  Proof.
    intros H. induction cs as [|c cs IH]; intros N Hc st Hf; cbn [map foldM]; [exists st; repeat split; [intros ? []|auto]|].
    destruct (H st c) as (st1 & -> & H1 & H2 & H3); [apply Hc; left; reflexivity|apply Hf; left; reflexivity|]. cbn [bind]. inversion N as [|? ? Nc N']; subst.
    destruct (IH N') with (st := st1) as (st' & E & K1 & K2).
    - intros; apply Hc; right; assumption.
    - intros c' Hc'. apply H3; [intros ->; contradiction|apply Hf; right; exact Hc'].
    - exists st'. split; [exact E|]. split.
      + intros c' [<-|Hc']; [apply K2; assumption|apply K1, Hc'].
      + intros c' Hn' Hs. apply K2; [intros K; apply Hn'; right; exact K|]. apply H2; [intros ->; apply Hn'; left; reflexivity|exact Hs].
  Qed.

  Lemma mfind_new {V} k (v : V) m : mfind k m = None -> mfind k (memplace k v m) = Some v.
  Proof. intros H. rewrite mfind_memplace, H, String.eqb_refl. reflexivity. Qed.
  Lemma mfind_other {V} k k' (v : V) m : k' <> k -> mfind k' (memplace k v m) = mfind k' m.
  Proof. intros H. rewrite mfind_memplace. destruct (mfind k' m); [reflexivity|]. destruct (String.eqb_spec k k'); [congruence|reflexivity]. Qed.

  Lemma lda_spec P S : (forall c, In c (map label l) -> 2 <= length (members s c)) ->
    pooled l (labelled l) = Ok (map (map Fin) P) -> entries d P (pooled_cov s) ->
    inverse (map (map Fin) P) = map (map Fin) S -> inverse_of d P S ->
    exists m, lda_train inverse ln lda_empty l = Ok m /\
      forall q v c, inst_vals q = map Fin v -> length v = d -> In c (map label l) ->
        exists r, lda_metric m q c = Ok (Fin r) /\
          (r == f (frequency s c) - (1#2) * quad d S (away s c v) + (1#2) * quad d S (fun j => nth j v 0))%Q.
  Proof.
    intros H2 EP VP ES VS.
    assert (SP : forall i j, i < d -> j < d -> (mget P i j == mget P j i)%Q).
    { intros i j Hi Hj. rewrite (proj2 VP i j Hi Hj), (proj2 VP j i Hj Hi). unfold pooled_cov. apply Qmult_comp; [|reflexivity]. apply qsum_ext. intros. ring. }
    pose proof (inverse_symmetric d P S SP VS) as SS. pose proof (ism_fin S d (proj1 VS)) as MS.
    rewrite lda_train_eq. destruct (atn_hd l Hn) as (x & -> & Hx). cbn [bind]. rewrite (discrete_check_uniform _ _ _ HU Hx).
    rewrite class_lists_spec. cbn [bind]. rewrite EP. cbn [bind]. rewrite ES. unfold labelled.
    set (W := fun c i => ssum d (fun j => mget S i j * mu c j)%Q).
    set (W0 := fun c => (- (1#2) * bil d (mget S) (mu c) (mu c) + f (frequency s c))%Q).
    destruct (fold_fresh (lda_step ln (class_distribution l) (map (map Fin) S))
                (fun st c => mfind c (l_w st) = None /\ mfind c (l_w0 st) = None)
                (fun st c => exists w w0, mfind c (l_w st) = Some w /\ isv w d (W c) /\ mfind c (l_w0 st) = Some w0 /\ isq w0 (W0 c))) with (cs := distinct_labels l)
                (st := mkLda (class_distribution l) [] []) as (m & E & HM & _).
    - intros st c Hc (F1 & F2). unfold lda_step. cbn [fst snd]. destruct (class_mean_avg shape l c HU Hc) as (avg & -> & Va). cbn [bind].
      destruct (ism_mul_right _ _ _ _ _ MS Va) as (w & -> & Vw). destruct (isv_dot_opt _ _ _ _ _ Vw Va) as (r & -> & Vr).
      eexists. split; [reflexivity|]. cbn [l_w l_w0]. split; [|split].
      + exists w. eexists. split; [apply mfind_new, F1|]. split; [exact Vw|]. split; [apply mfind_new, F2|].
        eapply isq_proper; [|apply isq_add; [apply isq_mul; [apply isq_opp; exact (fin_isq (1#2) (1#2) (Qeq_refl _))|exact Vr]|apply log_prob; [exact Hc|exact Hln]]].
        unfold W0. rewrite bil_right. reflexivity.
      + intros c' Ne (w1 & w2 & A & B & C & D). exists w1, w2. rewrite !mfind_other by exact Ne. exact (conj A (conj B (conj C D))).
      + intros c' Ne (A & B). rewrite !mfind_other by exact Ne. split; assumption.
    - apply distinct_nodup.
    - intros c Hc. apply distinct_in, Hc.
    - intros; split; reflexivity.
    - exists m. split; [exact E|]. intros q v c Hq Lv Hc. destruct (HM c (proj2 (distinct_in l c) Hc)) as (w & w0 & E1 & Vw & E2 & V0).
      unfold lda_metric. rewrite E1, E2.
      assert (Vq : isv (inst_vector q) d (fun j => nth j v 0%Q)) by (change (inst_vector q) with (inst_vals q); rewrite Hq, <- Lv; apply isv_fin).
      destruct (isv_dot_opt _ _ _ _ _ Vw Vq) as (r & -> & Vr). destruct (isq_fin _ _ (isq_add _ _ _ _ Vr V0)) as (z & -> & Hz).
      exists z. split; [reflexivity|]. rewrite Hz. unfold W, W0. rewrite !quad_bil. change (away s c v) with (fun j => nth j v 0 - mu c j)%Q.
      rewrite (bil_right d (mget S) (fun j => nth j v 0%Q) (mu c)).
      rewrite (bil_sub d (mget S) (fun j => nth j v 0%Q) (mu c) SS). ring.
  Qed.

  Lemma qda_spec (P S : string -> list (list Q)) (D : string -> Q) : (forall c, In c (map label l) -> 2 <= length (members s c)) ->
    (forall c, In c (map label l) -> exists avg, cont_average_all (filter (of_class c) l) = Ok avg /\ covariance avg (filter (of_class c) l) = Ok (map (map Fin) (P c))) ->
    (forall c, In c (map label l) -> entries d (P c) (class_cov s c)) ->
    (forall c, In c (map label l) -> inverse (map (map Fin) (P c)) = map (map Fin) (S c) /\ inverse_of d (P c) (S c) /\
                                     determinant (map (map Fin) (P c)) = Fin (D c) /\ (0 < D c)%Q) ->
    exists m, qda_train inverse determinant ln qda_empty l = Ok m /\
      forall q v c, inst_vals q = map Fin v -> length v = d -> In c (map label l) ->
        exists r, qda_metric m q c = Ok (Fin r) /\
          (r == f (frequency s c) - (1#2) * f (D c) - (1#2) * quad d (S c) (away s c v))%Q.
  Proof.
    intros H2 HC VP HI. unfold qda_train. destruct (atn_hd l Hn) as (x & -> & Hx). cbn [bind]. rewrite (discrete_check_uniform _ _ _ HU Hx).
    rewrite class_lists_spec. cbn [bind]. unfold labelled.
    match goal with |- context [foldM ?g _ _] => set (F := g) end.
    set (W := fun c j => ssum d (fun i => mu c i * mget (S c) i j)%Q).
    set (W0 := fun c => (- (1#2) * (bil d (mget (S c)) (mu c) (mu c) + f (D c)) + f (frequency s c))%Q).
    destruct (fold_fresh F
                (fun st c => mfind c (q_W st) = None /\ mfind c (l_w (q_lda st)) = None /\ mfind c (l_w0 (q_lda st)) = None)
                (fun st c => exists M w w0, mfind c (q_W st) = Some M /\ ism M d (fun i j => mget (S c) i j * - (1#2))%Q /\
                                            mfind c (l_w (q_lda st)) = Some w /\ isv w d (W c) /\ mfind c (l_w0 (q_lda st)) = Some w0 /\ isq w0 (W0 c))) with (cs := distinct_labels l)
                (st := mkQda (mkLda (class_distribution l) [] []) []) as (m & E & HM & _).
    - intros st c Hc (F1 & F2 & F3). unfold F. cbn [fst snd]. destruct (class_mean_avg shape l c HU Hc) as (avg & Ea & Va).
      destruct (HC c Hc) as (avg' & Ea' & Ec). rewrite Ea in Ea'. injection Ea' as <-. rewrite Ea. cbn [bind]. rewrite Ec. cbn [bind].
      destruct (HI c Hc) as (EI & VI & ED & PD). rewrite EI, ED.
      pose proof (ism_fin (S c) d (proj1 VI)) as MS.
      destruct (ism_mul_left _ _ _ _ _ MS Va) as (w & -> & Vw). destruct (isv_dot_opt _ _ _ _ _ Vw Va) as (r & -> & Vr).
      eexists. split; [reflexivity|]. cbn [l_w l_w0 q_W q_lda]. split; [|split].
      + do 3 eexists. split; [apply mfind_new, F1|]. split.
        * unfold mat_scale. apply (ism_map _ d _ _ (fun q => q * - (1#2))%Q); [|exact MS]. intros y q Hy. apply isq_mul; [exact Hy|]. apply isq_opp. exact (fin_isq (1#2) (1#2) (Qeq_refl _)).
        * split; [apply mfind_new, F2|]. split; [exact Vw|]. split; [apply mfind_new, F3|].
          destruct (proj1 Hln (D c) PD) as (ld & -> & Hld).
          eapply isq_proper; [|apply isq_add; [apply isq_mul; [apply isq_opp; exact (fin_isq (1#2) (1#2) (Qeq_refl _))|apply isq_add; [exact Vr|exact (fin_isq _ _ Hld)]]|apply log_prob; [exact Hc|exact Hln]]].
          unfold W0. rewrite bil_left. reflexivity.
      + intros c' Ne (M & w1 & w2 & A1 & A2 & A & B & C & D'). exists M, w1, w2. rewrite !mfind_other by exact Ne. exact (conj A1 (conj A2 (conj A (conj B (conj C D'))))).
      + intros c' Ne (A & B & C). rewrite !mfind_other by exact Ne. repeat split; assumption.
    - apply distinct_nodup.
    - intros c Hc. apply distinct_in, Hc.
    - intros; repeat split; reflexivity.
    - exists m. split; [exact E|]. intros q v c Hq Lv Hc. destruct (HM c (proj2 (distinct_in l c) Hc)) as (M & w & w0 & E0 & V & E1 & Vw & E2 & V0).
      assert (SS : forall i j, i < d -> j < d -> (mget (S c) i j == mget (S c) j i)%Q).
      { apply (inverse_symmetric d (P c)); [|apply (HI c Hc)]. intros i j Hi Hj. rewrite (proj2 (VP c Hc) i j Hi Hj), (proj2 (VP c Hc) j i Hj Hi). unfold class_cov.
        apply Qmult_comp; [|reflexivity]. apply qsum_ext. intros. ring. }
      unfold qda_metric. rewrite E0, E1, E2.
      assert (Vq : isv (inst_vector q) d (fun j => nth j v 0%Q)) by (change (inst_vector q) with (inst_vals q); rewrite Hq, <- Lv; apply isv_fin).
      destruct (ism_mul_left _ _ _ _ _ V Vq) as (u & -> & Vu). destruct (isv_dot_opt _ _ _ _ _ Vu Vq) as (a & -> & Vx).
      destruct (isv_dot_opt _ _ _ _ _ Vw Vq) as (b & -> & Vb). destruct (isq_fin _ _ (isq_add _ _ _ _ (isq_add _ _ _ _ Vx Vb) V0)) as (z & -> & Hz).
      exists z. split; [reflexivity|]. rewrite Hz. unfold W, W0. rewrite quad_bil. change (away s c v) with (fun j => nth j v 0 - mu c j)%Q.
      rewrite (bil_left d (fun i j => mget (S c) i j * - (1#2))%Q (fun j => nth j v 0%Q) (fun j => nth j v 0%Q)).
      rewrite (bil_left d (mget (S c)) (mu c) (fun j => nth j v 0%Q)). rewrite (bil_swap d (mget (S c)) (mu c)) by exact SS.
      rewrite (bil_sub d (mget (S c)) (fun j => nth j v 0%Q) (mu c) SS).
      assert (EB : forall a b, (bil d (fun i j => mget (S c) i j * - (1#2)) a b == - (1#2) * bil d (mget (S c)) a b)%Q).
      { intros a' b'. unfold bil. rewrite <- qsum_scale. apply ssum_ext. intros i Hi. rewrite <- qsum_scale. apply ssum_ext. intros j Hj. ring. }
      rewrite EB. ring.
  Qed.
End Disc.

(** * A class with one instance *)
Definition nanm (d : nat) (m : list (list dbl)) : Prop := dims d m /\ Forall (Forall (eq NaN)) m.
Lemma nans_eq d (r : list dbl) : length r = d -> Forall (eq NaN) r -> r = repeat NaN d.
Proof. intros <- H. induction H as [|x r <- H IH]; [reflexivity|]. cbn. rewrite <- IH. reflexivity. Qed.
Lemma nanm_eq d m : nanm d m -> m = repeat (repeat NaN d) d.
Proof.
  intros [[L F] N]. rewrite <- L at 2. clear L. induction m as [|r m IH]; [reflexivity|]. inversion F; inversion N; subst. cbn. rewrite <- IH by assumption. f_equal.
  apply nans_eq; [reflexivity|assumption].
Qed.
Lemma nanm_nans d : nanm d (repeat (repeat NaN d) d).
Proof.
  split; [split; [apply repeat_length|]|]; apply Forall_forall; intros r Hr; apply repeat_spec in Hr as ->; [apply repeat_length|].
  apply Forall_forall. intros x Hx. apply repeat_spec in Hx. congruence.
Qed.
Lemma dadd_nan_r x : dadd x NaN = NaN.
Proof. destruct x; reflexivity. Qed.
Lemma nanm_map d m g : g NaN = NaN -> nanm d m -> nanm d (map (map g) m).
Proof.
  intros H [D N]. split; [apply map_dims, D|]. apply Forall_map. eapply Forall_impl; [|exact N]. intros r Hr. apply Forall_map. eapply Forall_impl; [|exact Hr]. intros x <-. cbv beta. congruence.
Qed.
Lemma nanm_add d m m' : dims d m -> dims d m' -> nanm d m \/ nanm d m' -> nanm d (mat_add m m').
Proof.
  intros D D' H. split; [apply mat_add_dims; assumption|]. unfold mat_add. rewrite (dims_cols _ _ D), (dims_cols _ _ D'), (proj1 D), (proj1 D'), !Nat.eqb_refl. cbn [andb].
  apply Forall_map, Forall_forall. intros [r r'] Hr. apply Forall_map, Forall_forall. intros [x x'] Hx. cbn [fst snd] in *.
  destruct H as [[_ N]|[_ N]]; rewrite Forall_forall in N.
  - apply in_combine_l in Hr, Hx. apply N in Hr. rewrite Forall_forall in Hr. rewrite <- (Hr x Hx). reflexivity.
  - apply in_combine_r in Hr, Hx. apply N in Hr. rewrite Forall_forall in Hr. rewrite <- (Hr x' Hx), dadd_nan_r. reflexivity.
Qed.
Lemma cov_single shape x : uniform shape [x] -> exists avg, cont_average_all [x] = Ok avg /\ length avg = dim shape /\ exists m, covariance avg [x] = Ok m /\ nanm (dim shape) m.
Proof.
  intros H. destruct (average_all shape [x] H) as (av & E & L & V); [cbn; lia|]. exists (map Fin av). split; [exact E|]. split; [rewrite map_length; exact L|].
  pose proof (uniform_rows shape [x] H) as R. inversion R as [|? ? ? ? [Ex Lx] _ E1 E2]; subst. set (d := dim shape) in *.
  unfold covariance. change (atn [x] 0) with (@Ok instance x). cbn [bind]. rewrite (inst_size_uniform _ _ _ H (or_introl eq_refl)). fold d.
  destruct (cov_fold_fin d av [x] [row x] (repeat (repeat 0%Q d) d)) as (m & Em & Sm & Vm).
  - split; [apply repeat_length|]. apply Forall_forall. intros r Hr. apply repeat_spec in Hr as ->. apply repeat_length.
  - exact L.
  - constructor; [split; assumption|constructor].
  - assert (E0 : map (map Fin) (repeat (repeat 0%Q d) d) = repeat (repeat d0 d) d).
    { assert (G : forall A B (g : A -> B) a n, map g (repeat a n) = repeat (g a) n) by (intros A B g a n; induction n; cbn; congruence). rewrite !G. reflexivity. }
    rewrite <- E0, Em. cbn [bind]. eexists. split; [reflexivity|]. destruct Sm as [L1 F1]. split.
    + split; [rewrite !map_length; exact L1|]. rewrite map_map. apply Forall_map. eapply Forall_impl; [|exact F1]. intros r Hr. rewrite !map_length. exact Hr.
    + rewrite map_map. apply Forall_map, Forall_forall. intros r Hr. rewrite map_map. apply Forall_map, Forall_forall. intros z Hz.
      destruct (In_nth _ _ [] Hr) as (i & Hi & Ei). destruct (In_nth _ _ 0%Q Hz) as (j & Hj & Ej).
      assert (Lr : length r = d) by (rewrite Forall_forall in F1; apply F1, Hr). rewrite L1 in Hi. rewrite Lr in Hj.
      assert (Z : (z == 0)%Q).
      { specialize (Vm i j Hi Hj). unfold mget in Vm. rewrite Ei, Ej in Vm. rewrite Vm. cbn [map]. unfold qsum. cbn [fold_right].
        rewrite (nth_indep (repeat (repeat 0%Q d) d) [] (repeat 0%Q d)) by (rewrite repeat_length; exact Hi). rewrite !nth_repeat. unfold dev. rewrite (V i Hi), (V j Hj).
        unfold col. cbn [map]. unfold qmean, qsum. cbn [fold_right length]. change (qofn 1) with 1%Q. field. }
      symmetry. apply ddiv_00; [exact Z|reflexivity].
Qed.
Lemma pooled_single shape l c : uniform shape l -> In c (map label l) -> length (filter (of_class c) l) = 1 ->
  pooled l (labelled l) = Ok (repeat (repeat NaN (dim shape)) (dim shape)).
Proof.
  intros H Hc H1. assert (Hn : l <> []) by (intros ->; destruct Hc). unfold pooled. destruct (atn_hd l Hn) as (x & -> & Hx). cbn [bind]. rewrite (inst_size_uniform _ _ _ H Hx).
  set (d := dim shape). match goal with |- context [foldM ?f _ _] => set (F := f) end.
  assert (K : forall m c0 (l0 : ilist), dims d m -> uniform shape l0 -> l0 <> [] -> exists m', F m (c0, l0) = Ok m' /\ dims d m' /\ (nanm d m \/ length l0 = 1 -> nanm d m')).
  { intros m c0 l0 Dm Hu Hg. unfold F. cbn [snd]. destruct (Nat.eq_dec (length l0) 1) as [L1|N1].
    - destruct l0 as [|y [|]]; try discriminate. destruct (cov_single shape y Hu) as (avg & -> & _ & cv & Ec & Nc). cbn [bind]. rewrite Ec. cbn [bind].
      assert (NS : nanm d (mat_scale (dofZ (Z.of_nat (length [y]) - 1)) cv)) by (apply (nanm_map d cv (fun v => dmul v _)); [reflexivity|exact Nc]).
      eexists. split; [reflexivity|]. split; [apply mat_add_dims; [exact Dm|apply (proj1 NS)]|]. intros _. apply nanm_add; [exact Dm|apply (proj1 NS)|right; exact NS].
    - destruct (average_total _ _ Hu Hg) as (avg & -> & La). cbn [bind]. destruct (covariance_total _ _ _ Hu Hg La) as (cv & -> & Dc). cbn [bind].
      assert (DS : dims d (mat_scale (dofZ (Z.of_nat (length l0) - 1)) cv)) by (apply map_dims, Dc).
      eexists. split; [reflexivity|]. split; [apply mat_add_dims; assumption|]. intros [Nm|]; [|lia]. apply nanm_add; [exact Dm|exact DS|left; exact Nm]. }
  assert (G : forall gs m, dims d m -> Forall (fun g : string * ilist => uniform shape (@snd string ilist g) /\ @snd string ilist g <> []) gs ->
     exists m', foldM F gs m = Ok m' /\ dims d m' /\ (nanm d m \/ (exists g, In g gs /\ length (snd g) = 1) -> nanm d m')).
  { induction gs as [|g gs IH]; intros m Dm Hg; cbn [foldM]; [exists m; split; [reflexivity|]; split; [exact Dm|]; intros [Nm|(? & [] & _)]; exact Nm|].
    inversion Hg as [|? ? (U & N) Hg']; subst. destruct g as [c0 l0]. destruct (K m c0 l0 Dm U N) as (m1 & -> & D1 & N1). cbn [bind]. destruct (IH m1 D1 Hg') as (m' & E & D' & N'). exists m'. split; [exact E|]. split; [exact D'|].
    intros [Nm|(g' & [<-|Hg2] & L)]; apply N'; [left; apply N1; left; exact Nm|left; apply N1; right; exact L|right; exists g'; split; assumption]. }
  destruct (G (labelled l) (repeat (repeat d0 d) d)) as (m & E & _ & N).
  - split; [apply repeat_length|]. apply Forall_forall. intros r Hr. apply repeat_spec in Hr as ->. apply repeat_length.
  - apply class_lists_ok, H.
  - rewrite E. cbn [bind]. f_equal. apply nanm_eq. apply (nanm_map d m (fun v => ddiv v _)); [reflexivity|]. apply N. right. exists (c, filter (of_class c) l). split; [|exact H1].
    unfold labelled. apply in_map_iff. exists c. split; [reflexivity|apply distinct_in, Hc].
Qed.
Lemma vdot_nan_from u v : forall a, a = NaN \/ (u <> [] /\ length u = length v /\ Forall (eq NaN) u) -> fold_left (fun s p => dadd s (dmul (fst p) (snd p))) (combine u v) a = NaN.
Proof.
  revert v. induction u as [|x u IH]; intros [|y v] a H.
  - destruct H as [->|[N _]]; [reflexivity|congruence].
  - destruct H as [->|[N _]]; [reflexivity|congruence].
  - destruct H as [->|(_ & L & _)]; [reflexivity|discriminate].
  - cbn [combine fold_left fst snd]. apply IH. left. destruct H as [->|(_ & _ & F)]; [reflexivity|]. inversion F as [|? ? Ex Fu]. rewrite <- Ex. cbn [dmul]. apply dadd_nan_r.
Qed.
