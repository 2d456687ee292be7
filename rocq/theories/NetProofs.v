(** Lemmas about the neural network models: one training step, in terms of the textbook network.
    The proofs are made once for an abstract reading [P d q] of a stored double as a rational: with [P d q := True] they speak
    about shapes only, with [P d q := deq d (Fin q)] about values. *)
From Coq Require Import String ZArith QArith Qabs Bool Lia Lra Lqa Permutation List.
From Verif Require Import Base Spec BaseLemmas DblLemmas AttrModel AttrProofs DataSetModel InstanceListModel PartitionModel PerformanceModel DistanceModel GaussianModel
  SvmSpec KernelProofs SolverInvProofs SvmTrainProofs NetModel NetSpec.
Import ListNotations.
Local Open Scope string_scope.
Local Open Scope list_scope.
Local Open Scope nat_scope.

Lemma sum_S0 n f : (sum_over (S n) f == f O + sum_over n (fun k => f (S k)))%Q.
Proof. unfold sum_over. cbn [seq map]. rewrite <- seq_shift, map_map. reflexivity. Qed.
Lemma weigh_ext c w w' x x' i : (forall j, j < c -> (w i j == w' i j)%Q) -> (forall j, j < c -> (x j == x' j)%Q) -> (weigh c w x i == weigh c w' x' i)%Q.
Proof. intros H1 H2. apply sum_ext. intros k Hk. rewrite (H1 k Hk), (H2 k Hk). reflexivity. Qed.
Lemma sum_pos n f : 0 < n -> (forall k, k < n -> (0 < f k)%Q) -> (0 < sum_over n f)%Q.
Proof.
  intros Hn Hp. induction n as [|n IH]; [lia|]. rewrite sum_S. destruct n as [|n].
  - unfold sum_over. cbn. specialize (Hp O). assert (0 < f O)%Q by (apply Hp; lia). lra.
  - assert (0 < sum_over (S n) f)%Q by (apply IH; [lia|]; intros; apply Hp; lia). assert (0 < f (S n))%Q by (apply Hp; lia). lra.
Qed.
Lemma nth_lt_map {A B} (f : A -> B) l i d d' : i < length l -> nth i (map f l) d' = f (nth i l d).
Proof. revert i. induction l as [|a l IH]; intros [|i] H; cbn in *; try lia; [reflexivity|]. apply IH. lia. Qed.
Lemma input_length x : length (input_vector x) = S (inst_size x).
Proof. unfold input_vector, biased. cbn. f_equal. rewrite inst_size_length, inst_vector_concat, inst_vals_concat. reflexivity. Qed.

Lemma seq_prefix m P1 k P2 : seq 0 m = P1 ++ k :: P2 -> k = length P1.
Proof.
  intros E. assert (nth_error (seq 0 m) (length P1) = Some k) as H by (rewrite E; apply nth_mid). 
  assert (length P1 < m) as Hlt. { rewrite <- (seq_length m 0), E, app_length. cbn. lia. }
  rewrite (nth_error_nth' _ 0) in H by (rewrite seq_length; exact Hlt). rewrite seq_nth in H by exact Hlt. inversion H. lia.
Qed.

Lemma foldM_throw {S B} (F : S -> B -> res S) (l : list B) (I : list B -> S -> Prop) (bad : B -> Prop) ex s0 : I [] s0 ->
  (forall P1 k P2 s, l = P1 ++ k :: P2 -> I P1 s -> F s k = Throw ex \/ ~ bad k /\ exists s', F s k = Ok s' /\ I (P1 ++ [k]) s') ->
  (exists k, In k l /\ bad k) -> foldM F l s0 = Throw ex.
Proof.
  intros H0 Hs Hb. assert (forall P2 P1 s, l = P1 ++ P2 -> I P1 s -> (exists k, In k P2 /\ bad k) -> foldM F P2 s = Throw ex) as H.
  { induction P2 as [|k P2 IH]; intros P1 s E Hi (b & Hin' & Hbad); [destruct Hin'|]. cbn [foldM]. destruct (Hs P1 k P2 s E Hi) as [->|(Hnb & s' & -> & Hi')]; [reflexivity|].
    cbn [bind]. apply (IH (P1 ++ [k])); [rewrite <- app_assoc; exact E|exact Hi'|]. destruct Hin' as [->|Hin']; [contradiction|]. eauto. }
  apply (H l [] s0 eq_refl H0 Hb).
Qed.

Section Interp.
Context (P : dbl -> Q -> Prop).
Record closed : Prop := {
  c_proper : forall d q q', (q == q')%Q -> P d q -> P d q';
  c_add : forall a b x y, P a x -> P b y -> P (dadd a b) (x + y)%Q;
  c_sub : forall a b x y, P a x -> P b y -> P (dsub a b) (x - y)%Q;
  c_mul : forall a b x y, P a x -> P b y -> P (dmul a b) (x * y)%Q;
  c_div : forall a b x y, P a x -> P b y -> ~ (y == 0)%Q -> P (ddiv a b) (x / y)%Q;
  c_opp : forall a x, P a x -> P (dopp a) (- x)%Q;
  c_zero : P d0 0%Q;
  c_one : P d1 1%Q;
  c_relu : forall a x, P a x -> P (drelu a) (if Qle_bool 0 x then x else 0%Q);
  c_relud : forall a x, P a x -> P (drelu_deriv a) (if Qle_bool x 0 then 0%Q else 1%Q) }.
Context (HP : closed).
Context (dexp dtanh : dbl -> dbl) (e th : Q -> Q).
Context (He : forall d q, P d q -> P (dexp d) (e q)) (Hep : forall p q, (p == q)%Q -> (e p == e q)%Q) (Hpos : forall q, (0 < e q)%Q).
Context (Hth : forall d q, P d q -> P (dtanh d) (th q)) (Hthp : forall p q, (p == q)%Q -> (th p == th q)%Q).

(** ** Vectors *)
Definition vecP (v : list dbl) (n : nat) (f : nat -> Q) : Prop := length v = n /\ forall i, i < n -> P (nth i v NaN) (f i).
Definition matP (m : mat) (r c : nat) (w : nat -> nat -> Q) : Prop :=
  is_shape m r c /\ forall i j, i < r -> j < c -> P (nth j (nth i (mrow m) []) NaN) (w i j).
Lemma vecP_ext v n f g : (forall i, i < n -> (f i == g i)%Q) -> vecP v n f -> vecP v n g.
Proof. intros H (L & V). split; [exact L|]. intros i Hi. apply (c_proper HP _ (f i)); auto. Qed.
Lemma matP_ext m r c w w' : (forall i j, i < r -> j < c -> (w i j == w' i j)%Q) -> matP m r c w -> matP m r c w'.
Proof. intros H (L & V). split; [exact L|]. intros i j Hi Hj. apply (c_proper HP _ (w i j)); auto. Qed.
Lemma vecP_cons a v n f : vecP (a :: v) (S n) f <-> P a (f O) /\ vecP v n (fun i => f (S i)).
Proof.
  split.
  - intros (L & V). split; [exact (V O ltac:(lia))|]. split; [cbn in L; lia|]. intros i Hi. exact (V (S i) ltac:(lia)).
  - intros (H0 & L & V). split; [cbn; lia|]. intros [|i] Hi; [exact H0|]. apply V. lia.
Qed.
Lemma vecP_biased v n f : vecP v n f -> vecP (biased v) (S n) (with_bias f).
Proof. intros H. apply vecP_cons. split; [exact (c_one HP)|exact H]. Qed.
Lemma vecP_map v n f (g : dbl -> dbl) (h : Q -> Q) : (forall d q, P d q -> P (g d) (h q)) -> vecP v n f -> vecP (map g v) n (fun i => h (f i)).
Proof.
  intros H (L & V). split; [rewrite map_length; exact L|]. intros i Hi. rewrite (nth_lt_map g v i NaN NaN) by lia. apply H, V, Hi.
Qed.
Lemma vecP_zip (g : dbl -> dbl -> dbl) (h : Q -> Q -> Q) u v n f f' : (forall a b x y, P a x -> P b y -> P (g a b) (h x y)) ->
  vecP u n f -> vecP v n f' -> vecP (map (fun p => g (fst p) (snd p)) (combine u v)) n (fun i => h (f i) (f' i)).
Proof.
  intros H (L & V) (L' & V'). split; [rewrite map_length, combine_length; lia|]. intros i Hi.
  rewrite (nth_lt_map _ _ i (NaN, NaN) NaN) by (rewrite combine_length; lia). rewrite combine_nth by lia. apply H; [apply V|apply V']; exact Hi.
Qed.
Lemma vdiffP u v n f g : vecP u n f -> vecP v n g -> exists o, vdiff u v = Ok o /\ vecP o n (fun i => f i - g i)%Q.
Proof.
  intros Hu Hv. unfold vdiff. rewrite (proj1 Hu), (proj1 Hv), Nat.eqb_refl. eexists. split; [reflexivity|]. apply (vecP_zip dsub Qminus); auto. apply (c_sub HP).
Qed.
Lemma vprodP u v n f g : vecP u n f -> vecP v n g -> exists o, vprod u v = Ok o /\ vecP o n (fun i => f i * g i)%Q.
Proof.
  intros Hu Hv. unfold vprod. rewrite (proj1 Hu), (proj1 Hv), Nat.eqb_refl. eexists. split; [reflexivity|]. apply (vecP_zip dmul Qmult); auto. apply (c_mul HP).
Qed.
Lemma vecP_repeat n d q : P d q -> vecP (repeat d n) n (fun _ => q).
Proof. intros H. split; [apply repeat_length|]. intros i Hi. rewrite (nth_indep _ NaN d) by (rewrite repeat_length; exact Hi). rewrite nth_repeat. exact H. Qed.
Lemma vdot_fromP : forall u v n f g acc a, vecP u n f -> vecP v n g -> P acc a ->
  P (fold_left (fun s p => dadd s (dmul (fst p) (snd p))) (combine u v) acc) (a + sum_over n (fun i => f i * g i))%Q.
Proof.
  induction u as [|x u IH]; intros v n f g acc a Hu Hv Ha.
  - destruct Hu as (L & _). cbn in L. subst n. cbn [combine fold_left]. apply (c_proper HP _ a); [unfold sum_over; cbn; ring|exact Ha].
  - destruct n as [|n]; [destruct Hu as (L & _); discriminate|]. destruct v as [|y v]; [destruct Hv as (L & _); discriminate|].
    apply vecP_cons in Hu. apply vecP_cons in Hv. destruct Hu as (Hx & Hu). destruct Hv as (Hy & Hv). cbn [combine fold_left fst snd].
    apply (c_proper HP _ ((a + f O * g O) + sum_over n (fun i => f (S i) * g (S i)))%Q); [rewrite sum_S0; ring|].
    apply IH; auto. apply (c_add HP); [exact Ha|]. apply (c_mul HP); assumption.
Qed.
Lemma vdotP u v n f g : vecP u n f -> vecP v n g -> P (vdot u v) (sum_over n (fun i => f i * g i)%Q).
Proof. intros Hu Hv. apply (c_proper HP _ (0 + sum_over n (fun i => f i * g i))%Q); [ring|]. apply vdot_fromP; auto. exact (c_zero HP). Qed.

(** ** Matrices *)
Lemma matP_row m r c w i : matP m r c w -> i < r -> vecP (nth i (mrow m) []) c (w i).
Proof.
  intros ((H1 & H2 & H3) & V) Hi. split; [|intros j Hj; apply V; assumption]. rewrite Forall_forall in H3. apply H3. apply nth_In. lia.
Qed.
Lemma matP_col m r c w j : matP m r c w -> j < c -> vecP (map (fun row => nth j row d0) (mrow m)) r (fun i => w i j).
Proof.
  intros H Hj. pose proof H as ((H1 & H2 & H3) & V). split; [rewrite map_length; exact H2|]. intros i Hi. rewrite (nth_lt_map _ _ i [] NaN) by lia.
  rewrite (nth_indep _ d0 NaN); [apply V; assumption|]. rewrite (proj1 (matP_row m r c w i H Hi)). exact Hj.
Qed.
Lemma mul_rP m r c w v f : matP m r c w -> vecP v c f -> exists o, mul_r m v = Ok o /\ vecP o r (weigh c w f).
Proof.
  intros H Hv. pose proof H as ((H1 & H2 & H3) & V). unfold mul_r. rewrite H1, (proj1 Hv), Nat.eqb_refl. eexists. split; [reflexivity|].
  split; [rewrite map_length; exact H2|]. intros i Hi. rewrite (nth_lt_map _ _ i [] NaN) by lia. apply vdotP; [|exact Hv]. apply (matP_row m r c w i H Hi).
Qed.
Lemma mul_lP m r c w v f : matP m r c w -> vecP v r f -> exists o, mul_l v m = Ok o /\ vecP o c (fun j => sum_over r (fun i => f i * w i j)%Q).
Proof.
  intros H Hv. pose proof H as ((H1 & H2 & H3) & V). unfold mul_l. rewrite H2, (proj1 Hv), Nat.eqb_refl, H1. eexists. split; [reflexivity|].
  split; [rewrite map_length; apply seq_length|]. intros j Hj. rewrite (nth_lt_map _ _ j 0 NaN) by (rewrite seq_length; exact Hj). rewrite seq_nth by exact Hj. cbn [Nat.add].
  apply vdotP; [exact Hv|]. apply (matP_col m r c w j H Hj).
Qed.
Lemma mouterP u v r c f g : vecP u r f -> vecP v c g -> matP (mouter u v) r c (fun i j => f i * g j)%Q.
Proof.
  intros (Lu & Hu) (Lv & Hv). unfold mouter. split; [split; [exact Lv|]; split|].
  - cbn. rewrite map_length. exact Lu.
  - cbn. apply Forall_forall. intros row Hrow. apply in_map_iff in Hrow. destruct Hrow as (a & <- & _). rewrite map_length. exact Lv.
  - intros i j Hi Hj. cbn [mrow]. rewrite (nth_lt_map _ _ i NaN []) by lia. rewrite (nth_lt_map _ _ j NaN NaN) by lia. apply (c_mul HP); auto.
Qed.
Lemma mscaleP c q m r k w : P c q -> matP m r k w -> matP (mscale c m) r k (fun i j => w i j * q)%Q.
Proof.
  intros Hc H. pose proof H as ((H1 & H2 & H3) & V). unfold mscale. split; [split; [exact H1|]; split|].
  - cbn. rewrite map_length. exact H2.
  - cbn. apply Forall_forall. intros row Hrow. apply in_map_iff in Hrow. destruct Hrow as (a & <- & Ha). rewrite map_length. rewrite Forall_forall in H3. auto.
  - intros i j Hi Hj. cbn [mrow]. rewrite (nth_lt_map _ _ i [] []) by lia. rewrite (nth_lt_map _ _ j NaN NaN) by (rewrite (proj1 (matP_row m r k w i H Hi)); exact Hj).
    apply (c_mul HP); auto.
Qed.
Lemma maddP m m' r c w w' : matP m r c w -> matP m' r c w' -> exists s, madd m m' = Ok s /\ matP s r c (fun i j => w i j + w' i j)%Q.
Proof.
  intros H H'. pose proof H as ((H1 & H2 & H3) & V). pose proof H' as ((H1' & H2' & H3') & V'). unfold madd. rewrite H1, H2, H1', H2', !Nat.eqb_refl. cbn [andb].
  eexists. split; [reflexivity|]. split; [split; [reflexivity|]; split|].
  - cbn. rewrite map_length, combine_length. lia.
  - cbn. apply Forall_forall. intros row Hrow. apply in_map_iff in Hrow. destruct Hrow as ((a & b) & <- & Ha). cbn [fst snd]. rewrite map_length, combine_length.
    rewrite Forall_forall in H3, H3'. rewrite (H3 a), (H3' b); [lia|apply (in_combine_r _ _ _ _ Ha)|apply (in_combine_l _ _ _ _ Ha)].
  - intros i j Hi Hj. cbn [mrow]. rewrite (nth_lt_map _ _ i ([], []) []) by (rewrite combine_length; lia). rewrite combine_nth by lia. cbn [fst snd].
    pose proof (proj1 (matP_row m r c w i H Hi)) as L. pose proof (proj1 (matP_row m' r c w' i H' Hi)) as L'.
    rewrite (nth_lt_map _ _ j (NaN, NaN) NaN) by (rewrite combine_length; lia). rewrite combine_nth by lia. cbn [fst snd]. apply (c_add HP); auto.
Qed.
Lemma stepP m r c w d x f g rate q : matP m r c w -> P rate q -> vecP d r f -> vecP x c g ->
  exists s, madd m (mscale rate (mouter d x)) = Ok s /\ matP s r c (fun i j => w i j + q * (f i * g j))%Q.
Proof.
  intros Hm Hr Hd Hx. destruct (maddP m (mscale rate (mouter d x)) r c w (fun i j => f i * g j * q)%Q Hm) as (s & E & Hs).
  { apply (mscaleP rate q); [exact Hr|]. apply mouterP; assumption. }
  exists s. split; [exact E|]. eapply matP_ext; [|exact Hs]. intros i j _ _. cbv beta. ring.
Qed.

(** ** Layers *)
Lemma actP a d q : P d q -> P (act_fn dexp dtanh a d) (qact e th a q).
Proof.
  intros H. destruct a; cbn [act_fn qact].
  - unfold dsigmoid. apply (c_div HP); [exact (c_one HP)| |].
    + apply (c_add HP); [exact (c_one HP)|]. apply He, (c_opp HP), H.
    + pose proof (Hpos (- q)%Q). intros E. lra.
  - apply Hth, H.
  - apply (c_relu HP), H.
Qed.
Lemma qact_proper a p q : (p == q)%Q -> (qact e th a p == qact e th a q)%Q.
Proof.
  intros E. destruct a; cbn [qact].
  - rewrite (Hep (- p) (- q)); [reflexivity|rewrite E; reflexivity].
  - apply Hthp, E.
  - rewrite (qle_bool_proper 0 0 p q) by (try reflexivity; exact E). destruct (Qle_bool 0 q); [exact E|reflexivity].
Qed.
Lemma hiddenP a input w r c W f : matP w r c W -> vecP input c f -> exists h, hidden dexp dtanh input w a = Ok h /\ vecP h r (fun i => qact e th a (weigh c W f i)).
Proof.
  intros Hw Hi. destruct (mul_rP w r c W input f Hw Hi) as (o & E & Ho). unfold hidden. rewrite E. cbn [bind]. eexists. split; [reflexivity|].
  apply (vecP_map o r (weigh c W f) (act_fn dexp dtanh a) (qact e th a)); [|exact Ho]. intros d q. apply actP.
Qed.
Lemma exp_sumP o : forall n f acc a, vecP o n f -> P acc a -> P (fold_left (fun s v => dadd s (dexp v)) o acc) (a + sum_over n (fun i => e (f i)))%Q.
Proof.
  induction o as [|x o IH]; intros n f acc a Ho Ha.
  - destruct Ho as (L & _). cbn in L. subst n. cbn [fold_left]. apply (c_proper HP _ a); [unfold sum_over; cbn; ring|exact Ha].
  - destruct n as [|n]; [destruct Ho as (L & _); discriminate|]. apply vecP_cons in Ho. destruct Ho as (Hx & Ho). cbn [fold_left].
    apply (c_proper HP _ ((a + e (f O)) + sum_over n (fun i => e (f (S i))))%Q); [rewrite sum_S0; ring|]. apply (IH n (fun i => f (S i))); [exact Ho|].
    apply (c_add HP); [exact Ha|apply He, Hx].
Qed.
Lemma normalizeP o n f : vecP o n f -> vecP (normalize dexp o) n (softmax e n f).
Proof.
  intros Ho. split; [unfold normalize; rewrite map_length; exact (proj1 Ho)|]. intros i Hi. unfold normalize. rewrite (nth_lt_map _ _ i NaN NaN) by (rewrite (proj1 Ho); exact Hi).
  unfold softmax. apply (c_div HP).
  - apply He, Ho, Hi.
  - apply (c_proper HP _ (0 + sum_over n (fun j => e (f j)))%Q); [ring|]. apply exp_sumP; [exact Ho|exact (c_zero HP)].
  - assert (0 < sum_over n (fun j => e (f j)))%Q by (apply sum_pos; [lia|]; intros; apply Hpos). intros E. lra.
Qed.
Lemma one_hotP n t : t < n -> exists r, one_hot n t = Ok r /\ vecP r n (fun i => if Nat.eqb i t then 1 else 0)%Q.
Proof.
  intros Ht. unfold one_hot. rewrite (proj2 (Nat.ltb_lt t n) Ht). eexists. split; [reflexivity|]. split; [rewrite upd_length, repeat_length; reflexivity|].
  intros i Hi. destruct (Nat.eqb_spec i t) as [->|Hn].
  - rewrite (nth_error_nth _ t NaN (nth_upd_same (repeat d0 n) t d1 ltac:(rewrite repeat_length; exact Ht))). exact (c_one HP).
  - assert (nth_error (upd (repeat d0 n) t d1) i = Some d0) as E.
    { rewrite nth_upd_other by congruence. rewrite (nth_error_nth' _ d0) by (rewrite repeat_length; exact Hi). rewrite nth_repeat. reflexivity. }
    rewrite (nth_error_nth _ i NaN E). exact (c_zero HP).
Qed.
Lemma r_minus_yP labels x input w c W f : In (label x) labels -> matP w (length labels) c W -> vecP input c f ->
  exists y d, r_minus_y dexp labels x input w = Ok (y, Ok d) /\ vecP y (length labels) (softmax e (length labels) (weigh c W f)) /\
    vecP d (length labels) (fun i => (if Nat.eqb i (find_pos (label x) labels) then 1 else 0) - softmax e (length labels) (weigh c W f) i)%Q.
Proof.
  intros Hl Hw Hi. unfold r_minus_y. destruct (one_hotP (length labels) (find_pos (label x) labels) (proj1 (find_pos_lt _ _) Hl)) as (r & -> & Hr). cbn [bind].
  destruct (mul_rP w _ c W input f Hw Hi) as (o & -> & Ho). cbn [bind]. pose proof (normalizeP o _ _ Ho) as Hy.
  destruct (vdiffP r (normalize dexp o) _ _ _ Hr Hy) as (d & -> & Hd). eexists _, d. split; [reflexivity|]. split; assumption.
Qed.
Lemma vremove0P v n f : vecP v (S n) f -> exists t, vremove0 v = Ok t /\ vecP t n (fun i => f (S i)).
Proof. intros H. destruct v as [|a v]; [destruct H as (L & _); discriminate|]. apply vecP_cons in H. exists v. split; [reflexivity|apply H]. Qed.
(** the derivative the code uses: for tanh it applies tanh a second time *)
Definition code_deriv (a : activation) (h : Q) : Q := match a with TANH => 1 - th h * th h | _ => qact_deriv a h end.
Lemma one_minusP h n f : vecP h n f -> exists o, one_minus h = Ok o /\ vecP o n (fun i => 1 - f i)%Q.
Proof. intros H. unfold one_minus. rewrite (proj1 H). apply (vdiffP (repeat d1 n) h n (fun _ => 1%Q) f); [apply vecP_repeat, (c_one HP)|exact H]. Qed.
Lemma deep_derivP a hn h n f : (a = TANH -> hn = n) -> vecP h n f -> exists o, deep_deriv dtanh a hn h = Ok o /\ vecP o n (fun i => code_deriv a (f i)).
Proof.
  intros Ht H. destruct a; cbn [deep_deriv code_deriv qact_deriv].
  - destruct (one_minusP h n f H) as (o & -> & Ho). cbn [bind]. destruct (vprodP o h n _ _ Ho H) as (p & -> & Hp). exists p. split; [reflexivity|].
    eapply vecP_ext; [|exact Hp]. intros i _. cbv beta. ring.
  - pose proof (vecP_map h n f dtanh th Hth H) as H'. destruct (vprodP _ _ n _ _ H' H') as (p & -> & Hp). cbn [bind]. rewrite (Ht eq_refl).
    apply (vdiffP (repeat d1 n) p n (fun _ => 1%Q) _); [apply vecP_repeat, (c_one HP)|exact Hp].
  - eexists. split; [reflexivity|]. apply (vecP_map h n f drelu_deriv (fun q => if Qle_bool q 0 then 0 else 1)%Q); [|exact H]. apply (c_relud HP).
Qed.
Lemma mlp_deriv_deep a h : mlp_deriv dtanh a h = deep_deriv dtanh a (length h) h.
Proof. destruct a; reflexivity. Qed.

(** ** One training step *)
Definition netP (ms : list mat) (n : nat) (ls : list layer) : Prop :=
  length ms = length ls /\ forall k m, nth_error ms k = Some m -> matP m (size n ls (S k)) (S (size n ls k)) (weight ls k).
Lemma linear_stepP labels rate q w y x W f : In (label x) labels -> P rate q -> matP w (length labels) (S (inst_size x)) W -> vecP (inst_vector x) (inst_size x) f ->
  exists w' y', linear_step dexp labels rate (w, y) x = Ok (w', y') /\
    matP w' (length labels) (S (inst_size x)) (new_weight (fun z => z) (inst_size x) [(length labels, W)] f e (fun h => h) q (find_pos (label x) labels) 0).
Proof.
  intros Hl Hq Hw Hx. unfold linear_step. pose proof (vecP_biased _ _ _ Hx) as Hi.
  destruct (r_minus_yP labels x (input_vector x) w _ W _ Hl Hw Hi) as (y' & d & -> & _ & Hd). cbn [attempt fst snd].
  destruct (stepP w _ _ W d (input_vector x) _ _ rate q Hw Hq Hd Hi) as (w' & -> & Hw'). cbn [attempt]. exists w', y'. split; [reflexivity|]. exact Hw'.
Qed.
Lemma mlp_stepP labels a rate q w v y x n W V f : In (label x) labels -> P rate q -> matP w n (S (inst_size x)) W -> matP v (length labels) (S n) V ->
  vecP (inst_vector x) (inst_size x) f ->
  let nw := new_weight (qact e th a) (inst_size x) [(n, W); (length labels, V)] f e (code_deriv a) q (find_pos (label x) labels) in
  exists w' v' y', mlp_step dexp dtanh labels a rate (w, v, y) x = Ok (w', v', y') /\ matP w' n (S (inst_size x)) (nw 0) /\ matP v' (length labels) (S n) (nw 1).
Proof.
  intros Hl Hq Hw Hv Hx nw. unfold mlp_step. pose proof (vecP_biased _ _ _ Hx) as Hi. fold (input_vector x) in Hi.
  destruct (hiddenP a (input_vector x) w _ _ W _ Hw Hi) as (h & -> & Hh). cbn [attempt]. pose proof (vecP_biased _ _ _ Hh) as Hhb.
  destruct (r_minus_yP labels x (biased h) v _ V _ Hl Hv Hhb) as (y' & d & -> & _ & Hd). cbn [attempt fst snd].
  unfold mlp_deltas. destruct (mul_lP v _ _ V d _ Hv Hd) as (t & -> & Ht). cbn [bind]. destruct (vremove0P t _ _ Ht) as (t' & -> & Ht'). cbn [bind].
  rewrite mlp_deriv_deep. destruct (deep_derivP a (length h) h n _ (fun _ => proj1 Hh) Hh) as (ad & -> & Had). cbn [bind].
  destruct (vprodP t' ad _ _ _ Ht' Had) as (tt & -> & Htt). cbn [bind attempt fst snd].
  destruct (stepP v _ _ V d (biased h) _ _ rate q Hv Hq Hd Hhb) as (v' & -> & Hv'). cbn [attempt].
  destruct (stepP w _ _ W tt (input_vector x) _ _ rate q Hw Hq Htt Hi) as (w' & -> & Hw'). cbn [attempt].
  exists w', v', y'. split; [reflexivity|]. split; [exact Hw'|exact Hv'].
Qed.
Lemma mlp_outputP a w v x y n k d W V f : matP w n (S d) W -> matP v k (S n) V -> vecP (inst_vector x) d f ->
  exists y', mlp_output dexp dtanh a w v (input_vector x) y = Ok y' /\ vecP y' k (scores (qact e th a) d [(n, W); (k, V)] f).
Proof.
  intros Hw Hv Hx. pose proof (vecP_biased _ _ _ Hx) as Hi. fold (input_vector x) in Hi. unfold mlp_output, forward2.
  destruct (hiddenP a (input_vector x) w _ _ W _ Hw Hi) as (h & -> & Hh). cbn [bind]. destruct (mul_rP v _ _ V (biased h) _ Hv (vecP_biased _ _ _ Hh)) as (o & -> & Ho).
  exists o. split; [reflexivity|exact Ho].
Qed.
Lemma linear_outputP w x y k d W f : matP w k (S d) W -> vecP (inst_vector x) d f ->
  exists y', linear_output w (input_vector x) y = Ok y' /\ vecP y' k (scores (fun z => z) d [(k, W)] f).
Proof.
  intros Hw Hx. pose proof (vecP_biased _ _ _ Hx) as Hi. fold (input_vector x) in Hi. unfold linear_output.
  destruct (mul_rP w _ _ W (input_vector x) _ Hw Hi) as (o & -> & Ho). exists o. split; [reflexivity|exact Ho].
Qed.

(** ** Deep networks *)
Section Deep.
Context (a : activation) (n : nat) (ls : list layer) (f : nat -> Q) (ws : list mat) (Hws : netP ws n ls).
Context (L : nat) (HL : length ls = S L).
Context (input : list dbl) (Hin : vecP input (S n) (with_bias f)).
Let val := value (qact e th a) n ls f.
Lemma last_L : last_layer ls = L.
Proof. unfold last_layer. lia. Qed.
Lemma layer_at k : k <= L -> exists w, atn ws k = Ok w /\ matP w (size n ls (S k)) (S (size n ls k)) (weight ls k).
Proof.
  intros Hk. destruct (nth_error ws k) as [w|] eqn:E.
  - exists w. unfold atn. rewrite E. split; [reflexivity|]. exact (proj2 Hws k w E).
  - apply nth_error_None in E. rewrite (proj1 Hws) in E. lia.
Qed.
(** [st]: hidden and hiddenBiased hold the values entering layers 1 .. k *)
Definition fwd (k : nat) (st : list (list dbl) * list (list dbl)) : Prop :=
  length (fst st) = k /\ snd st = map biased (fst st) /\ forall i h, nth_error (fst st) i = Some h -> vecP h (size n ls (S i)) (val (S i)).
Lemma fwd_input k st : fwd k st -> forall inp i, i <= k -> (if Nat.eqb i 0 then Ok input else atn (snd st) (i - 1)) = Ok inp -> vecP inp (S (size n ls i)) (with_bias (val i)).
Proof.
  intros (F1 & F2 & F3) inp i Hi E. destruct (Nat.eqb_spec i 0) as [->|Hn]; [inversion E; subst; exact Hin|].
  apply atn_ok in E. rewrite F2, nth_error_map in E. destruct (nth_error (fst st) (i - 1)) as [h|] eqn:Eh; [|discriminate]. cbn in E. inversion E; subst.
  specialize (F3 _ _ Eh). replace (S (i - 1)) with i in F3 by lia. apply vecP_biased. exact F3.
Qed.
Lemma fwd_input_ok k st i : fwd k st -> i <= k -> exists inp, (if Nat.eqb i 0 then Ok input else atn (snd st) (i - 1)) = Ok inp.
Proof.
  intros (F1 & F2 & F3) Hi. destruct (Nat.eqb_spec i 0) as [->|Hn]; [eauto|]. unfold atn. rewrite F2, nth_error_map.
  destruct (nth_error (fst st) (i - 1)) as [h|] eqn:Eh; [cbn; eauto|]. apply nth_error_None in Eh. lia.
Qed.
Lemma deep_forwardP : exists st, deep_forward dexp dtanh a input ws L = Ok st /\ fwd L st.
Proof.
  unfold deep_forward.
  destruct (foldM_inv_ok (fun (st : list (list dbl) * list (list dbl)) k => do inp <- (if Nat.eqb k 0 then Ok input else atn (snd st) (k - 1));
                     do w <- atn ws k; do h <- hidden dexp dtanh inp w a; Ok (fst st ++ [h], snd st ++ [biased h])) (seq 0 L)
                     (fun ks st => fwd (length ks) st) ([], [])) as (st & E & I).
  - split; [reflexivity|]. split; [reflexivity|]. intros [|i] h H; discriminate.
  - intros P1 k P2 st EP F. pose proof (seq_prefix L P1 k P2 EP) as Hk.
    assert (k < L) as HkL. { assert (length (seq 0 L) = L) by apply seq_length. rewrite EP, app_length in H. cbn in H. lia. }
    destruct (fwd_input_ok _ st k F ltac:(lia)) as (inp & Ei). rewrite Ei. cbn [bind]. pose proof (fwd_input _ st F inp k ltac:(lia) Ei) as Hinp.
    destruct (layer_at k ltac:(lia)) as (w & -> & Hw). cbn [bind]. destruct (hiddenP a inp w _ _ _ _ Hw Hinp) as (h & -> & Hh). cbn [bind].
    eexists. split; [reflexivity|]. destruct F as (F1 & F2 & F3). unfold fwd. cbn [fst snd]. rewrite !app_length, F1. split; [reflexivity|].
    split; [rewrite map_app, F2; reflexivity|]. intros i h' Hi. destruct (Nat.lt_ge_cases i (length P1)) as [Hlt|Hge].
    + rewrite nth_error_app1 in Hi by lia. apply F3, Hi.
    + rewrite nth_error_app2 in Hi by lia. rewrite F1 in Hi. destruct (i - length P1) as [|m] eqn:Em; [|destruct m; discriminate].
      cbn in Hi. inversion Hi; subst h'. replace i with k by lia. exact Hh.
  - rewrite seq_length in I. exists st. split; [exact E|exact I].
Qed.
Lemma deep_outputP y : 0 < L -> exists y', deep_output dexp dtanh a ws input y = Ok y' /\ vecP y' (size n ls (S L)) (scores (qact e th a) n ls f).
Proof.
  intros Hpos0. unfold deep_output. rewrite (proj1 Hws), HL. cbn [Nat.eqb]. replace (S L - 1) with L by lia.
  destruct (foldM_inv_ok (deep_hidden dexp dtanh a input ws) (seq 0 L)
     (fun ks hb => ks <> [] -> vecP hb (S (size n ls (length ks))) (with_bias (val (length ks)))) []) as (hb & E & I).
  - congruence.
  - intros P1 k P2 hb EP F. pose proof (seq_prefix L P1 k P2 EP) as Hk.
    assert (k < L) as HkL. { assert (length (seq 0 L) = L) by apply seq_length. rewrite EP, app_length in H. cbn in H. lia. }
    unfold deep_hidden. destruct (layer_at k ltac:(lia)) as (w & -> & Hw). cbn [bind].
    assert (vecP (if Nat.eqb k 0 then input else hb) (S (size n ls k)) (with_bias (val k))) as Hinp.
    { destruct (Nat.eqb_spec k 0) as [->|Hn]; [exact Hin|]. rewrite Hk. apply F. intros ->. cbn in Hk. lia. }
    destruct (hiddenP a _ w _ _ _ _ Hw Hinp) as (h & -> & Hh). cbn [bind]. eexists. split; [reflexivity|]. intros _. rewrite app_length. cbn [length].
    replace (length P1 + 1) with (S k) by lia. apply vecP_biased. exact Hh.
  - rewrite seq_length in I. rewrite E. cbn [bind]. destruct (layer_at L ltac:(lia)) as (w & -> & Hw). cbn [bind].
    assert (vecP hb (S (size n ls L)) (with_bias (val L))) as Hhb. { apply I. destruct L; [lia|discriminate]. }
    destruct (mul_rP w _ _ _ hb _ Hw Hhb) as (o & -> & Ho). exists o. split; [reflexivity|]. unfold scores. rewrite last_L. exact Ho.
Qed.
End Deep.

Lemma deep_updateP rate q : P rate q -> forall ms deltas done (r c : nat -> nat) (W D : nat -> nat -> nat -> Q), length ms = length deltas ->
  (forall k m, nth_error ms k = Some m -> matP m (r k) (c k) (W k)) -> (forall k m, nth_error deltas k = Some m -> matP m (r k) (c k) (D k)) ->
  exists ms', deep_update rate done ms deltas = Ok (done ++ ms') /\ length ms' = length ms /\
    forall k m, nth_error ms' k = Some m -> matP m (r k) (c k) (fun i j => W k i j + q * D k i j)%Q.
Proof.
  intros Hq. induction ms as [|m ms IH]; intros deltas done r c W D HL Hm Hd.
  - exists []. cbn. rewrite app_nil_r. split; [reflexivity|]. split; [reflexivity|]. intros [|k] x H; discriminate.
  - destruct deltas as [|dl deltas]; [discriminate|]. cbn [deep_update].
    destruct (maddP m (mscale rate dl) (r 0) (c 0) (W 0) (fun i j => (D O i j * q)%Q) (Hm 0 m eq_refl)) as (s & -> & Hs).
    { apply mscaleP; [exact Hq|exact (Hd 0 dl eq_refl)]. }
    cbn [attempt]. destruct (IH deltas (done ++ [s]) (fun k => r (S k)) (fun k => c (S k)) (fun k => W (S k)) (fun k => D (S k))) as (ms' & E & L' & V).
    + cbn in HL. lia.
    + intros k x. exact (Hm (S k) x).
    + intros k x. exact (Hd (S k) x).
    + exists (s :: ms'). rewrite E, <- app_assoc. split; [reflexivity|]. split; [cbn; lia|]. intros [|k] x H.
      * cbn in H. inversion H; subst. eapply matP_ext; [|exact Hs]. intros i j _ _. cbv beta. ring.
      * exact (V k x H).
Qed.
Lemma nth_rev_seq L m : m < L -> nth_error (rev (seq 0 L)) m = Some (L - S m).
Proof.
  intros H. rewrite (nth_error_nth' _ 0) by (rewrite rev_length, seq_length; exact H). rewrite rev_nth by (rewrite seq_length; exact H).
  rewrite seq_length, seq_nth by lia. reflexivity.
Qed.
Lemma rev_seq_prefix L P1 k P2 : rev (seq 0 L) = P1 ++ k :: P2 -> length P1 < L /\ k = L - S (length P1).
Proof.
  intros E. assert (length P1 < L) as H. { pose proof (rev_length (seq 0 L)) as H. rewrite E, app_length, seq_length in H. cbn in H. lia. }
  split; [exact H|]. pose proof (nth_rev_seq L _ H) as H'. rewrite E, nth_mid in H'. congruence.
Qed.

Section DeepStep.
Context (a : activation) (n : nat) (ls : list layer) (f : nat -> Q) (ws : list mat) (Hws : netP ws n ls).
Context (L : nat) (HL : length ls = S L) (HL0 : 0 < L).
Context (input : list dbl) (Hin : vecP input (S n) (with_bias f)) (t : nat).
Let val := value (qact e th a) n ls f.
Let sig q := signal (qact e th a) n ls f e (code_deriv a) t q.
(** after [m] iterations of the backward loop *)
Definition bwd (m : nat) (st : list dbl * list mat) : Prop :=
  vecP (fst st) (size n ls (S (L - m))) (sig m) /\ length (snd st) = S m /\
  forall i dl, nth_error (snd st) i = Some dl ->
    matP dl (size n ls (S (L - m + i))) (S (size n ls (L - m + i))) (fun u v => sig (L - (L - m + i)) u * with_bias (val (L - m + i)) v)%Q.
Lemma back_step st hh m : fwd a n ls f L hh -> m < L -> bwd m st ->
  (a = TANH -> size n ls (S (L - S m)) = L) ->
  exists st', deep_back dtanh a input ws (fst hh) (snd hh) st (L - S m) = Ok st' /\ bwd (S m) st'.
Proof.
  intros F Hm (B1 & B2 & B3) Ht. set (k := L - S m). pose proof F as (F1 & F2 & F3). unfold deep_back.
  assert (S k = L - m) as Ek by (unfold k; lia). assert (k < L) as HkL by (unfold k; lia).
  destruct (layer_at n ls ws Hws L HL (k + 1) ltac:(lia)) as (w & -> & Hw). cbn [bind]. replace (k + 1) with (S k) in Hw by lia.
  rewrite <- Ek in B1. destruct (mul_lP w _ _ _ (fst st) _ Hw B1) as (tt & -> & Htt). cbn [bind]. destruct (vremove0P tt _ _ Htt) as (t' & -> & Ht'). cbn [bind].
  destruct (nth_error (fst hh) k) as [h|] eqn:Eh; [|apply nth_error_None in Eh; lia].
  assert (atn (fst hh) k = Ok h) as -> by (unfold atn; rewrite Eh; reflexivity). cbn [bind]. specialize (F3 k h Eh).
  destruct (deep_derivP a (length (fst hh)) h _ _ (fun Ea => eq_trans F1 (eq_sym (Ht Ea))) F3) as (ad & -> & Had). cbn [bind].
  destruct (vprodP t' ad _ _ _ Ht' Had) as (th' & -> & Hth'). cbn [bind].
  destruct (fwd_input_ok a n ls f L HL input L hh k F ltac:(lia)) as (inp & Ei). rewrite Ei. cbn [bind].
  pose proof (fwd_input a n ls f L HL input Hin L hh F inp k ltac:(lia) Ei) as Hinp.
  assert (vecP th' (size n ls (S k)) (sig (S m))) as Hsig.
  { eapply vecP_ext; [|exact Hth']. intros i Hi. unfold sig. cbn [signal]. rewrite (last_L ls L HL). fold k. reflexivity. }
  eexists. split; [reflexivity|]. unfold bwd. cbn [fst snd]. replace (L - S m) with k by reflexivity. split; [exact Hsig|]. split; [cbn; lia|].
  intros [|i] dl Hi.
  - cbn in Hi. inversion Hi; subst dl. rewrite Nat.add_0_r. replace (L - k) with (S m) by (unfold k; lia). apply mouterP; assumption.
  - cbn in Hi. specialize (B3 i dl Hi). replace (L - m + i) with (k + S i) in B3 by lia. exact B3.
Qed.
Lemma gradient_size q k : size n (gradient_step (qact e th a) n ls f e (code_deriv a) q t) k = size n ls k.
Proof.
  unfold size, gradient_step. destruct k as [|k]; [reflexivity|]. cbn [nth]. rewrite map_map.
  destruct (Nat.lt_ge_cases k (length ls)) as [H|H].
  - rewrite (nth_lt_map _ _ k 0 0) by (rewrite seq_length; exact H). rewrite seq_nth by exact H. reflexivity.
  - rewrite !nth_overflow; rewrite ?map_length, ?seq_length; auto.
Qed.
Lemma gradient_weight q k : k < length ls ->
  weight (gradient_step (qact e th a) n ls f e (code_deriv a) q t) k = new_weight (qact e th a) n ls f e (code_deriv a) q t k.
Proof. intros H. unfold weight at 1. unfold gradient_step. rewrite (nth_lt_map _ _ k 0) by (rewrite seq_length; exact H). rewrite seq_nth by exact H. reflexivity. Qed.
Context (labels : list string) (x : instance) (Hlab : In (label x) labels) (Ht : t = find_pos (label x) labels) (Hinx : input = input_vector x).
Context (HK : size n ls (S L) = length labels).
Lemma deep_start hh : fwd a n ls f L hh ->
  exists hb p d, (do hb <- atn (snd hh) (L - 1); do w <- atn ws (length ws - 1); do p <- r_minus_y dexp labels x hb w; Ok (hb, p)) = Ok (hb, (p, Ok d)) /\
    vecP hb (S (size n ls L)) (with_bias (val L)) /\ bwd 0 (d, [mouter d hb]).
Proof.
  intros F. destruct (fwd_input_ok a n ls f L HL input L hh L F ltac:(lia)) as (hb & Eb). pose proof (fwd_input a n ls f L HL input Hin L hh F hb L ltac:(lia) Eb) as Hhb.
  destruct (Nat.eqb_spec L 0) as [H0|_]; [lia|]. rewrite Eb. cbn [bind]. rewrite (proj1 Hws), HL. replace (S L - 1) with L by lia.
  destruct (layer_at n ls ws Hws L HL L ltac:(lia)) as (w & -> & Hw). cbn [bind]. rewrite HK in Hw.
  destruct (r_minus_yP labels x hb w _ _ _ Hlab Hw Hhb) as (p & d & -> & _ & Hd). cbn [bind]. exists hb, p, d. split; [reflexivity|]. split; [exact Hhb|].
  assert (vecP d (size n ls (S L)) (sig 0)) as Hsig.
  { rewrite HK. eapply vecP_ext; [|exact Hd]. intros i Hi. unfold sig. cbn [signal]. rewrite Ht. unfold scores. rewrite (last_L ls L HL), HK. reflexivity. }
  unfold bwd. cbn [fst snd]. rewrite Nat.sub_0_r. split; [exact Hsig|]. split; [reflexivity|]. intros [|i] dl Hi; [|destruct i; discriminate].
  cbn in Hi. inversion Hi; subst dl. rewrite Nat.add_0_r, Nat.sub_diag. apply mouterP; assumption.
Qed.
Lemma deep_stepP rate q y : P rate q -> (a = TANH -> forall k, k < L -> size n ls (S k) = L) ->
  exists ws' y', deep_step dexp dtanh labels a L rate (ws, y) x = Ok (ws', y') /\
    netP ws' n (gradient_step (qact e th a) n ls f e (code_deriv a) q t).
Proof.
  intros Hq Htan. unfold deep_step. rewrite <- Hinx. destruct (deep_forwardP a n ls f ws Hws L HL input Hin) as (hh & E & F). rewrite E. cbn [attempt].
  destruct (deep_start hh F) as (hb & p & d & E' & Hhb & B0). rewrite E'. cbn [attempt fst snd].
  rewrite (proj1 Hws), HL. replace (S L - 1) with L by lia.
  destruct (foldM_inv_ok (deep_back dtanh a input ws (fst hh) (snd hh)) (rev (seq 0 L)) (fun ks st => bwd (length ks) st) (d, [mouter d hb]) B0) as (b & Eb & Bb).
  { intros P1 k P2 st EP B. destruct (rev_seq_prefix L P1 k P2 EP) as (H1 & ->). rewrite app_length. cbn [length]. rewrite Nat.add_1_r.
    apply back_step; auto. intros Ea. apply (Htan Ea). lia. }
  rewrite Eb. cbn [attempt]. rewrite rev_length, seq_length in Bb. destruct Bb as (_ & Lb & Db). rewrite Nat.sub_diag in Db.
  destruct (deep_updateP rate q Hq ws (snd b) [] (fun k => size n ls (S k)) (fun k => S (size n ls k)) (weight ls) (fun k u v => sig (L - k) u * with_bias (val k) v)%Q) as (ws' & -> & L' & V).
  - rewrite (proj1 Hws). lia.
  - exact (proj2 Hws).
  - exact Db.
  - cbn [bind app]. exists ws', p. split; [reflexivity|]. split.
    + rewrite L', (proj1 Hws). unfold gradient_step. rewrite map_length, seq_length. reflexivity.
    + intros k m Hk. assert (k < length ls) as Hlt. { rewrite <- (proj1 Hws), <- L'. apply nth_error_Some. congruence. }
      rewrite !gradient_size, gradient_weight by exact Hlt. eapply matP_ext; [|exact (V k m Hk)]. intros i j _ _. cbv beta. unfold new_weight. rewrite (last_L ls L HL). reflexivity.
Qed.
(** tanh with a hidden layer whose size is not the number of hidden layers: nothing is updated *)
Lemma deep_step_tanh rate y : a = TANH -> (exists k, k < L /\ size n ls (S k) <> L) -> exists y', deep_step dexp dtanh labels a L rate (ws, y) x = Ok (ws, y').
Proof.
  intros Ea (k0 & Hk0 & Hbad). unfold deep_step. rewrite <- Hinx. destruct (deep_forwardP a n ls f ws Hws L HL input Hin) as (hh & E & F). rewrite E. cbn [attempt].
  destruct (deep_start hh F) as (hb & p & d & E' & Hhb & B0). rewrite E'. cbn [attempt fst snd].
  rewrite (proj1 Hws), HL. replace (S L - 1) with L by lia.
  rewrite (foldM_throw (deep_back dtanh a input ws (fst hh) (snd hh)) (rev (seq 0 L)) (fun ks st => bwd (length ks) st) (fun k => size n ls (S k) <> L) VectorSizeMismatch (d, [mouter d hb]) B0).
  - cbn [attempt caught]. eauto.
  - intros P1 k P2 st EP B. destruct (rev_seq_prefix L P1 k P2 EP) as (H1 & ->). set (m := length P1) in *. destruct (Nat.eq_dec (size n ls (S (L - S m))) L) as [Hs|Hs].
    + right. split; [intros H; contradiction|]. rewrite app_length. cbn [length]. rewrite Nat.add_1_r. apply back_step; auto.
    + left. destruct B as (B1 & B2 & B3). set (k := L - S m) in *. pose proof F as (F1 & F2 & F3). unfold deep_back.
      assert (S k = L - m) as Ek by (unfold k; lia). assert (k < L) as HkL by (unfold k; lia).
      destruct (layer_at n ls ws Hws L HL (k + 1) ltac:(lia)) as (w & -> & Hw). cbn [bind]. replace (k + 1) with (S k) in Hw by lia.
      rewrite <- Ek in B1. destruct (mul_lP w _ _ _ (fst st) _ Hw B1) as (tt & -> & Htt). cbn [bind]. destruct (vremove0P tt _ _ Htt) as (t' & -> & Ht'). cbn [bind].
      destruct (nth_error (fst hh) k) as [h|] eqn:Eh; [|apply nth_error_None in Eh; lia].
      assert (atn (fst hh) k = Ok h) as -> by (unfold atn; rewrite Eh; reflexivity). cbn [bind]. specialize (F3 k h Eh).
      rewrite Ea. cbn [deep_deriv]. pose proof (vecP_map h _ _ dtanh th Hth F3) as F4. destruct (vprodP _ _ _ _ _ F4 F4) as (pp & -> & Hp). cbn [bind].
      unfold vdiff. rewrite repeat_length, F1, (proj1 Hp). destruct (Nat.eqb_spec L (size n ls (S k))); [congruence|reflexivity].
  - exists k0. split; [|exact Hbad]. apply in_rev. rewrite rev_involutive. apply in_seq. lia.
Qed.
End DeepStep.
End Interp.
