(** Proofs for separable training data (C137). *)
From Coq Require Import String ZArith QArith Qabs Bool Lia Lqa Permutation Sorted List.
From Verif Require Import Base Spec BaseLemmas DblLemmas AttrModel InstanceListModel PerformanceModel SolverModel SvmModel SvmSpec SvmTrainSpec KernelProofs
  SolverInvProofs SolverTermProofs SvmProofs SvmProps SvmTrainProofs SvmTrainProps SepSpec.
Import ListNotations.
Local Open Scope string_scope.
Local Open Scope list_scope.
Local Open Scope nat_scope.

(** ** The dual problem *)
Section Dual.
Context (n : nat) (y : nat -> Q) (K : nat -> nat -> Q) (C e r : Q) (a g : nat -> Q) (b0 S : Q).
Notation dec k := (sum_over n (fun j => y j * a j * K j k) - r)%Q.
Hypothesis Hy : forall k, k < n -> (y k * y k == 1)%Q.
Hypothesis Hf : feasible n y C a.
Hypothesis Hm : forall k, k < n -> (a k < C -> 1 - e <= y k * dec k)%Q /\ (0 < a k -> y k * dec k <= 1 + e)%Q.
Hypothesis He : (0 <= e)%Q.
Hypothesis Hg : forall k, k < n -> (1 <= y k * (g k + b0))%Q.
Hypothesis HS : forall t c, (0 <= t * t * S - 2 * t * sum_over n (fun i => c i * g i) + sum_over n (fun i => sum_over n (fun j => K j i * c j * c i)))%Q.
Hypothesis HC : ((1 + e) * S < C)%Q.
Lemma all_free k : k < n -> (1 - e <= y k * dec k)%Q.
Proof.
  intros Hk. apply (proj1 (Hm k Hk)). destruct Hf as [Hb Hs]. set (A := sum_over n a).
  assert (T1 : (A <= sum_over n (fun i => y i * a i * g i))%Q).
  { assert (E : (sum_over n (fun i => y i * a i * g i) == sum_over n (fun i => a i * (y i * (g i + b0))))%Q).
    { rewrite (sum_ext n (fun i => a i * (y i * (g i + b0)))%Q (fun i => y i * a i * g i + b0 * (y i * a i))%Q) by (intros; ring). rewrite sum_plus, sum_scale. rewrite Hs. ring. }
    rewrite E. apply sum_le. intros i Hi. pose proof (Hg i Hi). destruct (Hb i Hi). nra. }
  assert (T2 : (sum_over n (fun i => sum_over n (fun j => K j i * (y j * a j) * (y i * a i))) <= (1 + e) * A)%Q).
  { assert (E : (sum_over n (fun i => sum_over n (fun j => K j i * (y j * a j) * (y i * a i))) == sum_over n (fun i => a i * (y i * dec i)))%Q).
    { rewrite (sum_ext n (fun i => a i * (y i * dec i))%Q (fun i => sum_over n (fun j => K j i * (y j * a j) * (y i * a i)) + (- r) * (y i * a i))%Q).
      - rewrite sum_plus, sum_scale, Hs. ring.
      - intros i Hi. rewrite (sum_ext n (fun j => K j i * (y j * a j) * (y i * a i))%Q (fun j => (y i * a i) * (y j * a j * K j i))%Q) by (intros; ring). rewrite sum_scale. ring. }
    rewrite E. unfold A. rewrite <- sum_scale. apply sum_le. intros i Hi. destruct (Hb i Hi) as [H0 _]. destruct (Qlt_le_dec 0 (a i)) as [Hp|Hp].
    - pose proof (proj2 (Hm i Hi) Hp). nra.
    - assert (a i == 0)%Q as Z by lra. rewrite Z. lra. }
  pose proof (HS (1 + e)%Q (fun i => y i * a i)%Q) as H.
  assert (HA : (A <= (1 + e) * S)%Q).
  { destruct (Qlt_le_dec ((1 + e) * S) A) as [L|L]; [|exact L]. exfalso. cbv beta in H. nra. }
  pose proof (sum_member n a k ltac:(intros i Hi; apply (Hb i Hi)) Hk). fold A in H0. lra.
Qed.
End Dual.

(** ** Sums over a list of points followed by another *)
Lemma sum_split m n f : (sum_over (m + n) f == sum_over m f + sum_over n (fun j => f (m + j)%nat))%Q.
Proof.
  unfold sum_over. rewrite seq_app, map_app, DblLemmas.qsum_app. cbn [Nat.add]. apply Qplus_comp; [reflexivity|]. replace (seq m n) with (map (fun j => m + j) (seq 0 n)); [rewrite map_map; reflexivity|].
  clear f. revert m. induction n as [|n IH]; intros m; [reflexivity|]. cbn [seq map]. rewrite Nat.add_0_r. f_equal. rewrite <- (IH (S m)), <- seq_shift, map_map. apply map_ext. intros j. lia.
Qed.
Section Kernel.
Context (dexp dtanh : dbl -> dbl) (dpow : dbl -> Z -> dbl) (p : svm_param) (gamma coef0 : Q).
Hypothesis Hm : libm dexp dtanh dpow.
Notation kv := (kernel_value dexp dtanh dpow p gamma coef0).
Notation kern := (kern dexp dtanh dpow p gamma coef0).
Lemma kv_sym v w : (kv v w == kv w v)%Q.
Proof.
  unfold kernel_value. pose proof (tk_sym dexp dtanh dpow Hm p gamma coef0 v w) as H. destruct (textbook_kernel dexp dtanh dpow (p_kernel p) (p_degree p) gamma coef0 v w), (textbook_kernel dexp dtanh dpow (p_kernel p) (p_degree p) gamma coef0 w v); cbn in *; tauto || reflexivity.
Qed.
Lemma extended_psd us vs beta : psd (length (us ++ vs)) (kern (us ++ vs)) -> forall t c,
  (0 <= t * t * squared_length dexp dtanh dpow p gamma coef0 us beta - 2 * t * sum_over (length vs) (fun i => c i * expansion dexp dtanh dpow p gamma coef0 us beta (nth i vs []))
      + sum_over (length vs) (fun i => sum_over (length vs) (fun j => kern vs j i * c j * c i)))%Q.
Proof.
  intros H t c. set (m := length us). set (n := length vs). specialize (H (fun i => if i <? m then t * beta i else - c (i - m)%nat)%Q). rewrite app_length in H. fold m n in H.
  set (ex := expansion dexp dtanh dpow p gamma coef0 us beta).
  assert (U : forall i, i < m -> nth i (us ++ vs) [] = nth i us []) by (intros; apply app_nth1; assumption).
  assert (V : forall i, nth (m + i) (us ++ vs) [] = nth i vs []) by (intros; rewrite app_nth2 by lia; f_equal; lia).
  assert (kernE : forall zs i j, kern zs i j = kv (nth i zs []) (nth j zs [])) by reflexivity.
  assert (I : forall i, (sum_over (m + n) (fun j => kern (us ++ vs) i j * (if i <? m then t * beta i else - c (i - m)%nat) * (if j <? m then t * beta j else - c (j - m)%nat)) ==
     (if i <? m then t * beta i else - c (i - m)%nat) * (t * ex (nth i (us ++ vs) []) - sum_over n (fun j => c j * kv (nth i (us ++ vs) []) (nth j vs []))))%Q).
  { intros i. set (ci := (if i <? m then t * beta i else - c (i - m)%nat)%Q). rewrite sum_split.
    rewrite (sum_ext m _ (fun j => (ci * t) * (beta j * kv (nth j us []) (nth i (us ++ vs) [])))%Q).
    2:{ intros j Hj. rewrite kernE, (U j Hj), (proj2 (Nat.ltb_lt j m) Hj), (kv_sym (nth j us [])). ring. }
    rewrite (sum_ext n _ (fun j => (- ci) * (c j * kv (nth i (us ++ vs) []) (nth j vs [])))%Q).
    2:{ intros j Hj. rewrite kernE, V, (proj2 (Nat.ltb_ge (m + j) m) ltac:(lia)). replace (m + j - m) with j by lia. ring. }
    rewrite !sum_scale. unfold ex, expansion. fold m. ring. }
  rewrite (sum_ext _ _ _ (fun i _ => I i)) in H. clear I. rewrite sum_split in H.
  rewrite (sum_ext m _ (fun i => (t * t) * (beta i * ex (nth i us [])) + (- t) * (beta i * sum_over n (fun j => c j * kv (nth i us []) (nth j vs []))))%Q) in H.
  2:{ intros i Hi. rewrite (U i Hi), (proj2 (Nat.ltb_lt i m) Hi). ring. }
  rewrite (sum_ext n _ (fun i => (- t) * (c i * ex (nth i vs [])) + c i * sum_over n (fun j => c j * kv (nth i vs []) (nth j vs [])))%Q) in H.
  2:{ intros i Hi. rewrite V, (proj2 (Nat.ltb_ge (m + i) m) ltac:(lia)). replace (m + i - m) with i by lia. ring. }
  rewrite !sum_plus, !sum_scale in H. unfold squared_length. fold m. fold ex.
  assert (X : (sum_over m (fun i => beta i * sum_over n (fun j => c j * kv (nth i us []) (nth j vs []))) == sum_over n (fun j => c j * ex (nth j vs [])))%Q).
  { rewrite (sum_ext m _ (fun i => sum_over n (fun j => c j * (beta i * kv (nth i us []) (nth j vs []))))%Q).
    - rewrite sum_swap. apply sum_ext. intros j Hj. rewrite sum_scale. reflexivity.
    - intros i Hi. rewrite <- sum_scale. apply sum_ext. intros j Hj. ring. }
  assert (Y : (sum_over n (fun i => c i * sum_over n (fun j => c j * kv (nth i vs []) (nth j vs []))) == sum_over n (fun i => sum_over n (fun j => kern vs j i * c j * c i)))%Q).
  { apply sum_ext. intros i Hi. rewrite <- sum_scale. apply sum_ext. intros j Hj. rewrite kernE, (kv_sym (nth j vs [])). ring. }
  rewrite X, Y in H. lra.
Qed.
End Kernel.

(** ** From the margins of a solution to the side of every vector *)
Section Side.
Context (dexp dtanh : dbl -> dbl) (dpow : dbl -> Z -> dbl) (p : svm_param) (gamma coef0 C : Q).
Notation kv := (kernel_value dexp dtanh dpow p gamma coef0).
Lemma sign_sq b : (sign b * sign b == 1)%Q.
Proof. destruct b; reflexivity. Qed.
Lemma right_side vs signs a r : libm dexp dtanh dpow -> separable dexp dtanh dpow p gamma coef0 C vs signs ->
  feasible (length vs) (ylab signs) C a -> margins dexp dtanh dpow p gamma coef0 C vs signs (1 # 1000) a r ->
  forall k, k < length vs -> (999 # 1000 <= ylab signs k * decision dexp dtanh dpow p gamma coef0 vs signs a r k)%Q.
Proof.
  intros Hm (us & beta & b0 & Hg & HC & Hpsd) Hf Hmar k Hk.
  pose proof (all_free (length vs) (ylab signs) (kern dexp dtanh dpow p gamma coef0 vs) C (1 # 1000) r a (fun i => expansion dexp dtanh dpow p gamma coef0 us beta (nth i vs [])) b0
    (squared_length dexp dtanh dpow p gamma coef0 us beta)) as H.
  assert (1 - (1 # 1000) <= ylab signs k * decision dexp dtanh dpow p gamma coef0 vs signs a r k)%Q as G; [|lra].
  apply H; try assumption; [lra|].
  intros t c. apply (extended_psd dexp dtanh dpow p gamma coef0 Hm us vs beta Hpsd t c).
Qed.
Lemma pair_sum (signs : list bool) (al : list Q) (vs : list (list Q)) (a : nat -> Q) w : length signs = length vs -> length al = length vs ->
  (forall k, k < length vs -> (nth k al 0%Q == a k)%Q) ->
  (qsum (map (fun t => sign (fst (fst t)) * snd (fst t) * kv (snd t) w) (combine (combine signs al) vs)) == sum_over (length vs) (fun j => ylab signs j * a j * kv (nth j vs []) w))%Q.
Proof.
  intros L1 L2 Ha. assert (Lc : length (combine signs al) = length vs) by (rewrite combine_length; lia).
  rewrite <- (sum_over_nth (fun t => sign (fst (fst t)) * snd (fst t) * kv (snd t) w)%Q ((true, 0%Q), [])).
  rewrite combine_length, Lc, Nat.min_id. apply sum_ext. intros j Hj. rewrite combine_nth by exact Lc. rewrite combine_nth by lia. cbn [fst snd]. rewrite (Ha j Hj). reflexivity.
Qed.
Lemma qnth al k d : nth_error (map Fin al) k = Some d -> d = Fin (nth k al 0%Q).
Proof. rewrite nth_error_map. destruct (nth_error al k) as [q|] eqn:E; [|discriminate]. cbn. intros H. injection H as <-. rewrite (nth_error_nth _ _ _ E). reflexivity. Qed.
Lemma pair_index a b (l : ilist) x : In x l -> a <> b -> label x = a \/ label x = b ->
  exists k, k < length (pair_vectors a b l) /\ nth k (pair_vectors a b l) [] = qvec x /\ nth k (pair_signs a b l) true = String.eqb (label x) a.
Proof.
  intros Hx Hab Hl. unfold pair_vectors, pair_signs, pair_problem.
  assert (M : forall c, label x = c -> exists k, nth_error (members c l) k = Some x).
  { intros c Hc. apply In_nth_error. unfold members. apply filter_In. split; [exact Hx|apply String.eqb_eq; exact Hc]. }
  destruct Hl as [Ha|Hb].
  - destruct (M a Ha) as (k & E). assert (k < length (members a l)) as Lk by (apply nth_error_Some; congruence).
    exists k. split; [rewrite map_length, app_length; lia|]. split.
    + rewrite map_app, app_nth1 by (rewrite map_length; exact Lk). apply nth_error_nth. rewrite nth_error_map, E. reflexivity.
    + rewrite app_nth1 by (rewrite map_length; exact Lk). rewrite (proj2 (String.eqb_eq _ _) Ha). apply nth_error_nth. rewrite nth_error_map, E. reflexivity.
  - destruct (M b Hb) as (k & E). assert (k < length (members b l)) as Lk by (apply nth_error_Some; congruence).
    exists (length (members a l) + k). split; [rewrite map_length, app_length; lia|]. split.
    + rewrite map_app, app_nth2, map_length by (rewrite map_length; lia). replace (length (members a l) + k - length (members a l)) with k by lia. apply nth_error_nth. rewrite nth_error_map, E. reflexivity.
    + rewrite app_nth2, map_length by (rewrite map_length; lia). replace (length (members a l) + k - length (members a l)) with k by lia.
      replace (String.eqb (label x) a) with false by (symmetry; apply String.eqb_neq; congruence). apply nth_error_nth. rewrite nth_error_map, E. reflexivity.
Qed.
Lemma pair_vector_in a b (l : ilist) k : k < length (pair_vectors a b l) -> exists x, In x l /\ nth k (pair_vectors a b l) [] = qvec x /\
  ((label x = a /\ nth k (pair_signs a b l) true = true) \/ (label x = b /\ nth k (pair_signs a b l) true = false)).
Proof.
  unfold pair_vectors, pair_signs, pair_problem. rewrite map_length, app_length. intros Hk.
  assert (G : forall c x, In x (members c l) -> In x l /\ label x = c) by (intros c x H; unfold members in H; apply filter_In in H as [H1 H2]; apply String.eqb_eq in H2; tauto).
  destruct (Nat.lt_ge_cases k (length (members a l))) as [L|L].
  - destruct (nth_error (members a l) k) as [x|] eqn:E; [|apply nth_error_None in E; lia]. exists x. destruct (G a x (nth_error_In _ _ E)) as [Hi Hl]. split; [exact Hi|].
    rewrite map_app, !app_nth1 by (rewrite map_length; exact L). split; [apply nth_error_nth; rewrite nth_error_map, E; reflexivity|]. left. split; [exact Hl|]. apply nth_error_nth. rewrite nth_error_map, E. reflexivity.
  - destruct (nth_error (members b l) (k - length (members a l))) as [x|] eqn:E; [|apply nth_error_None in E; lia]. exists x. destruct (G b x (nth_error_In _ _ E)) as [Hi Hl]. split; [exact Hi|].
    rewrite map_app, !app_nth2, !map_length by (rewrite map_length; exact L). split; [apply nth_error_nth; rewrite nth_error_map, E; reflexivity|]. right. split; [exact Hl|]. apply nth_error_nth. rewrite nth_error_map, E. reflexivity.
Qed.
Lemma told_separable a b l : told_apart dexp dtanh dpow p gamma coef0 C a b l -> separable dexp dtanh dpow p gamma coef0 C (pair_vectors a b l) (pair_signs a b l).
Proof.
  intros (us & beta & b0 & Ha & Hb & HC & Hp). exists us, beta, b0. split; [|split; assumption]. intros i Hi. unfold ylab.
  destruct (pair_vector_in a b l i Hi) as (x & Hx & Ev & [[El Es]|[El Es]]); rewrite Ev, Es; unfold sign; [pose proof (Ha x Hx El)|pose proof (Hb x Hx El)]; lra.
Qed.
Lemma plane_told a b l : p_kernel p = LINEAR -> plane_apart C a b l -> told_apart dexp dtanh dpow p gamma coef0 C a b l.
Proof.
  intros Hk (w & b0 & Ha & Hb & HC). exists [w], (fun _ => 1%Q), b0.
  assert (E : forall v, (expansion dexp dtanh dpow p gamma coef0 [w] (fun _ => 1) v == qdot w v)%Q).
  { intros v. unfold expansion, kernel_value, textbook_kernel. rewrite Hk. unfold sum_over. cbn [length seq map nth qval]. unfold qsum; cbn [fold_right]. ring. }
  split; [intros x Hx Hl; rewrite E; apply Ha; assumption|]. split; [intros x Hx Hl; rewrite E; apply Hb; assumption|]. split.
  - assert (squared_length dexp dtanh dpow p gamma coef0 [w] (fun _ => 1) == qdot w w)%Q as S; [|rewrite S; exact HC].
    unfold squared_length, sum_over. cbn [length seq map nth]. unfold qsum; cbn [fold_right]. rewrite E. ring.
  - apply C93_linear_psd. exact Hk.
Qed.
End Side.

(** ** The class that wins every pair it is in has the most votes *)
Lemma winner n vals t b : length vals = length (class_pairs n) -> t < n -> b < n ->
  (forall i j v, In ((i, j), v) (combine (class_pairs n) vals) -> i = t \/ j = t -> wins t ((i, j), v) = true) ->
  (forall k, k < n -> votes n vals k <= votes n vals b) -> b = t.
Proof.
  intros Hl Ht Hb Hw Hmax. destruct (Nat.eq_dec b t) as [|Hne]; [assumption|exfalso].
  set (other := fun (k : nat) (pv : (nat * nat) * dbl) => if Nat.eqb k (fst (fst pv)) then snd (fst pv) else fst (fst pv)).
  set (ws := fun k => filter (wins k) (combine (class_pairs n) vals)).
  assert (P : forall pv, In pv (combine (class_pairs n) vals) -> fst (fst pv) < snd (fst pv) /\ snd (fst pv) < n).
  { intros [[i j] v] H. apply in_combine_l in H. apply (proj1 (in_class_pairs _ _ _)) in H. exact H. }
  assert (M : forall k pv, wins k pv = true -> k = fst (fst pv) \/ k = snd (fst pv)).
  { intros k [[i j] v] H. unfold wins in H. cbn [fst snd]. apply Nat.eqb_eq in H. destruct (dgtb v d0); tauto. }
  assert (V : forall k, votes n vals k = length (ws k)) by reflexivity.
  assert (F : map fst (combine (class_pairs n) vals) = class_pairs n).
  { clear -Hl. revert vals Hl. induction (class_pairs n) as [|c cp IH]; intros [|v vs] H; try discriminate; [reflexivity|]. cbn. f_equal. apply IH. injection H as H. exact H. }
  assert (Up : votes n vals b + 2 <= n).
  { rewrite V. assert (N : NoDup (b :: t :: map (other b) (ws b))).
    { assert (O : forall pv, In pv (ws b) -> other b pv <> b /\ other b pv <> t /\ fst (fst pv) < snd (fst pv) /\ snd (fst pv) < n /\ (b = fst (fst pv) \/ b = snd (fst pv))).
      { intros pv H. apply filter_In in H as [H1 H2]. pose proof (P pv H1) as P1. pose proof (M b pv H2) as M1. destruct pv as [[i j] v]. unfold other. cbn [fst snd] in *.
        assert (~ (i = t \/ j = t)) as Nt. { intros Hit. pose proof (Hw i j v H1 Hit) as W. unfold wins in W, H2. apply Nat.eqb_eq in W, H2. congruence. }
        destruct (Nat.eqb_spec b i); lia. }
      constructor; [intros [H|H]; [congruence|]; apply in_map_iff in H as (pv & E & H); apply O in H; tauto|].
      constructor; [intros H; apply in_map_iff in H as (pv & E & H); apply O in H; tauto|].
      assert (Nw : NoDup (ws b)). { apply NoDup_filter. apply (NoDup_map_inv fst). rewrite F. apply class_pairs_nodup. }
      assert (I : forall x y, In x (ws b) -> In y (ws b) -> other b x = other b y -> x = y).
      { intros x y Hx Hy E. assert (fst x = fst y) as Ef.
        { pose proof (O x Hx) as Ox. pose proof (O y Hy) as Oy. unfold other in *. destruct x as [[i j] v], y as [[i' j'] v']. cbn [fst snd] in *. destruct (Nat.eqb_spec b i), (Nat.eqb_spec b i'); f_equal; lia. }
        unfold ws in Hx, Hy. apply filter_In in Hx as [Hx _]. apply filter_In in Hy as [Hy _].
        assert (ND : NoDup (map fst (combine (class_pairs n) vals))) by (rewrite F; apply class_pairs_nodup).
        clear -Hx Hy Ef ND. induction (combine (class_pairs n) vals) as [|c cp IH]; [destruct Hx|]. cbn in ND. inversion ND as [|? ? N1 N2]; subst.
        destruct Hx as [->|Hx], Hy as [->|Hy]; [reflexivity| | |apply IH; assumption].
        - exfalso. apply N1. rewrite Ef. apply in_map, Hy.
        - exfalso. apply N1. rewrite <- Ef. apply in_map, Hx. }
      clear -Nw I. induction (ws b) as [|c cp IH]; [constructor|]. inversion Nw as [|? ? N1 N2]; subst. cbn. constructor.
      - intros H. apply in_map_iff in H as (z & E & Hz). apply N1. rewrite <- (I z c (or_intror Hz) (or_introl eq_refl) E). exact Hz.
      - apply IH; [assumption|]. intros x y Hx Hy. apply I; right; assumption. }
    pose proof (NoDup_incl_length (l' := seq 0 n) N) as L. cbn [length] in L. rewrite map_length, seq_length in L. enough (S (S (length (ws b))) <= n) by lia. apply L.
    intros o [<-|[<-|H]]; [apply in_seq; lia|apply in_seq; lia|]. apply in_map_iff in H as (pv & <- & H). apply filter_In in H as [H _]. apply P in H. apply in_seq. unfold other. destruct (Nat.eqb b _); lia. }
  assert (Lo : n <= votes n vals t + 1).
  { rewrite V. pose proof (NoDup_incl_length (l' := t :: map (other t) (ws t)) (seq_NoDup n 0)) as L. cbn [length] in L. rewrite map_length, seq_length in L. rewrite Nat.add_1_r. apply L.
    intros o Ho. apply in_seq in Ho. destruct (Nat.eq_dec t o) as [->|Hto]; [left; reflexivity|right].
    assert (G : exists i j, (i = t /\ j = o \/ i = o /\ j = t) /\ i < j /\ j < n).
    { destruct (Nat.lt_ge_cases t o); [exists t, o|exists o, t]; lia. }
    destruct G as (i & j & Hij & L1 & L2). assert (In (i, j) (class_pairs n)) as Hin by (apply in_class_pairs; lia). rewrite <- F in Hin. apply in_map_iff in Hin as ([[i' j'] v] & E & Hin). cbn in E. injection E as -> ->.
    apply in_map_iff. exists ((i, j), v). split; [unfold other; cbn [fst snd]; destruct (Nat.eqb_spec t i); lia|]. apply filter_In. split; [exact Hin|]. apply (Hw i j v Hin). lia. }
  pose proof (Hmax t Ht). lia.
Qed.
