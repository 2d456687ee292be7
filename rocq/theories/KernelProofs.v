(** Proofs about the kernels (C69). *)
From Coq Require Import String ZArith QArith Qabs Bool Lia Lqa Permutation List.
From Verif Require Import Base Spec BaseLemmas DblLemmas AttrModel AttrProofs SolverModel SvmSpec.
Import ListNotations.
Local Open Scope string_scope.
Local Open Scope list_scope.
Local Open Scope nat_scope.

(** ** Indexing *)
Lemma idxn_ok {A} (l : list A) i x : idxn l i = Ok x <-> nth_error l i = Some x.
Proof. unfold idxn; destruct (nth_error l i); split; congruence. Qed.
Lemma idxn_some {A} (l : list A) i x : nth_error l i = Some x -> idxn l i = Ok x.
Proof. apply idxn_ok. Qed.
Lemma nth_lt {A} (l : list A) i : i < length l -> exists x, nth_error l i = Some x.
Proof. intros H. destruct (nth_error l i) eqn:E; [eauto|]. apply nth_error_None in E. lia. Qed.

(** the transposition of [i] and [j] *)
Definition tr (i j k : nat) : nat := if k =? i then j else if k =? j then i else k.
Lemma tr_lt i j n k : i < n -> j < n -> k < n -> tr i j k < n.
Proof. unfold tr. destruct (k =? i), (k =? j); lia. Qed.
Lemma tr_invol i j k : tr i j (tr i j k) = k.
Proof. unfold tr. destruct (Nat.eqb_spec k i); destruct (Nat.eqb_spec k j); subst;
  repeat (match goal with |- context [?a =? ?b] => destruct (Nat.eqb_spec a b) end); subst; try lia; try congruence. Qed.
Lemma swap_at_spec {A} (l : list A) i j : i < length l -> j < length l ->
  exists l', swap_at l i j = Ok l' /\ length l' = length l /\ forall k, nth_error l' k = nth_error l (tr i j k).
Proof.
  intros Hi Hj. unfold swap_at. destruct (nth_lt l i Hi) as [a Ea]. destruct (nth_lt l j Hj) as [b Eb].
  rewrite (idxn_some _ _ _ Ea), (idxn_some _ _ _ Eb). cbn [bind]. eexists; split; [reflexivity|]. rewrite !upd_length. split; [reflexivity|].
  intros k. unfold tr. destruct (Nat.eqb_spec k i) as [->|Hki].
  - destruct (Nat.eq_dec i j) as [->|Hij].
    + rewrite nth_upd_same by (rewrite upd_length; exact Hj). congruence.
    + rewrite nth_upd_other by congruence. rewrite nth_upd_same by exact Hi. congruence.
  - destruct (Nat.eqb_spec k j) as [->|Hkj].
    + rewrite nth_upd_same by (rewrite upd_length; exact Hj). congruence.
    + rewrite !nth_upd_other by congruence. reflexivity.
Qed.
Lemma swap_at_perm {A} (l l' : list A) i j : swap_at l i j = Ok l' -> Permutation l l'.
Proof.
  intros H. assert (i < length l /\ j < length l) as [Hi Hj].
  { unfold swap_at, idxn in H. destruct (nth_error l i) eqn:E1; [|discriminate H]. cbn [bind] in H.
    destruct (nth_error l j) eqn:E2; [|discriminate H]. split; apply nth_error_Some; congruence. }
  destruct (swap_at_spec l i j Hi Hj) as (l2 & E & Hl & Hn). rewrite H in E. injection E as <-.
  apply Permutation_nth_error. split; [congruence|]. exists (tr i j). split; [|exact Hn].
  intros a b Hab. rewrite <- (tr_invol i j a), Hab. apply tr_invol.
Qed.

Lemma Forall2_nth_r {A B} (P : A -> B -> Prop) l l' : Forall2 P l l' -> forall i y, nth_error l' i = Some y -> exists x, nth_error l i = Some x /\ P x y.
Proof.
  induction 1 as [|a b l l' H _ IH]; intros [|i] y E; simpl in E; try discriminate E.
  - injection E as <-. exists a. split; [reflexivity|exact H].
  - exact (IH i y E).
Qed.
Lemma Forall2_by_nth {A B} (P : A -> B -> Prop) l l' : length l = length l' ->
  (forall i x y, nth_error l i = Some x -> nth_error l' i = Some y -> P x y) -> Forall2 P l l'.
Proof.
  revert l'; induction l as [|a l IH]; intros [|b l'] Hl H; simpl in Hl; try discriminate Hl; constructor.
  - exact (H 0 a b eq_refl eq_refl).
  - apply IH; [lia|]. intros i x y E1 E2. exact (H (S i) x y E1 E2).
Qed.
Lemma mapM_idxn {A} (l : list A) : mapM (idxn l) (seq 0 (length l)) = Ok l.
Proof.
  apply mapM_ok, Forall2_by_nth; [apply seq_length|]. intros i x y E1 E2. apply idxn_ok.
  assert (i < length l) as Hi by (apply nth_error_Some; congruence).
  rewrite (nth_error_nth' _ 0) in E1 by (rewrite seq_length; exact Hi). rewrite seq_nth in E1 by exact Hi. injection E1 as <-. exact E2.
Qed.

(** ** The RBF merge loop *)
Lemma sq_fold_fin b acc : exists r, fold_left (fun s (q : node) => dadd s (dmul (snd q) (snd q))) (nodelist (map Fin b)) (Fin acc) = Fin r /\
  (r == acc + qsum (map (fun y => y * y) b))%Q.
Proof.
  unfold nodelist. generalize 0 as i. revert acc. induction b as [|y b IH]; intros acc i.
  - exists acc. split; [reflexivity|]. simpl. ring.
  - cbn [map nodes_from]. destruct (deqb (Fin y) d0) eqn:E.
    + apply deqb_zero in E. destruct (IH acc (S i)) as (r & Hr & Er). exists r. split; [exact Hr|]. rewrite Er. cbn [qsum fold_right map]. unfold qsum. rewrite E. ring.
    + cbn [fold_left snd dmul dadd]. destruct (IH (acc + y * y)%Q (S i)) as (r & Hr & Er). exists r. split; [exact Hr|]. rewrite Er.
      cbn [qsum fold_right map]. unfold qsum. ring.
Qed.
Lemma rbf_loop_nil_r a acc : rbf_loop a [] acc = fold_left (fun s (q : node) => dadd s (dmul (snd q) (snd q))) a acc.
Proof. destruct a as [|[i x] a]; reflexivity. Qed.
Lemma rbf_skip_l i x a b acc : Forall (fun p => (i < fst p)%Z) b -> rbf_loop ((i, x) :: a) b acc = rbf_loop a b (dadd acc (dmul x x)).
Proof.
  intros H. destruct b as [|[j y] b]; [rewrite !rbf_loop_nil_r; reflexivity|].
  inversion H as [|? ? Hj _]; simpl in Hj. cbn [rbf_loop].
  destruct (Z.eqb_spec i j) as [E|E]; [lia|]. destruct (Z.ltb_spec j i); [lia|]. reflexivity.
Qed.
Lemma rbf_skip_r i y a b acc : Forall (fun p => (i < fst p)%Z) a -> rbf_loop a ((i, y) :: b) acc = rbf_loop a b (dadd acc (dmul y y)).
Proof.
  intros H. destruct a as [|[k x] a]; [reflexivity|].
  inversion H as [|? ? Hk _]; simpl in Hk. cbn [rbf_loop].
  destruct (Z.eqb_spec k i) as [E|E]; [lia|]. destruct (Z.ltb_spec i k); [|lia]. reflexivity.
Qed.
Lemma rbf_loop_same i x y a b acc :
  rbf_loop ((i, x) :: a) ((i, y) :: b) acc = rbf_loop a b (dadd acc (dmul (dsub x y) (dsub x y))).
Proof. cbn [rbf_loop]. rewrite Z.eqb_refl. reflexivity. Qed.
Lemma sq_fold_from i b acc : exists r, fold_left (fun s (q : node) => dadd s (dmul (snd q) (snd q))) (nodes_from i (map Fin b)) (Fin acc) = Fin r /\
  (r == acc + qsum (map (fun y => y * y) b))%Q.
Proof.
  revert acc i. induction b as [|y b IH]; intros acc i.
  - exists acc. split; [reflexivity|]. simpl. ring.
  - cbn [map nodes_from]. destruct (deqb (Fin y) d0) eqn:E.
    + apply deqb_zero in E. destruct (IH acc (S i)) as (r & Hr & Er). exists r. split; [exact Hr|]. rewrite Er. cbn [qsum fold_right map]. unfold qsum. rewrite E. ring.
    + cbn [fold_left snd dmul dadd]. destruct (IH (acc + y * y)%Q (S i)) as (r & Hr & Er). exists r. split; [exact Hr|]. rewrite Er.
      cbn [qsum fold_right map]. unfold qsum. ring.
Qed.
Lemma rbf_loop_dense v w i a : exists r,
  rbf_loop (nodes_from i (map Fin v)) (nodes_from i (map Fin w)) (Fin a) = Fin r /\ (r == a + sqdist v w)%Q.
Proof.
  revert w i a; induction v as [|x v IH]; intros w i a.
  - destruct (sq_fold_from i w a) as (r & E & H). exists r. split; [exact E|]. rewrite H. destruct w; reflexivity.
  - destruct w as [|y w].
    + destruct (sq_fold_from i (x :: v) a) as (r & E & H). exists r. split; [rewrite <- E; apply rbf_loop_nil_r|]. rewrite H. reflexivity.
    + assert (Gv : forall u, Forall (fun p => (Z.of_nat i < fst p)%Z) (nodes_from (S i) u)).
      { intros u. eapply Forall_impl; [|apply nodes_from_ge]. intros [k z]; simpl; lia. }
      cbn [map nodes_from sqdist]. destruct (deqb (Fin x) d0) eqn:Ex.
      * apply deqb_zero in Ex. destruct (deqb (Fin y) d0) eqn:Ey.
        -- apply deqb_zero in Ey. destruct (IH w (S i) a) as (r & Hr & Er). exists r. split; [exact Hr|]. rewrite Er, Ex, Ey; ring.
        -- rewrite rbf_skip_r by apply Gv. cbn [dmul dadd]. destruct (IH w (S i) (a + y * y)%Q) as (r & Hr & Er).
           exists r. split; [exact Hr|]. rewrite Er, Ex; ring.
      * destruct (deqb (Fin y) d0) eqn:Ey.
        -- apply deqb_zero in Ey. rewrite rbf_skip_l by apply Gv. cbn [dmul dadd]. destruct (IH w (S i) (a + x * x)%Q) as (r & Hr & Er).
           exists r. split; [exact Hr|]. rewrite Er, Ey; ring.
        -- rewrite rbf_loop_same. cbn [dsub dopp dmul dadd]. destruct (IH w (S i) (a + (x + - y) * (x + - y))%Q) as (r & Hr & Er).
           exists r. split; [exact Hr|]. rewrite Er; ring.
Qed.
Lemma rbf_dense v w : exists r, rbf_loop (svec v) (svec w) d0 = Fin r /\ (r == sqdist v w)%Q.
Proof. destruct (rbf_loop_dense v w 0 0) as (r & E & H). exists r. split; [exact E|]. rewrite H. ring. Qed.
Lemma dot_dense v w : exists r, ndot (svec v) (svec w) = Fin r /\ (r == qdot v w)%Q.
Proof.
  pose proof (ndot_dense v w) as H. unfold svec. destruct (ndot (nodelist (map Fin v)) (nodelist (map Fin w))) as [r| | |]; try contradiction.
  exists r. split; [reflexivity|exact H].
Qed.
Lemma qdot_nil_r v : qdot v [] = 0%Q.
Proof. destruct v; reflexivity. Qed.
Lemma qdot_cons x y v w : qdot (x :: v) (y :: w) = (x * y + qdot v w)%Q.
Proof. reflexivity. Qed.
Lemma qdot_comm v w : (qdot v w == qdot w v)%Q.
Proof.
  revert w; induction v as [|x v IH]; intros [|y w]; try reflexivity. rewrite !qdot_cons, IH. ring.
Qed.
Lemma sqdist_comm v w : (sqdist v w == sqdist w v)%Q.
Proof.
  revert w; induction v as [|x v IH]; intros [|y w]; try reflexivity. cbn [sqdist]. rewrite IH. ring.
Qed.
Lemma qdot_self v : (qdot v v == qsum (map (fun x => x * x) v))%Q.
Proof. induction v as [|x v IH]; [reflexivity|]. rewrite qdot_cons, IH. reflexivity. Qed.
Lemma sqdist_dot v w : (sqdist v w == qdot v v + qdot w w - 2 * qdot v w)%Q.
Proof.
  revert w; induction v as [|x v IH]; intros [|y w].
  - reflexivity.
  - cbn [sqdist]. rewrite <- qdot_self. unfold qdot at 2 4. simpl. ring.
  - cbn [sqdist]. rewrite <- qdot_self, qdot_nil_r. unfold qdot at 3. simpl. ring.
  - cbn [sqdist]. rewrite IH, !qdot_cons. ring.
Qed.

(** ** Both kernel implementations compute the textbook kernel *)
Section Kernel.
Context (dexp dtanh : dbl -> dbl) (dpow : dbl -> Z -> dbl) (Hm : libm dexp dtanh dpow).
Context (p : svm_param) (gamma coef0 : Q) (Hg : p_gamma p = Fin gamma) (Hc : p_coef0 p = Fin coef0).
Notation tk := (textbook_kernel dexp dtanh dpow (p_kernel p) (p_degree p) gamma coef0).

Lemma tk_sym v w : deq (tk v w) (tk w v).
Proof.
  unfold textbook_kernel. destruct (p_kernel p); [simpl; apply qdot_comm|apply (pow_value _ _ _ Hm)|apply (exp_value _ _ _ Hm)|apply (tanh_value _ _ _ Hm)];
    simpl; (rewrite qdot_comm || rewrite sqdist_comm); reflexivity.
Qed.
Lemma tk_finite v w : (p_kernel p = POLYNOM -> (0 <= p_degree p)%Z) -> exists q, tk v w = Fin q.
Proof.
  intros Hd. unfold textbook_kernel. destruct (p_kernel p) eqn:E; [eauto|apply (pow_finite _ _ _ Hm), Hd; reflexivity|apply (exp_finite _ _ _ Hm)|apply (tanh_finite _ _ _ Hm)].
Qed.
Lemma kernel_fun_spec v w : deq (kernel_fun dexp dtanh dpow p (svec v) (svec w)) (tk v w).
Proof.
  unfold kernel_fun, textbook_kernel. destruct (dot_dense v w) as (r & -> & Hr). rewrite Hg, Hc. destruct (p_kernel p).
  - exact Hr.
  - apply (pow_value _ _ _ Hm). simpl. rewrite Hr. reflexivity.
  - apply (exp_value _ _ _ Hm). destruct (rbf_dense v w) as (s & -> & Hs). simpl. rewrite Hs. reflexivity.
  - apply (tanh_value _ _ _ Hm). simpl. rewrite Hr. reflexivity.
Qed.

(** the kernel object holds the vectors [ws], in this order *)
Definition holds (k : kernel) (ws : list (list Q)) : Prop :=
  k_par k = p /\ k_x k = map svec ws /\
  (p_kernel p = RBF -> Forall2 (fun d w => deq d (Fin (qdot w w))) (k_sq k) ws) /\ (p_kernel p <> RBF -> k_sq k = []).

Lemma kernel_at_spec k ws i j v w : holds k ws -> nth_error ws i = Some v -> nth_error ws j = Some w ->
  exists d, kernel_at dexp dtanh dpow k i j = Ok d /\ deq d (tk v w).
Proof.
  intros (Hp & Hx & Hs & _) Ei Ej. unfold kernel_at. rewrite Hp, Hx.
  rewrite (idxn_some _ _ _ (map_nth_error svec _ _ Ei)), (idxn_some _ _ _ (map_nth_error svec _ _ Ej)). cbn [bind].
  destruct (dot_dense v w) as (r & -> & Hr). unfold textbook_kernel. rewrite Hg, Hc. destruct (p_kernel p) eqn:Ek.
  - eexists; split; [reflexivity|exact Hr].
  - eexists; split; [reflexivity|]. apply (pow_value _ _ _ Hm). simpl. rewrite Hr. reflexivity.
  - specialize (Hs eq_refl). destruct (Forall2_nth_r _ _ _ Hs _ _ Ei) as (si & Esi & Hsi). destruct (Forall2_nth_r _ _ _ Hs _ _ Ej) as (sj & Esj & Hsj).
    rewrite (idxn_some _ _ _ Esi), (idxn_some _ _ _ Esj). cbn [bind]. eexists; split; [reflexivity|]. apply (exp_value _ _ _ Hm).
    destruct si as [si| | |]; try contradiction. destruct sj as [sj| | |]; try contradiction. simpl in *.
    rewrite Hsi, Hsj, Hr, sqdist_dot. unfold Qminus. reflexivity.
  - eexists; split; [reflexivity|]. apply (tanh_value _ _ _ Hm). simpl. rewrite Hr. reflexivity.
Qed.
Lemma kernel_new_spec ws : exists k, kernel_new (length ws) (map svec ws) p = Ok k /\ holds k ws.
Proof.
  unfold kernel_new. rewrite <- (map_length svec ws), mapM_idxn. cbn [bind]. destruct (p_kernel p) eqn:Ek.
  1, 2, 4: eexists; split; [reflexivity|]; unfold holds; cbn [k_par k_x k_sq]; rewrite Ek; repeat split; congruence.
  assert (mapM (fun i => do xi <- idxn (map svec ws) i; Ok (ndot xi xi)) (seq 0 (length (map svec ws))) = Ok (map (fun x => ndot x x) (map svec ws))) as ->.
  { apply mapM_ok, Forall2_by_nth; [rewrite seq_length, !map_length; reflexivity|]. intros i x y E1 E2.
    assert (i < length (map svec ws)) as Hi by (rewrite <- (map_length (fun x => ndot x x) (map svec ws)); apply nth_error_Some; congruence).
    rewrite (nth_error_nth' _ 0) in E1 by (rewrite seq_length; exact Hi). rewrite seq_nth in E1 by exact Hi. injection E1 as <-. cbn [Nat.add].
    destruct (nth_lt _ _ Hi) as [v Ev]. rewrite (idxn_some _ _ _ Ev). cbn [bind]. rewrite (map_nth_error _ _ _ Ev) in E2. congruence. }
  cbn [bind]. eexists; split; [reflexivity|]. unfold holds. cbn [k_par k_x k_sq]. rewrite Ek. repeat split; try congruence.
  intros _. rewrite map_map. clear. induction ws as [|w ws IH]; constructor; [|exact IH]. destruct (dot_dense w w) as (r & -> & Hr). exact Hr.
Qed.
Lemma kernel_swap_spec k ws i j : holds k ws -> i < length ws -> j < length ws ->
  exists k' ws', kernel_swap k i j = Ok k' /\ holds k' ws' /\ length ws' = length ws /\ forall o, nth_error ws' o = nth_error ws (tr i j o).
Proof.
  intros (Hp & Hx & Hs & Hn) Hi Hj. unfold kernel_swap. rewrite Hx.
  destruct (swap_at_spec ws i j Hi Hj) as (ws' & _ & Hl & Hw).
  destruct (swap_at_spec (map svec ws) i j) as (xs & -> & Hxl & Hxn); [rewrite map_length; assumption..|]. cbn [bind].
  assert (xs = map svec ws') as ->. { apply list_ext. intros o. rewrite Hxn, !nth_error_map, Hw. reflexivity. }
  destruct (k_sq k) as [|s0 sq] eqn:Eq.
  - cbn [bind]. exists (mkKernel (map svec ws') [] (k_par k)), ws'. split; [reflexivity|]. split; [|split; [exact Hl|exact Hw]].
    unfold holds. cbn [k_par k_x k_sq]. split; [exact Hp|]. split; [reflexivity|]. split; [|reflexivity].
    intros Er. specialize (Hs Er). inversion Hs; subst. simpl in Hi. lia.
  - assert (p_kernel p = RBF) as Er. { destruct (p_kernel p) eqn:E; try reflexivity; exfalso; assert (s0 :: sq = []) as H by (apply Hn; discriminate); discriminate H. }
    specialize (Hs Er). pose proof (Forall2_len _ _ _ Hs) as Hlen.
    destruct (swap_at_spec (s0 :: sq) i j) as (sq' & -> & Hsl & Hsn); [rewrite Hlen; assumption..|]. cbn [bind].
    exists (mkKernel (map svec ws') sq' (k_par k)), ws'. split; [reflexivity|]. split; [|split; [exact Hl|exact Hw]].
    unfold holds. cbn [k_par k_x k_sq]. split; [exact Hp|]. split; [reflexivity|]. split; [|congruence].
    intros _. apply Forall2_by_nth; [congruence|]. intros o d w E1 E2. rewrite Hsn in E1. rewrite Hw in E2.
    destruct (Forall2_nth_r _ _ _ Hs _ _ E2) as (d' & E3 & Hd). congruence.
Qed.
End Kernel.
