(** Termination of the main loop of the solver.  A step that ends at the optimum of its pair lowers the objective by a fixed
    amount.  A step that is stopped by a bound keeps the multipliers on the grid of their common denominator, so it lowers the
    objective by an amount that only depends on that denominator.  The objective is bounded from below. *)
From Coq Require Import String ZArith QArith Qabs Qround Bool Lia Lra Lqa Permutation List.
From Verif Require Import Base Spec BaseLemmas DblLemmas AttrModel SolverModel SvmSpec KernelProofs SolverProofs SolverInvProofs.
Import ListNotations.
Local Open Scope string_scope.
Local Open Scope list_scope.
Local Open Scope nat_scope.

Lemma sum_member n f o : (forall k, k < n -> (0 <= f k)%Q) -> o < n -> (f o <= sum_over n f)%Q.
Proof.
  intros Hf Ho. rewrite (sum_change n (fun k => if k =? o then 0 else f k)%Q f o Ho).
  - rewrite Nat.eqb_refl. assert (sum_over n (fun _ => 0) <= sum_over n (fun k => if k =? o then 0 else f k))%Q as H.
    { apply sum_le. intros k Hk. destruct (k =? o); [lra|apply Hf, Hk]. }
    rewrite (sum_zero n (fun _ => 0)%Q) in H by reflexivity. lra.
  - intros k _ Hn. destruct (Nat.eqb_spec k o); [contradiction|reflexivity].
Qed.
Lemma nat_bound (x d : Q) : (0 < d)%Q -> exists N : nat, (x <= inject_Z (Z.of_nat N) * d)%Q.
Proof.
  intros Hd. exists (Z.to_nat (Qceiling (x / d))).
  assert (x / d <= inject_Z (Z.of_nat (Z.to_nat (Qceiling (x / d)))))%Q as H.
  { apply (Qle_trans _ _ _ (Qle_ceiling _)). rewrite <- Zle_Qle. lia. }
  apply (Qmult_le_compat_r _ _ d) in H; [|lra]. assert (x / d * d == x)%Q as E by (field; lra). rewrite E in H. exact H.
Qed.

(** multiples of 1/D *)
Definition grid (D : Z) (q : Q) : Prop := exists z : Z, (q * inject_Z D == inject_Z z)%Q.
Lemma grid_den q : grid (Zpos (Qden q)) q.
Proof. exists (Qnum q). unfold Qeq, Qmult, inject_Z. simpl. lia. Qed.
Lemma grid_mult D E q : grid D q -> grid (D * E) q.
Proof. intros (z & H). exists (z * E)%Z. rewrite !inject_Z_mult, Qmult_assoc, H. reflexivity. Qed.
Lemma grid_0 D : grid D 0.
Proof. exists 0%Z. ring. Qed.
Lemma grid_eq D q r : (q == r)%Q -> grid D q -> grid D r.
Proof. intros E (z & H). exists z. rewrite <- E. exact H. Qed.
Lemma grid_minus D q r : grid D q -> grid D r -> grid D (q - r).
Proof. intros (z & H) (w & G). exists (z - w)%Z. unfold Zminus. rewrite inject_Z_plus, inject_Z_opp, <- H, <- G. ring. Qed.
Lemma grid_plus D q r : grid D q -> grid D r -> grid D (q + r).
Proof. intros (z & H) (w & G). exists (z + w)%Z. rewrite inject_Z_plus, <- H, <- G. ring. Qed.
Lemma grid_pos D q : (0 < D)%Z -> grid D q -> (0 < q)%Q -> (1 <= q * inject_Z D)%Q.
Proof.
  intros HD (z & H) Hq. rewrite H. change 1%Q with (inject_Z 1). rewrite <- Zle_Qle.
  assert (0 < inject_Z z)%Q as Hz. { rewrite <- H. assert (0 < inject_Z D)%Q by (change 0%Q with (inject_Z 0); rewrite <- Zlt_Qlt; exact HD). nra. }
  change 0%Q with (inject_Z 0) in Hz. rewrite <- Zlt_Qlt in Hz. lia.
Qed.
Lemma grid_common (c : Q) (f : nat -> Q) n : exists D, (0 < D)%Z /\ grid D c /\ forall k, k < n -> grid D (f k).
Proof.
  induction n as [|n (D & HD & Hc & Hf)]; [exists (Zpos (Qden c)); split; [reflexivity|]; split; [apply grid_den|intros; lia]|].
  exists (D * Zpos (Qden (f n)))%Z. split; [lia|]. split; [apply grid_mult, Hc|]. intros k Hk. destruct (Nat.eq_dec k n) as [->|Hn].
  - rewrite Z.mul_comm. apply grid_mult, grid_den.
  - apply grid_mult, Hf. lia.
Qed.
Lemma grid_sign D y t : (y == 1 \/ y == -(1))%Q -> grid D (y * t) -> grid D t.
Proof.
  intros [E|E] H; [apply (grid_eq D (y * t)); [rewrite E; ring|exact H]|].
  apply (grid_eq D (0 - y * t)); [rewrite E; ring|]. apply grid_minus; [apply grid_0|exact H].
Qed.

Section Term.
Context (dexp dtanh : dbl -> dbl) (dpow : dbl -> Z -> dbl) (Hm : libm dexp dtanh dpow).
Context (p : svm_param) (gamma coef0 C : Q) (Hg : p_gamma p = Fin gamma) (Hc : p_coef0 p = Fin coef0) (HC : p_C p = Fin C).
Context (Hdeg : p_kernel p = POLYNOM -> (0 <= p_degree p)%Z) (HCpos : (0 < C)%Q).
Context (vs : list (list Q)) (y : nat -> Q) (Hy : forall k, (y k == 1 \/ y k == -(1))%Q).
Notation l := (length vs).
Notation K := (gram dexp dtanh dpow (p_kernel p) (p_degree p) gamma coef0 vs).
Notation Inv := (Inv dexp dtanh dpow p gamma coef0 C vs y).
Notation moved := (moved dexp dtanh dpow p gamma coef0 C vs y).
Context (Hrange : forall k, k < l -> (1 + C * sum_over l (fun j => Qabs (K k j)) <= MAXQ)%Q).

(** the largest absolute kernel value is below *)
Definition kmax : Q := (sum_over l (fun i => sum_over l (fun j => Qabs (K i j))) + 1)%Q.
Lemma sum_nonneg n f : (forall k, k < n -> (0 <= f k)%Q) -> (0 <= sum_over n f)%Q.
Proof. intros H. rewrite <- (sum_zero n (fun _ => 0%Q)) by reflexivity. apply sum_le. exact H. Qed.
Lemma kmax_bound i j : i < l -> j < l -> (Qabs (K i j) <= kmax - 1)%Q.
Proof.
  intros Hi Hj. unfold kmax. apply (Qle_trans _ (sum_over l (fun j => Qabs (K i j)))).
  - apply (sum_member l (fun j => Qabs (K i j))); [intros; apply Qabs_nonneg|exact Hj].
  - assert (forall x, x + 1 - 1 == x)%Q as E by (intros; ring). rewrite E.
    apply (sum_member l (fun i => sum_over l (fun j => Qabs (K i j)))); [|exact Hi]. intros k _. apply sum_nonneg. intros; apply Qabs_nonneg.
Qed.
Lemma kmax_pos : (0 < kmax)%Q.
Proof.
  unfold kmax. assert (0 <= sum_over l (fun i => sum_over l (fun j => Qabs (K i j))))%Q; [|lra].
  apply sum_nonneg. intros. apply sum_nonneg. intros. apply Qabs_nonneg.
Qed.
(** a lower bound of the objective *)
Definition lowest : Q := (- ((1 # 2) * sum_over l (fun i => sum_over l (fun j => Qabs (K i j) * (C * C))) + sum_over l (fun _ => C)))%Q.
Lemma lowest_bound a : feasible l y C a -> (lowest <= objective l y K a)%Q.
Proof.
  intros [Hb _]. unfold lowest, objective.
  assert (- sum_over l (fun i => sum_over l (fun j => Qabs (K i j) * (C * C))) <= sum_over l (fun i => sum_over l (fun j => y i * y j * K i j * a i * a j)))%Q as H1.
  { assert (forall n f, - sum_over n f == sum_over n (fun k => - f k))%Q as Hopp.
    { intros n f. assert (- sum_over n f == -(1) * sum_over n f)%Q as -> by ring. rewrite <- sum_scale. apply sum_ext. intros; ring. }
    rewrite Hopp. apply sum_le. intros i Hi. rewrite Hopp. apply sum_le. intros j Hj.
    destruct (Hb i Hi) as [A0 A1]. destruct (Hb j Hj) as [B0 B1].
    assert (0 <= a i * a j)%Q as P0 by nra. assert (a i * a j <= C * C)%Q as P1 by nra.
    pose proof (Qle_Qabs (K i j)) as U. pose proof (Qle_Qabs (- K i j)) as V. rewrite Qabs_opp in V. pose proof (Qabs_nonneg (K i j)) as W.
    assert (- (Qabs (K i j) * (a i * a j)) <= y i * y j * K i j * a i * a j)%Q as G.
    { set (m := (a i * a j)%Q) in *. assert (forall r, y i * y j * K i j * a i * a j == r * m -> (- Qabs (K i j) <= r)%Q -> (- (Qabs (K i j) * m) <= y i * y j * K i j * a i * a j)%Q)%Q as F.
      { intros r -> Hr. apply (Qmult_le_compat_r _ _ m) in Hr; [|exact P0]. lra. }
      destruct (Hy i) as [Ei|Ei], (Hy j) as [Ej|Ej].
      - apply (F (K i j)); [rewrite Ei, Ej; unfold m; ring|lra].
      - apply (F (- K i j)%Q); [rewrite Ei, Ej; unfold m; ring|lra].
      - apply (F (- K i j)%Q); [rewrite Ei, Ej; unfold m; ring|lra].
      - apply (F (K i j)); [rewrite Ei, Ej; unfold m; ring|lra]. }
    assert (Qabs (K i j) * (a i * a j) <= Qabs (K i j) * (C * C))%Q by (apply Qmult_le_l_weak || (rewrite !(Qmult_comm (Qabs (K i j))); apply Qmult_le_compat_r; assumption)). lra. }
  assert (sum_over l a <= sum_over l (fun _ => C))%Q as H2. { apply sum_le. intros k Hk. apply (Hb k Hk). }
  lra.
Qed.

(** what a step does to the grid and to the objective *)
Definition full_gain : Q := ((1 # 2000) * ((1 # 1000) / (4 * kmax)))%Q.
Lemma full_gain_pos : (0 < full_gain)%Q.
Proof.
  pose proof kmax_pos. unfold full_gain. assert (0 < (1 # 1000) / (4 * kmax))%Q; [|lra].
  apply Qlt_shift_div_l; lra.
Qed.
Lemma moved_gain a a' v D : (0 < D)%Z -> grid D C -> (forall k, k < l -> grid D (a k)) -> (1 # 1000 <= v)%Q -> moved a a' v ->
  (objective l y K a' <= objective l y K a - full_gain)%Q \/
  ((forall k, k < l -> grid D (a' k)) /\ (objective l y K a' * inject_Z D <= objective l y K a * inject_Z D - (1 # 2000))%Q).
Proof.
  intros HD GC Ga Hv (oi & oj & t & Hi & Hj & Hne & Ht & Hk & Ei & Ej & Hcl & Ho).
  assert (0 < inject_Z D)%Q as HDq. { change 0%Q with (inject_Z 0). rewrite <- Zlt_Qlt. exact HD. }
  assert ((1 # 2000) * t <= (1 # 2) * v * t)%Q as Hvt by nra.
  assert (forall b, grid D (y b * t) -> (forall k, k < l -> grid D (a' k)) /\ (objective l y K a' * inject_Z D <= objective l y K a * inject_Z D - (1 # 2000))%Q) as Hgrid.
  { intros b Hb. pose proof (grid_sign D (y b) t (Hy b) Hb) as Gt. split.
    - intros k Hkl. destruct (Nat.eq_dec k oi) as [->|N1]; [|destruct (Nat.eq_dec k oj) as [->|N2]].
      + destruct (Hy oi) as [E|E].
        * apply (grid_eq D (a oi + t)%Q); [rewrite Ei, E; ring|]. apply grid_plus; [apply Ga, Hi|exact Gt].
        * apply (grid_eq D (a oi - t)%Q); [rewrite Ei, E; ring|]. apply grid_minus; [apply Ga, Hi|exact Gt].
      + destruct (Hy oj) as [E|E].
        * apply (grid_eq D (a oj - t)%Q); [rewrite Ej, E; ring|]. apply grid_minus; [apply Ga, Hj|exact Gt].
        * apply (grid_eq D (a oj + t)%Q); [rewrite Ej, E; ring|]. apply grid_plus; [apply Ga, Hj|exact Gt].
      + rewrite (Hk k N1 N2). apply Ga, Hkl.
    - pose proof (grid_pos D t HD Gt Ht) as Hone.
      assert (objective l y K a' <= objective l y K a - (1 # 2000) * t)%Q as Ho' by lra.
      apply (Qmult_le_compat_r _ _ (inject_Z D)) in Ho'; [|lra].
      assert ((objective l y K a - (1 # 2000) * t) * inject_Z D == objective l y K a * inject_Z D - (1 # 2000) * (t * inject_Z D))%Q as E by ring.
      rewrite E in Ho'. lra. }
  destruct Hcl as [E|[E|[E|[E|E]]]].
  - right. apply (Hgrid oi). apply (grid_eq D (0 - a oi)%Q); [rewrite <- E, Ei; ring|]. apply grid_minus; [apply grid_0|apply Ga, Hi].
  - right. apply (Hgrid oi). apply (grid_eq D (C - a oi)%Q); [rewrite <- E, Ei; ring|]. apply grid_minus; [exact GC|apply Ga, Hi].
  - right. apply (Hgrid oj). apply (grid_eq D (a oj - 0)%Q); [rewrite <- E, Ej; ring|]. apply grid_minus; [apply Ga, Hj|apply grid_0].
  - right. apply (Hgrid oj). apply (grid_eq D (a oj - C)%Q); [rewrite <- E, Ej; ring|]. apply grid_minus; [apply Ga, Hj|exact GC].
  - left. pose proof (kmax_bound oi oi Hi Hi) as B1. pose proof (kmax_bound oj oj Hj Hj) as B2. pose proof (kmax_bound oi oj Hi Hj) as B3.
    pose proof (Qle_Qabs (K oi oi)) as U1. pose proof (Qle_Qabs (K oj oj)) as U2. pose proof (Qle_Qabs (- K oi oj)) as U3. rewrite Qabs_opp in U3.
    assert (K oi oi + K oj oj - 2 * K oi oj <= 4 * kmax)%Q as Hden by lra.
    apply (Qmult_le_compat_r _ _ t) in Hden; [|lra]. rewrite E in Hden.
    assert ((1 # 1000) / (4 * kmax) <= t)%Q as Hlen.
    { pose proof kmax_pos. apply Qle_shift_div_r; [lra|]. rewrite Qmult_comm. lra. }
    unfold full_gain. lra.
Qed.

(** from every reachable state the loop leaves after finitely many iterations *)
Lemma loop_terminates : forall (N : nat) c s a, Inv (s_active s) s a -> (objective l y K a <= lowest + inject_Z (Z.of_nat N) * full_gain)%Q ->
  exists fuel s', solve_loop dexp dtanh dpow fuel c s = Ok s'.
Proof.
  induction N as [|N IHN]; intros c s a I Hobj.
  - exists 1. cbn [solve_loop]. destruct (solve_iter_ok dexp dtanh dpow Hm p gamma coef0 C Hg Hc Hdeg HCpos vs y Hy Hrange s a c I) as (r & -> & Hr).
    cbn [bind]. destruct r as [s'|c' s']; [exists s'; reflexivity|]. exfalso. destruct Hr as (a' & v & I' & Hv & Hmv).
    pose proof (moved_descends _ _ _ _ _ _ _ _ _ a a' v ltac:(lra) Hmv) as Hd. pose proof (lowest_bound a' (I_feas _ _ _ _ _ _ _ _ _ _ _ _ I')) as Hl.
    change (inject_Z (Z.of_nat 0)) with 0%Q in Hobj. lra.
  - destruct (grid_common C a l) as (D & HD & GC & Ga).
    assert (0 < inject_Z D)%Q as HDq. { change 0%Q with (inject_Z 0). rewrite <- Zlt_Qlt. exact HD. }
    destruct (nat_bound (objective l y K a * inject_Z D - lowest * inject_Z D) (1 # 2000) ltac:(reflexivity)) as (m & Hmm).
    assert (objective l y K a * inject_Z D <= lowest * inject_Z D + inject_Z (Z.of_nat m) * (1 # 2000))%Q as Hm' by lra. clear Hmm.
    revert c s a I Hobj Ga Hm'. induction m as [|m IHm]; intros c s a I Hobj Ga Hm'.
    + exists 1. cbn [solve_loop]. destruct (solve_iter_ok dexp dtanh dpow Hm p gamma coef0 C Hg Hc Hdeg HCpos vs y Hy Hrange s a c I) as (r & -> & Hr).
      cbn [bind]. destruct r as [s'|c' s']; [exists s'; reflexivity|]. exfalso. destruct Hr as (a' & v & I' & Hv & Hmv).
      pose proof (moved_descends _ _ _ _ _ _ _ _ _ a a' v ltac:(lra) Hmv) as Hd. pose proof (lowest_bound a' (I_feas _ _ _ _ _ _ _ _ _ _ _ _ I')) as Hl.
      change (inject_Z (Z.of_nat 0)) with 0%Q in Hm'. assert (lowest < objective l y K a)%Q as Hlt by lra.
      apply (Qmult_lt_compat_r _ _ (inject_Z D) HDq) in Hlt. lra.
    + destruct (solve_iter_ok dexp dtanh dpow Hm p gamma coef0 C Hg Hc Hdeg HCpos vs y Hy Hrange s a c I) as (r & Er & Hr).
      destruct r as [s'|c' s']; [exists 1, s'; cbn [solve_loop]; rewrite Er; reflexivity|]. destruct Hr as (a' & v & I' & Hv & Hmv).
      assert (exists fuel s'', solve_loop dexp dtanh dpow fuel c' s' = Ok s'') as (fuel & s'' & Ef).
      { rewrite Nat2Z.inj_succ in Hobj. unfold Z.succ in Hobj. rewrite inject_Z_plus in Hobj. change (inject_Z 1) with 1%Q in Hobj.
        rewrite Nat2Z.inj_succ in Hm'. unfold Z.succ in Hm'. rewrite inject_Z_plus in Hm'. change (inject_Z 1) with 1%Q in Hm'.
        destruct (moved_gain a a' v D HD GC Ga Hv Hmv) as [Hgain|[Ga' Hgain]].
        - apply (IHN c' s' a' I'). lra.
        - apply (IHm c' s' a' I'); [|exact Ga'|].
          + pose proof (moved_descends _ _ _ _ _ _ _ _ _ a a' v ltac:(lra) Hmv) as Hd. rewrite Nat2Z.inj_succ. unfold Z.succ. rewrite inject_Z_plus. change (inject_Z 1) with 1%Q. lra.
          + lra. }
      exists (S fuel), s''. cbn [solve_loop]. rewrite Er. exact Ef.
Qed.
Lemma loop_more fuel : forall c s s', solve_loop dexp dtanh dpow fuel c s = Ok s' -> forall fuel', fuel <= fuel' -> solve_loop dexp dtanh dpow fuel' c s = Ok s'.
Proof.
  induction fuel as [|fuel IH]; intros c s s'; [discriminate|]. cbn [solve_loop]. intros E fuel' Hf. destruct fuel' as [|fuel']; [lia|]. cbn [solve_loop].
  apply bind_ok in E as (r & -> & E). cbn [bind]. destruct r; [exact E|]. apply IH; [exact E|lia].
Qed.
Lemma solve_terminates ys : vec l ys y -> exists bound r, forall fuel, bound <= fuel ->
  solve dexp dtanh dpow fuel l (repeat (Fin (-(1))) l) ys p (map svec vs) = Ok r.
Proof.
  intros Hys. destruct (solver_init_ok dexp dtanh dpow p gamma coef0 C HC HCpos vs y ys Hys) as (s0 & E0 & I0 & _).
  destruct (nat_bound (objective l y K (fun _ => 0%Q) - lowest) full_gain full_gain_pos) as (N & HN).
  destruct (loop_terminates N (counter_start l + 1) s0 _ I0 ltac:(lra)) as (bound & s & Es).
  destruct (solve_ok dexp dtanh dpow Hm p gamma coef0 C Hg Hc HC Hdeg HCpos vs y Hy Hrange bound ys Hys) as [E|(r & al & a & E & _)].
  - exfalso. unfold solve in E. rewrite E0 in E. cbn [bind] in E. rewrite Es in E. cbn [bind] in E.
    destruct (solve_loop_ok dexp dtanh dpow Hm p gamma coef0 C Hg Hc Hdeg HCpos vs y Hy Hrange bound (counter_start l + 1) s0 _ I0) as [E'|(s1 & a1 & E' & I1 & A1 & K1 & _)]; rewrite Es in E'; [discriminate|]. injection E' as <-.
    destruct (write_back_box dexp dtanh dpow p gamma coef0 C vs y s a1 I1) as (al & Ea & _). rewrite Ea in E. cbn [bind] in E.
    destruct (rho_ok dexp dtanh dpow p gamma coef0 C HCpos vs y Hy Hrange s a1 I1 A1 K1) as (r & Erho & _). rewrite Erho in E. discriminate E.
  - exists bound, (Fin r, al). intros fuel Hf. unfold solve in E |- *. rewrite E0 in E |- *. cbn [bind] in E |- *. rewrite Es in E. cbn [bind] in E.
    rewrite (loop_more bound _ _ _ Es fuel Hf). cbn [bind]. exact E.
Qed.
End Term.
