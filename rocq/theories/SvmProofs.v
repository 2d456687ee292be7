(** The solver theorems in the vocabulary of SvmSpec. *)
From Coq Require Import String ZArith QArith Qabs Bool Lia Lra Lqa Permutation List.
From Verif Require Import Base Spec BaseLemmas DblLemmas AttrModel SolverModel SvmSpec KernelProofs SolverProofs SolverInvProofs.
Import ListNotations.
Local Open Scope string_scope.
Local Open Scope list_scope.
Local Open Scope nat_scope.

Lemma ylab_sign signs k : (ylab signs k == 1 \/ ylab signs k == -(1))%Q.
Proof. unfold ylab, sign. destruct (nth k signs true); [left|right]; reflexivity. Qed.
Lemma ylab_vec signs n : length signs = n -> vec n (map (fun b => Fin (sign b)) signs) (ylab signs).
Proof.
  intros <-. split; [apply map_length|]. intros k Hk. exists (ylab signs k). split; [|reflexivity].
  unfold ylab. rewrite nth_error_map, (nth_error_nth' signs true Hk). reflexivity.
Qed.

Section Bridge.
Context (dexp dtanh : dbl -> dbl) (dpow : dbl -> Z -> dbl) (p : svm_param) (gamma coef0 C : Q) (vs : list (list Q)) (signs : list bool).
Context (H : svm_case dexp dtanh dpow p gamma coef0 C vs signs).
Notation l := (length vs).
Notation y := (ylab signs).
Notation K := (kern dexp dtanh dpow p gamma coef0 vs).
Notation Inv := (Inv dexp dtanh dpow p gamma coef0 C vs y).
Notation Frame := (Frame p C vs y).

Lemma set_pos s k o : nth_error (s_set s) k = Some o -> pos s k = o.
Proof. intros E. unfold pos. apply nth_error_nth, E. Qed.
Lemma inv_represents m s a : Inv m s a -> represents C vs signs s a.
Proof.
  intros I. destruct (I_frame _ _ _ _ _ _ _ _ _ _ _ _ I) as [Fl FC Fp Fy Fqy Fk Fb].
  assert (length (s_set s) = l) as Hl by (rewrite (Permutation_length Fp); apply seq_length).
  assert (forall k o, nth_error (s_set s) k = Some o -> k < l) as Hlt.
  { intros k o E. rewrite <- Hl. apply nth_error_Some. congruence. }
  assert (forall v f, vec l v (fun k => f (pos s k)) -> forall k o, nth_error (s_set s) k = Some o -> exists d, nth_error v k = Some d /\ deq d (Fin (f o))) as Hv.
  { intros v f [_ Hv] k o E. destruct (Hv k (Hlt k o E)) as (q & Eq & Hq). exists (Fin q). split; [exact Eq|]. rewrite (set_pos _ _ _ E) in Hq. exact Hq. }
  constructor.
  - exact Fp.
  - apply Hv. apply (I_alpha _ _ _ _ _ _ _ _ _ _ _ _ I).
  - apply Hv, Fy.
  - apply Hv, Fqy.
  - intros k o E. destruct Fk as (_ & -> & _). rewrite map_map, nth_error_map, E. reflexivity.
  - intros k o E. destruct (I_st _ _ _ _ _ _ _ _ _ _ _ _ I) as [_ Hst]. rewrite (Hst k (Hlt k o E)), (set_pos _ _ _ E).
    eexists; split; [reflexivity|]. rewrite status_upper, (status_lower _ _ (case_pos _ _ _ _ _ _ _ _ _ H)).
    destruct (proj1 (I_feas _ _ _ _ _ _ _ _ _ _ _ _ I) o) as [B0 B1].
    { apply nth_error_In in E. apply (Permutation_in _ Fp), in_seq in E. lia. }
    rewrite !Qle_bool_iff. split; split; intros; lra.
Qed.
Lemma represents_unique s a b : represents C vs signs s a -> represents C vs signs s b -> forall o, o < l -> (a o == b o)%Q.
Proof.
  intros Ra Rb o Ho. assert (In o (s_set s)) as Hi by (apply (Permutation_in _ (Permutation_sym (rep_perm _ _ _ _ _ Ra))), in_seq; lia).
  apply In_nth_error in Hi as (k & Ek). destruct (rep_alpha _ _ _ _ _ Ra k o Ek) as (d & E1 & D1). destruct (rep_alpha _ _ _ _ _ Rb k o Ek) as (d' & E2 & D2).
  rewrite E1 in E2. injection E2 as <-. destruct d as [q| | |]; try contradiction. change (q == a o)%Q in D1. change (q == b o)%Q in D2. lra.
Qed.
Lemma objective_ext a b : (forall o, o < l -> (a o == b o)%Q) -> (objective l y K a == objective l y K b)%Q.
Proof.
  intros E. unfold objective. rewrite (sum_ext l a b E).
  rewrite (sum_ext l (fun i => sum_over l (fun j => y i * y j * K i j * a i * a j))%Q (fun i => sum_over l (fun j => y i * y j * K i j * b i * b j))%Q); [reflexivity|].
  intros i Hi. apply sum_ext. intros j Hj. rewrite (E i Hi), (E j Hj). reflexivity.
Qed.
Lemma visited_inv c s : visited dexp dtanh dpow p vs signs c s -> exists a, Inv (s_active s) s a.
Proof.
  destruct H as [Hm Hg Hc HC Hpos Hdeg Hs Hr]. induction 1 as [s E|c s c' s' _ (a & I) E].
  - destruct (solver_init_ok dexp dtanh dpow p gamma coef0 C HC Hpos vs y _ (ylab_vec signs l Hs)) as (s0 & E0 & I & _). rewrite E in E0. injection E0 as <-. exists (fun _ => 0%Q). exact I.
  - destruct (solve_iter_ok dexp dtanh dpow Hm p gamma coef0 C Hg Hc Hdeg Hpos vs y (ylab_sign signs) Hr s a c I) as (r & Er & Hres). rewrite E in Er. injection Er as <-. destruct Hres as (a' & v & I' & _). exists a'. exact I'.
Qed.
Lemma iter_total c s : visited dexp dtanh dpow p vs signs c s -> exists r, solve_iter dexp dtanh dpow c s = Ok r.
Proof.
  intros V. destruct (visited_inv c s V) as (a & I). destruct H as [Hm Hg Hc HC Hpos Hdeg Hs Hr].
  destruct (solve_iter_ok dexp dtanh dpow Hm p gamma coef0 C Hg Hc Hdeg Hpos vs y (ylab_sign signs) Hr s a c I) as (r & Er & _). exists r. exact Er.
Qed.
Lemma iter_descends c s a c' s' : visited dexp dtanh dpow p vs signs c s -> represents C vs signs s a -> solve_iter dexp dtanh dpow c s = Ok (Again c' s') ->
  exists a', represents C vs signs s' a' /\ feasible l y C a' /\ (objective l y K a' < objective l y K a)%Q.
Proof.
  intros V R E. destruct (visited_inv c s V) as (a0 & I). pose proof H as [Hm Hg Hc HC Hpos Hdeg Hs Hr].
  destruct (solve_iter_ok dexp dtanh dpow Hm p gamma coef0 C Hg Hc Hdeg Hpos vs y (ylab_sign signs) Hr s a0 c I) as (r & Er & Hres). rewrite E in Er. injection Er as <-.
  destruct Hres as (a' & v & I' & Hv & Hmv). assert (objective l y K a' < objective l y K a0)%Q as Ho by (apply (moved_descends dexp dtanh dpow p gamma coef0 C vs y a0 a' v); [lra|exact Hmv]). exists a'. split; [apply (inv_represents _ _ _ I')|]. split; [apply (I_feas _ _ _ _ _ _ _ _ _ _ _ _ I')|].
  rewrite (objective_ext a a0); [exact Ho|]. apply (represents_unique s); [exact R|apply (inv_represents _ _ _ I)].
Qed.
Lemma grad_decision a r k : (y k * decision dexp dtanh dpow p gamma coef0 vs signs a r k == gradient l y K a k + 1 - y k * r)%Q.
Proof.
  destruct H as [Hm _ _ _ _ _ _ _]. unfold decision, gradient.
  assert (sum_over l (fun j => y k * y j * K k j * a j) == y k * sum_over l (fun j => y j * a j * K j k))%Q as ->; [|ring].
  rewrite <- sum_scale. apply sum_ext. intros j Hj. unfold kern. rewrite (K_sym dexp dtanh dpow Hm p gamma coef0 vs k j). ring.
Qed.
Lemma optimal_margins r a : optimal dexp dtanh dpow p gamma coef0 C vs y r a -> margins dexp dtanh dpow p gamma coef0 C vs signs (1 # 1000) a r.
Proof.
  intros (_ & _ & _ & Ho) k Hk. rewrite (grad_decision a r k). destruct (Ho k Hk) as [Hg Hs]. unfold can_grow, can_shrink in *. fold K in Hg, Hs.
  destruct (ylab_sign signs k) as [E|E].
  - split; intros Ha.
    + specialize (Hg (or_introl (conj E Ha))). rewrite E in *. lra.
    + specialize (Hs (or_introl (conj E Ha))). rewrite E in *. lra.
  - split; intros Ha.
    + specialize (Hs (or_intror (conj E Ha))). rewrite E in *. lra.
    + specialize (Hg (or_intror (conj E Ha))). rewrite E in *. lra.
Qed.
Lemma run_ok fuel : svm_solve dexp dtanh dpow p vs signs fuel = Diverge \/
  exists r al a, svm_solve dexp dtanh dpow p vs signs fuel = Ok (Fin r, al) /\ optimal dexp dtanh dpow p gamma coef0 C vs y r a /\
    length al = l /\ (forall k, k < l -> exists q, nth_error al k = Some (Fin q) /\ (0 <= q)%Q /\ (q <= C)%Q) /\
    ((Z.of_nat fuel <= counter_start l)%Z -> vec l al a).
Proof.
  destruct H as [Hm Hg Hc HC Hpos Hdeg Hs Hr].
  exact (solve_ok dexp dtanh dpow Hm p gamma coef0 C Hg Hc HC Hdeg Hpos vs y (ylab_sign signs) Hr fuel _ (ylab_vec signs l Hs)).
Qed.
Lemma final_optimal c s s' : visited dexp dtanh dpow p vs signs c s -> solve_iter dexp dtanh dpow c s = Ok (Leave s') ->
  exists a r, represents C vs signs s' a /\ calculate_rho s' = Ok (Fin r) /\ feasible l y C a /\ kkt l y K C (1 # 1000) a /\
    margins dexp dtanh dpow p gamma coef0 C vs signs (1 # 1000) a r.
Proof.
  intros V E. destruct (visited_inv c s V) as (a & I). pose proof H as [Hm Hg Hc HC Hpos Hdeg Hs Hr].
  destruct (solve_iter_ok dexp dtanh dpow Hm p gamma coef0 C Hg Hc Hdeg Hpos vs y (ylab_sign signs) Hr s a c I) as (r & Er & Hres). rewrite E in Er. injection Er as <-.
  destruct Hres as (I' & Hact & Hk). destruct (rho_ok dexp dtanh dpow p gamma coef0 C Hpos vs y (ylab_sign signs) Hr s' a I' Hact Hk) as (rho & Erho & Hrho).
  exists a, rho. split; [apply (inv_represents _ _ _ I')|]. split; [exact Erho|]. split; [apply (I_feas _ _ _ _ _ _ _ _ _ _ _ _ I')|]. split; [exact Hk|].
  assert (margins dexp dtanh dpow p gamma coef0 C vs signs (1 # 1000) a rho) as M; [|exact M].
  intros k Hk'. rewrite (grad_decision a rho k). destruct (Hrho k Hk') as [Hgr Hsh]. unfold can_grow, can_shrink in *. fold K in Hgr, Hsh.
  destruct (ylab_sign signs k) as [Ey|Ey].
  - split; intros Ha.
    + specialize (Hgr (or_introl (conj Ey Ha))). rewrite Ey in *. lra.
    + specialize (Hsh (or_introl (conj Ey Ha))). rewrite Ey in *. lra.
  - split; intros Ha.
    + specialize (Hsh (or_intror (conj Ey Ha))). rewrite Ey in *. lra.
    + specialize (Hgr (or_intror (conj Ey Ha))). rewrite Ey in *. lra.
Qed.
Lemma gradient_kept c s : visited dexp dtanh dpow p vs signs c s -> exists a, represents C vs signs s a /\ feasible l y C a /\
  (forall k o, nth_error (s_set s) k = Some o -> k < s_active s -> exists d, nth_error (s_G s) k = Some d /\ deq d (Fin (gradient l y K a o))) /\
  (forall k o, nth_error (s_set s) k = Some o -> s_active s <= k -> (a o == 0 \/ a o == C)%Q).
Proof.
  intros V. destruct (visited_inv c s V) as (a & I). exists a. split; [apply (inv_represents _ _ _ I)|]. split; [apply (I_feas _ _ _ _ _ _ _ _ _ _ _ _ I)|].
  destruct (I_frame _ _ _ _ _ _ _ _ _ _ _ _ I) as [Fl FC Fp Fy Fqy Fk Fb].
  assert (forall k o, nth_error (s_set s) k = Some o -> k < l) as Hlt.
  { intros k o E. replace l with (length (s_set s)) by (rewrite (Permutation_length Fp); apply seq_length). apply nth_error_Some. congruence. }
  split.
  - intros k o E Hk. destruct (I_G _ _ _ _ _ _ _ _ _ _ _ _ I) as (g & [_ Hg] & Hgg). destruct (Hg k (Hlt k o E)) as (q & Eq & Hq).
    exists (Fin q). split; [exact Eq|]. change (q == gradient l y K a o)%Q. rewrite Hq, (Hgg k Hk (Hlt k o E)), (set_pos _ _ _ E). reflexivity.
  - intros k o E Hk. rewrite <- (set_pos _ _ _ E). apply (I_idle _ _ _ _ _ _ _ _ _ _ _ _ I); [exact Hk|apply (Hlt k o E)].
Qed.

(** ** Near optimality *)
Lemma objective_diff a b : (objective l y K b - objective l y K a ==
  sum_over l (fun k => gradient l y K a k * (b k - a k)) +
  (1 # 2) * sum_over l (fun i => sum_over l (fun j => K i j * (y i * (b i - a i)) * (y j * (b j - a j)))))%Q.
Proof.
  destruct H as [Hm _ _ _ _ _ _ _]. set (e := fun k => (b k - a k)%Q).
  assert (forall f g : nat -> Q, sum_over l (fun i => sum_over l (fun j => y i * y j * K i j * f i * g j)) == sum_over l (fun i => sum_over l (fun j => y i * y j * K i j * g i * f j)))%Q as Hsym.
  { intros f g. rewrite sum_swap. apply sum_ext. intros i Hi. apply sum_ext. intros j Hj. unfold kern. rewrite (K_sym dexp dtanh dpow Hm p gamma coef0 vs j i). ring. }
  assert (sum_over l (fun i => sum_over l (fun j => y i * y j * K i j * b i * b j)) ==
    sum_over l (fun i => sum_over l (fun j => y i * y j * K i j * a i * a j)) + 2 * sum_over l (fun i => sum_over l (fun j => y i * y j * K i j * e i * a j)) +
    sum_over l (fun i => sum_over l (fun j => y i * y j * K i j * e i * e j)))%Q as HB.
  { transitivity (sum_over l (fun i => sum_over l (fun j => y i * y j * K i j * a i * a j)) + sum_over l (fun i => sum_over l (fun j => y i * y j * K i j * e i * a j)) +
      sum_over l (fun i => sum_over l (fun j => y i * y j * K i j * a i * e j)) + sum_over l (fun i => sum_over l (fun j => y i * y j * K i j * e i * e j)))%Q.
    - rewrite <- !sum_plus. apply sum_ext. intros i Hi. rewrite <- !sum_plus. apply sum_ext. intros j Hj. unfold e. ring.
    - rewrite (Hsym a e). ring. }
  assert (sum_over l (fun i => sum_over l (fun j => K i j * (y i * e i) * (y j * e j))) == sum_over l (fun i => sum_over l (fun j => y i * y j * K i j * e i * e j)))%Q as HE.
  { apply sum_ext. intros i Hi. apply sum_ext. intros j Hj. ring. }
  assert (sum_over l (fun k => gradient l y K a k * e k) == sum_over l (fun i => sum_over l (fun j => y i * y j * K i j * e i * a j)) + sum_over l (fun k => -(1) * e k))%Q as HG.
  { rewrite <- sum_plus. apply sum_ext. intros k Hk. unfold gradient.
    assert (sum_over l (fun j => y k * y j * K k j * e k * a j) == e k * sum_over l (fun j => y k * y j * K k j * a j))%Q as ->; [|ring].
    rewrite <- sum_scale. apply sum_ext. intros j Hj. ring. }
  assert (sum_over l b == sum_over l a + sum_over l e)%Q as HS. { rewrite <- sum_plus. apply sum_ext. intros k Hk. unfold e. ring. }
  change (fun k => (gradient l y K a k * (b k - a k))%Q) with (fun k => (gradient l y K a k * e k)%Q).
  change (fun i => sum_over l (fun j => (K i j * (y i * (b i - a i)) * (y j * (b j - a j)))%Q)) with (fun i => sum_over l (fun j => (K i j * (y i * e i) * (y j * e j))%Q)).
  rewrite HE, HG. unfold objective. rewrite HB, HS, sum_scale. ring.
Qed.
Lemma near_optimal_strong r a b : psd l K -> feasible l y C a ->
  (forall k, k < l -> (can_grow y C a k -> (r - (1 # 1000) <= y k * gradient l y K a k)%Q) /\ (can_shrink y C a k -> (y k * gradient l y K a k <= r + (1 # 1000))%Q)) ->
  feasible l y C b -> (objective l y K a <= objective l y K b + (1 # 1000) * C * qofn l)%Q.
Proof.
  intros Hp (Ba & Sa) Ho (Bb & Sb). pose proof (objective_diff a b) as HD.
  pose proof (Hp (fun k => y k * (b k - a k))%Q) as HP. cbv beta in HP.
  assert (- ((1 # 1000) * C) * qofn l <= sum_over l (fun k => gradient l y K a k * (b k - a k)))%Q as HG; [|lra].
  assert (sum_over l (fun k => gradient l y K a k * (b k - a k)) == sum_over l (fun k => (y k * gradient l y K a k - r) * (y k * (b k - a k))))%Q as ->.
  { assert (sum_over l (fun k => (y k * gradient l y K a k - r) * (y k * (b k - a k))) ==
      sum_over l (fun k => gradient l y K a k * (b k - a k)) + (- r * sum_over l (fun k => y k * b k) + r * sum_over l (fun k => y k * a k)))%Q as ->.
    { rewrite <- !sum_scale, <- !sum_plus. apply sum_ext. intros k Hk. destruct (ylab_sign signs k) as [E|E]; rewrite E; ring. }
    rewrite Sa, Sb. ring. }
  assert (- ((1 # 1000) * C) * qofn l == sum_over l (fun _ => - ((1 # 1000) * C)))%Q as ->.
  { unfold sum_over. rewrite qsum_const, seq_length. ring. }
  apply sum_le. intros k Hk. destruct (Ho k Hk) as [Hg Hs]. fold K in Hg, Hs. destruct (Ba k Hk) as [A0 A1]. destruct (Bb k Hk) as [B0 B1].
  pose proof (case_pos _ _ _ _ _ _ _ _ _ H) as HC.
  set (v := (y k * gradient l y K a k)%Q) in *. set (e := (y k * (b k - a k))%Q).
  assert (- C <= e /\ e <= C)%Q as [E0 E1]. { unfold e. destruct (ylab_sign signs k) as [E|E]; rewrite E; split; lra. }
  destruct (Qlt_le_dec 0 e) as [He|He].
  - assert (can_grow y C a k) as G. { unfold can_grow, e in *. destruct (ylab_sign signs k) as [E|E]; rewrite E in He; [left|right]; split; try assumption; lra. }
    specialize (Hg G). clear - Hg He E1 HC. clearbody v e. nra.
  - destruct (Qlt_le_dec e 0) as [He'|He'].
    + assert (can_shrink y C a k) as G. { unfold can_shrink, e in *. destruct (ylab_sign signs k) as [E|E]; rewrite E in He'; [left|right]; split; try assumption; lra. }
      specialize (Hs G). clear - Hs He' E0 HC. clearbody v e. nra.
    + assert (e == 0)%Q as -> by lra. lra.
Qed.
Lemma near_optimal r a b : psd l K -> optimal dexp dtanh dpow p gamma coef0 C vs y r a -> feasible l y C b ->
  (objective l y K a <= objective l y K b + (1 # 1000) * C * qofn l)%Q.
Proof. intros Hp (F & _ & _ & Ho) Hb. exact (near_optimal_strong r a b Hp F Ho Hb). Qed.
Lemma near_optimal_state c s s' a b : psd l K -> visited dexp dtanh dpow p vs signs c s -> solve_iter dexp dtanh dpow c s = Ok (Leave s') ->
  represents C vs signs s' a -> feasible l y C b -> (objective l y K a <= objective l y K b + (1 # 1000) * C * qofn l)%Q.
Proof.
  intros Hp V E R Hb. destruct (visited_inv c s V) as (a0 & I). pose proof H as [Hm Hg Hc HC Hpos Hdeg Hs Hr].
  destruct (solve_iter_ok dexp dtanh dpow Hm p gamma coef0 C Hg Hc Hdeg Hpos vs y (ylab_sign signs) Hr s a0 c I) as (r & Er & Hres). rewrite E in Er. injection Er as <-.
  destruct Hres as (I' & Hact & Hk). destruct (rho_ok dexp dtanh dpow p gamma coef0 C Hpos vs y (ylab_sign signs) Hr s' a0 I' Hact Hk) as (rho & _ & Hrho).
  rewrite (objective_ext a a0).
  - apply (near_optimal_strong rho a0 b Hp); [|exact Hrho|exact Hb]. apply (I_feas _ _ _ _ _ _ _ _ _ _ _ _ I').
  - apply (represents_unique s'); [exact R|apply (inv_represents _ _ _ I')].
Qed.
End Bridge.

(** the linear kernel is positive semidefinite *)
Lemma qdot_coords D : forall v w, length v <= D -> length w <= D -> (qdot v w == sum_over D (fun t => nth t v 0 * nth t w 0))%Q.
Proof.
  induction D as [|D IH]; intros v w Hv Hw.
  - destruct v; [|simpl in Hv; lia]. reflexivity.
  - assert (forall f, (sum_over (S D) f == f O + sum_over D (fun t => f (S t)))%Q) as Hshift.
    { intros f. unfold sum_over. cbn [seq map]. rewrite <- seq_shift, map_map. reflexivity. }
    rewrite Hshift. destruct v as [|x v].
    + rewrite (sum_zero D); [cbn; ring|]. intros t _. cbn [nth]. destruct t; ring.
    + destruct w as [|z w].
      * rewrite qdot_nil_r. rewrite (sum_zero D); [cbn [nth]; ring|]. intros t _. cbn [nth]. destruct t; ring.
      * rewrite qdot_cons. cbn [nth]. simpl in Hv, Hw. rewrite (IH v w) by lia. reflexivity.
Qed.
Lemma linear_psd dexp dtanh dpow p gamma coef0 vs : p_kernel p = LINEAR -> psd (length vs) (kern dexp dtanh dpow p gamma coef0 vs).
Proof.
  intros E c. set (n := length vs). set (D := fold_right Nat.max 0 (map (@length Q) vs)).
  assert (forall i, length (nth i vs []) <= D) as HD.
  { intros i. destruct (Nat.lt_ge_cases i (length vs)) as [Hi|Hi].
    - apply (nth_In vs []) in Hi. unfold D. revert Hi. generalize (nth i vs []) as w0. intros w0 Hi. clear -Hi. induction vs as [|v ws IH]; [contradiction|]. cbn [map fold_right]. destruct Hi as [->|Hi]; [lia|]. specialize (IH Hi). lia.
    - rewrite nth_overflow by exact Hi. simpl. lia. }
  set (u := fun t i => (c i * nth t (nth i vs []) 0)%Q).
  assert (sum_over n (fun i => sum_over n (fun j => kern dexp dtanh dpow p gamma coef0 vs i j * c i * c j)) == sum_over D (fun t => sum_over n (u t) * sum_over n (u t)))%Q as ->.
  { transitivity (sum_over n (fun i => sum_over n (fun j => sum_over D (fun t => u t i * u t j))))%Q.
    - apply sum_ext. intros i Hi. apply sum_ext. intros j Hj. unfold kern, gram, textbook_kernel. rewrite E. cbn [qval].
      rewrite (qdot_coords D _ _ (HD i) (HD j)). rewrite <- Qmult_assoc, Qmult_comm, <- sum_scale. apply sum_ext. intros t Ht. unfold u. ring.
    - transitivity (sum_over n (fun i => sum_over D (fun t => u t i * sum_over n (u t))))%Q.
      + apply sum_ext. intros i Hi. rewrite sum_swap. apply sum_ext. intros t Ht. rewrite sum_scale. reflexivity.
      + rewrite sum_swap. apply sum_ext. intros t Ht. rewrite <- sum_scale. apply sum_ext. intros i Hi. ring. }
  assert (0 == sum_over D (fun _ => 0))%Q as -> by (symmetry; apply sum_zero; reflexivity).
  apply sum_le. intros t Ht. nra.
Qed.
