(** Proofs for C159. *)
From Coq Require Import String ZArith QArith Qabs Bool Lia Lqa List Setoid Morphisms.
From Verif Require Import Base Spec BaseLemmas DblLemmas AttrModel InstanceListModel PerformanceModel PerformanceProofs ListSpec ListProofs CovProofs
  RoundModel RoundSpec RoundProofs RoundPerfProofs RoundDistProofs RoundNormModel RoundNormSpec.
Import ListNotations.
Local Open Scope list_scope.

(** * Sums of binary64 numbers *)
Lemma double_representable q : is_double q -> representable q.
Proof.
  unfold is_double. intros H. destruct (b64_cases q) as [[_ E]|[[_ E]|(_ & r & E & Er)]]; rewrite E in H; try contradiction. cbn in H.
  destruct (representable_round q) as (m & e & Hm & He & Q0). exists m, e. split; [exact Hm|]. split; [exact He|]. rewrite <- Q0, <- Er. symmetry. exact H.
Qed.
Lemma on_lattice p : representable p -> exists z, (p == inject_Z z * pow2 (-1074))%Q.
Proof.
  intros (m & e & _ & He & E). exists (m * 2 ^ (e + 1074))%Z. rewrite inject_Z_mult, <- pow2_Z by lia. rewrite E, <- Qmult_assoc, <- pow2_add. replace (e + 1074 + -1074)%Z with e by lia. reflexivity.
Qed.
Lemma add_error p q : representable p -> representable q -> (Qabs (round_q (p + q) - (p + q)) <= ulp_half * Qabs (p + q))%Q.
Proof.
  intros Hp Hq. destruct (Qlt_le_dec (Qabs (p + q)) (pow2 (-1022))) as [L|L]; [|apply round_relative, L].
  destruct (on_lattice p Hp) as (a & Ea). destruct (on_lattice q Hq) as (b & Eb).
  assert (E : (p + q == inject_Z (a + b) * pow2 (-1074))%Q) by (rewrite inject_Z_plus, Ea, Eb; ring).
  assert (representable (p + q)) as Rp.
  { exists (a + b)%Z, (-1074)%Z. split; [|split; [lia|exact E]]. rewrite E, qabs_scale in L. replace (-1022)%Z with (52 + -1074)%Z in L by lia. rewrite pow2_add in L.
    assert (inject_Z (Z.abs (a + b)) < pow2 52)%Q as L' by (pose proof (pow2_pos (-1074)); nra). rewrite pow2_Z in L' by lia. apply inject_lt in L'. lia. }
  rewrite (round_representable _ Rp). setoid_replace (p + q - (p + q))%Q with 0%Q by ring. change (Qabs 0) with 0%Q. pose proof (Qabs_nonneg (p + q)). pose proof u_pos. nra.
Qed.
Lemma any_error q : (Qabs (round_q q - q) <= ulp_half * Qabs q + pow2 (-1075))%Q.
Proof.
  destruct (Qlt_le_dec (Qabs q) (pow2 (-1022))) as [L|L].
  - eapply Qle_trans; [apply round_error|]. assert (last_digit q = -1074)%Z as ->.
    { unfold last_digit. destruct (Qeq_bool q 0) eqn:Z0; [reflexivity|]. apply qeqb0 in Z0. destruct (qexp_spec q Z0) as [A _]. assert (qexp q < -1022)%Z by (apply pow2_lt_inv; lra). lia. }
    change (-1074 - 1)%Z with (-1075)%Z. pose proof (Qabs_nonneg q). pose proof u_pos. nra.
  - pose proof (round_relative q L). pose proof (pow2_pos (-1075)). lra.
Qed.
Lemma pow2_repr e : (-1074 <= e)%Z -> representable (pow2 e).
Proof. intros H. exists 1%Z, e. split; [cbn; lia|]. split; [exact H|]. ring. Qed.
Lemma round_bounded q e : (-1074 <= e)%Z -> (Qabs q <= pow2 e)%Q -> (Qabs (round_q q) <= pow2 e)%Q.
Proof.
  intros He H. apply Qabs_Qle_condition in H as [A B]. apply Qabs_Qle_condition. split.
  - rewrite <- (round_representable _ (pow2_repr e He)), <- round_q_opp. apply round_mono, A.
  - rewrite <- (round_representable _ (pow2_repr e He)). apply round_mono, B.
Qed.
Lemma b64_finite q e : (-1074 <= e < 1024)%Z -> (Qabs q <= pow2 e)%Q -> exists r, b64 (Fin q) = Fin r /\ (r == round_q q)%Q.
Proof.
  intros He H. pose proof (round_bounded q e ltac:(lia) H) as B. apply Qabs_Qle_condition in B as [B1 B2]. pose proof (pow2_lt e 1024 ltac:(lia)) as P.
  destruct (b64_cases q) as [[C _]|[[C _]|(_ & r & E & Er)]]; [lra|lra|eauto].
Qed.
Lemma representable_comp p q : (p == q)%Q -> representable p -> representable q.
Proof. intros E (m & e & A & B & C). exists m, e. split; [exact A|]. split; [exact B|]. rewrite <- E. exact C. Qed.
Lemma magnitude_pos qs : (0 <= magnitude qs)%Q.
Proof. induction qs as [|q qs IH]; [apply Qle_refl|]. cbn [magnitude fold_right]. fold (magnitude qs). pose proof (Qabs_nonneg q). lra. Qed.
Lemma sum_errors : forall qs s S A k, representable s -> Forall is_double qs -> (Z.of_nat k + Z.of_nat (length qs) <= 2 ^ 52)%Z -> (Qabs S <= A)%Q -> (A + magnitude qs <= pow2 1000)%Q ->
  (Qabs (s - S) <= 2 * qofn k * ulp_half * A)%Q ->
  exists r, fold_left (radd b64) (map Fin qs) (Fin s) = Fin r /\ representable r /\ (Qabs (S + qsum qs) <= A + magnitude qs)%Q /\
    (Qabs (r - (S + qsum qs)) <= 2 * qofn (k + length qs) * ulp_half * (A + magnitude qs))%Q.
Proof.
  induction qs as [|q qs IH]; intros s S A k Rs D N HS HA HE.
  - exists s. cbn [map fold_left length magnitude fold_right]. rewrite Nat.add_0_r. split; [reflexivity|]. split; [exact Rs|]. change (qsum []) with 0%Q.
    setoid_replace (S + 0)%Q with S by ring. setoid_replace (A + 0)%Q with A by ring. split; [exact HS|exact HE].
  - inversion D as [|? ? Dq D']; subst. apply double_representable in Dq. cbn [map fold_left]. unfold radd at 2. cbn [dadd].
    cbn [length] in N. cbn [magnitude fold_right] in HA. fold (magnitude qs) in HA. pose proof (Qabs_nonneg q) as Q0. pose proof (magnitude_pos qs) as M0. pose proof (Qabs_nonneg S) as S0. pose proof u_pos as U0.
    assert (Hk : (2 * qofn k * ulp_half <= 1)%Q).
    { pose proof u_inv as U. assert (2 * qofn k <= inject_Z (2 ^ 53))%Q as Hk; [|nra]. rewrite qofn_Z. setoid_replace (2 * inject_Z (Z.of_nat k))%Q with (inject_Z (2 * Z.of_nat k)) by (rewrite inject_Z_mult; reflexivity). rewrite <- Zle_Qle. lia. }
    assert (K0 : (0 <= qofn k)%Q) by apply qofn_nonneg.
    assert (Sq : (Qabs (S + q) <= A + Qabs q)%Q) by (pose proof (Qabs_triangle S q); lra).
    assert (Es : (Qabs (s + q - (S + q)) <= 2 * qofn k * ulp_half * A)%Q) by (setoid_replace (s + q - (S + q))%Q with (s - S)%Q by ring; exact HE).
    assert (Bs : (Qabs (s + q) <= Qabs (S + q) + 2 * qofn k * ulp_half * A)%Q).
    { setoid_replace (s + q)%Q with (S + q + (s + q - (S + q)))%Q by ring. pose proof (Qabs_triangle (S + q) (s + q - (S + q))). lra. }
    assert (Fb : (Qabs (s + q) <= pow2 1001)%Q).
    { assert (pow2 1001 == 2 * pow2 1000)%Q as -> by (rewrite <- pow2_succ; reflexivity). assert (2 * qofn k * ulp_half * A <= A)%Q by nra. lra. }
    destruct (b64_finite _ 1001 ltac:(lia) Fb) as (r1 & E1 & V1). rewrite E1.
    assert (R1 : representable r1) by (apply (representable_comp (round_q (s + q))); [symmetry; exact V1|apply representable_round]).
    pose proof (add_error s q Rs Dq) as AE. rewrite <- V1 in AE.
    destruct (IH r1 (S + q)%Q (A + Qabs q)%Q (Datatypes.S k) R1 D') as (r & Er & Rr & B1 & B2); [lia|exact Sq|lra| |].
    { setoid_replace (r1 - (S + q))%Q with ((r1 - (s + q)) + (s + q - (S + q)))%Q by ring. pose proof (Qabs_triangle (r1 - (s + q)) (s + q - (S + q))) as T.
      rewrite qofn_S. set (t := (2 * qofn k * ulp_half)%Q) in *. assert (0 <= t)%Q by (unfold t; nra).
      assert (Qabs (s + q) <= (A + Qabs q) * 2)%Q by nra.
      assert (Qabs (r1 - (s + q)) <= ulp_half * ((A + Qabs q) * 2))%Q by nra.
      assert (2 * (1 + qofn k) * ulp_half * (A + Qabs q) == ulp_half * ((A + Qabs q) * 2) + t * (A + Qabs q))%Q as -> by (unfold t; ring). nra. }
    exists r. split; [exact Er|]. split; [exact Rr|]. cbn [magnitude fold_right length]. fold (magnitude qs). rewrite Nat.add_succ_r.
    assert (E3 : (S + qsum (q :: qs) == S + q + qsum qs)%Q) by (change (qsum (q :: qs)) with (q + qsum qs)%Q; ring).
    rewrite E3. setoid_replace (A + (Qabs q + magnitude qs))%Q with (A + Qabs q + magnitude qs)%Q by ring. split; [exact B1|exact B2].
Qed.
Lemma fold_column R k l vs : num_column k l vs -> forall s, foldM (fun s x => do v <- cont_at k x; Ok (radd R s v)) l s = Ok (fold_left (radd R) vs s).
Proof. induction 1 as [|x v l vs Hx _ IH]; intros s; [reflexivity|]. cbn [foldM fold_left]. apply cont_at_ok in Hx. rewrite Hx. cbn [bind]. apply IH. Qed.
Lemma r_average_eq R k l vs : num_column k l vs -> r_average R k l = Ok (rdiv R (fold_left (radd R) vs d0) (rnat R (length l))).
Proof. intros H. unfold r_average, r_cont_sum. rewrite (fold_column R k l vs H). reflexivity. Qed.
Lemma fold_dev R k a l vs : num_column k l vs -> forall s, foldM (fun s x => do v <- cont_at k x; Ok (radd R s (rpow2 R (rsub R v a)))) l s = Ok (fold_left (fun s v => radd R s (rpow2 R (rsub R v a))) vs s).
Proof. induction 1 as [|x v l vs Hx _ IH]; intros s; [reflexivity|]. cbn [foldM fold_left]. apply cont_at_ok in Hx. rewrite Hx. cbn [bind]. apply IH. Qed.
Lemma r_std_eq R sq k l vs : num_column k l vs -> let a := rdiv R (fold_left (radd R) vs d0) (rnat R (length l)) in
  r_std R sq k l = Ok (sq (rdiv R (fold_left (fun s v => radd R s (rpow2 R (rsub R v a))) vs d0) (rnat R (length l - 1)))).
Proof. intros H a. unfold r_std. rewrite (r_average_eq R k l vs H). cbn [bind]. unfold r_sq_dev_sum. rewrite (fold_dev R k _ l vs H). reflexivity. Qed.
Lemma norm_map R k a s l vs : num_column k l vs -> mapM (fun x => do v <- cont_at k x; Ok (r_norm_value R a s v)) l = Ok (map (r_norm_value R a s) vs).
Proof. induction 1 as [|x v l vs Hx _ IH]; [reflexivity|]. cbn [mapM map]. apply cont_at_ok in Hx. rewrite Hx. cbn [bind]. rewrite IH. reflexivity. Qed.
Lemma normalize_eq R sq k l vs a s : num_column k l vs -> r_average R k l = Ok a -> r_std R sq k l = Ok s -> r_normalize R sq k l = Ok (map (r_norm_value R a s) vs).
Proof. intros H Ea Es. unfold r_normalize. rewrite Ea, Es. cbn [bind]. apply norm_map, H. Qed.

Section Round.
  Context (R : dbl -> dbl) (HR : rounding R).
  #[local] Instance R_p : Proper (deq ==> deq) R := R_proper R HR.
  Lemma square_pos a : is_nan a = false -> dleb d0 (rpow2 R a) = true.
  Proof. intros H. apply (R_pos R HR). destruct a as [q| | |]; try discriminate; try reflexivity. cbn [dmul]. apply dleb_fin. nra. Qed.
  Lemma R_not_nan a : is_nan a = false -> is_nan (R a) = false.
  Proof.
    intros H. destruct (R a) eqn:E; try reflexivity. exfalso. destruct a as [q| | |]; try discriminate.
    - exact (r_fin R HR q E).
    - rewrite (r_pinf R HR) in E. discriminate.
    - pose proof (r_opp R HR PInf) as O. cbn [dopp] in O. rewrite E, (r_pinf R HR) in O. exact O.
  Qed.
  Lemma dev_sum_pos a vs : (exists q, a = Fin q) -> Forall (fun v => exists q, v = Fin q) vs -> forall s, dleb d0 s = true -> dleb d0 (fold_left (fun s v => radd R s (rpow2 R (rsub R v a))) vs s) = true.
  Proof.
    intros (qa & ->) F. induction F as [|v vs (q & ->) F IH]; intros s Hs; [exact Hs|]. cbn [fold_left]. apply IH. apply (radd_pos R HR); [exact Hs|]. apply square_pos. apply R_not_nan. reflexivity.
  Qed.
  Lemma sub_mono p q a : (p <= q)%Q -> dleb (rsub R (Fin p) (Fin a)) (rsub R (Fin q) (Fin a)) = true.
  Proof. intros H. apply (r_mono R HR). cbn [dsub]. apply dleb_fin. lra. Qed.
  Lemma div_mono x y s : (0 < s)%Q -> dleb x y = true -> dleb (rdiv R x (Fin s)) (rdiv R y (Fin s)) = true.
  Proof.
    intros Hs H. apply (r_mono R HR). assert (C : (s ?= 0)%Q = Gt) by (apply Qgt_alt, Hs). assert (NZ : ~ (s == 0)%Q) by lra.
    destruct x as [x| | |], y as [y| | |]; try discriminate; rewrite ?ddiv_fin by exact NZ; cbn [ddiv]; rewrite ?C; try reflexivity.
    apply dleb_fin. apply dleb_fin in H. unfold Qdiv. apply Qmult_le_compat_r; [exact H|]. apply Qlt_le_weak, Qinv_lt_0_compat, Hs.
  Qed.
  (** ** A feature with one value that is a small whole number *)
  Lemma whole_average z n : n <> 0%nat -> (Z.abs z * Z.of_nat n <= 2 ^ 53)%Z -> small n -> deq (rdiv R (fold_left (radd R) (repeat (dofZ z) n) d0) (rnat R n)) (dofZ z).
  Proof.
    intros N B S. pose proof (mean_between R HR z z (repeat (dofZ z) n)) as M. rewrite repeat_length in M. destruct M as [L U]; try assumption.
    - destruct n; [contradiction|discriminate].
    - apply Forall_forall. intros x Hx. apply repeat_spec in Hx. subst x. split; apply dleb_fin; lra.
    - destruct (rdiv R _ _) as [q| | |]; try discriminate. apply dleb_fin in L, U. cbn. lra.
  Qed.
  Lemma whole_dev a z n : deq a (dofZ z) -> forall s, deq s d0 -> deq (fold_left (fun s v => radd R s (rpow2 R (rsub R v a))) (repeat (dofZ z) n) s) d0.
  Proof.
    intros E. assert (Z0 : deq (rpow2 R (rsub R (dofZ z) a)) d0).
    { destruct a as [a| | |]; try contradiction. cbn [deq dofZ] in E. assert (deq (rsub R (dofZ z) (Fin a)) d0) as D.
      { etransitivity; [|apply (R_0 R HR)]. apply (r_ext R HR). cbn. rewrite E. ring. }
      etransitivity; [|apply (R_0 R HR)]. apply (r_ext R HR). destruct (rsub R (dofZ z) (Fin a)) as [d| | |]; try contradiction. cbn in D |- *. rewrite D. reflexivity. }
    induction n as [|n IH]; intros s Hs; [exact Hs|]. cbn [repeat fold_left]. apply IH. etransitivity; [|apply (R_0 R HR)]. apply (r_ext R HR).
    destruct s as [s| | |]; try contradiction. destruct (rpow2 R _) as [p| | |]; try contradiction. cbn in Hs, Z0 |- *. rewrite Hs, Z0. reflexivity.
  Qed.
End Round.
