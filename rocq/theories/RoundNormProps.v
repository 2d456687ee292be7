(** C159: averages, standard deviations and normalised values in rounded arithmetic. *)
From Coq Require Import String ZArith QArith Qabs Bool Lia Lqa List Setoid Morphisms.
From Verif Require Import Base Spec BaseLemmas DblLemmas AttrModel InstanceListModel PerformanceModel PerformanceProofs ListSpec ListProofs StatModel StatSpec CovProofs
  RoundModel RoundSpec RoundProofs RoundPerfProofs RoundDistProofs RoundStatModel RoundStatSpec RoundStatProps RoundNormModel RoundNormSpec RoundNormProofs.
Import ListNotations.
Local Open Scope string_scope.
Local Open Scope list_scope.
Local Open Scope nat_scope.

(** Without rounding these are the sums of InstanceListModel and StatModel. *)
Theorem C159_same_code : forall k l avg, r_cont_sum (fun d => d) k l = cont_sum k l /\ r_sq_dev_sum (fun d => d) k avg l = sq_dev_sum k avg l.
Proof. intros. split; reflexivity. Qed.
(** The correctly rounded square root is one of the square roots below. *)
Theorem C159_root : root_of_squares b64_sqrt.
Proof.
  destruct C131_root as [E Z]. split; [exact E|]. split; [exact Z|]. intros a H. destruct a as [q| | |]; try discriminate; [|reflexivity]. unfold b64_sqrt. apply dleb_fin in H.
  assert (Qle_bool 0 q = true) as -> by (apply Qle_bool_iff, H). destruct (Qeq_bool q 0); [reflexivity|]. cbv zeta. apply (R_pos b64 rounding_b64). apply dleb_fin.
  apply Qmult_le_0_compat; [|apply Qlt_le_weak, pow2_pos]. set (n := Qround.Qfloor _). pose proof (Z.sqrt_nonneg n) as P. rewrite Zle_Qle in P. change (inject_Z 0) with 0%Q in P. destruct (_ && _); [rewrite Qplus_0_r; exact P|]. apply (Qle_trans _ (inject_Z (Z.sqrt n))); [exact P|]. rewrite <- (Qplus_0_r (inject_Z (Z.sqrt n))) at 1. apply Qplus_le_r. discriminate.
Qed.
(** Whole bounds: if all values lie between two whole numbers the average does. *)
Theorem C159_between : forall R, rounding R -> forall k l vs lo hi, num_column k l vs -> l <> [] -> (Z.of_nat (length l) <= 2 ^ 53)%Z ->
  (Z.abs lo * Z.of_nat (length l) <= 2 ^ 53)%Z -> (Z.abs hi * Z.of_nat (length l) <= 2 ^ 53)%Z ->
  Forall (fun v => dleb (dofZ lo) v = true /\ dleb v (dofZ hi) = true) vs ->
  exists a, r_average R k l = Ok a /\ dleb (dofZ lo) a = true /\ dleb a (dofZ hi) = true.
Proof.
  intros R HR k l vs lo hi H N S Bl Bh F. pose proof H as L. apply Forall2_len in L. eexists. split; [apply (r_average_eq R k l vs H)|]. rewrite L in *.
  apply (mean_between R HR lo hi vs); try assumption. intros ->. destruct l; [contradiction|discriminate].
Qed.
(** The deviation of finite values is never negative and never NaN, provided the average is finite. *)
Theorem C159_deviation : forall R sq, rounding R -> root_of_squares sq -> forall k l qs a, num_column k l (map Fin qs) -> 2 <= length l -> (Z.of_nat (length l) <= 2 ^ 53)%Z ->
  r_average R k l = Ok (Fin a) -> exists s, r_std R sq k l = Ok s /\ dleb d0 s = true.
Proof.
  intros R sq HR (_ & _ & P) k l qs a H N S Ea. eexists. split; [apply (r_std_eq R sq k l _ H)|]. apply P. rewrite (r_average_eq R k l _ H) in Ea. injection Ea as Ea. rewrite Ea.
  apply (R_pos R HR). set (q := fold_left _ _ _). assert (dleb d0 q = true) as Q.
  { apply (dev_sum_pos R HR); [eauto| |reflexivity]. apply Forall_forall. intros v Hv. apply in_map_iff in Hv as (x & <- & _). eauto. }
  pose proof (rnat_exact R HR (length l - 1) ltac:(lia)) as E. rewrite dofnat_fin in E. destruct (rnat R (length l - 1)) as [m| | |]; try contradiction. cbn in E.
  assert (0 < m)%Q as M by (rewrite E; apply qofn_pos; lia). assert ((m ?= 0)%Q = Gt) as C by (apply Qgt_alt, M). destruct q as [q| | |]; try discriminate.
  - apply dleb_fin in Q. rewrite ddiv_fin by lra. apply dleb_fin. apply Qle_shift_div_l; [exact M|lra].
  - cbn [ddiv]. rewrite C. reflexivity.
Qed.
(** With a finite average and a finite deviation above 0, normalisation gives one number per instance, keeps the order of the values,
    and puts values up to the average at or below 0 and the others at or above. *)
Theorem C159_order : forall R sq, rounding R -> forall k l qs a s, num_column k l (map Fin qs) -> r_average R k l = Ok (Fin a) -> r_std R sq k l = Ok (Fin s) -> (0 < s)%Q ->
  exists ws, r_normalize R sq k l = Ok ws /\ length ws = length l /\
    (forall i j, i < length l -> j < length l -> (nth i qs 0 <= nth j qs 0)%Q -> dleb (nth i ws NaN) (nth j ws NaN) = true) /\
    forall i, i < length l -> ((nth i qs 0 <= a)%Q -> dleb (nth i ws NaN) d0 = true) /\ ((a <= nth i qs 0)%Q -> dleb d0 (nth i ws NaN) = true).
Proof.
  intros R sq HR k l qs a s H Ea Es S. pose proof (num_column_length k l qs H) as L. exists (map (r_norm_value R (Fin a) (Fin s)) (map Fin qs)). split; [apply (normalize_eq R sq k l _ _ _ H Ea Es)|].
  rewrite !map_length. split; [exact L|].
  assert (V : forall i, i < length l -> nth i (map (r_norm_value R (Fin a) (Fin s)) (map Fin qs)) NaN = r_norm_value R (Fin a) (Fin s) (Fin (nth i qs 0%Q))).
  { intros i Hi. rewrite map_map, (nth_indep _ NaN (r_norm_value R (Fin a) (Fin s) (Fin 0%Q))) by (rewrite map_length; lia). apply (map_nth (fun x => r_norm_value R (Fin a) (Fin s) (Fin x))). }
  assert (Z : deq (r_norm_value R (Fin a) (Fin s) (Fin a)) d0).
  { unfold r_norm_value. assert (deq (rsub R (Fin a) (Fin a)) d0) as E. { etransitivity; [|apply (R_0 R HR)]. apply (r_ext R HR). cbn. ring. }
    destruct (rsub R (Fin a) (Fin a)) as [z| | |]; try contradiction. cbn in E. etransitivity; [|apply (R_0 R HR)]. apply (r_ext R HR). rewrite ddiv_fin by lra. cbn. rewrite E. field. lra. }
  split.
  - intros i j Hi Hj O. rewrite !V by assumption. apply (div_mono R HR); [exact S|]. apply (sub_mono R HR), O.
  - intros i Hi. rewrite V by exact Hi. split; intros O; rewrite <- Z; apply (div_mono R HR); try exact S; apply (sub_mono R HR), O.
Qed.
(** A feature with the same small whole number everywhere: exact average, deviation 0, every normalised value NaN. *)
Theorem C159_constant : forall R sq, rounding R -> root_of_squares sq -> forall k l z, num_column k l (repeat (dofZ z) (length l)) -> 2 <= length l ->
  (Z.of_nat (length l) <= 2 ^ 53)%Z -> (Z.abs z * Z.of_nat (length l) <= 2 ^ 53)%Z ->
  exists a s, r_average R k l = Ok a /\ deq a (dofZ z) /\ r_std R sq k l = Ok s /\ deq s d0 /\ r_normalize R sq k l = Ok (repeat NaN (length l)).
Proof.
  intros R sq HR (E & Z0 & _) k l z H N S B. pose proof (whole_average R HR z (length l) ltac:(lia) B S) as A. pose proof (r_average_eq R k l _ H) as Ea. pose proof (r_std_eq R sq k l _ H) as Es. cbn zeta in Es.
  set (a := rdiv R _ (rnat R (length l))) in *. set (s := sq _) in Es.
  assert (D : deq s d0).
  { etransitivity; [|exact Z0]. apply E. etransitivity; [|apply (R_0 R HR)]. apply (r_ext R HR). match goal with |- deq (ddiv ?f _) _ => assert (W : deq f d0) by exact (whole_dev R HR a z (length l) A d0 ltac:(reflexivity)); destruct f as [q| | |]; try contradiction end. cbn in W.
    pose proof (rnat_exact R HR (length l - 1) ltac:(lia)) as M. rewrite dofnat_fin in M. destruct (rnat R (length l - 1)) as [m| | |]; try contradiction. cbn in M. assert (0 < m)%Q as P by (rewrite M; apply qofn_pos; lia).
    rewrite ddiv_fin by lra. cbn. rewrite W. field. lra. }
  exists a, s. split; [exact Ea|]. split; [exact A|]. split; [exact Es|]. split; [exact D|]. rewrite (normalize_eq R sq k l _ a s H Ea Es). f_equal. assert (MR : forall (g : dbl -> dbl) x n, g x = NaN -> map g (repeat x n) = repeat NaN n) by (intros g x n Hg; induction n as [|n IH]; [reflexivity|cbn; rewrite Hg, IH; reflexivity]). apply MR.
  destruct a as [a'| | |]; try contradiction. destruct s as [s'| | |]; try contradiction. cbn in A, D. unfold r_norm_value.
  assert (deq (rsub R (dofZ z) (Fin a')) d0) as T. { etransitivity; [|apply (R_0 R HR)]. apply (r_ext R HR). cbn. rewrite A. ring. }
  destruct (rsub R (dofZ z) (Fin a')) as [t| | |]; try contradiction. cbn in T. unfold rdiv. cbn [ddiv]. assert (Qeq_bool s' 0 = true) as -> by (apply Qeq_bool_iff, D). assert ((t ?= 0)%Q = Eq) as -> by (apply Qeq_alt, T). apply (r_nan R HR).
Qed.
(** In binary64 the average is within (n + 1) units of 2^-52, relative to the mean magnitude of the values, of the exact one, and
    2^-1075 for results that are too small. *)
Theorem C159_error : forall k l qs, num_column k l (map Fin qs) -> Forall is_double qs -> l <> [] -> (Z.of_nat (length l) <= 2 ^ 52)%Z -> (magnitude qs <= pow2 1000)%Q ->
  exists a, r_average b64 k l = Ok (Fin a) /\
    (Qabs (a - qmean qs) <= (qofn (length l) + 1) * pow2 (-52) * (magnitude qs / qofn (length l)) + pow2 (-1075))%Q.
Proof.
  intros k l qs H D N S M. pose proof (num_column_length k l qs H) as L. rewrite (r_average_eq b64 k l _ H). rewrite <- L in *.
  assert (representable 0) as R0. { exists 0%Z, 0%Z. split; [cbn; lia|]. split; [lia|]. reflexivity. }
  destruct (sum_errors qs 0 0 0 0 R0 D) as (r & Er & _ & B1 & B2); [lia|apply Qle_refl|lra|vm_compute; discriminate|]. change d0 with (Fin 0). rewrite Er.
  rewrite Nat.add_0_l in B2. assert (P : (1 <= qofn (length qs))%Q). { rewrite <- qofn_1. apply qofn_le. destruct qs; [destruct l; [contradiction|discriminate]|cbn; lia]. }
  pose proof (rnat_exact b64 rounding_b64 (length qs) ltac:(lia)) as E. rewrite dofnat_fin in E. destruct (rnat b64 (length qs)) as [m| | |]; try contradiction. cbn in E.
  set (n := qofn (length qs)) in *. set (A := magnitude qs) in *. set (S0 := qsum qs) in *. rewrite !Qplus_0_l in B1, B2. pose proof (magnitude_pos qs) as A0. fold A in A0. pose proof u_pos as U.
  assert (Hn : (2 * n * ulp_half <= 1)%Q).
  { pose proof u_inv as Ui. assert (2 * n <= inject_Z (2 ^ 53))%Q as Hk; [|nra]. unfold n. rewrite qofn_Z. setoid_replace (2 * inject_Z (Z.of_nat (length qs)))%Q with (inject_Z (2 * Z.of_nat (length qs))) by (rewrite inject_Z_mult; reflexivity). rewrite <- Zle_Qle. lia. }
  assert (Br : (Qabs r <= 2 * A)%Q).
  { setoid_replace r with (S0 + (r - S0))%Q by ring. pose proof (Qabs_triangle S0 (r - S0)). nra. }
  assert (M0 : (0 < m)%Q) by lra. unfold rdiv. rewrite ddiv_fin by lra.
  assert (Qd : (Qabs (r / m) == Qabs r / n)%Q). { unfold Qdiv. rewrite Qabs_Qmult, E. rewrite (Qabs_pos (/ n)); [reflexivity|]. apply Qlt_le_weak, Qinv_lt_0_compat. lra. }
  assert (In : (0 < / n)%Q) by (apply Qinv_lt_0_compat; lra). assert (In1 : (/ n <= 1)%Q). { assert (n * / n == 1)%Q by (apply Qmult_inv_r; lra). nra. }
  destruct (b64_finite (r / m) 1001 ltac:(lia)) as (a & Ea & Va).
  { rewrite Qd. assert (pow2 1001 == 2 * pow2 1000)%Q as -> by (rewrite <- pow2_succ; reflexivity). unfold Qdiv. pose proof (Qabs_nonneg r). nra. }
  exists a. split; [rewrite Ea; reflexivity|]. pose proof (any_error (r / m)) as X. rewrite <- Va in X. rewrite Qd in X. unfold qmean. fold S0 n.
  assert (pow2 (-52) == 2 * ulp_half)%Q as -> by reflexivity.
  assert (Y : (Qabs (r / m - S0 / n) <= 2 * n * ulp_half * A * / n)%Q).
  { setoid_replace (r / m - S0 / n)%Q with ((r - S0) * / n)%Q by (rewrite E; field; lra). rewrite Qabs_Qmult, (Qabs_pos (/ n)) by lra. apply Qmult_le_compat_r; [exact B2|lra]. }
  setoid_replace (a - S0 / n)%Q with ((a - r / m) + (r / m - S0 / n))%Q by ring. pose proof (Qabs_triangle (a - r / m) (r / m - S0 / n)) as T.
  assert (Qabs r / n <= 2 * A * / n)%Q as Z by (apply Qmult_le_compat_r; [exact Br|lra]).
  assert (ulp_half * (Qabs r / n) <= ulp_half * (2 * A * / n))%Q by nra.
  assert ((n + 1) * (2 * ulp_half) * (A / n) == 2 * n * ulp_half * A * / n + ulp_half * (2 * A * / n))%Q as -> by (unfold Qdiv; ring). lra.
Qed.
(** The bounds have to be whole and so does the constant: three times the double next to 0.1 have an average above all of them, a
    deviation above 0, and normalise to three times the same number near -0.8165 rather than to NaN, the exact result. *)
Definition tenth_row (q : Q) : instance := mkInst "a" [ACont (b64 (Fin q))] None.
Theorem C159_constant_refuted : exists l q a s w, num_column 0 l (repeat (Fin q) 3) /\ is_double q /\ r_average b64 0 l = Ok (Fin a) /\ (q < a)%Q /\
  r_std b64 b64_sqrt 0 l = Ok (Fin s) /\ (0 < s)%Q /\ r_normalize b64 b64_sqrt 0 l = Ok (repeat (Fin w) 3) /\ (Qabs (w - (-8165 # 10000)) < 1 # 10000)%Q /\
  exists e, cont_sum 0 l = Ok (Fin e) /\ (e == 3 * q)%Q /\ exists v, sq_dev_sum 0 (Fin (e / 3)) l = Ok (Fin v) /\ (v == 0)%Q.
Proof.
  exists (map tenth_row [1 # 10; 1 # 10; 1 # 10]%Q), (3602879701896397 # 36028797018963968)%Q. do 3 eexists.
  split; [repeat (constructor; [split; [split; vm_compute; (discriminate || reflexivity)|vm_compute; reflexivity]|]); constructor|]. split; [vm_compute; reflexivity|]. split; [vm_compute; reflexivity|]. split; [vm_compute; reflexivity|]. split; [vm_compute; reflexivity|]. split; [vm_compute; reflexivity|]. split; [vm_compute; reflexivity|]. split; [vm_compute; reflexivity|].
  eexists. split; [vm_compute; reflexivity|]. split; [vm_compute; reflexivity|]. eexists. split; vm_compute; reflexivity.
Qed.
(** The order of the instances matters: the average of 0.1, 0.2, 0.3 is not that of 0.3, 0.2, 0.1. *)
Theorem C159_order_of_data_refuted : exists l a b, r_average b64 0 l = Ok (Fin a) /\ r_average b64 0 (rev l) = Ok (Fin b) /\ (b < a)%Q.
Proof. exists (map tenth_row [1 # 10; 2 # 10; 3 # 10]%Q). do 2 eexists. split; [vm_compute; reflexivity|]. split; vm_compute; reflexivity. Qed.

(** 1, 2, 4, 9 has average 4 and the deviation next to the root of 38/3; all the theorems apply to it. *)
Definition four_rows : ilist := map tenth_row [1; 2; 4; 9]%Q.
Example C159_case : exists s ws, r_average b64 0 four_rows = Ok (Fin 4) /\ r_std b64 b64_sqrt 0 four_rows = Ok (Fin s) /\ (Qabs (s * s - (38 # 3)) < 1 # (2 ^ 48))%Q /\
  r_normalize b64 b64_sqrt 0 four_rows = Ok ws /\ forallb (fun p => dltb (fst p) (snd p)) (combine ws (tl ws)) = true /\ nth 2 ws NaN = d0 /\
  (exists a, r_average b64 0 four_rows = Ok a /\ dleb (dofZ 1) a = true /\ dleb a (dofZ 9) = true) /\
  exists a, r_average b64 0 four_rows = Ok (Fin a) /\ (Qabs (a - qmean [1; 2; 4; 9]) <= 1 # (2 ^ 47))%Q.
Proof.
  assert (C : num_column 0 four_rows (map Fin [1; 2; 4; 9]%Q)) by (repeat (constructor; [split; [split; vm_compute; (discriminate || reflexivity)|vm_compute; reflexivity]|]); constructor).
  do 2 eexists. split; [vm_compute; reflexivity|]. split; [vm_compute; reflexivity|]. split; [vm_compute; reflexivity|]. split; [vm_compute; reflexivity|]. split; [vm_compute; reflexivity|]. split; [vm_compute; reflexivity|].
  split.
  - apply (C159_between b64 rounding_b64 0 four_rows _ 1 9 C); [discriminate| | | |]; try (cbn; lia). repeat (constructor; [split; reflexivity|]). constructor.
  - destruct (C159_error 0 four_rows _ C) as (a & E & B).
    + repeat (constructor; [vm_compute; reflexivity|]). constructor.
    + discriminate.
    + cbn. lia.
    + vm_compute. discriminate.
    + exists a. split; [exact E|]. eapply Qle_trans; [exact B|]. vm_compute. discriminate.
Qed.

Print Assumptions C159_same_code.
Print Assumptions C159_root.
Print Assumptions C159_between.
Print Assumptions C159_deviation.
Print Assumptions C159_order.
Print Assumptions C159_constant.
Print Assumptions C159_error.
Print Assumptions C159_constant_refuted.
Print Assumptions C159_order_of_data_refuted.
