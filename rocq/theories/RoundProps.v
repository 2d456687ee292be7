(** Property C129: what rounding does to accuracies. *)
From Coq Require Import String ZArith QArith Qabs Bool Lia Lqa List Setoid Morphisms SpecFloat.
From Verif Require Import Base Spec BaseLemmas DblLemmas AttrModel InstanceListModel PerformanceModel PerformanceSpec PerformanceProofs TreeModel DistanceModel
  RoundModel RoundSpec RoundProofs RoundPerfProofs RoundFProofs.
Import ListNotations.
Local Open Scope string_scope.
Local Open Scope list_scope.
Local Open Scope nat_scope.

(** the number of instances whose label is the answer [f] *)
Definition right (f : instance -> string) (l : ilist) : nat := countb (fun x => String.eqb (label x) (f x)) l.
(** the accuracy the library computes with the rounding [R], by Model::test and by testClassifier *)
Definition has_accuracy (R : dbl -> dbl) (f : instance -> string) (l : ilist) (a e : dbl) : Prop :=
  (exists p, r_test_model R (fun x => Ok (f x)) l = Ok p /\ accuracy_of p = Ok a /\ error_rate p = e) \/
  (exists p, r_test_classifier R (fun x => Ok (f x)) l = Ok p /\ accuracy_of p = Ok a /\ error_rate p = e).

(** binary64 and exact arithmetic are roundings; without rounding the functions are those of the model *)
Theorem C129_roundings : rounding b64 /\ rounding (fun d => d).
Proof. split; [exact rounding_b64|exact rounding_exact]. Qed.
Theorem C129_same_code : forall mi, r_test_model (fun d => d) = test_model /\ r_test_classifier (fun d => d) = test_classifier /\
  r_prune (fun d => d) mi = prune mi /\ r_exp_mean (fun d => d) = exp_mean /\ r_exp_mean_class (fun d => d) = exp_mean_class /\
  r_exp_better (fun d => d) = exp_better /\ r_eucl (fun d => d) = eucl /\
  r_cm_fmeasure (fun d => d) = cm_fmeasure /\ r_cm_weighted (fun d => d) = cm_weighted /\ r_probabilities (fun d => d) = probabilities.
Proof. intros mi. repeat split. Qed.

Lemma correct_right f l : correct_count (map (fun x => (label x, f x)) l) = right f l.
Proof. unfold correct_count, right, countb. induction l as [|x l IH]; [reflexivity|]. cbn [map filter fst snd]. destruct (String.eqb (label x) (f x)); cbn [length]; rewrite IH; reflexivity. Qed.
Lemma right_le f l : right f l <= length l.
Proof. apply filter_length_le'. Qed.
(** The accuracy is the exact one, rounded once: all sums are sums of counts. *)
Theorem C129_one_rounding : forall R, rounding R -> forall f l a e, l <> [] -> (Z.of_nat (length l) <= 2 ^ 53)%Z -> has_accuracy R f l a e ->
  deq a (R (Fin (qofn (right f l) / qofn (length l)))) /\ e = R (dsub d1 a).
Proof.
  intros R HR f l a e N S [(p & E & Ea & Ee)|(p & E & Ea & Ee)].
  - unfold r_test_model in E. rewrite (test_fold (fun x => Ok (f x)) f l) in E by (apply Forall_forall; reflexivity). cbn [bind] in E. injection E as <-.
    fold (classified (union_possible l) (map (fun x => (label x, f x)) l)) in *. cbn [r_new_detail accuracy_of error_rate] in *. injection Ea as <-. subst e. split; [|reflexivity].
    rewrite (r_accuracy_classified R HR), map_length, correct_right; [reflexivity| |rewrite map_length; exact S]. destruct l; [contradiction|discriminate].
  - unfold r_test_classifier in E. rewrite (classifier_fold (fun x => Ok (f x)) f l) in E by (apply Forall_forall; reflexivity). cbn [bind plus] in E. injection E as <-.
    cbn [r_new_class accuracy_of error_rate] in *. injection Ea as <-. subst e. split; [|reflexivity]. rewrite correct_right.
    apply (rdiv_counts R HR); [destruct l; [contradiction|cbn; lia]|apply right_le|exact S].
Qed.
(** ... so it exists, lies between 0 and 1, and the ends mean all and none *)
Theorem C129_exists : forall R f l, exists a e, has_accuracy R f l a e.
Proof. intros R f l. do 2 eexists. right. unfold r_test_classifier. rewrite (classifier_fold (fun x => Ok (f x)) f l) by (apply Forall_forall; reflexivity). cbn [bind]. eexists. split; [reflexivity|]. split; reflexivity. Qed.
Lemma ltb_neq a b : dltb a b = true -> ~ deq a b.
Proof. intros H E. rewrite E in H. destruct b; cbn in H; try discriminate H. apply negb_true_iff in H. rewrite <- not_true_iff_false, Qle_bool_iff in H. apply H. apply Qle_refl. Qed.
Theorem C129_bounds : forall R, rounding R -> forall f l a e, l <> [] -> (2 * Z.of_nat (length l) <= 2 ^ 53)%Z -> has_accuracy R f l a e ->
  (dleb d0 a = true /\ dleb a d1 = true /\ dleb d0 e = true /\ dleb e d1 = true) /\
  (deq a d1 <-> right f l = length l) /\ (deq a d0 <-> right f l = 0) /\ (deq e d0 <-> right f l = length l) /\ (deq e d1 <-> right f l = 0).
Proof.
  intros R HR f l a e N Sz H. destruct (C129_one_rounding R HR f l a e N ltac:(lia) H) as [Ea ->]. clear H. pose proof (right_le f l) as K.
  assert (0 < length l) as P by (destruct l; [contradiction|cbn; lia]). set (k := right f l) in *. set (n := length l) in *. clearbody k n. clear N.
  pose proof (R_proper R HR) as PR. pose proof (quot_bounds R HR k n K P) as [B0 B1]. rewrite <- Ea in B0, B1.
  assert (forall d, dleb d d1 = true -> dleb d0 d = true -> dleb d0 (R (dsub d1 d)) = true /\ dleb (R (dsub d1 d)) d1 = true) as HE.
  { intros [q| | |] L1 L0; try discriminate. apply dleb_fin in L1, L0. split.
    - rewrite <- (R_0 R HR). apply (r_mono R HR), dleb_fin. lra.
    - rewrite <- (R_1 R HR) at 2. apply (r_mono R HR), dleb_fin. lra. }
  destruct (HE a B1 B0) as [E0 E1]. split; [repeat split; assumption|].
  assert (0 < qofn n)%Q as Qn by (apply qofn_pos; lia).
  (** the ends *)
  assert (forall d, deq d d0 -> deq (R (dsub d1 d)) d1) as Z1.
  { intros d Hd. etransitivity; [|apply (R_1 R HR)]. apply (r_ext R HR). rewrite Hd. cbn. lra. }
  assert (forall d, deq d d1 -> deq (R (dsub d1 d)) d0) as Z0.
  { intros d Hd. etransitivity; [|apply (R_0 R HR)]. apply (r_ext R HR). rewrite Hd. cbn. lra. }
  assert (k = n -> deq a d1) as A1. { intros ->. rewrite Ea, <- (R_1 R HR). apply (r_ext R HR). cbn. field. lra. }
  assert (k = 0 -> deq a d0) as A0. { intros ->. rewrite Ea, <- (R_0 R HR). apply (r_ext R HR). apply (quot_zero n P). }
  assert (k < n -> dltb (R (dsub d1 a)) d1 = false -> k = 0) as X1.
  { intros Kn F. destruct k as [|k]; [reflexivity|exfalso]. pose proof (quot_pos R HR (S k) n ltac:(lia) ltac:(lia)) as Pa. pose proof (quot_one R HR (S k) n Kn ltac:(lia)) as Pb. rewrite <- Ea in Pa, Pb.
    destruct (near R HR (qofn (S k) / qofn n)%Q (quot_normal (S k) n ltac:(lia) ltac:(lia))) as (r & Er & Br).
    { apply Qlt_shift_div_l; [exact Qn|]. assert (0 < qofn (S k))%Q by (apply qofn_pos; lia). lra. }
    rewrite Er in Ea. destruct a as [a| | |]; try contradiction. cbn in Ea. apply dltb_fin in Pa, Pb.
    (* a >= (1/n)(1-u) >= 2u(1-u) *)
    assert (2 * ulp_half <= qofn (S k) / qofn n)%Q as Lq.
    { apply Qle_shift_div_l; [exact Qn|]. assert (1 <= qofn (S k))%Q by (rewrite <- qofn_1; apply qofn_le; lia). pose proof u_inv as U. pose proof u_pos as Up.
      assert (2 * qofn n <= inject_Z (2 ^ 53))%Q as T by (rewrite qofn_Z; change 2%Q with (inject_Z 2); rewrite <- inject_Z_mult, <- Zle_Qle; exact Sz).
      set (h := inject_Z (2 ^ 53)) in *. set (u := ulp_half) in *. clearbody h u. nra. }
    assert (ulp_half < 1 # 4)%Q as U4 by reflexivity. pose proof u_pos as Up. set (q := (qofn (S k) / qofn n)%Q) in *. clearbody q. set (u := ulp_half) in *.
    assert (dltb (R (dsub d1 (Fin a))) d1 = true); [|congruence].
    destruct (Qlt_le_dec (1 - a) u) as [Sm|Bg].
    - assert (dleb (R (dsub d1 (Fin a))) (R (Fin u)) = true) as M by (apply (r_mono R HR), dleb_fin; lra). destruct (near R HR u (mid_normal u ltac:(split; [apply Qle_refl|unfold u; vm_compute; discriminate])) Up) as (v & Ev & Bv). rewrite Ev in M.
      destruct (R (dsub d1 (Fin a))) as [w| | |] eqn:Ew; try discriminate M; [|reflexivity]. apply dleb_fin in M. apply dltb_fin. unfold u in *. clearbody u. nra.
    - destruct (near R HR (1 - a)%Q (mid_normal (1 - a)%Q ltac:(fold u; lra)) ltac:(lra)) as (v & Ev & Bv). cbn [dsub dadd dopp d1]. change (1 + - a)%Q with (1 - a)%Q. rewrite Ev. apply dltb_fin. fold u in Bv, Br. clearbody u. nra. }
  assert (k < n -> dltb d0 (R (dsub d1 a)) = true) as X0.
  { intros Kn. destruct k as [|k].
    - assert (deq (R (dsub d1 a)) d1) as ->; [|reflexivity]. exact (Z1 _ (A0 eq_refl)).
    - destruct (near R HR (qofn (S k) / qofn n)%Q (quot_normal (S k) n ltac:(lia) ltac:(lia))) as (r & Er & Br).
      { apply Qlt_shift_div_l; [exact Qn|]. assert (0 < qofn (S k))%Q by (apply qofn_pos; lia). lra. }
      rewrite Er in Ea. destruct a as [a| | |]; try contradiction. cbn in Ea. apply dleb_fin in B0, B1.
      assert (qofn (S k) / qofn n <= 1 - 2 * ulp_half)%Q as Lq.
      { apply Qle_shift_div_r; [exact Qn|]. assert (qofn (S k) + 1 <= qofn n)%Q by (rewrite <- qofn_1, <- qofn_plus; apply qofn_le; lia). pose proof u_inv as U. pose proof u_pos as Up.
        assert (2 * qofn n <= inject_Z (2 ^ 53))%Q as T by (rewrite qofn_Z; change 2%Q with (inject_Z 2); rewrite <- inject_Z_mult, <- Zle_Qle; exact Sz).
        set (h := inject_Z (2 ^ 53)) in *. set (u := ulp_half) in *. clearbody h u. nra. }
      pose proof u_pos as Up. assert (ulp_half < 1 # 4)%Q as U4 by reflexivity. set (q := (qofn (S k) / qofn n)%Q) in *. clearbody q.
      destruct (near R HR (1 - a)%Q (mid_normal (1 - a)%Q ltac:(set (u := ulp_half) in *; clearbody u; split; nra)) ltac:(set (u := ulp_half) in *; clearbody u; nra)) as (v & Ev & Bv).
      cbn [dsub dadd dopp d1]. change (1 + - a)%Q with (1 - a)%Q. rewrite Ev. apply dltb_fin. set (u := ulp_half) in *. clearbody u. nra. }
  assert (k < n -> ~ deq a d1) as Y1 by (intros Kn; apply ltb_neq; rewrite Ea; apply (quot_one R HR k n Kn); lia).
  assert (0 < k -> ~ deq a d0) as Y0. { intros Kn E. symmetry in E. revert E. apply ltb_neq. rewrite Ea. apply (quot_pos R HR); lia. }
  split; [|split; [|split]]; (split; [intros E|intros E]).
  - destruct (Nat.eq_dec k n) as [?|Q]; [assumption|]. destruct (Y1 ltac:(lia) E).
  - apply A1, E.
  - destruct (Nat.eq_dec k 0) as [?|Q]; [assumption|]. destruct (Y0 ltac:(lia) E).
  - apply A0, E.
  - destruct (Nat.eq_dec k n) as [?|Q]; [assumption|]. symmetry in E. destruct (ltb_neq _ _ (X0 ltac:(lia)) E).
  - exact (Z0 _ (A1 E)).
  - destruct (Nat.eq_dec k n) as [Q|Q].
    + exfalso. assert (deq (R (dsub d1 a)) d0) as Z by exact (Z0 _ (A1 Q)). rewrite Z in E. cbn in E. lra.
    + apply X1; [lia|]. rewrite E. reflexivity.
  - exact (Z1 _ (A0 E)).
Qed.
(** More right answers, larger accuracy: always on the same number of instances (up to 2^52), and between test sets whose sizes
    multiply to at most 2^52. *)
Theorem C129_order : forall R, rounding R -> forall f l a e f' l' a' e', l <> [] -> l' <> [] ->
  (Z.of_nat (length l) <= 2 ^ 53)%Z -> (Z.of_nat (length l') <= 2 ^ 53)%Z ->
  (length l = length l' /\ (2 * Z.of_nat (length l) <= 2 ^ 53)%Z \/ (2 * (Z.of_nat (length l) * Z.of_nat (length l')) <= 2 ^ 53)%Z) ->
  has_accuracy R f l a e -> has_accuracy R f' l' a' e' ->
  (dltb a a' = true <-> right f l * length l' < right f' l' * length l).
Proof.
  intros R HR f l a e f' l' a' e' N N' Sz Sz' G H H'. destruct (C129_one_rounding R HR f l a e N Sz H) as [Ea _]. destruct (C129_one_rounding R HR f' l' a' e' N' Sz' H') as [Ea' _].
  rewrite Ea, Ea'. pose proof (right_le f l). pose proof (right_le f' l'). assert (0 < length l) as P by (destruct l; [contradiction|cbn; lia]). assert (0 < length l') as P' by (destruct l'; [contradiction|cbn; lia]).
  split; [|intros L; apply (quot_order R HR); assumption].
  intros L. destruct (Nat.lt_ge_cases (right f l * length l') (right f' l' * length l)) as [C|C]; [exact C|exfalso].
  assert (dleb (R (Fin (qofn (right f' l') / qofn (length l')))) (R (Fin (qofn (right f l) / qofn (length l)))) = true) as M.
  { apply (r_mono R HR), dleb_fin. apply qofn_le in C. assert (forall x y, qofn (x * y) == qofn x * qofn y)%Q as Mu by (intros x y; rewrite !qofn_Z, Nat2Z.inj_mul, inject_Z_mult; reflexivity). rewrite !Mu in C.
    apply qofn_pos in P, P'. apply Qle_shift_div_l; [exact P|]. set (x := qofn (right f l)) in *. set (y := qofn (right f' l')) in *. set (n := qofn (length l)) in *. set (n' := qofn (length l')) in *. clearbody x y n n'.
    assert (y / n' * n == (y * n) / n')%Q as -> by (field; lra). apply Qle_shift_div_r; [exact P'|lra]. }
  destruct (R (Fin (qofn (right f l) / qofn (length l)))) as [x| | |], (R (Fin (qofn (right f' l') / qofn (length l')))) as [y| | |]; try discriminate. apply dltb_fin in L. apply dleb_fin in M. lra.
Qed.
(** Rounding never changes what pruning does. *)
Theorem C129_pruning : forall R, rounding R -> forall mi t l, (2 * Z.of_nat (length l) <= 2 ^ 53)%Z -> r_prune R mi t l = prune mi t l.
Proof. intros R HR mi t l H. apply (r_prune_same R HR mi l H). Qed.
(** mean accuracy (and the error rate computed from it) of an experiment are between 0 and 1 if those of the rounds are *)
Theorem C129_mean : forall R, rounding R -> forall e accs m, results e <> [] -> (Z.of_nat (length (results e)) <= 2 ^ 53)%Z ->
  mapM accuracy_of (results e) = Ok accs -> Forall (fun a => dleb d0 a = true /\ dleb a d1 = true) accs -> r_exp_mean_class R e = Ok (Some m) ->
  exists a, accuracy_of m = Ok a /\ dleb d0 a = true /\ dleb a d1 = true /\ dleb d0 (error_rate m) = true /\ dleb (error_rate m) d1 = true.
Proof.
  intros R HR e accs m N Sz Ha H E. unfold r_exp_mean_class in E. destruct (_ || _); [discriminate E|].
  assert (forall rs accs, mapM accuracy_of rs = Ok accs -> length accs = length rs /\ forall s, foldM (fun s p => do a <- accuracy_of p; Ok (radd R s a)) rs s = Ok (fold_left (radd R) accs s)) as F.
  { clear. induction rs as [|p rs IH]; intros accs H; cbn [mapM foldM] in *; [injection H as <-; split; [reflexivity|intros; reflexivity]|].
    destruct (accuracy_of p) as [a| | |]; cbn [bind] in *; try discriminate. destruct (mapM accuracy_of rs) as [as_| | |]; cbn [bind] in *; try discriminate. injection H as <-.
    destruct (IH as_ eq_refl) as [L Q]. split; [cbn; rewrite L; reflexivity|]. intros s. cbn [fold_left]. apply Q. }
  destruct (F _ _ Ha) as [L Q]. rewrite Q in E. cbn [bind] in E. injection E as <-. rewrite <- L in *. cbn [r_new_class accuracy_of error_rate].
  assert (accs <> []) as N' by (destruct accs; [destruct (results e); [contradiction|discriminate L]|discriminate]).
  destruct (mean_between R HR 0 1 accs N') as [M0 M1]; try (cbn [Z.abs]; lia); [exact H|]. change (dofZ 0) with d0 in M0. change (dofZ 1) with d1 in M1. eexists. split; [reflexivity|]. split; [exact M0|]. split; [exact M1|].
  set (a := rdiv R _ _) in *. clearbody a. destruct a as [q| | |]; try discriminate. apply dleb_fin in M0, M1. pose proof (R_proper R HR) as PR. split.
  - rewrite <- (R_0 R HR). apply (r_mono R HR), dleb_fin. lra.
  - rewrite <- (R_1 R HR) at 2. apply (r_mono R HR), dleb_fin. lra.
Qed.
(** ... and so is the mean error rate; whole bounds on the rounds bound the mean *)
Lemma fold_errors R ps : forall s, fold_left (fun s p => radd R s (error_rate p)) ps s = fold_left (radd R) (map error_rate ps) s.
Proof. induction ps as [|p ps IH]; intros s; [reflexivity|apply IH]. Qed.
Theorem C129_mean_error : forall R, rounding R -> forall e, results e <> [] -> (Z.of_nat (length (results e)) <= 2 ^ 53)%Z ->
  Forall (fun p => dleb d0 (error_rate p) = true /\ dleb (error_rate p) d1 = true) (results e) ->
  (dleb d0 (r_exp_mean R e) = true /\ dleb (r_exp_mean R e) d1 = true) /\
  (Forall (fun p => deq (error_rate p) d1) (results e) -> deq (r_exp_mean R e) d1) /\
  (Forall (fun p => deq (error_rate p) d0) (results e) -> deq (r_exp_mean R e) d0).
Proof.
  intros R HR e N Sz H. unfold r_exp_mean. rewrite fold_errors. rewrite <- (map_length error_rate) in *.
  assert (map error_rate (results e) <> []) as N' by (destruct (results e); [contradiction|discriminate]).
  rewrite <- (Forall_map error_rate (fun d => dleb d0 d = true /\ dleb d d1 = true)) in H.
  rewrite <- (Forall_map error_rate (fun d => deq d d1)), <- (Forall_map error_rate (fun d => deq d d0)).
  set (ds := map error_rate (results e)) in *. clearbody ds.
  assert (forall d, dleb d1 d = true -> dleb d d1 = true -> deq d d1) as A1 by (intros [q| | |] A B; try discriminate; apply dleb_fin in A, B; cbn; lra).
  assert (forall d, dleb d0 d = true -> dleb d d0 = true -> deq d d0) as A0 by (intros [q| | |] A B; try discriminate; apply dleb_fin in A, B; cbn; lra).
  split; [|split].
  - apply (mean_between R HR 0 1 ds N'); try (cbn [Z.abs]; lia). exact H.
  - intros E. assert (Forall (fun d => dleb (dofZ 1) d = true /\ dleb d (dofZ 1) = true) ds) as F by (refine (Forall_impl _ _ E); intros d K; rewrite K; split; reflexivity).
    destruct (mean_between R HR 1 1 ds N' ltac:(cbn [Z.abs]; lia) ltac:(cbn [Z.abs]; lia) Sz F). apply A1; assumption.
  - intros E. assert (Forall (fun d => dleb (dofZ 0) d = true /\ dleb d (dofZ 0) = true) ds) as F by (refine (Forall_impl _ _ E); intros d K; rewrite K; split; reflexivity).
    destruct (mean_between R HR 0 0 ds N' ltac:(cbn [Z.abs]; lia) ltac:(cbn [Z.abs]; lia) Sz F). apply A0; assumption.
Qed.
(** Precision, recall, F measures and their weighted mean: a number between 0 and 1, or NaN. *)
Theorem C129_f_measure : forall R, rounding R -> forall L ps, (Z.of_nat (length ps) <= 2 ^ 53)%Z ->
  (forall d, In (Some d) (r_cm_precision R (classified L ps)) \/ In (Some d) (r_cm_recall R (classified L ps)) -> unit_or_nan d) /\
  (forall fs, r_cm_fmeasure R (classified L ps) = Ok fs -> length fs = length L /\ Forall unit_or_nan fs) /\
  (forall w, ps <> [] -> NoDup L -> r_cm_weighted R (classified L ps) = Ok w -> unit_or_nan w).
Proof.
  intros R HR L ps S. split; [|split].
  - intros d [H|H]; [exact (unit_precision R HR L ps d S H)|exact (unit_recall R HR L ps d S H)].
  - intros fs H. exact (unit_fmeasure R HR L ps fs S H).
  - intros w N HN H. exact (unit_weighted R HR L ps w N HN S H).
Qed.

(** * binary64 *)
Definition double (q : Q) : dbl := b64 (Fin q).
Definition with_accuracies (l : list Q) : experiment := fold_left (fun e q => exp_add e (r_new_class b64 (double q))) l exp_empty.
(** The mean depends on the order of the rounds: an experiment is better than itself in reverse. *)
Theorem C129_better_refuted : r_exp_better b64 (with_accuracies [1#10; 2#10; 3#10]) (with_accuracies [3#10; 2#10; 1#10]) = Ok true.
Proof. vm_compute. reflexivity. Qed.
(** Three rounds of the same accuracy are better than one of them. *)
Theorem C129_repeated_refuted : r_exp_better b64 (with_accuracies [1#10; 1#10; 1#10]) (with_accuracies [1#10]) = Ok true.
Proof. vm_compute. reflexivity. Qed.
(** The error rate is not the rounded share of wrong answers: 9 of 10 right gives an error rate below 0.1. *)
Definition always (s : string) (_ : instance) : string := s.
Definition tens (k : nat) : ilist := repeat (mkInst "a" [] None) k ++ repeat (mkInst "b" [] None) (10 - k).
Theorem C129_error_rate_refuted : exists a e, has_accuracy b64 (always "a") (tens 9) a e /\ dltb e (double (1#10)) = true.
Proof. do 2 eexists. split; [left; eexists; split; [vm_compute; reflexivity|split; reflexivity]|vm_compute; reflexivity]. Qed.
Example C129_case : right (always "a") (tens 7) = 7 /\
  has_accuracy b64 (always "a") (tens 7) (Fin (3152519739159347 # 4503599627370496)) (Fin (1351079888211149 # 4503599627370496)) /\
  has_accuracy b64 (always "a") (tens 10) (Fin 1) (Fin 0) /\ has_accuracy b64 (always "c") (tens 10) (Fin 0) (Fin 1).
Proof.
  split; [reflexivity|]. split; [|split]; right; eexists; (split; [vm_compute; reflexivity|]); cbn [accuracy_of error_rate]; split; try reflexivity.
Qed.
(** The standard library's binary64 agrees, on numbers of every kind. *)
Definition of_float (x : spec_float) : dbl :=
  match x with
  | S754_zero _ => d0 | S754_infinity s => if s then NInf else PInf | S754_nan => NaN
  | S754_finite s m e => let q := (inject_Z (Zpos m) * pow2 e)%Q in Fin (if s then - q else q)
  end.
Definition float_same (a b : dbl) : bool :=
  match a, b with Fin x, Fin y => Qeq_bool x y | PInf, PInf | NInf, NInf | NaN, NaN => true | _, _ => false end.
Definition float_pairs : list (spec_float * spec_float) :=
  let n z e := binary_normalize 53 1024 z e false in
  let third := SFdiv 53 1024 (n 1 0)%Z (n 3 0)%Z in let tenth := SFdiv 53 1024 (n 1 0)%Z (n 10 0)%Z in
  [(n 1 0, third); (third, tenth); (SFopp tenth, third); (n 1 53, n 1 0); (n (2 ^ 52 + 1) 1, n (-1) 0); (n 1 0, n 1 (-53)); (n 1 0, n 3 (-54)); (n (-1) 0, n 1 (-54)); (tenth, tenth);
   (n 3 (-1074), n 1 (-1)); (n (2 ^ 53 - 1) 971, n 1 970); (n 1 (-600), third);
   (S754_zero false, tenth); (S754_infinity false, S754_infinity true); (S754_nan, third); (S754_infinity true, n 3 0); (tenth, S754_infinity false); (n (-5) 0, S754_zero false); (S754_zero false, S754_zero false)]%Z.
Example C129_specfloat_case : forallb (fun p => let x := fst p in let y := snd p in
  float_same (of_float (SFadd 53 1024 x y)) (b64 (dadd (of_float x) (of_float y))) && float_same (of_float (SFsub 53 1024 x y)) (b64 (dsub (of_float x) (of_float y))) &&
  float_same (of_float (SFmul 53 1024 x y)) (b64 (dmul (of_float x) (of_float y))) && float_same (of_float (SFdiv 53 1024 x y)) (b64 (ddiv (of_float x) (of_float y)))) float_pairs = true.
Proof. vm_compute. reflexivity. Qed.
Example C129_f_measure_case : exists fs w, r_cm_fmeasure b64 (classified ["a"; "b"] [("a","a"); ("a","a"); ("a","b"); ("b","b"); ("b","a"); ("b","b"); ("b","b")]) = Ok fs /\
  r_cm_weighted b64 (classified ["a"; "b"] [("a","a"); ("a","a"); ("a","b"); ("b","b"); ("b","a"); ("b","b"); ("b","b")]) = Ok w /\
  map (fun f => dltb d0 f && dltb f d1) (w :: fs) = [true; true; true] /\ deqb w (double (5#7)) = true.
Proof. do 2 eexists. split; [vm_compute; reflexivity|]. split; [vm_compute; reflexivity|]. split; vm_compute; reflexivity. Qed.
Print Assumptions C129_roundings.
Print Assumptions C129_same_code.
Print Assumptions C129_one_rounding.
Print Assumptions C129_exists.
Print Assumptions C129_bounds.
Print Assumptions C129_order.
Print Assumptions C129_pruning.
Print Assumptions C129_mean.
Print Assumptions C129_mean_error.
Print Assumptions C129_f_measure.
Print Assumptions C129_better_refuted.
Print Assumptions C129_repeated_refuted.
Print Assumptions C129_error_rate_refuted.
