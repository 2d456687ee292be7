(** Accuracies in rounded arithmetic. *)
From Coq Require Import String ZArith QArith Qabs Bool Lia Lqa List Setoid Morphisms.
From Verif Require Import Base Spec BaseLemmas DblLemmas AttrModel InstanceListModel PerformanceModel PerformanceSpec PerformanceProofs TreeModel RoundModel RoundSpec.
Import ListNotations.
Local Open Scope list_scope.

(** number of instances whose label is the predicted one *)
Notation small n := (Z.of_nat n <= 2 ^ 53)%Z.
Lemma u_pos : (0 < ulp_half)%Q. Proof. reflexivity. Qed.
Lemma u_inv : (inject_Z (2 ^ 53) * ulp_half == 1)%Q. Proof. reflexivity. Qed.
Lemma qofn_Z n : qofn n = inject_Z (Z.of_nat n). Proof. reflexivity. Qed.
Lemma qofn_small n : small n -> (qofn n <= inject_Z (2 ^ 53))%Q.
Proof. intros H. rewrite qofn_Z, <- Zle_Qle. exact H. Qed.

Lemma filter_length_le' {A} (f : A -> bool) l : (length (filter f l) <= length l)%nat.
Proof. induction l as [|x l IH]; cbn; [lia|]. destruct (f x); cbn; lia. Qed.

Section Round.
  Context (R : dbl -> dbl) (HR : rounding R).
  #[local] Instance R_proper : Proper (deq ==> deq) R. Proof. intros a b E. apply (r_ext R HR _ _ E). Qed.
  #[local] Instance radd_proper : Proper (deq ==> deq ==> deq) (radd R). Proof. intros a b E c d E'. unfold radd. rewrite E, E'. reflexivity. Qed.
  #[local] Instance rsub_proper : Proper (deq ==> deq ==> deq) (rsub R). Proof. intros a b E c d E'. unfold rsub. rewrite E, E'. reflexivity. Qed.
  #[local] Instance rmul_proper : Proper (deq ==> deq ==> deq) (rmul R). Proof. intros a b E c d E'. unfold rmul. rewrite E, E'. reflexivity. Qed.
  #[local] Instance rdiv_proper : Proper (deq ==> deq ==> deq) (rdiv R). Proof. intros a b E c d E'. unfold rdiv. rewrite E, E'. reflexivity. Qed.
  Lemma rnat_exact n : small n -> deq (rnat R n) (dofnat n).
  Proof. intros H. apply (r_int R HR (Z.of_nat n)). lia. Qed.
  Lemma R_0 : deq (R d0) d0. Proof. apply (r_int R HR 0%Z). lia. Qed.
  Lemma R_1 : deq (R d1) d1. Proof. apply (r_int R HR 1%Z). lia. Qed.
  Lemma R_2 : deq (R (Fin 2)) (Fin 2). Proof. apply (r_int R HR 2%Z). lia. Qed.
  Lemma radd_nat n m : small (n + m) -> deq (radd R (dofnat n) (dofnat m)) (dofnat (n + m)).
  Proof. intros H. unfold radd. rewrite dadd_nat. apply (rnat_exact (n + m) H). Qed.
  (** adding up counts is exact *)
  Lemma fold_radd_nat {A} (b : A -> bool) (f : A -> nat) l : forall n, (forall x, b x = false -> f x = 0%nat) -> small (n + list_sum (map f l)) ->
    forall d, deq d (dofnat n) -> deq (fold_left (fun r x => if b x then radd R r (rnat R (f x)) else r) l d) (dofnat (n + list_sum (map f l))).
  Proof.
    induction l as [|x l IH]; intros n Hb Hs d Hd; cbn [fold_left map list_sum fold_right] in *; [rewrite Nat.add_0_r; exact Hd|].
    unfold list_sum in *. cbn [fold_right] in *. rewrite Nat.add_assoc. destruct (b x) eqn:E.
    - apply IH; [exact Hb|rewrite <- Nat.add_assoc; exact Hs|]. rewrite Hd, rnat_exact by lia. apply radd_nat. lia.
    - apply IH; [exact Hb|rewrite <- Nat.add_assoc; exact Hs|]. rewrite (Hb x E), Nat.add_0_r. exact Hd.
  Qed.

  (** ** The quotient of two counts *)
  Lemma near q : normal q -> (0 < q)%Q -> exists r, R (Fin q) = Fin r /\ (q * (1 - ulp_half) <= r <= q * (1 + ulp_half))%Q.
  Proof.
    intros N P. destruct (r_err R HR q N) as (r & E & B). exists r. split; [exact E|]. rewrite (Qabs_pos q) in B by lra. apply Qabs_Qle_condition in B. split; lra.
  Qed.
  Lemma apart p q : (0 <= p)%Q -> (p == 0 \/ normal p)%Q -> normal q -> (0 < q)%Q -> (ulp_half * (p + q) < q - p)%Q -> dltb (R (Fin p)) (R (Fin q)) = true.
  Proof.
    intros P Np Nq Q G. destruct (near q Nq Q) as (r & -> & Br). pose proof u_pos as U. assert (p == 0 \/ 0 < p)%Q as [Z|Z] by lra.
    - assert (deq (R (Fin p)) (Fin 0)) as -> by (rewrite <- R_0; apply (r_ext R HR); exact Z). apply dltb_fin. nra.
    - destruct Np as [Np|Np]; [lra|]. destruct (near p Np Z) as (s & -> & Bs). apply dltb_fin. nra.
  Qed.
  Lemma low_normal : (1 # (2 ^ 1022)%positive <= ulp_half)%Q. Proof. vm_compute. discriminate. Qed.
  Lemma one_normal : (1 <= inject_Z (2 ^ 1023))%Q. Proof. vm_compute. discriminate. Qed.
  Lemma mid_normal q : (ulp_half <= q <= 1)%Q -> normal q.
  Proof. intros H. pose proof u_pos. unfold normal. rewrite Qabs_pos by lra. pose proof low_normal. pose proof one_normal. split; lra. Qed.
  Lemma quot_normal k n : (0 < k <= n)%nat -> small n -> normal (qofn k / qofn n).
  Proof.
    intros H S. apply mid_normal. assert (0 < qofn n)%Q as P by (apply qofn_pos; lia). pose proof (qofn_small n S) as B. pose proof u_inv as U. pose proof u_pos.
    assert (1 <= qofn k)%Q as K by (rewrite <- qofn_1; apply qofn_le; lia). assert (qofn k <= qofn n)%Q as L by (apply qofn_le; lia).
    set (h := inject_Z (2 ^ 53)) in *. clearbody h. set (u := ulp_half) in *. clearbody u. split; [apply Qle_shift_div_l; [exact P|]; nra|apply Qle_shift_div_r; [exact P|lra]].
  Qed.
  Lemma quot_zero n : (0 < n)%nat -> (qofn 0 / qofn n == 0)%Q.
  Proof. intros H. rewrite qofn_0. assert (0 < qofn n)%Q by (apply qofn_pos; lia). field. lra. Qed.
  Lemma quot_nonneg k n : (0 < n)%nat -> (0 <= qofn k / qofn n)%Q.
  Proof. intros H. assert (0 < qofn n)%Q by (apply qofn_pos; lia). apply Qle_shift_div_l; [assumption|]. pose proof (qofn_nonneg k). lra. Qed.
  (** different fractions stay different while the denominators are moderate *)
  Lemma quot_order k n k' n' : (k <= n)%nat -> (k' <= n')%nat -> (0 < n)%nat -> (0 < n')%nat -> small n -> small n' ->
    (n = n' /\ (2 * Z.of_nat n <= 2 ^ 53)%Z \/ (2 * (Z.of_nat n * Z.of_nat n') <= 2 ^ 53)%Z) -> (k * n' < k' * n)%nat ->
    dltb (R (Fin (qofn k / qofn n))) (R (Fin (qofn k' / qofn n'))) = true.
  Proof.
    intros K K' P P' S S' G L. assert (0 < k')%nat as Pk by lia.
    assert (0 < qofn n)%Q as Qn by (apply qofn_pos; lia). assert (0 < qofn n')%Q as Qn' by (apply qofn_pos; lia).
    apply apart; [apply quot_nonneg, P| |apply quot_normal; [lia|exact S']| |].
    - destruct k as [|k]; [left; apply quot_zero, P|right; apply quot_normal; [lia|exact S]].
    - apply Qlt_shift_div_l; [exact Qn'|]. assert (0 < qofn k')%Q by (apply qofn_pos, Pk). lra.
    - pose proof u_inv as U. pose proof u_pos as Up.
      assert (ulp_half * (qofn k * qofn n' + qofn k' * qofn n) < qofn k' * qofn n - qofn k * qofn n')%Q as Goal.
      { assert (forall a b, qofn a * qofn b == qofn (a * b))%Q as M by (intros a b; rewrite !qofn_Z, <- inject_Z_mult, Nat2Z.inj_mul; reflexivity).
        rewrite !M. assert (Z.of_nat (k * n') + Z.of_nat (k' * n) < 2 ^ 53 * (Z.of_nat (k' * n) - Z.of_nat (k * n')))%Z as B.
        { rewrite !Nat2Z.inj_mul. destruct G as [[<- G]|G].
          { assert (k < k')%nat as Lk by nia. set (h := (2 ^ 53)%Z) in *. clearbody h. set (zn := Z.of_nat n) in *. assert (0 < zn)%Z by lia. assert (Z.of_nat k + Z.of_nat k' < h)%Z as B1 by lia.
            assert (1 <= Z.of_nat k' - Z.of_nat k)%Z as B2 by lia. set (a := Z.of_nat k) in *. set (b := Z.of_nat k') in *. clearbody zn a b. clear - B1 B2 H G. assert (0 < h)%Z by lia.
            assert (a + b < h * (b - a))%Z by nia. nia. }
          rewrite <- !Nat2Z.inj_mul in *. assert (Z.of_nat (k * n') <= Z.of_nat n * Z.of_nat n')%Z by nia. assert (Z.of_nat (k' * n) <= Z.of_nat n * Z.of_nat n')%Z by nia. lia. }
        rewrite Zlt_Qlt, inject_Z_plus, inject_Z_mult in B. unfold Z.sub in B. rewrite inject_Z_plus, inject_Z_opp in B. rewrite <- !qofn_Z in B.
        set (h := inject_Z (2 ^ 53)) in *. clearbody h. set (u := ulp_half) in *. clearbody u. set (x := qofn (k * n')) in *. set (y := qofn (k' * n)) in *. clearbody x y.
        assert (u * (x + y) < u * (h * (y - x)))%Q as T by nra. assert (u * (h * (y - x)) == y - x)%Q as T2 by (transitivity ((h * u) * (y - x))%Q; [ring|rewrite U; ring]). lra. }
      set (a := qofn k) in *. set (b := qofn k') in *. set (c := qofn n) in *. set (d := qofn n') in *. clearbody a b c d. set (u := ulp_half) in *. clearbody u.
      assert (a / c + b / d == (a * d + b * c) / (c * d))%Q as E1 by (field; split; lra). assert (b / d - a / c == (b * c - a * d) / (c * d))%Q as E2 by (field; split; lra).
      rewrite E1, E2. assert (0 < c * d)%Q as Pc by nra. unfold Qdiv. assert (0 < / (c * d))%Q as Pi by (apply Qinv_lt_0_compat, Pc). set (i := (/ (c * d))%Q) in *. clearbody i. nra.
  Qed.
  Lemma quot_bounds k n : (k <= n)%nat -> (0 < n)%nat -> dleb d0 (R (Fin (qofn k / qofn n))) = true /\ dleb (R (Fin (qofn k / qofn n))) d1 = true.
  Proof.
    intros K P. assert (0 < qofn n)%Q as Qn by (apply qofn_pos; lia). split.
    - rewrite <- R_0. apply (r_mono R HR), dleb_fin, quot_nonneg, P.
    - rewrite <- R_1. apply (r_mono R HR), dleb_fin, Qle_shift_div_r; [exact Qn|]. assert (qofn k <= qofn n)%Q by (apply qofn_le; lia). lra.
  Qed.
  (** one is only reached by all right *)
  Lemma quot_one k n : (k < n)%nat -> small n -> dltb (R (Fin (qofn k / qofn n))) d1 = true.
  Proof.
    intros K S. assert (0 < qofn n)%Q as Qn by (apply qofn_pos; lia). assert (0 < n)%nat as P by lia. pose proof u_inv as U. pose proof u_pos as Up.
    destruct k as [|k].
    - assert (deq (R (Fin (qofn 0 / qofn n))) d0) as ->; [|reflexivity]. rewrite <- R_0. apply (r_ext R HR). exact (quot_zero n P).
    - destruct (near (qofn (Datatypes.S k) / qofn n) (quot_normal (Datatypes.S k) n ltac:(lia) S)) as (r & -> & _ & B).
      { apply Qlt_shift_div_l; [exact Qn|]. assert (0 < qofn (Datatypes.S k))%Q by (apply qofn_pos; lia). lra. }
      apply dltb_fin. eapply Qle_lt_trans; [exact B|]. assert (qofn (Datatypes.S k) + 1 <= qofn n)%Q as L by (rewrite <- qofn_1, <- qofn_plus; apply qofn_le; lia).
      pose proof (qofn_small n S) as T. set (c := qofn n) in *. set (a := qofn (Datatypes.S k)) in *. set (h := inject_Z (2 ^ 53)) in *. set (u := ulp_half) in *. clearbody c a h u.
      assert (a / c * (1 + u) == (a * (1 + u)) / c)%Q as -> by (field; lra). apply Qlt_shift_div_r; [exact Qn|]. nra.
  Qed.
  Lemma quot_pos k n : (0 < k <= n)%nat -> small n -> dltb d0 (R (Fin (qofn k / qofn n))) = true.
  Proof.
    intros K S. assert (0 < qofn n)%Q as Qn by (apply qofn_pos; lia). destruct (near (qofn k / qofn n) (quot_normal _ _ K S)) as (r & -> & B & _).
    { apply Qlt_shift_div_l; [exact Qn|]. assert (0 < qofn k)%Q by (apply qofn_pos; lia). lra. }
    apply dltb_fin. eapply Qlt_le_trans; [|exact B]. assert (0 < qofn k / qofn n)%Q by (apply Qlt_shift_div_l; [exact Qn|]; assert (0 < qofn k)%Q by (apply qofn_pos; lia); lra).
    assert (ulp_half < 1)%Q by reflexivity. nra.
  Qed.
  Lemma rdiv_counts k n : (0 < n)%nat -> (k <= n)%nat -> small n -> deq (rdiv R (rnat R k) (rnat R n)) (R (Fin (qofn k / qofn n))).
  Proof. intros P K S. rewrite !rnat_exact by lia. unfold rdiv. rewrite !dofnat_fin, ddiv_fin; [reflexivity|]. assert (0 < qofn n)%Q by (apply qofn_pos, P). lra. Qed.

  (** ** Sums over the confusion matrix are exact *)
  Lemma dofnat_inj n m : dofnat n = dofnat m -> n = m.
  Proof. intros H. injection H as H. lia. Qed.
  Lemma fold_radd_nat' {A} (f : A -> nat) l : small (list_sum (map f l)) -> deq (fold_left (fun r x => radd R r (rnat R (f x))) l d0) (dofnat (list_sum (map f l))).
  Proof. intros H. exact (fold_radd_nat (fun _ => true) f l 0 ltac:(discriminate) H d0 ltac:(reflexivity)). Qed.
  Lemma r_sum_exact L ps : small (length ps) -> deq (r_cm_sum R (classified L ps)) (dofnat (length ps)).
  Proof.
    intros H. rewrite <- (cm_sum_classified L ps). unfold r_cm_sum, cm_sum. change d0 with (dofnat 0) at 2.
    rewrite (fold_dadd_nat (fun kv => csum (snd kv))). cbn [plus]. apply (fold_radd_nat' (fun kv => csum (snd kv))).
    pose proof (cm_sum_classified L ps) as E. unfold cm_sum in E. change d0 with (dofnat 0) in E. rewrite (fold_dadd_nat (fun kv => csum (snd kv))) in E. apply dofnat_inj in E. cbn [plus] in E. rewrite E. exact H.
  Qed.
  Lemma correct_le ps : (correct_count ps <= length ps)%nat. Proof. apply filter_length_le'. Qed.
  Lemma r_trace_exact L ps : small (length ps) -> deq (r_cm_trace R (classified L ps)) (dofnat (correct_count ps)).
  Proof.
    intros H. rewrite <- (cm_trace_classified L ps). unfold r_cm_trace, cm_trace. change d0 with (dofnat 0) at 2.
    rewrite (fold_dadd_nat_if (fun kv => mmem (fst kv) (snd kv)) (fun kv => ccount (snd kv) (fst kv))) by (intros; apply mmem_ccount; assumption).
    apply (fold_radd_nat (fun kv => mmem (fst kv) (snd kv)) (fun kv => ccount (snd kv) (fst kv))); [intros; apply mmem_ccount; assumption| |reflexivity].
    pose proof (cm_trace_classified L ps) as E. unfold cm_trace in E. change d0 with (dofnat 0) in E.
    rewrite (fold_dadd_nat_if (fun kv => mmem (fst kv) (snd kv)) (fun kv => ccount (snd kv) (fst kv))) in E by (intros; apply mmem_ccount; assumption).
    apply dofnat_inj in E. rewrite E. pose proof (correct_le ps). lia.
  Qed.
  Lemma r_column_exact L ps p : small (length ps) -> deq (r_cm_column R (classified L ps) p) (dofnat (predicted_count ps p)).
  Proof.
    intros H. rewrite <- (cm_column_classified L ps). unfold r_cm_column, cm_column. change d0 with (dofnat 0) at 2.
    rewrite (fold_dadd_nat_if (fun kv => mmem p (snd kv)) (fun kv => ccount (snd kv) p)) by (intros; apply mmem_ccount; assumption).
    apply (fold_radd_nat (fun kv => mmem p (snd kv)) (fun kv => ccount (snd kv) p)); [intros; apply mmem_ccount; assumption| |reflexivity].
    pose proof (cm_column_classified L ps p) as E. unfold cm_column in E. change d0 with (dofnat 0) in E.
    rewrite (fold_dadd_nat_if (fun kv => mmem p (snd kv)) (fun kv => ccount (snd kv) p)) in E by (intros; apply mmem_ccount; assumption).
    apply dofnat_inj in E. rewrite E. assert (predicted_count ps p <= length ps)%nat by apply filter_length_le'. lia.
  Qed.
  Lemma r_accuracy_classified L ps : ps <> [] -> small (length ps) ->
    deq (r_cm_accuracy R (classified L ps)) (R (Fin (qofn (correct_count ps) / qofn (length ps)))).
  Proof.
    intros N H. unfold r_cm_accuracy. rewrite r_trace_exact, r_sum_exact by exact H. unfold rdiv. rewrite !dofnat_fin, ddiv_fin; [reflexivity|].
    assert (0 < qofn (length ps))%Q by (apply qofn_pos; destruct ps; [contradiction|cbn; lia]). lra.
  Qed.
  (** ** The comparison of pruning *)
  Lemma acc_compare k k' n : (k <= n)%nat -> (k' <= n)%nat -> (2 * Z.of_nat n <= 2 ^ 53)%Z ->
    dltb (rdiv R (rnat R k) (rnat R n)) (rdiv R (rnat R k') (rnat R n)) = dltb (ddiv (dofnat k) (dofnat n)) (ddiv (dofnat k') (dofnat n)).
  Proof.
    intros K K' B. destruct n as [|n].
    - assert (k = 0%nat) as -> by lia. assert (k' = 0%nat) as -> by lia. rewrite rnat_exact by lia. unfold rdiv. change (ddiv (dofnat 0) (dofnat 0)) with NaN. rewrite (r_nan R HR). reflexivity.
    - rewrite !rdiv_counts by lia. set (m := Datatypes.S n) in *. assert (0 < qofn m)%Q as P by (apply qofn_pos; unfold m; lia). rewrite !dofnat_fin, !ddiv_fin by lra.
      assert (forall a b, (a < b)%nat <-> qofn a / qofn m < qofn b / qofn m)%Q as O.
      { intros a b. rewrite qofn_lt. assert (0 < / qofn m)%Q by (apply Qinv_lt_0_compat, P). unfold Qdiv. split; intros; nra. }
      destruct (Nat.lt_ge_cases k k') as [L|L].
      + rewrite (proj2 (dltb_fin _ _) (proj1 (O _ _) L)). apply quot_order; try lia; unfold m; nia.
      + assert (dltb (Fin (qofn k / qofn m)) (Fin (qofn k' / qofn m)) = false) as ->.
        { apply dltb_fin_false. destruct (Qlt_le_dec (qofn k / qofn m) (qofn k' / qofn m)) as [C|C]; [apply O in C; lia|exact C]. }
        assert (dleb (R (Fin (qofn k' / qofn m))) (R (Fin (qofn k / qofn m))) = true) as M.
        { apply (r_mono R HR), dleb_fin. destruct (Qlt_le_dec (qofn k / qofn m) (qofn k' / qofn m)) as [C|C]; [apply O in C; lia|exact C]. }
        revert M. destruct (R (Fin (qofn k' / qofn m))), (R (Fin (qofn k / qofn m))); cbn; try discriminate; try reflexivity. intros M. rewrite M. reflexivity.
  Qed.
  Lemma count_le (predict : instance -> res string) l : forall k k',
    foldM (fun k x => do p <- predict x; Ok (if String.eqb (label x) p then S k else k)) l k = Ok k' -> (k' <= k + length l)%nat.
  Proof.
    induction l as [|x l IH]; intros k k'; cbn [foldM length]; [intros H; injection H as <-; lia|].
    destruct (predict x) as [p| | |]; cbn [bind]; try discriminate. intros H. apply IH in H. destruct (String.eqb (label x) p); lia.
  Qed.
  Lemma r_decision (mi : counter -> list string -> string) {B} t t' l (g : bool -> res B) : (2 * Z.of_nat (length l) <= 2 ^ 53)%Z ->
    (do b <- r_accuracy_on R mi t l; do a <- r_accuracy_on R mi t' l; g (dltb a b)) = (do b <- accuracy_on mi t l; do a <- accuracy_on mi t' l; g (dltb a b)).
  Proof.
    intros H. unfold r_accuracy_on, accuracy_on, r_test_classifier, test_classifier.
    destruct (foldM _ l 0%nat) as [k| | |] eqn:E; cbn [bind]; try reflexivity. destruct (foldM _ l 0%nat) as [k'| | |] eqn:E' in |- *; cbn [bind r_new_class new_class accuracy_of]; try reflexivity.
    apply count_le in E, E'. cbn [plus] in E, E'. rewrite acc_compare; [reflexivity|exact E'|exact E|exact H].
  Qed.
  Lemma r_prune_same mi l : (2 * Z.of_nat (length l) <= 2 ^ 53)%Z -> forall t plug, r_prune_node R mi l plug t = prune_node mi l plug t.
  Proof.
    intros H. fix IH 1. intros [lab leaf dist c ch] plug. cbn [r_prune_node prune_node]. destruct leaf; [reflexivity|].
    match goal with |- bind _ (fun b => bind _ (fun a => if dltb a b then ?g else ?h)) = _ =>
      rewrite (r_decision mi (plug (Node lab false dist c ch)) (plug (Node lab true dist c ch)) l (fun b => if b then g else h) H) end.
    destruct (accuracy_on mi (plug (Node lab false dist c ch)) l) as [b| | |]; cbn [bind]; try reflexivity.
    destruct (accuracy_on mi (plug (Node lab true dist c ch)) l) as [a| | |]; cbn [bind]; try reflexivity.
    destruct (dltb a b); [|reflexivity]. f_equal.
    match goal with |- ?F [] ch = ?G [] ch => refine ((_ : forall ch done, F done ch = G done ch) ch []) end. clear ch. fix IH' 1. intros [|n todo] done; [reflexivity|].
    rewrite IH. destruct (prune_node _ _ _ n) as [n'| | |]; cbn [bind]; try reflexivity. apply IH'.
  Qed.
  (** ** Means of numbers between integers *)
  Lemma sum_between (lo hi : Z) l : forall k s, (Z.abs lo * (Z.of_nat k + Z.of_nat (length l)) <= 2 ^ 53)%Z -> (Z.abs hi * (Z.of_nat k + Z.of_nat (length l)) <= 2 ^ 53)%Z ->
    Forall (fun d => dleb (dofZ lo) d = true /\ dleb d (dofZ hi) = true) l ->
    dleb (dofZ (lo * Z.of_nat k)) s = true -> dleb s (dofZ (hi * Z.of_nat k)) = true ->
    let r := fold_left (radd R) l s in
    dleb (dofZ (lo * (Z.of_nat k + Z.of_nat (length l)))) r = true /\ dleb r (dofZ (hi * (Z.of_nat k + Z.of_nat (length l)))) = true.
  Proof.
    induction l as [|d l IH]; intros k s Bl Bh H Ls Hs; cbn [fold_left length] in *; [rewrite Z.add_0_r; split; assumption|].
    inversion H as [|? ? [L U] H']; subst. replace (Z.of_nat k + Z.of_nat (Datatypes.S (length l)))%Z with (Z.of_nat (Datatypes.S k) + Z.of_nat (length l))%Z in * by lia.
    assert (forall a b c e, dleb (Fin a) c = true -> dleb c (Fin b) = true -> forall x y, dleb (Fin x) e = true -> dleb e (Fin y) = true ->
      dleb (Fin (a + x)) (dadd c e) = true /\ dleb (dadd c e) (Fin (b + y)) = true) as A.
    { intros a b c e H1 H2 x y H3 H4. destruct c as [c| | |], e as [e| | |]; try discriminate. cbn [dadd]. apply dleb_fin in H1, H2, H3, H4. split; apply dleb_fin; lra. }
    destruct (A _ _ _ _ Ls Hs _ _ L U) as [A1 A2].
    apply (IH (Datatypes.S k)); try assumption.
    - assert (deq (R (dofZ (lo * Z.of_nat (Datatypes.S k)))) (dofZ (lo * Z.of_nat (Datatypes.S k)))) as <- by (apply (r_int R HR); rewrite Z.abs_mul; nia).
      apply (r_mono R HR). etransitivity; [|exact A1]. apply dleb_proper; [|reflexivity]. unfold dofZ; cbn [deq]; rewrite <- inject_Z_plus. replace (lo * Z.of_nat (Datatypes.S k))%Z with (lo * Z.of_nat k + lo)%Z by lia. reflexivity.
    - assert (deq (R (dofZ (hi * Z.of_nat (Datatypes.S k)))) (dofZ (hi * Z.of_nat (Datatypes.S k)))) as <- by (apply (r_int R HR); rewrite Z.abs_mul; nia).
      apply (r_mono R HR). etransitivity; [|exact A2]. apply dleb_proper; [reflexivity|]. unfold dofZ; cbn [deq]; rewrite <- inject_Z_plus. replace (hi * Z.of_nat (Datatypes.S k))%Z with (hi * Z.of_nat k + hi)%Z by lia. reflexivity.
  Qed.
  Lemma mean_between (lo hi : Z) l : l <> [] -> (Z.abs lo * Z.of_nat (length l) <= 2 ^ 53)%Z -> (Z.abs hi * Z.of_nat (length l) <= 2 ^ 53)%Z -> small (length l) ->
    Forall (fun d => dleb (dofZ lo) d = true /\ dleb d (dofZ hi) = true) l ->
    let m := rdiv R (fold_left (radd R) l d0) (rnat R (length l)) in dleb (dofZ lo) m = true /\ dleb m (dofZ hi) = true.
  Proof.
    intros N Bl Bh S H. destruct (sum_between lo hi l 0 d0 Bl Bh H) as [L U]; try (rewrite Z.mul_0_r; reflexivity). cbn zeta. rewrite rnat_exact by exact S. cbn [Z.of_nat Z.add] in L, U.
    set (s := fold_left (radd R) l d0) in *. clearbody s. destruct s as [s| | |]; try discriminate. apply dleb_fin in L, U. unfold rdiv. assert (0 < qofn (length l))%Q as P by (apply qofn_pos; destruct l; [contradiction|cbn; lia]).
    rewrite inject_Z_mult, <- qofn_Z in L, U. rewrite dofnat_fin, ddiv_fin by lra. assert (1 <= Z.of_nat (length l))%Z by (destruct l; [contradiction|cbn [length]; lia]). split.
    - assert (deq (R (dofZ lo)) (dofZ lo)) as <- by (apply (r_int R HR); nia). apply (r_mono R HR), dleb_fin, Qle_shift_div_l; assumption.
    - assert (deq (R (dofZ hi)) (dofZ hi)) as <- by (apply (r_int R HR); nia). apply (r_mono R HR), dleb_fin, Qle_shift_div_r; assumption.
  Qed.
End Round.
