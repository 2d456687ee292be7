(** Proofs about the statistical tests. *)
From Coq Require Import String ZArith QArith Qreals Qfield Reals Bool Lia Lra Lqa Permutation Arith Factorial List.
From Verif Require Import Base Spec BaseLemmas DblLemmas AttrModel DataSetProofs InstanceListModel StatModel StatSpec ListProofs PartitionProofs CovProofs CovAllProofs PerformanceModel PerformanceProofs DistanceProofs StatTestModel StatTestSpec.
Import ListNotations.
Local Open Scope list_scope.
Local Open Scope nat_scope.

(** * Reading the results *)
Lemma exp_error_at e i : exp_error e i = at_ (map error_rate (results e)) i.
Proof.
  unfold exp_error, at_, atn. destruct (i <? 0)%Z; [reflexivity|]. rewrite nth_error_map. destruct (nth_error (results e) (Z.to_nat i)); reflexivity.
Qed.
Lemma foldM_pairs {S} (f : S -> dbl -> dbl -> res S) : forall l l' s, length l = length l' ->
  foldM (fun s i => do a <- at_ l (Z.of_nat i); do b <- at_ l' (Z.of_nat i); f s a b) (seq 0 (length l)) s = foldM (fun s p => f s (fst p) (snd p)) (combine l l') s.
Proof.
  induction l as [|x l IH]; intros [|y l'] s L; try discriminate; [reflexivity|]. cbn [length]. rewrite foldM_seq_S. change (Z.of_nat 0) with 0%Z. cbn [combine foldM fst snd].
  change (at_ (x :: l) 0) with (@Ok dbl x). change (at_ (y :: l') 0) with (@Ok dbl y). cbn [bind]. destruct (f s x y); try reflexivity. cbn [bind].
  rewrite <- IH by (now injection L). apply foldM_ext. intros t i _. rewrite !at_nat. reflexivity.
Qed.
Lemma mapM_pairs {B} (f : dbl -> dbl -> res B) l l' : length l = length l' ->
  mapM (fun i => do a <- at_ l (Z.of_nat i); do b <- at_ l' (Z.of_nat i); f a b) (seq 0 (length l)) = mapM (fun p => f (fst p) (snd p)) (combine l l').
Proof.
  intros L. revert l' L. induction l as [|x l IH]; intros [|y l'] L; try discriminate; [reflexivity|]. cbn [length seq mapM combine fst snd].
  change (Z.of_nat 0) with 0%Z. change (at_ (x :: l) 0) with (@Ok dbl x). change (at_ (y :: l') 0) with (@Ok dbl y). cbn [bind]. destruct (f x y); try reflexivity. cbn [bind].
  rewrite <- IH by (now injection L). rewrite <- seq_shift.
  assert (E : forall g h : nat -> res B, (forall i, g (S i) = h i) -> forall is_, mapM g (map S is_) = mapM h is_).
  { intros g h E is_. induction is_ as [|i is_ IHi]; [reflexivity|]. cbn. rewrite E, IHi. reflexivity. }
  rewrite (E _ (fun i => do a1 <- at_ l (Z.of_nat i); do b0 <- at_ l' (Z.of_nat i); f a1 b0)); [reflexivity|]. intros i. rewrite !at_nat. reflexivity.
Qed.
Lemma sign_counts_wins c1 c2 : exp_size c1 = exp_size c2 ->
  sign_counts c1 c2 = Ok (wins (map error_rate (results c1)) (map error_rate (results c2)), wins (map error_rate (results c2)) (map error_rate (results c1))).
Proof.
  intros L. unfold sign_counts, exp_size in *. set (l := map error_rate (results c1)) in *. set (l' := map error_rate (results c2)) in *.
  assert (L1 : length (results c1) = length l) by (unfold l; rewrite map_length; reflexivity).
  assert (L2 : length l = length l') by (unfold l, l'; rewrite !map_length; exact L). rewrite L1.
  rewrite (foldM_ext _ (fun st i => do a <- at_ l (Z.of_nat i); do b <- at_ l' (Z.of_nat i); Ok (if dltb a b then (S (fst st), snd st) else if dgtb a b then (fst st, S (snd st)) else st)))
    by (intros; rewrite !exp_error_at; reflexivity).
  rewrite (foldM_pairs (fun st a b => Ok (if dltb a b then (S (fst st), snd st) else if dgtb a b then (fst st, S (snd st)) else st)) l l' (0, 0) L2).
  assert (G : forall l l' st, length l = length l' -> foldM (fun st p => Ok (if dltb (fst p) (snd p) then (S (fst st), snd st) else if dgtb (fst p) (snd p) then (fst st, S (snd st)) else st)) (combine l l') st
     = Ok (fst st + wins l l', snd st + wins l' l)).
  { clear. induction l as [|x l IH]; intros [|y l'] st L; try discriminate; [cbn; rewrite !Nat.add_0_r; destruct st; reflexivity|].
    cbn [combine foldM fst snd bind]. rewrite IH by (now injection L). unfold wins. cbn [combine]. rewrite !countb_cons. cbn [fst snd]. unfold dgtb.
    destruct (dltb x y) eqn:E1.
    - assert (E2 : dltb y x = false) by (destruct (dltb y x) eqn:E2; [|reflexivity]; pose proof (dltb_trans _ _ _ E1 E2) as F; rewrite dltb_irrefl in F; discriminate F).
      rewrite E2. cbn [fst snd]. do 2 f_equal; lia.
    - destruct (dltb y x); cbn [fst snd]; do 2 f_equal; lia. }
  rewrite G by exact L2. reflexivity.
Qed.

(** * Coin tosses *)
Definition cnt (n k : nat) : nat := countb (fun t => trues t =? k) (tosses n).
Lemma trues_cons b t : trues (b :: t) = (if b then 1 else 0) + trues t.
Proof. unfold trues. destruct b; reflexivity. Qed.
Lemma countb_ext {A} (f g : A -> bool) l : (forall x, f x = g x) -> countb f l = countb g l.
Proof. intros H. unfold countb. rewrite (filter_ext f g H). reflexivity. Qed.
Lemma countb_none {A} (f : A -> bool) l : (forall x, f x = false) -> countb f l = 0.
Proof. intros H. unfold countb. induction l as [|a l IH]; [reflexivity|]. cbn. rewrite H. exact IH. Qed.
Lemma cnt_S0 n : cnt (S n) 0 = cnt n 0.
Proof.
  unfold cnt. cbn [tosses]. rewrite countb_app, !countb_map. rewrite countb_none by (intros t; rewrite trues_cons; reflexivity). reflexivity.
Qed.
Lemma cnt_SS n k : cnt (S n) (S k) = cnt n k + cnt n (S k).
Proof. unfold cnt. cbn [tosses]. rewrite countb_app, !countb_map. f_equal. Qed.
Lemma cnt_0 n : cnt n 0 = 1.
Proof. induction n; [reflexivity|]. rewrite cnt_S0. exact IHn. Qed.
Lemma cnt_big n k : n < k -> cnt n k = 0.
Proof.
  revert k. induction n as [|n IH]; intros k H; [destruct k; [lia|reflexivity]|]. destruct k as [|k]; [lia|]. rewrite cnt_SS, !IH by lia. reflexivity.
Qed.
Lemma cnt_full n : cnt n n = 1.
Proof. induction n; [reflexivity|]. rewrite cnt_SS, IHn, cnt_big by lia. reflexivity. Qed.
Lemma cnt_fact n k : k <= n -> cnt n k * (fact k * fact (n - k)) = fact n.
Proof.
  revert k. induction n as [|n IH]; intros k H; [assert (k = 0) by lia; subst; reflexivity|].
  destruct k as [|k]; [rewrite cnt_0; rewrite Nat.sub_0_r; change (fact 0) with 1; lia|]. rewrite cnt_SS. destruct (Nat.eq_dec k n) as [->|N].
  - rewrite cnt_full, cnt_big by lia. rewrite Nat.sub_diag. change (fact 0) with 1. lia.
  - pose proof (IH k ltac:(lia)) as E1. pose proof (IH (S k) ltac:(lia)) as E2. replace (S n - S k) with (n - k) by lia.
    assert (exists m, n = k + S m) as [m ->] by (exists (n - S k); lia). replace (k + S m - k) with (S m) in * by lia. replace (k + S m - S k) with m in E2 by lia.
    clear IH. set (A := cnt (k + S m) k) in *. set (B := cnt (k + S m) (S k)) in *. change (fact (S (k + S m))) with (S (k + S m) * fact (k + S m)). set (F := fact (k + S m)) in *.
    change (fact (S k)) with (S k * fact k) in *. change (fact (S m)) with (S m * fact m) in *.
    replace ((A + B) * (S k * fact k * (S m * fact m))) with (S k * (A * (fact k * (S m * fact m))) + S m * (B * (S k * fact k * fact m))) by ring.
    rewrite E1, E2. ring.
Qed.
Lemma tosses_length n : length (tosses n) = 2 ^ n.
Proof. induction n as [|n IH]; [reflexivity|]. cbn [tosses]. rewrite app_length, !map_length, IH. cbn. lia. Qed.
Lemma at_most_count_S n k : countb (fun t => trues t <=? S k) (tosses n) = countb (fun t => trues t <=? k) (tosses n) + cnt n (S k).
Proof.
  unfold cnt. induction (tosses n) as [|t l IH]; [reflexivity|]. rewrite !countb_cons, IH.
  destruct (Nat.leb_spec (trues t) (S k)), (Nat.leb_spec (trues t) k), (Nat.eqb_spec (trues t) (S k)); lia.
Qed.
Lemma at_most_count_0 n : countb (fun t => trues t <=? 0) (tosses n) = cnt n 0.
Proof. unfold cnt. apply countb_ext. intros t. destruct (trues t); reflexivity. Qed.
Lemma pow2_pos n : 0 < 2 ^ n.
Proof. induction n; cbn; lia. Qed.
Lemma at_most_pos n k : (0 < at_most n k)%Q.
Proof.
  unfold at_most. apply Qlt_shift_div_l; [apply qofn_pos; rewrite tosses_length; apply pow2_pos|]. rewrite Qmult_0_l. apply qofn_pos.
  assert (1 <= countb (fun t => trues t <=? k) (tosses n)); [|lia]. induction k as [|k IH]; [rewrite at_most_count_0, cnt_0; lia|]. rewrite at_most_count_S. lia.
Qed.
Lemma at_most_le1 n k : (at_most n k <= 1)%Q.
Proof.
  unfold at_most. apply Qle_shift_div_r; [apply qofn_pos; rewrite tosses_length; apply pow2_pos|]. rewrite Qmult_1_l. apply qofn_le, countb_le.
Qed.
Lemma at_most_mono n k k' : k <= k' -> (at_most n k <= at_most n k')%Q.
Proof.
  intros H. unfold at_most. apply Qmult_le_compat_r; [|apply Qinv_le_0_compat, qofn_nonneg]. apply qofn_le.
  induction H as [|k' H IH]; [lia|]. rewrite at_most_count_S. lia.
Qed.
Lemma at_most_strict n k : k < n -> (at_most n k < at_most n (S k))%Q.
Proof.
  intros H. unfold at_most. apply Qmult_lt_compat_r; [apply Qinv_lt_0_compat, qofn_pos; rewrite tosses_length; apply pow2_pos|]. apply qofn_lt.
  rewrite at_most_count_S. assert (0 < cnt n (S k)); [|lia]. pose proof (cnt_fact n (S k) H) as E. destruct (cnt n (S k)); [|lia]. pose proof (lt_O_fact n). lia.
Qed.
Lemma tosses_mirror n : Permutation (map (map negb) (tosses n)) (tosses n).
Proof.
  induction n as [|n IH]; [apply Permutation_refl|]. cbn [tosses]. rewrite map_app, !map_map. cbn [map negb].
  rewrite <- (map_map (map negb) (cons false)), <- (map_map (map negb) (cons true)). rewrite !IH. apply Permutation_app_comm.
Qed.
Lemma tosses_len n t : In t (tosses n) -> length t = n.
Proof.
  revert t. induction n as [|n IH]; intros t H; [destruct H as [<-|[]]; reflexivity|]. cbn in H. apply in_app_or in H as [H|H]; apply in_map_iff in H as (u & <- & Hu); cbn; f_equal; apply IH; exact Hu.
Qed.
Lemma trues_negb t : trues (map negb t) + trues t = length t.
Proof. induction t as [|b t IH]; [reflexivity|]. cbn [map length]. rewrite !trues_cons. destruct b; cbn; lia. Qed.
Lemma countb_ext_in {A} (f g : A -> bool) l : (forall x, In x l -> f x = g x) -> countb f l = countb g l.
Proof. intros H. unfold countb. rewrite (filter_ext_in f g l H). reflexivity. Qed.
Lemma two_tails a b : (1 <= at_most (a + b) a + at_most (a + b) b)%Q.
Proof.
  assert (E : countb (fun t => trues t <=? b) (tosses (a + b)) = countb (fun t => a <=? trues t) (tosses (a + b))).
  { rewrite <- (countb_perm _ _ _ (tosses_mirror (a + b))) at 1. rewrite countb_map. apply countb_ext_in. intros t Ht. pose proof (trues_negb t) as T. rewrite (tosses_len _ _ Ht) in T.
    destruct (Nat.leb_spec (trues (map negb t)) b), (Nat.leb_spec a (trues t)); lia || reflexivity. }
  unfold at_most at 2. rewrite E. unfold at_most. set (N := length (tosses (a + b))).
  assert (L : N <= countb (fun t => trues t <=? a) (tosses (a + b)) + countb (fun t => a <=? trues t) (tosses (a + b))).
  { unfold N. clear. induction (tosses (a + b)) as [|t l IH]; [cbn; lia|]. rewrite !countb_cons. cbn [length]. destruct (Nat.leb_spec (trues t) a), (Nat.leb_spec a (trues t)); lia. }
  assert (P : (0 < qofn N)%Q) by (apply qofn_pos; unfold N; rewrite tosses_length; apply pow2_pos).
  unfold Qdiv. rewrite <- Qmult_plus_distr_l, <- qofn_plus. apply Qle_shift_div_l; [exact P|]. rewrite Qmult_1_l. apply qofn_le. exact L.
Qed.

(** * The sign test *)
Fixpoint zfact (n : nat) : Z := match n with 0 => 1%Z | S m => (Z.of_nat n * zfact m)%Z end.
Lemma zfact_fact n : zfact n = Z.of_nat (fact n).
Proof. induction n as [|n IH]; [reflexivity|]. change (fact (S n)) with (S n * fact n). rewrite Nat2Z.inj_mul, <- IH. reflexivity. Qed.
Lemma factorial_ok n : n <= 12 -> sign_factorial n = Ok (Z.of_nat (fact n)).
Proof. intros H. rewrite <- zfact_fact. do 13 (destruct n as [|n]; [vm_compute; reflexivity|]). lia. Qed.
Lemma factorial_overflow n : 13 <= n -> sign_factorial n = UB IntOverflow.
Proof. intros H. assert (exists k, n = 13 + k) as [k ->] by (exists (n - 13); lia). vm_compute. reflexivity. Qed.
Lemma fact_12 n : n <= 12 -> (Z.of_nat (fact n) <= 479001600)%Z.
Proof. intros H. rewrite <- zfact_fact. do 13 (destruct n as [|n]; [vm_compute; discriminate|]). lia. Qed.
Lemma binomial_ok m n : m <= 12 -> n <= m -> sign_binomial m n = Ok (Z.of_nat (cnt m n)).
Proof.
  intros Hm Hn. unfold sign_binomial. destruct (Nat.eqb_spec n 0) as [->|N0]; [rewrite cnt_0; reflexivity|].
  destruct (Nat.eqb_spec m n) as [->|N1]; [rewrite cnt_full; reflexivity|]. cbn [orb].
  rewrite !factorial_ok by lia. cbn [bind]. pose proof (cnt_fact m n Hn) as E. pose proof (fact_12 m Hm) as B. pose proof (lt_O_fact n). pose proof (lt_O_fact (m - n)). pose proof (lt_O_fact m).
  assert (C1 : 1 <= cnt m n) by (destruct (cnt m n); [cbn in E; lia|lia]).
  assert (P : 0 < fact n * fact (m - n)) by nia.
  assert (LE : fact n * fact (m - n) <= fact m) by (rewrite <- E; nia).
  unfold int_mul. rewrite <- Nat2Z.inj_mul.
  replace ((Z.of_nat (fact n * fact (m - n)) <=? 2147483647)%Z) with true by (symmetry; apply Z.leb_le; lia).
  replace ((-2147483648 <=? Z.of_nat (fact n * fact (m - n)))%Z) with true by (symmetry; apply Z.leb_le; lia). cbn [andb bind].
  destruct (Z.eqb_spec (Z.of_nat (fact n * fact (m - n))) 0) as [F|_]; [lia|]. f_equal.
  rewrite <- E, Nat2Z.inj_mul. apply Z.quot_mul. lia.
Qed.
Lemma binomial_overflow m n : 13 <= m -> 0 < n < m -> sign_binomial m n = UB IntOverflow.
Proof.
  intros Hm Hn. unfold sign_binomial. destruct (Nat.eqb_spec n 0) as [->|N0]; [lia|]. destruct (Nat.eqb_spec m n) as [->|N1]; [lia|]. cbn [orb].
  rewrite factorial_overflow by exact Hm. reflexivity.
Qed.
Lemma foldM_snoc {S X} (f : S -> X -> res S) l x s : foldM f (l ++ [x]) s = bind (foldM f l s) (fun t => f t x).
Proof. revert s. induction l as [|y l IH]; intros s; cbn; [destruct (f s x); reflexivity|]. destruct (f s y); cbn; [apply IH|reflexivity..]. Qed.
Lemma inject_nat n : inject_Z (Z.of_nat n) = qofn n.
Proof. reflexivity. Qed.
Lemma sign_sum total k : total <= 12 -> k <= total ->
  exists p, foldM (fun p i => do b <- sign_binomial total i; Ok (dadd p (ddiv (dofZ b) (dofZ (2 ^ Z.of_nat total))))) (seq 0 (S k)) d0 = Ok (Fin p) /\ (p == at_most total k)%Q.
Proof.
  intros Ht Hk. assert (EN : inject_Z (2 ^ Z.of_nat total) = qofn (length (tosses total))) by (rewrite tosses_length; unfold qofn; rewrite Nat2Z.inj_pow; reflexivity).
  assert (PN : (0 < qofn (length (tosses total)))%Q) by (apply qofn_pos; rewrite tosses_length; apply pow2_pos).
  assert (NZ : ~ (qofn (length (tosses total)) == 0)%Q) by (intros F; rewrite F in PN; inversion PN).
  induction k as [|k IH].
  - cbn [seq foldM]. rewrite binomial_ok by lia. cbn [bind]. unfold dofZ. rewrite EN, (ddiv_fin _ _ NZ). cbn [dadd d0]. eexists. split; [reflexivity|].
    unfold at_most. rewrite at_most_count_0, inject_nat. unfold Qdiv. ring.
  - destruct IH as (p & E & Hp); [lia|]. rewrite (seq_S (S k)), foldM_snoc, E. cbn [bind plus]. rewrite binomial_ok by lia. cbn [bind]. unfold dofZ. rewrite EN, (ddiv_fin _ _ NZ). cbn [dadd].
    eexists. split; [reflexivity|]. rewrite Hp. unfold at_most. rewrite at_most_count_S, qofn_plus, inject_nat. unfold Qdiv. ring.
Qed.
Lemma sign_sum_overflow total k : 13 <= total -> 1 <= k ->
  foldM (fun p i => do b <- sign_binomial total i; Ok (dadd p (ddiv (dofZ b) (dofZ (2 ^ Z.of_nat total))))) (seq 0 (S k)) d0 = UB IntOverflow.
Proof. intros Ht Hk. destruct k as [|k]; [lia|]. cbn [seq foldM]. replace (sign_binomial total 0) with (Ok 1%Z) by reflexivity. cbn [bind]. rewrite binomial_overflow by lia. reflexivity. Qed.

(** * Differences *)
Lemma rates_len e qs : rates e qs -> exp_size e = length qs.
Proof. unfold rates, exp_size. intros H. apply (f_equal (@length dbl)) in H. rewrite !map_length in H. exact H. Qed.
Lemma differences_fin c1 c2 qs rs : rates c1 qs -> rates c2 rs -> length qs = length rs -> differences c1 c2 = Ok (map Fin (diffs qs rs)).
Proof.
  intros H1 H2 L. unfold differences. rewrite (rates_len _ _ H1).
  assert (E : mapM (fun i => do a <- exp_error c1 (Z.of_nat i); do b <- exp_error c2 (Z.of_nat i); Ok (dsub a b)) (seq 0 (length qs)) =
              mapM (fun i => do a <- at_ (map Fin qs) (Z.of_nat i); do b <- at_ (map Fin rs) (Z.of_nat i); Ok (dsub a b)) (seq 0 (length (map Fin qs)))).
  { rewrite map_length. generalize (seq 0 (length qs)). intros is_. induction is_ as [|i is_ IH]; [reflexivity|]. cbn [mapM]. rewrite !exp_error_at, H1, H2, IH. reflexivity. }
  rewrite E, (mapM_pairs (fun a b => Ok (dsub a b)) (map Fin qs) (map Fin rs)) by (rewrite !map_length; exact L).
  clear. unfold diffs. revert rs. induction qs as [|q qs IH]; intros [|r rs]; try reflexivity. cbn [map combine mapM fst snd bind]. rewrite IH. reflexivity.
Qed.
Lemma diffs_len qs rs : length qs = length rs -> length (diffs qs rs) = length qs.
Proof. intros L. unfold diffs. rewrite map_length, combine_length. lia. Qed.
Lemma diffs_swap qs rs : Forall2 Qeq (diffs rs qs) (map (fun q => -1 * q)%Q (diffs qs rs)).
Proof. unfold diffs. revert rs. induction qs as [|q qs IH]; intros [|r rs]; cbn; try constructor; [ring|apply IH]. Qed.
Lemma sqdev_ext l l' : Forall2 Qeq l l' -> (sqdev l == sqdev l')%Q.
Proof.
  intros H. pose proof (qmean_ext _ _ H) as M. unfold sqdev. generalize dependent (qmean l). generalize (qmean l'). intros m' m M. induction H as [|x y l l' Hxy H IH]; [reflexivity|]. cbn. unfold qsum in IH. rewrite IH, Hxy, M. reflexivity.
Qed.
Lemma qsum_ext2 l l' : Forall2 Qeq l l' -> (qsum l == qsum l')%Q.
Proof. induction 1 as [|x y l l' Hxy H IH]; [reflexivity|]. cbn. unfold qsum in IH. rewrite IH, Hxy. reflexivity. Qed.
Lemma sqdev_swap qs rs : length qs = length rs -> 1 <= length qs -> (sqdev (diffs rs qs) == sqdev (diffs qs rs))%Q.
Proof. intros L L1. rewrite (sqdev_ext _ _ (diffs_swap qs rs)), sqdev_scale by (rewrite diffs_len by exact L; exact L1). ring. Qed.
Lemma qmean_swap qs rs : (qmean (diffs rs qs) == - qmean (diffs qs rs))%Q.
Proof. rewrite (qmean_ext _ _ (diffs_swap qs rs)). unfold qmean. rewrite map_length, (qsum_scale (-1) (fun q => q)), map_id. unfold Qdiv. ring. Qed.

(** * Paired t *)
Lemma dsum_fin_eq l : exists s, dsum (map Fin l) = Fin s /\ (s == qsum l)%Q.
Proof. unfold dsum, d0. rewrite fold_dadd_fin. eexists. split; [reflexivity|]. rewrite fold_left_qsum. ring. Qed.
Lemma sq_sum l m : exists s, dsum (map (fun d => sq (dsub d (Fin m))) (map Fin l)) = Fin s /\ (s == qsum (map (fun q => (q - m) * (q - m)) l))%Q.
Proof.
  rewrite map_map. replace (map (fun x => sq (dsub (Fin x) (Fin m))) l) with (map Fin (map (fun q => (q + - m) * (q + - m))%Q l)) by (rewrite map_map; reflexivity).
  apply dsum_fin_eq.
Qed.
Lemma is_rzero_sqrt q : (0 <= q)%Q -> is_rzero (RFin (sqrt (Q2R q))) = Qeq_bool q 0.
Proof.
  intros H. cbn [is_rzero]. pose proof (Q2R_nonneg _ H) as HR. destruct (Qeq_bool q 0) eqn:E.
  - apply Qeq_bool_iff in E. rewrite (Qeq_eqR _ _ E). replace (Q2R 0) with 0%R by (unfold Q2R; cbn; Lra.lra). rewrite sqrt_0. destruct (Req_EM_T 0 0) as [_|F]; [reflexivity|exfalso; apply F; reflexivity].
  - destruct (Req_EM_T (sqrt (Q2R q)) 0) as [F|_]; [|reflexivity]. apply sqrt_eq_0 in F; [|exact HR].
    exfalso. apply Qeq_bool_neq in E. apply E. apply eqR_Qeq. rewrite F. unfold Q2R; cbn; Lra.lra.
Qed.
Definition t_value (ds : list Q) : R := (sqrt (INR (length ds)) * Q2R (qmean ds) / sqrt (Q2R (sqdev ds / qofn (length ds - 1))))%R.
Lemma qofn_of_pred n : 1 <= n -> inject_Z (Z.of_nat n - 1) = qofn (n - 1).
Proof. intros H. unfold qofn. f_equal. lia. Qed.
Lemma INR_Q2R n : Q2R (inject_Z (Z.of_nat n)) = INR n.
Proof. unfold Q2R, inject_Z. cbn. rewrite <- INR_IZR_INZ. field. Qed.
Lemma pairedt_fin c1 c2 qs rs : rates c1 qs -> rates c2 rs -> length qs = length rs -> 2 <= length qs ->
  pairedt_stat c1 c2 = if Qeq_bool (sqdev (diffs qs rs)) 0 then Throw StatTestNotApplicable else Ok (RFin (t_value (diffs qs rs))).
Proof.
  intros H1 H2 L L2. unfold pairedt_stat. rewrite (rates_len _ _ H1), (rates_len _ _ H2), <- L, Nat.eqb_refl. cbn [negb].
  rewrite (differences_fin _ _ _ _ H1 H2 L). cbn [bind]. cbv zeta. set (ds := diffs qs rs). assert (Ld : length ds = length qs) by (apply diffs_len; exact L). rewrite <- Ld in *.
  destruct (dsum_fin_eq ds) as (s & -> & Hs). unfold dofnat, dofZ. rewrite !inject_nat.
  assert (P1 : (0 < qofn (length ds))%Q) by (apply qofn_pos; lia). assert (P2 : (0 < qofn (length ds - 1))%Q) by (apply qofn_pos; lia).
  rewrite ddiv_fin by (intros F; rewrite F in P1; inversion P1). set (m := (s / qofn (length ds))%Q). assert (Hm : (m == qmean ds)%Q) by (unfold m, qmean; rewrite Hs; reflexivity).
  destruct (sq_sum ds m) as (v & -> & Hv). assert (Hv' : (v == sqdev ds)%Q) by (rewrite Hv; unfold sqdev; apply qsum_ext; intros x _; rewrite Hm; reflexivity).
  rewrite qofn_of_pred by lia. rewrite ddiv_fin by (intros F; rewrite F in P2; inversion P2).
  assert (NN : (0 <= v / qofn (length ds - 1))%Q) by (apply Qle_shift_div_l; [exact P2|]; rewrite Qmult_0_l, Hv'; apply sqdev_nonneg).
  rewrite (rsqrt_fin _ NN), (is_rzero_sqrt _ NN). rewrite (rsqrt_fin (qofn (length ds)) (qofn_nonneg _)).
  assert (B : Qeq_bool (v / qofn (length ds - 1)) 0 = Qeq_bool (sqdev ds) 0).
  { apply eq_true_iff_eq. rewrite !Qeq_bool_iff. split; intros E.
    - rewrite <- Hv'. setoid_replace v with (v / qofn (length ds - 1) * qofn (length ds - 1))%Q by (field; intros F; rewrite F in P2; inversion P2). rewrite E. ring.
    - rewrite Hv', E. unfold Qdiv. ring. }
  rewrite B. destruct (Qeq_bool (sqdev ds) 0) eqn:E; [reflexivity|]. cbn [rlift rmul rdiv].
  destruct (Req_EM_T (sqrt (Q2R (v / qofn (length ds - 1)))) 0) as [F|_].
  - exfalso. pose proof (is_rzero_sqrt _ NN) as Z. cbn [is_rzero] in Z. rewrite F in Z. destruct (Req_EM_T 0 0) as [_|G]; [congruence|apply G; reflexivity].
  - unfold t_value. do 2 f_equal. rewrite (Qeq_eqR _ _ Hm), (Qeq_eqR (v / qofn (length ds - 1)) (sqdev ds / qofn (length ds - 1))) by (rewrite Hv'; reflexivity).
    unfold qofn at 1. rewrite INR_Q2R. reflexivity.
Qed.
Lemma t_value_swap qs rs : length qs = length rs -> 1 <= length qs -> t_value (diffs rs qs) = (- t_value (diffs qs rs))%R.
Proof.
  intros L L1. unfold t_value. rewrite (diffs_len rs qs) by (symmetry; exact L). rewrite (diffs_len qs rs L), <- L.
  rewrite (Qeq_eqR _ _ (qmean_swap qs rs)), Q2R_opp.
  rewrite (Qeq_eqR (sqdev (diffs rs qs) / qofn (length qs - 1)) (sqdev (diffs qs rs) / qofn (length qs - 1))) by (rewrite (sqdev_swap qs rs L L1); reflexivity).
  unfold Rdiv. ring.
Qed.

(** * Five times two *)
Lemma ten_list (ds : list Q) : length ds = 10 -> exists a b c d e f g h i j, ds = [a; b; c; d; e; f; g; h; i; j].
Proof. intros H. do 10 (destruct ds as [|? ds]; [discriminate|]). destruct ds; [|discriminate]. repeat eexists. Qed.
Definition mean_sum (ds : list Q) : Q := qsum (map (fun p => (fst p + snd p) / 2)%Q (pairs_of ds)).
Lemma sqdev2 a b : (sqdev [a; b] == (a - b) * (a - b) / 2)%Q.
Proof. unfold sqdev, qmean. change (qofn (length [a; b])) with 2%Q. cbn [map qsum fold_right]. unfold qsum; cbn [fold_right]. field. Qed.
Lemma five_fin ds : length ds = 10 -> exists m v, five (map Fin ds) = Ok (Fin m, Fin v) /\ (m == mean_sum ds)%Q /\ (v == pair_var ds)%Q.
Proof.
  intros H. destruct (ten_list ds H) as (a & b & c & d & e & f & g & h & i & j & ->). do 2 eexists. split; [reflexivity|]. split.
  - unfold mean_sum, qsum. cbn [pairs_of map fst snd fold_right]. field.
  - unfold pair_var, qsum. cbn [pairs_of map fst snd fold_right]. rewrite !sqdev2. field.
Qed.
Lemma pair_var_nonneg ds : (0 <= pair_var ds)%Q.
Proof. unfold pair_var. apply qsum_nonneg. intros p _. apply sqdev_nonneg. Qed.
Lemma pairs_swap qs rs : Forall2 (fun p p' => fst p == -1 * fst p' /\ snd p == -1 * snd p')%Q (pairs_of (diffs rs qs)) (pairs_of (diffs qs rs)).
Proof.
  pose proof (diffs_swap qs rs) as H. remember (diffs rs qs) as l. remember (diffs qs rs) as l'. clear Heql Heql'.
  assert (G : forall n l l', length l <= n -> Forall2 Qeq l (map (fun q => -1 * q)%Q l') -> Forall2 (fun p p' => fst p == -1 * fst p' /\ snd p == -1 * snd p')%Q (pairs_of l) (pairs_of l')).
  { clear. induction n as [|n IH]; intros l l' L H.
    - destruct l; [|cbn in L; lia]. destruct l'; [constructor|inversion H].
    - destruct l as [|a [|b l]], l' as [|a' [|b' l']]; cbn in *; try constructor; try (inversion H as [|? ? ? ? H0 H1]; subst; inversion H1; subst; fail).
      + inversion H as [|? ? ? ? H0 H1]; subst. inversion H1 as [|? ? ? ? H2 H3]; subst. split; assumption.
      + inversion H as [|? ? ? ? H0 H1]; subst. inversion H1 as [|? ? ? ? H2 H3]; subst. apply IH; [lia|exact H3]. }
  eapply G; [apply le_n|exact H].
Qed.
Lemma qsum_step q l : qsum (q :: l) = (q + qsum l)%Q.
Proof. reflexivity. Qed.
Lemma pair_var_swap qs rs : (pair_var (diffs rs qs) == pair_var (diffs qs rs))%Q.
Proof.
  unfold pair_var. pose proof (pairs_swap qs rs) as H. induction H as [|p p' l l' [H1 H2] H IH]; [reflexivity|]. cbn [map]. rewrite !qsum_step, IH.
  pose proof (sqdev2 (fst p) (snd p)) as E1. pose proof (sqdev2 (fst p') (snd p')) as E2. rewrite E1, E2, H1, H2. field.
Qed.
Lemma mean_sum_swap qs rs : (mean_sum (diffs rs qs) == - mean_sum (diffs qs rs))%Q.
Proof.
  unfold mean_sum. pose proof (pairs_swap qs rs) as H. induction H as [|p p' l l' [H1 H2] H IH]; [reflexivity|]. cbn [map]. rewrite !qsum_step, IH, H1, H2. field.
Qed.
Definition t5_value (ds : list Q) : R := (Q2R (nth 0 ds 0%Q) / sqrt (Q2R (pair_var ds / 5)))%R.
Definition c5_value (ds : list Q) : R := (sqrt (Q2R 10) * Q2R (mean_sum ds) / 5 / sqrt (Q2R (pair_var ds / 5)))%R.
Lemma den_zero v : (0 <= v)%Q -> (0 <= v / 5)%Q /\ Qeq_bool (v / 5) 0 = Qeq_bool v 0.
Proof.
  intros H. split; [apply Qle_shift_div_l; [reflexivity|]; rewrite Qmult_0_l; exact H|]. apply eq_true_iff_eq. rewrite !Qeq_bool_iff. split; intros E.
  - setoid_replace v with (v / 5 * 5)%Q by field. rewrite E. ring.
  - rewrite E. reflexivity.
Qed.
Lemma qeqb_ext x y : (x == y)%Q -> Qeq_bool x 0 = Qeq_bool y 0.
Proof. intros H. apply eq_true_iff_eq. rewrite !Qeq_bool_iff. rewrite H. tauto. Qed.
Section FiveByTwo.
  Context (c1 c2 : experiment) (qs rs : list Q) (H1 : rates c1 qs) (H2 : rates c2 rs) (L1 : length qs = 10) (L2 : length rs = 10).
  Lemma ten_ok : ten_results c1 c2 = true.
  Proof using H1 H2 L1 L2. unfold ten_results. rewrite (rates_len _ _ H1), (rates_len _ _ H2), L1, L2. reflexivity. Qed.
  Lemma ds_ten : length (diffs qs rs) = 10.
  Proof using L1 L2. rewrite diffs_len by congruence. exact L1. Qed.
  Lemma paired5x2t_fin : paired5x2t_stat c1 c2 = if Qeq_bool (pair_var (diffs qs rs)) 0 then Throw StatTestNotApplicable else Ok (RFin (t5_value (diffs qs rs))).
  Proof using H1 H2 L1 L2.
    unfold paired5x2t_stat. rewrite ten_ok. cbn [negb]. rewrite (differences_fin _ _ _ _ H1 H2) by congruence. cbn [bind].
    destruct (five_fin _ ds_ten) as (m & v & E & Hm & Hv). rewrite E. cbn [bind fst snd]. change (ddiv (Fin v) (Fin 5)) with (Fin (v / 5)).
    assert (Nv : (0 <= v)%Q) by (rewrite Hv; apply pair_var_nonneg). destruct (den_zero v Nv) as [N5 B]. rewrite (rsqrt_fin _ N5), (is_rzero_sqrt _ N5), B, (qeqb_ext _ _ Hv).
    destruct (Qeq_bool (pair_var (diffs qs rs)) 0) eqn:Z; [reflexivity|].
    destruct (ten_list _ ds_ten) as (a & b & c & d & e & f & g & h & i & j & Ed). rewrite Ed at 1. cbn [map idxn nth_error bind rlift rdiv].
    destruct (Req_EM_T (sqrt (Q2R (v / 5))) 0) as [F|_].
    - exfalso. pose proof (is_rzero_sqrt _ N5) as Y. cbn [is_rzero] in Y. rewrite F, B, (qeqb_ext _ _ Hv), Z in Y. destruct (Req_EM_T 0 0) as [_|G]; [discriminate Y|apply G; reflexivity].
    - unfold t5_value. rewrite (Qeq_eqR (v / 5) (pair_var (diffs qs rs) / 5)) by (rewrite Hv; reflexivity). rewrite Ed. reflexivity.
  Qed.
  Lemma combined5x2t_fin : combined5x2t_stat c1 c2 = if Qeq_bool (pair_var (diffs qs rs)) 0 then Throw StatTestNotApplicable else Ok (RFin (c5_value (diffs qs rs))).
  Proof using H1 H2 L1 L2.
    unfold combined5x2t_stat. rewrite ten_ok. cbn [negb]. rewrite (differences_fin _ _ _ _ H1 H2) by congruence. cbn [bind].
    destruct (five_fin _ ds_ten) as (m & v & E & Hm & Hv). rewrite E. cbn [bind fst snd]. cbv zeta. change (ddiv (Fin v) (Fin 5)) with (Fin (v / 5)).
    assert (Nv : (0 <= v)%Q) by (rewrite Hv; apply pair_var_nonneg). destruct (den_zero v Nv) as [N5 B]. rewrite (rsqrt_fin _ N5), (is_rzero_sqrt _ N5), B, (qeqb_ext _ _ Hv).
    destruct (Qeq_bool (pair_var (diffs qs rs)) 0) eqn:Z; [reflexivity|].
    rewrite (rsqrt_fin 10) by (vm_compute; discriminate). cbn [rlift rmul rdiv].
    destruct (Req_EM_T 5 0) as [F|_]; [Lra.lra|]. cbn [rdiv].
    destruct (Req_EM_T (sqrt (Q2R (v / 5))) 0) as [F|_].
    - exfalso. pose proof (is_rzero_sqrt _ N5) as Y. cbn [is_rzero] in Y. rewrite F, B, (qeqb_ext _ _ Hv), Z in Y. destruct (Req_EM_T 0 0) as [_|G]; [discriminate Y|apply G; reflexivity].
    - unfold c5_value. rewrite (Qeq_eqR (v / 5) (pair_var (diffs qs rs) / 5)) by (rewrite Hv; reflexivity). rewrite (Qeq_eqR _ _ Hm). reflexivity.
  Qed.
  Lemma combined5x2f_fin : if Qeq_bool (pair_var (diffs qs rs)) 0 then combined5x2f_stat c1 c2 = Throw StatTestNotApplicable
    else exists f, combined5x2f_stat c1 c2 = Ok (Fin f) /\ (f == qsum (map (fun d => d * d) (diffs qs rs)) / (2 * pair_var (diffs qs rs)))%Q.
  Proof using H1 H2 L1 L2.
    unfold combined5x2f_stat. rewrite ten_ok. cbn [negb]. rewrite (differences_fin _ _ _ _ H1 H2) by congruence. cbn [bind].
    destruct (five_fin _ ds_ten) as (m & v & E & Hm & Hv). rewrite E. cbn [bind fst snd]. cbv zeta. cbn [dmul].
    replace (map sq (map Fin (diffs qs rs))) with (map Fin (map (fun d => d * d)%Q (diffs qs rs))) by (rewrite !map_map; reflexivity).
    destruct (dsum_fin_eq (map (fun d => d * d)%Q (diffs qs rs))) as (s & -> & Hs).
    assert (B : deqb (Fin (v * 2)) d0 = Qeq_bool (pair_var (diffs qs rs)) 0).
    { rewrite <- (qeqb_ext _ _ Hv). apply eq_true_iff_eq. unfold deqb, d0. rewrite andb_true_iff, !dleb_fin, Qeq_bool_iff. split.
      - intros [A C]. apply Qle_antisym; lra.
      - intros A. rewrite A. split; discriminate. }
    rewrite B. destruct (Qeq_bool (pair_var (diffs qs rs)) 0) eqn:Z; [reflexivity|]. apply Qeq_bool_neq in Z.
    rewrite ddiv_fin; [|rewrite Hv; intros F; apply Z; lra]. eexists. split; [reflexivity|]. rewrite Hs, Hv, (Qmult_comm _ 2). reflexivity.
  Qed.
End FiveByTwo.
Lemma sum_squares_pairs ds : length ds = 10 -> (qsum (map (fun d => d * d) ds) == pair_var ds + qsum (map (fun p => (fst p + snd p) * (fst p + snd p) / 2) (pairs_of ds)))%Q.
Proof.
  intros H. destruct (ten_list ds H) as (a & b & c & d & e & f & g & h & i & j & ->). unfold pair_var. cbn [pairs_of map fst snd]. cbn [qsum fold_right].
  rewrite !sqdev2. field.
Qed.
