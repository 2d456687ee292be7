(** The statistical tests in rounded arithmetic: proofs. *)
From Coq Require Import String ZArith QArith Qabs Bool Lia Lqa List Setoid Morphisms.
From Verif Require Import Base Spec BaseLemmas DblLemmas AttrModel InstanceListModel PerformanceModel StatTestModel RoundModel RoundSpec RoundProofs RoundPerfProofs RoundStatModel RoundStatSpec.
Import ListNotations.
Local Open Scope list_scope.
Local Open Scope nat_scope.

Lemma dadd_opp a b : deq (dadd (dopp a) (dopp b)) (dopp (dadd a b)).
Proof. destruct a, b; cbn; try exact I. ring. Qed.
Lemma dsub_opp a b : deq (dsub (dopp a) (dopp b)) (dopp (dsub a b)).
Proof. apply dadd_opp. Qed.
Lemma dsub_anti a b : deq (dsub b a) (dopp (dsub a b)).
Proof. destruct a, b; cbn; try exact I. ring. Qed.
Lemma qcmp_opp q : ((- q ?= 0) = CompOpp (q ?= 0))%Q.
Proof. unfold Qcompare. cbn. rewrite !Z.mul_1_r. symmetry. rewrite <- (Z.opp_involutive 0) at 1. cbn. destruct (Qnum q); reflexivity. Qed.
Lemma dmul_opp a b : deq (dmul a (dopp b)) (dopp (dmul a b)).
Proof.
  destruct a, b; cbn [dopp dmul dsgn]; try exact I; try (cbn; ring); rewrite ?qcmp_opp; try (destruct (q ?= 0)%Q; exact I).
Qed.
Lemma dsquare_opp a : deq (dmul (dopp a) (dopp a)) (dmul a a).
Proof. destruct a; cbn; try exact I. ring. Qed.
Lemma ddiv_opp a b : deq (ddiv (dopp a) b) (dopp (ddiv a b)).
Proof.
  destruct a, b; cbn [dopp ddiv dsgn]; try exact I; try (cbn; ring); try reflexivity; try (destruct (q ?= 0)%Q; exact I).
  destruct (Qeq_bool q0 0) eqn:E; [|cbn; apply Qeq_bool_neq in E; field; exact E].
  rewrite qcmp_opp. destruct (q ?= 0)%Q; exact I.
Qed.
Lemma deqb_iff a b : deqb a b = true <-> deq a b /\ is_nan a = false.
Proof.
  unfold deqb. rewrite andb_true_iff. destruct a, b; cbn [dleb deq is_nan]; try (split; intros [? ?]; try discriminate; try contradiction; split; auto; fail).
  - rewrite !Qle_bool_iff. split; [intros [A B]; split; [lra|reflexivity]|intros [A _]; lra].
Qed.
Lemma deqb_proper a a' b b' : deq a a' -> deq b b' -> deqb a b = deqb a' b'.
Proof. intros E E'. unfold deqb. rewrite E, E'. reflexivity. Qed.

Section Swap.
  Context (R sq : dbl -> dbl) (HR : rounding R) (Hsq : root_like sq).
  #[local] Instance R_p : Proper (deq ==> deq) R := R_proper R HR.
  Definition neg (a b : dbl) : Prop := deq b (dopp a).
  Lemma neg_add a a' b b' : neg a a' -> neg b b' -> neg (radd R a b) (radd R a' b').
  Proof. intros H H'. unfold neg, radd in *. rewrite H, H', dadd_opp. apply (r_opp R HR). Qed.
  Lemma neg_sub a a' b b' : neg a a' -> neg b b' -> neg (rsub R a b) (rsub R a' b').
  Proof. intros H H'. unfold neg, rsub in *. rewrite H, H', dsub_opp. apply (r_opp R HR). Qed.
  Lemma neg_div a a' b b' : neg a a' -> deq b b' -> neg (rdiv R a b) (rdiv R a' b').
  Proof. intros H H'. unfold neg, rdiv in *. rewrite H, <- H', ddiv_opp. apply (r_opp R HR). Qed.
  Lemma neg_mul a a' b b' : deq a a' -> neg b b' -> neg (rmul R a b) (rmul R a' b').
  Proof. intros H H'. unfold neg, rmul in *. rewrite <- H, H', dmul_opp. apply (r_opp R HR). Qed.
  Lemma neg_square a a' : neg a a' -> deq (rpow2 R a') (rpow2 R a).
  Proof. intros H. unfold neg, rpow2, rmul in *. rewrite H, dsquare_opp. reflexivity. Qed.
  Lemma neg_0 : neg d0 d0. Proof. reflexivity. Qed.
  Lemma deq_add a a' b b' : deq a a' -> deq b b' -> deq (radd R a b) (radd R a' b').
  Proof. intros H H'. unfold radd. rewrite H, H'. reflexivity. Qed.
  Lemma deq_div a a' b b' : deq a a' -> deq b b' -> deq (rdiv R a b) (rdiv R a' b').
  Proof. intros H H'. unfold rdiv. rewrite H, H'. reflexivity. Qed.
  Lemma sum_neg l l' : Forall2 neg l l' -> neg (r_sum R l) (r_sum R l').
  Proof.
    intros H. unfold r_sum. assert (forall a a', neg a a' -> neg (fold_left (radd R) l a) (fold_left (radd R) l' a')) as G; [|apply G, neg_0].
    induction H as [|x y l l' N H IH]; intros a a' Ha; [exact Ha|]. cbn [fold_left]. apply IH, neg_add; assumption.
  Qed.
  Lemma sum_same l l' : Forall2 deq l l' -> deq (r_sum R l) (r_sum R l').
  Proof.
    intros H. unfold r_sum. assert (forall a a', deq a a' -> deq (fold_left (radd R) l a) (fold_left (radd R) l' a')) as G; [|apply G; reflexivity].
    induction H as [|x y l l' N H IH]; intros a a' Ha; [exact Ha|]. cbn [fold_left]. apply IH, deq_add; assumption.
  Qed.
  Lemma exp_error_at e i : i < exp_size e -> exists v, exp_error e (Z.of_nat i) = Ok v.
  Proof.
    intros H. unfold exp_error, exp_size in *. rewrite at_nat. unfold atn. destruct (nth_error (results e) i) as [p|] eqn:E; [eexists; reflexivity|].
    apply nth_error_None in E. lia.
  Qed.
  Lemma differences_swap c1 c2 : exp_size c1 = exp_size c2 -> exists ds ds', r_differences R c1 c2 = Ok ds /\ r_differences R c2 c1 = Ok ds' /\ Forall2 neg ds ds' /\ length ds = exp_size c1.
  Proof.
    intros H. unfold r_differences. rewrite <- H.
    assert (forall l, Forall (fun i => i < exp_size c1) l -> exists ds ds',
      mapM (fun i => do a <- exp_error c1 (Z.of_nat i); do b <- exp_error c2 (Z.of_nat i); Ok (rsub R a b)) l = Ok ds /\
      mapM (fun i => do a <- exp_error c2 (Z.of_nat i); do b <- exp_error c1 (Z.of_nat i); Ok (rsub R a b)) l = Ok ds' /\ Forall2 neg ds ds' /\ length ds = length l) as G.
    { induction l as [|i l IH]; intros F; [exists [], []; repeat split; constructor|]. inversion F; subst. destruct IH as (ds & ds' & E & E' & N & L); [assumption|].
      destruct (exp_error_at c1 i H2) as [a Ea]. destruct (exp_error_at c2 i) as [b Eb]; [lia|].
      cbn [mapM]. rewrite Ea, Eb. cbn [bind]. rewrite E, E'. cbn [bind]. do 2 eexists. split; [reflexivity|]. split; [reflexivity|]. split; [|cbn; lia].
      constructor; [|exact N]. unfold neg, rsub. rewrite (dsub_anti a b). apply (r_opp R HR). }
    destruct (G (seq 0 (exp_size c1))) as (ds & ds' & E & E' & N & L); [apply Forall_forall; intros i Hi; apply in_seq in Hi; lia|].
    rewrite seq_length in L. exists ds, ds'. repeat split; assumption.
  Qed.
  Lemma five_swap ds ds' : Forall2 neg ds ds' -> same_outcome (fun mv mv' => neg (fst mv) (fst mv') /\ deq (snd mv') (snd mv)) (r_five R ds) (r_five R ds').
  Proof.
    intros N. unfold r_five. rewrite <- (Forall2_len neg ds ds' N).
    assert (forall l st st', neg (fst st) (fst st') -> deq (snd st') (snd st) -> same_outcome (fun mv mv' : dbl * dbl => neg (fst mv) (fst mv') /\ deq (snd mv') (snd mv))
      (foldM (fun st i => do a <- idxn ds (2 * i); do b <- idxn ds (2 * i + 1); let mean := rdiv R (radd R a b) (Fin 2) in
         Ok (radd R (fst st) mean, radd R (snd st) (radd R (rpow2 R (rsub R a mean)) (rpow2 R (rsub R b mean))))) l st)
      (foldM (fun st i => do a <- idxn ds' (2 * i); do b <- idxn ds' (2 * i + 1); let mean := rdiv R (radd R a b) (Fin 2) in
         Ok (radd R (fst st) mean, radd R (snd st) (radd R (rpow2 R (rsub R a mean)) (rpow2 R (rsub R b mean))))) l st')) as G; [|apply G; [apply neg_0|reflexivity]].
    assert (forall i, same_outcome neg (idxn ds i) (idxn ds' i)) as I.
    { intros i. unfold idxn. revert i. clear - N. induction N as [|x y l l' H N IH]; intros [|i]; cbn; try reflexivity; [exact H|]. specialize (IH i). cbn in IH. exact IH. }
    induction l as [|i l IH]; intros st st' H H'; cbn [foldM]; [split; assumption|].
    pose proof (I (2 * i)) as I1. pose proof (I (2 * i + 1)) as I2.
    destruct (idxn ds (2 * i)) as [a| | |], (idxn ds' (2 * i)) as [a'| | |]; cbn in I1; try contradiction; cbn [bind]; try exact I1; try exact Logic.I.
    destruct (idxn ds (2 * i + 1)) as [b| | |], (idxn ds' (2 * i + 1)) as [b'| | |]; cbn in I2; try contradiction; cbn [bind]; try exact I2; try exact Logic.I.
    cbv zeta. assert (neg (rdiv R (radd R a b) (Fin 2)) (rdiv R (radd R a' b') (Fin 2))) as M by (apply neg_div; [apply neg_add; assumption|reflexivity]).
    apply IH; cbn [fst snd]; [apply neg_add; assumption|]. apply deq_add; [exact H'|]. apply deq_add; apply neg_square, neg_sub; assumption.
  Qed.
  Lemma sq_ext a b : deq a b -> deq (sq a) (sq b). Proof. apply Hsq. Qed.
  Lemma swap_t c1 c2 : same_outcome neg (r_pairedt_stat R sq c1 c2) (r_pairedt_stat R sq c2 c1).
  Proof.
    unfold r_pairedt_stat. rewrite (Nat.eqb_sym (exp_size c2)). destruct (Nat.eqb_spec (exp_size c1) (exp_size c2)) as [H|H]; cbn [negb]; [|reflexivity].
    destruct (differences_swap c1 c2 H) as (ds & ds' & -> & -> & N & _). cbn [bind]. cbv zeta. rewrite <- H. set (n := exp_size c1).
    assert (neg (rdiv R (r_sum R ds) (rnat R n)) (rdiv R (r_sum R ds') (rnat R n))) as M by (apply neg_div; [apply sum_neg, N|reflexivity]).
    set (m := rdiv R (r_sum R ds) (rnat R n)) in *. set (m' := rdiv R (r_sum R ds') (rnat R n)) in *.
    assert (deq (r_sum R (map (fun d => rpow2 R (rsub R d m')) ds')) (r_sum R (map (fun d => rpow2 R (rsub R d m)) ds))) as V.
    { apply sum_same. clearbody m m'. clear - HR N M. induction N as [|x y l l' H N IH]; cbn [map]; constructor; [apply neg_square, neg_sub; assumption|exact IH]. }
    set (s := r_sum R (map _ ds)) in *. set (s' := r_sum R (map _ ds')) in *.
    assert (deq (sq (rdiv R s' (R (dofZ (Z.of_nat n - 1))))) (sq (rdiv R s (R (dofZ (Z.of_nat n - 1)))))) as D by (apply sq_ext, deq_div; [exact V|reflexivity]).
    rewrite (deqb_proper _ _ d0 d0 D) by reflexivity. destruct (deqb _ d0); [reflexivity|]. cbn [same_outcome]. apply neg_div; [apply neg_mul; [reflexivity|exact M]|symmetry; exact D].
  Qed.
  Lemma ten_sym c1 c2 : ten_results c1 c2 = true -> exp_size c1 = exp_size c2 /\ ten_results c2 c1 = true.
  Proof. unfold ten_results. intros H. apply andb_true_iff in H as [H1 H2]. apply Nat.eqb_eq in H1, H2. split; [exact H1|]. rewrite <- H1, H2. reflexivity. Qed.
  Lemma ten_false c1 c2 : ten_results c1 c2 = false -> ten_results c2 c1 = false.
  Proof. intros H. destruct (ten_results c2 c1) eqn:E; [|reflexivity]. apply ten_sym in E as [_ E]. congruence. Qed.
  Lemma swap_5x2 c1 c2 : same_outcome neg (r_paired5x2t_stat R sq c1 c2) (r_paired5x2t_stat R sq c2 c1) /\
    same_outcome neg (r_combined5x2t_stat R sq c1 c2) (r_combined5x2t_stat R sq c2 c1) /\ same_outcome deq (r_combined5x2f_stat R c1 c2) (r_combined5x2f_stat R c2 c1).
  Proof.
    unfold r_paired5x2t_stat, r_combined5x2t_stat, r_combined5x2f_stat. destruct (ten_results c1 c2) eqn:T; [|rewrite (ten_false _ _ T); repeat split; reflexivity].
    destruct (ten_sym _ _ T) as [H T']. rewrite T'. cbn [negb]. destruct (differences_swap c1 c2 H) as (ds & ds' & -> & -> & N & L). cbn [bind].
    pose proof (five_swap ds ds' N) as F. destruct (r_five R ds) as [[m v]| | |], (r_five R ds') as [[m' v']| | |]; cbn in F; try contradiction; cbn [bind]; try (repeat split; exact F). destruct F as [Fm Fv]. cbv zeta. cbn [fst snd].
    assert (deq (sq (rdiv R v' (Fin 5))) (sq (rdiv R v (Fin 5)))) as D by (apply sq_ext, deq_div; [exact Fv|reflexivity]).
    rewrite (deqb_proper _ _ d0 d0 D) by reflexivity.
    assert (deq (rmul R v' (Fin 2)) (rmul R v (Fin 2))) as D' by (unfold rmul; rewrite Fv; reflexivity). rewrite (deqb_proper _ _ d0 d0 D') by reflexivity.
    split; [|split].
    - destruct (deqb _ d0); [reflexivity|]. destruct N as [|x y l l' Nx N]; [reflexivity|]. cbn. apply neg_div; [exact Nx|symmetry; exact D].
    - destruct (deqb _ d0); [reflexivity|]. cbn. apply neg_div; [|symmetry; exact D]. apply neg_div; [|reflexivity]. apply neg_mul; [reflexivity|exact Fm].
    - destruct (deqb (rmul R v _) d0); [reflexivity|]. cbn. apply deq_div; [|symmetry; exact D']. symmetry. apply sum_same.
      clear - HR N. induction N as [|x y l l' Nx N IH]; cbn [map]; constructor; [apply neg_square, Nx|exact IH].
  Qed.
End Swap.
