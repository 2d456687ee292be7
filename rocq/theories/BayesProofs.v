(** Proofs about naive Bayes and the Mahalanobis distance. *)
From Coq Require Import String ZArith QArith Bool Lia Lqa Permutation Sorted Arith List.
From Verif Require Import Base Spec BaseLemmas DblLemmas AttrModel AttrProofs DataSetModel InstanceListModel PartitionModel PerformanceModel StatSpec ListSpec ListProofs PartitionProofs CovProofs CovAllProofs PerformanceProofs DistanceModel GaussianModel GaussianSpec GaussianProofs KernelProofs DiscrimSpec DiscrimProofs.
From Verif Require FilterProofs.
Import ListNotations.
Local Open Scope string_scope.
Local Open Scope list_scope.
Local Open Scope nat_scope.

Lemma fold_sum (g : nat -> Q) (F : dbl -> nat -> res dbl) n : (forall s i q, i < n -> isq s q -> exists s', F s i = Ok s' /\ isq s' (q + g i)%Q) ->
  forall s q, isq s q -> exists r, foldM F (seq 0 n) s = Ok r /\ isq r (q + ssum n g)%Q.
Proof.
  intros H s q Hs. assert (G : forall k o s q, o + k = n -> isq s q -> exists r, foldM F (seq o k) s = Ok r /\ isq r (q + qsum (map g (seq o k)))%Q).
  { induction k as [|k IH]; intros o s' q' E Hs'; cbn [seq foldM map].
    - exists s'. split; [reflexivity|]. eapply isq_proper; [|exact Hs']. cbn. ring.
    - destruct (H s' o q') as (s1 & -> & H1); [lia|exact Hs'|]. cbn [bind]. destruct (IH (S o) s1 (q' + g o)%Q) as (r & E1 & Hr); [lia|exact H1|].
      exists r. split; [exact E1|]. eapply isq_proper; [|exact Hr]. change (qsum (?a :: ?b)) with (a + qsum b)%Q. ring. }
  apply (G n 0); [lia|exact Hs].
Qed.

(** * Discrete naive Bayes *)
Section Discrete.
  Context (ln : dbl -> dbl) (f : Q -> Q) (Hln : log_reads ln f) (std_vec : ilist -> res (list dbl)).
  Context (n : nat) (l : ilist) (s : tsample) (HR : Forall2 reads_text l s) (HL : Forall (fun r => length (snd r) = n) s) (Hn : l <> []) (Hf : 1 <= n).

  Lemma text_class c : Forall2 reads_text (filter (of_class c) l) (tmembers s c).
  Proof.
    clear -HR. revert HR. generalize s. induction l as [|x l' IH]; intros s' H; inversion H as [|? r ? s'' Hx H']; subst; [constructor|]. apply IH in H'. cbn. unfold of_class at 1. rewrite (proj1 Hx). destruct (String.eqb (fst r) c); [constructor; assumption|exact H'].
  Qed.
  Lemma text_members_len c : Forall (fun r => length (snd r) = n) (tmembers s c).
  Proof. rewrite Forall_forall in *. intros r Hr. apply filter_In in Hr as [Hr _]. apply HL, Hr. Qed.
  Lemma text_col l' s' i : Forall2 reads_text l' s' -> Forall (fun r => length (snd r) = n) s' -> i < n ->
    text_column (Z.of_nat i) l' (map (fun r => nth i (snd r) EmptyString) s').
  Proof.
    intros H F Hi. induction H as [|x r l' s' Hx H IH]; [constructor|]. inversion F; subst. constructor; [|apply IH; assumption].
    exists (ADisc (nth i (snd r) EmptyString)). split; [|left; reflexivity]. apply feature_nth. rewrite (proj2 Hx).
    apply map_nth_error, nth_error_nth'. exact Hi.
  Qed.
  Lemma dists_spec c : In c (map label l) ->
    exists ds, all_attr_distribution (filter (of_class c) l) = Ok ds /\ ds = map (fun i => cofl (values s c i)) (seq 0 n).
  Proof.
    intros Hc. pose proof (class_nonempty l c Hc) as N. pose proof (text_class c) as R. pose proof (text_members_len c) as F.
    unfold values. remember (filter (of_class c) l) as l' eqn:El. remember (tmembers s c) as s' eqn:Es. clear El Es.
    destruct R as [|x r l' s' Hx R]; [congruence|]. eexists. split; [|reflexivity]. unfold all_attr_distribution. cbn [atn nth_error bind].
    change (atn (x :: l') 0) with (@Ok instance x). cbn [bind]. unfold attr_count. rewrite (proj2 Hx), map_length, (Forall_inv F).
    apply mapM_ok. rewrite Forall2_map_r. assert (G : forall is_, Forall (fun i => i < n) is_ -> Forall2 (fun i i' => attr_distribution (Z.of_nat i) (x :: l') = Ok (cofl (map (fun r0 => nth i' (snd r0) "") (r :: s')))) is_ is_).
    { induction 1 as [|i is_ Hi _ IH]; constructor; [|exact IH].
      assert (T : text_column (Z.of_nat i) (x :: l') (map (fun r0 => nth i (snd r0) "") (r :: s'))) by (apply text_col; [constructor; assumption|exact F|exact Hi]).
      apply (FilterProofs.attr_distribution_disc _ _ _ (nth i (snd r) "")); [right; exact T| |exact T]. exists x, l'. split; [reflexivity|].
      apply feature_nth. rewrite (proj2 Hx). apply map_nth_error, nth_error_nth'. rewrite (Forall_inv F). exact Hi. }
    apply G. apply Forall_forall. intros i Hi. apply in_seq in Hi. lia.
  Qed.
  Lemma tprob_spec c : In c (map label l) -> isq (ln (prob (class_distribution l) c)) (f (tfrequency s c)).
  Proof.
    intros Hc. destruct (prob_spec l c Hc) as (p & E & Ep & Hp). rewrite E. destruct (proj1 Hln p Hp) as (r & -> & Hr). apply fin_isq. rewrite Hr.
    apply (proj2 Hln). rewrite Ep. unfold frequency, tfrequency. rewrite members_sample, !sample_length.
    rewrite (Forall2_len _ _ _ HR), (Forall2_len _ _ _ (text_class c)). reflexivity.
  Qed.
  Lemma cofl_length vs : length (cofl vs) = length (nodup string_dec vs).
  Proof.
    rewrite <- (map_length fst (cofl vs)). apply Permutation_length, NoDup_Permutation; [apply msorted_nodup, cofl_sorted|apply NoDup_nodup|].
    intros v. rewrite nodup_In. apply in_cofl.
  Qed.
  Lemma laplace_spec vs v : exists p, laplace (cofl vs) v = Fin p /\ (0 < p)%Q /\
    (p == qofn (occ vs v + 1) / qofn (length vs + length (nodup string_dec vs) + 1))%Q.
  Proof.
    unfold laplace. rewrite csum_cofl, cofl_length.
    assert (E : (if mmem v (cofl vs) then ccount (cofl vs) v + 1 else 1) = occ vs v + 1).
    { destruct (mmem v (cofl vs)) eqn:M; [rewrite ccount_cofl; reflexivity|]. apply mmem_ccount in M. rewrite ccount_cofl in M. unfold occ. lia. }
    rewrite E. change (dofnat ?n) with (Fin (qofn n)). assert (P : (0 < qofn (length vs + length (nodup string_dec vs) + 1))%Q) by (apply qofn_pos; lia).
    rewrite ddiv_fin by lra. eexists. split; [reflexivity|]. split; [|reflexivity]. apply Qlt_shift_div_l; [exact P|]. rewrite Qmult_0_l. apply qofn_pos. lia.
  Qed.

  Lemma bayes_disc_spec : exists m, bayes_train std_vec bayes_empty l = Ok m /\
    forall q vs c, attrs q = map ADisc vs -> length vs = n -> In c (map label l) ->
      exists r, bayes_metric ln m q c = Ok (Fin r) /\
        (r == f (tfrequency s c) + qsum (map (fun i => f (smoothed s c i (nth i vs EmptyString))) (seq 0 n)))%Q.
  Proof.
    unfold bayes_train. rewrite class_lists_spec. cbn [bind].
    assert (Hx0 : exists g0 x0 a0, atn (labelled l) 0 = Ok g0 /\ atn (snd g0) 0 = Ok x0 /\ get_attr x0 0 = Ok a0 /\ isDiscrete a0 = true).
    { assert (Hd : exists c cs, distinct_labels l = c :: cs).
      { destruct l as [|x l'] eqn:El; [congruence|]. assert (Hi : In (label x) (distinct_labels (x :: l'))) by (apply distinct_in; left; reflexivity).
        destruct (distinct_labels (x :: l')); [destruct Hi|eauto]. }
      destruct Hd as (c & cs & Ed). assert (Hc : In c (map label l)) by (apply distinct_in; rewrite Ed; left; reflexivity).
      pose proof (class_nonempty l c Hc) as N. pose proof (text_class c) as R. pose proof (text_members_len c) as F.
      destruct (filter (of_class c) l) as [|x l'] eqn:E; [congruence|]. inversion R as [|? r ? ? Hx R' E1 E2]. rewrite <- E2 in F. apply Forall_inv in F.
      exists (c, x :: l'), x. destruct (snd r) as [|v vs] eqn:Ev; [cbn in *; lia|]. exists (ADisc v). unfold labelled. rewrite Ed. cbn [map]. rewrite E.
      split; [reflexivity|]. split; [reflexivity|]. split; [|reflexivity]. apply get_attr_ok. apply (feature_nth x 0). rewrite (proj2 Hx), Ev. reflexivity. }
    destruct Hx0 as (g0 & x0 & a0 & -> & E1 & E2 & E3). cbn [bind]. rewrite E1. cbn [bind]. rewrite E2. cbn [bind]. rewrite E3. unfold labelled.
    destruct (fold_fresh l bayes_disc (fun st c => nb_prior st = class_distribution l /\ mfind c (nb_dists st) = None)
                (fun st c => nb_prior st = class_distribution l /\ mfind c (nb_dists st) = Some (map (fun i => cofl (values s c i)) (seq 0 n)))) with (cs := distinct_labels l)
                (st := mkNB (class_distribution l) [] [] []) as (m & E & HM & _).
    - intros st c Hc (F1 & F2). unfold bayes_disc. cbn [fst snd]. destruct (dists_spec c Hc) as (ds & -> & ->). cbn [bind]. eexists. split; [reflexivity|].
      cbn [nb_prior nb_dists]. split; [split; [exact F1|apply mfind_new, F2]|]. split; intros c' Ne; rewrite mfind_other by exact Ne; auto.
    - apply distinct_nodup.
    - intros c Hc. apply distinct_in, Hc.
    - intros; split; reflexivity.
    - exists m. split; [exact E|]. intros q vs c Hq Lv Hc. destruct (HM c (proj2 (distinct_in l c) Hc)) as (HP & Hd).
      unfold bayes_metric. destruct (nb_dists m) as [|p ps] eqn:En; [discriminate|]. rewrite <- En in *. unfold bayes_ll_disc. rewrite Hd. cbn [bind].
      unfold attr_count. rewrite HP, Hq, map_length, Lv.
      match goal with |- context [foldM ?g _ _] => set (F := g) end.
      destruct (fold_sum (fun i => f (smoothed s c i (nth i vs ""))) F n) with (s := ln (prob (class_distribution l) c)) (q := f (tfrequency s c)) as (r & -> & Hr).
      + intros t i u Hi Ht. unfold F.
        rewrite (proj2 (get_attr_ok q (Z.of_nat i) (ADisc (nth i vs "")))) by (apply feature_nth; rewrite Hq; apply map_nth_error, nth_error_nth'; lia). cbn [bind disc_value].
        assert (Ei : atn (map (fun i => cofl (values s c i)) (seq 0 n)) i = Ok (cofl (values s c i))).
        { apply atn_ok. rewrite (nth_error_nth' _ (cofl (values s c 0))) by (rewrite map_length, seq_length; exact Hi). rewrite nth_map_seq by exact Hi. reflexivity. }
        rewrite Ei. cbn [bind]. eexists. split; [reflexivity|]. apply isq_add; [exact Ht|]. destruct (laplace_spec (values s c i) (nth i vs "")) as (p' & -> & Pp & Ep).
        destruct (proj1 Hln p' Pp) as (r' & -> & Hr'). apply fin_isq. rewrite Hr'. apply (proj2 Hln). exact Ep.
      + apply tprob_spec, Hc.
      + apply isq_fin in Hr as (r' & -> & Hr'). exists r'. split; [reflexivity|exact Hr'].
  Qed.
End Discrete.

(** the smoothed probabilities of the values seen, and of one unseen value, add up to one *)
Lemma smoothed_total s c i u : ~ In u (values s c i) ->
  (qsum (map (smoothed s c i) (nodup string_dec (values s c i))) + smoothed s c i u == 1)%Q.
Proof.
  intros Hu. unfold smoothed. set (vs := values s c i) in *. set (N := qofn (length vs + length (nodup string_dec vs) + 1)).
  assert (P : (0 < N)%Q) by (apply qofn_pos; lia).
  assert (O : occ vs u = 0) by (unfold occ; apply count_occ_not_In, Hu). rewrite O.
  transitivity ((qsum (map (fun v => qofn (occ vs v + 1)) (nodup string_dec vs)) + 1) / N)%Q.
  { unfold Qdiv. rewrite (qsum_scale_r (/ N) (fun v => qofn (occ vs v + 1))). change (0 + 1) with 1. rewrite qofn_1. ring. }
  assert (E : (qsum (map (fun v => qofn (occ vs v + 1)) (nodup string_dec vs)) == qofn (length vs + length (nodup string_dec vs)))%Q).
  { rewrite (qsum_ext _ (fun v => qofn (occ vs v) + 1)%Q) by (intros; rewrite qofn_plus, qofn_1; reflexivity).
    rewrite qsum_plus, qsum_const, qofn_plus.
    assert (G : forall ds, NoDup ds -> (forall v, In v vs -> In v ds) -> (qsum (map (fun v => qofn (occ vs v)) ds) == qofn (length vs))%Q).
    { clear. induction vs as [|v vs IH]; intros ds ND H.
      - rewrite (qsum_ext _ (fun _ => 0)%Q) by (intros; reflexivity). rewrite qsum_const. cbn. unfold qofn. cbn. ring.
      - change (length (v :: vs)) with (S (length vs)). rewrite qofn_S, <- (IH ds ND) by (intros; apply H; right; assumption).
        assert (D : (qsum (map (fun w => if string_dec v w then 1 else 0) ds) == 1)%Q).
        { assert (Hv : In v ds) by (apply H; left; reflexivity). clear -ND Hv. induction ND as [|w ds Hw ND IH]; [destruct Hv|]. cbn [map]. change (qsum (?a :: ?b)) with (a + qsum b)%Q.
          destruct (string_dec v w) as [<-|Ne].
          - rewrite (qsum_ext _ (fun _ => 0)%Q); [rewrite qsum_const; ring|]. intros x Hx. destruct (string_dec v x); [subst; contradiction|reflexivity].
          - destruct Hv as [->|Hv]; [congruence|]. rewrite (IH Hv). ring. }
        rewrite <- D, <- qsum_plus. apply qsum_ext. intros w _. unfold occ. cbn [count_occ]. destruct (string_dec v w); [rewrite qofn_S; ring|ring]. }
    rewrite (G (nodup string_dec vs)) by (try apply NoDup_nodup; intros v Hv; apply nodup_In, Hv). ring. }
  rewrite E. unfold N. rewrite !qofn_plus, qofn_1. field. rewrite <- qofn_1, <- !qofn_plus. fold N. lra.
Qed.

(** * Continuous naive Bayes *)
Section Continuous.
  Context (ln : dbl -> dbl) (f : Q -> Q) (Hln : log_reads ln f) (std_vec : ilist -> res (list dbl)).
  Context (n : nat) (l : ilist) (s : sample) (HR : Forall2 reads_numbers l s) (HL : Forall (fun r => length (snd r) = n) s) (Hn : l <> []) (Hf : 1 <= n).
  Context (sd : string -> list Q) (Hsd : forall c, In c (map label l) -> std_vec (filter (of_class c) l) = Ok (map Fin (sd c)) /\ length (sd c) = n /\ Forall (fun z => ~ z == 0)%Q (sd c)).

  Lemma num_class c : Forall2 reads_numbers (filter (of_class c) l) (members s c).
  Proof.
    clear -HR. revert HR. generalize s. induction l as [|x l' IH]; intros s' H; inversion H as [|? r ? s'' Hx H']; subst; [constructor|]. apply IH in H'. cbn. unfold of_class at 1. rewrite (proj1 Hx). destruct (String.eqb (fst r) c); [constructor; assumption|exact H'].
  Qed.
  Lemma num_members_len c : Forall (fun r => length (snd r) = n) (members s c).
  Proof. rewrite Forall_forall in *. intros r Hr. apply filter_In in Hr as [Hr _]. apply HL, Hr. Qed.
  Lemma num_col l' s' i : Forall2 reads_numbers l' s' -> Forall (fun r => length (snd r) = n) s' -> i < n ->
    num_column (Z.of_nat i) l' (map Fin (map (fun r => coord r i) s')).
  Proof.
    intros H F Hi. induction H as [|x r l' s' Hx H IH]; [constructor|]. inversion F; subst. constructor; [|apply IH; assumption].
    apply feature_nth. rewrite (proj2 Hx). apply (map_nth_error (fun q => ACont (Fin q))). unfold coord. apply nth_error_nth'. exact Hi.
  Qed.
  Lemma mean_spec c : In c (map label l) -> exists a, average_instance (filter (of_class c) l) = Ok a /\ isv (inst_vector a) n (class_mean s c).
  Proof.
    intros Hc. pose proof (class_nonempty l c Hc) as N. pose proof (num_class c) as R. pose proof (num_members_len c) as F. unfold class_mean.
    remember (filter (of_class c) l) as l' eqn:El. remember (members s c) as s' eqn:Es. clear El Es.
    assert (Hd : exists x, atn l' 0 = Ok x /\ attr_count x = n).
    { destruct R as [|x r l' s' Hx R]; [congruence|]. exists x. split; [reflexivity|]. unfold attr_count. rewrite (proj2 Hx), map_length. inversion F; assumption. }
    destruct Hd as (x & E0 & Ex). unfold average_instance, average. rewrite E0. cbn [bind]. rewrite Ex.
    assert (G : forall i, exists a, i < n -> attr_average (Z.of_nat i) l' = Ok (Some (ACont (Fin a))) /\ (a == qmean (map (fun r => coord r i) s'))%Q).
    { intros i. destruct (Nat.lt_ge_cases i n) as [Hi|Hi]; [|exists 0%Q; lia].
      destruct (attr_average_cont (Z.of_nat i) l' (map (fun r => coord r i) s') N (num_col l' s' i R F Hi)) as (a & E & _ & Ea).
      exists a. intros _. split; [exact E|]. rewrite Ea. unfold qmean. rewrite map_length, (Forall2_len _ _ _ R). reflexivity. }
    assert (M : forall is_, Forall (fun i => i < n) is_ -> exists av, mapM (fun i => attr_average (Z.of_nat i) l') is_ = Ok (map (fun a => Some (ACont (Fin a))) av) /\
              Forall2 (fun a i => (a == qmean (map (fun r => coord r i) s'))%Q) av is_).
    { induction 1 as [|i is_ Hi _ (av & E & V)]; [exists []; split; [reflexivity|constructor]|]. destruct (G i) as (a & Ha). destruct (Ha Hi) as (Ea & Va).
      exists (a :: av). cbn [mapM]. rewrite Ea. cbn [bind]. rewrite E. cbn [bind]. split; [reflexivity|constructor; assumption]. }
    destruct (M (seq 0 n)) as (av & -> & V); [apply Forall_forall; intros i Hi; apply in_seq in Hi; lia|]. cbn [bind snd fst].
    assert (M2 : mapM (fun o : option attr => match o with Some x => Ok x | None => UB NullDeref end) (map (fun a => Some (ACont (Fin a))) av) = Ok (map (fun a => ACont (Fin a)) av)).
    { apply mapM_ok. rewrite Forall2_map_l, Forall2_map_r. clear. induction av; constructor; [reflexivity|assumption]. }
    rewrite M2. cbn [bind]. eexists. split; [reflexivity|]. rewrite inst_vector_concat. cbn [attrs]. rewrite map_map.
    assert (C : concat (map (fun a => attr_vals (ACont (Fin a))) av) = map Fin av) by (clear; induction av; [reflexivity|]; cbn in *; rewrite IHav; reflexivity).
    rewrite C. assert (Lv : length av = n) by (rewrite (Forall2_len _ _ _ V), seq_length; reflexivity). rewrite <- Lv at 1. eapply isv_ext; [|rewrite Lv; rewrite <- Lv; apply isv_fin].
    intros i Hi. cbv beta. assert (K := Forall2_nth _ _ _ i (nth i av 0%Q) i V). apply K; [apply nth_error_nth'; exact Hi|].
    rewrite Lv in Hi. rewrite (nth_error_nth' _ 0) by (rewrite seq_length; exact Hi). rewrite seq_nth by exact Hi. reflexivity.
  Qed.

  Lemma bayes_cont_spec : exists m, bayes_train std_vec bayes_empty l = Ok m /\ nb_prior m = class_distribution l /\
    forall q v c, attrs q = map (fun z => ACont (Fin z)) v -> length v = n -> In c (map label l) ->
      exists r, bayes_metric ln m q c = Ok (Fin r) /\
        (r == f (frequency s c) - (1#2) * qsum (map (fun j => (away s c v j / nth j (sd c) 0) * (away s c v j / nth j (sd c) 0)) (seq 0 n)))%Q.
  Proof.
    unfold bayes_train. rewrite class_lists_spec. cbn [bind].
    assert (Hx0 : exists g0 x0 a0, atn (labelled l) 0 = Ok g0 /\ atn (snd g0) 0 = Ok x0 /\ get_attr x0 0 = Ok a0 /\ isDiscrete a0 = false).
    { assert (Hd : exists c cs, distinct_labels l = c :: cs).
      { destruct l as [|x l'] eqn:El; [congruence|]. assert (Hi : In (label x) (distinct_labels (x :: l'))) by (apply distinct_in; left; reflexivity).
        destruct (distinct_labels (x :: l')); [destruct Hi|eauto]. }
      destruct Hd as (c & cs & Ed). assert (Hc : In c (map label l)) by (apply distinct_in; rewrite Ed; left; reflexivity).
      pose proof (class_nonempty l c Hc) as N. pose proof (num_class c) as R. pose proof (num_members_len c) as F.
      destruct (filter (of_class c) l) as [|x l'] eqn:E; [congruence|]. inversion R as [|? r ? ? Hx R' E1 E2]. rewrite <- E2 in F. apply Forall_inv in F.
      exists (c, x :: l'), x. destruct (snd r) as [|v vs] eqn:Ev; [cbn in *; lia|]. exists (ACont (Fin v)). unfold labelled. rewrite Ed. cbn [map]. rewrite E.
      split; [reflexivity|]. split; [reflexivity|]. split; [|reflexivity]. apply get_attr_ok. apply (feature_nth x 0). rewrite (proj2 Hx), Ev. reflexivity. }
    destruct Hx0 as (g0 & x0 & a0 & -> & E1 & E2 & E3). cbn [bind]. rewrite E1. cbn [bind]. rewrite E2. cbn [bind]. rewrite E3. unfold labelled.
    destruct (fold_fresh l (bayes_cont std_vec) (fun st c => nb_dists st = [] /\ nb_prior st = class_distribution l /\ mfind c (nb_means st) = None /\ mfind c (nb_devs st) = None)
                (fun st c => nb_dists st = [] /\ nb_prior st = class_distribution l /\ exists mu, mfind c (nb_means st) = Some mu /\ isv mu n (class_mean s c) /\ mfind c (nb_devs st) = Some (map Fin (sd c)))) with (cs := distinct_labels l)
                (st := mkNB (class_distribution l) [] [] []) as (m & E & HM & _).
    - intros st c Hc (F0 & F1 & F2 & F3). unfold bayes_cont. cbn [fst snd]. destruct (mean_spec c Hc) as (a & -> & Va). cbn [bind]. rewrite (proj1 (Hsd c Hc)). cbn [bind].
      eexists. split; [reflexivity|]. cbn [nb_prior nb_dists nb_means nb_devs]. split; [|split].
      + split; [exact F0|]. split; [exact F1|]. eexists. split; [apply mfind_new, F2|]. split; [exact Va|apply mfind_new, F3].
      + intros c' Ne (A & B & mu & C & D & G). split; [exact A|]. split; [exact B|]. exists mu. rewrite !mfind_other by exact Ne. exact (conj C (conj D G)).
      + intros c' Ne (A & B & C & D). rewrite !mfind_other by exact Ne. exact (conj A (conj B (conj C D))).
    - apply distinct_nodup.
    - intros c Hc. apply distinct_in, Hc.
    - intros; repeat split; reflexivity.
    - exists m. split; [exact E|]. assert (Hl0 : exists c0, In c0 (distinct_labels l)).
      { destruct l as [|x l'] eqn:El; [congruence|]. exists (label x). apply distinct_in. left. reflexivity. }
      destruct Hl0 as (c0 & Hc0). destruct (HM c0 Hc0) as (HD & HP & _). split; [exact HP|].
      intros q v c Hq Lv Hc. destruct (HM c (proj2 (distinct_in l c) Hc)) as (_ & _ & mu & Em & Vm & Es).
      destruct (Hsd c Hc) as (_ & Ls & Hz).
      unfold bayes_metric. rewrite HD. unfold bayes_ll_cont.
      unfold attr_count. rewrite HP, Hq, map_length, Lv, Em, Es.
      match goal with |- context [foldM ?g _ _] => set (F := g) end.
      destruct (fold_sum (fun j => - (1#2) * ((away s c v j / nth j (sd c) 0) * (away s c v j / nth j (sd c) 0)))%Q F n) with (s := ln (prob (class_distribution l) c)) (q := f (frequency s c)) as (r & -> & Hr).
      + intros t i u Hi Ht. unfold F.
        rewrite (proj2 (get_attr_ok q (Z.of_nat i) (ACont (Fin (nth i v 0%Q))))) by (apply feature_nth; rewrite Hq; apply (map_nth_error (fun z => ACont (Fin z))), nth_error_nth'; lia).
        cbn [bind cont_value]. rewrite (idxn_some mu i (nth i mu NaN)) by (apply nth_error_nth'; rewrite (proj1 Vm); exact Hi). cbn [bind].
        rewrite (idxn_some (map Fin (sd c)) i (Fin (nth i (sd c) 0%Q))) by (apply map_nth_error, nth_error_nth'; lia). cbn [bind].
        eexists. split; [reflexivity|]. apply isq_add; [exact Ht|]. apply isq_mul; [apply isq_opp; exact (fin_isq (1#2) (1#2) (Qeq_refl _))|].
        assert (D : isq (ddiv (dsub (Fin (nth i v 0%Q)) (nth i mu NaN)) (Fin (nth i (sd c) 0%Q))) (away s c v i / nth i (sd c) 0)%Q).
        { apply isq_div; [|reflexivity|rewrite Forall_forall in Hz; apply Hz, nth_In; lia]. unfold dsub. apply (isq_add _ _ (nth i v 0) (- class_mean s c i))%Q; [reflexivity|]. apply isq_opp, (proj2 Vm), Hi. }
        apply (isq_mul _ _ _ _ D D).
      + destruct (prob_spec l c Hc) as (p & -> & Ep & Hp). destruct (proj1 Hln p Hp) as (r & -> & Hr). apply fin_isq. rewrite Hr. apply (proj2 Hln). rewrite Ep.
        unfold frequency. rewrite members_sample, !sample_length. rewrite (Forall2_len _ _ _ HR), (Forall2_len _ _ _ (num_class c)). reflexivity.
      + apply isq_fin in Hr as (r' & -> & Hr'). exists r'. split; [reflexivity|]. rewrite Hr', qsum_scale. ring.
  Qed.
End Continuous.

(** * Mahalanobis distance *)
Lemma mahalanobis_spec d M x y u v : square d M -> inst_vals x = map Fin u -> inst_vals y = map Fin v -> length u = d -> length v = d ->
  exists r, mahalanobis (map (map Fin) M) x y = Fin r /\ (r == quad d M (fun i => nth i u 0 - nth i v 0))%Q.
Proof.
  intros HM Hx Hy Lu Lv. unfold mahalanobis. change (inst_vector x) with (inst_vals x). change (inst_vector y) with (inst_vals y).
  rewrite Hx, Hy. replace (Nat.eqb (length (map Fin u)) (length (map Fin v))) with true by (symmetry; rewrite !map_length, Lu, Lv; apply Nat.eqb_refl). cbn [negb].
  assert (V : isv (map (fun p => dsub (fst p) (snd p)) (combine (map Fin u) (map Fin v))) d (fun i => nth i u 0 - nth i v 0)%Q).
  { split; [rewrite map_length, combine_length, !map_length; lia|]. intros i Hi. set (F := fun p : dbl * dbl => dsub (fst p) (snd p)).
    rewrite (nth_indep _ NaN (F (Fin 0, Fin 0))) by (rewrite map_length, combine_length, !map_length; lia). rewrite map_nth, combine_nth by (rewrite !map_length; lia).
    unfold F. cbn [fst snd]. rewrite !map_nth. reflexivity. }
  pose proof (ism_fin M d HM) as VM. rewrite (proj1 V), (proj1 (proj1 VM)), Nat.eqb_refl. cbn [negb].
  pose proof (ism_vmul_left _ _ _ _ _ VM V) as W. rewrite (proj1 W), Nat.eqb_refl. cbn [negb].
  destruct (isq_fin _ _ (isv_dot _ _ _ _ _ W V)) as (r & -> & Hr). exists r. split; [reflexivity|]. rewrite Hr, quad_bil. apply bil_left.
Qed.
