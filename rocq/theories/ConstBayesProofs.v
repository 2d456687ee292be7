(** A feature that is the same in all training instances: naive Bayes (C138). *)
From Coq Require Import String ZArith QArith Bool Lia Lqa Permutation List.
From Verif Require Import Base Spec BaseLemmas DblLemmas SortLemmas AttrModel AttrProofs DataSetModel InstanceListModel PartitionModel PerformanceModel
  StatSpec ListSpec ListProofs PartitionProofs PerformanceProofs DistanceModel GaussianModel GaussianSpec GaussianProofs DiscrimSpec DiscrimProofs BayesProofs
  ModelInvProofs ModelInvDistProofs FeatOrderSpec FeatOrderProofs ConstSpec ConstTreeProofs ConstDistProofs RenameProofs.
Import ListNotations.
Local Open Scope string_scope.
Local Open Scope list_scope.
Local Open Scope nat_scope.

(** * Numbers: a deviation of zero makes every score minus infinity or NaN *)
Definition lost (d : dbl) : Prop := d = NaN \/ d = NInf.
Lemma lost_add a b : lost a \/ lost b -> lost (dadd a b).
Proof. unfold lost. destruct a, b; cbn; intuition congruence. Qed.
Lemma lost_below d t : lost d -> dgtb d t = false.
Proof. intros [->| ->]; unfold dgtb; destruct t; reflexivity. Qed.
Lemma flat_term x m s : deq s d0 \/ s = NaN -> lost (dmul (dopp half) (dpow2 (ddiv (dsub (Fin x) (Fin m)) s))).
Proof.
  intros [H| ->]; [|left; reflexivity].
  destruct s as [s| | |]; try contradiction. cbn [deq d0] in H. cbn [dsub dopp dadd]. unfold ddiv. assert (Z : Qeq_bool s 0 = true) by (apply Qeq_bool_iff; exact H).
  generalize (x + - m)%Q. intros d. cbn [dsgn]. rewrite ?Z. unfold dpow2, half, dopp, lost. destruct (d ?= 0)%Q eqn:E; cbn; rewrite ?Z, ?E; cbn; auto.
Qed.
Lemma lost_sum {A} (t : A -> res dbl) xs : forall a r, foldM (fun s i => do v <- t i; Ok (dadd s v)) xs a = Ok r -> lost a \/ (exists i, In i xs /\ forall v, t i = Ok v -> lost v) -> lost r.
Proof.
  induction xs as [|x xs IH]; intros a r E H; cbn [foldM] in E; [injection E as <-; destruct H as [H|(i & [] & _)]; exact H|].
  apply bind_ok in E as (s & E1 & E). apply bind_ok in E1 as (v & Ev & E1). injection E1 as <-. apply (IH _ _ E). destruct H as [H|(i & [<-|Hi] & Hv)].
  - left. apply lost_add. left. exact H.
  - left. apply lost_add. right. apply Hv, Ev.
  - right. exists i. split; assumption.
Qed.
Lemma gauss_lost prior metric q r : (forall c d, metric c = Ok d -> lost d) -> gauss_predict prior metric q = Ok r ->
  match composite q with Some ls => exists rest, ls = r :: rest | None => r = cmax prior end.
Proof.
  intros HM E. unfold gauss_predict in E. apply bind_ok in E as (st0 & E0 & E). apply bind_ok in E as (st & E & E1). injection E1 as <-.
  assert (G : forall cs s t, foldM (gauss_step prior metric) cs s = Ok t -> t = s).
  { induction cs as [|c cs IH]; intros s t Ef; cbn [foldM] in Ef; [injection Ef as <-; reflexivity|]. apply bind_ok in Ef as (s1 & Es & Ef). rewrite (IH _ _ Ef). unfold gauss_step in Es.
    destruct (mmem c prior); [|injection Es as <-; reflexivity]. apply bind_ok in Es as (d & Ed & Es). rewrite (lost_below d _ (HM c d Ed)) in Es. injection Es as <-. reflexivity. }
  rewrite (G _ _ _ E). cbn [snd]. destruct (composite q) as [ls|].
  - apply bind_ok in E0 as (c & Ec & E0). injection E0 as <-. cbn [fst]. destruct ls as [|c' ls]; [discriminate Ec|]. injection Ec as ->. exists ls. reflexivity.
  - injection E0 as <-. reflexivity.
Qed.
Section Flat.
  Context (ln : dbl -> dbl) (std_vec : ilist -> res (list dbl)) (n pos : nat) (Hpos : pos < n) (v0 : Q).
  Definition flat_at (l : ilist) : Prop := forall x, In x l -> get_attr x (Z.of_nat pos) = Ok (ACont (Fin v0)).
  Lemma flat_mean g a : width_n n g -> all_numbers g -> flat_at g -> average_instance g = Ok a -> exists m, idxn (inst_vector a) pos = Ok (Fin m).
  Proof.
    intros W T H E. rewrite (vector_numbers a (average_numbers n g a W T E)). unfold average_instance, average in E. apply bind_ok in E as ((c & r) & E & E'). apply bind_ok in E as (x0 & E0 & E). apply bind_ok in E as (r' & Er & E). injection E as <- <-.
    apply bind_ok in E' as (aa & Ea & E'). injection E' as <-. cbn [fst snd attrs] in *. unfold attr_count in Er. pose proof (first_in _ _ E0) as I0. rewrite (width_in n g x0 W I0) in Er. pose proof (some_inv _ _ Ea) as R. subst r'.
    apply mapM_ok in Er. pose proof (Forall2_len _ _ _ Er) as L. rewrite seq_length, map_length in L.
    destruct (nth_error aa pos) as [b|] eqn:Eb; [|apply nth_error_None in Eb; lia].
    assert (K : attr_average (Z.of_nat pos) g = Ok (Some b)).
    { apply (Forall2_nth (fun i y => attr_average (Z.of_nat i) g = Ok y) (seq 0 n) (map Some aa) pos pos (Some b) Er).
      - rewrite (nth_error_nth' _ 0) by (rewrite seq_length; exact Hpos). rewrite seq_nth by exact Hpos. reflexivity.
      - apply map_nth_error, Eb. }
    unfold attr_average in K. unfold ilist in *. rewrite E0 in K. cbn [bind] in K. rewrite (H x0 I0) in K. cbn [bind isDiscrete isContinuous] in K. unfold cont_sum in K.
    destruct (sum_const v0 (cont_at (Z.of_nat pos)) g) with (s := 0%Q) as (s & Es & _); [intros x Hx; unfold cont_at; rewrite (H x Hx); reflexivity|]. change d0 with (Fin 0) in K. unfold ilist in *. rewrite Es in K. cbn [bind] in K. injection K as <-.
    unfold idxn. rewrite (map_nth_error _ _ _ Eb). unfold dofnat. assert (Z : ~ (inject_Z (Z.of_nat (length g)) == 0)%Q) by (destruct g; [destruct I0|]; unfold Qeq; cbn; lia). destruct (Qeq_bool (inject_Z (Z.of_nat (length g))) 0) eqn:Q; [apply Qeq_bool_iff in Q; contradiction|]. eexists. reflexivity.
  Qed.
  Definition blind (m : bayes) : Prop := nb_dists m = [] /\ (forall c v, mfind c (nb_means m) = Some v -> exists z, idxn v pos = Ok (Fin z)) /\
    forall c s z, mfind c (nb_devs m) = Some s -> idxn s pos = Ok z -> deq z d0 \/ z = NaN.
  Lemma flat_train l m : width_n n l -> all_numbers l -> flat_at l ->
    (forall c s z, In c (map label l) -> std_vec (filter (of_class c) l) = Ok s -> nth_error s pos = Some z -> deq z d0 \/ z = NaN) ->
    bayes_train std_vec bayes_empty l = Ok m -> blind m.
  Proof.
    intros W T H HS E. unfold bayes_train in E. apply bind_ok in E as (cl & Ec & E). apply bind_ok in E as (g0 & E0 & E). apply bind_ok in E as (x0 & E1 & E). apply bind_ok in E as (a0 & E2 & E).
    assert (D0 : isDiscrete a0 = false).
    { pose proof (class_lists_sub l cl g0 Ec (first_in _ _ E0) x0 (first_in _ _ E1)) as Ix. unfold all_numbers in T. rewrite Forall_forall in T. specialize (T x0 Ix). rewrite Forall_forall in T.
      unfold get_attr, at_ in E2. cbn in E2. destruct (attrs x0) as [|b bs]; [discriminate E2|]. injection E2 as <-. destruct (T b (or_introl eq_refl)) as (v & ->). reflexivity. }
    rewrite D0 in E. refine (foldM_keeps blind _ _ _ _ _ _ E); [|split; [reflexivity|split; intros; discriminate]].
    intros s g t Hg (B1 & B2 & B3) Es. unfold bayes_cont in Es. apply bind_ok in Es as (a & Ea & Es). apply bind_ok in Es as (sv & Ev & Es). injection Es as <-.
    assert (Sub : forall x, In x (snd g) -> In x l) by (apply (class_lists_sub l cl g Ec Hg)).
    assert (Wg : width_n n (snd g)) by (apply Forall_forall; intros x Hx; apply (width_in n l); [exact W|apply Sub, Hx]).
    assert (Tg : all_numbers (snd g)) by (apply Forall_forall; intros x Hx; unfold all_numbers in T; rewrite Forall_forall in T; apply T, Sub, Hx).
    destruct (class_lists_groups l cl g Ec Hg) as (Gg & Ic).
    split; [exact B1|]. cbn [nb_means nb_devs]. split.
    - intros c v Hv. rewrite mfind_memplace in Hv. destruct (mfind c (nb_means s)) as [w|] eqn:Ew; [injection Hv as <-; apply (B2 c w Ew)|]. destruct (String.eqb (fst g) c); [|discriminate Hv]. injection Hv as <-.
      apply (flat_mean (snd g) a Wg Tg); [intros x Hx; apply H, Sub, Hx|exact Ea].
    - intros c u z Hu Hz. rewrite mfind_memplace in Hu. destruct (mfind c (nb_devs s)) as [w|] eqn:Ew; [injection Hu as <-; apply (B3 c w z Ew Hz)|]. destruct (String.eqb (fst g) c); [|discriminate Hu]. injection Hu as <-.
      apply (HS (fst g) sv z Ic); [rewrite <- Gg; exact Ev|]. unfold idxn in Hz. destruct (nth_error sv pos); [injection Hz as ->; reflexivity|discriminate Hz].
  Qed.
  Lemma blind_metric m q x c d : blind m -> length (attrs q) = n -> get_attr q (Z.of_nat pos) = Ok (ACont (Fin x)) -> bayes_metric ln m q c = Ok d -> lost d.
  Proof.
    intros (B1 & B2 & B3) Lq Hx E. unfold bayes_metric in E. rewrite B1 in E. unfold bayes_ll_cont in E. unfold attr_count in E. rewrite Lq in E.
    set (t := fun i => do a <- get_attr q (Z.of_nat i); do x <- cont_value a;
             do mi <- match mfind c (nb_means m) with Some v => idxn v i | None => UB EndDeref end;
             do si <- match mfind c (nb_devs m) with Some v => idxn v i | None => UB EndDeref end;
             Ok (dmul (dopp half) (dpow2 (ddiv (dsub x mi) si)))).
    rewrite (foldM_ext_in _ (fun s i => do v <- t i; Ok (dadd s v)) (seq 0 n)) in E.
    - apply (lost_sum t _ _ _ E). right. exists pos. split; [apply in_seq; lia|]. intros v Ev. unfold t in Ev. rewrite Hx in Ev. cbn [bind cont_value] in Ev.
      apply bind_ok in Ev as (mi & E1 & Ev). apply bind_ok in Ev as (si & E2 & Ev). injection Ev as <-.
      destruct (mfind c (nb_means m)) as [vm|] eqn:Em; [|discriminate E1]. destruct (mfind c (nb_devs m)) as [vs|] eqn:Es; [|discriminate E2]. destruct (B2 c vm Em) as (z & Ez). rewrite Ez in E1. injection E1 as <-.
      apply flat_term. exact (B3 c vs si Es E2).
    - intros s i _. unfold t. destruct (get_attr q (Z.of_nat i)) as [b| | |]; try reflexivity. cbn [bind]. destruct (cont_value b); try reflexivity. cbn [bind].
      destruct (match mfind c (nb_means m) with Some v => idxn v i | None => UB EndDeref end); try reflexivity. cbn [bind].
      destruct (match mfind c (nb_devs m) with Some v => idxn v i | None => UB EndDeref end); reflexivity.
  Qed.
End Flat.

(** * Texts: every score changes by a term that depends on the size of the class *)
Lemma reads_insert pos v l s : Forall2 reads_text l s -> Forall2 reads_text (map (with_feature pos (ADisc v)) l) (map (fun r => (fst r, insert_at pos v (snd r))) s).
Proof. intros F. induction F as [|x r l s (H1 & H2) _ IH]; cbn [map]; constructor; [|exact IH]. split; [exact H1|]. cbn [with_feature attrs snd]. rewrite H2, insert_map. reflexivity. Qed.
Lemma tmembers_insert pos v s c : tmembers (map (fun r => (fst r, insert_at pos v (snd r))) s) c = map (fun r => (fst r, insert_at pos v (snd r))) (tmembers s c).
Proof. unfold tmembers. induction s as [|r s IH]; [reflexivity|]. cbn [map filter fst]. destruct (String.eqb (fst r) c); cbn [map]; rewrite IH; reflexivity. Qed.
Lemma nth_insert_low {A} (d : A) pos v l i : pos <= length l -> i < pos -> nth i (insert_at pos v l) d = nth i l d.
Proof. intros L H. unfold insert_at. rewrite app_nth1 by (rewrite firstn_length_le; lia). rewrite <- (firstn_skipn pos l) at 2. rewrite app_nth1 by (rewrite firstn_length_le; lia). reflexivity. Qed.
Lemma nth_insert_new {A} (d : A) pos v l : pos <= length l -> nth pos (insert_at pos v l) d = v.
Proof. intros L. unfold insert_at. rewrite app_nth2 by (rewrite firstn_length_le; lia). rewrite firstn_length_le, Nat.sub_diag by lia. reflexivity. Qed.
Lemma nth_insert_high {A} (d : A) pos v l i : pos <= length l -> pos <= i -> nth (S i) (insert_at pos v l) d = nth i l d.
Proof.
  intros L H. unfold insert_at. rewrite app_nth2 by (rewrite firstn_length_le; lia). rewrite firstn_length_le by lia. replace (S i - pos) with (S (i - pos)) by lia. cbn [nth].
  rewrite <- (firstn_skipn pos l) at 2. rewrite app_nth2 by (rewrite firstn_length_le; lia). rewrite firstn_length_le by lia. reflexivity.
Qed.
Section Texts.
  Context (n pos : nat) (Hpos : pos <= n) (v : string) (s : tsample) (HL : Forall (fun r => length (snd r) = n) s).
  Notation s' := (map (fun r => (fst r, insert_at pos v (snd r))) s).
  Lemma member_len c r : In r (tmembers s c) -> length (snd r) = n.
  Proof. intros H. apply filter_In in H as [H _]. rewrite Forall_forall in HL. apply HL, H. Qed.
  Lemma values_low c i : i < pos -> values s' c i = values s c i.
  Proof. intros H. unfold values. rewrite tmembers_insert, map_map. apply map_ext_in. intros r Hr. cbn [snd]. apply nth_insert_low; [rewrite (member_len c r Hr); exact Hpos|exact H]. Qed.
  Lemma values_high c i : pos <= i -> values s' c (S i) = values s c i.
  Proof. intros H. unfold values. rewrite tmembers_insert, map_map. apply map_ext_in. intros r Hr. cbn [snd]. apply nth_insert_high; [rewrite (member_len c r Hr); exact Hpos|exact H]. Qed.
  Lemma values_new c : values s' c pos = repeat v (length (tmembers s c)).
  Proof.
    unfold values. rewrite tmembers_insert, map_map. rewrite (map_ext_in _ (fun _ => v)); [generalize (tmembers s c); induction t as [|r t IH]; [reflexivity|]; cbn; f_equal; exact IH|].
    intros r Hr. cbn [snd]. apply nth_insert_new. rewrite (member_len c r Hr). exact Hpos.
  Qed.
  Lemma occ_repeat k : occ (repeat v k) v = k.
  Proof. unfold occ. induction k as [|k IH]; [reflexivity|]. cbn. destruct (string_dec v v); [f_equal; exact IH|contradiction]. Qed.
  Lemma nodup_repeat k : 0 < k -> length (nodup string_dec (repeat v k)) = 1.
  Proof.
    intros H. destruct k as [|k]; [lia|]. clear H. induction k as [|k IH]; [reflexivity|]. change (repeat v (S (S k))) with (v :: repeat v (S k)). cbn [nodup]. destruct (in_dec string_dec v (repeat v (S k))) as [_|N]; [exact IH|].
    exfalso. apply N. left. reflexivity.
  Qed.
  Lemma smoothed_new c : 0 < length (tmembers s c) -> smoothed s' c pos v = (qofn (length (tmembers s c) + 1) / qofn (length (tmembers s c) + 1 + 1))%Q.
  Proof. intros H. unfold smoothed. rewrite values_new, occ_repeat, repeat_length, nodup_repeat by exact H. reflexivity. Qed.
  Lemma tfrequency_insert c : tfrequency s' c = tfrequency s c.
  Proof. unfold tfrequency. rewrite tmembers_insert, !map_length. reflexivity. Qed.
End Texts.
