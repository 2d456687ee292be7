(** Lemmas about feature selection. *)
From Coq Require Import ZArith Bool Lia Permutation Arith List.
From Verif Require Import Base Spec BaseLemmas SelectionModel SelectionSpec.
Import ListNotations.
Local Open Scope list_scope.
Local Open Scope nat_scope.

Lemma zrange_in n i : In i (zrange n) <-> (0 <= i < n)%Z.
Proof.
  unfold zrange. rewrite in_map_iff. split.
  - intros (k & <- & Hk). apply in_seq in Hk. lia.
  - intros H. exists (Z.to_nat i). split; [lia|]. apply in_seq. lia.
Qed.
Lemma zrange_nodup n : NoDup (zrange n).
Proof. unfold zrange. apply FinFun.Injective_map_NoDup; [intros a b; lia|apply seq_NoDup]. Qed.
Lemma zrange_length n : length (zrange n) = Z.to_nat n.
Proof. unfold zrange. rewrite map_length, seq_length. reflexivity. Qed.
Lemma fs_contains_in s i : fs_contains s i = true <-> In i s.
Proof. unfold fs_contains. rewrite existsb_exists. split; [intros (x & Hx & E); apply Z.eqb_eq in E; subst; exact Hx|intros H; exists i; split; [exact H|apply Z.eqb_refl]]. Qed.
Lemma fs_eqb_eq s t : fs_eqb s t = true <-> s = t.
Proof.
  revert t. induction s as [|i s IH]; intros [|j t]; simpl; split; try discriminate; try reflexivity.
  - intros H. apply andb_true_iff in H. destruct H as [H1 H2]. apply Z.eqb_eq in H1. apply IH in H2. congruence.
  - intros H. injection H as -> ->. rewrite Z.eqb_refl. apply IH. reflexivity.
Qed.
Lemma seen_in l c : existsb (fun p => fs_eqb p c) l = true <-> In c l.
Proof. rewrite existsb_exists. split; [intros (x & Hx & E); apply fs_eqb_eq in E; subst; exact Hx|intros H; exists c; split; [exact H|apply fs_eqb_eq; reflexivity]]. Qed.

(** * operators *)
Lemma forward_eq lst cur n : forward lst cur n = lst ++ map (fs_add cur) (filter (fun i => negb (fs_contains cur i)) (zrange n)).
Proof.
  unfold forward. generalize (zrange n) as r. intros r. revert lst. induction r as [|i r IH]; intros lst; simpl; [rewrite app_nil_r; reflexivity|].
  destruct (fs_contains cur i); simpl; rewrite IH; [reflexivity|]. rewrite <- app_assoc. reflexivity.
Qed.
Lemma forward_in lst cur n c : In c (forward lst cur n) <-> In c lst \/ one_added n cur c.
Proof.
  rewrite forward_eq, in_app_iff, in_map_iff. apply or_iff_compat_l. split.
  - intros (i & <- & Hi). apply filter_In in Hi. destruct Hi as [Hr Hn]. exists i. apply zrange_in in Hr. split; [exact Hr|].
    split; [|reflexivity]. intros C. apply fs_contains_in in C. rewrite C in Hn. discriminate.
  - intros (i & Hr & Hn & ->). exists i. split; [reflexivity|]. apply filter_In. split; [apply zrange_in; exact Hr|].
    apply negb_true_iff, not_true_iff_false. rewrite fs_contains_in. exact Hn.
Qed.
Lemma backward_eq lst cur : backward lst cur = Ok (lst ++ map (erase_nth cur) (seq 0 (length cur))).
Proof.
  unfold backward, zrange. rewrite Nat2Z.id. assert (H : forall k, In k (seq 0 (length cur)) -> k < length cur) by (intros k Hk; apply in_seq in Hk; lia).
  revert H. generalize (seq 0 (length cur)) as r. intros r. revert lst. induction r as [|k r IH]; intros lst H; cbn [map foldM]; [rewrite app_nil_r; reflexivity|].
  unfold fs_remove. pose proof (H k (or_introl eq_refl)) as Hk. replace ((Z.of_nat k <? 0)%Z) with false by (symmetry; apply Z.ltb_ge; lia).
  replace ((Z.of_nat (length cur) <=? Z.of_nat k)%Z) with false by (symmetry; apply Z.leb_gt; lia). cbn [orb bind].
  rewrite IH by (intros; apply H; right; assumption). rewrite Nat2Z.id, <- app_assoc. reflexivity.
Qed.
Lemma erase_split {A} (l : list A) i : i < length l -> exists l1 x l2, l = l1 ++ x :: l2 /\ length l1 = i /\ erase_nth l i = l1 ++ l2.
Proof.
  revert i. induction l as [|y l IH]; intros i H; simpl in H; [lia|]. destruct i as [|i].
  - exists [], y, l. repeat split.
  - destruct (IH i) as (l1 & x & l2 & E & HL & EE); [lia|]. exists (y :: l1), x, l2. simpl. rewrite EE, HL. subst l. repeat split.
Qed.
Lemma erase_at {A} (l1 : list A) x l2 : erase_nth (l1 ++ x :: l2) (length l1) = l1 ++ l2.
Proof. induction l1; simpl; [reflexivity|congruence]. Qed.
Lemma erase_in cur c : In c (map (erase_nth cur) (seq 0 (length cur))) <-> one_removed cur c.
Proof.
  rewrite in_map_iff. split.
  - intros (k & <- & Hk). apply in_seq in Hk. destruct (erase_split cur k) as (l1 & x & l2 & E & _ & EE); [lia|]. exists l1, x, l2. auto.
  - intros (l1 & x & l2 & -> & ->). exists (length l1). split; [apply erase_at|]. apply in_seq. rewrite app_length. simpl. lia.
Qed.
Lemma operator_ok s cur n : exists cs, operator s cur n = Ok cs /\ (forall c, In c cs <-> neighbour s n cur c).
Proof.
  destruct s; simpl.
  - eexists; split; [reflexivity|]. intros c. rewrite forward_in. simpl. tauto.
  - rewrite backward_eq. eexists; split; [reflexivity|]. intros c. simpl. apply erase_in.
  - rewrite backward_eq. eexists; split; [reflexivity|]. intros c. rewrite in_app_iff, forward_in, erase_in. simpl. tauto.
Qed.
Lemma neighbour_valid s n cur c : feature_set n cur -> neighbour s n cur c -> feature_set n c.
Proof.
  intros [HN HF]. assert (HA : one_added n cur c -> feature_set n c).
  { intros (i & Hr & Hn & ->). split.
    - apply Permutation_NoDup with (i :: cur); [apply Permutation_cons_append|]. constructor; assumption.
    - apply Forall_app. split; [exact HF|]. constructor; [exact Hr|constructor]. }
  assert (HR : one_removed cur c -> feature_set n c).
  { intros (l1 & x & l2 & -> & ->). split; [apply NoDup_remove_1 with x; exact HN|].
    apply Forall_app in HF. destruct HF as [F1 F2]. inversion F2; subst. apply Forall_app. split; assumption. }
  destruct s; simpl; tauto.
Qed.

(** * the search *)
Section Search.
  Context {E : Type} (eval : fset -> res E) (better : E -> E -> res bool).
  Notation state := (@sel_state E).
  Notation candidate := (sel_candidate eval better).
  Notation round := (sel_round eval better).
  Notation loop := (sel_loop eval better).

  Definition nonempty (s : fset) : bool := match s with [] => false | _ => true end.
  (** invariant of the search *)
  Record inv (n : Z) (st : state) : Prop := mkInv {
    inv_nodup : NoDup (processed st);
    inv_valid : Forall (feature_set n) (processed st);
    inv_log : log st = filter nonempty (processed st);
    inv_best : In (best st) (processed st);
    inv_perf : match bestPerf st with None => log st = [] | Some p => eval (best st) = Ok p /\ In (best st) (log st) end }.
  Lemma candidate_cases st c st' : candidate st c = Ok st' ->
    (In c (processed st) /\ st' = st) \/
    (~ In c (processed st) /\ c = [] /\ st' = mkSel (processed st ++ [c]) (best st) (bestPerf st) (found st) (log st)) \/
    (~ In c (processed st) /\ c <> [] /\ exists e, eval c = Ok e /\
       ((st' = mkSel (processed st ++ [c]) c (Some e) true (log st ++ [c]) /\ match bestPerf st with None => True | Some p => better e p = Ok true end) \/
        (st' = mkSel (processed st ++ [c]) (best st) (bestPerf st) (found st) (log st ++ [c]) /\ exists p, bestPerf st = Some p /\ better e p = Ok false))).
  Proof.
    unfold sel_candidate. intros H. destruct (existsb (fun p => fs_eqb p c) (processed st)) eqn:Es.
    - left. split; [apply seen_in; exact Es|congruence].
    - right. assert (Hn : ~ In c (processed st)) by (rewrite <- seen_in, Es; discriminate). destruct c as [|i c]; [left; split; [exact Hn|split; [reflexivity|congruence]]|].
      right. split; [exact Hn|]. split; [discriminate|]. apply bind_ok in H. destruct H as (e & He & H). exists e. split; [exact He|].
      apply bind_ok in H. destruct H as (b & Hb & H). injection H as <-. destruct b.
      + left. split; [reflexivity|]. destruct (bestPerf st); [exact Hb|exact I].
      + right. split; [reflexivity|]. destruct (bestPerf st) as [p|]; [exists p; auto|discriminate].
  Qed.
  Lemma candidate_inv n st c st' : inv n st -> feature_set n c -> candidate st c = Ok st' -> inv n st'.
  Proof.
    intros [H1 H2 H3 H4 H5] Hc H. assert (HN : ~ In c (processed st) -> NoDup (processed st ++ [c])).
    { intros Hn. apply Permutation_NoDup with (c :: processed st); [apply Permutation_cons_append|]. constructor; assumption. }
    assert (HV : Forall (feature_set n) (processed st ++ [c])) by (apply Forall_app; split; [exact H2|constructor; [exact Hc|constructor]]).
    apply candidate_cases in H. destruct H as [[_ ->]|[(Hn & -> & ->)|(Hn & Hne & e & He & [[-> _]|[-> (p & Ep & _)]])]].
    - constructor; assumption.
    - constructor; simpl; auto; [rewrite filter_app; simpl; rewrite app_nil_r; exact H3|apply in_app_iff; left; exact H4].
    - destruct c; [congruence|]. constructor; simpl; auto; [rewrite filter_app, H3; reflexivity|apply in_app_iff; right; left; reflexivity|].
      split; [exact He|]. apply in_app_iff; right; left; reflexivity.
    - destruct c as [|i c]; [congruence|]. rewrite Ep in H5. constructor; simpl; auto; [rewrite filter_app, H3; reflexivity|apply in_app_iff; left; exact H4|].
      rewrite Ep. destruct H5; split; [assumption|apply in_app_iff; left; assumption].
  Qed.
  Lemma round_inv n cs st st' : inv n st -> Forall (feature_set n) cs -> foldM candidate cs st = Ok st' -> inv n st'.
  Proof.
    intros HI HC. revert st HI. induction HC as [|c cs Hc HC IH]; intros st HI H; cbn [foldM] in H; [congruence|].
    apply bind_ok in H. destruct H as (st1 & H1 & H2). eapply IH; [|exact H2]. eapply candidate_inv; eassumption.
  Qed.
  Lemma inv_unfound n st b : inv n st -> inv n (mkSel (processed st) (best st) (bestPerf st) b (log st)).
  Proof. intros [H1 H2 H3 H4 H5]. constructor; assumption. Qed.
  (** what one round does *)
  Lemma round_facts cs st st' : foldM candidate cs st = Ok st' ->
    incl (processed st) (processed st') /\ incl cs (processed st') /\ incl (log st) (log st') /\
    (found st' = false -> found st = false /\ best st' = best st /\ bestPerf st' = bestPerf st) /\
    (found st = false -> found st' = true -> length (processed st) < length (processed st')) /\
    length (processed st) <= length (processed st') /\
    length (log st') <= length (log st) + length cs.
  Proof.
    revert st. induction cs as [|c cs IH]; intros st H; cbn [foldM] in H.
    - injection H as <-. repeat split; auto using incl_refl; try (intros; congruence); try lia. intros x [].
    - apply bind_ok in H. destruct H as (st1 & H1 & H2). specialize (IH _ H2). destruct IH as (I1 & I2 & I3 & I4 & I5 & I6 & I7).
      apply candidate_cases in H1.
      assert (G : incl (processed st) (processed st1) /\ In c (processed st1) /\ incl (log st) (log st1) /\
        (found st1 = false -> found st = false /\ best st1 = best st /\ bestPerf st1 = bestPerf st) /\
        (found st = false -> found st1 = true -> length (processed st) < length (processed st1)) /\
        length (processed st) <= length (processed st1) /\ length (log st1) <= length (log st) + 1).
      { destruct H1 as [[Hin ->]|[(Hn & -> & ->)|(Hn & Hne & e & He & [[-> _]|[-> _]])]]; cbn [processed best bestPerf found log];
          rewrite ?app_length; simpl; repeat split; auto using incl_refl; try (intros; congruence); try lia; try (apply in_app_iff; simpl; tauto);
          try (apply incl_appl; apply incl_refl). }
      destruct G as (G1 & G2 & G3 & G4 & G5 & G6 & G7). repeat split.
      + eapply incl_tran; eassumption.
      + intros x [<-|Hx]; [apply I1, G2|apply I2, Hx].
      + eapply incl_tran; eassumption.
      + apply I4 in H. tauto.
      + apply I4 in H. destruct H as (E1 & E2 & E3). apply G4 in E1. destruct E1 as (_ & E1 & _). congruence.
      + apply I4 in H. destruct H as (E1 & E2 & E3). apply G4 in E1. destruct E1 as (_ & _ & E1). congruence.
      + intros H H'. destruct (found st1) eqn:Ef; [specialize (G5 H eq_refl); lia|specialize (I5 eq_refl H'); lia].
      + lia.
      + simpl. lia.
  Qed.
  Lemma round_candidates s n st st' : inv n st -> round s n st = Ok st' ->
    exists cs, operator s (best st) n = Ok cs /\ Forall (feature_set n) cs /\ (forall c, In c cs <-> neighbour s n (best st) c) /\
      foldM candidate cs (mkSel (processed st) (best st) (bestPerf st) false (log st)) = Ok st'.
  Proof.
    intros HI H. unfold sel_round in H. destruct (operator_ok s (best st) n) as (cs & Ec & Hc). rewrite Ec in H. exists cs. split; [exact Ec|].
    split; [|split; [exact Hc|exact H]]. apply Forall_forall. intros c Hin. apply Hc in Hin. eapply neighbour_valid; [|exact Hin].
    destruct HI as [_ HV _ HB _]. rewrite Forall_forall in HV. apply HV, HB.
  Qed.
  Lemma round_keeps s n st st' : inv n st -> round s n st = Ok st' -> inv n st'.
  Proof. intros HI H. destruct (round_candidates _ _ _ _ HI H) as (cs & _ & HV & _ & HF). eapply round_inv; [|exact HV|exact HF]. apply inv_unfound. exact HI. Qed.

  (** ** termination *)
  Fixpoint lists_upto (dom : list Z) (k : nat) : list fset :=
    match k with O => [[]] | S k' => [] :: flat_map (fun x => map (cons x) (lists_upto dom k')) dom end.
  Lemma lists_upto_in dom k l : length l <= k -> Forall (fun x => In x dom) l -> In l (lists_upto dom k).
  Proof.
    revert l. induction k as [|k IH]; intros [|x l] HL HF; simpl in *; auto; try lia. right. inversion HF; subst.
    apply in_flat_map. exists x. split; [assumption|]. apply in_map. apply IH; [lia|assumption].
  Qed.
  Definition universe (n : Z) : list fset := lists_upto (zrange n) (Z.to_nat n).
  Lemma feature_set_universe n s : feature_set n s -> In s (universe n).
  Proof.
    intros [HN HF]. assert (HI : Forall (fun x => In x (zrange n)) s) by (eapply Forall_impl; [|exact HF]; intros i Hi; apply zrange_in; exact Hi).
    apply lists_upto_in; [|exact HI]. rewrite <- zrange_length. apply NoDup_incl_length; [exact HN|]. rewrite Forall_forall in HI. exact HI.
  Qed.
  Lemma processed_bound n st : inv n st -> length (processed st) <= length (universe n).
  Proof.
    intros [HN HV _ _ _]. apply NoDup_incl_length; [exact HN|]. intros s Hs. rewrite Forall_forall in HV. apply feature_set_universe, HV, Hs.
  Qed.
  Lemma round_fold_no_diverge (He : forall s, eval s <> Diverge) (Hb : forall a b, better a b <> Diverge) cs st : foldM candidate cs st <> Diverge.
  Proof.
    revert st. induction cs as [|c cs IH]; intros st; cbn [foldM]; [discriminate|].
    assert (Hc : candidate st c <> Diverge).
    { unfold sel_candidate. destruct (existsb _ _); [discriminate|]. destruct c as [|i c]; [discriminate|]. specialize (He (i :: c)).
      destruct (eval (i :: c)) as [e| | |]; cbn [bind]; try discriminate; [|congruence]. destruct (bestPerf st) as [p|]; [|discriminate].
      specialize (Hb e p). destruct (better e p); cbn [bind]; try discriminate. congruence. }
    destruct (candidate st c); cbn [bind]; try discriminate; [apply IH|congruence].
  Qed.
  Lemma loop_terminates (He : forall s, eval s <> Diverge) (Hb : forall a b, better a b <> Diverge) s n fuel st :
    inv n st -> length (universe n) < fuel + length (processed st) -> loop fuel s n st <> Diverge.
  Proof.
    revert st. induction fuel as [|fuel IH]; intros st HI HF.
    - pose proof (processed_bound n st HI). lia.
    - cbn [sel_loop]. destruct (round s n st) as [st'| | |] eqn:Er; cbn [bind]; try discriminate.
      + destruct (found st') eqn:Ef; [|discriminate]. apply IH; [eapply round_keeps; eassumption|].
        destruct (round_candidates _ _ _ _ HI Er) as (cs & _ & _ & _ & Hfold). apply round_facts in Hfold.
        destruct Hfold as (_ & _ & _ & _ & H5 & _). specialize (H5 eq_refl Ef). simpl in H5. lia.
      + unfold sel_round in Er. destruct (operator_ok s (best st) n) as (cs & Ec & _). rewrite Ec in Er. cbn [bind] in Er.
        exfalso. exact (round_fold_no_diverge He Hb _ _ Er).
  Qed.
  Lemma loop_fuel s n fuel fuel' st : loop fuel s n st <> Diverge -> fuel <= fuel' -> loop fuel' s n st = loop fuel s n st.
  Proof.
    revert fuel' st. induction fuel as [|fuel IH]; intros fuel' st H HL; [simpl in H; congruence|].
    destruct fuel' as [|fuel']; [lia|]. cbn [sel_loop] in *. destruct (round s n st) as [st'| | |]; cbn [bind] in *; try reflexivity.
    destruct (found st'); [|reflexivity]. apply IH; [exact H|lia].
  Qed.
  Definition start (initial : fset) : res state :=
    match initial with
    | [] => Ok (mkSel [initial] initial None true [])
    | _ => do p <- eval initial; Ok (mkSel [initial] initial (Some p) true [initial])
    end.
  Lemma start_inv n initial st : feature_set n initial -> start initial = Ok st -> inv n st.
  Proof.
    intros HV H. destruct initial as [|i s]; simpl in H.
    - injection H as <-. constructor; simpl; auto. constructor; [simpl; tauto|constructor].
    - apply bind_ok in H. destruct H as (p & Hp & H). injection H as <-. constructor; simpl; auto. constructor; [simpl; tauto|constructor].
  Qed.
  Lemma initial_valid s n : feature_set n (initial_of s n).
  Proof.
    destruct s; simpl; [split; constructor| |split; constructor]. split; [apply zrange_nodup|]. apply Forall_forall. intros i. apply zrange_in.
  Qed.
  Lemma loop_inv s n fuel st st' : inv n st -> loop fuel s n st = Ok st' -> inv n st'.
  Proof.
    revert st. induction fuel as [|fuel IH]; intros st HI H; cbn [sel_loop] in H; [discriminate|]. apply bind_ok in H. destruct H as (st1 & H1 & H).
    assert (HI1 : inv n st1) by (eapply round_keeps; eassumption). destruct (found st1); [eapply IH; eassumption|congruence].
  Qed.
  (** ** optimality *)
  Definition result (e : E) : Prop := exists s, eval s = Ok e.
  Definition dominated (st : state) : Prop :=
    (forall p, bestPerf st = Some p -> result p) /\
    Forall (fun c => exists e p, eval c = Ok e /\ bestPerf st = Some p /\ better e p = Ok false) (log st).
  Lemma better_irrefl a : comparable eval better -> result a -> better a a = Ok false.
  Proof. intros (_ & T & A & _) Ha. destruct (T a a Ha Ha) as [[] H]; [|exact H]. pose proof (A _ _ Ha Ha H). congruence. Qed.
  Lemma candidate_dom st c st' : comparable eval better -> dominated st -> candidate st c = Ok st' -> dominated st'.
  Proof.
    intros HC HD H. pose proof HC as (_ & T & A & N). apply candidate_cases in H. destruct H as [[_ ->]|[(Hn & -> & ->)|(Hn & Hne & e & He & [[-> Hb]|[-> (p & Ep & Hb)]])]]; auto.
    - destruct HD as [HR HD]. assert (Re : result e) by (exists c; exact He). split; cbn [log bestPerf]; [intros p Hp; injection Hp as <-; exact Re|]. apply Forall_app. split.
      + eapply Forall_impl; [|exact HD]. intros d (e' & p & E1 & E2 & E3). exists e', e. split; [exact E1|]. split; [reflexivity|].
        rewrite E2 in Hb. assert (Rp : result p) by (apply HR; exact E2). assert (Re' : result e') by (exists d; exact E1).
        eapply N; [exact Re'|exact Rp|exact Re|exact E3|]. apply A; auto.
      + constructor; [|constructor]. exists e, e. split; [exact He|]. split; [reflexivity|]. apply better_irrefl; assumption.
    - destruct HD as [HR HD]. split; cbn [log bestPerf]; [exact HR|]. apply Forall_app. split; [exact HD|]. constructor; [|constructor]. exists e, p. auto.
  Qed.
  Lemma fold_dom cs st st' : comparable eval better -> dominated st -> foldM candidate cs st = Ok st' -> dominated st'.
  Proof.
    intros HC. revert st. induction cs as [|c cs IH]; intros st HD H; cbn [foldM] in H; [congruence|].
    apply bind_ok in H. destruct H as (st1 & H1 & H). eapply IH; [|exact H]. eapply candidate_dom; eassumption.
  Qed.
  (** the state returned: its neighbours were all processed *)
  Lemma loop_final s n fuel st st' : inv n st -> loop fuel s n st = Ok st' ->
    forall c, neighbour s n (best st') c -> In c (processed st').
  Proof.
    revert st. induction fuel as [|fuel IH]; intros st HI H; cbn [sel_loop] in H; [discriminate|]. apply bind_ok in H. destruct H as (st1 & H1 & H).
    assert (HI1 : inv n st1) by (eapply round_keeps; eassumption). destruct (found st1) eqn:Ef; [eapply IH; eassumption|]. injection H as <-.
    intros c Hc. destruct (round_candidates _ _ _ _ HI H1) as (cs & _ & _ & Hcs & Hfold). apply round_facts in Hfold.
    destruct Hfold as (_ & I2 & _ & I4 & _). destruct (I4 Ef) as (_ & Eb & _). cbn [best] in Eb. apply I2, Hcs. rewrite <- Eb. exact Hc.
  Qed.
  Lemma loop_dom s n fuel st st' : comparable eval better -> inv n st -> dominated st -> loop fuel s n st = Ok st' -> dominated st'.
  Proof.
    intros HC. revert st. induction fuel as [|fuel IH]; intros st HI HD H; cbn [sel_loop] in H; [discriminate|]. apply bind_ok in H. destruct H as (st1 & H1 & H).
    assert (HI1 : inv n st1) by (eapply round_keeps; eassumption).
    assert (HD1 : dominated st1).
    { destruct (round_candidates _ _ _ _ HI H1) as (cs & _ & _ & _ & Hfold). eapply fold_dom; [exact HC| |exact Hfold]. exact HD. }
    destruct (found st1); [eapply IH; eassumption|congruence].
  Qed.

  (** ** forward and backward never meet the same set twice *)
  Lemma fold_fresh cs st st' : foldM candidate cs st = Ok st' -> NoDup cs -> (forall c, In c cs -> ~ In c (processed st)) ->
    processed st' = processed st ++ cs /\ (best st' = best st \/ In (best st') cs) /\ (found st = false -> found st' = true -> In (best st') cs).
  Proof.
    revert st. induction cs as [|c cs IH]; intros st H HN HF; cbn [foldM] in H.
    - injection H as <-. rewrite app_nil_r. split; [reflexivity|]. split; [left; reflexivity|congruence].
    - apply bind_ok in H. destruct H as (st1 & H1 & H2). inversion HN as [|? ? Hc HN']; subst.
      assert (G : processed st1 = processed st ++ [c] /\ (best st1 = best st \/ best st1 = c) /\ (found st = false -> found st1 = true -> best st1 = c)).
      { apply candidate_cases in H1. destruct H1 as [[Hin ->]|[(Hn & -> & ->)|(Hn & Hne & e & He & [[-> _]|[-> _]])]]; simpl.
        - exfalso. exact (HF c (or_introl eq_refl) Hin).
        - repeat split; auto. congruence.
        - repeat split; auto.
        - repeat split; auto. congruence. }
      destruct G as (G1 & G2 & G3). destruct (IH st1 H2 HN') as (I1 & I2 & I3).
      { intros d Hd. rewrite G1, in_app_iff. intros [C|[C|[]]]; [exact (HF d (or_intror Hd) C)|subst; contradiction]. }
      rewrite I1, G1, <- app_assoc. split; [reflexivity|]. split.
      + destruct I2 as [->|I2]; [|right; right; exact I2]. destruct G2 as [G2|G2]; [left; exact G2|right; left; congruence].
      + intros Hf Hf'. destruct (found st1) eqn:Ef1; [|right; apply I3; auto]. destruct I2 as [->|I2]; [|right; exact I2]. left. symmetry. apply G3; auto.
  Qed.
End Search.
Lemma distinct_sets_app l l' : distinct_sets l -> distinct_sets l' -> (forall s t, In s l -> In t l' -> ~ Permutation s t) -> distinct_sets (l ++ l').
Proof.
  unfold distinct_sets. induction 1 as [|s l Hs H IH]; intros H' HX; simpl; [exact H'|]. constructor.
  - apply Forall_app. split; [exact Hs|]. apply Forall_forall. intros t Ht. apply HX; [left; reflexivity|exact Ht].
  - apply IH; [exact H'|]. intros u t Hu Ht. apply HX; [right; exact Hu|exact Ht].
Qed.
Lemma distinct_sets_filter f l : distinct_sets l -> distinct_sets (filter f l).
Proof.
  unfold distinct_sets. induction 1 as [|s l Hs H IH]; simpl; [constructor|]. destruct (f s); [|exact IH]. constructor; [|exact IH].
  apply Forall_forall. intros t Ht. apply filter_In in Ht. rewrite Forall_forall in Hs. apply Hs. tauto.
Qed.
Lemma distinct_sets_nth l i j s t : distinct_sets l -> nth_error l i = Some s -> nth_error l j = Some t -> i < j -> ~ Permutation s t.
Proof.
  intros H. revert i j. induction H as [|u l Hu H IH]; intros i j Hi Hj Hij; [destruct i; discriminate|].
  destruct j as [|j]; [lia|]. simpl in Hj. destruct i as [|i].
  - simpl in Hi. injection Hi as ->. rewrite Forall_forall in Hu. apply Hu. eapply nth_error_In; exact Hj.
  - simpl in Hi. eapply IH; [exact Hi|exact Hj|lia].
Qed.
Lemma distinct_sets_nodup l : distinct_sets l -> NoDup l.
Proof.
  induction 1 as [|s l Hs H IH]; constructor; [|exact IH]. intros C. rewrite Forall_forall in Hs. exact (Hs s C (Permutation_refl _)).
Qed.
(** candidates of one step *)
Lemma forward_distinct cur n : distinct_sets (forward [] cur n) /\ forall c, In c (forward [] cur n) -> length c = S (length cur).
Proof.
  rewrite forward_eq. simpl. split.
  - pose proof (NoDup_filter (fun i => negb (fs_contains cur i)) (zrange_nodup n)) as HN. induction HN as [|i l Hi HN IH]; simpl; [constructor|].
    constructor; [|exact IH]. apply Forall_map. apply Forall_forall. intros j Hj HP. apply Permutation_app_inv_l in HP.
    apply Permutation_length_1 in HP. subst. contradiction.
  - intros c Hc. apply in_map_iff in Hc. destruct Hc as (i & <- & _). unfold fs_add. rewrite app_length. simpl. lia.
Qed.
Lemma backward_distinct cur : NoDup cur -> distinct_sets (map (erase_nth cur) (seq 0 (length cur))) /\
  forall c, In c (map (erase_nth cur) (seq 0 (length cur))) -> S (length c) = length cur.
Proof.
  intros HN. split.
  - assert (G : forall is_, NoDup is_ -> (forall i, In i is_ -> i < length cur) -> distinct_sets (map (erase_nth cur) is_)).
    { intros is_ HI. induction HI as [|i is_ Hi HI IH]; intros HB; simpl; [constructor|]. constructor; [|apply IH; intros; apply HB; right; assumption].
      apply Forall_map. apply Forall_forall. intros j Hj HP. assert (Hij : i <> j) by (intros ->; contradiction).
      pose proof (HB i (or_introl eq_refl)) as Bi. pose proof (HB j (or_intror Hj)) as Bj.
      destruct (erase_split cur i Bi) as (l1 & x & l2 & E & HL & EE). destruct (erase_split cur j Bj) as (k1 & y & k2 & F & HK & FF).
      rewrite EE, FF in HP.
      assert (Hx : ~ In x (l1 ++ l2)) by (rewrite E in HN; apply NoDup_remove_2 in HN; exact HN). apply Hx.
      apply Permutation_in with (k1 ++ k2); [symmetry; exact HP|].
      assert (Hin : In x (k1 ++ y :: k2)) by (rewrite <- F, E; apply in_app_iff; right; left; reflexivity).
      apply in_app_iff in Hin. apply in_app_iff. destruct Hin as [Hin|[Hin|Hin]]; [left; exact Hin| |right; exact Hin]. exfalso.
      subst y. assert (Ei : nth_error cur i = Some x) by (rewrite E, nth_error_app2 by lia; rewrite HL, Nat.sub_diag; reflexivity).
      assert (Ej : nth_error cur j = Some x) by (rewrite F, nth_error_app2 by lia; rewrite HK, Nat.sub_diag; reflexivity).
      apply Hij. rewrite NoDup_nth_error in HN. apply HN; [exact Bi|congruence]. }
    apply G; [apply seq_NoDup|]. intros i Hi. apply in_seq in Hi. lia.
  - intros c Hc. apply erase_in in Hc. destruct Hc as (l1 & x & l2 & -> & ->). rewrite !app_length. simpl. lia.
Qed.
Lemma NoDup_app_iff_local {A} (l l' : list A) : NoDup l -> NoDup l' -> (forall x, In x l -> In x l' -> False) -> NoDup (l ++ l').
Proof.
  induction 1 as [|x l Hx H IH]; intros H' HX; simpl; [exact H'|]. constructor.
  - rewrite in_app_iff. intros [C|C]; [contradiction|]. exact (HX x (or_introl eq_refl) C).
  - apply IH; [exact H'|]. intros y Hy. apply HX. right. exact Hy.
Qed.
Section Once.
  Context {E : Type} (eval : fset -> res E) (better : E -> E -> res bool).
  Notation loop := (sel_loop eval better).
  (** [2 * log <= ...] tracks the number of evaluations *)
  Lemma forward_loop n fuel st st' : inv eval n st -> distinct_sets (processed st) ->
    (forall s, In s (processed st) -> length s <= length (best st)) ->
    2 * length (log st) + (Z.to_nat n - length (best st)) * S (Z.to_nat n - length (best st)) <= Z.to_nat n * S (Z.to_nat n) ->
    loop fuel SForward n st = Ok st' -> distinct_sets (processed st') /\ 2 * length (log st') <= Z.to_nat n * S (Z.to_nat n).
  Proof.
    revert st. induction fuel as [|fuel IH]; intros st HI HD HLen HQ H; cbn [sel_loop] in H; [discriminate|]. apply bind_ok in H. destruct H as (st1 & H1 & H).
    assert (HI1 : inv eval n st1) by (eapply round_keeps; eassumption).
    destruct (round_candidates _ _ _ _ _ _ HI H1) as (cs & Ec & _ & _ & Hfold). simpl in Ec. injection Ec as <-.
    destruct (forward_distinct (best st) n) as [FD FL].
    assert (HX : forall s t, In s (processed st) -> In t (forward [] (best st) n) -> ~ Permutation s t).
    { intros s t Hs Ht HP. apply Permutation_length in HP. specialize (HLen s Hs). specialize (FL t Ht). lia. }
    pose proof (round_facts _ _ _ _ _ Hfold) as (_ & _ & _ & _ & _ & _ & R7). cbn [log] in R7.
    assert (HC : length (forward [] (best st) n) + length (best st) <= Z.to_nat n).
    { rewrite forward_eq. simpl. rewrite map_length. destruct HI as [_ HV _ HB _]. rewrite Forall_forall in HV. destruct (HV _ HB) as [BN BF].
      rewrite <- app_length, <- zrange_length. apply NoDup_incl_length.
      - apply NoDup_app_iff_local; [apply NoDup_filter, zrange_nodup|exact BN|]. intros i Hi Hb. apply filter_In in Hi. destruct Hi as [_ Hi].
        apply fs_contains_in in Hb. rewrite Hb in Hi. discriminate.
      - intros i Hi. apply in_app_iff in Hi. destruct Hi as [Hi|Hi]; [apply filter_In in Hi; tauto|]. apply zrange_in. rewrite Forall_forall in BF. apply BF, Hi. }
    apply fold_fresh in Hfold; [|apply distinct_sets_nodup; exact FD|intros c Hc Hp; cbn [processed] in Hp; exact (HX c c Hp Hc (Permutation_refl _))].
    cbn [processed best found] in Hfold. destruct Hfold as (P1 & P2 & P3).
    assert (HD1 : distinct_sets (processed st1)) by (rewrite P1; apply distinct_sets_app; assumption).
    destruct (found st1) eqn:Ef.
    - specialize (P3 eq_refl eq_refl). pose proof (FL _ P3) as HL1. apply (IH st1 HI1 HD1); [| |exact H].
      + intros s Hs. rewrite P1, in_app_iff in Hs. destruct Hs as [Hs|Hs]; [specialize (HLen s Hs); lia|rewrite (FL s Hs); lia].
      + rewrite HL1. set (N := Z.to_nat n) in *. set (k := length (best st)) in *. nia.
    - injection H as <-. split; [exact HD1|]. set (N := Z.to_nat n) in *. set (k := length (best st)) in *. nia.
  Qed.
  Lemma backward_loop n fuel st st' : inv eval n st -> distinct_sets (processed st) ->
    (forall s, In s (processed st) -> length (best st) <= length s) ->
    2 * length (log st) + length (best st) * S (length (best st)) <= 2 + Z.to_nat n * S (Z.to_nat n) ->
    loop fuel SBackward n st = Ok st' -> distinct_sets (processed st') /\ 2 * length (log st') <= 2 + Z.to_nat n * S (Z.to_nat n).
  Proof.
    revert st. induction fuel as [|fuel IH]; intros st HI HD HLen HQ H; cbn [sel_loop] in H; [discriminate|]. apply bind_ok in H. destruct H as (st1 & H1 & H).
    assert (HI1 : inv eval n st1) by (eapply round_keeps; eassumption).
    destruct (round_candidates _ _ _ _ _ _ HI H1) as (cs & Ec & _ & _ & Hfold). simpl in Ec. rewrite backward_eq in Ec. simpl in Ec. injection Ec as <-.
    assert (HBN : NoDup (best st)) by (destruct HI as [_ HV _ HB _]; rewrite Forall_forall in HV; apply (HV _ HB)).
    destruct (backward_distinct (best st) HBN) as [FD FL].
    assert (HX : forall s t, In s (processed st) -> In t (map (erase_nth (best st)) (seq 0 (length (best st)))) -> ~ Permutation s t).
    { intros s t Hs Ht HP. apply Permutation_length in HP. specialize (HLen s Hs). specialize (FL t Ht). lia. }
    pose proof (round_facts _ _ _ _ _ Hfold) as (_ & _ & _ & _ & _ & _ & R7). cbn [log] in R7. rewrite map_length, seq_length in R7.
    apply fold_fresh in Hfold; [|apply distinct_sets_nodup; exact FD|intros c Hc Hp; cbn [processed] in Hp; exact (HX c c Hp Hc (Permutation_refl _))].
    cbn [processed best found] in Hfold. destruct Hfold as (P1 & P2 & P3).
    assert (HD1 : distinct_sets (processed st1)) by (rewrite P1; apply distinct_sets_app; assumption).
    destruct (found st1) eqn:Ef.
    - specialize (P3 eq_refl eq_refl). pose proof (FL _ P3) as HL1. apply (IH st1 HI1 HD1); [| |exact H].
      + intros s Hs. rewrite P1, in_app_iff in Hs. destruct Hs as [Hs|Hs]; [specialize (HLen s Hs); lia|specialize (FL s Hs); lia].
      + rewrite <- HL1 in *. nia.
    - injection H as <-. split; [exact HD1|]. nia.
  Qed.
End Once.
