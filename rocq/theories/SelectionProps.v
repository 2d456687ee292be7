(** C37-C40: feature selection. *)
From Coq Require Import String ZArith QArith Bool Lia Permutation Arith List.
From Verif Require Import Base Spec BaseLemmas StatSpec PerformanceModel PerformanceSpec PerformanceProps SelectionModel SelectionSpec SelectionProofs.
Import ListNotations.
Local Open Scope list_scope.
Local Open Scope nat_scope.

(** scores by the set of features, used in the examples; [n = 3] *)
Definition has (i : Z) (s : list Z) : bool := existsb (Z.eqb i) s.
Definition ex_score (s : list Z) : nat :=
  match has 0 s, has 1 s, has 2 s with
  | true, false, false => 1 | false, true, false => 1 | false, false, true => 2
  | true, false, true => 3 | false, true, true => 0 | true, true, true => 4 | true, true, false => 5
  | false, false, false => 0
  end.
Definition ex_eval (s : list Z) : res nat := Ok (ex_score s).
Definition ex_better (a b : nat) : res bool := Ok (b <? a).
Example ex_comparable : comparable ex_eval ex_better.
Proof.
  repeat split; unfold ex_eval, ex_better.
  - intros s. eexists; reflexivity.
  - intros. eexists; reflexivity.
  - intros a b _ _ H. injection H as H. f_equal. apply Nat.ltb_lt in H. apply Nat.ltb_ge. lia.
  - intros a b c _ _ _ H H'. injection H as H. injection H' as H'. f_equal. apply Nat.ltb_ge in H, H'. apply Nat.ltb_ge. lia.
Qed.
(** experiments whose results have numeric accuracies are comparable by isBetter *)
Theorem C38_experiments_comparable : forall (run : list Z -> list perf) (accs : list Z -> list Q),
  (forall s, run s <> [] /\ Forall2 (fun p a => accuracy_of p = Ok (Fin a)) (run s) (accs s)) ->
  comparable (fun s => Ok (exp_of (run s))) exp_better.
Proof.
  intros run accs H.
  assert (HC : forall s, classification_results (run s)).
  { intros s. destruct (H s) as [Hn Hf]. split; [exact Hn|]. clear Hn. induction Hf as [|p a ps as_ Hp Hf IH]; constructor; [|exact IH]. destruct p; [discriminate|reflexivity|reflexivity]. }
  repeat split.
  - intros s. eexists; reflexivity.
  - intros a b [s Hs] [t Ht]. injection Hs as <-. injection Ht as <-. apply (C36_strict_order (run s) (run t) (run s)); apply HC.
  - intros a b [s Hs] [t Ht]. injection Hs as <-. injection Ht as <-. apply (C36_strict_order (run s) (run t) (run s)); apply HC.
  - intros a b c [s Hs] [t Ht] [u Hu]. injection Hs as <-. injection Ht as <-. injection Hu as <-.
    destruct (H s), (H t), (H u). eapply C36_negatively_transitive_partial; eassumption.
Qed.

(** * C37: one outcome, whatever the experiments return; it is reached with finitely many rounds *)
Theorem C37_terminates : forall E (eval : fset -> res E) better s n,
  (forall c, eval c <> Diverge) -> (forall a b, better a b <> Diverge) ->
  exists bound r, r <> Diverge /\ forall fuel, bound <= fuel -> sel_execute eval better fuel s (initial_of s n) n = r.
Proof.
  intros E eval better s n He Hb. exists (length (universe n)), (sel_execute eval better (length (universe n)) s (initial_of s n) n).
  unfold sel_execute. fold (start eval (initial_of s n)). destruct (start eval (initial_of s n)) as [st| | |] eqn:Es; cbn [bind].
  - assert (HI : inv eval n st) by (eapply start_inv; [exact better|apply initial_valid|exact Es]).
    assert (HL : length (universe n) < length (universe n) + length (processed st)).
    { destruct HI as [_ _ _ HB _]. destruct (processed st); [destruct HB|simpl; lia]. }
    split; [apply loop_terminates; assumption|]. intros fuel HF. apply loop_fuel; [apply loop_terminates; assumption|exact HF].
  - split; [discriminate|reflexivity].
  - split; [discriminate|reflexivity].
  - exfalso. unfold start in Es. destruct (initial_of s n) as [|i l]; [discriminate|]. specialize (He (i :: l)).
    destruct (eval (i :: l)); cbn [bind] in Es; congruence.
Qed.
(** number of evaluations of forward and backward selection *)
Theorem C37_quadratic : forall E (eval : fset -> res E) better s n fuel st, s <> SFloating ->
  sel_execute eval better fuel s (initial_of s n) n = Ok st ->
  2 * length (log st) <= 2 + Z.to_nat n * S (Z.to_nat n).
Proof.
  intros E eval better s n fuel st Hs H. unfold sel_execute in H. fold (start eval (initial_of s n)) in H. apply bind_ok in H.
  destruct H as (st0 & H0 & H). assert (HI : inv eval n st0) by (eapply start_inv; [exact better|apply initial_valid|exact H0]).
  destruct s; [| |congruence].
  - simpl in H0. injection H0 as <-. apply forward_loop in H; auto; [destruct H; lia|repeat constructor| |simpl; lia]. intros s [<-|[]]. simpl. lia.
  - assert (G : processed st0 = [initial_of SBackward n] /\ best st0 = initial_of SBackward n /\ length (log st0) <= 1).
    { unfold start in H0. destruct (initial_of SBackward n) as [|i l]; [injection H0 as <-; simpl; repeat split; lia|].
      apply bind_ok in H0. destruct H0 as (p & _ & H0). injection H0 as <-. simpl. repeat split; lia. }
    destruct G as (G1 & G2 & G3). apply backward_loop in H; auto.
    + tauto.
    + rewrite G1. repeat constructor.
    + rewrite G1, G2. intros s [<-|[]]. lia.
    + rewrite G2. simpl. unfold fs_all. rewrite zrange_length. lia.
Qed.
Example C37_case : exists st, sel_execute ex_eval ex_better 10 SFloating (initial_of SFloating 3) 3 = Ok st /\ best st = [0; 1]%Z.
Proof. eexists; split; vm_compute; reflexivity. Qed.
Print Assumptions C37_terminates.
Print Assumptions C37_quadratic.

(** * C38: nothing evaluated, and no (non-empty) neighbour of the result, is better than the result *)
Theorem C38_local_optimum : forall E (eval : fset -> res E) better s n fuel st, comparable eval better -> (0 < n)%Z ->
  sel_execute eval better fuel s (initial_of s n) n = Ok st ->
  exists p, best st <> [] /\ In (best st) (log st) /\ eval (best st) = Ok p /\
    Forall (fun c => exists e, eval c = Ok e /\ better e p = Ok false) (log st) /\
    (forall c, neighbour s n (best st) c -> c <> [] -> In c (log st) /\ exists e, eval c = Ok e /\ better e p = Ok false).
Proof.
  intros E eval better s n fuel st HC Hn H. unfold sel_execute in H. fold (start eval (initial_of s n)) in H. apply bind_ok in H.
  destruct H as (st0 & H0 & H). assert (HI0 : inv eval n st0) by (eapply start_inv; [exact better|apply initial_valid|exact H0]).
  assert (HD0 : dominated eval better st0).
  { unfold start in H0. destruct (initial_of s n) as [|i l]; [injection H0 as <-; split; [discriminate|constructor]|].
    apply bind_ok in H0. destruct H0 as (p & Hp & H0). injection H0 as <-. split; simpl.
    - intros q Hq. injection Hq as <-. eexists; exact Hp.
    - constructor; [|constructor]. exists p, p. split; [exact Hp|]. split; [reflexivity|]. apply (better_irrefl eval); [exact HC|eexists; exact Hp]. }
  pose proof (loop_inv _ _ _ _ _ _ _ HI0 H) as HI. pose proof (loop_dom _ _ _ _ _ _ _ HC HI0 HD0 H) as [_ HD].
  pose proof (loop_final _ _ _ _ _ _ _ HI0 H) as HF.
  assert (HNE : log st <> []).
  { intros HL. destruct HI as [_ HV IL HB HP]. rewrite HL in IL.
    assert (HE : forall c, In c (processed st) -> c = []).
    { intros c Hc. destruct c as [|i c]; [reflexivity|]. assert (Hin : In (i :: c) (filter nonempty (processed st))) by (apply filter_In; split; [exact Hc|reflexivity]).
      rewrite <- IL in Hin. destruct Hin. }
    assert (HB0 : best st = []) by (apply HE; exact HB). destruct s.
    - specialize (HF [0%Z]). apply HE in HF; [discriminate|]. simpl. exists 0%Z. rewrite HB0. split; [lia|]. split; [intros []|reflexivity].
    - unfold start in H0. destruct (initial_of SBackward n) as [|i l] eqn:Ei.
      + simpl in Ei. unfold fs_all in Ei. apply (f_equal (@length Z)) in Ei. rewrite zrange_length in Ei. simpl in Ei. lia.
      + apply bind_ok in H0. destruct H0 as (p & Hp & H0). injection H0 as <-.
        assert (HIn : forall fuel st st', sel_loop eval better fuel SBackward n st = Ok st' -> inv eval n st -> incl (processed st) (processed st')).
        { clear. induction fuel as [|fuel IH]; intros st st' H HI; cbn [sel_loop] in H; [discriminate|]. apply bind_ok in H. destruct H as (st1 & H1 & H).
          assert (HI1 : inv eval n st1) by (eapply round_keeps; eassumption). destruct (round_candidates _ _ _ _ _ _ HI H1) as (cs & _ & _ & _ & Hfold).
          apply round_facts in Hfold. destruct Hfold as (R1 & _). cbn [processed] in R1. destruct (found st1); [|injection H as <-; exact R1].
          eapply incl_tran; [exact R1|]. eapply IH; eassumption. }
        specialize (HIn _ _ _ H HI0 (i :: l)). simpl in HIn. specialize (HIn (or_introl eq_refl)). apply HE in HIn. discriminate.
    - specialize (HF [0%Z]). apply HE in HF; [discriminate|]. simpl. left. exists 0%Z. rewrite HB0. split; [lia|]. split; [intros []|reflexivity]. }
  destruct HI as [_ HV IL HB HP]. destruct (bestPerf st) as [p|] eqn:Ep; [|contradiction]. destruct HP as [HP HBl]. exists p.
  assert (HX : forall c, In c (log st) -> exists e, eval c = Ok e /\ better e p = Ok false).
  { intros c Hc. rewrite Forall_forall in HD. destruct (HD c Hc) as (e & q & E1 & E2 & E3). injection E2 as <-. exists e. auto. }
  split; [rewrite IL in HBl; apply filter_In in HBl; destruct HBl as [_ HBl]; destruct (best st); [discriminate|discriminate]|].
  split; [exact HBl|]. split; [exact HP|]. split; [apply Forall_forall; exact HX|].
  intros c Hc Hne. assert (Hl : In c (log st)) by (rewrite IL; apply filter_In; split; [apply HF; exact Hc|destruct c; [congruence|reflexivity]]).
  split; [exact Hl|apply HX; exact Hl].
Qed.
Example C38_case : exists st, sel_execute ex_eval ex_better 10 SForward (initial_of SForward 3) 3 = Ok st /\ best st = [2; 0; 1]%Z /\ length (log st) = 6.
Proof. eexists; split; [vm_compute; reflexivity|split; reflexivity]. Qed.
Print Assumptions C38_experiments_comparable.
Print Assumptions C38_local_optimum.

(** * C39 *)
Theorem C39_evaluated_lists : forall E (eval : fset -> res E) better s n fuel st,
  sel_execute eval better fuel s (initial_of s n) n = Ok st ->
  NoDup (log st) /\ Forall (fun c => c <> [] /\ feature_set n c) (log st).
Proof.
  intros E eval better s n fuel st H. unfold sel_execute in H. fold (start eval (initial_of s n)) in H. apply bind_ok in H.
  destruct H as (st0 & H0 & H). assert (HI0 : inv eval n st0) by (eapply start_inv; [exact better|apply initial_valid|exact H0]).
  pose proof (loop_inv _ _ _ _ _ _ _ HI0 H) as [HN HV IL _ _]. rewrite IL. split; [apply NoDup_filter; exact HN|].
  apply Forall_forall. intros c Hc. apply filter_In in Hc. destruct Hc as [Hc Hne]. rewrite Forall_forall in HV. split; [destruct c; discriminate|apply HV; exact Hc].
Qed.
(** forward and backward selection never evaluate the same set of features twice *)
Theorem C39_no_set_twice_partial : forall E (eval : fset -> res E) better s n fuel st, s <> SFloating ->
  sel_execute eval better fuel s (initial_of s n) n = Ok st -> distinct_sets (log st).
Proof.
  intros E eval better s n fuel st Hs H. unfold sel_execute in H. fold (start eval (initial_of s n)) in H. apply bind_ok in H.
  destruct H as (st0 & H0 & H). assert (HI : inv eval n st0) by (eapply start_inv; [exact better|apply initial_valid|exact H0]).
  pose proof (loop_inv _ _ _ _ _ _ _ HI H) as [_ _ IL _ _]. rewrite IL. apply distinct_sets_filter. destruct s; [| |congruence].
  - simpl in H0. injection H0 as <-. apply forward_loop in H; auto; [destruct H; assumption|repeat constructor| |simpl; lia]. intros s [<-|[]]. simpl. lia.
  - assert (G : processed st0 = [initial_of SBackward n] /\ best st0 = initial_of SBackward n /\ length (log st0) <= 1).
    { unfold start in H0. destruct (initial_of SBackward n) as [|i l]; [injection H0 as <-; simpl; repeat split; lia|].
      apply bind_ok in H0. destruct H0 as (p & _ & H0). injection H0 as <-. simpl. repeat split; lia. }
    destruct G as (G1 & G2 & G3). apply backward_loop in H; auto.
    + tauto.
    + rewrite G1. repeat constructor.
    + rewrite G1, G2. intros s [<-|[]]. lia.
    + rewrite G2. simpl. unfold fs_all. rewrite zrange_length. lia.
Qed.
(** floating selection does: the same three features are evaluated as [2;0;1] and as [0;1;2] *)
Theorem C39_floating_refuted : exists (eval : fset -> res nat) better n fuel st, comparable eval better /\
  (forall s t, Permutation s t -> eval s = eval t) /\
  sel_execute eval better fuel SFloating (initial_of SFloating n) n = Ok st /\ ~ distinct_sets (log st).
Proof.
  exists ex_eval, ex_better, 3%Z, 10. eexists. split; [apply ex_comparable|]. split; [|split; [vm_compute; reflexivity|]].
  - intros s t HP. unfold ex_eval, ex_score. f_equal. assert (HH : forall i, has i s = has i t).
    { intros i. unfold has. apply eq_true_iff_eq. rewrite !existsb_exists. split; intros (x & Hx & Ex); exists x; (split; [|exact Ex]); [eapply Permutation_in; eassumption|].
      eapply Permutation_in; [symmetry; exact HP|exact Hx]. }
    rewrite !HH. reflexivity.
  - intros HD. refine (distinct_sets_nth _ 5 7 [2; 0; 1]%Z [0; 1; 2]%Z HD eq_refl eq_refl _ (Permutation_cons_append [0; 1]%Z 2%Z)). lia.
Qed.
Example C39_case : exists st, sel_execute ex_eval ex_better 10 SBackward (initial_of SBackward 3) 3 = Ok st /\ log st = [[0; 1; 2]; [1; 2]; [0; 2]; [0; 1]; [1]; [0]]%Z.
Proof. eexists; split; vm_compute; reflexivity. Qed.
Print Assumptions C39_evaluated_lists.
Print Assumptions C39_no_set_twice_partial.
Print Assumptions C39_floating_refuted.

(** * C40 *)
Theorem C40_forward : forall cur n, NoDup (forward [] cur n) /\ (forall c, In c (forward [] cur n) <-> one_added n cur c).
Proof.
  intros cur n. split; [apply distinct_sets_nodup, forward_distinct|]. intros c. rewrite forward_in. simpl. tauto.
Qed.
Theorem C40_backward : forall cur, NoDup cur -> exists cs, backward [] cur = Ok cs /\ NoDup cs /\ length cs = length cur /\
  (forall c, In c cs <-> one_removed cur c).
Proof.
  intros cur HN. rewrite backward_eq. eexists; split; [reflexivity|]. simpl. split; [apply distinct_sets_nodup, backward_distinct; exact HN|].
  split; [rewrite map_length, seq_length; reflexivity|]. intros c. apply erase_in.
Qed.
(** both only append to the list they are given *)
Theorem C40_append : forall lst cur n, forward lst cur n = lst ++ forward [] cur n /\
  exists cs, backward [] cur = Ok cs /\ backward lst cur = Ok (lst ++ cs).
Proof. intros. rewrite !forward_eq, !backward_eq. split; [reflexivity|]. eexists; split; vm_compute; reflexivity. Qed.
Example C40_case : forward [] [2]%Z 4 = [[2;0]; [2;1]; [2;3]]%Z /\ backward [] [2;0;3]%Z = Ok [[0;3]; [2;3]; [2;0]]%Z.
Proof. split; reflexivity. Qed.
Print Assumptions C40_forward.
Print Assumptions C40_backward.
Print Assumptions C40_append.
