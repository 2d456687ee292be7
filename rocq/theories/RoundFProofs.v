(** Precision, recall and F measure in rounded arithmetic. *)
From Coq Require Import String ZArith QArith Qabs Bool Lia Lqa List Setoid Morphisms.
From Verif Require Import Base Spec BaseLemmas DblLemmas AttrModel InstanceListModel PerformanceModel PerformanceSpec PerformanceProofs RoundModel RoundSpec RoundPerfProofs.
Import ListNotations.
Local Open Scope list_scope.
Local Open Scope nat_scope.

Definition unit_or_nan (d : dbl) : Prop := d = NaN \/ dleb d0 d = true /\ dleb d d1 = true.
Section F.
  Context (R : dbl -> dbl) (HR : rounding R).
  Notation small n := (Z.of_nat n <= 2 ^ 53)%Z.
  #[local] Instance R_proper' : Proper (deq ==> deq) R. Proof. apply R_proper, HR. Qed.
  Lemma unit_deq a b : deq a b -> unit_or_nan b -> unit_or_nan a.
  Proof. intros E [->|[H1 H2]]; [left; destruct a; cbn in E; try contradiction; reflexivity|right; rewrite E; split; assumption]. Qed.
  Lemma unit_R d : unit_or_nan d -> unit_or_nan (R d).
  Proof.
    intros [->|[H1 H2]]; [left; apply (r_nan R HR)|right]. split; [rewrite <- (R_0 R HR)|rewrite <- (R_1 R HR)]; apply (r_mono R HR); assumption.
  Qed.
  Lemma unit_quot k n : k <= n -> small n -> unit_or_nan (rdiv R (dofnat k) (dofnat n)).
  Proof.
    intros K S. apply unit_R. destruct n as [|n].
    - assert (k = 0) as -> by lia. left. reflexivity.
    - right. assert (0 < qofn (Datatypes.S n))%Q as P by (apply qofn_pos; lia). rewrite !dofnat_fin, ddiv_fin by lra. split; apply dleb_fin.
      + apply quot_nonneg. lia.
      + apply Qle_shift_div_r; [exact P|]. assert (qofn k <= qofn (Datatypes.S n))%Q by (apply qofn_le; lia). lra.
  Qed.
  Lemma inverse_unit p : dleb d0 p = true -> dleb p d1 = true -> dleb d1 (rdiv R d1 p) = true.
  Proof.
    intros H0 H1. destruct p as [p| | |]; try discriminate. apply dleb_fin in H0, H1. unfold rdiv. rewrite <- (R_1 R HR) at 1. apply (r_mono R HR). unfold ddiv, d1.
    destruct (Qeq_bool p 0) eqn:E; [reflexivity|]. apply Qeq_bool_neq in E. apply dleb_fin. apply Qle_shift_div_l; lra.
  Qed.
  Lemma rdiv_nan a b : a = NaN \/ b = NaN -> rdiv R a b = NaN.
  Proof. intros [->| ->]; unfold rdiv; [|destruct a]; apply (r_nan R HR). Qed.
  Lemma radd_nan a b : a = NaN \/ b = NaN -> radd R a b = NaN.
  Proof. intros [->| ->]; unfold radd; [|destruct a]; apply (r_nan R HR). Qed.
  Lemma f_unit p r : unit_or_nan p -> unit_or_nan r -> unit_or_nan (rdiv R (Fin 2) (radd R (rdiv R d1 p) (rdiv R d1 r))).
  Proof.
    intros [->|[P0 P1]] Hr; [left; apply rdiv_nan; right; apply radd_nan; left; apply rdiv_nan; right; reflexivity|].
    destruct Hr as [->|[Q0 Q1]]; [left; apply rdiv_nan; right; apply radd_nan; right; apply rdiv_nan; right; reflexivity|].
    pose proof (inverse_unit p P0 P1) as A. pose proof (inverse_unit r Q0 Q1) as B. set (a := rdiv R d1 p) in *. set (b := rdiv R d1 r) in *. clearbody a b.
    assert (dleb (Fin 2) (radd R a b) = true) as C.
    { unfold radd. rewrite <- (R_2 R HR) at 1. apply (r_mono R HR). destruct a as [a| | |], b as [b| | |]; try discriminate; try reflexivity. apply dleb_fin in A, B. apply dleb_fin. lra. }
    set (c := radd R a b) in *. clearbody c. unfold rdiv. apply unit_R. destruct c as [c| | |]; try discriminate; [|right; split; reflexivity]. apply dleb_fin in C. rewrite ddiv_fin by lra.
    right. split; apply dleb_fin; [apply Qle_shift_div_l; lra|apply Qle_shift_div_r; lra].
  Qed.
  Lemma pair_predicted ps c : pair_count ps c c <= predicted_count ps c.
  Proof. unfold pair_count, predicted_count. induction ps as [|q ps IH]; cbn; [lia|]. destruct (String.eqb (fst q) c), (String.eqb (snd q) c); cbn; lia. Qed.
  Lemma pair_actual ps c : pair_count ps c c <= actual_count ps c.
  Proof. unfold pair_count, actual_count. induction ps as [|q ps IH]; cbn; [lia|]. destruct (String.eqb (fst q) c), (String.eqb (snd q) c); cbn; lia. Qed.
  Lemma unit_precision L ps d : small (length ps) -> In (Some d) (r_cm_precision R (classified L ps)) -> unit_or_nan d.
  Proof.
    intros S H. unfold r_cm_precision in H. apply in_map_iff in H as (c & E & _). rewrite rows_find in E. destruct (mem_str c (map fst ps)); [|discriminate E]. injection E as <-.
    assert (predicted_count ps c <= length ps) by apply filter_length_le'. pose proof (pair_predicted ps c).
    eapply unit_deq; [|apply (unit_quot (pair_count ps c c) (predicted_count ps c)); lia]. rewrite rowof_count. unfold rdiv. rewrite (r_column_exact R HR) by exact S. rewrite (rnat_exact R HR) by lia. reflexivity.
  Qed.
  Lemma unit_recall L ps d : small (length ps) -> In (Some d) (r_cm_recall R (classified L ps)) -> unit_or_nan d.
  Proof.
    intros S H. unfold r_cm_recall in H. apply in_map_iff in H as (c & E & _). rewrite rows_find in E. destruct (mem_str c (map fst ps)); [|discriminate E]. injection E as <-.
    assert (actual_count ps c <= length ps) by apply filter_length_le'. pose proof (pair_actual ps c).
    eapply unit_deq; [|apply (unit_quot (pair_count ps c c) (actual_count ps c)); lia]. rewrite rowof_count, rowof_sum. unfold rdiv. rewrite !(rnat_exact R HR) by lia. reflexivity.
  Qed.
  Lemma unit_fmeasure L ps fs : small (length ps) -> r_cm_fmeasure R (classified L ps) = Ok fs -> length fs = length L /\ Forall unit_or_nan fs.
  Proof.
    intros S H. unfold r_cm_fmeasure in H.
    assert (length (combine (r_cm_precision R (classified L ps)) (r_cm_recall R (classified L ps))) = length L) as Len.
    { unfold r_cm_precision, r_cm_recall. rewrite combine_length, !map_length, classified_labels. lia. }
    assert (forall p r, In (p, r) (combine (r_cm_precision R (classified L ps)) (r_cm_recall R (classified L ps))) -> In p (r_cm_precision R (classified L ps)) /\ In r (r_cm_recall R (classified L ps))) as HI.
    { intros p r Hi. split; [eapply in_combine_l|eapply in_combine_r]; exact Hi. }
    revert fs H Len HI. generalize (combine (r_cm_precision R (classified L ps)) (r_cm_recall R (classified L ps))) as prs. intros prs. generalize (length L) as n. 
    induction prs as [|[p r] prs IH]; intros n fs H Len HI; cbn [mapM] in H; [injection H as <-; split; [exact Len|constructor]|].
    cbn [fst snd] in H. destruct (HI p r (or_introl eq_refl)) as [Hp Hr]. destruct p as [p|]; cbn [initialised bind] in H; [|discriminate]. destruct r as [r|]; cbn [initialised bind] in H; [|discriminate].
    destruct (mapM _ prs) as [fs'| | |]; cbn [bind] in H; try discriminate. injection H as <-. destruct n as [|n]; [discriminate Len|]. injection Len as Len.
    destruct (IH n fs' eq_refl Len (fun p' r' Hi => HI p' r' (or_intror Hi))) as [L' F']. split; [cbn; rewrite L'; reflexivity|]. constructor; [|exact F'].
    apply f_unit; [eapply unit_precision|eapply unit_recall]; eassumption.
  Qed.
  (** ** The weighted mean *)
  Lemma weighted_step s n f k : (s = NaN \/ dleb d0 s = true /\ dleb s (dofnat n) = true) -> unit_or_nan f -> small (n + k) ->
    let t := radd R s (rmul R f (rnat R k)) in t = NaN \/ dleb d0 t = true /\ dleb t (dofnat (n + k)) = true.
  Proof.
    intros Hs Hf S. destruct Hs as [->|[S0 S1]]; [left; apply radd_nan; left; reflexivity|]. destruct Hf as [->|[F0 F1]].
    { left. apply radd_nan. right. unfold rmul. assert (deq (rnat R k) (dofnat k)) as E by (apply (rnat_exact R HR); lia). destruct (rnat R k); try contradiction. cbn [dmul dsgn]. apply (r_nan R HR). }
    right. unfold rmul. destruct f as [f| | |]; try discriminate. assert (deq (R (dmul (Fin f) (rnat R k))) (R (Fin (f * qofn k)))) as E.
    { apply (r_ext R HR). rewrite (rnat_exact R HR) by lia. reflexivity. }
    apply dleb_fin in F0, F1. pose proof (qofn_nonneg k) as K.
    assert (dleb d0 (R (Fin (f * qofn k))) = true) as G0 by (rewrite <- (R_0 R HR); apply (r_mono R HR), dleb_fin; nra).
    assert (dleb (R (Fin (f * qofn k))) (dofnat k) = true) as G1.
    { assert (deq (dofnat k) (R (dofnat k))) as -> by (symmetry; apply (rnat_exact R HR); lia). apply (r_mono R HR). rewrite dofnat_fin. apply dleb_fin. nra. }
    set (g := R (Fin (f * qofn k))) in *. clearbody g. destruct g as [g| | |]; try discriminate. destruct s as [s| | |]; try discriminate.
    assert (deq (radd R (Fin s) (R (dmul (Fin f) (rnat R k)))) (R (Fin (s + g)))) as -> by (unfold radd; apply (r_ext R HR); rewrite E; reflexivity).
    rewrite dofnat_fin in *. apply dleb_fin in S0, S1, G0, G1. split.
    - rewrite <- (R_0 R HR). apply (r_mono R HR), dleb_fin. lra.
    - assert (deq (dofnat (n + k)) (R (dofnat (n + k)))) as -> by (symmetry; apply (rnat_exact R HR); lia). apply (r_mono R HR). rewrite dofnat_fin. apply dleb_fin. rewrite qofn_plus. lra.
  Qed.
  Lemma weighted_fold_unit L0 ps : forall L fs n s t, small (n + list_sum (map (actual_count ps) L)) -> Forall unit_or_nan fs -> (s = NaN \/ dleb d0 s = true /\ dleb s (dofnat n) = true) ->
    foldM (fun s cf => match mfind (fst cf) (rows (classified L0 ps)) with
                       | Some r => Ok (radd R s (rmul R (snd cf) (rnat R (csum r)))) | None => UB EndDeref end) (combine L fs) s = Ok t ->
    t = NaN \/ dleb d0 t = true /\ dleb t (dofnat (n + list_sum (map (actual_count ps) L))) = true.
  Proof.
    induction L as [|c L IH]; intros [|f fs] n s t Sz F Hs H; cbn [combine foldM] in H.
    1-3: injection H as <-; destruct Hs as [->|[A B]]; [left; reflexivity|right; split; [exact A|]].
    1-3: destruct s as [s| | |]; try discriminate; rewrite dofnat_fin in *; apply dleb_fin in B; apply dleb_fin; rewrite qofn_plus; match goal with |- context [list_sum ?x] => pose proof (qofn_nonneg (list_sum x)) end; lra.
    cbn [fst snd] in H. rewrite rows_find in H. destruct (mem_str c (map fst ps)); cbn [bind] in H; [|discriminate]. inversion F as [|? ? Hf F']; subst.
    rewrite rowof_sum in H. change (list_sum (map (actual_count ps) (c :: L))) with (actual_count ps c + list_sum (map (actual_count ps) L)) in *. rewrite Nat.add_assoc in *.
    eapply IH; [exact Sz|exact F'| |exact H]. apply weighted_step; [exact Hs|exact Hf|lia].
  Qed.
  Lemma unit_weighted L ps w : ps <> [] -> NoDup L -> small (length ps) -> r_cm_weighted R (classified L ps) = Ok w -> unit_or_nan w.
  Proof.
    intros N HN S H. unfold r_cm_weighted in H. destruct (r_cm_fmeasure R (classified L ps)) as [fs| | |] eqn:E; cbn [bind] in H; try discriminate. destruct (unit_fmeasure L ps fs S E) as [_ F].
    assert (list_sum (map (actual_count ps) L) <= length ps) as B.
    { pose proof (actual_sum L ps HN) as Q. assert (forall ks : list string, (qsum (map (fun k => qofn (actual_count ps k)) ks) == qofn (list_sum (map (actual_count ps) ks)))%Q) as HQ.
      { induction ks as [|k ks IH]; [symmetry; apply qofn_0|]. cbn [map qsum fold_right list_sum]. change (list_sum (actual_count ps k :: map (actual_count ps) ks)) with (actual_count ps k + list_sum (map (actual_count ps) ks)). rewrite qofn_plus, <- IH. reflexivity. }
      rewrite HQ in Q. apply qofn_le. exact Q. }
    rewrite classified_labels in H. destruct (foldM _ _ d0) as [t| | |] eqn:Et; cbn [bind] in H; try discriminate. injection H as <-.
    destruct (weighted_fold_unit L ps L fs 0 d0 t ltac:(lia) F (or_intror (conj eq_refl eq_refl)) Et) as [->|[T0 T1]]; [left; apply rdiv_nan; left; reflexivity|]. cbn [plus] in T1.
    assert (0 < length ps) as P by (destruct ps; [contradiction|cbn; lia]). apply qofn_pos in P. apply qofn_le in B.
    destruct t as [t| | |]; try discriminate. rewrite dofnat_fin in T1. apply dleb_fin in T0, T1.
    eapply unit_deq; [unfold rdiv; apply (r_ext R HR); rewrite (r_sum_exact R HR) by exact S; rewrite dofnat_fin, ddiv_fin by lra; reflexivity|]. apply unit_R. right.
    split; apply dleb_fin; [apply Qle_shift_div_l; lra|apply Qle_shift_div_r; lra].
  Qed.
End F.
