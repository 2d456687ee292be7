(** Using normalised data: proofs. *)
From Coq Require Import String ZArith QArith Qreals Reals Bool Lia Lqa Lra Permutation Arith List.
From Verif Require Import Base Spec BaseLemmas DblLemmas AttrModel InstanceListModel StatModel ListSpec StatSpec ListProofs CovProofs CovAllProofs PerformanceProofs FilterModel FilterSpec FilterProofs NormProofs FilterProps InvSpec NormUseSpec.
Import ListNotations.
Local Open Scope string_scope.
Local Open Scope list_scope.
Local Open Scope nat_scope.

Lemma constant_dec qs : 1 <= length qs -> constant qs \/ ~ constant qs.
Proof. intros L. destruct (Qeq_dec (sqdev qs) 0) as [H|H]; [left|right]; [exact (proj1 (sqdev_zero qs L) H)|intros C; apply H, (proj2 (sqdev_zero qs L)), C]. Qed.
Lemma finite_choice {A} (P : nat -> A -> Prop) (a0 : A) n : (forall i, i < n -> exists a, P i a) -> exists u, forall i, i < n -> P i (u i).
Proof.
  induction n as [|n IH]; intros H; [exists (fun _ => a0); lia|]. destruct IH as (u & Hu); [intros i Hi; apply H; lia|]. destruct (H n) as (a & Ha); [lia|].
  exists (fun i => if Nat.eqb i n then a else u i). intros i Hi. destruct (Nat.eqb_spec i n) as [->|]; [exact Ha|]. apply Hu. lia.
Qed.
(** what two rows with the numbers [q] and [q'] in a column have to do with each other *)
Definition shifted (m : Q) (s : R) (q q' : Q) : Prop := Q2R q' = (Q2R (q + - m) / s)%R.
Section Use.
  Context (ks : list bool) (l l' : ilist) (HK : number_columns ks l) (HL : 2 <= length l) (HN : normalised l l').
  Lemma kept_column : Forall2 (fun x z => label z = label x /\ composite z = composite x /\ length (attrs z) = length (attrs x) /\
    forall i a, nth_error ks i = Some false -> nth_error (attrs x) i = Some a -> nth_error (attrs z) i = Some a) l l'.
  Proof.
    destruct HN as (r & Er & Hs). destruct (C44_normalize ks l HK HL) as (r' & Er' & F & _). rewrite Er in Er'. injection Er' as <-.
    clear -F Hs. revert l' Hs. induction F as [|x y l r (E1 & E2 & E3 & E4) F IH]; intros l' Hs; inversion Hs as [|? z ? l1 (S1 & S2 & S3) Hs']; subst; constructor; [|apply IH, Hs'].
    split; [congruence|]. split; [congruence|]. split; [rewrite <- E3; symmetry; eapply Forall2_len, S3|]. intros i a Hk Ha. pose proof (E4 i a Hk Ha) as Hy. unfold nfeature in Hy.
    destruct (nth_error (attrs z) i) as [b|] eqn:Eb.
    - pose proof (Forall2_nth _ _ _ i _ b S3 Hy Eb) as Hb. cbn in Hb. rewrite Hb. reflexivity.
    - apply nth_error_None in Eb. assert (i < length (snd (fst y))) by (apply nth_error_Some; congruence). rewrite (Forall2_len _ _ _ S3) in H. lia.
  Qed.
  Lemma length_same : length l' = length l.
  Proof. symmetry. exact (Forall2_len _ _ _ kept_column). Qed.
  Lemma moved_column i qs : nth_error ks i = Some true -> num_column (Z.of_nat i) l (map Fin qs) ->
    ~ constant qs /\ exists s qs', (0 < s)%R /\ num_column (Z.of_nat i) l' (map Fin qs') /\ Forall2 (shifted (qmean qs) s) qs qs' /\
      rsum (map Q2R qs') = 0%R /\ rsum (map (fun q => Q2R q * Q2R q)%R qs') = INR (length l - 1).
  Proof.
    intros Hk Hq. destruct HN as (r & Er & Hs). destruct (C44_normalize ks l HK HL) as (r' & Er' & _ & F). rewrite Er in Er'. injection Er' as <-.
    destruct (F i qs Hk Hq) as (F1 & F2). pose proof (num_column_length _ _ _ Hq) as Lq.
    assert (NC : ~ constant qs).
    { intros C. specialize (F1 C). assert (Lr : length r = length l) by (rewrite (Forall2_len _ _ _ Hs); exact length_same).
      destruct r as [|y r0]; [cbn in Lr; lia|]. inversion F1 as [|? ? Fy _]; subst. inversion Hs as [|? z ? l1 (_ & _ & S3) _]; subst. unfold nfeature in Fy.
      destruct (nth_error (attrs z) i) as [b|] eqn:Eb.
      - exact (Forall2_nth _ _ _ i _ b S3 Fy Eb).
      - apply nth_error_None in Eb. assert (i < length (snd (fst y))) by (apply nth_error_Some; congruence). rewrite (Forall2_len _ _ _ S3) in H. lia. }
    split; [exact NC|]. destruct (F2 NC) as (s & rs & Ps & Ers & Fr & Z1 & Z2).
    assert (G : exists qs', num_column (Z.of_nat i) l' (map Fin qs') /\ map Q2R qs' = rs).
    { clear -Fr Hs. revert l' Hs. induction Fr as [|y v r rs Hv Fr IH]; intros l' Hs; inversion Hs as [|? z ? l1 (_ & _ & S3) Hs']; subst; [exists []; split; [constructor|reflexivity]|].
      destruct (IH l1 Hs') as (qs' & Hq & Em). unfold nfeature in Hv. destruct (nth_error (attrs z) i) as [b|] eqn:Eb.
      - destruct (Forall2_nth _ _ _ i _ b S3 Hv Eb) as (q & -> & Ev). exists (q :: qs'). split; [|cbn; congruence]. constructor; [apply feature_nth, Eb|exact Hq].
      - apply nth_error_None in Eb. assert (i < length (snd (fst y))) by (apply nth_error_Some; congruence). rewrite (Forall2_len _ _ _ S3) in H. lia. }
    destruct G as (qs' & Hq' & Em). exists s, qs'. split; [exact Ps|]. split; [exact Hq'|]. split; [|split].
    - rewrite Ers in Em. clear -Em. generalize dependent (qmean qs). intros m Em. revert qs' Em. induction qs as [|q qs IH]; intros [|q' qs'] Em; try discriminate; constructor; [|apply IH]; injection Em; auto.
    - rewrite Em. exact Z1.
    - rewrite <- Z2, <- Em, map_map. reflexivity.
  Qed.
  Lemma number_again : number_columns ks l'.
  Proof.
    apply Forall_forall. intros z Hz. apply In_nth_error in Hz as (j & Hj). assert (Hjl : j < length l) by (rewrite <- length_same; apply nth_error_Some; congruence).
    destruct (nth_error l j) as [x|] eqn:Hx; [|apply nth_error_None in Hx; lia]. destruct (Forall2_nth _ _ _ j x z kept_column Hx Hj) as (_ & _ & Le & Ke).
    assert (Lz : length ks = length (attrs z)) by (rewrite Le; symmetry; eapply numeric_len; [exact HK|eapply nth_error_In, Hx]).
    assert (Q : forall i k a, nth_error ks i = Some k -> nth_error (attrs z) i = Some a -> if k then exists q, a = ACont (Fin q) else forall v, a <> ACont v).
    { intros i k a Hk Ha. destruct k.
      - destruct (numeric_column ks l i HK Hk) as (qs & Hq). destruct (moved_column i qs Hk Hq) as (_ & s & qs' & _ & Hq' & _).
        pose proof (num_column_length _ _ _ Hq') as Lq. destruct (nth_error qs' j) as [q|] eqn:Eq; [|apply nth_error_None in Eq; rewrite length_same in Lq; lia].
        assert (Ef : nth_error (map Fin qs') j = Some (Fin q)) by (rewrite nth_error_map, Eq; reflexivity).
        pose proof (Forall2_nth _ _ _ j _ _ Hq' Hj Ef) as (_ & N). rewrite Nat2Z.id in N. rewrite Ha in N. injection N as ->. exists q. reflexivity.
      - assert (Hi : i < length ks) by (apply nth_error_Some; congruence). destruct (numeric_get ks l x i HK (nth_error_In _ _ Hx) Hi) as (b & Eb).
        pose proof (Ke i b Hk Eb) as Ez. rewrite Ha in Ez. injection Ez as ->. exact (numeric_nth ks l x i false b HK (nth_error_In _ _ Hx) Hk Eb). }
    clear -Lz Q. revert Lz Q. generalize (attrs z). induction ks as [|k ks' IH]; intros [|a az] L Q; try discriminate; constructor; [exact (Q 0 k a eq_refl eq_refl)|].
    apply IH; [now injection L|]. intros i. exact (Q (S i)).
  Qed.
  (** it is a change of units *)
  Lemma units_of i : i < length ks -> exists f : Q * Q, (0 < fst f)%Q /\ forall j x z a b, nth_error l j = Some x -> nth_error l' j = Some z -> nth_error (attrs x) i = Some a -> nth_error (attrs z) i = Some b -> converted f a b.
  Proof.
    intros Hi. destruct (nth_error ks i) as [k|] eqn:Hk; [|apply nth_error_None in Hk; lia]. destruct k.
    - destruct (numeric_column ks l i HK Hk) as (qs & Hq). destruct (moved_column i qs Hk Hq) as (NC & s & qs' & Ps & Hq' & Sh & _). pose proof (num_column_length _ _ _ Hq) as Lq.
      set (m := qmean qs) in *.
      assert (EX : exists q, In q qs /\ ~ (q + - m == 0)%Q).
      { destruct (existsb (fun q => negb (Qeq_bool (q + - m) 0)) qs) eqn:Ex.
        - apply existsb_exists in Ex as (q & Hin & Hb). exists q. split; [exact Hin|]. intros Z. apply Qeq_bool_iff in Z. rewrite Z in Hb. discriminate.
        - exfalso. apply NC. intros p q Hp Hq0. assert (Z : forall q, In q qs -> (q == m)%Q).
          { intros q1 Hq1. destruct (Qeq_bool (q1 + - m) 0) eqn:Eb; [apply Qeq_bool_iff in Eb; Lqa.lra|]. exfalso. assert (existsb (fun q => negb (Qeq_bool (q + - m) 0)) qs = true) by (apply existsb_exists; exists q1; split; [exact Hq1|rewrite Eb; reflexivity]). congruence. }
          rewrite (Z p Hp), (Z q Hq0). reflexivity. }
      destruct EX as (q0 & Hq0 & N0). apply In_nth_error in Hq0 as (j0 & Hj0). destruct (nth_error qs' j0) as [q0'|] eqn:Hj0'.
      2:{ apply nth_error_None in Hj0'. rewrite <- (Forall2_len _ _ _ Sh) in Hj0'. assert (j0 < length qs) by (apply nth_error_Some; congruence). lia. }
      pose proof (Forall2_nth _ _ _ j0 q0 q0' Sh Hj0 Hj0') as S0. unfold shifted in S0.
      set (a := (q0' / (q0 + - m))%Q). assert (N0' : Q2R (q0 + - m) <> 0%R) by (intros Z; apply N0, eqR_Qeq; rewrite Z; unfold Q2R; cbn; lra).
      assert (Ea : Q2R a = (/ s)%R).
      { unfold a. rewrite Q2R_div by exact N0. rewrite S0. field. split; [lra|exact N0']. }
      exists (a, (- (a * m))%Q). cbn [fst snd]. split.
      + apply Rlt_Qlt. rewrite Ea. replace (Q2R 0) with 0%R by (unfold Q2R; cbn; lra). apply Rinv_0_lt_compat, Ps.
      + intros j x z c b Hx Hz Hc Hb. assert (Hjq : j < length qs) by (rewrite Lq; apply nth_error_Some; congruence). destruct (nth_error qs j) as [q|] eqn:Eq; [|apply nth_error_None in Eq; lia].
        destruct (nth_error qs' j) as [q'|] eqn:Eq'; [|apply nth_error_None in Eq'; rewrite <- (Forall2_len _ _ _ Sh) in Eq'; lia].
        assert (Ef : nth_error (map Fin qs) j = Some (Fin q)) by (rewrite nth_error_map, Eq; reflexivity). assert (Ef' : nth_error (map Fin qs') j = Some (Fin q')) by (rewrite nth_error_map, Eq'; reflexivity).
        pose proof (Forall2_nth _ _ _ j _ _ Hq Hx Ef) as (_ & Nx). pose proof (Forall2_nth _ _ _ j _ _ Hq' Hz Ef') as (_ & Nz). rewrite Nat2Z.id in Nx, Nz. rewrite Hc in Nx. rewrite Hb in Nz. injection Nx as ->. injection Nz as ->.
        cbn [converted fst snd]. pose proof (Forall2_nth _ _ _ j q q' Sh Eq Eq') as Sj. unfold shifted in Sj. apply eqR_Qeq. rewrite Sj. rewrite (Qeq_eqR (a * q + - (a * m)) (a * (q + - m))) by ring. rewrite Q2R_mult, Ea. unfold Rdiv. ring.
    - exists (1%Q, 0%Q). split; [reflexivity|]. intros j x z a b Hx Hz Ha Hb. destruct (Forall2_nth _ _ _ j x z kept_column Hx Hz) as (_ & _ & _ & Ke). rewrite (Ke i a Hk Ha) in Hb. injection Hb as ->.
      pose proof (numeric_nth ks l x i false b HK (nth_error_In _ _ Hx) Hk Ha) as Nb. unfold converted. destruct b; try reflexivity. exfalso. eapply Nb. reflexivity.
  Qed.
  Lemma rescales : exists u, increasing u /\ Forall2 (rescaled u) l l'.
  Proof.
    destruct (finite_choice _ (1%Q, 0%Q) (length ks) units_of) as (u & Hu). exists (fun i => if i <? length ks then u i else (1%Q, 0%Q)). split.
    - intros i. destruct (Nat.ltb_spec i (length ks)) as [Hi|]; [exact (proj1 (Hu i Hi))|reflexivity].
    - assert (G : forall j x z, nth_error l j = Some x -> nth_error l' j = Some z -> rescaled (fun i => if i <? length ks then u i else (1%Q, 0%Q)) x z).
      { intros j x z Hx Hz. destruct (Forall2_nth _ _ _ j x z kept_column Hx Hz) as (E1 & E2 & E3 & _). split; [auto|]. split; [auto|]. split; [auto|]. intros i a b Ha Hb.
        assert (Hi : i < length ks) by (rewrite <- (numeric_len ks l x HK (nth_error_In _ _ Hx)); apply nth_error_Some; congruence). rewrite (proj2 (Nat.ltb_lt _ _) Hi). exact (proj2 (Hu i Hi) j x z a b Hx Hz Ha Hb). }
      pose proof length_same as Le. revert Le G. generalize (fun i => if i <? length ks then u i else (1%Q, 0%Q)). clear. intros v. revert l'. induction l as [|x l0 IH]; intros [|z l1] Le G; try discriminate; constructor; [exact (G 0 x z eq_refl eq_refl)|].
      apply IH; [now injection Le|]. intros j. exact (G (S j)).
  Qed.
End Use.

Lemma nconv f a b : converted f a b -> (exists q, a = ACont (Fin q)) -> exists q, b = ACont (Fin q).
Proof. intros H (q & ->). cbn in H. destruct b as [| | |[w| | |]]; try discriminate H. exists w. reflexivity. Qed.
(** the units of the data do not matter *)
Section Units.
  Context (u : units) (ks : list bool) (l l' : ilist) (HK : number_columns ks l) (HL : 2 <= length l) (Hu : increasing u) (HR : Forall2 (rescaled u) l l').
  Lemma units_len : length l' = length l.
  Proof. symmetry. exact (Forall2_len _ _ _ HR). Qed.
  Lemma units_number : number_columns ks l'.
  Proof.
    unfold number_columns in *. clear HL. unfold ilist in *. induction HR as [|x z l l' (_ & _ & Le & C) HR' IH]; [constructor|]. inversion HK as [|? ? Kx K']; subst. constructor; [|apply IH; assumption].
    clear -Kx Le C. revert Kx Le C. generalize (attrs x) (attrs z). intros xs zs Kx. revert u zs. induction Kx as [|k a ks xs Ka Kx IH]; intros u [|b zs] Le C; try discriminate; constructor.
    - pose proof (C 0 a b eq_refl eq_refl) as Cab. destruct k; [exact (nconv _ _ _ Cab Ka)|]. intros v ->. destruct a as [| | |w]; cbn in Cab; try discriminate Cab. exact (Ka w eq_refl).
    - apply (IH (fun i => u (S i))); [now injection Le|]. intros i. exact (C (S i)).
  Qed.
  Lemma units_column i qs qs' : num_column (Z.of_nat i) l (map Fin qs) -> num_column (Z.of_nat i) l' (map Fin qs') -> Forall2 (fun q q' => q' == fst (u i) * q + snd (u i))%Q qs qs'.
  Proof.
    clear HK HL. revert qs qs'. unfold ilist in *. induction HR as [|x z l l' (_ & _ & _ & C) HR' IH]; intros [|q qs] [|q' qs'] H H'; inversion H as [|? ? ? ? (_ & Hx) H1]; subst; inversion H' as [|? ? ? ? (_ & Hz) H1']; subst; constructor; [|apply IH; assumption].
    rewrite Nat2Z.id in Hx, Hz. exact (C i _ _ Hx Hz).
  Qed.
  Lemma affine_mean a b qs qs' : 1 <= length qs -> Forall2 (fun q q' => q' == a * q + b)%Q qs qs' -> (qmean qs' == a * qmean qs + b)%Q.
  Proof.
    intros L F. unfold qmean. rewrite <- (Forall2_len _ _ _ F). assert (E : (qsum qs' == a * qsum qs + b * qofn (length qs))%Q).
    { clear L. induction F as [|q q' qs qs' H F IH]; [cbn; unfold qofn; cbn; ring|]. cbn [qsum length fold_right]. change (fold_right Qplus 0%Q qs') with (qsum qs'). change (fold_right Qplus 0%Q qs) with (qsum qs). rewrite H, IH, qofn_S. ring. }
    rewrite E. field. apply qofn_neq0. lia.
  Qed.
  Lemma same_values i qs qs' s s' : num_column (Z.of_nat i) l (map Fin qs) -> num_column (Z.of_nat i) l' (map Fin qs') -> (0 < s)%R -> (0 < s')%R ->
    rsum (map (fun q => (Q2R (q + - qmean qs) / s) * (Q2R (q + - qmean qs) / s))%R qs) = INR (length l - 1) ->
    rsum (map (fun q => (Q2R (q + - qmean qs') / s') * (Q2R (q + - qmean qs') / s'))%R qs') = INR (length l - 1) ->
    map (fun q => Q2R (q + - qmean qs) / s)%R qs = map (fun q => Q2R (q + - qmean qs') / s')%R qs'.
  Proof.
    intros Hq Hq' Ps Ps' S S'. pose proof (units_column i qs qs' Hq Hq') as F. pose proof (num_column_length _ _ _ Hq) as Lq.
    assert (M : (qmean qs' == fst (u i) * qmean qs + snd (u i))%Q) by (apply affine_mean; [lia|exact F]).
    assert (P : (0 < INR (length l - 1))%R) by (apply lt_0_INR; lia). assert (Pa : (0 < Q2R (fst (u i)))%R) by (replace 0%R with (Q2R 0) by (unfold Q2R; cbn; lra); apply Qlt_Rlt, Hu).
    set (a := Q2R (fst (u i))) in *. set (D := fun q => Q2R (q + - qmean qs)). set (D' := fun q => Q2R (q + - qmean qs')).
    assert (FD : map D' qs' = map (fun q => a * D q)%R qs).
    { clear -F M. unfold D, D', a. revert M. generalize (qmean qs) (qmean qs'). intros m m' M. induction F as [|q q' qs qs' H F IH]; [reflexivity|]. cbn [map]. f_equal; [|exact IH].
      rewrite <- Q2R_mult. apply Qeq_eqR. rewrite H, M. ring. }
    assert (SD : (rsum (map (fun q => D q * D q)%R qs) = INR (length l - 1) * (s * s))%R).
    { rewrite <- S, <- rsum_scale. f_equal. apply map_ext. intros q. unfold D. field. lra. }
    assert (SD' : (rsum (map (fun v => v * v)%R (map D' qs')) = INR (length l - 1) * (s' * s'))%R).
    { rewrite map_map, <- S', <- rsum_scale. f_equal. apply map_ext. intros q. unfold D'. field. lra. }
    assert (E : (s' = a * s)%R).
    { rewrite FD, map_map in SD'. assert (T : (rsum (map (fun q => a * D q * (a * D q))%R qs) = INR (length l - 1) * (s * s) * (a * a))%R).
      { rewrite <- SD, <- rsum_scale. f_equal. apply map_ext. intros q. ring. }
      rewrite T in SD'. assert (Q : (s' * s' = (a * s) * (a * s))%R) by (apply (Rmult_eq_reg_l (INR (length l - 1))); lra). assert (0 < a * s)%R by (apply Rmult_lt_0_compat; lra). nra. }
    change (map (fun q => D q / s)%R qs = map (fun q => D' q / s')%R qs'). rewrite <- (map_map D' (fun v => v / s')%R), FD, map_map. apply map_ext. intros q. rewrite E. field. split; lra.
  Qed.
  Lemma units_constant i qs qs' : num_column (Z.of_nat i) l (map Fin qs) -> num_column (Z.of_nat i) l' (map Fin qs') -> constant qs <-> constant qs'.
  Proof.
    intros Hq Hq'. pose proof (units_column i qs qs' Hq Hq') as F. split; intros C p q Hp Hq0; apply In_nth_error in Hp as (j & Hj); apply In_nth_error in Hq0 as (k & Hk).
    - destruct (nth_error qs j) as [p0|] eqn:Ej; [|apply nth_error_None in Ej; rewrite (Forall2_len _ _ _ F) in Ej; apply nth_error_None in Ej; congruence].
      destruct (nth_error qs k) as [q0|] eqn:Ek; [|apply nth_error_None in Ek; rewrite (Forall2_len _ _ _ F) in Ek; apply nth_error_None in Ek; congruence].
      rewrite (Forall2_nth _ _ _ j _ _ F Ej Hj), (Forall2_nth _ _ _ k _ _ F Ek Hk), (C p0 q0) by (eapply nth_error_In; eassumption). reflexivity.
    - destruct (nth_error qs' j) as [p0|] eqn:Ej; [|apply nth_error_None in Ej; rewrite <- (Forall2_len _ _ _ F) in Ej; apply nth_error_None in Ej; congruence].
      destruct (nth_error qs' k) as [q0|] eqn:Ek; [|apply nth_error_None in Ek; rewrite <- (Forall2_len _ _ _ F) in Ek; apply nth_error_None in Ek; congruence].
      assert (E : (p0 == q0)%Q) by (apply C; eapply nth_error_In; eassumption). rewrite (Forall2_nth _ _ _ j _ _ F Hj Ej), (Forall2_nth _ _ _ k _ _ F Hk Ek) in E. pose proof (Hu i) as Pu.
      apply (Qmult_inj_l p q (fst (u i))); [intros Z; rewrite Z in Pu; exact (Qlt_irrefl 0 Pu)|]. apply (Qplus_inj_r _ _ (snd (u i))), E.
  Qed.
  Lemma units_same : normalize l' = normalize l.
  Proof.
    destruct (C44_normalize ks l HK HL) as (r & Er & F1 & F2). destruct (C44_normalize ks l' units_number) as (r' & Er' & F1' & F2'); [rewrite units_len; exact HL|].
    rewrite Er, Er'. f_equal. assert (Lr : length r' = length r) by (rewrite <- (Forall2_len _ _ _ F1), <- (Forall2_len _ _ _ F1'); exact units_len).
    assert (G : forall j y y', nth_error r j = Some y -> nth_error r' j = Some y' -> y' = y).
    { intros j y y' Hy Hy'. assert (Hj : j < length l) by (rewrite (Forall2_len _ _ _ F1); apply nth_error_Some; congruence). destruct (nth_error l j) as [x|] eqn:Hx; [|apply nth_error_None in Hx; lia].
      destruct (nth_error l' j) as [z|] eqn:Hz; [|apply nth_error_None in Hz; rewrite units_len in Hz; lia].
      destruct (Forall2_nth _ _ _ j _ _ F1 Hx Hy) as (E1 & E2 & E3 & E4). destruct (Forall2_nth _ _ _ j _ _ F1' Hz Hy') as (E1' & E2' & E3' & E4'). destruct (Forall2_nth _ _ _ j _ _ HR Hx Hz) as (R1 & R2 & R3 & R4).
      destruct y as ((c & bs) & o), y' as ((c' & bs') & o'). cbn [fst snd] in *. f_equal; [f_equal|]; [congruence| |congruence].
      assert (Lb : length bs' = length bs) by congruence. assert (Lk : length bs = length ks) by (rewrite E3; eapply numeric_len; [exact HK|eapply nth_error_In, Hx]).
      assert (H : forall i b b', nth_error bs i = Some b -> nth_error bs' i = Some b' -> b' = b).
      { intros i b b' Hb Hb'. assert (Hi : i < length ks) by (rewrite <- Lk; apply nth_error_Some; congruence). destruct (nth_error ks i) as [k|] eqn:Hk; [|apply nth_error_None in Hk; lia]. destruct k.
        - destruct (numeric_column ks l i HK Hk) as (qs & Hq). destruct (numeric_column ks l' i units_number Hk) as (qs' & Hq').
          destruct (F2 i qs Hk Hq) as (C1 & C2). destruct (F2' i qs' Hk Hq') as (C1' & C2'). pose proof (num_column_length _ _ _ Hq) as Lq. destruct (constant_dec qs ltac:(lia)) as [C|C].
          + pose proof (proj1 (Forall_forall _ _) (C1 C) _ (nth_error_In _ _ Hy)) as N. pose proof (proj1 (Forall_forall _ _) (C1' (proj1 (units_constant i qs qs' Hq Hq') C)) _ (nth_error_In _ _ Hy')) as N'.
            unfold nfeature in N, N'. cbn [fst snd] in N, N'. congruence.
          + assert (C' : ~ constant qs') by (intros C'; apply C, (proj2 (units_constant i qs qs' Hq Hq') C')).
            destruct (C2 C) as (s & rs & Ps & Ers & Fr & _ & S). destruct (C2' C') as (s' & rs' & Ps' & Ers' & Fr' & _ & S').
            assert (Eq : rs = rs'). { rewrite Ers, Ers'. rewrite Ers, map_map in S. rewrite Ers', map_map, units_len in S'. exact (same_values i qs qs' s s' Hq Hq' Ps Ps' S S'). }
            subst rs'. destruct (nth_error rs j) as [v|] eqn:Ev; [|apply nth_error_None in Ev; rewrite <- (Forall2_len _ _ _ Fr), <- (Forall2_len _ _ _ F1) in Ev; lia].
            pose proof (Forall2_nth _ _ _ j _ _ Fr Hy Ev) as N. rewrite <- Eq in Fr'. pose proof (Forall2_nth _ _ _ j _ _ Fr' Hy' Ev) as N'. unfold nfeature in N, N'. cbn [fst snd] in N, N'. congruence.
        - destruct (nth_error (attrs x) i) as [a|] eqn:Ha; [|apply nth_error_None in Ha; lia]. destruct (nth_error (attrs z) i) as [a'|] eqn:Ha'; [|apply nth_error_None in Ha'; lia].
          pose proof (E4 i a Hk Ha) as N. pose proof (E4' i a' Hk Ha') as N'. unfold nfeature in N, N'. cbn [fst snd] in N, N'. pose proof (R4 i a a' Ha Ha') as C.
          pose proof (numeric_nth ks l x i false a HK (nth_error_In _ _ Hx) Hk Ha) as Na. assert (a = a') by (destruct a; try exact C; exfalso; eapply Na; reflexivity). congruence. }
      revert Lb H. clear. revert bs. induction bs' as [|b' bs' IH]; intros [|b bs] L H; try discriminate; [reflexivity|]. f_equal; [exact (H 0 b b' eq_refl eq_refl)|]. apply IH; [now injection L|]. intros i. exact (H (S i)). }
    revert Lr G. clear. revert r. induction r' as [|y' r' IH]; intros [|y r] L G; try discriminate; [reflexivity|]. f_equal; [exact (G 0 y y' eq_refl eq_refl)|]. apply IH; [now injection L|]. intros j. exact (G (S j)).
  Qed.
End Units.
(** data whose standard deviations are rational *)
Lemma normalised_intro ks l l' : number_columns ks l -> number_columns ks l' -> 2 <= length l ->
  Forall2 (fun x z => label z = label x /\ composite z = composite x /\ forall i a, nth_error ks i = Some false -> nth_error (attrs x) i = Some a -> nth_error (attrs z) i = Some a) l l' ->
  (forall i qs qs', nth_error ks i = Some true -> num_column (Z.of_nat i) l (map Fin qs) -> num_column (Z.of_nat i) l' (map Fin qs') ->
    exists s, (0 < s)%Q /\ (qsum (map (fun q => (q + - qmean qs) * (q + - qmean qs)) qs) == qofn (length l - 1) * (s * s))%Q /\ Forall2 (fun q q' => s * q' == q + - qmean qs)%Q qs qs') ->
  normalised l l'.
Proof.
  intros HK HK' HL FK FC. destruct (C44_normalize ks l HK HL) as (r & Er & F1 & F2). exists r. split; [exact Er|].
  assert (Ll : length l' = length l) by (symmetry; exact (Forall2_len _ _ _ FK)). pose proof (Forall2_len _ _ _ F1) as Lr.
  assert (G : forall j y z, nth_error r j = Some y -> nth_error l' j = Some z -> stored y z).
  { intros j y z Hy Hz. assert (Hj : j < length l) by (rewrite Lr; apply nth_error_Some; congruence). destruct (nth_error l j) as [x|] eqn:Hx; [|apply nth_error_None in Hx; lia].
    destruct (Forall2_nth _ _ _ j _ _ F1 Hx Hy) as (E1 & E2 & E3 & E4). destruct (Forall2_nth _ _ _ j _ _ FK Hx Hz) as (K1 & K2 & K3). split; [congruence|]. split; [congruence|].
    assert (Lz : length (attrs z) = length ks) by (eapply numeric_len; [exact HK'|eapply nth_error_In, Hz]). assert (Lx : length (attrs x) = length ks) by (eapply numeric_len; [exact HK|eapply nth_error_In, Hx]).
    assert (H : forall i b a, nth_error (snd (fst y)) i = Some b -> nth_error (attrs z) i = Some a -> held b a).
    { intros i b a Hb Ha. assert (Hi : i < length ks) by (rewrite <- Lz; apply nth_error_Some; congruence). destruct (nth_error ks i) as [k|] eqn:Hk; [|apply nth_error_None in Hk; lia]. destruct k.
      - destruct (numeric_column ks l i HK Hk) as (qs & Hq). destruct (numeric_column ks l' i HK' Hk) as (qs' & Hq'). destruct (FC i qs qs' Hk Hq Hq') as (s & Ps & Es & Fs).
        pose proof (num_column_length _ _ _ Hq) as Lq. pose proof (num_column_length _ _ _ Hq') as Lq'. assert (P : (0 < INR (length l - 1))%R) by (apply lt_0_INR; lia).
        assert (Psr : (0 < Q2R s)%R) by (replace 0%R with (Q2R 0) by (unfold Q2R; cbn; lra); apply Qlt_Rlt, Ps).
        assert (ES : rsum (map (fun q => Q2R (q + - qmean qs) * Q2R (q + - qmean qs))%R qs) = (INR (length l - 1) * (Q2R s * Q2R s))%R).
        { rewrite <- Q2R_qofn, <- !Q2R_mult, <- (Qeq_eqR _ _ Es), Q2R_qsum, map_map. f_equal. apply map_ext. intros q. symmetry. apply Q2R_mult. }
        assert (NC : ~ constant qs).
        { intros C. assert (Z : (sqdev qs == 0)%Q) by (apply (proj2 (sqdev_zero qs ltac:(lia))), C). unfold sqdev in Z. assert (Z' : (qofn (length l - 1) * (s * s) == 0)%Q) by (rewrite <- Es, <- Z; apply qsum_ext; intros q _; ring).
          apply Qeq_eqR in Z'. rewrite !Q2R_mult, Q2R_qofn in Z'. replace (Q2R 0) with 0%R in Z' by (unfold Q2R; cbn; lra). assert (0 < INR (length l - 1) * (Q2R s * Q2R s))%R by (apply Rmult_lt_0_compat; [exact P|apply Rmult_lt_0_compat; exact Psr]). lra. }
        destruct (proj2 (F2 i qs Hk Hq) NC) as (t & rs & Pt & Ers & Fr & _ & S).
        assert (Et : t = Q2R s).
        { rewrite Ers, map_map in S. assert (T : (rsum (map (fun q => Q2R (q + - qmean qs) * Q2R (q + - qmean qs))%R qs) = INR (length l - 1) * (t * t))%R).
          { rewrite <- S, <- rsum_scale. f_equal. apply map_ext. intros q. field. lra. }
          rewrite ES in T. assert (Q : (t * t = Q2R s * Q2R s)%R) by (apply (Rmult_eq_reg_l (INR (length l - 1))); lra). nra. }
        destruct (nth_error qs j) as [q|] eqn:Eq; [|apply nth_error_None in Eq; lia]. destruct (nth_error qs' j) as [q'|] eqn:Eq'; [|apply nth_error_None in Eq'; lia].
        assert (Ef' : nth_error (map Fin qs') j = Some (Fin q')) by (rewrite nth_error_map, Eq'; reflexivity). pose proof (Forall2_nth _ _ _ j _ _ Hq' Hz Ef') as (_ & N'). rewrite Nat2Z.id in N'. rewrite Ha in N'. injection N' as ->.
        assert (Ev : nth_error rs j = Some (Q2R q')).
        { rewrite Ers, nth_error_map, Eq. cbn [option_map]. f_equal. rewrite <- (Qeq_eqR _ _ (Forall2_nth _ _ _ j _ _ Fs Eq Eq')), Q2R_mult, Et. field. lra. }
        pose proof (Forall2_nth _ _ _ j _ _ Fr Hy Ev) as N. unfold nfeature in N. rewrite Hb in N. injection N as ->. exists q'. split; reflexivity.
      - destruct (nth_error (attrs x) i) as [a0|] eqn:Ha0; [|apply nth_error_None in Ha0; lia]. pose proof (K3 i a0 Hk Ha0) as Ha'. rewrite Ha in Ha'. injection Ha' as ->. pose proof (E4 i a0 Hk Ha0) as N. unfold nfeature in N. rewrite Hb in N. injection N as ->. reflexivity. }
    assert (Le : length (snd (fst y)) = length (attrs z)) by congruence. revert Le H. generalize (snd (fst y)) (attrs z). clear. induction l as [|b bs IH]; intros [|a az] L H; try discriminate; constructor; [exact (H 0 b a eq_refl eq_refl)|].
    apply IH; [now injection L|]. intros i. exact (H (S i)). }
  assert (Le : length r = length l') by congruence. revert Le G. clear. revert l'. induction r as [|y r IH]; intros [|z l'] L G; try discriminate; constructor; [exact (G 0 y z eq_refl eq_refl)|]. apply IH; [now injection L|]. intros j. exact (G (S j)).
Qed.
