(** binary64 is a rounding. *)
From Coq Require Import ZArith QArith Qabs Qround Qreduction Qpower Bool Lia Lqa List.
From Verif Require Import Base DblLemmas RoundModel RoundSpec.
Local Open Scope Q_scope.

(** * Powers of two *)
Lemma pow2_pos e : 0 < pow2 e.
Proof. destruct e as [|p|p]; cbn [pow2]; [reflexivity| |reflexivity]. unfold Qlt. cbn. pose proof (Z.pow_pos_nonneg 2 (Zpos p)). cbn in *. lia. Qed.
Lemma pow2_qpower e : pow2 e == (2#1) ^ e.
Proof.
  destruct e as [|p|p]; [reflexivity| |].
  - cbn [pow2]. rewrite <- (Zpower_Qpower 2 (Zpos p)) by lia. reflexivity.
  - cbn [pow2]. change (Zneg p) with (- Zpos p)%Z. rewrite Qpower_opp, <- (Zpower_Qpower 2 (Zpos p)) by lia.
    rewrite <- Pos2Z.inj_pow. reflexivity.
Qed.
Lemma pow2_add a b : pow2 (a + b) == pow2 a * pow2 b.
Proof. rewrite !pow2_qpower. apply Qpower_plus. discriminate. Qed.
Lemma pow2_inv e : pow2 (- e) * pow2 e == 1.
Proof. rewrite <- pow2_add. replace (- e + e)%Z with 0%Z by lia. reflexivity. Qed.
Lemma pow2_Z e : (0 <= e)%Z -> pow2 e == inject_Z (2 ^ e).
Proof. intros H. rewrite pow2_qpower. symmetry. apply (Zpower_Qpower 2 e H). Qed.
Lemma pow2_ge1 e : (0 <= e)%Z -> 1 <= pow2 e.
Proof. intros H. rewrite pow2_Z by exact H. change 1 with (inject_Z 1). rewrite <- Zle_Qle. pose proof (Z.pow_pos_nonneg 2 e). lia. Qed.
Lemma pow2_le a b : (a <= b)%Z -> pow2 a <= pow2 b.
Proof.
  intros H. replace b with (a + (b - a))%Z by lia. rewrite pow2_add. pose proof (pow2_ge1 (b - a) ltac:(lia)). pose proof (pow2_pos a). nra.
Qed.
Lemma pow2_succ e : pow2 (e + 1) == 2 * pow2 e.
Proof. rewrite pow2_add. change (pow2 1) with 2. ring. Qed.
Lemma pow2_lt_inv a b : pow2 a < pow2 b -> (a < b)%Z.
Proof. intros H. destruct (Z.lt_ge_cases a b) as [L|L]; [exact L|]. apply pow2_le in L. lra. Qed.
Lemma pow2_lt a b : (a < b)%Z -> pow2 a < pow2 b.
Proof. intros H. pose proof (pow2_le (a + 1) b ltac:(lia)) as L. rewrite pow2_succ in L. pose proof (pow2_pos a). lra. Qed.

(** * The nearest integer *)
Lemma qfloor_spec x : inject_Z (Qfloor x) <= x < inject_Z (Qfloor x) + 1.
Proof. split; [apply Qfloor_le|]. pose proof (Qlt_floor x) as H. rewrite inject_Z_plus in H. exact H. Qed.
Lemma qrne_comp x y : x == y -> qrne x = qrne y.
Proof. intros E. unfold qrne. rewrite (Qfloor_comp x y E). rewrite (qcompare_proper (x - inject_Z (Qfloor y)) (y - inject_Z (Qfloor y)) (1#2) (1#2)); [reflexivity|rewrite E; reflexivity|reflexivity]. Qed.
Lemma qrne_near x : Qabs (inject_Z (qrne x) - x) <= 1 # 2.
Proof.
  unfold qrne. pose proof (qfloor_spec x) as [H1 H2]. set (f := Qfloor x) in *. clearbody f. apply Qabs_Qle_condition.
  destruct (Qcompare_spec (x - inject_Z f) (1#2)); [destruct (Z.even f)|..]; rewrite ?inject_Z_plus; change (inject_Z 1) with 1; split; lra.
Qed.
Lemma inject_lt a b : inject_Z a < inject_Z b -> (a < b)%Z. Proof. rewrite <- Zlt_Qlt. auto. Qed.
Lemma inject_le a b : inject_Z a <= inject_Z b -> (a <= b)%Z. Proof. rewrite <- Zle_Qle. auto. Qed.
Lemma qrne_mono x y : x <= y -> (qrne x <= qrne y)%Z.
Proof.
  intros H. pose proof (qfloor_spec x) as [X1 X2]. pose proof (qfloor_spec y) as [Y1 Y2]. pose proof (Qfloor_resp_le x y H) as F.
  destruct (Z.eq_dec (Qfloor x) (Qfloor y)) as [E|N].
  - unfold qrne. rewrite E in *. set (f := Qfloor y) in *. clearbody f.
    destruct (Qcompare_spec (x - inject_Z f) (1#2)), (Qcompare_spec (y - inject_Z f) (1#2)); try (exfalso; lra); destruct (Z.even f); lia.
  - assert (qrne x <= Qfloor x + 1)%Z as A by (unfold qrne; destruct (_ ?= _); [destruct (Z.even _)|..]; lia).
    assert (Qfloor y <= qrne y)%Z as B by (unfold qrne; destruct (_ ?= _); [destruct (Z.even _)|..]; lia). lia.
Qed.
Lemma qrne_Z z : qrne (inject_Z z) = z.
Proof. unfold qrne. rewrite Qfloor_Z. assert ((inject_Z z - inject_Z z ?= 1#2) = Lt) as ->; [|reflexivity]. apply (proj1 (Qlt_alt _ _)). lra. Qed.
Lemma qrne_opp x : qrne (- x) = (- qrne x)%Z.
Proof.
  pose proof (qfloor_spec x) as [X1 X2]. pose proof (qfloor_spec (- x)) as [Y1 Y2]. unfold qrne. set (f := Qfloor x) in *. set (g := Qfloor (- x)) in *. clearbody f g.
  assert (g = - f \/ g = - f - 1)%Z as [->| ->].
  { assert (g <= - f)%Z by (apply inject_le; rewrite inject_Z_opp; lra).
    assert (- f - 2 < g)%Z by (apply inject_lt; replace (- f - 2)%Z with (- (f + 2))%Z by lia; rewrite inject_Z_opp, inject_Z_plus; change (inject_Z 2) with 2; lra). lia. }
  - rewrite inject_Z_opp in *. assert (x == inject_Z f) as E by lra. assert ((x - inject_Z f ?= 1#2) = Lt) as -> by (apply (proj1 (Qlt_alt _ _)); lra).
    assert ((- x - - inject_Z f ?= 1#2) = Lt) as -> by (apply (proj1 (Qlt_alt _ _)); lra). reflexivity.
  - unfold Z.sub in *. rewrite !inject_Z_plus, !inject_Z_opp in *. change (inject_Z 1) with 1 in *.
    destruct (Qcompare_spec (x - inject_Z f) (1#2)) as [C|C|C].
    + assert ((- x - (- inject_Z f + - (1)) ?= 1#2) = Eq) as -> by (apply (proj1 (Qeq_alt _ _)); lra).
      replace (Z.even (- f + - (1))) with (negb (Z.even f)); [destruct (Z.even f); cbn [negb]; lia|].
      replace (- f + - (1))%Z with (- Z.succ f)%Z by lia. rewrite Z.even_opp, Z.even_succ, Z.negb_even. reflexivity.
    + assert ((- x - (- inject_Z f + - (1)) ?= 1#2) = Gt) as -> by (apply (proj1 (Qgt_alt _ _)); lra). lia.
    + assert ((- x - (- inject_Z f + - (1)) ?= 1#2) = Lt) as -> by (apply (proj1 (Qlt_alt _ _)); lra). lia.
Qed.

(** * The exponent *)
Lemma log2_bounds p : (2 ^ Z.log2 (Zpos p) <= Zpos p < 2 ^ (Z.log2 (Zpos p) + 1))%Z.
Proof. pose proof (Z.log2_spec (Zpos p) ltac:(lia)). rewrite Z.add_1_r. exact H. Qed.
Lemma qexp_spec q : ~ q == 0 -> pow2 (qexp q) <= Qabs q < pow2 (qexp q + 1).
Proof.
  intros N. destruct q as [n d]. assert (n <> 0)%Z as Hn by (intros ->; apply N; reflexivity). unfold qexp. cbn [Qnum Qden].
  assert (exists a, Z.abs n = Zpos a) as [a Ea] by (destruct n; [lia|eexists; reflexivity..]). rewrite Ea.
  assert (Qabs (n # d) == inject_Z (Zpos a) / inject_Z (Zpos d)) as EQ.
  { unfold Qabs. rewrite Ea. apply Qmake_Qdiv. }
  pose proof (log2_bounds a) as [A1 A2]. pose proof (log2_bounds d) as [D1 D2]. set (la := Z.log2 (Zpos a)) in *. set (ld := Z.log2 (Zpos d)) in *.
  assert (0 <= la)%Z as La by apply Z.log2_nonneg. assert (0 <= ld)%Z as Ld by apply Z.log2_nonneg. clearbody la ld.
  rewrite Zle_Qle in A1, D1. rewrite Zlt_Qlt in A2, D2. rewrite <- !pow2_Z in * by lia. rewrite pow2_succ in *.
  set (k := (la - ld)%Z). assert (pow2 la == pow2 k * pow2 ld) as Ek by (rewrite <- pow2_add; unfold k; replace (la - ld + ld)%Z with la by lia; reflexivity).
  assert (0 < inject_Z (Zpos d)) as Pd by reflexivity. set (A := inject_Z (Zpos a)) in *. set (D := inject_Z (Zpos d)) in *. clearbody A D.
  pose proof (pow2_pos k) as Pk. pose proof (pow2_pos ld) as Pl.
  assert (A / D < 2 * pow2 k) as Up.
  { apply Qlt_shift_div_r; [exact Pd|]. nra. }
  assert (pow2 (k - 1) < A / D) as Lo.
  { apply Qlt_shift_div_l; [exact Pd|]. assert (2 * pow2 (k - 1) == pow2 k) as E1 by (rewrite <- pow2_succ; replace (k - 1 + 1)%Z with k by lia; reflexivity). pose proof (pow2_pos (k - 1)). nra. }
  destruct (Qle_bool (pow2 k) (Qabs (n # d))) eqn:B.
  - apply Qle_bool_iff in B. rewrite EQ in B. rewrite EQ. split; [exact B|exact Up].
  - assert (~ pow2 k <= Qabs (n # d)) as B' by (rewrite <- Qle_bool_iff; congruence). rewrite EQ in B'. rewrite EQ. rewrite <- pow2_succ; replace (k - 1 + 1)%Z with k by lia; split; lra.
Qed.
Lemma qexp_unique q k : ~ q == 0 -> pow2 k <= Qabs q < pow2 (k + 1) -> qexp q = k.
Proof.
  intros N [A B]. destruct (qexp_spec q N) as [C D]. assert (k < qexp q + 1)%Z by (apply pow2_lt_inv; lra). assert (qexp q < k + 1)%Z by (apply pow2_lt_inv; lra). lia.
Qed.
Lemma qeqb0 q : Qeq_bool q 0 = false <-> ~ q == 0.
Proof. split; [apply Qeq_bool_neq|]. intros N. destruct (Qeq_bool q 0) eqn:E; [|reflexivity]. apply Qeq_bool_iff in E. contradiction. Qed.
Lemma last_digit_comp p q : p == q -> last_digit p = last_digit q.
Proof.
  intros E. unfold last_digit. destruct (Qeq_bool p 0) eqn:P.
  - apply Qeq_bool_iff in P. assert (Qeq_bool q 0 = true) as -> by (apply Qeq_bool_iff; lra). reflexivity.
  - apply qeqb0 in P. assert (Qeq_bool q 0 = false) as -> by (apply qeqb0; lra). f_equal. f_equal. apply qexp_unique; [exact P|]. rewrite E. apply qexp_spec. lra.
Qed.
Lemma last_digit_opp q : last_digit (- q) = last_digit q.
Proof.
  unfold last_digit. destruct (Qeq_bool q 0) eqn:P.
  - apply Qeq_bool_iff in P. assert (Qeq_bool (- q) 0 = true) as -> by (apply Qeq_bool_iff; lra). reflexivity.
  - apply qeqb0 in P. assert (Qeq_bool (- q) 0 = false) as -> by (apply qeqb0; lra). f_equal. f_equal. apply qexp_unique; [lra|]. rewrite Qabs_opp. apply qexp_spec, P.
Qed.
Lemma last_digit_low q : (-1074 <= last_digit q)%Z.
Proof. unfold last_digit. destruct (Qeq_bool q 0); lia. Qed.
(** a number has at most 53 digits before its last one *)
Lemma last_digit_upper q : Qabs q < pow2 (last_digit q + 53).
Proof.
  unfold last_digit. destruct (Qeq_bool q 0) eqn:P.
  - apply Qeq_bool_iff in P. rewrite P. apply pow2_pos.
  - apply qeqb0 in P. destruct (qexp_spec q P) as [_ B]. eapply Qlt_le_trans; [exact B|]. apply pow2_le. lia.
Qed.
Lemma last_digit_lower q : (-1074 < last_digit q)%Z -> pow2 (last_digit q + 52) <= Qabs q.
Proof.
  unfold last_digit. destruct (Qeq_bool q 0) eqn:P; [lia|]. apply qeqb0 in P. intros H. destruct (qexp_spec q P) as [A _]. replace (Z.max (qexp q - 52) (-1074) + 52)%Z with (qexp q) by lia. exact A.
Qed.
Lemma last_digit_mono p q : 0 <= p -> p <= q -> (last_digit p <= last_digit q)%Z.
Proof.
  intros P H. destruct (Z.le_gt_cases (last_digit p) (last_digit q)) as [L|L]; [exact L|]. pose proof (last_digit_low q).
  pose proof (last_digit_lower p ltac:(lia)) as A. pose proof (last_digit_upper q) as B. rewrite Qabs_pos in A, B by lra. assert (last_digit p + 52 < last_digit q + 53)%Z by (apply pow2_lt_inv; lra). lia.
Qed.

(** * Rounding a rational *)
Lemma round_q_comp p q : p == q -> round_q p == round_q q.
Proof. intros E. unfold round_q. rewrite (last_digit_comp p q E). rewrite (qrne_comp (p * _) (q * pow2 (- last_digit q))); [reflexivity|rewrite E; reflexivity]. Qed.
Lemma round_q_opp q : round_q (- q) == - round_q q.
Proof. unfold round_q. rewrite last_digit_opp. rewrite (qrne_comp (- q * _) (- (q * pow2 (- last_digit q)))) by ring. rewrite qrne_opp, inject_Z_opp. ring. Qed.
Lemma round_q_0 : round_q 0 == 0.
Proof. reflexivity. Qed.
Lemma scale_le x y e : x <= y -> x * pow2 e <= y * pow2 e.
Proof. intros H. pose proof (pow2_pos e). nra. Qed.
Lemma round_nonneg q : 0 <= q -> 0 <= round_q q.
Proof.
  intros H. unfold round_q. assert (0 <= qrne (q * pow2 (- last_digit q)))%Z as A.
  { change 0%Z with (qrne 0). apply qrne_mono. pose proof (pow2_pos (- last_digit q)). nra. }
  rewrite Zle_Qle in A. change (inject_Z 0) with 0 in A. pose proof (pow2_pos (last_digit q)). nra.
Qed.
(** rounding up does not pass a power of two *)
Lemma round_upper q : 0 <= q -> round_q q <= pow2 (last_digit q + 53).
Proof.
  intros H. unfold round_q. set (e := last_digit q). assert (qrne (q * pow2 (- e)) <= 2 ^ 53)%Z as A.
  { rewrite <- (qrne_Z (2 ^ 53)). apply qrne_mono. rewrite <- pow2_Z by lia. pose proof (last_digit_upper q) as U. rewrite Qabs_pos in U by exact H. fold e in U.
    rewrite pow2_add in U. pose proof (pow2_inv e) as I. pose proof (pow2_pos (- e)) as P. pose proof (scale_le _ _ (- e) (Qlt_le_weak _ _ U)) as S.
    assert (pow2 e * pow2 53 * pow2 (- e) == pow2 53) as E by (transitivity (pow2 53 * (pow2 (- e) * pow2 e)); [ring|rewrite I; ring]). rewrite E in S. exact S. }
  rewrite Zle_Qle, <- pow2_Z in A by lia. rewrite Z.add_comm, pow2_add. apply scale_le, A.
Qed.
Lemma round_lower q : 0 <= q -> (-1074 < last_digit q)%Z -> pow2 (last_digit q + 52) <= round_q q.
Proof.
  intros H L. unfold round_q. set (e := last_digit q). assert (2 ^ 52 <= qrne (q * pow2 (- e)))%Z as A.
  { rewrite <- (qrne_Z (2 ^ 52)). apply qrne_mono. rewrite <- pow2_Z by lia. pose proof (last_digit_lower q L) as U. rewrite Qabs_pos in U by exact H. fold e in U.
    rewrite pow2_add in U. pose proof (pow2_inv e) as I. pose proof (scale_le _ _ (- e) U) as S.
    assert (pow2 e * pow2 52 * pow2 (- e) == pow2 52) as E by (transitivity (pow2 52 * (pow2 (- e) * pow2 e)); [ring|rewrite I; ring]). rewrite E in S. exact S. }
  rewrite Zle_Qle, <- pow2_Z in A by lia. rewrite Z.add_comm, pow2_add. apply scale_le, A.
Qed.
Lemma round_mono_pos p q : 0 <= p -> p <= q -> round_q p <= round_q q.
Proof.
  intros P H. pose proof (last_digit_mono p q P H) as L. destruct (Z.eq_dec (last_digit p) (last_digit q)) as [E|N].
  - unfold round_q. rewrite E. apply scale_le. rewrite <- Zle_Qle. apply qrne_mono, scale_le, H.
  - pose proof (last_digit_low p). pose proof (round_upper p P) as A. pose proof (round_lower q ltac:(lra) ltac:(lia)) as B.
    pose proof (pow2_le (last_digit p + 53) (last_digit q + 52) ltac:(lia)). lra.
Qed.
Lemma round_mono p q : p <= q -> round_q p <= round_q q.
Proof.
  intros H. destruct (Qlt_le_dec p 0) as [A|A]; [|apply round_mono_pos; assumption]. destruct (Qlt_le_dec q 0) as [B|B].
  - pose proof (round_mono_pos (- q) (- p) ltac:(lra) ltac:(lra)) as C. rewrite !round_q_opp in C. lra.
  - pose proof (round_nonneg q B). pose proof (round_nonneg (- p) ltac:(lra)) as C. rewrite round_q_opp in C. lra.
Qed.
(** the numbers of the format *)
Definition representable (x : Q) : Prop := exists m e, (Z.abs m <= 2 ^ 53)%Z /\ (-1074 <= e)%Z /\ x == inject_Z m * pow2 e.
Lemma qabs_scale m e : Qabs (inject_Z m * pow2 e) == inject_Z (Z.abs m) * pow2 e.
Proof. rewrite Qabs_Qmult. rewrite (Qabs_pos (pow2 e)) by (apply Qlt_le_weak, pow2_pos). reflexivity. Qed.
Lemma round_representable x : representable x -> round_q x == x.
Proof.
  intros (m & e & Hm & He & E). assert (exists z, x * pow2 (- last_digit x) == inject_Z z) as [z Hz].
  { set (d := last_digit x). destruct (Z.le_gt_cases d e) as [L|L].
    - exists (m * 2 ^ (e - d))%Z. rewrite inject_Z_mult, <- pow2_Z by lia. rewrite E. transitivity (inject_Z m * (pow2 e * pow2 (- d))); [ring|]. rewrite <- pow2_add.
      replace (e + - d)%Z with (e - d)%Z by lia. reflexivity.
    - pose proof (last_digit_lower x) as Lo. fold d in Lo. specialize (Lo ltac:(lia)). rewrite E, qabs_scale in Lo.
      assert (d = e + 1)%Z as Hd.
      { assert (d + 52 < e + 54)%Z; [|lia]. apply pow2_lt_inv. eapply Qle_lt_trans; [exact Lo|]. rewrite Zle_Qle, <- pow2_Z in Hm by lia.
        eapply Qle_lt_trans; [apply scale_le, Hm|]. rewrite <- pow2_add. apply pow2_lt. lia. }
      assert (2 ^ 53 <= Z.abs m)%Z as Hm'.
      { apply inject_le. rewrite <- pow2_Z by lia. replace (d + 52)%Z with (53 + e)%Z in Lo by lia. rewrite pow2_add in Lo. pose proof (pow2_pos e). nra. }
      exists (Z.sgn m * 2 ^ 52)%Z. rewrite E. assert (m = Z.sgn m * 2 ^ 53)%Z as Em by (pose proof (Z.abs_sgn m); pose proof (Z.sgn_abs m); nia).
      rewrite Em at 1. rewrite !inject_Z_mult, <- !pow2_Z by lia. transitivity (inject_Z (Z.sgn m) * (pow2 53 * pow2 e * pow2 (- d))); [ring|]. rewrite <- !pow2_add. replace (53 + e + - d)%Z with 52%Z by lia. reflexivity. }
  unfold round_q. rewrite (qrne_comp _ _ Hz), qrne_Z, <- Hz. transitivity (x * (pow2 (- last_digit x) * pow2 (last_digit x))); [ring|]. rewrite pow2_inv. ring.
Qed.
Lemma representable_round q : representable (round_q q).
Proof.
  unfold round_q. exists (qrne (q * pow2 (- last_digit q))), (last_digit q). split; [|split; [apply last_digit_low|reflexivity]].
  assert (forall q, 0 <= q -> (Z.abs (qrne (q * pow2 (- last_digit q))) <= 2 ^ 53)%Z) as H.
  { clear q. intros q Hq. assert (0 <= qrne (q * pow2 (- last_digit q)))%Z as A.
    { change 0%Z with (qrne 0). apply qrne_mono. pose proof (pow2_pos (- last_digit q)). nra. }
    rewrite Z.abs_eq by exact A. pose proof (round_upper q Hq) as U. unfold round_q in U. rewrite Z.add_comm, pow2_add in U. apply inject_le. rewrite <- pow2_Z by lia.
    pose proof (pow2_pos (last_digit q)). nra. }
  destruct (Qlt_le_dec q 0) as [N|P]; [|apply H, P]. specialize (H (- q) ltac:(lra)). rewrite last_digit_opp in H. rewrite (qrne_comp (- q * _) (- (q * pow2 (- last_digit q)))) in H by ring.
  rewrite qrne_opp in H. lia.
Qed.
Lemma round_error q : Qabs (round_q q - q) <= pow2 (last_digit q - 1).
Proof.
  pose proof (qrne_near (q * pow2 (- last_digit q))) as H. unfold round_q. set (e := last_digit q) in *. set (m := inject_Z (qrne _)) in *. clearbody m.
  assert (m * pow2 e - q == (m - q * pow2 (- e)) * pow2 e) as ->.
  { transitivity (m * pow2 e - q * (pow2 (- e) * pow2 e)); [rewrite pow2_inv; ring|ring]. }
  rewrite Qabs_Qmult. rewrite (Qabs_pos (pow2 e)) by (apply Qlt_le_weak, pow2_pos). assert (pow2 e == 2 * pow2 (e - 1)) as E2 by (rewrite <- pow2_succ; replace (e - 1 + 1)%Z with e by lia; reflexivity).
  rewrite E2. pose proof (pow2_pos (e - 1)). nra.
Qed.
Lemma round_relative q : pow2 (-1022) <= Qabs q -> Qabs (round_q q - q) <= ulp_half * Qabs q.
Proof.
  intros H. eapply Qle_trans; [apply round_error|]. assert (~ q == 0) as N.
  { intros E. rewrite E in H. pose proof (pow2_pos (-1022)). change (Qabs 0) with 0 in H. lra. }
  assert (last_digit q = qexp q - 52)%Z as E.
  { unfold last_digit. rewrite (proj2 (qeqb0 q) N). destruct (qexp_spec q N) as [_ B]. assert (-1022 < qexp q + 1)%Z by (apply pow2_lt_inv; lra). lia. }
  rewrite E. replace (qexp q - 52 - 1)%Z with (-53 + qexp q)%Z by lia. rewrite pow2_add. change (pow2 (-53)) with ulp_half. destruct (qexp_spec q N) as [A _].
  assert (0 < ulp_half) by reflexivity. nra.
Qed.

(** * binary64 *)
Lemma b64_cases q : (pow2 1024 <= round_q q /\ b64 (Fin q) = PInf) \/ (round_q q <= - pow2 1024 /\ b64 (Fin q) = NInf) \/
  (- pow2 1024 < round_q q < pow2 1024 /\ exists r, b64 (Fin q) = Fin r /\ r == round_q q).
Proof.
  cbn [b64]. destruct (Qle_bool (pow2 1024) (round_q q)) eqn:A; [left; apply Qle_bool_iff in A; auto|].
  assert (~ pow2 1024 <= round_q q) as A' by (rewrite <- Qle_bool_iff; congruence).
  destruct (Qle_bool (round_q q) (- pow2 1024)) eqn:B; [right; left; apply Qle_bool_iff in B; auto|].
  assert (~ round_q q <= - pow2 1024) as B' by (rewrite <- Qle_bool_iff; congruence).
  right. right. split; [lra|]. eexists. split; [reflexivity|]. apply Qred_correct.
Qed.
Lemma big_pos : 0 < pow2 1024. Proof. apply pow2_pos. Qed.
Lemma b64_fin q r : round_q q == r -> - pow2 1024 < r < pow2 1024 -> exists r', b64 (Fin q) = Fin r' /\ r' == r.
Proof. intros E H. destruct (b64_cases q) as [[A _]|[[A _]|[_ (r' & A & B)]]]; [lra|lra|]. exists r'. split; [exact A|lra]. Qed.
Opaque pow2 round_q.
Lemma b64_ext a b : deq a b -> deq (b64 a) (b64 b).
Proof.
  destruct a as [p| | |], b as [q| | |]; intros H; try contradiction; try exact I. pose proof (round_q_comp p q H) as E. pose proof big_pos.
  destruct (b64_cases p) as [[A ->]|[[A ->]|[A (r & -> & B)]]], (b64_cases q) as [[A' ->]|[[A' ->]|[A' (r' & -> & B')]]]; try exact I; try (exfalso; lra). cbn. lra.
Qed.
Lemma b64_mono a b : dleb a b = true -> dleb (b64 a) (b64 b) = true.
Proof.
  destruct a as [p| | |], b as [q| | |]; intros H; try discriminate; try reflexivity.
  - apply dleb_fin in H. pose proof (round_mono p q H) as E. pose proof big_pos.
    destruct (b64_cases p) as [[A ->]|[[A ->]|[A (r & -> & B)]]], (b64_cases q) as [[A' ->]|[[A' ->]|[A' (r' & -> & B')]]]; try reflexivity; try (exfalso; lra).
    apply dleb_fin. lra.
  - change (b64 PInf) with PInf. destruct (b64_cases p) as [[A ->]|[[A ->]|[A (r & -> & B)]]]; reflexivity.
  - change (b64 NInf) with NInf. destruct (b64_cases q) as [[A ->]|[[A ->]|[A (r & -> & B)]]]; reflexivity.
Qed.
Lemma b64_opp a : deq (b64 (dopp a)) (dopp (b64 a)).
Proof.
  destruct a as [q| | |]; try exact I. cbn [dopp]. pose proof (round_q_opp q) as E. pose proof big_pos.
  destruct (b64_cases q) as [[A ->]|[[A ->]|[A (r & -> & B)]]], (b64_cases (- q)) as [[A' ->]|[[A' ->]|[A' (r' & -> & B')]]]; try exact I; try (exfalso; lra). cbn. lra.
Qed.
Lemma b64_representable q : representable q -> - pow2 1024 < q < pow2 1024 -> deq (b64 (Fin q)) (Fin q).
Proof. intros H B. destruct (b64_fin q q (round_representable q H) B) as (r & -> & E). exact E. Qed.
Lemma b64_idem a : deq (b64 (b64 a)) (b64 a).
Proof.
  destruct a as [q| | |]; try exact I. destruct (b64_cases q) as [[A ->]|[[A ->]|[A (r & -> & B)]]]; try exact I.
  assert (deq (b64 (Fin (round_q q))) (Fin (round_q q))) as H by (apply b64_representable; [apply representable_round|exact A]).
  pose proof (b64_ext (Fin r) (Fin (round_q q)) B) as H'. destruct (b64 (Fin r)), (b64 (Fin (round_q q))); cbn in *; try contradiction. lra.
Qed.
Lemma inject_big z : (Z.abs z <= 2 ^ 53)%Z -> - pow2 1024 < inject_Z z < pow2 1024.
Proof.
  intros H. pose proof (pow2_lt 53 1024 ltac:(lia)) as L. rewrite pow2_Z in L by lia. set (B := pow2 1024) in *. clearbody B.
  assert (inject_Z z <= inject_Z (2 ^ 53)) by (rewrite <- Zle_Qle; lia). assert (inject_Z (- 2 ^ 53) <= inject_Z z) as H2 by (rewrite <- Zle_Qle; lia). rewrite inject_Z_opp in H2.
  set (x := inject_Z (2 ^ 53)) in *. clearbody x. lra.
Qed.
Lemma b64_int z : (Z.abs z <= 2 ^ 53)%Z -> deq (b64 (dofZ z)) (dofZ z).
Proof. intros H. apply b64_representable; [|apply inject_big, H]. exists z, 0%Z. split; [exact H|]. split; [lia|]. change (pow2 0) with 1. ring. Qed.
Lemma b64_err q : normal q -> exists r, b64 (Fin q) = Fin r /\ Qabs (r - q) <= ulp_half * Qabs q.
Proof.
  intros [L U]. pose proof (round_relative q L) as E. change (inject_Z (2 ^ 1023)) with (pow2 1023) in U.
  assert (Qabs (round_q q) < pow2 1024) as B.
  { assert (Qabs (round_q q) <= Qabs (round_q q - q) + Qabs q) as T.
    { eapply Qle_trans; [|apply Qabs_triangle]. apply Qle_lteq. right. assert (round_q q - q + q == round_q q) as -> by ring. reflexivity. }
    change 1024%Z with (1023 + 1)%Z. rewrite pow2_succ. pose proof (pow2_pos 1023). assert (ulp_half <= 1#2) as Hu by (vm_compute; discriminate). pose proof (Qabs_nonneg q).
    set (m := pow2 1023) in *. set (a := Qabs q) in *. set (u := ulp_half) in *. clearbody m a u. nra. }
  apply Qabs_Qlt_condition in B. destruct (b64_fin q (round_q q) (Qeq_refl _) B) as (r & -> & Er). exists r. split; [reflexivity|]. rewrite Er. exact E.
Qed.
Theorem rounding_b64 : rounding b64.
Proof.
  constructor; [exact b64_ext|exact b64_mono|exact b64_opp|exact b64_idem|reflexivity|reflexivity| |exact b64_int|exact b64_err].
  intros q. destruct (b64_cases q) as [[A ->]|[[A ->]|[A (r & -> & B)]]]; discriminate.
Qed.
Theorem rounding_exact : rounding (fun d => d).
Proof.
  constructor; try (intros; assumption); try reflexivity; try (intros; discriminate). intros q _. exists q. split; [reflexivity|].
  assert (Qabs (q - q) == 0) as -> by (assert (q - q == 0) as -> by ring; reflexivity). pose proof (Qabs_nonneg q). assert (0 < ulp_half) by reflexivity. nra.
Qed.
