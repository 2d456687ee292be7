(** Determinants of matrices with dependent rows, and the quadratic discriminant with such a matrix (C146). *)
From Coq Require Import String ZArith QArith Bool Lia Lqa Permutation Arith List.
From Verif Require Import Base Spec BaseLemmas DblLemmas AttrModel InstanceListModel PartitionModel PerformanceModel PerformanceProofs StatSpec ListSpec ListProofs PartitionProofs CovProofs CovAllProofs
  GaussianModel GaussianSpec GaussianProofs DiscrimSpec DiscrimProofs InvSpec ModelInvSpec ModelInvProofs FeatOrderSpec FeatOrderDetProofs DegenSpec.
Import ListNotations.
Local Open Scope string_scope.
Local Open Scope list_scope.
Local Open Scope nat_scope.

(** * Determinants *)
Definition with_row (w : nat -> nat -> Q) (r : nat) (v : nat -> Q) : nat -> nat -> Q := fun i j => if Nat.eqb i r then v j else w i j.
Lemma det_linear n : forall r w u v a, r < n -> (det n (with_row w r (fun j => a * u j + v j)) == a * det n (with_row w r u) + det n (with_row w r v))%Q.
Proof.
  induction n as [|n IH]; intros r w u v a Hr; [lia|]. rewrite !det_S, <- qsum_scale, <- qsum_plus. apply ssum_ext. intros j Hj. destruct r as [|r]; cbn [with_row Nat.eqb].
  - unfold with_row. cbn [Nat.eqb]. ring.
  - assert (E : forall z, (det n (fun i k => with_row w (S r) z (S i) (skip j k)) == det n (with_row (fun i k => w (S i) (skip j k)) r (fun k => z (skip j k))))%Q) by (intros z; apply det_ext; intros i k _ _; reflexivity).
    rewrite !E. rewrite (IH r (fun i k => w (S i) (skip j k)) (fun k => u (skip j k)) (fun k => v (skip j k)) a ltac:(lia)). unfold with_row. cbn [Nat.eqb]. ring.
Qed.
Lemma det_equal n : forall g j w, j + S g < n -> (forall c, c < n -> (w j c == w (j + S g)%nat c)%Q) -> (det n w == 0)%Q.
Proof.
  induction g as [|g IH]; intros j w Hj E.
  - replace (j + 1) with (S j) in * by lia. pose proof (det_row n j w Hj) as D. rewrite (det_ext n (fun i c => w (tau j i) c) w) in D; [lra|].
    intros i c _ Hc. unfold tau. destruct (Nat.eqb_spec i j) as [-> |]; [symmetry; apply E, Hc|]. destruct (Nat.eqb_spec i (S j)) as [-> |]; [apply E, Hc|reflexivity].
  - pose proof (det_row n (j + S g) w ltac:(lia)) as D. rewrite (IH j (fun i c => w (tau (j + S g) i) c)) in D; [lra|lia|].
    intros c Hc. replace (tau (j + S g) j) with j by cases. replace (tau (j + S g) (j + S g)) with (j + S (S g)) by cases. apply E, Hc.
Qed.
Lemma det_sum n w r (c : nat -> Q) (x : nat -> nat -> Q) : r < n -> forall L, (det n (with_row w r (fun j => qsum (map (fun i => c i * x i j) L))) == qsum (map (fun i => c i * det n (with_row w r (x i))) L))%Q.
Proof.
  intros Hr. induction L as [|i L IH].
  - pose proof (det_linear n r w (fun _ => 0%Q) (fun _ => 0%Q) 1 Hr) as D. rewrite (det_ext n _ (with_row w r (fun _ => 0%Q))) in D; [unfold qsum; cbn [map fold_right]; lra|]. intros i j _ _. unfold with_row. destruct (Nat.eqb i r); [ring|reflexivity].
  - change (qsum (map (fun i => (c i * det n (with_row w r (x i)))%Q) (i :: L))) with (c i * det n (with_row w r (x i)) + qsum (map (fun i => (c i * det n (with_row w r (x i)))%Q) L))%Q. rewrite <- IH. rewrite <- (det_linear n r w (x i)) by exact Hr. reflexivity.
Qed.
Lemma ssum_only n r (f : nat -> Q) : r < n -> (forall i, i < n -> i <> r -> (f i == 0)%Q) -> (ssum n f == f r)%Q.
Proof.
  intros Hr H. destruct n as [|n]; [lia|]. rewrite (ssum_skip n r f ltac:(lia)). rewrite (ssum_ext n _ (fun _ => 0%Q)); [rewrite qsum_const; ring|]. intros b Hb. apply H; [cases|cases].
Qed.
(** a combination of the rows that is zero, with a coefficient that is not *)
Lemma det_dependent n w (c : nat -> Q) r : r < n -> ~ (c r == 0)%Q -> (forall j, j < n -> (ssum n (fun i => c i * w i j) == 0)%Q) -> (det n w == 0)%Q.
Proof.
  intros Hr Hc H. pose proof (det_sum n w r c w Hr (seq 0 n)) as D.
  rewrite (det_ext n _ (with_row w r (fun _ => 0%Q))) in D by (intros i j _ Hj; unfold with_row; destruct (Nat.eqb i r); [apply H, Hj|reflexivity]).
  pose proof (det_sum n w r c w Hr []) as Z. cbn [map] in Z. change (qsum []) with 0%Q in Z. rewrite Z in D. clear Z.
  rewrite (ssum_only n r (fun i => c i * det n (with_row w r (w i)))%Q Hr) in D.
  - rewrite (det_ext n (with_row w r (w r)) w) in D by (intros i j _ _; unfold with_row; destruct (Nat.eqb_spec i r) as [-> |]; reflexivity).
    symmetry in D. apply Qmult_integral in D as [D|D]; [contradiction|exact D].
  - intros i Hi Ne. assert (E : (det n (with_row w r (w i)) == 0)%Q); [|rewrite E; ring]. destruct (Nat.lt_ge_cases i r) as [L|L].
    + apply (det_equal n (r - i - 1) i); [lia|]. intros k _. replace (i + S (r - i - 1)) with r by lia. unfold with_row. rewrite Nat.eqb_refl. destruct (Nat.eqb_spec i r); [lia|reflexivity].
    + apply (det_equal n (i - r - 1) r); [lia|]. intros k _. replace (r + S (i - r - 1)) with i by lia. unfold with_row. rewrite Nat.eqb_refl. destruct (Nat.eqb_spec i r); [lia|reflexivity].
Qed.

Lemma dependent_det d w : dependent d w -> (det d w == 0)%Q.
Proof. intros (k & r & Hr & Nr & H). exact (det_dependent d w k r Hr Nr H). Qed.
Lemma dependent_no_inverse d w P S : dependent d w -> entries d P w -> ~ inverse_of d P S.
Proof.
  intros (k & r & Hr & Nr & H) (_ & HP) (_ & HI). apply Nr.
  assert (E : (ssum d (fun j => ssum d (fun i => k i * w i j) * mget S j r) == 0)%Q).
  { rewrite (ssum_ext d _ (fun _ => 0%Q)); [rewrite qsum_const; ring|]. intros j Hj. rewrite (H j Hj). ring. }
  rewrite <- E. rewrite (ssum_ext d _ (fun j => ssum d (fun i => k i * (mget P i j * mget S j r)))%Q).
  2:{ intros j Hj. rewrite <- (qsum_scale_r (mget S j r) (fun i => k i * w i j)%Q). apply ssum_ext. intros i Hi. rewrite (HP i j Hi Hj). ring. }
  rewrite (qsum_swap (fun j i => k i * (mget P i j * mget S j r))%Q). rewrite (ssum_only d r _ Hr).
  - rewrite qsum_scale, (HI r r Hr Hr), Nat.eqb_refl. ring.
  - intros i Hi Ne. rewrite qsum_scale, (HI i r Hi Hr). destruct (Nat.eqb_spec i r); [contradiction|ring].
Qed.

(** * Fewer equations than unknowns *)
Lemma ssum_last n f : (ssum (S n) f == ssum n f + f n)%Q.
Proof. rewrite seq_S, map_app, qsum_app. cbn [map plus]. unfold qsum at 2. cbn [fold_right]. ring. Qed.
Lemma pick_row n (E : list (nat -> Q)) : (forall e, In e E -> (e n == 0)%Q) \/ exists E1 e E2, E = E1 ++ e :: E2 /\ ~ (e n == 0)%Q.
Proof.
  induction E as [|e E [IH|(E1 & e1 & E2 & -> & N)]]; [left; intros ? []| |right; exists (e :: E1), e1, E2; split; [reflexivity|exact N]].
  destruct (Qeq_dec (e n) 0) as [Z|N]; [left; intros x [<-|Hx]; [exact Z|apply IH, Hx]|right; exists [], e, E; split; [reflexivity|exact N]].
Qed.
Lemma solution n : forall E : list (nat -> Q), length E < n -> exists c, (exists r, r < n /\ ~ (c r == 0)%Q) /\ forall e, In e E -> (ssum n (fun i => c i * e i) == 0)%Q.
Proof.
  induction n as [|n IH]; intros E L; [lia|]. destruct (pick_row n E) as [Z|(E1 & e0 & E2 & -> & N)].
  - exists (fun i => if Nat.eqb i n then 1 else 0)%Q. split; [exists n; split; [lia|rewrite Nat.eqb_refl; discriminate]|]. intros e He. rewrite ssum_last, Nat.eqb_refl, (Z e He).
    rewrite (ssum_ext n _ (fun _ => 0%Q)); [rewrite qsum_const; ring|]. intros i Hi. destruct (Nat.eqb_spec i n); [lia|ring].
  - set (E' := map (fun e i => (e i - e n / e0 n * e0 i)%Q) (E1 ++ E2)). destruct (IH E') as (c & (r & Hr & Nr) & HC); [unfold E'; rewrite map_length; rewrite !app_length in *; cbn in L; lia|].
    set (s0 := ssum n (fun i => c i * e0 i)%Q). exists (fun i => if Nat.eqb i n then - s0 / e0 n else c i)%Q.
    assert (SN : forall e, (ssum (S n) (fun i => (if Nat.eqb i n then - s0 / e0 n else c i) * e i) == ssum n (fun i => c i * e i) - s0 / e0 n * e n)%Q).
    { intros e. rewrite ssum_last, Nat.eqb_refl. rewrite (ssum_ext n (fun i => (if Nat.eqb i n then - s0 / e0 n else c i) * e i)%Q (fun i => c i * e i)%Q); [field; exact N|]. intros i Hi. destruct (Nat.eqb_spec i n); [lia|reflexivity]. }
    split; [exists r; split; [lia|destruct (Nat.eqb_spec r n); [lia|exact Nr]]|].
    intros e He. rewrite SN. apply in_app_or in He.
    assert (G : In e (E1 ++ E2) -> (ssum n (fun i => c i * e i) - s0 / e0 n * e n == 0)%Q).
    { intros H. specialize (HC _ (in_map (fun e i => (e i - e n / e0 n * e0 i)%Q) _ _ H)). cbv beta in HC.
      rewrite (ssum_ext n _ (fun i => c i * e i + - (e n / e0 n) * (c i * e0 i))%Q) in HC by (intros; ring). rewrite qsum_plus, qsum_scale in HC. fold s0 in HC. rewrite <- HC. field. exact N. }
    destruct He as [He|[<-|He]]; [apply G, in_or_app; left; exact He| |apply G, in_or_app; right; exact He]. fold s0. field. exact N.
Qed.

(** * The covariance of a class with no more instances than features *)
Lemma dev_sum s c j : members s c <> [] -> (qsum (map (fun r => coord r j - class_mean s c j) (members s c)) == 0)%Q.
Proof.
  intros Hne. assert (N : ~ (qofn (length (members s c)) == 0)%Q) by (apply qofn_neq0; destruct (members s c); [contradiction|cbn; lia]).
  rewrite (qsum_ext _ (fun r => coord r j + - class_mean s c j)%Q) by (intros; ring). rewrite (qsum_plus (fun r => coord r j) (fun _ => - class_mean s c j)%Q), qsum_const.
  unfold class_mean at 1, qmean. rewrite map_length. field. exact N.
Qed.
Lemma cov_combination d s c (k : nat -> Q) : (forall r, In r (members s c) -> (ssum d (fun i => k i * (coord r i - class_mean s c i)) == 0)%Q) ->
  forall j, (ssum d (fun i => k i * class_cov s c i j) == 0)%Q.
Proof.
  intros H j. unfold class_cov, Qdiv. set (z := (/ qofn (length (members s c) - 1))%Q).
  rewrite (ssum_ext d _ (fun i => z * qsum (map (fun r => (k i * (coord r i - class_mean s c i)) * (coord r j - class_mean s c j)) (members s c)))%Q).
  { rewrite qsum_scale. rewrite (qsum_swap (fun i r => (k i * (coord r i - class_mean s c i)) * (coord r j - class_mean s c j))%Q).
    rewrite (qsum_ext _ (fun _ => 0%Q)); [rewrite qsum_const; ring|]. intros r Hr. rewrite (qsum_scale_r (coord r j - class_mean s c j)%Q (fun i => k i * (coord r i - class_mean s c i))%Q), (H r Hr). ring. }
  intros i Hi. rewrite (qsum_ext (fun r => k i * (coord r i - class_mean s c i) * (coord r j - class_mean s c j))%Q (fun r => k i * ((coord r i - class_mean s c i) * (coord r j - class_mean s c j)))%Q) by (intros; ring).
  rewrite qsum_scale. ring.
Qed.
Lemma few_degenerate d s c : members s c <> [] -> length (members s c) <= d -> dependent d (class_cov s c).
Proof.
  intros Hne Hd. destruct (exists_last Hne) as (M & z & EM).
  destruct (solution d (map (fun r i => (coord r i - class_mean s c i)%Q) M)) as (k & (r & Hr & Nr) & HK). { rewrite map_length. rewrite EM, app_length in Hd. cbn in Hd. lia. }
  exists k, r. split; [exact Hr|]. split; [exact Nr|]. intros j _. apply cov_combination. intros y Hy.
  assert (HM : forall y, In y M -> (ssum d (fun i => k i * (coord y i - class_mean s c i)) == 0)%Q).
  { intros y' Hy'. exact (HK _ (in_map (fun r i => (coord r i - class_mean s c i)%Q) _ _ Hy')). }
  rewrite EM in Hy. apply in_app_or in Hy as [Hy|[<-|[]]]; [apply HM, Hy|].
  assert (T : (qsum (map (fun r => ssum d (fun i => k i * (coord r i - class_mean s c i))) (M ++ [z])) == 0)%Q).
  { rewrite (qsum_swap (fun r i => k i * (coord r i - class_mean s c i))%Q). rewrite (qsum_ext _ (fun _ => 0%Q)); [rewrite qsum_const; ring|].
    intros i _. rewrite qsum_scale, <- EM, dev_sum by exact Hne. ring. }
  rewrite map_app, qsum_app in T. rewrite (qsum_ext _ (fun _ => 0%Q) M) in T by (intros y Hy; apply HM, Hy). rewrite qsum_const in T. unfold qsum at 1 in T. cbn [map fold_right] in T. lra.
Qed.
(** a feature that is a multiple of another one plus a constant *)
Lemma repeated_degenerate d w a j k : j < d -> k < d -> j <> k -> (forall i, (w k i == a * w j i)%Q) -> dependent d w.
Proof.
  intros Hj Hk Hjk H. exists (fun i => if Nat.eqb i k then 1 else if Nat.eqb i j then - a else 0)%Q, k. split; [exact Hk|]. split; [rewrite Nat.eqb_refl; discriminate|].
  intros c _. destruct d as [|d]; [lia|]. rewrite (ssum_skip d k) by lia. rewrite Nat.eqb_refl, (H c).
  set (j' := if Nat.ltb j k then j else j - 1).
  rewrite (ssum_only d j'); [|unfold j'; destruct (Nat.ltb_spec j k); lia|].
  - replace (skip k j') with j by (unfold j'; cases). destruct (Nat.eqb_spec j k); [lia|]. rewrite Nat.eqb_refl. ring.
  - intros i Hi Ne. assert (skip k i <> k) by cases. assert (skip k i <> j) by (unfold j' in Ne; revert Ne; cases). destruct (Nat.eqb_spec (skip k i) k); [contradiction|]. destruct (Nat.eqb_spec (skip k i) j); [contradiction|]. ring.
Qed.

(** the pooled covariance *)
Fixpoint keep (s : sample) : sample :=
  match s with [] => [] | r :: s' => if in_dec string_dec (fst r) (map fst s') then r :: keep s' else keep s' end.
Lemma keep_length s : length (keep s) + classes s = length s.
Proof. unfold classes. induction s as [|r s IH]; [reflexivity|]. cbn [keep map nodup length]. destruct (in_dec string_dec (fst r) (map fst s)); cbn [length]; lia. Qed.
Lemma keep_zero (x : string * list Q -> Q) s : (forall r, In r (keep s) -> (x r == 0)%Q) -> forall c,
  members s c = [] \/ exists z, In z (members s c) /\ (qsum (map x (members s c)) == x z)%Q /\ forall r, In r (members s c) -> r = z \/ (x r == 0)%Q.
Proof.
  induction s as [|r s IH]; intros H c; [left; reflexivity|]. cbn [keep] in H.
  assert (HK : forall y, In y (keep s) -> (x y == 0)%Q) by (intros y Hy; apply H; destruct (in_dec string_dec (fst r) (map fst s)); [right|]; exact Hy).
  unfold members in *. cbn [filter]. destruct (String.eqb_spec (fst r) c) as [<-|Ne]; [|exact (IH HK c)]. right.
  destruct (in_dec string_dec (fst r) (map fst s)) as [I|N].
  - assert (Z : (x r == 0)%Q) by (apply H; left; reflexivity). destruct (IH HK (fst r)) as [E|(z & Hz & S1 & S2)].
    + exfalso. apply in_map_iff in I as (y & Ey & Hy). assert (In y (filter (fun r0 => String.eqb (fst r0) (fst r)) s)) by (apply filter_In; split; [exact Hy|apply String.eqb_eq, Ey]). rewrite E in *. contradiction.
    + exists z. split; [right; exact Hz|]. split; [unfold qsum in *; cbn [map fold_right]; rewrite S1, Z; ring|]. intros y [<-|Hy]; [right; exact Z|apply S2, Hy].
  - assert (E : filter (fun r0 => String.eqb (fst r0) (fst r)) s = []).
    { destruct (filter (fun r0 => String.eqb (fst r0) (fst r)) s) as [|y t] eqn:E; [reflexivity|]. exfalso. assert (Hy : In y (y :: t)) by (left; reflexivity). rewrite <- E in Hy. apply filter_In in Hy as [Hy Ey]. apply String.eqb_eq in Ey. apply N. rewrite <- Ey. apply in_map, Hy. }
    rewrite E. exists r. split; [left; reflexivity|]. split; [unfold qsum; cbn; ring|]. intros y [<-|[]]. left. reflexivity.
Qed.
Lemma few_pooled d s : length s < d + classes s -> dependent d (pooled_cov s).
Proof.
  intros Hd. destruct (solution d (map (fun r i => (coord r i - class_mean s (fst r) i)%Q) (keep s))) as (k & (r & Hr & Nr) & HK). { rewrite map_length. pose proof (keep_length s). lia. }
  set (x := fun r : string * list Q => ssum d (fun i => k i * (coord r i - class_mean s (fst r) i))%Q).
  assert (HX : forall y, In y s -> (x y == 0)%Q).
  { intros y Hy. assert (Hm : In y (members s (fst y))) by (apply filter_In; split; [exact Hy|apply String.eqb_refl]).
    destruct (keep_zero x s) with (c := fst y) as [E|(z & Hz & S1 & S2)].
    - intros y' Hy'. exact (HK _ (in_map (fun r i => (coord r i - class_mean s (fst r) i)%Q) _ _ Hy')).
    - rewrite E in Hm. contradiction.
    - destruct (S2 y Hm) as [-> |Z]; [|exact Z]. rewrite <- S1. unfold x.
      rewrite (qsum_ext _ (fun r => ssum d (fun i => k i * (coord r i - class_mean s (fst z) i)))%Q) by (intros q Hq; apply filter_In in Hq as [_ Hq]; apply String.eqb_eq in Hq; rewrite Hq; reflexivity).
      rewrite (qsum_swap (fun r i => k i * (coord r i - class_mean s (fst z) i))%Q). rewrite (qsum_ext _ (fun _ => 0%Q)); [rewrite qsum_const; ring|].
      intros i _. rewrite qsum_scale, dev_sum; [ring|]. intros E. rewrite E in Hz. contradiction. }
  exists k, r. split; [exact Hr|]. split; [exact Nr|]. intros j _. unfold pooled_cov, Qdiv. set (z := (/ qofn (length s - classes s))%Q).
  rewrite (ssum_ext d _ (fun i => z * qsum (map (fun r => (k i * (coord r i - class_mean s (fst r) i)) * (coord r j - class_mean s (fst r) j)) s))%Q).
  { rewrite qsum_scale. rewrite (qsum_swap (fun i r => (k i * (coord r i - class_mean s (fst r) i)) * (coord r j - class_mean s (fst r) j))%Q).
    rewrite (qsum_ext _ (fun _ => 0%Q)); [rewrite qsum_const; ring|]. intros y Hy. rewrite (qsum_scale_r (coord y j - class_mean s (fst y) j)%Q (fun i => k i * (coord y i - class_mean s (fst y) i))%Q). fold (x y). rewrite (HX y Hy). ring. }
  intros i Hi. rewrite (qsum_ext (fun r => k i * (coord r i - class_mean s (fst r) i) * (coord r j - class_mean s (fst r) j))%Q (fun r => k i * ((coord r i - class_mean s (fst r) i) * (coord r j - class_mean s (fst r) j)))%Q) by (intros; ring).
  rewrite qsum_scale. ring.
Qed.

(** * Scores of degenerate classes *)
Section Scores.
  Context (inverse : list (list dbl) -> list (list dbl)) (determinant : list (list dbl) -> dbl) (ln : dbl -> dbl) (f : Q -> Q) (Hln : log_reads ln f) (Hed : log_edges ln).
  Context (shape : list (option nat)) (l : ilist) (HU : uniform shape l) (Hn : l <> []).
  Let d := dim shape.
  Let s := sample_of l.
  Context (HD : finds_determinant d determinant) (HI : leaves_numbers d inverse).

  Lemma qda_scores : (forall c, In c (map label l) -> 2 <= length (members s c)) ->
    exists m, qda_train inverse determinant ln qda_empty l = Ok m /\
      forall q v c, inst_vals q = map Fin v -> length v = d -> In c (map label l) ->
        exists r, qda_metric m q c = Ok r /\ (degenerate d s c -> r = PInf) /\ (~ degenerate d s c -> r = NaN \/ exists z, r = Fin z).
  Proof.
    intros H2. unfold qda_train. destruct (atn_hd l Hn) as (x & -> & Hx). cbn [bind]. rewrite (discrete_check_uniform _ _ _ HU Hx).
    rewrite class_lists_spec. cbn [bind]. unfold labelled.
    match goal with |- context [foldM ?g _ _] => set (F := g) end.
    destruct (fold_fresh l F
                (fun st c => mfind c (q_W st) = None /\ mfind c (l_w (q_lda st)) = None /\ mfind c (l_w0 (q_lda st)) = None)
                (fun st c => exists M w w0, mfind c (q_W st) = Some M /\ (exists A, ism M d A) /\
                                            mfind c (l_w (q_lda st)) = Some w /\ (exists W, isv w d W) /\ mfind c (l_w0 (q_lda st)) = Some w0 /\
                                            (degenerate d s c -> w0 = PInf) /\ (~ degenerate d s c -> w0 = NaN \/ exists z, w0 = Fin z))) with (cs := distinct_labels l)
                (st := mkQda (mkLda (class_distribution l) [] []) []) as (m & E & HM & _).
    - intros st c Hc (F1 & F2 & F3). unfold F. cbn [fst snd]. destruct (class_mean_avg shape l c HU Hc) as (avg & -> & Va). cbn [bind].
      destruct (class_cov_cov shape l c avg HU Hc (H2 c Hc) Va) as (cov & -> & Vc). cbn [bind].
      destruct (ism_list _ _ _ Vc) as (P & -> & VP). destruct (HI P (proj1 VP)) as (S & SS & ->). destruct (HD P (proj1 VP)) as (D & -> & ED).
      pose proof (ism_fin S d SS) as MS.
      destruct (ism_mul_left _ _ _ _ _ MS Va) as (w & -> & Vw). destruct (isv_dot_opt _ _ _ _ _ Vw Va) as (r & -> & Vr).
      assert (EC : (D == det d (class_cov s c))%Q) by (rewrite ED; apply det_ext; intros i j Hi Hj; apply VP; assumption).
      destruct (isq_fin _ _ Vr) as (zr & -> & _). destruct (isq_fin _ _ (log_prob l c ln f Hc Hln)) as (zp & -> & _).
      eexists. split; [reflexivity|]. cbn [l_w l_w0 q_W q_lda]. split; [|split].
      + do 3 eexists. split; [apply mfind_new, F1|]. split.
        * exists (fun i j => mget S i j * - (1#2))%Q. unfold mat_scale. apply (ism_map _ d _ _ (fun q => q * - (1#2))%Q); [|exact MS]. intros y q Hy. apply isq_mul; [exact Hy|]. apply isq_opp. exact (fin_isq (1#2) (1#2) (Qeq_refl _)).
        * split; [apply mfind_new, F2|]. split; [eexists; exact Vw|]. split; [apply mfind_new, F3|]. split.
          -- intros Z. unfold degenerate in Z. rewrite <- EC in Z. rewrite (proj1 (Hed D) Z). reflexivity.
          -- intros NZ. destruct (Q_dec D 0) as [[Lt|Gt]|Z]; [left; rewrite (proj2 (Hed D) Lt); reflexivity| |exfalso; apply NZ; unfold degenerate; rewrite <- EC; exact Z].
             right. destruct (proj1 Hln D Gt) as (ld & -> & _). eexists. reflexivity.
      + intros c' Ne (M & w1 & w2 & A1 & A2 & A & B & C & D'). exists M, w1, w2. rewrite !mfind_other by exact Ne. exact (conj A1 (conj A2 (conj A (conj B (conj C D'))))).
      + intros c' Ne (A & B & C). rewrite !mfind_other by exact Ne. repeat split; assumption.
    - apply distinct_nodup.
    - intros c Hc. apply distinct_in, Hc.
    - intros; repeat split; reflexivity.
    - exists m. split; [exact E|]. intros q v c Hq Lv Hc. destruct (HM c (proj2 (distinct_in l c) Hc)) as (M & w & w0 & E0 & (A & V) & E1 & (W & Vw) & E2 & D1 & D2).
      unfold qda_metric. rewrite E0, E1, E2.
      assert (Vq : isv (inst_vector q) d (fun j => nth j v 0%Q)) by (change (inst_vector q) with (inst_vals q); rewrite Hq, <- Lv; apply isv_fin).
      destruct (ism_mul_left _ _ _ _ _ V Vq) as (u & -> & Vu). destruct (isv_dot_opt _ _ _ _ _ Vu Vq) as (a & -> & Vx).
      destruct (isv_dot_opt _ _ _ _ _ Vw Vq) as (b & -> & Vb). destruct (isq_fin _ _ (isq_add _ _ _ _ Vx Vb)) as (z & -> & _).
      eexists. split; [reflexivity|]. split; [intros H; rewrite (D1 H); reflexivity|]. intros H. destruct (D2 H) as [-> |(y & ->)]; [left; reflexivity|right; eexists; reflexivity].
  Qed.
End Scores.

(** * The first infinite score is never given up *)
Lemma gauss_inf prior metric (D : string -> Prop) : (forall c, mmem c prior = true -> exists r, metric c = Ok r /\ (D c -> r = PInf) /\ (~ D c -> r = NaN \/ exists z, r = Fin z)) -> (forall c, D c \/ ~ D c) ->
  (forall ls b, exists b', foldM (gauss_step prior metric) ls (PInf, b) = Ok (PInf, b') /\ b' = b) /\
  (forall ls z b, (forall c, In c ls -> mmem c prior = true -> ~ D c) -> exists z' b', foldM (gauss_step prior metric) ls (Fin z, b) = Ok (Fin z', b')).
Proof.
  intros H Dec. split.
  - induction ls as [|c ls IH]; intros b; cbn [foldM]; [eauto|]. unfold gauss_step at 1. destruct (mmem c prior) eqn:E; cbn [bind fst snd]; [|apply IH].
    destruct (H c E) as (r & -> & H1 & H2). cbn [bind]. destruct (Dec c) as [K|K]; [rewrite (H1 K); apply IH|]. destruct (H2 K) as [-> |(z & ->)]; apply IH.
  - induction ls as [|c ls IH]; intros z b N; cbn [foldM]; [eauto|]. unfold gauss_step at 1. destruct (mmem c prior) eqn:E; cbn [bind fst snd]; [|apply IH; intros x Hx; apply N; right; exact Hx].
    destruct (H c E) as (r & -> & _ & H2). cbn [bind]. destruct (H2 (N c (or_introl eq_refl) E)) as [-> |(y & ->)]; [apply IH; intros x Hx; apply N; right; exact Hx|].
    destruct (dgtb (Fin y) (Fin z)); apply IH; intros x Hx; apply N; right; exact Hx.
Qed.
