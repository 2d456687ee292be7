(** Proofs about normalisation and principal components. *)
From Coq Require Import String ZArith QArith Qreals Reals Bool Lia Lra Lqa Permutation Sorted Arith List.
From Verif Require Import Base Spec BaseLemmas DblLemmas AttrModel DataSetModel DataSetProofs InstanceListModel StatModel ListSpec StatSpec ListProofs CovProofs CovAllProofs GaussianModel GaussianProofs DistanceModel FilterModel FilterSpec FilterProofs.
Import ListNotations.
Local Open Scope string_scope.
Local Open Scope list_scope.
Local Open Scope nat_scope.

Lemma mapM_seq_gen {B} (f : nat -> res B) (P : nat -> B -> Prop) n : (forall i, i < n -> exists b, f i = Ok b /\ P i b) ->
  exists bs, mapM f (seq 0 n) = Ok bs /\ length bs = n /\ forall i b, nth_error bs i = Some b -> P i b.
Proof.
  induction n as [|n IH]; intros H; [exists []; split; [reflexivity|split; [reflexivity|intros [|i] b F; discriminate]]|].
  destruct IH as (bs & E & L & HP); [intros i Hi; apply H; lia|]. destruct (H n) as (b & Eb & Pb); [lia|].
  exists (bs ++ [b]). split; [|split; [rewrite app_length, L; cbn; lia|]].
  - rewrite seq_S. cbn [plus]. apply mapM_ok. apply mapM_ok in E. apply Forall2_app; [exact E|]. constructor; [exact Eb|constructor].
  - intros i b' Hd. destruct (Nat.lt_ge_cases i n) as [Hi|Hi].
    + rewrite nth_error_app1 in Hd by lia. apply HP, Hd.
    + rewrite nth_error_app2 in Hd by lia. rewrite L in Hd. destruct (i - n) as [|j] eqn:Ej; [|cbn in Hd; destruct j; discriminate Hd].
      injection Hd as <-. replace i with n by lia. exact Pb.
Qed.
Lemma numeric_len ks l x : number_columns ks l -> In x l -> length (attrs x) = length ks.
Proof. unfold number_columns. rewrite Forall_forall. intros H Hx. symmetry. eapply Forall2_len, (H x Hx). Qed.
Lemma numeric_nth ks l x i k a : number_columns ks l -> In x l -> nth_error ks i = Some k -> nth_error (attrs x) i = Some a ->
  if k then exists q, a = ACont (Fin q) else forall v, a <> ACont v.
Proof. unfold number_columns. rewrite Forall_forall. intros H Hx Hk Ha. apply (Forall2_nth _ _ _ i k a (H x Hx) Hk Ha). Qed.
Lemma numeric_get ks l x i : number_columns ks l -> In x l -> i < length ks -> exists a, nth_error (attrs x) i = Some a.
Proof. intros H Hx Hi. destruct (nth_error (attrs x) i) eqn:E; [eexists; reflexivity|]. apply nth_error_None in E. rewrite (numeric_len _ _ _ H Hx) in E. lia. Qed.
Lemma numeric_column ks l i : number_columns ks l -> nth_error ks i = Some true -> exists qs, num_column (Z.of_nat i) l (map Fin qs).
Proof.
  intros H Hk. induction l as [|x l IH]; [exists []; constructor|]. destruct IH as [qs Hq]; [inversion H; assumption|].
  assert (Hi : i < length ks) by (apply nth_error_Some; congruence).
  destruct (numeric_get _ _ x i H (or_introl eq_refl) Hi) as [a Ea].
  destruct (numeric_nth _ _ x i true a H (or_introl eq_refl) Hk Ea) as [q ->]. exists (q :: qs). constructor; [|exact Hq]. apply feature_nth, Ea.
Qed.
(** what the filter knows about feature [i] *)
Definition col_stat (ks : list bool) (l : ilist) (i : nat) (m : option attr) (s : option rdbl) : Prop :=
  match nth_error ks i with
  | Some true => exists qs a sd, num_column (Z.of_nat i) l (map Fin qs) /\ m = Some (ACont (Fin a)) /\ (a == qmean qs)%Q /\ s = Some sd /\
                   sd = (if length l <=? 1 then RNaN else RFin (sqrt (Q2R (sqdev qs / qofn (length qs - 1)))))
  | _ => True
  end.
Lemma column_avg ks l i : number_columns ks l -> l <> [] -> i < length ks ->
  exists m, attr_average (Z.of_nat i) l = Ok m /\ exists s, attr_std (Z.of_nat i) l = Ok s /\ col_stat ks l i m s.
Proof.
  intros H Hn Hi. destruct (nth_error ks i) as [k|] eqn:Ek; [|apply nth_error_None in Ek; lia]. unfold col_stat. rewrite Ek. destruct k.
  - destruct (numeric_column _ _ _ H Ek) as [qs Hq]. pose proof (num_column_length _ _ _ Hq) as Lq.
    destruct (attr_average_cont _ _ _ Hn Hq) as (a & Ea & _ & Ha). exists (Some (ACont (Fin a))). split; [exact Ea|].
    destruct (Nat.leb_spec (length l) 1) as [L|L].
    + destruct qs as [|q [|q' qs]]; [destruct l; [congruence|discriminate Lq]| |cbn in Lq; lia].
      exists (Some RNaN). split; [apply (attr_std_single _ _ q), Hq|]. exists [q], a, RNaN. repeat split; try assumption; try reflexivity. rewrite Ha, <- Lq. reflexivity.
    + eexists. split; [apply (attr_std_fin _ _ _ Hq); lia|]. exists qs, a. eexists. repeat split; try assumption; try reflexivity. rewrite Ha, <- Lq. reflexivity.
  - destruct l as [|x0 l0] eqn:El; [congruence|]. rewrite <- El in *. assert (Hx0 : In x0 l) by (rewrite El; left; reflexivity).
    destruct (numeric_get _ _ x0 i H Hx0 Hi) as [a0 Ea0]. pose proof (numeric_nth _ _ x0 i false a0 H Hx0 Ek Ea0) as Ka0.
    assert (A0 : atn l 0 = Ok x0) by (rewrite El; reflexivity).
    assert (G0 : get_attr x0 (Z.of_nat i) = Ok a0) by (apply get_attr_ok, feature_nth, Ea0).
    assert (C0 : isContinuous a0 = false) by (destruct a0; try reflexivity; exfalso; eapply Ka0; reflexivity).
    assert (D : exists vs, mapM (disc_at (Z.of_nat i)) l = Ok vs).
    { assert (D' : forall l', incl l' l -> exists vs, mapM (disc_at (Z.of_nat i)) l' = Ok vs).
      { induction l' as [|x l' IH]; intros HI; [eexists; reflexivity|]. destruct IH as [vs Hvs]; [intros y Hy; apply HI; right; exact Hy|].
        assert (Hx : In x l) by (apply HI; left; reflexivity). destruct (numeric_get _ _ x i H Hx Hi) as [a Ea].
        pose proof (numeric_nth _ _ x i false a H Hx Ek Ea) as Ka. cbn [mapM]. unfold disc_at at 1.
        rewrite (proj2 (get_attr_ok x (Z.of_nat i) a) (feature_nth _ _ _ Ea)). cbn [bind].
        destruct a; cbn [disc_value bind]; try (rewrite Hvs; eexists; reflexivity). exfalso; eapply Ka; reflexivity. }
      apply D', incl_refl. }
    destruct D as [vs Hvs]. unfold attr_average, attr_std. rewrite A0. cbn [bind]. rewrite G0. cbn [bind]. rewrite C0.
    destruct (isDiscrete a0); [rewrite Hvs; cbn [bind]|]; eexists; (split; [reflexivity|]); eexists; split; reflexivity || exact I.
Qed.
(** output of one attribute *)
Definition norm_out (l : ilist) (ks : list bool) (i : nat) (a : attr) (b : nattr) : Prop :=
  match nth_error ks i with
  | Some true => exists qs q m sd, num_column (Z.of_nat i) l (map Fin qs) /\ a = ACont (Fin q) /\ (m == qmean qs)%Q /\ b = NCont (rdivd (Fin (q + - m)) sd) /\
                  sd = (if length l <=? 1 then RNaN else RFin (sqrt (Q2R (sqdev qs / qofn (length qs - 1)))))
  | _ => b = NSame a
  end.
Lemma nth_error_combine_seq {A} (l : list A) i j p : nth_error (combine (seq j (length l)) l) i = Some p -> fst p = j + i /\ nth_error l i = Some (snd p).
Proof.
  revert i j. induction l as [|a l IH]; intros [|i] j E; try discriminate E; cbn in *.
  - injection E as <-. split; [cbn; lia|reflexivity].
  - destruct (IH i (S j) E) as [E1 E2]. split; [lia|exact E2].
Qed.
Lemma normalize_spec ks l : number_columns ks l -> l <> [] ->
  exists r, normalize l = Ok r /\ Forall2 (fun x y => exists bs, y = (label x, bs, composite x) /\ length bs = length ks /\
     forall i a b, nth_error (attrs x) i = Some a -> nth_error bs i = Some b -> norm_out l ks i a b) l r.
Proof.
  intros H Hn. destruct l as [|x0 l0] eqn:El; [congruence|]. rewrite <- El in *. assert (Hx0 : In x0 l) by (rewrite El; left; reflexivity).
  assert (A0 : atn l 0 = Ok x0) by (rewrite El; reflexivity).
  destruct (mapM_seq_gen (fun i => attr_average (Z.of_nat i) l) (fun i m => exists s, attr_std (Z.of_nat i) l = Ok s /\ col_stat ks l i m s) (length ks)) as (ms & Em & Lm & HPm);
    [intros i Hi; apply column_avg; assumption|].
  destruct (mapM_seq_gen (fun i => attr_std (Z.of_nat i) l) (fun i s => forall m, nth_error ms i = Some m -> col_stat ks l i m s) (length ks)) as (ss & Es & Ls & HPs).
  { intros i Hi. destruct (nth_error ms i) as [m|] eqn:E; [|apply nth_error_None in E; lia]. destruct (HPm i m E) as (s & Hs1 & Hs2).
    exists s. split; [exact Hs1|]. intros m' [= <-]. exact Hs2. }
  unfold normalize, average, std_all. rewrite A0. cbn [bind]. unfold attr_count. rewrite (numeric_len _ _ _ H Hx0). rewrite Em, Es. cbn [bind snd].
  assert (G : forall x, In x l -> exists bs, normalize_instance ms ss x = Ok (label x, bs, composite x) /\ length bs = length ks /\
     forall i a b, nth_error (attrs x) i = Some a -> nth_error bs i = Some b -> norm_out l ks i a b).
  { intros x Hx. unfold normalize_instance, attr_count.
    assert (N : forall p, In p (combine (seq 0 (length (attrs x))) (attrs x)) -> exists b, norm_attr ms ss (fst p) (snd p) = Ok b /\ norm_out l ks (fst p) (snd p) b).
    { intros p Hp. apply In_nth_error in Hp as [i Hi]. apply nth_error_combine_seq in Hi as [E1 E2]. cbn in E1. rewrite E1.
      assert (Hil : i < length ks) by (rewrite <- (numeric_len _ _ _ H Hx); apply nth_error_Some; congruence).
      destruct (nth_error ks i) as [k|] eqn:Ek; [|apply nth_error_None in Ek; lia].
      pose proof (numeric_nth _ _ x i k (snd p) H Hx Ek E2) as Kp. unfold norm_out. rewrite Ek. destruct k.
      - destruct Kp as [q Eq]. rewrite Eq. destruct (nth_error ms i) as [m|] eqn:E; [|apply nth_error_None in E; lia].
        destruct (nth_error ss i) as [s|] eqn:E'; [|apply nth_error_None in E'; lia]. pose proof (HPs i s E' m E) as C. unfold col_stat in C. rewrite Ek in C.
        destruct C as (qs & a & sd & Hq & -> & Ha & -> & Hsd). cbn [norm_attr]. rewrite (proj2 (atn_ok ms i _) E), (proj2 (atn_ok ss i _) E'). cbn [bind cont_value dsub dopp dadd].
        eexists. split; [reflexivity|]. exists qs, q, a, sd. repeat split; assumption.
      - exists (NSame (snd p)). split; [|reflexivity]. destruct (snd p); try reflexivity. exfalso. eapply Kp; reflexivity. }
    assert (M : exists bs, mapM (fun p => norm_attr ms ss (fst p) (snd p)) (combine (seq 0 (length (attrs x))) (attrs x)) = Ok bs /\
       Forall2 (fun p b => norm_out l ks (fst p) (snd p) b) (combine (seq 0 (length (attrs x))) (attrs x)) bs).
    { revert N. generalize (combine (seq 0 (length (attrs x))) (attrs x)). intros c. induction c as [|p c IH]; intros N; [exists []; split; [reflexivity|constructor]|].
      destruct IH as (bs & E & F); [intros p' Hp'; apply N; right; exact Hp'|]. destruct (N p (or_introl eq_refl)) as (b & Eb & Fb).
      exists (b :: bs). split; [cbn [mapM]; rewrite Eb; cbn [bind]; rewrite E; reflexivity|constructor; assumption]. }
    destruct M as (bs & E & F). rewrite E. cbn [bind]. exists bs. split; [reflexivity|]. split.
    - apply Forall2_len in F. rewrite <- F, combine_length, seq_length, (numeric_len _ _ _ H Hx). lia.
    - intros i a b Ha Hb. destruct (nth_error (combine (seq 0 (length (attrs x))) (attrs x)) i) as [p|] eqn:Ep.
      + pose proof (Forall2_nth _ _ _ i p b F Ep Hb) as R. apply nth_error_combine_seq in Ep as [E1 E2]. cbn in E1. cbv beta in R. rewrite E1 in R. rewrite Ha in E2. injection E2 as E2. rewrite E2. exact R.
      + apply nth_error_None in Ep. rewrite combine_length, seq_length in Ep. assert (i < length (attrs x)) by (apply nth_error_Some; congruence). lia. }
  assert (W : forall l1, (forall x, In x l1 -> In x l) -> exists r, mapM (normalize_instance ms ss) l1 = Ok r /\ Forall2 (fun x y => exists bs, y = (label x, bs, composite x) /\ length bs = length ks /\
     forall i a b, nth_error (attrs x) i = Some a -> nth_error bs i = Some b -> norm_out l ks i a b) l1 r); [|apply W; intros x Hx; exact Hx].
  intros l1 HI. assert (G' : forall x, In x l1 -> exists bs, normalize_instance ms ss x = Ok (label x, bs, composite x) /\ length bs = length ks /\
     forall i a b, nth_error (attrs x) i = Some a -> nth_error bs i = Some b -> norm_out l ks i a b) by (intros x Hx; apply G, HI, Hx).
  clear G HI. rename G' into G. revert G. induction l1 as [|x l1 IH]; intros G; [exists []; split; [reflexivity|constructor]|].
  destruct IH as (r & E & F); [intros y Hy; apply G; right; exact Hy|]. destruct (G x (or_introl eq_refl)) as (bs & E1 & E2 & E3).
  eexists. split; [cbn [mapM]; rewrite E1; cbn [bind]; rewrite E; reflexivity|]. constructor; [|exact F]. exists bs. repeat split; assumption.
Qed.

Lemma num_column_fun k l qs qs' : num_column k l (map Fin qs) -> num_column k l (map Fin qs') -> qs = qs'.
Proof.
  revert qs qs'. induction l as [|x l IH]; intros [|q qs] [|q' qs'] H H'; inversion H as [|? ? ? ? [_ H1] H2]; inversion H' as [|? ? ? ? [_ H1'] H2']; subst; [reflexivity|].
  rewrite H1 in H1'. injection H1' as ->. f_equal. apply IH; assumption.
Qed.
Lemma Q2R_qsum l : Q2R (qsum l) = rsum (map Q2R l).
Proof. induction l as [|q l IH]; cbn; [unfold Q2R; cbn; Lra.lra|]. rewrite Q2R_plus. unfold qsum, rsum in IH. rewrite IH. reflexivity. Qed.
Lemma rsum_scale {A} (f : A -> R) c l : (rsum (map (fun x => f x * c) l) = rsum (map f l) * c)%R.
Proof. induction l as [|a l IH]; cbn; [ring|]. unfold rsum in IH. rewrite IH. ring. Qed.
Lemma Q2R_qofn n : Q2R (qofn n) = INR n.
Proof. unfold qofn, Q2R, inject_Z. cbn. rewrite <- INR_IZR_INZ. field. Qed.
Lemma norm_column qs m : 2 <= length qs -> (m == qmean qs)%Q -> ~ constant qs ->
  let s := sqrt (Q2R (sqdev qs / qofn (length qs - 1))) in
  (0 < s)%R /\ rsum (map (fun q => Q2R (q + - m) / s)%R qs) = 0%R /\ rsum (map (fun q => (Q2R (q + - m) / s) * (Q2R (q + - m) / s))%R qs) = INR (length qs - 1).
Proof.
  intros L Hm Hc s. assert (Hs0 : (0 < sqdev qs)%Q).
  { destruct (Qlt_le_dec 0 (sqdev qs)) as [H|H]; [exact H|]. exfalso. apply Hc. refine (proj1 (sqdev_zero qs ltac:(lia)) _). apply Qle_antisym; [exact H|apply sqdev_nonneg]. }
  pose proof (qofn_pos (length qs - 1) ltac:(lia)) as Hn. destruct (std_props qs L) as [P1 P2]. fold s in P1, P2.
  assert (Hp : (0 < s)%R).
  { apply sqrt_lt_R0. replace 0%R with (Q2R 0) by (unfold Q2R; cbn; Lra.lra). apply Qlt_Rlt. apply Qlt_shift_div_l; [exact Hn|]. rewrite Qmult_0_l. exact Hs0. }
  split; [exact Hp|]. split.
  - unfold Rdiv. rewrite (rsum_scale (fun q => Q2R (q + - m))). rewrite <- (map_map (fun q => (q + - m)%Q) Q2R), <- Q2R_qsum.
    assert (E : (qsum (map (fun q => q + - m) qs) == 0)%Q).
    { rewrite qsum_plus. rewrite (qsum_const (- m)). rewrite map_id. pose proof (qmean_times qs ltac:(destruct qs; [cbn in L; lia|congruence])) as T. rewrite <- T, Hm. ring. }
    rewrite (Qeq_eqR _ _ E). unfold Q2R; cbn. ring.
  - assert (E : rsum (map (fun q => (Q2R (q + - m) / s) * (Q2R (q + - m) / s))%R qs) = (Q2R (sqdev qs) * (/ s * / s))%R).
    { unfold sqdev. rewrite Q2R_qsum, map_map, <- rsum_scale. f_equal. apply map_ext. intros q. unfold Rdiv.
      rewrite (Qeq_eqR ((q - qmean qs) * (q - qmean qs)) ((q + - m) * (q + - m))) by (rewrite Hm; unfold Qminus; reflexivity). rewrite Q2R_mult. ring. }
    rewrite E, <- P2, Q2R_qofn. field. Lra.lra.
Qed.
Lemma norm_constant qs m q : 1 <= length qs -> (m == qmean qs)%Q -> constant qs -> In q qs -> 
  rdivd (Fin (q + - m)) (RFin (sqrt (Q2R (sqdev qs / qofn (length qs - 1))))) = RNaN.
Proof.
  intros L Hm Hc Hq. assert (S0 : (sqdev qs == 0)%Q) by (apply (proj2 (sqdev_zero qs L)); exact Hc).
  assert (E : sqrt (Q2R (sqdev qs / qofn (length qs - 1))) = 0%R).
  { rewrite (Qeq_eqR _ 0%Q) by (unfold Qdiv; rewrite S0; ring). unfold Q2R; cbn. rewrite Rmult_0_l. apply sqrt_0. }
  rewrite E. cbn [rdivd]. destruct (Req_EM_T 0 0) as [_|F]; [|exfalso; apply F; reflexivity].
  assert (Z : (q + - m == 0)%Q).
  { assert (qsum qs == q * qofn (length qs))%Q.
    { rewrite <- (map_id qs) at 1. rewrite (qsum_ext _ (fun _ => q) qs) by (intros x Hx; apply Hc; assumption). apply qsum_const. }
    rewrite Hm. unfold qmean. rewrite H. pose proof (qofn_pos (length qs) L). field. intros F; rewrite F in H0. inversion H0. }
  rewrite (proj2 (Qeq_bool_iff _ _) Z). reflexivity.
Qed.

(** * Principal components *)
Lemma vdot_fin_from u e a : exists r, fold_left (fun s p => dadd s (dmul (fst p) (snd p))) (combine (map Fin u) (map Fin e)) (Fin a) = Fin r /\ (r == a + qdot u e)%Q.
Proof.
  revert e a. induction u as [|x u IH]; intros e a; [exists a; split; [reflexivity|unfold qdot; cbn; ring]|].
  destruct e as [|y e]; [exists a; split; [reflexivity|unfold qdot; cbn; ring]|]. cbn [map combine fold_left fst snd dmul dadd].
  destruct (IH e (a + x * y)%Q) as (r & E & Hr). exists r. split; [exact E|]. rewrite Hr. change (qdot (x :: u) (y :: e)) with (x * y + qdot u e)%Q. ring.
Qed.
Lemma pca_convert_spec (ev : list (list Q)) (x : instance) (v : list Q) : inst_vals x = map Fin v -> Forall (fun e => length e = length v) ev ->
  exists ds, pca_convert (map (map Fin) ev) x = mkInst (label x) (map ACont ds) (composite x) /\ Forall2 (fun d e => deq d (Fin (qdot v e))) ds ev.
Proof.
  intros Hv HL. unfold pca_convert. rewrite Hv. unfold remove_all_attrs.
  assert (G : forall acc, exists ds, fold_left (fun y e => match dot_opt (map Fin v) e with Some d => add_attr y (ACont d) | None => y end) (map (map Fin) ev) (mkInst (label x) acc (composite x)) =
     mkInst (label x) (acc ++ map ACont ds) (composite x) /\ Forall2 (fun d e => deq d (Fin (qdot v e))) ds ev).
  { induction HL as [|e ev He HF IH]; intros acc; [exists []; split; [cbn; rewrite app_nil_r; reflexivity|constructor]|].
    cbn [map fold_left]. unfold dot_opt at 2. rewrite !map_length, He, Nat.eqb_refl. unfold add_attr at 2. cbn [label attrs composite].
    destruct (IH (acc ++ [ACont (vdot (map Fin v) (map Fin e))])) as (ds & E & F).
    exists (vdot (map Fin v) (map Fin e) :: ds). split; [rewrite E, <- app_assoc; reflexivity|]. constructor; [|exact F].
    destruct (vdot_fin_from v e 0%Q) as (r & Er & Hr). unfold vdot, d0. rewrite Er. cbn [deq]. rewrite Hr. ring. }
  exact (G []).
Qed.
