(** Lemmas about choosing a label and about training of the neural network models. *)
From Coq Require Import String ZArith QArith Qabs Bool Lia Lra Lqa Permutation List.
From Verif Require Import Base Spec BaseLemmas DblLemmas AttrModel AttrProofs DataSetModel InstanceListModel PartitionModel PerformanceModel DistanceModel GaussianModel
  ListSpec ListProofs PartitionProofs GaussianProofs SvmSpec KernelProofs SolverInvProofs SvmTrainProofs NetModel NetSpec NetProofs.
Import ListNotations.
Local Open Scope string_scope.
Local Open Scope list_scope.
Local Open Scope nat_scope.

(** * The two readings of stored numbers *)
Definition anyP (d : dbl) (q : Q) : Prop := True.
Definition valP (d : dbl) (q : Q) : Prop := deq d (Fin q).
Lemma anyP_closed : closed anyP.
Proof. constructor; intros; exact I. Qed.
Lemma valP_inv d q : valP d q -> exists q', d = Fin q' /\ (q' == q)%Q.
Proof. unfold valP. destruct d; cbn; try tauto. eauto. Qed.
Lemma valP_closed : closed valP.
Proof.
  constructor.
  - intros d q q' Hq H. apply valP_inv in H. destruct H as (p & -> & H). unfold valP. cbn. rewrite H. exact Hq.
  - intros a b x y Ha Hb. apply valP_inv in Ha, Hb. destruct Ha as (p & -> & Ha). destruct Hb as (r & -> & Hb). unfold valP. cbn. rewrite Ha, Hb. reflexivity.
  - intros a b x y Ha Hb. apply valP_inv in Ha, Hb. destruct Ha as (p & -> & Ha). destruct Hb as (r & -> & Hb). unfold valP. cbn. rewrite Ha, Hb. reflexivity.
  - intros a b x y Ha Hb. apply valP_inv in Ha, Hb. destruct Ha as (p & -> & Ha). destruct Hb as (r & -> & Hb). unfold valP. cbn. rewrite Ha, Hb. reflexivity.
  - intros a b x y Ha Hb Hy. apply valP_inv in Ha, Hb. destruct Ha as (p & -> & Ha). destruct Hb as (r & -> & Hb). unfold valP.
    rewrite ddiv_fin by (rewrite Hb; exact Hy). cbn. rewrite Ha, Hb. reflexivity.
  - intros a x Ha. apply valP_inv in Ha. destruct Ha as (p & -> & Ha). unfold valP. cbn. rewrite Ha. reflexivity.
  - reflexivity.
  - reflexivity.
  - intros a x Ha. apply valP_inv in Ha. destruct Ha as (p & -> & Ha). unfold valP, drelu, d0. cbn [dltb]. rewrite (qle_bool_proper 0 0 p x (Qeq_refl _) Ha).
    destruct (Qle_bool 0 x); cbn; [exact Ha|reflexivity].
  - intros a x Ha. apply valP_inv in Ha. destruct Ha as (p & -> & Ha). unfold valP, drelu_deriv, dgtb, d0, d1. cbn [dltb]. rewrite (qle_bool_proper p x 0 0 Ha (Qeq_refl _)).
    destruct (Qle_bool x 0); reflexivity.
Qed.
Lemma exp_valP dexp e : exp_like dexp e -> forall d q, valP d q -> valP (dexp d) (e q).
Proof. 
  intros H d q Hd. apply valP_inv in Hd. destruct Hd as (p & -> & Hp). apply (c_proper _ valP_closed _ (e p)); [apply (exp_proper _ _ H); exact Hp|]. apply (exp_fin _ _ H).
Qed.
Lemma tanh_valP dtanh th : tanh_like dtanh th -> forall d q, valP d q -> valP (dtanh d) (th q).
Proof. 
  intros H d q Hd. apply valP_inv in Hd. destruct Hd as (p & -> & Hp). apply (c_proper _ valP_closed _ (th p)); [apply (tanh_proper _ _ H); exact Hp|]. apply (tanh_fin _ _ H).
Qed.

(** shapes as the trivial reading *)
Definition wzero (i j : nat) : Q := 0.
Lemma shape_any m r c w : is_shape m r c <-> matP anyP m r c w.
Proof. split; [intros H; split; [exact H|intros; exact I]|intros (H & _); exact H]. Qed.
Lemma input_any x d : inst_size x = d -> vecP anyP (inst_vector x) d (fun _ => 0%Q).
Proof. intros <-. split; [|intros; exact I]. pose proof (input_length x) as H. unfold input_vector, biased in H. cbn in H. lia. Qed.
Definition blank (rs : list nat) : list layer := map (fun r => (r, wzero)) rs.
Lemma blank_sizes rs : map fst (blank rs) = rs.
Proof. unfold blank. rewrite map_map. cbn. apply map_id. Qed.
Lemma size_blank n rs k : size n (blank rs) k = nth k (n :: rs) 0.
Proof. unfold size. rewrite blank_sizes. reflexivity. Qed.
Lemma chain_any ms n rs ls : map fst ls = rs -> (is_chain ms n rs <-> netP anyP ms n ls).
Proof.
  intros <-. unfold is_chain, netP. rewrite map_length. split; intros (H & V); (split; [exact H|]); intros k m Hk; specialize (V k m Hk).
  - apply shape_any. exact V.
  - apply shape_any in V. exact V.
Qed.

Lemma elem_le_sum n f i : i < n -> (forall j, j < n -> (0 <= f j)%Q) -> (f i <= sum_over n f)%Q.
Proof.
  induction n as [|n IH]; intros Hi Hf; [lia|]. rewrite sum_S. assert (0 <= sum_over n f)%Q as H0.
  { apply Qle_trans with (sum_over n (fun _ => 0%Q)); [rewrite sum_zero; [lra|reflexivity]|]. apply sum_le. intros; apply Hf; lia. }
  destruct (Nat.eq_dec i n) as [->|Hn]; [lra|]. specialize (IH ltac:(lia) ltac:(intros; apply Hf; lia)). specialize (Hf n ltac:(lia)). lra.
Qed.
(** * Choosing a label *)
Section Scan.
Context (f : nat -> Q).
Lemma max_scan_val v : forall i best, (forall k, k < length v -> valP (nth k v NaN) (f (i + k))) -> fst best < i -> valP (snd best) (f (fst best)) ->
  (forall j, j < i -> (f j <= f (fst best))%Q) -> (forall j, j < fst best -> (f j < f (fst best))%Q) ->
  let m := max_scan i v best in m < i + length v /\ (forall j, j < i + length v -> (f j <= f m)%Q) /\ (forall j, j < m -> (f j < f m)%Q).
Proof.
  induction v as [|a v IH]; intros i best Hv Hb Hbv Hle Hlt; cbn [max_scan length].
  - rewrite Nat.add_0_r. auto.
  - assert (valP a (f i)) as Ha. { specialize (Hv 0). cbn in Hv. rewrite Nat.add_0_r in Hv. apply Hv. lia. }
    pose proof Ha as Ha'. apply valP_inv in Ha'. destruct Ha' as (q & -> & Hq). pose proof Hbv as Hbv'. apply valP_inv in Hbv'. destruct Hbv' as (p & Ep & Hp).
    destruct (dgtb (Fin q) (snd best)) eqn:G; unfold dgtb in G; rewrite Ep in G; [apply dltb_fin in G|apply dltb_fin_false in G]; rewrite Hq, Hp in G.
    + assert (i + S (length v) = S i + length v) as -> by lia. apply (IH (S i) (i, Fin q)).
      * intros k Hk. specialize (Hv (S k)). cbn in Hv. replace (S i + k) with (i + S k) by lia. apply Hv. lia.
      * cbn. lia.
      * exact Ha.
      * cbn [fst]. intros j Hj. destruct (Nat.eq_dec j i) as [->|]; [lra|]. specialize (Hle j ltac:(lia)). lra.
      * cbn [fst]. intros j Hj. specialize (Hle j Hj). lra.
    + assert (i + S (length v) = S i + length v) as -> by lia. apply (IH (S i) best).
      * intros k Hk. specialize (Hv (S k)). cbn in Hv. replace (S i + k) with (i + S k) by lia. apply Hv. lia.
      * lia.
      * exact Hbv.
      * intros j Hj. destruct (Nat.eq_dec j i) as [->|]; [exact G|]. apply Hle. lia.
      * exact Hlt.
Qed.
Lemma max_index_val v n : vecP valP v n f -> 0 < n -> exists m, max_index v = Ok m /\ m < n /\ (forall j, j < n -> (f j <= f m)%Q) /\ (forall j, j < m -> (f j < f m)%Q).
Proof.
  intros (L & V) Hn. destruct v as [|a v]; [cbn in L; lia|]. cbn [max_index]. eexists. split; [reflexivity|]. cbn in L.
  pose proof (max_scan_val v 1 (0, a)) as H. cbn zeta in H. cbn [fst snd] in H. replace (1 + length v) with n in H by lia. apply H.
  - intros k Hk. specialize (V (S k)). cbn in V. apply V. lia.
  - lia.
  - specialize (V 0). cbn in V. apply V. lia.
  - intros j Hj. replace j with 0 by lia. apply Qle_refl.
  - intros j Hj. lia.
Qed.
End Scan.
Lemma max_scan_bound v : forall i best, fst best < i -> max_scan i v best < i + length v.
Proof.
  induction v as [|a v IH]; intros i best Hb; cbn [max_scan length]; [lia|]. assert (i + S (length v) = S i + length v) as -> by lia.
  apply IH. destruct (dgtb a (snd best)); cbn; lia.
Qed.
Lemma max_index_total v : v <> [] -> exists m, max_index v = Ok m /\ m < length v.
Proof.
  destruct v as [|a v]; [congruence|]. intros _. cbn [max_index length]. eexists. split; [reflexivity|]. change (S (length v)) with (1 + length v). apply max_scan_bound. cbn. lia.
Qed.

(** ** composite instances *)
Lemma idxn_lt {A} (l : list A) i : i < length l -> exists v, idxn l i = Ok v.
Proof. intros H. destruct (nth_error l i) as [v|] eqn:E; [|apply nth_error_None in E; lia]. exists v. apply idxn_ok. exact E. Qed.
Lemma composite_total labels possible y : length y = length labels -> possible <> [] -> exists c, predict_composite labels possible y = Ok c /\ In c possible.
Proof.
  intros L Hp. unfold predict_composite. destruct possible as [|p0 ps]; [congruence|]. change (atn (p0 :: ps) 0) with (Ok p0 : res string). cbn [bind].
  destruct (foldM_inv_ok (composite_step labels (p0 :: ps) y) (seq 0 (length labels)) (fun _ st => In (snd st) (p0 :: ps)) (dopp dbl_max, p0)) as (st & -> & Hst).
  - left. reflexivity.
  - intros P1 i P2 st EP Hst. pose proof (seq_prefix _ _ _ _ EP) as Hi.
    assert (i < length labels) as Hlt. { assert (length (seq 0 (length labels)) = length labels) by apply seq_length. rewrite EP, app_length in H. cbn in H. lia. }
    unfold composite_step, atn. destruct (nth_error labels i) as [c|] eqn:Ec; [|apply nth_error_None in Ec; lia]. cbn [bind]. 
    destruct (mem_str c (p0 :: ps)) eqn:Em; [|eauto]. destruct (idxn_lt y i ltac:(lia)) as (v & ->). cbn [bind]. eexists. split; [reflexivity|].
    destruct (dgtb v (fst st)); [|exact Hst]. cbn [snd]. apply mem_str_in. exact Em.
  - cbn [bind]. eauto.
Qed.
Lemma dbl_max_val : valP (dopp dbl_max) (- MAXQ)%Q.
Proof. unfold valP. vm_compute. reflexivity. Qed.
Section Composite.
Context (labels possible : list string) (f : nat -> Q).
(** best among the possible labels seen so far, among the first [k] labels *)
Definition comp_best (p0 : string) (k : nat) (st : dbl * string) : Prop :=
  (st = (dopp dbl_max, p0) /\ forall j c, j < k -> nth_error labels j = Some c -> ~ In c possible) \/
  (exists i, i < k /\ nth_error labels i = Some (snd st) /\ In (snd st) possible /\ valP (fst st) (f i) /\
     (forall j c, j < k -> nth_error labels j = Some c -> In c possible -> (f j <= f i)%Q) /\
     (forall j c, j < i -> nth_error labels j = Some c -> In c possible -> (f j < f i)%Q)).
Lemma composite_val y p0 ps : possible = p0 :: ps -> vecP valP y (length labels) f ->
  (forall j c, nth_error labels j = Some c -> In c possible -> (- MAXQ < f j)%Q) ->
  exists c, predict_composite labels possible y = Ok c /\
    ((exists c', In c' labels /\ In c' possible) -> first_best labels (fun c => In c possible) f c) /\
    ((forall c', In c' labels -> ~ In c' possible) -> c = p0).
Proof.
  intros Ep (L & V) Hf. unfold predict_composite. assert (atn possible 0 = Ok p0) as -> by (rewrite Ep; reflexivity). cbn [bind].
  destruct (foldM_inv_ok (composite_step labels possible y) (seq 0 (length labels)) (fun P st => comp_best p0 (length P) st) (dopp dbl_max, p0)) as (st & -> & Hst).
  - left. split; [reflexivity|]. intros j c Hj. cbn in Hj. lia.
  - intros P1 i P2 st EP Hst. pose proof (seq_prefix _ _ _ _ EP) as Hi. rewrite app_length. cbn [length]. rewrite <- Hi in *.
    assert (i < length labels) as Hlt. { assert (length (seq 0 (length labels)) = length labels) by apply seq_length. rewrite EP, app_length in H. cbn in H. lia. }
    unfold composite_step, atn. destruct (nth_error labels i) as [c|] eqn:Ec; [|apply nth_error_None in Ec; lia]. cbn [bind].
    destruct (mem_str c possible) eqn:Em.
    + apply mem_str_in in Em. destruct (idxn_lt y i ltac:(lia)) as (v & Ev). rewrite Ev. cbn [bind]. eexists. split; [reflexivity|].
      assert (valP v (f i)) as Hv. { specialize (V i Hlt). apply idxn_ok in Ev. rewrite (nth_error_nth _ _ NaN Ev) in V. exact V. }
      pose proof Hv as Hv'. apply valP_inv in Hv'. destruct Hv' as (q & -> & Hq). right. destruct Hst as [(-> & Hn)|(b & Hb & Eb & Hbp & Hbv & Hle & Hl)].
      * cbn [fst snd]. pose proof dbl_max_val as Hm. apply valP_inv in Hm. destruct Hm as (m & -> & Hm). specialize (Hf i c Ec Em).
        assert (dgtb (Fin q) (Fin m) = true) as ->. { unfold dgtb. apply dltb_fin. rewrite Hq, Hm. exact Hf. } cbn [fst snd].
        exists i. split; [lia|]. split; [exact Ec|]. split; [exact Em|]. split; [exact Hv|]. split.
        -- intros j c' Hj Ej Hp. destruct (Nat.eq_dec j i) as [->|]; [apply Qle_refl|]. exfalso. apply (Hn j c'); auto. lia.
        -- intros j c' Hj Ej Hp. exfalso. apply (Hn j c'); auto.
      * pose proof Hbv as Hbv'. apply valP_inv in Hbv'. destruct Hbv' as (p & Ep' & Hp'). rewrite Ep'.
        destruct (dgtb (Fin q) (Fin p)) eqn:G; unfold dgtb in G; [apply dltb_fin in G|apply dltb_fin_false in G]; rewrite Hq, Hp' in G; cbn [fst snd].
        -- exists i. split; [lia|]. split; [exact Ec|]. split; [exact Em|]. split; [exact Hv|]. split.
           ++ intros j c' Hj Ej Hp. destruct (Nat.eq_dec j i) as [->|]; [apply Qle_refl|]. specialize (Hle j c' ltac:(lia) Ej Hp). lra.
           ++ intros j c' Hj Ej Hp. specialize (Hle j c' Hj Ej Hp). lra.
        -- exists b. split; [lia|]. split; [exact Eb|]. split; [exact Hbp|]. split; [exact Hbv|]. split; [|exact Hl].
           intros j c' Hj Ej Hp. destruct (Nat.eq_dec j i) as [->|]; [exact G|]. apply (Hle j c'); auto. lia.
    + assert (~ In c possible) as Hnp. { intros H. apply mem_str_in in H. congruence. }
      eexists. split; [reflexivity|]. destruct Hst as [(-> & Hn)|(b & Hb & Eb & Hbp & Hbv & Hle & Hl)].
      * left. split; [reflexivity|]. intros j c' Hj Ej. destruct (Nat.eq_dec j i) as [->|]; [|apply (Hn j); auto; lia]. congruence.
      * right. exists b. split; [lia|]. do 3 (split; [assumption|]). split; [|exact Hl].
        intros j c' Hj Ej Hp. destruct (Nat.eq_dec j i) as [->|]; [congruence|]. apply (Hle j c'); auto. lia.
  - cbn [bind]. rewrite seq_length in Hst. eexists. split; [reflexivity|]. destruct Hst as [(-> & Hn)|(b & Hb & Eb & Hbp & Hbv & Hle & Hl)].
    + split; [|intros _; reflexivity]. intros (c' & Hc & Hp). exfalso. apply In_nth_error in Hc. destruct Hc as (j & Ej). apply (Hn j c'); auto. apply nth_error_Some. congruence.
    + split.
      * intros _. exists b. split; [exact Eb|]. split; [exact Hbp|]. split; [|exact Hl]. intros j c' Ej Hp. apply (Hle j c'); auto. apply nth_error_Some. congruence.
      * intros Hn. exfalso. apply (Hn (snd st)); [eapply nth_error_In; exact Eb|exact Hbp].
Qed.
End Composite.
Lemma choose_total labels y x : length y = length labels -> labels <> [] -> composite x <> Some [] -> exists c, choose labels y x = Ok c.
Proof.
  intros L Hl Hc. unfold choose. destruct (composite x) as [ps|] eqn:E.
  - destruct (composite_total labels ps y L) as (c & -> & _); [congruence|eauto].
  - destruct (max_index_total y) as (m & -> & Hm). { intros ->. destruct labels; [congruence|discriminate]. }
    cbn [bind]. unfold atn. destruct (nth_error labels m) eqn:En; [eauto|]. apply nth_error_None in En. lia.
Qed.
Lemma choose_val labels y x f : vecP valP y (length labels) f -> labels <> [] -> composite x = None -> exists c, choose labels y x = Ok c /\ first_best labels (fun _ => True) f c.
Proof.
  intros Hy Hl Hc. unfold choose. rewrite Hc. destruct (max_index_val f y (length labels) Hy) as (m & -> & Hm & Hle & Hlt). { destruct labels; [congruence|cbn; lia]. }
  cbn [bind]. unfold atn. destruct (nth_error labels m) as [c|] eqn:En; [|apply nth_error_None in En; lia]. exists c. split; [reflexivity|]. exists m. split; [exact En|]. split; [exact I|]. split.
  - intros j c' Ej _. apply Hle. apply nth_error_Some. congruence.
  - intros j c' Hj Ej _. apply Hlt. exact Hj.
Qed.

Lemma chosen_ok labels y x f : vecP valP y (length labels) f -> labels <> [] -> composite x <> Some [] -> in_range labels x f -> exists c, choose labels y x = Ok c /\ chosen labels x f c.
Proof.
  intros Hy Hl Hc Hr. unfold chosen. destruct (composite x) as [ps|] eqn:E.
  - destruct Hr as [H|Hr]; [congruence|]. unfold choose. rewrite E. destruct ps as [|p0 ps]; [congruence|].
    destruct (composite_val labels (p0 :: ps) f y p0 ps eq_refl Hy) as (c & Ec & H1 & H2). { intros j c Ej _. apply Hr. apply nth_error_Some. congruence. }
    destruct (composite_total labels (p0 :: ps) y (proj1 Hy) ltac:(discriminate)) as (c' & Ec' & Hin). exists c. split; [exact Ec|]. assert (c' = c) by congruence. subst c'.
    split; [exact Hin|]. split; [exact H1|]. intros H. cbn. f_equal. symmetry. apply H2, H.
  - apply choose_val; assumption.
Qed.
(** ** predictProbability *)
Lemma probability_map labels (y : list dbl) : length y = length labels -> NoDup labels ->
  exists m, foldM (fun m i => do c <- idxn labels i; do v <- idxn y i; Ok (mset c v m)) (seq 0 (length labels)) [] = Ok m /\
    (forall i c v, nth_error labels i = Some c -> nth_error y i = Some v -> mfind c m = Some v) /\ (forall c v, mfind c m = Some v -> In c labels).
Proof.
  intros L Hnd.
  destruct (foldM_inv_ok (fun m i => do c <- idxn labels i; do v <- idxn y i; Ok (mset c v m)) (seq 0 (length labels))
    (fun P m => (forall i c v, i < length P -> nth_error labels i = Some c -> nth_error y i = Some v -> mfind c m = Some v) /\ (forall c v, mfind c m = Some v -> In c labels)) []) as (m & E & H1 & H2).
  - split; [intros i c v Hi; cbn in Hi; lia|]. intros c v H. discriminate.
  - intros P1 i P2 m EP (H1 & H2). pose proof (seq_prefix _ _ _ _ EP) as Hi.
    assert (i < length labels) as Hlt. { assert (length (seq 0 (length labels)) = length labels) by apply seq_length. rewrite EP, app_length in H. cbn in H. lia. }
    destruct (idxn_lt labels i Hlt) as (c & Ec). destruct (idxn_lt y i ltac:(lia)) as (v & Ev). rewrite Ec. cbn [bind]. rewrite Ev. cbn [bind]. apply idxn_ok in Ec, Ev.
    eexists. split; [reflexivity|]. split.
    + intros j c' v' Hj Ec' Ev'. rewrite app_length in Hj. cbn in Hj. rewrite mfind_mset. destruct (String.eqb_spec c c') as [<-|Hn].
      * assert (j = i) as -> by (apply (proj1 (NoDup_nth_error labels) Hnd); [apply nth_error_Some; congruence|congruence]). congruence.
      * apply (H1 j); auto. assert (j <> i) by congruence. lia.
    + intros c' v' H. rewrite mfind_mset in H. destruct (String.eqb_spec c c') as [<-|Hn]; [eapply nth_error_In; exact Ec|]. eapply H2. exact H.
  - exists m. split; [exact E|]. split; [|exact H2]. intros i c v Ec Ev. rewrite seq_length in H1. apply (H1 i); auto. apply nth_error_Some. congruence.
Qed.
(** * Testing on the validation list *)
Lemma net_test_accuracy output labels va y :
  Forall (fun x => exists o c, (forall y, output (input_vector x) y = Ok o) /\ choose labels o x = Ok c) va ->
  exists a y', net_test output labels va y = Ok (a, y') /\ forall y0, accuracy (fun x => rmap fst (net_predict output labels y0 x)) va a.
Proof.
  intros H. unfold net_test.
  assert (forall l n y, Forall (fun x => exists o c, (forall y, output (input_vector x) y = Ok o) /\ choose labels o x = Ok c) l ->
     exists ps y', foldM (fun st x => do p <- net_predict output labels (snd st) x;
                              Ok (if String.eqb (label x) (fst p) then S (fst st) else fst st, snd p)) l (n, y) =
       Ok (n + countb (fun xp => String.eqb (label (fst xp)) (snd xp)) (combine l ps), y') /\ forall y0, Forall2 (fun x p => rmap fst (net_predict output labels y0 x) = Ok p) l ps) as G.
  { clear. induction l as [|x l IH]; intros n y H.
    - exists [], y. cbn. rewrite Nat.add_0_r. split; [reflexivity|intros; constructor].
    - inversion H as [|? ? (o & c & Ho & Hc) Hl]; subst. cbn [foldM]. unfold net_predict at 1. cbn [snd]. rewrite Ho. cbn [bind]. rewrite Hc. cbn [bind fst snd].
      destruct (IH (if String.eqb (label x) c then S n else n) o Hl) as (ps & y' & E & F). exists (c :: ps), y'. split.
      + rewrite E. cbn [combine]. unfold countb at 2. cbn [filter fst snd]. f_equal. f_equal. unfold countb. destruct (String.eqb (label x) c); cbn [length]; lia.
      + intros y0. constructor; [|exact (F y0)]. unfold net_predict. rewrite Ho. cbn [bind]. rewrite Hc. reflexivity. }
  destruct (G va 0 y H) as (ps & y' & -> & F). cbn [bind fst snd]. eexists _, _. split; [reflexivity|]. intros y0. exists ps. split; [exact (F y0)|]. cbn [Nat.add]. reflexivity.
Qed.

(** * The epoch loop *)
Definition best_of (better weak : dbl -> dbl -> bool) (base : dbl) (accs : list dbl) (k : nat) : Prop :=
  (k = 0 /\ forall a, In a accs -> better a base = false) \/
  (exists a, nth_error accs (k - 1) = Some a /\ 0 < k /\ better a base = true /\
     (forall j b, nth_error accs j = Some b -> better b a = false) /\
     (forall j b, j < k - 1 -> nth_error accs j = Some b -> weak b a = false)).
Record order_like (better weak : dbl -> dbl -> bool) : Prop := {
  ol_step : forall a b s, better a s = true -> better b s = false -> weak b a = false;
  ol_weak : forall a b, weak b a = false -> better b a = false;
  ol_irrefl : forall a, better a a = false;
  ol_trans : forall a b c, better a b = true -> better b c = true -> better a c = true }.
Lemma qle_true x y : Qle_bool x y = true <-> (x <= y)%Q.
Proof. apply Qle_bool_iff. Qed.
Lemma qle_false x y : Qle_bool x y = false <-> (y < x)%Q.
Proof. destruct (Qle_bool x y) eqn:E; [apply Qle_bool_iff in E|]; split; intros H; try discriminate; try lra; auto. apply Qnot_le_lt. intros H'. apply Qle_bool_iff in H'. congruence. Qed.
Ltac dord := unfold dgtb, dgeb, dltb, dleb; intros; repeat match goal with d : dbl |- _ => destruct d end; try discriminate; try reflexivity; try assumption;
  rewrite ?negb_true_iff, ?negb_false_iff, ?qle_true, ?qle_false in *; try lra.
Lemma high_order : order_like dgtb dgeb.
Proof. constructor; dord. Qed.
Lemma low_order : order_like dltb dleb.
Proof. constructor; dord. Qed.
Lemma best_high_of base accs k : best_of dgtb dgeb base accs k -> best_high base accs k.
Proof. intros H. exact H. Qed.
Lemma best_low_of base accs k : best_of dltb dleb base accs k -> best_low base accs k.
Proof. intros H. exact H. Qed.

(** [k]-th rate *)
Lemma rate_at_S rate decay i : rate_at rate decay (S i) = dmul (rate_at rate decay i) decay.
Proof. reflexivity. Qed.
Section Epochs.
Context {S W : Type} (body : dbl -> S -> res S) (score : S -> res (dbl * S)) (better weak : dbl -> dbl -> bool) (Hord : order_like better weak) (weights : S -> W) (decay rate : dbl) (score0 : dbl) (start : S).
Context (Inv : S -> Prop) (Pass : dbl -> W -> W -> Prop) (Acc : W -> dbl -> Prop) (H0 : Inv start).
Context (Hbody : forall r s, Inv s -> exists s', body r s = Ok s' /\ Inv s' /\ Pass r (weights s) (weights s')).
Context (Hscore : forall s, Inv s -> exists a s', score s = Ok (a, s') /\ Inv s' /\ weights s' = weights s /\ Acc (weights s) a).
Lemma best_snoc accs a k s : (k = 0 /\ s = score0 \/ 0 < k /\ nth_error accs (k - 1) = Some s) -> k <= length accs -> best_of better weak score0 accs k ->
  let k' := if better a s then Datatypes.S (length accs) else k in
  best_of better weak score0 (accs ++ [a]) k' /\ (k' = 0 /\ (if better a s then a else s) = score0 \/ 0 < k' /\ nth_error (accs ++ [a]) (k' - 1) = Some (if better a s then a else s)).
Proof.
  intros Hs Hk HB. cbn zeta. destruct (better a s) eqn:G.
  - assert (forall j b, nth_error accs j = Some b -> better b s = false) as Hall.
    { destruct HB as [(-> & Hn)|(s' & Es & Hk' & _ & Hb & _)].
      - destruct Hs as [(_ & ->)|(? & _)]; [|lia]. intros j b Hj. apply Hn. eapply nth_error_In. exact Hj.
      - destruct Hs as [(? & _)|(_ & Es')]; [lia|]. assert (s' = s) by congruence. subst. exact Hb. }
    assert (better a score0 = true) as Hbase.
    { destruct HB as [(-> & Hn)|(s' & Es & Hk' & Hb0 & Hb & _)]; destruct Hs as [(? & E)|(? & Es')]; try lia; [subst; exact G|].
      assert (s' = s) by congruence. subst. eapply (ol_trans _ _ Hord); eassumption. }
    assert (nth_error (accs ++ [a]) (length accs) = Some a) as Ea by (rewrite nth_error_app2, Nat.sub_diag by lia; reflexivity).
    split; [|right; split; [lia|]; cbn; rewrite Nat.sub_0_r; exact Ea]. right. exists a. cbn [Nat.sub]. rewrite Nat.sub_0_r. split; [exact Ea|]. split; [lia|]. split; [exact Hbase|]. split.
    + intros j b Hj. destruct (Nat.lt_ge_cases j (length accs)) as [Hlt|Hge].
      * rewrite nth_error_app1 in Hj by lia. apply (ol_weak _ _ Hord), (ol_step _ _ Hord) with (s := s); [exact G|]. eapply Hall. exact Hj.
      * rewrite nth_error_app2 in Hj by lia. destruct (j - length accs) as [|[|]]; cbn in Hj; try discriminate. inversion Hj; subst. apply (ol_irrefl _ _ Hord).
    + intros j b Hlt Hj. rewrite nth_error_app1 in Hj by lia. apply (ol_step _ _ Hord) with (s := s); [exact G|]. eapply Hall. exact Hj.
  - split.
    + destruct HB as [(-> & Hn)|(s' & Es & Hk' & Hb0 & Hb & Hw)].
      * left. split; [reflexivity|]. intros b Hb. apply in_app_or in Hb. destruct Hb as [Hb|[<-|[]]]; [apply Hn, Hb|]. destruct Hs as [(_ & ->)|(? & _)]; [exact G|lia].
      * right. exists s'. destruct Hs as [(? & _)|(_ & Es')]; [lia|]. assert (s' = s) by congruence. subst s'.
        split; [rewrite nth_error_app1 by lia; exact Es|]. split; [exact Hk'|]. split; [exact Hb0|]. split.
        -- intros j b Hj. destruct (Nat.lt_ge_cases j (length accs)) as [Hlt|Hge]; [rewrite nth_error_app1 in Hj by lia; eapply Hb; exact Hj|].
           rewrite nth_error_app2 in Hj by lia. destruct (j - length accs) as [|[|]]; cbn in Hj; try discriminate. inversion Hj; subst. exact G.
        -- intros j b Hlt Hj. rewrite nth_error_app1 in Hj by lia. eapply Hw; eassumption.
    + destruct Hs as [(-> & ->)|(Hk' & Es)]; [left; auto|]. right. split; [exact Hk'|]. rewrite nth_error_app1 by lia. exact Es.
Qed.
Lemma run_epochs_trace n : exists s w ws accs k, run_epochs body score better weights decay n rate start score0 = Ok (s, w) /\ Inv s /\
  epochs_trace (weights start) Pass Acc rate decay n ws accs /\ best_of better weak score0 accs k /\ nth_error ws k = Some w /\ exists s', Inv s' /\ weights s' = w.
Proof.
  unfold run_epochs.
  destruct (foldM_inv_ok (fun (st : S * dbl * (dbl * W)) (_ : nat) => let '(s, rate, best) := st in do s1 <- body rate s; do t <- score s1;
                   Ok (snd t, dmul rate decay, if better (fst t) (fst best) then (fst t, weights (snd t)) else best)) (seq 0 n)
    (fun P st => exists ws accs k, let '(s, r, best) := st in Inv s /\ r = rate_at rate decay (length P) /\ epochs_trace (weights start) Pass Acc rate decay (length P) ws accs /\
       nth_error ws (length P) = Some (weights s) /\ k <= length accs /\ best_of better weak score0 accs k /\ nth_error ws k = Some (snd best) /\ (exists s', Inv s' /\ weights s' = snd best) /\
       (k = 0 /\ fst best = score0 \/ 0 < k /\ nth_error accs (k - 1) = Some (fst best))) (start, rate, (score0, weights start))) as (((s & r) & best) & -> & I).
  - exists [weights start], [], 0. split; [exact H0|]. split; [reflexivity|]. split.
    { split; [reflexivity|]. split; [reflexivity|]. split; [reflexivity|]. intros i Hi. cbn in Hi. lia. }
    split; [reflexivity|]. split; [cbn; lia|]. split; [left; split; [reflexivity|intros a []]|]. split; [reflexivity|]. split; [eauto|]. left. auto.
  - intros P1 x P2 ((s & r) & best) EP (ws & accs & k & Hi & -> & (T1 & T2 & T3 & T4) & Hw & Hk & HB & Ewk & Hex & Hs).
    destruct (Hbody (rate_at rate decay (length P1)) s Hi) as (s1 & -> & Hi1 & HP). cbn [bind]. destruct (Hscore s1 Hi1) as (a & s2 & -> & Hi2 & Ew & HA). cbn [bind fst snd].
    eexists. split; [reflexivity|]. rewrite app_length. cbn [length]. rewrite Nat.add_1_r.
    destruct (best_snoc accs a k (fst best) Hs Hk HB) as (HB' & Hs'). cbn zeta in HB', Hs'.
    exists (ws ++ [weights s1]), (accs ++ [a]), (if better a (fst best) then Datatypes.S (length accs) else k).
    split; [exact Hi2|]. split; [reflexivity|]. split.
    { split; [rewrite app_length; cbn; lia|]. split; [rewrite app_length; cbn; lia|]. split; [rewrite nth_error_app1 by lia; exact T3|]. intros i Hi'. destruct (Nat.eq_dec i (length P1)) as [->|Hne].
      - exists (weights s), (weights s1), a. split; [rewrite nth_error_app1 by lia; exact Hw|]. split; [rewrite nth_error_app2, T1, Nat.sub_diag by lia; reflexivity|].
        split; [rewrite nth_error_app2, T2, Nat.sub_diag by lia; reflexivity|]. split; assumption.
      - destruct (T4 i ltac:(lia)) as (w & w' & a' & E1 & E2 & E3 & X). exists w, w', a'. rewrite !nth_error_app1 by lia. auto. }
    split. { rewrite nth_error_app2, T1, Nat.sub_diag by lia. cbn. rewrite Ew. reflexivity. }
    split. { rewrite app_length. cbn. destruct (better a (fst best)); lia. }
    split; [exact HB'|]. destruct (better a (fst best)) eqn:G; cbn [fst snd].
    + split; [|split; [eauto|exact Hs']]. rewrite nth_error_app2 by lia. rewrite T1, T2, Nat.sub_diag. cbn. rewrite Ew. reflexivity.
    + split; [|split; [exact Hex|exact Hs']]. rewrite nth_error_app1 by lia. exact Ewk.
  - destruct I as (ws & accs & k & Hi & _ & HT & _ & _ & HB & Ewk & Hex & _). cbn [bind fst snd]. rewrite seq_length in HT. exists s, (snd best), ws, accs, k. auto 9.
Qed.
End Epochs.

(** * Training *)
Section Train.
Context (dexp dtanh : dbl -> dbl) (rarr : nat -> Z -> list nat) (perm : Z -> nat -> list nat) (rand : Z -> nat -> nat -> list (list dbl)).
Context (HR : randomness rarr perm rand).
Lemma any_e (d : dbl) (q : Q) : anyP d q -> anyP (dexp d) 1%Q. Proof. exact (fun x => x). Qed.
Lemma any_t (d : dbl) (q : Q) : anyP d q -> anyP (dtanh d) 0%Q. Proof. exact (fun x => x). Qed.
Lemma one_proper (p q : Q) : (p == q)%Q -> (1 == 1)%Q. Proof. reflexivity. Qed.
Lemma zero_proper (p q : Q) : (p == q)%Q -> (0 == 0)%Q. Proof. reflexivity. Qed.
Lemma one_pos (q : Q) : (0 < 1)%Q. Proof. reflexivity. Qed.
Lemma split_ok q seed l : exists tr va, split_lists rarr (Fin q) seed l = Ok (tr, va) /\ part_strat rarr (Fin q) seed l = Ok [va; tr] /\ Permutation (va ++ tr) l.
Proof.
  destruct (part_strat_spec rarr q seed l (rarr_perm _ _ _ HR _ _)) as (g0 & g1 & E & P & _). exists g1, g0. split; [|auto]. unfold split_lists. rewrite E. reflexivity.
Qed.
Lemma shuffle_perm {A} seed (l : list A) : Permutation (shuffle perm seed l) l.
Proof. apply rearrange_perm. apply (perm_perm _ _ _ HR). Qed.
Lemma allocate_shape seed r c : is_shape (allocate rand seed r c) r c.
Proof. split; [reflexivity|]. split; [apply (rand_rows _ _ _ HR)|apply (rand_cols _ _ _ HR)]. Qed.
(** what training needs of one instance *)
Definition fits (d : nat) (labels : list string) (x : instance) : Prop := inst_size x = d /\ composite x <> Some [] /\ In (label x) labels.
Lemma net_data_fits l d : net_data l d -> Forall (fits d (distinct_labels l)) l.
Proof. intros (_ & H). rewrite Forall_forall in *. intros x Hx. destruct (H x Hx) as (H1 & H2). split; [exact H1|]. split; [exact H2|]. apply distinct_in, in_map, Hx. Qed.
Lemma net_data_labels l d : net_data l d -> distinct_labels l <> [].
Proof. intros ((x0 & l' & -> & _) & _) H. assert (In (label x0) (distinct_labels (x0 :: l'))) as Hi by (apply distinct_in; left; reflexivity). rewrite H in Hi. destruct Hi. Qed.
Lemma net_data_init l d : net_data l d -> initialize l = Ok (distinct_labels l, d).
Proof. intros ((x0 & l' & -> & Hc) & HF). inversion HF as [|? ? (Hd & _) _]; subst. unfold initialize. change (atn (x0 :: l') 0) with (Ok x0 : res instance). cbn [bind]. rewrite Hc. reflexivity. Qed.
Lemma fits_perm d labels l l' : Forall (fits d labels) l -> Permutation l' l -> Forall (fits d labels) l'.
Proof. intros H P. rewrite Forall_forall in *. intros x Hx. apply H. eapply Permutation_in; [exact P|exact Hx]. Qed.
Lemma fits_app d labels va tr l : Forall (fits d labels) l -> Permutation (va ++ tr) l -> Forall (fits d labels) va /\ Forall (fits d labels) tr.
Proof. intros H P. pose proof (fits_perm _ _ _ _ H P) as H'. apply Forall_app in H'. exact H'. Qed.

(** ** The training loop *)
Section Loop.
Context {X : Type} (step : dbl -> X * list dbl -> instance -> res (X * list dbl)) (test : X -> list dbl -> res (dbl * list dbl)) (good : X -> Prop) (Acc : X -> dbl -> Prop) (seed : Z).
Context (body : dbl -> (X * list dbl) * ilist -> res ((X * list dbl) * ilist)) (score : (X * list dbl) * ilist -> res (dbl * ((X * list dbl) * ilist))).
Context (Eb : forall r s, body r s = do st <- foldM (step r) (shuffle perm seed (snd s)) (fst s); Ok (st, shuffle perm seed (snd s))).
Context (Es : forall s, score s = do t <- test (fst (fst s)) (snd (fst s)); Ok (fst t, (fst (fst s), snd t, snd s))).
Context (tr : ilist).
Context (Hstep : forall r w y x, In x tr -> good w -> exists w' y', step r (w, y) x = Ok (w', y') /\ good w').
Context (Htest : forall w y, good w -> exists a y', test w y = Ok (a, y') /\ Acc w a).
Lemma train_loop better weak (Hord : order_like better weak) decay rate score0 w0 y0 n : good w0 ->
  exists s w ws accs k, run_epochs body score better (fun s => fst (fst s)) decay n rate (w0, y0, tr) score0 = Ok (s, w) /\ good w /\
  epochs_trace w0 (fun r w w' => exists l' y y', Permutation l' tr /\ foldM (step r) l' (w, y) = Ok (w', y')) Acc rate decay n ws accs /\ best_of better weak score0 accs k /\ nth_error ws k = Some w.
Proof.
  intros H0.
  destruct (run_epochs_trace body score better weak Hord (fun s => fst (fst s)) decay rate score0 (w0, y0, tr) (fun s => good (fst (fst s)) /\ Permutation (snd s) tr)
     (fun r w w' => exists l' y y', Permutation l' tr /\ foldM (step r) l' (w, y) = Ok (w', y')) Acc) with (n := n) as (s & w & ws & accs & k & E & Hi & HT & HB & Ew & (s' & (Hg & _) & Es')).
  - cbn. split; [exact H0|reflexivity].
  - intros r ((w & y) & li) (Hw & Hl). cbn [fst snd] in Hw, Hl. rewrite Eb. cbn [fst snd].
    assert (Permutation (shuffle perm seed li) tr) as Hs by (etransitivity; [apply shuffle_perm|exact Hl]).
    destruct (foldM_inv_ok (step r) (shuffle perm seed li) (fun _ st => good (fst st)) (w, y) Hw) as ((w' & y') & E & Hw').
    { intros P1 x P2 (w1 & y1) EP Hw1. cbn [fst] in *. assert (In x tr) as Hx. { eapply Permutation_in; [exact Hs|]. rewrite EP. apply in_elt. }
      destruct (Hstep r w1 y1 x Hx Hw1) as (w2 & y2 & E & H). exists (w2, y2). split; [exact E|exact H]. }
    rewrite E. cbn [bind]. eexists. split; [reflexivity|]. cbn [fst snd]. split; [split; [exact Hw'|exact Hs]|]. exists (shuffle perm seed li), y, y'. split; [exact Hs|exact E].
  - intros ((w & y) & li) (Hw & Hl). cbn [fst snd] in Hw, Hl. rewrite Es. cbn [fst snd]. destruct (Htest w y Hw) as (a & y' & -> & HA).
    cbn [bind fst snd]. eexists _, _. split; [reflexivity|]. cbn [fst snd]. split; [split; assumption|]. split; [reflexivity|exact HA].
  - exists s, w, ws, accs, k. split; [exact E|]. split; [rewrite <- Es'; exact Hg|]. auto.
Qed.
End Loop.

(** ** Linear perceptron *)
Lemma linear_step_shape labels d rate w y x : fits d labels x -> is_shape w (length labels) (S d) ->
  exists w' y', linear_step dexp labels rate (w, y) x = Ok (w', y') /\ is_shape w' (length labels) (S d).
Proof.
  intros (Hd & _ & Hl) Hw. destruct (linear_stepP anyP anyP_closed dexp (fun _ => 1%Q) any_e one_pos labels rate 0%Q w y x wzero (fun _ => 0%Q) Hl I) as (w' & y' & E & H).
  - rewrite Hd. apply shape_any. exact Hw.
  - apply input_any. reflexivity.
  - exists w', y'. split; [exact E|]. rewrite Hd in H. apply shape_any in H. exact H.
Qed.
Lemma linear_output_shape labels d w x : fits d labels x -> is_shape w (length labels) (S d) -> labels <> [] ->
  exists o c, (forall y, linear_output w (input_vector x) y = Ok o) /\ choose labels o x = Ok c.
Proof.
  intros (Hd & Hc & Hl) Hw Hne. destruct (mul_rP anyP anyP_closed w (length labels) (S d) wzero (input_vector x) (fun _ => 0%Q)) as (o & E & Ho).
  - apply shape_any. exact Hw.
  - split; [rewrite input_length, Hd; reflexivity|intros; exact I].
  - destruct (choose_total labels o x (proj1 Ho) Hne Hc) as (c & E'). exists o, c. split; [|exact E']. intros y. unfold linear_output. rewrite E. reflexivity.
Qed.
Lemma linear_train_trace old l d p q : net_data l d -> p_ratio p = Fin q ->
  exists m, linear_train dexp rarr perm rand old l p = Ok m /\ li_labels m = distinct_labels l /\ is_shape (li_W m) (length (li_labels m)) (S d) /\
  exists tr va ws accs k, part_strat rarr (Fin q) (p_seed p) l = Ok [va; tr] /\ Permutation (va ++ tr) l /\
    epochs_trace (allocate rand (p_seed p) (length (li_labels m)) (d + 1))
      (fun r w w' => exists l' y y', Permutation l' tr /\ foldM (linear_step dexp (li_labels m) r) l' (w, y) = Ok (w', y'))
      (fun w a => forall y, accuracy (fun x => rmap fst (linear_predict (mkLin (li_labels m) y w) x)) va a)
      (p_rate p) (p_decay p) (p_epochs p) ws accs /\
    best_high d0 accs k /\ nth_error ws k = Some (li_W m).
Proof.
  intros Hd Hq. unfold linear_train. rewrite (net_data_init l d Hd). cbn [bind fst snd]. rewrite Hq. destruct (split_ok q (p_seed p) l) as (tr & va & -> & Es & Hp). cbn [bind fst snd].
  set (labels := distinct_labels l). destruct (fits_app _ _ va tr l (net_data_fits l d Hd) Hp) as (Fva & Ftr). fold labels in Fva, Ftr. pose proof (net_data_labels l d Hd) as Hne. fold labels in Hne.
  rewrite Forall_forall in Fva, Ftr.
  destruct (train_loop (linear_step dexp labels) (fun w => net_test (linear_output w) labels va) (fun w => is_shape w (length labels) (S d))
     (fun w a => forall y, accuracy (fun x => rmap fst (linear_predict (mkLin labels y w) x)) va a) (p_seed p)
     (linear_body dexp perm labels (p_seed p)) (linear_score labels va) (fun _ _ => eq_refl) (fun _ => eq_refl) tr) with (better := dgtb) (weak := dgeb)
     (decay := p_decay p) (rate := p_rate p) (score0 := d0) (w0 := allocate rand (p_seed p) (length labels) (d + 1)) (y0 := li_y old) (n := p_epochs p) as (s & w & ws & accs & k & E & Hg & HT & HB & Ew).
  - intros r w y x Hx Hw. apply linear_step_shape; auto.
  - intros w y Hw. destruct (net_test_accuracy (linear_output w) labels va y) as (a & y' & E & HA); [|eauto].
    rewrite Forall_forall. intros x Hx. apply (linear_output_shape labels d); auto.
  - exact high_order.
  - rewrite Nat.add_1_r. apply allocate_shape.
  - rewrite E. cbn [bind fst snd]. eexists. split; [reflexivity|]. cbn [li_labels li_W]. split; [reflexivity|]. split; [exact Hg|]. exists tr, va, ws, accs, k. auto 6.
Qed.

(** ** Multi layer perceptron *)
Lemma mlp_step_shape labels a d n rate w v y x : fits d labels x -> is_shape w n (S d) /\ is_shape v (length labels) (S n) ->
  exists w' v' y', mlp_step dexp dtanh labels a rate (w, v, y) x = Ok (w', v', y') /\ is_shape w' n (S d) /\ is_shape v' (length labels) (S n).
Proof.
  intros (Hd & _ & Hl) (Hw & Hv).
  destruct (mlp_stepP anyP anyP_closed dexp dtanh (fun _ => 1%Q) (fun _ => 0%Q) any_e one_pos any_t labels a rate 0%Q w v y x n wzero wzero (fun _ => 0%Q) Hl I) as (w' & v' & y' & E & H & H').
  - rewrite Hd. apply shape_any. exact Hw.
  - apply shape_any. exact Hv.
  - apply input_any. reflexivity.
  - exists w', v', y'. split; [exact E|]. rewrite Hd in H. apply shape_any in H. apply shape_any in H'. auto.
Qed.
Lemma mlp_output_shape labels a d n w v x : fits d labels x -> is_shape w n (S d) -> is_shape v (length labels) (S n) -> labels <> [] ->
  exists o c, (forall y, mlp_output dexp dtanh a w v (input_vector x) y = Ok o) /\ choose labels o x = Ok c.
Proof.
  intros (Hd & Hc & Hl) Hw Hv Hne.
  destruct (hiddenP anyP anyP_closed dexp dtanh (fun _ => 1%Q) (fun _ => 0%Q) any_e one_pos any_t a (input_vector x) w n (S d) wzero (fun _ => 0%Q)) as (h & Eh & Hh).
  - apply shape_any. exact Hw.
  - split; [rewrite input_length, Hd; reflexivity|intros; exact I].
  - destruct (mul_rP anyP anyP_closed v (length labels) (S n) wzero (biased h) (fun _ => 0%Q)) as (o & E & Ho).
    + apply shape_any. exact Hv.
    + split; [cbn; rewrite (proj1 Hh); reflexivity|intros; exact I].
    + destruct (choose_total labels o x (proj1 Ho) Hne Hc) as (c & E'). exists o, c. split; [|exact E']. intros y. unfold mlp_output, forward2. rewrite Eh. cbn [bind]. rewrite E. reflexivity.
Qed.
Lemma mlp_train_trace old l d p q h hs : net_data l d -> p_ratio p = Fin q -> p_hidden p = h :: hs ->
  exists m, mlp_train dexp dtanh rarr perm rand old l p = Ok m /\ ml_labels m = distinct_labels l /\ ml_act m = p_act p /\
    is_shape (ml_W m) h (S d) /\ is_shape (ml_V m) (length (ml_labels m)) (S h) /\
  exists tr va ws accs k, part_strat rarr (Fin q) (p_seed p) l = Ok [va; tr] /\ Permutation (va ++ tr) l /\
    epochs_trace (allocate rand (p_seed p) h (d + 1), allocate rand (p_seed p) (length (ml_labels m)) (h + 1))
      (fun r w w' => exists l' y y', Permutation l' tr /\ foldM (mlp_step dexp dtanh (ml_labels m) (p_act p) r) l' (w, y) = Ok (w', y'))
      (fun w a => forall y, accuracy (fun x => rmap fst (mlp_predict dexp dtanh (mkMlp (ml_labels m) y (fst w) (snd w) (p_act p)) x)) va a)
      (p_rate p) (p_decay p) (p_epochs p) ws accs /\
    best_high d0 accs k /\ nth_error ws k = Some (ml_W m, ml_V m).
Proof.
  intros Hd Hq Hh. unfold mlp_train. rewrite (net_data_init l d Hd). cbn [bind fst snd]. rewrite Hq. destruct (split_ok q (p_seed p) l) as (tr & va & -> & Es & Hp). cbn [bind fst snd].
  rewrite Hh. change (idxn (h :: hs) 0) with (Ok h : res nat). cbn [bind].
  set (labels := distinct_labels l). destruct (fits_app _ _ va tr l (net_data_fits l d Hd) Hp) as (Fva & Ftr). fold labels in Fva, Ftr. pose proof (net_data_labels l d Hd) as Hne. fold labels in Hne.
  rewrite Forall_forall in Fva, Ftr.
  destruct (train_loop (mlp_step dexp dtanh labels (p_act p)) (fun w => net_test (mlp_output dexp dtanh (p_act p) (fst w) (snd w)) labels va) (fun w => is_shape (fst w) h (S d) /\ is_shape (snd w) (length labels) (S h))
     (fun w a => forall y, accuracy (fun x => rmap fst (mlp_predict dexp dtanh (mkMlp labels y (fst w) (snd w) (p_act p)) x)) va a) (p_seed p)
     (mlp_body dexp dtanh perm labels (p_act p) (p_seed p)) (mlp_score dexp dtanh labels (p_act p) va)) with (tr := tr) (better := dgtb) (weak := dgeb)
     (decay := p_decay p) (rate := p_rate p) (score0 := d0) (w0 := (allocate rand (p_seed p) h (d + 1), allocate rand (p_seed p) (length labels) (h + 1))) (y0 := ml_y old) (n := p_epochs p) as (s & w & ws & accs & k & E & Hg & HT & HB & Ew).
  - reflexivity.
  - intros (((w & v) & y) & li). reflexivity.
  - intros r (w & v) y x Hx Hw. destruct (mlp_step_shape labels (p_act p) d h r w v y x (Ftr x Hx) Hw) as (w' & v' & y' & E & H). exists (w', v'), y'. split; [exact E|exact H].
  - intros (w & v) y (Hw & Hv). cbn [fst snd] in *. destruct (net_test_accuracy (mlp_output dexp dtanh (p_act p) w v) labels va y) as (a & y' & E & HA); [|eauto].
    rewrite Forall_forall. intros x Hx. apply (mlp_output_shape labels (p_act p) d h); auto.
  - exact high_order.
  - cbn [fst snd]. rewrite !Nat.add_1_r. split; apply allocate_shape.
  - rewrite E. cbn [bind fst snd]. eexists. split; [reflexivity|]. cbn [ml_labels ml_W ml_V ml_act]. split; [reflexivity|]. split; [reflexivity|]. split; [apply Hg|]. split; [apply Hg|].
    exists tr, va, ws, accs, k. destruct w as (w1 & v1). auto 6.
Qed.

(** ** Auto encoder *)
Section AutoStep.
Context (P : dbl -> Q -> Prop) (HP : closed P) (e : Q -> Q) (He : forall d q, P d q -> P (dexp d) (e q)) (Hpos : forall q, (0 < e q)%Q).
(** one step of gradient descent on half the squared reconstruction error *)
Lemma auto_stepP th (Hth : forall d q, P d q -> P (dtanh d) (th q)) rate q w v y x n d W V f : P rate q -> matP P w n (S d) W -> matP P v d (S n) V -> vecP P (inst_vector x) d f ->
  let h i := qact e th SIGMOID (weigh (S d) W (with_bias f) i) in
  let err i := (f i - weigh (S n) V (with_bias h) i)%Q in
  exists w' v' y', auto_step dexp dtanh rate (w, v, y) x = Ok (w', v', y') /\
    matP P v' d (S n) (fun i j => V i j + q * (err i * with_bias h j))%Q /\
    matP P w' n (S d) (fun i j => W i j + q * (sum_over d (fun r => err r * V r (S i)) * (h i * (1 - h i)) * with_bias f j))%Q.
Proof.
  intros Hr Hw Hv Hx h err. pose proof (vecP_biased P HP _ _ _ Hx) as Hi. fold (input_vector x) in Hi. unfold auto_step.
  destruct (hiddenP P HP dexp dtanh e th He Hpos Hth SIGMOID (input_vector x) w _ _ W _ Hw Hi) as (hv & -> & Hh). cbn [attempt].
  destruct (mul_rP P HP v _ _ V (biased hv) _ Hv (vecP_biased P HP _ _ _ Hh)) as (y' & -> & Hy). cbn [attempt].
  destruct (vdiffP P HP (inst_vector x) y' _ _ _ Hx Hy) as (dv & -> & Hdv). cbn [attempt].
  unfold auto_deltas. destruct (one_minusP P HP hv _ _ Hh) as (o & -> & Ho). cbn [bind]. destruct (mul_lP P HP v _ _ V dv _ Hv Hdv) as (t & -> & Ht). cbn [bind].
  destruct (vremove0P P t _ _ Ht) as (t' & -> & Ht'). cbn [bind]. destruct (vprodP P HP hv t' _ _ _ Hh Ht') as (ht & -> & Hht). cbn [bind].
  destruct (vprodP P HP o ht _ _ _ Ho Hht) as (thv & -> & Hthv). cbn [bind attempt fst snd].
  destruct (maddP P HP v (mscale rate (mouter dv (biased hv))) d (S n) V (fun i j => (err i * with_bias h j) * q)%Q Hv) as (v' & -> & Hv').
  { apply mscaleP; auto. apply mouterP; [assumption|exact Hdv|]. apply vecP_biased; assumption. }
  cbn [attempt].
  destruct (maddP P HP w (mscale rate (mouter thv (input_vector x))) n (S d) W (fun i j => (((1 - h i) * (h i * sum_over d (fun r => err r * V r (S i)))) * with_bias f j) * q)%Q Hw) as (w' & -> & Hw').
  { apply mscaleP; auto. apply mouterP; [assumption|exact Hthv|exact Hi]. }
  cbn [attempt]. exists w', v', y'. split; [reflexivity|]. split.
  - eapply matP_ext; [exact HP| |exact Hv']. intros i j _ _. cbv beta. ring.
  - eapply matP_ext; [exact HP| |exact Hw']. intros i j _ _. cbv beta. ring.
Qed.
End AutoStep.
Lemma vdot_self o : forall x acc, length x = length o ->
  let d := map (fun p => dsub (fst p) (snd p)) (combine x o) in
  fold_left (fun s p => dadd s (dmul (fst p) (snd p))) (combine d d) acc = fold_left dadd (map (fun p => dpow2 (dsub (fst p) (snd p))) (combine x o)) acc.
Proof. induction o as [|b o IH]; intros [|a x] acc L; cbn in *; try discriminate; try reflexivity. apply IH. lia. Qed.
Lemma auto_test_error w v n d va y : Forall (fun x => inst_size x = d) va -> is_shape w n (S d) -> is_shape v d (S n) ->
  exists a y', auto_test dexp dtanh w v va y = Ok (a, y') /\ mean_error (fun x => forward2 dexp dtanh (input_vector x) w v SIGMOID) va a.
Proof.
  intros HF Hw Hv. unfold auto_test.
  assert (forall l acc y, Forall (fun x => inst_size x = d) l -> exists os y', foldM (fun st x => do y' <- auto_input dexp dtanh w v x;
      attempt false (vdiff (inst_vector x) y') (fst st, y') (fun d => Ok (dadd (fst st) (vdot d d), y'))) l (acc, y) =
      Ok (fold_left dadd (map (fun xo => sq_error (inst_vector (fst xo)) (snd xo)) (combine l os)) acc, y') /\
      Forall2 (fun x o => forward2 dexp dtanh (input_vector x) w v SIGMOID = Ok o) l os) as G.
  { induction l as [|x l IH]; intros acc y0 H; [exists [], y0; split; [reflexivity|constructor]|]. inversion H as [|? ? Hx Hl]; subst. cbn [foldM].
    destruct (hiddenP anyP anyP_closed dexp dtanh (fun _ => 1%Q) (fun _ => 0%Q) any_e one_pos any_t SIGMOID (input_vector x) w n (S (inst_size x)) wzero (fun _ => 0%Q)) as (h & Eh & Hh).
    { apply shape_any. exact Hw. } { split; [rewrite input_length; reflexivity|intros; exact I]. }
    destruct (mul_rP anyP anyP_closed v (inst_size x) (S n) wzero (biased h) (fun _ => 0%Q)) as (o & Eo & Ho).
    { apply shape_any. exact Hv. } { split; [cbn; rewrite (proj1 Hh); reflexivity|intros; exact I]. }
    assert (forward2 dexp dtanh (input_vector x) w v SIGMOID = Ok o) as Ef. { unfold forward2. rewrite Eh. exact Eo. }
    assert (auto_input dexp dtanh w v x = Ok o) as Ea by (unfold auto_input; rewrite Ef; reflexivity). rewrite Ea. cbn [bind]. pose proof (proj1 (input_any x _ eq_refl)) as Lx. pose proof (proj1 Ho) as Lo.
    assert (vdiff (inst_vector x) o = Ok (map (fun p => dsub (fst p) (snd p)) (combine (inst_vector x) o))) as Ev by (unfold vdiff; rewrite Lx, Lo, Nat.eqb_refl; reflexivity). rewrite Ev. cbn [attempt fst]. destruct (IH (dadd acc (vdot (map (fun p => dsub (fst p) (snd p)) (combine (inst_vector x) o)) (map (fun p => dsub (fst p) (snd p)) (combine (inst_vector x) o)))) o Hl) as (os & y' & E & F).
    exists (o :: os), y'. split; [|constructor; [exact Ef|exact F]]. etransitivity; [exact E|]. cbn [combine map fold_left fst snd]. do 3 f_equal. f_equal. unfold vdot, sq_error, dsum. apply vdot_self. lia. }
  destruct (G va d0 y HF) as (os & y' & -> & F). cbn [bind fst snd]. eexists _, _. split; [reflexivity|]. exists os. split; [exact F|reflexivity].
Qed.
Lemma auto_train_trace old l d p h hs : net_data l d -> ~ NoDup (map label l) -> p_hidden p = h :: hs ->
  exists m, auto_train dexp dtanh rarr perm rand old l p = Ok m /\ is_shape (au_W m) h (S d) /\ is_shape (au_V m) d (S h) /\
  exists tr va ws accs k, part_strat rarr (Fin (1 # 5)) (p_seed p) l = Ok [va; tr] /\ Permutation (va ++ tr) l /\
    epochs_trace (allocate rand (p_seed p) h (d + 1), allocate rand (p_seed p) d (h + 1))
      (fun r w w' => exists l' y y', Permutation l' tr /\ foldM (auto_step dexp dtanh r) l' (w, y) = Ok (w', y'))
      (fun w a => mean_error (fun x => forward2 dexp dtanh (input_vector x) (fst w) (snd w) SIGMOID) va a)
      (p_rate p) (Fin (95 # 100)) (p_epochs p) ws accs /\
    best_low dbl_max accs k /\ nth_error ws k = Some (au_W m, au_V m).
Proof.
  intros Hd Hnd Hh. unfold auto_train. rewrite (net_data_init l d Hd). cbn [bind fst snd].
  destruct (split_ok (1 # 5) (p_seed p) l) as (tr & va & -> & Es & Hp). cbn [bind fst snd].
  assert (exists x0 tr', tr = x0 :: tr') as (x0 & tr' & Etr).
  { destruct tr as [|x0 tr']; [|eauto]. exfalso. apply Hnd. destruct (part_strat_spec rarr (1 # 5) (p_seed p) l (rarr_perm _ _ _ HR _ _)) as (g0 & g1 & E & _ & Hc).
    rewrite E in Es. inversion Es; subst. apply (NoDup_count_occ string_dec). intros c. specialize (Hc c). destruct Hc as (Hc1 & Hc2).
    assert (cb c l = count_occ string_dec (map label l) c) as Hcb. { clear. unfold cb, countb. induction l as [|x l IH]; [reflexivity|]. cbn [map count_occ filter]. unfold of_class in *.
      destruct (string_dec (label x) c) as [<-|Hn]; [rewrite String.eqb_refl; cbn [length]; rewrite IH; reflexivity|]. apply String.eqb_neq in Hn. rewrite Hn. exact IH. }
    rewrite <- Hcb. destruct (Nat.le_gt_cases (cb c l) 1) as [|Hgt]; [assumption|]. exfalso.
    assert (ceiln (qofn (cb c l) * (1 # 5)) <= cb c l - 1). { destruct (Nat.le_gt_cases (ceiln (qofn (cb c l) * (1 # 5))) (cb c l - 1)) as [|Hlt]; [assumption|]. apply ceil_lt in Hlt.
      assert (cb c l = S (cb c l - 1)) as Hn by lia. set (k := cb c l - 1) in *. rewrite Hn in Hlt. rewrite qofn_S in Hlt. assert (qofn 1 <= qofn k)%Q by (apply qofn_le; lia). rewrite qofn_1 in H. lra. }
    cbn [cb countb filter] in Hc2. unfold cb at 2 in Hc2. cbn in Hc2. lia. }
  subst tr. change (atn (x0 :: tr') 0) with (Ok x0 : res instance). cbn [bind]. rewrite Hh. change (idxn (h :: hs) 0) with (Ok h : res nat). cbn [bind].
  destruct (fits_app _ _ va (x0 :: tr') l (net_data_fits l d Hd) Hp) as (Fva & Ftr). rewrite Forall_forall in Fva, Ftr.
  assert (inst_size x0 = d) as -> by (apply (Ftr x0); left; reflexivity).
  destruct (train_loop (auto_step dexp dtanh) (fun w => auto_test dexp dtanh (fst w) (snd w) va) (fun w => is_shape (fst w) h (S d) /\ is_shape (snd w) d (S h))
     (fun w a => mean_error (fun x => forward2 dexp dtanh (input_vector x) (fst w) (snd w) SIGMOID) va a) (p_seed p)
     (auto_body dexp dtanh perm (p_seed p)) (auto_score dexp dtanh va)) with (tr := x0 :: tr') (better := dltb) (weak := dleb)
     (decay := Fin (95 # 100)) (rate := p_rate p) (score0 := dbl_max) (w0 := (allocate rand (p_seed p) h (d + 1), allocate rand (p_seed p) d (h + 1))) (y0 := au_y old) (n := p_epochs p) as (s & w & ws & accs & k & E & Hg & HT & HB & Ew).
  - reflexivity.
  - intros (((w & v) & y) & li). reflexivity.
  - intros r (w & v) y x Hx (Hw & Hv). cbn [fst snd] in *. destruct (Ftr x Hx) as (Hdx & _).
    destruct (auto_stepP anyP anyP_closed (fun _ => 1%Q) any_e one_pos (fun _ => 0%Q) any_t r 0%Q w v y x h d wzero wzero (fun _ => 0%Q) I) as (w' & v' & y' & E & H1 & H2).
    { apply shape_any, Hw. } { apply shape_any, Hv. } { apply input_any. exact Hdx. }
    exists (w', v'), y'. split; [exact E|]. cbn [fst snd]. apply shape_any in H1. apply shape_any in H2. auto.
  - intros (w & v) y (Hw & Hv). cbn [fst snd] in *. apply (auto_test_error w v h d); auto. rewrite Forall_forall. intros x Hx. apply (Fva x Hx).
  - exact low_order.
  - cbn [fst snd]. rewrite !Nat.add_1_r. split; apply allocate_shape.
  - rewrite E. cbn [bind fst snd]. eexists. split; [reflexivity|]. cbn [au_W au_V]. split; [apply Hg|]. split; [apply Hg|]. exists (x0 :: tr'), va, ws, accs, k. destruct w as (w1 & v1). auto 6.
Qed.
(** ** Deep network *)
Lemma gradient_fst act n ls x e dact q t : map fst (gradient_step act n ls x e dact q t) = map fst ls.
Proof.
  unfold gradient_step. rewrite map_map. cbn [fst]. unfold size. cbn [nth]. apply (nth_ext _ _ 0 0); [rewrite !map_length, seq_length; reflexivity|].
  intros i Hi. rewrite map_length, seq_length in Hi. rewrite (nth_lt_map _ _ i 0) by (rewrite seq_length; exact Hi). rewrite seq_nth by exact Hi. reflexivity.
Qed.
Lemma input_with_bias x d : inst_size x = d -> vecP anyP (input_vector x) (S d) (with_bias (fun _ => 0%Q)).
Proof. intros <-. split; [apply input_length|intros; exact I]. Qed.
Lemma uneven_dec (hs : list nat) L : (exists k, k < length hs /\ nth k hs 0 <> L) \/ (forall k, k < length hs -> nth k hs 0 = L).
Proof.
  destruct (Forall_dec (fun h => h = L) (fun h => Nat.eq_dec h L) hs) as [F|F].
  - right. intros k Hk. rewrite Forall_forall in F. apply F. apply nth_In. exact Hk.
  - left. apply Exists_Forall_neg in F; [|intros h; destruct (Nat.eq_dec h L); tauto]. apply Exists_exists in F. destruct F as (h & Hin & Hn). apply (In_nth _ _ 0) in Hin. destruct Hin as (k & Hk & <-). eauto.
Qed.
Lemma nth_hidden d (hs : list nat) K k : k < length hs -> size d (blank (hs ++ [K])) (S k) = nth k hs 0.
Proof. intros H. rewrite size_blank. cbn [nth]. apply app_nth1. exact H. Qed.
Lemma nth_last d (hs : list nat) K : size d (blank (hs ++ [K])) (S (length hs)) = K.
Proof. rewrite size_blank. cbn [nth]. rewrite app_nth2, Nat.sub_diag by lia. reflexivity. Qed.
Lemma blank_length rs : length (blank rs) = length rs.
Proof. apply map_length. Qed.
Lemma deep_step_stuck labels d hs rate ws y x : fits d labels x -> is_chain ws d (hs ++ [length labels]) -> hs <> [] ->
  (exists k, k < length hs /\ nth k hs 0 <> length hs) -> exists y', deep_step dexp dtanh labels TANH (length hs) rate (ws, y) x = Ok (ws, y').
Proof.
  intros (Hd & _ & Hl) Hc Hne (k & Hk & Hn). apply (chain_any ws d _ (blank (hs ++ [length labels])) (blank_sizes _)) in Hc.
  apply (deep_step_tanh anyP anyP_closed dexp dtanh (fun _ => 1%Q) (fun _ => 0%Q) any_e one_pos any_t TANH d (blank (hs ++ [length labels])) (fun _ => 0%Q) ws Hc (length hs)) with (input := input_vector x) (t := find_pos (label x) labels); auto.
  - rewrite blank_length, app_length. cbn. lia.
  - destruct hs; [congruence|cbn; lia].
  - apply input_with_bias. exact Hd.
  - apply nth_last.
  - exists k. split; [exact Hk|]. rewrite nth_hidden by exact Hk. exact Hn.
Qed.
Lemma deep_step_shape labels a d hs rate ws y x : fits d labels x -> is_chain ws d (hs ++ [length labels]) -> hs <> [] ->
  exists ws' y', deep_step dexp dtanh labels a (length hs) rate (ws, y) x = Ok (ws', y') /\ is_chain ws' d (hs ++ [length labels]).
Proof.
  intros Hx Hc Hne. assert (a <> TANH \/ a = TANH) as [Ha|Ha] by (destruct a; (left; congruence) || (right; reflexivity)).
  2: destruct (uneven_dec hs (length hs)) as [Hu|Hu].
  2: { subst a. destruct (deep_step_stuck labels d hs rate ws y x Hx Hc Hne Hu) as (y' & E). eauto. }
  all: destruct Hx as (Hd & _ & Hl); apply (chain_any ws d _ (blank (hs ++ [length labels])) (blank_sizes _)) in Hc;
    edestruct (deep_stepP anyP anyP_closed dexp dtanh (fun _ => 1%Q) (fun _ => 0%Q) any_e one_pos any_t a d (blank (hs ++ [length labels])) (fun _ => 0%Q) ws Hc (length hs)) as (ws' & y' & E & H);
    [rewrite blank_length, app_length; cbn; lia|destruct hs; [congruence|cbn; lia]|apply input_with_bias; exact Hd|exact Hl|reflexivity|reflexivity|apply nth_last|exact (I : anyP rate 0%Q)| |
     exists ws', y'; split; [exact E|]; eapply chain_any; [|exact H]; rewrite gradient_fst; apply blank_sizes].
  - congruence.
  - intros _ k Hk. rewrite nth_hidden by exact Hk. apply Hu. exact Hk.
Qed.
Lemma deep_output_shape labels a d hs ws x : fits d labels x -> is_chain ws d (hs ++ [length labels]) -> hs <> [] -> labels <> [] ->
  exists o c, (forall y, deep_output dexp dtanh a ws (input_vector x) y = Ok o) /\ choose labels o x = Ok c.
Proof.
  intros (Hd & Hc & Hl) Hw Hne Hnl. apply (chain_any ws d _ (blank (hs ++ [length labels])) (blank_sizes _)) in Hw.
  destruct (deep_outputP anyP anyP_closed dexp dtanh (fun _ => 1%Q) (fun _ => 0%Q) any_e one_pos any_t a d (blank (hs ++ [length labels])) (fun _ => 0%Q) ws Hw (length hs)) with (input := input_vector x) (y := @nil dbl) as (o & E & Ho).
  - rewrite blank_length, app_length. cbn. lia.
  - apply input_with_bias. exact Hd.
  - destruct hs; [congruence|cbn; lia].
  - destruct Ho as (Lo & _). rewrite nth_last in Lo. destruct (choose_total labels o x Lo Hnl Hc) as (c & E'). exists o, c. split; [|exact E'].
    intros y. unfold deep_output in *. destruct (if Nat.eqb (length ws) 0 then _ else _) as [z| | |] eqn:Ez; cbn [attempt] in *; try discriminate; [exact E|].
    destruct (caught false e) eqn:Ec; [|discriminate]. inversion E; subst. cbn in Lo. destruct labels; [congruence|discriminate].
Qed.
Lemma deep_allocate_chain old seed hs K d : hs <> [] -> exists ms, deep_allocate rand old seed hs K d = Ok (old ++ ms) /\ is_chain ms d (hs ++ [K]).
Proof.
  intros Hne. destruct hs as [|h0 hs]; [congruence|]. unfold deep_allocate. change (atn (h0 :: hs) 0) with (Ok h0 : res nat). cbn [bind].
  set (al := h0 :: hs). assert (length al = S (length hs)) as Hal by reflexivity.
  assert (mapM (fun i => do a <- atn al (i + 1); do b <- atn al i; Ok (allocate rand seed a (b + 1))) (seq 0 (length al - 1)) =
          Ok (map (fun i => allocate rand seed (nth (i + 1) al 0) (nth i al 0 + 1)) (seq 0 (length al - 1)))) as ->.
  { apply mapM_total. intros i Hi. apply in_seq in Hi. unfold atn. rewrite !(nth_error_nth' al 0) by lia. reflexivity. }
  cbn [bind]. assert (atn al (length al - 1) = Ok (nth (length hs) al 0)) as ->. { unfold atn. rewrite Hal, (nth_error_nth' al 0) by lia. cbn [Nat.sub]. rewrite Nat.sub_0_r. reflexivity. }
  cbn [bind]. eexists. split; [reflexivity|]. split; [rewrite !app_length, map_length, seq_length; cbn [length]; lia|].
  intros k m Hk. rewrite Hal in Hk. cbn [Nat.sub] in Hk. rewrite Nat.sub_0_r in Hk. destruct k as [|k].
  - cbn in Hk. inversion Hk; subst. cbn. rewrite Nat.add_1_r. apply allocate_shape.
  - cbn [app nth_error] in Hk. destruct (Nat.lt_ge_cases k (length hs)) as [Hlt|Hge].
    + rewrite nth_error_app1 in Hk by (rewrite map_length, seq_length; exact Hlt). rewrite nth_error_map in Hk. rewrite (nth_error_nth' _ 0) in Hk by (rewrite seq_length; exact Hlt).
      rewrite seq_nth in Hk by exact Hlt. cbn [option_map Nat.add] in Hk. inversion Hk; subst. rewrite !Nat.add_1_r. cbn [nth]. rewrite !app_nth1 by lia. apply allocate_shape.
    + rewrite nth_error_app2 in Hk by (rewrite map_length, seq_length; exact Hge). rewrite map_length, seq_length in Hk. destruct (k - length hs) as [|j] eqn:Ej; [|destruct j; discriminate].
      cbn in Hk. inversion Hk; subst. assert (k = length hs) as -> by lia. cbn [nth]. rewrite (app_nth2 al) by lia. rewrite (app_nth1 al) by lia.
      replace (S (length hs) - length al) with 0 by lia. cbn [nth]. rewrite Nat.add_1_r. apply allocate_shape.
Qed.
Lemma deep_allocate_empty old seed K d : deep_allocate rand old seed [] K d = Throw OutOfRange.
Proof. reflexivity. Qed.
Lemma deep_train_trace old l d p q : net_data l d -> p_ratio p = Fin q -> p_hidden p <> [] -> de_weights old = [] ->
  exists m, deep_train dexp dtanh rarr perm rand old l p = Ok m /\ de_labels m = distinct_labels l /\ de_act m = p_act p /\ de_layers m = length (p_hidden p) /\
    is_chain (de_weights m) d (p_hidden p ++ [length (de_labels m)]) /\
  exists tr va ms ws accs k, part_strat rarr (Fin q) (p_seed p) l = Ok [va; tr] /\ Permutation (va ++ tr) l /\
    deep_allocate rand [] (p_seed p) (p_hidden p) (length (de_labels m)) d = Ok ms /\
    epochs_trace ms
      (fun r w w' => exists l' y y', Permutation l' tr /\ foldM (deep_step dexp dtanh (de_labels m) (p_act p) (length (p_hidden p)) r) l' (w, y) = Ok (w', y'))
      (fun w a => forall y, accuracy (fun x => rmap fst (deep_predict dexp dtanh (mkDeep (de_labels m) y w (length (p_hidden p)) (p_act p)) x)) va a)
      (p_rate p) (p_decay p) (p_epochs p) ws accs /\
    best_high d0 accs k /\ nth_error ws k = Some (de_weights m).
Proof.
  intros Hd Hq Hh Hold. unfold deep_train. rewrite (net_data_init l d Hd). cbn [bind fst snd]. rewrite Hq. destruct (split_ok q (p_seed p) l) as (tr & va & -> & Es & Hp). cbn [bind fst snd].
  set (labels := distinct_labels l). destruct (fits_app _ _ va tr l (net_data_fits l d Hd) Hp) as (Fva & Ftr). fold labels in Fva, Ftr. pose proof (net_data_labels l d Hd) as Hne. fold labels in Hne.
  rewrite Forall_forall in Fva, Ftr. rewrite Hold. destruct (deep_allocate_chain [] (p_seed p) (p_hidden p) (length labels) d Hh) as (ms & Ea & Hms). cbn [app] in Ea. rewrite Ea. cbn [bind].
  destruct (train_loop (deep_step dexp dtanh labels (p_act p) (length (p_hidden p))) (fun w => net_test (deep_output dexp dtanh (p_act p) w) labels va) (fun w => is_chain w d (p_hidden p ++ [length labels]))
     (fun w a => forall y, accuracy (fun x => rmap fst (deep_predict dexp dtanh (mkDeep labels y w (length (p_hidden p)) (p_act p)) x)) va a) (p_seed p)
     (deep_body dexp dtanh perm labels (p_act p) (length (p_hidden p)) (p_seed p)) (deep_score dexp dtanh labels (p_act p) va)) with (tr := tr) (better := dgtb) (weak := dgeb)
     (decay := p_decay p) (rate := p_rate p) (score0 := d0) (w0 := ms) (y0 := de_y old) (n := p_epochs p) as (s & w & ws & accs & k & E & Hg & HT & HB & Ew).
  - reflexivity.
  - intros ((w & y) & li). reflexivity.
  - intros r w y x Hx Hw. apply deep_step_shape; auto.
  - intros w y Hw. destruct (net_test_accuracy (deep_output dexp dtanh (p_act p) w) labels va y) as (a & y' & E & HA); [|eauto].
    rewrite Forall_forall. intros x Hx. apply (deep_output_shape labels (p_act p) d (p_hidden p)); auto.
  - exact high_order.
  - exact Hms.
  - rewrite E. cbn [bind fst snd]. eexists. split; [reflexivity|]. cbn [de_labels de_weights de_act de_layers]. split; [reflexivity|]. split; [reflexivity|]. split; [reflexivity|]. split; [exact Hg|].
    exists tr, va, ms, ws, accs, k. auto 8.
Qed.
(** tanh and uneven layers: the initial weights come back *)
Lemma deep_train_stuck old l d p q : net_data l d -> p_ratio p = Fin q -> p_hidden p <> [] -> de_weights old = [] -> p_act p = TANH ->
  (exists k, k < length (p_hidden p) /\ nth k (p_hidden p) 0 <> length (p_hidden p)) ->
  exists m, deep_train dexp dtanh rarr perm rand old l p = Ok m /\ deep_allocate rand [] (p_seed p) (p_hidden p) (length (distinct_labels l)) d = Ok (de_weights m).
Proof.
  intros Hd Hq Hh Hold Ha Hu. destruct (deep_train_trace old l d p q Hd Hq Hh Hold) as (m & E & El & _ & _ & _ & tr & va & ms & ws & accs & k & _ & Hp & Em & (T1 & T2 & T3 & T4) & HB & Ek).
  exists m. split; [exact E|]. rewrite El in Em. rewrite Em. f_equal.
  destruct (fits_app _ _ va tr l (net_data_fits l d Hd) Hp) as (_ & Ftr). destruct (deep_allocate_chain [] (p_seed p) (p_hidden p) (length (distinct_labels l)) d Hh) as (ms' & Em' & Hc). cbn [app] in Em'.
  assert (ms' = ms) by congruence. subst ms'.
  assert (forall i w, nth_error ws i = Some w -> w = ms) as H; [|symmetry; apply (H k), Ek].
  induction i as [|i IH]; intros w Hw; [congruence|]. assert (i < p_epochs p) as Hi. { assert (S i < length ws) by (apply nth_error_Some; congruence). lia. }
  destruct (T4 i Hi) as (w1 & w2 & a & E1 & E2 & _ & (l' & y & y' & HP & HF) & _). rewrite (IH w1 E1) in HF. assert (w2 = w) by congruence. subst w2.
  destruct (foldM_inv_ok (deep_step dexp dtanh (de_labels m) (p_act p) (length (p_hidden p)) (rate_at (p_rate p) (p_decay p) i)) l' (fun _ st => fst st = ms) (ms, y) eq_refl) as (st & E3 & H3).
  - intros P1 x P2 (w3 & y3) EP Hw3. cbn [fst] in Hw3. subst w3. assert (fits d (distinct_labels l) x) as Hx. { rewrite Forall_forall in Ftr. apply Ftr. eapply Permutation_in; [exact HP|]. rewrite EP. apply in_elt. }
    rewrite El, Ha. destruct (deep_step_stuck (distinct_labels l) d (p_hidden p) (rate_at (p_rate p) (p_decay p) i) ms y3 x Hx Hc Hh Hu) as (y4 & E4). exists (ms, y4). split; [exact E4|reflexivity].
  - rewrite HF in E3. injection E3 as <-. exact H3.
Qed.
(** training a trained model again *)
Lemma deep_step_twice labels a d hs rate old ms y x : fits d labels x -> is_chain old d (hs ++ [length labels]) -> is_chain ms d (hs ++ [length labels]) -> hs <> [] ->
  deep_step dexp dtanh labels a (length hs) rate (old ++ ms, y) x = Throw OutOfRange.
Proof.
  intros (Hd & _ & Hl) Ho Hm Hne. pose proof (proj1 Ho) as Lo. pose proof (proj1 Hm) as Lm. rewrite app_length in Lo, Lm. cbn [length] in Lo, Lm.
  pose (ls := blank (hs ++ [length labels])). pose proof (nth_last d hs (length labels)) as HK. fold ls in HK. set (L := length hs) in *.
  assert (0 < L) as HL0 by (unfold L; destruct hs; [congruence|cbn; lia]). unfold deep_step.
  assert (length ls = S L) as HL by (unfold ls, L; rewrite blank_length, app_length; cbn; lia).
  apply (chain_any _ _ _ ls (blank_sizes _)) in Ho. apply (chain_any _ _ _ ls (blank_sizes _)) in Hm.
  assert (deep_forward dexp dtanh a (input_vector x) (old ++ ms) L = deep_forward dexp dtanh a (input_vector x) old L) as ->.
  { unfold deep_forward. apply foldM_ext. intros st k Hk. apply in_seq in Hk. assert (atn (old ++ ms) k = atn old k) as -> by (unfold atn; rewrite nth_error_app1 by lia; reflexivity). reflexivity. }
  destruct (deep_forwardP anyP anyP_closed dexp dtanh (fun _ => 1%Q) (fun _ => 0%Q) any_e one_pos any_t a d ls (fun _ => 0%Q) old Ho L HL (input_vector x) (input_with_bias x d Hd)) as (hh & E & F). rewrite E. cbn [attempt].
  destruct (deep_start anyP anyP_closed dexp (fun _ => 1%Q) (fun _ => 0%Q) any_e one_pos a d ls (fun _ => 0%Q) ms Hm L HL HL0 (input_vector x) (input_with_bias x d Hd) (find_pos (label x) labels) labels x Hl eq_refl HK hh F) as (hb & p & dv & E' & Hhb & B0).
  assert (length (old ++ ms) = S (S (L + L))) as Lom by (rewrite app_length; lia).
  assert (atn (old ++ ms) (length (old ++ ms) - 1) = atn ms (length ms - 1)) as ->. { unfold atn. rewrite Lom, nth_error_app2 by lia. replace (S (S (L + L)) - 1 - length old) with (length ms - 1) by lia. reflexivity. }
  rewrite E'. cbn [attempt fst snd]. rewrite Lom. replace (S (S (L + L)) - 1) with (S (L + L)) by lia. rewrite seq_S, rev_app_distr. cbn [rev app foldM Nat.add].
  destruct B0 as (B1 & _). cbn [fst] in B1. rewrite Nat.sub_0_r, HK in B1.
  destruct (layer_at anyP d ls ms Hm L HL L ltac:(lia)) as (w & Ew & Hw). rewrite HK in Hw.
  unfold deep_back at 1. cbn [fst snd]. assert (atn (old ++ ms) (L + L + 1) = Ok w) as ->. { unfold atn in *. rewrite nth_error_app2 by lia. replace (L + L + 1 - length old) with L by lia. exact Ew. }
  cbn [bind]. destruct (mul_lP anyP anyP_closed w _ _ _ dv _ Hw B1) as (t & -> & Ht). cbn [bind]. destruct (vremove0P anyP t _ _ Ht) as (t' & -> & Ht'). cbn [bind].
  assert (atn (fst hh) (L + L) = Throw OutOfRange) as ->. { destruct F as (F1 & _). unfold atn. destruct (nth_error (fst hh) (L + L)) eqn:En; [|reflexivity]. assert (L + L < length (fst hh)) by (apply nth_error_Some; congruence). lia. }
  reflexivity.
Qed.
Lemma deep_train_twice m l d p q tr va : net_data l d -> p_ratio p = Fin q -> p_hidden p <> [] -> is_chain (de_weights m) d (p_hidden p ++ [length (distinct_labels l)]) ->
  part_strat rarr (Fin q) (p_seed p) l = Ok [va; tr] -> tr <> [] -> 0 < p_epochs p ->
  deep_train dexp dtanh rarr perm rand m l p = Throw OutOfRange.
Proof.
  intros Hd Hq Hh Hc Hpart Htr Hn. unfold deep_train. rewrite (net_data_init l d Hd). cbn [bind fst snd]. rewrite Hq. destruct (split_ok q (p_seed p) l) as (tr0 & va0 & -> & Es & Hp). cbn [bind fst snd].
  assert (tr0 = tr /\ va0 = va) as (-> & ->) by (split; congruence).
  set (labels := distinct_labels l) in *. destruct (fits_app _ _ va tr l (net_data_fits l d Hd) Hp) as (_ & Ftr). fold labels in Ftr.
  destruct (deep_allocate_chain (de_weights m) (p_seed p) (p_hidden p) (length labels) d Hh) as (ms & -> & Hms). cbn [bind].
  unfold run_epochs. destruct (p_epochs p) as [|n]; [lia|]. cbn [seq foldM]. unfold deep_body at 1. cbn [fst snd].
  pose proof (shuffle_perm (p_seed p) tr) as Hs. destruct (shuffle perm (p_seed p) tr) as [|x tr'] eqn:Esh.
  - apply Permutation_nil in Hs. congruence.
  - cbn [foldM]. rewrite (deep_step_twice labels (p_act p) d (p_hidden p) (p_rate p) (de_weights m) ms (de_y m) x); [reflexivity| |exact Hc|exact Hms|exact Hh].
    rewrite Forall_forall in Ftr. apply Ftr. eapply Permutation_in; [exact Hs|]. left. reflexivity.
Qed.
End Train.
