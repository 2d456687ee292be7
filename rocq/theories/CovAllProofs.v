(** The per-feature statistics, put together, are the statistics of the numeric vectors: averages, standard deviations
    and the diagonal of the covariance matrix. *)
From Coq Require Import String ZArith QArith Qreals Qfield Reals Bool Lia Lra Lqa Sorting.Sorted Permutation Arith List.
From Verif Require Import Base Spec BaseLemmas DblLemmas AttrModel AttrProofs DataSetProofs InstanceListModel StatModel ListSpec StatSpec ListProofs CovProofs.
Import ListNotations.
Local Open Scope list_scope.
Local Open Scope nat_scope.


(** numeric block of an attribute *)
Definition blk (a : attr) : list Q :=
  match a with
  | ACont (Fin q) => [q]
  | AIdx _ i m => map (fun j => if (Z.of_nat j =? i)%Z then 1%Q else 0%Q) (seq 0 m)
  | _ => []
  end.
Lemma one_hot_seq i n k : one_hot_from i n k = map (fun j => if (Z.of_nat j =? k)%Z then d1 else d0) (seq i n).
Proof. revert i; induction n; intros i; simpl; [reflexivity|]. rewrite IHn; reflexivity. Qed.
Lemma blk_vals s a : fits s a -> attr_vals a = map Fin (blk a) /\ length (blk a) = width s.
Proof.
  destruct s as [m|]; simpl.
  - intros (v & i & -> & Hi). simpl. rewrite one_hot_seq, map_map, map_length, seq_length. split; [|reflexivity].
    apply map_ext. intros j. destruct (Z.of_nat j =? Z.of_nat i)%Z; reflexivity.
  - intros (q & ->). split; reflexivity.
Qed.
Definition col (j : nat) (bs : list (list Q)) : list Q := map (fun b => nth j b 0%Q) bs.

Lemma qmean_ext l l' : Forall2 Qeq l l' -> (qmean l == qmean l')%Q.
Proof.
  intros H. unfold qmean. rewrite (Forall2_len _ _ _ H). apply Qmult_comp; [|reflexivity].
  clear -H. induction H; simpl; [reflexivity|]. rewrite H, IHForall2. reflexivity.
Qed.
Lemma sum_indicator (is_ : list Z) j : (qsum (map (fun i => if (Z.of_nat j =? i)%Z then 1 else 0) is_) == qofn (countb (Z.eqb (Z.of_nat j)) is_))%Q.
Proof.
  induction is_ as [|i is_ IH]; [reflexivity|]. rewrite countb_cons, qofn_plus, <- IH. simpl.
  destruct (Z.of_nat j =? i)%Z; [rewrite qofn_1|rewrite qofn_0]; reflexivity.
Qed.

(** feature [k] of every instance of [l], as attributes *)
Definition attr_col (k : nat) (l : list instance) (aa : list attr) : Prop := Forall2 (fun x a => nth_error (attrs x) k = Some a) l aa.
Lemma feature_nth x k a : nth_error (attrs x) k = Some a -> feature x (Z.of_nat k) a.
Proof.
  intros H. split; [|rewrite Nat2Z.id; exact H]. assert (k < length (attrs x)) by (apply nth_error_Some; congruence). unfold in_range; lia.
Qed.
Definition cval (a : attr) : Q := match a with ACont (Fin q) => q | _ => 0%Q end.
Definition ival (a : attr) : Z := match a with AIdx _ i _ => i | _ => 0%Z end.
Lemma col_cont k l aa : attr_col k l aa -> Forall (fits None) aa -> num_column (Z.of_nat k) l (map Fin (map cval aa)).
Proof.
  intros H. unfold num_column. induction H as [|x a l aa Hx H IH]; intros HF; [constructor|].
  inversion HF as [|? ? [q ->] HF']; subst. constructor; [apply feature_nth; exact Hx|auto].
Qed.
Lemma col_idx k l aa m : attr_col k l aa -> Forall (fits (Some m)) aa ->
  index_column (Z.of_nat k) l (map ival aa) /\ Forall (fun i => (0 <= i < Z.of_nat m)%Z) (map ival aa).
Proof.
  induction 1 as [|x a l aa Hx H IH]; intros HF; [repeat constructor|].
  inversion HF as [|? ? (v & i & -> & Hi) HF']; subst. destruct (IH HF') as [I1 I2]. split; constructor; auto.
  - exists v, m. apply feature_nth; exact Hx.
  - simpl. lia.
Qed.

Lemma avg_block k s l aa : attr_col k l aa -> Forall (fits s) aa -> 1 <= length l ->
  exists av, cont_average (Z.of_nat k) l = Ok (map Fin av) /\ length av = width s /\
    forall j, j < width s -> (nth j av 0 == qmean (col j (map blk aa)))%Q.
Proof.
  intros H HF HL. pose proof (Forall2_len _ _ _ H) as Hlen. destruct s as [m|].
  - destruct (col_idx _ _ _ _ H HF) as [HC HR]. destruct l as [|x l0] eqn:El; [simpl in HL; lia|]. rewrite <- El in *.
    assert (Hf : exists s i0, feature x (Z.of_nat k) (AIdx s i0 m)).
    { subst l. inversion H as [|? a ? aa' Hx]; subst. inversion HF as [|? ? (v & i & -> & Hi)]; subst. exists v, (Z.of_nat i). apply feature_nth; exact Hx. }
    destruct Hf as (v & i0 & Hf). destruct (cont_average_idx (Z.of_nat k) l (map ival aa) v i0 m HC HR) as (fs & E & L & Hfs); [eauto|].
    exists fs. split; [exact E|]. split; [exact L|]. intros j Hj. simpl in Hj.
    rewrite (Hfs j (nth j fs 0%Q)) by (apply nth_error_nth'; lia). unfold qmean, col. rewrite !map_length, Hlen.
    apply Qmult_comp; [|reflexivity]. rewrite <- sum_indicator. rewrite !map_map. apply qsum_ext. intros a Ha.
    rewrite Forall_forall in HF. destruct (HF a Ha) as (w & i & -> & Hi). simpl. rewrite nth_map_seq by exact Hj. reflexivity.
  - pose proof (col_cont _ _ _ H HF) as HC. destruct (attr_average_cont (Z.of_nat k) l (map cval aa)) as (a & _ & E & Ha); [intros ->; simpl in HL; lia|exact HC|].
    exists [a]. split; [exact E|]. split; [reflexivity|]. intros j Hj. simpl in Hj. assert (j = 0) by lia. subst j. simpl. rewrite Ha.
    unfold qmean, col. rewrite !map_length, Hlen. apply Qmult_comp; [|reflexivity]. rewrite map_map. apply qsum_ext. intros z Hz.
    rewrite Forall_forall in HF. destruct (HF z Hz) as (q & ->). reflexivity.
Qed.
Lemma idx_dev_fin m avgs vals i : length vals = m -> length avgs = m ->
  exists r, idx_dev (map Fin avgs) (map Fin vals) i = map Fin r /\ length r = m /\
    forall j, j < m -> (nth j r 0 == nth j vals 0 + ((if (Z.of_nat j =? i)%Z then 1 else 0) - nth j avgs 0) * ((if (Z.of_nat j =? i)%Z then 1 else 0) - nth j avgs 0))%Q.
Proof.
  intros Hv Ha. unfold idx_dev. rewrite map_length, Hv.
  assert (HG : forall avgs vals o, length vals = length avgs ->
    exists r, map (fun p => let '(j, (v, a)) := p in dadd v (if (Z.of_nat j =? i)%Z then dpow2 (dsub d1 a) else dpow2 a))
      (combine (seq o (length vals)) (combine (map Fin vals) (map Fin avgs))) = map Fin r /\ length r = length vals /\
    forall j, j < length vals -> (nth j r 0 == nth j vals 0 + ((if (Z.of_nat (o + j) =? i)%Z then 1 else 0) - nth j avgs 0) * ((if (Z.of_nat (o + j) =? i)%Z then 1 else 0) - nth j avgs 0))%Q).
  { clear. induction avgs as [|a avgs IH]; intros [|v vals] o H; simpl in *; try discriminate.
    - exists []. repeat split; auto. intros; lia.
    - destruct (IH vals (S o)) as (r & E & L & Hr); [lia|].
      exists ((if (Z.of_nat o =? i)%Z then v + (1 + - a) * (1 + - a) else v + a * a)%Q :: r). split; [|split].
      + simpl. rewrite <- E. f_equal. destruct (Z.of_nat o =? i)%Z; reflexivity.
      + simpl; lia.
      + intros [|j] Hj; simpl.
        * rewrite Nat.add_0_r. destruct (Z.of_nat o =? i)%Z; ring.
        * rewrite Hr by lia. replace (o + S j) with (S o + j) by lia. reflexivity. }
  destruct (HG avgs vals 0) as (r & E & L & Hr); [congruence|]. exists r. rewrite Hv in *. split; [exact E|]. split; [exact L|exact Hr].
Qed.
Lemma idx_dev_fold k l is_ m avgs vals : index_column k l is_ -> length avgs = m -> length vals = m ->
  exists r, foldM (fun vs x => do i <- index_at k x; Ok (idx_dev (map Fin avgs) vs i)) l (map Fin vals) = Ok (map Fin r) /\ length r = m /\
    forall j, j < m -> (nth j r 0 == nth j vals 0 + qsum (map (fun i => ((if (Z.of_nat j =? i)%Z then 1 else 0) - nth j avgs 0) * ((if (Z.of_nat j =? i)%Z then 1 else 0) - nth j avgs 0)) is_))%Q.
Proof.
  intros H Ha. revert vals. induction H as [|x i l is_ Hx H IH]; intros vals Hv; cbn [foldM map].
  - exists vals. repeat split; auto. intros; simpl; ring.
  - apply index_at_ok in Hx. rewrite Hx. cbn [bind]. destruct (idx_dev_fin m avgs vals i Hv Ha) as (r1 & E1 & L1 & H1). rewrite E1.
    destruct (IH r1 L1) as (r & E & L & Hr). exists r. split; [exact E|]. split; [exact L|]. intros j Hj. rewrite Hr, H1 by exact Hj. simpl. ring.
Qed.
Lemma std_block k s l aa : attr_col k l aa -> Forall (fits s) aa -> 2 <= length l ->
  exists sd, cont_std (Z.of_nat k) l = Ok sd /\ length sd = width s /\
    forall j, j < width s -> nth_error sd j = Some (RFin (sqrt (Q2R (sqdev (col j (map blk aa)) / qofn (length l - 1))))).
Proof.
  intros H HF HL. pose proof (Forall2_len _ _ _ H) as Hlen. destruct s as [m|].
  - destruct (col_idx _ _ _ _ H HF) as [HC HR].
    destruct (avg_block _ _ _ _ H HF) as (av & Eav & Lav & Hav); [lia|].
    destruct l as [|x l0] eqn:El; [simpl in HL; lia|]. rewrite <- El in *.
    assert (H0 : atn l 0 = Ok x) by (subst l; reflexivity).
    assert (Hf : exists s i0, get_attr x (Z.of_nat k) = Ok (AIdx s i0 m)).
    { subst l. inversion H as [|? a ? aa' Hx]; subst. inversion HF as [|? ? (v & i & -> & Hi)]; subst. exists v, (Z.of_nat i).
      apply get_attr_ok. apply feature_nth; exact Hx. }
    destruct Hf as (v & i0 & Hf).
    unfold cont_average in Eav. unfold cont_std. rewrite H0 in *. cbn [bind] in *. rewrite Hf in *. cbn [bind isDiscreteIndexed idx_max] in *.
    destruct (foldM (count_index (Z.of_nat k)) l (repeat d0 m)) as [cs| | |]; try discriminate. cbn [bind] in *.
    injection Eav as ->. rewrite repeat_fin.
    destruct (idx_dev_fold (Z.of_nat k) l (map ival aa) m av (repeat 0%Q m) HC) as (r & E & L & Hr); [exact Lav|apply repeat_length|].
    rewrite E. cbn [bind]. eexists; split; [reflexivity|]. rewrite !map_length. split; [exact L|]. intros j Hj. simpl in Hj.
    rewrite nth_error_map, nth_error_map, (nth_error_nth' r 0%Q) by lia. cbn [option_map].
    pose proof (qofn_pred_pos _ HL) as HP. unfold dofnat. change (inject_Z (Z.of_nat (length l - 1))) with (qofn (length l - 1)).
    rewrite ddiv_fin by (apply Qnot_eq_sym, Qlt_not_eq; exact HP).
    assert (EQ : (nth j r 0 == sqdev (col j (map blk aa)))%Q).
    { rewrite Hr by exact Hj. rewrite nth_repeat, Qplus_0_l. unfold sqdev. set (mu := qmean _).
      assert (Hmu : (nth j av 0 == mu)%Q) by (apply Hav; exact Hj).
      unfold col. rewrite !map_map. apply qsum_ext. intros a Ha.
      rewrite Forall_forall in HF. destruct (HF a Ha) as (w & i & -> & Hi). simpl. rewrite nth_map_seq by exact Hj. rewrite Hmu. ring. }
    rewrite rsqrt_fin. 2:{ rewrite EQ. apply Qle_shift_div_l; [exact HP|]. rewrite Qmult_0_l. apply sqdev_nonneg. }
    do 3 f_equal. apply Qeq_eqR. rewrite EQ. reflexivity.
  - pose proof (col_cont _ _ _ H HF) as HC. destruct (attr_std_fin _ _ _ HC HL) as [_ E]. eexists; split; [exact E|]. split; [reflexivity|].
    intros j Hj. simpl in Hj. assert (j = 0) by lia. subst j. cbn [nth_error]. rewrite map_length, <- Hlen.
    replace (col 0 (map blk aa)) with (map cval aa); [reflexivity|]. unfold col. rewrite map_map. apply map_ext_in. intros a Ha.
    rewrite Forall_forall in HF. destruct (HF a Ha) as (q & ->). reflexivity.
Qed.

(** position [j] of a concatenation is position [j'] of block [k], where [k], [j'] only depend on the block lengths *)
Fixpoint locate (ds : list nat) (j : nat) : nat * nat :=
  match ds with [] => (0, 0) | d :: ds => if j <? d then (0, j) else let (k, j') := locate ds (j - d) in (S k, j') end.
Lemma locate_spec ds j : j < list_sum ds -> exists d, nth_error ds (fst (locate ds j)) = Some d /\ snd (locate ds j) < d.
Proof.
  revert j. induction ds as [|d ds IH]; intros j H; simpl in *; [lia|]. destruct (Nat.ltb_spec j d); [exists d; auto|].
  destruct (IH (j - d)) as (d' & H1 & H2); [lia|]. destruct (locate ds (j - d)); simpl in *. eauto.
Qed.
Lemma locate_nth {A} (ls : list (list A)) ds j z : map (@length A) ls = ds -> j < list_sum ds ->
  nth j (concat ls) z = nth (snd (locate ds j)) (nth (fst (locate ds j)) ls []) z.
Proof.
  revert ds j. induction ls as [|l ls IH]; intros ds j <- H; simpl in *; [lia|].
  destruct (Nat.ltb_spec j (length l)); simpl.
  - apply app_nth1. assumption.
  - rewrite app_nth2 by assumption. rewrite (IH _ (j - length l) eq_refl) by lia. destruct (locate _ (j - length l)); reflexivity.
Qed.
Lemma length_concat {A} (ls : list (list A)) : length (concat ls) = list_sum (map (@length A) ls).
Proof. induction ls; simpl; [reflexivity|]. rewrite app_length, IHls; reflexivity. Qed.

Definition row (x : instance) : list Q := concat (map blk (attrs x)).
Lemma fits_blk_lengths shape aa : Forall2 fits shape aa -> map (@length Q) (map blk aa) = map width shape.
Proof. induction 1; simpl; [reflexivity|]. rewrite IHForall2. f_equal. eapply blk_vals; eassumption. Qed.
Lemma uniform_rows shape l : uniform shape l -> Forall2 (fun x r => inst_vals x = map Fin r /\ length r = dim shape) l (map row l).
Proof.
  intros H. apply Forall2_map_r. induction H as [|x l Hx H IH]; constructor; [|exact IH]. split.
  - rewrite inst_vals_concat. unfold row. rewrite concat_map, map_map. f_equal. clear -Hx. induction Hx; simpl; [reflexivity|].
    rewrite IHHx. f_equal. eapply blk_vals; eassumption.
  - unfold row. rewrite length_concat, (fits_blk_lengths _ _ Hx). reflexivity.
Qed.
Lemma uniform_col shape l k s : uniform shape l -> nth_error shape k = Some s ->
  exists aa, attr_col k l aa /\ Forall (fits s) aa /\ map blk aa = map (fun x => nth k (map blk (attrs x)) []) l.
Proof.
  intros H Hk. induction H as [|x l Hx H (aa & I1 & I2 & I3)]; [exists []; repeat constructor|].
  assert (Hlen := Forall2_len _ _ _ Hx). assert (k < length shape) by (apply nth_error_Some; congruence).
  destruct (nth_error (attrs x) k) as [a|] eqn:Ea; [|apply nth_error_None in Ea; lia].
  exists (a :: aa). split; [constructor; assumption|]. split; [constructor; [eapply (Forall2_nth _ _ _ k); eassumption|assumption]|].
  simpl. rewrite I3. f_equal. symmetry. apply nth_error_nth. rewrite nth_error_map, Ea. reflexivity.
Qed.
Lemma mapM_seq_blocks {B} (f : nat -> res (list B)) (P : nat -> list B -> Prop) n :
  (forall k, k < n -> exists r, f k = Ok r /\ P k r) ->
  exists rs, mapM f (seq 0 n) = Ok rs /\ length rs = n /\ forall k r, nth_error rs k = Some r -> P k r.
Proof.
  assert (HG : forall o, (forall k, k < n -> exists r, f (o + k) = Ok r /\ P (o + k) r) ->
     exists rs, mapM f (seq o n) = Ok rs /\ length rs = n /\ forall k r, nth_error rs k = Some r -> P (o + k) r).
  { induction n as [|n IH]; intros o H; simpl.
    - exists []. repeat split; auto. intros [|k] r Hr; discriminate.
    - destruct (H 0) as (r0 & E0 & P0); [lia|]. rewrite Nat.add_0_r in *. rewrite E0. simpl.
      destruct (IH (S o)) as (rs & E & L & HP).
      { intros k Hk. destruct (H (S k)) as (r & Er & Pr); [lia|]. rewrite <- plus_n_Sm in *. exists r; auto. }
      rewrite E. simpl. exists (r0 :: rs). split; [reflexivity|]. split; [simpl; lia|]. intros [|k] r Hr; simpl in Hr.
      + injection Hr as <-. rewrite Nat.add_0_r. exact P0.
      + rewrite <- plus_n_Sm. apply HP; exact Hr. }
  intros H. apply (HG 0 H).
Qed.
Lemma col_row shape l j : uniform shape l -> j < dim shape ->
  col j (map row l) = col (snd (locate (map width shape) j)) (map (fun x => nth (fst (locate (map width shape) j)) (map blk (attrs x)) []) l).
Proof.
  intros H Hj. unfold col. rewrite !map_map. apply map_ext_in. intros x Hx. unfold uniform in H. rewrite Forall_forall in H.
  unfold row. apply locate_nth; [apply fits_blk_lengths; auto|exact Hj].
Qed.
Lemma shape_first shape l x : uniform shape l -> atn l 0 = Ok x -> attr_count x = length shape.
Proof.
  intros H H0. apply atn_ok in H0. apply nth_error_In in H0. unfold uniform in H. rewrite Forall_forall in H. apply H in H0.
  unfold attr_count. symmetry. eapply Forall2_len; exact H0.
Qed.
Lemma map_length_from {B} (rs : list (list B)) (shape : list (option nat)) : length rs = length shape ->
  (forall k r, nth_error rs k = Some r -> exists s, nth_error shape k = Some s /\ length r = width s) ->
  map (@length B) rs = map width shape.
Proof.
  intros L H. apply list_ext. intros i. rewrite !nth_error_map. destruct (nth_error rs i) eqn:E.
  - destruct (H _ _ E) as (s & Hs & Hl). rewrite Hs. simpl. rewrite Hl. reflexivity.
  - apply nth_error_None in E. rewrite (proj2 (nth_error_None shape i)) by lia. reflexivity.
Qed.
Lemma average_all shape l : uniform shape l -> 1 <= length l ->
  exists av, cont_average_all l = Ok (map Fin av) /\ length av = dim shape /\
    forall j, j < dim shape -> (nth j av 0 == qmean (col j (map row l)))%Q.
Proof.
  intros H HL. destruct l as [|x l0] eqn:El; [simpl in HL; lia|]. rewrite <- El in *.
  assert (H0 : atn l 0 = Ok x) by (subst l; reflexivity). unfold cont_average_all. rewrite H0. cbn [bind].
  rewrite (shape_first _ _ _ H H0).
  destruct (mapM_seq_blocks (fun i => cont_average (Z.of_nat i) l)
    (fun k r => exists s av, nth_error shape k = Some s /\ r = map Fin av /\ length av = width s /\
       forall j, j < width s -> (nth j av 0 == qmean (col j (map (fun x => nth k (map blk (attrs x)) []) l)))%Q) (length shape)) as (rs & E & L & HP).
  { intros k Hk. destruct (nth_error shape k) as [s|] eqn:Es; [|apply nth_error_None in Es; lia].
    destruct (uniform_col _ _ _ _ H Es) as (aa & H1 & H2 & H3). destruct (avg_block _ _ _ _ H1 H2 HL) as (av & Ea & La & Ha).
    exists (map Fin av). split; [exact Ea|]. exists s, av. rewrite <- H3. auto. }
  rewrite E. cbn [bind].
  assert (HQ : exists qs, rs = map (map Fin) qs).
  { clear -HP. assert (HP' : forall r, In r rs -> exists av, r = map Fin av).
    { intros r Hr. apply In_nth_error in Hr. destruct Hr as [k Hk]. destruct (HP _ _ Hk) as (s & av & _ & -> & _). eauto. }
    clear HP. induction rs as [|r rs IH]; [exists []; reflexivity|]. destruct IH as (qs & ->); [intros; apply HP'; right; assumption|].
    destruct (HP' r) as (av & ->); [left; reflexivity|]. exists (av :: qs). reflexivity. }
  destruct HQ as (qs & ->). rewrite map_length in L.
  assert (HP2 : forall k q, nth_error qs k = Some q -> exists s, nth_error shape k = Some s /\ length q = width s /\
       forall j, j < width s -> (nth j q 0 == qmean (col j (map (fun x => nth k (map blk (attrs x)) []) l)))%Q).
  { intros k q Hq. destruct (HP k (map Fin q)) as (s & av & Hs & Eq & La & Ha); [rewrite nth_error_map, Hq; reflexivity|].
    assert (q = av). { clear -Eq. revert av Eq. induction q; intros [|b av] E; simpl in E; try discriminate; [reflexivity|]. injection E as -> E. f_equal; auto. }
    subst av. eauto. }
  assert (HD : map (@length Q) qs = map width shape).
  { apply map_length_from; [exact L|]. intros k r Hr. destruct (HP2 _ _ Hr) as (s & ? & ? & _). eauto. }
  exists (concat qs). split; [rewrite concat_map; reflexivity|]. split; [rewrite length_concat, HD; reflexivity|].
  intros j Hj. rewrite (locate_nth qs _ j 0%Q HD Hj). rewrite (col_row _ _ _ H Hj).
  destruct (locate_spec (map width shape) j Hj) as (d & Hd & Hlt). set (k := fst _) in *. set (j' := snd _) in *.
  rewrite nth_error_map in Hd. destruct (nth_error shape k) as [s|] eqn:Es; [|discriminate]. injection Hd as <-.
  assert (Hk : k < length qs) by (rewrite L; apply nth_error_Some; congruence).
  destruct (HP2 k (nth k qs [])) as (s' & Hs' & _ & Ha); [apply nth_error_nth'; exact Hk|]. rewrite Es in Hs'. injection Hs' as <-.
  apply Ha. exact Hlt.
Qed.
Lemma std_all_spec shape l : uniform shape l -> 2 <= length l ->
  exists sd, cont_std_all l = Ok sd /\ length sd = dim shape /\
    forall j, j < dim shape -> nth j sd RNaN = RFin (sqrt (Q2R (sqdev (col j (map row l)) / qofn (length l - 1)))).
Proof.
  intros H HL. destruct l as [|x l0] eqn:El; [simpl in HL; lia|]. rewrite <- El in *.
  assert (H0 : atn l 0 = Ok x) by (subst l; reflexivity). unfold cont_std_all. rewrite H0. cbn [bind].
  rewrite (shape_first _ _ _ H H0).
  destruct (mapM_seq_blocks (fun i => cont_std (Z.of_nat i) l)
    (fun k r => exists s, nth_error shape k = Some s /\ length r = width s /\
       forall j, j < width s -> nth j r RNaN = RFin (sqrt (Q2R (sqdev (col j (map (fun x => nth k (map blk (attrs x)) []) l)) / qofn (length l - 1))))) (length shape)) as (rs & E & L & HP).
  { intros k Hk. destruct (nth_error shape k) as [s|] eqn:Es; [|apply nth_error_None in Es; lia].
    destruct (uniform_col _ _ _ _ H Es) as (aa & H1 & H2 & H3). destruct (std_block _ _ _ _ H1 H2 HL) as (sd & Ea & La & Ha).
    exists sd. split; [exact Ea|]. exists s. rewrite <- H3. split; [reflexivity|]. split; [exact La|]. intros j Hj. apply nth_error_nth. apply Ha; exact Hj. }
  rewrite E. cbn [bind].
  assert (HD : map (@length rdbl) rs = map width shape).
  { apply map_length_from; [exact L|]. intros k r Hr. destruct (HP _ _ Hr) as (s & ? & ? & _). eauto. }
  exists (concat rs). split; [reflexivity|]. split; [rewrite length_concat, HD; reflexivity|].
  intros j Hj. rewrite (locate_nth rs _ j RNaN HD Hj). rewrite (col_row _ _ _ H Hj).
  destruct (locate_spec (map width shape) j Hj) as (d & Hd & Hlt). set (k := fst _) in *. set (j' := snd _) in *.
  rewrite nth_error_map in Hd. destruct (nth_error shape k) as [s|] eqn:Es; [|discriminate]. injection Hd as <-.
  assert (Hk : k < length rs) by (rewrite L; apply nth_error_Some; congruence).
  destruct (HP k (nth k rs [])) as (s' & Hs' & _ & Ha); [apply nth_error_nth'; exact Hk|]. rewrite Es in Hs'. injection Hs' as <-.
  apply Ha. exact Hlt.
Qed.
Lemma diagonal shape l : uniform shape l -> 2 <= length l ->
  exists av sd m, cont_average_all l = Ok (map Fin av) /\ cont_std_all l = Ok sd /\
    covariance (map Fin av) l = Ok (map (map Fin) m) /\ square (dim shape) m /\ length sd = dim shape /\
    forall j, j < dim shape -> exists s, nth_error sd j = Some (RFin s) /\ (0 <= s)%R /\ (s * s = Q2R (mget m j j))%R.
Proof.
  intros H HL. destruct (average_all _ _ H) as (av & Ea & La & Ha); [lia|].
  destruct (std_all_spec _ _ H HL) as (sd & Es & Ls & Hs).
  destruct (covariance_fin (dim shape) av l (map row l) HL La (uniform_rows _ _ H)) as (m & Em & Sm & Hm).
  exists av, sd, m. split; [exact Ea|]. split; [exact Es|]. split; [exact Em|]. split; [exact Sm|]. split; [exact Ls|]. intros j Hj.
  eexists. split; [rewrite (nth_error_nth' sd RNaN) by lia; rewrite Hs by exact Hj; reflexivity|]. split; [apply sqrt_pos|].
  pose proof (qofn_pred_pos _ HL) as HP. rewrite sqrt_sqrt.
  - apply Qeq_eqR. rewrite Hm by assumption. apply Qmult_comp; [|reflexivity]. unfold sqdev. pose proof (Ha j Hj) as Hmu. set (mu := qmean _) in *.
    unfold col. rewrite !map_map. apply qsum_ext. intros x _. unfold dev. rewrite Hmu. reflexivity.
  - rewrite <- RMicromega.Q2R_0. apply Qle_Rle. apply Qle_shift_div_l; [exact HP|]. rewrite Qmult_0_l. apply sqdev_nonneg.
Qed.
