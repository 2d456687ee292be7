(** C13-C20: instance lists. *)
From Coq Require Import String ZArith QArith Qreals Qabs Qfield Reals Bool Lia Lra Lqa Sorting.Sorted Permutation Arith List.
From Verif Require Import Base Spec BaseLemmas DblLemmas AttrModel AttrProofs InstanceListModel StatModel ListSpec StatSpec ListProofs CovProofs CovAllProofs.
Import ListNotations.
Local Open Scope string_scope.
Local Open Scope list_scope.
Local Open Scope nat_scope.

(** a concrete list used in the examples: one continuous, one discrete, one indexed feature *)
Definition ex_list : list instance :=
  [mkInst "b" [ACont (Fin 3); ADisc "x"; AIdx "p" 0 2] None;
   mkInst "a" [ACont (Fin 1); ADisc "y"; AIdx "q" 1 2] None;
   mkInst "b" [ACont (Fin 2); ADisc "y"; AIdx "p" 0 2] None;
   mkInst "c" [ACont (Fin 1); ADisc "x"; AIdx "p" 0 2] None].
Ltac feat := repeat split; try reflexivity; try discriminate.
Ltac column := simpl; repeat (apply Forall2_cons; [feat|]); apply Forall2_nil.
Example ex_num : num_column 0 ex_list (map Fin [3; 1; 2; 1]%Q).
Proof. column. Qed.
Example ex_text : text_column 1 ex_list ["x"; "y"; "y"; "x"].
Proof. repeat constructor; (eexists; split; [split; [split; reflexivity || discriminate|reflexivity]|left; reflexivity]). Qed.
Example ex_index : index_column 2 ex_list [0; 1; 0; 0]%Z.
Proof. repeat constructor; (eexists; eexists; split; [split; reflexivity || discriminate|reflexivity]). Qed.

(** * C13: sort(i) on values without NaN *)
Theorem C13_sort_by_feature : forall k l vs,
  num_column k l vs -> Forall (fun v => is_nan v = false) vs ->
  exists l' vs', sort_by k l = Ok l' /\ Permutation l l' /\ num_column k l' vs' /\
    StronglySorted (fun v w => dltb w v = false) vs' /\
    forall v, filter (has_number k v) l' = filter (has_number k v) l.
Proof. exact sort_by_spec. Qed.
(** a NaN value violates the precondition of std::stable_sort *)
Theorem C13_nan_undefined : forall k l vs,
  num_column k l vs -> 2 <= length l -> Exists (fun v => is_nan v = true) vs -> sort_by k l = UB BadOrder.
Proof. exact sort_by_nan. Qed.
Example C13_case : exists l', sort_by 0 ex_list = Ok l' /\ map label l' = ["a"; "c"; "b"; "b"].
Proof. eexists; split; reflexivity. Qed.
Example C13_case_nan : num_column 0 [mkInst "a" [ACont NaN] None; mkInst "a" [ACont (Fin 1)] None] [NaN; Fin 1].
Proof. column. Qed.
Print Assumptions C13_sort_by_feature.
Print Assumptions C13_nan_undefined.

(** * C14: sort() *)
Theorem C14_sort_by_class : forall l, is_stable_sort (fun x y => sltb (label x) (label y)) l (sort_class l).
Proof. exact sort_class_stable. Qed.
(** one block per class, in label order, each block in the original order *)
Theorem C14_contiguous_blocks : forall l, exists cs,
  StronglySorted (fun c d => String.compare c d = Lt) cs /\ (forall c, In c cs <-> In c (map label l)) /\
  sort_class l = flat_map (fun c => filter (fun x => String.eqb (label x) c) l) cs.
Proof. exact sort_class_blocks. Qed.
Example C14_case : map label (sort_class ex_list) = ["a"; "b"; "b"; "c"].
Proof. reflexivity. Qed.
Print Assumptions C14_sort_by_class.
Print Assumptions C14_contiguous_blocks.

(** * C15 *)
Theorem C15_distinct_labels : forall l, first_occurrences (map label l) (distinct_labels l).
Proof. intros l. rewrite distinct_labels_map. apply first_occurrences_push. Qed.
Theorem C15_value_list : forall k l vs, text_column k l vs ->
  exists r, value_list k l = Ok r /\ first_occurrences vs r.
Proof. intros k l vs H. exists (fold_left push_new vs []). split; [apply value_list_ok; exact H|apply first_occurrences_push]. Qed.
Theorem C15_union_possible : forall l, first_occurrences (flat_map possible_labels l) (union_possible l).
Proof. intros l. rewrite union_possible_flat. apply first_occurrences_push. Qed.
(** what the possible labels of an instance are *)
Theorem C15_possible_labels : forall x,
  possible_labels x = match composite x with Some ls => ls | None => [label x] end.
Proof. intros [l a [c|]]; reflexivity. Qed.
Example C15_case : distinct_labels ex_list = ["b"; "a"; "c"] /\ value_list 1 ex_list = Ok ["x"; "y"] /\
  union_possible [mkInst "p" [] (Some ["p"; "q"]); mkInst "r" [] None] = ["p"; "q"; "r"].
Proof. repeat split; reflexivity. Qed.
Print Assumptions C15_distinct_labels.
Print Assumptions C15_value_list.
Print Assumptions C15_union_possible.
Print Assumptions C15_possible_labels.

(** * C16 *)
Theorem C16_class_counts : forall l c, ccount (class_distribution l) c = occ (map label l) c.
Proof. intros. rewrite class_distribution_cofl, ccount_cofl. reflexivity. Qed.
Theorem C16_class_keys : forall l c, In c (mkeys (class_distribution l)) <-> In c (map label l).
Proof. intros. rewrite class_distribution_cofl. apply in_cofl. Qed.
Theorem C16_class_sum : forall l, csum (class_distribution l) = length l.
Proof. intros. rewrite class_distribution_cofl, csum_cofl. apply map_length. Qed.
Theorem C16_order_independent : forall l l', Permutation l l' -> class_distribution l = class_distribution l'.
Proof. intros. rewrite !class_distribution_cofl. apply cofl_perm. apply Permutation_map. assumption. Qed.
Example C16_case : class_distribution ex_list = [("a", 1); ("b", 2); ("c", 1)].
Proof. reflexivity. Qed.
Print Assumptions C16_class_counts.
Print Assumptions C16_class_keys.
Print Assumptions C16_class_sum.
Print Assumptions C16_order_independent.

(** * C17 *)
Theorem C17_contingency_table : forall k l vs, text_column k l vs ->
  exists values ds, value_list k l = Ok values /\ attr_class_distribution k l = Ok ds /\ length ds = length values /\
    forall i v d, nth_error values i = Some v -> nth_error ds i = Some d ->
      forall c, ccount d c = length (filter (fun p => String.eqb (fst p) v && String.eqb (label (snd p)) c) (combine vs l)).
Proof. exact attr_class_distribution_spec. Qed.
Theorem C17_rows_add_up : forall k l vs ds, text_column k l vs -> attr_class_distribution k l = Ok ds ->
  forall c, list_sum (map (fun d => ccount d c) ds) = ccount (class_distribution l) c.
Proof. exact attr_class_distribution_rows. Qed.
Theorem C17_indexed_distribution : forall k v l is_, index_column k l is_ ->
  exists d, idx_class_distribution k v l = Ok d /\
    forall c, ccount d c = length (filter (fun p => (fst p =? v)%Z && String.eqb (label (snd p)) c) (combine is_ l)).
Proof. exact idx_class_distribution_spec. Qed.
Example C17_case : attr_class_distribution 1 ex_list = Ok [[("b", 1); ("c", 1)]; [("a", 1); ("b", 1)]] /\
  idx_class_distribution 2 0 ex_list = Ok [("b", 2); ("c", 1)].
Proof. split; reflexivity. Qed.
Print Assumptions C17_contingency_table.
Print Assumptions C17_rows_add_up.
Print Assumptions C17_indexed_distribution.

(** * C18 *)
(** both average functions give the same number; it times the number of instances is the sum *)
Theorem C18_continuous_average : forall k l qs, l <> [] -> num_column k l (map Fin qs) ->
  exists a, attr_average k l = Ok (Some (ACont (Fin a))) /\ cont_average k l = Ok [Fin a] /\
    (a * qofn (length l) == qsum qs)%Q /\
    forall m M, (forall q, In q qs -> m <= q /\ q <= M)%Q -> (m <= a /\ a <= M)%Q.
Proof.
  intros k l qs Hne H. destruct (attr_average_cont _ _ _ Hne H) as (a & E1 & E2 & Ea). exists a.
  assert (HP : (0 < qofn (length l))%Q) by (apply qofn_pos; destruct l; [congruence|simpl; lia]).
  assert (HA : (a * qofn (length l) == qsum qs)%Q) by (rewrite Ea; field; apply Qnot_eq_sym, Qlt_not_eq; exact HP).
  split; [exact E1|]. split; [exact E2|]. split; [exact HA|].
  intros m M HB. apply qsum_bounds in HB. rewrite (num_column_length _ _ _ H) in HB. destruct HB as [B1 B2]. rewrite <- HA in B1, B2.
  split; eapply Qmult_lt_0_le_reg_r; eauto.
Qed.
Lemma Forall2_perm_exists {A B} (P : A -> B -> Prop) l l' vs : Permutation l l' -> Forall2 P l vs -> exists vs', Forall2 P l' vs' /\ Permutation vs vs'.
Proof.
  intros HP. revert vs. induction HP; intros vs H.
  - inversion H; subst. exists []; split; constructor.
  - inversion H; subst. destruct (IHHP _ H4) as (vs' & F & P'). exists (y :: vs'). split; constructor; assumption.
  - inversion H; subst. inversion H4; subst. exists (y1 :: y0 :: l'0). split; [repeat constructor; assumption|apply perm_swap].
  - destruct (IHHP1 _ H) as (v1 & F1 & P1). destruct (IHHP2 _ F1) as (v2 & F2 & P2). exists v2. split; [exact F2|etransitivity; eassumption].
Qed.
Theorem C18_order_independent : forall k l l' qs, l <> [] -> num_column k l (map Fin qs) -> Permutation l l' ->
  exists a a', attr_average k l = Ok (Some (ACont (Fin a))) /\ attr_average k l' = Ok (Some (ACont (Fin a'))) /\ (a == a')%Q.
Proof.
  intros k l l' qs Hne H HP. destruct (attr_average_cont _ _ _ Hne H) as (a & E1 & _ & Ea).
  unfold num_column in H. rewrite Forall2_map_r in H. destruct (Forall2_perm_exists _ _ _ _ HP H) as (qs' & F & P').
  destruct (attr_average_cont k l' qs') as (a' & E1' & _ & Ea').
  - intros ->. apply Permutation_sym, Permutation_nil in HP. contradiction.
  - unfold num_column. rewrite Forall2_map_r. exact F.
  - exists a, a'. split; [exact E1|]. split; [exact E1'|]. rewrite Ea, Ea'. rewrite (qsum_perm _ _ P'), (Permutation_length HP). reflexivity.
Qed.
Theorem C18_discrete_average : forall k l vs v0, text_column k l vs -> (exists x l', l = x :: l' /\ feature x k (ADisc v0)) ->
  exists v, attr_average k l = Ok (Some (ADisc v)) /\ In v vs /\ forall w, occ vs w <= occ vs v.
Proof.
  intros k l vs v0 H (x & l' & -> & Hx). unfold attr_average. change (atn (x :: l') 0) with (@Ok instance x). cbn [bind].
  apply get_attr_ok in Hx. rewrite Hx. cbn [bind isDiscrete]. rewrite (disc_column _ _ _ H). cbn [bind].
  exists (get_maximum vs). split; [reflexivity|]. apply get_maximum_spec. intros ->. inversion H.
Qed.
Theorem C18_indexed_average : forall k l is_ s i0 m,
  index_column k l is_ -> Forall (in_range m) is_ -> (exists x l', l = x :: l' /\ feature x k (AIdx s i0 m)) ->
  exists fs, cont_average k l = Ok (map Fin fs) /\ length fs = m /\ (qsum fs == 1)%Q /\
    forall j f, nth_error fs j = Some f -> (f * qofn (length l) == qofn (length (filter (Z.eqb (Z.of_nat j)) is_)))%Q.
Proof.
  intros k l is_ s i0 m H HF Hx. pose proof Hx as Hx0. destruct Hx0 as (x & l' & El & _).
  destruct (cont_average_idx k l is_ s i0 m H HF Hx) as (fs & E & L & Hfs). exists fs. split; [exact E|]. split; [exact L|].
  assert (HP : (0 < qofn (length l))%Q) by (apply qofn_pos; subst l; simpl; lia). split.
  - assert (HS : (qsum fs == qsum (map (fun j => qofn (countb (Z.eqb (Z.of_nat j)) is_) * (1 / qofn (length l))) (seq 0 m)))%Q).
    { assert (HG : forall (gs : list Q) (h : nat -> Q) o, (forall j f, nth_error gs j = Some f -> f == h (o + j)%nat)%Q -> (qsum gs == qsum (map h (seq o (length gs))))%Q).
      { induction gs as [|g gs IH]; intros h o Hg; simpl; [reflexivity|]. rewrite (Hg 0 g eq_refl), Nat.add_0_r. rewrite (IH h (S o)); [reflexivity|].
        intros j f Hf. rewrite (Hg (S j) f Hf). rewrite Nat.add_succ_comm. reflexivity. }
      rewrite <- L. apply (HG fs (fun j => qofn (countb (Z.eqb (Z.of_nat j)) is_) * (1 / qofn (length l)))%Q 0). intros j f Hf. rewrite (Hfs _ _ Hf). simpl.
      field. apply Qnot_eq_sym, Qlt_not_eq; exact HP. }
    rewrite HS, qsum_scale_r, sum_index_counts by exact HF. rewrite (Forall2_len _ _ _ H). field.
    rewrite <- (Forall2_len _ _ _ H). apply Qnot_eq_sym, Qlt_not_eq; exact HP.
  - intros j f Hf. rewrite (Hfs _ _ Hf). unfold countb. field. apply Qnot_eq_sym, Qlt_not_eq; exact HP.
Qed.
(** the average over all features is the mean of the numeric vectors *)
Theorem C18_average_vector : forall shape l, uniform shape l -> 1 <= length l ->
  exists av rows, cont_average_all l = Ok (map Fin av) /\ map (map Fin) rows = map inst_vals l /\ length av = dim shape /\
    forall j, j < dim shape -> (nth j av 0 == qmean (map (fun r => nth j r 0) rows))%Q.
Proof.
  intros shape l H HL. destruct (average_all _ _ H HL) as (av & E & L & Ha). exists av, (map row l). split; [exact E|]. split; [|split; [exact L|exact Ha]].
  pose proof (uniform_rows _ _ H) as HR. rewrite Forall2_map_r in HR. rewrite map_map. clear -HR.
  assert (HD : forall x, In x l -> map Fin (row x) = inst_vals x).
  { intros x Hx. assert (HF : Forall (fun x => inst_vals x = map Fin (row x)) l).
    { clear Hx. induction l as [|y l IH]; [constructor|]. inversion HR as [|? ? ? ? [Hy _] HR']; subst. constructor; [exact Hy|apply IH; exact HR']. }
    rewrite Forall_forall in HF. symmetry. apply HF. exact Hx. }
  apply map_ext_in. exact HD.
Qed.
(** an unknown value (index -1, as the filters produce it) makes the average undefined *)
Theorem C18_unknown_index_undefined : forall k l is_ s i0 m,
  index_column k l is_ -> Exists (fun i => ~ in_range m i) is_ -> (exists x l', l = x :: l' /\ feature x k (AIdx s i0 m)) ->
  cont_average k l = UB BadIndex.
Proof.
  intros k l is_ s i0 m H HE (x & l' & -> & Hx). unfold cont_average. change (atn (x :: l') 0) with (@Ok instance x). cbn [bind].
  apply get_attr_ok in Hx. rewrite Hx. cbn [bind isDiscreteIndexed idx_max]. rewrite (count_index_bad _ _ is_); [reflexivity|exact H|].
  rewrite repeat_length. exact HE.
Qed.
Definition ex_uniform : list instance :=
  [mkInst "b" [ACont (Fin 3); AIdx "p" 0 2] None; mkInst "a" [ACont (Fin 1); AIdx "q" 1 2] None; mkInst "c" [ACont (Fin 2); AIdx "p" 0 2] None].
Example ex_uniform_ok : uniform [None; Some 2] ex_uniform.
Proof.
  repeat constructor; try (eexists; reflexivity); try (exists "p", 0; split; [reflexivity|lia]); exists "q", 1; split; [reflexivity|lia].
Qed.
Example C18_case : exists a, attr_average 0 ex_list = Ok (Some (ACont (Fin a))) /\ (a == 7#4)%Q.
Proof. eexists; split; reflexivity. Qed.
Example C18_case_discrete : attr_average 1 ex_list = Ok (Some (ADisc "x")).
Proof. reflexivity. Qed.
Example C18_case_indexed : exists a b, cont_average 2 ex_list = Ok [Fin a; Fin b] /\ (a == 3#4)%Q /\ (b == 1#4)%Q.
Proof. eexists; eexists; split; [|split]; reflexivity. Qed.
Example C18_case_unknown : index_column 0 [mkInst "a" [AIdx "p" 0 2] None; mkInst "a" [AIdx "?" (-1) 2] None] [0; -1]%Z /\ Exists (fun i => ~ in_range 2 i) [0; -1]%Z.
Proof.
  split.
  - repeat constructor; (eexists; eexists; split; [split; reflexivity || discriminate|reflexivity]).
  - right. left. unfold in_range. lia.
Qed.
Print Assumptions C18_continuous_average.
Print Assumptions C18_order_independent.
Print Assumptions C18_discrete_average.
Print Assumptions C18_indexed_average.
Print Assumptions C18_average_vector.
Print Assumptions C18_unknown_index_undefined.

(** * C19 *)
Theorem C19_standard_deviation : forall k l qs, num_column k l (map Fin qs) -> 2 <= length l ->
  exists s, attr_std k l = Ok (Some (RFin s)) /\ cont_std k l = Ok [RFin s] /\
    (0 <= s)%R /\ (s * s * Q2R (qofn (length l - 1)) = Q2R (sqdev qs))%R /\
    (s = 0%R <-> (forall p q, In p qs -> In q qs -> (p == q)%Q)).
Proof.
  intros k l qs H HL. pose proof (num_column_length _ _ _ H) as Hlen. destruct (attr_std_fin _ _ _ H HL) as [E1 E2].
  eexists; split; [exact E1|]. split; [exact E2|]. rewrite Hlen. destruct (std_props qs) as [P1 P2]; [lia|]. rewrite <- Hlen.
  split; [exact P1|]. split; [exact P2|]. rewrite <- sqdev_zero by lia. split.
  - intros E. rewrite E in P2. rewrite Rmult_0_l, Rmult_0_l in P2. symmetry in P2. rewrite <- RMicromega.Q2R_0 in P2. apply eqR_Qeq in P2. exact P2.
  - intros E. rewrite (Qeq_eqR (sqdev qs / _) 0); [rewrite RMicromega.Q2R_0; apply sqrt_0|]. rewrite E. unfold Qdiv. ring.
Qed.
(** [sqdev] is the sum of squared deviations from the mean *)
Theorem C19_sum_of_squares : forall qs, sqdev qs = qsum (map (fun q => (q - qmean qs) * (q - qmean qs))%Q qs) /\
  (qs <> [] -> (qmean qs * qofn (length qs) == qsum qs)%Q).
Proof. intros qs. split; [reflexivity|apply qmean_times]. Qed.
Theorem C19_shift_invariant : forall k l l' qs c, 2 <= length l ->
  num_column k l (map Fin qs) -> num_column k l' (map Fin (map (fun q => q + c)%Q qs)) -> attr_std k l' = attr_std k l.
Proof.
  intros k l l' qs c HL H H'. pose proof (num_column_length _ _ _ H) as L. pose proof (num_column_length _ _ _ H') as L'. rewrite map_length in L'.
  destruct (attr_std_fin _ _ _ H HL) as [E1 _]. destruct (attr_std_fin _ _ _ H') as [E1' _]; [lia|]. rewrite E1, E1'.
  do 4 f_equal. apply Qeq_eqR. rewrite sqdev_shift, map_length by lia. reflexivity.
Qed.
Theorem C19_scale : forall k l l' qs a, 2 <= length l ->
  num_column k l (map Fin qs) -> num_column k l' (map Fin (map (fun q => a * q)%Q qs)) ->
  exists s, attr_std k l = Ok (Some (RFin s)) /\ attr_std k l' = Ok (Some (RFin (Q2R (Qabs a) * s))).
Proof.
  intros k l l' qs a HL H H'. pose proof (num_column_length _ _ _ H) as L. pose proof (num_column_length _ _ _ H') as L'. rewrite map_length in L'.
  destruct (attr_std_fin _ _ _ H HL) as [E1 _]. destruct (attr_std_fin _ _ _ H') as [E1' _]; [lia|]. eexists; split; [exact E1|]. rewrite E1'.
  do 3 f_equal. rewrite map_length. assert (HS : (sqdev (map (fun q => a * q)%Q qs) / qofn (length qs - 1) == (Qabs a * Qabs a) * (sqdev qs / qofn (length qs - 1)))%Q).
  { rewrite sqdev_scale by lia. setoid_replace (Qabs a * Qabs a)%Q with (a * a)%Q; [unfold Qdiv; ring|].
    apply Qabs_case; intros; ring. }
  rewrite (Qeq_eqR _ _ HS), (Q2R_mult (Qabs a * Qabs a)), (Q2R_mult (Qabs a)).
  assert (HN : (0 <= sqdev qs / qofn (length qs - 1))%Q).
  { apply Qle_shift_div_l; [apply qofn_pred_pos; lia|]. rewrite Qmult_0_l. apply sqdev_nonneg. }
  apply Qle_Rle in HN. rewrite RMicromega.Q2R_0 in HN. pose proof (Qle_Rle _ _ (Qabs_nonneg a)) as HA. rewrite RMicromega.Q2R_0 in HA.
  rewrite sqrt_mult; [|apply Rmult_le_pos; exact HA|exact HN]. rewrite sqrt_square by exact HA. reflexivity.
Qed.
Theorem C19_single_is_nan : forall k l q, num_column k l [Fin q] -> attr_std k l = Ok (Some RNaN) /\ cont_std k l = Ok [RNaN].
Proof. exact attr_std_single. Qed.
Example C19_case : (sqdev [3; 1; 2; 1] == 11#4)%Q /\ 2 <= length ex_list.
Proof. split; [reflexivity|simpl; lia]. Qed.
Example C19_case_single : num_column 0 [mkInst "a" [ACont (Fin 5)] None] [Fin 5].
Proof. column. Qed.
Print Assumptions C19_standard_deviation.
Print Assumptions C19_sum_of_squares.
Print Assumptions C19_shift_invariant.
Print Assumptions C19_scale.
Print Assumptions C19_single_is_nan.

(** * C20 *)
(** for any centre of the right length *)
Theorem C20_symmetric_psd : forall shape l centre, uniform shape l -> 2 <= length l -> length centre = dim shape ->
  exists m, covariance (map Fin centre) l = Ok (map (map Fin) m) /\ square (dim shape) m /\
    (forall i j, i < dim shape -> j < dim shape -> (mget m i j == mget m j i)%Q) /\
    (forall u, 0 <= quad (dim shape) m u)%Q.
Proof.
  intros shape l centre H HL Hc. destruct (covariance_fin (dim shape) centre l (map row l) HL Hc (uniform_rows _ _ H)) as (m & E & S & Hm).
  exists m. split; [exact E|]. split; [exact S|]. split.
  - intros i j Hi Hj. rewrite !Hm by assumption. apply Qmult_comp; [|reflexivity]. apply qsum_ext. intros; ring.
  - intros u. eapply cov_psd; [apply (qofn_pred_pos _ HL)|exact Hm].
Qed.
Theorem C20_diagonal : forall shape l, uniform shape l -> 2 <= length l ->
  exists av sd m, cont_average_all l = Ok (map Fin av) /\ cont_std_all l = Ok sd /\
    covariance (map Fin av) l = Ok (map (map Fin) m) /\ square (dim shape) m /\ length sd = dim shape /\
    forall j, j < dim shape -> exists s, nth_error sd j = Some (RFin s) /\ (0 <= s)%R /\ (s * s = Q2R (mget m j j))%R.
Proof. exact diagonal. Qed.
Example C20_case : exists m, covariance [Fin 2; Fin (2#3); Fin (1#3)] ex_uniform = Ok m /\
  Forall2 (Forall2 deq) m (map (map Fin) [[1; 1#2; -1#2]; [1#2; 1#3; -1#3]; [-1#2; -1#3; 1#3]]%Q).
Proof. eexists; split; [reflexivity|]. repeat constructor. Qed.
Print Assumptions C20_symmetric_psd.
Print Assumptions C20_diagonal.
