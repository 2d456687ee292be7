(** The invariant of the SMO solver and its preservation by every operation. *)
From Coq Require Import String ZArith QArith Qabs Bool Lia Lra Lqa Permutation List.
From Verif Require Import Base Spec BaseLemmas DblLemmas AttrModel SolverModel SvmSpec KernelProofs SolverProofs.
Import ListNotations.
Local Open Scope string_scope.
Local Open Scope list_scope.
Local Open Scope nat_scope.

(** ** Sums over an index range *)
Lemma sum_ext n f g : (forall k, k < n -> (f k == g k)%Q) -> (sum_over n f == sum_over n g)%Q.
Proof. intros H. apply qsum_ext. intros k Hk. apply in_seq in Hk. apply H. lia. Qed.
Lemma sum_plus n f g : (sum_over n (fun k => f k + g k) == sum_over n f + sum_over n g)%Q.
Proof. apply qsum_plus. Qed.
Lemma sum_scale n c f : (sum_over n (fun k => c * f k) == c * sum_over n f)%Q.
Proof. apply qsum_scale. Qed.
Lemma sum_zero n f : (forall k, k < n -> (f k == 0)%Q) -> (sum_over n f == 0)%Q.
Proof.
  intros H. rewrite (sum_ext n f (fun _ => 0%Q) H). unfold sum_over. rewrite qsum_const. ring.
Qed.
Lemma sum_S n f : (sum_over (S n) f == sum_over n f + f n)%Q.
Proof. unfold sum_over. rewrite seq_S, map_app, qsum_app. cbn. ring. Qed.
(** changing one term *)
Lemma sum_change n f g o : o < n -> (forall k, k < n -> k <> o -> (g k == f k)%Q) -> (sum_over n g == sum_over n f + (g o - f o))%Q.
Proof.
  intros Ho H. induction n as [|n IH]; [lia|]. rewrite !sum_S. destruct (Nat.eq_dec o n) as [->|Hn].
  - rewrite (sum_ext n g f); [ring|]. intros k Hk. apply H; lia.
  - rewrite IH by (try lia; intros; apply H; lia). rewrite (H n) by lia. ring.
Qed.
Lemma sum_perm n (s : list nat) f : Permutation s (seq 0 n) -> (sum_over n (fun k => f (nth k s O)) == sum_over n f)%Q.
Proof.
  intros H. unfold sum_over. assert (length s = n) as Hl by (rewrite (Permutation_length H); apply seq_length).
  assert (map (fun k => f (nth k s 0)) (seq 0 n) = map f s) as ->.
  { rewrite <- Hl. rewrite <- (map_map (fun k => nth k s 0) f). f_equal. clear. induction s as [|x s IH]; [reflexivity|].
    cbn [length seq map nth]. f_equal. rewrite <- seq_shift, map_map. exact IH. }
  apply qsum_perm, Permutation_map, H.
Qed.
Lemma sum_swap n m f : (sum_over n (fun i => sum_over m (fun j => f i j)) == sum_over m (fun j => sum_over n (fun i => f i j)))%Q.
Proof. apply qsum_swap. Qed.
Lemma sum_le n f g : (forall k, k < n -> (f k <= g k)%Q) -> (sum_over n f <= sum_over n g)%Q.
Proof. intros H. apply qsum_le. intros k Hk. apply in_seq in Hk. apply H. lia. Qed.

Section Inv.
Context (dexp dtanh : dbl -> dbl) (dpow : dbl -> Z -> dbl) (Hm : libm dexp dtanh dpow).
Context (p : svm_param) (gamma coef0 C : Q) (Hg : p_gamma p = Fin gamma) (Hc : p_coef0 p = Fin coef0) (HC : p_C p = Fin C).
Context (Hdeg : p_kernel p = POLYNOM -> (0 <= p_degree p)%Z) (HCpos : (0 < C)%Q).
Context (vs : list (list Q)) (y : nat -> Q) (Hy : forall k, (y k == 1 \/ y k == -(1))%Q).
Notation l := (length vs).
Notation tk := (textbook_kernel dexp dtanh dpow (p_kernel p) (p_degree p) gamma coef0).
Notation K := (gram dexp dtanh dpow (p_kernel p) (p_degree p) gamma coef0 vs).
Notation grad := (gradient l y K).
Notation Qm i j := (y i * y j * K i j)%Q.

Lemma K_sym i j : (K i j == K j i)%Q.
Proof.
  unfold gram. pose proof (tk_sym dexp dtanh dpow Hm p gamma coef0 (nth i vs []) (nth j vs [])) as H.
  destruct (tk (nth i vs []) (nth j vs [])), (tk (nth j vs []) (nth i vs [])); simpl in *; try contradiction; try reflexivity. exact H.
Qed.
Lemma y_sq k : (y k * y k == 1)%Q.
Proof. destruct (Hy k) as [E|E]; rewrite E; reflexivity. Qed.

(** the parts of the state no step changes except by permutation *)
Definition pos (s : solver) (k : nat) : nat := nth k (s_set s) 0.
Record Frame (s : solver) : Prop := {
  F_l : s_l s = l;
  F_C : s_C s = Fin C;
  F_perm : Permutation (s_set s) (seq 0 l);
  F_y : vec l (s_y s) (fun k => y (pos s k));
  F_qy : vec l (q_y (s_Q s)) (fun k => y (pos s k));
  F_k : holds p (q_k (s_Q s)) (map (fun o => nth o vs []) (s_set s));
  F_b : vec l (s_b s) (fun _ => -(1))%Q }.
(** contribution of the multipliers at the upper bound to the gradient *)
Definition gbar (a : nat -> Q) (o : nat) : Q := sum_over l (fun j => if Qle_bool C (a j) then C * Qm o j else 0)%Q.
Definition status_ok (s : solver) (a : nat -> Q) : Prop :=
  length (s_status s) = l /\ forall k, k < l -> nth_error (s_status s) k = Some (status_of (Fin C) (Fin (a (pos s k)))).
(** [m]: the first [m] entries of G are up to date *)
Record Inv (m : nat) (s : solver) (a : nat -> Q) : Prop := {
  I_frame : Frame s;
  I_act : s_active s <= l;
  I_alpha : vec l (s_alpha s) (fun k => a (pos s k));
  I_G : exists g, vec l (s_G s) g /\ forall k, k < m -> k < l -> (g k == grad a (pos s k))%Q;
  I_Gb : vec l (s_Gbar s) (fun k => gbar a (pos s k));
  I_st : status_ok s a;
  I_idle : forall k, s_active s <= k -> k < l -> (a (pos s k) == 0 \/ a (pos s k) == C)%Q;
  I_feas : feasible l y C a }.

Lemma set_length s : Frame s -> length (s_set s) = l.
Proof. intros F. rewrite (Permutation_length (F_perm _ F)). apply seq_length. Qed.
Lemma pos_lt s k : Frame s -> k < l -> pos s k < l.
Proof.
  intros F Hk. assert (In (pos s k) (seq 0 l)) as H.
  { apply (Permutation_in _ (F_perm _ F)), nth_In. rewrite (set_length _ F). exact Hk. }
  apply in_seq in H. lia.
Qed.
Lemma pos_inj s i j : Frame s -> i < l -> j < l -> pos s i = pos s j -> i = j.
Proof.
  intros F Hi Hj E. apply (proj1 (NoDup_nth (s_set s) 0)).
  - apply (Permutation_NoDup (Permutation_sym (F_perm _ F))), seq_NoDup.
  - rewrite (set_length _ F). exact Hi.
  - rewrite (set_length _ F). exact Hj.
  - exact E.
Qed.
Lemma pos_surj s o : Frame s -> o < l -> exists k, k < l /\ pos s k = o.
Proof.
  intros F Ho. assert (In o (s_set s)) as H by (apply (Permutation_in _ (Permutation_sym (F_perm _ F))), in_seq; lia).
  apply (In_nth _ _ 0) in H. rewrite (set_length _ F) in H. exact H.
Qed.
Lemma get_q_spec s i n : Frame s -> i < l -> n <= l ->
  exists v, get_q dexp dtanh dpow (s_Q s) i n = Ok v /\ vec n v (fun j => Qm (pos s i) (pos s j)).
Proof.
  intros F Hi Hn. apply vec_mapM. intros j Hj. destruct (vec_get _ _ _ i (F_qy _ F) Hi) as (yi & Ei & Hyi).
  destruct (vec_get _ _ _ j (F_qy _ F) ltac:(lia)) as (yj & Ej & Hyj). rewrite Ei. cbn [bind]. rewrite Ej. cbn [bind].
  assert (forall k, k < l -> nth_error (map (fun o => nth o vs []) (s_set s)) k = Some (nth (pos s k) vs [])) as Hk.
  { intros k Hk. apply (map_nth_error (fun o => nth o vs [])), nth_error_nth'. rewrite (set_length _ F). exact Hk. }
  destruct (kernel_at_spec dexp dtanh dpow Hm p gamma coef0 Hg Hc _ _ i j _ _ (F_k _ F) (Hk i Hi) (Hk j ltac:(lia))) as (d & Ed & Hd).
  rewrite Ed. cbn [bind]. destruct (tk_finite dexp dtanh dpow Hm p gamma coef0 (nth (pos s i) vs []) (nth (pos s j) vs []) Hdeg) as (q & Eq).
  rewrite Eq in Hd. destruct d as [d| | |]; try contradiction. change (d == q)%Q in Hd. cbn [dmul]. eexists; split; [reflexivity|].
  unfold gram. rewrite Eq. cbn [qval]. rewrite Hyi, Hyj, Hd. reflexivity.
Qed.

(** *** Swapping two positions *)
Lemma swap_frame s i j : Frame s -> i < l -> j < l -> exists q ys b set,
  qmatrix_swap (s_Q s) i j = Ok q /\ swap_at (s_y s) i j = Ok ys /\ swap_at (s_b s) i j = Ok b /\ swap_at (s_set s) i j = Ok set /\
  (forall k, nth k set 0 = pos s (tr i j k)) /\
  forall n a g st gb u sh, Frame (mkSolver n ys a g st q (s_C s) b set gb (s_l s) u sh).
Proof.
  intros F Hi Hj. unfold qmatrix_swap.
  destruct (kernel_swap_spec p gamma coef0 Hg Hc (q_k (s_Q s)) _ i j (F_k _ F)) as (k' & ws' & Ek & Hk' & Hl' & Hw'); [rewrite map_length, (set_length _ F); assumption..|].
  rewrite Ek. cbn [bind].
  destruct (vec_swap _ _ _ i j (F_qy _ F) Hi Hj) as (qy & Eqy & Hqy). rewrite Eqy. cbn [bind].
  destruct (vec_swap _ _ _ i j (F_y _ F) Hi Hj) as (ys & Eys & Hys).
  destruct (vec_swap _ _ _ i j (F_b _ F) Hi Hj) as (b & Eb & Hb).
  destruct (swap_at_spec (s_set s) i j) as (set & Eset & Hls & Hset); [rewrite (set_length _ F); assumption..|].
  assert (forall k, nth k set 0 = pos s (tr i j k)) as Hpos.
  { intros k. unfold pos. destruct (Nat.lt_ge_cases k l) as [Hk|Hk].
    - assert (nth_error set k = Some (nth (tr i j k) (s_set s) 0)) as H.
      { rewrite Hset. apply nth_error_nth'. rewrite (set_length _ F). apply tr_lt; assumption. }
      exact (nth_error_nth _ _ _ H).
    - rewrite !nth_overflow; [reflexivity| |rewrite Hls, (set_length _ F); exact Hk]. rewrite (set_length _ F).
      unfold tr. destruct (Nat.eqb_spec k i); [lia|]. destruct (Nat.eqb_spec k j); lia. }
  exists (mkQ k' qy), ys, b, set. split; [reflexivity|]. split; [exact Eys|]. split; [exact Eb|]. split; [exact Eset|]. split; [exact Hpos|].
  intros n a g st gb u sh. constructor; cbn [s_l s_C s_set s_y s_Q s_b q_y q_k].
  - apply (F_l _ F).
  - apply (F_C _ F).
  - apply (Permutation_trans (Permutation_sym (swap_at_perm _ _ _ _ Eset))), (F_perm _ F).
  - apply (vec_ext _ _ _ _ Hys). intros k _. unfold pos at 2. cbn [s_set]. rewrite Hpos. reflexivity.
  - apply (vec_ext _ _ _ _ Hqy). intros k _. unfold pos at 2. cbn [s_set]. rewrite Hpos. reflexivity.
  - assert (ws' = map (fun o => nth o vs []) set) as <-; [|exact Hk'].
    apply list_ext. intros o. rewrite Hw', !nth_error_map, Hset. reflexivity.
  - exact Hb.
Qed.
(** the moved entries of the other vectors *)
Lemma swap_inv m s a i j : Inv m s a -> i < l -> j < l -> (i < m <-> j < m) ->
  exists s', swap_index s i j = Ok s' /\ s_active s' = s_active s /\ s_unshrinked s' = s_unshrinked s /\ s_shrinking s' = s_shrinking s /\
    Frame s' /\ (forall k, pos s' k = pos s (tr i j k)) /\
    vec l (s_alpha s') (fun k => a (pos s' k)) /\
    (exists g, vec l (s_G s') g /\ forall k, k < m -> k < l -> (g k == grad a (pos s' k))%Q) /\
    vec l (s_Gbar s') (fun k => gbar a (pos s' k)) /\ status_ok s' a.
Proof.
  intros I Hi Hj Hm'. destruct (swap_frame s i j (I_frame _ _ _ I) Hi Hj) as (q & ys & b & set & Eq & Ey & Eb & Es & Hpos & HF).
  unfold swap_index. rewrite Eq. cbn [bind]. rewrite Ey. cbn [bind].
  destruct (I_G _ _ _ I) as (g & Hgv & Hgg).
  destruct (vec_swap _ _ _ i j Hgv Hi Hj) as (g' & Eg & Hg'). rewrite Eg. cbn [bind].
  destruct (vec_swap _ _ _ i j (I_alpha _ _ _ I) Hi Hj) as (a' & Ea & Ha'). rewrite Ea. cbn [bind]. rewrite Eb. cbn [bind].
  destruct (vec_swap _ _ _ i j (I_Gb _ _ _ I) Hi Hj) as (gb & Egb & Hgb). rewrite Egb. cbn [bind]. rewrite Es. cbn [bind].
  destruct (I_st _ _ _ I) as [Hsl Hst].
  destruct (swap_at_spec (s_status s) i j) as (st & Est & Hstl & Hstn); [rewrite Hsl; assumption..|]. rewrite Est. cbn [bind].
  eexists; split; [reflexivity|]. cbn [s_active s_unshrinked s_shrinking s_alpha s_G s_Gbar s_status]. split; [reflexivity|]. split; [reflexivity|]. split; [reflexivity|].
  split; [apply HF|]. unfold pos at 1. cbn [s_set]. split; [exact Hpos|]. split; [|split; [|split]].
  - apply (vec_ext _ _ _ _ Ha'). intros k _. unfold pos at 2. cbn [s_set]. rewrite Hpos. reflexivity.
  - exists (fun k => g (tr i j k)). split; [exact Hg'|]. intros k Hk Hkl. unfold pos. cbn [s_set]. rewrite Hpos. apply Hgg.
    + unfold tr. destruct (Nat.eqb_spec k i); [subst; tauto|]. destruct (Nat.eqb_spec k j); [subst; tauto|exact Hk].
    + apply tr_lt; assumption.
  - apply (vec_ext _ _ _ _ Hgb). intros k _. unfold pos at 2. cbn [s_set]. rewrite Hpos. reflexivity.
  - split; [cbn [s_status]; congruence|]. intros k Hk. cbn [s_status]. rewrite Hstn, (Hst (tr i j k)) by (apply tr_lt; assumption).
    unfold pos at 2. cbn [s_set]. rewrite Hpos. reflexivity.
Qed.
Lemma status_not_free a : (0 <= a)%Q -> (a <= C)%Q -> status_of (Fin C) (Fin a) <> FREE -> (a == 0 \/ a == C)%Q.
Proof.
  intros H0 H1 H. unfold status_of, dgeb, d0 in H. destruct (dleb (Fin C) (Fin a)) eqn:E.
  - apply dleb_fin in E. right. lra.
  - destruct (dleb (Fin a) (Fin 0)) eqn:E2; [|congruence]. apply dleb_fin in E2. left. lra.
Qed.
Lemma skip_false cmp s a gm0 gm1 k : Frame s -> status_ok s a -> (exists g, vec l (s_G s) g) -> k < l ->
  exists r, shrink_skip cmp s gm0 gm1 k = Ok r /\ (r = false -> status_of (Fin C) (Fin (a (pos s k))) <> FREE).
Proof.
  intros F [_ Hst] (g & Hgv) Hk. unfold shrink_skip. rewrite (idxn_some _ _ _ (Hst k Hk)). cbn [bind].
  destruct (vec_get _ _ _ k (F_y _ F) Hk) as (q & -> & _). destruct (vec_get _ _ _ k Hgv Hk) as (gk & -> & _). cbn [bind].
  eexists; split; [reflexivity|]. intros E H. rewrite H in E. discriminate E.
Qed.

(** *** First shrinking loop *)
Lemma shrink_loop_ok gm0 gm1 n : forall k s a, Inv (s_active s) s a -> n + k = s_active s ->
  exists s', shrink_loop n k gm0 gm1 s = Ok s' /\ Inv (s_active s') s' a /\ s_unshrinked s' = s_unshrinked s /\ s_shrinking s' = s_shrinking s.
Proof.
  induction n as [|n IH]; intros k s a I Hn.
  - exists s. split; [reflexivity|]. split; [exact I|]. split; reflexivity.
  - pose proof (I_act _ _ _ I) as Hact. pose proof (I_frame _ _ _ I) as F.
    destruct (skip_false dgeb s a gm0 gm1 k F (I_st _ _ _ I)) as (r & Er & Hr).
    { destruct (I_G _ _ _ I) as (g & H & _). exists g. exact H. }
    { lia. }
    cbn [shrink_loop]. rewrite Er. cbn [bind]. destruct r.
    + apply IH; [exact I|lia].
    + specialize (Hr eq_refl). set (b := s_active s - 1).
      assert (Inv (s_active s) (with_active s (s_active s)) a) as _. { destruct s; exact I. }
      destruct (swap_inv (s_active s) s a k b I) as (s1 & E1 & Ha1 & Hu1 & Hs1 & F1 & Hp1 & A1 & G1 & B1 & S1); [lia..|].
      assert (swap_index (with_active s b) k b = Ok (with_active s1 b)) as E2.
      { clear - E1. unfold swap_index in *. cbn [with_active s_active s_y s_alpha s_G s_status s_Q s_C s_b s_set s_Gbar s_l s_unshrinked s_shrinking].
        destruct (qmatrix_swap (s_Q s) k b); try discriminate E1. cbn [bind] in *.
        destruct (swap_at (s_y s) k b); try discriminate E1. cbn [bind] in *.
        destruct (swap_at (s_G s) k b); try discriminate E1. cbn [bind] in *.
        destruct (swap_at (s_alpha s) k b); try discriminate E1. cbn [bind] in *.
        destruct (swap_at (s_b s) k b); try discriminate E1. cbn [bind] in *.
        destruct (swap_at (s_Gbar s) k b); try discriminate E1. cbn [bind] in *.
        destruct (swap_at (s_set s) k b); try discriminate E1. cbn [bind] in *.
        destruct (swap_at (s_status s) k b); try discriminate E1. cbn [bind] in *. injection E1 as <-. reflexivity. }
      rewrite E2. cbn [bind].
      destruct (IH k (with_active s1 b) a) as (s' & E' & I' & U' & V').
      * constructor; cbn [with_active s_active s_y s_alpha s_G s_status s_Q s_C s_b s_set s_Gbar s_l].
        -- destruct F1; constructor; assumption.
        -- lia.
        -- exact A1.
        -- destruct G1 as (g & Hgv & Hgg). exists g. split; [exact Hgv|]. intros k' Hk' Hl'. apply Hgg; lia.
        -- exact B1.
        -- exact S1.
        -- intros k' Hk' Hl'. change (pos (with_active s1 b) k') with (pos s1 k'). rewrite Hp1.
           assert (b <= k') as Hbk by exact Hk'. clear Hk'.
           destruct (Nat.eq_dec k' b) as [->|Hkb].
           ++ assert (tr k b b = k) as ->. { unfold tr. destruct (Nat.eqb_spec b k); [congruence|]. rewrite Nat.eqb_refl. reflexivity. }
              destruct (proj1 (I_feas _ _ _ I) (pos s k)) as [H0 H1]; [apply (pos_lt _ _ F); lia|]. apply status_not_free; assumption.
           ++ assert (tr k b k' = k') as ->.
              { unfold tr. destruct (Nat.eqb_spec k' k); [lia|]. destruct (Nat.eqb_spec k' b); [congruence|reflexivity]. }
              apply (I_idle _ _ _ I); lia.
        -- apply (I_feas _ _ _ I).
      * cbn [with_active s_active]. lia.
      * exists s'. split; [exact E'|]. split; [exact I'|]. cbn [with_active s_unshrinked s_shrinking] in *. split; congruence.
Qed.

(** *** Rebuilding the gradient *)
Lemma foldM_vec n (step : list dbl -> nat -> res (list dbl)) (h : (nat -> Q) -> nat -> nat -> Q) m : forall from v f,
  (forall i v f, from <= i < from + m -> vec n v f -> exists v', step v i = Ok v' /\ vec n v' (h f i)) ->
  vec n v f -> exists v', foldM step (seq from m) v = Ok v' /\ vec n v' (fold_left (fun f i => h f i) (seq from m) f).
Proof.
  induction m as [|m IH]; intros from v f Hs Hv.
  - exists v. split; [reflexivity|exact Hv].
  - destruct (Hs from v f ltac:(lia) Hv) as (v1 & E1 & Hv1). destruct (IH (S from) v1 (h f from)) as (v2 & E2 & Hv2); [intros; apply Hs; [lia|assumption]|exact Hv1|].
    exists v2. cbn [seq foldM]. rewrite E1. cbn [bind fold_left]. split; [exact E2|exact Hv2].
Qed.
Lemma fold_acc (c : nat -> nat -> Q) m from f k : (fold_left (fun f i k => (f k + c i k)%Q) (seq from m) f k == f k + qsum (map (fun i => c i k) (seq from m)))%Q.
Proof.
  revert from f; induction m as [|m IH]; intros from f; cbn [seq fold_left map].
  - unfold qsum; cbn. ring.
  - rewrite IH. unfold qsum; cbn [fold_right]. ring.
Qed.
Lemma qsum_seq_split n m (f : nat -> Q) : n <= m -> (qsum (map f (seq 0 m)) == qsum (map f (seq 0 n)) + qsum (map f (seq n (m - n))))%Q.
Proof. intros H. replace m with (n + (m - n)) at 1 by lia. rewrite seq_app, map_app, qsum_app. reflexivity. Qed.
Lemma grad_pos s a o : Frame s -> (grad a o == sum_over l (fun k => Qm o (pos s k) * a (pos s k)) - 1)%Q.
Proof. intros F. unfold gradient. rewrite <- (sum_perm l (s_set s) (fun j => y o * y j * K o j * a j)%Q (F_perm _ F)). reflexivity. Qed.
Lemma gbar_pos s a o : Frame s -> (gbar a o == sum_over l (fun k => if Qle_bool C (a (pos s k)) then C * Qm o (pos s k) else 0))%Q.
Proof. intros F. unfold gbar. rewrite <- (sum_perm l (s_set s) (fun j => if Qle_bool C (a j) then C * Qm o j else 0)%Q (F_perm _ F)). reflexivity. Qed.

Lemma reconstruct_ok s a : Inv (s_active s) s a -> exists s', reconstruct dexp dtanh dpow s = Ok s' /\ Inv l s' a /\ s_active s' = s_active s /\
  s_unshrinked s' = s_unshrinked s /\ s_shrinking s' = s_shrinking s /\ s_set s' = s_set s /\ s_l s' = s_l s.
Proof.
  intros I. pose proof (I_frame _ _ _ I) as F. unfold reconstruct. rewrite (F_l _ F). destruct (Nat.eqb_spec (s_active s) l) as [E|E].
  { exists s. split; [reflexivity|]. rewrite E in I. split; [exact I|]. repeat split. apply (F_l _ F). }
  set (n := s_active s) in *. pose proof (I_act _ _ _ I) as Hact. fold n in Hact.
  destruct (I_G _ _ _ I) as (g & Hgv & Hgg). fold n in Hgg.
  (* first loop: inactive entries become GBar + b *)
  destruct (foldM_vec l (fun g i => do gb <- idxn (s_Gbar s) i; do b <- idxn (s_b s) i; set_at g i (dadd gb b))
              (fun f i k => if k =? i then (gbar a (pos s i) + -(1))%Q else f k) (l - n) n (s_G s) g) as (v1 & E1 & H1).
  { intros i v f Hi Hv. destruct (vec_get _ _ _ i (I_Gb _ _ _ I) ltac:(lia)) as (gb & -> & Hgb). cbn [bind].
    destruct (vec_get _ _ _ i (F_b _ F) ltac:(lia)) as (b & -> & Hb). cbn [bind dadd].
    destruct (vec_set _ _ _ i (gb + b)%Q Hv ltac:(lia)) as (v' & E' & Hv'). exists v'. split; [exact E'|].
    apply (vec_ext _ _ _ _ Hv'). intros k _. cbv beta. destruct (k =? i); [|reflexivity]. rewrite Hgb, Hb. reflexivity. }
  { exact Hgv. }
  rewrite E1. cbn [bind].
  assert (forall m from f k, fold_left (fun f i k => if k =? i then (gbar a (pos s i) + -(1))%Q else f k) (seq from m) f k =
            if (from <=? k) && (k <? from + m) then (gbar a (pos s k) + -(1))%Q else f k) as Hf1.
  { clear. induction m as [|m IH]; intros from f k; cbn [seq fold_left].
    - destruct (Nat.leb_spec from k); destruct (Nat.ltb_spec k (from + 0)); cbn [andb]; try lia; reflexivity.
    - rewrite IH. destruct (Nat.leb_spec (S from) k); destruct (Nat.ltb_spec k (S from + m)); destruct (Nat.leb_spec from k); destruct (Nat.ltb_spec k (from + S m)); cbn [andb]; try lia; try reflexivity;
      destruct (Nat.eqb_spec k from); try lia; subst; reflexivity. }
  set (f1 := fun k => if n <=? k then (gbar a (pos s k) + -(1))%Q else g k).
  assert (vec l v1 f1) as Hv1.
  { apply (vec_ext _ _ _ _ H1). intros k Hk. rewrite Hf1. unfold f1. destruct (Nat.leb_spec n k); [|reflexivity]. destruct (Nat.ltb_spec k (n + (l - n))); [reflexivity|lia]. }
  clear H1 Hf1 E1.
  (* second loop: add the free multipliers *)
  set (c := fun i k : nat => if (n <=? k) && is_free (status_of (Fin C) (Fin (a (pos s i)))) then (a (pos s i) * Qm (pos s i) (pos s k))%Q else 0%Q).
  destruct (foldM_vec l (fun g i => do st <- idxn (s_status s) i;
        if is_free st
        then do qi <- get_q dexp dtanh dpow (s_Q s) i l; do al <- idxn (s_alpha s) i;
             add_range n (l - n) (fun j => do q <- idxn qi j; Ok (dmul al q)) g
        else Ok g) (fun f i k => (f k + c i k)%Q) n 0 v1 f1) as (v2 & E2 & H2).
  { intros i v f Hi Hv. rewrite (idxn_some _ _ _ (proj2 (I_st _ _ _ I) i ltac:(lia))). cbn [bind].
    destruct (is_free (status_of (Fin C) (Fin (a (pos s i))))) eqn:Efree.
    - destruct (get_q_spec s i l F ltac:(lia) ltac:(lia)) as (qi & -> & Hqi). cbn [bind].
      destruct (vec_get _ _ _ i (I_alpha _ _ _ I) ltac:(lia)) as (al & -> & Hal). cbn [bind].
      destruct (add_range_spec l v f n (l - n) (fun j => do q <- idxn qi j; Ok (dmul (Fin al) q)) (fun j => a (pos s i) * Qm (pos s i) (pos s j))%Q Hv ltac:(lia)) as (v' & E' & Hv').
      { intros k Hk. destruct (vec_get _ _ _ k Hqi ltac:(lia)) as (q & -> & Hq). cbn [bind dmul]. eexists; split; [reflexivity|]. rewrite Hal, Hq. reflexivity. }
      exists v'. split; [exact E'|]. apply (vec_ext _ _ _ _ Hv'). intros k Hk. cbv beta. unfold c. rewrite Efree, andb_true_r.
      destruct (Nat.leb_spec n k); cbn [andb]; [|ring]. destruct (Nat.ltb_spec k (n + (l - n))); [reflexivity|lia].
    - exists v. split; [reflexivity|]. apply (vec_ext _ _ _ _ Hv). intros k _. unfold c. rewrite Efree, andb_false_r. ring. }
  { exact Hv1. }
  rewrite E2. cbn [bind]. eexists; split; [reflexivity|].
  split; [|repeat split; apply (F_l _ F)].
  constructor; cbn [with_G s_active s_y s_alpha s_G s_status s_Q s_C s_b s_set s_Gbar s_l s_unshrinked s_shrinking].
  - destruct F; constructor; assumption.
  - exact (I_act _ _ _ I).
  - exact (I_alpha _ _ _ I).
  - eexists. split; [exact H2|]. intros k _ Hk. rewrite fold_acc. change (pos (with_G s v2) k) with (pos s k). unfold f1, c. destruct (Nat.leb_spec n k) as [Hnk|Hnk].
    + (* inactive position *)
      rewrite (grad_pos s a _ F), (gbar_pos s a _ F). unfold sum_over.
      rewrite (qsum_seq_split n l (fun k0 => if Qle_bool C (a (pos s k0)) then (C * Qm (pos s k) (pos s k0))%Q else 0%Q)) by exact Hact.
      rewrite (qsum_seq_split n l (fun k0 => Qm (pos s k) (pos s k0) * a (pos s k0))%Q) by exact Hact.
      assert (forall k0, (k0 < l)%nat -> 0 <= a (pos s k0) /\ a (pos s k0) <= C)%Q as Hbox by (intros k0 Hk0; apply (proj1 (I_feas _ _ _ I)), (pos_lt _ _ F), Hk0).
      assert (qsum (map (fun k0 => if Qle_bool C (a (pos s k0)) then C * Qm (pos s k) (pos s k0) else 0)%Q (seq n (l - n))) ==
              qsum (map (fun k0 => Qm (pos s k) (pos s k0) * a (pos s k0)) (seq n (l - n))))%Q as ->.
      { apply qsum_ext. intros k0 H0. apply in_seq in H0. destruct (I_idle _ _ _ I k0) as [Ha|Ha]; [fold n; lia|lia| |].
        - destruct (Qle_bool C (a (pos s k0))) eqn:Eb; [apply Qle_bool_iff in Eb; lra|]. rewrite Ha. ring.
        - destruct (Qle_bool C (a (pos s k0))) eqn:Eb; [|apply qle_bool_false in Eb; lra]. rewrite Ha. ring. }
      cbn [andb].
      assert (qsum (map (fun i => if is_free (status_of (Fin C) (Fin (a (pos s i)))) then a (pos s i) * Qm (pos s i) (pos s k) else 0)%Q (seq 0 n)) +
              qsum (map (fun k0 => if Qle_bool C (a (pos s k0)) then C * Qm (pos s k) (pos s k0) else 0)%Q (seq 0 n)) ==
              qsum (map (fun k0 => Qm (pos s k) (pos s k0) * a (pos s k0)) (seq 0 n)))%Q as Hsum.
      { rewrite <- qsum_plus. apply qsum_ext. intros i Hi. apply in_seq in Hi. destruct (Hbox i ltac:(lia)) as [B0 B1].
        unfold status_of, dgeb, d0. destruct (Qle_bool C (a (pos s i))) eqn:Eb; cbn [dleb]; rewrite Eb; cbn [is_free].
        - apply Qle_bool_iff in Eb. assert (a (pos s i) == C)%Q as -> by lra. ring.
        - destruct (Qle_bool (a (pos s i)) 0) eqn:E0; cbn [is_free].
          + apply Qle_bool_iff in E0. assert (a (pos s i) == 0)%Q as -> by lra. ring.
          + rewrite (K_sym (pos s i) (pos s k)). ring. }
      rewrite <- Hsum. ring.
    + (* active position *)
      cbn [andb]. rewrite (Hgg k ltac:(lia) Hk).
      assert (qsum (map (fun _ : nat => 0%Q) (seq 0 n)) == 0)%Q as -> by (rewrite qsum_const; ring). ring.
  - exact (I_Gb _ _ _ I).
  - exact (I_st _ _ _ I).
  - exact (I_idle _ _ _ I).
  - exact (I_feas _ _ _ I).
Qed.
Lemma inv_weaken m m' s a : m' <= m -> Inv m s a -> Inv m' s a.
Proof.
  intros H I. destruct I. constructor; try assumption. destruct I_G0 as (g & A & B). exists g. split; [exact A|]. intros k Hk. apply B. lia.
Qed.

(** *** Second shrinking loop *)
Lemma unshrink_loop_ok gm0 gm1 n : forall m s a, Inv l s a -> m <= l -> n + s_active s = m ->
  exists s', unshrink_loop n m gm0 gm1 s = Ok s' /\ Inv l s' a /\ s_unshrinked s' = s_unshrinked s /\ s_shrinking s' = s_shrinking s.
Proof.
  induction n as [|n IH]; intros m s a I Hml Hn.
  - exists s. split; [reflexivity|]. split; [exact I|]. split; reflexivity.
  - pose proof (I_act _ _ _ I) as Hact. pose proof (I_frame _ _ _ I) as F.
    destruct (skip_false dltb s a gm0 gm1 (m - 1) F (I_st _ _ _ I)) as (r & Er & _).
    { destruct (I_G _ _ _ I) as (g & H & _). exists g. exact H. }
    { lia. }
    cbn [unshrink_loop]. rewrite Er. cbn [bind]. destruct r.
    + apply IH; [exact I|lia|lia].
    + destruct (swap_inv l s a (m - 1) (s_active s) I) as (s1 & E1 & Ha1 & Hu1 & Hs1 & F1 & Hp1 & A1 & G1 & B1 & S1); [lia..|].
      rewrite E1. cbn [bind].
      destruct (IH m (with_active s1 (S (s_active s))) a) as (s' & E' & I' & U' & V').
      * constructor; cbn [with_active s_active s_y s_alpha s_G s_status s_Q s_C s_b s_set s_Gbar s_l].
        -- destruct F1; constructor; assumption.
        -- lia.
        -- exact A1.
        -- exact G1.
        -- exact B1.
        -- exact S1.
        -- intros k' Hk' Hl'. change (pos (with_active s1 (S (s_active s))) k') with (pos s1 k'). rewrite Hp1.
           assert (S (s_active s) <= k') as Hbk by exact Hk'. clear Hk'.
           apply (I_idle _ _ _ I); unfold tr; destruct (Nat.eqb_spec k' (m - 1)); try lia; destruct (Nat.eqb_spec k' (s_active s)); lia.
        -- apply (I_feas _ _ _ I).
      * exact Hml.
      * cbn [with_active s_active]. lia.
      * exists s'. split; [exact E'|]. split; [exact I'|]. cbn [with_active s_unshrinked s_shrinking] in *. split; congruence.
Qed.

(** *** Choosing the working set *)
Lemma dbl_max_fin : dbl_max = Fin MAXQ.
Proof. reflexivity. Qed.
(** [d] and [o] are the best value and position found among the first [n] positions satisfying [P] *)
Definition best (n : nat) (P : nat -> Prop) (V : nat -> Q) (init : option nat) (d : dbl) (o : option nat) : Prop :=
  exists q, d = Fin q /\ (forall k, k < n -> P k -> (V k <= q)%Q) /\
    ((q == - MAXQ)%Q /\ o = init /\ (forall k, k < n -> ~ P k) \/ exists k, k < n /\ o = Some k /\ P k /\ (q == V k)%Q).
Lemma best_skip n P V init d o : best n P V init d o -> ~ P n -> best (S n) P V init d o.
Proof.
  intros (q & E & H & B) Hn. exists q. split; [exact E|]. split.
  - intros k Hk HP. destruct (Nat.eq_dec k n) as [->|]; [contradiction|]. apply H; [lia|exact HP].
  - destruct B as [(A & B & D)|(k & A & B & D)].
    + left. split; [exact A|]. split; [exact B|]. intros k Hk. destruct (Nat.eq_dec k n) as [->|]; [exact Hn|]. apply D. lia.
    + right. exists k. split; [lia|]. split; assumption.
Qed.
Lemma best_take n P V init d o v : best n P V init d o -> P n -> (v == V n)%Q -> (- MAXQ <= V n)%Q ->
  best (S n) P V init (if dgeb (Fin v) d then Fin v else d) (if dgeb (Fin v) d then Some n else o).
Proof.
  intros (q & -> & H & B) Hn Hv HV. unfold dgeb. destruct (dleb (Fin q) (Fin v)) eqn:E.
  - apply dleb_fin in E. exists v. split; [reflexivity|]. split.
    + intros k Hk HP. destruct (Nat.eq_dec k n) as [->|]; [lra|]. specialize (H k ltac:(lia) HP). lra.
    + right. exists n. split; [lia|]. split; [reflexivity|]. split; [exact Hn|exact Hv].
  - apply dleb_fin_false in E. exists q. split; [reflexivity|]. split.
    + intros k Hk HP. destruct (Nat.eq_dec k n) as [->|]; [lra|]. apply H; [lia|exact HP].
    + destruct B as [(A & _ & _)|(k & A & B & D)]; [lra|]. right. exists k. split; [lia|]. split; assumption.
Qed.
Lemma sel_up0_proj w g i : g0 (sel_up0 w g i) = (if dgeb g (g0 w) then g else g0 w) /\ o0 (sel_up0 w g i) = (if dgeb g (g0 w) then Some i else o0 w) /\
  g1 (sel_up0 w g i) = g1 w /\ o1 (sel_up0 w g i) = o1 w.
Proof. unfold sel_up0. destruct (dgeb g (g0 w)); repeat split. Qed.
Lemma sel_up1_proj w g i : g1 (sel_up1 w g i) = (if dgeb g (g1 w) then g else g1 w) /\ o1 (sel_up1 w g i) = (if dgeb g (g1 w) then Some i else o1 w) /\
  g0 (sel_up1 w g i) = g0 w /\ o0 (sel_up1 w g i) = o0 w.
Proof. unfold sel_up1. destruct (dgeb g (g1 w)); repeat split. Qed.
Lemma foldM_app_ {A B} (f : A -> B -> res A) l1 l2 a : foldM f (l1 ++ l2) a = do a' <- foldM f l1 a; foldM f l2 a'.
Proof. revert a; induction l1 as [|x l1 IH]; intros a; [reflexivity|]. cbn [app foldM]. destruct (f a x); cbn [bind]; auto. Qed.

Context (Hrange : forall k, k < l -> (1 + C * sum_over l (fun j => Qabs (K k j)) <= MAXQ)%Q).
Notation grow s a k := (can_grow y C a (pos s k)).
Notation shr s a k := (can_shrink y C a (pos s k)).
Lemma grad_range a o : feasible l y C a -> o < l -> (- MAXQ <= grad a o)%Q /\ (grad a o <= MAXQ)%Q.
Proof.
  intros [Hb _] Ho. specialize (Hrange o Ho). unfold gradient.
  assert (forall j, (j < l)%nat -> Qabs (y o * y j * K o j * a j) <= C * Qabs (K o j))%Q as Hj.
  { intros j Hj. destruct (Hb j Hj) as [H0 H1]. rewrite !Qabs_Qmult.
    assert (Qabs (y o) == 1)%Q as -> by (destruct (Hy o) as [E|E]; rewrite E; reflexivity).
    assert (Qabs (y j) == 1)%Q as -> by (destruct (Hy j) as [E|E]; rewrite E; reflexivity).
    rewrite (Qabs_pos (a j)) by exact H0. pose proof (Qabs_nonneg (K o j)). nra. }
  assert (sum_over l (fun j => y o * y j * K o j * a j) <= C * sum_over l (fun j => Qabs (K o j)))%Q as H1.
  { rewrite <- sum_scale. apply sum_le. intros j Hj'. specialize (Hj j Hj'). pose proof (Qle_Qabs (y o * y j * K o j * a j)). lra. }
  assert (- (C * sum_over l (fun j => Qabs (K o j))) <= sum_over l (fun j => y o * y j * K o j * a j))%Q as H2.
  { assert (- (C * sum_over l (fun j => Qabs (K o j))) == sum_over l (fun j => - (C) * Qabs (K o j)))%Q as -> by (rewrite sum_scale; ring).
    apply sum_le. intros j Hj'. specialize (Hj j Hj'). pose proof (Qle_Qabs (- (y o * y j * K o j * a j))) as H. rewrite Qabs_opp in H. lra. }
  split; lra.
Qed.
Lemma sel_fold s a out n : Inv (s_active s) s a -> n <= s_active s ->
  exists w, foldM (sel_step s) (seq 0 n) (mkSel (dopp dbl_max) (dopp dbl_max) (fst out) (snd out)) = Ok w /\
    best n (fun k => grow s a k) (fun k => - (y (pos s k) * grad a (pos s k)))%Q (fst out) (g0 w) (o0 w) /\
    best n (fun k => shr s a k) (fun k => y (pos s k) * grad a (pos s k))%Q (snd out) (g1 w) (o1 w).
Proof.
  intros I. pose proof (I_frame _ _ _ I) as F. pose proof (I_act _ _ _ I) as Hact. induction n as [|n IH]; intros Hn.
  - eexists; split; [reflexivity|]. rewrite dbl_max_fin. cbn [g0 g1 o0 o1 dopp].
    split; (exists (- MAXQ)%Q; split; [reflexivity|]; split; [intros; lia|]; left; split; [reflexivity|]; split; [reflexivity|]; intros; lia).
  - destruct (IH ltac:(lia)) as (w & E & B0 & B1). rewrite seq_S, foldM_app_, E. cbn [bind foldM Nat.add].
    destruct (vec_get _ _ _ n (F_y _ F) ltac:(lia)) as (yv & Ey & Hyv). destruct (I_G _ _ _ I) as (g & Hgv & Hgg).
    destruct (vec_get _ _ _ n Hgv ltac:(lia)) as (gv & Eg & Hgvv). rewrite (Hgg n) in Hgvv by lia.
    unfold sel_step. rewrite Ey. cbn [bind]. rewrite Eg. cbn [bind]. rewrite (idxn_some _ _ _ (proj2 (I_st _ _ _ I) n ltac:(lia))). cbn [bind].
    eexists; split; [reflexivity|]. rewrite status_upper, (status_lower _ _ HCpos). set (o := pos s n) in *.
    destruct (grad_range a o (I_feas _ _ _ I)) as [R0 R1]; [apply (pos_lt _ _ F); lia|].
    destruct (Hy o) as [Ho|Ho].
    + assert (deqb (Fin yv) d1 = true) as ->. { unfold deqb, d1. apply andb_true_iff. split; apply dleb_fin; lra. }
      assert (grow s a n <-> Qle_bool C (a o) = false) as Hgr.
      { fold o. rewrite qle_bool_false. unfold can_grow. fold o. split; [intros [[_ H]|[H _]]; [exact H|lra]|intros H; left; split; assumption]. }
      assert (shr s a n <-> Qle_bool (a o) 0 = false) as Hsh.
      { rewrite qle_bool_false. unfold can_shrink. fold o. split; [intros [[_ H]|[H _]]; [exact H|lra]|intros H; left; split; assumption]. }
      assert (forall w', best (S n) (fun k => grow s a k) (fun k => - (y (pos s k) * grad a (pos s k)))%Q (fst out) (g0 w') (o0 w') -> g1 w' = g1 w -> o1 w' = o1 w ->
        best (S n) (fun k => grow s a k) (fun k => - (y (pos s k) * grad a (pos s k)))%Q (fst out)
          (g0 (if Qle_bool (a o) 0 then w' else sel_up1 w' (Fin gv) n)) (o0 (if Qle_bool (a o) 0 then w' else sel_up1 w' (Fin gv) n)) /\
        best (S n) (fun k => shr s a k) (fun k => y (pos s k) * grad a (pos s k))%Q (snd out)
          (g1 (if Qle_bool (a o) 0 then w' else sel_up1 w' (Fin gv) n)) (o1 (if Qle_bool (a o) 0 then w' else sel_up1 w' (Fin gv) n))) as Hcont.
      { intros w' H0 H1 H2. destruct (Qle_bool (a o) 0) eqn:Eb.
        - split; [exact H0|]. rewrite H1, H2. apply best_skip; [exact B1|]. intros H. apply Hsh in H. congruence.
        - destruct (sel_up1_proj w' (Fin gv) n) as (-> & -> & -> & ->). split; [exact H0|]. rewrite H1, H2. apply best_take; [exact B1|apply Hsh; reflexivity| |]; fold o; rewrite Ho; lra. }
      destruct (Qle_bool C (a o)) eqn:Eu.
      * apply Hcont; try reflexivity. apply best_skip; [exact B0|]. intros H. apply Hgr in H. congruence.
      * destruct (sel_up0_proj w (dopp (Fin gv)) n) as (P1 & P2 & P3 & P4). apply Hcont; [|exact P3|exact P4]. rewrite P1, P2. cbn [dopp].
        apply best_take; [exact B0|apply Hgr; reflexivity| |]; fold o; rewrite Ho; lra.
    + assert (deqb (Fin yv) d1 = false) as ->. { unfold deqb, d1. apply andb_false_iff. right. apply dleb_fin_false; lra. }
      assert (shr s a n <-> Qle_bool C (a o) = false) as Hgr.
      { fold o. rewrite qle_bool_false. unfold can_shrink. fold o. split; [intros [[H _]|[_ H]]; [lra|exact H]|intros H; right; split; assumption]. }
      assert (grow s a n <-> Qle_bool (a o) 0 = false) as Hsh.
      { rewrite qle_bool_false. unfold can_grow. fold o. split; [intros [[H _]|[_ H]]; [lra|exact H]|intros H; right; split; assumption]. }
      assert (forall w', best (S n) (fun k => shr s a k) (fun k => (y (pos s k) * grad a (pos s k)))%Q (snd out) (g1 w') (o1 w') -> g0 w' = g0 w -> o0 w' = o0 w ->
        best (S n) (fun k => grow s a k) (fun k => - (y (pos s k) * grad a (pos s k)))%Q (fst out)
          (g0 (if Qle_bool (a o) 0 then w' else sel_up0 w' (Fin gv) n)) (o0 (if Qle_bool (a o) 0 then w' else sel_up0 w' (Fin gv) n)) /\
        best (S n) (fun k => shr s a k) (fun k => y (pos s k) * grad a (pos s k))%Q (snd out)
          (g1 (if Qle_bool (a o) 0 then w' else sel_up0 w' (Fin gv) n)) (o1 (if Qle_bool (a o) 0 then w' else sel_up0 w' (Fin gv) n))) as Hcont.
      { intros w' H0 H1 H2. destruct (Qle_bool (a o) 0) eqn:Eb.
        - split; [|exact H0]. rewrite H1, H2. apply best_skip; [exact B0|]. intros H. apply Hsh in H. congruence.
        - destruct (sel_up0_proj w' (Fin gv) n) as (-> & -> & -> & ->). split; [|exact H0]. rewrite H1, H2. apply best_take; [exact B0|apply Hsh; reflexivity| |]; fold o; rewrite Ho; lra. }
      destruct (Qle_bool C (a o)) eqn:Eu.
      * apply Hcont; try reflexivity. apply best_skip; [exact B1|]. intros H. apply Hgr in H. congruence.
      * destruct (sel_up1_proj w (dopp (Fin gv)) n) as (P1 & P2 & P3 & P4). apply Hcont; [|exact P3|exact P4]. rewrite P1, P2. cbn [dopp].
        apply best_take; [exact B1|apply Hgr; reflexivity| |]; fold o; rewrite Ho; lra.
Qed.
Notation viol s a i j := (y (pos s j) * grad a (pos s j) - y (pos s i) * grad a (pos s i))%Q.
Lemma select_ok s a out : Inv (s_active s) s a -> exists b out', select_ws s out = Ok (b, out') /\
  (b = true -> forall i j, i < s_active s -> j < s_active s -> grow s a i -> shr s a j -> (viol s a i j < 1 # 1000)%Q) /\
  (b = false -> exists i j, out' = (Some i, Some j) /\ i < s_active s /\ j < s_active s /\ grow s a i /\ shr s a j /\ (1 # 1000 <= viol s a i j)%Q).
Proof.
  intros I. pose proof (I_frame _ _ _ I) as F. pose proof (I_act _ _ _ I) as Hact. unfold select_ws.
  destruct (sel_fold s a out (s_active s) I (le_n _)) as (w & -> & (q0 & E0 & M0 & B0) & (q1 & E1 & M1 & B1)). cbn [bind].
  eexists _, _. split; [reflexivity|]. rewrite E0, E1. unfold eps. cbn [dadd]. split; intros Hb.
  - apply dltb_fin in Hb. intros i j Hi Hj Hgi Hsj. specialize (M0 i Hi Hgi). specialize (M1 j Hj Hsj). cbv beta in *. lra.
  - apply dltb_fin_false in Hb.
    assert (forall k, (k < s_active s)%nat -> -MAXQ <= y (pos s k) * grad a (pos s k) /\ y (pos s k) * grad a (pos s k) <= MAXQ)%Q as HR.
    { intros k Hk. destruct (grad_range a (pos s k) (I_feas _ _ _ I)) as [R0 R1]; [apply (pos_lt _ _ F); lia|]. destruct (Hy (pos s k)) as [E|E]; rewrite E; split; lra. }
    destruct B0 as [(A & _ & _)|(i & Hi & Oi & Gi & Vi)]; destruct B1 as [(A' & _ & _)|(j & Hj & Oj & Gj & Vj)].
    + exfalso. assert (0 < MAXQ)%Q by reflexivity. lra.
    + exfalso. specialize (HR j Hj). cbv beta in *. lra.
    + exfalso. specialize (HR i Hi). cbv beta in *. lra.
    + exists i, j. rewrite Oi, Oj. split; [reflexivity|]. split; [exact Hi|]. split; [exact Hj|]. split; [exact Gi|]. split; [exact Gj|]. cbv beta in *. lra.
Qed.

(** *** doShrinking *)
Lemma do_shrinking_ok s a : Inv (s_active s) s a ->
  exists s', do_shrinking dexp dtanh dpow s = Ok s' /\ Inv (s_active s') s' a /\ s_shrinking s' = s_shrinking s.
Proof.
  intros I. pose proof (I_frame _ _ _ I) as F. pose proof (I_act _ _ _ I) as Hact. unfold do_shrinking.
  destruct (select_ok s a (None, None) I) as (b & out & -> & _ & Hf). cbn [bind]. destruct b.
  { exists s. split; [reflexivity|]. split; [exact I|reflexivity]. }
  destruct (Hf eq_refl) as (i & j & -> & Hi & Hj & _). cbn [fst snd get_out bind]. destruct (I_G _ _ _ I) as (g & Hgv & _).
  destruct (vec_get _ _ _ j (F_y _ F) ltac:(lia)) as (yj & -> & _). destruct (vec_get _ _ _ i (F_y _ F) ltac:(lia)) as (yi & -> & _).
  destruct (vec_get _ _ _ j Hgv ltac:(lia)) as (gj & -> & _). destruct (vec_get _ _ _ i Hgv ltac:(lia)) as (gi & -> & _). cbn [bind].
  generalize (dmul (dopp (Fin yj)) (Fin gj)) as gm0. generalize (dmul (Fin yi) (Fin gi)) as gm1. intros gm1 gm0.
  destruct (shrink_loop_ok gm0 gm1 (s_active s) 0 s a I ltac:(lia)) as (s1 & -> & I1 & U1 & V1). cbn [bind].
  destruct (s_unshrinked s1 || dgtb (dopp (dadd gm0 gm1)) eps10).
  { exists s1. split; [reflexivity|]. split; [exact I1|exact V1]. }
  assert (Inv (s_active (with_unshrinked s1 true)) (with_unshrinked s1 true) a) as I2.
  { destruct I1 as [F1 ? ? ? ? ? ? ?]. constructor; try assumption. destruct F1; constructor; assumption. }
  destruct (reconstruct_ok _ a I2) as (s2 & -> & I3 & A2 & U2 & V2 & S2 & L2). cbn [bind].
  pose proof (I_act _ _ _ I3) as Hact3.
  assert (s_l s2 = l) as Hl2 by (rewrite L2; apply (F_l _ (I_frame _ _ _ I2))).
  destruct (unshrink_loop_ok gm0 gm1 (s_l s2 - s_active s2) (s_l s2) s2 a I3 ltac:(lia) ltac:(lia)) as (s3 & E3 & I4 & U4 & V4).
  exists s3. split; [exact E3|]. split; [apply (inv_weaken l); [apply (I_act _ _ _ I4)|exact I4]|].
  rewrite V4, V2. exact V1.
Qed.

(** *** One optimisation step *)
Definition set1 (a : nat -> Q) (o : nat) (v : Q) : nat -> Q := fun k => if k =? o then v else a k.
Lemma sum_set1 a o v h : o < l -> (sum_over l (fun k => h k * set1 a o v k) == sum_over l (fun k => h k * a k) + h o * (v - a o))%Q.
Proof.
  intros Ho. rewrite (sum_change l (fun k => h k * a k)%Q (fun k => h k * set1 a o v k)%Q o Ho).
  - unfold set1. rewrite Nat.eqb_refl. ring.
  - intros k Hk Hn. unfold set1. destruct (Nat.eqb_spec k o); [contradiction|reflexivity].
Qed.
Lemma grad_set1 a o v k : o < l -> (grad (set1 a o v) k == grad a k + Qm k o * (v - a o))%Q.
Proof.
  intros Ho. unfold gradient. rewrite (sum_set1 a o v (fun j => y k * y j * K k j)%Q Ho). ring.
Qed.
Lemma objective_grad a : (2 * objective l y K a == sum_over l (fun k => (grad a k - 1) * a k))%Q.
Proof.
  unfold objective.
  assert (sum_over l (fun i => sum_over l (fun j => y i * y j * K i j * a i * a j)) == sum_over l (fun k => (grad a k + 1) * a k))%Q as ->.
  { apply sum_ext. intros i Hi. unfold gradient.
    assert (sum_over l (fun j => y i * y j * K i j * a i * a j) == a i * sum_over l (fun j => y i * y j * K i j * a j))%Q as ->.
    { rewrite <- sum_scale. apply sum_ext. intros j Hj. ring. }
    ring. }
  assert (sum_over l (fun k => (grad a k - 1) * a k) == sum_over l (fun k => (grad a k + 1) * a k) + sum_over l (fun k => -(2) * a k))%Q as ->.
  { rewrite <- sum_plus. apply sum_ext. intros k Hk. ring. }
  rewrite sum_scale. ring.
Qed.
Lemma objective_set1 a o v : o < l ->
  (objective l y K (set1 a o v) == objective l y K a + (v - a o) * grad a o + (1 # 2) * (v - a o) * (v - a o) * Qm o o)%Q.
Proof.
  intros Ho. set (d := (v - a o)%Q).
  assert (2 * objective l y K (set1 a o v) == 2 * objective l y K a + 2 * (d * grad a o) + d * d * Qm o o)%Q as H; [|lra].
  rewrite !objective_grad.
  assert (sum_over l (fun k => (grad (set1 a o v) k - 1) * set1 a o v k) ==
          sum_over l (fun k => (grad a k - 1) * set1 a o v k) + d * sum_over l (fun k => Qm o k * set1 a o v k))%Q as ->.
  { rewrite <- sum_scale, <- sum_plus. apply sum_ext. intros k Hk. rewrite (grad_set1 a o v k Ho), (K_sym k o). unfold d. ring. }
  rewrite (sum_set1 a o v (fun k => grad a k - 1)%Q Ho), (sum_set1 a o v (fun k => Qm o k) Ho).
  assert (sum_over l (fun k => Qm o k * a k) == grad a o + 1)%Q as -> by (unfold gradient; ring).
  fold d. ring.
Qed.
Lemma gbar_set1 a o v k : o < l -> (gbar (set1 a o v) k == gbar a k + ((if Qle_bool C v then C * Qm k o else 0) - (if Qle_bool C (a o) then C * Qm k o else 0)))%Q.
Proof.
  intros Ho. unfold gbar.
  rewrite (sum_change l (fun j => if Qle_bool C (a j) then C * Qm k j else 0)%Q (fun j => if Qle_bool C (set1 a o v j) then C * Qm k j else 0)%Q o Ho).
  - unfold set1. rewrite Nat.eqb_refl. reflexivity.
  - intros j Hj Hn. unfold set1. destruct (Nat.eqb_spec j o); [contradiction|reflexivity].
Qed.
Lemma gbar_update_ok s a i v : Frame s -> i < l -> nth_error (s_status s) i = Some (status_of (Fin C) (Fin v)) ->
  vec l (s_Gbar s) (fun k => gbar a (pos s k)) ->
  exists gb, gbar_update dexp dtanh dpow s i (Qle_bool C (a (pos s i))) = Ok (with_Gbar s gb) /\
    vec l gb (fun k => gbar (set1 a (pos s i) v) (pos s k)).
Proof.
  intros F Hi Hst Hgb. unfold gbar_update. rewrite (idxn_some _ _ _ Hst). cbn [bind]. rewrite status_upper.
  pose proof (pos_lt _ _ F Hi) as Ho. destruct (Bool.eqb (Qle_bool C (a (pos s i))) (Qle_bool C v)) eqn:E.
  - apply eqb_prop in E. exists (s_Gbar s). split; [destruct s; reflexivity|]. apply (vec_ext _ _ _ _ Hgb). intros k Hk.
    rewrite (gbar_set1 a _ v _ Ho), <- E. destruct (Qle_bool C (a (pos s i))); ring.
  - rewrite (F_l _ F). destruct (get_q_spec s i l F Hi (le_n _)) as (q & -> & Hq). cbn [bind]. rewrite (F_C _ F).
    destruct (add_range_spec l (s_Gbar s) _ 0 l
      (fun k => do x <- idxn q k; Ok (if Qle_bool C (a (pos s i)) then dopp (dmul (Fin C) x) else dmul (Fin C) x))
      (fun k => if Qle_bool C (a (pos s i)) then (- (C * Qm (pos s k) (pos s i)))%Q else (C * Qm (pos s k) (pos s i))%Q) Hgb ltac:(lia)) as (gb & Egb & Hv).
    { intros k Hk. destruct (vec_get _ _ _ k Hq ltac:(lia)) as (x & -> & Hx). cbn [bind]. destruct (Qle_bool C (a (pos s i))); cbn [dmul dopp];
        (eexists; split; [reflexivity|]; rewrite Hx, (K_sym (pos s i) (pos s k)); ring). }
    rewrite Egb. cbn [bind]. exists gb. split; [reflexivity|]. apply (vec_ext _ _ _ _ Hv). intros k Hk. cbv beta.
    destruct (Nat.leb_spec 0 k); [|lia]. destruct (Nat.ltb_spec k (0 + l)); [|lia]. cbn [andb]. rewrite (gbar_set1 a _ v _ Ho).
    destruct (Qle_bool C (a (pos s i))), (Qle_bool C v); try discriminate E; ring.
Qed.
Lemma update_status_ok s a o i v : Frame s -> i < l -> o = pos s i -> status_ok s a -> (exists q, nth_error (s_alpha s) i = Some (Fin q) /\ (q == v)%Q) ->
  exists st, update_status s i = Ok (with_status s st) /\ status_ok (with_status s st) (set1 a o v).
Proof.
  intros F Hi -> [Hl Hst] (q & Eq & Hq). unfold update_status. rewrite (idxn_some _ _ _ Eq). cbn [bind]. unfold set_at.
  rewrite (idxn_some _ _ _ (Hst i Hi)). cbn [bind]. rewrite (F_C _ F), (status_proper _ _ _ Hq). eexists; split; [reflexivity|].
  split; cbn [with_status s_status]; [rewrite upd_length; exact Hl|]. intros k Hk. change (pos (with_status s _) k) with (pos s k). unfold set1.
  destruct (Nat.eqb_spec (pos s k) (pos s i)) as [E|E].
  - apply (pos_inj _ _ _ F Hk Hi) in E. subst k. apply nth_upd_same. lia.
  - rewrite nth_upd_other by congruence. apply Hst, Hk.
Qed.
(** one pair exchange of length [t] against a violation [v]: to the unconstrained optimum, or until a multiplier is on a bound *)
Definition moved (a a' : nat -> Q) (v : Q) : Prop := exists oi oj t, oi < l /\ oj < l /\ oi <> oj /\ (0 < t)%Q /\
  (forall k, k <> oi -> k <> oj -> a' k = a k) /\ (a' oi == a oi + y oi * t)%Q /\ (a' oj == a oj - y oj * t)%Q /\
  (a' oi == 0 \/ a' oi == C \/ a' oj == 0 \/ a' oj == C \/ (K oi oi + K oj oj - 2 * K oi oj) * t == v)%Q /\
  (objective l y K a' <= objective l y K a - (1 # 2) * v * t)%Q.
Lemma moved_descends a a' v : (0 < v)%Q -> moved a a' v -> (objective l y K a' < objective l y K a)%Q.
Proof. intros Hv (oi & oj & t & _ & _ & _ & Ht & _ & _ & _ & _ & Ho). assert (0 < (1 # 2) * v * t)%Q by nra. lra. Qed.
Lemma take_step_ok s a i j : Inv (s_active s) s a -> i < s_active s -> j < s_active s -> grow s a i -> shr s a j -> (0 < viol s a i j)%Q ->
  exists s' a', take_step dexp dtanh dpow s i j = Ok s' /\ Inv (s_active s') s' a' /\ s_active s' = s_active s /\
    s_shrinking s' = s_shrinking s /\ s_set s' = s_set s /\ moved a a' (viol s a i j).
Proof.
  intros I Hi Hj Hgi Hsj Hv. pose proof (I_frame _ _ _ I) as F. pose proof (I_act _ _ _ I) as Hact. set (n := s_active s) in *.
  assert (i < l) as Hil by lia. assert (j < l) as Hjl by lia.
  pose proof (pos_lt _ _ F Hil) as Hoi. pose proof (pos_lt _ _ F Hjl) as Hoj.
  unfold take_step. fold n.
  destruct (get_q_spec s i n F Hil Hact) as (qi & -> & Hqi). cbn [bind]. destruct (get_q_spec s j n F Hjl Hact) as (qj & -> & Hqj). cbn [bind].
  destruct (vec_get _ _ _ i (I_alpha _ _ _ I) Hil) as (ai & -> & Hai). cbn [bind]. destruct (vec_get _ _ _ j (I_alpha _ _ _ I) Hjl) as (aj & -> & Haj). cbn [bind].
  destruct (vec_get _ _ _ i (F_y _ F) Hil) as (yi & -> & Hyi). cbn [bind]. destruct (vec_get _ _ _ j (F_y _ F) Hjl) as (yj & -> & Hyj). cbn [bind].
  destruct (I_G _ _ _ I) as (g & Hgv & Hgg).
  destruct (vec_get _ _ _ i Hgv Hil) as (gi & -> & Hgi'). cbn [bind]. destruct (vec_get _ _ _ j Hgv Hjl) as (gj & -> & Hgj'). cbn [bind].
  rewrite (Hgg i) in Hgi' by assumption. rewrite (Hgg j) in Hgj' by assumption.
  destruct (vec_get _ _ _ i Hqi Hi) as (qii & -> & Hqii). cbn [bind]. destruct (vec_get _ _ _ j Hqj Hj) as (qjj & -> & Hqjj). cbn [bind].
  destruct (vec_get _ _ _ j Hqi Hj) as (qij & -> & Hqij). cbn [bind].
  set (oi := pos s i) in *. set (oj := pos s j) in *.
  destruct (proj1 (I_feas _ _ _ I) oi Hoi) as [Bi0 Bi1]. destruct (proj1 (I_feas _ _ _ I) oj Hoj) as [Bj0 Bj1].
  assert (oi <> oj) as Hne. { intros E. rewrite E in Hv. lra. }
  rewrite (F_C _ F).
  destruct (pair_update_spec C yi yj gi gj ai aj qii qjj qij HCpos) as (x & z & t & Ep & Bx & Bz & Hx & Hz & Ht & Htp & Htd & Hclip).
  { rewrite Hyi. apply Hy. } { rewrite Hyj. apply Hy. } { rewrite Hai. split; assumption. } { rewrite Haj. split; assumption. }
  { rewrite Hyi, Hyj, Hgi', Hgj'. exact Hv. }
  assert (0 < t)%Q as Htpos.
  { apply Htp.
    - destruct Hgi as [[A B]|[A B]]; fold oi in A, B; [left|right]; rewrite Hyi, Hai; split; assumption.
    - destruct Hsj as [[A B]|[A B]]; fold oj in A, B; [left|right]; rewrite Hyj, Haj; split; assumption. }
  rewrite Ep. clear Ep Htp.
  rewrite Hyi, Hai in Hx. rewrite Hyj, Haj in Hz.
  destruct (vec_set _ _ _ i x (I_alpha _ _ _ I) Hil) as (a1 & -> & Ha1). cbn [bind]. destruct (vec_set _ _ _ j z Ha1 Hjl) as (a2 & -> & Ha2). cbn [bind].
  set (b1 := set1 a oi x). set (b2 := set1 b1 oj z).
  assert (b1 oj = a oj) as Hb1j. { unfold b1, set1. destruct (Nat.eqb_spec oj oi); [congruence|reflexivity]. }
  assert (forall k, k < l -> (if k =? j then z else if k =? i then x else a (pos s k)) = b2 (pos s k)) as Hb2.
  { intros k Hk. unfold b2, b1, set1. destruct (Nat.eqb_spec k j) as [->|Hkj]; [fold oj; rewrite Nat.eqb_refl; reflexivity|].
    destruct (Nat.eqb_spec (pos s k) oj) as [E|_]; [apply (pos_inj _ _ _ F Hk Hjl) in E; contradiction|].
    destruct (Nat.eqb_spec k i) as [->|Hki]; [fold oi; rewrite Nat.eqb_refl; reflexivity|].
    destruct (Nat.eqb_spec (pos s k) oi) as [E|_]; [apply (pos_inj _ _ _ F Hk Hil) in E; contradiction|reflexivity]. }
  assert (vec l a2 (fun k => b2 (pos s k))) as Hva2.
  { apply (vec_ext _ _ _ _ Ha2). intros k Hk. cbv beta. rewrite <- (Hb2 k Hk). reflexivity. }
  cbn [dsub dadd dopp].
  destruct (add_range_spec l (s_G s) g 0 n
     (fun k => do x0 <- idxn qi k; do y0 <- idxn qj k; Ok (dadd (dmul x0 (Fin (x + - ai))) (dmul y0 (Fin (z + - aj)))))
     (fun k => Qm (pos s k) oi * (x - a oi) + Qm (pos s k) oj * (z - a oj))%Q Hgv ltac:(lia)) as (g' & Eg' & Hg').
  { intros k Hk. destruct (vec_get _ _ _ k Hqi ltac:(lia)) as (u & -> & Hu). cbn [bind]. destruct (vec_get _ _ _ k Hqj ltac:(lia)) as (w & -> & Hw). cbn [bind dmul dadd].
    eexists; split; [reflexivity|]. rewrite Hu, Hw, Hai, Haj. fold oi oj. rewrite (K_sym oi (pos s k)), (K_sym oj (pos s k)). ring. }
  rewrite Eg'. cbn [bind]. clear Eg'.
  rewrite (idxn_some _ _ _ (proj2 (I_st _ _ _ I) i Hil)). cbn [bind]. rewrite (idxn_some _ _ _ (proj2 (I_st _ _ _ I) j Hjl)). cbn [bind].
  rewrite !status_upper. fold oi oj.
  (* statuses *)
  set (s0 := with_G (with_alpha s a2) g').
  assert (Frame s0) as F0. { destruct F; constructor; assumption. }
  destruct (update_status_ok s0 a oi i x F0 Hil eq_refl (I_st _ _ _ I)) as (st1 & E1 & S1).
  { change (s_alpha s0) with a2. destruct (proj2 Hva2 i Hil) as (q & Eq & Hq). exists q. split; [exact Eq|]. rewrite Hq. fold oi. unfold b2, b1, set1.
    destruct (Nat.eqb_spec oi oj); [contradiction|]. rewrite Nat.eqb_refl. reflexivity. }
  rewrite E1. cbn [bind]. clear E1. set (s1 := with_status s0 st1) in *.
  assert (Frame s1) as F1. { destruct F; constructor; assumption. }
  destruct (update_status_ok s1 b1 oj j z F1 Hjl eq_refl S1) as (st2 & E2 & S2).
  { change (s_alpha s1) with a2. destruct (proj2 Hva2 j Hjl) as (q & Eq & Hq). exists q. split; [exact Eq|]. rewrite Hq. fold oj. unfold b2, set1.
    rewrite Nat.eqb_refl. reflexivity. }
  rewrite E2. cbn [bind]. clear E2. set (s2 := with_status s1 st2) in *. fold b2 in S2.
  assert (Frame s2) as F2. { destruct F; constructor; assumption. }
  (* GBar *)
  destruct (gbar_update_ok s2 a i x F2 Hil) as (gb1 & Eb1 & Hb1).
  { rewrite (proj2 S2 i Hil). change (pos s2 i) with oi. unfold b2, b1, set1. destruct (Nat.eqb_spec oi oj); [contradiction|]. rewrite Nat.eqb_refl. reflexivity. }
  { exact (I_Gb _ _ _ I). }
  change (pos s2 i) with oi in Eb1, Hb1. rewrite Eb1. cbn [bind]. clear Eb1. fold b1 in Hb1.
  set (s3 := with_Gbar s2 gb1) in *.
  assert (Frame s3) as F3. { destruct F; constructor; assumption. }
  destruct (gbar_update_ok s3 b1 j z F3 Hjl) as (gb2 & Eb2 & Hgb2).
  { change (s_status s3) with (s_status s2). rewrite (proj2 S2 j Hjl). change (pos s2 j) with oj. unfold b2, set1. rewrite Nat.eqb_refl. reflexivity. }
  { exact Hb1. }
  change (pos s3 j) with oj in Eb2, Hgb2. rewrite Hb1j in Eb2. rewrite Eb2. fold b2 in Hgb2.
  exists (with_Gbar s3 gb2), b2. split; [reflexivity|]. split; [|split; [reflexivity|split; [reflexivity|split; [reflexivity|]]]].
  - constructor.
    + destruct F; constructor; assumption.
    + exact Hact.
    + exact Hva2.
    + eexists. split; [exact Hg'|]. intros k Hk Hkl. cbv beta. change (s_active (with_Gbar s3 gb2)) with n in Hk. change (pos (with_Gbar s3 gb2) k) with (pos s k).
      destruct (Nat.leb_spec 0 k); [|lia]. destruct (Nat.ltb_spec k (0 + n)); [|lia]. cbn [andb]. rewrite (Hgg k) by assumption.
      unfold b2. rewrite (grad_set1 b1 oj z _ Hoj), Hb1j. unfold b1. rewrite (grad_set1 a oi x _ Hoi). ring.
    + exact Hgb2.
    + exact S2.
    + intros k Hk Hkl. change (s_active (with_Gbar s3 gb2)) with n in Hk. change (pos (with_Gbar s3 gb2) k) with (pos s k). rewrite <- (Hb2 k Hkl).
      destruct (Nat.eqb_spec k j); [lia|]. destruct (Nat.eqb_spec k i); [lia|]. apply (I_idle _ _ _ I); assumption.
    + split.
      * intros k Hk. unfold b2, b1, set1. destruct (Nat.eqb_spec k oj); [exact Bz|]. destruct (Nat.eqb_spec k oi); [exact Bx|]. apply (proj1 (I_feas _ _ _ I)), Hk.
      * unfold b2. rewrite (sum_set1 b1 oj z y Hoj), Hb1j. unfold b1. rewrite (sum_set1 a oi x y Hoi), (proj2 (I_feas _ _ _ I)), Hx, Hz.
        pose proof (y_sq oi) as Q1. pose proof (y_sq oj) as Q2.
        assert (0 + y oi * (a oi + y oi * t - a oi) + y oj * (a oj - y oj * t - a oj) == (y oi * y oi) * t - (y oj * y oj) * t)%Q as -> by ring.
        rewrite Q1, Q2. ring.
  - assert (b2 oi = x) as Hbi. { unfold b2, b1, set1. destruct (Nat.eqb_spec oi oj); [contradiction|]. rewrite Nat.eqb_refl. reflexivity. }
    assert (b2 oj = z) as Hbj. { unfold b2, set1. rewrite Nat.eqb_refl. reflexivity. }
    exists oi, oj, t. split; [exact Hoi|]. split; [exact Hoj|]. split; [exact Hne|]. split; [exact Htpos|]. split; [|split; [|split; [|split]]].
    + intros k H1 H2. unfold b2, b1, set1. destruct (Nat.eqb_spec k oj); [contradiction|]. destruct (Nat.eqb_spec k oi); [contradiction|]. reflexivity.
    + rewrite Hbi. exact Hx.
    + rewrite Hbj. exact Hz.
    + rewrite Hbi, Hbj. destruct Hclip as [Hc1|[Hc1|[Hc1|[Hc1|[_ Hc1]]]]]; auto. do 4 right.
      rewrite Hqii, Hqjj, Hqij, Hyi, Hyj, Hgi', Hgj' in Hc1. fold oi oj in Hc1. rewrite <- Hc1.
      pose proof (y_sq oi) as Q1. pose proof (y_sq oj) as Q2.
      transitivity (((y oi * y oi) * K oi oi + (y oj * y oj) * K oj oj - 2 * ((y oi * y oi) * (y oj * y oj) * K oi oj)) * t)%Q; [rewrite Q1, Q2; ring|ring].
    + unfold b2. rewrite (objective_set1 b1 oj z Hoj), Hb1j. unfold b1 at 2. rewrite (grad_set1 a oi x oj Hoi). unfold b1. rewrite (objective_set1 a oi x Hoi).
    rewrite Hqii, Hqjj, Hqij, Hyi, Hyj, Hgi', Hgj' in Htd. fold oi oj in Htd. rewrite Hx, Hz.
    pose proof (y_sq oi) as Q1. pose proof (y_sq oj) as Q2. set (v := (y oj * grad a oj - y oi * grad a oi)%Q) in *.
    set (den := (Qm oi oi + Qm oj oj - 2 * (y oi * y oj * Qm oi oj))%Q) in *.
    assert (objective l y K a + (a oi + y oi * t - a oi) * grad a oi + (1 # 2) * (a oi + y oi * t - a oi) * (a oi + y oi * t - a oi) * Qm oi oi +
            (a oj - y oj * t - a oj) * (grad a oj + Qm oj oi * (a oi + y oi * t - a oi)) +
            (1 # 2) * (a oj - y oj * t - a oj) * (a oj - y oj * t - a oj) * Qm oj oj ==
            objective l y K a - v * t + (1 # 2) * den * t * t)%Q as ->.
    { unfold v, den. rewrite (K_sym oj oi).
      transitivity (objective l y K a + (y oi * t) * grad a oi + (1 # 2) * ((y oi * y oi) * (t * t)) * Qm oi oi +
        (- (y oj * t)) * grad a oj - (y oj * y oi * t * t) * Qm oj oi + (1 # 2) * ((y oj * y oj) * (t * t)) * Qm oj oj)%Q; [rewrite (K_sym oj oi); ring|].
      rewrite Q1, Q2, (K_sym oj oi). ring. }
    destruct (Qlt_le_dec 0 den) as [Hd|Hd].
    * specialize (Htd Hd). assert (den * t * t <= v * t)%Q by (apply Qmult_le_compat_r; [exact Htd|lra]). lra.
    * assert (0 < v * t)%Q by nra. assert ((1 # 2) * den * t * t <= 0)%Q by nra. lra.
Qed.

(** *** One iteration of the main loop *)
Lemma solve_iter_ok s a c : Inv (s_active s) s a -> exists r, solve_iter dexp dtanh dpow c s = Ok r /\
  match r with
  | Leave s' => Inv l s' a /\ s_active s' = l /\ kkt l y K C (1 # 1000) a
  | Again _ s' => exists a' v, Inv (s_active s') s' a' /\ (1 # 1000 <= v)%Q /\ moved a a' v
  end.
Proof.
  intros I0. unfold solve_iter.
  assert (exists c1 s1, (if (c - 1 =? 0)%Z
           then do s' <- (if s_shrinking s then do_shrinking dexp dtanh dpow s else Ok s); Ok (counter_start (s_l s), s')
           else Ok ((c - 1)%Z, s)) = Ok (c1, s1) /\ Inv (s_active s1) s1 a) as (c1 & s1 & -> & I).
  { destruct (c - 1 =? 0)%Z; [|eexists _, _; split; [reflexivity|exact I0]]. destruct (s_shrinking s).
    - destruct (do_shrinking_ok s a I0) as (s' & -> & I' & _). cbn [bind]. eexists _, _; split; [reflexivity|exact I'].
    - cbn [bind]. eexists _, _; split; [reflexivity|exact I0]. }
  cbn [bind]. clear s I0. destruct (select_ok s1 a (None, None) I) as (b & out & -> & _ & Hf). cbn [bind]. destruct b.
  - destruct (reconstruct_ok s1 a I) as (s2 & -> & I2 & A2 & _ & _ & _ & L2). cbn [bind].
    assert (s_l s2 = l) as Hl2 by apply (F_l _ (I_frame _ _ _ I2)). rewrite Hl2.
    assert (Inv (s_active (with_active s2 l)) (with_active s2 l) a) as I3.
    { destruct I2 as [F2 ? ? ? ? ? ? ?]. constructor; try assumption.
      - destruct F2; constructor; assumption.
      - cbn. lia.
      - intros k Hk Hkl. cbn in Hk. lia. }
    destruct (select_ok (with_active s2 l) a out I3) as (b' & out' & -> & Ht' & Hf'). cbn [bind]. destruct b'.
    + eexists; split; [reflexivity|]. split; [exact I3|]. split; [reflexivity|].
      intros i j Hi Hj Hgi Hsj. pose proof (I_frame _ _ _ I3) as F3.
      destruct (pos_surj _ i F3 Hi) as (ki & Hki & <-). destruct (pos_surj _ j F3 Hj) as (kj & Hkj & <-).
      apply (Ht' eq_refl ki kj); assumption.
    + destruct (Hf' eq_refl) as (i & j & -> & Hi & Hj & Hgi & Hsj & Hv). cbn [fst snd get_out bind].
      destruct (take_step_ok _ a i j I3 Hi Hj Hgi Hsj) as (s4 & a4 & -> & I4 & _ & _ & _ & Ho); [lra|]. cbn [bind].
      eexists; split; [reflexivity|]. eexists a4, _. split; [exact I4|]. split; [exact Hv|exact Ho].
  - destruct (Hf eq_refl) as (i & j & -> & Hi & Hj & Hgi & Hsj & Hv). cbn [fst snd get_out bind].
    destruct (take_step_ok _ a i j I Hi Hj Hgi Hsj) as (s4 & a4 & -> & I4 & _ & _ & _ & Ho); [lra|]. cbn [bind].
    eexists; split; [reflexivity|]. eexists a4, _. split; [exact I4|]. split; [exact Hv|exact Ho].
Qed.
Lemma solve_loop_ok fuel : forall c s a, Inv (s_active s) s a ->
  solve_loop dexp dtanh dpow fuel c s = Diverge \/
  exists s' a', solve_loop dexp dtanh dpow fuel c s = Ok s' /\ Inv l s' a' /\ s_active s' = l /\ kkt l y K C (1 # 1000) a' /\ (objective l y K a' <= objective l y K a)%Q.
Proof.
  induction fuel as [|fuel IH]; intros c s a I; [left; reflexivity|]. cbn [solve_loop].
  destruct (solve_iter_ok s a c I) as (r & -> & Hr). cbn [bind]. destruct r as [s'|c' s'].
  - right. exists s', a. destruct Hr as (A & B & D). split; [reflexivity|]. split; [exact A|]. split; [exact B|]. split; [exact D|]. apply Qle_refl.
  - destruct Hr as (a' & v & I' & Hv & Hmv). assert (objective l y K a' < objective l y K a)%Q as Ho by (apply (moved_descends a a' v); [lra|exact Hmv]).
    destruct (IH c' s' a' I') as [E|(s2 & a2 & E & A & B & D & G)]; [left; exact E|].
    right. exists s2, a2. split; [exact E|]. split; [exact A|]. split; [exact B|]. split; [exact D|]. lra.
Qed.
Lemma solver_init_ok ys : vec l ys y -> exists s, solver_init dexp dtanh dpow l (repeat (Fin (-(1))) l) ys p (map svec vs) = Ok s /\
  Inv (s_active s) s (fun _ => 0%Q) /\ s_set s = seq 0 l /\ s_active s = l.
Proof.
  intros Hys. unfold solver_init, qmatrix_new. destruct (kernel_new_spec p vs) as (k & -> & Hk). cbn [bind].
  assert (mapM (idxn ys) (seq 0 l) = Ok ys) as ->. { rewrite <- (proj1 Hys). apply mapM_idxn. }
  cbn [bind].
  assert (mapM (idxn (repeat (Fin (-(1))) l)) (seq 0 l) = Ok (repeat (Fin (-(1))) l)) as ->.
  { pose proof (mapM_idxn (repeat (Fin (-(1))) l)) as H. rewrite repeat_length in H. exact H. }
  cbn [bind]. rewrite HC.
  set (s0 := mkSolver l ys (repeat d0 l) (repeat (Fin (- (1))) l) (repeat (status_of (Fin C) d0) l) (mkQ k ys) (Fin C) (repeat (Fin (- (1))) l) (seq 0 l) (repeat d0 l) l false (p_shrinking p)).
  assert (forall is, (forall i, In i is -> i < l) -> foldM (fun s i =>
    do st <- idxn (s_status s) i;
    if is_lower st then Ok s
    else do qi <- get_q dexp dtanh dpow (s_Q s) i l;
         do a <- idxn (s_alpha s) i;
         do g <- add_range 0 l (fun j => do q <- idxn qi j; Ok (dmul a q)) (s_G s);
         do gb <- (if is_upper st then add_range 0 l (fun j => do q <- idxn qi j; Ok (dmul (Fin C) q)) (s_Gbar s) else Ok (s_Gbar s));
         Ok (with_Gbar (with_G s g) gb)) is s0 = Ok s0) as Hfold.
  { induction is as [|i is IH]; intros Hin; [reflexivity|]. cbn [foldM].
    assert (nth_error (s_status s0) i = Some (status_of (Fin C) d0)) as E.
    { cbn [s0 s_status]. assert (i < l) as H by (apply Hin; left; reflexivity). clear - H. revert i H. induction (length vs) as [|n IH]; intros [|i] H; try lia; [reflexivity|]. apply IH. lia. }
    rewrite (idxn_some _ _ _ E). cbn [bind]. unfold d0. rewrite (status_lower C 0 HCpos). change (Qle_bool 0 0) with true. cbn [bind]. apply IH. intros i' H'. apply Hin. right. exact H'. }
  rewrite Hfold by (intros i H; apply in_seq in H; lia). exists s0. split; [reflexivity|]. split; [|split; reflexivity].
  assert (forall k, k < l -> nth k (seq 0 l) 0 = k) as Hseq by (intros i Hi; rewrite seq_nth by exact Hi; reflexivity).
  assert (Frame s0) as F0.
  { constructor; cbn [s0 s_l s_C s_set s_y s_Q s_b q_y q_k].
    - reflexivity.
    - reflexivity.
    - apply Permutation_refl.
    - apply (vec_ext _ _ _ _ Hys). intros i Hi. unfold pos. cbn [s0 s_set]. rewrite Hseq by exact Hi. reflexivity.
    - apply (vec_ext _ _ _ _ Hys). intros i Hi. unfold pos. cbn [s0 s_set]. rewrite Hseq by exact Hi. reflexivity.
    - assert (map (fun o => nth o vs []) (seq 0 l) = vs) as ->; [|exact Hk]. clear. induction vs as [|v ws IH]; [reflexivity|]. cbn [length seq map nth]. f_equal.
      rewrite <- seq_shift, map_map. exact IH.
    - apply vec_repeat. }
  constructor; cbn [s0 s_active s_alpha s_G s_Gbar].
  - exact F0.
  - lia.
  - apply (vec_ext l _ (fun _ => 0%Q)); [apply vec_repeat|]. intros; reflexivity.
  - eexists. split; [apply vec_repeat|]. intros i Hi _. unfold gradient. rewrite (sum_zero l); [reflexivity|]. intros; ring.
  - apply (vec_ext l _ (fun _ => 0%Q)); [apply vec_repeat|]. intros i Hi. unfold gbar. symmetry. apply sum_zero. intros j _.
    destruct (Qle_bool C 0) eqn:E; [apply Qle_bool_iff in E; lra|reflexivity].
  - split; cbn [s0 s_status]; [apply repeat_length|]. intros i Hi. clear - Hi. revert i Hi. induction (length vs) as [|n IH]; intros [|i] H; try lia; [reflexivity|]. apply IH. lia.
  - intros i Hi Hil. cbn in Hi. lia.
  - split; [intros; lra|]. apply sum_zero. intros; ring.
Qed.

(** *** Before the first shrinking *)
Lemma solve_iter_early s a c r : Inv (s_active s) s a -> s_active s = l -> (c - 1 <> 0)%Z -> solve_iter dexp dtanh dpow c s = Ok r ->
  match r with
  | Leave s' => s_set s' = s_set s
  | Again c' s' => s_set s' = s_set s /\ s_active s' = l /\ c' = (c - 1)%Z
  end.
Proof.
  intros I Hl Hc'. unfold solve_iter. apply Z.eqb_neq in Hc'. rewrite Hc'. cbn [bind].
  destruct (select_ok s a (None, None) I) as (b & out & -> & Ht & Hf). cbn [bind]. destruct b.
  - assert (reconstruct dexp dtanh dpow s = Ok s) as ->. { unfold reconstruct. rewrite (F_l _ (I_frame _ _ _ I)), Hl, Nat.eqb_refl. reflexivity. }
    cbn [bind]. assert (with_active s (s_l s) = s) as ->. { rewrite (F_l _ (I_frame _ _ _ I)). rewrite <- Hl. destruct s; reflexivity. }
    destruct (select_ok s a out I) as (b' & out' & -> & _ & Hf'). cbn [bind]. destruct b'.
    + intros E. injection E as <-. reflexivity.
    + exfalso. destruct (Hf' eq_refl) as (i & j & _ & Hi & Hj & Hgi & Hsj & Hv). specialize (Ht eq_refl i j Hi Hj Hgi Hsj). lra.
  - destruct (Hf eq_refl) as (i & j & -> & Hi & Hj & Hgi & Hsj & Hv). cbn [fst snd get_out bind].
    destruct (take_step_ok s a i j I Hi Hj Hgi Hsj) as (s4 & a4 & -> & _ & A & _ & B & _); [lra|]. cbn [bind]. intros E. injection E as <-.
    split; [exact B|]. split; [congruence|reflexivity].
Qed.
Lemma solve_loop_early fuel : forall c s a, Inv (s_active s) s a -> s_active s = l -> (Z.of_nat fuel < c)%Z ->
  forall s', solve_loop dexp dtanh dpow fuel c s = Ok s' -> s_set s' = s_set s.
Proof.
  induction fuel as [|fuel IH]; intros c s a I Hl Hc' s'; [discriminate|]. cbn [solve_loop].
  destruct (solve_iter_ok s a c I) as (r & Er & Hr). rewrite Er. cbn [bind].
  pose proof (solve_iter_early s a c r I Hl ltac:(lia) Er) as He. destruct r as [s1|c1 s1].
  - intros E. injection E as <-. exact He.
  - intros E. destruct Hr as (a1 & v & I1 & _). destruct He as (A & B & ->). rewrite <- A. apply (IH (c - 1)%Z s1 a1 I1 B ltac:(lia) s' E).
Qed.

(** *** rho *)
Lemma dfmin_fin a b : exists q, dfmin (Fin a) (Fin b) = Fin q /\ (q <= a)%Q /\ (q <= b)%Q /\ ((q == a)%Q \/ (q == b)%Q).
Proof.
  unfold dfmin. destruct (dltb (Fin b) (Fin a)) eqn:E1.
  - apply dltb_fin in E1. exists b. cbn. split; [reflexivity|]. split; [lra|]. split; [lra|]. right; reflexivity.
  - apply dltb_fin_false in E1. exists a. cbn. split; [reflexivity|]. split; [lra|]. split; [lra|]. left; reflexivity.
Qed.
Lemma dfmax_fin a b : exists q, dfmax (Fin a) (Fin b) = Fin q /\ (a <= q)%Q /\ (b <= q)%Q /\ ((q == a)%Q \/ (q == b)%Q).
Proof.
  unfold dfmax. destruct (dltb (Fin a) (Fin b)) eqn:E1.
  - apply dltb_fin in E1. exists b. cbn. split; [reflexivity|]. split; [lra|]. split; [lra|]. right; reflexivity.
  - apply dltb_fin_false in E1. exists a. cbn. split; [reflexivity|]. split; [lra|]. split; [lra|]. left; reflexivity.
Qed.
Notation free s a k := (status_of (Fin C) (Fin (a (pos s k))) = FREE).
Notation val s a k := (y (pos s k) * grad a (pos s k))%Q.
Lemma status_cases q : (0 <= q)%Q -> (q <= C)%Q ->
  (status_of (Fin C) (Fin q) = UPPER_BOUND /\ (q == C)%Q) \/ (status_of (Fin C) (Fin q) = LOWER_BOUND /\ (q == 0)%Q) \/
  (status_of (Fin C) (Fin q) = FREE /\ (0 < q)%Q /\ (q < C)%Q).
Proof.
  intros H0 H1. unfold status_of, dgeb, d0. destruct (dleb (Fin C) (Fin q)) eqn:E.
  - apply dleb_fin in E. left. split; [reflexivity|lra].
  - apply dleb_fin_false in E. destruct (dleb (Fin q) (Fin 0)) eqn:E2.
    + apply dleb_fin in E2. right. left. split; [reflexivity|lra].
    + apply dleb_fin_false in E2. right. right. split; [reflexivity|]. split; lra.
Qed.
Lemma rho_fold s a n : Inv l s a -> n <= l ->
  exists u w f nf, foldM (rho_step s) (seq 0 n) (dbl_max, dopp dbl_max, d0, 0) = Ok (Fin u, Fin w, Fin f, nf) /\
    (forall k, k < n -> grow s a k -> ~ free s a k -> (u <= val s a k)%Q) /\
    (forall k, k < n -> shr s a k -> ~ free s a k -> (val s a k <= w)%Q) /\
    ((u == MAXQ)%Q \/ exists k, k < n /\ grow s a k /\ (u == val s a k)%Q) /\
    ((w == - MAXQ)%Q \/ exists k, k < n /\ shr s a k /\ (w == val s a k)%Q) /\
    (forall B, (forall k, k < n -> free s a k -> (val s a k <= B)%Q) -> (f <= qofn nf * B)%Q) /\
    (forall B, (forall k, k < n -> free s a k -> (B <= val s a k)%Q) -> (qofn nf * B <= f)%Q) /\
    (nf = 0 -> forall k, k < n -> ~ free s a k).
Proof.
  intros I. pose proof (I_frame _ _ _ I) as F. induction n as [|n IH]; intros Hn.
  { exists MAXQ, (- MAXQ)%Q, 0%Q, 0. split; [rewrite dbl_max_fin; reflexivity|].
    split; [intros; lia|]. split; [intros; lia|]. split; [left; reflexivity|]. split; [left; reflexivity|].
    change (qofn 0) with 0%Q. split; [intros; lra|]. split; [intros; lra|]. intros; lia. }
  destruct (IH ltac:(lia)) as (u & w & f & nf & E & Hu & Hw & Hu' & Hw' & HB & HB' & Hz). clear IH.
  rewrite seq_S, foldM_app_, E. cbn [bind foldM Nat.add]. clear E.
  destruct (vec_get _ _ _ n (F_y _ F) ltac:(lia)) as (yv & Ey & Hyv). destruct (I_G _ _ _ I) as (g & Hgv & Hgg).
  destruct (vec_get _ _ _ n Hgv ltac:(lia)) as (gv & Eg & Hgvv). rewrite (Hgg n) in Hgvv by lia.
  unfold rho_step. rewrite Ey. cbn [bind]. rewrite Eg. cbn [bind]. rewrite (idxn_some _ _ _ (proj2 (I_st _ _ _ I) n ltac:(lia))). cbn [bind dmul].
  destruct (proj1 (I_feas _ _ _ I) (pos s n)) as [B0 B1]; [apply (pos_lt _ _ F); lia|].
  assert (yv * gv == val s a n)%Q as Hval by (rewrite Hyv, Hgvv; reflexivity).
  assert (dgtb (Fin yv) d0 = negb (dltb (Fin yv) d0) /\ (dltb (Fin yv) d0 = true <-> (y (pos s n) == -(1))%Q)) as [Hgt Hlt].
  { unfold dgtb, d0. destruct (dltb (Fin yv) (Fin 0)) eqn:E1; destruct (dltb (Fin 0) (Fin yv)) eqn:E2;
      try apply dltb_fin in E1; try apply dltb_fin in E2; try apply dltb_fin_false in E1; try apply dltb_fin_false in E2;
      destruct (Hy (pos s n)) as [H|H]; (split; [cbn; try reflexivity; exfalso; lra|]); split; intros; try reflexivity; try discriminate; try lra; exfalso; lra. }
  assert (forall X : nat -> Prop, (forall k, k < n -> X k) -> X n -> forall k, k < S n -> X k) as Hext.
  { intros X H1 H2 k Hk. destruct (Nat.eq_dec k n) as [->|]; [exact H2|]. apply H1. lia. }
  assert (~ grow s a n \/ free s a n -> forall k, k < S n -> grow s a k -> ~ free s a k -> (u <= val s a k)%Q) as KU.
  { intros H. apply (Hext (fun k => grow s a k -> ~ free s a k -> (u <= val s a k)%Q)); [exact Hu|]. intros; tauto. }
  assert (~ shr s a n \/ free s a n -> forall k, k < S n -> shr s a k -> ~ free s a k -> (val s a k <= w)%Q) as KW.
  { intros H. apply (Hext (fun k => shr s a k -> ~ free s a k -> (val s a k <= w)%Q)); [exact Hw|]. intros; tauto. }
  assert ((u == MAXQ)%Q \/ exists k, k < S n /\ grow s a k /\ (u == val s a k)%Q) as KU'.
  { destruct Hu' as [H|(k & A & B & D)]; [left; exact H|]. right. exists k. split; [lia|]. split; assumption. }
  assert ((w == - MAXQ)%Q \/ exists k, k < S n /\ shr s a k /\ (w == val s a k)%Q) as KW'.
  { destruct Hw' as [H|(k & A & B & D)]; [left; exact H|]. right. exists k. split; [lia|]. split; assumption. }
  assert (~ free s a n -> (forall B, (forall k, k < S n -> free s a k -> (val s a k <= B)%Q) -> (f <= qofn nf * B)%Q) /\
    (forall B, (forall k, k < S n -> free s a k -> (B <= val s a k)%Q) -> (qofn nf * B <= f)%Q) /\
    (nf = 0 -> forall k, k < S n -> ~ free s a k)) as KF.
  { intros H. split; [|split].
    - intros B HBk. apply HB. intros k Hk. apply HBk. lia.
    - intros B HBk. apply HB'. intros k Hk. apply HBk. lia.
    - intros Hz0. apply Hext; [exact (Hz Hz0)|exact H]. }
  (* taking a new minimum or maximum *)
  assert (grow s a n -> exists q, dfmin (Fin u) (Fin (yv * gv)) = Fin q /\
    (forall k, k < S n -> grow s a k -> ~ free s a k -> (q <= val s a k)%Q) /\ ((q == MAXQ)%Q \/ exists k, k < S n /\ grow s a k /\ (q == val s a k)%Q)) as NU.
  { intros Hgr. destruct (dfmin_fin u (yv * gv)) as (q & Eq & Q1 & Q2 & Q3). exists q. split; [exact Eq|]. split.
    - apply (Hext (fun k => grow s a k -> ~ free s a k -> (q <= val s a k)%Q)); [|intros; lra]. intros k Hk A B. specialize (Hu k Hk A B). lra.
    - destruct Q3 as [Q3|Q3]; [destruct KU' as [H|(k & A & B & D)]; [left; lra|right; exists k; split; [exact A|split; [exact B|lra]]]|].
      right. exists n. split; [lia|]. split; [exact Hgr|lra]. }
  assert (shr s a n -> exists q, dfmax (Fin w) (Fin (yv * gv)) = Fin q /\
    (forall k, k < S n -> shr s a k -> ~ free s a k -> (val s a k <= q)%Q) /\ ((q == - MAXQ)%Q \/ exists k, k < S n /\ shr s a k /\ (q == val s a k)%Q)) as NW.
  { intros Hgr. destruct (dfmax_fin w (yv * gv)) as (q & Eq & Q1 & Q2 & Q3). exists q. split; [exact Eq|]. split.
    - apply (Hext (fun k => shr s a k -> ~ free s a k -> (val s a k <= q)%Q)); [|intros; lra]. intros k Hk A B. specialize (Hw k Hk A B). lra.
    - destruct Q3 as [Q3|Q3]; [destruct KW' as [H|(k & A & B & D)]; [left; lra|right; exists k; split; [exact A|split; [exact B|lra]]]|].
      right. exists n. split; [lia|]. split; [exact Hgr|lra]. }
  destruct (status_cases _ B0 B1) as [(Est & Ha)|[(Est & Ha)|(Est & Ha0 & Ha1)]]; rewrite Est in *.
  - destruct (KF ltac:(congruence)) as (K1 & K2 & K3). destruct (dltb (Fin yv) d0) eqn:Eneg.
    + pose proof (proj1 Hlt eq_refl) as Hneg. destruct NU as (q & -> & N1 & N2); [right; split; [exact Hneg|lra]|].
      exists q, w, f, nf. split; [reflexivity|]. split; [exact N1|]. split; [apply KW; left; intros [[H _]|[_ H]]; lra|]. split; [exact N2|]. split; [exact KW'|]. split; [exact K1|]. split; [exact K2|exact K3].
    + assert (y (pos s n) == 1)%Q as Hpos. { destruct (Hy (pos s n)) as [H|H]; [exact H|]. apply Hlt in H. discriminate H. }
      destruct NW as (q & -> & N1 & N2); [left; split; [exact Hpos|lra]|].
      exists u, q, f, nf. split; [reflexivity|]. split; [apply KU; left; intros [[_ H]|[H _]]; lra|]. split; [exact N1|]. split; [exact KU'|]. split; [exact N2|]. split; [exact K1|]. split; [exact K2|exact K3].
  - destruct (KF ltac:(congruence)) as (K1 & K2 & K3). rewrite Hgt. destruct (dltb (Fin yv) d0) eqn:Eneg; cbn [negb].
    + pose proof (proj1 Hlt eq_refl) as Hneg. destruct NW as (q & -> & N1 & N2); [right; split; [exact Hneg|lra]|].
      exists u, q, f, nf. split; [reflexivity|]. split; [apply KU; left; intros [[H _]|[_ H]]; lra|]. split; [exact N1|]. split; [exact KU'|]. split; [exact N2|]. split; [exact K1|]. split; [exact K2|exact K3].
    + assert (y (pos s n) == 1)%Q as Hpos. { destruct (Hy (pos s n)) as [H|H]; [exact H|]. apply Hlt in H. discriminate H. }
      destruct NU as (q & -> & N1 & N2); [left; split; [exact Hpos|lra]|].
      exists q, w, f, nf. split; [reflexivity|]. split; [exact N1|]. split; [apply KW; left; intros [[_ H]|[H _]]; lra|]. split; [exact N2|]. split; [exact KW'|]. split; [exact K1|]. split; [exact K2|exact K3].
  - exists u, w, (f + yv * gv)%Q, (S nf). cbn [dadd]. split; [reflexivity|]. split; [apply KU; right; reflexivity|]. split; [apply KW; right; reflexivity|]. split; [exact KU'|]. split; [exact KW'|].
    assert (qofn (S nf) == qofn nf + 1)%Q as HS. { unfold qofn. rewrite Nat2Z.inj_succ. unfold Z.succ. rewrite inject_Z_plus. reflexivity. }
    split; [|split; [|discriminate]].
    + intros B HBk. pose proof (HBk n ltac:(lia) Est). specialize (HB B ltac:(intros k Hk; apply HBk; lia)). rewrite HS. lra.
    + intros B HBk. pose proof (HBk n ltac:(lia) Est). specialize (HB' B ltac:(intros k Hk; apply HBk; lia)). rewrite HS. lra.
Qed.
Lemma rho_ok s a : Inv l s a -> s_active s = l -> kkt l y K C (1 # 1000) a ->
  exists r, calculate_rho s = Ok (Fin r) /\ forall k, k < l ->
    (can_grow y C a k -> (r - (1 # 1000) <= y k * grad a k)%Q) /\ (can_shrink y C a k -> (y k * grad a k <= r + (1 # 1000))%Q).
Proof.
  intros I Hact Hkkt. pose proof (I_frame _ _ _ I) as F. unfold calculate_rho. rewrite Hact.
  destruct (rho_fold s a l I (le_n _)) as (u & w & f & nf & -> & Hu & Hw & Hu' & Hw' & HB & HB' & Hz). cbn [bind].
  assert (forall i j, i < l -> j < l -> grow s a i -> shr s a j -> (val s a j - val s a i < 1 # 1000)%Q) as HK.
  { intros i j Hi Hj. apply Hkkt; apply (pos_lt _ _ F); assumption. }
  assert (forall k, k < l -> free s a k -> grow s a k /\ shr s a k) as Hfree.
  { intros k Hk Hf. destruct (proj1 (I_feas _ _ _ I) (pos s k)) as [B0 B1]; [apply (pos_lt _ _ F); lia|].
    destruct (status_cases _ B0 B1) as [(E & _)|[(E & _)|(_ & A & B)]]; [congruence..|]. unfold can_grow, can_shrink.
    destruct (Hy (pos s k)) as [H|H]; split; [left|left|right|right]; split; assumption. }
  assert (forall k, k < l -> (- MAXQ <= val s a k)%Q /\ (val s a k <= MAXQ)%Q) as HR.
  { intros k Hk. destruct (grad_range a (pos s k) (I_feas _ _ _ I)) as [R0 R1]; [apply (pos_lt _ _ F); lia|]. destruct (Hy (pos s k)) as [E|E]; rewrite E; split; lra. }
  assert (forall r, (forall k, k < l -> (grow s a k -> (r - (1 # 1000) <= val s a k)%Q) /\ (shr s a k -> (val s a k <= r + (1 # 1000))%Q)) ->
     forall k, k < l -> (can_grow y C a k -> (r - (1 # 1000) <= y k * grad a k)%Q) /\ (can_shrink y C a k -> (y k * grad a k <= r + (1 # 1000))%Q)) as Hback.
  { intros r H k Hk. destruct (pos_surj s k F Hk) as (t & Ht & <-). exact (H t Ht). }
  destruct (Nat.ltb_spec 0 nf) as [Hn|Hn].
  - assert (0 < qofn nf)%Q as Hq. { unfold qofn. change 0%Q with (inject_Z 0). rewrite <- Zlt_Qlt. lia. }
    unfold dofnat, dofZ. rewrite ddiv_fin by (fold (qofn nf); lra). fold (qofn nf). eexists; split; [reflexivity|]. apply Hback. intros k Hk. split; intros Hc'.
    + assert (f <= qofn nf * (val s a k + (1 # 1000)))%Q as H.
      { apply HB. intros j Hj Hf. destruct (Hfree j Hj Hf) as [_ Hs]. specialize (HK k j Hk Hj Hc' Hs). lra. }
      assert (f / qofn nf <= val s a k + (1 # 1000))%Q; [|lra]. apply Qle_shift_div_r; [exact Hq|]. lra.
    + assert (qofn nf * (val s a k - (1 # 1000)) <= f)%Q as H.
      { apply HB'. intros j Hj Hf. destruct (Hfree j Hj Hf) as [Hs _]. specialize (HK j k Hj Hk Hs Hc'). lra. }
      assert (val s a k - (1 # 1000) <= f / qofn nf)%Q; [|lra]. apply Qle_shift_div_l; [exact Hq|]. lra.
  - assert (nf = 0) as Hn0 by lia. specialize (Hz Hn0). cbn [dadd]. rewrite ddiv_fin by lra. eexists; split; [reflexivity|]. apply Hback.
    assert ((u + w) / 2 == (1 # 2) * (u + w))%Q as Hhalf by field. intros k Hk. split; intros Hc'; rewrite Hhalf.
    + specialize (Hu k Hk Hc' (Hz k Hk)). assert (w - u < 1 # 1000)%Q; [|lra].
      destruct Hw' as [H|(j & Hj & Hs & H)]; [pose proof (HR k Hk)|].
      * destruct Hu' as [H2|(i & Hi & Hgi & H2)]; [|pose proof (HR i Hi); lra]. assert (0 < MAXQ)%Q by reflexivity. lra.
      * destruct Hu' as [H2|(i & Hi & Hgi & H2)]; [pose proof (HR j Hj); lra|]. specialize (HK i j Hi Hj Hgi Hs). lra.
    + specialize (Hw k Hk Hc' (Hz k Hk)). assert (w - u < 1 # 1000)%Q; [|lra].
      destruct Hu' as [H|(i & Hi & Hgi & H)]; [pose proof (HR k Hk)|].
      * destruct Hw' as [H2|(j & Hj & Hs & H2)]; [|pose proof (HR j Hj); lra]. assert (0 < MAXQ)%Q by reflexivity. lra.
      * destruct Hw' as [H2|(j & Hj & Hs & H2)]; [pose proof (HR i Hi); lra|]. specialize (HK i j Hi Hj Hgi Hs). lra.
Qed.

(** *** The final write-back *)
Lemma write_back_box s a : Inv l s a -> exists v, write_back s = Ok v /\ length v = l /\
  forall k, k < l -> exists q, nth_error v k = Some (Fin q) /\ (0 <= q)%Q /\ (q <= C)%Q.
Proof.
  intros I. pose proof (I_frame _ _ _ I) as F. unfold write_back. rewrite (F_l _ F).
  assert (forall n from v f, from + n <= l -> vec l v f -> (forall k, k < l -> (0 <= f k)%Q /\ (f k <= C)%Q) ->
    exists v' f', foldM (fun a i => do k <- idxn (s_set s) i; do x <- idxn a i; set_at a k x) (seq from n) v = Ok v' /\ vec l v' f' /\
      (forall k, k < l -> (0 <= f' k)%Q /\ (f' k <= C)%Q)) as H.
  { induction n as [|n IH]; intros from v f Hle Hv Hb; [exists v, f; split; [reflexivity|split; assumption]|]. cbn [seq foldM].
    assert (nth_error (s_set s) from = Some (pos s from)) as Ep. { apply nth_error_nth'. rewrite (set_length _ F). lia. }
    rewrite (idxn_some _ _ _ Ep). cbn [bind]. destruct (vec_get _ _ _ from Hv ltac:(lia)) as (x & -> & Hx). cbn [bind].
    destruct (vec_set _ _ _ (pos s from) x Hv) as (v1 & -> & Hv1); [apply (pos_lt _ _ F); lia|]. cbn [bind]. apply (IH (S from) v1 _ ltac:(lia) Hv1).
    intros k Hk. destruct (k =? pos s from); [|apply Hb, Hk]. rewrite Hx. apply Hb. lia. }
  destruct (H l 0 (s_alpha s) _ ltac:(lia) (I_alpha _ _ _ I)) as (v & f & E & [Hl Hv] & Hb).
  { intros k Hk. apply (proj1 (I_feas _ _ _ I)), (pos_lt _ _ F), Hk. }
  exists v. split; [exact E|]. split; [exact Hl|]. intros k Hk. destruct (Hv k Hk) as (q & Eq & Hq). exists q. split; [exact Eq|]. rewrite Hq. apply Hb, Hk.
Qed.
Lemma write_back_same s a : Inv l s a -> s_set s = seq 0 l -> exists v, write_back s = Ok v /\ vec l v a.
Proof.
  intros I Hs. pose proof (I_frame _ _ _ I) as F. unfold write_back. rewrite (F_l _ F).
  assert (forall k, k < l -> pos s k = k) as Hp. { intros k Hk. unfold pos. rewrite Hs, seq_nth by exact Hk. reflexivity. }
  assert (forall n from v, from + n <= l -> vec l v a ->
    exists v', foldM (fun a i => do k <- idxn (s_set s) i; do x <- idxn a i; set_at a k x) (seq from n) v = Ok v' /\ vec l v' a) as H.
  { induction n as [|n IH]; intros from v Hle Hv; [exists v; split; [reflexivity|assumption]|]. cbn [seq foldM].
    assert (nth_error (s_set s) from = Some from) as Ep. { rewrite <- (Hp from) at 2 by lia. apply nth_error_nth'. rewrite (set_length _ F). lia. }
    rewrite (idxn_some _ _ _ Ep). cbn [bind]. destruct (vec_get _ _ _ from Hv ltac:(lia)) as (x & -> & Hx). cbn [bind].
    destruct (vec_set _ _ _ from x Hv) as (v1 & -> & Hv1); [lia|]. cbn [bind]. apply (IH (S from) v1 ltac:(lia)). apply (vec_ext _ _ _ _ Hv1).
    intros k Hk. destruct (Nat.eqb_spec k from) as [->|]; [exact Hx|reflexivity]. }
  apply H; [lia|]. apply (vec_ext _ _ _ _ (I_alpha _ _ _ I)). intros k Hk. rewrite Hp by exact Hk. reflexivity.
Qed.

(** *** The whole run *)
Definition optimal (r : Q) (a : nat -> Q) : Prop :=
  feasible l y C a /\ kkt l y K C (1 # 1000) a /\ (objective l y K a <= 0)%Q /\
  forall k, k < l -> (can_grow y C a k -> (r - (1 # 1000) <= y k * grad a k)%Q) /\ (can_shrink y C a k -> (y k * grad a k <= r + (1 # 1000))%Q).
Lemma solve_ok fuel ys : vec l ys y ->
  let run := solve dexp dtanh dpow fuel l (repeat (Fin (-(1))) l) ys p (map svec vs) in
  run = Diverge \/ exists r al a, run = Ok (Fin r, al) /\ optimal r a /\
    length al = l /\ (forall k, k < l -> exists q, nth_error al k = Some (Fin q) /\ (0 <= q)%Q /\ (q <= C)%Q) /\
    ((Z.of_nat fuel <= counter_start l)%Z -> vec l al a).
Proof.
  intros Hys run. unfold run, solve. destruct (solver_init_ok ys Hys) as (s0 & -> & I0 & S0 & A0). cbn [bind].
  destruct (solve_loop_ok fuel (counter_start l + 1) s0 _ I0) as [E|(s & a & E & I & Hact & Hkkt & Hobj)]; [left; rewrite E; reflexivity|].
  right. rewrite E. cbn [bind]. destruct (write_back_box s a I) as (al & Ea & Hl & Hb). rewrite Ea. cbn [bind].
  destruct (rho_ok s a I Hact Hkkt) as (r & -> & Hr). cbn [bind]. exists r, al, a. split; [reflexivity|]. split; [|split; [exact Hl|split; [exact Hb|]]].
  - split; [apply (I_feas _ _ _ I)|]. split; [exact Hkkt|]. split; [|exact Hr].
    apply (Qle_trans _ _ _ Hobj). unfold objective. rewrite (sum_zero l (fun _ => 0%Q)) by reflexivity.
    rewrite (sum_zero l); [lra|]. intros i Hi. apply sum_zero. intros j Hj. ring.
  - intros Hf. assert (s_set s = seq 0 l) as Hs.
    { rewrite <- S0. apply (solve_loop_early fuel (counter_start l + 1) s0 _ I0); [exact A0|lia|exact E]. }
    destruct (write_back_same s a I Hs) as (v & Ev & Hv). rewrite Ea in Ev. injection Ev as <-. exact Hv.
Qed.
End Inv.
