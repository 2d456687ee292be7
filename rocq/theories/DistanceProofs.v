(** Proofs about distances and nearest neighbours. *)
From Coq Require Import String ZArith QArith Qreals Reals Bool Lia Lra Lqa Setoid Morphisms Permutation Sorted Arith List.
From Verif Require Import Base Spec BaseLemmas DblLemmas SortLemmas AttrModel InstanceListModel ListSpec ListProofs PartitionProofs DistanceModel DistanceSpec.
Import ListNotations.
Local Open Scope string_scope.
Local Open Scope list_scope.
Local Open Scope nat_scope.

(** structural form *)
Definition gstep (r : dbl) (a b : attr) : dbl :=
  match a, b with
  | ADisc v, ADisc w => if String.eqb v w then r else dadd r d1
  | ACont v, ACont w => dadd r (dpow2 (dsub v w))
  | _, _ => r
  end.
Definition measuredb (a : attr) : bool := isDiscrete a || isContinuous a.
Fixpoint eucl_l (xs ys : list attr) (r : dbl) : res dbl :=
  match xs, ys with
  | [], _ => Ok r
  | a :: xs', b :: ys' => eucl_l xs' ys' (gstep r a b)
  | a :: xs', [] => if measuredb a then Throw OutOfRange else eucl_l xs' [] r
  end.
Lemma at_S {A} (a : A) l i : at_ (a :: l) (Z.of_nat (S i)) = at_ l (Z.of_nat i).
Proof. rewrite !at_nat. reflexivity. Qed.
Lemma foldM_seq_S {S} (f : S -> nat -> res S) n r : foldM f (seq 0 (Datatypes.S n)) r = do s <- f r 0; foldM (fun s i => f s (Datatypes.S i)) (seq 0 n) s.
Proof. cbn [seq foldM]. destruct (f r 0); cbn [bind]; try reflexivity. rewrite <- seq_shift, foldM_map. reflexivity. Qed.
Lemma eucl_struct l1 c1 l2 c2 xs : forall ys r, eucl_l xs ys r = foldM (eucl_step (mkInst l1 xs c1) (mkInst l2 ys c2)) (seq 0 (length xs)) r.
Proof.
  induction xs as [|a xs IH]; intros ys r; [reflexivity|].
  cbn [length]. rewrite foldM_seq_S.
  destruct ys as [|b ys]; cbn [eucl_l].
  - assert (E : forall s, foldM (fun s i => eucl_step (mkInst l1 (a :: xs) c1) (mkInst l2 [] c2) s (S i)) (seq 0 (length xs)) s = eucl_l xs [] s).
    { intros s. rewrite IH. apply foldM_ext. intros t i _. unfold eucl_step, get_attr; cbn [attrs]. rewrite at_S, !(at_nat []). destruct i; reflexivity. }
    unfold eucl_step at 1, get_attr at 1; cbn [attrs]. change (at_ (a :: xs) (Z.of_nat 0)) with (Ok a). cbn [bind].
    destruct a; cbn [isDiscrete isContinuous measuredb orb]; try reflexivity; cbn [bind]; symmetry; apply E.
  - assert (E : forall s, foldM (fun s i => eucl_step (mkInst l1 (a :: xs) c1) (mkInst l2 (b :: ys) c2) s (S i)) (seq 0 (length xs)) s = eucl_l xs ys s).
    { intros s. rewrite IH. apply foldM_ext. intros t i _. unfold eucl_step, get_attr; cbn [attrs]. rewrite !at_S. reflexivity. }
    unfold eucl_step at 1, get_attr at 1; cbn [attrs]. change (at_ (a :: xs) (Z.of_nat 0)) with (Ok a). cbn [bind].
    unfold get_attr; cbn [attrs]. change (at_ (b :: ys) (Z.of_nat 0)) with (Ok b). cbn [bind].
    destruct a, b; cbn [isDiscrete isContinuous disc_value cont_value bind gstep]; rewrite E; reflexivity.
Qed.
Lemma eucl_eq x y : eucl x y = eucl_l (attrs x) (attrs y) d0.
Proof. destruct x as [l1 xs c1], y as [l2 ys c2]. unfold eucl. rewrite (eucl_struct l1 c1 l2 c2). reflexivity. Qed.

Lemma dadd_0_r r : deq (dadd r (Fin 0)) r.
Proof. destruct r; cbn; try exact I. lra. Qed.
Lemma gstep_gap r a b : deq (gstep r a b) (dadd r (gap a b)).
Proof.
  destruct a, b; cbn [gstep gap]; try (symmetry; apply dadd_0_r).
  - destruct (String.eqb v v0); [symmetry; apply dadd_0_r|reflexivity].
  - reflexivity.
Qed.
Lemma gstep_proper r r' a b : deq r r' -> deq (gstep r a b) (gstep r' a b).
Proof. intros H. rewrite !gstep_gap, H. reflexivity. Qed.

Lemma eucl_l_sum xs : forall ys r r', length xs = length ys -> deq r r' ->
  exists d, eucl_l xs ys r = Ok d /\ deq d (fold_left dadd (map (fun p => gap (fst p) (snd p)) (combine xs ys)) r').
Proof.
  induction xs as [|a xs IH]; intros [|b ys] r r' H E; try discriminate.
  - exists r. split; [reflexivity|exact E].
  - cbn [eucl_l combine map fold_left fst snd]. apply IH; [now injection H|]. rewrite gstep_gap, E. reflexivity.
Qed.
Lemma fold_dadd_proper l l' : Forall2 deq l l' -> forall r r', deq r r' -> deq (fold_left dadd l r) (fold_left dadd l' r').
Proof. induction 1 as [|a b l l' H HF IH]; intros r r' E; [exact E|]. cbn [fold_left]. apply IH. rewrite E, H. reflexivity. Qed.
Lemma gap_sym a b : deq (gap a b) (gap b a).
Proof.
  destruct a, b; cbn [gap]; try reflexivity.
  - rewrite String.eqb_sym. reflexivity.
  - destruct v, v0; cbn; try exact I. lra.
Qed.
Lemma gaps_sym xs : forall ys, length xs = length ys ->
  Forall2 deq (map (fun p => gap (fst p) (snd p)) (combine xs ys)) (map (fun p => gap (fst p) (snd p)) (combine ys xs)).
Proof. induction xs as [|a xs IH]; intros [|b ys] H; try discriminate; constructor; [apply gap_sym|apply IH; now injection H]. Qed.

Definition nonneg (d : dbl) : Prop := match d with Fin q => (0 <= q)%Q | PInf | NaN => True | NInf => False end.
Lemma nonneg_add a b : nonneg a -> nonneg b -> nonneg (dadd a b).
Proof. destruct a, b; cbn; try tauto. intros. lra. Qed.
Lemma qsq_nonneg (q : Q) : (0 <= q * q)%Q.
Proof. destruct (Qlt_le_dec q 0); nra. Qed.
Lemma nonneg_sq d : nonneg (dmul d d).
Proof. destruct d; cbn; try exact I. apply qsq_nonneg. Qed.
Lemma nonneg_gstep r a b : nonneg r -> nonneg (gstep r a b).
Proof.
  intros H. destruct a, b; cbn [gstep]; try exact H.
  - destruct (String.eqb v v0); [exact H|apply nonneg_add; [exact H|cbn; lra]].
  - apply nonneg_add; [exact H|apply nonneg_sq].
Qed.
Lemma eucl_l_nonneg xs : forall ys r d, nonneg r -> eucl_l xs ys r = Ok d -> nonneg d.
Proof.
  induction xs as [|a xs IH]; intros ys r d H E; cbn in E; [injection E as <-; exact H|].
  destruct ys as [|b ys].
  - destruct (measuredb a); [discriminate|eapply IH; eassumption].
  - eapply IH; [|exact E]. apply nonneg_gstep, H.
Qed.
Lemma measuredb_iff a : measuredb a = true <-> measured a.
Proof.
  unfold measuredb, measured. split.
  - destruct a; cbn; try discriminate; eauto.
  - intros [[v ->]|[v ->]]; reflexivity.
Qed.
Lemma eucl_l_throws xs : forall ys r,
  ((exists i a, length ys <= i /\ nth_error xs i = Some a /\ measured a) -> eucl_l xs ys r = Throw OutOfRange) /\
  ((forall i a, length ys <= i -> nth_error xs i = Some a -> ~ measured a) -> exists d, eucl_l xs ys r = Ok d).
Proof.
  induction xs as [|a xs IH]; intros ys r.
  - split; [intros (i & a & _ & H & _); destruct i; discriminate|intros _; eexists; reflexivity].
  - destruct ys as [|b ys]; cbn [eucl_l].
    + destruct (measuredb a) eqn:E.
      * split; [reflexivity|]. intros H. exfalso. apply (H 0 a); [cbn; lia|reflexivity|apply measuredb_iff, E].
      * destruct (IH [] r) as [H1 H2]. split.
        -- intros (i & c & Hi & Hc & Hm). destruct i as [|i]; [injection Hc as ->; apply measuredb_iff in Hm; congruence|].
           apply H1. exists i, c. repeat split; [cbn; lia|exact Hc|exact Hm].
        -- intros H. apply H2. intros i c _ Hc. apply (H (S i) c); [cbn; lia|exact Hc].
    + destruct (IH ys (gstep r a b)) as [H1 H2]. split.
      * intros (i & c & Hi & Hc & Hm). destruct i as [|i]; [cbn in Hi; lia|]. apply H1. exists i, c. repeat split; [cbn in Hi; lia|exact Hc|exact Hm].
      * intros H. apply H2. intros i c Hi Hc. apply (H (S i) c); [cbn; lia|exact Hc].
Qed.

(** finite instances *)
Definition gapq (a b : attr) : Q :=
  match a, b with
  | ADisc v, ADisc w => if String.eqb v w then 0 else 1
  | ACont (Fin v), ACont (Fin w) => (v - w) * (v - w)
  | _, _ => 0
  end%Q.
Lemma gap_fin a b : finite a -> finite b -> deq (gap a b) (Fin (gapq a b)).
Proof.
  intros Ha Hb. destruct a as [v|v|v i m|v], b as [w|w|w j k|w]; try reflexivity; try (destruct v; reflexivity).
  - cbn. destruct (String.eqb v w); cbn; reflexivity.
  - destruct (Ha v eq_refl) as [p ->], (Hb w eq_refl) as [q ->]. cbn. reflexivity.
Qed.
Definition distq (xs ys : list attr) : Q := qsum (map (fun p => gapq (fst p) (snd p)) (combine xs ys)).
Lemma eucl_fin x y : length (attrs x) = length (attrs y) -> Forall finite (attrs x) -> Forall finite (attrs y) ->
  exists q, eucl x y = Ok (Fin q) /\ (q == distq (attrs x) (attrs y))%Q.
Proof.
  intros HL Hx Hy. rewrite eucl_eq. destruct (eucl_l_sum (attrs x) (attrs y) d0 d0 HL) as [d [E Hd]]; [reflexivity|].
  assert (H : deq d (Fin (distq (attrs x) (attrs y)))).
  { rewrite Hd. apply (dsum_all_fin _ (map (fun p => gapq (fst p) (snd p)) (combine (attrs x) (attrs y)))).
    clear E Hd d. revert HL Hx Hy. generalize (attrs x), (attrs y). intros xs. induction xs as [|a xs IH]; intros [|b ys] HL Hx Hy; try discriminate; [constructor|].
    inversion Hx; subst. inversion Hy; subst. constructor; [apply gap_fin; assumption|apply IH; [now injection HL|assumption|assumption]]. }
  destruct d; cbn in H; try contradiction. exists q. split; [exact E|exact H].
Qed.
Lemma gapq_nonneg a b : (0 <= gapq a b)%Q.
Proof. destruct a as [| | |[| | |]], b as [| | |[| | |]]; cbn; try lra; [destruct (String.eqb v v0); lra|apply qsq_nonneg]. Qed.
Lemma distq_nonneg xs ys : (0 <= distq xs ys)%Q.
Proof. apply (qsum_nonneg (fun p => gapq (fst p) (snd p))). intros. apply gapq_nonneg. Qed.
Lemma distq_cons a xs b ys : (distq (a :: xs) (b :: ys) == gapq a b + distq xs ys)%Q.
Proof. reflexivity. Qed.
Lemma gapq_self a : (gapq a a == 0)%Q.
Proof. destruct a as [| | |[| | |]]; cbn; try lra. rewrite String.eqb_refl. lra. Qed.
Lemma distq_self xs : (distq xs xs == 0)%Q.
Proof. induction xs as [|a xs IH]; [reflexivity|]. rewrite distq_cons, IH, gapq_self. lra. Qed.
Lemma gapq_zero a b : same_kind a b -> measured a -> finite a -> finite b -> (gapq a b == 0)%Q -> same_attr a b.
Proof.
  intros Hk [[v ->]|[v ->]] Ha Hb E; destruct b as [w|w|w j k|w]; cbn in Hk; try contradiction.
  - cbn in *. destruct (String.eqb_spec v w); [congruence|lra].
  - destruct (Ha v eq_refl) as [p ->], (Hb w eq_refl) as [q ->]. cbn in *. nra.
Qed.
Lemma distq_zero xs ys : Forall2 same_kind xs ys -> Forall measured xs -> Forall finite xs -> Forall finite ys ->
  (distq xs ys == 0)%Q -> Forall2 same_attr xs ys.
Proof.
  induction 1 as [|a b xs ys Hk Hf IH]; intros Hm Hx Hy E; [constructor|].
  inversion Hm; subst. inversion Hx; subst. inversion Hy; subst. rewrite distq_cons in E.
  pose proof (gapq_nonneg a b). pose proof (distq_nonneg xs ys).
  constructor; [apply gapq_zero; try assumption; lra|apply IH; try assumption; lra].
Qed.
Lemma gapq_relaxed a b c : same_kind a b -> same_kind b c -> finite a -> finite b -> finite c -> (gapq a c <= 2 * (gapq a b + gapq b c))%Q.
Proof.
  intros H1 H2 Ha Hb Hc. destruct a as [u|u|u i m|u], b as [v|v|v j k|v], c as [w|w|w i' k'|w]; cbn in H1, H2; try contradiction; try (cbn; lra).
  - cbn. destruct (String.eqb_spec u w), (String.eqb_spec u v), (String.eqb_spec v w); try lra. congruence.
  - destruct (Ha u eq_refl) as [p ->], (Hb v eq_refl) as [q ->], (Hc w eq_refl) as [r ->]. cbn.
    pose proof (qsq_nonneg ((p - q) - (q - r))). nra.
Qed.
Lemma distq_relaxed xs ys zs : Forall2 same_kind xs ys -> Forall2 same_kind ys zs -> Forall finite xs -> Forall finite ys -> Forall finite zs ->
  (distq xs zs <= 2 * (distq xs ys + distq ys zs))%Q.
Proof.
  intros H. revert zs. induction H as [|a b xs ys Hk Hf IH]; intros zs Hz Fx Fy Fz; inversion Hz as [|? c ? zs' Hkc Hfc]; subst.
  - cbn. lra.
  - inversion Fx; subst. inversion Fy; subst. inversion Fz; subst. rewrite !distq_cons.
    pose proof (gapq_relaxed a b c Hk Hkc). pose proof (IH zs' Hfc). specialize (H ltac:(assumption) ltac:(assumption) ltac:(assumption)). specialize (H0 ltac:(assumption) ltac:(assumption) ltac:(assumption)). lra.
Qed.

(** Minkowski's inequality *)
Section Minkowski.
  Local Open Scope R_scope.
  Lemma mink2 A B a b : 0 <= A -> 0 <= B -> 0 <= a -> 0 <= b -> sqrt ((A + B) * (A + B) + (a + b) * (a + b)) <= sqrt (A * A + a * a) + sqrt (B * B + b * b).
  Proof.
    intros HA HB Ha Hb.
    assert (H1 : 0 <= A * A + a * a) by Lra.nra. assert (H2 : 0 <= B * B + b * b) by Lra.nra.
    assert (HC : A * B + a * b <= sqrt (A * A + a * a) * sqrt (B * B + b * b)).
    { rewrite <- sqrt_mult by assumption. rewrite <- (sqrt_square (A * B + a * b)) by Lra.nra. apply sqrt_le_1_alt.
      assert (0 <= (A * b - a * B) * (A * b - a * B)) by (apply Rle_0_sqr). Lra.nra. }
    rewrite <- (sqrt_square (sqrt (A * A + a * a) + sqrt (B * B + b * b))) by (pose proof (sqrt_pos (A * A + a * a)); pose proof (sqrt_pos (B * B + b * b)); Lra.lra).
    apply sqrt_le_1_alt.
    pose proof (sqrt_sqrt _ H1). pose proof (sqrt_sqrt _ H2). Lra.nra.
  Qed.
  (** one more coordinate *)
  Lemma mink_step C A B c a b : 0 <= A -> 0 <= B -> 0 <= C -> 0 <= a -> 0 <= b -> 0 <= c ->
    sqrt C <= sqrt A + sqrt B -> sqrt c <= sqrt a + sqrt b -> sqrt (c + C) <= sqrt (a + A) + sqrt (b + B).
  Proof.
    intros HA HB HC Ha Hb Hc H h.
    pose proof (mink2 (sqrt A) (sqrt B) (sqrt a) (sqrt b) (sqrt_pos _) (sqrt_pos _) (sqrt_pos _) (sqrt_pos _)) as M.
    rewrite !sqrt_sqrt in M by assumption. rewrite (Rplus_comm a A), (Rplus_comm b B).
    eapply Rle_trans; [|exact M]. apply sqrt_le_1_alt.
    pose proof (sqrt_sqrt _ HC). pose proof (sqrt_sqrt _ Hc). pose proof (sqrt_pos C). pose proof (sqrt_pos c). Lra.nra.
  Qed.
End Minkowski.
Lemma gapq_root a b c : same_kind a b -> same_kind b c -> finite a -> finite b -> finite c ->
  (sqrt (Q2R (gapq a c)) <= sqrt (Q2R (gapq a b)) + sqrt (Q2R (gapq b c)))%R.
Proof.
  assert (E0 : Q2R 0 = 0%R) by (unfold Q2R; cbn; Lra.lra). assert (E1 : Q2R 1 = 1%R) by (unfold Q2R; cbn; Lra.lra).
  intros H1 H2 Ha Hb Hc. destruct a as [u|u|u i m|u], b as [v|v|v j k|v], c as [w|w|w i' k'|w]; cbn in H1, H2; try contradiction;
    try (cbn [gapq]; rewrite E0, sqrt_0; Lra.lra).
  - cbn [gapq]. destruct (String.eqb_spec u w), (String.eqb_spec u v), (String.eqb_spec v w); rewrite ?E0, ?E1, ?sqrt_0, ?sqrt_1; try Lra.lra. congruence.
  - destruct (Ha u eq_refl) as [p ->], (Hb v eq_refl) as [q ->], (Hc w eq_refl) as [r ->]. cbn [gapq].
    rewrite !Q2R_mult, !Q2R_minus. set (P := Q2R p). set (Q' := Q2R q). set (S := Q2R r).
    assert (K : forall t, sqrt (t * t) = Rabs t) by (intros; exact (sqrt_Rsqr_abs t)).
    rewrite !K. replace (P - S)%R with ((P - Q') + (Q' - S))%R by Lra.lra. apply Rabs_triang.
Qed.
Lemma Q2R_nonneg q : (0 <= q)%Q -> (0 <= Q2R q)%R.
Proof. intros H. apply Qle_Rle in H. unfold Q2R in H at 1. cbn in H. Lra.lra. Qed.
Lemma distq_root xs ys zs : Forall2 same_kind xs ys -> Forall2 same_kind ys zs -> Forall finite xs -> Forall finite ys -> Forall finite zs ->
  (sqrt (Q2R (distq xs zs)) <= sqrt (Q2R (distq xs ys)) + sqrt (Q2R (distq ys zs)))%R.
Proof.
  intros H. revert zs. induction H as [|a b xs ys Hk Hf IH]; intros zs Hz Fx Fy Fz; inversion Hz as [|? c ? zs' Hkc Hfc]; subst.
  - cbn. replace (Q2R 0) with 0%R by (unfold Q2R; cbn; Lra.lra). rewrite sqrt_0. Lra.lra.
  - inversion Fx; subst. inversion Fy; subst. inversion Fz; subst.
    change (distq (a :: xs) (c :: zs')) with (gapq a c + distq xs zs')%Q.
    change (distq (a :: xs) (b :: ys)) with (gapq a b + distq xs ys)%Q.
    change (distq (b :: ys) (c :: zs')) with (gapq b c + distq ys zs')%Q.
    rewrite !Q2R_plus. apply mink_step; try (apply Q2R_nonneg; first [apply gapq_nonneg|apply distq_nonneg]); [apply IH; assumption|apply gapq_root; assumption].
Qed.

(** * Nearest neighbours *)
Lemma eligible_iff q x : eligible q x = true <-> may_answer q x.
Proof.
  unfold eligible, may_answer, isComposite, possible_labels. destruct (composite q) as [ls|]; cbn.
  - rewrite mem_str_in. split; [intros H ls' E; injection E as <-; exact H|intros H; apply H; reflexivity].
  - split; [intros _ ls E; discriminate|reflexivity].
Qed.
Lemma mapM_pair {A} (f : A -> res dbl) l ds : mapM f l = Ok ds -> mapM (fun x => do d <- f x; Ok (d, x)) l = Ok (combine ds l).
Proof.
  intros H. apply mapM_ok in H. apply mapM_ok. induction H as [|x d l ds Hx Hf IH]; [constructor|].
  cbn [combine]. constructor; [rewrite Hx; reflexivity|exact IH].
Qed.
Lemma nearest_total dist data k q (d : instance -> dbl) :
  (forall x, In x data -> may_answer q x -> dist x q = Ok (d x) /\ is_nan (d x) = false) ->
  nearest dist data k q = Ok (firstn (Z.to_nat k) (ssort (fun x y => dltb (d x) (d y)) (filter (eligible q) data))).
Proof.
  intros H. set (el := filter (eligible q) data).
  assert (He : forall x, In x el -> dist x q = Ok (d x) /\ is_nan (d x) = false).
  { intros x Hx. apply filter_In in Hx as [Hx Hm]. apply H; [exact Hx|apply eligible_iff, Hm]. }
  unfold nearest. fold el. rewrite (mapM_total _ (fun x => (d x, x))) by (intros x Hx; rewrite (proj1 (He x Hx)); reflexivity).
  cbn [bind].
  assert (EN : existsb (fun p : dbl * instance => is_nan (fst p)) (map (fun x => (d x, x)) el) = false).
  { apply not_true_is_false. intros E. apply existsb_exists in E as (p & Hp & E). apply in_map_iff in Hp as (x & <- & Hx). cbn in E. rewrite (proj2 (He x Hx)) in E. discriminate. }
  rewrite EN. rewrite map_length.
  assert (ES : forall l, ssort (fun p p' : dbl * instance => dltb (fst p) (fst p')) (map (fun x => (d x, x)) l) = map (fun x => (d x, x)) (ssort (fun x y => dltb (d x) (d y)) l)).
  { assert (EI : forall x l, sinsert (fun p p' : dbl * instance => dltb (fst p) (fst p')) (d x, x) (map (fun x => (d x, x)) l) = map (fun x => (d x, x)) (sinsert (fun x y => dltb (d x) (d y)) x l)).
    { intros x l. induction l as [|y l IH]; [reflexivity|]. cbn. destruct (dltb (d y) (d x)); cbn; [rewrite IH|]; reflexivity. }
    induction l as [|x l IH]; [reflexivity|]. cbn [map ssort fold_right]. unfold ssort in *. cbn [fold_right map]. rewrite IH. apply EI. }
  rewrite ES. replace (if length el <=? 1 then Ok (map (fun x => (d x, x)) el) else Ok (map (fun x => (d x, x)) (ssort (fun x y => dltb (d x) (d y)) el))) with (Ok (map (fun x => (d x, x)) (ssort (fun x y => dltb (d x) (d y)) el))).
  - cbn [bind]. rewrite firstn_map, map_map. cbn [snd]. rewrite map_id. reflexivity.
  - destruct (length el <=? 1) eqn:E; [|reflexivity]. apply Nat.leb_le in E. destruct el as [|x [|y l]]; [reflexivity|reflexivity|cbn in E; lia].
Qed.
Lemma nearest_sorted d (l : list instance) : Forall (fun x => is_nan (d x) = false) l -> is_stable_sort (fun x y => dltb (d x) (d y)) l (ssort (fun x y => dltb (d x) (d y)) l).
Proof. intros H. apply (ssort_is_stable_sort (fun x => is_nan (d x) = false)); [|exact H]. apply (swo_key (fun v => is_nan v = false) dltb d), dltb_swo. Qed.
Lemma nth_skipn_add {A} n (l : list A) i : nth_error (skipn n l) i = nth_error l (n + i).
Proof. revert l. induction n as [|n IH]; intros l; [reflexivity|]. destruct l as [|x l]; [destruct i; reflexivity|]. cbn. apply IH. Qed.
