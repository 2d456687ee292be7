(** Proofs for C143. *)
From Coq Require Import String ZArith QArith Bool List Lia Permutation Sorted.
From Verif Require Import Base BaseLemmas SortLemmas Spec AttrModel InstanceListModel ListProofs DistanceModel DistanceSpec DistanceProofs.
Import ListNotations.
Local Open Scope list_scope.
Local Open Scope nat_scope.

(** * The most frequent label, ties to the smallest *)
Lemma cmax_fold_first c : forall b, let r := fold_left cmax_step c b in
  (r = b /\ forall kv, In kv c -> snd kv <= snd b) \/
  (snd b < snd r /\ exists c1 c2, c = c1 ++ r :: c2 /\ (forall kv, In kv c1 -> snd kv < snd r) /\ forall kv, In kv c2 -> snd kv <= snd r).
Proof.
  induction c as [|kv c IH]; intros b; cbv zeta; cbn [fold_left]; [left; split; [reflexivity|intros kv []]|].
  specialize (IH (cmax_step b kv)). cbv zeta in IH. assert (ES : cmax_step b kv = if snd b <? snd kv then kv else b) by reflexivity. rewrite ES in *. clear ES. destruct (Nat.ltb_spec (snd b) (snd kv)) as [L|L].
  - right. destruct IH as [(-> & H)|(G & c1 & c2 & E & H1 & H2)].
    + split; [exact L|]. exists [], c. split; [reflexivity|]. split; [intros kv' []|exact H].
    + split; [lia|]. exists (kv :: c1), c2. split; [cbn [app]; f_equal; exact E|]. split; [|exact H2]. intros kv' [<-|Hk]; [exact G|apply H1, Hk].
  - destruct IH as [(-> & H)|(G & c1 & c2 & E & H1 & H2)].
    + left. split; [reflexivity|]. intros kv' [<-|Hk]; [exact L|apply H, Hk].
    + right. split; [exact G|]. exists (kv :: c1), c2. split; [cbn [app]; f_equal; exact E|]. split; [|exact H2]. intros kv' [<-|Hk]; [lia|apply H1, Hk].
Qed.
(** the label with the most occurrences; among several the smallest *)
Definition leading (vs : list string) (c : string) : Prop := In c vs /\ forall v, In v vs -> occ vs v < occ vs c \/ occ vs v = occ vs c /\ (v = c \/ slt c v).
Lemma leading_max vs : vs <> [] -> leading vs (get_maximum vs).
Proof.
  intros H. destruct (get_maximum_spec vs H) as (HI & HO). split; [exact HI|]. intros v Hv. unfold get_maximum in *. fold (cofl vs) in *. unfold cmax in *.
  pose proof (cmax_fold_first (cofl vs) (EmptyString, 0)) as D. cbv zeta in D. set (r := fold_left cmax_step (cofl vs) (EmptyString, 0)) in *. clearbody r.
  assert (FR : forall kv, In kv (cofl vs) -> occ vs (fst kv) = snd kv).
  { intros kv Hk. unfold occ. rewrite <- ccount_cofl. unfold ccount. rewrite (in_mfind (fst kv) (snd kv) (cofl vs)); [reflexivity|apply msorted_nodup, cofl_sorted|destruct kv; exact Hk]. }
  destruct D as [(E & G)|(G & c1 & c2 & E & H1 & H2)].
  - exfalso. apply in_cofl in Hv. apply in_map_iff in Hv as (kv & <- & Hk). pose proof (G kv Hk) as Z0. cbn in Z0. rewrite <- (FR kv Hk) in Z0.
    assert (In (fst kv) vs) by (apply in_cofl; apply in_map, Hk). apply (count_occ_In string_dec) in H0. unfold occ in Z0. lia.
  - assert (Hr : In r (cofl vs)) by (rewrite E; apply in_or_app; right; left; reflexivity). rewrite (FR r Hr).
    apply in_cofl, in_map_iff in Hv as (kv & <- & Hk). rewrite (FR kv Hk). rewrite E in Hk. apply in_app_or in Hk as [Hk|[<-|Hk]].
    + left. apply H1, Hk.
    + right. split; [reflexivity|left; reflexivity].
    + pose proof (H2 kv Hk) as L. destruct (Nat.eq_dec (snd kv) (snd r)) as [Q|Q]; [right|left; lia]. split; [exact Q|]. right.
      pose proof (cofl_sorted vs) as S. unfold msorted, mkeys in S. rewrite E, map_app in S. cbn [map] in S.
      clear -S Hk. induction (map fst c1) as [|a l IH]; cbn [app] in S; apply StronglySorted_inv in S as (S1 & S2); [|apply IH, S1].
      rewrite Forall_forall in S2. apply S2, in_map, Hk.
Qed.
Lemma leading_unique vs c c' : leading vs c -> leading vs c' -> c = c'.
Proof.
  intros (I & H) (I' & H'). destruct (H c' I') as [L|(E & [->|L])]; [|reflexivity|]; destruct (H' c I) as [L'|(E' & [->|L'])]; try reflexivity; try lia.
  destruct (slt_irrefl c). exact (slt_trans _ _ _ L L').
Qed.
Lemma leading_more vs vs' c : leading vs c -> occ vs c <= occ vs' c -> (forall v, v <> c -> occ vs' v <= occ vs v) -> leading vs' c.
Proof.
  intros (I & H) Hc Hv. assert (0 < occ vs c) by (apply (count_occ_In string_dec), I). split; [apply (count_occ_In string_dec); fold (occ vs' c); lia|].
  intros v Iv. destruct (string_dec v c) as [->|N]; [right; split; [reflexivity|left; reflexivity]|]. pose proof (Hv v N) as L.
  assert (I' : In v vs) by (apply (count_occ_In string_dec); apply (count_occ_In string_dec) in Iv; unfold occ in L; lia).
  destruct (H v I') as [L'|(E & [->|S])]; [left; lia|destruct (N eq_refl)|]. destruct (Nat.eq_dec (occ vs' v) (occ vs' c)); [right; split; [assumption|right; exact S]|left; lia].
Qed.
Lemma max_more vs vs' : vs <> [] -> occ vs (get_maximum vs) <= occ vs' (get_maximum vs) -> (forall v, v <> get_maximum vs -> occ vs' v <= occ vs v) -> get_maximum vs' = get_maximum vs.
Proof.
  intros N Hc Hv. pose proof (leading_more vs vs' _ (leading_max vs N) Hc Hv) as L. apply (leading_unique vs'); [|exact L]. apply leading_max. intros ->. destruct L as ([] & _).
Qed.
Lemma occ_app l1 l2 v : occ (l1 ++ l2) v = occ l1 v + occ l2 v.
Proof. apply count_occ_app. Qed.
(** one label more *)
Lemma max_added l1 l2 : l1 ++ l2 <> [] -> get_maximum (l1 ++ get_maximum (l1 ++ l2) :: l2) = get_maximum (l1 ++ l2).
Proof.
  intros N. set (c := get_maximum (l1 ++ l2)). apply max_more; [exact N| |]; fold c.
  - rewrite !occ_app. unfold occ. cbn [count_occ]. destruct (string_dec c c); lia.
  - intros v Hv. rewrite !occ_app. unfold occ. cbn [count_occ]. destruct (string_dec c v); [congruence|lia].
Qed.

(** * Sorting *)
Section Sort.
  Context {A : Type} (P : A -> Prop) (lt : A -> A -> bool) (W : swo P lt).
  Lemma filter_sinsert f x l : P x -> Forall P l -> StronglySorted (fun a b => lt b a = false) l -> filter f (sinsert lt x l) = if f x then sinsert lt x (filter f l) else filter f l.
  Proof.
    intros Hx HP HS. induction l as [|y l IH]; [cbn; destruct (f x); reflexivity|]. inversion HP as [|? ? Hy HP']; subst. apply StronglySorted_inv in HS as (S1 & S2). cbn [sinsert].
    destruct (lt y x) eqn:E.
    - cbn [filter]. rewrite (IH HP' S1). destruct (f y), (f x); try reflexivity. cbn [sinsert]. rewrite E. reflexivity.
    - change (filter f (x :: y :: l)) with (if f x then x :: filter f (y :: l) else filter f (y :: l)). destruct (f x); [|reflexivity].
      assert (G : Forall (fun z => lt z x = false) (filter f (y :: l))).
      { apply Forall_forall. intros z Hz. apply filter_In in Hz as ([<-|Hz] & _); [exact E|]. rewrite Forall_forall in S2, HP'. apply (swo_incomp _ _ W z y x); auto. }
      destruct (filter f (y :: l)) as [|z l']; [reflexivity|]. inversion G as [|? ? Gz _]; subst. cbn [sinsert]. rewrite Gz. reflexivity.
  Qed.
  Lemma filter_ssort f l : Forall P l -> filter f (ssort lt l) = ssort lt (filter f l).
  Proof.
    intros HP. induction l as [|x l IH]; [reflexivity|]. inversion HP as [|? ? Hx HP']; subst. change (ssort lt (x :: l)) with (sinsert lt x (ssort lt l)).
    rewrite filter_sinsert; [|exact Hx| |apply (ssort_sorted P lt W), HP'].
    - cbn [filter]. rewrite (IH HP'). destruct (f x); reflexivity.
    - apply Forall_forall. intros y Hy. rewrite Forall_forall in HP'. apply HP'. eapply Permutation_in; [symmetry; apply ssort_perm|exact Hy].
  Qed.
  (** one element more *)
  Lemma ssort_one l1 x l2 : Forall P l1 -> P x -> Forall P l2 -> exists a b, ssort lt (l1 ++ x :: l2) = a ++ x :: b /\ ssort lt (l1 ++ l2) = a ++ b.
  Proof.
    intros H1 Hx H2. induction l1 as [|y l1 IH].
    - cbn [app]. change (ssort lt (x :: l2)) with (sinsert lt x (ssort lt l2)). generalize (ssort lt l2). intros l. induction l as [|z l (a & b & E1 & E2)]; [exists [], []; split; reflexivity|]. cbn [sinsert].
      destruct (lt z x); [|exists [], (z :: l); split; reflexivity]. exists (z :: a), b. rewrite E1, E2. split; reflexivity.
    - inversion H1 as [|? ? Hy H1']; subst. destruct (IH H1') as (a & b & E1 & E2). cbn [app]. change (ssort lt (y :: l1 ++ x :: l2)) with (sinsert lt y (ssort lt (l1 ++ x :: l2))). change (ssort lt (y :: l1 ++ l2)) with (sinsert lt y (ssort lt (l1 ++ l2))).
      assert (HP : Forall P (l1 ++ x :: l2)) by (apply Forall_app; split; [exact H1'|constructor; assumption]).
      pose proof (ssort_sorted P lt W _ HP) as HS. rewrite E1 in *. rewrite E2. assert (HB : Forall (fun z => lt z x = false) b).
      { clear -HS. induction a as [|z a IH]; cbn [app] in HS; apply StronglySorted_inv in HS as (S1 & S2); [exact S2|apply IH, S1]. }
      assert (PB : Forall P b).
      { apply Forall_forall. intros z Hz. rewrite Forall_forall in HP. apply HP. eapply Permutation_in; [symmetry; apply (ssort_perm lt)|]. rewrite E1. apply in_or_app. right. right. exact Hz. }
      clear E1 E2 IH HS HP. induction a as [|z a (a' & b' & E1 & E2)].
      + cbn [app sinsert]. destruct (lt x y) eqn:E.
        * exists [], (sinsert lt y b). split; reflexivity.
        * exists [y], b. split; [reflexivity|]. destruct b as [|z b]; [reflexivity|]. cbn [sinsert app]. inversion HB; inversion PB; subst. rewrite (swo_incomp _ _ W z x y); auto.
      + cbn [app sinsert]. destruct (lt z y); [exists (z :: a'), b'; rewrite E1, E2; split; reflexivity|]. exists (y :: z :: a), b. split; reflexivity.
  Qed.
  (** elements above the first ones do not come before them *)
  Lemma kept_first f ns : forall s rest, StronglySorted (fun a b => lt b a = false) s -> filter f s = ns ++ rest -> (forall x n, In x s -> f x = false -> In n ns -> lt n x = true) ->
    exists rest', s = ns ++ rest'.
  Proof.
    induction ns as [|n ns IH]; intros s rest HS E H; [exists s; reflexivity|]. destruct s as [|x s]; [discriminate E|]. apply StronglySorted_inv in HS as (S1 & S2). cbn [filter] in E. destruct (f x) eqn:F.
    - injection E as -> E. destruct (IH s rest S1 E) as (rest' & ->); [|exists rest'; reflexivity]. intros z m Hz Fz Hm. apply (H z m); [right; exact Hz|exact Fz|right; exact Hm].
    - exfalso. assert (Hn : In n s) by (apply (filter_In f); rewrite E; left; reflexivity). rewrite Forall_forall in S2. specialize (H x n (or_introl eq_refl) F (or_introl eq_refl)). rewrite (S2 n Hn) in H. discriminate H.
  Qed.
End Sort.
