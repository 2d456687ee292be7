(** C168: leaving a class out of the training data of quadratic discriminants. *)
From Coq Require Import String ZArith QArith Bool Lia Lqa Arith List.
From Verif Require Import Base Spec BaseLemmas DblLemmas AttrModel AttrProofs DataSetModel InstanceListModel PartitionModel PerformanceModel StatSpec ListSpec ListProofs PartitionProofs CovProofs CovAllProofs PerformanceProofs DistanceModel GaussianModel GaussianSpec GaussianProofs GaussianProps DiscrimSpec DiscrimProofs BayesProofs DiscrimProps WithoutProofs ShiftProps.
Import ListNotations.
Local Open Scope string_scope.
Local Open Scope list_scope.
Local Open Scope nat_scope.

Definition quadratic_score (f : Q -> Q) (d : nat) (s : sample) (S : string -> list (list Q)) (D : string -> Q) (v : list Q) (c : string) : Q :=
  (f (frequency s c) - (1#2) * f (D c) - (1#2) * quad d (S c) (away s c v))%Q.
Lemma reads_without c l s : Forall2 reads l s -> Forall2 reads (without c l) (filter (fun r => negb (String.eqb (fst r) c)) s).
Proof.
  unfold without. induction 1 as [|x r l s Hx H IH]; [constructor|]. cbn [filter]. rewrite <- (proj1 Hx). destruct (String.eqb (label x) c); cbn [negb]; [exact IH|constructor; assumption].
Qed.
(** With two or more instances in every class, covariances [P] that have an inverse [S] and a positive determinant [D], and scores above the smallest double:
    an answer other than [c] stays when the instances of [c] are left out. *)
Theorem C168_qda : forall inverse determinant ln f, log_reads ln f -> (forall x y, 0 < x -> 0 < y -> f (x * y) == f x + f y)%Q ->
  forall shape l s c, uniform shape l -> Forall2 reads l s -> (forall x, In x (map label l) -> 2 <= length (members s x)) ->
  let s' := filter (fun r => negb (String.eqb (fst r) c)) s in let l' := filter (fun x => negb (String.eqb (label x) c)) l in l' <> [] ->
  exists P, (forall x, In x (map label l) -> entries (dim shape) (P x) (class_cov s x)) /\
  forall (S : string -> list (list Q)) (D : string -> Q),
  (forall x, In x (map label l) -> inverse (map (map Fin) (P x)) = map (map Fin) (S x) /\ inverse_of (dim shape) (P x) (S x) /\
     determinant (map (map Fin) (P x)) = Fin (D x) /\ (0 < D x)%Q) ->
  exists m m', qda_train inverse determinant ln qda_empty l = Ok m /\ qda_train inverse determinant ln qda_empty l' = Ok m' /\
  forall q v a, inst_vals q = map Fin v -> length v = dim shape ->
    (forall x, In x (map label l) -> - floor < quadratic_score f (dim shape) s S D v x)%Q -> (forall x, In x (map label l') -> - floor < quadratic_score f (dim shape) s' S D v x)%Q ->
    qda_predict m q = Ok a -> a <> c -> qda_predict m' q = Ok a.
Proof.
  intros inverse determinant ln f Hln Hadd shape l s c HU HR H2.
  pose proof (reads_rows shape l s HU HR) as Es. change (map (fun x => (label x, row x)) l) with (sample_of l) in Es. subst s. set (s := sample_of l) in *.
  intros s' l' N'. fold (without c l) in l'. assert (Hn : l <> []) by (intros E; apply N'; unfold l'; rewrite E; reflexivity).
  pose proof (reads_without c l s HR) as HR'. fold l' s' in HR'.
  assert (HU' : uniform shape l') by (unfold uniform in *; rewrite Forall_forall in *; intros x Hx; apply filter_In in Hx as [Hx _]; apply HU, Hx).
  assert (Hl' : forall x, In x (map label l') -> In x (map label l) /\ x <> c).
  { intros x Hx. apply in_map_iff in Hx as (y & <- & Hy). apply filter_In in Hy as [Hy Nc]. split; [apply in_map, Hy|]. destruct (String.eqb_spec (label y) c); [discriminate|assumption]. }
  assert (MW : forall x, x <> c -> members s' x = members s x) by (intros x Hx; apply members_without, Hx).
  assert (LS : length s = length l) by (symmetry; apply (Forall2_len _ _ _ HR)). assert (LS' : length s' = length l') by (symmetry; apply (Forall2_len _ _ _ HR')).
  pose proof (reads_rows shape l' s' HU' HR') as Es'. change (map (fun x => (label x, row x)) l') with (sample_of l') in Es'.
  assert (K : forall x, exists P, In x (map label l) -> (exists avg, cont_average_all (filter (of_class x) l) = Ok avg /\ covariance avg (filter (of_class x) l) = Ok (map (map Fin) P)) /\ entries (dim shape) P (class_cov (sample_of l) x)).
  { intros x. destruct (in_dec string_dec x (map label l)) as [Hc|Hc]; [|exists []; intros; contradiction].
    destruct (class_mean_avg shape l x HU Hc) as (avg & Ea & Va). destruct (class_cov_cov shape l x avg HU Hc (H2 x Hc) Va) as (cov & Ec & Vc).
    destruct (ism_list _ _ _ Vc) as (P & -> & VP). exists P. intros _. split; [exists avg; split; assumption|exact VP]. }
  assert (KP : exists P : string -> list (list Q), forall c, In c (map label l) -> (exists avg, cont_average_all (filter (of_class c) l) = Ok avg /\ covariance avg (filter (of_class c) l) = Ok (map (map Fin) (P c))) /\ entries (dim shape) (P c) (class_cov (sample_of l) c)).
  { assert (G : forall cs, exists P : string -> list (list Q), forall c, In c cs -> In c (map label l) -> (exists avg, cont_average_all (filter (of_class c) l) = Ok avg /\ covariance avg (filter (of_class c) l) = Ok (map (map Fin) (P c))) /\ entries (dim shape) (P c) (class_cov (sample_of l) c)).
    { induction cs as [|x cs (P & HP)]; [exists (fun _ => []); intros ? []|]. destruct (K x) as (p & Hp). exists (fun c' => if String.eqb c' x then p else P c').
      intros c' Hc' Hl. destruct (String.eqb_spec c' x) as [->|Ne]; [apply Hp, Hl|]. apply HP; [destruct Hc' as [->|Hc']; [congruence|exact Hc']|exact Hl]. }
    destruct (G (map label l)) as (P & HP). exists P. intros x Hx. apply HP; exact Hx. }
  destruct KP as (P & HP). exists P. split; [intros x Hx; apply HP, Hx|].
  intros S D HI. destruct (qda_spec inverse determinant ln f Hln shape l HU Hn P S D H2) as (m & Em & HM); [intros x Hx; apply HP, Hx|intros x Hx; apply HP, Hx|exact HI|].
  assert (CC : forall x, x <> c -> class_cov s' x = class_cov s x).
  { intros x Hx. unfold class_cov, class_mean. rewrite (MW x Hx). reflexivity. }
  destruct (qda_spec inverse determinant ln f Hln shape l' HU' N' P S D) as (m' & Em' & HM').
  { intros x Hx. destruct (Hl' x Hx) as [Hx1 Hx2]. rewrite <- Es', (MW x Hx2). apply H2, Hx1. }
  { intros x Hx. destruct (Hl' x Hx) as [Hx1 Hx2]. unfold l'. rewrite (of_class_without c x l Hx2). apply HP, Hx1. }
  { intros x Hx. destruct (Hl' x Hx) as [Hx1 Hx2]. rewrite <- Es', (CC x Hx2). apply HP, Hx1. }
  { intros x Hx. apply HI, Hl', Hx. }
  exists m, m'. split; [exact Em|]. split; [exact Em'|]. intros q v a Hq Lv B B' Ea Ne. rewrite <- Es' in HM'. fold s in HM.
  unfold qda_predict in *. rewrite (proj1 (qda_train_prior _ _ _ _ _ _ Em)) in Ea. rewrite (proj1 (qda_train_prior _ _ _ _ _ _ Em')). unfold l'. rewrite prior_without.
  assert (T : (0 < qofn (length s))%Q). { apply qofn_pos. rewrite LS. destruct l; [congruence|cbn; lia]. }
  assert (T' : (0 < qofn (length s'))%Q). { apply qofn_pos. rewrite LS'. destruct l'; [congruence|cbn; lia]. }
  refine (C168_shifted (class_distribution l) (qda_metric m q) _ c (f (qofn (length s) / qofn (length s'))%Q) q a _ Ea Ne). split.
  - intros x Hx. apply counted in Hx. destruct (HM q v x Hq Lv Hx) as (r & Er & Vr). exists r. split; [exact Er|]. fold (quadratic_score f (dim shape) s S D v x) in Vr. rewrite Vr. apply B, Hx.
  - intros x w Hxc Hx Ev. apply counted in Hx. assert (Hx' : In x (map label l')). { apply in_map_iff in Hx as (y & <- & Hy). apply in_map, filter_In. split; [exact Hy|]. destruct (String.eqb_spec (label y) c); [contradiction|reflexivity]. }
    destruct (HM q v x Hq Lv Hx) as (r & Er & Vr). rewrite Er in Ev. injection Ev as ->. destruct (HM' q v x Hq Lv Hx') as (r' & Er' & Vr'). exists r'. split; [exact Er'|].
    split; [|fold (quadratic_score f (dim shape) s' S D v x) in Vr'; rewrite Vr'; apply B', Hx']. rewrite Vr, Vr'. unfold frequency, away, class_mean. rewrite !(MW x Hxc).
    assert (M : (0 < qofn (length (members s x)))%Q) by (apply qofn_pos; specialize (H2 x Hx); lia).
    assert (KK : (f (qofn (length (members s x)) / qofn (length s')) == f (qofn (length (members s x)) / qofn (length s)) + f (qofn (length s) / qofn (length s')))%Q).
    { rewrite <- Hadd by (apply Qlt_shift_div_l; [assumption|]; lra). apply (proj2 Hln). field. split; lra. }
    rewrite KK. ring.
Qed.
Print Assumptions C168_qda.
(** One feature: matrices with one entry. *)
Definition inv1 (m : list (list dbl)) : list (list dbl) := map (map (fun x => ddiv d1 x)) m.
Definition det1 (m : list (list dbl)) : dbl := match m with [[x]] => x | _ => d0 end.
Definition one (c : string) (x : Q) : instance := mkInst c [ACont (Fin x)] None.
Example C168_qda_case : let l := [one "a" 0; one "a" 2; one "c" 4; one "b" 10; one "b" 14; one "c" 8] in
  exists m m', qda_train inv1 det1 ln_two qda_empty l = Ok m /\ qda_train inv1 det1 ln_two qda_empty (filter (fun x => negb (String.eqb (label x) "c")) l) = Ok m' /\
    qda_predict m (one "?" 13) = Ok "b" /\ qda_predict m' (one "?" 13) = Ok "b" /\ qda_predict m (one "?" 6) = Ok "c".
Proof. do 2 eexists. repeat (split; [vm_compute; reflexivity|]). vm_compute. reflexivity. Qed.
(** It is false for linear discriminants, whose covariance is pooled over all classes: "c" makes the common variance larger and the frequencies more important. *)
Theorem C168_lda_refuted : exists l q m m', lda_train inv1 ln_two lda_empty l = Ok m /\ lda_train inv1 ln_two lda_empty (filter (fun x => negb (String.eqb (label x) "c")) l) = Ok m' /\
  lda_predict m q = Ok "a" /\ lda_predict m' q = Ok "b".
Proof.
  exists [one "a" (-1); one "a" 1; one "a" (-1); one "a" 1; one "b" 3; one "b" 4; one "b" 5; one "c" (-103); one "c" (-97)], (one "?" 3). do 2 eexists. repeat (split; [vm_compute; reflexivity|]). vm_compute. reflexivity.
Qed.
Print Assumptions C168_lda_refuted.
