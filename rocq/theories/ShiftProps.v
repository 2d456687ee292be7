(** C168: leaving a class out of the training data when every score is shifted by the same amount, as the logarithms of the class frequencies are. *)
From Coq Require Import String ZArith QArith Bool Lia Lqa Arith List.
From Verif Require Import Base Spec BaseLemmas DblLemmas AttrModel InstanceListModel ListSpec ListProofs PartitionModel PartitionProofs PerformanceModel EnsembleModel GaussianModel GaussianProofs DiscrimSpec DiscrimProofs BayesProofs WithoutProofs.
Import ListNotations.
Local Open Scope string_scope.
Local Open Scope list_scope.
Local Open Scope nat_scope.

Definition floor : Q := inject_Z (2 ^ 1024 - 2 ^ 971).
Definition low : dbl := dopp dbl_max.
Lemma low_fin : low = Fin (- floor). Proof. reflexivity. Qed.
(** scores of the classes with and without [c] *)
Definition shifted (prior : counter) (metric metric' : string -> res dbl) (c : string) (K : Q) : Prop :=
  (forall x, mmem x prior = true -> exists v, metric x = Ok (Fin v) /\ (- floor < v)%Q) /\
  (forall x v, x <> c -> mmem x prior = true -> metric x = Ok (Fin v) -> exists v', metric' x = Ok (Fin v') /\ (v' == v + K)%Q /\ (- floor < v')%Q).
Inductive goes_with (c : string) (K : Q) : dbl * string -> dbl * string -> Prop :=
| GNone : forall d d', d = d' \/ d = c -> goes_with c K (Fin (- floor), d) (Fin (- floor), d')
| GSame : forall v v' k, (v' == v + K)%Q -> goes_with c K (Fin v, k) (Fin v', k)
| GLeft : forall v w k, (w == - floor \/ w <= v + K)%Q -> goes_with c K (Fin v, c) (Fin w, k).

Lemma shift_fold prior metric metric' c K ls : shifted prior metric metric' c K -> forall st st' r, goes_with c K st st' ->
  foldM (gauss_step prior metric) ls st = Ok r -> exists r', foldM (gauss_step (no_key c prior) metric') (filter (fun k => negb (String.eqb k c)) ls) st' = Ok r' /\ goes_with c K r r'.
Proof.
  intros [H1 H2]. induction ls as [|k ls IH]; intros st st' r R E; cbn [foldM filter] in *; [injection E as <-; exists st'; split; [reflexivity|exact R]|].
  unfold gauss_step at 1 in E. apply bind_ok in E as (s1 & E1 & E). destruct (String.eqb_spec k c) as [->|Hk]; cbn [negb].
  - apply (IH s1 st' r); [|exact E]. destruct (mmem c prior) eqn:Em; [|injection E1 as <-; exact R]. apply bind_ok in E1 as (m & Emet & E1). injection E1 as <-.
    destruct (H1 c Em) as (v & Ev & Lv). rewrite Ev in Emet. injection Emet as <-. unfold dgtb. destruct (dltb (fst st) (Fin v)) eqn:L; [|exact R].
    inversion R as [d d' D e1 e2|u u' x U e1 e2|u w x W e1 e2]; subst; cbn [fst] in L; apply dltb_fin in L.
    + apply GLeft. left. reflexivity.
    + apply GLeft. right. lra.
    + apply GLeft. destruct W as [W|W]; [left; exact W|right; lra].
  - cbn [foldM]. unfold gauss_step at 1. assert (Ek : mmem k (no_key c prior) = mmem k prior) by (unfold mmem; rewrite no_key_find; destruct (String.eqb_spec k c); [congruence|reflexivity]). rewrite Ek.
    destruct (mmem k prior) eqn:Em; [|cbn [bind]; injection E1 as <-; exact (IH st st' r R E)]. apply bind_ok in E1 as (m & Emet & E1). injection E1 as <-.
    destruct (H1 k Em) as (v & Ev & Lv). rewrite Ev in Emet. injection Emet as <-. destruct (H2 k v Hk Em Ev) as (v' & Ev' & Sv & Lv'). rewrite Ev'. cbn [bind]. unfold dgtb in *.
    eapply IH; [|exact E].
    destruct (dltb (fst st) (Fin v)) eqn:L, (dltb (fst st') (Fin v')) eqn:L'; inversion R as [d d' D e1 e2|u u' x U e1 e2|u w x W e1 e2]; subst; cbn [fst] in L, L';
      try apply dltb_fin in L; try apply dltb_fin in L'; try apply dltb_fin_false in L; try apply dltb_fin_false in L'; try (exfalso; lra); try (apply GSame; lra); try exact R.
    all: try (exfalso; destruct W as [W|W]; lra). all: try (apply GLeft; right; lra).
Qed.
(** An answer other than [c] stays when [c] is no longer counted and the scores of the other classes all move by the same amount. *)
Theorem C168_shifted : forall prior metric metric' c K q a, shifted prior metric metric' c K ->
  gauss_predict prior metric q = Ok a -> a <> c -> gauss_predict (filter (fun kv => negb (String.eqb (fst kv) c)) prior) metric' q = Ok a.
Proof.
  intros prior metric metric' c K q a S E N. fold (no_key c prior). unfold gauss_predict in *. apply bind_ok in E as (st0 & E0 & E). apply bind_ok in E as (r & Er & E). injection E as <-.
  assert (F : forall ls d d', (d = d' \/ d = c) -> foldM (gauss_step prior metric) ls (dopp dbl_max, d) = Ok r ->
    exists r', foldM (gauss_step (no_key c prior) metric') (filter (fun k => negb (String.eqb k c)) ls) (dopp dbl_max, d') = Ok r' /\ snd r' = snd r).
  { intros ls d d' D Ef. fold low in Ef |- *. rewrite low_fin in Ef |- *. destruct (shift_fold prior metric metric' c K ls S _ (Fin (- floor), d') r (GNone c K d d' D) Ef) as (r' & Er' & R). exists r'. split; [exact Er'|].
    inversion R as [x x' X e1 e2|u u' x U e1 e2|u w x W e1 e2]; subst; cbn [snd] in *; [destruct X; congruence|reflexivity|congruence]. }
  destruct (composite q) as [ls|].
  - apply bind_ok in E0 as (d & Ed & E0). injection E0 as <-. rewrite Ed. cbn [bind fst snd] in *. rewrite <- (gauss_skip (no_key c prior) metric' c ls) by (unfold mmem; rewrite no_key_find, String.eqb_refl; reflexivity).
    destruct (F ls d d (or_introl eq_refl) Er) as (r' & -> & Es). cbn [bind]. rewrite Es. reflexivity.
  - injection E0 as <-. cbn [bind fst snd] in *. rewrite no_key_keys. destruct (F (mkeys prior) (cmax prior) (cmax (no_key c prior))) as (r' & -> & Es); [|exact Er|cbn [bind]; rewrite Es; reflexivity].
    destruct (string_dec (cmax prior) c) as [Hc|Hc]; [right; exact Hc|left; symmetry; apply cmax_without, Hc].
Qed.

(** ** Naive Bayes on texts *)
Definition text_score (f : Q -> Q) (s : tsample) (vs : list string) (n : nat) (c : string) : Q :=
  (f (tfrequency s c) + qsum (map (fun i => f (smoothed s c i (nth i vs EmptyString))) (seq 0 n)))%Q.
Lemma counted l x : mmem x (class_distribution l) = true <-> In x (map label l).
Proof.
  rewrite distribution_cofl. unfold mmem. rewrite cofl_find. rewrite (count_occ_In string_dec). destruct (count_occ string_dec (map label l) x); split; intros H; try reflexivity; try discriminate; lia.
Qed.
Lemma text_without c l s : Forall2 reads_text l s -> Forall2 reads_text (without c l) (filter (fun r => negb (String.eqb (fst r) c)) s).
Proof.
  unfold without. induction 1 as [|x r l s Hx H IH]; [constructor|]. cbn [filter]. rewrite <- (proj1 Hx). destruct (String.eqb (label x) c); cbn [negb]; [exact IH|constructor; assumption].
Qed.
Lemma tmembers_without c x s : x <> c -> tmembers (filter (fun r => negb (String.eqb (fst r) c)) s) x = tmembers s x.
Proof.
  intros Hx. unfold tmembers. induction s as [|r s IH]; [reflexivity|]. cbn [filter]. destruct (String.eqb_spec (fst r) c) as [E|E]; cbn [negb filter]; rewrite IH; [|reflexivity].
  destruct (String.eqb_spec (fst r) x); [congruence|reflexivity].
Qed.
(** With a logarithm that turns products into sums, and scores above the smallest double: an answer other than [c] stays when the instances of [c] are left out. *)
Theorem C168_bayes_texts : forall ln f std_vec n l s c q vs m a, log_reads ln f -> (forall x y, 0 < x -> 0 < y -> f (x * y) == f x + f y)%Q ->
  Forall2 reads_text l s -> Forall (fun r => length (snd r) = n) s -> 1 <= n -> attrs q = map ADisc vs -> length vs = n ->
  let s' := filter (fun r => negb (String.eqb (fst r) c)) s in let l' := filter (fun x => negb (String.eqb (label x) c)) l in l' <> [] ->
  (forall x, In x (map label l) -> - floor < text_score f s vs n x)%Q -> (forall x, In x (map label l') -> - floor < text_score f s' vs n x)%Q ->
  bayes_train std_vec bayes_empty l = Ok m -> bayes_predict ln m q = Ok a -> a <> c ->
  exists m', bayes_train std_vec bayes_empty l' = Ok m' /\ bayes_predict ln m' q = Ok a.
Proof.
  intros ln f std_vec n l s c q vs m a Hln Hadd R F Hn Hq Hv s' l' N' B B' Em Ea Ne. fold (without c l) in l'. assert (Nl : l <> []) by (intros E; apply N'; unfold l'; rewrite E; reflexivity).
  pose proof (text_without c l s R) as R'. fold l' s' in R'.
  assert (F' : Forall (fun r => length (snd r) = n) s') by (rewrite Forall_forall in *; intros r Hr; apply filter_In in Hr as [Hr _]; apply F, Hr).
  destruct (bayes_disc_spec ln f Hln std_vec n l s R F Nl Hn) as (m0 & E0 & HM). rewrite Em in E0. injection E0 as <-.
  destruct (bayes_disc_spec ln f Hln std_vec n l' s' R' F' N' Hn) as (m' & Em' & HM'). exists m'. split; [exact Em'|].
  pose proof (bayes_train_prior _ _ _ _ Em) as P. pose proof (bayes_train_prior _ _ _ _ Em') as P'. unfold bayes_predict in *. rewrite P in Ea. rewrite P'. unfold l'. rewrite prior_without.
  assert (T : (0 < qofn (length s))%Q). { apply qofn_pos. rewrite <- (Forall2_len _ _ _ R). destruct l; [congruence|cbn; lia]. }
  assert (T' : (0 < qofn (length s'))%Q). { apply qofn_pos. rewrite <- (Forall2_len _ _ _ R'). destruct l'; [congruence|cbn; lia]. }
  refine (C168_shifted (class_distribution l) (bayes_metric ln m q) _ c (f (qofn (length s) / qofn (length s'))%Q) q a _ Ea Ne). split.
  - intros x Hx. apply counted in Hx. destruct (HM q vs x Hq Hv Hx) as (r & Er & Vr). exists r. split; [exact Er|]. fold (text_score f s vs n x) in Vr. rewrite Vr. apply B, Hx.
  - intros x v Hxc Hx Ev. apply counted in Hx. assert (Hx' : In x (map label l')). { apply in_map_iff in Hx as (y & <- & Hy). apply in_map, filter_In. split; [exact Hy|]. destruct (String.eqb_spec (label y) c); [contradiction|reflexivity]. }
    destruct (HM q vs x Hq Hv Hx) as (r & Er & Vr). rewrite Er in Ev. injection Ev as ->. destruct (HM' q vs x Hq Hv Hx') as (r' & Er' & Vr'). exists r'. split; [exact Er'|].
    split; [|fold (text_score f s' vs n x) in Vr'; rewrite Vr'; apply B', Hx']. rewrite Vr, Vr'. unfold tfrequency, smoothed, values, s'. rewrite !(tmembers_without c x s Hxc). fold s'.
    assert (M : (0 < qofn (length (tmembers s x)))%Q).
    { apply qofn_pos. rewrite <- (Forall2_len _ _ _ (text_class l s R x)). pose proof (class_nonempty l x Hx). destruct (filter (of_class x) l); [congruence|cbn; lia]. }
    assert (K : (f (qofn (length (tmembers s x)) / qofn (length s')) == f (qofn (length (tmembers s x)) / qofn (length s)) + f (qofn (length s) / qofn (length s')))%Q).
    { rewrite <- Hadd by (apply Qlt_shift_div_l; [assumption|]; lra). apply (proj2 Hln). field. split; lra. }
    rewrite K. ring.
Qed.

(** ** Naive Bayes on numbers *)
Definition number_score (f : Q -> Q) (s : sample) (sd : string -> list Q) (v : list Q) (n : nat) (c : string) : Q :=
  (f (frequency s c) - (1#2) * qsum (map (fun j => (away s c v j / nth j (sd c) 0) * (away s c v j / nth j (sd c) 0)) (seq 0 n)))%Q.
Lemma numbers_without c l s : Forall2 reads_numbers l s -> Forall2 reads_numbers (without c l) (filter (fun r => negb (String.eqb (fst r) c)) s).
Proof.
  unfold without. induction 1 as [|x r l s Hx H IH]; [constructor|]. cbn [filter]. rewrite <- (proj1 Hx). destruct (String.eqb (label x) c); cbn [negb]; [exact IH|constructor; assumption].
Qed.
Lemma members_without c x (s : sample) : x <> c -> members (filter (fun r => negb (String.eqb (fst r) c)) s) x = members s x.
Proof.
  intros Hx. unfold members. induction s as [|r s IH]; [reflexivity|]. cbn [filter]. destruct (String.eqb_spec (fst r) c) as [E|E]; cbn [negb filter]; rewrite IH; [|reflexivity].
  destruct (String.eqb_spec (fst r) x); [congruence|reflexivity].
Qed.
(** The same for numbers, with non-zero deviations [sd] in every class. *)
Theorem C168_bayes_numbers : forall ln f std_vec n l s sd c q v m a, log_reads ln f -> (forall x y, 0 < x -> 0 < y -> f (x * y) == f x + f y)%Q ->
  Forall2 reads_numbers l s -> Forall (fun r => length (snd r) = n) s -> 1 <= n -> attrs q = map (fun z => ACont (Fin z)) v -> length v = n ->
  (forall x, In x (map label l) -> std_vec (filter (of_class x) l) = Ok (map Fin (sd x)) /\ length (sd x) = n /\ Forall (fun z => ~ z == 0)%Q (sd x)) ->
  let s' := filter (fun r => negb (String.eqb (fst r) c)) s in let l' := filter (fun x => negb (String.eqb (label x) c)) l in l' <> [] ->
  (forall x, In x (map label l) -> - floor < number_score f s sd v n x)%Q -> (forall x, In x (map label l') -> - floor < number_score f s' sd v n x)%Q ->
  bayes_train std_vec bayes_empty l = Ok m -> bayes_predict ln m q = Ok a -> a <> c ->
  exists m', bayes_train std_vec bayes_empty l' = Ok m' /\ bayes_predict ln m' q = Ok a.
Proof.
  intros ln f std_vec n l s sd c q v m a Hln Hadd R F Hn Hq Hv Hsd s' l' N' B B' Em Ea Ne. fold (without c l) in l'. assert (Nl : l <> []) by (intros E; apply N'; unfold l'; rewrite E; reflexivity).
  pose proof (numbers_without c l s R) as R'. fold l' s' in R'.
  assert (F' : Forall (fun r => length (snd r) = n) s') by (rewrite Forall_forall in *; intros r Hr; apply filter_In in Hr as [Hr _]; apply F, Hr).
  assert (Hl' : forall x, In x (map label l') -> In x (map label l) /\ x <> c).
  { intros x Hx. apply in_map_iff in Hx as (y & <- & Hy). apply filter_In in Hy as [Hy Nc]. split; [apply in_map, Hy|]. destruct (String.eqb_spec (label y) c); [discriminate|assumption]. }
  assert (Hsd' : forall x, In x (map label l') -> std_vec (filter (of_class x) l') = Ok (map Fin (sd x)) /\ length (sd x) = n /\ Forall (fun z => ~ z == 0)%Q (sd x)).
  { intros x Hx. destruct (Hl' x Hx) as [Hx1 Hx2]. unfold l'. rewrite of_class_without by exact Hx2. apply Hsd, Hx1. }
  destruct (bayes_cont_spec ln f Hln std_vec n l s R F Nl Hn sd Hsd) as (m0 & E0 & P & HM). rewrite Em in E0. injection E0 as <-.
  destruct (bayes_cont_spec ln f Hln std_vec n l' s' R' F' N' Hn sd Hsd') as (m' & Em' & P' & HM'). exists m'. split; [exact Em'|].
  unfold bayes_predict in *. rewrite P in Ea. rewrite P'. unfold l'. rewrite prior_without.
  assert (T : (0 < qofn (length s))%Q). { apply qofn_pos. rewrite <- (Forall2_len _ _ _ R). destruct l; [congruence|cbn; lia]. }
  assert (T' : (0 < qofn (length s'))%Q). { apply qofn_pos. rewrite <- (Forall2_len _ _ _ R'). destruct l'; [congruence|cbn; lia]. }
  refine (C168_shifted (class_distribution l) (bayes_metric ln m q) _ c (f (qofn (length s) / qofn (length s'))%Q) q a _ Ea Ne). split.
  - intros x Hx. apply counted in Hx. destruct (HM q v x Hq Hv Hx) as (r & Er & Vr). exists r. split; [exact Er|]. fold (number_score f s sd v n x) in Vr. rewrite Vr. apply B, Hx.
  - intros x w Hxc Hx Ev. apply counted in Hx. assert (Hx' : In x (map label l')). { apply in_map_iff in Hx as (y & <- & Hy). apply in_map, filter_In. split; [exact Hy|]. destruct (String.eqb_spec (label y) c); [contradiction|reflexivity]. }
    destruct (HM q v x Hq Hv Hx) as (r & Er & Vr). rewrite Er in Ev. injection Ev as ->. destruct (HM' q v x Hq Hv Hx') as (r' & Er' & Vr'). exists r'. split; [exact Er'|].
    split; [|fold (number_score f s' sd v n x) in Vr'; rewrite Vr'; apply B', Hx']. rewrite Vr, Vr'. unfold frequency, away, class_mean, s'. rewrite !(members_without c x s Hxc). fold s'.
    assert (M : (0 < qofn (length (members s x)))%Q).
    { apply qofn_pos. rewrite <- (Forall2_len _ _ _ (num_class l s R x)). pose proof (class_nonempty l x Hx). destruct (filter (of_class x) l); [congruence|cbn; lia]. }
    assert (K : (f (qofn (length (members s x)) / qofn (length s')) == f (qofn (length (members s x)) / qofn (length s)) + f (qofn (length s) / qofn (length s')))%Q).
    { rewrite <- Hadd by (apply Qlt_shift_div_l; [assumption|]; lra). apply (proj2 Hln). field. split; lra. }
    rewrite K. ring.
Qed.

(** A function that turns products into sums: how often 2 divides the number. *)
Fixpoint twos (p : positive) : Z := match p with xO p' => 1 + twos p' | _ => 0 end%Z.
Lemma twos_mul p : forall q, twos (p * q) = (twos p + twos q)%Z.
Proof.
  induction p as [p _|p IH|]; intros q; [|change (xO p * q)%positive with (xO (p * q)); cbn [twos]; rewrite IH; lia|reflexivity].
  cbn [twos]. rewrite Z.add_0_l. induction q as [q _|q IH|]; [reflexivity| |reflexivity]. rewrite Pos.mul_xO_r. cbn [twos]. rewrite IH. reflexivity.
Qed.
Definition log_two (x : Q) : Q := match Qnum x with Zpos p => inject_Z (twos p - twos (Qden x)) | _ => 0%Q end.
Definition ln_two (d : dbl) : dbl := match d with Fin x => Fin (log_two x) | d => d end.
Lemma ln_two_reads : log_reads ln_two log_two.
Proof.
  split; [intros p _; eexists; split; reflexivity|]. intros [a b] [c d] E. unfold Qeq in E. cbn in E. unfold log_two. cbn [Qnum Qden]. destruct a as [|a|a], c as [|c|c]; cbn in E; try discriminate; try reflexivity.
  injection E as E. apply (f_equal twos) in E. rewrite !twos_mul in E. replace (twos a - twos b)%Z with (twos c - twos d)%Z by lia. reflexivity.
Qed.
Lemma log_two_mul x y : (0 < x)%Q -> (0 < y)%Q -> (log_two (x * y) == log_two x + log_two y)%Q.
Proof.
  destruct x as [[|a|a] b], y as [[|c|c] d]; unfold Qlt; cbn; intros H1 H2; try discriminate. unfold log_two. cbn [Qnum Qden Qmult Z.mul]. rewrite !twos_mul, <- inject_Z_plus.
  replace (twos a + twos c - (twos b + twos d))%Z with (twos a - twos b + (twos c - twos d))%Z by lia. reflexivity.
Qed.
(** Three classes of texts: the answer "b" stays without "c", whose instances change every frequency. *)
Definition txt (c v : string) : instance := mkInst c [ADisc v] None.
Example C168_bayes_case : log_reads ln_two log_two /\ (forall x y, 0 < x -> 0 < y -> log_two (x * y) == log_two x + log_two y)%Q /\
  let l := [txt "a" "x"; txt "b" "y"; txt "c" "x"; txt "b" "y"; txt "b" "x"; txt "b" "y"; txt "c" "y"; txt "c" "x"] in
  exists m m', bayes_train (fun _ => Ok []) bayes_empty l = Ok m /\ bayes_train (fun _ => Ok []) bayes_empty (filter (fun x => negb (String.eqb (label x) "c")) l) = Ok m' /\
    bayes_predict ln_two m (txt "?" "y") = Ok "b" /\ bayes_predict ln_two m' (txt "?" "y") = Ok "b" /\
    exists u u', bayes_metric ln_two m (txt "?" "y") "b" = Ok u /\ bayes_metric ln_two m' (txt "?" "y") "b" = Ok u' /\ ~ deq u u'.
Proof.
  split; [exact ln_two_reads|]. split; [exact log_two_mul|]. do 2 eexists. repeat (split; [vm_compute; reflexivity|]). do 2 eexists. repeat (split; [vm_compute; reflexivity|]). intros H. vm_compute in H. discriminate H.
Qed.
Print Assumptions C168_shifted.
Print Assumptions C168_bayes_texts.
Print Assumptions C168_bayes_numbers.
