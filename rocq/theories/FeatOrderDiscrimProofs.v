(** The order of the features and the discriminants: proofs. *)
From Coq Require Import String ZArith QArith Bool Lia Lqa Permutation Arith List.
From Verif Require Import Base Spec BaseLemmas DblLemmas AttrModel AttrProofs DataSetModel InstanceListModel PartitionModel PerformanceModel
  StatSpec ListSpec ListProofs PartitionProofs CovProofs CovAllProofs PerformanceProofs DistanceModel GaussianModel GaussianSpec GaussianProofs DiscrimSpec DiscrimProofs
  BayesProofs InvSpec ModelInvSpec ModelInvProofs ModelInvDistProofs FeatOrderSpec FeatOrderProofs FeatOrderDetProofs.
Import ListNotations.
Local Open Scope list_scope.
Local Open Scope nat_scope.

Section Arr.
  Context (n : nat) (p : list nat) (Hp : arrangement n p).
  Let shape := repeat (@None nat) n.
  Let sg i := nth i p 0.
  Lemma numbers_row x : Forall2 fits shape (attrs x) -> attrs x = map (fun v => ACont (Fin v)) (row x) /\ length (row x) = n.
  Proof.
    intros Hz. destruct (shape_numbers n [x] (Forall_cons _ Hz (Forall_nil _))) as (A & B). inversion A as [|? ? ? ? Az _]; subst. split; [apply Az|exact (Forall_inv B)].
  Qed.
  Lemma fits_numbers vs : length vs = n -> forall x, attrs x = map (fun v => ACont (Fin v)) vs -> Forall2 fits shape (attrs x).
  Proof.
    intros L x ->. unfold shape. rewrite <- L. clear. induction vs as [|v vs IH]; [constructor|]. cbn [length repeat map]. constructor; [exists v; reflexivity|exact IH].
  Qed.
  Lemma row_of vs x : attrs x = map (fun v => ACont (Fin v)) vs -> row x = vs.
  Proof. intros E. unfold row. rewrite E, map_map. cbn [blk]. clear E. induction vs as [|v vs IH]; [reflexivity|]. cbn [map concat app]. rewrite IH. reflexivity. Qed.
  Lemma reorder_numbers x : Forall2 fits shape (attrs x) -> attrs (reorder p x) = map (fun v => ACont (Fin v)) (arrange 0%Q p (row x)).
  Proof.
    intros H. destruct (numbers_row x H) as (A & L). cbn [reorder attrs]. rewrite A. apply (arrange_map n p Hp). exact L.
  Qed.
  Lemma fits_reorder x : Forall2 fits shape (attrs x) -> Forall2 fits shape (attrs (reorder p x)) /\ row (reorder p x) = arrange 0%Q p (row x).
  Proof.
    intros H. pose proof (reorder_numbers x H) as A. split; [|apply row_of, A]. apply (fits_numbers (arrange 0%Q p (row x))); [apply (arrange_len n p Hp)|exact A].
  Qed.
  Lemma uniform_reorder l : uniform shape l -> uniform shape (map (reorder p) l) /\ sample_of (map (reorder p) l) = map (fun r => (fst r, arrange 0%Q p (snd r))) (sample_of l).
  Proof.
    intros U. split.
    - apply Forall_map. eapply Forall_impl; [|exact U]. intros x Hx. apply fits_reorder, Hx.
    - unfold sample_of. rewrite !map_map. apply map_ext_in. intros x Hx. cbn [fst snd label reorder]. f_equal. unfold uniform in U. rewrite Forall_forall in U. exact (proj2 (fits_reorder x (U x Hx))).
  Qed.
  Let ar (s : sample) : sample := map (fun r => (fst r, arrange 0%Q p (snd r))) s.
  Lemma coord_ar c v j : j < n -> coord (c, arrange 0%Q p v) j = coord (c, v) (sg j).
  Proof. intros H. unfold coord. cbn [snd]. apply (arrange_nth n p Hp), H. Qed.
  Lemma members_ar s c : members (ar s) c = ar (members s c).
  Proof. unfold members, ar. induction s as [|r s IH]; [reflexivity|]. cbn [map filter fst]. destruct (String.eqb (fst r) c); cbn [map]; rewrite IH; reflexivity. Qed.
  Lemma mean_ar s c j : j < n -> class_mean (ar s) c j = class_mean s c (sg j).
  Proof. intros H. unfold class_mean. rewrite members_ar. unfold ar. rewrite map_map. f_equal. apply map_ext. intros (c' & v). apply coord_ar, H. Qed.
  Lemma freq_ar s c : frequency (ar s) c = frequency s c.
  Proof. unfold frequency. rewrite members_ar. unfold ar. rewrite !map_length. reflexivity. Qed.
  Lemma cov_ar s c i j : i < n -> j < n -> class_cov (ar s) c i j = class_cov s c (sg i) (sg j).
  Proof.
    intros Hi Hj. unfold class_cov. rewrite !mean_ar, members_ar by assumption. unfold ar. rewrite map_map, map_length. f_equal. f_equal. apply map_ext. intros (c' & v). cbn [fst snd]. rewrite !coord_ar by assumption. reflexivity.
  Qed.
  Lemma pooled_ar s i j : i < n -> j < n -> pooled_cov (ar s) i j = pooled_cov s (sg i) (sg j).
  Proof.
    intros Hi Hj. unfold pooled_cov. replace (classes (ar s)) with (classes s) by (unfold classes, ar; rewrite map_map; reflexivity).
    replace (length (ar s)) with (length s) by (unfold ar; rewrite map_length; reflexivity).
    assert (E : map (fun r => (coord r i - class_mean (ar s) (fst r) i) * (coord r j - class_mean (ar s) (fst r) j))%Q (ar s) =
                map (fun r => (coord r (sg i) - class_mean s (fst r) (sg i)) * (coord r (sg j) - class_mean s (fst r) (sg j)))%Q s); [|rewrite E; reflexivity].
    etransitivity; [apply map_map|]. apply map_ext. intros (c' & v). cbn [fst snd]. rewrite !coord_ar, !mean_ar by assumption. reflexivity.
  Qed.
  Lemma away_ar s c v j : j < n -> away (ar s) c (arrange 0%Q p v) j = away s c v (sg j).
  Proof. intros H. unfold away. rewrite mean_ar by exact H. unfold sg. rewrite (arrange_nth n p Hp) by exact H. reflexivity. Qed.
  Lemma invertible_ar (w w' : nat -> nat -> Q) : (forall i j, i < n -> j < n -> (w' i j == w (sg i) (sg j))%Q) -> invertible n w -> invertible n w'.
  Proof.
    intros Hw (s & Hs). exists (fun i j => s (sg i) (sg j)). assert (K : finv n w' (fun i j => s (sg i) (sg j))); [|exact K].
    apply (finv_ext n (fun i j => w (sg i) (sg j))); [intros; symmetry; apply Hw; assumption|]. exact (finv_sg n p Hp w s Hs).
  Qed.
  Section Train.
    Context (inverse : list (list dbl) -> list (list dbl)) (determinant : list (list dbl) -> dbl) (ln : dbl -> dbl) (f : Q -> Q) (Hln : log_reads ln f).
    Context (l : ilist) (HU : uniform shape l) (Hn : l <> []).
    Let s := sample_of l.
    Let l' := map (reorder p) l.
    Context (H2 : forall c, In c (map label l) -> 2 <= length (members s c)) (HI : inverts n inverse).
    Let dn : dim shape = n.
    Proof. apply dim_repeat. Qed.
    Lemma labels_l' : map label l' = map label l.
    Proof. unfold l'. rewrite map_map. reflexivity. Qed.
    Lemma sample_l' : sample_of l' = ar s.
    Proof. exact (proj2 (uniform_reorder l HU)). Qed.
    Lemma ne_l' : l' <> [].
    Proof. unfold l'. destruct l; [congruence|discriminate]. Qed.
    Lemma two_l' : forall c, In c (map label l') -> 2 <= length (members (sample_of l') c).
    Proof. intros c Hc. rewrite labels_l' in Hc. rewrite sample_l', members_ar. unfold ar. rewrite map_length. apply H2, Hc. Qed.
    Lemma lda_reorder : invertible n (pooled_cov s) ->
      exists m m', lda_train inverse ln lda_empty l = Ok m /\ lda_train inverse ln lda_empty l' = Ok m' /\
      forall q, Forall2 fits shape (attrs q) -> forall c, In c (map label l) ->
        exists r r', lda_metric m q c = Ok (Fin r) /\ lda_metric m' (reorder p q) c = Ok (Fin r') /\ (r == r')%Q.
    Proof.
      intros HV. destruct (uniform_reorder l HU) as (HU' & SS). fold l' in HU', SS. fold s in SS. fold (ar s) in SS. pose proof ne_l' as Hn'. pose proof two_l' as H2'.
      destruct (pooled_spec shape l HU Hn H2) as (m0 & E0 & V0). destruct (ism_list _ _ _ V0) as (P & -> & VP).
      destruct (pooled_spec shape l' HU' Hn' H2') as (m0' & E0' & V0'). destruct (ism_list _ _ _ V0') as (P' & -> & VP').
      fold s in VP. rewrite SS in VP'. rewrite dn in VP, VP'.
      assert (HP : forall i j, i < n -> j < n -> (pooled_cov (ar s) i j == pooled_cov s (sg i) (sg j))%Q) by (intros; rewrite pooled_ar by assumption; reflexivity).
      destruct (inverts_entries n inverse P _ HI VP HV) as (S & ES & VS). destruct (inverts_entries n inverse P' _ HI VP' (invertible_ar _ _ HP HV)) as (S' & ES' & VS').
      destruct (lda_spec inverse ln f Hln shape l HU Hn P S H2 E0) as (m & Em & HM); try assumption; try (rewrite dn; assumption).
      destruct (lda_spec inverse ln f Hln shape l' HU' Hn' P' S' H2' E0') as (m' & Em' & HM'); try assumption; try (rewrite dn; assumption); [rewrite dn, SS; exact VP'|].
      exists m, m'. split; [exact Em|]. split; [exact Em'|]. intros q Hq c Hc. destruct (fits_reorder q Hq) as (Hq' & Rq).
      destruct (fits_vals shape q Hq) as (Vq & Lq). destruct (fits_vals shape (reorder p q) Hq') as (Vq' & Lq').
      destruct (HM q (row q) c Vq Lq Hc) as (r & Er & Hr). destruct (HM' (reorder p q) (row (reorder p q)) c Vq' Lq') as (r' & Er' & Hr'); [rewrite labels_l'; exact Hc|].
      exists r, r'. split; [exact Er|]. split; [exact Er'|]. rewrite Hr, Hr', SS, Rq, dn, freq_ar. fold s.
      rewrite (quad_sg n p Hp (pooled_cov s) (pooled_cov (ar s)) P P' S S' (away s c (row q)) (away (ar s) c (arrange 0%Q p (row q)))); try assumption; [|apply pooled_sym|intros i Hi; rewrite away_ar by exact Hi; reflexivity].
      rewrite (quad_sg n p Hp (pooled_cov s) (pooled_cov (ar s)) P P' S S' (fun j => nth j (row q) 0%Q) (fun j => nth j (arrange 0%Q p (row q)) 0%Q)); try assumption; [reflexivity|apply pooled_sym|].
      intros i Hi. rewrite (arrange_nth n p Hp) by exact Hi. reflexivity.
    Qed.
  End Train.
  Section Qda.
    Context (inverse : list (list dbl) -> list (list dbl)) (determinant : list (list dbl) -> dbl) (ln : dbl -> dbl) (f : Q -> Q) (Hln : log_reads ln f) (HI : inverts n inverse) (HD : finds_determinant n determinant).
    (** what training needs to know of each class *)
    Definition class_values (l : ilist) (c : string) (t : list (list Q) * list (list Q) * Q) : Prop :=
      (exists avg, cont_average_all (filter (of_class c) l) = Ok avg /\ covariance avg (filter (of_class c) l) = Ok (map (map Fin) (fst (fst t)))) /\
      entries n (fst (fst t)) (class_cov (sample_of l) c) /\
      (inverse (map (map Fin) (fst (fst t))) = map (map Fin) (snd (fst t)) /\ inverse_of n (fst (fst t)) (snd (fst t)) /\ determinant (map (map Fin) (fst (fst t))) = Fin (snd t) /\ (0 < snd t)%Q) /\
      (snd t == det n (class_cov (sample_of l) c))%Q.
    Lemma qda_values l : uniform shape l -> l <> [] -> (forall c, In c (map label l) -> 2 <= length (members (sample_of l) c)) ->
      (forall c, In c (map label l) -> invertible n (class_cov (sample_of l) c) /\ (0 < det n (class_cov (sample_of l) c))%Q) ->
      exists m t, qda_train inverse determinant ln qda_empty l = Ok m /\ (forall c, In c (map label l) -> class_values l c (t c)) /\
      forall q, Forall2 fits shape (attrs q) -> forall c, In c (map label l) -> exists r, qda_metric m q c = Ok (Fin r) /\
        (r == f (frequency (sample_of l) c) - (1#2) * f (snd (t c)) - (1#2) * quad n (snd (fst (t c))) (away (sample_of l) c (row q)))%Q.
    Proof.
      intros HU Hn H2 HV. assert (dn : dim shape = n) by apply dim_repeat.
      assert (K : forall c, exists t, In c (map label l) -> class_values l c t).
      { intros c. destruct (in_dec string_dec c (map label l)) as [Hc|Hc]; [|exists ([], [], 0%Q); intros; contradiction].
        destruct (class_mean_avg shape l c HU Hc) as (avg & Ea & Va). destruct (class_cov_cov shape l c avg HU Hc (H2 c Hc) Va) as (cov & Ec & Vc).
        destruct (ism_list _ _ _ Vc) as (P & -> & VP). rewrite dn in VP. destruct (HV c Hc) as (I0 & D0). destruct (inverts_entries n inverse P _ HI VP I0) as (S & ES & VS).
        destruct (HD P (proj1 VP)) as (D & ED & VD).
        assert (ED' : (D == det n (class_cov (sample_of l) c))%Q) by (rewrite VD; apply det_ext; exact (proj2 VP)).
        exists (P, S, D). intros _. unfold class_values. cbn [fst snd]. split; [exists avg; split; assumption|]. split; [exact VP|]. split; [|exact ED']. split; [exact ES|]. split; [exact VS|]. split; [exact ED|]. rewrite ED'. exact D0. }
      assert (G : forall cs, exists t, forall c, In c cs -> In c (map label l) -> class_values l c (t c)).
      { induction cs as [|c cs (t & Ht)]; [exists (fun _ => ([], [], 0%Q)); intros ? []|]. destruct (K c) as (v & Hv). exists (fun c' => if String.eqb c' c then v else t c').
        intros c' Hc' Hl. destruct (String.eqb_spec c' c) as [->|Ne]; [apply Hv, Hl|]. apply Ht; [destruct Hc' as [->|Hc']; [congruence|exact Hc']|exact Hl]. }
      destruct (G (map label l)) as (t & Ht0). assert (Ht : forall c, In c (map label l) -> class_values l c (t c)) by (intros c Hc; apply Ht0; exact Hc).
      destruct (qda_spec inverse determinant ln f Hln shape l HU Hn (fun c => fst (fst (t c))) (fun c => snd (fst (t c))) (fun c => snd (t c)) H2) as (m & Em & HM);
        [intros c Hc; apply (Ht c Hc)|intros c Hc; rewrite dn; apply (Ht c Hc)|intros c Hc; rewrite dn; apply (Ht c Hc)|].
      exists m, t. split; [exact Em|]. split; [exact Ht|]. intros q Hq c Hc. destruct (fits_vals shape q Hq) as (Vq & Lq). destruct (HM q (row q) c Vq Lq Hc) as (r & Er & Hr). rewrite dn in Hr. exists r. split; assumption.
    Qed.
    Lemma qda_reorder l : uniform shape l -> l <> [] -> (forall c, In c (map label l) -> 2 <= length (members (sample_of l) c)) ->
      (forall c, In c (map label l) -> invertible n (class_cov (sample_of l) c) /\ (0 < det n (class_cov (sample_of l) c))%Q) ->
      exists m m', qda_train inverse determinant ln qda_empty l = Ok m /\ qda_train inverse determinant ln qda_empty (map (reorder p) l) = Ok m' /\
      forall q, Forall2 fits shape (attrs q) -> forall c, In c (map label l) ->
        exists r r', qda_metric m q c = Ok (Fin r) /\ qda_metric m' (reorder p q) c = Ok (Fin r') /\ (r == r')%Q.
    Proof.
      intros HU Hn H2 HV. destruct (uniform_reorder l HU) as (HU' & SS). fold (ar (sample_of l)) in SS. set (s := sample_of l) in *.
      assert (EL : map label (map (reorder p) l) = map label l) by (rewrite map_map; reflexivity).
      assert (HC : forall c i j, i < n -> j < n -> (class_cov (ar s) c i j == class_cov s c (sg i) (sg j))%Q) by (intros; rewrite cov_ar by assumption; reflexivity).
      assert (HDT : forall c, (det n (class_cov (ar s) c) == det n (class_cov s c))%Q).
      { intros c. rewrite (det_ext n _ _ (HC c)). exact (det_sg n p Hp (class_cov s c)). }
      destruct (qda_values l HU Hn H2 HV) as (m & t & Em & Ht & HM). destruct (qda_values (map (reorder p) l) HU') as (m' & t' & Em' & Ht' & HM').
      - destruct l; [congruence|discriminate].
      - intros c Hc. rewrite EL in Hc. rewrite SS, members_ar. unfold ar. rewrite map_length. apply H2, Hc.
      - intros c Hc. rewrite EL in Hc. destruct (HV c Hc) as (I0 & D0). rewrite SS. split; [exact (invertible_ar _ _ (HC c) I0)|]. rewrite HDT. exact D0.
      - exists m, m'. split; [exact Em|]. split; [exact Em'|]. intros q Hq c Hc. destruct (fits_reorder q Hq) as (Hq' & Rq). assert (Hc' : In c (map label (map (reorder p) l))) by (rewrite EL; exact Hc).
        destruct (HM q Hq c Hc) as (r & Er & Hr). destruct (HM' (reorder p q) Hq' c Hc') as (r' & Er' & Hr'). exists r, r'. split; [exact Er|]. split; [exact Er'|].
        destruct (Ht c Hc) as (_ & VP & (_ & VS & _ & _) & ED). destruct (Ht' c Hc') as (_ & VP' & (_ & VS' & _ & _) & ED'). rewrite SS in VP', ED', Hr'. fold s in VP, ED, Hr.
        rewrite Hr, Hr', Rq, freq_ar. rewrite (proj2 Hln (snd (t' c)) (snd (t c))) by (rewrite ED', ED; apply HDT).
        rewrite (quad_sg n p Hp (class_cov s c) (class_cov (ar s) c) _ _ _ _ (away s c (row q)) (away (ar s) c (arrange 0%Q p (row q))) (HC c) (cov_sym s c) VP VP' VS VS'); [reflexivity|].
        intros i Hi. rewrite away_ar by exact Hi. reflexivity.
    Qed.
  End Qda.
End Arr.
