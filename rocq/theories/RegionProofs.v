(** The regions in which a classifier gives one answer: proofs. *)
From Coq Require Import String ZArith QArith Bool Lia Lqa Psatz Permutation Arith List.
From Verif Require Import Base Spec BaseLemmas DblLemmas AttrModel AttrProofs DataSetModel InstanceListModel PartitionModel PerformanceModel StatSpec ListSpec ListProofs
  DistanceModel DistanceSpec DistanceProofs GaussianModel GaussianSpec GaussianProofs GaussianProps ModelInvSpec RegionSpec.
Import ListNotations.
Local Open Scope string_scope.
Local Open Scope list_scope.
Local Open Scope nat_scope.

(** * the first best label *)
Lemma split_first {A} (c : A) : forall p p' q q', p ++ c :: q = p' ++ c :: q' -> ~ In c p -> ~ In c p' -> p = p'.
Proof.
  induction p as [|a p IH]; intros [|b p'] q q' E N N'; cbn in E; [reflexivity| | |].
  - injection E as -> _. exfalso. apply N'. left. reflexivity.
  - injection E as -> _. exfalso. apply N. left. reflexivity.
  - injection E as -> E. f_equal. apply (IH p' q q' E); intros H; [apply N|apply N']; right; exact H.
Qed.
Lemma split_order {A} (c d : A) : forall p p' q q', p ++ c :: q = p' ++ d :: q' -> ~ In d p -> c <> d -> In c p'.
Proof.
  induction p as [|a p IH]; intros [|b p'] q q' E N Ne; cbn in E.
  - injection E as E _. contradiction.
  - injection E as -> _. left. reflexivity.
  - injection E as -> _. exfalso. apply N. left. reflexivity.
  - injection E as -> E. right. apply (IH p' q q' E); [|exact Ne]. intros H. apply N. right. exact H.
Qed.
Lemma floor_ltb r : above_floor r -> dltb (dopp dbl_max) (Fin r) = true.
Proof. intros H. unfold dbl_max. cbn [dopp dofZ]. apply dltb_fin. exact H. Qed.
Lemma gauss_first prior metric q c : gauss_predict prior metric q = Ok c -> (forall c, In c (mkeys prior) -> exists r, metric c = Ok (Fin r) /\ above_floor r) ->
  (exists c', In c' (candidates (mkeys prior) q) /\ In c' (mkeys prior)) ->
  exists r before after, metric c = Ok (Fin r) /\ In c (mkeys prior) /\ candidates (mkeys prior) q = before ++ c :: after /\
    (forall c' r', In c' before -> In c' (mkeys prior) -> metric c' = Ok (Fin r') -> (r' < r)%Q) /\ (forall c' r', In c' after -> In c' (mkeys prior) -> metric c' = Ok (Fin r') -> (r' <= r)%Q).
Proof.
  intros E HM (c0 & H1 & H2). destruct (HM c0 H2) as (r0 & E0 & F0). destruct (C49_argmax prior metric q c E) as (v & be & af & Ev & Hc & _ & Ec & Hb & Ha); [exists c0, (Fin r0); auto using floor_ltb|].
  destruct (HM c Hc) as (r & Er & _). rewrite Er in Ev. injection Ev as <-. exists r, be, af. split; [exact Er|]. split; [exact Hc|]. split; [exact Ec|]. split; intros c' r' Hi Hk E'.
  - destruct (Hb c' (Fin r') Hi Hk E') as [N|L]; [discriminate N|]. apply dltb_fin in L. exact L.
  - apply dltb_fin_false. exact (Ha c' (Fin r') Hi Hk E').
Qed.
Lemma gauss_none prior metric q c : gauss_predict prior metric q = Ok c -> (forall c', In c' (candidates (mkeys prior) q) -> ~ In c' (mkeys prior)) ->
  match composite q with Some ls => atn ls 0 = Ok c | None => cmax prior = c end.
Proof.
  intros E HN. unfold gauss_predict in E. apply bind_ok in E as (st0 & E0 & E). apply bind_ok in E as (st & Ef & E). injection E as <-. unfold candidates in HN.
  destruct (composite q) as [ls|].
  - apply bind_ok in E0 as (d & Ed & E0). injection E0 as <-. cbn [fst snd] in Ef. apply gauss_fold_in in Ef as [->|[Hi Hm]]; [exact Ed|]. exfalso. apply (HN _ Hi), mmem_keys, Hm.
  - injection E0 as <-. cbn [fst snd] in Ef. apply gauss_fold_in in Ef as [->|[Hi Hm]]; [reflexivity|]. exfalso. apply (HN _ Hi), mmem_keys, Hm.
Qed.
Lemma gauss_between prior m1 m2 m3 x y z c t k : (0 <= t <= 1)%Q -> composite x = composite z -> composite y = composite z ->
  (forall c, In c (mkeys prior) -> exists r1 r2 r3, m1 c = Ok (Fin r1) /\ m2 c = Ok (Fin r2) /\ m3 c = Ok (Fin r3) /\ above_floor r1 /\ above_floor r2 /\ above_floor r3 /\ (r3 == (1 - t) * r1 + t * r2 + k)%Q) ->
  gauss_predict prior m1 x = Ok c -> gauss_predict prior m2 y = Ok c -> gauss_predict prior m3 z = Ok c.
Proof.
  intros Ht Cx Cy HM Ex Ey.
  assert (CC : candidates (mkeys prior) x = candidates (mkeys prior) z /\ candidates (mkeys prior) y = candidates (mkeys prior) z) by (unfold candidates; rewrite Cx, Cy; auto). destruct CC as (CCx & CCy).
  destruct (C49_answers prior m3 z) as (d & Ez).
  { intros Ne. unfold gauss_predict in Ex. rewrite Cx, Ne in Ex. discriminate Ex. }
  { intros c' Hc'. destruct (HM c' Hc') as (_ & _ & r3 & _ & _ & E3 & _). exists (Fin r3). exact E3. }
  rewrite Ez. f_equal. destruct (existsb (fun c' => mem_str c' (mkeys prior)) (candidates (mkeys prior) z)) eqn:Eb.
  - apply existsb_exists in Eb as (c' & H1 & H2). apply mem_str_in in H2. assert (HE : exists c', In c' (candidates (mkeys prior) z) /\ In c' (mkeys prior)) by eauto.
    destruct (gauss_first prior m1 x c Ex) as (r1 & b1 & a1 & E1 & Hc & S1 & B1 & A1). { intros e He. destruct (HM e He) as (q1 & _ & _ & Q1 & _ & _ & F1 & _). eauto. } { rewrite CCx. exact HE. }
    destruct (gauss_first prior m2 y c Ey) as (r2 & b2 & a2 & E2 & _ & S2 & B2 & A2). { intros e He. destruct (HM e He) as (_ & q1 & _ & _ & Q1 & _ & _ & F1 & _). eauto. } { rewrite CCy. exact HE. }
    destruct (gauss_first prior m3 z d Ez) as (r3 & b3 & a3 & E3 & Hd & S3 & B3 & A3). { intros e He. destruct (HM e He) as (_ & _ & q1 & _ & _ & Q1 & _ & _ & F1 & _). eauto. } { exact HE. }
    rewrite CCx in S1. rewrite CCy in S2.
    assert (N1 : ~ In c b1) by (intros Hi; specialize (B1 c r1 Hi Hc E1); lra). assert (N2 : ~ In c b2) by (intros Hi; specialize (B2 c r2 Hi Hc E2); lra). assert (N3 : ~ In d b3) by (intros Hi; specialize (B3 d r3 Hi Hd E3); lra).
    rewrite S1 in S2. pose proof (split_first c b1 b2 a1 a2 S2 N1 N2) as Eb2. subst b2. destruct (string_dec d c) as [|Ne]; [assumption|exfalso].
    destruct (HM c Hc) as (q1 & q2 & q3 & Q1 & Q2 & Q3 & _ & _ & _ & Mc). rewrite Q1 in E1. rewrite Q2 in E2. injection E1 as ->. injection E2 as ->.
    destruct (HM d Hd) as (p1 & p2 & p3 & P1 & P2 & P3 & _ & _ & _ & Md). rewrite P3 in E3. injection E3 as ->.
    rewrite S1 in S3. destruct (in_dec string_dec d b1) as [Hb|Hb].
    + pose proof (B1 d p1 Hb Hd P1) as L1. pose proof (B2 d p2 Hb Hd P2) as L2.
      assert (L3 : (q3 <= r3)%Q).
      { assert (Hin : In c (b3 ++ d :: a3)) by (rewrite <- S3; apply in_elt). apply in_app_or in Hin as [Hin|[->|Hin]]; [apply Qlt_le_weak, (B3 c q3 Hin Hc Q3)|contradiction|exact (A3 c q3 Hin Hc Q3)]. }
      rewrite Mc, Md in L3. destruct (Qlt_le_dec 0 t) as [Tp|Tp]; [nra|]. assert (T0 : (t == 0)%Q) by lra. rewrite T0 in L3. lra.
    + pose proof (split_order c d b1 b3 a1 a3 S3 Hb ltac:(congruence)) as Hin. pose proof (B3 c q3 Hin Hc Q3) as L3.
      assert (Hd1 : In d a1) by (assert (Hz : In d (b1 ++ c :: a1)) by (rewrite S3; apply in_elt); apply in_app_or in Hz as [Hz|[->|Hz]]; [contradiction|contradiction|exact Hz]).
      assert (Hd2 : In d a2) by (assert (Hz : In d (b1 ++ c :: a2)) by (rewrite <- S2, S3; apply in_elt); apply in_app_or in Hz as [Hz|[->|Hz]]; [contradiction|contradiction|exact Hz]).
      pose proof (A1 d p1 Hd1 Hd P1) as L1. pose proof (A2 d p2 Hd2 Hd P2) as L2. rewrite Mc, Md in L3. nra.
  - assert (HN : forall c', In c' (candidates (mkeys prior) z) -> ~ In c' (mkeys prior)).
    { intros c' H1 H2. apply mem_str_in in H2. assert (existsb (fun c' => mem_str c' (mkeys prior)) (candidates (mkeys prior) z) = true) by (apply existsb_exists; exists c'; auto). congruence. }
    pose proof (gauss_none prior m3 z d Ez HN) as Gz. rewrite <- CCx in HN. pose proof (gauss_none prior m1 x c Ex HN) as Gx. rewrite Cx in Gx. destruct (composite z) as [ls|]; [rewrite Gz in Gx; injection Gx as ->; reflexivity|congruence].
Qed.

(** * Sums of mixtures *)
From Verif Require Import TreeSpec TreeProofs TreeModel TreeGrowProofs CovAllProofs PerformanceProofs DiscrimSpec DiscrimProofs ModelInvProofs ModelInvDistProofs CoincideProofs CoincideGaussProofs KernelViewProps KernelProofs SolverModel SvmModel NetModel NetSpec NetProofs NetProps.
Lemma mixed_sum {A} t (f g h : A -> Q) l : (forall x, In x l -> mixed t (f x) (g x) (h x)) -> mixed t (qsum (map f l)) (qsum (map g l)) (qsum (map h l)).
Proof.
  unfold mixed. induction l as [|x l IH]; intros H; cbn [map]; [cbn; ring|]. change (qsum (?x :: ?y)) with (x + qsum y)%Q. rewrite (H x (or_introl eq_refl)), IH by (intros y Hy; apply H; right; exact Hy). ring.
Qed.
Lemma sum_zip {A} (f g h : A -> Q) l : (forall x, In x l -> (h x == f x + g x)%Q) -> (qsum (map h l) == qsum (map f l) + qsum (map g l))%Q.
Proof.
  induction l as [|x l IH]; intros H; cbn [map]; [cbn; ring|]. change (qsum (?x :: ?y)) with (x + qsum y)%Q. rewrite (H x (or_introl eq_refl)), IH by (intros y Hy; apply H; right; exact Hy). ring.
Qed.
Lemma sum_scale {A} k (f : A -> Q) l : (qsum (map (fun x => k * f x) l) == k * qsum (map f l))%Q.
Proof. induction l as [|x l IH]; cbn [map]; [cbn; ring|]. change (qsum (?x :: ?y)) with (x + qsum y)%Q. rewrite IH. ring. Qed.
Lemma row_vals v x : has_row v x -> inst_vals x = map Fin v.
Proof. apply vals_numbers. Qed.

(** * Linear discriminants *)
Definition lda_term (S : list (list Q)) (m : nat -> Q) (v : nat -> Q) (i j : nat) : Q := ((1#2) * mget S i j * (v i * m j + m i * v j - m i * m j))%Q.
Lemma lda_linear d S s c v : (- (1#2) * quad d S (away s c v) + (1#2) * quad d S (fun j => nth j v 0) == ssum d (fun i => ssum d (fun j => lda_term S (class_mean s c) (fun j => nth j v 0) i j)))%Q.
Proof.
  unfold quad. symmetry. rewrite <- !sum_scale. apply sum_zip. intros i _. rewrite <- !sum_scale. apply sum_zip. intros j _. unfold lda_term, away. ring.
Qed.
Lemma lda_mixed t d S s c u v w : mixed_rows t u v w -> length w = d ->
  mixed t (ssum d (fun i => ssum d (fun j => lda_term S (class_mean s c) (fun j => nth j u 0) i j)))%Q (ssum d (fun i => ssum d (fun j => lda_term S (class_mean s c) (fun j => nth j v 0) i j)))%Q
    (ssum d (fun i => ssum d (fun j => lda_term S (class_mean s c) (fun j => nth j w 0) i j)))%Q.
Proof.
  intros (Lu & Lv & H) Lw. apply mixed_sum. intros i Hi. apply mixed_sum. intros j Hj. apply in_seq in Hi. apply in_seq in Hj. pose proof (H i ltac:(lia)) as Mi. pose proof (H j ltac:(lia)) as Mj. unfold mixed, lda_term in *. rewrite Mi, Mj. ring.
Qed.

(** * Trees *)
Lemma cut_side v p q r : ((p <= r /\ r <= q) \/ (q <= r /\ r <= p))%Q ->
  (dleb (Fin r) v = dleb (Fin p) v /\ dgtb (Fin r) v = dgtb (Fin p) v) \/ (dleb (Fin r) v = dleb (Fin q) v /\ dgtb (Fin r) v = dgtb (Fin q) v).
Proof.
  intros H. destruct v as [v| | |]; try (left; split; reflexivity). unfold dgtb.
  assert (K : forall a b : Q, (a <= v)%Q -> (b <= v)%Q -> dleb (Fin a) (Fin v) = dleb (Fin b) (Fin v) /\ dltb (Fin v) (Fin a) = dltb (Fin v) (Fin b)).
  { intros a b Ha Hb. rewrite (proj2 (dleb_fin a v) Ha), (proj2 (dleb_fin b v) Hb), (proj2 (dltb_fin_false v a) Ha), (proj2 (dltb_fin_false v b) Hb). auto. }
  assert (L : forall a b : Q, (v < a)%Q -> (v < b)%Q -> dleb (Fin a) (Fin v) = dleb (Fin b) (Fin v) /\ dltb (Fin v) (Fin a) = dltb (Fin v) (Fin b)).
  { assert (Le : forall a, (v < a)%Q -> dleb (Fin a) (Fin v) = false) by (intros a Ha; destruct (dleb (Fin a) (Fin v)) eqn:E; [apply dleb_fin in E; lra|reflexivity]).
    intros a b Ha Hb. rewrite (Le a Ha), (Le b Hb), (proj2 (dltb_fin v a) Ha), (proj2 (dltb_fin v b) Hb). auto. }
  destruct (Qlt_le_dec v r) as [Hr|Hr]; destruct H as [[H1 H2]|[H1 H2]].
  - right. apply L; lra.
  - left. apply L; lra.
  - left. apply K; lra.
  - right. apply K; lra.
Qed.
Lemma box_feature x y z k a b c : in_box x y z -> feature x k a -> feature y k b -> feature z k c -> between_attr a b c.
Proof. intros (_ & _ & _ & _ & H) (_ & Fa) (_ & Fb) (_ & Fc). exact (H _ a b c Fa Fb Fc). Qed.
Lemma feature_len x y k a : length (attrs x) = length (attrs y) -> feature x k a -> exists b, feature y k b.
Proof.
  intros L (R & E). assert (Z.to_nat k < length (attrs x)) by (apply nth_error_Some; congruence). destruct (nth_error (attrs y) (Z.to_nat k)) as [b|] eqn:F; [exists b; split; [rewrite <- L; exact R|exact F]|]. apply nth_error_None in F. lia.
Qed.
Lemma box_has x y z k c : in_box x y z -> feature z k c -> (exists a, feature x k a) /\ exists b, feature y k b.
Proof. intros (_ & _ & Lx & Ly & _) F. split; apply (feature_len z _ k c); auto. Qed.
Lemma box_has_z x y z k a : in_box x y z -> feature x k a -> exists c, feature z k c.
Proof. intros (_ & _ & Lx & Ly & _) F. apply (feature_len x _ k a); auto. Qed.
Lemma feature_eq x k a b : feature x k a -> feature x k b -> a = b.
Proof. intros (_ & E) (_ & F). congruence. Qed.
Lemma box_satisfied x y z c : in_box x y z -> satisfied c x -> satisfied c y -> satisfied c z.
Proof.
  intros B (a & Fa & Ha) (b & Fb & Hb). destruct (box_has_z x y z _ _ B Fa) as (e & Fe). exists e. split; [exact Fe|]. destruct (box_feature x y z _ _ _ _ B Fa Fb Fe) as [->|[->|(p & q & r & -> & -> & -> & H)]]; [exact Ha|exact Hb|].
  destruct (c_value c) as [[v|v|s i m|v]|]; try contradiction; try discriminate Ha.
  - destruct Ha as [->|(s' & m' & N)]; [left; reflexivity|discriminate N].
  - destruct Ha as (p' & Ep & Ha). destruct Hb as (q' & Eq & Hb). injection Ep as <-. injection Eq as <-. exists (Fin r). split; [reflexivity|].
    destruct (cut_side v p q r H) as [[S1 S2]|[S1 S2]]; unfold dgtb in S2; destruct (c_cmp c); congruence || contradiction.
Qed.
Lemma box_unsatisfied x y z c : in_box x y z -> ~ satisfied c x -> ~ satisfied c y -> ~ satisfied c z.
Proof.
  intros B Nx Ny (e & Fe & He). destruct (box_has x y z _ _ B Fe) as ((a & Fa) & (b & Fb)). destruct (box_feature x y z _ _ _ _ B Fa Fb Fe) as [->|[->|(p & q & r & -> & -> & -> & H)]].
  - apply Nx. exists a. auto.
  - apply Ny. exists b. auto.
  - destruct (c_value c) as [[v|v|s i m|v]|] eqn:Ev; try contradiction; try discriminate He.
    + destruct He as [->|(s' & m' & N)]; [|discriminate N]. apply Nx. eexists. split; [exact Fa|]. rewrite Ev. left. reflexivity.
    + destruct He as (r' & Er & He). injection Er as <-. destruct (cut_side v p q r H) as [[S1 S2]|[S1 S2]]; unfold dgtb in S2; [apply Nx|apply Ny]; eexists; (split; [eassumption|]); rewrite Ev; eexists; (split; [reflexivity|]); destruct (c_cmp c); congruence || contradiction.
Qed.
Lemma box_passes x y z : in_box x y z -> forall p t, passes t p x -> passes t p y -> passes t p z.
Proof.
  intros B. induction p as [|i p IH]; intros t Hx Hy; [exact I|]. cbn [passes] in *. destruct Hx as (L & ((c & Ec & Sx) & Rx) & n & En & Px). destruct Hy as (_ & ((c' & Ec' & Sy) & Ry) & n' & En' & Py).
  rewrite Ec in Ec'. injection Ec' as <-. rewrite En in En'. injection En' as <-. split; [exact L|]. split; [|exists n; split; [exact En|exact (IH n Px Py)]]. split; [exists c; split; [exact Ec|apply (box_satisfied x y); assumption]|].
  intros j d Hj Ed. apply (box_unsatisfied x y); eauto.
Qed.

(** * Stumps *)
Section Stump.
  Context (max_item : counter -> list string -> string).
  Lemma leaf_predict t x x' : t_leaf t = true -> composite x = composite x' -> node_predict max_item t x = node_predict max_item t x'.
  Proof. destruct t as [lab leaf dist c ch]. cbn [t_leaf node_predict]. intros -> E. unfold isComposite, possible_labels. rewrite E. destruct (composite x'); reflexivity. Qed.
  Lemma same_route t x z : Forall (fun n => t_leaf n = true) (t_children t) -> composite x = composite z -> Forall (fun n => satisfy (t_cond n) z = satisfy (t_cond n) x) (t_children t) -> node_predict max_item t z = node_predict max_item t x.
  Proof.
    destruct t as [lab leaf dist c ch]. cbn [t_children node_predict]. intros HL E HS. assert (HN : Forall (fun n => node_predict max_item n z = node_predict max_item n x) ch) by (eapply Forall_impl; [|exact HL]; intros n Hn; apply leaf_predict; congruence).
    unfold isComposite, possible_labels. rewrite E. destruct leaf; [destruct (composite z); reflexivity|]. clear HL. destruct (composite z); (induction ch as [|n ch IH]; [reflexivity|]; inversion HN as [|? ? Hp]; subst; inversion HS as [|? ? Hn]; subst;
      rewrite Hn, Hp; destruct (satisfy (t_cond n) x) as [[|]| | |]; cbn [bind]; try reflexivity; apply IH; assumption).
  Qed.
  Lemma same_predict t x z : Forall (fun n => t_leaf n = true) (t_children t) -> composite x = composite z -> Forall (fun n => satisfy (t_cond n) z = satisfy (t_cond n) x) (t_children t) -> tree_predict max_item t z = tree_predict max_item t x.
  Proof. intros HL E HS. unfold tree_predict. rewrite (same_route t x z HL E HS). destruct (node_predict max_item t x) as [p| | |]; cbn [bind]; try reflexivity. unfold isComposite, possible_labels. rewrite E. destruct (composite z); [reflexivity|rewrite Bool.andb_false_r; reflexivity]. Qed.
  (** one cut on one number, or nothing *)
  Definition one_cut (t : tree) : Prop := t_children t = [] \/ exists k v n n', t_children t = [n; n'] /\ t_leaf n = true /\ t_leaf n' = true /\ t_cond n = mkCond k CLt (Some (ACont v)) /\ t_cond n' = mkCond k CGt (Some (ACont v)).
  Lemma cut_between t x y z : one_cut t -> in_box x y z -> tree_predict max_item t z = tree_predict max_item t x \/ tree_predict max_item t z = tree_predict max_item t y.
  Proof.
    intros HT B. pose proof B as (Cx & Cy & _). destruct HT as [E|(k & v & n & n' & E & L & L' & C & C')]; [left; apply same_predict; [rewrite E; constructor|exact Cx|rewrite E; constructor]|].
    assert (HL : Forall (fun n => t_leaf n = true) (t_children t)) by (rewrite E; repeat constructor; assumption).
    assert (G : forall x', get_attr x' k = get_attr z k -> Forall (fun n => satisfy (t_cond n) z = satisfy (t_cond n) x') (t_children t)) by (intros x' G; rewrite E; repeat constructor; rewrite ?C, ?C'; unfold satisfy, cont_at; cbn [c_value c_cmp c_index]; rewrite G; reflexivity).
    destruct (get_attr z k) as [w| e | |] eqn:Ez.
    - apply at_ok in Ez. destruct (box_has x y z k _ B Ez) as ((a & Fa) & (b & Fb)). destruct (box_feature x y z _ _ _ _ B Fa Fb Ez) as [Ea|[Eb|(p & q & r & -> & -> & Er & H)]].
      + left. apply same_predict; [exact HL|exact Cx|]. apply G. subst a. apply at_ok. exact Fa.
      + right. apply same_predict; [exact HL|exact Cy|]. apply G. subst b. apply at_ok. exact Fb.
      + subst w. assert (Fa' : cont_at k x = Ok (Fin p)) by (apply cont_at_ok; exact Fa). assert (Fb' : cont_at k y = Ok (Fin q)) by (apply cont_at_ok; exact Fb). assert (Fz' : cont_at k z = Ok (Fin r)) by (apply cont_at_ok; exact Ez).
        destruct (cut_side v p q r H) as [[S1 S2]|[S1 S2]]; [left; apply same_predict; [exact HL|exact Cx|]|right; apply same_predict; [exact HL|exact Cy|]]; rewrite E; repeat constructor; rewrite ?C, ?C'; unfold satisfy; cbn [c_value c_cmp c_index]; rewrite Fz', ?Fa', ?Fb'; cbn [bind]; rewrite ?S1, ?S2; reflexivity.
    - left. apply same_predict; [exact HL|exact Cx|]. apply G. destruct B as (_ & _ & Lx & _). unfold get_attr, at_ in *. destruct (k <? 0)%Z; [exact Ez|]. destruct (nth_error (attrs z) (Z.to_nat k)) eqn:N; [discriminate Ez|]. injection Ez as <-.
      rewrite (proj2 (nth_error_None (attrs x) (Z.to_nat k))); [reflexivity|]. rewrite Lx. apply nth_error_None. exact N.
    - unfold get_attr, at_ in Ez. destruct (k <? 0)%Z; [discriminate Ez|]. destruct (nth_error (attrs z) (Z.to_nat k)); discriminate Ez.
    - unfold get_attr, at_ in Ez. destruct (k <? 0)%Z; [discriminate Ez|]. destruct (nth_error (attrs z) (Z.to_nat k)); discriminate Ez.
  Qed.
End Stump.
Lemma stump_shape entropy mid rarr n data fuel t : entropy_finite entropy -> mid_exact mid -> TreeSpec.rarr_perm rarr -> tabular (repeat KCont n) data -> data <> [] ->
  stump_train entropy mid rarr fuel data = Ok t -> one_cut t.
Proof.
  intros Hent Hmid Hrarr Ht Hne H. unfold stump_train in H. destruct fuel as [|f]; [discriminate H|]. cbn [build] in H.
  destruct (length (distinct_labels data) =? 1); [injection H as <-; left; reflexivity|]. cbn [no_condition c_index andb negb Z.eqb Pos.eqb] in H.
  destruct (search_ok entropy mid (repeat KCont n) Hent Hmid rarr None data Hrarr Ht Hne) as (data' & b & Es & HP & Hb). rewrite Es in H. cbn [bind] in H.
  destruct (Z.eqb_spec (b_attr b) (-1)) as [Eb|Eb]; [injection H as <-; left; reflexivity|]. destruct Hb as [Hb|Hb]; [contradiction|].
  apply bind_ok in H as (parts & Esp & H). apply bind_ok in H as (ch & Ech & H). injection H as <-. unfold split in Esp. apply bind_ok in Esp as (x0 & E0 & Esp). apply bind_ok in Esp as (a & Ea & Esp).
  assert (Hk : has_kind KCont a).
  { assert (Hx : In x0 data') by (unfold atn in E0; destruct data' as [|d data']; [discriminate E0|]; injection E0 as <-; left; reflexivity).
    pose proof (proj1 (Forall_forall _ _) (tab_perm _ _ _ HP Ht) x0 Hx) as Tx. apply at_ok in Ea as (_ & Ea). unfold typed in Tx. revert Ea. generalize (Z.to_nat (b_attr b)). clear - Tx. intros i.
    revert i. remember (repeat KCont n) as sh. revert n Heqsh. induction Tx as [|k a' sh as' Hk _ IH]; intros n E [|i] Ei; try discriminate Ei.
    - injection Ei as <-. destruct n; [discriminate E|]. injection E as -> _. exact Hk.
    - destruct n; [discriminate E|]. injection E as _ E. exact (IH n E i Ei). }
  destruct a as [a|a|a i m|a]; cbn [has_kind] in Hk; try (exfalso; destruct Hk as (? & N); discriminate N); try contradiction. cbn [isDiscreteIndexed isDiscrete isContinuous] in Esp.
  apply bind_ok in Esp as (gs & _ & Esp). apply bind_ok in Esp as (g0 & _ & Esp). apply bind_ok in Esp as (g1 & _ & Esp). injection Esp as <-. cbn [mapM fst snd] in Ech.
  apply bind_ok in Ech as (n1 & E1 & Ech). apply bind_ok in Ech as (rest & E2 & Ech). apply bind_ok in E2 as (n2 & E2 & E3). injection E3 as <-. injection Ech as <-.
  right. exists (b_attr b), (b_value b), n1, n2. cbn [t_children].
  destruct (build_leaf_shape _ _ _ _ _ _ _ _ _ E1 eq_refl Eb) as (L1 & _). destruct (build_leaf_shape _ _ _ _ _ _ _ _ _ E2 eq_refl Eb) as (L2 & _).
  split; [reflexivity|]. split; [exact L1|]. split; [exact L2|].
  assert (BC : forall fuel data c t, build entropy mid rarr None true fuel data c = Ok t -> t_cond t = c).
  { clear. intros [|f] data c t H; [discriminate H|]. cbn [build] in H. destruct (length (distinct_labels data) =? 1); [injection H as <-; reflexivity|]. destruct (true && negb (c_index c =? -1)%Z); [injection H as <-; reflexivity|].
    apply bind_ok in H as ([d b] & _ & H). destruct (b_attr b =? -1)%Z; [injection H as <-; reflexivity|]. apply bind_ok in H as (? & _ & H). apply bind_ok in H as (? & _ & H). injection H as <-. reflexivity. }
  split; [exact (BC _ _ _ _ E1)|exact (BC _ _ _ _ E2)].
Qed.

(** * The linear perceptron *)
Lemma weigh_mixed t d W (u v w : list Q) i : mixed_rows t u v w -> length w = d ->
  mixed t (weigh (S d) W (with_bias (fun j => nth j u 0)) i)%Q (weigh (S d) W (with_bias (fun j => nth j v 0)) i)%Q (weigh (S d) W (with_bias (fun j => nth j w 0)) i)%Q.
Proof.
  intros (Lu & Lv & H) Lw. unfold weigh. apply mixed_sum. intros [|j] Hj; cbn [with_bias]; unfold mixed; [ring|]. apply in_seq in Hj. pose proof (H j ltac:(lia)) as M. unfold mixed in M. rewrite M. ring.
Qed.
Lemma first_best_mixed labels ok t f g h c : (0 <= t <= 1)%Q -> NoDup labels -> (forall i, mixed t (f i) (g i) (h i)) -> first_best labels ok f c -> first_best labels ok g c -> first_best labels ok h c.
Proof.
  intros Ht ND M (i & Ei & Oi & A & B) (i' & Ei' & _ & A' & B'). assert (i' = i) by (apply (proj1 (NoDup_nth_error labels) ND); [apply nth_error_Some; congruence|congruence]). subst i'.
  exists i. split; [exact Ei|]. split; [exact Oi|]. split; intros j c'.
  - intros Ej Oj. specialize (A j c' Ej Oj). specialize (A' j c' Ej Oj). pose proof (M i) as Mi; pose proof (M j) as Mj; unfold mixed in Mi, Mj; rewrite Mi, Mj. nra.
  - intros Hj Ej Oj. specialize (B j c' Hj Ej Oj). specialize (B' j c' Hj Ej Oj). pose proof (M i) as Mi; pose proof (M j) as Mj; unfold mixed in Mi, Mj; rewrite Mi, Mj. destruct (Qlt_le_dec 0 t) as [Tp|Tp]; [nra|]. assert (T0 : (t == 0)%Q) by lra. rewrite T0. lra.
Qed.
Lemma first_best_unique labels ok h c c' : first_best labels ok h c -> first_best labels ok h c' -> c = c'.
Proof.
  intros (i & Ei & Oi & A & B) (j & Ej & Oj & A' & B'). assert (i = j); [|subst; congruence]. destruct (lt_eq_lt_dec i j) as [[L|E]|L]; [|exact E|]; exfalso.
  - pose proof (B' i c L Ei Oi). pose proof (A j c' Ej Oj). lra.
  - pose proof (B j c' L Ej Oj). pose proof (A' i c Ei Oi). lra.
Qed.
Lemma chosen_mixed labels x y z t f g h c d : (0 <= t <= 1)%Q -> composite x = composite z -> composite y = composite z -> NoDup labels -> (forall i, mixed t (f i) (g i) (h i)) ->
  chosen labels x f c -> chosen labels y g c -> chosen labels z h d -> d = c.
Proof.
  intros Ht Cx Cy ND M. unfold chosen. rewrite Cx, Cy. destruct (composite z) as [ps|].
  - intros (_ & Fx & Nx) (_ & Fy & _) (_ & Fz & Nz). destruct (existsb (fun c' => mem_str c' ps) labels) eqn:Eb.
    + apply existsb_exists in Eb as (c' & H1 & H2). apply mem_str_in in H2. assert (HE : exists c', In c' labels /\ In c' ps) by eauto.
      apply (first_best_unique labels (fun c' => In c' ps) h); [exact (Fz HE)|]. exact (first_best_mixed _ _ _ _ _ _ _ Ht ND M (Fx HE) (Fy HE)).
    + assert (HN : forall c', In c' labels -> ~ In c' ps) by (intros c' H1 H2; apply mem_str_in in H2; assert (existsb (fun c' => mem_str c' ps) labels = true) by (apply existsb_exists; eauto); congruence). specialize (Nx HN). specialize (Nz HN). congruence.
  - intros Fx Fy Fz. apply (first_best_unique labels (fun _ => True) h); [exact Fz|]. exact (first_best_mixed _ _ _ _ _ _ _ Ht ND M Fx Fy).
Qed.
Lemma row_vec v x : has_row v x -> is_vec (inst_vector x) (length v) (fun j => nth j v 0%Q).
Proof. intros H. change (inst_vector x) with (inst_vals x). rewrite (row_vals _ _ H). apply isv_fin. Qed.

(** * The support vector machine with the linear kernel *)
Definition mixd (t : Q) (a b c : dbl) : Prop := exists p q r, a = Fin p /\ b = Fin q /\ c = Fin r /\ mixed t p q r.
Lemma mixd_add t a b c a' b' c' : mixd t a b c -> mixd t a' b' c' -> mixd t (dadd a a') (dadd b b') (dadd c c').
Proof. intros (p & q & r & -> & -> & -> & M) (p' & q' & r' & -> & -> & -> & M'). do 3 eexists. split; [reflexivity|]. split; [reflexivity|]. split; [reflexivity|]. unfold mixed in *. rewrite M, M'. ring. Qed.
Lemma mixd_mul t k a b c : mixd t a b c -> mixd t (dmul (Fin k) a) (dmul (Fin k) b) (dmul (Fin k) c).
Proof. intros (p & q & r & -> & -> & -> & M). do 3 eexists. split; [reflexivity|]. split; [reflexivity|]. split; [reflexivity|]. unfold mixed in *. rewrite M. ring. Qed.
Lemma mixd_sub t k a b c : mixd t a b c -> mixd t (dsub a (Fin k)) (dsub b (Fin k)) (dsub c (Fin k)).
Proof. intros (p & q & r & -> & -> & -> & M). do 3 eexists. split; [reflexivity|]. split; [reflexivity|]. split; [reflexivity|]. unfold mixed in *. rewrite M. ring. Qed.
Lemma mixd_const t k : mixd t (Fin k) (Fin k) (Fin k).
Proof. do 3 eexists. split; [reflexivity|]. split; [reflexivity|]. split; [reflexivity|]. unfold mixed. ring. Qed.
Definition mixl (t : Q) (a b c : list dbl) : Prop := length a = length c /\ length b = length c /\ forall i x y z, nth_error a i = Some x -> nth_error b i = Some y -> nth_error c i = Some z -> mixd t x y z.
Lemma idxn_get {A} (l : list A) i a : idxn l i = Ok a <-> nth_error l i = Some a.
Proof. unfold idxn. destruct (nth_error l i); split; intros H; try discriminate H; injection H as ->; reflexivity. Qed.
Lemma mixl_get t a b c i x y : mixl t a b c -> idxn a i = Ok x -> idxn b i = Ok y -> exists z, idxn c i = Ok z /\ mixd t x y z.
Proof.
  intros (L & L' & H) Ex Ey. apply idxn_get in Ex. apply idxn_get in Ey. destruct (nth_error c i) as [z|] eqn:Ez; [exists z; split; [apply idxn_get, Ez|exact (H i x y z Ex Ey Ez)]|]. apply nth_error_None in Ez. assert (i < length a) by (apply nth_error_Some; congruence). lia.
Qed.
Lemma fin_get l i x : all_fin l -> idxn l i = Ok x -> exists q, x = Fin q.
Proof. intros H E. apply idxn_get, nth_error_In in E. exact (proj1 (Forall_forall _ _) H x E). Qed.
Lemma coef_sum_mixed t coef ka kb kc from n : all_fin coef -> mixl t ka kb kc -> forall a b c ra rb, mixd t a b c -> coef_sum coef ka from n a = Ok ra -> coef_sum coef kb from n b = Ok rb ->
  exists rc, coef_sum coef kc from n c = Ok rc /\ mixd t ra rb rc.
Proof.
  intros HF HK. unfold coef_sum. induction (seq 0 n) as [|k l IH]; intros a b c ra rb M Ea Eb; cbn [foldM] in *; [injection Ea as <-; injection Eb as <-; eauto|].
  apply bind_ok in Ea as (a' & Ea' & Ea). apply bind_ok in Ea' as (q & Eq & Ea'). apply bind_ok in Ea' as (va & Eva & Ea'). injection Ea' as <-.
  apply bind_ok in Eb as (b' & Eb' & Eb). apply bind_ok in Eb' as (q' & Eq' & Eb'). rewrite Eq in Eq'. injection Eq' as <-. apply bind_ok in Eb' as (vb & Evb & Eb'). injection Eb' as <-.
  destruct (mixl_get _ _ _ _ _ _ _ HK Eva Evb) as (vc & Evc & Mv). destruct (fin_get _ _ _ HF Eq) as (qq & ->). rewrite Eq, Evc. cbn [bind]. apply (IH _ _ _ _ _ ltac:(apply mixd_add; [exact M|apply mixd_mul; exact Mv]) Ea Eb).
Qed.
Lemma qdot_mixed t u v w e : mixed_rows t u v w -> mixed t (qdot u e) (qdot v e) (qdot w e).
Proof.
  revert u v e. induction w as [|c w IH]; intros [|a u] [|b v] e (Lu & Lv & H); try discriminate Lu; try discriminate Lv; [unfold mixed; cbn; ring|]. destruct e as [|z e]; [unfold mixed; rewrite !qdot_nil_r; ring|].
  assert (M : mixed_rows t u v w). { split; [injection Lu as E; exact E|]. split; [injection Lv as E; exact E|]. intros i Hi. apply (H (S i)). cbn [length]. lia. }
  pose proof (H 0 ltac:(cbn [length]; lia)) as M0. cbn [nth] in M0. specialize (IH u v e M). unfold mixed in *. rewrite !qdot_cons, M0, IH. ring.
Qed.
Lemma ndot_mixed t u v w e : mixed_rows t u v w -> mixd t (ndot (nodelist (map Fin u)) (nodelist (map Fin e))) (ndot (nodelist (map Fin v)) (nodelist (map Fin e))) (ndot (nodelist (map Fin w)) (nodelist (map Fin e))).
Proof.
  intros M. apply (qdot_mixed t u v w e) in M. destruct (dot_dense u e) as (p & Ep & Vp). destruct (dot_dense v e) as (q & Eq & Vq). destruct (dot_dense w e) as (r & Er & Vr). exists p, q, r. unfold SvmSpec.svec in *. split; [exact Ep|]. split; [exact Eq|]. split; [exact Er|]. unfold mixed in *. rewrite Vp, Vq, Vr. exact M.
Qed.
Section Flat.
  Context (dexp dtanh : dbl -> dbl) (dpow : dbl -> Z -> dbl).
  Definition side (keys : list string) (v : dbl) : res string := idxn keys (if dgtb v d0 then 0 else 1).
  Lemma two_classes m x v : m_ncl m = 2 -> predict_values dexp dtanh dpow m (inst_nodes x) = Ok [v] -> svm_predict dexp dtanh dpow m x = side (mkeys (m_dist m)) v.
  Proof. intros E2 E. unfold svm_predict, side. rewrite E, E2. cbn [bind]. unfold count_votes. change (class_pairs 2) with [(0, 1)]. cbn [foldM idxn nth_error bind]. destruct (dgtb v d0); reflexivity. Qed.
  Lemma flat_values m t u v w x y z c d : flat_machine m -> mixed_rows t u v w -> inst_nodes x = nodelist (map Fin u) -> inst_nodes y = nodelist (map Fin v) -> inst_nodes z = nodelist (map Fin w) ->
    svm_predict dexp dtanh dpow m x = Ok c -> svm_predict dexp dtanh dpow m y = Ok d ->
    exists a b e, predict_values dexp dtanh dpow m (inst_nodes x) = Ok [a] /\ predict_values dexp dtanh dpow m (inst_nodes y) = Ok [b] /\ predict_values dexp dtanh dpow m (inst_nodes z) = Ok [e] /\ mixd t a b e.
  Proof.
    intros (E2 & (p & Ep & Ek) & HS & HC & HR) M Nx Ny Nz Ex Ey. unfold svm_predict in Ex, Ey. apply bind_ok in Ex as (vx & Ex & _). apply bind_ok in Ey as (vy & Ey & _). rewrite Ex, Ey. unfold predict_values in *. rewrite E2, Ep, Nx, Ny, Nz in *. change (class_pairs 2) with [(0, 1)] in *.
    assert (HM : forall q, mapM (fun v => Ok (kernel_fun dexp dtanh dpow p q v)) (m_sv m) = Ok (map (fun v => ndot q v) (m_sv m))).
    { intros q. clear - Ek. induction (m_sv m) as [|s sv IH]; [reflexivity|]. cbn [mapM map]. rewrite IH. cbn [bind]. unfold kernel_fun. rewrite Ek. reflexivity. }
    rewrite HM in Ex, Ey |- *. cbn [bind] in *. apply bind_ok in Ex as (start & Es & Ex). rewrite Es in Ey |- *. cbn [bind] in *. cbn [foldM] in *.
    assert (HK : mixl t (map (fun s => ndot (nodelist (map Fin u)) s) (m_sv m)) (map (fun s => ndot (nodelist (map Fin v)) s) (m_sv m)) (map (fun s => ndot (nodelist (map Fin w)) s) (m_sv m))).
    { split; [rewrite !map_length; reflexivity|]. split; [rewrite !map_length; reflexivity|]. intros i a b e. rewrite !nth_error_map. destruct (nth_error (m_sv m) i) as [s|] eqn:Ei; [|discriminate]. cbn [option_map]. intros Ea Eb Ee. injection Ea as <-. injection Eb as <-. injection Ee as <-.
      apply nth_error_In in Ei. destruct (proj1 (Forall_forall _ _) HS s Ei) as (e & ->). apply ndot_mixed, M. }
    apply bind_ok in Ex as (r & Er & Ex). apply bind_ok in Er as (st & Est & Er). injection Er as <-.
    apply bind_ok in Ey as (r' & Er & Ey). apply bind_ok in Er as (st' & Est' & Er). injection Er as <-.
    apply bind_ok in Est as (si & Esi & Est). apply bind_ok in Est as (sj & Esj & Est). apply bind_ok in Est as (ci & Eci & Est). apply bind_ok in Est as (cj & Ecj & Est). apply bind_ok in Est as (c1 & Ec1 & Est). apply bind_ok in Est as (c2 & Ec2 & Est).
    apply bind_ok in Est as (s1 & Es1 & Est). apply bind_ok in Est as (s2 & Es2 & Est). apply bind_ok in Est as (rho & Erho & Est). injection Est as <-.
    rewrite Esi, Esj, Eci, Ecj, Ec1, Ec2 in Est' |- *. cbn [bind] in *. apply bind_ok in Est' as (t1 & Et1 & Est'). apply bind_ok in Est' as (t2 & Et2 & Est'). rewrite Erho in Est'. cbn [bind] in Est'. injection Est' as <-.
    assert (F : forall c i, idxn (m_coef m) i = Ok c -> all_fin c) by (intros e i Ee; apply idxn_get, nth_error_In in Ee; exact (proj1 (Forall_forall _ _) HC e Ee)).
    destruct (coef_sum_mixed t c1 _ _ _ si ci (F _ _ Ec1) HK d0 d0 d0 _ _ (mixd_const t 0) Es1 Et1) as (u1 & Eu1 & M1). destruct (coef_sum_mixed t c2 _ _ _ sj cj (F _ _ Ec2) HK _ _ _ _ _ M1 Es2 Et2) as (u2 & Eu2 & M2).
    rewrite Eu1. cbn [bind]. rewrite Eu2. cbn [bind]. rewrite Erho. cbn [bind fst app]. injection Ex as <-. injection Ey as <-. destruct (fin_get _ _ _ HR Erho) as (k & ->). do 3 eexists. split; [reflexivity|]. split; [reflexivity|]. split; [reflexivity|]. apply mixd_sub, M2.
  Qed.
  Lemma flat_side t a b e keys c : (0 <= t <= 1)%Q -> mixd t a b e -> side keys a = Ok c -> side keys b = Ok c -> side keys e = Ok c.
  Proof.
    intros Ht (p & q & r & -> & -> & -> & M). unfold side, dgtb, d0. destruct (dltb (Fin 0) (Fin p)) eqn:Ep, (dltb (Fin 0) (Fin q)) eqn:Eq; intros Ea Eb; try (destruct (dltb (Fin 0) (Fin r)); assumption).
    - apply dltb_fin in Ep. apply dltb_fin in Eq. assert (dltb (Fin 0) (Fin r) = true) as ->; [|exact Ea]. apply dltb_fin. unfold mixed in M. rewrite M. destruct (Qlt_le_dec 0 t) as [Tp|Tp]; [nra|]. assert (T0 : (t == 0)%Q) by lra. rewrite T0. lra.
    - apply dltb_fin_false in Ep. apply dltb_fin_false in Eq. assert (dltb (Fin 0) (Fin r) = false) as ->; [|exact Ea]. apply dltb_fin_false. unfold mixed in M. rewrite M. nra.
  Qed.
End Flat.
