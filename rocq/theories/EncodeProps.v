(** C149: what replacing discrete features by indicators (DiscreteToContinuous, LaryToBinary, DiscreteToIndexed) does to distances and nearest neighbours. *)
From Coq Require Import String ZArith QArith Bool Lia Lqa Permutation Arith List.
From Verif Require Import Base Spec BaseLemmas DblLemmas SortLemmas AttrModel DataSetModel InstanceListModel StatSpec DistanceModel DistanceSpec DistanceProofs GaussianModel FilterModel FilterSpec FilterProofs FilterProps
  EncodeSpec EncodeProofs.
Import ListNotations.
Local Open Scope string_scope.
Local Open Scope list_scope.
Local Open Scope nat_scope.

Lemma described_rows ks s known : consistent ks (insts s) -> known_values ks (insts s) known -> Forall (fun x => Forall finite (attrs x)) (insts s) -> Forall (described known) (insts s).
Proof.
  intros C K F. apply Forall_forall. intros x Hx. rewrite Forall_forall in F. specialize (F x Hx). pose proof (good_rows ks (insts s) known x C K Hx) as G.
  destruct K as [KL KK]. unfold described. rewrite Forall_forall in F.
  assert (H : forall i vs a, nth_error known i = Some vs -> nth_error (attrs x) i = Some a -> match vs with [] => finite a /\ (forall v, a <> ADisc v) | _ => NoDup vs /\ exists v, a = ADisc v /\ In v vs end).
  { intros i vs a Hv Ha. destruct (Forall2_nth _ _ _ i vs a G Hv Ha) as [N D]. destruct vs as [|w vs]; [|split; [exact N|apply D; discriminate]]. split; [apply F; eapply nth_error_In; exact Ha|].
    destruct (nth_error ks i) as [b|] eqn:Eb; [|apply nth_error_None in Eb; assert (i < length known) by (apply nth_error_Some; congruence); lia].
    destruct (KK i b [] Eb Hv) as [_ Kb]. pose proof (consistent_nth _ _ x i b a C Hx Eb Ha) as Ca. destruct b; [destruct Kb as [Kb _]; congruence|exact Ca]. }
  clear -H G. induction G as [|vs a known xs _ G IH]; [constructor|]. constructor; [apply (H 0); reflexivity|]. apply IH. intros i vs' a' Hv Ha. exact (H (S i) vs' a' Hv Ha).
Qed.
Lemma described_askable known x : described known x -> askable known x.
Proof. unfold described, askable. intros H. induction H as [|vs a known xs Ha H IH]; [constructor|]. constructor; [|exact IH]. destruct vs; [apply Ha|]. destruct Ha as (_ & v & -> & _). exists v. reflexivity. Qed.

Lemma nth_repeat_true n i : i < n -> nth_error (repeat true n) i = Some true.
Proof. revert i. induction n as [|n IH]; intros [|i] H; try lia; [reflexivity|]. cbn. apply IH. lia. Qed.

Lemma dist_hot known ns : class_distribution (map (hot known) ns) = class_distribution ns.
Proof. unfold class_distribution. generalize (@nil (string * nat)). induction ns as [|x ns IH]; intros c; [reflexivity|]. cbn. apply IH. Qed.

(** DiscreteToContinuous on a data set: every discrete feature in which two instances differ counts twice afterwards, numeric features count as before. *)
Theorem C149_distance : forall fmt s ks, consistent ks (insts s) -> insts s <> [] -> no_comma (insts s) -> length (types (ddef s)) = length ks ->
  Forall (fun x => Forall finite (attrs x)) (insts s) ->
  exists known s', known_values ks (insts s) known /\ to_continuous fmt s = Ok s' /\ insts s' = map (hot known) (insts s) /\
    forall x q, In x (insts s) -> In q (insts s) ->
      exists a b, eucl x q = Ok (Fin a) /\ eucl (hot known x) (hot known q) = Ok (Fin b) /\ (b == a + qofn (differ known (attrs x) (attrs q)))%Q.
Proof.
  intros fmt s ks C N NC L F. destruct (C41_to_continuous fmt s ks C N NC L) as (known & s' & K & E & _ & R). exists known, s'. split; [exact K|]. split; [exact E|]. split; [exact R|].
  pose proof (described_rows ks s known C K F) as D. rewrite Forall_forall in D. intros x q Hx Hq.
  pose proof (described_askable _ _ (D q Hq)) as HQ. destruct (encoded_distance known x q (D x Hx) HQ) as (E1 & E2 & E3 & _).
  destruct (described_finite _ _ (D x Hx)) as [X1 X2], (askable_finite _ _ HQ) as [Q1 Q2].
  assert (Lx : length (attrs x) = length (attrs q)) by (pose proof (Forall2_len _ _ _ (D x Hx)); pose proof (Forall2_len _ _ _ HQ); congruence).
  destruct (eucl_fin x q Lx X1 Q1) as (a & Ea & Ha). destruct (eucl_fin _ _ E3 X2 Q2) as (b & Eb & Hb). exists a, b. split; [exact Ea|]. split; [exact Eb|].
  assert (U : unknown known (attrs q) = 0).
  { specialize (D q Hq). unfold described in D. clear -D. induction D as [|vs a known xs Ha H IH]; [reflexivity|]. cbn [unknown]. rewrite IH. destruct vs as [|w vs]; [reflexivity|].
    destruct Ha as (_ & v & -> & Hv). cbn [text]. rewrite (in_existsb v _ Hv). reflexivity. }
  rewrite U in E2. change (qofn 0) with 0%Q in E2. rewrite Ha, Hb. lra.
Qed.
(** Only discrete features: nearest neighbours are the same before and after, for every choice of training instances and query from the data set. *)
Theorem C149_knn : forall fmt s n, consistent (repeat true n) (insts s) -> insts s <> [] -> no_comma (insts s) -> length (types (ddef s)) = n ->
  exists s', to_continuous fmt s = Ok s' /\ length (insts s') = length (insts s) /\
    forall ps q q' k, incl ps (combine (insts s) (insts s')) -> In (q, q') (combine (insts s) (insts s')) ->
      knn_predict eucl (map snd ps) k q' = knn_predict eucl (map fst ps) k q /\ knn_probability eucl (map snd ps) k q' = knn_probability eucl (map fst ps) k q.
Proof.
  intros fmt s n C N NC L. assert (F : Forall (fun x => Forall finite (attrs x)) (insts s)).
  { apply Forall_forall. intros x Hx. unfold consistent in C. rewrite Forall_forall in C. specialize (C x Hx). apply Forall_forall. intros a Ha w ->. apply In_nth_error in Ha as [i Hi].
    assert (Li : i < length (repeat true n)) by (rewrite (Forall2_len _ _ _ C); apply nth_error_Some; congruence). rewrite repeat_length in Li.
    destruct (Forall2_nth _ _ _ i true (ACont w) C (nth_repeat_true n i Li) Hi) as [v E]. discriminate E. }
  destruct (C149_distance fmt s (repeat true n) C N NC ltac:(rewrite repeat_length; exact L) F) as (known & s' & K & E & R & _). exists s'. split; [exact E|]. split; [rewrite R, map_length; reflexivity|].
  pose proof (described_rows _ s known C K F) as D.
  assert (HK : Forall (fun vs => vs <> []) known).
  { apply Forall_forall. intros vs Hv. apply In_nth_error in Hv as [i Hi]. destruct K as [KL KK]. rewrite repeat_length in KL. assert (i < n) by (rewrite <- KL; apply nth_error_Some; congruence).
    destruct (KK i true vs (nth_repeat_true n i ltac:(assumption)) Hi) as [_ [Z _]]. exact Z. }
  intros ps q q' k Hps Hq. rewrite R in *.
  assert (P : forall x x', In (x, x') (combine (insts s) (map (hot known) (insts s))) -> x' = hot known x /\ In x (insts s)).
  { clear. generalize (insts s). intros l. induction l as [|y l IH]; intros x x' H; [destruct H|]. destruct H as [H|H]; [injection H as <- <-; split; [reflexivity|left; reflexivity]|]. destruct (IH x x' H) as [A B]. split; [exact A|right; exact B]. }
  destruct (P q q' Hq) as [-> Hq1].
  assert (M : map snd ps = map (hot known) (map fst ps) /\ Forall (described known) (map fst ps)).
  { rewrite Forall_forall in D. split.
    - rewrite map_map. apply map_ext_in. intros [x x'] Hp. exact (proj1 (P x x' (Hps _ Hp))).
    - apply Forall_forall. intros x Hx. apply in_map_iff in Hx as ([y x'] & <- & Hp). apply D. exact (proj2 (P y x' (Hps _ Hp))). }
  destruct M as [-> MD]. rewrite Forall_forall in D. destruct (hot_nearest known (map fst ps) k q HK MD (described_askable _ _ (D q Hq1))) as (ns & E1 & E2 & _).
  unfold knn_predict, knn_probability. rewrite E1, E2. cbn [bind]. change (isComposite (hot known q)) with (isComposite q). change (possible_labels (hot known q)) with (possible_labels q).
  rewrite labels_hot, map_length, dist_hot. split; reflexivity.
Qed.
(** The same for a query of its own, whose values may be unknown: such a feature has no indicator set, and every training instance is one closer. *)
Theorem C149_query : forall known data q k, Forall (fun vs => vs <> []) known -> Forall (described known) data -> askable known q ->
  knn_predict eucl (map (hot known) data) k (hot known q) = knn_predict eucl data k q /\
 forall x, In x data -> exists a b, eucl x q = Ok (Fin a) /\ eucl (hot known x) (hot known q) = Ok (Fin b) /\ (a == qofn (differ known (attrs x) (attrs q)))%Q /\
   (b + qofn (unknown known (attrs q)) == 2 * a)%Q.
Proof.
  intros known data q k HK HD HQ. destruct (hot_nearest known data k q HK HD HQ) as (ns & E1 & E2 & _). split.
  - unfold knn_predict. rewrite E1, E2. cbn [bind]. change (isComposite (hot known q)) with (isComposite q). change (possible_labels (hot known q)) with (possible_labels q). rewrite labels_hot, map_length. reflexivity.
  - intros x Hx. rewrite Forall_forall in HD. specialize (HD x Hx). destruct (encoded_distance known x q HD HQ) as (F1 & F2 & F3 & _). rewrite !(kept_none known _ HK) in *. change (distq [] []) with 0%Q in *.
    destruct (described_finite _ _ HD) as [X1 X2], (askable_finite _ _ HQ) as [Q1 Q2].
    assert (Lx : length (attrs x) = length (attrs q)) by (pose proof (Forall2_len _ _ _ HD); pose proof (Forall2_len _ _ _ HQ); congruence).
    destruct (eucl_fin x q Lx X1 Q1) as (a & Ea & Ha). destruct (eucl_fin _ _ F3 X2 Q2) as (b & Eb & Hb). exists a, b. split; [exact Ea|]. split; [exact Eb|]. split; lra.
Qed.
(** The other two encodings make all distances zero: the distance looks at neither binary nor indexed features.  The neighbours are then the first k
    training instances, whatever the query. *)
Theorem C149_not_seen : forall fmt s n, consistent (repeat true n) (insts s) -> insts s <> [] -> no_comma (insts s) -> length (types (ddef s)) = n ->
  exists s1 s2, to_binary fmt s = Ok s1 /\ to_indexed fmt s = Ok s2 /\
   forall t, t = s1 \/ t = s2 -> map label (insts t) = map label (insts s) /\
     forall l q k, incl l (insts t) -> In q (insts t) -> composite q = None ->
        (forall x, In x l -> eucl x q = Ok d0) /\ nearest eucl l k q = Ok (firstn (Z.to_nat k) l).
Proof.
  intros fmt s n C N NC L. assert (L' : length (types (ddef s)) = length (repeat true n)) by (rewrite repeat_length; exact L).
  destruct (C41_to_binary fmt s (repeat true n) C N NC L') as (k1 & s1 & K1 & E1 & _ & R1).
  destruct (C41_to_indexed fmt s (repeat true n) C N NC L') as (k2 & s2 & pos & K2 & E2 & _ & R2).
  exists s1, s2. split; [exact E1|]. split; [exact E2|].
  assert (HK : forall known, known_values (repeat true n) (insts s) known -> Forall (fun vs => vs <> []) known /\ length known = n).
  { intros known [KL KK]. rewrite repeat_length in KL. split; [|exact KL]. apply Forall_forall. intros vs Hv. apply In_nth_error in Hv as [i Hi]. assert (i < n) by (rewrite <- KL; apply nth_error_Some; congruence).
    destruct (KK i true vs (nth_repeat_true n i ltac:(assumption)) Hi) as [_ [Z _]]. exact Z. }
  assert (G : forall known block t, Forall (fun vs => vs <> []) known -> length known = n -> recoded known block s t -> (forall p a, In a (block p) -> ~ measured a) ->
    (forall p p', fst p = fst p' -> length (block p) = length (block p')) ->
    map label (insts t) = map label (insts s) /\
     forall l q k, incl l (insts t) -> In q (insts t) -> composite q = None ->
        (forall x, In x l -> eucl x q = Ok d0) /\ nearest eucl l k q = Ok (firstn (Z.to_nat k) l)).
  { intros known block t HN HL R HB HE. unfold recoded in R. split; [rewrite R, map_map; reflexivity|]. intros l q k Hl Hq HC.
    assert (Z : forall x y, In x (insts t) -> In y (insts t) -> eucl x y = Ok d0).
    { intros x y Hx Hy. rewrite R in Hx, Hy. apply in_map_iff in Hx as (x0 & <- & Hx). apply in_map_iff in Hy as (y0 & <- & Hy). apply unmeasured_zero; cbn [attrs]; rewrite !(kept_none known _ HN); cbn [app].
      - apply Forall_forall. intros a Ha. apply in_flat_map in Ha as (p & _ & Ha). exact (HB p a Ha).
      - assert (Lx : length (attrs x0) = length known) by (rewrite (consistent_len _ _ x0 C Hx), repeat_length; congruence).
        assert (Ly : length (attrs y0) = length known) by (rewrite (consistent_len _ _ y0 C Hy), repeat_length; congruence).
        revert Lx Ly. generalize (attrs x0), (attrs y0). clear -HE HN. unfold replaced. induction known as [|vs known IH]; intros [|a xs] [|b ys] Lx Ly; try discriminate; [reflexivity|].
        inversion HN; subst. cbn [combine flat_map fst snd]. destruct vs as [|w vs]; [congruence|]. cbn [app flat_map]. rewrite !app_length. f_equal; [apply HE; reflexivity|]. apply IH; [assumption|now injection Lx|now injection Ly]. }
    split; [intros x Hx; apply Z; [apply Hl, Hx|exact Hq]|]. rewrite (nearest_total eucl l k q (fun _ => d0)); [|intros x Hx _; split; [apply Z; [apply Hl, Hx|exact Hq]|reflexivity]].
    assert (EF : forall l0, filter (eligible q) l0 = l0).
    { intros l0. induction l0 as [|x l0 IH]; [reflexivity|]. cbn [filter]. unfold eligible at 1. unfold isComposite. rewrite HC. cbn [negb orb]. rewrite IH. reflexivity. }
    rewrite EF. f_equal. f_equal. clear. unfold ssort. induction l as [|x l IH]; [reflexivity|]. cbn [fold_right]. rewrite IH. destruct l; reflexivity. }
  intros t [->| ->].
  - destruct (HK k1 K1) as [A B]. apply (G k1 _ s1 A B R1).
    + intros p a Ha [(v & ->)|(v & ->)]; apply in_map_iff in Ha as (b & E & _); discriminate E.
    + intros [v1 t1] [v2 t2] E. cbn in E. subst. unfold indicators. rewrite !map_length. reflexivity.
  - destruct (HK k2 K2) as [A B]. apply (G k2 _ s2 A B R2).
    + intros p a [<-|[]] [(v & E)|(v & E)]; discriminate E.
    + reflexivity.
Qed.
(** With a numeric feature beside the discrete one the answer may change: a difference of text weighs twice as much afterwards. *)
Definition mix (c : string) (v : Q) (t : string) : instance := mkInst c [ACont (Fin v); ADisc t] None.
Definition mixed_ex : ilist := [mix "b" 0 "w"; mix "a" (6 # 5) "u"; mix "b" 0 "u"].
Theorem C149_mixed_refuted : exists s s' q q', to_continuous (fun _ => "") s = Ok s' /\ no_comma (insts s) /\ In (q, q') (combine (insts s) (insts s')) /\
  knn_predict eucl (firstn 2 (insts s)) 1 q = Ok "b" /\ knn_predict eucl (firstn 2 (insts s')) 1 q' = Ok "a".
Proof.
  exists (mkDS mixed_ex (mkDef [TCont; TDisc] [])). do 3 eexists. split; [vm_compute; reflexivity|]. split.
  { intros i (x & Hx & E). cbn in Hx. destruct Hx as [<-|[<-|[<-|[]]]]; destruct i as [|[|[|i]]]; discriminate E. }
  split; [right; right; left; reflexivity|]. split; vm_compute; reflexivity.
Qed.
(** Nearest mean is not invariant even on one discrete feature: the most frequent value is not the mean of the indicators. *)
Definition word (c t : string) : instance := mkInst c [ADisc t] None.
Definition words_ex : ilist := [word "a" "x"; word "a" "x"; word "b" "y"; word "b" "y"; word "b" "z"].
Theorem C149_kmeans_refuted : exists s s' m m' q q', to_continuous (fun _ => "") s = Ok s' /\ no_comma (insts s) /\ In (q, q') (combine (insts s) (insts s')) /\
  kmeans_train (mkKM [] []) (insts s) = Ok m /\ kmeans_train (mkKM [] []) (insts s') = Ok m' /\
  kmeans_predict eucl m q = Ok "a" /\ kmeans_predict eucl m' q' = Ok "b".
Proof.
  exists (mkDS words_ex (mkDef [TDisc] [])). do 5 eexists. split; [vm_compute; reflexivity|]. split.
  { intros i (x & Hx & E). cbn in Hx. destruct Hx as [<-|[<-|[<-|[<-|[<-|[]]]]]]; destruct i as [|[|i]]; discriminate E. }
  split; [do 4 right; left; reflexivity|]. split; [vm_compute; reflexivity|]. split; [vm_compute; reflexivity|]. split; vm_compute; reflexivity.
Qed.
(** two discrete features, three training instances *)
Example C149_case : let s := mkDS [mkInst "a" [ADisc "x"; ADisc "u"] None; mkInst "b" [ADisc "y"; ADisc "w"] None; mkInst "b" [ADisc "y"; ADisc "u"] None; mkInst "?" [ADisc "y"; ADisc "w"] None] (mkDef [TDisc; TDisc] []) in
  exists s', to_continuous (fun _ => "") s = Ok s' /\ consistent (repeat true 2) (insts s) /\
    map attrs (firstn 2 (insts s')) = [[ACont (Fin 1); ACont (Fin 0); ACont (Fin 1); ACont (Fin 0)]; [ACont (Fin 0); ACont (Fin 1); ACont (Fin 0); ACont (Fin 1)]] /\
    map (fun k => knn_predict eucl (firstn 3 (insts s)) k (nth 3 (insts s) (mkInst "" [] None))) [1; 2; 3]%Z = [Ok "b"; Ok "b"; Ok "b"] /\
    map (fun k => knn_predict eucl (firstn 3 (insts s')) k (nth 3 (insts s') (mkInst "" [] None))) [1; 2; 3]%Z = [Ok "b"; Ok "b"; Ok "b"].
Proof.
  cbv zeta. eexists. split; [vm_compute; reflexivity|]. split; [|split; [|split]; vm_compute; reflexivity]. repeat constructor; eexists; reflexivity.
Qed.
Print Assumptions C149_distance.
Print Assumptions C149_knn.
Print Assumptions C149_query.
Print Assumptions C149_not_seen.
Print Assumptions C149_mixed_refuted.
Print Assumptions C149_kmeans_refuted.
