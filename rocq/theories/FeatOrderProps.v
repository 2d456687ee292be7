(** Property C134: the order in which the features are listed does not change what the classifiers answer. *)
From Coq Require Import String ZArith QArith Bool Lia Lqa Permutation Arith List.
From Verif Require Import Base Spec BaseLemmas DblLemmas AttrModel AttrProofs DataSetModel InstanceListModel PartitionModel PerformanceModel
  StatSpec ListSpec ListProofs PartitionProofs CovProofs CovAllProofs PerformanceProofs DistanceModel DistanceSpec DistanceProofs
  GaussianModel GaussianSpec GaussianProofs DiscrimSpec DiscrimProofs BayesProofs TreeModel TreeSpec TreeProofs TreeProps InvSpec ModelInvSpec ModelInvProofs ModelInvDistProofs ModelInvProps
  FeatOrderSpec FeatOrderProofs FeatOrderDetProofs FeatOrderDiscrimProofs.
Import ListNotations.
Local Open Scope string_scope.
Local Open Scope list_scope.
Local Open Scope nat_scope.

(** * Distances and neighbours: any features, NaN and infinities included *)
Theorem C134_distance : forall n p x y, arrangement n p -> length (attrs x) = n -> length (attrs y) = n ->
  exists r r', eucl x y = Ok r /\ eucl (reorder p x) (reorder p y) = Ok r' /\ deq r' r.
Proof. intros n p x y Hp. exact (eucl_reorder n p Hp x y). Qed.
Theorem C134_knn : forall n p data k q, arrangement n p -> width_n n data -> length (attrs q) = n ->
  nearest eucl (map (reorder p) data) k (reorder p q) = rmap (map (reorder p)) (nearest eucl data k q) /\
  knn_predict eucl (map (reorder p) data) k (reorder p q) = knn_predict eucl data k q /\
  knn_probability eucl (map (reorder p) data) k (reorder p q) = knn_probability eucl data k q.
Proof.
  intros n p data k q Hp W L. pose proof (nearest_reorder n p Hp data k q W L) as E. split; [exact E|]. unfold knn_predict, knn_probability. unfold ilist in *. rewrite E.
  destruct (nearest eucl data k q) as [ns| | |]; [|split; reflexivity..]. unfold rmap. cbn [bind].
  assert (EL : class_labels (map (reorder p) ns) = class_labels ns) by (unfold class_labels; rewrite map_map; reflexivity).
  rewrite (prior_reorder p ns). unfold ilist in *. rewrite EL, map_length. split; reflexivity.
Qed.
Definition swap_ex : list instance := [mkInst "a" [ACont (Fin 0); ADisc "u"; ACont (Fin 4)] None; mkInst "b" [ACont (Fin 3); ADisc "w"; ACont (Fin 4)] None; mkInst "b" [ACont PInf; ADisc "u"; ACont (Fin 1)] None].
Definition query_ex : instance := mkInst "?" [ACont (Fin 2); ADisc "w"; ACont (Fin 5)] None.
Example C134_knn_case : arrangement 3 [2; 0; 1] /\ width_n 3 swap_ex /\
  reorder [2; 0; 1] query_ex = mkInst "?" [ACont (Fin 5); ACont (Fin 2); ADisc "w"] None /\
  map (fun x => eucl x query_ex) swap_ex = [Ok (Fin 6); Ok (Fin 2); Ok PInf] /\
  knn_predict eucl swap_ex 1 query_ex = Ok "b" /\ knn_predict eucl (map (reorder [2; 0; 1]) swap_ex) 1 (reorder [2; 0; 1] query_ex) = Ok "b".
Proof.
  split; [apply (Permutation_app_comm [2] [0; 1])|]. split; [repeat constructor|]. split; [reflexivity|]. split; [vm_compute; reflexivity|]. split; vm_compute; reflexivity.
Qed.

(** * k-means *)
Theorem C134_kmeans : forall n p old old' l m, arrangement n p -> width_n n l -> kmeans_train old l = Ok m ->
  exists m', kmeans_train old' (map (reorder p) l) = Ok m' /\ km_prior m' = km_prior m /\ km_means m' = map (reorder p) (km_means m) /\
  forall q, length (attrs q) = n -> kmeans_predict eucl m' (reorder p q) = kmeans_predict eucl m q.
Proof.
  intros n p old old' l m Hp W E. destruct (kmeans_reorder n p Hp old old' l m W E) as (E' & F). eexists. split; [exact E'|]. split; [reflexivity|]. split; [reflexivity|].
  intros q L. destruct m as [prior ms]. exact (kmeans_predict_reorder n p Hp prior ms q F L).
Qed.
Example C134_kmeans_case : arrangement 2 [1; 0] /\ width_n 2 ex_mixed /\
  exists m m', kmeans_train (mkKM [] []) ex_mixed = Ok m /\ kmeans_train (mkKM [] []) (map (reorder [1; 0]) ex_mixed) = Ok m' /\
    map attrs (km_means m) = [[ADisc "x"; ACont (Fin (3 # 3))]; [ADisc "y"; ACont (Fin (8 # 1))]] /\
    map attrs (km_means m') = [[ACont (Fin (3 # 3)); ADisc "x"]; [ACont (Fin (8 # 1)); ADisc "y"]] /\
    kmeans_predict eucl m' (mkInst "" [ACont (Fin 4); ADisc "x"] None) = Ok "a".
Proof.
  split; [apply perm_swap|]. split; [repeat constructor|]. eexists _, _. split; [vm_compute; reflexivity|]. split; [vm_compute; reflexivity|]. split; [vm_compute; reflexivity|]. split; [vm_compute; reflexivity|]. vm_compute; reflexivity.
Qed.

(** * Naive Bayes: any logarithm, any values *)
Theorem C134_bayes_discrete : forall ln std_vec n p l m, arrangement n p -> width_n n l -> all_texts l -> bayes_train std_vec bayes_empty l = Ok m ->
  exists m', bayes_train std_vec bayes_empty (map (reorder p) l) = Ok m' /\
  forall q, length (attrs q) = n ->
    (forall c, bayes_predict ln m q = Ok c -> bayes_predict ln m' (reorder p q) = Ok c) /\
    (forall c r, bayes_metric ln m q c = Ok r -> exists r', bayes_metric ln m' (reorder p q) c = Ok r' /\ deq r r').
Proof.
  intros ln std_vec n p l m Hp W T E. exists (arrange_bayes p m). split; [exact (bayes_disc_reorder n p Hp std_vec bayes_empty l m W T E)|].
  intros q L. split; [intros c; exact (bayes_predict_reorder n p Hp ln m q c L)|intros c r; exact (bayes_metric_reorder n p Hp ln m q c r L)].
Qed.
(** the standard deviations of a class are those of its columns *)
Theorem C134_bayes_continuous : forall ln std_vec n p l m, arrangement n p -> width_n n l -> all_numbers l ->
  (forall c s, In c (map label l) -> std_vec (filter (fun x => String.eqb (label x) c) l) = Ok s ->
     std_vec (filter (fun x => String.eqb (label x) c) (map (reorder p) l)) = Ok (arrange d0 p s)) ->
  bayes_train std_vec bayes_empty l = Ok m ->
  exists m', bayes_train std_vec bayes_empty (map (reorder p) l) = Ok m' /\
  forall q, length (attrs q) = n ->
    (forall c, bayes_predict ln m q = Ok c -> bayes_predict ln m' (reorder p q) = Ok c) /\
    (forall c r, bayes_metric ln m q c = Ok r -> exists r', bayes_metric ln m' (reorder p q) c = Ok r' /\ deq r r').
Proof.
  intros ln std_vec n p l m Hp W T HS E. exists (arrange_bayes p m). split; [exact (bayes_cont_reorder n p Hp std_vec bayes_empty l m W T HS E)|].
  intros q L. split; [intros c; exact (bayes_predict_reorder n p Hp ln m q c L)|intros c r; exact (bayes_metric_reorder n p Hp ln m q c r L)].
Qed.
Definition flat (v w : Q) (c : string) : instance := mkInst c [ACont (Fin v); ACont (Fin w)] None.
Definition flat_ex : list instance := [flat 0 10 "a"; flat 2 20 "a"; flat 6 10 "b"; flat 8 20 "b"].
(** half the range of each column *)
Definition spread (l : ilist) : res (list dbl) :=
  match l with
  | [x; y] => Ok (map (fun ab => match ab with (ACont v, ACont w) => dmul (Fin (1 # 2)) (dsub w v) | _ => NaN end) (combine (attrs x) (attrs y)))
  | _ => UB BadIndex
  end.
Example C134_bayes_case : arrangement 2 [1; 0] /\ all_numbers flat_ex /\ all_texts ex_texts /\
  (forall c s, In c (map label flat_ex) -> spread (filter (fun x => String.eqb (label x) c) flat_ex) = Ok s ->
     spread (filter (fun x => String.eqb (label x) c) (map (reorder [1; 0]) flat_ex)) = Ok (arrange d0 [1; 0] s)) /\
  (exists m m', bayes_train spread bayes_empty flat_ex = Ok m /\ bayes_train spread bayes_empty (map (reorder [1; 0]) flat_ex) = Ok m' /\
     nb_means m = [("a", [Fin (2 # 2); Fin (30 # 2)]); ("b", [Fin (14 # 2); Fin (30 # 2)])] /\
     nb_means m' = [("a", [Fin (30 # 2); Fin (2 # 2)]); ("b", [Fin (30 # 2); Fin (14 # 2)])] /\
     bayes_predict (fun _ => d0) m (flat 3 15 "?") = Ok "a" /\ bayes_predict (fun _ => d0) m' (flat 15 3 "?") = Ok "a") /\
  (exists m', bayes_train spread bayes_empty (map (reorder [1; 0]) ex_texts) = Ok m' /\ bayes_predict (fun v => v) m' (mkInst "" [ADisc "u"; ADisc "y"] None) = Ok "b").
Proof.
  split; [apply perm_swap|]. split; [repeat constructor; eexists; reflexivity|]. split; [repeat constructor; eexists; reflexivity|].
  split; [assert (K : forall c, In c (map label flat_ex) -> c = "a" \/ c = "b") by (cbn; intuition); intros c s Hc E; destruct (K c Hc) as [->| ->]; vm_compute in E; injection E as <-; vm_compute; reflexivity|].
  split; [eexists _, _; split; [vm_compute; reflexivity|]; split; [vm_compute; reflexivity|]; split; [vm_compute; reflexivity|]; split; [vm_compute; reflexivity|]; split; vm_compute; reflexivity|].
  eexists. split; [vm_compute; reflexivity|]. vm_compute; reflexivity.
Qed.

(** * The discriminants, on numbers *)
Theorem C134_lda : forall inverse ln f n p l s, arrangement n p -> log_reads ln f -> inverts n inverse -> uniform (repeat None n) l -> l <> [] -> Forall2 reads l s ->
  (forall c, In c (map label l) -> 2 <= length (members s c)) -> invertible n (pooled_cov s) ->
  exists m m', lda_train inverse ln lda_empty l = Ok m /\ lda_train inverse ln lda_empty (map (reorder p) l) = Ok m' /\
  forall q, Forall2 fits (repeat None n) (attrs q) -> lda_predict m' (reorder p q) = lda_predict m q.
Proof.
  intros inverse ln f n p l s Hp Hln HI HU Hn HR H2 HV. rewrite (reads_sample _ l s HU HR) in *.
  destruct (lda_reorder n p Hp inverse ln f Hln l HU Hn H2 HI HV) as (m & m' & Em & Em' & H). exists m, m'. split; [exact Em|]. split; [exact Em'|]. intros q Hq.
  unfold lda_predict. rewrite (proj1 (lda_train_prior _ _ _ _ _ Em)), (proj1 (lda_train_prior _ _ _ _ _ Em')), prior_reorder. symmetry.
  apply gauss_predict_ext; [reflexivity|]. intros c Hc. apply in_prior in Hc. destruct (H q Hq c Hc) as (r & r' & E & E' & V). exists (Fin r), (Fin r'). split; [exact E|]. split; [exact E'|exact V].
Qed.
Theorem C134_qda : forall inverse determinant ln f n p l s, arrangement n p -> log_reads ln f -> inverts n inverse -> finds_determinant n determinant ->
  uniform (repeat None n) l -> l <> [] -> Forall2 reads l s -> (forall c, In c (map label l) -> 2 <= length (members s c)) ->
  (forall c, In c (map label l) -> invertible n (class_cov s c) /\ (0 < det n (class_cov s c))%Q) ->
  exists m m', qda_train inverse determinant ln qda_empty l = Ok m /\ qda_train inverse determinant ln qda_empty (map (reorder p) l) = Ok m' /\
  forall q, Forall2 fits (repeat None n) (attrs q) -> qda_predict m' (reorder p q) = qda_predict m q.
Proof.
  intros inverse determinant ln f n p l s Hp Hln HI HD HU Hn HR H2 HV. rewrite (reads_sample _ l s HU HR) in *.
  destruct (qda_reorder n p Hp inverse determinant ln f Hln HI HD l HU Hn H2 HV) as (m & m' & Em & Em' & H). exists m, m'. split; [exact Em|]. split; [exact Em'|]. intros q Hq.
  unfold qda_predict. rewrite (proj1 (qda_train_prior _ _ _ _ _ _ Em)), (proj1 (qda_train_prior _ _ _ _ _ _ Em')), prior_reorder. symmetry.
  apply gauss_predict_ext; [reflexivity|]. intros c Hc. apply in_prior in Hc. destruct (H q Hq c Hc) as (r & r' & E & E' & V). exists (Fin r), (Fin r'). split; [exact E|]. split; [exact E'|exact V].
Qed.
(** two features: the textbook inverse and determinant meet the hypotheses *)
Definition det2 (m : list (list dbl)) : dbl := match m with [[Fin a; Fin b]; [Fin c; Fin d]] => Fin (a * d - b * c) | _ => NaN end.
Definition inv2 (m : list (list dbl)) : list (list dbl) :=
  match m with
  | [[Fin a; Fin b]; [Fin c; Fin d]] => let e := (a * d - b * c)%Q in if Qeq_bool e 0 then m else [[Fin (d / e); Fin (- b / e)]; [Fin (- c / e); Fin (a / e)]]
  | _ => m
  end.
Lemma square2 P : square 2 P -> exists a b c d, P = [[a; b]; [c; d]].
Proof.
  intros (L & R). destruct P as [|r [|r' [|? P]]]; try discriminate L. inversion R as [|? ? L1 R']; subst. inversion R' as [|? ? L2 _]; subst.
  destruct r as [|a [|b [|? r]]]; try discriminate L1. destruct r' as [|c [|d [|? r']]]; try discriminate L2. exists a, b, c, d. reflexivity.
Qed.
Lemma inverts2 : inverts 2 inv2.
Proof.
  intros P S HP (HS & HE). destruct (square2 P HP) as (a & b & c & d & ->). destruct (square2 S HS) as (x & y & z & w & ->).
  pose proof (HE 0 0 ltac:(lia) ltac:(lia)) as E1. pose proof (HE 0 1 ltac:(lia) ltac:(lia)) as E2. pose proof (HE 1 0 ltac:(lia) ltac:(lia)) as E3. pose proof (HE 1 1 ltac:(lia) ltac:(lia)) as E4.
  unfold mget in *. cbn in E1, E2, E3, E4.
  assert (N : ~ (a * d - b * c == 0)%Q).
  { intros N. assert (K : ((a * d - b * c) * (x * w - y * z) == (a * x + (b * z + 0)) * (c * y + (d * w + 0)) - (a * y + (b * w + 0)) * (c * x + (d * z + 0)))%Q) by ring. rewrite E1, E2, E3, E4, N in K. lra. }
  exists [[d / (a * d - b * c); - b / (a * d - b * c)]; [- c / (a * d - b * c); a / (a * d - b * c)]]%Q. split.
  - cbn. destruct (Qeq_bool (a * d - b * c) 0) eqn:E; [apply Qeq_bool_iff in E; contradiction|reflexivity].
  - split; [split; [reflexivity|repeat constructor]|]. intros [|[|i]] [|[|j]] Hi Hj; try lia; unfold mget; cbn; field; exact N.
Qed.
Lemma determinant2 : finds_determinant 2 det2.
Proof. intros P HP. destruct (square2 P HP) as (a & b & c & d & ->). eexists. split; [reflexivity|]. unfold mget. cbn. ring. Qed.
Definition plane_ex : ilist := [flat 0 0 "a"; flat 2 0 "a"; flat 0 4 "a"; flat 6 0 "b"; flat 8 0 "b"; flat 6 4 "b"].
Definition plane_s : sample := [("a", [0; 0]); ("a", [2; 0]); ("a", [0; 4]); ("b", [6; 0]); ("b", [8; 0]); ("b", [6; 4])]%Q.
Example C134_discriminants_case : arrangement 2 [1; 0] /\ inverts 2 inv2 /\ finds_determinant 2 det2 /\ uniform (repeat None 2) plane_ex /\ Forall2 reads plane_ex plane_s /\
  (forall c, In c (map label plane_ex) -> 2 <= length (members plane_s c)) /\ invertible 2 (pooled_cov plane_s) /\
  (forall c, In c (map label plane_ex) -> invertible 2 (class_cov plane_s c) /\ (0 < det 2 (class_cov plane_s c))%Q) /\
  exists m', lda_train inv2 (fun _ => d0) lda_empty (map (reorder [1; 0]) plane_ex) = Ok m' /\ lda_predict m' (flat 3 3 "?") = Ok "a" /\ lda_predict m' (flat 3 4 "?") = Ok "b".
Proof.
  split; [apply perm_swap|]. split; [exact inverts2|]. split; [exact determinant2|]. split; [repeat constructor; eexists; reflexivity|]. split; [repeat constructor|].
  assert (K : forall c, In c (map label plane_ex) -> c = "a" \/ c = "b") by (cbn; intuition).
  split; [intros c Hc; destruct (K c Hc) as [->| ->]; vm_compute; lia|].
  split; [exists (mget [[1; 1 # 4]; [1 # 4; 1 # 4]]%Q); intros [|[|i]] [|[|j]] Hi Hj; try lia; vm_compute; reflexivity|].
  split; [|eexists; split; [vm_compute; reflexivity|split; vm_compute; reflexivity]].
  intros c Hc. destruct (K c Hc) as [->| ->]; (split; [|vm_compute; reflexivity]);
    (exists (mget [[1; 1 # 4]; [1 # 4; 1 # 4]]%Q); intros [|[|i]] [|[|j]] Hi Hj; try lia; vm_compute; reflexivity).
Qed.

(** * Trees: of two features that split equally well the first one listed is used *)
Theorem C134_tree_refuted : exists data t t' x, tabular [KCont; KCont] data /\ typed [KCont; KCont] x /\
  tree_train ex_max ex_entropy ex_mid ex_rarr false (Fin (1#5)) 1 2 data = Ok t /\
  tree_train ex_max ex_entropy ex_mid ex_rarr false (Fin (1#5)) 1 2 (map (reorder [1; 0]) data) = Ok t' /\
  tree_predict ex_max t x = Ok "a" /\ tree_predict ex_max t' (reorder [1; 0] x) = Ok "b".
Proof.
  exists [flat 0 0 "a"; flat 2 2 "b"]. eexists _, _, (flat 0 2 "?"). split; [repeat constructor; eexists; reflexivity|]. split; [repeat constructor; eexists; reflexivity|].
  split; [vm_compute; reflexivity|]. split; [vm_compute; reflexivity|]. split; vm_compute; reflexivity.
Qed.
Print Assumptions C134_distance.
Print Assumptions C134_knn.
Print Assumptions C134_kmeans.
Print Assumptions C134_bayes_discrete.
Print Assumptions C134_bayes_continuous.
Print Assumptions C134_lda.
Print Assumptions C134_qda.
Print Assumptions C134_tree_refuted.
