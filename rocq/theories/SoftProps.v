(** Properties of the soft decision tree (C80, C81, C96, C97). *)
From Coq Require Import String ZArith QArith Qabs Bool Lia Lra Lqa Permutation List.
From Verif Require Import Base Spec BaseLemmas DblLemmas AttrModel AttrProofs DataSetModel InstanceListModel PartitionModel PerformanceModel DistanceModel GaussianModel
  TreeModel ListSpec ListProofs PartitionProofs PerformanceProofs GaussianProofs SvmSpec KernelProofs SolverInvProofs SvmTrainProofs NetModel NetSpec NetProofs NetTrainProofs NetProps
  SoftModel SoftSpec SoftProofs SoftTrainProofs SoftGradProofs.
Import ListNotations.
Local Open Scope string_scope.
Local Open Scope list_scope.
Local Open Scope nat_scope.

(** * C80: the answer of a soft tree *)
Lemma gate_range dexp e d x g : exp_like dexp e -> (0 < go_left e d x g /\ go_left e d x g < 1)%Q.
Proof.
  intros He. unfold go_left. match goal with |- context [e ?z] => pose proof (exp_pos _ _ He z) as H; set (y := e z) in *; clearbody y end.
  split; [apply Qlt_shift_div_l; lra|apply Qlt_shift_div_r; lra].
Qed.
Lemma leaf_weights dexp e d x : exp_like dexp e -> forall t, Forall (fun la => 0 < fst la)%Q (leaves e d x t) /\ (qsum (map fst (leaves e d x t)) == 1)%Q.
Proof.
  intros He. induction t as [a|g l (IHl & Sl) r (IHr & Sr)]; cbn [leaves].
  - split; [repeat constructor|]. reflexivity.
  - destruct (gate_range dexp e d x g He) as (H0 & H1). assert (forall k ls, (qsum (map fst (map (fun la : Q * (nat -> Q) => (k * fst la, snd la)) ls)) == k * qsum (map fst ls))%Q) as Hsc.
    { intros k ls. induction ls as [|la ls IH]; cbn [map]; unfold qsum in *; cbn [fold_right fst]; [ring|]. rewrite IH. ring. }
    split.
    + apply Forall_app. split; apply Forall_map; [eapply Forall_impl, IHl|eapply Forall_impl, IHr]; intros la H; cbn [fst]; cbv beta in H; (apply Qmult_lt_0_compat; [lra|exact H]).
    + rewrite map_app, qsum_app, !Hsc, Sl, Sr. ring.
Qed.
Lemma convex (ls : list (Q * (nat -> Q))) c lo hi : Forall (fun la => 0 < fst la)%Q ls -> (forall la, In la ls -> lo <= snd la c /\ snd la c <= hi)%Q ->
  (lo * qsum (map fst ls) <= qsum (map (fun la => fst la * snd la c) ls) /\ qsum (map (fun la => fst la * snd la c) ls) <= hi * qsum (map fst ls))%Q.
Proof.
  induction ls as [|[w a] ls IH]; intros Hp Hb; unfold qsum in *; cbn [map fold_right fst snd]; [lra|]. inversion Hp as [|? ? Hw Hp']; subst. cbn [fst] in Hw.
  destruct (IH Hp' (fun la H => Hb la (or_intror H))) as (H1 & H2). destruct (Hb (w, a) (or_introl eq_refl)) as (H3 & H4). cbn [snd] in *.
  set (s := fold_right Qplus 0%Q (map fst ls)) in *. set (u := fold_right Qplus 0%Q (map (fun la : Q * (nat -> Q) => fst la * snd la c)%Q ls)) in *.
  assert (0 <= w * (a c - lo))%Q by (apply Qmult_le_0_compat; lra). assert (0 <= w * (hi - a c))%Q by (apply Qmult_le_0_compat; lra). split; lra.
Qed.
(** for every stored tree: the output is the expected answer of the leaves, weighted by positive numbers that sum to one, so it
    lies between the smallest and the largest answer *)
Theorem C80_output : forall dexp e k d t q x f, exp_like dexp e -> is_tree k d t q -> is_vec x d f ->
  exists o t', soft_output dexp x t = Ok (o, t') /\ is_vec o k (expected e d f q) /\ same_tree t t' /\
    Forall (fun la => 0 < fst la)%Q (leaves e d f q) /\ (qsum (map fst (leaves e d f q)) == 1)%Q /\
    forall c lo hi, (forall la, In la (leaves e d f q) -> lo <= snd la c /\ snd la c <= hi)%Q -> (lo <= expected e d f q c /\ expected e d f q c <= hi)%Q.
Proof.
  intros dexp e k d t q x f He T Hx. destruct (soft_outputP dexp e k d x f He Hx t q T) as (o & t' & E & V & _). exists o, t'. split; [exact E|]. split; [exact V|]. split; [eapply soft_output_keeps, E|].
  destruct (leaf_weights dexp e d f He q) as (Hp & Hs). split; [exact Hp|]. split; [exact Hs|]. intros c lo hi Hb. destruct (convex _ c lo hi Hp Hb) as (H1 & H2). rewrite Hs in H1, H2. unfold expected. lra.
Qed.
(** the predicted label is the first with the largest expected answer, and the prediction leaves a tree that answers the same *)
Theorem C80_predict : forall dexp e d m q x f, exp_like dexp e -> so_labels m <> [] -> is_tree (length (so_labels m)) d (so_root m) q -> is_vec (inst_vector x) d f ->
  exists c m', soft_predict dexp m x = Ok (c, m') /\ first_best (so_labels m) (fun _ => True) (expected e d f q) c /\
    so_labels m' = so_labels m /\ is_tree (length (so_labels m)) d (so_root m') q.
Proof.
  intros dexp e d m q x f He Hl T Hx. destruct (soft_outputP dexp e _ d _ f He Hx (so_root m) q T) as (o & t' & E & V & T'). unfold soft_predict. rewrite E. cbn [bind fst snd].
  destruct (max_index_val (expected e d f q) o _ V) as (i & Ei & Hi & H1 & H2). { destruct (so_labels m); [congruence|cbn; lia]. }
  assert (arg_max o = Ok i) as -> by (destruct o; [discriminate Ei|exact Ei]). cbn [bind]. destruct (nth_error (so_labels m) i) as [c|] eqn:Ec; [|apply nth_error_None in Ec; lia].
  eexists _, _. split; [reflexivity|]. split; [|split; [reflexivity|exact T']]. exists i. split; [exact Ec|]. split; [exact I|]. split.
  - intros j c' Ej _. apply H1. apply nth_error_Some. congruence.
  - intros j c' Hj _ _. apply H2, Hj.
Qed.
Lemma fine_of labels d l : continuous_data d l -> labelled labels l -> Forall (fine labels d) l.
Proof. unfold continuous_data, labelled. rewrite !Forall_forall. intros H1 H2 x Hx. destruct (H1 x Hx) as (A & B). repeat split; auto. Qed.
Lemma labels_nonempty l : l <> [] -> distinct_labels l <> [].
Proof. intros H E. destruct l as [|x l]; [congruence|]. assert (In (label x) (distinct_labels (x :: l))) as Hi by (apply distinct_in; left; reflexivity). rewrite E in Hi. exact Hi. Qed.
Lemma train_lists dexp rarr perm rnd l par d q tr va : l <> [] -> continuous_data d l -> part_strat rarr (Fin q) (sp_seed par) l = Ok [va; tr] -> sp_ratio par = Fin q ->
  exists root k, node_out (length (distinct_labels l)) d root /\ forall fuel, soft_train dexp rarr perm rnd fuel l par =
    do st <- grow dexp perm rnd (distinct_labels l) par va fuel [] (SLeaf root, tr, k); Ok (mkSoft (distinct_labels l) (fst (fst st))).
Proof.
  intros Hn Hc Ep Er. destruct (new_node_ok (distinct_labels l) d rnd l 0 eq_refl) as (root & k & En & On). { apply fine_of; [exact Hc|]. apply Forall_forall. intros x Hx. apply distinct_in, in_map, Hx. } { exact Hn. }
  exists root, k. split; [exact On|]. intros fuel. unfold soft_train. rewrite En. cbn [bind]. rewrite Er. unfold split_lists. rewrite Ep. reflexivity.
Qed.
(** C97: training succeeds when every class is left in the training part: every node has one response per class and one gate weight
    per feature, so C80_output applies to it *)
Theorem C97_train_partial : forall dexp rarr perm rnd l par d q tr va fuel, (forall n seed, Permutation (rarr n seed) (seq 0 n)) -> (forall seed n, Permutation (perm seed n) (seq 0 n)) ->
  l <> [] -> continuous_data d l -> sp_ratio par = Fin q -> part_strat rarr (Fin q) (sp_seed par) l = Ok [va; tr] -> covers tr l -> (Z.of_nat (length va) < 2147483647)%Z -> length va < fuel ->
  exists m, soft_train dexp rarr perm rnd fuel l par = Ok m /\ so_labels m = distinct_labels l /\ laid_out (length (so_labels m)) d (so_root m).
Proof.
  intros dexp rarr perm rnd l par d q tr va fuel Hr Hp Hn Hc Er Ep Hcov Hint Hf. destruct (train_lists dexp rarr perm rnd l par d q tr va Hn Hc Ep Er) as (root & k & On & Et). rewrite Et.
  destruct (part_strat_spec rarr q (sp_seed par) l (Hr _ _)) as (g0 & g1 & E0 & P & _). rewrite Ep in E0. injection E0 as <- <-.
  assert (forall x, In x va \/ In x tr -> In x l) as Hin. { intros x Hx. eapply Permutation_in; [exact P|]. apply in_app_iff. exact Hx. }
  assert (Forall (fine (distinct_labels l) d) l) as Hfl. { apply fine_of; [exact Hc|]. apply Forall_forall. intros x Hx. apply distinct_in, in_map, Hx. }
  rewrite Forall_forall in Hfl. assert (Forall (fine (distinct_labels l) d) va) as Hva by (apply Forall_forall; intros; apply Hfl, Hin; auto). assert (Forall (fine (distinct_labels l) d) tr) as Htr by (apply Forall_forall; intros; apply Hfl, Hin; auto).
  assert (tells (distinct_labels l) d tr) as Tr. { split; [exact Htr|]. intros c Hi. apply distinct_in, in_map_iff in Hi. destruct Hi as (x & <- & Hx). exact (Hcov x Hx). }
  destruct (soft_error_ok dexp (distinct_labels l) d (distinct_nodup l) (labels_nonempty l Hn) (SLeaf root) va On Hva) as (n & t' & _ & _ & Hle & Hm).
  destruct (grow_ok dexp (distinct_labels l) d (distinct_nodup l) (labels_nonempty l Hn) perm Hp par va Hva Hint rnd fuel (SLeaf root) [] root tr k n On eq_refl Tr Hm ltac:(lia)) as (t2 & data' & k' & after & Eg & Lt & _).
  rewrite Eg. cbn [bind fst]. eexists. split; [reflexivity|]. split; [reflexivity|exact Lt].
Qed.
(** otherwise -- in particular when a class has a single instance, which always goes to the validation part -- the new leaves
    have fewer responses than there are classes and training reads beyond the end of them *)
Lemma short_output dexp x n a b : length (biased x) = length (s_w n) -> length (s_w0s a) < length (s_outputs n) -> soft_output dexp x (SNode n (SLeaf a) (SLeaf b)) = UB BadIndex \/ length (s_w0s b) < length (s_w0s a).
Proof.
  intros Hw Ha. destruct (Nat.lt_ge_cases (length (s_w0s b)) (length (s_w0s a))) as [|Hb]; [right; assumption|left]. cbn [soft_output]. unfold vdot_chk. rewrite Hw, Nat.eqb_refl. cbn [bind fst snd].
  set (f := fun i => _). assert (forall m s, s + m = length (s_outputs n) -> s <= length (s_w0s a) -> 0 < m -> mapM f (seq s m) = UB BadIndex) as H.
  { induction m as [|m IH]; intros s Es Hs Hm; [lia|]. cbn [seq mapM]. destruct (Nat.eq_dec s (length (s_w0s a))) as [He|Hne].
    - unfold f at 1, idxn at 1. rewrite (proj2 (nth_error_None _ _)) by lia. reflexivity.
    - destruct (idxn_lt (s_w0s a) s) as (u & Eu); [lia|]. destruct (idxn_lt (s_w0s b) s) as (v & Ev); [lia|]. unfold f at 1. rewrite Eu, Ev. cbn [bind]. rewrite IH by lia. reflexivity. }
  rewrite H by lia. reflexivity.
Qed.
Theorem C97_missing_class_refuted : forall dexp rarr perm rnd l par d q tr va fuel, (forall n seed, Permutation (rarr n seed) (seq 0 n)) -> (forall seed n, Permutation (perm seed n) (seq 0 n)) ->
  l <> [] -> continuous_data d l -> sp_ratio par = Fin q -> part_strat rarr (Fin q) (sp_seed par) l = Ok [va; tr] -> ~ covers tr l -> tr <> [] -> 0 < fuel ->
  soft_train dexp rarr perm rnd fuel l par = UB BadIndex.
Proof.
  intros dexp rarr perm rnd l par d q tr va fuel Hr Hp Hn Hc Er Ep Hcov Htn Hf. destruct (train_lists dexp rarr perm rnd l par d q tr va Hn Hc Ep Er) as (root & k & On & Et). rewrite Et.
  destruct (part_strat_spec rarr q (sp_seed par) l (Hr _ _)) as (g0 & g1 & E0 & P & _). rewrite Ep in E0. injection E0 as <- <-.
  assert (forall x, In x va \/ In x tr -> In x l) as Hin. { intros x Hx. eapply Permutation_in; [exact P|]. apply in_app_iff. exact Hx. }
  assert (Forall (fine (distinct_labels l) d) l) as Hfl. { apply fine_of; [exact Hc|]. apply Forall_forall. intros x Hx. apply distinct_in, in_map, Hx. }
  rewrite Forall_forall in Hfl. assert (Forall (fine (distinct_labels l) d) va) as Hva by (apply Forall_forall; intros; apply Hfl, Hin; auto). assert (Forall (fine (distinct_labels l) d) tr) as Htr by (apply Forall_forall; intros; apply Hfl, Hin; auto).
  destruct (soft_error_ok dexp (distinct_labels l) d (distinct_nodup l) (labels_nonempty l Hn) (SLeaf root) va On Hva) as (n & t' & Ee & Ss & _).
  destruct fuel as [|fuel]; [lia|]. cbn [grow]. unfold find_split at 1. cbn [sub bind]. rewrite Ee. cbn [bind snd]. destruct t' as [r1|]; [|contradiction].
  assert (length (distinct_labels tr) < length (distinct_labels l)) as HK.
  { destruct (Nat.lt_ge_cases (length (distinct_labels tr)) (length (distinct_labels l))) as [|Hge]; [assumption|exfalso]. apply Hcov. intros x Hx.
    assert (incl (distinct_labels tr) (distinct_labels l)) as I1. { intros c Hi. apply distinct_in, in_map_iff in Hi. destruct Hi as (y & <- & Hy). apply distinct_in, in_map, Hin. auto. }
    pose proof (NoDup_length_incl (distinct_nodup tr) Hge I1) as I2. assert (In (label x) (distinct_labels tr)) as Hi by (apply I2, distinct_in, in_map, Hx).
    apply distinct_in, in_map_iff in Hi. destruct Hi as (y & E & Hy). eauto. }
  assert (va <> []) as Hvn. { intros ->. cbn in P. apply Hcov. intros x Hx. exists x. split; [eapply Permutation_in; [symmetry; exact P|exact Hx]|reflexivity]. }
  assert (forall k, exists a k', new_node rnd tr k = Ok (a, k') /\ length (s_w0s a) = length (distinct_labels tr)) as Hnew.
  { intros k0. unfold new_node. destruct tr as [|x0 tr']; [congruence|]. cbn [atn nth_error bind]. eexists _, _. split; [reflexivity|]. unfold draw. cbn. rewrite map_length, seq_length. reflexivity. }
  destruct (Hnew k) as (a & ka & Ea & La). destruct (Hnew ka) as (b & kb & Eb & Lb). destruct (Hnew kb) as (c1 & k1 & E1 & _). destruct (Hnew k1) as (c2 & k2 & E2 & _). destruct (Hnew k2) as (c3 & k3 & E3 & _). destruct (Hnew k3) as (c4 & k4 & E4 & _).
  unfold create_node. rewrite Ea. cbn [bind snd fst]. rewrite Eb. cbn [bind snd fst]. rewrite E1. cbn [bind snd fst]. rewrite E2. cbn [bind snd fst]. rewrite E3. cbn [bind snd fst]. rewrite E4. cbn [bind snd fst s_node copy_from put].
  set (t := SNode r1 (SLeaf a) (SLeaf b)). destruct Ss as (Sa & Sb & Sc). destruct On as (O1 & O2 & O3).
  assert (forall x, fine (distinct_labels l) d x -> soft_output dexp (inst_vector x) t = UB BadIndex) as Hub.
  { intros x Hx. destruct (short_output dexp (inst_vector x) r1 a b) as [H|H]; [|lia|exact H|lia]. cbn. rewrite (fine_vector _ _ _ Hx). congruence. }
  change (seq 0 11) with (0 :: seq 1 10). cbn [foldM]. unfold split_round at 1.
  assert (forall X, (do g <- descent dexp perm (distinct_labels l) par [] (eta_of 0) (t, tr); do e <- soft_error dexp (distinct_labels l) va (fst g); X g e) = (UB BadIndex : res (stree * ilist * Z * params))) as Hx0.
  { intros X. unfold descent. destruct tr as [|x0 tr'] eqn:Etr; [congruence|]. rewrite <- Etr in *. cbn [fst snd]. assert (atn tr 0 = Ok x0) as -> by (rewrite Etr; reflexivity). cbn [bind].
    destruct (sp_epochs par) as [|ep]. 
    - cbn [seq foldM bind fst snd g_tree]. destruct va as [|v0 va']; [congruence|]. inversion Hva as [|? ? Hv0 _]; subst. unfold soft_error. cbn [foldM]. unfold class_index. rewrite (proj2 (mem_str_in _ _) (proj1 Hv0)). cbn [bind snd]. rewrite (Hub v0 Hv0). reflexivity.
    - cbn [seq foldM]. pose proof (shuffle_perm_ perm Hp (sp_seed par) tr) as Pp. destruct (shuffle perm (sp_seed par) tr) as [|y ys] eqn:Ey. { apply Permutation_nil in Pp. rewrite Etr in Pp. discriminate. }
      assert (fine (distinct_labels l) d y) as Hy. { rewrite Forall_forall in Htr. apply Htr. eapply Permutation_in; [exact Pp|left; reflexivity]. }
      cbn [foldM]. unfold grad_inst at 1. cbn [g_tree]. rewrite (Hub y Hy). reflexivity. }

  rewrite Hx0. reflexivity.
Qed.
(** a trained soft tree cannot give class probabilities: the inherited method answers an empty map for a single leaf and
    dereferences a null pointer otherwise *)
Theorem C97_probability_refuted : forall x, (forall n, node_probability (as_tree (SLeaf n)) x = Ok []) /\ (forall n l r, node_probability (as_tree (SNode n l r)) x = UB NullDeref).
Proof. intros x. split; [intros n; reflexivity|]. intros n l r. destruct l; reflexivity. Qed.

(** * C81: growing *)
(** one attempt to split a leaf: eleven candidates are trained, the first with the fewest validation errors is the best; the
    split is kept, in the form of that candidate, exactly when it makes fewer errors than the tree did, and otherwise the tree
    answers as before *)
Theorem C81_split : forall dexp perm rnd labels d par cv data t p n k, (forall seed n, Permutation (perm seed n) (seq 0 n)) -> NoDup labels -> labels <> [] ->
  continuous_data d cv -> labelled labels cv -> (Z.of_nat (length cv) < 2147483647)%Z -> continuous_data d data -> labelled labels data -> exhausts labels data ->
  laid_out (length labels) d t -> sub t p = Ok (SLeaf n) ->
  exists kept t' data' k', find_split dexp perm rnd labels par cv p (t, data, k) = Ok (kept, (t', data', k')) /\ laid_out (length labels) d t' /\ Permutation data' data /\
    exists before start cs c best, mistakes dexp labels t cv before /\ split_of t p start /\ candidates dexp perm labels par cv data p start cs /\ best_of cs c best /\
      if kept then best < before /\ mistakes dexp labels t' cv best /\ same_tree c t' else before <= best /\ same_tree t t'.
Proof.
  intros dexp perm rnd labels d par cv data t p n k Hp Hnd Hne Hc1 Hl1 Hint Hc2 Hl2 Hex L Es.
  destruct (find_split_ok dexp labels d Hnd Hne perm Hp par cv (fine_of _ _ _ Hc1 Hl1) Hint rnd t p n data k L Es (conj (fine_of _ _ _ Hc2 Hl2) Hex)) as (r & t' & data' & k' & E & L' & _ & P & before & start & cs & c & best & H1 & H2 & H3 & H4 & H5).
  exists r, t', data', k'. split; [exact E|]. split; [exact L'|]. split; [exact P|]. exists before, start, cs, c, best. repeat (split; [assumption|]). destruct r; [|exact H5]. destruct H5 as (H5 & H6 & _). split; [exact H5|]. split; [|exact H6].
  eapply mistakes_same; [exact H6|]. eapply candidate_mistakes; eassumption.
Qed.
(** training ends: the recursion is at most one deeper than the number of validation instances, and every split kept removed a
    validation error *)
Theorem C81_terminates : forall dexp rarr perm rnd l par d q tr va fuel, (forall n seed, Permutation (rarr n seed) (seq 0 n)) -> (forall seed n, Permutation (perm seed n) (seq 0 n)) ->
  l <> [] -> continuous_data d l -> sp_ratio par = Fin q -> part_strat rarr (Fin q) (sp_seed par) l = Ok [va; tr] -> covers tr l -> (Z.of_nat (length va) < 2147483647)%Z -> length va < fuel ->
  exists m first before after, soft_train dexp rarr perm rnd fuel l par = Ok m /\
    mistakes dexp (distinct_labels l) (SLeaf first) va before /\ mistakes dexp (distinct_labels l) (so_root m) va after /\ after + splits (so_root m) <= before /\ before <= length va.
Proof.
  intros dexp rarr perm rnd l par d q tr va fuel Hr Hp Hn Hc Er Ep Hcov Hint Hf. destruct (train_lists dexp rarr perm rnd l par d q tr va Hn Hc Ep Er) as (root & k & On & Et). rewrite Et.
  destruct (part_strat_spec rarr q (sp_seed par) l (Hr _ _)) as (g0 & g1 & E0 & P & _). rewrite Ep in E0. injection E0 as <- <-.
  assert (forall x, In x va \/ In x tr -> In x l) as Hin. { intros x Hx. eapply Permutation_in; [exact P|]. apply in_app_iff. exact Hx. }
  assert (Forall (fine (distinct_labels l) d) l) as Hfl. { apply fine_of; [exact Hc|]. apply Forall_forall. intros x Hx. apply distinct_in, in_map, Hx. }
  rewrite Forall_forall in Hfl. assert (Forall (fine (distinct_labels l) d) va) as Hva by (apply Forall_forall; intros; apply Hfl, Hin; auto). assert (Forall (fine (distinct_labels l) d) tr) as Htr by (apply Forall_forall; intros; apply Hfl, Hin; auto).
  assert (tells (distinct_labels l) d tr) as Tr. { split; [exact Htr|]. intros c Hi. apply distinct_in, in_map_iff in Hi. destruct Hi as (x & <- & Hx). exact (Hcov x Hx). }
  destruct (soft_error_ok dexp (distinct_labels l) d (distinct_nodup l) (labels_nonempty l Hn) (SLeaf root) va On Hva) as (n & t' & _ & _ & Hle & Hm).
  destruct (grow_ok dexp (distinct_labels l) d (distinct_nodup l) (labels_nonempty l Hn) perm Hp par va Hva Hint rnd fuel (SLeaf root) [] root tr k n On eq_refl Tr Hm ltac:(lia)) as (t2 & data' & k' & after & Eg & Lt & _ & _ & Hm2 & _ & Hsp).
  rewrite Eg. cbn [bind fst]. exists (mkSoft (distinct_labels l) t2), root, n, after. split; [reflexivity|]. split; [exact Hm|]. split; [exact Hm2|]. cbn in Hsp |- *. split; lia.
Qed.

(** Training tries every node that there ever is exactly once, parents first: the leaves of the trained tree are the nodes whose
    split was rejected, its inner nodes those whose split was kept. *)
Theorem C81_every_node_tried : forall dexp rarr perm rnd l par d q tr va fuel m, (forall n seed, Permutation (rarr n seed) (seq 0 n)) -> (forall seed n, Permutation (perm seed n) (seq 0 n)) ->
  l <> [] -> continuous_data d l -> sp_ratio par = Fin q -> part_strat rarr (Fin q) (sp_seed par) l = Ok [va; tr] -> covers tr l -> (Z.of_nat (length va) < 2147483647)%Z -> length va < fuel ->
  soft_train dexp rarr perm rnd fuel l par = Ok m ->
  exists first k tries data' k', attempts dexp perm rnd (distinct_labels l) par va (SLeaf first, tr, k) tries (so_root m, data', k') /\ NoDup (map fst tries) /\
    forall p kept, In (p, kept) tries <-> kind_at (so_root m) p = Some kept.
Proof.
  intros dexp rarr perm rnd l par d q tr va fuel m Hr Hp Hn Hc Er Ep Hcov Hint Hf E. destruct (train_lists dexp rarr perm rnd l par d q tr va Hn Hc Ep Er) as (root & k & On & Et). rewrite Et in E.
  destruct (part_strat_spec rarr q (sp_seed par) l (Hr _ _)) as (g0 & g1 & E0 & P & _). rewrite Ep in E0. injection E0 as <- <-.
  assert (forall x, In x va \/ In x tr -> In x l) as Hin. { intros x Hx. eapply Permutation_in; [exact P|]. apply in_app_iff. exact Hx. }
  assert (Forall (fine (distinct_labels l) d) l) as Hfl. { apply fine_of; [exact Hc|]. apply Forall_forall. intros x Hx. apply distinct_in, in_map, Hx. }
  rewrite Forall_forall in Hfl. assert (Forall (fine (distinct_labels l) d) va) as Hva by (apply Forall_forall; intros; apply Hfl, Hin; auto). assert (Forall (fine (distinct_labels l) d) tr) as Htr by (apply Forall_forall; intros; apply Hfl, Hin; auto).
  assert (tells (distinct_labels l) d tr) as Tr. { split; [exact Htr|]. intros c Hi. apply distinct_in, in_map_iff in Hi. destruct Hi as (x & <- & Hx). exact (Hcov x Hx). }
  destruct (soft_error_ok dexp (distinct_labels l) d (distinct_nodup l) (labels_nonempty l Hn) (SLeaf root) va On Hva) as (n & t' & _ & _ & Hle & Hm).
  apply bind_ok in E. destruct E as ([[t2 data'] k'] & Eg & E). injection E as <-.
  destruct (grow_tries dexp (distinct_labels l) d (distinct_nodup l) (labels_nonempty l Hn) perm Hp par va Hva Hint rnd fuel (SLeaf root) [] root tr k n t2 data' k' On eq_refl Tr Hm ltac:(lia) Eg) as (tries & A & N & H).
  exists root, k, tries, data', k'. split; [exact A|]. split; [exact N|]. intros p kept. rewrite H. cbn [so_root fst app]. split; [intros (s & -> & Hs); exact Hs|intros Hs; exists p; split; [reflexivity|exact Hs]].
Qed.

(** * C96: one training step *)
(** the responses of the two leaves take a gradient step (with momentum); the gate takes the step that would be right if the
    leaves answered with their scratch outputs *)
Theorem C96_step_partial : forall dexp e labels d alpha qa eta qe p st x f q g al ar n a b ul ur pl pr pw,
  exp_like dexp e -> deq alpha (Fin qa) -> deq eta (Fin qe) -> In (label x) labels -> length (attrs x) = d -> Forall (fun a => exists v, a = ACont v) (attrs x) -> is_vec (inst_vector x) d f ->
  laid_out (length labels) d (g_tree st) -> is_tree (length labels) d (g_tree st) q -> node_at q p = Some (QNode g (QLeaf al) (QLeaf ar)) ->
  sub (g_tree st) p = Ok (SNode n (SLeaf a) (SLeaf b)) -> is_vec (s_outputs a) (length labels) ul -> is_vec (s_outputs b) (length labels) ur ->
  is_vec (g_l st) (length labels) pl -> is_vec (g_r st) (length labels) pr -> is_vec (g_w st) (S d) pw ->
  let r := find_pos (label x) labels in
  let k := length labels in
  exists st' n' a' b', grad_inst dexp labels alpha eta p st x = Ok st' /\ sub (g_tree st') p = Ok (SNode n' (SLeaf a') (SLeaf b')) /\
    is_vec (s_w0s a') k (fun c => al c + (qe * leaf_gradient e d f k r q (p ++ [false]) c + qa * pl c))%Q /\
    is_vec (s_w0s b') k (fun c => ar c + (qe * leaf_gradient e d f k r q (p ++ [true]) c + qa * pr c))%Q /\
    is_vec (s_w n') (S d) (fun j => g j + (qe * gate_gradient e d f k r q p g ul ur j + qa * pw j))%Q /\
    is_vec (g_l st') k (fun c => qe * leaf_gradient e d f k r q (p ++ [false]) c)%Q /\
    is_vec (g_r st') k (fun c => qe * leaf_gradient e d f k r q (p ++ [true]) c)%Q /\
    is_vec (g_w st') (S d) (fun j => qe * gate_gradient e d f k r q p g ul ur j)%Q /\
    s_outputs a' = s_outputs a /\ s_outputs b' = s_outputs b.
Proof.
  intros dexp e labels d alpha qa eta qe p st x f q g al ar n a b ul ur pl pr pw He Ha Hq Hl Hd Hc Hx L T En Es H1 H2 H3 H4 H5 r k.
  destruct (step_numbers dexp e labels d alpha qa eta qe p st x f q g al ar n a b ul ur pl pr pw He Ha Hq Hl Hd Hc Hx L T En Es H1 H2 H3 H4 H5) as (st' & n' & a' & b' & G1 & G2 & G3 & G4 & G5 & G6 & G7 & G8 & G9 & G10 & _).
  exists st', n', a', b'. repeat (split; [assumption|]). assumption.
Qed.
(** no training step of a leaf's parent writes those scratch outputs: they stay what the constructor drew at random *)
Theorem C96_outputs_fixed : forall dexp perm labels d par p eta t n a b data, (forall seed n, Permutation (perm seed n) (seq 0 n)) ->
  laid_out (length labels) d t -> sub t p = Ok (SNode n (SLeaf a) (SLeaf b)) -> continuous_data d data -> labelled labels data -> data <> [] ->
  exists t' data' n' a' b', descent dexp perm labels par p eta (t, data) = Ok (t', data') /\ sub t' p = Ok (SNode n' (SLeaf a') (SLeaf b')) /\ s_outputs a' = s_outputs a /\ s_outputs b' = s_outputs b.
Proof.
  intros dexp perm labels d par p eta t n a b data Hp L Es Hc Hl Hn.
  destruct (descent_ok dexp labels d perm Hp par p t (s_w0s n) a b eta data L) as (t' & data' & E & _ & _ & (n' & a' & b' & Es' & _ & (_ & Ha) & (_ & Hb)) & _); auto using fine_of.
  { exists n, a, b. repeat split; auto. }
  exists t', data', n', a', b'. auto.
Qed.
(** so the gate step is not the gradient: here the gradient is positive and the gate does not move *)
Theorem C96_gate_refuted : forall dexp e, exp_like dexp e ->
  exists labels st x f q g al ar n a b, In (label x) labels /\ is_vec (inst_vector x) 1 f /\ laid_out 2 1 (g_tree st) /\ is_tree 2 1 (g_tree st) q /\ node_at q [] = Some (QNode g (QLeaf al) (QLeaf ar)) /\
    sub (g_tree st) [] = Ok (SNode n (SLeaf a) (SLeaf b)) /\
    (0 < gate_gradient e 1 f 2 (find_pos (label x) labels) q [] g al ar 0)%Q /\
    exists st' n' a' b', grad_inst dexp labels d0 d1 [] st x = Ok st' /\ sub (g_tree st') [] = Ok (SNode n' (SLeaf a') (SLeaf b')) /\ is_vec (s_w n') 2 g.
Proof.
  intros dexp e He. set (z := fun _ : nat => 0%Q). set (v2 := [Fin 0; Fin 0]). set (al := fun c => match c with O => 1%Q | _ => 0%Q end). set (ar := fun c => match c with 1 => 1%Q | _ => 0%Q end).
  set (a := mkSn [Fin 1; Fin 0] v2 v2 d0). set (b := mkSn [Fin 0; Fin 1] v2 v2 d0). set (n := mkSn v2 v2 v2 d0). set (q := QNode z (QLeaf al) (QLeaf ar)).
  set (st := mkG (SNode n (SLeaf a) (SLeaf b)) v2 v2 v2). set (x := num "a" [1%Q]).
  assert (is_vec v2 2 z) as Hv2. { split; [reflexivity|]. intros [|[|i]] Hi; try lia; reflexivity. }
  assert (is_tree 2 1 (g_tree st) q) as T. { cbn. split; [exact Hv2|]. split; [reflexivity|]. split; (split; [reflexivity|]; intros [|[|i]] Hi; try lia; reflexivity). }
  assert (laid_out 2 1 (g_tree st)) as L by (cbn; repeat split).
  assert (is_vec (inst_vector x) 1 (fun _ => 1%Q)) as Hx. { split; [reflexivity|]. intros [|i] Hi; [reflexivity|lia]. }
  exists ["a"; "b"], st, x, (fun _ => 1%Q), q, z, al, ar, n, a, b. split; [left; reflexivity|]. split; [exact Hx|]. split; [exact L|]. split; [exact T|]. split; [reflexivity|]. split; [reflexivity|]. split.
  - unfold gate_gradient. change (find_pos (label x) ["a"; "b"]) with 0. destruct (gate_range dexp e 1 (fun _ => 1%Q) z He) as (G0 & G1). set (gl := go_left e 1 (fun _ => 1%Q) z) in *.
    cbn [reach with_bias]. unfold sum_over. cbn [seq map al ar]. unfold slope, softmax. cbn [Nat.eqb]. set (o := expected e 1 (fun _ => 1%Q) q). unfold sum_over. cbn [seq map]. unfold qsum. cbn [fold_right].
    pose proof (exp_pos _ _ He (o O)) as P0. pose proof (exp_pos _ _ He (o 1%nat)) as P1. set (e0 := e (o O)) in *. set (e1 := e (o 1%nat)) in *. clearbody e0 e1 gl.
    setoid_replace ((((1 - e0 / (e0 + (e1 + 0))) * (1 - 0) + ((0 - e1 / (e0 + (e1 + 0))) * (0 - 1) + 0)) * 1 * (gl * (1 - gl)) * 1))%Q with ((2 * e1 / (e0 + e1)) * (gl * (1 - gl)))%Q by (field; lra).
    apply Qmult_lt_0_compat; [apply Qlt_shift_div_l; lra|apply Qmult_lt_0_compat; lra].
  - destruct (step_numbers dexp e ["a"; "b"] 1 d0 0%Q d1 1%Q [] st x (fun _ => 1%Q) q z al ar n a b z z z z z He (Qeq_refl _) (Qeq_refl _)) as (st' & n' & a' & b' & E & Es & _ & _ & Hw & _); auto.
    { left; reflexivity. } { repeat constructor; eexists; reflexivity. }
    exists st', n', a', b'. split; [exact E|]. split; [exact Es|]. eapply (vecP_ext valP valP_closed); [|exact Hw]. intros i Hi. unfold gate_gradient.
    rewrite (sum_zero (length ["a"; "b"])) by (intros c _; unfold z; ring). unfold z. ring.
Qed.

(** * Examples *)
(** numbers that a generator may return: they make the first split separate the classes *)
Definition rnd_ex (k : nat) : dbl := match k with 5 => Fin 5 | 6 => Fin 1 | 13 => Fin 1 | _ => Fin ((Z.of_nat (Nat.modulo k 3) - 1) # 100) end.
Definition soft_data : ilist := [num "a" [1]; num "b" [-1]; num "a" [2]; num "b" [-2]]%Q.
Definition soft_par : soft_param := mkSPar 1 (Fin 1) (Fin (1 # 2)) 0 (Fin 0).
Lemma soft_data_ok : continuous_data 1 soft_data.
Proof. repeat constructor; eexists; reflexivity. Qed.
(** hypotheses of the training theorems, and the tree that results: one split, no error left *)
Example C97_train_case : soft_data <> [] /\ continuous_data 1 soft_data /\ (exists va tr, part_strat rarr_ex (Fin (1 # 2)) 1 soft_data = Ok [va; tr] /\ covers tr soft_data /\ length va = 2) /\
  exists m, soft_train (lift e_ex) rarr_ex perm_ex rnd_ex 5 soft_data soft_par = Ok m /\ splits (so_root m) = 1 /\
    map (fun x => rmap fst (soft_predict (lift e_ex) m x)) soft_data = [Ok "a"; Ok "b"; Ok "a"; Ok "b"].
Proof.
  split; [discriminate|]. split; [exact soft_data_ok|]. split.
  - eexists _, _. split; [vm_compute; reflexivity|]. split; [|reflexivity]. intros x [<-|[<-|[<-|[<-|[]]]]].
    1, 3: exists (num "a" [2%Q]); split; [left; reflexivity|reflexivity].
    all: exists (num "b" [-2]%Q); split; [right; left; reflexivity|reflexivity].
  - eexists. split; [vm_compute; reflexivity|]. split; vm_compute; reflexivity.
Qed.
(** a third class with one instance *)
Example C97_missing_class_case : let l := soft_data ++ [num "c" [0%Q]] in
  (exists va tr, part_strat rarr_ex (Fin (1 # 2)) 1 l = Ok [va; tr] /\ tr <> [] /\ ~ covers tr l) /\ soft_train (lift e_ex) rarr_ex perm_ex rnd_ex 5 l soft_par = UB BadIndex.
Proof.
  intros l. split; [|vm_compute; reflexivity]. eexists _, _. split; [vm_compute; reflexivity|]. split; [discriminate|]. intros H. destruct (H (num "c" [0%Q])) as (y & Hy & E). { vm_compute. auto 10. }
  destruct Hy as [<-|[<-|[]]]; discriminate E.
Qed.
Definition q_ex : qtree := QNode (fun j => nth j [1; 2]%Q 0%Q) (QLeaf (fun c => nth c [3; 1]%Q 0%Q)) (QNode (fun j => nth j [0; -1]%Q 0%Q) (QLeaf (fun c => nth c [0; 2]%Q 0%Q)) (QLeaf (fun c => nth c [1; 1]%Q 0%Q))).
Definition two (a b : Z) : list dbl := [Fin (inject_Z a); Fin (inject_Z b)].
Definition s_ex : stree := SNode (mkSn (two 0 0) (two 1 2) (two 0 0) d0) (SLeaf (mkSn (two 3 1) (two 0 0) (two 4 5) d0))
  (SNode (mkSn (two 0 0) (two 0 (-1)) (two 0 0) d0) (SLeaf (mkSn (two 0 2) (two 0 0) (two 1 0) d0)) (SLeaf (mkSn (two 1 1) (two 0 0) (two 0 3) d0))).
Lemma s_ex_tree : is_tree 2 1 s_ex q_ex.
Proof. cbn. repeat split; intros [|[|i]] Hi; try lia; reflexivity. Qed.
Example C80_output_case : exists o t', soft_output (lift e_ex) [Fin 1] s_ex = Ok (o, t') /\ is_vec o 2 (expected e_ex 1 (fun _ => 1%Q) q_ex) /\ length (leaves e_ex 1 (fun _ => 1%Q) q_ex) = 3 /\
  (0 <= expected e_ex 1 (fun _ => 1%Q) q_ex 0 /\ expected e_ex 1 (fun _ => 1%Q) q_ex 0 <= 3)%Q.
Proof.
  destruct (C80_output (lift e_ex) e_ex 2 1 s_ex q_ex [Fin 1] (fun _ => 1%Q) e_ex_like s_ex_tree) as (o & t' & E & V & _ & _ & _ & H). { split; [reflexivity|]. intros [|i] Hi; [reflexivity|lia]. }
  exists o, t'. split; [exact E|]. split; [exact V|]. split; [reflexivity|]. apply H. intros la [<-|[<-|[<-|[]]]]; cbn; lra.
Qed.
(** a split that is kept and one that is not *)
Example C81_split_case : NoDup ["a"; "b"] /\ continuous_data 1 soft_data /\ labelled ["a"; "b"] soft_data /\ exhausts ["a"; "b"] soft_data /\
  (exists s, find_split (lift e_ex) perm_ex rnd_ex ["a"; "b"] soft_par soft_data [] (SLeaf (mkSn (two 1 0) (two 0 5) (two 0 0) d0), soft_data, 6) = Ok (true, s)) /\
  (exists s, find_split (lift e_ex) perm_ex rnd_ex ["a"; "b"] soft_par soft_data [] (SLeaf (mkSn (two 1 0) (two 0 5) (two 0 0) d0), soft_data, 20) = Ok (false, s)).
Proof.
  split; [repeat constructor; cbn; intuition discriminate|]. split; [exact soft_data_ok|]. split; [apply Forall_forall; intros x [<-|[<-|[<-|[<-|[]]]]]; cbn; auto|]. split.
  - intros c [<-|[<-|[]]]; [exists (num "a" [1%Q])|exists (num "b" [-1]%Q)]; (split; [cbn; auto|reflexivity]).
  - split; eexists; vm_compute; reflexivity.
Qed.
Example C96_case : exists st' n' a' b', grad_inst (lift e_ex) ["a"; "b"] d0 d1 [true] (mkG s_ex (two 0 0) (two 0 0) (two 0 0)) (num "b" [1%Q]) = Ok st' /\
  sub (g_tree st') [true] = Ok (SNode n' (SLeaf a') (SLeaf b')) /\ is_vec (s_w0s a') 2 (fun c => nth c [0; 2]%Q 0 + leaf_gradient e_ex 1 (fun _ => 1) 2 1 q_ex [true; false] c)%Q.
Proof.
  assert (forall a b : Z, is_vec (two a b) 2 (fun i => nth i [inject_Z a; inject_Z b] 0%Q)) as H2. { intros a b. split; [reflexivity|]. intros [|[|i]] Hi; try lia; reflexivity. }
  destruct (C96_step_partial (lift e_ex) e_ex ["a"; "b"] 1 d0 0%Q d1 1%Q [true] (mkG s_ex (two 0 0) (two 0 0) (two 0 0)) (num "b" [1%Q]) (fun _ => 1%Q) q_ex (fun j => nth j [0; -1]%Q 0%Q) (fun c => nth c [0; 2]%Q 0%Q) (fun c => nth c [1; 1]%Q 0%Q)
    (mkSn (two 0 0) (two 0 (-1)) (two 0 0) d0) (mkSn (two 0 2) (two 0 0) (two 1 0) d0) (mkSn (two 1 1) (two 0 0) (two 0 3) d0)
    (fun i => nth i [inject_Z 1; inject_Z 0] 0%Q) (fun i => nth i [inject_Z 0; inject_Z 3] 0%Q) (fun i => nth i [inject_Z 0; inject_Z 0] 0%Q) (fun i => nth i [inject_Z 0; inject_Z 0] 0%Q) (fun i => nth i [inject_Z 0; inject_Z 0] 0%Q) e_ex_like (Qeq_refl _) (Qeq_refl _)) as (st' & n' & a' & b' & E & Es & Ha & _);
    try (apply H2); try reflexivity.
  - right. left. reflexivity.
  - repeat constructor. eexists. reflexivity.
  - split; [reflexivity|]. intros [|i] Hi; [reflexivity|lia].
  - cbn. repeat split.
  - exact s_ex_tree.
  - exists st', n', a', b'. split; [exact E|]. split; [exact Es|]. eapply (vecP_ext valP valP_closed); [|exact Ha]. intros i _. cbn [app length find_pos label num]. cbn [String.eqb Ascii.eqb Bool.eqb]. ring.
Qed.

Print Assumptions C80_output. Print Assumptions C80_predict. Print Assumptions C97_train_partial. Print Assumptions C97_missing_class_refuted. Print Assumptions C97_probability_refuted.
Print Assumptions C81_split. Print Assumptions C81_terminates. Print Assumptions C81_every_node_tried. Print Assumptions C96_step_partial. Print Assumptions C96_outputs_fixed. Print Assumptions C96_gate_refuted.
