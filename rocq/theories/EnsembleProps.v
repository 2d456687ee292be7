(** Properties C66, C87 - C90 and the ensemble part of C50. *)
From Coq Require Import String ZArith QArith Bool Lia Permutation Lqa List.
From Verif Require Import Base Spec BaseLemmas DblLemmas AttrModel InstanceListModel PartitionModel
  ListSpec ListProofs PerformanceProofs TreeModel TreeSpec TreeProofs TreeGrowProofs TreePredictProofs TreeProps EnsembleModel EnsembleProofs.
Import ListNotations.
Local Open Scope string_scope.
Local Open Scope list_scope.
Local Open Scope nat_scope.

(** * C66: [vs] are the predictions of the trees *)
Theorem C66_most_votes : forall max_item forest x vs,
  forest <> [] -> mapM (fun t => tree_predict max_item t x) forest = Ok vs ->
  exists p, ensemble_predict max_item forest x = Ok p /\ In p vs /\ forall l, occ vs l <= occ vs p.
Proof.
  intros max_item forest x vs Hne E. unfold ensemble_predict, votes. rewrite E. cbn [bind]. eexists; split; [reflexivity|].
  apply get_maximum_spec. intros ->. apply mapM_ok in E. inversion E; subst. contradiction.
Qed.
(** the returned probabilities are the shares of the votes and add up to one *)
Theorem C66_vote_shares : forall max_item forest x vs,
  forest <> [] -> mapM (fun t => tree_predict max_item t x) forest = Ok vs ->
  exists m, ensemble_probability max_item forest x = Ok (map (fun kv => (fst kv, Fin (snd kv))) m) /\
    (forall l, mfind l m = None <-> ~ In l vs) /\
    (forall l q, mfind l m = Some q -> (q == qofn (occ vs l) / qofn (length forest))%Q) /\
    (qsum (map snd m) == 1)%Q.
Proof.
  intros max_item forest x vs Hne E. unfold ensemble_probability, votes. rewrite E. cbn [bind].
  assert (length vs = length forest) as Hl. { apply mapM_ok in E. symmetry. exact (Forall2_len _ _ _ E). }
  assert (vs <> []) as Hv. { intros ->. destruct forest; [contradiction|discriminate Hl]. }
  assert (0 < csum (cofl vs)) as Hc. { rewrite csum_cofl. destruct vs; [contradiction|simpl; lia]. }
  exists (map (fun kv => (fst kv, (qofn (snd kv) / qofn (csum (cofl vs)))%Q)) (cofl vs)).
  fold (cofl vs). rewrite (probabilities_fin _ Hc). split; [rewrite map_map; reflexivity|]. split; [|split].
  - intros l. rewrite (mfind_map (fun kv => (qofn (snd kv) / qofn (csum (cofl vs)))%Q)). rewrite <- in_cofl, <- mfind_none.
    destruct (mfind l (cofl vs)); simpl; split; congruence.
  - intros l q H. rewrite (mfind_map (fun kv => (qofn (snd kv) / qofn (csum (cofl vs)))%Q)) in H.
    destruct (mfind l (cofl vs)) as [n|] eqn:En; [|discriminate H]. simpl in H. injection H as <-.
    assert (n = occ vs l) as ->. { unfold occ. rewrite <- ccount_cofl. unfold ccount. rewrite En. reflexivity. }
    rewrite csum_cofl, Hl. reflexivity.
  - rewrite map_map. cbn [snd]. apply cofl_total, Hv.
Qed.
Definition leaf_tree (l : string) : tree := Node l true [(l, 1)] no_condition [].
Example C66_case : mapM (fun t => tree_predict ex_max t (ex_row "?" 1 "u" 0)) (map leaf_tree ["b"; "a"; "b"]) = Ok ["b"; "a"; "b"]
  /\ ensemble_predict ex_max (map leaf_tree ["b"; "a"; "b"]) (ex_row "?" 1 "u" 0) = Ok "b".
Proof. split; reflexivity. Qed.
Print Assumptions C66_most_votes.
Print Assumptions C66_vote_shares.

(** * C87 *)
(** Bootstrap(list, seed) draws as many positions as there are instances *)
Definition draws (pick : Z -> nat -> list nat) : Prop :=
  forall s n, length (pick s n) = n /\ Forall (fun i => i < n) (pick s n).
Theorem C87_bagging : forall max_item entropy mid rarr pick param size shape data,
  entropy_finite entropy -> mid_exact mid -> rarr_perm rarr -> draws pick -> tabular shape data -> data <> [] ->
  exists forest, ensemble_train entropy mid rarr pick param size (length data) [] data = Ok forest /\ length forest = size /\
    Forall (fun t => exists sample, incl sample data /\ length sample = length data /\ grown sample t) forest /\
    (size <> 0 -> forall x, typed shape x -> isComposite x = false ->
       exists p, ensemble_predict max_item forest x = Ok p /\ In p (map label data)).
Proof.
  intros max_item entropy mid rarr pick param size shape data He Hm Hr Hd Ht Hne. unfold ensemble_train.
  assert (forall i, incl (bootstrap pick i data) data /\ length (bootstrap pick i data) = length data) as Hb.
  { intros i. unfold bootstrap. destruct (Hd i (length data)) as [Hl Hf]. split; [apply rearrange_incl|]. rewrite rearrange_length by exact Hf. exact Hl. }
  destruct (mapM_forall (fun i => build entropy mid rarr param false (length data) (bootstrap pick (Z.of_nat i) data) no_condition)
              (fun i t => grown (bootstrap pick (Z.of_nat i) data) t /\ fits_tree shape t) (seq 0 size)) as (ts & E & HF).
  { intros i _. destruct (Hb (Z.of_nat i)) as [Hi Hl].
    destruct (build_ok entropy mid rarr shape He Hm Hr param false (length data) (bootstrap pick (Z.of_nat i) data) no_condition) as (t & Et & G & _ & F).
    - exact (tab_incl _ _ _ Hi Ht).
    - intros E. rewrite E in Hl. destruct data; [contradiction|discriminate Hl].
    - lia.
    - exists t. split; [exact Et|]. split; [exact G|exact F]. }
  rewrite E. cbn [bind app]. exists ts. split; [reflexivity|]. split; [rewrite <- (Forall2_len _ _ _ HF); apply seq_length|].
  assert (Forall (fun t => exists sample, incl sample data /\ length sample = length data /\ grown sample t /\ fits_tree shape t) ts) as HS.
  { clear - HF Hb. induction HF as [|i t is_ ts [G F] _ IH]; constructor; [|exact IH]. exists (bootstrap pick (Z.of_nat i) data).
    destruct (Hb (Z.of_nat i)) as [A B]. repeat split; assumption. }
  split.
  { refine (Forall_impl _ _ HS). intros t (sample & A & B & C & _). exists sample. repeat split; assumption. }
  intros Hsize x Hx Hp.
  destruct (mapM_forall (fun t => tree_predict max_item t x) (fun _ p => In p (map label data)) ts) as (vs & Ev & Hvs).
  { intros t Hin. destruct (proj1 (Forall_forall _ _) HS t Hin) as (sample & A & _ & G & F).
    destruct (predict_in max_item shape t sample x G F Hx Hp) as (p & Ep & Hl). exists p. rewrite (tree_predict_plain max_item t x Hp).
    split; [exact Ep|]. apply in_map_iff in Hl. destruct Hl as (y & <- & Hy). apply in_map, A, Hy. }
  destruct (C66_most_votes max_item ts x vs) as (p & Ep & Hin & _).
  - intros ->. inversion HF as [Hz|]. destruct size; [contradiction|discriminate Hz].
  - exact Ev.
  - exists p. split; [exact Ep|]. clear - Hin Hvs. induction Hvs as [|a b l l' H _ IH]; [contradiction|]. destruct Hin as [<-|Hin]; [exact H|apply IH, Hin].
Qed.
Definition ex_pick (s : Z) (n : nat) : list nat := map (fun i => Nat.modulo (i * i + Z.to_nat s) n) (seq 0 n).
Lemma ex_draws : draws ex_pick.
Proof.
  intros s n. split; [unfold ex_pick; rewrite map_length, seq_length; reflexivity|]. apply Forall_map, Forall_forall. intros i Hi. apply in_seq in Hi.
  apply Nat.mod_upper_bound. lia.
Qed.
Example C87_case : exists forest, ensemble_train ex_entropy ex_mid ex_rarr ex_pick None 3 5 [] ex_data = Ok forest /\
  ensemble_predict ex_max forest (ex_row "?" 1 "u" 0) = Ok "a".
Proof. eexists. split; [vm_compute; reflexivity|vm_compute; reflexivity]. Qed.
Print Assumptions C87_bagging.

(** * C90 *)
(** Every feature tested by a tree of a random forest is among the first [m] entries of the single index array drawn from
    the forest's seed: the subset is the same in every node of every tree. *)
Theorem C90_fixed_subset : forall entropy mid rarr pick m seed size shape data forest,
  entropy_finite entropy -> mid_exact mid -> rarr_perm rarr -> draws pick -> tabular shape data -> data <> [] ->
  m < length shape ->
  ensemble_train entropy mid rarr pick (Some (m, seed)) size (length data) [] data = Ok forest ->
  Forall (tests_in (map Z.of_nat (firstn m (rarr (length shape) seed)))) forest.
Proof.
  intros entropy mid rarr pick m seed size shape data forest He Hm Hr Hd Ht Hne Hlt E. unfold ensemble_train in E.
  apply bind_ok in E. destruct E as (ts & E & H). injection H as <-. apply mapM_ok in E. cbn [app].
  assert (length (rarr (length shape) seed) = length shape) as Hrl by (rewrite (Permutation_length (Hr _ _)), seq_length; reflexivity).
  assert (forall x, typed shape x -> attr_order rarr (Some (m, seed)) x = Ok (map Z.of_nat (firstn m (rarr (length shape) seed)))) as Hks.
  { intros x Hx. unfold attr_order, attr_count. rewrite <- (Forall2_len _ _ _ Hx). apply Nat.ltb_lt in Hlt. rewrite Hlt. apply Nat.ltb_lt in Hlt.
    set (r := rarr (length shape) seed) in *.
    assert (map Z.of_nat (firstn m r) = map (fun j => Z.of_nat (nth j r 0)) (seq 0 m)) as ->.
    { assert (firstn m r = map (fun j => nth j r 0) (seq 0 m)) as ->; [|rewrite map_map; reflexivity].
      assert (m <= length r) as Hmr by lia. clearbody r. clear - Hmr. revert r Hmr. induction m as [|m IH]; intros [|a r] Hmr; simpl in Hmr; try lia; try reflexivity.
      cbn [firstn seq map]. f_equal. rewrite (IH r ltac:(lia)), <- seq_shift, map_map. reflexivity. }
    apply mapM_total. intros j Hj. apply in_seq in Hj.
    rewrite (proj2 (atn_ok _ _ _) (nth_error_nth' r 0 (n := j) ltac:(lia))). reflexivity. }
  clear - E He Hm Hr Hd Ht Hne Hks. induction E as [|i t is_ ts E _ IH]; constructor; [|exact IH].
  refine (proj1 (build_tests entropy mid rarr shape He Hm Hr _ false _ Hks _ _ _ _ _ _ E)).
  - exact (tab_incl _ _ _ (rearrange_incl _ _) Ht).
  - destruct (Hd (Z.of_nat i) (length data)) as [Hl Hf]. intros Eb.
    assert (length (bootstrap pick (Z.of_nat i) data) = length data) as Hlen by (unfold bootstrap; rewrite rearrange_length by exact Hf; exact Hl).
    rewrite Eb in Hlen. destruct data; [contradiction|discriminate Hlen].
Qed.
(** consequence: when the telling feature is not in that subset no number of trees finds it *)
Definition ex_rarr_rev (n : nat) (_ : Z) : list nat := rev (seq 0 n).
Definition ex_hidden : list instance := [mkInst "a" [ADisc "u"; ADisc "w"] None; mkInst "b" [ADisc "v"; ADisc "w"] None].
Example C90_case : exists forest,
  ensemble_train ex_entropy ex_mid ex_rarr_rev (fun _ n => seq 0 n) (Some (1, 1%Z)) 50 2 [] ex_hidden = Ok forest /\
  Forall (fun t => t_children t = []) forest /\
  map (ensemble_predict ex_max forest) ex_hidden = [Ok "a"; Ok "a"].
Proof.
  eexists. split; [vm_compute; reflexivity|]. split; [repeat constructor|vm_compute; reflexivity].
Qed.
Print Assumptions C90_fixed_subset.

(** * C50 for these models *)
Theorem C50_dummy : forall old l, dummy_train old l = dummy_train [] l.
Proof. reflexivity. Qed.
Theorem C50_random : forall old l, random_train old l = random_train [] l.
Proof. reflexivity. Qed.
(** train does not clear the forest: after retraining, the old trees still vote *)
Theorem C50_ensemble_partial : forall entropy mid rarr pick param size fuel old l forest,
  ensemble_train entropy mid rarr pick param size fuel old l = Ok forest ->
  exists fresh, ensemble_train entropy mid rarr pick param size fuel [] l = Ok fresh /\ forest = old ++ fresh.
Proof.
  intros entropy mid rarr pick param size fuel old l forest H. unfold ensemble_train in *. apply bind_ok in H. destruct H as (ts & E & H).
  exists ts. rewrite E. cbn [bind app]. split; [reflexivity|]. congruence.
Qed.
Definition all_of (c : string) (n : nat) : list instance := repeat (mkInst c [ACont (Fin 1)] None) n.
Theorem C50_ensemble_refuted : exists data1 data2 f1 f2 fresh x,
  ensemble_train ex_entropy ex_mid ex_rarr ex_pick None 3 5 [] data1 = Ok f1 /\
  ensemble_train ex_entropy ex_mid ex_rarr ex_pick None 2 5 f1 data2 = Ok f2 /\
  ensemble_train ex_entropy ex_mid ex_rarr ex_pick None 2 5 [] data2 = Ok fresh /\
  ensemble_predict ex_max f2 x = Ok "a" /\ ensemble_predict ex_max fresh x = Ok "b" /\ ~ In "a" (map label data2).
Proof.
  exists (all_of "a" 2), (all_of "b" 3). do 3 eexists. exists (mkInst "?" [ACont (Fin 1)] None).
  split; [vm_compute; reflexivity|]. split; [vm_compute; reflexivity|]. split; [vm_compute; reflexivity|].
  split; [vm_compute; reflexivity|]. split; [vm_compute; reflexivity|]. simpl. intuition discriminate.
Qed.
Print Assumptions C50_dummy.
Print Assumptions C50_random.
Print Assumptions C50_ensemble_partial.
Print Assumptions C50_ensemble_refuted.

(** * C88: DummyModel *)
(** getMaxItem(labels) returns a label of the list with the largest count *)
Definition max_item_best (max_item : counter -> list string -> string) : Prop :=
  forall d ls, ls <> [] -> In (max_item d ls) ls /\ forall l, In l ls -> ccount d l <= ccount d (max_item d ls).
Theorem C88_dummy : forall max_item old l x, l <> [] ->
  let d := dummy_train old l in
  (isComposite x = false -> let p := dummy_predict max_item d x in In p (map label l) /\ forall c, occ (map label l) c <= occ (map label l) p) /\
  (isComposite x = true -> possible_labels x <> [] -> max_item_best max_item ->
     let p := dummy_predict max_item d x in In p (possible_labels x) /\ forall c, In c (possible_labels x) -> occ (map label l) c <= occ (map label l) p) /\
  (forall y, isComposite y = isComposite x -> possible_labels y = possible_labels x -> dummy_predict max_item d y = dummy_predict max_item d x).
Proof.
  intros max_item old l x Hne d. assert (forall c, ccount d c = occ (map label l) c) as Hd.
  { intros c. unfold d, dummy_train. rewrite class_distribution_cofl. apply ccount_cofl. }
  split; [|split].
  - intros Hp p. assert (p = get_maximum (map label l)) as ->.
    { unfold p, dummy_predict. rewrite Hp. unfold d, dummy_train, get_maximum. rewrite class_distribution_cofl. reflexivity. }
    apply get_maximum_spec. intros E. apply map_eq_nil in E. contradiction.
  - intros Hp Hpos Hm p. unfold p, dummy_predict. rewrite Hp. destruct (Hm d (possible_labels x) Hpos) as [A B]. split; [exact A|].
    intros c Hc. rewrite <- !Hd. apply B, Hc.
  - intros y E1 E2. unfold dummy_predict. rewrite E1, E2. reflexivity.
Qed.
(** its probabilities are the class frequencies of the training data *)
Theorem C88_dummy_probability : forall old l x, l <> [] ->
  exists m, dummy_probability (dummy_train old l) x = map (fun kv => (fst kv, Fin (snd kv))) m /\
    (forall c, mfind c m = None <-> ~ In c (map label l)) /\
    (forall c q, mfind c m = Some q -> (q == qofn (occ (map label l) c) / qofn (length l))%Q) /\ (qsum (map snd m) == 1)%Q.
Proof.
  intros old l x Hne. unfold dummy_probability, dummy_train. rewrite class_distribution_cofl. set (vs := map label l).
  assert (vs <> []) as Hv. { intros E. apply map_eq_nil in E. contradiction. }
  assert (0 < csum (cofl vs)) as Hc. { rewrite csum_cofl. destruct vs; [contradiction|simpl; lia]. }
  exists (map (fun kv => (fst kv, (qofn (snd kv) / qofn (csum (cofl vs)))%Q)) (cofl vs)).
  rewrite (probabilities_fin _ Hc). split; [rewrite map_map; reflexivity|]. split; [|split].
  - intros c. rewrite (mfind_map (fun kv => (qofn (snd kv) / qofn (csum (cofl vs)))%Q)). rewrite <- in_cofl, <- mfind_none.
    destruct (mfind c (cofl vs)); simpl; split; congruence.
  - intros c q H. rewrite (mfind_map (fun kv => (qofn (snd kv) / qofn (csum (cofl vs)))%Q)) in H.
    destruct (mfind c (cofl vs)) as [n|] eqn:En; [|discriminate H]. simpl in H. injection H as <-.
    assert (n = occ vs c) as ->. { unfold occ. rewrite <- ccount_cofl. unfold ccount. rewrite En. reflexivity. }
    rewrite csum_cofl. unfold vs at 2. rewrite map_length. reflexivity.
  - rewrite map_map. cbn [snd]. apply cofl_total, Hv.
Qed.
Lemma ex_max_best : max_item_best ex_max.
Proof.
  intros d ls H. split; [apply ex_max_in, H|]. unfold ex_max.
  assert (forall ls b, ccount d b <= ccount d (fold_left (fun b l => if ccount d b <? ccount d l then l else b) ls b) /\
            forall l, In l ls -> ccount d l <= ccount d (fold_left (fun b l => if ccount d b <? ccount d l then l else b) ls b)) as Hf.
  { clear. induction ls as [|a ls IH]; intros b; cbn [fold_left]; [split; [lia|intros l []]|].
    destruct (IH (if ccount d b <? ccount d a then a else b)) as [A B]. destruct (Nat.ltb_spec (ccount d b) (ccount d a)).
    - split; [lia|]. intros l [<-|Hl]; [exact A|apply B, Hl].
    - split; [exact A|]. intros l [<-|Hl]; [lia|apply B, Hl]. }
  apply Hf.
Qed.
Example C88_case : dummy_predict ex_max (dummy_train [] ex_data) (ex_row "?" 1 "u" 0) = "a" /\
  dummy_predict ex_max (dummy_train [] ex_data) ex_composite = "b".
Proof. split; reflexivity. Qed.
Print Assumptions C88_dummy.
Print Assumptions C88_dummy_probability.

(** * C89: RandomModel *)
Theorem C89_random_partial : forall r old l x,
  (isComposite x = false -> l <> [] -> exists p, random_predict r (random_train old l) x = Ok p /\ In p (map label l)) /\
  (isComposite x = true -> possible_labels x <> [] -> exists p, random_predict r (random_train old l) x = Ok p /\ In p (possible_labels x)).
Proof.
  intros r old l x.
  assert (forall ls : list string, ls <> [] -> exists p, match length ls with 0 => UB IntDivZero | n => atn ls (Nat.modulo r n) end = Ok p /\ In p ls) as Hgen.
  { intros ls Hne. destruct ls as [|a ls]; [contradiction|]. set (l' := a :: ls) in *. destruct (length l') as [|n] eqn:El; [discriminate El|].
    assert (Nat.modulo r (S n) < length l') as Hlt by (rewrite El; apply Nat.mod_upper_bound; lia).
    destruct (nth_error l' (Nat.modulo r (S n))) as [p|] eqn:E; [|apply nth_error_None in E; lia].
    exists p. split; [apply atn_ok, E|exact (nth_error_In _ _ E)]. }
  unfold random_predict. split.
  - intros Hp Hne. rewrite Hp. unfold random_train. rewrite class_distribution_cofl.
    destruct (Hgen (mkeys (cofl (map label l)))) as (p & E & Hin).
    + destruct l as [|y l]; [contradiction|]. intros E. assert (In (label y) (mkeys (cofl (map label (y :: l))))) as Hy by (apply in_cofl; left; reflexivity).
      rewrite E in Hy. contradiction.
    + exists p. split; [exact E|]. apply in_cofl, Hin.
  - intros Hp Hne. rewrite Hp. exact (Hgen _ Hne).
Qed.
(** every known label can be returned *)
Theorem C89_random_reaches_all : forall old l x c, isComposite x = false -> In c (map label l) ->
  exists r, random_predict r (random_train old l) x = Ok c.
Proof.
  intros old l x c Hp Hc. unfold random_predict. rewrite Hp. unfold random_train. rewrite class_distribution_cofl.
  apply in_cofl in Hc. destruct (In_nth_error _ _ Hc) as [i Hi]. exists i. set (ls := mkeys (cofl (map label l))) in *.
  assert (i < length ls) as Hlt by (apply nth_error_Some; congruence). destruct (length ls) as [|n] eqn:El; [lia|].
  rewrite Nat.mod_small by exact Hlt. apply atn_ok, Hi.
Qed.
(** a composite instance without possible labels, or an untrained model, divides by zero *)
Theorem C89_random_refuted : forall r labels l, random_predict r labels (mkInst l [] (Some [])) = UB IntDivZero /\
  random_predict r [] (mkInst l [] None) = UB IntDivZero.
Proof. intros; split; reflexivity. Qed.
(** after training, the probabilities are uniform over the labels of the data and add up to one *)
Theorem C89_random_probability_partial : forall old l x, l <> [] ->
  let m := random_probability (random_train old l) x in
  (forall c, mfind c m = if mem_str c (map label l) then Some (Fin (1 / qofn (length (nodup string_dec (map label l))))) else None) /\
  exists qs, map snd m = map Fin qs /\ (qsum qs == 1)%Q.
Proof.
  intros old l x Hne m. set (ls := random_train old l) in *.
  assert (NoDup ls) as Hnd. { unfold ls, random_train. rewrite class_distribution_cofl. apply msorted_nodup, cofl_sorted. }
  assert (forall c, In c ls <-> In c (map label l)) as Hin. { intros c. unfold ls, random_train. rewrite class_distribution_cofl. apply in_cofl. }
  assert (ls <> []) as Hls. { destruct l as [|y l]; [contradiction|]. intros E. assert (In (label y) ls) as Hy by (apply Hin; left; reflexivity). rewrite E in Hy. contradiction. }
  assert (length (nodup string_dec (map label l)) = length ls) as Hlen.
  { apply Permutation_length, NoDup_Permutation; [apply NoDup_nodup|exact Hnd|]. intros c. rewrite nodup_In, Hin. reflexivity. }
  rewrite Hlen. assert (0 < length ls) as Hpos by (destruct ls; [contradiction|simpl; lia]).
  assert (~ (qofn (length ls) == 0)%Q) as Hz. { pose proof (qofn_pos _ Hpos). lra. }
  assert (m = fold_left (fun m c => mset c (Fin (1 / qofn (length ls))) m) ls []) as Hm.
  { unfold m, random_probability. rewrite dofnat_fin. unfold d1. rewrite (ddiv_fin _ _ Hz). reflexivity. }
  assert (forall v cs m0 c, mfind c (fold_left (fun (m : smap dbl) c => mset c v m) cs m0) = if mem_str c cs then Some v else mfind c m0) as Hfold.
  { clear. intros v. induction cs as [|a cs IH]; intros m0 c; [reflexivity|]. cbn [fold_left]. rewrite IH, mfind_mset. simpl.
    destruct (mem_str c cs); [destruct (String.eqb c a); reflexivity|]. rewrite String.eqb_sym. destruct (String.eqb c a); reflexivity. }
  split.
  - intros c. rewrite Hm, Hfold. destruct (mem_str c ls) eqn:E1, (mem_str c (map label l)) eqn:E2; try reflexivity; exfalso.
    + apply mem_str_in, Hin, mem_str_in in E1. congruence.
    + apply mem_str_in, Hin, mem_str_in in E2. congruence.
  - exists (repeat (1 / qofn (length ls))%Q (length ls)). split.
    + assert (msorted m) as Hs. { rewrite Hm. clear. generalize (Fin (1 / qofn (length ls))) as v. intros v.
        assert (forall cs m0, msorted m0 -> msorted (fold_left (fun (m : smap dbl) c => mset c v m) cs m0)) as H; [|apply H; constructor].
        induction cs as [|a cs IH]; intros m0 H; [exact H|]. cbn [fold_left]. apply IH, mset_sorted, H. }
      assert (length m = length ls) as Hlm.
      { rewrite <- (map_length fst m). apply Permutation_length, NoDup_Permutation; [exact (msorted_nodup _ Hs)|exact Hnd|].
        intros c. fold (mkeys m). destruct (mfind c m) eqn:E.
        - assert (In c ls) as Hc. { rewrite Hm, Hfold in E. destruct (mem_str c ls) eqn:Ec; [apply mem_str_in, Ec|discriminate E]. }
          split; [intros _; exact Hc|intros _]. apply mfind_in in E. apply in_map_iff. eexists; split; [|exact E]. reflexivity.
        - pose proof (proj1 (mfind_none _ _) E) as Hn. split; [contradiction|]. intros Hc. exfalso. rewrite Hm, Hfold in E.
          rewrite (proj2 (mem_str_in c ls) Hc) in E. discriminate E. }
      rewrite <- Hlm at 2. assert (forall v, In v (map snd m) -> v = Fin (1 / qofn (length ls))) as Hv.
      { intros v Hv. apply in_map_iff in Hv. destruct Hv as ([c v'] & <- & Hcv). cbn [snd].
        apply (in_mfind _ _ _ (msorted_nodup _ Hs)) in Hcv. rewrite Hm, Hfold in Hcv. destruct (mem_str c ls); [congruence|discriminate Hcv]. }
      clear - Hv. induction m as [|a m IH]; [reflexivity|]. cbn [map length repeat]. rewrite (Hv (snd a)) by (left; reflexivity). f_equal.
      apply IH. intros v H. apply Hv. right. exact H.
    + assert (forall (q : Q) n, qsum (repeat q n) == q * qofn n)%Q as Hrep.
      { clear. intros q. induction n as [|n IH]; [cbn; setoid_replace (qofn 0) with 0%Q by apply qofn_0; field|].
        assert (qsum (repeat q (S n)) == q + qsum (repeat q n))%Q as -> by reflexivity. rewrite IH, qofn_S. ring. }
      rewrite Hrep. field. exact Hz.
Qed.
(** given to the constructor, a label list with repetitions yields probabilities that do not add up to one *)
Theorem C89_random_probability_refuted : exists labels x, random_probability labels x = [("a", Fin (1 / qofn 2))].
Proof. exists ["a"; "a"], (mkInst "?" [] None). vm_compute. reflexivity. Qed.
Example C89_case : random_train [] ex_data = ["a"; "b"] /\ random_predict 7 (random_train [] ex_data) (ex_row "?" 1 "u" 0) = Ok "b".
Proof. split; reflexivity. Qed.
Print Assumptions C89_random_partial.
Print Assumptions C89_random_reaches_all.
Print Assumptions C89_random_refuted.
Print Assumptions C89_random_probability_partial.
Print Assumptions C89_random_probability_refuted.
