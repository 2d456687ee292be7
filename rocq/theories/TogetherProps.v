(** C163: putting ensembles together. *)
From Coq Require Import String ZArith QArith Bool Lia Lqa Permutation Arith List.
From Verif Require Import Base Spec BaseLemmas DblLemmas AttrModel InstanceListModel ListProofs TreeModel TreeProps EnsembleModel EnsembleProofs EnsembleProps PerformanceProofs MostProofs ConstDistProofs RepeatSpec RepeatProofs NearProofs TogetherSpec TogetherProofs.
Import ListNotations.
Local Open Scope string_scope.
Local Open Scope list_scope.
Local Open Scope nat_scope.

(** The order of the trees does not matter. *)
Theorem C163_order : forall mi f g x, Permutation f g ->
  (forall r, ensemble_predict mi f x = Ok r -> ensemble_predict mi g x = Ok r) /\
  (forall m, ensemble_probability mi f x = Ok m -> ensemble_probability mi g x = Ok m).
Proof.
  intros mi f g x P. split; intros r H.
  - apply predict_votes in H as (vs & E & ->). destruct (votes_perm mi x f g vs P E) as (ws & F & Q). apply predict_votes. exists ws. split; [exact F|].
    unfold get_maximum. change (cmax (cofl vs) = cmax (cofl ws)). rewrite (cofl_perm _ _ Q). reflexivity.
  - apply probability_votes in H as (vs & E & ->). destruct (votes_perm mi x f g vs P E) as (ws & F & Q). apply probability_votes. exists ws. split; [exact F|]. rewrite (cofl_perm _ _ Q). reflexivity.
Qed.
(** Two ensembles that answer alike answer so together, ties included. *)
Theorem C163_agree : forall mi f g x c, ensemble_predict mi f x = Ok c -> ensemble_predict mi g x = Ok c -> ensemble_predict mi (f ++ g) x = Ok c.
Proof.
  intros mi f g x c H G. apply predict_votes in H as (vs & E & ->). apply predict_votes in G as (ws & F & Q). apply predict_votes. exists (vs ++ ws).
  split; [apply votes_app; assumption|]. symmetry. apply max_app; [reflexivity|symmetry; exact Q].
Qed.
(** The probabilities of both together are the means of theirs, weighted by their sizes. *)
Theorem C163_shares : forall mi f g x m m', f <> [] -> g <> [] -> ensemble_probability mi f x = Ok m -> ensemble_probability mi g x = Ok m' ->
  exists u, ensemble_probability mi (f ++ g) x = Ok u /\ forall c p q, chance m c p -> chance m' c q ->
    chance u c ((qofn (length f) * p + qofn (length g) * q) / qofn (length f + length g)).
Proof.
  intros mi f g x m m' Nf Ng H G. apply probability_votes in H as (vs & E & ->). apply probability_votes in G as (ws & F & ->).
  exists (probabilities (cofl (vs ++ ws))). split; [apply probability_votes; exists (vs ++ ws); split; [apply votes_app; assumption|reflexivity]|].
  assert (Lf : length vs = length f) by (apply mapM_ok in E; symmetry; exact (Forall2_len _ _ _ E)).
  assert (Lg : length ws = length g) by (apply mapM_ok in F; symmetry; exact (Forall2_len _ _ _ F)).
  assert (Nv : vs <> []) by (intros ->; destruct f; [congruence|discriminate Lf]). assert (Nw : ws <> []) by (intros ->; destruct g; [congruence|discriminate Lg]).
  intros c p q Hp Hq. pose proof (chance_unique _ _ _ _ Hp (chance_votes vs c Nv)) as P. pose proof (chance_unique _ _ _ _ Hq (chance_votes ws c Nw)) as Q.
  eapply chance_eq; [|apply (chance_votes (vs ++ ws) c)]; [|intros Z; apply app_eq_nil in Z as (Z & _); exact (Nv Z)].
  rewrite P, Q, <- Lf, <- Lg, app_length, occ_app, !qofn_plus.
  assert (0 < qofn (length vs))%Q by (apply qofn_pos; destruct vs; [congruence|cbn; lia]). assert (0 < qofn (length ws))%Q by (apply qofn_pos; destruct ws; [congruence|cbn; lia]).
  field. repeat split; lra.
Qed.
(** Having every tree the same number of times changes nothing. *)
Theorem C163_times : forall mi n f x, 0 < n ->
  (forall r, ensemble_predict mi f x = Ok r -> ensemble_predict mi (each n f) x = Ok r) /\
  (forall m, ensemble_probability mi f x = Ok m -> exists m', ensemble_probability mi (each n f) x = Ok m' /\ same_chances m' m).
Proof.
  intros mi n f x Hn. split; intros r H.
  - apply predict_votes in H as (vs & E & ->). apply predict_votes. exists (each n vs). split; [apply votes_each, E|symmetry; apply max_each, Hn].
  - apply probability_votes in H as (vs & E & ->). exists (probabilities (cofl (each n vs))). split; [apply probability_votes; exists (each n vs); split; [apply votes_each, E|reflexivity]|].
    destruct vs as [|v vs]; [constructor|]. apply chances_each; [exact Hn|discriminate].
Qed.
(** Training again on the same data doubles the trees, and so changes no answer and no probability. *)
Theorem C163_retrained : forall entropy mid rarr pick param size fuel l f, ensemble_train entropy mid rarr pick param size fuel [] l = Ok f ->
  ensemble_train entropy mid rarr pick param size fuel f l = Ok (f ++ f) /\ forall mi x,
    (forall r, ensemble_predict mi f x = Ok r -> ensemble_predict mi (f ++ f) x = Ok r) /\
    (forall m, ensemble_probability mi f x = Ok m -> exists m', ensemble_probability mi (f ++ f) x = Ok m' /\ same_chances m' m).
Proof.
  intros entropy mid rarr pick param size fuel l f H. split.
  - unfold ensemble_train in *. apply bind_ok in H as (ts & E & H). injection H as <-. rewrite E. reflexivity.
  - intros mi x. split; [intros r G; apply C163_agree; exact G|]. intros m G. destruct (C163_times mi 2 f x ltac:(lia)) as (_ & T). destruct (T m G) as (m' & A & B).
    exists m'. split; [|exact B]. apply (proj2 (C163_order mi (each 2 f) (f ++ f) x ltac:(rewrite each_again; cbn [again]; unfold again; cbn; rewrite ?app_nil_r; reflexivity)) m' A).
Qed.
(** A larger ensemble starts with the trees of the smaller one. *)
Theorem C163_larger : forall entropy mid rarr pick param size k fuel l f, ensemble_train entropy mid rarr pick param (size + k) fuel [] l = Ok f ->
  exists f0 more, ensemble_train entropy mid rarr pick param size fuel [] l = Ok f0 /\ f = f0 ++ more /\ length f0 = size /\ length more = k.
Proof.
  intros entropy mid rarr pick param size k fuel l f H. unfold ensemble_train in *. apply bind_ok in H as (ts & E & H). injection H as <-. rewrite seq_app, mapM_app_ in E.
  apply bind_ok in E as (a & Ea & E). apply bind_ok in E as (b & Eb & E). injection E as <-. exists a, b. rewrite Ea. cbn [bind app]. split; [reflexivity|]. split; [reflexivity|].
  apply mapM_ok in Ea, Eb. rewrite <- (Forall2_len _ _ _ Ea), <- (Forall2_len _ _ _ Eb), !seq_length. split; reflexivity.
Qed.
(** A lead of more votes than trees are added cannot be lost. *)
Theorem C163_lead : forall mi f more x vs c u, mapM (fun t => tree_predict mi t x) f = Ok vs -> (forall v, v <> c -> occ vs v + length more < occ vs c) ->
  mapM (fun t => tree_predict mi t x) more = Ok u -> ensemble_predict mi (f ++ more) x = Ok c.
Proof.
  intros mi f more x vs c u E H F. apply predict_votes. exists (vs ++ u). split; [apply votes_app; assumption|]. symmetry. apply max_margin.
  apply mapM_ok in F. rewrite <- (Forall2_len _ _ _ F). exact H.
Qed.
(** a lead of exactly as many votes can *)
Theorem C163_lead_refuted : exists mi f more x vs u, mapM (fun t => tree_predict mi t x) f = Ok vs /\ mapM (fun t => tree_predict mi t x) more = Ok u /\
  (forall v, v <> "b" -> occ vs v + length more <= occ vs "b") /\ ensemble_predict mi f x = Ok "b" /\ ensemble_predict mi (f ++ more) x = Ok "a".
Proof.
  exists ex_max, (map leaf_tree ["b"; "a"; "b"]), (map leaf_tree ["a"]), (ex_row "?" 1 "u" 0), ["b"; "a"; "b"], ["a"]. repeat split; try reflexivity.
  intros v N. unfold occ. cbn [count_occ map length]. destruct (string_dec "b" v) as [E|_]; [congruence|]. destruct (string_dec "a" v); cbn; lia.
Qed.
(** Two ensembles that disagree may answer together what neither of them answers. *)
Theorem C163_third_refuted : exists mi f g x, ensemble_predict mi f x = Ok "a" /\ ensemble_predict mi g x = Ok "c" /\ ensemble_predict mi (f ++ g) x = Ok "b".
Proof. exists ex_max, (map leaf_tree ["a"; "b"; "a"; "b"; "a"]), (map leaf_tree ["c"; "b"; "c"; "b"; "c"]), (ex_row "?" 1 "u" 0). repeat split; reflexivity. Qed.
(** The same for the most frequent class of two lists. *)
Theorem C163_dummy : forall mi l1 l2 x c, isComposite x = false ->
  dummy_predict mi (dummy_train [] l1) x = c -> dummy_predict mi (dummy_train [] l2) x = c -> dummy_predict mi (dummy_train [] (l1 ++ l2)) x = c.
Proof.
  intros mi l1 l2 x c Hx. unfold dummy_predict, dummy_train. rewrite Hx, !class_distribution_cofl, map_app. apply max_app.
Qed.

Example C163_case : let f := map leaf_tree ["b"; "a"] in let g := map leaf_tree ["c"; "a"; "c"; "a"] in let x := ex_row "?" 1 "u" 0 in
  ensemble_predict ex_max f x = Ok "a" /\ ensemble_predict ex_max g x = Ok "a" /\ ensemble_predict ex_max (f ++ g) x = Ok "a" /\
  ensemble_predict ex_max (each 3 f) x = Ok "a" /\ exists u, ensemble_probability ex_max (f ++ g) x = Ok u /\ chance u "a" (1 # 2) /\ chance u "b" (1 # 6).
Proof. repeat split; try reflexivity. eexists. split; [reflexivity|]. split; eexists; split; reflexivity. Qed.
Print Assumptions C163_order.
Print Assumptions C163_agree.
Print Assumptions C163_shares.
Print Assumptions C163_times.
Print Assumptions C163_retrained.
Print Assumptions C163_larger.
Print Assumptions C163_lead.
Print Assumptions C163_lead_refuted.
Print Assumptions C163_third_refuted.
Print Assumptions C163_dummy.
