(** Proofs about testing on reordered, repeated and divided data. *)
From Coq Require Import String ZArith QArith Bool Lia Lqa Permutation List.
From Verif Require Import Base Spec BaseLemmas DblLemmas AttrModel DataSetModel DataSetProofs InstanceListModel ListProofs ListSpec ListProps StatSpec CovProofs PerformanceModel PerformanceSpec PerformanceProofs.
Import ListNotations.
Local Open Scope list_scope.
Local Open Scope nat_scope.

(** the (actual, predicted) pairs of a test *)
Definition answers (predict : instance -> res string) (l : ilist) (ps : list (string * string)) : Prop :=
  Forall2 (fun x q => fst q = label x /\ predict x = Ok (snd q)) l ps.
Lemma answers_len predict l ps : answers predict l ps -> length ps = length l.
Proof. induction 1; cbn; congruence. Qed.
Lemma answers_fold predict l ps m : answers predict l ps ->
  foldM (fun m x => do p <- predict x; Ok (classify m (label x) p)) l m = Ok (fold_left (fun m q => classify m (fst q) (snd q)) ps m).
Proof. intros H. revert m. induction H as [|x q l ps [E P] H IH]; intros m; [reflexivity|]. cbn [foldM fold_left]. rewrite P. cbn [bind]. rewrite IH, E. reflexivity. Qed.
Lemma fold_answers predict l : forall m m', foldM (fun m x => do p <- predict x; Ok (classify m (label x) p)) l m = Ok m' -> exists ps, answers predict l ps.
Proof.
  induction l as [|x l IH]; intros m m' H; [exists []; constructor|]. cbn [foldM] in H. destruct (predict x) as [p| | |] eqn:P; try discriminate. cbn [bind] in H.
  destruct (IH _ _ H) as (ps & A). exists ((label x, p) :: ps). constructor; [split; [reflexivity|exact P]|exact A].
Qed.
Lemma test_answers predict l p : test_model predict l = Ok p <-> exists ps, answers predict l ps /\ p = new_detail (classified (union_possible l) ps).
Proof.
  split.
  - intros H. unfold test_model in H. apply bind_ok in H. destruct H as (m & Hf & Hm). destruct (fold_answers _ _ _ _ Hf) as (ps & A). exists ps. split; [exact A|].
    rewrite (answers_fold _ _ _ _ A) in Hf. injection Hf as <-. injection Hm as <-. reflexivity.
  - intros (ps & A & ->). unfold test_model. rewrite (answers_fold _ _ _ _ A). reflexivity.
Qed.
Lemma answers_app predict l l' ps : answers predict (l ++ l') ps <-> exists qs qs', answers predict l qs /\ answers predict l' qs' /\ ps = qs ++ qs'.
Proof.
  unfold answers. split.
  - intros H. apply Forall2_app_inv_l in H. destruct H as (qs & qs' & A & B & ->). exists qs, qs'. repeat split; assumption.
  - intros (qs & qs' & A & B & ->). apply Forall2_app; assumption.
Qed.
Lemma answers_perm predict l l' : Permutation l l' -> forall ps, answers predict l ps -> exists ps', answers predict l' ps' /\ Permutation ps ps'.
Proof.
  unfold answers. induction 1 as [|x l l' H IH|x y l|l l' l'' H IH H' IH']; intros ps A.
  - inversion A; subst. exists []. split; [constructor|apply Permutation_refl].
  - inversion A as [|? q ? qs Hq A']; subst. destruct (IH _ A') as (ps' & B & P). exists (q :: ps'). split; [constructor; assumption|apply perm_skip; exact P].
  - inversion A as [|? q ? qs Hq A']; subst. inversion A' as [|? q' ? qs' Hq' A'']; subst. exists (q' :: q :: qs'). split; [constructor; [exact Hq'|constructor; [exact Hq|exact A'']]|apply perm_swap].
  - destruct (IH _ A) as (qs & B & P). destruct (IH' _ B) as (rs & C & P'). exists rs. split; [exact C|eapply Permutation_trans; eassumption].
Qed.
(** the labels of the report are those of the data, once each *)
Lemma union_perm l l' : Permutation l l' -> Permutation (union_possible l) (union_possible l').
Proof.
  intros P. pose proof (C15_union_possible l) as U. pose proof (C15_union_possible l') as U'. destruct U as (N & I & _), U' as (N' & I' & _).
  apply NoDup_Permutation; [exact N|exact N'|]. intros c. rewrite I, I', !in_flat_map. split; intros (x & Hx & Hc); exists x; (split; [|exact Hc]).
  - eapply Permutation_in; eassumption.
  - eapply Permutation_in; [apply Permutation_sym; exact P|exact Hx].
Qed.
Lemma correct_app ps qs : correct_count (ps ++ qs) = correct_count ps + correct_count qs.
Proof. unfold correct_count. rewrite filter_app, app_length. reflexivity. Qed.
Lemma correct_le ps : correct_count ps <= length ps.
Proof. unfold correct_count. induction ps as [|q ps IH]; [apply le_n|]. cbn. destruct (String.eqb (fst q) (snd q)); cbn; lia. Qed.
Lemma correct_concat pss : correct_count (concat pss) = list_sum (map correct_count pss).
Proof. induction pss as [|ps pss IH]; [reflexivity|]. cbn [concat map]. rewrite correct_app, IH. reflexivity. Qed.
Lemma accuracy_value L ps : ps <> [] -> exists a, cm_accuracy (classified L ps) = Fin a /\ (a * qofn (length ps) == qofn (correct_count ps))%Q.
Proof.
  intros N. rewrite accuracy_classified. destruct ps as [|q ps]; [congruence|]. eexists. split; [reflexivity|]. field. apply qofn_neq0. cbn. lia.
Qed.
(** per-label reports under another order of the labels *)
Lemma mapM_reorder {A B} (g : A -> res B) L L' : Permutation L L' -> forall ys, mapM g L = Ok ys ->
  exists ys', mapM g L' = Ok ys' /\ Permutation (combine L ys) (combine L' ys').
Proof.
  induction 1 as [|x l l' H IH|x y l|l l' l'' H IH H' IH']; intros ys E.
  - injection E as <-. exists []. split; [reflexivity|apply Permutation_refl].
  - cbn [mapM] in E. destruct (g x) as [v| | |] eqn:G; try discriminate. cbn [bind] in E. destruct (mapM g l) as [vs| | |] eqn:M; try discriminate. injection E as <-.
    destruct (IH _ eq_refl) as (ys' & E' & P). exists (v :: ys'). cbn [mapM]. rewrite G, E'. split; [reflexivity|apply perm_skip; exact P].
  - cbn [mapM] in *. destruct (g y) as [v| | |]; try discriminate. cbn [bind] in *. destruct (g x) as [w| | |]; try discriminate. cbn [bind] in *.
    destruct (mapM g l) as [vs| | |]; try discriminate. injection E as <-. eexists. split; [reflexivity|]. cbn. apply perm_swap.
  - destruct (IH _ E) as (ys1 & E1 & P1). destruct (IH' _ E1) as (ys2 & E2 & P2). exists ys2. split; [exact E2|eapply Permutation_trans; eassumption].
Qed.
Lemma combine_map_self {A B} (g : A -> B) l : combine l (map g l) = map (fun x => (x, g x)) l.
Proof. induction l; cbn; congruence. Qed.
Lemma wsum_perm (t : string -> option nat) (cs cs' : list (string * dbl)) : Permutation cs cs' -> forall s s' w, deq s s' ->
  foldM (fun s cf => match t (fst cf) with Some n => Ok (dadd s (dmul (snd cf) (dofnat n))) | None => UB EndDeref end) cs s = Ok w ->
  exists w', foldM (fun s cf => match t (fst cf) with Some n => Ok (dadd s (dmul (snd cf) (dofnat n))) | None => UB EndDeref end) cs' s' = Ok w' /\ deq w w'.
Proof.
  induction 1 as [|x l l' H IH|x y l|l l' l'' H IH H' IH']; intros s s' w D E.
  - injection E as <-. exists s'. split; [reflexivity|exact D].
  - cbn [foldM] in *. destruct (t (fst x)); [|discriminate]. cbn [bind] in *. eapply IH; [|exact E]. rewrite D. reflexivity.
  - cbn [foldM] in *. destruct (t (fst y)); [|discriminate]. cbn [bind] in *. destruct (t (fst x)); [|discriminate]. cbn [bind] in *.
    assert (G : forall l s s' w, deq s s' -> foldM (fun s cf => match t (fst cf) with Some n => Ok (dadd s (dmul (snd cf) (dofnat n))) | None => UB EndDeref end) l s = Ok w ->
      exists w', foldM (fun s cf => match t (fst cf) with Some n => Ok (dadd s (dmul (snd cf) (dofnat n))) | None => UB EndDeref end) l s' = Ok w' /\ deq w w').
    { clear. induction l as [|x l IH]; intros s s' w D E; [injection E as <-; exists s'; split; [reflexivity|exact D]|]. cbn [foldM] in *. destruct (t (fst x)); [|discriminate]. cbn [bind] in *. eapply IH; [|exact E]. rewrite D. reflexivity. }
    eapply G; [|exact E]. rewrite D. rewrite dadd_swap. reflexivity.
  - destruct (IH s s' w D E) as (w1 & E1 & D1). destruct (IH' s' s' w1 (reflexivity s') E1) as (w2 & E2 & D2). exists w2. split; [exact E2|rewrite D1; exact D2].
Qed.
