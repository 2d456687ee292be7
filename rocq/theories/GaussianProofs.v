(** Proofs about the parametric classifiers. *)
From Coq Require Import String ZArith QArith Bool Lia Lqa Permutation Sorted Arith List.
From Verif Require Import Base Spec BaseLemmas DblLemmas AttrModel DataSetModel InstanceListModel PartitionModel PerformanceModel StatSpec ListSpec ListProofs PartitionProofs CovProofs CovAllProofs PerformanceProofs DistanceModel GaussianModel.
Import ListNotations.
Local Open Scope string_scope.
Local Open Scope list_scope.
Local Open Scope nat_scope.

(** * The argmax loop *)
Section Argmax.
  Context (prior : counter) (metric : string -> res dbl).
  Let step := gauss_step prior metric.
  Lemma dltb_nan_l a b : dltb a b = true -> is_nan a = false /\ is_nan b = false.
  Proof. destruct a, b; cbn; intros; try discriminate; split; reflexivity. Qed.
  Lemma gauss_fold cands : forall st st', foldM step cands st = Ok st' ->
    (st' = st /\ (forall c v, In c cands -> mmem c prior = true -> metric c = Ok v -> dltb (fst st) v = false)) \/
    (exists pre post, cands = pre ++ snd st' :: post /\ mmem (snd st') prior = true /\ metric (snd st') = Ok (fst st') /\
       dltb (fst st) (fst st') = true /\
       (forall c v, In c pre -> mmem c prior = true -> metric c = Ok v -> is_nan v = true \/ dltb v (fst st') = true) /\
       (forall c v, In c post -> mmem c prior = true -> metric c = Ok v -> dltb (fst st') v = false)).
  Proof.
    induction cands as [|c cands IH]; intros st st' E.
    - injection E as <-. left. split; [reflexivity|intros ? ? []].
    - cbn [foldM] in E. apply bind_ok in E as (st1 & E1 & E).
      destruct (IH _ _ E) as [[-> H]|(pre & post & Ec & Hm & Hv & Hlt & Hpre & Hpost)]; clear IH.
      + unfold step, gauss_step in E1. destruct (mmem c prior) eqn:Hm.
        * apply bind_ok in E1 as (m & Em & E1). injection E1 as <-. unfold dgtb in *. destruct (dltb (fst st) m) eqn:Hlt.
          -- right. exists [], cands. repeat split; try assumption; intros ? ? [].
          -- left. split; [reflexivity|]. intros c' v [<-|Hc] Hm' Hv; [congruence|eapply H; eassumption].
        * injection E1 as <-. left. split; [reflexivity|]. intros c' v [<-|Hc] Hm' Hv; [congruence|eapply H; eassumption].
      + unfold step, gauss_step in E1. destruct (mmem c prior) eqn:Hmc.
        * apply bind_ok in E1 as (m & Em & E1). injection E1 as <-. unfold dgtb in *. destruct (dltb (fst st) m) eqn:Hltm; cbn [fst snd] in *.
          -- right. exists (c :: pre), post. rewrite Ec. repeat split; try assumption.
             ++ eapply dltb_trans; eassumption.
             ++ intros c' v [<-|Hc] Hm' Hv'; [right; congruence|eapply Hpre; eassumption].
          -- right. exists (c :: pre), post. rewrite Ec. repeat split; try assumption.
             intros c' v [<-|Hc] Hm' Hv'; [|eapply Hpre; eassumption].
             rewrite Hv' in Em. injection Em as <-. destruct (is_nan v) eqn:N; [left; reflexivity|right].
             (* not st < v, st < st' : v < st' *)
             destruct (dltb v (fst st')) eqn:F; [reflexivity|]. exfalso.
             destruct (dltb_nan_l _ _ Hlt) as [Na Nb].
             pose proof (SortLemmas.swo_incomp _ _ SortLemmas.dltb_swo (fst st) v (fst st') Na N Nb Hltm F). congruence.
        * injection E1 as <-. right. exists (c :: pre), post. rewrite Ec. repeat split; try assumption.
          intros c' v [<-|Hc] Hm' Hv'; [congruence|eapply Hpre; eassumption].
  Qed.
  Lemma gauss_fold_total cands : forall st, (forall c, In c cands -> mmem c prior = true -> exists v, metric c = Ok v) -> exists st', foldM step cands st = Ok st'.
  Proof.
    induction cands as [|c cands IH]; intros st H; [eexists; reflexivity|].
    cbn [foldM]. unfold step at 1, gauss_step. destruct (mmem c prior) eqn:Hm.
    - destruct (H c (or_introl eq_refl) Hm) as [v ->]. cbn [bind]. apply IH. intros. apply H; [right; assumption|assumption].
    - cbn [bind]. apply IH. intros. apply H; [right; assumption|assumption].
  Qed.
  Lemma gauss_fold_in cands st st' : foldM step cands st = Ok st' -> snd st' = snd st \/ In (snd st') cands /\ mmem (snd st') prior = true.
  Proof.
    intros E. destruct (gauss_fold _ _ _ E) as [[-> _]|(pre & post & -> & Hm & _)]; [left; reflexivity|right].
    split; [apply in_elt|exact Hm].
  Qed.
End Argmax.

Lemma mmem_keys {V} k (m : smap V) : mmem k m = true <-> In k (mkeys m).
Proof. unfold mmem. destruct (mfind k m) eqn:E; split; try discriminate; try reflexivity.
  - intros _. apply mfind_in in E. apply in_map_iff. exists (k, v). split; [reflexivity|exact E].
  - intros H. apply mfind_none in E. contradiction.
Qed.
Lemma mmem_prior l c : mmem c (class_distribution l) = true <-> In c (map label l).
Proof. rewrite mmem_keys, class_distribution_cofl. apply in_cofl. Qed.
Lemma cmax_prior l : l <> [] -> In (cmax (class_distribution l)) (map label l).
Proof.
  intros H. rewrite class_distribution_cofl.
  assert (K := cmax_spec (cofl (map label l)) (cofl_sorted _)).
  assert (P : cpos (cofl (map label l))) by (apply cpos_fold_cput; constructor).
  assert (N : cofl (map label l) <> []).
  { intros E. destruct l as [|x l]; [congruence|]. assert (In (label x) (mkeys (cofl (map label (x :: l))))) by (apply in_cofl; left; reflexivity). rewrite E in H0. destruct H0. }
  destruct (K P N) as [Hi _]. apply (proj1 (in_cofl _ _)) in Hi. exact Hi.
Qed.

(** * Training folds: labels and stored entries *)
Definition labelled (l : ilist) : list (string * ilist) := map (fun c => (c, filter (of_class c) l)) (distinct_labels l).
Lemma class_lists_spec l : class_lists l = Ok (labelled l).
Proof.
  unfold class_lists. rewrite (proj1 (part_class_spec l)). cbn [bind]. f_equal. unfold labelled. generalize (distinct_labels l). intros cs.
  induction cs as [|c cs IH]; [reflexivity|]. cbn [map combine]. rewrite IH. reflexivity.
Qed.
Lemma distinct_in l c : In c (distinct_labels l) <-> In c (map label l).
Proof. rewrite distinct_labels_map, push_new_in. split; [intros [[]|H]; exact H|right; assumption]. Qed.
Lemma distinct_nodup l : NoDup (distinct_labels l).
Proof. rewrite distinct_labels_map. apply push_new_nodup. constructor. Qed.
Lemma uniform_filter shape l f : uniform shape l -> uniform shape (filter f l).
Proof. unfold uniform. rewrite !Forall_forall. intros H x Hx. apply filter_In in Hx as [Hx _]. apply H, Hx. Qed.
Lemma class_nonempty l c : In c (map label l) -> filter (of_class c) l <> [].
Proof.
  intros H. apply in_map_iff in H as (x & E & Hx). intros F. assert (In x (filter (of_class c) l)); [|rewrite F in H; destruct H].
  apply filter_In. split; [exact Hx|]. unfold of_class. rewrite E. apply String.eqb_refl.
Qed.

Definition dims (n : nat) (m : list (list dbl)) : Prop := length m = n /\ Forall (fun r => length r = n) m.
Lemma dims_cols n m : dims n m -> mat_cols m = n.
Proof. intros [H F]. destruct m as [|r m]; [cbn in H; exact H|]. cbn. inversion F; assumption. Qed.
Lemma add_prefix_length r a : length (add_prefix r a) = length r.
Proof. revert a. induction r as [|x r IH]; intros [|y a]; cbn; try reflexivity. rewrite IH. reflexivity. Qed.
Lemma add_matrix_dims n m a : dims n m -> dims n (add_matrix m a).
Proof.
  intros [H F]. split.
  - rewrite <- H. clear. revert a. induction m as [|r m IH]; intros [|y a]; cbn; try reflexivity. rewrite IH. reflexivity.
  - clear H. revert a. induction F as [|r m Hr F IH]; intros [|y a]; cbn; [constructor|constructor|constructor; assumption|].
    constructor; [rewrite add_prefix_length; exact Hr|apply IH].
Qed.
Lemma covariance_dims avg l m x : covariance avg l = Ok m -> atn l 0 = Ok x -> dims (inst_size x) m.
Proof.
  intros E E0. unfold covariance in E. rewrite E0 in E. cbn [bind] in E. apply bind_ok in E as (m0 & Ef & E). injection E as <-.
  assert (D : dims (inst_size x) m0).
  { revert Ef. assert (D0 : dims (inst_size x) (repeat (repeat d0 (inst_size x)) (inst_size x))).
    { split; [apply repeat_length|]. apply Forall_forall. intros r Hr. apply repeat_spec in Hr as ->. apply repeat_length. }
    revert D0. generalize (repeat (repeat d0 (inst_size x)) (inst_size x)). clear E0. generalize (inst_size x). intros n.
    induction l as [|y l IH]; intros a Da Ef; cbn in Ef; [injection Ef as <-; exact Da|].
    apply bind_ok in Ef as (a' & E1 & Ef). unfold cov_step in E1. destruct (_ && _); [|discriminate]. injection E1 as <-.
    eapply IH; [|exact Ef]. apply add_matrix_dims, Da. }
  destruct D as [D1 D2]. split; [rewrite map_length; exact D1|]. apply Forall_map. eapply Forall_impl; [|exact D2]. intros r Hr. rewrite map_length. exact Hr.
Qed.
Lemma map_dims n f m : dims n m -> dims n (map (map f) m).
Proof. intros [D1 D2]. split; [rewrite map_length; exact D1|]. apply Forall_map. eapply Forall_impl; [|exact D2]. intros r Hr. rewrite map_length. exact Hr. Qed.
Lemma mat_add_dims n m m' : dims n m -> dims n m' -> dims n (mat_add m m').
Proof.
  intros D D'. unfold mat_add. destruct (_ && _); [|exact D]. destruct D as [D1 D2], D' as [D1' D2'].
  split; [rewrite map_length, combine_length; lia|].
  apply Forall_map, Forall_forall. intros [r r'] H. cbn. rewrite map_length, combine_length.
  rewrite Forall_forall in D2, D2'. rewrite (D2 r (in_combine_l _ _ _ _ H)), (D2' r' (in_combine_r _ _ _ _ H)). apply Nat.min_id.
Qed.

Lemma inst_size_uniform shape l x : uniform shape l -> In x l -> inst_size x = dim shape.
Proof.
  intros H Hx. unfold uniform in H. rewrite Forall_forall in H. apply H in Hx. unfold inst_size, dim.
  assert (G : forall shape aa n, Forall2 fits shape aa -> fold_left (fun s a => s + attr_size a) aa n = n + list_sum (map width shape)).
  { clear. intros shape aa n H. revert n. induction H as [|s a shape aa Hf HF IH]; intros n; cbn [fold_left map]; [cbn; lia|].
    rewrite IH. unfold list_sum. cbn [fold_right]. destruct s as [m|]; cbn in Hf.
    - destruct Hf as (v & i & -> & _). cbn. lia.
    - destruct Hf as (q & ->). cbn. lia. }
  apply (G _ _ 0 Hx).
Qed.
Lemma discrete_check_uniform shape l x : uniform shape l -> In x l -> discrete_check x = true.
Proof.
  intros H Hx. unfold uniform in H. rewrite Forall_forall in H. apply H in Hx. clear H. unfold discrete_check.
  induction Hx as [|s a sh aa Hf HF IH]; [reflexivity|]. cbn. rewrite IH, andb_true_r.
  destruct s as [m|]; cbn in Hf; [destruct Hf as (v & i & -> & _)|destruct Hf as (q & ->)]; reflexivity.
Qed.

(** reading entries through [emplace] *)
Definition merged {V} (old fresh m : smap V) : Prop := forall k, mfind k m = match mfind k old with Some v => Some v | None => mfind k fresh end.
Lemma merged_emplace {V} (old fresh m : smap V) k v : merged old fresh m -> merged old (memplace k v fresh) (memplace k v m).
Proof. intros H k'. rewrite !mfind_memplace, H. destruct (mfind k' old); [reflexivity|]. reflexivity. Qed.
Lemma merged_start {V} (old : smap V) : merged old [] old.
Proof. intros k. destruct (mfind k old); reflexivity. Qed.

Section Fold.
  (** running the same training fold from two states *)
  Context {G S : Type} (R : S -> S -> Prop) (f : S -> G -> res S)
          (HR : forall s s' g, R s s' -> forall t, f s g = Ok t -> exists t', f s' g = Ok t' /\ R t t').
  Lemma fold_rel gs : forall s s' t, R s s' -> foldM f gs s = Ok t -> exists t', foldM f gs s' = Ok t' /\ R t t'.
  Proof.
    induction gs as [|g gs IH]; intros s s' t H E; cbn [foldM] in *; [injection E as <-; exists s'; split; [reflexivity|exact H]|].
    apply bind_ok in E as (s1 & E1 & E). destruct (HR s s' g H s1 E1) as (s1' & E1' & H1). rewrite E1'. cbn [bind]. eapply IH; eassumption.
  Qed.
End Fold.
Section FoldInv.
  Context {G S : Type} (I : S -> Prop) (f : S -> G -> res S) (ok : G -> Prop)
          (HI : forall s g, I s -> ok g -> exists t, f s g = Ok t /\ I t).
  Lemma fold_inv gs : forall s, I s -> Forall ok gs -> exists t, foldM f gs s = Ok t /\ I t.
  Proof.
    induction gs as [|g gs IH]; intros s H F; cbn [foldM]; [exists s; split; [reflexivity|exact H]|].
    inversion F; subst. destruct (HI s g H) as (t & -> & Ht); [assumption|]. cbn [bind]. apply IH; assumption.
  Qed.
End FoldInv.

Section Disc.
  Context (inverse : list (list dbl) -> list (list dbl)) (determinant : list (list dbl) -> dbl) (ln : dbl -> dbl).
  Definition lda_step (prior : counter) (inv : list (list dbl)) (st : lda) (g : string * ilist) : res lda :=
    do avg <- cont_average_all (snd g);
    Ok (match mul_right inv avg with
        | None => st
        | Some wi =>
            let w' := memplace (fst g) wi (l_w st) in
            match dot_opt wi avg with
            | None => mkLda prior (l_w0 st) w'
            | Some d => mkLda prior (memplace (fst g) (dadd (dmul (dopp half) d) (ln (prob prior (fst g)))) (l_w0 st)) w'
            end
        end).
  Lemma lda_train_eq old l : lda_train inverse ln old l =
    do x0 <- atn l 0;
    if discrete_check x0 then
      do cl <- class_lists l; do cov <- pooled l cl;
      foldM (lda_step (class_distribution l) (inverse cov)) cl (mkLda (class_distribution l) (l_w0 old) (l_w old))
    else Throw DiscreteNotAllowed.
  Proof. reflexivity. Qed.
  Lemma lda_step_prior prior inv st g t : l_prior st = prior -> lda_step prior inv st g = Ok t -> l_prior t = prior.
  Proof. intros H E. apply bind_ok in E as (avg & _ & E). injection E as <-. destruct (mul_right inv avg); [|exact H]. destruct (dot_opt l avg); reflexivity. Qed.
  Lemma lda_fold_prior prior inv gs : forall st t, l_prior st = prior -> foldM (lda_step prior inv) gs st = Ok t -> l_prior t = prior.
  Proof.
    induction gs as [|g gs IH]; intros st t H E; cbn [foldM] in E; [injection E as <-; exact H|].
    apply bind_ok in E as (s1 & E1 & E). eapply IH; [|exact E]. eapply lda_step_prior; eassumption.
  Qed.
  Lemma lda_train_prior old l m : lda_train inverse ln old l = Ok m -> l_prior m = class_distribution l /\ l <> [].
  Proof.
    rewrite lda_train_eq. intros E. apply bind_ok in E as (x0 & E0 & E). destruct (discrete_check x0); [|discriminate].
    apply bind_ok in E as (cl & _ & E). apply bind_ok in E as (cov & _ & E).
    split; [|intros ->; discriminate]. eapply lda_fold_prior; [|exact E]. reflexivity.
  Qed.
  (** retraining keeps old entries *)
  Lemma lda_retrain old l m : lda_train inverse ln old l = Ok m ->
    exists m0, lda_train inverse ln lda_empty l = Ok m0 /\ l_prior m = l_prior m0 /\
      merged (l_w old) (l_w m0) (l_w m) /\ merged (l_w0 old) (l_w0 m0) (l_w0 m).
  Proof.
    intros E. pose proof (lda_train_prior _ _ _ E) as [HP _]. rewrite lda_train_eq in E. rewrite lda_train_eq.
    apply bind_ok in E as (x0 & -> & E). cbn [bind]. destruct (discrete_check x0); [|discriminate].
    apply bind_ok in E as (cl & -> & E). cbn [bind]. apply bind_ok in E as (cov & -> & E). cbn [bind].
    set (R := fun s s' : lda => l_prior s' = class_distribution l /\ merged (l_w old) (l_w s') (l_w s) /\ merged (l_w0 old) (l_w0 s') (l_w0 s)).
    destruct (fold_rel R (lda_step (class_distribution l) (inverse cov))) with (3 := E) (s' := mkLda (class_distribution l) [] []) as (m0 & E0 & HR0 & HR1 & HR2).
    - intros s s' g (H0 & H1 & H2) t Et. unfold lda_step in *. apply bind_ok in Et as (avg & -> & Et). cbn [bind]. eexists. split; [reflexivity|].
      injection Et as <-. destruct (mul_right (inverse cov) avg) as [wi|]; [|split; [exact H0|split; [exact H1|exact H2]]].
      destruct (dot_opt wi avg) as [d|]; (split; [reflexivity|]); cbn [l_w l_w0]; split; try (apply merged_emplace; assumption); exact H2.
    - split; [reflexivity|]. split; cbn [l_w l_w0 lda_empty]; apply merged_start.
    - exists m0. split; [exact E0|]. rewrite HP, HR0. split; [reflexivity|split; assumption].
  Qed.

  (** contract of Matrix::inverse: the dimensions stay *)
  Definition keeps_dims : Prop := forall n m, dims n m -> dims n (inverse m).
  Lemma atn_hd {A} (l : list A) : l <> [] -> exists x, atn l 0 = Ok x /\ In x l.
  Proof. destruct l as [|x l]; [congruence|]. intros _. exists x. split; [reflexivity|left; reflexivity]. Qed.
  Lemma covariance_total shape l avg : uniform shape l -> l <> [] -> length avg = dim shape -> exists m, covariance avg l = Ok m /\ dims (dim shape) m.
  Proof.
    intros H Hn La. destruct (atn_hd l Hn) as (x & E0 & Hx). pose proof (inst_size_uniform _ _ _ H Hx) as Sx.
    assert (E : exists m, covariance avg l = Ok m).
    { unfold covariance. rewrite E0. cbn [bind]. rewrite Sx.
      assert (F : forall l' m, uniform shape l' -> exists m', foldM (cov_step (dim shape) avg) l' m = Ok m').
      { clear -La. intros l'. induction l' as [|y l' IH]; intros m H; [eexists; reflexivity|]. cbn [foldM]. unfold cov_step at 1.
        rewrite (inst_size_uniform shape (y :: l') y H (or_introl eq_refl)), La, Nat.leb_refl. cbn [andb bind]. apply IH. inversion H; assumption. }
      destruct (F l (repeat (repeat d0 (dim shape)) (dim shape)) H) as [m ->]. eexists. reflexivity. }
    destruct E as [m E]. exists m. split; [exact E|]. rewrite <- Sx. eapply covariance_dims; eassumption.
  Qed.
  Lemma average_total shape l : uniform shape l -> l <> [] -> exists avg, cont_average_all l = Ok avg /\ length avg = dim shape.
  Proof.
    intros H Hn. destruct (average_all shape l H) as (av & E & L & _); [destruct l; [congruence|cbn; lia]|].
    exists (map Fin av). rewrite map_length. split; assumption.
  Qed.
  Lemma class_lists_ok shape l : uniform shape l -> Forall (fun g : string * ilist => uniform shape (@snd string ilist g) /\ @snd string ilist g <> []) (labelled l).
  Proof.
    intros H. unfold labelled. apply Forall_map, Forall_forall. intros c Hc. cbn. split; [apply uniform_filter, H|apply class_nonempty, distinct_in, Hc].
  Qed.
  Lemma pooled_total shape l : uniform shape l -> l <> [] ->
    exists m, pooled l (labelled l) = Ok m /\ dims (dim shape) m.
  Proof.
    intros H Hn. unfold pooled. destruct (atn_hd l Hn) as (x & -> & Hx). cbn [bind]. rewrite (inst_size_uniform _ _ _ H Hx).
    match goal with |- context [foldM ?f _ _] => edestruct (fold_inv (dims (dim shape)) f) with (3 := class_lists_ok shape l H) as (m & E & D) end.
    - intros m g Dm (Hu & Hg). destruct (average_total _ _ Hu Hg) as (avg & Ea & La). destruct (covariance_total _ _ _ Hu Hg La) as (c & Ec & Dc).
      exists (mat_add m (mat_scale (dofZ (Z.of_nat (length (snd g)) - 1)) c)). cbv beta. rewrite Ea. cbn [bind]. rewrite Ec. cbn [bind].
      split; [reflexivity|]. apply mat_add_dims; [exact Dm|apply map_dims, Dc].
    - split; [apply repeat_length|]. apply Forall_forall. intros r Hr. apply repeat_spec in Hr as ->. apply repeat_length.
    - rewrite E. cbn [bind]. eexists. split; [reflexivity|]. apply map_dims, D.
  Qed.
  Lemma vmul_left_length v m : length (vmul_left v m) = mat_cols m.
  Proof. unfold vmul_left. rewrite map_length, seq_length. reflexivity. Qed.
  Lemma mfind_memplace_some {V} k k' (v : V) m : (exists w, mfind k' m = Some w) \/ k = k' -> exists w, mfind k' (memplace k v m) = Some w.
  Proof. rewrite mfind_memplace. intros [[w ->]| ->]; [eexists; reflexivity|]. destruct (mfind k' m); [eexists; reflexivity|]. rewrite String.eqb_refl. eexists; reflexivity. Qed.
  (** after a fold every visited label has its entries *)
  Lemma fold_covers {S G} (f : S -> G -> res S) (has : S -> G -> Prop) (ok : G -> Prop) gs :
    (forall s g, ok g -> exists t, f s g = Ok t /\ has t g) ->
    (forall s g t h, f s g = Ok t -> has s h -> has t h) ->
    forall s, Forall ok gs -> exists t, foldM f gs s = Ok t /\ Forall (has t) gs.
  Proof.
    intros H1 H2. assert (K : forall hs s t h, foldM f hs s = Ok t -> has s h -> has t h).
    { induction hs as [|h' hs IH]; intros s t h E Hs; cbn in E; [injection E as <-; exact Hs|]. apply bind_ok in E as (s1 & E1 & E). eapply IH; [exact E|]. eapply H2; eassumption. }
    induction gs as [|g gs IH]; intros s F; cbn [foldM]; [eexists; split; [reflexivity|constructor]|].
    inversion F; subst. destruct (H1 s g) as (t & E & Ht); [assumption|]. rewrite E. cbn [bind]. destruct (IH t) as (t' & E' & F'); [assumption|].
    exists t'. split; [exact E'|]. constructor; [eapply K; eassumption|exact F'].
  Qed.
  Lemma lda_total shape old l : keeps_dims -> uniform shape l -> l <> [] ->
    exists m, lda_train inverse ln old l = Ok m /\
      forall c, In c (map label l) -> (exists w, mfind c (l_w m) = Some w) /\ exists w0, mfind c (l_w0 m) = Some w0.
  Proof.
    intros KD H Hn. rewrite lda_train_eq. destruct (atn_hd l Hn) as (x & -> & Hx). cbn [bind]. rewrite (discrete_check_uniform _ _ _ H Hx).
    rewrite class_lists_spec. cbn [bind]. destruct (pooled_total _ _ H Hn) as (cov & -> & Dc). cbn [bind].
    edestruct (fold_covers (lda_step (class_distribution l) (inverse cov))
      (fun st g => (exists w, mfind (fst g) (l_w st) = Some w) /\ exists w0, mfind (fst g) (l_w0 st) = Some w0)) with (3 := class_lists_ok shape l H) as (m & E & F).
    - intros st g (Hu & Hg). unfold lda_step. destruct (average_total _ _ Hu Hg) as (avg & -> & La). cbn [bind]. eexists. split; [reflexivity|].
      apply KD in Dc. unfold mul_right. rewrite (dims_cols _ _ Dc), La, Nat.eqb_refl. unfold dot_opt. rewrite map_length, (proj1 Dc), La, Nat.eqb_refl.
      cbn [l_w l_w0]. split; apply mfind_memplace_some; right; reflexivity.
    - intros st g t h E (Hw & Hw0). apply bind_ok in E as (avg & _ & E). injection E as <-. destruct (mul_right (inverse cov) avg) as [wi|]; [|split; assumption].
      destruct (dot_opt wi avg); cbn [l_w l_w0]; split; try (apply mfind_memplace_some; left; assumption); assumption.
    - exists m. split; [exact E|]. intros c Hc. unfold labelled in F. rewrite Forall_map, Forall_forall in F. apply (F c). apply distinct_in, Hc.
  Qed.

  (** * Quadratic discriminant *)
  Definition qda_step (prior : counter) (st : qda) (g : string * ilist) : res qda :=
    do avg <- cont_average_all (snd g);
    do cov <- covariance avg (snd g);
    let det := determinant cov in
    let inv := inverse cov in
    let W' := memplace (fst g) (mat_scale (dopp half) inv) (q_W st) in
    Ok (match mul_left avg inv with
        | None => mkQda (q_lda st) W'
        | Some wi =>
            let w' := memplace (fst g) wi (l_w (q_lda st)) in
            match dot_opt wi avg with
            | None => mkQda (mkLda prior (l_w0 (q_lda st)) w') W'
            | Some d => mkQda (mkLda prior (memplace (fst g) (dadd (dmul (dopp half) (dadd d (ln det))) (ln (prob prior (fst g)))) (l_w0 (q_lda st))) w') W'
            end
        end).
  Lemma qda_train_eq old l : qda_train inverse determinant ln old l =
    do x0 <- atn l 0;
    if discrete_check x0 then
      do cl <- class_lists l;
      foldM (qda_step (class_distribution l)) cl (mkQda (mkLda (class_distribution l) (l_w0 (q_lda old)) (l_w (q_lda old))) (q_W old))
    else Throw DiscreteNotAllowed.
  Proof. reflexivity. Qed.
  Lemma qda_fold_prior prior gs : forall st t, l_prior (q_lda st) = prior -> foldM (qda_step prior) gs st = Ok t -> l_prior (q_lda t) = prior.
  Proof.
    induction gs as [|g gs IH]; intros st t H E; cbn [foldM] in E; [injection E as <-; exact H|].
    apply bind_ok in E as (s1 & E1 & E). eapply IH; [|exact E]. unfold qda_step in E1.
    apply bind_ok in E1 as (avg & _ & E1). apply bind_ok in E1 as (cov & _ & E1). injection E1 as <-.
    destruct (mul_left avg (inverse cov)); [|exact H]. destruct (dot_opt l avg); reflexivity.
  Qed.
  Lemma qda_train_prior old l m : qda_train inverse determinant ln old l = Ok m -> l_prior (q_lda m) = class_distribution l /\ l <> [].
  Proof.
    rewrite qda_train_eq. intros E. apply bind_ok in E as (x0 & E0 & E). destruct (discrete_check x0); [|discriminate].
    apply bind_ok in E as (cl & _ & E). split; [|intros ->; discriminate]. eapply qda_fold_prior; [|exact E]. reflexivity.
  Qed.
  Lemma qda_retrain old l m : qda_train inverse determinant ln old l = Ok m ->
    exists m0, qda_train inverse determinant ln qda_empty l = Ok m0 /\ l_prior (q_lda m) = l_prior (q_lda m0) /\
      merged (q_W old) (q_W m0) (q_W m) /\ merged (l_w (q_lda old)) (l_w (q_lda m0)) (l_w (q_lda m)) /\ merged (l_w0 (q_lda old)) (l_w0 (q_lda m0)) (l_w0 (q_lda m)).
  Proof.
    intros E. pose proof (qda_train_prior _ _ _ E) as [HP _]. rewrite qda_train_eq in E. rewrite qda_train_eq.
    apply bind_ok in E as (x0 & -> & E). cbn [bind]. destruct (discrete_check x0); [|discriminate].
    apply bind_ok in E as (cl & -> & E). cbn [bind].
    set (R := fun s s' : qda => l_prior (q_lda s') = class_distribution l /\ merged (q_W old) (q_W s') (q_W s) /\ merged (l_w (q_lda old)) (l_w (q_lda s')) (l_w (q_lda s)) /\ merged (l_w0 (q_lda old)) (l_w0 (q_lda s')) (l_w0 (q_lda s))).
    destruct (fold_rel R (qda_step (class_distribution l))) with (3 := E) (s' := mkQda (mkLda (class_distribution l) [] []) []) as (m0 & E0 & HR0 & HR1 & HR2 & HR3).
    - intros s s' g (H0 & H1 & H2 & H3) t Et. unfold qda_step in *. apply bind_ok in Et as (avg & -> & Et). cbn [bind]. apply bind_ok in Et as (cov & -> & Et). cbn [bind]. eexists. split; [reflexivity|].
      injection Et as <-. destruct (mul_left avg (inverse cov)) as [wi|]; cbn [q_lda q_W l_w l_w0 l_prior]; [|split; [exact H0|split; [apply merged_emplace, H1|split; [exact H2|exact H3]]]].
      destruct (dot_opt wi avg) as [d|]; (split; [reflexivity|]); cbn [q_lda q_W l_w l_w0]; split; try (apply merged_emplace; assumption); split; try (apply merged_emplace; assumption); exact H3.
    - split; [reflexivity|]. split; [|split]; cbn [l_w l_w0 q_lda q_W]; apply merged_start.
    - exists m0. split; [exact E0|]. rewrite HP, HR0. split; [reflexivity|split; [exact HR1|split; assumption]].
  Qed.
  Lemma qda_total shape old l : keeps_dims -> uniform shape l -> l <> [] ->
    exists m, qda_train inverse determinant ln old l = Ok m /\
      forall c, In c (map label l) -> (exists W, mfind c (q_W m) = Some W) /\ (exists w, mfind c (l_w (q_lda m)) = Some w) /\ exists w0, mfind c (l_w0 (q_lda m)) = Some w0.
  Proof.
    intros KD H Hn. rewrite qda_train_eq. destruct (atn_hd l Hn) as (x & -> & Hx). cbn [bind]. rewrite (discrete_check_uniform _ _ _ H Hx).
    rewrite class_lists_spec. cbn [bind].
    edestruct (fold_covers (qda_step (class_distribution l))
      (fun st g => (exists W, mfind (fst g) (q_W st) = Some W) /\ (exists w, mfind (fst g) (l_w (q_lda st)) = Some w) /\ exists w0, mfind (fst g) (l_w0 (q_lda st)) = Some w0)) with (3 := class_lists_ok shape l H) as (m & E & F).
    - intros st g (Hu & Hg). unfold qda_step. destruct (average_total _ _ Hu Hg) as (avg & -> & La). cbn [bind].
      destruct (covariance_total _ _ _ Hu Hg La) as (cov & -> & Dc). cbn [bind]. eexists. split; [reflexivity|].
      apply KD in Dc. unfold mul_left. rewrite (proj1 Dc), La, Nat.eqb_refl. unfold dot_opt. rewrite vmul_left_length, (dims_cols _ _ Dc), La, Nat.eqb_refl.
      cbn [q_W q_lda l_w l_w0]. split; [|split]; apply mfind_memplace_some; right; reflexivity.
    - intros st g t h E (HW & Hw & Hw0). unfold qda_step in E. apply bind_ok in E as (avg & _ & E). apply bind_ok in E as (cov & _ & E). injection E as <-.
      destruct (mul_left avg (inverse cov)) as [wi|]; [destruct (dot_opt wi avg)|]; cbn [q_W q_lda l_w l_w0]; (split; [apply mfind_memplace_some; left; assumption|]); split; try (apply mfind_memplace_some; left; assumption); assumption.
    - exists m. split; [exact E|]. intros c Hc. unfold labelled in F. rewrite Forall_map, Forall_forall in F. apply (F c). apply distinct_in, Hc.
  Qed.

  (** * Naive Bayes *)
  Context (std_vec : ilist -> res (list dbl)).
  Lemma bayes_train_prior old l m : bayes_train std_vec old l = Ok m -> nb_prior m = class_distribution l.
  Proof.
    unfold bayes_train. intros E. apply bind_ok in E as (cl & _ & E). apply bind_ok in E as (g0 & _ & E). apply bind_ok in E as (x0 & _ & E). apply bind_ok in E as (a0 & _ & E).
    assert (K : forall (f : bayes -> string * ilist -> res bayes), (forall s g t, f s g = Ok t -> nb_prior t = nb_prior s) -> forall gs s t, foldM f gs s = Ok t -> nb_prior t = nb_prior s).
    { intros f Hf. induction gs as [|g gs IH]; intros s t Ef; cbn [foldM] in Ef; [injection Ef as <-; reflexivity|]. apply bind_ok in Ef as (s1 & E1 & Ef). rewrite (IH _ _ Ef). eapply Hf, E1. }
    destruct (isDiscrete a0); (eapply (K _) in E; [exact E|]); intros s g t Et.
    - apply bind_ok in Et as (ds & _ & Et). injection Et as <-. reflexivity.
    - apply bind_ok in Et as (a & _ & Et). apply bind_ok in Et as (sd & _ & Et). injection Et as <-. reflexivity.
  Qed.
  Lemma bayes_retrain old l m : bayes_train std_vec old l = Ok m ->
    exists m0, bayes_train std_vec bayes_empty l = Ok m0 /\ nb_prior m = nb_prior m0 /\
      merged (nb_means old) (nb_means m0) (nb_means m) /\ merged (nb_devs old) (nb_devs m0) (nb_devs m) /\ merged (nb_dists old) (nb_dists m0) (nb_dists m).
  Proof.
    intros E. pose proof (bayes_train_prior _ _ _ E) as HP. unfold bayes_train in *.
    apply bind_ok in E as (cl & -> & E). cbn [bind]. apply bind_ok in E as (g0 & -> & E). cbn [bind]. apply bind_ok in E as (x0 & -> & E). cbn [bind]. apply bind_ok in E as (a0 & -> & E). cbn [bind].
    set (R := fun s s' : bayes => nb_prior s' = class_distribution l /\ merged (nb_means old) (nb_means s') (nb_means s) /\ merged (nb_devs old) (nb_devs s') (nb_devs s) /\ merged (nb_dists old) (nb_dists s') (nb_dists s)).
    assert (R0 : R (mkNB (class_distribution l) (nb_means old) (nb_devs old) (nb_dists old)) (mkNB (class_distribution l) [] [] [])).
    { split; [reflexivity|]. split; [|split]; apply merged_start. }
    destruct (isDiscrete a0).
    - destruct (fold_rel R bayes_disc) with (3 := E) (s' := mkNB (class_distribution l) [] [] []) as (m0 & E0 & H0 & H1 & H2 & H3); [|exact R0|].
      + intros s s' g (H0 & H1 & H2 & H3) t Et. unfold bayes_disc in *. apply bind_ok in Et as (ds & -> & Et). cbn [bind]. eexists. split; [reflexivity|]. injection Et as <-.
        cbn. split; [exact H0|]. split; [exact H1|]. split; [exact H2|apply merged_emplace, H3].
      + exists m0. rewrite HP, H0. cbn [nb_means nb_devs nb_dists bayes_empty]. split; [exact E0|]. split; [reflexivity|]. split; [exact H1|split; assumption].
    - destruct (fold_rel R (bayes_cont std_vec)) with (3 := E) (s' := mkNB (class_distribution l) [] [] []) as (m0 & E0 & H0 & H1 & H2 & H3); [|exact R0|].
      + intros s s' g (H0 & H1 & H2 & H3) t Et. unfold bayes_cont in *. apply bind_ok in Et as (a & -> & Et). cbn [bind]. apply bind_ok in Et as (sd & -> & Et). cbn [bind]. eexists. split; [reflexivity|]. injection Et as <-.
        cbn. split; [exact H0|]. split; [apply merged_emplace, H1|]. split; [apply merged_emplace, H2|exact H3].
      + exists m0. rewrite HP, H0. cbn [nb_means nb_devs nb_dists bayes_empty]. split; [exact E0|]. split; [reflexivity|]. split; [exact H1|split; assumption].
  Qed.
End Disc.

(** predictions read the stored entries of labels of the prior only *)
Lemma gauss_predict_ext prior m m' q : (forall c, In c (mkeys prior) -> m c = m' c) -> gauss_predict prior m q = gauss_predict prior m' q.
Proof.
  intros H. unfold gauss_predict. destruct (match composite q with Some ls => do c <- atn ls 0; Ok (c, ls) | None => Ok (cmax prior, mkeys prior) end) as [st0| | |]; cbn [bind]; try reflexivity.
  rewrite (foldM_ext (gauss_step prior m) (gauss_step prior m')); [reflexivity|].
  intros s c _. unfold gauss_step. destruct (mmem c prior) eqn:E; [|reflexivity]. rewrite H; [reflexivity|apply mmem_keys, E].
Qed.
