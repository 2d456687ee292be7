(** Proofs about ensembles, the dummy model and the random model. *)
From Coq Require Import String ZArith QArith Bool Lia Permutation Lqa List.
From Verif Require Import Base Spec BaseLemmas DblLemmas AttrModel InstanceListModel PartitionModel
  ListSpec ListProofs PerformanceProofs TreeModel TreeSpec TreeProofs TreeGrowProofs TreePredictProofs EnsembleModel.
Import ListNotations.
Local Open Scope string_scope.
Local Open Scope list_scope.
Local Open Scope nat_scope.

Lemma rearrange_incl {A} p (l : list A) : incl (rearrange p l) l.
Proof.
  intros x Hx. unfold rearrange in Hx. apply in_flat_map in Hx. destruct Hx as (i & _ & Hi).
  destruct (nth_error l i) as [y|] eqn:E; [|contradiction]. destruct Hi as [<-|[]]. exact (nth_error_In _ _ E).
Qed.
Lemma rearrange_length {A} p (l : list A) : Forall (fun i => i < length l) p -> length (rearrange p l) = length p.
Proof.
  unfold rearrange. induction 1 as [|i p Hi _ IH]; [reflexivity|]. cbn [flat_map length]. rewrite app_length, IH.
  destruct (nth_error l i) eqn:E; [reflexivity|]. apply nth_error_None in E. lia.
Qed.

Lemma cofl_total ls : ls <> [] -> (qsum (map (fun kv => (qofn (snd kv) / qofn (csum (cofl ls)))%Q) (cofl ls)) == 1)%Q.
Proof.
  intros H. rewrite csum_cofl. assert (0 < length ls) as Hl by (destruct ls; [contradiction|simpl; lia]).
  assert (forall c : counter, qsum (map (fun kv => (qofn (snd kv) / qofn (length ls))%Q) c) == qofn (csum c) / qofn (length ls))%Q as Hg.
  { pose proof (qofn_pos _ Hl). induction c as [|[k n] c IH].
    - cbn. setoid_replace (qofn 0) with 0%Q by apply qofn_0. field. lra.
    - assert (qsum (map (fun kv : string * nat => (qofn (snd kv) / qofn (length ls))%Q) ((k, n) :: c))
              == qofn n / qofn (length ls) + qsum (map (fun kv : string * nat => (qofn (snd kv) / qofn (length ls))%Q) c))%Q as -> by reflexivity.
      rewrite IH. change (csum ((k, n) :: c)) with (n + csum c). rewrite qofn_plus. field. lra. }
  rewrite Hg, csum_cofl. pose proof (qofn_pos _ Hl). field. lra.
Qed.
Lemma probabilities_fin c : 0 < csum c -> probabilities c = map (fun kv => (fst kv, Fin (qofn (snd kv) / qofn (csum c)))) c.
Proof.
  intros H. unfold probabilities. apply map_ext. intros [k n]. cbn [fst snd]. rewrite !dofnat_fin, ddiv_fin; [reflexivity|].
  pose proof (qofn_pos _ H). lra.
Qed.
Lemma mfind_map {V W} (f : string * V -> W) (m : smap V) k : mfind k (map (fun kv => (fst kv, f kv)) m) = option_map (fun v => f (k, v)) (mfind k m).
Proof.
  induction m as [|[k' v] m IH]; [reflexivity|]. simpl. destruct (String.eqb_spec k k') as [->|]; [reflexivity|exact IH].
Qed.

(** * A tree only tests the features it is offered *)
Inductive tests_in (S : list Z) : tree -> Prop :=
| tests_node lab leaf d c ch : Forall (fun t => In (c_index (t_cond t)) S) ch -> Forall (tests_in S) ch -> tests_in S (Node lab leaf d c ch).

Section Subset.
  Context (entropy : counter -> dbl) (mid : dbl -> dbl -> dbl) (rarr : nat -> Z -> list nat).
  Lemma better_attr S b e k v : In (b_attr b) ((-1)%Z :: S) -> In k S -> In (b_attr (better b e k v)) ((-1)%Z :: S).
  Proof. intros H Hk. unfold better. destruct (dltb e (b_entropy b)); [right; exact Hk|exact H]. Qed.
  Lemma try_index_attr S data k vs : In k S -> forall cd b cd' b', In (b_attr b) ((-1)%Z :: S) ->
    foldM (try_index entropy data k) vs (cd, b) = Ok (cd', b') -> In (b_attr b') ((-1)%Z :: S).
  Proof.
    intros Hk. induction vs as [|v vs IH]; intros cd b cd' b' Hb H; [cbn [foldM] in H; congruence|]. cbn [foldM] in H.
    apply bind_ok in H. destruct H as ([cd1 b1] & H1 & H2). apply (IH _ _ _ _) in H2; [exact H2|].
    unfold try_index in H1. apply bind_ok in H1. destruct H1 as (d & _ & H1). destruct (0 <? csum d); injection H1 as <- <-; [|exact Hb].
    apply better_attr; assumption.
  Qed.
  Lemma try_cut_attr S n k l : In k S -> forall s s', In (b_attr (s_best s)) ((-1)%Z :: S) ->
    foldM (try_cut entropy mid n k) l s = Ok s' -> In (b_attr (s_best s')) ((-1)%Z :: S).
  Proof.
    intros Hk. induction l as [|x l IH]; intros s s' Hb H; [cbn [foldM] in H; congruence|]. cbn [foldM] in H.
    apply bind_ok in H. destruct H as (s1 & H1 & H2). apply IH in H2; [exact H2|].
    unfold try_cut in H1. apply bind_ok in H1. destruct H1 as (v & _ & H1). destruct (s_prev s) as [p|].
    - destruct (negb (deqb v p)); injection H1 as <-; cbn [s_best]; [apply better_attr; assumption|exact Hb].
    - injection H1 as <-. exact Hb.
  Qed.
  Lemma try_attr_attr S data cd b k data' cd' b' : In k S -> In (b_attr b) ((-1)%Z :: S) ->
    try_attr entropy mid (data, cd, b) k = Ok (data', cd', b') -> In (b_attr b') ((-1)%Z :: S).
  Proof.
    intros Hk Hb H. unfold try_attr in H. apply bind_ok in H. destruct H as (x0 & _ & H). apply bind_ok in H. destruct H as (a & _ & H).
    destruct (isDiscreteIndexed a).
    - apply bind_ok in H. destruct H as (m & _ & H). apply bind_ok in H. destruct H as ([cd1 b1] & H1 & H). injection H as _ _ <-.
      exact (try_index_attr S _ _ _ Hk _ _ _ _ Hb H1).
    - destruct (isDiscrete a).
      + apply bind_ok in H. destruct H as (e & _ & H). injection H as _ _ <-. apply better_attr; assumption.
      + destruct (isContinuous a); [|injection H as _ _ <-; exact Hb].
        apply bind_ok in H. destruct H as (d1 & _ & H). apply bind_ok in H. destruct H as (s & H1 & H). injection H as _ _ <-.
        refine (try_cut_attr S _ _ _ Hk _ _ _ H1); exact Hb.
  Qed.
  Lemma try_attr_fold_attr S ks : incl ks S -> forall data cd b data' cd' b', In (b_attr b) ((-1)%Z :: S) ->
    foldM (try_attr entropy mid) ks (data, cd, b) = Ok (data', cd', b') -> In (b_attr b') ((-1)%Z :: S).
  Proof.
    induction ks as [|k ks IH]; intros Hi data cd b data' cd' b' Hb H; [cbn [foldM] in H; congruence|]. cbn [foldM] in H.
    apply bind_ok in H. destruct H as ([[d1 cd1] b1] & H1 & H2).
    apply (IH (fun z Hz => Hi z (or_intror Hz)) _ _ _ _ _ _) in H2; [exact H2|].
    exact (try_attr_attr S _ _ _ _ _ _ _ (Hi k (or_introl eq_refl)) Hb H1).
  Qed.
  Lemma search_attr param data data' b x0 ks : nth_error data 0 = Some x0 -> attr_order rarr param x0 = Ok ks ->
    search entropy mid rarr param data = Ok (data', b) -> In (b_attr b) ((-1)%Z :: ks).
  Proof.
    intros Hx Hk H. unfold search in H. rewrite (proj2 (atn_ok _ _ _) Hx) in H. cbn [bind] in H. rewrite Hk in H. cbn [bind] in H.
    apply bind_ok in H. destruct H as ([[d1 cd1] b1] & H1 & H). injection H as _ <-.
    refine (try_attr_fold_attr ks ks (incl_refl _) _ _ _ _ _ _ _ H1). left; reflexivity.
  Qed.
  Lemma split_index data k v parts : split data k v = Ok parts -> Forall (fun p => c_index (fst p) = k) parts.
  Proof.
    unfold split. intros H. apply bind_ok in H. destruct H as (x0 & _ & H). apply bind_ok in H. destruct H as (a & _ & H).
    destruct (isDiscreteIndexed a).
    - apply bind_ok in H. destruct H as (m & _ & H). apply bind_ok in H. destruct H as (gs & _ & H).
      apply bind_ok in H. destruct H as (g0 & _ & H). apply bind_ok in H. destruct H as (g1 & _ & H). injection H as <-. repeat constructor.
    - destruct (isDiscrete a).
      + apply bind_ok in H. destruct H as (vs & _ & H). apply bind_ok in H. destruct H as (gs & _ & H). apply mapM_ok in H.
        clear - H. induction H as [|iv p l ps E _ IH]; constructor; [|exact IH]. apply bind_ok in E. destruct E as (g & _ & E). injection E as <-. reflexivity.
      + destruct (isContinuous a); [|injection H as <-; constructor]. apply bind_ok in H. destruct H as (gs & _ & H).
        apply bind_ok in H. destruct H as (g0 & _ & H). apply bind_ok in H. destruct H as (g1 & _ & H). injection H as <-. repeat constructor.
  Qed.

  Context (shape : list kind).
  Hypothesis Hent : entropy_finite entropy.
  Hypothesis Hmid : mid_exact mid.
  Hypothesis Hrarr : rarr_perm rarr.
  Lemma build_tests param stump ks : (forall x, typed shape x -> attr_order rarr param x = Ok ks) ->
    forall fuel data c t, tabular shape data -> data <> [] -> build entropy mid rarr param stump fuel data c = Ok t ->
    tests_in ks t /\ t_cond t = c.
  Proof.
    intros Hks. induction fuel as [|f IH]; intros data c t Ht Hne H; [discriminate H|]. cbn [build] in H.
    assert (forall n, Ok n = Ok t -> (exists lab d, n = Node lab true d c []) -> tests_in ks t /\ t_cond t = c) as Hleaf.
    { intros n E (lab & d & ->). injection E as <-. split; [constructor; constructor|reflexivity]. }
    destruct (length (distinct_labels data) =? 1); [apply (Hleaf _ H); eexists _, _; reflexivity|].
    destruct (stump && negb (c_index c =? -1)%Z); [apply (Hleaf _ H); eexists _, _; reflexivity|].
    destruct (search_ok entropy mid shape Hent Hmid rarr param data Hrarr Ht Hne) as (data' & b & Es & HP & Hb).
    assert (exists x0, nth_error data 0 = Some x0 /\ typed shape x0) as (x0 & Hx0 & Tx0).
    { destruct data as [|x0 r]; [contradiction|]. exists x0. split; [reflexivity|]. inversion Ht; assumption. }
    pose proof (search_attr param data data' b x0 ks Hx0 (Hks x0 Tx0) Es) as Hattr.
    rewrite Es in H. cbn [bind] in H. destruct (Z.eqb_spec (b_attr b) (-1)) as [Eb|Eb]; [apply (Hleaf _ H); eexists _, _; reflexivity|].
    destruct Hb as [Hb|Hb]; [contradiction|]. destruct Hattr as [Hattr|Hattr]; [congruence|].
    assert (data' <> []) as Hne'. { intros ->. apply Hne, Permutation_nil, Permutation_sym, HP. }
    destruct (split_proper shape data' _ _ (tab_perm _ _ _ HP Ht) Hne' Hb) as (parts & Esp & (P1 & _) & _ & Hnon).
    rewrite Esp in H. cbn [bind] in H. apply bind_ok in H. destruct H as (ch & Hch & H). injection H as <-. apply mapM_ok in Hch.
    pose proof (split_index _ _ _ _ Esp) as Hidx.
    assert (Forall (fun p => tabular shape (snd p) /\ snd p <> [] /\ In (c_index (fst p)) ks) parts) as HF.
    { apply Forall_forall. intros p Hp. split; [|split].
      - apply (tab_incl _ data'); [|exact (tab_perm _ _ _ HP Ht)]. intros x Hx. apply (Permutation_in _ P1), in_concat.
        exists (snd p). split; [apply in_map, Hp|exact Hx].
      - exact (proj1 (Forall_forall _ _) Hnon p Hp).
      - pose proof (proj1 (Forall_forall _ _) Hidx p Hp) as Ei. cbv beta in Ei. unfold ilist in Ei. rewrite Ei. exact Hattr. }
    split; [|reflexivity]. clear - IH Hch HF. constructor.
    - induction Hch as [|p t l ts E _ IHl]; [constructor|]. inversion HF as [|? ? (A & B & C) HF']; subst. constructor; [|apply IHl; exact HF'].
      destruct (IH _ _ _ A B E) as [_ ->]. exact C.
    - induction Hch as [|p t l ts E _ IHl]; [constructor|]. inversion HF as [|? ? (A & B & C) HF']; subst. constructor; [|apply IHl; exact HF'].
      destruct (IH _ _ _ A B E) as [G _]. exact G.
  Qed.
End Subset.
