(** Proofs for C163. *)
From Coq Require Import String ZArith QArith Bool Lia Lqa Permutation Arith List.
From Verif Require Import Base Spec BaseLemmas DblLemmas AttrModel InstanceListModel ListProofs TreeModel EnsembleModel EnsembleProofs PerformanceProofs MostProofs ConstDistProofs RepeatSpec RepeatProofs NearProofs TogetherSpec.
Import ListNotations.
Local Open Scope string_scope.
Local Open Scope list_scope.
Local Open Scope nat_scope.

(** * Counts *)
Lemma leading_ne vs c : leading vs c -> vs <> [].
Proof. intros (I & _) ->. exact I. Qed.
Lemma leading_is vs c : leading vs c -> get_maximum vs = c.
Proof. intros L. apply (leading_unique vs); [|exact L]. apply leading_max, (leading_ne _ _ L). Qed.
Lemma occ_in vs (v : string) : In v vs <-> 0 < occ vs v.
Proof. unfold occ. rewrite (count_occ_In string_dec vs v). lia. Qed.
Lemma leading_app vs ws c : leading vs c -> leading ws c -> leading (vs ++ ws) c.
Proof.
  intros (I & H) (J & G). split; [apply in_or_app; left; exact I|]. intros v Iv. rewrite !occ_app.
  assert (A : occ vs v < occ vs c \/ occ vs v = occ vs c /\ (v = c \/ slt c v)).
  { destruct (in_dec string_dec v vs) as [Y|N]; [exact (H v Y)|left]. apply occ_in in I. rewrite occ_in in N. lia. }
  assert (B : occ ws v < occ ws c \/ occ ws v = occ ws c /\ (v = c \/ slt c v)).
  { destruct (in_dec string_dec v ws) as [Y|N]; [exact (G v Y)|left]. apply occ_in in J. rewrite occ_in in N. lia. }
  destruct A as [A|(A & A')], B as [B|(B & B')]; try (left; lia). right. split; [lia|exact A'].
Qed.
Lemma max_app vs ws c : get_maximum vs = c -> get_maximum ws = c -> get_maximum (vs ++ ws) = c.
Proof.
  intros <- E. destruct vs as [|v vs]; [exact E|]. destruct ws as [|w ws]; [rewrite app_nil_r; reflexivity|].
  apply leading_is, leading_app; [|rewrite <- E]; apply leading_max; discriminate.
Qed.
Lemma occ_le vs (v : string) : occ vs v <= length vs.
Proof. unfold occ. apply count_occ_bound. Qed.
Lemma max_margin vs ws c : (forall v, v <> c -> occ vs v + length ws < occ vs c) -> get_maximum (vs ++ ws) = c.
Proof.
  intros H. assert (I : In c vs).
  { assert (N : (c ++ "x")%string <> c).
    { clear. induction c as [|a c IH]; cbn; [discriminate|]. intros E. injection E as E. exact (IH E). }
    pose proof (H _ N). apply occ_in. lia. }
  apply leading_is. split; [apply in_or_app; left; exact I|]. intros v Iv. destruct (string_dec v c) as [->|N]; [right; split; [reflexivity|left; reflexivity]|].
  left. rewrite !occ_app. pose proof (H v N). pose proof (occ_le ws v). lia.
Qed.

(** * Ensembles *)
Section Together.
  Context (mi : counter -> list string -> string) (x : instance).
  Lemma predict_votes f r : ensemble_predict mi f x = Ok r <-> exists vs, votes mi f x = Ok vs /\ r = get_maximum vs.
  Proof.
    unfold ensemble_predict. split.
    - intros H. apply bind_ok in H as (vs & E & H). exists vs. split; [exact E|]. injection H as <-. reflexivity.
    - intros (vs & -> & ->). reflexivity.
  Qed.
  Lemma probability_votes f r : ensemble_probability mi f x = Ok r <-> exists vs, votes mi f x = Ok vs /\ r = probabilities (cofl vs).
  Proof.
    unfold ensemble_probability. split.
    - intros H. apply bind_ok in H as (vs & E & H). exists vs. split; [exact E|]. injection H as <-. reflexivity.
    - intros (vs & -> & ->). reflexivity.
  Qed.
  Lemma votes_app f g vs ws : votes mi f x = Ok vs -> votes mi g x = Ok ws -> votes mi (f ++ g) x = Ok (vs ++ ws).
  Proof. unfold votes. intros E F. rewrite mapM_app_, E, F. reflexivity. Qed.
  Lemma votes_perm f g vs : Permutation f g -> votes mi f x = Ok vs -> exists ws, votes mi g x = Ok ws /\ Permutation vs ws.
  Proof.
    unfold votes. intros P. revert vs. induction P as [|t f g P IH|t u f|f g h P1 IH1 P2 IH2]; intros vs E.
    - exists vs. split; [exact E|reflexivity].
    - cbn [mapM] in *. apply bind_ok in E as (v & E1 & E). apply bind_ok in E as (vs' & E2 & E). injection E as <-. destruct (IH _ E2) as (ws & F & Q).
      exists (v :: ws). rewrite E1. cbn [bind]. rewrite F. split; [reflexivity|constructor; exact Q].
    - cbn [mapM] in *. apply bind_ok in E as (v & E1 & E). apply bind_ok in E as (vs' & E2 & E). injection E as <-. apply bind_ok in E2 as (w & E3 & E2). apply bind_ok in E2 as (us & E4 & E2). injection E2 as <-.
      exists (w :: v :: us). rewrite E3. cbn [bind]. rewrite E1. cbn [bind]. rewrite E4. split; [reflexivity|apply perm_swap].
    - destruct (IH1 _ E) as (ws & F & Q). destruct (IH2 _ F) as (us & G & R). exists us. split; [exact G|]. rewrite Q. exact R.
  Qed.
  Lemma votes_each m f vs : votes mi f x = Ok vs -> votes mi (each m f) x = Ok (each m vs).
  Proof.
    unfold votes. revert vs. induction f as [|t f IH]; intros vs E; cbn [mapM] in E; [injection E as <-; reflexivity|].
    apply bind_ok in E as (v & E1 & E). apply bind_ok in E as (vs' & E2 & E). injection E as <-. rewrite !each_cons, mapM_app_, (IH _ E2).
    assert (R : mapM (fun t => tree_predict mi t x) (repeat t m) = Ok (repeat v m)).
    { clear - E1. induction m as [|m IH]; [reflexivity|]. cbn [repeat mapM]. rewrite E1. cbn [bind]. rewrite IH. reflexivity. }
    rewrite R. reflexivity.
  Qed.
End Together.

(** * Probabilities *)
Lemma chance_votes vs c : vs <> [] -> chance (probabilities (cofl vs)) c (qofn (occ vs c) / qofn (length vs)).
Proof.
  intros N. unfold chance. rewrite share_find by exact N. destruct (in_dec string_dec c vs) as [I|O].
  - eexists. split; reflexivity.
  - rewrite occ_in in O. assert (Z : occ vs c = 0) by lia. rewrite Z. unfold Qdiv. change (qofn 0) with 0%Q. ring.
Qed.
Lemma chance_eq m c p q : (p == q)%Q -> chance m c p -> chance m c q.
Proof. unfold chance. intros E. destruct (mfind c m); [intros (r & -> & H); exists r; split; [reflexivity|rewrite H; exact E]|intros H; rewrite <- E; exact H]. Qed.
Lemma chance_unique m c p q : chance m c p -> chance m c q -> (p == q)%Q.
Proof. unfold chance. destruct (mfind c m); [intros (r & -> & H) (s & E & G); injection E as ->; rewrite <- H, <- G; reflexivity|intros -> ->; reflexivity]. Qed.
Lemma qofn_plus a b : (qofn (a + b) == qofn a + qofn b)%Q.
Proof. unfold qofn. rewrite Nat2Z.inj_add, inject_Z_plus. reflexivity. Qed.
Lemma qofn_times a b : (qofn (a * b) == qofn a * qofn b)%Q.
Proof. unfold qofn. rewrite Nat2Z.inj_mul, inject_Z_mult. reflexivity. Qed.
Lemma chances_each m vs : 0 < m -> vs <> [] -> same_chances (probabilities (cofl (each m vs))) (probabilities (cofl vs)).
Proof.
  intros Hm N. assert (L : 0 < length vs) by (destruct vs; [congruence|cbn; lia]).
  assert (N' : each m vs <> []). { intros E. apply (f_equal (@length string)) in E. rewrite each_length in E. cbn in E. nia. }
  rewrite (shares _ N'), (shares _ N), cofl_each by exact Hm. rewrite each_length. unfold times, same_chances. rewrite map_map.
  induction (cofl vs) as [|kv cs IH]; [constructor|]. cbn [map fst snd]. constructor; [|exact IH]. split; [reflexivity|]. cbn [snd deq].
  pose proof (qofn_pos _ Hm). pose proof (qofn_pos _ L). rewrite !qofn_times. field. split; lra.
Qed.
