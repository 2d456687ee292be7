(** Order and units of the training data of the discriminants, naive Bayes, k-means and k-nearest neighbours: proofs. *)
From Coq Require Import String ZArith QArith Bool Lia Lqa Permutation Sorted Arith List.
From Verif Require Import Base Spec BaseLemmas DblLemmas SortLemmas AttrModel AttrProofs DataSetModel InstanceListModel PartitionModel PerformanceModel
  StatSpec ListSpec ListProofs PartitionProofs CovProofs CovAllProofs PerformanceProofs DistanceModel DistanceSpec DistanceProofs
  GaussianModel GaussianSpec GaussianProofs DiscrimSpec DiscrimProofs BayesProofs TreeBestProofs InvSpec TreeInvProofs ModelInvSpec.
Import ListNotations.
Local Open Scope string_scope.
Local Open Scope list_scope.
Local Open Scope nat_scope.

(** * GaussianModel::predict sees the scores only *)
Lemma gauss_fold_rel prior metric metric' (R : dbl -> dbl -> Prop) ks :
  (forall c, In c (mkeys prior) -> exists a b, metric c = Ok a /\ metric' c = Ok b /\ R a b) ->
  (forall a b x y, R a b -> R x y -> dltb a x = dltb b y) ->
  forall st st', R (fst st) (fst st') -> snd st = snd st' ->
  exists r r', foldM (gauss_step prior metric) ks st = Ok r /\ foldM (gauss_step prior metric') ks st' = Ok r' /\ R (fst r) (fst r') /\ snd r = snd r'.
Proof.
  intros HM HR. induction ks as [|k ks IH]; intros st st' H1 H2; [exists st, st'; repeat split; assumption|].
  cbn [foldM]. unfold gauss_step at 1 3. destruct (mmem k prior) eqn:E.
  - destruct (HM k) as (a & b & -> & -> & Rab); [apply mmem_keys, E|]. cbn [bind]. unfold dgtb. rewrite (HR _ _ _ _ H1 Rab).
    destruct (dltb (fst st') b); apply IH; cbn [fst snd]; auto.
  - cbn [bind]. apply IH; assumption.
Qed.
Lemma gauss_predict_rel prior metric metric' (R : dbl -> dbl -> Prop) q q' : composite q = composite q' ->
  (forall c, In c (mkeys prior) -> exists a b, metric c = Ok a /\ metric' c = Ok b /\ R a b) ->
  (forall a b x y, R a b -> R x y -> dltb a x = dltb b y) -> R (dopp dbl_max) (dopp dbl_max) ->
  gauss_predict prior metric q = gauss_predict prior metric' q'.
Proof.
  intros Hc HM HR H0. unfold gauss_predict. rewrite <- Hc.
  assert (G : forall st0, (do st <- foldM (gauss_step prior metric) (snd st0) (dopp dbl_max, fst st0); Ok (snd st)) =
                          (do st <- foldM (gauss_step prior metric') (snd st0) (dopp dbl_max, fst st0); Ok (snd st))).
  { intros [c0 ks]. cbn [fst snd]. destruct (gauss_fold_rel prior metric metric' R ks HM HR (dopp dbl_max, c0) (dopp dbl_max, c0)) as (r & r' & -> & -> & _ & E); [exact H0|reflexivity|].
    cbn [bind]. rewrite E. reflexivity. }
  destruct (composite q) as [ls|]; cbn [bind]; [|apply (G (cmax prior, mkeys prior))].
  destruct (atn ls 0) as [c0| | |]; cbn [bind]; try reflexivity. apply (G (c0, ls)).
Qed.
Lemma gauss_predict_ext prior metric metric' q q' : composite q = composite q' ->
  (forall c, In c (mkeys prior) -> exists a b, metric c = Ok a /\ metric' c = Ok b /\ deq a b) ->
  gauss_predict prior metric q = gauss_predict prior metric' q'.
Proof.
  intros Hc HM. apply (gauss_predict_rel prior metric metric' deq q q' Hc HM); [|reflexivity]. intros a b x y H1 H2. rewrite H1, H2. reflexivity.
Qed.
Lemma gauss_predict_mono prior metric metric' (rel : Q -> Q -> Prop) q q' : composite q = composite q' ->
  (forall a b x y, rel a b -> rel x y -> (a < x <-> b < y)%Q) ->
  (forall c, In c (mkeys prior) -> exists a b, metric c = Ok (Fin a) /\ metric' c = Ok (Fin b) /\ rel a b /\ above_floor a /\ above_floor b) ->
  gauss_predict prior metric q = gauss_predict prior metric' q'.
Proof.
  intros Hc HR HM.
  set (M := (- inject_Z (2 ^ 1024 - 2 ^ 971))%Q).
  apply (gauss_predict_rel prior metric metric' (fun x y => (x = Fin M /\ y = Fin M) \/ exists a b, x = Fin a /\ y = Fin b /\ rel a b /\ (M < a)%Q /\ (M < b)%Q) q q' Hc).
  - intros c Hk. destruct (HM c Hk) as (a & b & Ea & Eb & Hab & Fa & Fb). exists (Fin a), (Fin b). split; [exact Ea|]. split; [exact Eb|]. right. exists a, b. repeat split; assumption.
  - assert (T : forall p q, (p < q)%Q -> dltb (Fin p) (Fin q) = true) by (intros; apply dltb_fin; assumption).
    assert (F : forall p q, (q <= p)%Q -> dltb (Fin p) (Fin q) = false) by (intros; apply dltb_fin_false; assumption).
    intros a b x y [(-> & ->)|(a' & b' & -> & -> & H1 & H2 & H3)] [(-> & ->)|(x' & y' & -> & -> & K1 & K2 & K3)].
    + reflexivity.
    + rewrite !T by assumption. reflexivity.
    + rewrite !F by lra. reflexivity.
    + pose proof (HR _ _ _ _ H1 K1) as HH. destruct (Qlt_le_dec a' x') as [L|L].
      * rewrite !T; [reflexivity|apply HH, L|exact L].
      * rewrite !F; [reflexivity| |exact L]. destruct (Qlt_le_dec b' y') as [L'|L']; [|exact L']. apply HH in L'. lra.
  - left. split; reflexivity.
Qed.

(** * Related samples *)
Definition conv (d : nat) (w : nat -> Q * Q) (r r' : string * list Q) : Prop :=
  fst r = fst r' /\ forall j, j < d -> (coord r' j == fst (w j) * coord r j + snd (w j))%Q.
Definition same_sample (d : nat) (w : nat -> Q * Q) (s s' : sample) : Prop := exists p, Permutation s p /\ Forall2 (conv d w) p s'.
Lemma same_sum d w s s' F F' : same_sample d w s s' -> (forall r r', In r s -> conv d w r r' -> (F r == F' r')%Q) -> (qsum (map F s) == qsum (map F' s'))%Q.
Proof.
  intros (p & P & H) E. rewrite (qsum_perm _ _ (Permutation_map F P)).
  assert (E' : forall r r', In r p -> conv d w r r' -> (F r == F' r')%Q) by (intros r r' Hr; apply E; exact (Permutation_in _ (Permutation_sym P) Hr)).
  clear E P. induction H as [|r r' p s' Hr _ IH]; [reflexivity|]. cbn [map]. change (F r + qsum (map F p) == F' r' + qsum (map F' s'))%Q.
  rewrite IH by (intros; apply E'; [right|]; assumption). rewrite (E' r r' (or_introl eq_refl) Hr). reflexivity.
Qed.
Lemma same_members d w s s' c : same_sample d w s s' -> same_sample d w (members s c) (members s' c).
Proof.
  intros (p & P & H). exists (members p c). split; [apply filter_perm, P|]. clear P. unfold members. induction H as [|r r' p s' Hr _ IH]; [constructor|].
  cbn [filter]. rewrite <- (proj1 Hr). destruct (String.eqb (fst r) c); [constructor; assumption|exact IH].
Qed.
Lemma same_sample_labels d w s s' : same_sample d w s s' -> Permutation (map fst s) (map fst s').
Proof.
  intros (p & P & H). rewrite (Permutation_map fst P). clear P. induction H as [|r r' p s' Hr _ IH]; [constructor|]. cbn [map]. rewrite (proj1 Hr). constructor. exact IH.
Qed.
Lemma same_sample_length d w s s' : same_sample d w s s' -> length s = length s'.
Proof. intros H. apply same_sample_labels, Permutation_length in H. rewrite !map_length in H. exact H. Qed.
Lemma same_classes d w s s' : same_sample d w s s' -> classes s = classes s'.
Proof.
  intros H. apply same_sample_labels in H. unfold classes. apply Permutation_length, NoDup_Permutation; try apply NoDup_nodup. intros x. rewrite !nodup_In.
  split; apply Permutation_in; [exact H|apply Permutation_sym, H].
Qed.
Lemma same_frequency d w s s' c : same_sample d w s s' -> (frequency s c == frequency s' c)%Q.
Proof. intros H. unfold frequency. rewrite (same_sample_length _ _ _ _ H), (same_sample_length _ _ _ _ (same_members _ _ _ _ c H)). reflexivity. Qed.
Lemma same_mean d w s s' c j : same_sample d w s s' -> j < d -> members s c <> [] -> (class_mean s' c j == fst (w j) * class_mean s c j + snd (w j))%Q.
Proof.
  intros H Hj N. pose proof (same_members _ _ _ _ c H) as K. unfold class_mean, qmean. rewrite !map_length, <- (same_sample_length _ _ _ _ K).
  rewrite <- (same_sum d w _ _ (fun r => fst (w j) * coord r j + snd (w j))%Q (fun r => coord r j) K) by (intros r r' _ Hr; symmetry; apply Hr, Hj).
  rewrite (qsum_plus (fun r => fst (w j) * coord r j)%Q (fun _ => snd (w j))), qsum_scale, qsum_const.
  assert (P : (0 < qofn (length (members s c)))%Q) by (apply qofn_pos; destruct (members s c); [congruence|cbn; lia]). field. lra.
Qed.
Lemma same_deviation d w s s' c r r' j : same_sample d w s s' -> conv d w r r' -> j < d -> members s c <> [] ->
  (coord r' j - class_mean s' c j == fst (w j) * (coord r j - class_mean s c j))%Q.
Proof. intros H Hr Hj N. rewrite (proj2 Hr j Hj), (same_mean _ _ _ _ _ _ H Hj N). ring. Qed.
Lemma same_away d w s s' c v v' j : same_sample d w s s' -> (nth j v' 0 == fst (w j) * nth j v 0 + snd (w j))%Q -> j < d -> members s c <> [] ->
  (away s' c v' j == fst (w j) * away s c v j)%Q.
Proof. intros H Hv Hj N. unfold away. rewrite Hv, (same_mean _ _ _ _ _ _ H Hj N). ring. Qed.
Lemma same_cov d w s s' c i j : same_sample d w s s' -> i < d -> j < d -> members s c <> [] ->
  (class_cov s' c i j == fst (w i) * fst (w j) * class_cov s c i j)%Q.
Proof.
  intros H Hi Hj N. pose proof (same_members _ _ _ _ c H) as K. unfold class_cov. rewrite <- (same_sample_length _ _ _ _ K).
  rewrite <- (same_sum d w _ _ (fun r => (fst (w i) * fst (w j)) * ((coord r i - class_mean s c i) * (coord r j - class_mean s c j)))%Q
                 (fun r => (coord r i - class_mean s' c i) * (coord r j - class_mean s' c j))%Q K).
  - rewrite qsum_scale. unfold Qdiv. ring.
  - intros r r' _ Hr. rewrite (same_deviation _ _ _ _ _ _ _ _ H Hr Hi N), (same_deviation _ _ _ _ _ _ _ _ H Hr Hj N). ring.
Qed.
Lemma same_pooled d w s s' i j : same_sample d w s s' -> i < d -> j < d ->
  (pooled_cov s' i j == fst (w i) * fst (w j) * pooled_cov s i j)%Q.
Proof.
  intros H Hi Hj. unfold pooled_cov. rewrite <- (same_sample_length _ _ _ _ H), <- (same_classes _ _ _ _ H).
  rewrite <- (same_sum d w _ _ (fun r => (fst (w i) * fst (w j)) * ((coord r i - class_mean s (fst r) i) * (coord r j - class_mean s (fst r) j)))%Q
                 (fun r => (coord r i - class_mean s' (fst r) i) * (coord r j - class_mean s' (fst r) j))%Q H).
  - rewrite qsum_scale. unfold Qdiv. ring.
  - intros r r' Hin Hr. rewrite <- (proj1 Hr).
    assert (N : members s (fst r) <> []).
    { intros E. assert (I : In r (members s (fst r))) by (apply filter_In; split; [exact Hin|apply String.eqb_refl]). rewrite E in I. destruct I. }
    rewrite (same_deviation _ _ _ _ _ _ _ _ H Hr Hi N), (same_deviation _ _ _ _ _ _ _ _ H Hr Hj N). ring.
Qed.

(** * Inverses and determinants of rescaled matrices *)
Definition finv (d : nat) (p s : nat -> nat -> Q) : Prop :=
  forall i j, i < d -> j < d -> (ssum d (fun k => p i k * s k j) == if Nat.eqb i j then 1 else 0)%Q.
Lemma finv_unique d p s t : (forall i j, i < d -> j < d -> (p i j == p j i)%Q) -> finv d p s -> finv d p t ->
  forall i j, i < d -> j < d -> (s i j == t i j)%Q.
Proof.
  intros Hp Hs Ht.
  assert (K : forall i j, i < d -> j < d -> (s i j == t j i)%Q).
  { intros i j Hi Hj.
    transitivity (ssum d (fun k => ssum d (fun l => s k j * p k l * t l i))%Q).
    - transitivity (ssum d (fun k => (if Nat.eqb k i then 1 else 0) * s k j)%Q); [symmetry; apply (ssum_delta d (fun k => s k j)); exact Hi|].
      apply ssum_ext. intros k Hk. rewrite <- (Ht k i Hk Hi), <- qsum_scale_r. apply ssum_ext. intros l Hl. ring.
    - rewrite (qsum_swap (fun k l => s k j * p k l * t l i)%Q).
      transitivity (ssum d (fun l => (if Nat.eqb l j then 1 else 0) * t l i)%Q); [|apply (ssum_delta d (fun l => t l i)); exact Hj].
      apply ssum_ext. intros l Hl. rewrite <- (Hs l j Hl Hj), <- qsum_scale_r. apply ssum_ext. intros k Hk. rewrite (Hp k l Hk Hl). ring. }
  assert (T : forall i j, i < d -> j < d -> (t i j == t j i)%Q).
  { intros i j Hi Hj.
    assert (E : forall i j, i < d -> j < d -> (t j i == ssum d (fun k => ssum d (fun l => t k i * p k l * t l j)))%Q).
    { clear i j Hi Hj. intros i j Hi Hj. transitivity (ssum d (fun k => (if Nat.eqb k j then 1 else 0) * t k i)%Q); [symmetry; apply (ssum_delta d (fun k => t k i)); exact Hj|].
      apply ssum_ext. intros k Hk. rewrite <- (Ht k j Hk Hj), <- qsum_scale_r. apply ssum_ext. intros l Hl. ring. }
    rewrite (E j i Hj Hi), (E i j Hi Hj), (qsum_swap (fun k l => t k j * p k l * t l i)%Q). apply ssum_ext. intros k Hk. apply ssum_ext. intros l Hl. rewrite (Hp l k Hl Hk). ring. }
  intros i j Hi Hj. rewrite (K i j Hi Hj). symmetry. apply T; assumption.
Qed.
Lemma finv_rescale d (a : nat -> Q) p p' s : (forall i, i < d -> ~ (a i == 0)%Q) -> (forall i j, i < d -> j < d -> (p' i j == a i * a j * p i j)%Q) ->
  finv d p s -> finv d p' (fun i j => s i j / (a i * a j))%Q.
Proof.
  intros Ha Hp Hs i j Hi Hj. pose proof (Ha i Hi). pose proof (Ha j Hj).
  transitivity (ssum d (fun k => (a i / a j) * (p i k * s k j)))%Q.
  - apply ssum_ext. intros k Hk. pose proof (Ha k Hk). rewrite (Hp i k Hi Hk). field. auto.
  - rewrite qsum_scale, (Hs i j Hi Hj). destruct (Nat.eqb_spec i j) as [->|]; field; assumption.
Qed.
Lemma bil_rescale d (a : nat -> Q) s s' x x' : (forall i, i < d -> ~ (a i == 0)%Q) -> (forall i j, i < d -> j < d -> (s' i j == s i j / (a i * a j))%Q) ->
  (forall i, i < d -> (x' i == a i * x i)%Q) -> (bil d s' x' x' == bil d s x x)%Q.
Proof.
  intros Ha Hs Hx. unfold bil. apply ssum_ext. intros i Hi. apply ssum_ext. intros j Hj. pose proof (Ha i Hi). pose proof (Ha j Hj).
  rewrite (Hs i j Hi Hj), (Hx i Hi), (Hx j Hj). field. auto.
Qed.
Definition tabulate (d : nat) (w : nat -> nat -> Q) : list (list Q) := map (fun i => map (w i) (seq 0 d)) (seq 0 d).
Lemma tabulate_get d w i j : i < d -> j < d -> mget (tabulate d w) i j = w i j.
Proof. intros Hi Hj. unfold mget, tabulate. rewrite (nth_map_seq _ _ _ _ Hi), (nth_map_seq _ _ _ _ Hj). reflexivity. Qed.
Lemma tabulate_square d w : square d (tabulate d w).
Proof.
  unfold tabulate. split; [rewrite map_length, seq_length; reflexivity|]. apply Forall_map, Forall_forall. intros i _. rewrite map_length, seq_length. reflexivity.
Qed.
Lemma finv_of d p s : inverse_of d p s -> finv d (mget p) (mget s).
Proof. intros [_ H]. exact H. Qed.
Lemma of_finv d p s : finv d (mget p) s -> inverse_of d p (tabulate d s).
Proof.
  intros H. split; [apply tabulate_square|]. intros i j Hi Hj. rewrite <- (H i j Hi Hj). apply ssum_ext. intros k Hk. rewrite tabulate_get by assumption. reflexivity.
Qed.

Fixpoint qprod (n : nat) (a : nat -> Q) : Q := match n with 0 => 1 | S n => a 0%nat * qprod n (fun i => a (S i)) end.
Lemma qprod_ext n : forall a b, (forall i, i < n -> (a i == b i)%Q) -> (qprod n a == qprod n b)%Q.
Proof. induction n as [|n IH]; intros a b H; [reflexivity|]. cbn [qprod]. rewrite (H 0) by lia. rewrite (IH (fun i => a (S i)) (fun i => b (S i))) by (intros; apply H; lia). reflexivity. Qed.
Lemma qprod_skip n : forall b j, j < S n -> (qprod (S n) b == b j * qprod n (fun k => b (if Nat.ltb k j then k else S k)))%Q.
Proof.
  induction n as [|n IH]; intros b j Hj.
  - assert (j = 0) as -> by lia. reflexivity.
  - destruct j as [|j].
    + change (qprod (S (S n)) b) with (b 0%nat * qprod (S n) (fun i => b (S i)))%Q. reflexivity.
    + change (qprod (S (S n)) b) with (b 0%nat * qprod (S n) (fun i => b (S i)))%Q. rewrite (IH (fun i => b (S i)) j) by lia.
      change (qprod (S n) (fun k => b (if Nat.ltb k (S j) then k else S k))) with (b 0%nat * qprod n (fun k => b (if Nat.ltb (S k) (S j) then S k else S (S k))))%Q.
      rewrite (qprod_ext n (fun k => b (S (if Nat.ltb k j then k else S k))) (fun k => b (if Nat.ltb (S k) (S j) then S k else S (S k)))); [ring|].
      intros i _. change (Nat.ltb (S i) (S j)) with (Nat.ltb i j). destruct (Nat.ltb i j); reflexivity.
Qed.
Lemma det_ext n : forall w w', (forall i j, i < n -> j < n -> (w i j == w' i j)%Q) -> (det n w == det n w')%Q.
Proof.
  induction n as [|n IH]; intros w w' H; [reflexivity|]. cbn [det]. apply ssum_ext. intros j Hj. rewrite (H 0 j) by lia.
  rewrite (IH (fun i k => w (S i) (if Nat.ltb k j then k else S k)) (fun i k => w' (S i) (if Nat.ltb k j then k else S k))); [reflexivity|].
  intros i k Hi Hk. apply H; [lia|]. destruct (Nat.ltb_spec k j); lia.
Qed.
Lemma det_scale n : forall a b w, (det n (fun i j => a i * w i j * b j) == qprod n a * qprod n b * det n w)%Q.
Proof.
  induction n as [|n IH]; intros a b w; [reflexivity|].
  change (det (S n) w) with (ssum (S n) (fun j => (if Nat.even j then 1 else -(1)) * w 0%nat j * det n (fun i k => w (S i) (if Nat.ltb k j then k else S k))))%Q.
  rewrite <- qsum_scale. cbn [det]. apply ssum_ext. intros j Hj.
  rewrite (IH (fun i => a (S i)) (fun k => b (if Nat.ltb k j then k else S k)) (fun i k => w (S i) (if Nat.ltb k j then k else S k))).
  rewrite (qprod_skip n b j) by lia. cbn [qprod]. ring.
Qed.
Lemma qprod_nonzero n : forall a, (forall i, i < n -> ~ (a i == 0)%Q) -> ~ (qprod n a == 0)%Q.
Proof.
  induction n as [|n IH]; intros a H E; [cbn in E; lra|]. cbn [qprod] in E. apply Qmult_integral in E as [E|E]; [apply (H 0) in E; [exact E|lia]|].
  apply (IH (fun i => a (S i))) in E; [exact E|]. intros; apply H; lia.
Qed.

(** * Rows of rescaled instances *)
Fixpoint flat (shape : list (option nat)) (u : units) : list (Q * Q) :=
  match shape with
  | [] => []
  | None :: sh => u 0 :: flat sh (fun i => u (S i))
  | Some m :: sh => repeat (1%Q, 0%Q) m ++ flat sh (fun i => u (S i))
  end.
Lemma flat_length shape : forall u, length (flat shape u) = dim shape.
Proof.
  unfold dim. induction shape as [|[m|] sh IH]; intros u; cbn [flat map list_sum fold_right]; [reflexivity| |].
  - rewrite app_length, repeat_length, IH. reflexivity.
  - cbn [length width]. rewrite IH. reflexivity.
Qed.
Lemma rescaled_fits_row shape : forall u aa bb, Forall2 fits shape aa -> length aa = length bb ->
  (forall i a b, nth_error aa i = Some a -> nth_error bb i = Some b -> converted (u i) a b) ->
  Forall2 fits shape bb /\ Forall2 (fun p f => snd p == fst f * fst p + snd f)%Q (combine (concat (map blk aa)) (concat (map blk bb))) (flat shape u).
Proof.
  induction shape as [|s sh IH]; intros u aa bb H L C; inversion H as [|? a ? aa' Ha H']; subst; (destruct bb as [|b bb]; try discriminate L).
  - split; constructor.
  - injection L as L. pose proof (C 0 a b eq_refl eq_refl) as C0. destruct (IH (fun i => u (S i)) aa' bb H' L (fun i => C (S i))) as (F & R).
    destruct s as [m|]; cbn [fits] in Ha.
    + destruct Ha as (v & i & -> & Hi). cbn [converted] in C0. subst b. split; [constructor; [exists v, i; auto|exact F]|].
      cbn [map concat flat]. set (o := blk (AIdx v (Z.of_nat i) m)). assert (Lo : length o = m) by (unfold o, blk; rewrite map_length, seq_length; reflexivity).
      rewrite <- Lo. clear -R. induction o as [|x o IHo]; [exact R|]. cbn [app combine length repeat]. constructor; [cbn; ring|exact IHo].
    + destruct Ha as (q & ->). destruct b as [| | |[q'| | |]]; cbn [converted] in C0; try discriminate C0. split; [constructor; [exists q'; reflexivity|exact F]|].
      cbn [map concat flat app combine blk]. constructor; [exact C0|exact R].
Qed.
Definition wof (shape : list (option nat)) (u : units) (j : nat) : Q * Q := nth j (flat shape u) (1%Q, 0%Q).
Lemma rescaled_row shape u x y : Forall2 fits shape (attrs x) -> rescaled u x y ->
  Forall2 fits shape (attrs y) /\ forall j, j < dim shape -> (nth j (row y) 0 == fst (wof shape u j) * nth j (row x) 0 + snd (wof shape u j))%Q.
Proof.
  intros H (_ & _ & L & C). destruct (rescaled_fits_row shape u (attrs x) (attrs y) H L C) as (F & R). split; [exact F|]. intros j Hj.
  assert (Lx : length (row x) = dim shape) by (unfold row; rewrite length_concat, (fits_blk_lengths _ _ H); reflexivity).
  assert (Ly : length (row y) = dim shape) by (unfold row; rewrite length_concat, (fits_blk_lengths _ _ F); reflexivity).
  fold (row x) in R. fold (row y) in R.
  assert (E : nth_error (combine (row x) (row y)) j = Some (nth j (row x) 0%Q, nth j (row y) 0%Q)).
  { rewrite <- combine_nth by lia. apply nth_error_nth'. rewrite combine_length. lia. }
  destruct (Forall2_nth_ex _ _ _ _ _ R E) as (f & Ef & Hf). cbn [fst snd] in Hf. unfold wof. rewrite (nth_error_nth _ _ _ Ef). exact Hf.
Qed.
Lemma wof_nonzero shape : forall u, reversible u -> forall j, ~ (fst (wof shape u j) == 0)%Q.
Proof.
  intros u H j. unfold wof. assert (G : forall sh v, (forall i, ~ (fst (v i) == 0)%Q) -> Forall (fun f => ~ (fst f == 0)%Q) (flat sh v)).
  { induction sh as [|[m|] sh IH]; intros v Hv; cbn [flat]; [constructor| |constructor; [apply Hv|apply IH; intros; apply Hv]].
    apply Forall_app. split; [|apply IH; intros; apply Hv]. apply Forall_forall. intros f Hf. apply repeat_spec in Hf as ->. cbn. lra. }
  destruct (nth_in_or_default j (flat shape u) (1%Q, 0%Q)) as [I| ->]; [|cbn; lra]. pose proof (G shape u H) as K. rewrite Forall_forall in K. apply K, I.
Qed.
Lemma wof_same shape j : (fst (wof shape same_units j) = 1 /\ snd (wof shape same_units j) = 0)%Q.
Proof.
  unfold wof. assert (G : forall sh, Forall (fun f => f = (1%Q, 0%Q)) (flat sh same_units)).
  { induction sh as [|[m|] sh IH]; cbn [flat]; [constructor| |constructor; [reflexivity|exact IH]].
    apply Forall_app. split; [|exact IH]. apply Forall_forall. intros f Hf. apply repeat_spec in Hf as ->. reflexivity. }
  destruct (nth_in_or_default j (flat shape same_units) (1%Q, 0%Q)) as [I| ->]; [|split; reflexivity]. pose proof (G shape) as K. rewrite Forall_forall in K. rewrite (K _ I). split; reflexivity.
Qed.
Lemma same_data_sample shape u l l' : uniform shape l -> same_data u l l' ->
  uniform shape l' /\ same_sample (dim shape) (wof shape u) (sample_of l) (sample_of l').
Proof.
  intros H (p & P & F). assert (Hp : uniform shape p) by (unfold uniform in *; rewrite Forall_forall in *; intros x Hx; apply H; exact (Permutation_in _ (Permutation_sym P) Hx)).
  assert (G : uniform shape l' /\ Forall2 (conv (dim shape) (wof shape u)) (sample_of p) (sample_of l')).
  { clear P H. induction F as [|x y p l' R _ IH]; [split; constructor|]. inversion Hp as [|? ? Hx Hp']; subst. destruct (IH Hp') as (I1 & I2).
    destruct (rescaled_row shape u x y Hx R) as (Fy & Ry). split; constructor; try assumption. split; [exact (proj1 R)|exact Ry]. }
  split; [apply G|]. exists (sample_of p). split; [apply Permutation_map, P|apply G].
Qed.

(** * Linear discriminant *)
Lemma finv_ext d p p' s : (forall i j, i < d -> j < d -> (p i j == p' i j)%Q) -> finv d p s -> finv d p' s.
Proof. intros H K i j Hi Hj. rewrite <- (K i j Hi Hj). apply ssum_ext. intros k Hk. rewrite (H i k Hi Hk). reflexivity. Qed.
Lemma inverts_entries d inverse P w : inverts d inverse -> entries d P w -> invertible d w ->
  exists S, inverse (map (map Fin) P) = map (map Fin) S /\ inverse_of d P S.
Proof.
  intros HI (Sq & E) (s & Hs). destruct (HI P (tabulate d s) Sq) as (S & ES & HS); [|exists S; split; assumption].
  apply of_finv, (finv_ext d w); [|exact Hs]. intros i j Hi Hj. symmetry. apply E; assumption.
Qed.
Lemma invertible_rescale d (a : nat -> Q) p p' : (forall i, i < d -> ~ (a i == 0)%Q) -> (forall i j, i < d -> j < d -> (p' i j == a i * a j * p i j)%Q) ->
  invertible d p -> invertible d p'.
Proof. intros Ha Hp (s & Hs). exists (fun i j => s i j / (a i * a j))%Q. exact (finv_rescale d a p p' s Ha Hp Hs). Qed.
Lemma quad_same d (a : nat -> Q) p p' P P' S S' x x' : (forall i, i < d -> ~ (a i == 0)%Q) -> (forall i j, i < d -> j < d -> (p' i j == a i * a j * p i j)%Q) ->
  (forall i j, (p i j == p j i)%Q) ->
  entries d P p -> entries d P' p' -> inverse_of d P S -> inverse_of d P' S' -> (forall i, i < d -> (x' i == a i * x i)%Q) ->
  (quad d S' x' == quad d S x)%Q.
Proof.
  intros Ha Hp Hy (_ & EP) (_ & EP') HS HS' Hx. rewrite !quad_bil.
  apply (bil_rescale d a); [exact Ha| |exact Hx].
  assert (K : finv d p' (fun i j => mget S i j / (a i * a j))%Q).
  { apply (finv_rescale d a p); [exact Ha|exact Hp|]. apply (finv_ext d (mget P)); [exact EP|exact (finv_of _ _ _ HS)]. }
  assert (K' : finv d p' (mget S')) by (apply (finv_ext d (mget P')); [exact EP'|exact (finv_of _ _ _ HS')]).
  intros i j Hi Hj. apply (finv_unique d p' (mget S') (fun i j => mget S i j / (a i * a j))%Q); try assumption. clear -Hp Hy. intros i j Hi Hj. rewrite !Hp, (Hy i j) by assumption. ring.
Qed.
Lemma pooled_sym s i j : (pooled_cov s i j == pooled_cov s j i)%Q.
Proof. unfold pooled_cov. rewrite (qsum_ext _ (fun r => (coord r j - class_mean s (fst r) j) * (coord r i - class_mean s (fst r) i))%Q); [reflexivity|]. intros. ring. Qed.
Lemma cov_sym s c i j : (class_cov s c i j == class_cov s c j i)%Q.
Proof. unfold class_cov. rewrite (qsum_ext _ (fun r => (coord r j - class_mean s c j) * (coord r i - class_mean s c i))%Q); [reflexivity|]. intros. ring. Qed.
Lemma two_members l c : In c (map label l) -> members (sample_of l) c <> [].
Proof.
  intros Hc E. apply (f_equal (@length _)) in E. rewrite members_sample, sample_length in E. pose proof (class_nonempty l c Hc) as N. destruct (filter (of_class c) l); [congruence|discriminate E].
Qed.
Lemma fits_vals shape x : Forall2 fits shape (attrs x) -> inst_vals x = map Fin (row x) /\ length (row x) = dim shape.
Proof.
  intros H. pose proof (uniform_rows shape [x] (Forall_cons _ H (Forall_nil _))) as R. inversion R; subst. assumption.
Qed.
Lemma in_same_labels u l l' c : same_data u l l' -> (In c (map label l) <-> In c (map label l')).
Proof. intros H. apply same_data_labels in H. split; apply Permutation_in; [exact H|apply Permutation_sym, H]. Qed.
Lemma same_prior u l l' : same_data u l l' -> class_distribution l = class_distribution l'.
Proof. intros H. rewrite !class_distribution_cofl. apply cofl_perm, (same_data_labels u), H. Qed.
Lemma in_prior l c : In c (mkeys (class_distribution l)) <-> In c (map label l).
Proof. rewrite class_distribution_cofl. apply in_cofl. Qed.

Section Discriminants.
  Context (inverse : list (list dbl) -> list (list dbl)) (determinant : list (list dbl) -> dbl) (ln : dbl -> dbl) (f : Q -> Q) (Hln : log_reads ln f).
  Context (shape : list (option nat)) (u : units) (Hu : reversible u) (l l' : ilist) (HU : uniform shape l) (Hn : l <> []) (HS : same_data u l l').
  Let d := dim shape.
  Let s := sample_of l.
  Let s' := sample_of l'.
  Context (H2 : forall c, In c (map label l) -> 2 <= length (members s c)).
  Let H2' : forall c, In c (map label l') -> 2 <= length (members s' c).
  Proof.
    intros c Hc. destruct (same_data_sample shape u l l' HU HS) as (_ & SS). unfold s'. rewrite <- (same_sample_length _ _ _ _ (same_members _ _ _ _ c SS)).
    apply H2, (in_same_labels u l l' c HS), Hc.
  Qed.
  Lemma lda_same : inverts d inverse -> invertible d (pooled_cov s) ->
    exists m m', lda_train inverse ln lda_empty l = Ok m /\ lda_train inverse ln lda_empty l' = Ok m' /\
    forall q q', Forall2 fits shape (attrs q) -> rescaled u q q' ->
    exists k, (u = same_units -> (k == 0)%Q) /\
    forall c, In c (map label l) -> exists r r', lda_metric m q c = Ok (Fin r) /\ lda_metric m' q' c = Ok (Fin r') /\ (r' == r + k)%Q.
  Proof.
    intros HI HV. destruct (same_data_sample shape u l l' HU HS) as (HU' & SS). pose proof (same_data_ne _ _ _ HS Hn) as Hn'.
    set (w := wof shape u) in *.
    assert (Ha : forall i, i < d -> ~ (fst (w i) == 0)%Q) by (intros i _; apply wof_nonzero, Hu).
    assert (HP : forall i j, i < d -> j < d -> (pooled_cov s' i j == fst (w i) * fst (w j) * pooled_cov s i j)%Q) by (intros i j Hi Hj; apply (same_pooled d w s s' i j SS Hi Hj)).
    destruct (pooled_spec shape l HU Hn H2) as (m0 & E0 & V0). destruct (ism_list _ _ _ V0) as (P & -> & VP).
    destruct (pooled_spec shape l' HU' Hn' H2') as (m0' & E0' & V0'). destruct (ism_list _ _ _ V0') as (P' & -> & VP').
    destruct (inverts_entries d inverse P _ HI VP HV) as (S & ES & VS).
    destruct (inverts_entries d inverse P' _ HI VP' (invertible_rescale d (fun i => fst (w i)) _ _ Ha HP HV)) as (S' & ES' & VS').
    destruct (lda_spec inverse ln f Hln shape l HU Hn P S H2 E0 VP ES VS) as (m & Em & HM).
    destruct (lda_spec inverse ln f Hln shape l' HU' Hn' P' S' H2' E0' VP' ES' VS') as (m' & Em' & HM').
    exists m, m'. split; [exact Em|]. split; [exact Em'|]. intros q q' Hq R. destruct (rescaled_row shape u q q' Hq R) as (Hq' & RV).
    destruct (fits_vals shape q Hq) as (Vq & Lq). destruct (fits_vals shape q' Hq') as (Vq' & Lq').
    exists ((1#2) * quad d S' (fun j => nth j (row q') 0) - (1#2) * quad d S (fun j => nth j (row q) 0))%Q. split.
    - intros ->. rewrite (quad_same d (fun i => fst (w i)) (pooled_cov s) (pooled_cov s') P P' S S' (fun j => nth j (row q) 0%Q) (fun j => nth j (row q') 0%Q)); try assumption; [ring|apply pooled_sym|].
      intros i Hi. rewrite (RV i Hi). unfold w. destruct (wof_same shape i) as (-> & ->). ring.
    - intros c Hc. destruct (HM q (row q) c Vq Lq Hc) as (r & Er & Hr). destruct (HM' q' (row q') c Vq' Lq' (proj1 (in_same_labels u l l' c HS) Hc)) as (r' & Er' & Hr').
      exists r, r'. split; [exact Er|]. split; [exact Er'|]. rewrite Hr, Hr'. fold d s s'.
      rewrite (quad_same d (fun i => fst (w i)) (pooled_cov s) (pooled_cov s') P P' S S' (away s c (row q)) (away s' c (row q'))); try assumption; [|apply pooled_sym|].
      + rewrite (proj2 Hln _ _ (same_frequency d w s s' c SS)). ring.
      + intros i Hi. apply (same_away d w s s' c (row q) (row q') i SS (RV i Hi) Hi), two_members, Hc.
  Qed.

  Lemma qda_same : inverts d inverse -> finds_determinant d determinant ->
    (forall c, In c (map label l) -> invertible d (class_cov s c) /\ (0 < det d (class_cov s c))%Q) ->
    exists m m', qda_train inverse determinant ln qda_empty l = Ok m /\ qda_train inverse determinant ln qda_empty l' = Ok m' /\
    exists g, (0 < g)%Q /\ (u = same_units -> (g == 1)%Q) /\
    forall q q', Forall2 fits shape (attrs q) -> rescaled u q q' ->
    forall c, In c (map label l) -> exists r r', qda_metric m q c = Ok (Fin r) /\ qda_metric m' q' c = Ok (Fin r') /\
      (r' - r == (1#2) * f (det d (class_cov s c)) - (1#2) * f (g * det d (class_cov s c)))%Q.
  Proof.
    intros HI HD HV. destruct (same_data_sample shape u l l' HU HS) as (HU' & SS). pose proof (same_data_ne _ _ _ HS Hn) as Hn'.
    set (w := wof shape u) in *.
    assert (Ha : forall i, i < d -> ~ (fst (w i) == 0)%Q) by (intros i _; apply wof_nonzero, Hu).
    assert (HP : forall c, In c (map label l) -> forall i j, i < d -> j < d -> (class_cov s' c i j == fst (w i) * fst (w j) * class_cov s c i j)%Q)
      by (intros c Hc i j Hi Hj; apply (same_cov d w s s' c i j SS Hi Hj), two_members, Hc).
    set (g := (qprod d (fun i => fst (w i)) * qprod d (fun i => fst (w i)))%Q).
    assert (Hg : (0 < g)%Q). { pose proof (qprod_nonzero d (fun i => fst (w i)) Ha). unfold g. generalize dependent (qprod d (fun i => fst (w i))). intros z Hz. destruct (Q_dec z 0) as [[L|L]|L]; [nra|nra|contradiction]. }
    assert (HG : forall c, In c (map label l) -> (det d (class_cov s' c) == g * det d (class_cov s c))%Q).
    { intros c Hc. rewrite (det_ext d _ (fun i j => fst (w i) * class_cov s c i j * fst (w j))%Q) by (intros i j Hi Hj; rewrite (HP c Hc i j Hi Hj); ring). apply det_scale. }
    assert (K : forall l0, uniform shape l0 -> (forall c, In c (map label l0) -> 2 <= length (members (sample_of l0) c)) ->
                (forall c, In c (map label l0) -> invertible d (class_cov (sample_of l0) c) /\ (0 < det d (class_cov (sample_of l0) c))%Q) ->
                forall c, exists (t : list (list Q) * list (list Q) * Q), In c (map label l0) ->
                  (exists avg, cont_average_all (filter (of_class c) l0) = Ok avg /\ covariance avg (filter (of_class c) l0) = Ok (map (map Fin) (fst (fst t)))) /\
                  entries d (fst (fst t)) (class_cov (sample_of l0) c) /\
                  (inverse (map (map Fin) (fst (fst t))) = map (map Fin) (snd (fst t)) /\ inverse_of d (fst (fst t)) (snd (fst t)) /\
                   determinant (map (map Fin) (fst (fst t))) = Fin (snd t) /\ (0 < snd t)%Q) /\ (snd t == det d (class_cov (sample_of l0) c))%Q).
    { intros l0 U0 T0 V0 c. destruct (in_dec string_dec c (map label l0)) as [Hc|Hc]; [|exists ([], [], 0%Q); intros; contradiction].
      destruct (class_mean_avg shape l0 c U0 Hc) as (avg & Ea & Va). destruct (class_cov_cov shape l0 c avg U0 Hc (T0 c Hc) Va) as (cov & Ec & Vc).
      destruct (ism_list _ _ _ Vc) as (P & -> & VP). destruct (V0 c Hc) as (I0 & D0). destruct (inverts_entries d inverse P _ HI VP I0) as (S & ES & VS).
      destruct (HD P (proj1 VP)) as (D & ED & VD).
      assert (ED' : (D == det d (class_cov (sample_of l0) c))%Q) by (rewrite VD; apply det_ext; exact (proj2 VP)).
      exists (P, S, D). intros _. cbn [fst snd]. split; [exists avg; split; assumption|]. split; [exact VP|]. split; [|exact ED']. split; [exact ES|]. split; [exact VS|]. split; [exact ED|]. rewrite ED'. exact D0. }
    assert (CH : forall l0, uniform shape l0 -> (forall c, In c (map label l0) -> 2 <= length (members (sample_of l0) c)) ->
                (forall c, In c (map label l0) -> invertible d (class_cov (sample_of l0) c) /\ (0 < det d (class_cov (sample_of l0) c))%Q) ->
                exists (t : string -> list (list Q) * list (list Q) * Q), forall c, In c (map label l0) ->
                  (exists avg, cont_average_all (filter (of_class c) l0) = Ok avg /\ covariance avg (filter (of_class c) l0) = Ok (map (map Fin) (fst (fst (t c))))) /\
                  entries d (fst (fst (t c))) (class_cov (sample_of l0) c) /\
                  (inverse (map (map Fin) (fst (fst (t c)))) = map (map Fin) (snd (fst (t c))) /\ inverse_of d (fst (fst (t c))) (snd (fst (t c))) /\
                   determinant (map (map Fin) (fst (fst (t c)))) = Fin (snd (t c)) /\ (0 < snd (t c))%Q) /\ (snd (t c) == det d (class_cov (sample_of l0) c))%Q).
    { intros l0 U0 T0 V0. pose proof (K l0 U0 T0 V0) as K0.
      match goal with |- exists t, forall c, In c ?L -> @?Q t c => assert (G : forall cs, exists t, forall c, In c cs -> In c L -> Q t c) end.
      { induction cs as [|c cs (t & Ht)]; [exists (fun _ => ([], [], 0%Q)); intros ? []|]. destruct (K0 c) as (p & Hp). exists (fun c' => if String.eqb c' c then p else t c').
        intros c' Hc' Hl. destruct (String.eqb_spec c' c) as [->|Ne]; [apply Hp, Hl|]. apply Ht; [destruct Hc' as [->|Hc']; [congruence|exact Hc']|exact Hl]. }
      destruct (G (map label l0)) as (t & Ht). exists t. intros c Hc. apply Ht; exact Hc. }
    destruct (CH l HU H2 HV) as (t & Ht).
    destruct (CH l' HU' H2') as (t' & Ht').
    { intros c Hc. apply (in_same_labels u l l' c HS) in Hc. destruct (HV c Hc) as (I0 & D0). split; [exact (invertible_rescale d (fun i => fst (w i)) _ _ Ha (HP c Hc) I0)|].
      fold s'. rewrite (HG c Hc). apply Qmult_lt_0_compat; assumption. }
    clear K CH.
    destruct (qda_spec inverse determinant ln f Hln shape l HU Hn (fun c => fst (fst (t c))) (fun c => snd (fst (t c))) (fun c => snd (t c)) H2) as (m & Em & HM);
      [intros c Hc; apply Ht, Hc|intros c Hc; apply Ht, Hc|intros c Hc; apply Ht, Hc|].
    destruct (qda_spec inverse determinant ln f Hln shape l' HU' Hn' (fun c => fst (fst (t' c))) (fun c => snd (fst (t' c))) (fun c => snd (t' c)) H2') as (m' & Em' & HM');
      [intros c Hc; apply Ht', Hc|intros c Hc; apply Ht', Hc|intros c Hc; apply Ht', Hc|].
    exists m, m'. split; [exact Em|]. split; [exact Em'|]. exists g. split; [exact Hg|]. split.
    - intros ->. unfold g. assert (E1 : (qprod d (fun i => fst (w i)) == 1)%Q); [|rewrite E1; ring].
      rewrite (qprod_ext d _ (fun _ => 1%Q)) by (intros i _; unfold w; rewrite (proj1 (wof_same shape i)); reflexivity). generalize d. clear. induction d as [|n IH]; [reflexivity|]. cbn [qprod]. rewrite IH. ring.
    - intros q q' Hq R c Hc. destruct (rescaled_row shape u q q' Hq R) as (Hq' & RV).
      destruct (fits_vals shape q Hq) as (Vq & Lq). destruct (fits_vals shape q' Hq') as (Vq' & Lq'). pose proof (proj1 (in_same_labels u l l' c HS) Hc) as Hc'.
      destruct (HM q (row q) c Vq Lq Hc) as (r & Er & Hr). destruct (HM' q' (row q') c Vq' Lq' Hc') as (r' & Er' & Hr').
      exists r, r'. split; [exact Er|]. split; [exact Er'|]. rewrite Hr, Hr'. fold d s s'.
      destruct (Ht c Hc) as (_ & VP & (_ & VS & _ & _) & ED). destruct (Ht' c Hc') as (_ & VP' & (_ & VS' & _ & _) & ED'). fold s in VP, ED. fold s' in VP', ED'.
      rewrite (quad_same d (fun i => fst (w i)) (class_cov s c) (class_cov s' c) _ _ _ _ (away s c (row q)) (away s' c (row q')) Ha (HP c Hc) (cov_sym s c) VP VP' VS VS').
      + rewrite (proj2 Hln _ _ (same_frequency d w s s' c SS)), (proj2 Hln _ _ ED), (proj2 Hln (snd (t' c)) (g * det d (class_cov s c))%Q) by (rewrite ED'; apply HG, Hc). ring.
      + intros i Hi. apply (same_away d w s s' c (row q) (row q') i SS (RV i Hi) Hi), two_members, Hc.
  Qed.
End Discriminants.
