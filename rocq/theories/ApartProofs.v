(** Lemmas for C162. *)
From Coq Require Import String ZArith QArith Bool Lia Lqa Permutation Arith List.
From Verif Require Import Base Spec BaseLemmas DblLemmas AttrModel InstanceListModel StatModel ListSpec ListProofs StatSpec DiscrimSpec DistanceModel GaussianModel BayesProofs CoincideGaussProofs DiscrimProps ChooseSpec ChooseProofs ApartSpec.
Import ListNotations.
Local Open Scope list_scope.
Local Open Scope nat_scope.

Definition cut {A B} (g : B -> B) (r : A * B) : A * B := (fst r, g (snd r)).
Lemma texts_picks fs x y r : picks fs x y -> reads_text x r -> reads_text y (cut (choose_texts fs) r).
Proof.
  intros (Hl & _ & F) (H1 & H2). split; [rewrite Hl; exact H1|]. cbn [cut snd]. unfold choose_texts. rewrite map_map. induction F as [|k a fs ys [_ K] F IH]; cbn; [reflexivity|]. f_equal; [|exact IH].
  rewrite H2, nth_error_map in K. destruct (nth_error (snd r) (Z.to_nat k)) eqn:E; [|discriminate]. injection K as <-. rewrite (nth_error_nth _ _ EmptyString E). reflexivity.
Qed.
Lemma numbers_reads fs x y r : picks fs x y -> reads_numbers x r -> reads_numbers y (cut (choose fs) r).
Proof. intros P (H1 & H2). split; [rewrite (picks_label _ _ _ P); exact H1|]. exact (numbers_picks fs (snd r) x y P H2). Qed.
Lemma reads_reduced {R} (rd : instance -> R -> Prop) (g : R -> R) fs l l' s : (forall x y r, picks fs x y -> rd x r -> rd y (g r)) -> reduced fs l l' -> Forall2 rd l s -> Forall2 rd l' (map g s).
Proof.
  intros H F. revert s. induction F as [|x y l l' P F IH]; intros s K; inversion K as [|? r ? s' Hr Hs]; subst; cbn; constructor; [apply (H x y r P Hr)|apply IH, Hs].
Qed.
Lemma len_cut {A B} (g : list B -> list B) n (s : list (A * list B)) : (forall v, length (g v) = n) -> Forall (fun r => length (snd r) = n) (map (cut g) s).
Proof. intros H. apply Forall_forall. intros r Hr. apply in_map_iff in Hr as (r0 & <- & _). apply H. Qed.
Lemma tmembers_cut g s c : tmembers (map (cut g) s) c = map (cut g) (tmembers s c).
Proof. unfold tmembers. induction s as [|r s IH]; cbn; [reflexivity|]. destruct (String.eqb (fst r) c); cbn; rewrite IH; reflexivity. Qed.
Lemma members_cut g s c : members (map (cut g) s) c = map (cut g) (members s c).
Proof. unfold members. induction s as [|r s IH]; cbn; [reflexivity|]. destruct (String.eqb (fst r) c); cbn; rewrite IH; reflexivity. Qed.
Lemma tfrequency_cut g s c : tfrequency (map (cut g) s) c = tfrequency s c.
Proof. unfold tfrequency. rewrite tmembers_cut, !map_length. reflexivity. Qed.
Lemma frequency_cut g s c : frequency (map (cut g) s) c = frequency s c.
Proof. unfold frequency. rewrite members_cut, !map_length. reflexivity. Qed.
Lemma nth_texts fs v i : i < length fs -> nth i (choose_texts fs v) EmptyString = nth (Z.to_nat (nth i fs 0%Z)) v EmptyString.
Proof. intros L. unfold choose_texts. rewrite (nth_indep _ EmptyString ((fun k => nth (Z.to_nat k) v EmptyString) 0%Z)) by (rewrite map_length; exact L). apply (map_nth (fun k => nth (Z.to_nat k) v EmptyString)). Qed.
Lemma values_cut fs s c i : i < length fs -> values (map (cut (choose_texts fs)) s) c i = values s c (Z.to_nat (nth i fs 0%Z)).
Proof. intros L. unfold values. rewrite tmembers_cut, map_map. apply map_ext. intros r. cbn [cut snd]. apply nth_texts, L. Qed.
Lemma smoothed_cut fs s c i v : i < length fs -> smoothed (map (cut (choose_texts fs)) s) c i v = smoothed s c (Z.to_nat (nth i fs 0%Z)) v.
Proof. intros L. unfold smoothed. rewrite (values_cut fs s c i L). reflexivity. Qed.
Lemma away_cut fs s c v i : i < length fs -> away (map (cut (choose fs)) s) c (choose fs v) i = away s c v (Z.to_nat (nth i fs 0%Z)).
Proof.
  intros L. unfold away, class_mean. rewrite nth_choose by exact L. rewrite members_cut, map_map. do 2 f_equal. apply map_ext. intros r. unfold coord. cbn [cut snd]. apply nth_choose, L.
Qed.
Lemma sum_positions {A} (g : nat -> A) (h : A -> Q) (part : nat -> Q) fs : (forall i, i < length fs -> (h (g i) == part (Z.to_nat (nth i fs 0%Z)))%Q) ->
  (qsum (map (fun i => h (g i)) (seq 0 (length fs))) == parts part fs)%Q.
Proof.
  intros H. unfold parts. assert (E : map (fun k => part (Z.to_nat k)) fs = map (fun i => part (Z.to_nat (nth i fs 0%Z))) (seq 0 (length fs))).
  { clear. induction fs as [|k fs IH]; [reflexivity|]. cbn [length seq map nth]. f_equal. rewrite <- seq_shift, map_map. exact IH. }
  rewrite E. apply qsum_ext. intros i Hi. apply in_seq in Hi. apply H. lia.
Qed.
Lemma texts_query fs q q' vs : picks fs q q' -> attrs q = map ADisc vs -> attrs q' = map ADisc (choose_texts fs vs).
Proof. intros P H. exact (proj2 (texts_picks fs q q' (label q, vs) P (conj eq_refl H))). Qed.
Lemma numbers_query fs q q' v : picks fs q q' -> attrs q = map (fun z => ACont (Fin z)) v -> attrs q' = map (fun z => ACont (Fin z)) (choose fs v).
Proof. intros P H. exact (numbers_picks fs v q q' P H). Qed.
Lemma reduced_in fs l l' c : reduced fs l l' -> In c (map label l) -> In c (map label l').
Proof. intros F. rewrite (reduced_labels _ _ _ F). auto. Qed.
Lemma reduced_nonempty fs l l' : reduced fs l l' -> l <> [] -> l' <> [].
Proof. intros F H. destruct F; [contradiction|discriminate]. Qed.
Lemma parts_all (part : nat -> Q) n : (parts part (map Z.of_nat (seq 0 n)) == qsum (map part (seq 0 n)))%Q.
Proof. unfold parts. rewrite map_map. apply qsum_ext. intros k _. rewrite Nat2Z.id. reflexivity. Qed.
Lemma parts_one (part : nat -> Q) k : (parts part [Z.of_nat k] == part k)%Q.
Proof. unfold parts. cbn [map]. rewrite Nat2Z.id. cbn. ring. Qed.
(** the whole list is the choice of all features *)
Lemma picks_all x n : length (attrs x) = n -> composite x = None -> picks (map Z.of_nat (seq 0 n)) x x.
Proof.
  intros L C. split; [reflexivity|]. split; [exact C|]. subst n. 
  assert (G : forall s ys, (forall i a, nth_error ys i = Some a -> nth_error (attrs x) (s + i) = Some a) -> s + length ys <= length (attrs x) -> Forall2 (feature x) (map Z.of_nat (seq s (length ys))) ys).
  { intros s ys. revert s. induction ys as [|a ys IH]; intros s H B; cbn; constructor.
    - cbn in B. split; [unfold in_range, attr_count; lia|]. rewrite Nat2Z.id. rewrite <- (Nat.add_0_r s). apply H. reflexivity.
    - apply IH; [|cbn in B; lia]. intros i b Hi. replace (S s + i) with (s + S i) by lia. apply H. exact Hi. }
  apply (G 0); [auto|cbn; lia].
Qed.
Lemma reduced_whole n l : Forall (fun x => length (attrs x) = n /\ composite x = None) l -> reduced (map Z.of_nat (seq 0 n)) l l.
Proof. intros H. unfold reduced. induction H as [|x l [L C] H IH]; constructor; [apply picks_all; assumption|exact IH]. Qed.
Lemma sum_le (p p' : nat -> Q) n : (forall k, k < n -> (p' k <= p k)%Q) -> (qsum (map p' (seq 0 n)) <= qsum (map p (seq 0 n)))%Q.
Proof. intros H. apply qsum_le. intros k Hk. apply in_seq in Hk. apply H. lia. Qed.
