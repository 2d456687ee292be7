(** Lemmas about the partition model. *)
From Coq Require Import String ZArith QArith Qround Qfield Bool Lia Lqa Permutation Arith List.
From Verif Require Import Base Spec BaseLemmas DblLemmas AttrModel AttrProofs DataSetProofs InstanceListModel ListSpec ListProofs PartitionModel.
Import ListNotations.
Local Open Scope list_scope.
Local Open Scope nat_scope.

(** * distributing elements over numbered groups *)
Lemma add_to_fold {A} (ps : list (nat * A)) gs : Forall (fun p => fst p < length gs) ps ->
  exists gs', foldM (fun gs p => add_to gs (fst p) (snd p)) ps gs = Ok gs' /\ length gs' = length gs /\
    forall i g, nth_error gs i = Some g -> nth_error gs' i = Some (g ++ map snd (filter (fun p => fst p =? i) ps)).
Proof.
  revert gs. induction ps as [|[j x] ps IH]; intros gs H; cbn [foldM].
  - exists gs. repeat split; auto. intros i g Hg. simpl. rewrite app_nil_r. exact Hg.
  - inversion H as [|? ? Hj H']; subst. simpl in Hj. unfold add_to at 1, atn. simpl fst. simpl snd.
    destruct (nth_error gs j) as [g0|] eqn:E0; [|apply nth_error_None in E0; lia]. cbn [bind].
    destruct (IH (upd gs j (g0 ++ [x]))) as (gs' & E & L & Hs).
    { eapply Forall_impl; [|exact H']. intros p Hp. rewrite upd_length. exact Hp. }
    exists gs'. split; [exact E|]. rewrite upd_length in L. split; [exact L|]. intros i g Hg.
    destruct (Nat.eq_dec j i) as [<-|Hji].
    + rewrite E0 in Hg. injection Hg as ->. rewrite (Hs j (g ++ [x])) by (apply nth_upd_same; exact Hj). simpl. rewrite Nat.eqb_refl. simpl.
      rewrite <- app_assoc. reflexivity.
    + rewrite (Hs i g) by (rewrite nth_upd_other by exact Hji; exact Hg). simpl. destruct (Nat.eqb_spec j i); [contradiction|reflexivity].
Qed.
Lemma foldM_ext {S X} (f g : S -> X -> res S) l s : (forall s x, In x l -> f s x = g s x) -> foldM f l s = foldM g l s.
Proof.
  revert s. induction l as [|x l IH]; intros s H; cbn [foldM]; [reflexivity|]. rewrite (H s x) by (left; reflexivity).
  destruct (g s x); simpl; auto. apply IH. intros; apply H; right; assumption.
Qed.
Lemma foldM_map {S X Y} (f : S -> Y -> res S) (h : X -> Y) l s : foldM f (map h l) s = foldM (fun s x => f s (h x)) l s.
Proof. revert s. induction l as [|x l IH]; intros s; cbn [foldM map]; [reflexivity|]. destruct (f s (h x)); simpl; auto. Qed.
Lemma add_to_groups {A} (ps : list (nat * A)) n : Forall (fun p => fst p < n) ps ->
  foldM (fun gs p => add_to gs (fst p) (snd p)) ps (repeat [] n) =
  Ok (map (fun i => map snd (filter (fun p => fst p =? i) ps)) (seq 0 n)).
Proof.
  intros H. destruct (add_to_fold ps (repeat [] n)) as (gs & E & L & Hs); [rewrite repeat_length; exact H|].
  rewrite E. f_equal. rewrite repeat_length in L. apply list_ext. intros i. rewrite nth_error_map.
  destruct (Nat.lt_ge_cases i n) as [Hi|Hi].
  - rewrite (Hs i []) by (apply fold_repeat_nth; exact Hi). simpl.
    rewrite (nth_error_nth' (seq 0 n) 0) by (rewrite seq_length; exact Hi). rewrite seq_nth by exact Hi. reflexivity.
  - rewrite (proj2 (nth_error_None gs i)) by lia. rewrite (proj2 (nth_error_None (seq 0 n) i)) by (rewrite seq_length; lia). reflexivity.
Qed.
(** the groups together hold every element once *)
Lemma groups_perm {A} (ps : list (nat * A)) n : Forall (fun p => fst p < n) ps ->
  Permutation (concat (map (fun i => map snd (filter (fun p => fst p =? i) ps)) (seq 0 n))) (map snd ps).
Proof.
  induction 1 as [|[j x] ps Hj H IH]; simpl.
  - replace (concat _) with (@nil A); [reflexivity|]. generalize (seq 0 n). induction l; simpl; auto.
  - transitivity (x :: concat (map (fun i => map snd (filter (fun p => fst p =? i) ps)) (seq 0 n))); [|constructor; exact IH].
    simpl in Hj. assert (Hin : In j (seq 0 n)) by (apply in_seq; lia). pose proof (seq_NoDup n 0) as Hnd.
    clear IH H Hj. induction (seq 0 n) as [|i is_ IHi]; [destruct Hin|]. simpl. inversion Hnd; subst.
    destruct (Nat.eqb_spec j i) as [->|Hji]; simpl.
    + constructor. apply Permutation_app_head. 
      match goal with |- Permutation ?a ?b => replace a with b; [reflexivity|] end. f_equal.
      apply map_ext_in. intros k Hk. simpl. destruct (Nat.eqb_spec i k); [subst; contradiction|reflexivity].
    + rewrite IHi; [|destruct Hin; [congruence|assumption]|assumption]. symmetry. apply Permutation_middle.
Qed.
Lemma filter_combine_map {A V} (h : V -> nat) (f : V -> bool) (vs : list V) (l : list A) i :
  (forall v, In v vs -> (h v =? i) = f v) ->
  map snd (filter (fun p => fst p =? i) (combine (map h vs) l)) = select f vs l.
Proof.
  unfold select. revert l. induction vs as [|v vs IH]; intros [|x l] H; simpl; auto.
  rewrite (H v) by (left; reflexivity). destruct (f v); simpl; rewrite IH; auto; intros; apply H; right; assumption.
Qed.
Lemma select_in {A V} (f : V -> bool) vs (l : list A) x : In x (select f vs l) -> In x l.
Proof. unfold select. intros H. apply in_map_iff in H. destruct H as ([v y] & <- & H). apply filter_In in H. destruct H as [H _]. eapply in_combine_r; exact H. Qed.
Lemma select_map {A V} (f : V -> bool) (g : A -> V) l : select f (map g l) l = filter (fun x => f (g x)) l.
Proof. unfold select. induction l as [|x l IH]; simpl; [reflexivity|]. destruct (f (g x)); simpl; rewrite IH; reflexivity. Qed.
Lemma combine_map_l {A B C} (h : A -> B) (l : list A) (l' : list C) : combine (map h l) l' = map (fun p => (h (fst p), snd p)) (combine l l').
Proof. revert l'; induction l; intros [|c l']; simpl; auto. f_equal; auto. Qed.

(** partition by a key list: group number of a key is its position among the distinct keys *)
Lemma keyed_groups {A} (vs : list string) (l : list A) : length vs = length l ->
  let values := fold_left push_new vs [] in
  foldM (fun gs p => add_to gs (find_pos (fst p) values) (snd p)) (combine vs l) (repeat [] (length values)) =
  Ok (map (fun v => select (String.eqb v) vs l) values) /\
  Permutation (concat (map (fun v => select (String.eqb v) vs l) values)) l /\
  Forall (fun g => g <> []) (map (fun v => select (String.eqb v) vs l) values).
Proof.
  intros HL values. pose proof (first_occurrences_push vs) as (Hnd & Hin & _). fold values in Hnd, Hin.
  assert (HG : foldM (fun gs p => add_to gs (find_pos (fst p) values) (snd p)) (combine vs l) (repeat [] (length values)) =
     foldM (fun gs p => add_to gs (fst p) (snd p)) (combine (map (fun v => find_pos v values) vs) l) (repeat [] (length values))).
  { rewrite combine_map_l, foldM_map. reflexivity. }
  assert (HF : Forall (fun p : nat * A => fst p < length values) (combine (map (fun v => find_pos v values) vs) l)).
  { apply Forall_forall. intros [j x] Hp. apply in_combine_l in Hp. apply in_map_iff in Hp. destruct Hp as (v & <- & Hv). simpl.
    apply find_pos_lt. apply Hin. exact Hv. }
  assert (HE : map (fun i => map snd (filter (fun p => fst p =? i) (combine (map (fun v => find_pos v values) vs) l))) (seq 0 (length values))
             = map (fun v => select (String.eqb v) vs l) values).
  { apply list_ext. intros i. rewrite !nth_error_map. destruct (nth_error values i) as [v|] eqn:Ev.
    - assert (Hi : i < length values) by (apply nth_error_Some; congruence).
      rewrite (nth_error_nth' (seq 0 _) 0) by (rewrite seq_length; exact Hi). rewrite seq_nth by exact Hi. simpl. f_equal.
      apply filter_combine_map. intros w Hw. destruct (String.eqb_spec v w) as [->|Hvw].
      + apply Nat.eqb_eq. apply find_pos_unique; assumption.
      + apply Nat.eqb_neq. intros E. apply Hvw. assert (Hw' : In w values) by (apply Hin; exact Hw). apply find_pos_nth in Hw'.
        rewrite E in Hw'. congruence.
    - apply nth_error_None in Ev. rewrite (proj2 (nth_error_None (seq 0 _) i)) by (rewrite seq_length; exact Ev). reflexivity. }
  split; [|split].
  - rewrite HG, add_to_groups by exact HF. rewrite HE. reflexivity.
  - rewrite <- HE. rewrite groups_perm by exact HF. rewrite map_snd_combine by (rewrite map_length; exact HL). reflexivity.
  - apply Forall_map, Forall_forall. intros v Hv. apply Hin in Hv. clear - Hv HL. revert l HL. induction vs as [|w vs IH]; intros [|x l] HL; simpl in *; try discriminate; [tauto|].
    unfold select. simpl. destruct (String.eqb_spec v w); [discriminate|]. simpl. destruct Hv as [->|Hv]; [congruence|]. apply (IH Hv). lia.
Qed.
Lemma part_class_spec l : part_class l = Ok (map (fun c => filter (of_class c) l) (distinct_labels l)) /\
  Permutation (concat (map (fun c => filter (of_class c) l) (distinct_labels l))) l.
Proof.
  destruct (keyed_groups (map label l) l) as (E & P & _); [apply map_length|].
  assert (HE : map (fun v => select (String.eqb v) (map label l) l) (fold_left push_new (map label l) []) = map (fun c => filter (of_class c) l) (distinct_labels l)).
  { rewrite distinct_labels_map. apply map_ext. intros c. rewrite select_map. apply filter_ext. intros x. unfold of_class. apply String.eqb_sym. }
  rewrite HE in *. split; [|exact P]. rewrite <- E. unfold part_class. rewrite distinct_labels_map. rewrite combine_map_l, foldM_map. simpl.
  assert (HC : map snd (combine l l) = l) by (apply map_snd_combine; reflexivity).
  assert (HI : forall {S} (f : S -> instance -> instance -> res S) s, foldM (fun s p => f s (fst p) (snd p)) (combine l l) s = foldM (fun s x => f s x x) l s).
  { clear. intros S f. induction l as [|x l IH]; intros s; cbn [foldM combine]; [reflexivity|]. simpl. destruct (f s x x); simpl; auto. }
  rewrite (HI _ (fun gs x y => add_to gs (find_pos (label x) (fold_left push_new (map label l) [])) y)). reflexivity.
Qed.
Lemma part_disc_spec k l vs : text_column k l vs ->
  exists values, value_list k l = Ok values /\
    part_disc k l = Ok (map (fun v => select (String.eqb v) vs l) values) /\
    Permutation (concat (map (fun v => select (String.eqb v) vs l) values)) l /\
    Forall (fun g => g <> []) (map (fun v => select (String.eqb v) vs l) values).
Proof.
  intros H. exists (fold_left push_new vs []). unfold part_disc. rewrite (value_list_ok _ _ _ H). cbn [bind].
  destruct (keyed_groups vs l) as (E & P & F); [symmetry; eapply Forall2_len; exact H|]. split; [reflexivity|]. split; [|split; [exact P|exact F]].
  rewrite (foldM_map_fst (disc_at k) (fun gs v x => add_to gs (find_pos v (fold_left push_new vs [])) x) l vs); [exact E|].
  eapply Forall2_imp; [|exact H]. intros; apply disc_at_ok; assumption.
Qed.

(** two groups *)
Lemma two_groups {A V} (f : V -> bool) (vs : list V) (l : list A) : length vs = length l ->
  foldM (fun gs p => add_to gs (if f (fst p) then 0 else 1) (snd p)) (combine vs l) [[]; []] =
  Ok [select f vs l; select (fun v => negb (f v)) vs l] /\
  Permutation (select f vs l ++ select (fun v => negb (f v)) vs l) l.
Proof.
  intros HL. set (h := fun v => if f v then 0 else 1).
  assert (HF : Forall (fun p : nat * A => fst p < 2) (combine (map h vs) l)).
  { apply Forall_forall. intros [j x] Hp. apply in_combine_l in Hp. apply in_map_iff in Hp. destruct Hp as (v & <- & _). unfold h; simpl. destruct (f v); lia. }
  assert (E0 : map snd (filter (fun p => fst p =? 0) (combine (map h vs) l)) = select f vs l).
  { apply filter_combine_map. intros v _. unfold h. destruct (f v); reflexivity. }
  assert (E1 : map snd (filter (fun p => fst p =? 1) (combine (map h vs) l)) = select (fun v => negb (f v)) vs l).
  { apply filter_combine_map. intros v _. unfold h. destruct (f v); reflexivity. }
  pose proof (add_to_groups _ 2 HF) as HA. pose proof (groups_perm _ 2 HF) as HP. simpl in HA, HP. rewrite E0, E1 in *. rewrite app_nil_r in HP. split.
  - rewrite <- HA. rewrite combine_map_l, foldM_map. reflexivity.
  - rewrite HP. rewrite map_snd_combine by (rewrite map_length; exact HL). reflexivity.
Qed.
Lemma part_idx_spec k v l is_ : index_column k l is_ ->
  part_idx k v l = Ok [select (Z.eqb v) is_ l; select (fun i => negb (Z.eqb v i)) is_ l] /\
  Permutation (select (Z.eqb v) is_ l ++ select (fun i => negb (Z.eqb v i)) is_ l) l.
Proof.
  intros H. destruct (two_groups (Z.eqb v) is_ l) as [E P]; [symmetry; eapply Forall2_len; exact H|]. split; [|exact P]. rewrite <- E.
  unfold part_idx. rewrite (foldM_map_fst (index_at k) (fun gs i x => add_to gs (if (i =? v)%Z then 0 else 1) x) l is_).
  - apply foldM_ext. intros s p _. rewrite Z.eqb_sym. reflexivity.
  - eapply Forall2_imp; [|exact H]. intros; apply index_at_ok; assumption.
Qed.
Lemma part_cont_spec k t l vs : num_column k l vs ->
  part_cont k t l = Ok [select (fun v => dleb v t) vs l; select (fun v => negb (dleb v t)) vs l] /\
  Permutation (select (fun v => dleb v t) vs l ++ select (fun v => negb (dleb v t)) vs l) l.
Proof.
  intros H. destruct (two_groups (fun v => dleb v t) vs l) as [E P]; [symmetry; eapply Forall2_len; exact H|]. split; [|exact P]. rewrite <- E.
  unfold part_cont. apply (foldM_map_fst (cont_at k) (fun gs i x => add_to gs (if dleb i t then 0 else 1) x) l vs).
  eapply Forall2_imp; [|exact H]. intros; apply cont_at_ok; assumption.
Qed.

(** * random splits *)
Lemma rearrange_perm {A} (p : list nat) (l : list A) : Permutation p (seq 0 (length l)) -> Permutation (rearrange p l) l.
Proof.
  intros H. unfold rearrange.
  transitivity (flat_map (fun i => match nth_error l i with Some x => [x] | None => [] end) (seq 0 (length l))).
  - clear -H. induction H; simpl.
    + reflexivity.
    + apply Permutation_app_head; exact IHPermutation.
    + rewrite !app_assoc. apply Permutation_app_tail. apply Permutation_app_comm.
    + etransitivity; eassumption.
  - assert (HE : flat_map (fun i => match nth_error l i with Some x => [x] | None => [] end) (seq 0 (length l)) = l); [|rewrite HE; reflexivity].
    clear. induction l as [|x l IH]; simpl; [reflexivity|]. f_equal. etransitivity; [|exact IH]. rewrite <- seq_shift.
    rewrite !flat_map_concat_map, map_map. reflexivity.
Qed.
Lemma ceil_lt q (k : nat) : (qofn k < q)%Q <-> k < ceiln q.
Proof.
  unfold ceiln.
  assert (EC : (- (- Qnum q / Z.pos (Qden q)))%Z = Qceiling q) by (unfold Qceiling, Qfloor, Qopp; destruct q; reflexivity).
  rewrite EC. pose proof (Qle_ceiling q) as H1. pose proof (Qceiling_lt q) as H2. split.
  - intros H. assert (inject_Z (Z.of_nat k) < inject_Z (Qceiling q))%Q by (eapply Qlt_le_trans; [exact H|exact H1]).
    rewrite <- Zlt_Qlt in H0. lia.
  - intros H. assert (Hk : (Z.of_nat k <= Qceiling q - 1)%Z) by lia. rewrite Zle_Qle in Hk. unfold qofn.
    eapply Qle_lt_trans; [exact Hk|]. exact H2.
Qed.
Lemma ceiln_proper p q : (p == q)%Q -> ceiln p = ceiln q.
Proof.
  intros H. destruct (Nat.lt_trichotomy (ceiln p) (ceiln q)) as [L|[E|L]]; [|exact E|].
  - apply ceil_lt in L. rewrite <- H in L. apply ceil_lt in L. lia.
  - apply ceil_lt in L. rewrite H in L. apply ceil_lt in L. lia.
Qed.
Lemma select_seq {A} (c n o : nat) (l : list A) : length l = n ->
  select (fun i => i <? c) (seq o n) l = firstn (c - o) l /\ select (fun i => negb (i <? c)) (seq o n) l = skipn (c - o) l.
Proof.
  revert o l. induction n as [|n IH]; intros o [|x l] H; simpl in H; try discriminate; unfold select; simpl.
  - rewrite firstn_nil, skipn_nil. split; reflexivity.
  - destruct (IH (S o) l) as [I1 I2]; [lia|]. unfold select in I1, I2. destruct (Nat.ltb_spec o c); simpl; rewrite I1, I2.
    + replace (c - o) with (S (c - S o)) by lia. split; reflexivity.
    + replace (c - o) with 0 by lia. replace (c - S o) with 0 by lia. split; reflexivity.
Qed.
Lemma part_random_spec perm q seed l :
  let l' := shuffle perm seed l in
  part_random perm (Fin q) seed l =
  Ok (l', [firstn (ceiln (qofn (length l') * q)) l'; skipn (ceiln (qofn (length l') * q)) l']).
Proof.
  intros l'. unfold part_random. fold l'.
  destruct (two_groups (fun i => dltb (dofnat i) (dmul (dofnat (length l')) (Fin q))) (seq 0 (length l')) l') as [E _]; [apply seq_length|].
  rewrite E. cbn [bind]. assert (HE : forall i, dltb (dofnat i) (dmul (dofnat (length l')) (Fin q)) = (i <? ceiln (qofn (length l') * q))).
  { intros i. apply eq_true_iff_eq. rewrite Nat.ltb_lt, <- ceil_lt. unfold dofnat. simpl dmul. apply dltb_fin. }
  destruct (select_seq (ceiln (qofn (length l') * q)) (length l') 0 l' eq_refl) as [S1 S2]. rewrite Nat.sub_0_r in *.
  do 2 f_equal. rewrite <- S1, <- S2. unfold select. f_equal; [|f_equal]; f_equal; apply filter_ext; intros p; rewrite HE; reflexivity.
Qed.

(** stratified *)
Definition cb (c : string) (l : list instance) : nat := countb (of_class c) l.
Lemma strat_fold l q is_ counts g0 g1 (cap : string -> nat) :
  (forall c, In c (map label l) -> cap c = ceiln (qofn (cb c l) * q)) ->
  Forall (fun i => i < length l) is_ ->
  (forall c, cb c g0 = Nat.min (ccount counts c) (cap c)) -> (forall c, cb c g0 + cb c g1 = ccount counts c) ->
  exists counts' g0' g1', foldM (strat_step l (Fin q)) is_ (counts, [g0; g1]) = Ok (counts', [g0'; g1']) /\
    Permutation (g0' ++ g1') (g0 ++ g1 ++ rearrange is_ l) /\
    (forall c, cb c g0' = Nat.min (ccount counts' c) (cap c)) /\
    (forall c, cb c g0' + cb c g1' = ccount counts' c).
Proof.
  intros Hcap HF. revert counts g0 g1. induction HF as [|i is_ Hi HF IH]; intros counts g0 g1 H1 H2; cbn [foldM].
  - exists counts, g0, g1. repeat split; auto. simpl. rewrite app_nil_r. reflexivity.
  - unfold strat_step at 1, atn. destruct (nth_error l i) as [x|] eqn:Ex; [|apply nth_error_None in Ex; lia]. cbn [bind].
    set (c := label x). set (b := dltb _ _).
    assert (Hlab : In c (map label l)) by (apply in_map; eapply nth_error_In; exact Ex).
    assert (Hb : b = (ccount counts c <? cap c)).
    { rewrite (Hcap c Hlab). apply eq_true_iff_eq. rewrite Nat.ltb_lt, <- ceil_lt. unfold b, probability. rewrite class_count.
      rewrite class_distribution_cofl, csum_cofl, map_length. unfold dofnat.
      assert (HN : (0 < qofn (length l))%Q) by (apply qofn_pos; destruct l; [destruct i; discriminate|simpl; lia]).
      rewrite ddiv_fin by (apply Qnot_eq_sym, Qlt_not_eq; exact HN). simpl dmul. rewrite dltb_fin. fold (qofn (length l)). unfold cb.
      setoid_replace (inject_Z (Z.of_nat (length l)) * q * (inject_Z (Z.of_nat (countb (of_class c) l)) / inject_Z (Z.of_nat (length l))))%Q
        with (qofn (countb (of_class c) l) * q)%Q; [reflexivity|].
      fold (qofn (length l)) (qofn (countb (of_class c) l)). field. apply Qnot_eq_sym, Qlt_not_eq; exact HN. }
    assert (Hcb : forall d g, cb d (g ++ [x]) = cb d g + (if String.eqb c d then 1 else 0)).
    { intros d g. unfold cb. rewrite countb_app, countb_cons. unfold of_class at 2. fold c. destruct (String.eqb c d); reflexivity. }
    assert (HR : rearrange (i :: is_) l = x :: rearrange is_ l) by (unfold rearrange; simpl; rewrite Ex; reflexivity).
    rewrite HR. clear HR.
    destruct b eqn:Eb.
    + symmetry in Hb. apply Nat.ltb_lt in Hb.
      unfold add_to. simpl. destruct (IH (cput counts c) (g0 ++ [x]) g1) as (counts' & g0' & g1' & E & P & I1 & I2).
      * intros d. rewrite Hcb, ccount_cput, H1. destruct (String.eqb_spec c d); [subst d; lia|lia].
      * intros d. rewrite Hcb, ccount_cput, <- H2. destruct (String.eqb c d); lia.
      * exists counts', g0', g1'. split; [exact E|]. split; [|split; assumption]. rewrite P, <- app_assoc. apply Permutation_app_head. simpl. apply Permutation_middle.
    + symmetry in Hb. apply Nat.ltb_ge in Hb.
      unfold add_to. simpl. destruct (IH (cput counts c) g0 (g1 ++ [x])) as (counts' & g0' & g1' & E & P & I1 & I2).
      * intros d. rewrite ccount_cput, H1. destruct (String.eqb_spec c d); [subst d; lia|lia].
      * intros d. rewrite Hcb, ccount_cput, <- H2. destruct (String.eqb c d); lia.
      * exists counts', g0', g1'. split; [exact E|]. split; [|split; assumption]. rewrite P, <- app_assoc. reflexivity.
Qed.
Lemma countb_perm {A} (f : A -> bool) l l' : Permutation l l' -> countb f l = countb f l'.
Proof. unfold countb. induction 1; simpl; auto; repeat (destruct (f _); simpl); try congruence; lia. Qed.
Lemma part_strat_spec rarr q seed l : Permutation (rarr (length l) seed) (seq 0 (length l)) ->
  exists g0 g1, part_strat rarr (Fin q) seed l = Ok [g0; g1] /\ Permutation (g0 ++ g1) l /\
    forall c, cb c g0 = Nat.min (cb c l) (ceiln (qofn (cb c l) * q)) /\ cb c g0 + cb c g1 = cb c l.
Proof.
  intros HP. destruct (strat_fold l q (rarr (length l) seed) [] [] [] (fun c => ceiln (qofn (cb c l) * q))) as (cs & g0 & g1 & E & P & I1 & I2).
  - reflexivity.
  - apply Forall_forall. intros i Hi. eapply Permutation_in in Hi; [|exact HP]. apply in_seq in Hi. lia.
  - intros c. reflexivity.
  - intros c. reflexivity.
  - exists g0, g1. split; [exact (f_equal (fun r => do st <- r; Ok (snd st)) E)|].
    assert (P' : Permutation (g0 ++ g1) l). { rewrite P. simpl. apply rearrange_perm. exact HP. }
    split; [exact P'|]. intros c.
    assert (Hc : cb c g0 + cb c g1 = cb c l). { unfold cb. rewrite <- countb_app. apply countb_perm. exact P'. }
    split; [|exact Hc]. rewrite I1, <- I2, Hc. reflexivity.
Qed.
