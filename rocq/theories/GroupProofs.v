(** Lemmas about the names of lists of instances and about SolutionInfo. *)
From Coq Require Import String ZArith QArith Bool Lia Permutation Arith List.
From Verif Require Import Base Spec BaseLemmas AttrModel AttrProofs InstanceListModel ListSpec ListProofs PartitionModel PartitionProofs PerformanceModel GaussianModel GaussianProofs SolverModel GroupModel.
Import ListNotations.
Local Open Scope list_scope.
Local Open Scope nat_scope.

Lemma foldM_app {A B} (f : A -> B -> res A) l1 l2 a : foldM f (l1 ++ l2) a = do a' <- foldM f l1 a; foldM f l2 a'.
Proof. revert a. induction l1 as [|x l1 IH]; intros a; [reflexivity|]. cbn [app foldM]. destruct (f a x); cbn [bind]; auto. Qed.
Lemma mapM_app {A B} (f : A -> res B) l1 l2 : mapM f (l1 ++ l2) = do a <- mapM f l1; do b <- mapM f l2; Ok (a ++ b).
Proof. induction l1 as [|x l1 IH]; cbn [app mapM bind]; [destruct (mapM f l2); reflexivity|]. destruct (f x); cbn [bind]; try reflexivity. rewrite IH. destruct (mapM f l1); cbn [bind]; try reflexivity. destruct (mapM f l2); reflexivity. Qed.

(** * Groups with names and groups without *)
Definition name_with (names : list (option string)) (gs : list ilist) : list group := map (fun p => mkGroup (fst p) (snd p)) (combine names gs).
Lemma name_held names gs : length names = length gs -> map held (name_with names gs) = gs.
Proof. revert gs. induction names as [|n names IH]; intros [|g gs] H; try discriminate; [reflexivity|]. unfold name_with. cbn [combine map held snd]. f_equal. apply IH. simpl in H; lia. Qed.
Lemma name_same names gs : length names = length gs -> map same (name_with names gs) = names.
Proof. revert gs. induction names as [|n names IH]; intros [|g gs] H; try discriminate; [reflexivity|]. unfold name_with. cbn [combine map same fst]. f_equal. apply IH. simpl in H; lia. Qed.
Lemma put_named names gs i x : length names = length gs -> put_in (name_with names gs) i x = rmap (name_with names) (add_to gs i x).
Proof.
  unfold put_in, add_to, atn, rmap. revert gs i. induction names as [|n names IH]; intros [|g gs] i H; try discriminate; [destruct i; reflexivity|].
  destruct i as [|i]; [reflexivity|]. specialize (IH gs i (f_equal pred H)). unfold name_with, ilist in *. cbn [combine map nth_error upd].
  destruct (nth_error gs i) as [g'|]; destruct (nth_error (map _ _) i) as [h|]; cbn [bind] in *; try discriminate; try reflexivity.
  injection IH as IH. cbn [combine map]. rewrite IH. reflexivity.
Qed.
Lemma add_to_length {A} (gs gs' : list (list A)) i x : add_to gs i x = Ok gs' -> length gs' = length gs.
Proof. unfold add_to, atn. destruct (nth_error gs i); [|discriminate]. cbn [bind]. intros E. injection E as <-. apply upd_length. Qed.
Lemma fold_named {X S S'} (N : S -> S') (inv : S -> Prop) F G (l : list X) s :
  (forall s x, inv s -> F (N s) x = rmap N (G s x)) -> (forall s x s', inv s -> G s x = Ok s' -> inv s') -> inv s ->
  foldM F l (N s) = rmap N (foldM G l s).
Proof.
  intros HF HG. revert s. induction l as [|x l IH]; intros s Hs; [reflexivity|]. cbn [foldM]. rewrite (HF s x Hs). unfold rmap. specialize (HG s x). destruct (G s x) as [s'| | |]; cbn [bind]; try reflexivity.
  apply IH. apply (HG s' Hs eq_refl).
Qed.
Lemma fold_named_length {X S} (inv : S -> Prop) G (l : list X) s s' : (forall s x s', inv s -> G s x = Ok s' -> inv s') -> inv s -> foldM G l s = Ok s' -> inv s'.
Proof. intros HG. revert s. induction l as [|x l IH]; intros s Hs E; cbn [foldM] in E; [congruence|]. specialize (HG s x). destruct (G s x) as [t| | |]; try discriminate. apply (IH t); [apply (HG t); auto|exact E]. Qed.

Lemma groups_class_named l : groups_class l = Ok (map (fun c => mkGroup (Some c) (filter (of_class c) l)) (distinct_labels l)).
Proof.
  unfold groups_class. assert (Ei : map class_group (distinct_labels l) = name_with (map Some (distinct_labels l)) (repeat [] (length (distinct_labels l)))).
  { generalize (distinct_labels l). intros cs. induction cs as [|c cs IH]; [reflexivity|]. unfold name_with. cbn [map length repeat combine]. f_equal. exact IH. }
  rewrite Ei. rewrite (fold_named (name_with (map Some (distinct_labels l))) (fun gs => length (map (@Some string) (distinct_labels l)) = length gs) _ (fun gs x => add_to gs (find_pos (label x) (distinct_labels l)) x)).
  - pose proof (proj1 (part_class_spec l)) as Ep. unfold part_class, ilist in Ep. unfold ilist. cbv zeta in Ep. rewrite Ep. unfold rmap. cbn [bind]. f_equal. generalize (distinct_labels l). intros cs. induction cs as [|c cs IH]; [reflexivity|]. unfold name_with. cbn [map combine fst snd]. f_equal. exact IH.
  - intros gs x H. apply put_named, H.
  - intros gs x gs' H E. exact (eq_trans H (eq_sym (add_to_length _ _ _ _ E))).
  - rewrite repeat_length, map_length. reflexivity.
Qed.

(** groups that have no name *)
Definition unnamed (gs : list ilist) : list group := map (mkGroup None) gs.
Lemma unnamed_with n gs : length gs = n -> name_with (repeat None n) gs = unnamed gs.
Proof. intros <-. induction gs as [|g gs IH]; [reflexivity|]. unfold name_with. cbn [length repeat combine map unnamed]. f_equal. exact IH. Qed.
Lemma put_unnamed gs i x : put_in (unnamed gs) i x = rmap unnamed (add_to gs i x).
Proof.
  rewrite <- (unnamed_with (length gs) gs eq_refl), put_named by apply repeat_length. unfold rmap. destruct (add_to gs i x) as [gs'| | |] eqn:E; try reflexivity. cbn [bind].
  rewrite unnamed_with by (apply (add_to_length _ _ _ _ E)). reflexivity.
Qed.
Lemma put_unnamed_do {B} (r : res B) (h : B -> nat) gs x : (do v <- r; put_in (unnamed gs) (h v) x) = rmap unnamed (do v <- r; add_to gs (h v) x).
Proof. destruct r; try reflexivity. cbn [bind]. apply put_unnamed. Qed.
Lemma groups_disc_unnamed k l : groups_disc k l = rmap unnamed (part_disc k l).
Proof.
  unfold groups_disc, part_disc. destruct (value_list k l) as [vs| | |]; try reflexivity. cbn [bind].
  replace (map (fun _ => plain_group) vs) with (unnamed (repeat [] (length vs))) by (induction vs as [|v vs IH]; [reflexivity|]; cbn [length repeat map unnamed]; f_equal; exact IH).
  apply (fold_named unnamed (fun _ => True)); auto. intros gs x _. apply put_unnamed_do.
Qed.
Lemma groups_idx_unnamed k v l : groups_idx k v l = rmap unnamed (part_idx k v l).
Proof. unfold groups_idx, part_idx. change [plain_group; plain_group] with (unnamed [[]; []]). apply (fold_named unnamed (fun _ => True)); auto. intros gs x _. apply (put_unnamed_do _ (fun i => if (i =? v)%Z then 0 else 1)). Qed.
Lemma groups_cont_unnamed k t l : groups_cont k t l = rmap unnamed (part_cont k t l).
Proof. unfold groups_cont, part_cont. change [plain_group; plain_group] with (unnamed [[]; []]). apply (fold_named unnamed (fun _ => True)); auto. intros gs x _. apply (put_unnamed_do _ (fun v => if dleb v t then 0 else 1)). Qed.
Lemma groups_strat_unnamed rarr ratio seed l : groups_strat rarr ratio seed l = rmap unnamed (part_strat rarr ratio seed l).
Proof.
  unfold groups_strat, part_strat.
  assert (E : foldM (groups_strat_step l ratio) (rarr (length l) seed) ([], [plain_group; plain_group]) = rmap (fun s : counter * list ilist => (fst s, unnamed (snd s))) (foldM (strat_step l ratio) (rarr (length l) seed) ([], [[]; []]))).
  { apply (fold_named (fun s : counter * list ilist => (fst s, unnamed (snd s))) (fun _ => True) (groups_strat_step l ratio) (strat_step l ratio) (rarr (length l) seed) ([], [[]; []])); auto.
    intros (c & gs) i _. unfold groups_strat_step, strat_step. cbn [fst snd]. destruct (atn l i) as [x| | |]; try reflexivity. cbn [bind]. rewrite put_unnamed. unfold rmap. destruct (add_to gs _ x); reflexivity. }
  rewrite E. unfold rmap. destruct (foldM (strat_step l ratio) _ _); reflexivity.
Qed.
Lemma groups_random_unnamed perm ratio seed l : groups_random perm ratio seed l = rmap (fun r => (fst r, unnamed (snd r))) (part_random perm ratio seed l).
Proof.
  unfold groups_random, part_random. change [plain_group; plain_group] with (unnamed [[]; []]).
  match goal with |- context [foldM ?F (combine ?a ?b) (unnamed ?i)] => rewrite (fold_named unnamed (fun _ => True) F (fun gs ix => add_to gs (if dltb (dofnat (fst ix)) (dmul (dofnat (List.length b)) ratio) then 0 else 1) (snd ix)) (combine a b) i) end; auto.
  - unfold rmap. destruct (foldM _ _ _); reflexivity.
  - intros gs ix _. apply put_unnamed.
Qed.
Lemma named_lists_same l : named_lists l = class_lists l.
Proof.
  unfold named_lists. rewrite groups_class_named, class_lists_spec. cbn [bind]. unfold labelled. generalize (distinct_labels l). intros cs.
  induction cs as [|c cs IH]; [reflexivity|]. cbn [map mapM]. cbn [class_name same held bind]. rewrite IH. reflexivity.
Qed.
Lemma filter_of_class_in c l x : In x (filter (of_class c) l) -> label x = c.
Proof. intros H. apply filter_In in H as [_ H]. unfold of_class in H. apply String.eqb_eq in H. exact H. Qed.
Lemma groups_class_once c l : l <> [] -> (forall x, In x l -> label x = c) -> groups_class l = Ok [mkGroup (Some c) l].
Proof.
  intros Hn H. rewrite groups_class_named. assert (E : distinct_labels l = [c]).
  { destruct l as [|x l]; [congruence|]. unfold distinct_labels. cbn [fold_left]. rewrite (H x (or_introl eq_refl)). change (push_new [] c) with [c]. clear Hn. assert (G : forall y, In y l -> label y = c) by (intros y Hy; apply H; right; exact Hy). clear H.
    induction l as [|y l IH]; [reflexivity|]. cbn [fold_left]. rewrite (G y (or_introl eq_refl)). replace (push_new [c] c) with [c] by (unfold push_new; cbn; rewrite String.eqb_refl; reflexivity). apply IH. intros z Hz. apply G. right; exact Hz. }
  rewrite E. cbn [map]. do 3 f_equal. clear Hn E. induction l as [|x l IH]; [reflexivity|]. cbn [filter]. unfold of_class at 1. rewrite (H x (or_introl eq_refl)), String.eqb_refl. f_equal. apply IH. intros y Hy. apply H. right; exact Hy.
Qed.

(** * SolutionInfo *)
Lemma idx_of_nat {A} (l : list A) i : idx l (Z.of_nat i) = idxn l i.
Proof. unfold idx, idxn. destruct (Z.ltb_spec (Z.of_nat i) 0); [lia|]. rewrite Nat2Z.id. reflexivity. Qed.
Lemma nth_upd_any {A} (l : list A) i j v : i < length l -> nth_error (upd l i v) j = if j =? i then Some v else nth_error l j.
Proof. intros H. destruct (Nat.eqb_spec j i) as [->|Hj]; [apply nth_upd_same; exact H|apply nth_upd_other; auto]. Qed.
Lemma sign_loop_spec n y s : n <= length (sol_alpha s) -> n <= length y ->
  exists s', sign_loop n y s = Ok s' /\ sol_rho s' = sol_rho s /\ length (sol_alpha s') = length (sol_alpha s) /\
    forall i, nth_error (sol_alpha s') i = if i <? n then match nth_error (sol_alpha s) i, nth_error y i with Some a, Some b => Some (dmul a b) | _, _ => None end else nth_error (sol_alpha s) i.
Proof.
  unfold sign_loop. induction n as [|n IH]; intros Ha Hy; [exists s; repeat split; auto|]. rewrite seq_S, foldM_app. destruct IH as (s' & E & Er & El & En); [lia|lia|]. rewrite E. cbn [bind foldM Nat.add].
  assert (Hn : nth_error (sol_alpha s') n = nth_error (sol_alpha s) n) by (rewrite En, Nat.ltb_irrefl; reflexivity).
  unfold get_alpha, set_alpha. rewrite !idx_of_nat. unfold idxn. rewrite Hn. destruct (nth_error (sol_alpha s) n) as [a|] eqn:Ea; [|apply nth_error_None in Ea; lia].
  destruct (nth_error y n) as [b|] eqn:Eb; [|apply nth_error_None in Eb; lia]. cbn [bind]. eexists; split; [reflexivity|]. cbn [sol_rho sol_alpha]. rewrite Nat2Z.id, upd_length. split; [exact Er|]. split; [exact El|].
  intros i. rewrite nth_upd_any by lia. destruct (Nat.eqb_spec i n) as [->|Hi].
  - rewrite Ea, Eb. replace (n <? S n) with true by (symmetry; apply Nat.ltb_lt; lia). reflexivity.
  - rewrite En. replace (i <? S n) with (i <? n); [reflexivity|]. destruct (Nat.ltb_spec i n), (Nat.ltb_spec i (S n)); lia || reflexivity.
Qed.
Lemma mapM_products al y n : n <= length al -> n <= length y ->
  exists r, mapM (fun i => do a <- idxn al i; do yi <- idxn y i; Ok (dmul a yi)) (seq 0 n) = Ok r /\ length r = n /\
    forall i, i < n -> nth_error r i = match nth_error al i, nth_error y i with Some a, Some b => Some (dmul a b) | _, _ => None end.
Proof.
  induction n as [|n IH]; intros Ha Hy; [exists []; repeat split; auto; intros i Hi; lia|]. destruct IH as (r & E & L & H); [lia|lia|].
  rewrite seq_S. cbn [Nat.add]. destruct (nth_error al n) as [a|] eqn:Ea; [|apply nth_error_None in Ea; lia]. destruct (nth_error y n) as [b|] eqn:Eb; [|apply nth_error_None in Eb; lia].
  exists (r ++ [dmul a b]). split; [|split].
  - rewrite mapM_app, E. cbn [bind mapM]. unfold idxn. rewrite Ea, Eb. reflexivity.
  - rewrite app_length, L. simpl. lia.
  - intros i Hi. destruct (Nat.eq_dec i n) as [->|Hin].
    + rewrite nth_error_app2, L, Nat.sub_diag, Ea, Eb by lia. reflexivity.
    + rewrite nth_error_app1 by lia. apply H. lia.
Qed.

(** * The solver never changes the number of multipliers *)
Definition same_number (s s' : solver) : Prop := length (s_alpha s') = length (s_alpha s) /\ s_l s' = s_l s.
Lemma set_at_length {A} (l l' : list A) i x : set_at l i x = Ok l' -> length l' = length l.
Proof. unfold set_at. intros E. apply bind_ok in E as (? & _ & E). injection E as <-. apply upd_length. Qed.
Lemma swap_at_length {A} (l l' : list A) i j : swap_at l i j = Ok l' -> length l' = length l.
Proof. unfold swap_at. intros E. repeat (apply bind_ok in E as (? & _ & E)). injection E as <-. rewrite !upd_length. reflexivity. Qed.
Lemma same_refl s : same_number s s. Proof. split; reflexivity. Qed.
Lemma same_trans a b c : same_number a b -> same_number b c -> same_number a c.
Proof. unfold same_number. intros [A B] [C D]. split; congruence. Qed.
Lemma update_status_same s i s' : update_status s i = Ok s' -> same_number s s'.
Proof. unfold update_status. intros E. repeat (apply bind_ok in E as (? & _ & E)). injection E as <-. (split; reflexivity). Qed.
Lemma swap_index_same s i j s' : swap_index s i j = Ok s' -> same_number s s'.
Proof.
  unfold swap_index. intros E. do 3 (apply bind_ok in E as (? & _ & E)). apply bind_ok in E as (a & Ea & E). repeat (apply bind_ok in E as (? & _ & E)). injection E as <-. split; [exact (swap_at_length _ _ _ _ Ea)|reflexivity].
Qed.
Section Number.
Context (dexp dtanh : dbl -> dbl) (dpow : dbl -> Z -> dbl).
Lemma reconstruct_same s s' : reconstruct dexp dtanh dpow s = Ok s' -> same_number s s'.
Proof. unfold reconstruct. destruct (_ =? _); [intros E; injection E as <-; (split; reflexivity)|]. cbv zeta. intros E. repeat (apply bind_ok in E as (? & _ & E)). injection E as <-. (split; reflexivity). Qed.
Lemma shrink_loop_same n k g0 g1 s s' : shrink_loop n k g0 g1 s = Ok s' -> same_number s s'.
Proof.
  revert k s. induction n as [|n IH]; intros k s E; cbn [shrink_loop] in E; [injection E as <-; (split; reflexivity)|]. apply bind_ok in E as (b & _ & E). destruct b; [exact (IH _ _ E)|]. cbv zeta in E. apply bind_ok in E as (s1 & E1 & E).
  apply swap_index_same in E1. apply IH in E. exact (same_trans s _ _ E1 E).
Qed.
Lemma unshrink_loop_same n m g0 g1 s s' : unshrink_loop n m g0 g1 s = Ok s' -> same_number s s'.
Proof.
  revert m s. induction n as [|n IH]; intros m s E; cbn [unshrink_loop] in E; [injection E as <-; (split; reflexivity)|]. apply bind_ok in E as (b & _ & E). destruct b; [exact (IH _ _ E)|]. apply bind_ok in E as (s1 & E1 & E).
  apply swap_index_same in E1. apply IH in E. exact (same_trans s s1 _ E1 E).
Qed.
Lemma do_shrinking_same s s' : do_shrinking dexp dtanh dpow s = Ok s' -> same_number s s'.
Proof.
  unfold do_shrinking. intros E. apply bind_ok in E as ((stop & out) & _ & E). destruct stop; [injection E as <-; (split; reflexivity)|]. do 6 (apply bind_ok in E as (? & _ & E)). cbv zeta in E. apply bind_ok in E as (s1 & E1 & E). apply shrink_loop_same in E1.
  destruct (_ || _)%bool; [injection E as <-; exact E1|]. apply bind_ok in E as (s2 & E2 & E). apply reconstruct_same in E2. apply unshrink_loop_same in E. exact (same_trans _ _ _ E1 (same_trans s1 _ _ E2 E)).
Qed.
Lemma gbar_update_same s i b s' : gbar_update dexp dtanh dpow s i b = Ok s' -> same_number s s'.
Proof. unfold gbar_update. intros E. apply bind_ok in E as (st & _ & E). destruct (Bool.eqb _ _); [injection E as <-; (split; reflexivity)|]. repeat (apply bind_ok in E as (? & _ & E)). injection E as <-. (split; reflexivity). Qed.
Lemma take_step_same s i j s' : take_step dexp dtanh dpow s i j = Ok s' -> same_number s s'.
Proof.
  unfold take_step. cbv zeta. intros E. do 11 (apply bind_ok in E as (? & _ & E)). destruct (pair_update _ _ _ _ _ _ _ _ _ _) as (a & b). apply bind_ok in E as (a1 & E1 & E). apply bind_ok in E as (a2 & E2 & E). do 3 (apply bind_ok in E as (? & _ & E)).
  apply bind_ok in E as (s1 & F1 & E). apply bind_ok in E as (s2 & F2 & E). apply bind_ok in E as (s3 & F3 & E). apply update_status_same in F1, F2. apply gbar_update_same in F3, E.
  apply set_at_length in E1, E2. pose proof (same_trans _ _ _ F1 (same_trans _ _ _ F2 (same_trans _ _ _ F3 E))) as [A B]. cbn [with_G with_alpha s_alpha s_l] in A, B. split; [rewrite A, E2, E1; reflexivity|exact B].
Qed.
Lemma solve_iter_same c s r : solve_iter dexp dtanh dpow c s = Ok r -> same_number s match r with Leave s' => s' | Again _ s' => s' end.
Proof.
  unfold solve_iter. cbv zeta. intros E. apply bind_ok in E as ((c1 & s1) & E1 & E). assert (H1 : same_number s s1).
  { destruct (_ =? _)%Z; [|injection E1 as _ <-; (split; reflexivity)]. apply bind_ok in E1 as (s2 & E2 & E1). injection E1 as _ <-. destruct (s_shrinking s); [exact (do_shrinking_same _ _ E2)|injection E2 as <-; (split; reflexivity)]. }
  clear E1. apply bind_ok in E as ((stop & out) & _ & E). destruct stop.
  - apply bind_ok in E as (s2 & E2 & E). apply reconstruct_same in E2. apply bind_ok in E as ((stop' & out') & _ & E). pose proof (same_trans _ _ _ H1 E2) as H2. destruct stop'; [injection E as <-; exact H2|].
    do 2 (apply bind_ok in E as (? & _ & E)). apply bind_ok in E as (s3 & E3 & E). injection E as <-. apply take_step_same in E3. exact (same_trans s s2 s3 H2 E3).
  - do 2 (apply bind_ok in E as (? & _ & E)). apply bind_ok in E as (s3 & E3 & E). injection E as <-. apply take_step_same in E3. exact (same_trans _ _ _ H1 E3).
Qed.
Lemma solve_loop_same fuel c s s' : solve_loop dexp dtanh dpow fuel c s = Ok s' -> same_number s s'.
Proof.
  revert c s. induction fuel as [|fuel IH]; intros c s E; [discriminate|]. cbn [solve_loop] in E. apply bind_ok in E as (r & Er & E). apply solve_iter_same in Er. destruct r as [t|c' t]; [injection E as <-; exact Er|]. exact (same_trans _ _ _ Er (IH _ _ E)).
Qed.
Lemma solver_init_number l b y p x s : solver_init dexp dtanh dpow l b y p x = Ok s -> length (s_alpha s) = l /\ s_l s = l.
Proof.
  unfold solver_init. intros E. do 2 (apply bind_ok in E as (? & _ & E)). cbv zeta in E. revert E. apply (fold_named_length (fun s => length (s_alpha s) = l /\ s_l s = l)); [|split; [apply repeat_length|reflexivity]].
  intros t i t' Ht E. apply bind_ok in E as (st & _ & E). destruct (is_lower st); [injection E as <-; exact Ht|]. repeat (apply bind_ok in E as (? & _ & E)). injection E as <-. exact Ht.
Qed.
Lemma solve_number fuel l b y p x r al : solve dexp dtanh dpow fuel l b y p x = Ok (r, al) -> length al = l.
Proof.
  unfold solve. intros E. apply bind_ok in E as (s & Es & E). apply bind_ok in E as (s' & Es' & E). apply bind_ok in E as (a & Ea & E). apply bind_ok in E as (? & _ & E). injection E as _ <-.
  apply solver_init_number in Es as [A B]. apply solve_loop_same in Es' as [C D]. rewrite <- A, <- C. unfold write_back in Ea. revert Ea. apply (fold_named_length (fun v => length v = length (s_alpha s'))); [|reflexivity].
  intros v i v' Hv E. do 2 (apply bind_ok in E as (? & _ & E)). rewrite (set_at_length _ _ _ _ E). exact Hv.
Qed.
End Number.
