(** Training data in which every instance is given several times: proofs about decision trees and nearest neighbours. *)
From Coq Require Import String ZArith QArith Bool Lia Permutation Lqa List.
From Verif Require Import Base Spec BaseLemmas DblLemmas AttrModel InstanceListModel PartitionModel PerformanceModel
  ListSpec ListProofs DataSetProofs PartitionProofs TreeModel TreeSpec TreeProofs TreeGrowProofs TreePredictProofs TreeBestSpec TreeBestProofs InvSpec TreeInvProofs RepeatSpec.
Import ListNotations.
Local Open Scope string_scope.
Local Open Scope list_scope.
Local Open Scope nat_scope.

(** * Lists *)
Lemma map_each {A B} (f : A -> B) m l : map f (each m l) = each m (map f l).
Proof.
  unfold each. induction l as [|x l IH]; [reflexivity|]. cbn [flat_map map]. rewrite map_app, IH. f_equal.
  clear. induction m as [|m IH]; [reflexivity|]. cbn [repeat map]. rewrite IH. reflexivity.
Qed.
Lemma each_length {A} m (l : list A) : length (each m l) = m * length l.
Proof. unfold each. induction l as [|x l IH]; cbn [flat_map length]; [lia|]. rewrite app_length, repeat_length, IH. lia. Qed.
Lemma each_app {A} m (a b : list A) : each m (a ++ b) = each m a ++ each m b.
Proof. unfold each. apply flat_map_app. Qed.
Lemma each_cons {A} m x (l : list A) : each m (x :: l) = repeat x m ++ each m l.
Proof. reflexivity. Qed.
Lemma in_each {A} m x (l : list A) : In x (each m l) -> In x l.
Proof. unfold each. rewrite in_flat_map. intros (y & Hy & Hx). apply repeat_spec in Hx. subst y. exact Hy. Qed.
Lemma filter_each {A} (f : A -> bool) m l : filter f (each m l) = each m (filter f l).
Proof.
  induction l as [|x l IH]; [reflexivity|]. rewrite each_cons, filter_app, IH. cbn [filter].
  assert (E : filter f (repeat x m) = if f x then repeat x m else []).
  { clear. induction m as [|m IH]; cbn [repeat filter]; [destruct (f x); reflexivity|]. rewrite IH. destruct (f x); reflexivity. }
  rewrite E. destruct (f x); reflexivity.
Qed.
Lemma each_perm {A} m (l l' : list A) : Permutation l l' -> Permutation (each m l) (each m l').
Proof. unfold each. induction 1; cbn [flat_map]; [constructor|apply Permutation_app_head; assumption| |etransitivity; eassumption].
  rewrite !app_assoc. apply Permutation_app_tail, Permutation_app_comm. Qed.
Lemma each_again {A} m (l : list A) : Permutation (each m l) (again m l).
Proof.
  unfold again. induction m as [|m IH]; [unfold each; cbn; induction l; [constructor|assumption]|]. cbn [repeat concat].
  transitivity (l ++ each m l); [|apply Permutation_app_head, IH]. clear. induction l as [|x l IH]; [constructor|].
  rewrite !each_cons. cbn [repeat app]. constructor. rewrite IH, !app_assoc. apply Permutation_app_tail, Permutation_app_comm.
Qed.
Lemma push_new_repeat acc x m : In x acc -> fold_left push_new (repeat x m) acc = acc.
Proof.
  intros H. induction m as [|m IH]; [reflexivity|]. cbn [repeat fold_left]. unfold push_new at 2.
  replace (mem_str x acc) with true; [exact IH|]. symmetry. apply existsb_exists. exists x. split; [exact H|apply String.eqb_refl].
Qed.
Lemma push_new_each m : 0 < m -> forall l acc, fold_left push_new (each m l) acc = fold_left push_new l acc.
Proof.
  intros Hm. induction l as [|x l IH]; intros acc; [reflexivity|]. rewrite each_cons, fold_left_app. cbn [fold_left].
  destruct m as [|m]; [lia|]. cbn [repeat fold_left]. rewrite (push_new_repeat _ x m); [apply IH|].
  unfold push_new. destruct (mem_str x acc) eqn:E; [|apply in_or_app; right; left; reflexivity].
  apply existsb_exists in E as (y & Hy & E). apply String.eqb_eq in E. subst y. exact Hy.
Qed.
Lemma distinct_each m l : 0 < m -> distinct_labels (each m l) = distinct_labels l.
Proof.
  intros Hm. unfold distinct_labels.
  assert (G : forall (l : list instance) acc, fold_left (fun acc x => push_new acc (label x)) l acc = fold_left push_new (map label l) acc).
  { clear. induction l as [|x l IH]; intros acc; [reflexivity|]. cbn [fold_left map]. apply IH. }
  rewrite !G, map_each. apply push_new_each, Hm.
Qed.

(** * Counters *)
Lemma ccount_times m c k : ccount (times m c) k = m * ccount c k.
Proof.
  unfold times. induction c as [|(k0, n) c IH]; [unfold ccount; cbn; lia|]. cbn [map fst snd]. rewrite !ccount_cons, IH. destruct (String.eqb k k0); reflexivity.
Qed.
Lemma times_keys m c : mkeys (times m c) = mkeys c.
Proof. unfold mkeys, times. rewrite map_map. reflexivity. Qed.
Lemma times_sorted m c : msorted c -> msorted (times m c).
Proof. unfold msorted. rewrite times_keys. exact (fun H => H). Qed.
Lemma times_cpos m c : 0 < m -> cpos c -> cpos (times m c).
Proof. intros Hm H. unfold cpos, times in *. apply Forall_forall. intros kv Hkv. apply in_map_iff in Hkv as (kv0 & <- & Hin). cbn [snd]. pose proof (proj1 (Forall_forall _ _) H kv0 Hin). cbn in *. nia. Qed.
Lemma count_each m l (k : string) : count_occ string_dec (each m l) k = m * count_occ string_dec l k.
Proof.
  induction l as [|x l IH]; [cbn; lia|]. rewrite each_cons, count_occ_app, IH. cbn [count_occ].
  assert (E : count_occ string_dec (repeat x m) k = if string_dec x k then m else 0).
  { clear. induction m as [|m IH]; cbn [repeat count_occ]; [destruct (string_dec x k); reflexivity|]. rewrite IH. destruct (string_dec x k); reflexivity. }
  rewrite E. destruct (string_dec x k); lia.
Qed.
Lemma cofl_each m l : 0 < m -> cofl (each m l) = times m (cofl l).
Proof.
  intros Hm. apply counter_ext; [apply cofl_sorted|apply times_sorted, cofl_sorted|apply cofl_cpos|apply times_cpos; [exact Hm|apply cofl_cpos]|].
  intros k. rewrite ccount_times, !ccount_cofl. apply count_each.
Qed.
Lemma csum_times m c : csum (times m c) = m * csum c.
Proof. unfold csum, times. induction c as [|kv c IH]; cbn [map fold_right snd]; [lia|]. rewrite IH. lia. Qed.
Lemma cmax_times m c : 0 < m -> cmax (times m c) = cmax c.
Proof.
  intros Hm. unfold cmax. change (@pair string nat "" 0) with ((fun b : string * nat => (fst b, snd b)) ("", 0)) at 2.
  assert (G : forall b, fold_left cmax_step (times m c) (fst b, m * snd b) = (fst (fold_left cmax_step c b), m * snd (fold_left cmax_step c b))).
  { unfold times. induction c as [|kv c IH]; intros b; [reflexivity|]. cbn [map fold_left]. rewrite <- IH. f_equal. unfold cmax_step. cbn [fst snd].
    destruct (Nat.ltb_spec (m * snd b) (m * snd kv)), (Nat.ltb_spec (snd b) (snd kv)); try reflexivity; nia. }
  specialize (G ("", 0)). cbn [fst snd] in G. rewrite Nat.mul_0_r in G. rewrite G. reflexivity.
Qed.
Lemma max_each m ls : 0 < m -> get_maximum (each m ls) = get_maximum ls.
Proof. intros Hm. unfold get_maximum. change (fold_left cput (each m ls) []) with (cofl (each m ls)). rewrite (cofl_each m ls Hm). apply cmax_times, Hm. Qed.
Lemma qratio m a b : 0 < m -> 0 < b -> deq (ddiv (dofnat (m * a)) (dofnat (m * b))) (ddiv (dofnat a) (dofnat b)).
Proof.
  intros Hm Hb. rewrite !dofnat_fin. pose proof (qofn_pos _ Hm). pose proof (qofn_pos _ Hb).
  assert (E : forall a, (qofn (m * a) == qofn m * qofn a)%Q). { intros c. unfold qofn. rewrite Nat2Z.inj_mul, inject_Z_mult. reflexivity. }
  rewrite !ddiv_fin; [|lra|rewrite E; intros H1; assert (0 < qofn m * qofn b)%Q by (apply Qmult_lt_0_compat; assumption); lra].
  cbn [deq]. rewrite !E. field. split; lra.
Qed.

(** * Stable sorting *)
Lemma sinsert_over {A} (lt : A -> A -> bool) x y m r : lt y x = true -> sinsert lt x (repeat y m ++ r) = repeat y m ++ sinsert lt x r.
Proof. intros H. induction m as [|m IH]; [reflexivity|]. cbn [repeat app sinsert]. rewrite H, IH. reflexivity. Qed.
Fixpoint iter {A} (n : nat) (f : A -> A) (a : A) : A := match n with 0 => a | S n' => f (iter n' f a) end.
Lemma sinsert_copies {A} (lt : A -> A -> bool) x n m : (forall a, lt a a = false) -> 0 < m -> forall l, iter n (sinsert lt x) (each m l) = 
  match n with 0 => each m l | _ => (fix go l := match l with [] => repeat x n | y :: l' => if lt y x then repeat y m ++ go l' else repeat x n ++ each m (y :: l') end) l end.
Proof.
  intros Hirr Hm l. induction n as [|n IH]; [reflexivity|]. cbn [iter]. rewrite IH. clear IH.
  assert (Hx : forall j r, sinsert lt x (repeat x (S j) ++ r) = repeat x (S (S j)) ++ r) by (intros j r; cbn [repeat app sinsert]; rewrite Hirr; reflexivity).
  destruct n as [|n].
  - induction l as [|y l IH]; [reflexivity|]. destruct (lt y x) eqn:E.
    + rewrite each_cons, (sinsert_over lt x y m _ E). f_equal. exact IH.
    + destruct m as [|m]; [lia|]. rewrite each_cons. cbn [repeat app sinsert]. rewrite E. reflexivity.
  - induction l as [|y l IH].
    + rewrite <- (app_nil_r (repeat x (S n))), Hx, app_nil_r. reflexivity.
    + destruct (lt y x) eqn:E; [rewrite (sinsert_over lt x y m _ E); f_equal; exact IH|]. apply Hx.
Qed.
Lemma ssort_each {A} (lt : A -> A -> bool) m l : (forall a, lt a a = false) -> 0 < m -> ssort lt (each m l) = each m (ssort lt l).
Proof.
  intros Hirr Hm. unfold ssort. induction l as [|x l IH]; [reflexivity|]. rewrite each_cons. cbn [fold_right].
  rewrite fold_right_app, IH.
  assert (G : forall j a, fold_right (sinsert lt) a (repeat x j) = iter j (sinsert lt x) a) by (clear; induction j as [|j IH]; intros a; [reflexivity|]; cbn [repeat fold_right iter]; rewrite IH; reflexivity).
  rewrite G, sinsert_copies by assumption. destruct m as [|m]; [lia|]. generalize (fold_right (sinsert lt) [] l). clear. induction l as [|y l IH]; [cbn; rewrite app_nil_r; reflexivity|].
  cbn [sinsert]. destruct (lt y x); [|rewrite !each_cons; reflexivity]. rewrite each_cons. f_equal. exact IH.
Qed.

Section Repeat.
  Context (entropy : counter -> dbl) (mid : dbl -> dbl -> dbl) (shape : list kind) (m : nat).
  Hypothesis Hent : entropy_finite entropy.
  Hypothesis Hrel : entropy_relative entropy.
  Hypothesis Hmid : mid_exact mid.
  Hypothesis Hm : 0 < m.
  Notation key k := (colC (Z.of_nat k)).
  Notation lc l := (cofl (map label l)).

  Lemma tab_each l : tabular shape l -> tabular shape (each m l).
  Proof. intros T. apply Forall_forall. intros x Hx. apply (proj1 (Forall_forall _ _) T), (in_each m), Hx. Qed.
  Lemma each_ne {A} (l : list A) : l <> [] -> each m l <> [].
  Proof. intros H E. apply (f_equal (@length A)) in E. rewrite each_length in E. destruct l; [congruence|]. cbn in E. nia. Qed.
  Lemma each_head {A} x (l : list A) : atn (each m (x :: l)) 0 = Ok x.
  Proof. rewrite each_cons. destruct m as [|j]; [lia|]. reflexivity. Qed.
  Lemma lc_each l : lc (each m l) = times m (lc l).
  Proof. rewrite map_each. apply cofl_each, Hm. Qed.
  Lemma ent_each l : deq (entropy (lc (each m l))) (entropy (lc l)).
  Proof. rewrite lc_each. apply Hrel, Hm. Qed.
  Lemma share_each n l : 0 < n -> deq (share (m * n) (lc (each m l))) (share n (lc l)).
  Proof. intros Hn. unfold share. rewrite lc_each, csum_times. apply qratio; assumption. Qed.

  Definition near (b b' : best) : Prop := deq (b_entropy b) (b_entropy b') /\ b_attr b = b_attr b' /\ b_value b = b_value b'.
  Lemma near_better b b' e e' k v : near b b' -> deq e e' -> near (better b e k v) (better b' e' k v).
  Proof.
    intros (A & B & C) E. unfold better. rewrite (dltb_proper _ _ E _ _ A). destruct (dltb e' (b_entropy b')); [|repeat split; assumption].
    split; [exact E|]. split; reflexivity.
  Qed.

  (** indexed features *)
  Lemma try_index_value data k n b v : tabular shape data -> nth_error shape k = Some (KIdx n) ->
    let sel := filter (fun x => (colI (Z.of_nat k) x =? Z.of_nat v)%Z) data in
    let rest := filter (fun x => negb (colI (Z.of_nat k) x =? Z.of_nat v)%Z) data in
    try_index entropy data (Z.of_nat k) (lc data, b) v =
    Ok (lc data, if 0 <? length sel then better b (ddiv (dadd (dmul (entropy (lc rest)) (dofnat (length rest))) (dmul (entropy (lc sel)) (dofnat (length sel)))) (dofnat (length data))) (Z.of_nat k) (dofnat v) else b).
  Proof.
    intros T Hk sel rest. unfold try_index. rewrite (index_dbl _ _ _ _ (Z.of_nat v) T Hk). cbn [bind]. fold sel. rewrite csum_cofl, map_length.
    destruct (0 <? length sel); [|reflexivity].
    assert (HP : Permutation (map label data) (map label sel ++ map label rest)) by (rewrite <- map_app; apply Permutation_map, filter_split).
    rewrite (csubd_split _ _ _ HP), cadd_cofl, csum_cofl, map_length.
    rewrite (cofl_perm (map label rest ++ map label sel) (map label data)); [reflexivity|].
    etransitivity; [apply Permutation_app_comm|apply Permutation_sym, HP].
  Qed.
  Lemma weighted a b n n1 n2 e1 e2 : deq a (Fin e1) -> deq b (Fin e2) -> 0 < n ->
    deq (ddiv (dadd (dmul a (dofnat (m * n1))) (dmul b (dofnat (m * n2)))) (dofnat (m * n))) (ddiv (dadd (dmul (Fin e1) (dofnat n1)) (dmul (Fin e2) (dofnat n2))) (dofnat n)).
  Proof.
    intros Ha Hb Hn. rewrite Ha, Hb, !dofnat_fin. pose proof (qofn_pos _ Hm). pose proof (qofn_pos _ Hn).
    assert (E : forall a, (qofn (m * a) == qofn m * qofn a)%Q) by (intros c; unfold qofn; rewrite Nat2Z.inj_mul, inject_Z_mult; reflexivity).
    cbn [dmul dadd]. rewrite !ddiv_fin; [|lra|rewrite E; intros H1; assert (0 < qofn m * qofn n)%Q by (apply Qmult_lt_0_compat; assumption); lra].
    cbn [deq]. rewrite !E. field. split; lra.
  Qed.
  Lemma index_each data k n : tabular shape data -> data <> [] -> nth_error shape k = Some (KIdx n) -> forall vs b b', near b b' ->
    exists r r', foldM (try_index entropy data (Z.of_nat k)) vs (lc data, b) = Ok (lc data, r) /\
      foldM (try_index entropy (each m data) (Z.of_nat k)) vs (lc (each m data), b') = Ok (lc (each m data), r') /\ near r r'.
  Proof.
    intros T Hne Hk. induction vs as [|v vs IH]; intros b b' Hb; [exists b, b'; repeat (split; [reflexivity|]); exact Hb|]. cbn [foldM].
    rewrite (try_index_value data k n b v T Hk), (try_index_value (each m data) k n b' v (tab_each _ T) Hk). cbn [bind]. apply IH.
    rewrite !filter_each, !each_length. set (sel := filter _ data). set (rest := filter (fun x => negb _) data).
    assert (Hn : 0 < length data) by (destruct data; [contradiction|cbn; lia]).
    destruct (Nat.ltb_spec 0 (length sel)), (Nat.ltb_spec 0 (m * length sel)); try nia; [|exact Hb].
    apply near_better; [exact Hb|]. destruct (Hent (lc rest)) as (e1 & E1). destruct (Hent (lc sel)) as (e2 & E2). symmetry. rewrite E1, E2. apply weighted; [|..|exact Hn].
    - rewrite ent_each, E1. reflexivity. - rewrite ent_each, E2. reflexivity.
  Qed.

  (** discrete features *)
  Lemma disc_entropy_each data k : tabular shape data -> data <> [] -> nth_error shape k = Some KDisc ->
    exists e e', disc_entropy entropy data (Z.of_nat k) = Ok e /\ disc_entropy entropy (each m data) (Z.of_nat k) = Ok e' /\ deq e e'.
  Proof.
    intros T Hne Hk.
    assert (D : forall l, tabular shape l -> attr_class_distribution (Z.of_nat k) l =
      Ok (map (fun w => lc (filter (fun x => String.eqb w (colD (Z.of_nat k) x)) l)) (fold_left push_new (map (colD (Z.of_nat k)) l) []))).
    { intros d Td. apply acd_exact; [apply (tab_text shape); assumption|]. intros x Hx. apply disc_at_ok. eexists; split; [apply (typed_disc shape); [exact (tab_in shape _ _ Td Hx)|exact Hk]|left; reflexivity]. }
    unfold disc_entropy. rewrite (D data T), (D _ (tab_each _ T)). cbn [bind]. eexists _, _. split; [reflexivity|]. split; [reflexivity|].
    rewrite map_each, (push_new_each m Hm), each_length. assert (Hn : 0 < length data) by (destruct data; [contradiction|cbn; lia]).
    generalize (fold_left push_new (map (colD (Z.of_nat k)) data) []). intros vs. assert (E0 : deq d0 d0) by reflexivity. revert E0. generalize d0 at 1 3. generalize d0. 
    induction vs as [|w vs IH]; intros a b E; cbn [map fold_left]; [exact E|]. apply IH. rewrite filter_each, (share_each _ _ Hn), ent_each, E. reflexivity.
  Qed.

  (** continuous features *)
  Lemma sort_value k l : nth_error shape k = Some KCont -> tabular shape l ->
    sort_by (Z.of_nat k) l = Ok (map snd (ssort (fun p q => dltb (fst p) (fst q)) (map (fun x => (Fin (key k x), x)) l))).
  Proof.
    intros Hk T. assert (K : mapM (cont_at (Z.of_nat k)) l = Ok (map (fun x => Fin (key k x)) l)).
    { apply mapM_ok. induction T as [|x l Tx _ IH]; cbn [map]; constructor; [|exact IH]. exact (proj2 (cont_at_ok _ _ _) (typed_cont _ x k Tx Hk)). }
    unfold sort_by. rewrite K. cbn [bind]. replace (existsb is_nan _) with false.
    2:{ symmetry. clear. induction l as [|x l IH]; [reflexivity|exact IH]. }
    assert (C : combine (map (fun x => Fin (key k x)) l) l = map (fun x => (Fin (key k x), x)) l) by (clear; induction l as [|x l IH]; [reflexivity|]; cbn [map combine]; rewrite IH; reflexivity).
    rewrite C. destruct l as [|x [|y l]]; reflexivity.
  Qed.
  Lemma sort_each k l : nth_error shape k = Some KCont -> tabular shape l -> exists s, sort_by (Z.of_nat k) l = Ok s /\ sort_by (Z.of_nat k) (each m l) = Ok (each m s) /\ Permutation l s.
  Proof.
    intros Hk T. destruct (sort_by_sorted shape k l Hk T) as (s & Es & P & _). exists s. split; [exact Es|]. split; [|exact P].
    rewrite (sort_value k l Hk T) in Es. rewrite (sort_value k _ Hk (tab_each _ T)), map_each, ssort_each, map_each; [injection Es as <-; reflexivity| |exact Hm].
    intros (d & x). cbn [fst]. unfold dltb. destruct d; try reflexivity. apply negb_false_iff, Qle_bool_iff, Qle_refl.
  Qed.
  Definition scan_near (todo done : list instance) (s s' : scan) : Prop :=
    s_prev s = s_prev s' /\ prev_fin s /\ s_left s = lc todo /\ s_right s = lc done /\
    s_left s' = lc (each m todo) /\ s_right s' = lc (each m done) /\ near (s_best s) (s_best s').
  Lemma cut_copies n k x : nth_error shape k = Some KCont -> typed shape x -> forall j todo done s, prev_fin s ->
    s_left s = cofl (repeat (label x) j ++ todo) -> s_right s = cofl done -> next_prev (s_prev s) (Fin (key k x)) = s_prev s ->
    (exists p, s_prev s = Some (Fin p) /\ (p == key k x)%Q) ->
    foldM (try_cut entropy mid n (Z.of_nat k)) (repeat x j) s = Ok (mkScan (s_prev s) (cofl todo) (cofl (done ++ repeat (label x) j)) (s_best s)).
  Proof.
    intros Hk Tx. induction j as [|j IH]; intros todo done s F L R N Hp.
    - cbn [repeat foldM]. cbn [repeat app] in L. rewrite app_nil_r, <- L, <- R. destruct s; reflexivity.
    - cbn [repeat foldM]. rewrite (try_cut_eq entropy mid shape n k s x Hk Tx). cbn [bind]. rewrite N.
      assert (B : next_best entropy mid n (Z.of_nat k) s (Fin (key k x)) = s_best s).
      { destruct Hp as (p & Ep & Hp). unfold next_best. rewrite Ep. rewrite (proj2 (deqb_fin _ _)) by (symmetry; exact Hp). reflexivity. }
      rewrite B. cbn [repeat app] in L.
      rewrite (IH todo (done ++ [label x])); cbn [s_prev s_left s_right s_best]; try assumption.
      + rewrite <- app_assoc. reflexivity.
      + rewrite L. apply crem_cofl.
      + rewrite R. apply cput_cofl.
  Qed.
  Lemma cut_block n k x todo done s s' : 0 < n -> nth_error shape k = Some KCont -> typed shape x -> scan_near (x :: todo) done s s' ->
    exists t t', try_cut entropy mid n (Z.of_nat k) s x = Ok t /\ foldM (try_cut entropy mid (m * n) (Z.of_nat k)) (repeat x m) s' = Ok t' /\
      scan_near todo (done ++ [x]) t t'.
  Proof.
    intros Hn Hk Tx (P & F & L & R & L' & R' & B). rewrite (try_cut_eq entropy mid shape n k s x Hk Tx). eexists. 
    assert (HN : exists p, next_prev (s_prev s') (Fin (key k x)) = Some (Fin p) /\ (p == key k x)%Q).
    { rewrite <- P. unfold next_prev, prev_fin in *. destruct (s_prev s) as [[p| | |]|]; try contradiction F.
      - destruct (deqb (Fin (key k x)) (Fin p)) eqn:E; [exists p; split; [reflexivity|symmetry; apply deqb_fin, E]|exists (key k x); split; reflexivity].
      - exists (key k x). split; reflexivity. }
    assert (F' : prev_fin s') by (unfold prev_fin in *; rewrite <- P; exact F).
    assert (E : foldM (try_cut entropy mid (m * n) (Z.of_nat k)) (repeat x m) s' =
      Ok (mkScan (next_prev (s_prev s') (Fin (key k x))) (lc (each m todo)) (lc (each m (done ++ [x]))) (next_best entropy mid (m * n) (Z.of_nat k) s' (Fin (key k x))))).
    { rewrite map_each in L', R'. cbn [map] in L'. rewrite each_cons in L'. rewrite !map_each, map_app, each_app. cbn [map]. rewrite (each_cons m (label x) []). unfold each at 3. cbn [flat_map]. rewrite app_nil_r.
      remember (m * n) as N eqn:EN. clear EN. generalize (each m (map label todo)), (each m (map label done)), L', R'. clear L' R'. intros T D L' R'.
      destruct m as [|j] eqn:Em; [lia|]. cbn [repeat] in L' |- *. cbn [foldM]. rewrite (try_cut_eq entropy mid shape N k s' x Hk Tx). cbn [bind].
      destruct HN as (p & EN & Hp). rewrite EN.
      match goal with |- foldM _ _ ?st = _ => rewrite (cut_copies N k x Hk Tx j T (D ++ [label x]) st) end; cbn [s_prev s_left s_right s_best].
      - rewrite <- app_assoc. reflexivity.
      - exact I.
      - rewrite L'. cbn [app]. apply crem_cofl.
      - rewrite R'. apply cput_cofl.
      - unfold next_prev. rewrite (proj2 (deqb_fin _ _)) by (symmetry; exact Hp). reflexivity.
      - exists p. split; [reflexivity|exact Hp]. }
    eexists. split; [reflexivity|]. split; [exact E|]. destruct HN as (p & EN & _).
    split; [cbn [s_prev]; rewrite P; reflexivity|]. split; [unfold prev_fin; cbn [s_prev]; rewrite P, EN; exact I|].
    cbn [s_left s_right s_best]. split; [rewrite L; apply crem_cofl|]. split; [rewrite R, map_app; apply cput_cofl|]. split; [reflexivity|]. split; [reflexivity|].
    unfold next_best. rewrite <- P. destruct (s_prev s) as [q|]; [|exact B]. destruct (deqb (Fin (key k x)) q); [exact B|]. apply near_better; [exact B|].
    rewrite L, R, L', R'. rewrite !(share_each _ _ Hn), !ent_each. reflexivity.
  Qed.
  Lemma foldM_app {A B} (f : A -> B -> res A) l1 l2 a : foldM f (l1 ++ l2) a = do b <- foldM f l1 a; foldM f l2 b.
  Proof. revert a. induction l1 as [|x l1 IH]; intros a; [reflexivity|]. cbn [app foldM]. destruct (f a x); try reflexivity. cbn [bind]. apply IH. Qed.
  Lemma cut_each n k : 0 < n -> nth_error shape k = Some KCont -> forall todo done s s', tabular shape todo -> scan_near todo done s s' ->
    exists t t', foldM (try_cut entropy mid n (Z.of_nat k)) todo s = Ok t /\ foldM (try_cut entropy mid (m * n) (Z.of_nat k)) (each m todo) s' = Ok t' /\ near (s_best t) (s_best t').
  Proof.
    intros Hn Hk. induction todo as [|x todo IH]; intros done s s' T H.
    - exists s, s'. split; [reflexivity|]. split; [reflexivity|]. apply H.
    - inversion T as [|? ? Tx Tl]; subst. destruct (cut_block n k x todo done s s' Hn Hk Tx H) as (s1 & s1' & E1 & E1' & H1). rewrite each_cons, foldM_app, E1'. cbn [bind foldM]. rewrite E1. cbn [bind].
      exact (IH _ _ _ Tl H1).
  Qed.
  (** the search *)
  Lemma try_attr_each data b b' k : k < length shape -> tabular shape data -> data <> [] -> near b b' ->
    exists data2 b2 b2', try_attr entropy mid (data, lc data, b) (Z.of_nat k) = Ok (data2, lc data2, b2) /\
      try_attr entropy mid (each m data, lc (each m data), b') (Z.of_nat k) = Ok (each m data2, lc (each m data2), b2') /\ Permutation data data2 /\ near b2 b2'.
  Proof.
    intros Hk T Hne Hb. destruct (nth_error shape k) as [kd|] eqn:Ek; [|apply nth_error_None in Ek; lia].
    unfold try_attr. destruct data as [|x0 l0] eqn:El; [contradiction|]. rewrite each_head. cbn [atn nth_error bind]. rewrite <- El in *.
    destruct (typed_at _ x0 _ _ (tab_in shape data x0 T ltac:(rewrite El; left; reflexivity)) Ek) as (a & _ & Ha & -> & _). cbn [bind].
    destruct kd as [| |n|]; simpl in Ha.
    - destruct Ha as [w ->]. cbn [isDiscreteIndexed isDiscrete]. destruct (disc_entropy_each data k T Hne Ek) as (e & e' & -> & -> & He). cbn [bind].
      eexists data, _, _. split; [reflexivity|]. split; [reflexivity|]. split; [reflexivity|]. rewrite (proj2 (proj2 Hb)). apply near_better; assumption.
    - destruct Ha as [w ->]. cbn. eexists data, _, _. repeat (split; [reflexivity|]). exact Hb.
    - destruct Ha as (w & i & ->). cbn [isDiscreteIndexed idx_max bind]. destruct (index_each data k n T Hne Ek (seq 0 n) b b' Hb) as (r & r' & -> & -> & Hr). cbn [bind fst snd].
      eexists data, _, _. repeat (split; [reflexivity|]). exact Hr.
    - destruct Ha as (q & ->). cbn [isDiscreteIndexed isDiscrete isContinuous]. destruct (sort_each k data Ek T) as (s & -> & -> & P). cbn [bind].
      rewrite !class_distribution_cofl, each_length.
      destruct (cut_each (length s) k) with (todo := s) (done := @nil instance) (s := mkScan None (lc s) [] b) (s' := mkScan None (lc (each m s)) [] b') as (t & t' & -> & -> & B).
      { rewrite <- (Permutation_length P). destruct data; [contradiction|cbn; lia]. } { exact Ek. } { exact (tab_perm _ _ _ P T). }
      { split; [reflexivity|]. split; [exact I|]. repeat (split; [reflexivity|]). exact Hb. }
      cbn [bind]. eexists s, _, _. split; [rewrite (cofl_perm _ _ (Permutation_map label P)); reflexivity|].
      split; [rewrite (cofl_perm _ _ (Permutation_map label (each_perm m _ _ P))); reflexivity|]. split; [exact P|exact B].
  Qed.
  Lemma attr_fold_each ks : (forall k, In k ks -> k < length shape) -> forall data b b', tabular shape data -> data <> [] -> near b b' ->
    exists data2 b2 b2', foldM (try_attr entropy mid) (map Z.of_nat ks) (data, lc data, b) = Ok (data2, lc data2, b2) /\
      foldM (try_attr entropy mid) (map Z.of_nat ks) (each m data, lc (each m data), b') = Ok (each m data2, lc (each m data2), b2') /\ Permutation data data2 /\ near b2 b2'.
  Proof.
    induction ks as [|k ks IH]; intros Hks data b b' T Hne Hb; [exists data, b, b'; repeat (split; [reflexivity|]); exact Hb|].
    cbn [map foldM]. destruct (try_attr_each data b b' k (Hks k (or_introl eq_refl)) T Hne Hb) as (d1 & b1 & b1' & -> & -> & P1 & B1). cbn [bind].
    destruct (IH (fun j Hj => Hks j (or_intror Hj)) d1 b1 b1' (tab_perm _ _ _ P1 T)) as (d2 & b2 & b2' & -> & -> & P2 & B2).
    { intros ->. apply Hne, Permutation_nil, Permutation_sym, P1. } { exact B1. }
    exists d2, b2, b2'. repeat (split; [reflexivity|]). split; [etransitivity; eassumption|exact B2].
  Qed.
  Context (rarr : nat -> Z -> list nat) (Hrarr : rarr_perm rarr).
  Lemma search_each param data : tabular shape data -> data <> [] ->
    exists d b b', search entropy mid rarr param data = Ok (d, b) /\ search entropy mid rarr param (each m data) = Ok (each m d, b') /\ Permutation data d /\ near b b'.
  Proof.
    intros T Hne. unfold search. destruct data as [|x0 l0] eqn:El; [contradiction|]. rewrite each_head. cbn [atn nth_error bind]. rewrite <- El in *.
    destruct (attr_order_ok shape rarr param x0 Hrarr (tab_in shape data x0 T ltac:(rewrite El; left; reflexivity))) as (ks & -> & Hks). cbn [bind]. rewrite !class_distribution_cofl.
    destruct (attr_fold_each ks Hks data (mkBest (entropy (lc data)) (-1) d0) (mkBest (entropy (lc (each m data))) (-1) d0) T Hne) as (d & b & b' & E1 & E2 & P & B).
    { split; [symmetry; apply ent_each|]. split; reflexivity. }
    exists d, b, b'. split; [exact (f_equal (fun r => do st <- r; match st with (d', _, b0) => Ok (d', b0) end) E1)|].
    split; [exact (f_equal (fun r => do st <- r; match st with (d', _, b0) => Ok (d', b0) end) E2)|]. split; assumption.
  Qed.
  Lemma split_each data k v : tabular shape data -> data <> [] -> proper shape data k v ->
    exists parts, split data k v = Ok parts /\ split (each m data) k v = Ok (map (fun p => (fst p, each m (snd p))) parts) /\
      Forall (fun p => tabular shape (snd p) /\ snd p <> []) parts.
  Proof.
    intros T Hne Hp. destruct (split_proper shape data k v T Hne Hp) as (parts & Ep & (O & _) & _ & Pne). exists parts. split; [exact Ep|]. split.
    - destruct Hp as (j & -> & Hj).
      assert (K : exists kd, nth_error shape j = Some kd /\ cut_ok kd v).
      { destruct Hj as [(n & w & Ek & -> & _)|[(Ek & _)|(Ek & q & x & y & -> & _)]]; eexists; (split; [exact Ek|]); cbn; [exists w; reflexivity|exact I|reflexivity]. }
      destruct K as (kd & Ek & Hc). destruct (split_spec shape data j kd v T Hne Ek Hc) as (p1 & E1 & _ & ->). rewrite Ep in E1. injection E1 as ->.
      destruct (split_spec shape (each m data) j kd v (tab_each _ T) (each_ne _ Hne) Ek Hc) as (p2 & -> & _ & ->). f_equal.
      destruct kd; cbn [map fst snd]; rewrite ?filter_each; try reflexivity.
      rewrite map_each, (push_new_each m Hm), map_map. apply map_ext. intros w. cbn [fst snd]. rewrite filter_each. reflexivity.
    - apply Forall_forall. intros p Hp'. split; [|exact (proj1 (Forall_forall _ _) Pne p Hp')]. apply (tab_incl shape data); [|exact T].
      intros x Hx. apply (Permutation_in x O). apply in_concat. exists (snd p). split; [apply in_map, Hp'|exact Hx].
  Qed.
  (** the same tree with all counts multiplied *)
  Fixpoint enlarge (t : tree) : tree := match t with Node lab leaf d c ch => Node lab leaf (times m d) c (map enlarge ch) end.
  Lemma build_each param stump : forall fuel data c t, tabular shape data -> data <> [] -> build entropy mid rarr param stump fuel data c = Ok t ->
    build entropy mid rarr param stump fuel (each m data) c = Ok (enlarge t).
  Proof.
    induction fuel as [|f IH]; intros data c t T Hne E; [discriminate E|]. cbn [build] in E |- *.
    change (fold_left cput (class_labels data) []) with (lc data) in E. change (fold_left cput (class_labels (each m data)) []) with (lc (each m data)).
    rewrite (distinct_each m data Hm). unfold class_labels in *. rewrite lc_each, map_each, (max_each m _ Hm).
    destruct (length (distinct_labels data) =? 1); [injection E as <-; reflexivity|]. destruct (stump && _); [injection E as <-; reflexivity|].
    destruct (search_each param data T Hne) as (d & b & b' & Es & Es' & P & B). rewrite Es in E. rewrite Es'. cbn [bind] in E |- *.
    destruct (search_ok entropy mid shape Hent Hmid rarr param data Hrarr T Hne) as (d1 & b1 & Es1 & _ & Hb). rewrite Es in Es1. injection Es1 as <- <-.
    destruct B as (_ & Ba & Bv). rewrite <- Ba, <- Bv.
    destruct (Z.eqb_spec (b_attr b) (-1)) as [Eb|Eb]; [injection E as <-; reflexivity|]. destruct Hb as [Hb|Hb]; [contradiction|].
    destruct (split_each d (b_attr b) (b_value b) (tab_perm _ _ _ P T)) as (parts & Ep & -> & Fp); [intros ->; apply Hne, Permutation_nil, Permutation_sym, P|exact Hb|].
    rewrite Ep in E. cbn [bind] in E |- *. apply bind_ok in E as (ch & Ech & E). injection E as <-.
    replace (mapM _ (map _ parts)) with (Ok (map enlarge ch)); [reflexivity|]. symmetry. apply mapM_ok. apply mapM_ok in Ech.
    clear Ep. induction Ech as [|p t parts ch Et _ IHc]; [constructor|]. inversion Fp as [|? ? (Tp & Np) Fp']; subst. cbn [map]. constructor; [|exact (IHc Fp')].
    cbn [fst snd]. exact (IH _ _ _ Tp Np Et).
  Qed.
  Lemma enlarge_cond t : t_cond (enlarge t) = t_cond t.
  Proof. destruct t; reflexivity. Qed.
  Lemma enlarge_predict max_item x : isComposite x = false \/ max_item_relative max_item -> forall t, node_predict max_item (enlarge t) x = node_predict max_item t x.
  Proof.
    intros Hx. induction t as [lab leaf d c ch IH] using tree_rect2. cbn [enlarge node_predict]. destruct (isComposite x) eqn:C.
    - destruct Hx as [Hx|Hx]; [discriminate Hx|]. rewrite (Hx m d _ Hm). destruct leaf; [reflexivity|].
      induction IH as [|n ch Hn _ IHc]; [reflexivity|]. cbn [map]. rewrite enlarge_cond. destruct (satisfy (t_cond n) x) as [b|e|u|]; try reflexivity. cbn [bind]. rewrite Hn, IHc. reflexivity.
    - destruct leaf; [reflexivity|]. induction IH as [|n ch Hn _ IHc]; [reflexivity|]. cbn [map]. rewrite enlarge_cond. destruct (satisfy (t_cond n) x) as [b|e|u|]; try reflexivity. cbn [bind]. rewrite Hn, IHc. reflexivity.
  Qed.
  Definition same_shares (p q : smap dbl) : Prop := Forall2 (fun p q => fst p = fst q /\ deq (snd p) (snd q)) p q.
  Lemma ratio_any a b : deq (ddiv (dofnat a) (dofnat b)) (ddiv (dofnat (m * a)) (dofnat (m * b))).
  Proof.
    destruct b as [|b]; [|symmetry; apply qratio; lia]. rewrite Nat.mul_0_r. destruct a as [|a]; [rewrite Nat.mul_0_r; reflexivity|].
    destruct (m * S a) as [|k] eqn:E; [nia|reflexivity].
  Qed.
  Lemma times_probabilities d : same_shares (probabilities d) (probabilities (times m d)).
  Proof.
    unfold same_shares, probabilities. rewrite csum_times. unfold times. rewrite map_map. cbn [fst snd]. generalize (csum d). intros n.
    induction d as [|kv d IH]; cbn [map]; constructor; [|exact IH]. split; [reflexivity|]. cbn [snd]. apply ratio_any.
  Qed.
  Lemma enlarge_probability x : forall t p, node_probability t x = Ok p -> exists p', node_probability (enlarge t) x = Ok p' /\ same_shares p p'.
  Proof.
    induction t as [lab leaf d c ch IH] using tree_rect2. cbn [enlarge node_probability]. intros p E. destruct leaf; [injection E as <-; eexists; split; [reflexivity|apply times_probabilities]|].
    revert E. induction IH as [|n ch Hn _ IHc]; [intros E; injection E as <-; eexists; split; [reflexivity|apply times_probabilities]|]. cbn [map]. rewrite enlarge_cond.
    destruct (satisfy (t_cond n) x) as [b|e|u|]; cbn [bind]; try (intros E; discriminate E). destruct b; [apply Hn|exact IHc].
  Qed.
End Repeat.
Lemma build_more entropy mid rarr param stump : forall f g data c t, f <= g -> build entropy mid rarr param stump f data c = Ok t -> build entropy mid rarr param stump g data c = Ok t.
Proof.
  induction f as [|f IH]; intros g data c t H E; [discriminate E|]. destruct g as [|g]; [lia|]. cbn [build] in E |- *. destruct (_ =? 1); [exact E|]. destruct (_ && _); [exact E|].
  destruct (search entropy mid rarr param data) as [[d b]| | |]; cbn [bind] in E |- *; try discriminate E. destruct (Z.eqb _ _); [exact E|].
  destruct (split d (b_attr b) (b_value b)) as [parts| | |]; cbn [bind] in E |- *; try discriminate E. apply bind_ok in E as (ch & Ech & E).
  replace (mapM (fun p => build entropy mid rarr param stump g (snd p) (fst p)) parts) with (Ok ch); [exact E|]. symmetry. apply mapM_ok. apply mapM_ok in Ech.
  clear -Ech IH H. induction Ech as [|p t parts ch Et _ IHc]; constructor; [|exact IHc]. apply IH; [lia|exact Et].
Qed.
