(** The search for a split finds one with the smallest average entropy. *)
From Coq Require Import String ZArith QArith Bool Lia Sorted Permutation Lqa List.
From Verif Require Import Base Spec BaseLemmas DblLemmas SortLemmas AttrModel InstanceListModel PartitionModel PerformanceModel
  ListSpec ListProofs DataSetProofs PartitionProofs TreeModel TreeSpec TreeProofs TreeGrowProofs TreeBestSpec.
Import ListNotations.
Local Open Scope string_scope.
Local Open Scope list_scope.
Local Open Scope nat_scope.

Lemma crem_spec c k : msorted c -> cpos c -> msorted (crem c k) /\ cpos (crem c k) /\
  forall k', ccount (crem c k) k' = if String.eqb k k' then ccount c k - 1 else ccount c k'.
Proof.
  intros Hs Hp. unfold crem. destruct (mfind k c) as [n|] eqn:E.
  - assert (ccount c k = n) as Hn by (unfold ccount; rewrite E; reflexivity). destruct (Nat.leb_spec n 1).
    + split; [apply merase_sorted, Hs|]. split; [apply merase_cpos, Hp|]. intros k'. rewrite (ccount_merase k k' c Hs).
      destruct (String.eqb k k'); [lia|reflexivity].
    + split; [apply mset_sorted, Hs|]. split; [apply cpos_mset; [lia|exact Hp]|]. intros k'. rewrite ccount_mset.
      destruct (String.eqb k k'); [lia|reflexivity].
  - split; [exact Hs|]. split; [exact Hp|]. intros k'. destruct (String.eqb_spec k k') as [<-|]; [|reflexivity].
    unfold ccount. rewrite E. reflexivity.
Qed.
Lemma crem_cofl c l : crem (cofl (c :: l)) c = cofl l.
Proof.
  destruct (crem_spec (cofl (c :: l)) c (cofl_sorted _) (cofl_cpos _)) as (A & B & C).
  apply counter_ext; [exact A|apply cofl_sorted|exact B|apply cofl_cpos|]. intros k. rewrite C, !ccount_cofl. simpl.
  destruct (String.eqb_spec c k) as [<-|N].
  - destruct (string_dec c c); [lia|congruence].
  - destruct (string_dec c k); [congruence|reflexivity].
Qed.
Lemma cput_cofl l c : cput (cofl l) c = cofl (l ++ [c]).
Proof. unfold cofl. rewrite fold_left_app. reflexivity. Qed.

Lemma filter_perm {A} (f : A -> bool) l l' : Permutation l l' -> Permutation (filter f l) (filter f l').
Proof.
  induction 1; simpl; [constructor| | |etransitivity; eassumption].
  - destruct (f x); [constructor|]; assumption.
  - destruct (f x), (f y); try apply Permutation_refl. apply perm_swap.
Qed.
Lemma filter_none {A} (f : A -> bool) l : (forall x, In x l -> f x = false) -> filter f l = [].
Proof. induction l as [|x l IH]; simpl; intros H; [reflexivity|]. rewrite (H x (or_introl eq_refl)). apply IH. intros; apply H; right; assumption. Qed.
Lemma filter_cut {A} (f : A -> bool) l1 l2 : (forall x, In x l1 -> f x = true) -> (forall x, In x l2 -> f x = false) ->
  filter f (l1 ++ l2) = l1 /\ filter (fun x => negb (f x)) (l1 ++ l2) = l2.
Proof.
  intros H1 H2. rewrite !filter_app. rewrite (filter_all_eq f l1 H1), (filter_none f l2 H2), app_nil_r.
  rewrite (filter_none (fun x => negb (f x)) l1), (filter_all_eq (fun x => negb (f x)) l2); [split; reflexivity| |].
  - intros x Hx. rewrite (H2 x Hx). reflexivity.
  - intros x Hx. rewrite (H1 x Hx). reflexivity.
Qed.

Lemma app_inj_len {A} (a : list A) : forall b c d, length a = length b -> a ++ c = b ++ d -> a = b /\ c = d.
Proof.
  induction a as [|x a IH]; intros [|y b] c d L E; try discriminate L; [split; [reflexivity|exact E]|].
  simpl in E. injection E as -> E. injection L as L. destruct (IH b c d L E) as [-> ->]. split; reflexivity.
Qed.
Lemma nth_firstn_lt {A} n (l : list A) : forall k, k < n -> nth_error (firstn n l) k = nth_error l k.
Proof. revert l. induction n as [|n IH]; intros [|x l] [|k] H; try lia; simpl; try reflexivity. apply IH; lia. Qed.
Lemma distinct_has l x : In x l -> In (label x) (distinct_labels l).
Proof. intros H. rewrite distinct_labels_map. apply push_new_in. right. apply in_map, H. Qed.

Section Best.
  Context (entropy : counter -> dbl) (mid : dbl -> dbl -> dbl) (shape : list kind).
  Hypothesis Hent : entropy_finite entropy.
  Hypothesis Hmid : mid_exact mid.
  Notation imp := (impurity entropy).
  Notation simp := (split_impurity entropy).

  Lemma imp_ok l : entropy (cofl (map label l)) = Fin (imp l).
  Proof. unfold impurity. destruct (Hent (cofl (map label l))) as [q ->]. reflexivity. Qed.
  Lemma imp_perm l l' : Permutation l l' -> imp l = imp l'.
  Proof. intros P. unfold impurity. rewrite (cofl_perm _ _ (Permutation_map label P)). reflexivity. Qed.
  Lemma simp_perm data data' gs gs' : Permutation data data' -> Forall2 (@Permutation instance) gs gs' -> simp data gs = simp data' gs'.
  Proof.
    intros P H. unfold split_impurity. f_equal. rewrite (Permutation_length P).
    induction H as [|g g' gs gs' Hg _ IH]; [reflexivity|]. simpl. rewrite (Permutation_length Hg), (imp_perm _ _ Hg), IH. reflexivity.
  Qed.
  Lemma simp_trivial data f : data <> [] -> (forall x, In x data -> f x = true) \/ (forall x, In x data -> f x = false) ->
    (simp data [filter f data; filter (fun x => negb (f x)) data] == imp data)%Q.
  Proof.
    intros Hne H. assert (0 < length data) as Hn by (destruct data; [contradiction|simpl; lia]). pose proof (qofn_pos _ Hn) as Hz.
    unfold split_impurity. cbn [map qsum fold_right].
    destruct H as [H0|H0].
    - rewrite (filter_all_eq f data H0), (filter_none (fun x => negb (f x)) data) by (intros x Hx; rewrite (H0 x Hx); reflexivity).
      cbn [length]. rewrite qofn_0. field. lra.
    - rewrite (filter_none f data H0), (filter_all_eq (fun x => negb (f x)) data) by (intros x Hx; rewrite (H0 x Hx); reflexivity).
      cbn [length]. rewrite qofn_0. field. lra.
  Qed.

  (** the parts [split] makes *)
  Definition parts (kd : kind) (data : list instance) (j : nat) (v : dbl) : list (list instance) :=
    match kd with
    | KDisc => map (fun w => filter (fun x => String.eqb w (colD (Z.of_nat j) x)) data) (fold_left push_new (map (colD (Z.of_nat j)) data) [])
    | KIdx m => [filter (fun x => (to_int v =? colI (Z.of_nat j) x)%Z) data; filter (fun x => negb (to_int v =? colI (Z.of_nat j) x)%Z) data]
    | KCont => [filter (fun x => dleb (Fin (colC (Z.of_nat j) x)) v) data; filter (fun x => negb (dleb (Fin (colC (Z.of_nat j) x)) v)) data]
    | KBin => []
    end.
  Lemma push_perm vs vs' : Permutation vs vs' -> Permutation (fold_left push_new vs []) (fold_left push_new vs' []).
  Proof.
    intros P. apply NoDup_Permutation; [apply push_new_nodup; constructor|apply push_new_nodup; constructor|].
    intros x. rewrite !push_new_in. split; (intros [[]|H]; right); [exact (Permutation_in x P H)|exact (Permutation_in x (Permutation_sym P) H)].
  Qed.
  Lemma map_simp {A} data (f : A -> list instance) vs vs' : Permutation vs vs' -> (simp data (map f vs) == simp data (map f vs'))%Q.
  Proof. intros P. unfold split_impurity. apply qsum_perm. apply Permutation_map, Permutation_map, P. Qed.
  Lemma parts_perm kd data data' j v : Permutation data data' -> (simp data (parts kd data j v) == simp data' (parts kd data' j v))%Q.
  Proof.
    intros P. destruct kd; cbn [parts].
    - rewrite (map_simp data _ _ _ (push_perm _ _ (Permutation_map (colD (Z.of_nat j)) P))).
      rewrite (simp_perm data data' _ (map (fun w => filter (fun x => String.eqb w (colD (Z.of_nat j) x)) data') (fold_left push_new (map (colD (Z.of_nat j)) data') []))); [reflexivity|exact P|].
      apply Forall2_of_map. intros w _. apply filter_perm, P.
    - rewrite (simp_perm data data' [] []); [reflexivity|exact P|constructor].
    - rewrite (simp_perm data data' _ [filter (fun x => (to_int v =? colI (Z.of_nat j) x)%Z) data'; filter (fun x => negb (to_int v =? colI (Z.of_nat j) x)%Z) data']); [reflexivity|exact P|].
      repeat constructor; apply filter_perm, P.
    - rewrite (simp_perm data data' _ [filter (fun x => dleb (Fin (colC (Z.of_nat j) x)) v) data'; filter (fun x => negb (dleb (Fin (colC (Z.of_nat j) x)) v)) data']); [reflexivity|exact P|].
      repeat constructor; apply filter_perm, P.
  Qed.

  (** what is known about the best split so far: [D] are the average entropies already compared *)
  Definition tracks (cols : list nat) (data : list instance) (D : Q -> Prop) (b : best) : Prop :=
    exists e, b_entropy b = Fin e /\ (e <= imp data)%Q /\ (forall q, D q -> (e <= q)%Q) /\
      ((b_attr b = (-1)%Z /\ (e == imp data)%Q) \/
       exists j kd, b_attr b = Z.of_nat j /\ In j cols /\ nth_error shape j = Some kd /\ cut_ok kd (b_value b) /\ kd <> KBin /\
         (match kd with KIdx m => exists w, w < m /\ b_value b = dofnat w | KCont => exists q, b_value b = Fin q | _ => True end) /\
         (simp data (parts kd data j (b_value b)) == e)%Q /\ (e < imp data)%Q).
  Lemma tracks_weaken cols data (D D' : Q -> Prop) b : (forall q, D' q -> D q \/ (imp data <= q)%Q) -> tracks cols data D b -> tracks cols data D' b.
  Proof.
    intros H (e & A & B & C & F). exists e. repeat split; try assumption. intros q Hq. destruct (H q Hq) as [Hd|Hd]; [exact (C q Hd)|lra].
  Qed.
  Lemma tracks_better cols data D b q j kd v :
    tracks cols data D b -> In j cols -> nth_error shape j = Some kd -> cut_ok kd v -> kd <> KBin ->
    (match kd with KIdx m => exists w, w < m /\ v = dofnat w | KCont => exists q, v = Fin q | _ => True end) ->
    (simp data (parts kd data j v) == q)%Q ->
    tracks cols data (fun r => D r \/ (r == q)%Q) (better b (Fin q) (Z.of_nat j) v).
  Proof.
    intros (e & A & B & C & F) Hj Hk Hv Hb Hv' Hq. unfold better. rewrite A. destruct (dltb (Fin q) (Fin e)) eqn:E.
    - apply dltb_fin in E. exists q. cbn [b_entropy b_attr b_value]. split; [reflexivity|]. split; [lra|]. split.
      + intros r [Hr|Hr]; [specialize (C r Hr); lra|lra].
      + right. exists j, kd. repeat (split; [assumption || reflexivity|]). lra.
    - apply dltb_fin_false in E. exists e. split; [exact A|]. split; [exact B|]. split; [|exact F].
      intros r [Hr|Hr]; [exact (C r Hr)|lra].
  Qed.

  (** * Indexed columns *)
  Definition idx_imp (data : list instance) (k w : nat) : Q :=
    simp data [filter (fun x => (Z.of_nat w =? colI (Z.of_nat k) x)%Z) data; filter (fun x => negb (Z.of_nat w =? colI (Z.of_nat k) x)%Z) data].
  Lemma try_index_tracks cols data0 data k m b v D :
    Permutation data0 data -> tabular shape data -> data <> [] -> In k cols -> nth_error shape k = Some (KIdx m) -> v < m -> tracks cols data0 D b ->
    exists b', try_index entropy data (Z.of_nat k) (cofl (map label data), b) v = Ok (cofl (map label data), b')
      /\ tracks cols data0 (fun r => D r \/ (r == idx_imp data0 k v)%Q) b'.
  Proof.
    intros P0 Ht Hne Hin Hk Hvm Hg. unfold try_index. rewrite (index_dbl _ _ _ _ (Z.of_nat v) Ht Hk). cbn [bind].
    set (f := fun x => (colI (Z.of_nat k) x =? Z.of_nat v)%Z). set (sel := filter f data). set (rest := filter (fun x => negb (f x)) data).
    assert (Hff : forall x, (Z.of_nat v =? colI (Z.of_nat k) x)%Z = f x) by (intros x; apply Z.eqb_sym).
    assert (Hii : (idx_imp data0 k v == simp data [sel; rest])%Q).
    { unfold idx_imp. rewrite (simp_perm data0 data _ [sel; rest]); [reflexivity|exact P0|]. constructor; [|constructor; [|constructor]].
      - unfold sel. rewrite (filter_ext _ f Hff). apply filter_perm, P0.
      - unfold rest. rewrite (filter_ext _ (fun x => negb (f x))) by (intros x; rewrite Hff; reflexivity). apply filter_perm, P0. }
    rewrite csum_cofl, map_length. destruct (Nat.ltb_spec 0 (length sel)) as [Hsel|Hsel].
    2:{ exists b. split; [reflexivity|]. apply (tracks_weaken _ _ D); [|exact Hg]. intros q [Hq|Hq]; [left; exact Hq|right]. rewrite Hq, Hii.
        assert (sel = []) as Es by (destruct sel; [reflexivity|simpl in Hsel; lia]).
        rewrite (imp_perm _ _ P0), <- (simp_trivial data f Hne); [fold sel rest; lra|]. right. intros x Hx.
        destruct (f x) eqn:Ef; [|reflexivity]. assert (In x sel) as Hs by (apply filter_In; split; assumption). rewrite Es in Hs. contradiction. }
    assert (Permutation (map label data) (map label sel ++ map label rest)) as HP.
    { rewrite <- map_app. apply Permutation_map, filter_split. }
    rewrite (csubd_split _ _ _ HP), cadd_cofl, csum_cofl, map_length.
    rewrite (cofl_perm (map label rest ++ map label sel) (map label data)).
    2:{ etransitivity; [apply Permutation_app_comm|apply Permutation_sym, HP]. }
    eexists; split; [reflexivity|]. rewrite !imp_ok, !dofnat_fin. cbn [dmul dadd].
    assert (0 < length data) as Hn by (destruct data; [contradiction|simpl; lia]).
    pose proof (qofn_pos _ Hn) as Hz. rewrite ddiv_fin by lra.
    set (q := ((imp rest * qofn (length rest) + imp sel * qofn (length sel)) / qofn (length data))%Q).
    assert (Hq : (idx_imp data0 k v == q)%Q).
    { rewrite Hii. unfold q, split_impurity. cbn [map qsum fold_right]. field. lra. }
    apply (tracks_weaken _ _ (fun r => D r \/ (r == q)%Q)). { intros r [Hr|Hr]; left; [left; exact Hr|right; rewrite Hr; exact Hq]. }
    apply (tracks_better _ _ _ _ _ _ (KIdx m)); try assumption; [exists v; reflexivity|discriminate|exists v; split; [exact Hvm|reflexivity]|].
    rewrite <- Hq. cbn [parts]. rewrite <- dofnat_fin, to_int_nat. reflexivity.
  Qed.
  Lemma try_index_fold_tracks cols data0 data k m :
    Permutation data0 data -> tabular shape data -> data <> [] -> In k cols -> nth_error shape k = Some (KIdx m) ->
    forall vs b D, (forall v, In v vs -> v < m) -> tracks cols data0 D b ->
    exists b', foldM (try_index entropy data (Z.of_nat k)) vs (cofl (map label data), b) = Ok (cofl (map label data), b')
      /\ tracks cols data0 (fun r => D r \/ exists v, In v vs /\ (r == idx_imp data0 k v)%Q) b'.
  Proof.
    intros P0 Ht Hne Hin Hk. induction vs as [|v vs IH]; intros b D Hvs Hg.
    - exists b. split; [reflexivity|]. apply (tracks_weaken _ _ D); [|exact Hg]. intros q [Hq|(w & [] & _)]. left; exact Hq.
    - destruct (try_index_tracks cols data0 data k m b v D P0 Ht Hne Hin Hk (Hvs v (or_introl eq_refl)) Hg) as (b1 & E & G1).
      cbn [foldM]. rewrite E. cbn [bind]. destruct (IH b1 _ (fun w Hw => Hvs w (or_intror Hw)) G1) as (b2 & E2 & G2). exists b2. split; [exact E2|].
      refine (tracks_weaken _ _ _ _ _ _ G2). intros q [Hq|(w & [->|Hw] & Hq)]; left; [left; left; exact Hq|left; right; exact Hq|right; exists w; split; assumption].
  Qed.

  (** * Discrete columns *)
  Lemma acd_exact k l : text_column k l (map (colD k) l) -> (forall x, In x l -> disc_at k x = Ok (colD k x)) ->
    attr_class_distribution k l = Ok (map (fun w => cofl (map label (filter (fun x => String.eqb w (colD k x)) l))) (fold_left push_new (map (colD k) l) [])).
  Proof.
    intros Hc Hd. unfold attr_class_distribution. rewrite (value_list_ok k l _ Hc). cbn [bind].
    set (vs := fold_left push_new (map (colD k) l) []).
    assert (Hnd : NoDup vs) by (apply push_new_nodup; constructor).
    assert (Hvs : forall x, In x l -> In (colD k x) vs) by (intros x Hx; apply push_new_in; right; apply in_map, Hx).
    assert (G : forall todo done, done ++ todo = l ->
      foldM (fun ds x => do v <- disc_at k x; do c <- idxn ds (find_pos v vs); Ok (upd ds (find_pos v vs) (cput c (label x)))) todo
        (map (fun w => cofl (map label (filter (fun x => String.eqb w (colD k x)) done))) vs)
      = Ok (map (fun w => cofl (map label (filter (fun x => String.eqb w (colD k x)) l))) vs)).
    { induction todo as [|x todo IH]; intros done E.
      - rewrite app_nil_r in E. rewrite E. reflexivity.
      - assert (Hx : In x l) by (rewrite <- E; apply in_or_app; right; left; reflexivity).
        cbn [foldM]. rewrite (Hd x Hx). cbn [bind]. unfold idxn. set (j := find_pos (colD k x) vs).
        assert (Hj : nth_error vs j = Some (colD k x)) by (apply find_pos_nth, Hvs, Hx).
        rewrite (map_nth_error _ _ _ Hj). cbn [bind].
        rewrite <- (IH (done ++ [x])) by (rewrite <- app_assoc; exact E). f_equal.
        apply list_ext. intros i. rewrite nth_error_map. destruct (Nat.eq_dec j i) as [<-|N].
        + rewrite Hj. cbn [option_map]. rewrite nth_upd_same by (rewrite map_length; apply nth_error_Some; congruence).
          f_equal. rewrite cput_cofl, filter_app. cbn [filter]. rewrite String.eqb_refl, map_app. reflexivity.
        + rewrite (nth_upd_other _ _ _ _ N), nth_error_map. destruct (nth_error vs i) as [w|] eqn:Ew; [|reflexivity]. cbn [option_map].
          f_equal. rewrite filter_app. cbn [filter]. destruct (String.eqb_spec w (colD k x)) as [->|_].
          * exfalso. apply N. unfold j. apply find_pos_unique; assumption.
          * rewrite app_nil_r. reflexivity. }
    rewrite <- (G l [] eq_refl). f_equal. cbn [filter map]. change (cofl []) with (@nil (string * nat)).
    clear. induction vs as [|v vs IH]; [reflexivity|]. simpl. rewrite IH. reflexivity.
  Qed.
  Lemma disc_entropy_value data k : tabular shape data -> data <> [] -> nth_error shape k = Some KDisc ->
    exists q, disc_entropy entropy data (Z.of_nat k) = Ok (Fin q) /\ (simp data (parts KDisc data k d0) == q)%Q.
  Proof.
    intros Ht Hne Hk. pose proof (tab_text _ _ _ Ht Hk) as Hc. unfold disc_entropy. rewrite acd_exact; [|exact Hc|].
    2:{ intros x Hx. apply disc_at_ok. eexists; split; [apply (typed_disc shape); [exact (proj1 (Forall_forall _ _) Ht x Hx)|exact Hk]|left; reflexivity]. }
    cbn [bind parts]. unfold split_impurity. set (vs := fold_left push_new _ []).
    assert (0 < length data) as Hn by (destruct data; [contradiction|simpl; lia]). pose proof (qofn_pos _ Hn) as Hz.
    assert (G : forall ws s, exists q, fold_left (fun s d => dadd s (dmul (share (length data) d) (entropy d)))
       (map (fun w => cofl (map label (filter (fun x => String.eqb w (colD (Z.of_nat k) x)) data))) ws) (Fin s) = Fin q /\
       (s + qsum (map (fun g => qofn (length g) / qofn (length data) * imp g) (map (fun w => filter (fun x => String.eqb w (colD (Z.of_nat k) x)) data) ws)) == q)%Q).
    { induction ws as [|w ws IH]; intros s.
      - exists s. split; [reflexivity|]. simpl. lra.
      - cbn [map fold_left]. unfold share at 2. rewrite csum_cofl, map_length, !dofnat_fin, ddiv_fin, imp_ok by lra. cbn [dmul dadd].
        edestruct IH as (q & Eq & Hq). exists q. split; [exact Eq|]. rewrite <- Hq. cbn [qsum fold_right]. fold (qsum (map (fun g : list instance => qofn (length g) / qofn (length data) * imp g) (map (fun w0 : string => filter (fun x : instance => String.eqb w0 (colD (Z.of_nat k) x)) data) ws)))%Q.
        unfold qofn. lra. }
    destruct (G vs 0%Q) as (q & Eq & Hq). exists q. split; [f_equal; exact Eq|]. rewrite <- Hq. lra.
  Qed.

  (** * Continuous columns *)
  Definition cut_imp (data d1 d2 : list instance) : Q := simp data [d1; d2].
  Definition sorted_by (k : nat) (l : list instance) : Prop := StronglySorted (fun x y => (colC (Z.of_nat k) x <= colC (Z.of_nat k) y)%Q) l.
  Lemma sorted_app k l1 l2 : sorted_by k (l1 ++ l2) -> forall x y, In x l1 -> In y l2 -> (colC (Z.of_nat k) x <= colC (Z.of_nat k) y)%Q.
  Proof.
    induction l1 as [|a l1 IH]; intros H x y Hx Hy; [contradiction|]. inversion H as [|? ? Hs Hf]; subst. destruct Hx as [->|Hx].
    - apply (proj1 (Forall_forall _ _) Hf). apply in_or_app; right; exact Hy.
    - apply IH; assumption.
  Qed.
  Lemma scan_tracks cols data0 all k : Permutation data0 all -> tabular shape all -> sorted_by k all -> In k cols -> nth_error shape k = Some KCont ->
    forall todo done s D, done ++ todo = all -> s_left s = cofl (map label todo) -> s_right s = cofl (map label done) ->
    (done = [] /\ s_prev s = None \/ exists x d, done = d ++ [x] /\ exists p, s_prev s = Some (Fin p) /\ (p == colC (Z.of_nat k) x)%Q) ->
    tracks cols data0 (fun r => D r \/ exists d1 x d2, d1 ++ x :: d2 = all /\ length d1 < length done /\ d1 <> [] /\
        (forall y, In y d1 -> (colC (Z.of_nat k) y < colC (Z.of_nat k) x)%Q) /\ (r == cut_imp all d1 (x :: d2))%Q) (s_best s) ->
    exists s', foldM (try_cut entropy mid (length all) (Z.of_nat k)) todo s = Ok s' /\
      tracks cols data0 (fun r => D r \/ exists d1 x d2, d1 ++ x :: d2 = all /\ d1 <> [] /\
        (forall y, In y d1 -> (colC (Z.of_nat k) y < colC (Z.of_nat k) x)%Q) /\ (r == cut_imp all d1 (x :: d2))%Q) (s_best s').
  Proof.
    intros P0 Ht Hs Hin Hk. induction todo as [|x todo IH]; intros done s D E HL HR Hp Hg.
    - exists s. split; [reflexivity|]. refine (tracks_weaken _ _ _ _ _ _ Hg). rewrite app_nil_r in E. subst done.
      intros q [Hq|(d1 & x & d2 & Ed & Hr)]; left; [left; exact Hq|right]. exists d1, x, d2. split; [exact Ed|].
      split; [rewrite <- Ed, app_length; simpl; lia|exact Hr].
    - assert (Hx : In x all) by (rewrite <- E; apply in_or_app; right; left; reflexivity).
      pose proof (typed_cont _ x k (proj1 (Forall_forall _ _) Ht x Hx) Hk) as Hfx.
      cbn [foldM]. unfold try_cut at 1. rewrite (proj2 (cont_at_ok _ _ _) Hfx). cbn [bind].
      assert (Hlen : 0 < length all) by (destruct all; [contradiction|simpl; lia]). pose proof (qofn_pos _ Hlen) as Hz.
      assert (E' : (done ++ [x]) ++ todo = all) by (rewrite <- app_assoc; exact E).
      assert (HL' : crem (s_left s) (label x) = cofl (map label todo)) by (rewrite HL; apply (crem_cofl (label x))).
      assert (HR' : cput (s_right s) (label x) = cofl (map label (done ++ [x]))) by (rewrite HR, cput_cofl, map_app; reflexivity).
      (* what is newly covered at this step: the split done | x :: todo *)
      assert (Hstep : forall b, tracks cols data0 (fun r => (D r \/ exists d1 x0 d2, d1 ++ x0 :: d2 = all /\ length d1 < length done /\ d1 <> [] /\
        (forall y, In y d1 -> (colC (Z.of_nat k) y < colC (Z.of_nat k) x0)%Q) /\ (r == cut_imp all d1 (x0 :: d2))%Q) \/
          (done <> [] /\ (forall y, In y done -> (colC (Z.of_nat k) y < colC (Z.of_nat k) x)%Q) /\ (r == cut_imp all done (x :: todo))%Q)) b ->
        tracks cols data0 (fun r => D r \/ exists d1 x0 d2, d1 ++ x0 :: d2 = all /\ length d1 < length (done ++ [x]) /\ d1 <> [] /\
        (forall y, In y d1 -> (colC (Z.of_nat k) y < colC (Z.of_nat k) x0)%Q) /\ (r == cut_imp all d1 (x0 :: d2))%Q) b).
      { intros b. apply tracks_weaken. intros q [Hq|(d1 & x0 & d2 & Ed & Hlt & Hn & Hlow & Hq)]; left; [left; left; exact Hq|].
        rewrite app_length in Hlt. simpl in Hlt. destruct (Nat.eq_dec (length d1) (length done)) as [El|El].
        - right. assert (d1 = done /\ x0 :: d2 = x :: todo) as [-> Et].
          { apply app_inj_len; [exact El|]. rewrite Ed, E. reflexivity. }
          injection Et as -> ->. split; [exact Hn|]. split; [exact Hlow|exact Hq].
        - left; right. exists d1, x0, d2. split; [exact Ed|]. split; [lia|]. split; [exact Hn|]. split; [exact Hlow|exact Hq]. }
      destruct Hp as [(-> & Hp)|(z & d & -> & p & Hp & Hpz)]; rewrite Hp; cbn [bind].
      + apply (IH ([] ++ [x]) _ D E'); cbn [s_left s_right s_prev s_best]; [exact HL'|exact HR'| |].
        * right. exists x, []. split; [reflexivity|]. eexists; split; [reflexivity|reflexivity].
        * apply Hstep. refine (tracks_weaken _ _ _ _ _ _ Hg). intros q [Hq|(Hne & _)]; [left; exact Hq|contradiction].
      + assert (Hzx : (colC (Z.of_nat k) z <= colC (Z.of_nat k) x)%Q).
        { apply (sorted_app k (d ++ [z]) (x :: todo)); [rewrite E; exact Hs|apply in_or_app; right; left; reflexivity|left; reflexivity]. }
        destruct (negb (deqb (Fin (colC (Z.of_nat k) x)) (Fin p))) eqn:Ed; cbn [bind].
        * assert (Hlt : (colC (Z.of_nat k) z < colC (Z.of_nat k) x)%Q).
          { destruct (Qlt_le_dec (colC (Z.of_nat k) z) (colC (Z.of_nat k) x)) as [|Hle]; [assumption|]. exfalso.
            apply negb_true_iff in Ed. unfold deqb in Ed. rewrite (proj2 (dleb_fin _ p)), (proj2 (dleb_fin p _)) in Ed by lra. discriminate Ed. }
          apply (IH _ _ D E'); cbn [s_left s_right s_prev s_best]; [exact HL'|exact HR'| |].
          { right. exists x, (d ++ [z]). split; [reflexivity|]. eexists; split; [reflexivity|reflexivity]. }
          apply Hstep. rewrite HL, HR. unfold share. rewrite !csum_cofl, !map_length, !dofnat_fin, !ddiv_fin by lra.
          change (label x :: map label todo) with (map label (x :: todo)). rewrite !imp_ok. cbn [dmul dadd].
          set (q := (qofn (length (x :: todo)) / qofn (length all) * imp (x :: todo) + qofn (length (d ++ [z])) / qofn (length all) * imp (d ++ [z]))%Q).
          assert (Hq : (cut_imp all (d ++ [z]) (x :: todo) == q)%Q) by (unfold cut_imp, split_impurity, q; cbn [map qsum fold_right]; lra).
          apply (tracks_weaken _ _ (fun r => (D r \/ exists d1 x0 d2, d1 ++ x0 :: d2 = all /\ length d1 < length (d ++ [z]) /\ d1 <> [] /\
            (forall y, In y d1 -> (colC (Z.of_nat k) y < colC (Z.of_nat k) x0)%Q) /\ (r == cut_imp all d1 (x0 :: d2))%Q) \/ (r == q)%Q)).
          { intros r [Hr|(_ & _ & Hr)]; left; [left; exact Hr|right; rewrite Hr; exact Hq]. }
          pose proof (Hmid p (colC (Z.of_nat k) x)) as Hm. destruct (mid (Fin p) (Fin (colC (Z.of_nat k) x))) as [t| | |] eqn:Em; try contradiction. cbn [deq] in Hm.
          assert (Ht2 : (t * 2 == p + colC (Z.of_nat k) x)%Q) by (rewrite Hm; field).
          apply (tracks_better _ _ _ _ _ _ KCont); try assumption; [reflexivity|discriminate|exists t; reflexivity|].
          rewrite (parts_perm KCont _ _ _ _ P0), <- Hq. cbn [parts]. unfold cut_imp.
          destruct (filter_cut (fun x0 => dleb (Fin (colC (Z.of_nat k) x0)) (Fin t)) (d ++ [z]) (x :: todo)) as [F1 F2].
          { intros y Hy. apply dleb_fin. assert (colC (Z.of_nat k) y <= colC (Z.of_nat k) z)%Q; [|lra].
            apply in_app_or in Hy. destruct Hy as [Hy|[->|[]]]; [|lra].
            apply (sorted_app k d ([z] ++ x :: todo)); [|exact Hy|left; reflexivity]. rewrite app_assoc, E. exact Hs. }
          { intros y Hy. apply dleb_fin_false. assert (colC (Z.of_nat k) x <= colC (Z.of_nat k) y)%Q; [|lra].
            destruct Hy as [->|Hy]; [lra|]. apply (sorted_app k ((d ++ [z]) ++ [x]) todo); [rewrite E'; exact Hs|apply in_or_app; right; left; reflexivity|exact Hy]. }
          rewrite E in F1, F2. rewrite F1, F2. reflexivity.
        * assert (Heq : (colC (Z.of_nat k) x == p)%Q).
          { apply negb_false_iff in Ed. unfold deqb in Ed. apply andb_true_iff in Ed. destruct Ed as [E1 E2]. apply dleb_fin in E1. apply dleb_fin in E2. lra. }
          apply (IH _ _ D E'); cbn [s_left s_right s_prev s_best]; [exact HL'|exact HR'| |].
          { right. exists x, (d ++ [z]). split; [reflexivity|]. exists p. split; [reflexivity|]. symmetry; exact Heq. }
          apply Hstep. refine (tracks_weaken _ _ _ _ _ _ Hg). intros q [Hq|(_ & Hall & _)]; [left; exact Hq|]. exfalso.
          specialize (Hall z ltac:(apply in_or_app; right; left; reflexivity)). lra.
  Qed.
  Lemma sorted_cut k t l : sorted_by k l -> exists d1 d2, l = d1 ++ d2 /\ (forall x, In x d1 -> (colC (Z.of_nat k) x <= t)%Q) /\ (forall x, In x d2 -> (t < colC (Z.of_nat k) x)%Q).
  Proof.
    induction 1 as [|x l Hs IH Hf]; [exists [], []; repeat split; contradiction|].
    destruct (Qlt_le_dec t (colC (Z.of_nat k) x)) as [H|H].
    - exists [], (x :: l). split; [reflexivity|]. split; [contradiction|]. intros y [->|Hy]; [exact H|].
      pose proof (proj1 (Forall_forall _ _) Hf y Hy). cbv beta in *. lra.
    - destruct IH as (d1 & d2 & -> & H1 & H2). exists (x :: d1), d2. split; [reflexivity|]. split; [|exact H2].
      intros y [->|Hy]; [exact H|exact (H1 y Hy)].
  Qed.
  Definition cont_imp (data : list instance) (k : nat) (t : Q) : Q := simp data (parts KCont data k (Fin t)).

  (** * One attribute, then all *)
  Definition seen (data : list instance) (k : nat) (r : Q) : Prop :=
    match nth_error shape k with
    | Some (KIdx m) => exists v, v < m /\ (r == idx_imp data k v)%Q
    | Some KDisc => (r == simp data (parts KDisc data k d0))%Q
    | Some KCont => exists t, (r == cont_imp data k t)%Q
    | _ => False
    end.
  Lemma try_attr_tracks cols data0 data k b D : Permutation data0 data -> tabular shape data0 -> data0 <> [] -> In k cols -> k < length shape ->
    tracks cols data0 D b ->
    exists data' b', try_attr entropy mid (data, cofl (map label data0), b) (Z.of_nat k) = Ok (data', cofl (map label data0), b')
      /\ Permutation data0 data' /\ tracks cols data0 (fun r => D r \/ seen data0 k r) b'.
  Proof.
    intros HP Ht Hne Hin Hk Hg. pose proof (tab_perm _ _ _ HP Ht) as Ht'.
    assert (data <> []) as Hne'. { intros ->. apply Hne, Permutation_nil, Permutation_sym, HP. }
    assert (cofl (map label data) = cofl (map label data0)) as Hcd.
    { apply cofl_perm, Permutation_map, Permutation_sym, HP. }
    destruct (nth_error shape k) as [kd|] eqn:Ek; [|apply nth_error_None in Ek; lia].
    destruct data as [|x0 data1]; [contradiction|]. set (data := x0 :: data1) in *.
    unfold try_attr. unfold data at 1. cbn [atn nth_error bind].
    destruct (typed_at _ x0 _ _ (proj1 (Forall_forall _ _) Ht' x0 (or_introl eq_refl)) Ek) as (a & _ & Ha & Hga & _).
    rewrite Hga. cbn [bind]. destruct kd as [| |m|]; simpl in Ha.
    - destruct Ha as [v ->]. cbn [isDiscreteIndexed isDiscrete].
      destruct (disc_entropy_value data k Ht' Hne' Ek) as (q & -> & Hq). cbn [bind].
      eexists _, _. split; [reflexivity|]. split; [exact HP|].
      assert (Hq0 : (simp data0 (parts KDisc data0 k d0) == q)%Q) by (rewrite (parts_perm KDisc _ _ _ _ HP); exact Hq).
      apply (tracks_weaken _ _ (fun r => D r \/ (r == q)%Q)).
      { unfold seen. rewrite Ek. intros r [Hr|Hr]; left; [left; exact Hr|right; rewrite Hr; exact Hq0]. }
      apply (tracks_better _ _ _ _ _ _ KDisc); try assumption; [exact I|discriminate|exact I].
    - destruct Ha as [v ->]. cbn. eexists _, _. split; [reflexivity|]. split; [exact HP|].
      refine (tracks_weaken _ _ _ _ _ _ Hg). unfold seen. rewrite Ek. intros r [Hr|[]]. left; exact Hr.
    - destruct Ha as (v & i & ->). cbn [isDiscreteIndexed idx_max bind].
      destruct (try_index_fold_tracks cols data0 data k m HP Ht' Hne' Hin Ek (seq 0 m) b D) as (b' & E & G); [intros w Hw; apply in_seq in Hw; lia|exact Hg|].
      rewrite <- Hcd, E. cbn [bind fst snd]. eexists _, _. split; [reflexivity|]. split; [exact HP|].
      refine (tracks_weaken _ _ _ _ _ _ G). unfold seen. rewrite Ek. intros r [Hr|(w & Hw & Hr)]; left; [left; exact Hr|right].
      exists w. split; [apply in_seq; lia|exact Hr].
    - destruct Ha as (v & ->). cbn [isDiscreteIndexed isDiscrete isContinuous].
      destruct (sort_by_spec (Z.of_nat k) data _ (tab_num _ _ _ Ht' Ek)) as (l' & vs' & Es & Ps & Hnum & Hsrt & _).
      { apply Forall_forall. intros d Hd. apply in_map_iff in Hd. destruct Hd as (x & <- & _). reflexivity. }
      rewrite Es. cbn [bind].
      assert (Permutation data0 l') as HP' by (etransitivity; [exact HP|exact Ps]).
      pose proof (tab_perm _ _ _ Ps Ht') as Htl.
      assert (Hsl : sorted_by k l').
      { assert (vs' = map (fun x => Fin (colC (Z.of_nat k) x)) l') as ->.
        { pose proof (tab_num _ _ _ Htl Ek) as Hn2. clear - Hnum Hn2. revert Hn2. induction Hnum as [|x v l vs Hv _ IH]; intros H; [reflexivity|].
          inversion H; subst. cbn [map]. f_equal; [|apply IH; assumption]. pose proof (feature_fun _ _ _ _ Hv H3) as E. injection E as E. exact E. }
        clear - Hsrt. unfold sorted_by. induction l' as [|x l IH]; [constructor|]. cbn [map] in Hsrt. inversion Hsrt as [|? ? Hs Hf]; subst.
        constructor; [apply IH, Hs|]. apply Forall_forall. intros y Hy. apply (proj1 (Forall_map _ _ _)) in Hf.
        pose proof (proj1 (Forall_forall _ _) Hf y Hy) as H. apply dltb_fin_false in H. exact H. }
      destruct (scan_tracks cols data0 l' k HP' Htl Hsl Hin Ek l' [] (mkScan None (class_distribution l') [] b) D eq_refl) as (s & E & G).
      { cbn [s_left]. apply class_distribution_cofl. }
      { reflexivity. }
      { left; split; reflexivity. }
      { cbn [s_best]. refine (tracks_weaken _ _ _ _ _ _ Hg). intros r [Hr|(d1 & x & d2 & _ & Hl & _)]; [left; exact Hr|simpl in Hl; lia]. }
      rewrite E. cbn [bind]. eexists _, _. split; [reflexivity|]. split; [exact HP'|].
      refine (tracks_weaken _ _ _ _ _ _ G). unfold seen. rewrite Ek. intros r [Hr|(t & Hr)]; [left; left; exact Hr|].
      unfold cont_imp in Hr. rewrite (parts_perm KCont _ _ _ _ HP') in Hr. cbn [parts] in Hr.
      assert (l' <> []) as Hnl. { intros ->. apply Hne, Permutation_nil, Permutation_sym, HP'. }
      destruct (sorted_cut k t l' Hsl) as (d1 & d2 & El & H1 & H2).
      assert (B1 : forall x, In x d1 -> dleb (Fin (colC (Z.of_nat k) x)) (Fin t) = true) by (intros x Hx; apply dleb_fin, H1, Hx).
      assert (B2 : forall x, In x d2 -> dleb (Fin (colC (Z.of_nat k) x)) (Fin t) = false) by (intros x Hx; apply dleb_fin_false, H2, Hx).
      destruct d1 as [|y d1].
      { right. rewrite Hr, (simp_trivial l' _ Hnl), (imp_perm _ _ HP'); [lra|]. right. rewrite El. exact B2. }
      destruct d2 as [|x d2].
      { right. rewrite Hr, (simp_trivial l' _ Hnl), (imp_perm _ _ HP'); [lra|]. left. rewrite El, app_nil_r. exact B1. }
      left; right. exists (y :: d1), x, d2. split; [symmetry; exact El|]. split; [discriminate|]. split.
      + intros z Hz. pose proof (H1 z Hz). pose proof (H2 x (or_introl eq_refl)). lra.
      + rewrite Hr. unfold cut_imp. destruct (filter_cut (fun x0 => dleb (Fin (colC (Z.of_nat k) x0)) (Fin t)) (y :: d1) (x :: d2) B1 B2) as [F1 F2].
        rewrite <- El in F1, F2. rewrite F1, F2. reflexivity.
  Qed.
  Lemma try_attr_fold_tracks cols data0 : tabular shape data0 -> data0 <> [] -> forall ks data b D,
    incl ks cols -> (forall k, In k ks -> k < length shape) -> Permutation data0 data -> tracks cols data0 D b ->
    exists data' b', foldM (try_attr entropy mid) (map Z.of_nat ks) (data, cofl (map label data0), b) = Ok (data', cofl (map label data0), b')
      /\ Permutation data0 data' /\ tracks cols data0 (fun r => D r \/ exists k, In k ks /\ seen data0 k r) b'.
  Proof.
    intros Ht Hne. induction ks as [|k ks IH]; intros data b D Hi Hks HP Hg.
    - exists data, b. split; [reflexivity|]. split; [exact HP|]. refine (tracks_weaken _ _ _ _ _ _ Hg). intros r [Hr|(k & [] & _)]. left; exact Hr.
    - destruct (try_attr_tracks cols data0 data k b D HP Ht Hne (Hi k (or_introl eq_refl)) (Hks k (or_introl eq_refl)) Hg) as (d1 & b1 & E & P1 & G1).
      cbn [map foldM]. rewrite E. cbn [bind].
      destruct (IH d1 b1 _ (fun j Hj => Hi j (or_intror Hj)) (fun j Hj => Hks j (or_intror Hj)) P1 G1) as (d2 & b2 & E2 & P2 & G2).
      exists d2, b2. split; [exact E2|]. split; [exact P2|]. refine (tracks_weaken _ _ _ _ _ _ G2).
      intros r [Hr|(j & [->|Hj] & Hr)]; left; [left; left; exact Hr|left; right; exact Hr|right; exists j; split; assumption].
  Qed.

  Lemma attr_order_exact rarr param x0 : rarr_perm rarr -> typed shape x0 ->
    exists ks, attr_order rarr param x0 = Ok (map Z.of_nat ks) /\ (forall k, In k ks -> k < length shape) /\
      forall k, In k ks <-> looked_at rarr param (length shape) k.
  Proof.
    intros Hr Hx. unfold attr_order, attr_count, looked_at. rewrite <- (Forall2_len _ _ _ Hx). set (n := length shape).
    assert (exists ks, Ok (map Z.of_nat (seq 0 n)) = Ok (map Z.of_nat ks) /\ (forall k, In k ks -> k < n) /\ forall k, In k ks <-> k < n) as Hall.
    { exists (seq 0 n). split; [reflexivity|]. split; intros k; rewrite in_seq; lia. }
    destruct param as [[size seed]|]; [|exact Hall]. destruct (Nat.ltb_spec size n) as [Hs|Hs]; [|exact Hall].
    exists (firstn size (rarr n seed)).
    assert (length (rarr n seed) = n) as Hl by (rewrite (Permutation_length (Hr n seed)), seq_length; reflexivity).
    split; [|split; [|reflexivity]].
    - assert (firstn size (rarr n seed) = map (fun j => nth j (rarr n seed) 0) (seq 0 size)) as ->.
      { apply list_ext. intros i. rewrite nth_error_map. destruct (Nat.lt_ge_cases i size) as [Hi|Hi].
        - assert (nth_error (seq 0 size) i = Some i) as ->.
          { rewrite (nth_error_nth' _ 0) by (rewrite seq_length; lia). rewrite seq_nth by lia. reflexivity. }
          cbn [option_map]. rewrite nth_firstn_lt by exact Hi. apply nth_error_nth'. lia.
        - rewrite (proj2 (nth_error_None (firstn size (rarr n seed)) i)) by (rewrite firstn_length; lia).
          rewrite (proj2 (nth_error_None (seq 0 size) i)) by (rewrite seq_length; lia). reflexivity. }
      rewrite map_map. apply mapM_total. intros j Hj. apply in_seq in Hj.
      rewrite (proj2 (atn_ok _ _ _) (nth_error_nth' (rarr n seed) 0 (n := j) ltac:(lia))). reflexivity.
    - intros k Hk. assert (In k (rarr n seed)) as Hin.
      { rewrite <- (firstn_skipn size (rarr n seed)). apply in_or_app. left; exact Hk. }
      apply (Permutation_in _ (Hr n seed)) in Hin. apply in_seq in Hin. lia.
  Qed.
  (** the result of the search *)
  Lemma search_best rarr param data data' b : rarr_perm rarr -> tabular shape data -> data <> [] ->
    search entropy mid rarr param data = Ok (data', b) ->
    exists cols, (forall k, In k cols <-> looked_at rarr param (length shape) k) /\ (forall k, In k cols -> k < length shape) /\
      tracks cols data (fun r => exists k, In k cols /\ seen data k r) b.
  Proof.
    intros Hr Ht Hne. unfold search. destruct data as [|x0 data1] eqn:Ed; [contradiction|]. rewrite <- Ed in *.
    assert (atn data 0 = Ok x0) as -> by (rewrite Ed; reflexivity). cbn [bind].
    destruct (attr_order_exact rarr param x0 Hr) as (ks & -> & Hks & Hla).
    { apply (proj1 (Forall_forall _ _) Ht). rewrite Ed; left; reflexivity. }
    cbn [bind]. rewrite class_distribution_cofl.
    destruct (try_attr_fold_tracks ks data Ht ltac:(rewrite Ed; discriminate) ks data (mkBest (entropy (cofl (map label data))) (-1) d0) (fun _ => False) (incl_refl _) Hks (Permutation_refl _))
      as (d' & b' & E & P & G).
    { rewrite imp_ok. exists (imp data). cbn. split; [reflexivity|]. split; [lra|]. split; [contradiction|]. left. split; [reflexivity|lra]. }
    intros H. apply bind_ok in H. destruct H as (st & Hst & H). assert (Ok st = Ok (d', cofl (map label data), b')) as Est by (rewrite <- Hst; exact E).
    injection Est as ->. injection H as <- <-. exists ks. split; [exact Hla|]. split; [exact Hks|].
    refine (tracks_weaken _ _ _ _ _ _ G). intros r Hr0. left; right; exact Hr0.
  Qed.

  (** * Candidates *)
  Lemma has_index_col k m w x : typed shape x -> nth_error shape k = Some (KIdx m) -> has_index k w x = (Z.of_nat w =? colI (Z.of_nat k) x)%Z.
  Proof.
    intros Hx Hk. destruct (typed_idx _ x k m Hx Hk) as [s [_ Hf]]. rewrite Nat2Z.id in Hf. unfold has_index. rewrite Hf. apply Z.eqb_sym.
  Qed.
  Lemma has_text_col k v x : typed shape x -> nth_error shape k = Some KDisc -> has_text k v x = String.eqb v (colD (Z.of_nat k) x).
  Proof.
    intros Hx Hk. destruct (typed_disc _ x k Hx Hk) as [_ Hf]. rewrite Nat2Z.id in Hf. unfold has_text. rewrite Hf. apply String.eqb_sym.
  Qed.
  Lemma at_most_col k t x : typed shape x -> nth_error shape k = Some KCont -> at_most k t x = dleb (Fin (colC (Z.of_nat k) x)) (Fin t).
  Proof.
    intros Hx Hk. destruct (typed_cont _ x k Hx Hk) as [_ Hf]. rewrite Nat2Z.id in Hf. unfold at_most. rewrite Hf. 
    destruct (Qle_bool (colC (Z.of_nat k) x) t) eqn:E.
    - symmetry. apply dleb_fin, Qle_bool_iff, E.
    - symmetry. apply dleb_fin_false. apply Qnot_le_lt. intros H. apply Qle_bool_iff in H. congruence.
  Qed.
  Lemma filter_ext_in2 {A} (f g : A -> bool) l : (forall x, In x l -> f x = g x) -> filter f l = filter g l /\ filter (fun x => negb (f x)) l = filter (fun x => negb (g x)) l.
  Proof. intros H. split; apply filter_ext_in; intros x Hx; rewrite (H x Hx); reflexivity. Qed.
  Lemma candidate_seen allowed data k gs : tabular shape data -> candidate shape allowed data k gs -> allowed k /\ seen data k (simp data gs).
  Proof.
    intros Ht H. pose proof (proj1 (Forall_forall _ _) Ht) as HT. unfold seen. destruct H as [k m w Ha Hk Hw|k vs Ha Hk Hnd Hvs|k t Ha Hk]; (split; [exact Ha|]); rewrite Hk.
    - exists w. split; [exact Hw|]. unfold idx_imp.
      destruct (filter_ext_in2 (has_index k w) (fun x => (Z.of_nat w =? colI (Z.of_nat k) x)%Z) data) as [-> ->]; [intros x Hx; apply (has_index_col k m w x (HT x Hx) Hk)|reflexivity].
    - cbn [parts]. set (ws := fold_left push_new _ []).
      assert (P : Permutation vs ws).
      { apply NoDup_Permutation; [exact Hnd|apply push_new_nodup; constructor|]. intros v. rewrite Hvs. unfold ws. rewrite push_new_in. split.
        - intros (x & Hx & Hv). right. rewrite (has_text_col k v x (HT x Hx) Hk) in Hv. apply String.eqb_eq in Hv. subst v. apply in_map, Hx.
        - intros [[]|Hin]. apply in_map_iff in Hin. destruct Hin as (x & <- & Hx). exists x. split; [exact Hx|].
          rewrite (has_text_col k _ x (HT x Hx) Hk). apply String.eqb_refl. }
      rewrite (map_simp data _ _ _ P). assert (map (fun v => filter (has_text k v) data) ws = map (fun w => filter (fun x => String.eqb w (colD (Z.of_nat k) x)) data) ws) as ->.
      { apply map_ext. intros v. apply filter_ext_in. intros x Hx. apply (has_text_col k v x (HT x Hx) Hk). }
      reflexivity.
    - exists t. unfold cont_imp. cbn [parts].
      destruct (filter_ext_in2 (at_most k t) (fun x => dleb (Fin (colC (Z.of_nat k) x)) (Fin t)) data) as [-> ->]; [intros x Hx; apply (at_most_col k t x (HT x Hx) Hk)|reflexivity].
  Qed.
  Lemma parts_candidate (allowed : nat -> Prop) kd data k v : tabular shape data -> allowed k -> nth_error shape k = Some kd -> kd <> KBin ->
    (match kd with KIdx m => exists w, w < m /\ v = dofnat w | KCont => exists q, v = Fin q | _ => True end) ->
    candidate shape allowed data k (parts kd data k v).
  Proof.
    intros Ht Ha Hk Hb Hv. pose proof (proj1 (Forall_forall _ _) Ht) as HT. destruct kd as [| |m|]; cbn [parts].
    - assert (map (fun w => filter (fun x => String.eqb w (colD (Z.of_nat k) x)) data) (fold_left push_new (map (colD (Z.of_nat k)) data) [])
              = map (fun w => filter (has_text k w) data) (fold_left push_new (map (colD (Z.of_nat k)) data) [])) as ->.
      { apply map_ext. intros w. apply filter_ext_in. intros x Hx. symmetry. apply (has_text_col k w x (HT x Hx) Hk). }
      apply cand_values; [exact Ha|exact Hk|apply push_new_nodup; constructor|]. intros w. rewrite push_new_in. split.
      + intros [[]|Hin]. apply in_map_iff in Hin. destruct Hin as (x & <- & Hx). exists x. split; [exact Hx|].
        rewrite (has_text_col k _ x (HT x Hx) Hk). apply String.eqb_refl.
      + intros (x & Hx & Hw). right. rewrite (has_text_col k w x (HT x Hx) Hk) in Hw. apply String.eqb_eq in Hw. subst w. apply in_map, Hx.
    - congruence.
    - destruct Hv as (w & Hw & ->). rewrite to_int_nat.
      destruct (filter_ext_in2 (fun x => (Z.of_nat w =? colI (Z.of_nat k) x)%Z) (has_index k w) data) as [-> ->]; [intros x Hx; symmetry; apply (has_index_col k m w x (HT x Hx) Hk)|].
      apply (cand_index _ _ _ k m w); assumption.
    - destruct Hv as (t & ->).
      destruct (filter_ext_in2 (fun x => dleb (Fin (colC (Z.of_nat k) x)) (Fin t)) (at_most k t) data) as [-> ->]; [intros x Hx; symmetry; apply (at_most_col k t x (HT x Hx) Hk)|].
      apply cand_cut; assumption.
  Qed.

  (** * Growing *)
  Lemma distinct_one data : length (distinct_labels data) = 1 -> forall x y, In x data -> In y data -> label x = label y.
  Proof.
    intros H x y Hx Hy. destruct (distinct_labels data) as [|c [|c' cs]] eqn:E; try discriminate H.
    assert (forall z, In z data -> label z = c) as Hc.
    { intros z Hz. assert (In (label z) (distinct_labels data)) as Hi by (apply distinct_has, Hz). rewrite E in Hi. destruct Hi as [<-|[]]. reflexivity. }
    rewrite (Hc x Hx), (Hc y Hy). reflexivity.
  Qed.
  Lemma build_chosen rarr param stump (sub : list instance -> tree -> Prop) f data c t : rarr_perm rarr -> tabular shape data -> data <> [] ->
    build entropy mid rarr param stump (S f) data c = Ok t -> (stump = true -> c_index c = (-1)%Z) ->
    (forall g cd n, tabular shape g -> g <> [] -> length g < length data -> c_index cd <> (-1)%Z -> build entropy mid rarr param stump f g cd = Ok n -> sub g n) ->
    chosen entropy shape (looked_at rarr param (length shape)) sub data t.
  Proof.
    intros Hr Ht Hne H Hst Hsub. cbn [build] in H.
    destruct (length (distinct_labels data) =? 1) eqn:E1.
    { injection H as <-. apply chosen_pure. apply Nat.eqb_eq in E1. exact (distinct_one data E1). }
    assert (stump && negb (c_index c =? -1)%Z = false) as Es.
    { destruct stump; [|reflexivity]. rewrite (Hst eq_refl). reflexivity. }
    rewrite Es in H.
    destruct (search_ok entropy mid shape Hent Hmid rarr param data Hr Ht Hne) as (data' & b & Esr & HP & Hb). rewrite Esr in H. cbn [bind] in H.
    destruct (search_best rarr param data data' b Hr Ht Hne Esr) as (cols & Hcols & Hlt & (e & He & Hle & HD & Hopt)).
    assert (Hnone : none_below entropy shape (looked_at rarr param (length shape)) data e).
    { intros k gs Hc. destruct (candidate_seen _ data k gs Ht Hc) as [Ha Hs]. apply HD. exists k. split; [apply Hcols, Ha|exact Hs]. }
    destruct (Z.eqb_spec (b_attr b) (-1)) as [Eb|Eb].
    { injection H as <-. apply chosen_stop. destruct Hopt as [(_ & Hq)|(j & kd & Hj & _)]; [|rewrite Hj in Eb; lia].
      intros k gs Hc. specialize (Hnone k gs Hc). lra. }
    destruct Hb as [Hb|Hb]; [contradiction|]. destruct Hopt as [(Hq & _)|(j & kd & Hj & Hin & Hk & Hcut & Hbin & Hv & Himp & Hlow)]; [contradiction|].
    assert (data' <> []) as Hne'. { intros ->. apply Hne, Permutation_nil, Permutation_sym, HP. }
    destruct (split_proper shape data' _ _ (tab_perm _ _ _ HP Ht) Hne' Hb) as (prts & Esp & (P1 & P2 & P3 & P4) & H2 & Hnon).
    rewrite Hj in Esp.
    destruct (split_spec shape data' j kd (b_value b) (tab_perm _ _ _ HP Ht) Hne' Hk Hcut) as (prts' & Esp' & _ & Epr).
    assert (prts' = prts) as -> by congruence.
    rewrite Hj, Esp in H. cbn [bind] in H. apply bind_ok in H. destruct H as (ch & Ech & H). injection H as <-.
    assert (Hgs : map snd prts = parts kd data' j (b_value b)).
    { rewrite Epr. destruct kd; cbn [parts map snd]; try reflexivity. rewrite map_map. reflexivity. }
    assert (Hidx : Forall (fun p : condition * list instance => c_index (fst p) = Z.of_nat j) prts).
    { rewrite Epr. destruct kd; repeat constructor. apply Forall_map, Forall_forall. intros w _. reflexivity. }
    apply mapM_ok in Ech.
    assert (Hc : map t_cond ch = map fst prts).
    { clear - Ech. induction Ech as [|p t parts ch E _ IH]; [reflexivity|]. cbn [map]. rewrite IH. f_equal.
      destruct f as [|f]; [discriminate E|]. cbn [build] in E. destruct (length (distinct_labels (snd p)) =? 1); [injection E as <-; reflexivity|].
      destruct (stump && negb (c_index (fst p) =? -1)%Z); [injection E as <-; reflexivity|].
      apply bind_ok in E. destruct E as ([d b] & _ & E). destruct (b_attr b =? -1)%Z; [injection E as <-; reflexivity|].
      apply bind_ok in E. destruct E as (ps & _ & E). apply bind_ok in E. destruct E as (ch' & _ & E). injection E as <-. reflexivity. }
    assert (HPc : Permutation (concat (map snd prts)) data) by (etransitivity; [exact P1|apply Permutation_sym, HP]).
    assert (Hsm : Forall (fun g => g <> [] /\ length g < length data) (map snd prts)).
    { apply concat_smaller; [exact HPc|rewrite map_length; exact H2|]. apply Forall_map. exact Hnon. }
    assert (Himp' : (split_impurity entropy data' (parts kd data' j (b_value b)) == e)%Q) by (rewrite <- (parts_perm kd data data' j _ HP); exact Himp).
    apply (chosen_split entropy shape _ sub data _ _ _ data' j (map snd prts) ch HP).
    - rewrite Hgs. apply parts_candidate; [exact (tab_perm _ _ _ HP Ht)|apply Hcols, Hin|exact Hk|exact Hbin|exact Hv].
    - rewrite Hgs, Himp'. exact Hlow.
    - rewrite Hgs. intros k gs Hcd. rewrite Himp'. apply (Hnone k gs Hcd).
    - apply Forall_forall. intros n Hn. assert (In (t_cond n) (map fst prts)) as Hi by (rewrite <- Hc; apply in_map, Hn).
      apply in_map_iff in Hi. destruct Hi as (p & Ep & Hp). rewrite <- Ep. exact (proj1 (Forall_forall _ _) Hidx p Hp).
    - intros i g x Hi Hx. rewrite Hc. rewrite nth_error_map in Hi. destruct (nth_error prts i) as [[cd g']|] eqn:Ei; [|discriminate Hi].
      simpl in Hi. injection Hi as <-. apply (P4 i cd g' x Ei). apply (Permutation_in _ HP), Hx.
    - apply Forall2_map_l.
      assert (Hall : Forall (fun p : condition * list instance => tabular shape (snd p) /\ snd p <> [] /\ length (snd p) < length data /\ c_index (fst p) <> (-1)%Z) prts).
      { apply Forall_forall. intros p Hp. assert (In (snd p) (map snd prts)) as Hi by (apply in_map, Hp).
        destruct (proj1 (Forall_forall _ _) Hsm _ Hi) as [N L]. split; [|split; [exact N|split; [exact L|]]].
        - apply (tab_incl _ data); [|exact Ht]. intros x Hx. apply (Permutation_in _ HPc). apply in_concat. exists (snd p). split; assumption.
        - rewrite (proj1 (Forall_forall _ _) Hidx p Hp). lia. }
      clear - Ech Hall Hsub. induction Ech as [|p n prts ch E _ IH]; [constructor|]. inversion Hall as [|? ? (A & B & C & D) Hrest]; subst.
      constructor; [exact (Hsub _ _ _ A B C D E)|apply IH; assumption].
  Qed.
  Lemma build_greedy rarr param : rarr_perm rarr -> forall fuel data c t, tabular shape data -> data <> [] ->
    build entropy mid rarr param false fuel data c = Ok t -> greedy entropy shape (looked_at rarr param (length shape)) data t.
  Proof.
    intros Hr. induction fuel as [|f IH]; intros data c t Ht Hne H; [discriminate H|]. constructor.
    apply (build_chosen rarr param false _ f data c t Hr Ht Hne H); [discriminate|].
    intros g cd n Hg Hgn _ _ Hb. exact (IH g cd n Hg Hgn Hb).
  Qed.
  Lemma build_stump_chosen rarr param fuel data t : rarr_perm rarr -> tabular shape data -> data <> [] ->
    build entropy mid rarr param true fuel data no_condition = Ok t ->
    chosen entropy shape (looked_at rarr param (length shape)) (fun _ n => t_leaf n = true /\ t_children n = []) data t.
  Proof.
    intros Hr Ht Hne H. destruct fuel as [|f]; [discriminate H|].
    apply (build_chosen rarr param true _ f data no_condition t Hr Ht Hne H); [reflexivity|].
    intros g cd n _ _ _ Hcd Hb. exact (build_leaf_shape entropy mid rarr param true f g cd n Hb eq_refl Hcd).
  Qed.
End Best.
