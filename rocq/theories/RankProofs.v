(** Trees and the order of the numbers (C156). *)
From Coq Require Import String ZArith QArith Bool Lia Lqa Permutation Sorted List.
From Verif Require HeapProofs.
From Verif Require Import Base Spec BaseLemmas DblLemmas SortLemmas AttrModel AttrProofs DataSetModel InstanceListModel PartitionModel PerformanceModel ListSpec ListProofs PartitionProofs
  TreeModel TreeSpec TreeProofs EnsembleModel RenameProofs TreePredictProofs TreeGrowProofs TreeBestProofs InvSpec TreeInvProofs TreeInvGrowProofs ConstSpec ConstTreeProofs UnusedSpec UnusedProofs RoundDistProofs RankSpec.
Import ListNotations.
Local Open Scope string_scope.
Local Open Scope list_scope.
Local Open Scope nat_scope.

Lemma foldM_rel {S S' X} (R : S -> S' -> Prop) (f : S -> X -> res S) (g : S' -> X -> res S') l :
  (forall s s' x t, In x l -> R s s' -> f s x = Ok t -> exists t', g s' x = Ok t' /\ R t t') ->
  forall s s' t, R s s' -> foldM f l s = Ok t -> exists t', foldM g l s' = Ok t' /\ R t t'.
Proof.
  induction l as [|x l IH]; intros H s s' t HR E; cbn [foldM] in *; [injection E as <-; exists s'; split; [reflexivity|exact HR]|]. apply bind_ok in E as (s1 & E1 & E).
  destruct (H s s' x s1 (or_introl eq_refl) HR E1) as (s1' & E1' & R1). rewrite E1'. cbn [bind]. apply (IH (fun s s' x t Hx => H s s' x t (or_intror Hx)) s1 s1' t R1 E).
Qed.
Lemma filter_through {A B} (h : A -> B) (f : A -> bool) (g : B -> bool) l : (forall x, In x l -> g (h x) = f x) -> filter g (map h l) = map h (filter f l).
Proof. induction l as [|x l IH]; intros H; [reflexivity|]. cbn [map filter]. rewrite (H x (or_introl eq_refl)), IH by (intros y Hy; apply H; right; exact Hy). destruct (f x); reflexivity. Qed.
Lemma combine_self {A B} (f : A -> B) l : combine (map f l) l = map (fun x => (f x, x)) l.
Proof. induction l as [|x l IH]; [reflexivity|]. cbn. rewrite IH. reflexivity. Qed.

Section Rank.
  Context (shape : list kind) (h : instance -> instance).
  Hypothesis Hk : keeps_labels h.
  Notation key k := (colC (Z.of_nat k)).
  Lemma h_label x : label (h x) = label x.
  Proof. exact (proj1 (Hk x)). Qed.
  Lemma same_order_incl l l' : incl l' l -> same_order shape h l -> same_order shape h l'.
  Proof. intros I (A & B & C). split; [intros x Hx; apply A, I, Hx|]. split; [intros x k Hx; apply B, I, Hx|]. intros x y k u v u' v' Hx Hy. apply C; apply I; assumption. Qed.
  Lemma so_tab l : same_order shape h l -> tabular shape (map h l).
  Proof. intros (A & _). apply Forall_forall. intros y Hy. apply in_map_iff in Hy as (x & <- & Hx). exact (A x Hx). Qed.
  Lemma so_key l k x y : tabular shape l -> same_order shape h l -> nth_error shape k = Some KCont -> In x l -> In y l -> ((key k x <= key k y)%Q <-> (key k (h x) <= key k (h y))%Q).
  Proof.
    intros T (A & _ & C) N Hx Hy. unfold tabular in T. rewrite Forall_forall in T.
    assert (F : forall z, typed shape z -> nth_error (attrs z) k = Some (ACont (Fin (key k z)))) by (intros z Tz; destruct (typed_cont _ z k Tz N) as [_ E]; rewrite Nat2Z.id in E; exact E).
    apply (C x y k); auto.
  Qed.
  Lemma so_seen l k : tabular shape l -> same_order shape h l -> nth_error shape k <> Some KCont -> seen h (Z.of_nat k) l.
  Proof.
    intros T (A & B & _) N. apply Forall_forall. intros x Hx. unfold get_attr, at_. destruct (Z.ltb_spec (Z.of_nat k) 0) as [L|_]; [lia|]. rewrite Nat2Z.id, (B x k Hx N).
    unfold tabular in T. rewrite Forall_forall in T. pose proof (Forall2_len _ _ _ (T x Hx)) as L1. pose proof (Forall2_len _ _ _ (A x Hx)) as L2. reflexivity.
  Qed.

  (** * The best split found so far *)
  Definition cut_alike (l : list instance) (j : nat) (v v' : dbl) : Prop := exists q q', v = Fin q /\ v' = Fin q' /\ forall x, In x l -> ((key j x <= q)%Q <-> (key j (h x) <= q')%Q).
  Definition value_alike (l : list instance) (j : nat) (v v' : dbl) : Prop :=
    match nth_error shape j with Some (KIdx _) => v = v' | Some KCont => cut_alike l j v v' | _ => True end.
  Definition best_alike (l : list instance) (b b' : best) : Prop :=
    b_entropy b = b_entropy b' /\ b_attr b = b_attr b' /\ forall j, b_attr b = Z.of_nat j -> value_alike l j (b_value b) (b_value b').
  Lemma best_alike_in l l' b b' : (forall x, In x l' -> In x l) -> best_alike l b b' -> best_alike l' b b'.
  Proof.
    intros I (A & B & C). split; [exact A|]. split; [exact B|]. intros j Hj. specialize (C j Hj). unfold value_alike in *. destruct (nth_error shape j) as [[| |m|]|]; try exact C.
    destruct C as (q & q' & E & E' & C). exists q, q'. split; [exact E|]. split; [exact E'|]. intros x Hx. apply C, I, Hx.
  Qed.
  Lemma better_alike l b b' e k v v' : best_alike l b b' -> value_alike l k v v' -> best_alike l (better b e (Z.of_nat k) v) (better b' e (Z.of_nat k) v').
  Proof.
    intros (A & B & C) V. unfold better. rewrite A. destruct (dltb e (b_entropy b')); [|split; [exact A|split; [exact B|exact C]]]. split; [reflexivity|]. split; [reflexivity|]. cbn [b_attr b_value]. intros j Hj. apply Nat2Z.inj in Hj. subst j. exact V.
  Qed.

  (** * Sorting *)
  Lemma sort_through l k s : tabular shape l -> same_order shape h l -> nth_error shape k = Some KCont -> sort_by (Z.of_nat k) l = Ok s -> sort_by (Z.of_nat k) (map h l) = Ok (map h s).
  Proof.
    intros T O N. unfold sort_by. rewrite map_length. destruct (length l <=? 1); [intros E; injection E as <-; reflexivity|].
    rewrite (cont_column _ _ _ (tab_num _ _ _ T N)), (cont_column _ _ _ (tab_num _ _ _ (so_tab _ O) N)). cbn [bind].
    assert (NN : forall m : list instance, existsb is_nan (map (fun x => Fin (key k x)) m) = false) by (induction m as [|y m IH]; [reflexivity|exact IH]). rewrite !NN.
    intros E. injection E as <-. f_equal. rewrite !combine_self.
    rewrite (ssort_map (fun x => (Fin (key k x), x)) (fun x y => dltb (Fin (key k x)) (Fin (key k y)))) by reflexivity. rewrite (ssort_map (fun x => (Fin (key k x), x)) (fun x y => dltb (Fin (key k x)) (Fin (key k y)))) by reflexivity.
    rewrite !map_map. cbn [snd]. rewrite !map_id. rewrite (ssort_map h (fun x y => dltb (Fin (key k (h x))) (Fin (key k (h y))))) by reflexivity. f_equal. apply ssort_ext. intros x y Hx Hy.
    pose proof (so_key l k y x T O N Hy Hx) as H. destruct (dltb (Fin (key k x)) (Fin (key k y))) eqn:E.
    - apply dltb_fin in E. apply dltb_fin. destruct (Qlt_le_dec (key k (h x)) (key k (h y))) as [L|L]; [exact L|]. apply H in L. lra.
    - apply dltb_fin_false in E. apply dltb_fin_false. apply H, E.
  Qed.

  Section Search.
    Context (entropy : counter -> dbl) (mid : dbl -> dbl -> dbl).
    Hypothesis Hent : entropy_finite entropy.
    Hypothesis Hmid : mid_exact mid.
    (** * One pass over the sorted values *)
    Definition scan_alike (all before : list instance) (k : nat) (s s' : scan) : Prop :=
      s_left s = s_left s' /\ s_right s = s_right s' /\ best_alike all (s_best s) (s_best s') /\
      ((s_prev s = None /\ s_prev s' = None) \/
       exists z, In z before /\ s_prev s = Some (Fin (key k z)) /\ s_prev s' = Some (Fin (key k (h z))) /\ forall y, In y before -> (key k y <= key k z)%Q).
    Lemma scan_through all k n : tabular shape all -> same_order shape h all -> nth_error shape k = Some KCont -> sorted_by k all ->
      forall todo before s s' r, before ++ todo = all -> (s_prev s = None -> before = []) -> scan_alike all before k s s' -> foldM (try_cut entropy mid n (Z.of_nat k)) todo s = Ok r ->
      exists r', foldM (try_cut entropy mid n (Z.of_nat k)) (map h todo) s' = Ok r' /\ best_alike all (s_best r) (s_best r').
    Proof.
      intros T O N SO. assert (HT : forall x, In x all -> typed shape x) by (apply Forall_forall, T). assert (HT' : forall x, In x all -> typed shape (h x)) by apply O.
      induction todo as [|x todo IH]; intros before s s' r EA HB (A & B & C & D) E; cbn [foldM map] in *; [injection E as <-; exists s'; split; [reflexivity|exact C]|].
      assert (Hx : In x all) by (rewrite <- EA; apply in_app_iff; right; left; reflexivity).
      assert (Hbe : forall y, In y before -> In y all) by (intros y Hy; rewrite <- EA; apply in_app_iff; left; exact Hy).
      assert (Hle : forall y, In y before -> (key k y <= key k x)%Q) by (intros y Hy; apply (sorted_app k before (x :: todo)); [rewrite EA; exact SO|exact Hy|left; reflexivity]).
      apply bind_ok in E as (s1 & E1 & E). unfold try_cut in E1 |- *. rewrite (proj2 (cont_at_ok _ _ _) (typed_cont _ x k (HT x Hx) N)) in E1. rewrite (proj2 (cont_at_ok _ _ _) (typed_cont _ (h x) k (HT' x Hx) N)). cbn [bind] in *. rewrite !h_label.
      assert (EA' : (before ++ [x]) ++ todo = all) by (rewrite <- app_assoc; exact EA).
      assert (Last : forall y, In y (before ++ [x]) -> (key k y <= key k x)%Q) by (intros y Hy; apply in_app_iff in Hy as [Hy|[<-|[]]]; [exact (Hle y Hy)|lra]).
      assert (Ix : In x (before ++ [x])) by (apply in_app_iff; right; left; reflexivity).
      destruct D as [(D & D')|(z & Hz & D & D' & Hmax)]; rewrite D in E1; rewrite D'.
      - injection E1 as <-. cbn [bind]. refine (IH (before ++ [x]) _ _ r EA' _ _ E); [discriminate|]. split; [cbn; rewrite A; reflexivity|]. split; [cbn; rewrite B; reflexivity|]. split; [exact C|]. right. exists x. split; [exact Ix|]. split; [reflexivity|]. split; [reflexivity|exact Last].
      - pose proof (so_key all k x z T O N Hx (Hbe z Hz)) as K1. pose proof (so_key all k z x T O N (Hbe z Hz) Hx) as K2. pose proof (Hle z Hz) as Lzx. pose proof (proj1 K2 Lzx) as Lzx'.
        assert (ED : deqb (Fin (key k (h x))) (Fin (key k (h z))) = deqb (Fin (key k x)) (Fin (key k z))).
        { unfold deqb. rewrite (proj2 (dleb_fin _ _) Lzx), (proj2 (dleb_fin _ _) Lzx'), !andb_true_r. destruct (dleb (Fin (key k x)) (Fin (key k z))) eqn:Q; [apply dleb_fin, K1, dleb_fin, Q|]. destruct (dleb (Fin (key k (h x))) (Fin (key k (h z)))) eqn:Q'; [|reflexivity]. apply dleb_fin, K1, dleb_fin in Q'. congruence. }
        rewrite ED. destruct (deqb (Fin (key k x)) (Fin (key k z))) eqn:Eq; cbn [negb] in *; injection E1 as <-; cbn [bind].
        + refine (IH (before ++ [x]) _ _ r EA' _ _ E); [discriminate|]. split; [cbn; rewrite A; reflexivity|]. split; [cbn; rewrite B; reflexivity|]. split; [exact C|]. right. exists z. split; [apply in_app_iff; left; exact Hz|]. split; [reflexivity|]. split; [reflexivity|].
          intros y Hy. apply in_app_iff in Hy as [Hy|[<-|[]]]; [exact (Hmax y Hy)|]. unfold deqb in Eq. apply andb_true_iff in Eq as [Eq _]. apply dleb_fin, Eq.
        + refine (IH (before ++ [x]) _ _ r EA' _ _ E); [discriminate|]. split; [cbn; rewrite A; reflexivity|]. split; [cbn; rewrite B; reflexivity|]. split.
          2:{ right. exists x. split; [exact Ix|]. split; [reflexivity|]. split; [reflexivity|exact Last]. }
          cbn [s_best]. rewrite A, B. apply better_alike; [exact C|]. unfold value_alike. rewrite N.
          assert (Lt : (key k z < key k x)%Q). { destruct (Qlt_le_dec (key k z) (key k x)) as [L|L]; [exact L|]. unfold deqb in Eq. rewrite (proj2 (dleb_fin _ _) L), (proj2 (dleb_fin _ _) Lzx) in Eq. discriminate Eq. }
          assert (Lt' : (key k (h z) < key k (h x))%Q). { destruct (Qlt_le_dec (key k (h z)) (key k (h x))) as [L|L]; [exact L|]. apply K1 in L. lra. }
          pose proof (Hmid (key k z) (key k x)) as M. pose proof (Hmid (key k (h z)) (key k (h x))) as M'. destruct (mid (Fin (key k z)) (Fin (key k x))) as [q| | |]; try contradiction. destruct (mid (Fin (key k (h z))) (Fin (key k (h x)))) as [q'| | |]; try contradiction. cbn [deq] in M, M'.
          assert (Q2 : (q * 2 == key k z + key k x)%Q) by (rewrite M; field). assert (Q2' : (q' * 2 == key k (h z) + key k (h x))%Q) by (rewrite M'; field).
          exists q, q'. split; [reflexivity|]. split; [reflexivity|]. intros y Hy. rewrite <- EA in Hy. apply in_app_iff in Hy as [Hy|Hy].
          * pose proof (Hmax y Hy) as L. pose proof (proj1 (so_key all k y z T O N (Hbe y Hy) (Hbe z Hz)) L) as L'. split; intros _; lra.
          * assert (Hya : In y all) by (rewrite <- EA; apply in_app_iff; right; exact Hy).
            assert (L : (key k x <= key k y)%Q). { destruct Hy as [<-|Hy]; [lra|]. apply (sorted_app k (before ++ [x]) todo); [rewrite EA'; exact SO|exact Ix|exact Hy]. }
            pose proof (proj1 (so_key all k x y T O N Hx Hya) L) as L'. split; intros W; lra.
    Qed.

    (** * One feature, and the search *)
    Lemma attr_through data cd b b' k data2 cd2 b2 : tabular shape data -> same_order shape h data -> k < length shape -> best_alike data b b' -> try_attr entropy mid (data, cd, b) (Z.of_nat k) = Ok (data2, cd2, b2) ->
      exists b2', try_attr entropy mid (map h data, cd, b') (Z.of_nat k) = Ok (map h data2, cd2, b2') /\ best_alike data b2 b2' /\ Permutation data data2.
    Proof.
      intros T O L HB E. destruct (nth_error shape k) as [kd|] eqn:Ek; [|apply nth_error_None in Ek; lia]. unfold try_attr in E |- *. apply bind_ok in E as (x0 & E0 & E). rewrite atn_map, E0. cbn [rmap bind]. pose proof (atn_in _ _ _ E0) as Hx0.
      assert (HT : forall x, In x data -> typed shape x) by (apply Forall_forall, T). destruct (typed_at _ x0 _ _ (HT x0 Hx0) Ek) as (a & _ & Ka & Ga & _). destruct (typed_at _ (h x0) _ _ (proj1 O x0 Hx0) Ek) as (a' & _ & Ka' & Ga' & _). rewrite Ga in E. rewrite Ga'. cbn [bind] in *.
      destruct kd as [| |m|]; cbn [has_kind] in Ka, Ka'.
      - destruct Ka as (v & ->). destruct Ka' as (v' & ->). cbn [isDiscreteIndexed isDiscrete] in *. pose proof (so_seen data k T O ltac:(congruence)) as W. apply bind_ok in E as (e & Ee & E). injection E as <- <- <-.
        assert (Ee' : disc_entropy entropy (map h data) (Z.of_nat k) = Ok e) by (unfold disc_entropy in *; rewrite (h_attr_class h h_label) by exact W; rewrite map_length; exact Ee). rewrite Ee'. cbn [bind]. eexists. split; [reflexivity|]. split; [|reflexivity]. apply better_alike; [exact HB|]. unfold value_alike. rewrite Ek. exact I.
      - destruct Ka as (v & ->). destruct Ka' as (v' & ->). cbn [isDiscreteIndexed isDiscrete isContinuous] in *. injection E as <- <- <-. exists b'. split; [reflexivity|]. split; [exact HB|reflexivity].
      - destruct Ka as (v & i & ->). destruct Ka' as (v' & i' & ->). cbn [isDiscreteIndexed idx_max bind] in *. pose proof (so_seen data k T O ltac:(congruence)) as W. apply bind_ok in E as ([cd1 b1] & Er & E). injection E as <- <- <-. cbn [fst snd].
        rewrite (foldM_same (try_index entropy (map h data) (Z.of_nat k)) (try_index entropy data (Z.of_nat k))) by (intros; apply (h_try_index h h_label), W).
        destruct (foldM_rel (fun s s' => fst s = fst s' /\ best_alike data (snd s) (snd s')) (try_index entropy data (Z.of_nat k)) (try_index entropy data (Z.of_nat k)) (seq 0 m)) with (s := (cd, b)) (s' := (cd, b')) (t := (cd1, b1)) as ([cd1' b1'] & Er' & R1 & R2).
        { intros [c1 d1'] [c2 d2'] w [c3 d3'] _ [R1 R2] Ew. cbn [fst snd] in *. subst c2. unfold try_index in *. apply bind_ok in Ew as (dd & Ed & Ew). rewrite Ed. cbn [bind]. destruct (0 <? csum dd); injection Ew as <- <-; eexists; (split; [reflexivity|]); cbn [fst snd]; (split; [reflexivity|]); [|exact R2].
          apply better_alike; [exact R2|]. unfold value_alike. rewrite Ek. reflexivity. }
        { split; [reflexivity|exact HB]. } { exact Er. }
        cbn [fst snd] in *. subst cd1'. rewrite Er'. cbn [bind fst snd]. exists b1'. split; [reflexivity|]. split; [exact R2|reflexivity].
      - destruct Ka as (v & ->). destruct Ka' as (v' & ->). cbn [isDiscreteIndexed isDiscrete isContinuous] in *. apply bind_ok in E as (s & Es & E). rewrite (sort_through data k s T O Ek Es). cbn [bind]. apply bind_ok in E as (r & Er & E). injection E as <- <- <-.
        destruct (sort_by_sorted shape k data Ek T) as (s0 & Es0 & Ps & Ss). rewrite Es in Es0. injection Es0 as <-. pose proof (tab_perm _ _ _ Ps T) as Ts. assert (Is : incl s data) by (intros z Hz; apply (Permutation_in _ (Permutation_sym Ps)), Hz).
        pose proof (same_order_incl _ _ Is O) as Os. rewrite map_length, (h_class_distribution h h_label).
        destruct (scan_through s k (length s) Ts Os Ek Ss s [] (mkScan None (class_distribution s) [] b) (mkScan None (class_distribution s) [] b') r eq_refl (fun _ => eq_refl)) as (r' & Er' & Rb); [|exact Er|].
        { split; [reflexivity|]. split; [reflexivity|]. split; [exact (best_alike_in _ _ _ _ Is HB)|]. left. split; reflexivity. }
        rewrite Er'. cbn [bind]. exists (s_best r'). split; [reflexivity|]. split; [|exact Ps]. apply (best_alike_in s); [|exact Rb]. intros z Hz. apply (Permutation_in _ Ps), Hz.
    Qed.
    Lemma attrs_through : forall ks data cd b b' data2 cd2 b2, (forall k, In k ks -> k < length shape) -> tabular shape data -> same_order shape h data -> best_alike data b b' -> foldM (try_attr entropy mid) (map Z.of_nat ks) (data, cd, b) = Ok (data2, cd2, b2) ->
      exists b2', foldM (try_attr entropy mid) (map Z.of_nat ks) (map h data, cd, b') = Ok (map h data2, cd2, b2') /\ best_alike data b2 b2' /\ Permutation data data2.
    Proof.
      induction ks as [|k ks IH]; intros data cd b b' data2 cd2 b2 HK T O HB E; cbn [map foldM] in *; [injection E as <- <- <-; exists b'; split; [reflexivity|split; [exact HB|reflexivity]]|].
      apply bind_ok in E as ([[data1 cd1] b1] & E1 & E). destruct (attr_through data cd b b' k data1 cd1 b1 T O (HK k (or_introl eq_refl)) HB E1) as (b1' & E1' & HB1 & P1). rewrite E1'. cbn [bind].
      assert (I1 : incl data1 data) by (intros z Hz; apply (Permutation_in _ (Permutation_sym P1)), Hz).
      destruct (IH data1 cd1 b1 b1' data2 cd2 b2 (fun j Hj => HK j (or_intror Hj)) (tab_perm _ _ _ P1 T) (same_order_incl _ _ I1 O) (best_alike_in _ _ _ _ I1 HB1) E) as (b2' & E2 & HB2 & P2).
      exists b2'. split; [exact E2|]. split; [|etransitivity; eassumption]. apply (best_alike_in data1); [|exact HB2]. intros z Hz. apply (Permutation_in _ P1), Hz.
    Qed.
    Lemma search_through rarr param data data2 b : rarr_perm rarr -> tabular shape data -> same_order shape h data -> search entropy mid rarr param data = Ok (data2, b) ->
      exists b', search entropy mid rarr param (map h data) = Ok (map h data2, b') /\ best_alike data b b' /\ Permutation data data2.
    Proof.
      intros Hr T O E. unfold search in *. apply bind_ok in E as (x0 & E0 & E). rewrite atn_map, E0. cbn [rmap bind]. pose proof (atn_in _ _ _ E0) as Hx0. assert (HT : forall x, In x data -> typed shape x) by (apply Forall_forall, T).
      assert (EO : attr_order rarr param (h x0) = attr_order rarr param x0). { unfold attr_order, attr_count. rewrite <- (Forall2_len _ _ _ (HT x0 Hx0)), <- (Forall2_len _ _ _ (proj1 O x0 Hx0)). reflexivity. }
      rewrite EO. destruct (attr_order_ok shape rarr param x0 Hr (HT x0 Hx0)) as (ks & Eks & HKs). rewrite Eks in *. cbn [bind] in *. rewrite (h_class_distribution h h_label). cbn zeta in *.
      apply bind_ok in E as ([[d2 c2] b2] & Ef & E). injection E as <- <-.
      destruct (attrs_through ks data (class_distribution data) (mkBest (entropy (class_distribution data)) (-1) d0) (mkBest (entropy (class_distribution data)) (-1) d0) d2 c2 b2 HKs T O) as (b2' & Ef' & HB & P); [|exact Ef|].
      { split; [reflexivity|]. split; [reflexivity|]. cbn [b_attr]. intros j Hj. lia. }
      unfold ilist in *. rewrite Ef'. cbn [bind]. exists b2'. split; [reflexivity|]. split; assumption.
    Qed.

    (** * The parts of a split *)
    Definition part_alike (p p' : condition * ilist) : Prop := same_condition (fst p) (fst p') /\ snd p' = map h (snd p).
    Lemma same_condition_refl c : same_condition c c.
    Proof. split; [reflexivity|]. split; [reflexivity|left; reflexivity]. Qed.
    Lemma split_through data k v v' : tabular shape data -> same_order shape h data -> data <> [] -> proper shape data k v -> (forall j, k = Z.of_nat j -> value_alike data j v v') ->
      exists parts parts', split data k v = Ok parts /\ split (map h data) k v' = Ok parts' /\ parts_ok shape data parts /\ parts_ok shape (map h data) parts' /\ Forall2 part_alike parts parts'.
    Proof.
      intros T O Hne (j & -> & HP) HV. specialize (HV j eq_refl). unfold value_alike in HV. pose proof (so_tab _ O) as T'. assert (Hne' : map h data <> []) by (destruct data; [contradiction|discriminate]).
      destruct HP as [(m & w & A & -> & _)|[(A & _)|(A & q & x & y & -> & _)]]; rewrite A in HV.
      - subst v'. destruct (split_spec shape data j _ (dofnat w) T Hne A) as (parts & E & P & Ep); [exists w; reflexivity|]. destruct (split_spec shape (map h data) j _ (dofnat w) T' Hne' A) as (parts' & E' & P' & Ep'); [exists w; reflexivity|].
        exists parts, parts'. split; [exact E|]. split; [exact E'|]. split; [exact P|]. split; [exact P'|]. rewrite Ep, Ep'. pose proof (so_seen data j T O ltac:(congruence)) as W.
        assert (CI : forall x, In x data -> colI (Z.of_nat j) (h x) = colI (Z.of_nat j) x) by (intros x Hx; unfold colI; rewrite (seen_index h _ data x W Hx); reflexivity).
        repeat constructor; cbn [fst snd]; apply (filter_through h); intros x Hx; rewrite (CI x Hx); reflexivity.
      - destruct (split_spec shape data j _ v T Hne A I) as (parts & E & P & Ep). destruct (split_spec shape (map h data) j _ v' T' Hne' A I) as (parts' & E' & P' & Ep').
        exists parts, parts'. split; [exact E|]. split; [exact E'|]. split; [exact P|]. split; [exact P'|]. rewrite Ep, Ep'. pose proof (so_seen data j T O ltac:(congruence)) as W.
        assert (CD : forall x, In x data -> colD (Z.of_nat j) (h x) = colD (Z.of_nat j) x) by (intros x Hx; unfold colD; rewrite (seen_disc h _ data x W Hx); reflexivity).
        assert (EV : map (colD (Z.of_nat j)) (map h data) = map (colD (Z.of_nat j)) data) by (rewrite map_map; apply map_ext_in; exact CD). rewrite EV. generalize (fold_left push_new (map (colD (Z.of_nat j)) data) []). intros vs.
        induction vs as [|w vs IH]; [constructor|]. cbn [map]. constructor; [|exact IH]. split; [apply same_condition_refl|]. cbn [snd]. apply (filter_through h). intros x Hx. rewrite (CD x Hx). reflexivity.
      - destruct HV as (q0 & q' & Eq & -> & HC). injection Eq as <-.
        destruct (split_spec shape data j _ (Fin q) T Hne A eq_refl) as (parts & E & P & Ep). destruct (split_spec shape (map h data) j _ (Fin q') T' Hne' A eq_refl) as (parts' & E' & P' & Ep').
        exists parts, parts'. split; [exact E|]. split; [exact E'|]. split; [exact P|]. split; [exact P'|]. rewrite Ep, Ep'.
        assert (CC : forall x, In x data -> dleb (Fin (key j (h x))) (Fin q') = dleb (Fin (key j x)) (Fin q)).
        { intros z Hz. pose proof (HC z Hz) as H. destruct (dleb (Fin (key j z)) (Fin q)) eqn:D; [apply dleb_fin, H, dleb_fin, D|]. destruct (dleb (Fin (key j (h z))) (Fin q')) eqn:D'; [|reflexivity]. apply dleb_fin, H, dleb_fin in D'. congruence. }
        assert (SC : forall o, same_condition (mkCond (Z.of_nat j) o (Some (ACont (Fin q)))) (mkCond (Z.of_nat j) o (Some (ACont (Fin q'))))) by (intros o; split; [reflexivity|]; split; [reflexivity|]; right; exists (Fin q), (Fin q'); split; reflexivity).
        constructor; [|constructor; [|constructor]]; (split; [apply SC|]); cbn [snd]; apply (filter_through h); intros z Hz; rewrite (CC z Hz); reflexivity.
    Qed.

    (** * Whole trees *)
    Definition answers_alike (l : list instance) (t t' : tree) : Prop :=
      forall x, In x l -> (forall mi, node_predict mi t x = node_predict mi t' (h x)) /\ node_probability t x = node_probability t' (h x).
    Lemma labels_through l : class_labels (map h l) = class_labels l.
    Proof. unfold class_labels. rewrite map_map. apply map_ext. exact h_label. Qed.
    Lemma build_through rarr param stump : rarr_perm rarr -> forall fuel data c c' t, tabular shape data -> same_order shape h data -> same_condition c c' -> build entropy mid rarr param stump fuel data c = Ok t ->
      exists t', build entropy mid rarr param stump fuel (map h data) c' = Ok t' /\ same_tree t t' /\ t_cond t = c /\ t_cond t' = c' /\ answers_alike data t t'.
    Proof.
      intros Hr. induction fuel as [|f IH]; intros data c c' t T O SC E; [discriminate E|]. cbn [build] in E |- *. rewrite labels_through.
      assert (DL : distinct_labels (map h data) = distinct_labels data) by (rewrite !distinct_labels_map; change (map label (map h data)) with (class_labels (map h data)); rewrite labels_through; reflexivity). rewrite DL.
      assert (HP : forall x, isComposite (h x) = isComposite x /\ possible_labels (h x) = possible_labels x) by (intros x; destruct (Hk x) as [H1 H2]; unfold isComposite, possible_labels; rewrite H1, H2; split; reflexivity).
      assert (Hleaf : forall lab d, Ok (Node lab true d c []) = Ok t -> exists t', Ok (Node lab true d c' []) = Ok t' /\ same_tree t t' /\ t_cond t = c /\ t_cond t' = c' /\ answers_alike data t t').
      { intros lab d H. injection H as <-. eexists. split; [reflexivity|]. split; [constructor; [exact SC|constructor]|]. split; [reflexivity|]. split; [reflexivity|]. intros x Hx. split; [|reflexivity]. intros mi. cbn [node_predict]. destruct (HP x) as [-> ->]. reflexivity. }
      destruct (length (distinct_labels data) =? 1); [exact (Hleaf _ _ E)|]. rewrite <- (proj1 SC). destruct (stump && negb (c_index c =? -1)%Z); [exact (Hleaf _ _ E)|].
      destruct data as [|x0 data1] eqn:Ed; [discriminate E|]. rewrite <- Ed in *. assert (Hne : data <> []) by (rewrite Ed; discriminate). clear x0 data1 Ed.
      destruct (search_ok entropy mid shape Hent Hmid rarr param data Hr T Hne) as (data' & b & Es & HPm & Hb). rewrite Es in E. cbn [bind] in E. destruct (search_through rarr param data data' b Hr T O Es) as (b' & Es' & HB & _). rewrite Es'. cbn [bind].
      rewrite <- (proj1 (proj2 HB)). destruct (Z.eqb_spec (b_attr b) (-1)) as [Eb|Eb]; [exact (Hleaf _ _ E)|]. destruct Hb as [Hb|Hb]; [contradiction|].
      assert (Hne' : data' <> []) by (intros ->; apply Hne, Permutation_nil, Permutation_sym, HPm). pose proof (tab_perm _ _ _ HPm T) as T'. assert (I' : incl data' data) by (intros z Hz; apply (Permutation_in _ (Permutation_sym HPm)), Hz). pose proof (same_order_incl _ _ I' O) as O'.
      destruct (split_through data' (b_attr b) (b_value b) (b_value b') T' O' Hne' Hb) as (parts & parts' & Esp & Esp' & PO & PO' & F). { intros j Hj. apply (proj2 (proj2 (best_alike_in _ _ _ _ I' HB)) j Hj). }
      rewrite Esp in E. rewrite Esp'. cbn [bind] in *. apply bind_ok in E as (ch & Ech & E). injection E as <-. destruct PO as (P1 & P2 & _ & P4). destruct PO' as (P1' & P2' & _ & P4').
      assert (Hin : forall p, In p parts -> incl (snd p) data) by (intros p Hp x Hx; apply I', (Permutation_in _ P1), in_concat; exists (snd p); split; [apply in_map, Hp|exact Hx]).
      assert (K : forall ps ps', incl ps parts -> Forall2 part_alike ps ps' -> forall ts, mapM (fun p => build entropy mid rarr param stump f (snd p) (fst p)) ps = Ok ts ->
        exists ts', mapM (fun p => build entropy mid rarr param stump f (snd p) (fst p)) ps' = Ok ts' /\ Forall2 same_tree ts ts' /\ map t_cond ts = map fst ps /\ map t_cond ts' = map fst ps' /\
          forall i p n n', nth_error ps i = Some p -> nth_error ts i = Some n -> nth_error ts' i = Some n' -> answers_alike (snd p) n n').
      { intros ps ps' Ips Fps. induction Fps as [|p p' ps ps' [Rc Rp] _ IHp]; intros ts Et; cbn [mapM] in *; [injection Et as <-; exists []; repeat split; try constructor; destruct i; discriminate|].
        apply bind_ok in Et as (n & En & Et). apply bind_ok in Et as (ns & Ens & Et). injection Et as <-. assert (Hp : In p parts) by (apply Ips; left; reflexivity).
        destruct (IH (snd p) (fst p) (fst p') n (tab_incl _ _ _ (Hin p Hp) T) (same_order_incl _ _ (Hin p Hp) O) Rc En) as (n' & En' & S1 & C1 & C1' & A1). rewrite Rp, En'. cbn [bind].
        destruct (IHp ltac:(intros z Hz; apply Ips; right; exact Hz) ns Ens) as (ns' & Ens' & S2 & C2 & C2' & A2). rewrite Ens'. cbn [bind]. eexists. split; [reflexivity|]. split; [constructor; assumption|]. split; [cbn; congruence|]. split; [cbn; congruence|].
        intros [|i] p0 m m' Hp0 Hm Hm'; cbn in Hp0, Hm, Hm'; [injection Hp0 as <-; injection Hm as <-; injection Hm' as <-; exact A1|]. eapply A2; eassumption. }
      destruct (K parts parts' (incl_refl _) F ch Ech) as (ch' & Ech' & S & C & C' & A). rewrite Ech'. cbn [bind]. eexists. split; [reflexivity|]. split; [constructor; assumption|]. split; [reflexivity|]. split; [reflexivity|].
      intros x Hx. assert (Hx' : In x data') by (apply (Permutation_in _ HPm), Hx). apply (Permutation_in _ (Permutation_sym P1)), in_concat in Hx' as (g & Hg & Hxg). apply in_map_iff in Hg as (p & <- & Hp). destruct (In_nth_error _ _ Hp) as (i & Hi).
      assert (exists p', nth_error parts' i = Some p' /\ part_alike p p') as (p' & Hi' & R).
      { destruct (nth_error parts' i) as [p'|] eqn:E'; [exists p'; split; [reflexivity|exact (Forall2_nth _ _ _ _ _ _ F Hi E')]|]. apply nth_error_None in E'. rewrite <- (Forall2_len _ _ _ F) in E'. pose proof (proj1 (nth_error_Some parts i) ltac:(unfold ilist in *; rewrite Hi; discriminate)). unfold ilist in *. lia. }
      assert (Hxd : In x data') by (apply (Permutation_in _ P1), in_concat; exists (snd p); split; [apply in_map, Hp|exact Hxg]).
      assert (Fch : Forall (fun n => fits shape (t_cond n)) ch) by (rewrite <- Forall_map with (f := t_cond) (P := fits shape), C, Forall_map; exact P2).
      assert (Fch' : Forall (fun n => fits shape (t_cond n)) ch') by (rewrite <- Forall_map with (f := t_cond) (P := fits shape), C', Forall_map; exact P2').
      destruct p as [pc pg]. destruct p' as [pc' pg']. destruct R as [_ Rg]. cbn [snd] in *. subst pg'.
      destruct (pick_routed shape ch x (proj1 (Forall_forall _ _) T x Hx) Fch i) as (n & Hn & En). { rewrite C. apply (P4 i pc pg x Hi Hxd), Hxg. }
      destruct (pick_routed shape ch' (h x) (proj1 O x Hx) Fch' i) as (n' & Hn' & En'). { rewrite C'. apply (P4' i pc' (map h pg) (h x) Hi'); [apply in_map, Hxd|apply in_map, Hxg]. }
      destruct (A i _ n n' Hi Hn Hn' x Hxg) as [A1 A2]. destruct (HP x) as [HP1 HP2]. split; [|rewrite !probability_pick, En, En'; cbn [bind]; exact A2]. intros mi. destruct (isComposite x) eqn:Ex.
      - rewrite (predict_composite mi _ _ _ _ _ Ex), (predict_composite mi _ _ _ _ _ HP1), En, En', HP2. cbn [bind]. rewrite (A1 mi). reflexivity.
      - rewrite (predict_plain mi _ _ _ _ _ Ex), (predict_plain mi _ _ _ _ _ HP1), En, En'. cbn [bind]. exact (A1 mi).
    Qed.
  End Search.
End Rank.
