(** Support vector machines on two data sets with the same kernel values (C136). *)
From Coq Require Import String ZArith QArith Qabs Bool Lia Morphisms Permutation List.
From Verif Require Import Base Spec BaseLemmas DblLemmas AttrModel SolverModel KernelProofs KernelViewSpec.
Import ListNotations.
Local Open Scope string_scope.
Local Open Scope list_scope.
Local Open Scope nat_scope.

(** * Runs that end alike *)
Lemma alike_bind {A B C D} (R : A -> B -> Prop) (T : C -> D -> Prop) x y f g :
  alike R x y -> (forall a b, R a b -> alike T (f a) (g b)) -> alike T (bind x f) (bind y g).
Proof. destruct x, y; cbn; try tauto; intros H K; auto. Qed.
Lemma alike_foldM {A B C} (R : A -> B -> Prop) (f : A -> C -> res A) g l : (forall a b x, In x l -> R a b -> alike R (f a x) (g b x)) ->
  forall a b, R a b -> alike R (foldM f l a) (foldM g l b).
Proof.
  induction l as [|x l IH]; intros H a b Hab; [exact Hab|]. cbn [foldM]. eapply alike_bind; [apply H; [left; reflexivity|exact Hab]|].
  intros a' b' H'. apply IH; [|exact H']. intros. apply H; [right|]; assumption.
Qed.
Lemma alike_mapM {A B C} (R : A -> B -> Prop) (f : C -> res A) g l : (forall x, In x l -> alike R (f x) (g x)) -> alike (Forall2 R) (mapM f l) (mapM g l).
Proof.
  induction l as [|x l IH]; intros H; cbn [mapM]; [constructor|]. eapply alike_bind; [apply H; left; reflexivity|]. intros a b Hab.
  eapply alike_bind; [apply IH; intros; apply H; right; assumption|]. intros u v Huv. constructor; assumption.
Qed.
Lemma alike_idxn {A B} (R : A -> B -> Prop) u v i : Forall2 R u v -> alike R (idxn u i) (idxn v i).
Proof. intros H. revert i. induction H as [|a b u v Hab _ IH]; intros [|i]; cbn; auto; try reflexivity. apply IH. Qed.
Lemma Forall2_upd {A B} (R : A -> B -> Prop) u v i a b : Forall2 R u v -> R a b -> Forall2 R (upd u i a) (upd v i b).
Proof. intros H Hab. revert i. induction H as [|x y u v Hxy Huv IH]; intros [|i]; cbn; constructor; auto. Qed.
Lemma alike_set {A B} (R : A -> B -> Prop) u v i a b : Forall2 R u v -> R a b -> alike (Forall2 R) (set_at u i a) (set_at v i b).
Proof. intros H Hab. unfold set_at. eapply alike_bind; [exact (alike_idxn R u v i H)|]. intros ? ? _. cbn. apply Forall2_upd; assumption. Qed.
Lemma alike_swap {A B} (R : A -> B -> Prop) u v i j : Forall2 R u v -> alike (Forall2 R) (swap_at u i j) (swap_at v i j).
Proof.
  intros H. unfold swap_at. eapply alike_bind; [exact (alike_idxn R u v i H)|]. intros a b Hab. eapply alike_bind; [exact (alike_idxn R u v j H)|].
  intros c d Hcd. cbn. apply Forall2_upd; [apply Forall2_upd|]; assumption.
Qed.
Lemma alike_same {A} (R : A -> A -> Prop) (x : res A) : (forall a, R a a) -> alike R x x.
Proof. intros H. destruct x; cbn; auto. Qed.
Lemma Forall2_same {A} (R : A -> A -> Prop) l : (forall a, R a a) -> Forall2 R l l.
Proof. intros H. induction l; constructor; auto. Qed.
Lemma Forall2_eq {A} (u v : list A) : Forall2 eq u v -> u = v.
Proof. induction 1; congruence. Qed.
Lemma Forall2_rep {A B} (R : A -> B -> Prop) a b n : R a b -> Forall2 R (repeat a n) (repeat b n).
Proof. intros H. induction n; cbn; constructor; auto. Qed.

(** * Doubles *)
Lemma dfmax_deq a a' b b' : deq a a' -> deq b b' -> deq (dfmax a b) (dfmax a' b').
Proof.
  intros H K. pose proof (dltb_proper _ _ H _ _ K) as E.
  destruct a, a'; cbn in H; try tauto; destruct b, b'; cbn in K; try tauto; unfold dfmax; first [exact H | exact K | exact I | rewrite E; match goal with |- context [if ?c then _ else _] => destruct c end; first [exact H | exact K | exact I]].
Qed.
Lemma dfmin_deq a a' b b' : deq a a' -> deq b b' -> deq (dfmin a b) (dfmin a' b').
Proof.
  intros H K. pose proof (dltb_proper _ _ K _ _ H) as E.
  destruct a, a'; cbn in H; try tauto; destruct b, b'; cbn in K; try tauto; unfold dfmin; first [exact H | exact K | exact I | rewrite E; match goal with |- context [if ?c then _ else _] => destruct c end; first [exact H | exact K | exact I]].
Qed.
Lemma deqb_deq a a' b b' : deq a a' -> deq b b' -> deqb a b = deqb a' b'.
Proof. intros H K. unfold deqb. rewrite (dleb_proper _ _ H _ _ K), (dleb_proper _ _ K _ _ H). reflexivity. Qed.
Lemma dabs_deq a b : deq a b -> deq (dabs a) (dabs b).
Proof. destruct a, b; cbn; try tauto. intros H. rewrite H. reflexivity. Qed.
Notation deql := (Forall2 deq).
Ltac dq := repeat first [assumption | reflexivity | apply dadd_proper | apply dmul_proper | apply dsub_proper | apply dopp_proper | apply ddiv_proper | apply dfmax_deq | apply dfmin_deq].

Ltac brk := match goal with |- context [if ?c then _ else _] => destruct c end; cbn [fst snd]; split; dq.

Section View.
Context (dexp dtanh : dbl -> dbl) (dpow : dbl -> Z -> dbl).
Notation kernel_at := (kernel_at dexp dtanh dpow).
Notation get_q := (get_q dexp dtanh dpow).

(** * Kernels *)
Record ksame (k k' : kernel) : Prop := {
  ks_x : length (k_x k) = length (k_x k');
  ks_sq : length (k_sq k) = length (k_sq k');
  ks_full : k_sq k = [] \/ length (k_sq k) = length (k_x k);
  ks_at : forall i j, alike deq (kernel_at k i j) (kernel_at k' i j) }.
Lemma idxn_eq {A} (u v : list A) i j : nth_error u i = nth_error v j -> idxn u i = idxn v j.
Proof. unfold idxn. intros ->. reflexivity. Qed.
Lemma kernel_swap_at k i j k1 : k_sq k = [] \/ length (k_sq k) = length (k_x k) -> kernel_swap k i j = Ok k1 ->
  length (k_x k1) = length (k_x k) /\ length (k_sq k1) = length (k_sq k) /\ forall a b, kernel_at k1 a b = kernel_at k (tr i j a) (tr i j b).
Proof.
  intros F E. unfold kernel_swap in E. assert (i < length (k_x k) /\ j < length (k_x k)) as [Hi Hj].
  { unfold swap_at, idxn in E. destruct (nth_error (k_x k) i) eqn:E1; [|discriminate E]. cbn [bind] in E.
    destruct (nth_error (k_x k) j) eqn:E2; [|discriminate E]. split; apply nth_error_Some; congruence. }
  destruct (swap_at_spec (k_x k) i j Hi Hj) as (xs & Ex & Lx & Nx). rewrite Ex in E. cbn [bind] in E.
  assert (exists sq, (match k_sq k with [] => Ok [] | _ => swap_at (k_sq k) i j end) = Ok sq /\ length sq = length (k_sq k) /\
            (k_sq k = [] /\ sq = [] \/ forall m, nth_error sq m = nth_error (k_sq k) (tr i j m))) as (sq & Es & Ls & Ns).
  { destruct F as [F|F]; [rewrite F; exists []; auto|]. destruct (k_sq k) as [|s0 sq0] eqn:Eq; [exists []; auto|]. rewrite <- Eq in *.
    destruct (swap_at_spec (k_sq k) i j) as (sq & E1 & L1 & N1); [lia|lia|]. exists sq. auto. }
  rewrite Es in E. injection E as <-. cbn [k_x k_sq]. split; [exact Lx|]. split; [exact Ls|]. intros a b. unfold SolverModel.kernel_at. cbn [k_x k_sq k_par].
  rewrite (idxn_eq xs (k_x k) a _ (Nx a)), (idxn_eq xs (k_x k) b _ (Nx b)).
  destruct (idxn (k_x k) (tr i j a)); [|reflexivity..]. cbn [bind]. destruct (idxn (k_x k) (tr i j b)); [|reflexivity..]. cbn [bind].
  destruct (p_kernel (k_par k)); try reflexivity. destruct Ns as [[N1 ->]|Ns].
  - rewrite N1. unfold idxn. assert (Z : forall n, nth_error (@nil dbl) n = None) by (intros []; reflexivity). rewrite !Z. reflexivity.
  - rewrite (idxn_eq _ _ a _ (Ns a)), (idxn_eq _ _ b _ (Ns b)). reflexivity.
Qed.
Lemma ksame_swap k k' i j : ksame k k' -> alike ksame (kernel_swap k i j) (kernel_swap k' i j).
Proof.
  intros [Lx Ls F At].
  assert (F' : k_sq k' = [] \/ length (k_sq k') = length (k_x k')).
  { destruct F as [F|F]; [left|right; congruence]. rewrite F in Ls. destruct (k_sq k'); [reflexivity|discriminate Ls]. }
  assert (alike (fun _ _ => True) (kernel_swap k i j) (kernel_swap k' i j)) as H.
  { unfold kernel_swap. eapply alike_bind; [apply (alike_swap (fun _ _ => True)), Forall2_by_nth; auto|]. intros u u' _. eapply alike_bind with (R := fun _ _ => True); [|intros; exact I].
    assert (T : alike (Forall2 (fun _ _ : dbl => True)) (swap_at (k_sq k) i j) (swap_at (k_sq k') i j)) by (apply alike_swap, Forall2_by_nth; auto).
    destruct (k_sq k) as [|a sq], (k_sq k') as [|a' sq']; try discriminate Ls; [exact I|]. destruct (swap_at (a :: sq) i j), (swap_at (a' :: sq') i j); cbn in *; auto. }
  destruct (kernel_swap k i j) as [k1| | |] eqn:E, (kernel_swap k' i j) as [k1'| | |] eqn:E'; try exact H. cbn.
  destruct (kernel_swap_at k i j k1 F E) as (A1 & A2 & A3). destruct (kernel_swap_at k' i j k1' F' E') as (B1 & B2 & B3).
  constructor; [congruence|congruence| |intros a b; rewrite A3, B3; apply At].
  destruct F as [F|F]; [left|right; congruence]. rewrite F in A2. destruct (k_sq k1); [reflexivity|discriminate A2].
Qed.
Definition qsame (q q' : qmatrix) : Prop := ksame (q_k q) (q_k q') /\ deql (q_y q) (q_y q').
Lemma qsame_swap q q' i j : qsame q q' -> alike qsame (qmatrix_swap q i j) (qmatrix_swap q' i j).
Proof.
  intros [K Y]. unfold qmatrix_swap. eapply alike_bind; [apply ksame_swap, K|]. intros k k' Hk. eapply alike_bind; [apply alike_swap, Y|]. intros y y' Hy. split; assumption.
Qed.
Lemma qsame_get q q' i n : qsame q q' -> alike deql (get_q q i n) (get_q q' i n).
Proof.
  intros [K Y]. unfold SolverModel.get_q. apply alike_mapM. intros j _. eapply alike_bind; [apply alike_idxn, Y|]. intros a a' Ha. eapply alike_bind; [apply alike_idxn, Y|].
  intros b b' Hb. eapply alike_bind; [apply (ks_at _ _ K)|]. intros c c' Hc. cbn. dq.
Qed.

(** * The solver *)
Record same (s s' : solver) : Prop := {
  sa_active : s_active s = s_active s'; sa_y : deql (s_y s) (s_y s'); sa_alpha : deql (s_alpha s) (s_alpha s'); sa_G : deql (s_G s) (s_G s');
  sa_status : s_status s = s_status s'; sa_Q : qsame (s_Q s) (s_Q s'); sa_C : s_C s = s_C s'; sa_b : deql (s_b s) (s_b s'); sa_set : s_set s = s_set s';
  sa_Gbar : deql (s_Gbar s) (s_Gbar s'); sa_l : s_l s = s_l s'; sa_un : s_unshrinked s = s_unshrinked s'; sa_sh : s_shrinking s = s_shrinking s' }.
Lemma same_active s s' n : same s s' -> same (with_active s n) (with_active s' n). Proof. intros []; constructor; cbn; auto. Qed.
Lemma same_alpha s s' v v' : same s s' -> deql v v' -> same (with_alpha s v) (with_alpha s' v'). Proof. intros [] H; constructor; cbn; auto. Qed.
Lemma same_G s s' v v' : same s s' -> deql v v' -> same (with_G s v) (with_G s' v'). Proof. intros [] H; constructor; cbn; auto. Qed.
Lemma same_Gbar s s' v v' : same s s' -> deql v v' -> same (with_Gbar s v) (with_Gbar s' v'). Proof. intros [] H; constructor; cbn; auto. Qed.
Lemma same_status s s' v : same s s' -> same (with_status s v) (with_status s' v). Proof. intros []; constructor; cbn; auto. Qed.
Lemma same_un s s' v : same s s' -> same (with_unshrinked s v) (with_unshrinked s' v). Proof. intros []; constructor; cbn; auto. Qed.
Lemma status_same C a a' : deq a a' -> status_of C a = status_of C a'.
Proof. intros H. unfold status_of, dgeb. rewrite (dleb_proper C C (reflexivity C) _ _ H), (dleb_proper _ _ H d0 d0 (reflexivity d0)). reflexivity. Qed.
Lemma update_same s s' i : same s s' -> alike same (update_status s i) (update_status s' i).
Proof.
  intros H. unfold update_status. eapply alike_bind; [apply alike_idxn, (sa_alpha _ _ H)|]. intros a a' Ha. rewrite (sa_C _ _ H), (status_same _ _ _ Ha), (sa_status _ _ H).
  eapply alike_bind with (R := eq); [apply alike_same; reflexivity|]. intros v v' <-. apply same_status, H.
Qed.
Lemma add_same from n f f' v v' : (forall k, alike deq (f k) (f' k)) -> deql v v' -> alike deql (add_range from n f v) (add_range from n f' v').
Proof.
  intros F H. unfold add_range. apply alike_foldM; [|exact H]. intros u u' k _ Hu. eapply alike_bind; [apply alike_idxn, Hu|]. intros a a' Ha. eapply alike_bind; [apply F|].
  intros b b' Hb. apply alike_set; [exact Hu|dq].
Qed.
Lemma status_idx s s' i : same s s' -> alike eq (idxn (s_status s) i) (idxn (s_status s') i).
Proof. intros H. rewrite (sa_status _ _ H). apply alike_same. reflexivity. Qed.
Lemma swap_same s s' i j : same s s' -> alike same (swap_index s i j) (swap_index s' i j).
Proof.
  intros []. unfold swap_index. eapply alike_bind; [apply qsame_swap; eassumption|]. intros q q' Hq. eapply alike_bind; [apply alike_swap; eassumption|]. intros y y' Hy.
  eapply alike_bind; [apply alike_swap; eassumption|]. intros g g' Hg. eapply alike_bind; [apply alike_swap; eassumption|]. intros a a' Ha. eapply alike_bind; [apply alike_swap; eassumption|].
  intros b b' Hb. eapply alike_bind; [apply alike_swap; eassumption|]. intros gb gb' Hgb. rewrite sa_set0, sa_status0. eapply alike_bind with (R := eq); [apply alike_same; reflexivity|]. intros t t' <-.
  eapply alike_bind with (R := eq); [apply alike_same; reflexivity|]. intros st st' <-. constructor; cbn; auto.
Qed.
Lemma reconstruct_same s s' : same s s' -> alike same (reconstruct dexp dtanh dpow s) (reconstruct dexp dtanh dpow s').
Proof.
  intros H. unfold reconstruct. rewrite <- (sa_active _ _ H), <- (sa_l _ _ H). destruct (s_active s =? s_l s); [exact H|].
  eapply alike_bind with (R := deql).
  - apply alike_foldM; [|apply (sa_G _ _ H)]. intros g g' i _ Hg. eapply alike_bind; [apply alike_idxn, (sa_Gbar _ _ H)|]. intros a a' Ha.
    eapply alike_bind; [apply alike_idxn, (sa_b _ _ H)|]. intros b b' Hb. apply alike_set; [exact Hg|dq].
  - intros g g' Hg. eapply alike_bind with (R := deql).
    + apply alike_foldM; [|exact Hg]. intros u u' i _ Hu. eapply alike_bind; [apply status_idx, H|]. intros st st' <-. destruct (is_free st); [|exact Hu].
      eapply alike_bind; [apply qsame_get, (sa_Q _ _ H)|]. intros q q' Hq. eapply alike_bind; [apply alike_idxn, (sa_alpha _ _ H)|]. intros a a' Ha. apply add_same; [|exact Hu].
      intros k. eapply alike_bind; [apply alike_idxn, Hq|]. intros c c' Hc. cbn. dq.
    + intros u u' Hu. apply same_G; assumption.
Qed.
Definition wsame (w w' : wsel) : Prop := deq (g0 w) (g0 w') /\ deq (g1 w) (g1 w') /\ o0 w = o0 w' /\ o1 w = o1 w'.
Lemma up0_same w w' g g' i : wsame w w' -> deq g g' -> wsame (sel_up0 w g i) (sel_up0 w' g' i).
Proof. intros (A & B & C & D) H. unfold sel_up0, dgeb. rewrite (dleb_proper _ _ A _ _ H). destruct (dleb _ _); repeat split; cbn; auto. Qed.
Lemma up1_same w w' g g' i : wsame w w' -> deq g g' -> wsame (sel_up1 w g i) (sel_up1 w' g' i).
Proof. intros (A & B & C & D) H. unfold sel_up1, dgeb. rewrite (dleb_proper _ _ B _ _ H). destruct (dleb _ _); repeat split; cbn; auto. Qed.
Lemma select_same s s' out : same s s' -> alike eq (select_ws s out) (select_ws s' out).
Proof.
  intros H. unfold select_ws. rewrite <- (sa_active _ _ H). eapply alike_bind with (R := wsame).
  - apply alike_foldM; [|repeat split; reflexivity]. intros w w' i _ Hw. unfold sel_step. eapply alike_bind; [apply alike_idxn, (sa_y _ _ H)|]. intros y y' Hy.
    eapply alike_bind; [apply alike_idxn, (sa_G _ _ H)|]. intros g g' Hg. eapply alike_bind; [apply status_idx, H|]. intros st st' <-. cbn.
    rewrite (deqb_deq _ _ d1 d1 Hy (reflexivity d1)). pose proof (dopp_proper _ _ Hg) as Hn. destruct (deqb y' d1), (is_upper st), (is_lower st); auto using up0_same, up1_same.
  - intros w w' (A & B & C & D). cbn. rewrite (dltb_proper _ _ (dadd_proper _ _ A _ _ B) eps eps (reflexivity eps)), C, D. reflexivity.
Qed.
Lemma skip_same cmp s s' g0 g0' g1 g1' k : Proper (deq ==> deq ==> eq) cmp -> same s s' -> deq g0 g0' -> deq g1 g1' ->
  alike eq (shrink_skip cmp s g0 g1 k) (shrink_skip cmp s' g0' g1' k).
Proof.
  intros P H H0 H1. unfold shrink_skip. eapply alike_bind; [apply status_idx, H|]. intros st st' <-. eapply alike_bind; [apply alike_idxn, (sa_y _ _ H)|]. intros y y' Hy.
  eapply alike_bind; [apply alike_idxn, (sa_G _ _ H)|]. intros g g' Hg. cbn. rewrite (deqb_deq _ _ d1 d1 Hy (reflexivity d1)). pose proof (dopp_proper _ _ Hg) as Hn.
  rewrite (P _ _ Hn _ _ H0), (P _ _ Hn _ _ H1), (P _ _ Hg _ _ H0), (P _ _ Hg _ _ H1). reflexivity.
Qed.
Lemma shrink_same n : forall k g0 g0' g1 g1' s s', same s s' -> deq g0 g0' -> deq g1 g1' -> alike same (shrink_loop n k g0 g1 s) (shrink_loop n k g0' g1' s').
Proof.
  induction n as [|n IH]; intros k g0 g0' g1 g1' s s' H H0 H1; [exact H|]. cbn [shrink_loop]. eapply alike_bind; [apply skip_same; [|exact H|exact H0|exact H1]|].
  - intros a a' Ha b b' Hb. unfold dgeb. apply dleb_proper; assumption.
  - intros b b' <-. destruct b; [apply IH; assumption|]. rewrite <- (sa_active _ _ H). eapply alike_bind; [apply swap_same, same_active, H|]. intros t t' Ht. apply IH; assumption.
Qed.
Lemma unshrink_same n : forall k g0 g0' g1 g1' s s', same s s' -> deq g0 g0' -> deq g1 g1' -> alike same (unshrink_loop n k g0 g1 s) (unshrink_loop n k g0' g1' s').
Proof.
  induction n as [|n IH]; intros k g0 g0' g1 g1' s s' H H0 H1; [exact H|]. cbn [unshrink_loop]. eapply alike_bind; [apply skip_same; [exact dltb_proper|exact H|exact H0|exact H1]|].
  intros b b' <-. destruct b; [apply IH; assumption|]. rewrite <- (sa_active _ _ H). eapply alike_bind; [apply swap_same, H|]. intros t t' Ht. apply IH; [apply same_active|..]; assumption.
Qed.
Lemma shrinking_same s s' : same s s' -> alike same (do_shrinking dexp dtanh dpow s) (do_shrinking dexp dtanh dpow s').
Proof.
  intros H. unfold do_shrinking. eapply alike_bind; [apply select_same, H|]. intros [stop [oi oj]] ? <-. destruct stop; [exact H|].
  eapply alike_bind with (R := eq); [apply alike_same; reflexivity|]. intros i ? <-. eapply alike_bind with (R := eq); [apply alike_same; reflexivity|]. intros j ? <-.
  eapply alike_bind; [apply alike_idxn, (sa_y _ _ H)|]. intros yj yj' Hyj. eapply alike_bind; [apply alike_idxn, (sa_G _ _ H)|]. intros gj gj' Hgj.
  eapply alike_bind; [apply alike_idxn, (sa_y _ _ H)|]. intros yi yi' Hyi. eapply alike_bind; [apply alike_idxn, (sa_G _ _ H)|]. intros gi gi' Hgi.
  assert (A0 : deq (dmul (dopp yj) gj) (dmul (dopp yj') gj')) by dq. assert (A1 : deq (dmul yi gi) (dmul yi' gi')) by dq. cbn zeta.
  rewrite <- (sa_active _ _ H). eapply alike_bind; [apply shrink_same; eassumption|]. intros t t' Ht. rewrite <- (sa_un _ _ Ht).
  assert (E : dgtb (dopp (dadd (dmul (dopp yj) gj) (dmul yi gi))) eps10 = dgtb (dopp (dadd (dmul (dopp yj') gj') (dmul yi' gi'))) eps10).
  { unfold dgtb. apply dltb_proper; [reflexivity|]. apply dopp_proper, dadd_proper; assumption. }
  rewrite E. destruct (s_unshrinked t || _); [exact Ht|]. eapply alike_bind; [apply reconstruct_same, same_un, Ht|]. intros u u' Hu.
  rewrite <- (sa_l _ _ Hu), <- (sa_active _ _ Hu). apply unshrink_same; assumption.
Qed.
Lemma pair_same C yi yi' yj yj' gi gi' gj gj' ai ai' aj aj' qii qii' qjj qjj' qij qij' :
  deq yi yi' -> deq yj yj' -> deq gi gi' -> deq gj gj' -> deq ai ai' -> deq aj aj' -> deq qii qii' -> deq qjj qjj' -> deq qij qij' ->
  deq (fst (pair_update C yi yj gi gj ai aj qii qjj qij)) (fst (pair_update C yi' yj' gi' gj' ai' aj' qii' qjj' qij')) /\
  deq (snd (pair_update C yi yj gi gj ai aj qii qjj qij)) (snd (pair_update C yi' yj' gi' gj' ai' aj' qii' qjj' qij')).
Proof.
  intros Hyi Hyj Hgi Hgj Hai Haj Hii Hjj Hij. unfold pair_update. rewrite (deqb_deq _ _ _ _ Hyi Hyj). destruct (deqb yi' yj'); cbn [negb].
  - assert (Hd : deq (ddiv (dsub gi gj) (dfmax (dsub (dadd qii qjj) (dmul (Fin 2) qij)) d0)) (ddiv (dsub gi' gj') (dfmax (dsub (dadd qii' qjj') (dmul (Fin 2) qij')) d0))) by dq.
    match type of Hd with deq ?a ?b => set (e := a) in *; set (e' := b) in * end. assert (Hs : deq (dadd ai aj) (dadd ai' aj')) by dq. set (u := dadd ai aj) in *. set (u' := dadd ai' aj') in *.
    assert (Hx : deq (dsub ai e) (dsub ai' e')) by dq. assert (Hy : deq (dadd aj e) (dadd aj' e')) by dq. set (x := dsub ai e) in *. set (x' := dsub ai' e') in *.
    set (y := dadd aj e) in *. set (y' := dadd aj' e') in *. unfold dgtb. rewrite (dltb_proper C C (reflexivity C) _ _ Hs). destruct (dltb C u').
    + rewrite (dltb_proper C C (reflexivity C) _ _ Hx). destruct (dltb C x').
      * assert (K : deq (dsub u C) (dsub u' C)) by dq. rewrite (dltb_proper C C (reflexivity C) _ _ K). brk.
      * rewrite (dltb_proper C C (reflexivity C) _ _ Hy). brk.
    + rewrite (dltb_proper _ _ Hy d0 d0 (reflexivity d0)). destruct (dltb y' d0).
      * rewrite (dltb_proper _ _ Hs d0 d0 (reflexivity d0)). brk.
      * rewrite (dltb_proper _ _ Hx d0 d0 (reflexivity d0)). brk.
  - assert (Hd : deq (ddiv (dsub (dopp gi) gj) (dfmax (dadd (dadd qii qjj) (dmul (Fin 2) qij)) d0)) (ddiv (dsub (dopp gi') gj') (dfmax (dadd (dadd qii' qjj') (dmul (Fin 2) qij')) d0))) by dq.
    match type of Hd with deq ?a ?b => set (e := a) in *; set (e' := b) in * end. assert (Hs : deq (dsub ai aj) (dsub ai' aj')) by dq. set (u := dsub ai aj) in *. set (u' := dsub ai' aj') in *.
    assert (Hx : deq (dadd ai e) (dadd ai' e')) by dq. assert (Hy : deq (dadd aj e) (dadd aj' e')) by dq. set (x := dadd ai e) in *. set (x' := dadd ai' e') in *.
    set (y := dadd aj e) in *. set (y' := dadd aj' e') in *. unfold dgtb. rewrite (dltb_proper d0 d0 (reflexivity d0) _ _ Hs). destruct (dltb d0 u').
    + rewrite (dltb_proper _ _ Hy d0 d0 (reflexivity d0)). destruct (dltb y' d0).
      * rewrite (dltb_proper C C (reflexivity C) _ _ Hs). brk.
      * rewrite (dltb_proper C C (reflexivity C) _ _ Hx). brk.
    + rewrite (dltb_proper _ _ Hx d0 d0 (reflexivity d0)). destruct (dltb x' d0).
      * assert (K : deq (dopp u) (dopp u')) by dq. rewrite (dltb_proper C C (reflexivity C) _ _ K). brk.
      * rewrite (dltb_proper C C (reflexivity C) _ _ Hy). brk.
Qed.
Lemma gbar_same s s' i was : same s s' -> alike same (gbar_update dexp dtanh dpow s i was) (gbar_update dexp dtanh dpow s' i was).
Proof.
  intros H. unfold gbar_update. eapply alike_bind; [apply status_idx, H|]. intros st ? <-. destruct (Bool.eqb was (is_upper st)); [exact H|]. rewrite <- (sa_l _ _ H).
  eapply alike_bind; [apply qsame_get, (sa_Q _ _ H)|]. intros q q' Hq. eapply alike_bind with (R := deql).
  - apply add_same; [|apply (sa_Gbar _ _ H)]. intros k. eapply alike_bind; [apply alike_idxn, Hq|]. intros x x' Hx. rewrite (sa_C _ _ H). destruct was; cbn; dq.
  - intros v v' Hv. apply same_Gbar; assumption.
Qed.
Lemma step_same s s' i j : same s s' -> alike same (take_step dexp dtanh dpow s i j) (take_step dexp dtanh dpow s' i j).
Proof.
  intros H. unfold take_step. cbn zeta. rewrite <- (sa_active _ _ H). eapply alike_bind; [apply qsame_get, (sa_Q _ _ H)|]. intros qi qi' Hqi. eapply alike_bind; [apply qsame_get, (sa_Q _ _ H)|]. intros qj qj' Hqj.
  eapply alike_bind; [apply alike_idxn, (sa_alpha _ _ H)|]. intros ai ai' Hai. eapply alike_bind; [apply alike_idxn, (sa_alpha _ _ H)|]. intros aj aj' Haj.
  eapply alike_bind; [apply alike_idxn, (sa_y _ _ H)|]. intros yi yi' Hyi. eapply alike_bind; [apply alike_idxn, (sa_y _ _ H)|]. intros yj yj' Hyj.
  eapply alike_bind; [apply alike_idxn, (sa_G _ _ H)|]. intros gi gi' Hgi. eapply alike_bind; [apply alike_idxn, (sa_G _ _ H)|]. intros gj gj' Hgj.
  eapply alike_bind; [apply alike_idxn, Hqi|]. intros qii qii' Hii. eapply alike_bind; [apply alike_idxn, Hqj|]. intros qjj qjj' Hjj. eapply alike_bind; [apply alike_idxn, Hqi|]. intros qij qij' Hij.
  rewrite <- (sa_C _ _ H). destruct (pair_same (s_C s) _ _ _ _ _ _ _ _ _ _ _ _ _ _ _ _ _ _ Hyi Hyj Hgi Hgj Hai Haj Hii Hjj Hij) as [Pi Pj].
  destruct (pair_update (s_C s) yi yj gi gj ai aj qii qjj qij) as [bi bj]. destruct (pair_update (s_C s) yi' yj' gi' gj' ai' aj' qii' qjj' qij') as [bi' bj']. cbn [fst snd] in Pi, Pj.
  eapply alike_bind; [apply alike_set; [apply (sa_alpha _ _ H)|exact Pi]|]. intros a1 a1' Ha1. eapply alike_bind; [apply alike_set; [exact Ha1|exact Pj]|]. intros a2 a2' Ha2.
  eapply alike_bind with (R := deql).
  - apply add_same; [|apply (sa_G _ _ H)]. intros k. eapply alike_bind; [apply alike_idxn, Hqi|]. intros x x' Hx. eapply alike_bind; [apply alike_idxn, Hqj|]. intros y y' Hy. cbn. dq.
  - intros g g' Hg. eapply alike_bind; [apply status_idx, H|]. intros ui ? <-. eapply alike_bind; [apply status_idx, H|]. intros uj ? <-.
    eapply alike_bind; [apply update_same, same_G; [apply same_alpha|]; eassumption|]. intros s1 s1' H1. eapply alike_bind; [apply update_same, H1|]. intros s2 s2' H2.
    eapply alike_bind; [apply gbar_same, H2|]. intros s3 s3' H3. apply gbar_same, H3.
Qed.
Definition isame (r r' : iter_result) : Prop := match r, r' with Leave s, Leave s' => same s s' | Again c s, Again c' s' => c = c' /\ same s s' | _, _ => False end.
Lemma iter_same c s s' : same s s' -> alike isame (solve_iter dexp dtanh dpow c s) (solve_iter dexp dtanh dpow c s').
Proof.
  intros H. unfold solve_iter. cbn zeta. rewrite <- (sa_sh _ _ H), <- (sa_l _ _ H). eapply alike_bind with (R := fun p p' => fst p = fst p' /\ same (snd p) (snd p')).
  - destruct (_ =? 0)%Z; [|split; [reflexivity|exact H]]. eapply alike_bind with (R := same); [destruct (s_shrinking s); [apply shrinking_same|]; exact H|]. intros t t' Ht. split; [reflexivity|exact Ht].
  - intros [c1 t] [c1' t'] [E Ht]. cbn in E, Ht. subst c1'. eapply alike_bind; [apply select_same, Ht|]. intros [stop out] ? <-. destruct stop.
    + eapply alike_bind; [apply reconstruct_same, Ht|]. intros u u' Hu. rewrite <- (sa_l _ _ Hu). pose proof (same_active _ _ (s_l u) Hu) as Hv.
      eapply alike_bind; [apply select_same, Hv|]. intros [stop' out'] ? <-. destruct stop'; [exact Hv|].
      eapply alike_bind with (R := eq); [apply alike_same; reflexivity|]. intros i ? <-. eapply alike_bind with (R := eq); [apply alike_same; reflexivity|]. intros j ? <-.
      eapply alike_bind; [apply step_same, Hv|]. intros w w' Hw. split; [reflexivity|exact Hw].
    + eapply alike_bind with (R := eq); [apply alike_same; reflexivity|]. intros i ? <-. eapply alike_bind with (R := eq); [apply alike_same; reflexivity|]. intros j ? <-.
      eapply alike_bind; [apply step_same, Ht|]. intros w w' Hw. split; [reflexivity|exact Hw].
Qed.
Lemma loop_same fuel : forall c s s', same s s' -> alike same (solve_loop dexp dtanh dpow fuel c s) (solve_loop dexp dtanh dpow fuel c s').
Proof.
  induction fuel as [|n IH]; intros c s s' H; [exact I|]. cbn [solve_loop]. eapply alike_bind; [apply iter_same, H|]. intros [t|c1 t] [t'|c1' t'] Hr; [exact Hr|destruct Hr|destruct Hr|]. destruct Hr as [<- Hr]. apply IH, Hr.
Qed.
Lemma rho_same s s' : same s s' -> alike deq (calculate_rho s) (calculate_rho s').
Proof.
  intros H. unfold calculate_rho. rewrite <- (sa_active _ _ H).
  eapply alike_bind with (R := fun a a' => deq (fst (fst (fst a))) (fst (fst (fst a'))) /\ deq (snd (fst (fst a))) (snd (fst (fst a'))) /\ deq (snd (fst a)) (snd (fst a')) /\ snd a = snd a').
  - apply alike_foldM; [|repeat split; reflexivity]. intros [[[ub lb] sf] nf] [[[ub' lb'] sf'] nf'] i _ (A & B & C & D). cbn in A, B, C, D. subst nf'. unfold rho_step.
    eapply alike_bind; [apply alike_idxn, (sa_y _ _ H)|]. intros y y' Hy. eapply alike_bind; [apply alike_idxn, (sa_G _ _ H)|]. intros g g' Hg. eapply alike_bind; [apply status_idx, H|]. intros st ? <-.
    cbn [alike]. unfold dgtb. rewrite (dltb_proper d0 d0 (reflexivity d0) _ _ Hy), (dltb_proper _ _ Hy d0 d0 (reflexivity d0)).
    assert (Hm : deq (dmul y g) (dmul y' g')) by dq. destruct st; try destruct (dltb _ _); cbn [fst snd]; repeat split; dq.
  - intros [[[ub lb] sf] nf] [[[ub' lb'] sf'] nf'] (A & B & C & D). cbn in A, B, C, D. subst nf'. cbn [alike]. destruct (0 <? nf); dq.
Qed.
Lemma write_same s s' : same s s' -> alike deql (write_back s) (write_back s').
Proof.
  intros H. unfold write_back. rewrite <- (sa_l _ _ H), <- (sa_set _ _ H). apply alike_foldM; [|apply (sa_alpha _ _ H)]. intros a a' i _ Ha.
  eapply alike_bind with (R := eq); [apply alike_same; reflexivity|]. intros k ? <-. eapply alike_bind; [apply alike_idxn, Ha|]. intros x x' Hx. apply alike_set; assumption.
Qed.

(** * The problem *)
Variable p : svm_param.
Notation K := (training_kernel dexp dtanh dpow p).
Lemma kernel_new_at x : exists k, kernel_new (length x) x p = Ok k /\ length (k_x k) = length x /\ (length (k_sq k) = if (match p_kernel p with RBF => true | _ => false end) then length x else 0) /\
  forall i j, kernel_at k i j = do v <- idxn x i; do w <- idxn x j; Ok (K v w).
Proof.
  unfold kernel_new. rewrite mapM_idxn. cbn [bind].
  assert (Hs : mapM (fun i => do xi <- idxn x i; Ok (ndot xi xi)) (seq 0 (length x)) = Ok (map (fun v => ndot v v) x)).
  { apply mapM_ok. apply Forall2_by_nth; [rewrite seq_length, map_length; reflexivity|]. intros i a b Ha Hb. apply nth_error_nth with (d := 0) in Ha as Ea.
    assert (i < length x) by (rewrite <- (seq_length (length x) 0); apply nth_error_Some; congruence). rewrite seq_nth in Ea by lia. cbn in Ea. subst a.
    rewrite nth_error_map in Hb. unfold idxn. destruct (nth_error x i); [|discriminate Hb]. cbn in *. congruence. }
  destruct (p_kernel p) eqn:Ek; cbn [bind]; try (eexists; split; [reflexivity|]; split; [reflexivity|]; split; [reflexivity|]; intros i j; unfold SolverModel.kernel_at, training_kernel; cbn [k_x k_par k_sq]; rewrite Ek; reflexivity).
  rewrite Hs. cbn [bind]. eexists; split; [reflexivity|]. split; [reflexivity|]. split; [cbn; apply map_length|]. intros i j. unfold SolverModel.kernel_at, training_kernel. cbn [k_x k_par k_sq]. rewrite Ek.
  unfold idxn. rewrite !nth_error_map. destruct (nth_error x i); [|reflexivity]. cbn. destruct (nth_error x j); reflexivity.
Qed.
Lemma qmatrix_same x x' y : Forall2 (fun _ _ => True) x x' -> (forall i j v w v' w', nth_error x i = Some v -> nth_error x j = Some w -> nth_error x' i = Some v' -> nth_error x' j = Some w' -> deq (K v w) (K v' w')) ->
  alike qsame (qmatrix_new (length x) x p y) (qmatrix_new (length x) x' p y).
Proof.
  intros L H. assert (El : length x = length x') by (clear H; induction L; cbn; auto). unfold qmatrix_new. destruct (kernel_new_at x) as (k & -> & Lk & Sk & Ak). rewrite El at 1. destruct (kernel_new_at x') as (k' & -> & Lk' & Sk' & Ak').
  cbn [bind]. eapply alike_bind with (R := deql).
  - apply alike_mapM. intros i _. apply alike_same. reflexivity.
  - intros u u' Hu. split; [|exact Hu]. cbn. constructor; [congruence|destruct (p_kernel p); congruence| |].
    + destruct (p_kernel p); first [right; congruence | left; destruct (k_sq k); [reflexivity|discriminate Sk]].
    + intros i j. rewrite Ak, Ak'. unfold idxn. destruct (nth_error x i) as [v|] eqn:Ei, (nth_error x' i) as [v'|] eqn:Ei'; cbn [bind].
      * destruct (nth_error x j) as [w|] eqn:Ej, (nth_error x' j) as [w'|] eqn:Ej'; cbn; [eapply H; eassumption| | |reflexivity].
        -- apply nth_error_None in Ej'. assert (j < length x) by (apply nth_error_Some; congruence). lia.
        -- apply nth_error_None in Ej. assert (j < length x') by (apply nth_error_Some; congruence). lia.
      * apply nth_error_None in Ei'. assert (i < length x) by (apply nth_error_Some; congruence). lia.
      * apply nth_error_None in Ei. assert (i < length x') by (apply nth_error_Some; congruence). lia.
      * reflexivity.
Qed.
Theorem solve_same x x' b y fuel : length x = length x' ->
  (forall i j v w v' w', nth_error x i = Some v -> nth_error x j = Some w -> nth_error x' i = Some v' -> nth_error x' j = Some w' -> deq (K v w) (K v' w')) ->
  alike (fun r r' => deq (fst r) (fst r') /\ deql (snd r) (snd r')) (solve dexp dtanh dpow fuel (length x) b y p x) (solve dexp dtanh dpow fuel (length x) b y p x').
Proof.
  intros L H. unfold solve. eapply alike_bind with (R := same).
  - unfold solver_init. eapply alike_bind; [apply qmatrix_same; [apply Forall2_by_nth; auto|exact H]|]. intros q q' Hq. eapply alike_bind with (R := eq); [apply alike_same; reflexivity|]. intros g ? <-.
    apply alike_foldM.
    + intros s s' i _ Hs. eapply alike_bind; [apply status_idx, Hs|]. intros st ? <-. destruct (is_lower st); [exact Hs|]. eapply alike_bind; [apply qsame_get, (sa_Q _ _ Hs)|]. intros qi qi' Hqi.
      eapply alike_bind; [apply alike_idxn, (sa_alpha _ _ Hs)|]. intros a a' Ha. eapply alike_bind with (R := deql).
      * apply add_same; [|apply (sa_G _ _ Hs)]. intros k. eapply alike_bind; [apply alike_idxn, Hqi|]. intros c c' Hc. cbn. dq.
      * intros u u' Hu. eapply alike_bind with (R := deql).
        -- destruct (is_upper st); [|apply (sa_Gbar _ _ Hs)]. apply add_same; [|apply (sa_Gbar _ _ Hs)]. intros k. eapply alike_bind; [apply alike_idxn, Hqi|]. intros c c' Hc. cbn. dq.
        -- intros v v' Hv. apply same_Gbar; [apply same_G|]; assumption.
    + constructor; cbn; auto; apply Forall2_same; reflexivity.
  - intros s s' Hs. eapply alike_bind; [apply loop_same, Hs|]. intros t t' Ht. eapply alike_bind; [apply write_same, Ht|]. intros a a' Ha. eapply alike_bind; [apply rho_same, Ht|].
    intros r r' Hr. split; assumption.
Qed.
End View.
