(** Proofs about training and prediction of the support vector machine. *)
From Coq Require Import String ZArith QArith Qabs Bool Lia Lra Lqa Permutation Sorted List.
From Verif Require Import Base Spec BaseLemmas DblLemmas SortLemmas AttrModel InstanceListModel PerformanceModel SolverModel SvmSpec SvmModel SvmTrainSpec
  ListProofs KernelProofs SolverProofs SolverInvProofs SvmProofs.
Import ListNotations.
Local Open Scope string_scope.
Local Open Scope list_scope.
Local Open Scope nat_scope.

Lemma NoDup_app_intro {A} (l l' : list A) : NoDup l -> NoDup l' -> (forall x, In x l -> In x l' -> False) -> NoDup (l ++ l').
Proof.
  induction 1 as [|x l Hx Hl IH]; intros H' Hd; [exact H'|]. cbn [app]. constructor.
  - rewrite in_app_iff. intros [H|H]; [contradiction|]. apply (Hd x); [left; reflexivity|exact H].
  - apply IH; [exact H'|]. intros z H1 H2. apply (Hd z); [right; exact H1|exact H2].
Qed.
(** ** Pairs of classes *)
Lemma in_class_pairs c i j : In (i, j) (class_pairs c) <-> i < j /\ j < c.
Proof.
  unfold class_pairs. rewrite in_flat_map. split.
  - intros (x & Hx & H). apply in_map_iff in H as (z & E & Hz). injection E as -> ->. apply in_seq in Hx, Hz. lia.
  - intros [H1 H2]. exists i. split; [apply in_seq; lia|]. apply in_map_iff. exists j. split; [reflexivity|]. apply in_seq. lia.
Qed.
Lemma class_pairs_nodup c : NoDup (class_pairs c).
Proof.
  unfold class_pairs. pose proof (seq_NoDup c 0) as H. induction (seq 0 c) as [|i r IH]; simpl; [constructor|].
  inversion H; subst. apply NoDup_app_intro.
  - apply FinFun.Injective_map_NoDup; [|apply seq_NoDup]. intros a b E. congruence.
  - apply IH. assumption.
  - intros [a b] Ha Hb. apply in_map_iff in Ha as (z & E & _). injection E as -> ->. apply in_flat_map in Hb as (x & Hx & Hy). apply in_map_iff in Hy as (z' & E & _).
    injection E as -> ->. contradiction.
Qed.
Lemma class_pairs_length c : 2 * length (class_pairs c) = c * (c - 1).
Proof.
  assert (forall m s, s + m = c -> length (flat_map (fun i => map (pair i) (seq (S i) (c - S i))) (seq s m)) * 2 = m * (m - 1)) as H.
  { induction m as [|m IH]; intros s Hs; [reflexivity|]. cbn [seq flat_map]. rewrite app_length, map_length, seq_length. specialize (IH (S s) ltac:(lia)).
    replace (c - S s) with m by lia. destruct m; [simpl in *; lia|]. nia. }
  specialize (H c 0 eq_refl). unfold class_pairs. lia.
Qed.
Lemma class_pairs_div c : Nat.div (c * (c - 1)) 2 = length (class_pairs c).
Proof. rewrite <- class_pairs_length, Nat.mul_comm. apply Nat.div_mul. lia. Qed.

(** ** Folding with an invariant on the processed prefix *)
Lemma foldM_inv {S B} (f : S -> B -> res S) (P : list B) (I : list B -> S -> Prop) (why : Prop) s0 : I [] s0 ->
  (forall P1 x P2 s, P = P1 ++ x :: P2 -> I P1 s -> f s x = Diverge /\ why \/ exists s', f s x = Ok s' /\ I (P1 ++ [x]) s') ->
  foldM f P s0 = Diverge /\ why \/ exists s, foldM f P s0 = Ok s /\ I P s.
Proof.
  intros H0 Hs. assert (forall P2 P1 s, P = P1 ++ P2 -> I P1 s -> foldM f P2 s = Diverge /\ why \/ exists s', foldM f P2 s = Ok s' /\ I P s') as H.
  { induction P2 as [|x P2 IH]; intros P1 s E H.
    - right. exists s. rewrite app_nil_r in E. subst P1. split; [reflexivity|exact H].
    - cbn [foldM]. destruct (Hs P1 x P2 s E H) as [[-> Hw]|(s' & -> & H')]; [left; split; [reflexivity|exact Hw]|]. cbn [bind]. apply (IH (P1 ++ [x])); [rewrite <- app_assoc; exact E|exact H']. }
  apply (H P [] s0 eq_refl H0).
Qed.
Lemma foldM_inv_ok {S B} (f : S -> B -> res S) (P : list B) (I : list B -> S -> Prop) s0 : I [] s0 ->
  (forall P1 x P2 s, P = P1 ++ x :: P2 -> I P1 s -> exists s', f s x = Ok s' /\ I (P1 ++ [x]) s') ->
  exists s, foldM f P s0 = Ok s /\ I P s.
Proof.
  intros H0 Hs. assert (forall P2 P1 s, P = P1 ++ P2 -> I P1 s -> exists s', foldM f P2 s = Ok s' /\ I P s') as H.
  { induction P2 as [|x P2 IH]; intros P1 s E H.
    - exists s. rewrite app_nil_r in E. subst P1. split; [reflexivity|exact H].
    - cbn [foldM]. destruct (Hs P1 x P2 s E H) as (s' & -> & H'). cbn [bind]. apply (IH (P1 ++ [x])); [rewrite <- app_assoc; exact E|exact H']. }
  apply (H P [] s0 eq_refl H0).
Qed.

(** ** Blocks *)
Definition offs (counts : list nat) (i : nat) : nat := list_sum (firstn i counts).
Lemma offs_S counts i k : nth_error counts i = Some k -> offs counts (S i) = offs counts i + k.
Proof.
  unfold offs. revert i; induction counts as [|x r IH]; intros [|i] E; try discriminate; cbn [nth_error] in E.
  - injection E as ->. simpl. lia.
  - change (list_sum (firstn (S (S i)) (x :: r))) with (x + list_sum (firstn (S i) r)). change (list_sum (firstn (S i) (x :: r))) with (x + list_sum (firstn i r)). rewrite (IH i E). lia.
Qed.
Lemma starts_spec c counts : 1 <= c -> c <= length counts -> starts c counts = Ok (map (offs counts) (seq 0 c)).
Proof.
  intros H1 H2. unfold starts.
  destruct (foldM_inv_ok (fun st i => do s <- idxn st (i - 1); do k <- idxn counts (i - 1); Ok (st ++ [s + k])) (seq 1 (c - 1))
    (fun P1 st => st = map (offs counts) (seq 0 (S (length P1)))) [0]) as (st & E & Hst).
  - reflexivity.
  - intros P1 x P2 s E ->. assert (x = S (length P1)) as ->.
    { assert (nth_error (seq 1 (c - 1)) (length P1) = Some x) as Hn by (rewrite E, nth_error_app2, Nat.sub_diag by lia; reflexivity).
      assert (length P1 < c - 1) as Hlt. { rewrite <- (seq_length (c - 1) 1). apply nth_error_Some. congruence. }
      rewrite (nth_error_nth' _ 0) in Hn by (rewrite seq_length; exact Hlt). rewrite seq_nth in Hn by exact Hlt. injection Hn as <-. reflexivity. }
    assert (length P1 < c - 1) as Hlt. { rewrite <- (seq_length (c - 1) 1), E, app_length. simpl. lia. }
    replace (S (length P1) - 1) with (length P1) by lia.
    rewrite (idxn_some _ _ (offs counts (length P1))).
    2:{ rewrite nth_error_map, (nth_error_nth' _ 0) by (rewrite seq_length; lia). rewrite seq_nth by lia. reflexivity. }
    cbn [bind]. destruct (nth_error counts (length P1)) as [k|] eqn:Ek; [|apply nth_error_None in Ek; lia]. rewrite (idxn_some _ _ _ Ek). cbn [bind].
    eexists; split; [reflexivity|]. rewrite app_length. simpl (length [_]). rewrite (seq_S (length P1 + 1)). rewrite map_app. cbn [map Nat.add].
    replace (length P1 + 1) with (S (length P1)) by lia. rewrite (offs_S _ _ _ Ek). reflexivity.
  - rewrite E, Hst, seq_length. do 2 f_equal. f_equal. lia.
Qed.
Lemma starts_nth c counts st i : 1 <= c -> c <= length counts -> starts c counts = Ok st -> i < c -> idxn st i = Ok (offs counts i).
Proof.
  intros H1 H2 E Hi. rewrite (starts_spec c counts H1 H2) in E. injection E as <-. apply idxn_some. rewrite nth_error_map, (nth_error_nth' _ 0) by (rewrite seq_length; exact Hi).
  rewrite seq_nth by exact Hi. reflexivity.
Qed.
Lemma concat_split {A} (bs : list (list A)) i b : nth_error bs i = Some b ->
  concat bs = concat (firstn i bs) ++ b ++ concat (skipn (S i) bs) /\ length (concat (firstn i bs)) = offs (map (@length A) bs) i.
Proof.
  revert i; induction bs as [|x bs IH]; intros [|i] E; try discriminate.
  - injection E as ->. split; reflexivity.
  - destruct (IH i E) as [E1 E2]. split.
    + cbn [concat firstn skipn]. rewrite E1 at 1. rewrite <- app_assoc. reflexivity.
    + cbn [concat firstn map]. rewrite app_length, E2. reflexivity.
Qed.
Lemma concat_upd {A} (bs : list (list A)) i b b' : nth_error bs i = Some b -> concat (upd bs i b') = concat (firstn i bs) ++ b' ++ concat (skipn (S i) bs).
Proof.
  revert i; induction bs as [|x bs IH]; intros [|i] E; try discriminate.
  - reflexivity.
  - cbn [upd concat firstn skipn]. rewrite (IH i E), <- app_assoc. reflexivity.
Qed.
Lemma map_length_upd {A} (bs : list (list A)) i b b' : nth_error bs i = Some b -> length b' = length b -> map (@length A) (upd bs i b') = map (@length A) bs.
Proof.
  revert i; induction bs as [|x bs IH]; intros [|i] E Hl; try discriminate.
  - injection E as ->. cbn. rewrite Hl. reflexivity.
  - cbn [upd map]. rewrite (IH i E Hl). reflexivity.
Qed.
Lemma nth_mid {A} (pre : list A) x post : nth_error (pre ++ x :: post) (length pre) = Some x.
Proof. rewrite nth_error_app2, Nat.sub_diag by lia. reflexivity. Qed.
Lemma upd_mid {A} (pre : list A) x x' post : upd (pre ++ x :: post) (length pre) x' = pre ++ x' :: post.
Proof. induction pre as [|z pre IH]; [reflexivity|]. cbn [app length upd]. rewrite IH. reflexivity. Qed.
Lemma set_mid {A} (pre : list A) x x' post : set_at (pre ++ x :: post) (length pre) x' = Ok (pre ++ x' :: post).
Proof. unfold set_at. rewrite (idxn_some _ _ _ (nth_mid pre x post)). cbn [bind]. rewrite upd_mid. reflexivity. Qed.
Lemma read_block {A} (seg : list A) : forall pre post from a, from + a = length pre ->
  mapM (fun k => idxn (pre ++ seg ++ post) (from + k)) (seq a (length seg)) = Ok seg.
Proof.
  induction seg as [|x seg IH]; intros pre post from a E; [reflexivity|]. cbn [length seq mapM app]. rewrite E, (idxn_some _ _ _ (nth_mid pre x (seg ++ post))). cbn [bind].
  specialize (IH (pre ++ [x]) post from (S a) ltac:(rewrite app_length; simpl; lia)). rewrite <- app_assoc in IH. cbn [app] in IH. rewrite IH. reflexivity.
Qed.

(** ** Marking and selecting *)
Definition nonzero (q : Q) : bool := dgtb (dabs (Fin q)) d0.
Lemma nonzero_false q : nonzero q = false -> (q == 0)%Q.
Proof.
  unfold nonzero, dgtb, dabs, d0. intros H. apply dltb_fin_false in H. pose proof (Qabs_nonneg q) as Hn. revert H Hn. apply Qabs_case; intros; lra.
Qed.
Definition orm (bs : list bool) (als : list Q) : list bool := map (fun ba => fst ba || nonzero (snd ba)) (combine bs als).
Lemma mark_ok al bs : forall als pre post apre apost from off a, length bs = length als -> al = apre ++ map Fin als ++ apost ->
  from + a = length pre -> off + a = length apre ->
  foldM (fun nz k => do b <- idxn nz (from + k);
                     if b : bool then Ok nz
                     else do a <- idxn al (off + k);
                          if dgtb (dabs a) d0 then set_at nz (from + k) true else Ok nz) (seq a (length bs)) (pre ++ bs ++ post) = Ok (pre ++ orm bs als ++ post).
Proof.
  induction bs as [|b bs IH]; intros [|q als] pre post apre apost from off a Hl -> Ef Eo; try discriminate; [reflexivity|].
  cbn [length seq foldM app]. rewrite Ef, (idxn_some _ _ _ (nth_mid pre b (bs ++ post))). cbn [bind].
  assert ((if b then Ok (pre ++ b :: bs ++ post)
           else do a0 <- idxn (apre ++ (map Fin (q :: als)) ++ apost) (off + a);
                if dgtb (dabs a0) d0 then set_at (pre ++ b :: bs ++ post) (length pre) true else Ok (pre ++ b :: bs ++ post)) = Ok (pre ++ (b || nonzero q) :: bs ++ post)) as ->.
  { destruct b; [reflexivity|]. rewrite Eo. cbn [map app]. rewrite (idxn_some _ _ _ (nth_mid apre (Fin q) (map Fin als ++ apost))). cbn [bind orb]. fold (nonzero q).
    destruct (nonzero q); [apply set_mid|reflexivity]. }
  cbn [bind]. specialize (IH als (pre ++ [b || nonzero q]) post (apre ++ [Fin q]) apost from off (S a)).
  rewrite <- !app_assoc in IH. cbn [app] in IH. rewrite IH; [reflexivity|simpl in Hl; lia|reflexivity|rewrite app_length; simpl; lia|rewrite app_length; simpl; lia].
Qed.
Lemma orm_length bs als : length bs = length als -> length (orm bs als) = length bs.
Proof. intros H. unfold orm. rewrite map_length, combine_length. lia. Qed.
(** later marks contain earlier ones *)
Definition grows (bs bs' : list bool) : Prop := Forall2 (fun b b' => b = true -> b' = true) bs bs'.
Lemma grows_refl bs : grows bs bs.
Proof. induction bs; constructor; auto. Qed.
Lemma orm_grows bs als : length bs = length als -> grows bs (orm bs als).
Proof. revert als; induction bs as [|b bs IH]; intros [|q als] H; try discriminate; constructor; [simpl; intros ->; reflexivity|]. apply IH. simpl in H. lia. Qed.
(** an unmarked vector has multiplier zero *)
Definition covers (bs : list bool) (als : list Q) : Prop := Forall2 (fun b q => b = false -> (q == 0)%Q) bs als.
Lemma orm_covers bs als : length bs = length als -> covers (orm bs als) als.
Proof.
  revert als; induction bs as [|b bs IH]; intros [|q als] H; try discriminate; constructor; [|apply IH; simpl in H; lia].
  simpl. intros E. apply orb_false_iff in E as [_ E]. apply nonzero_false, E.
Qed.
Lemma covers_grow bs bs' als : grows bs bs' -> covers bs als -> covers bs' als.
Proof.
  intros H. revert als. induction H as [|b b' bs bs' Hb _ IH]; intros als HC; inversion HC as [|? q ? als' Hq HC']; subst; constructor.
  - intros E. apply Hq. destruct b; [specialize (Hb eq_refl); congruence|reflexivity].
  - apply IH, HC'.
Qed.
Definition picks {A} (bs : list bool) (l : list A) : list A := map fst (filter snd (combine l bs)).
Lemma picks_cons {A} b bs (x : A) l : picks (b :: bs) (x :: l) = (if b then [x] else []) ++ picks bs l.
Proof. unfold picks. cbn [combine filter snd]. destruct b; reflexivity. Qed.
Lemma picks_app {A} bs bs' (l l' : list A) : length bs = length l -> picks (bs ++ bs') (l ++ l') = picks bs l ++ picks bs' l'.
Proof. revert l; induction bs as [|b bs IH]; intros [|x l] H; try discriminate; [reflexivity|]. cbn [app]. rewrite !picks_cons, IH by (simpl in H; lia). rewrite app_assoc. reflexivity. Qed.
Lemma picks_length {A} bs (l : list A) : length bs = length l -> length (picks bs l) = countb (fun b => b) bs.
Proof.
  revert l; induction bs as [|b bs IH]; intros [|x l] H; try discriminate; [reflexivity|]. rewrite picks_cons, app_length, IH by (simpl in H; lia).
  unfold countb. cbn [filter]. destruct b; reflexivity.
Qed.
Lemma picks_concat {A} (nzb : list (list bool)) : forall xb : list (list A), map (@length bool) nzb = map (@length A) xb ->
  picks (concat nzb) (concat xb) = concat (map (fun nx => picks (fst nx) (snd nx)) (combine nzb xb)).
Proof.
  induction nzb as [|nz nzb IH]; intros [|x xb] H; try discriminate; [reflexivity|]. cbn [map] in H. injection H as H1 H2. cbn [concat combine map fst snd].
  rewrite picks_app by exact H1. rewrite (IH xb H2). reflexivity.
Qed.
Lemma picks_map {A B} (f : A -> B) bs l : picks bs (map f l) = map f (picks bs l).
Proof. revert l; induction bs as [|b bs IH]; intros [|x l]; try reflexivity. cbn [map]. rewrite !picks_cons, map_app, IH. destruct b; reflexivity. Qed.
Lemma marked_ok bs : forall pre post from a c, from + a = length pre ->
  foldM (fun c k => do b <- idxn (pre ++ bs ++ post) (from + k); Ok (if b : bool then S c else c)) (seq a (length bs)) c = Ok (c + countb (fun b => b) bs).
Proof.
  induction bs as [|b bs IH]; intros pre post from a c E; [cbn; rewrite Nat.add_0_r; reflexivity|]. cbn [length seq foldM app]. rewrite E, (idxn_some _ _ _ (nth_mid pre b (bs ++ post))). cbn [bind].
  specialize (IH (pre ++ [b]) post from (S a) (if b then S c else c) ltac:(rewrite app_length; simpl; lia)). rewrite <- app_assoc in IH. cbn [app] in IH. rewrite IH.
  unfold countb. cbn [filter]. destruct b; cbn [length]; f_equal; lia.
Qed.

(** ** Writing coefficients *)
Definition put {A} (q : nat) (v row : list A) : list A := firstn q row ++ v ++ skipn (q + length v) row.
Definition seg {A} (q n : nat) (row : list A) : list A := firstn n (skipn q row).
Lemma put_length {A} q (v row : list A) : q + length v <= length row -> length (put q v row) = length row.
Proof. intros H. unfold put. rewrite !app_length, firstn_length, skipn_length. lia. Qed.
Lemma seg_put_same {A} q (v row : list A) : q + length v <= length row -> seg q (length v) (put q v row) = v.
Proof.
  intros H. unfold seg, put. rewrite skipn_app, firstn_length, Nat.min_l by lia. rewrite skipn_all2 by (rewrite firstn_length; lia). rewrite Nat.sub_diag. cbn [app skipn].
  rewrite firstn_app, Nat.sub_diag, firstn_all. cbn. apply app_nil_r.
Qed.
Lemma nth_error_firstn {A} n (l : list A) k : nth_error (firstn n l) k = if k <? n then nth_error l k else None.
Proof.
  revert n k; induction l as [|x l IH]; intros [|n] [|k]; cbn [firstn nth_error]; try reflexivity.
  - destruct (S k <? S n); reflexivity.
  - rewrite IH. reflexivity.
Qed.
Lemma nth_error_skipn {A} n (l : list A) k : nth_error (skipn n l) k = nth_error l (n + k).
Proof. revert n; induction l as [|x l IH]; intros [|n]; cbn [skipn nth_error Nat.add]; try reflexivity; [destruct k; reflexivity|]. apply IH. Qed.
Lemma seg_nth {A} q n (row : list A) k : nth_error (seg q n row) k = if k <? n then nth_error row (q + k) else None.
Proof. unfold seg. rewrite nth_error_firstn, nth_error_skipn. reflexivity. Qed.
Lemma put_nth_out {A} q (v row : list A) k : q + length v <= length row -> k < q \/ q + length v <= k -> nth_error (put q v row) k = nth_error row k.
Proof.
  intros H [Hk|Hk]; unfold put.
  - rewrite nth_error_app1 by (rewrite firstn_length; lia). rewrite nth_error_firstn. destruct (Nat.ltb_spec k q); [reflexivity|lia].
  - rewrite nth_error_app2 by (rewrite firstn_length; lia). rewrite firstn_length, Nat.min_l by lia. rewrite nth_error_app2 by lia. rewrite nth_error_skipn. f_equal. lia.
Qed.
Lemma seg_put_other {A} q (v row : list A) q' n : q + length v <= length row -> q' + n <= q \/ q + length v <= q' -> seg q' n (put q v row) = seg q' n row.
Proof.
  intros H Hd. apply list_ext. intros k. rewrite !seg_nth. destruct (Nat.ltb_spec k n); [|reflexivity]. apply put_nth_out; [exact H|]. lia.
Qed.
Lemma skipn_skipn_ {A} a b (l : list A) : skipn a (skipn b l) = skipn (b + a) l.
Proof. revert b; induction l as [|x l IH]; intros [|b]; cbn [skipn Nat.add]; try reflexivity; [destruct a; reflexivity|]. apply IH. Qed.
Lemma seg_split {A} q n (row : list A) : q + n <= length row -> row = firstn q row ++ seg q n row ++ skipn (q + n) row.
Proof.
  intros H. unfold seg. rewrite <- (firstn_skipn q row) at 1. f_equal. rewrite <- (firstn_skipn n (skipn q row)) at 1. f_equal. rewrite skipn_skipn_. reflexivity.
Qed.
Lemma seg_length {A} q n (row : list A) : q + n <= length row -> length (seg q n row) = n.
Proof. intros H. unfold seg. rewrite firstn_length, skipn_length. lia. Qed.
Lemma write_coef_ok nz al bs : forall als npre npost apre apost rpre rseg rpost off from a, length bs = length als ->
  nz = npre ++ bs ++ npost -> al = apre ++ map Fin als ++ apost -> length rseg = countb (fun b => b) bs ->
  from + a = length npre -> off + a = length apre ->
  foldM (fun rq k => do b <- idxn nz (from + k);
                     if b : bool then do a <- idxn al (off + k); do row' <- set_at (fst rq) (snd rq) a; Ok (row', S (snd rq))
                     else Ok rq) (seq a (length bs)) (rpre ++ rseg ++ rpost, length rpre) =
  Ok (rpre ++ map Fin (picks bs als) ++ rpost, length rpre + length rseg).
Proof.
  induction bs as [|b bs IH]; intros [|q als] npre npost apre apost rpre rseg rpost off from a Hl -> -> Hr Ef Eo; try discriminate.
  - destruct rseg; [|discriminate]. cbn. rewrite Nat.add_0_r. reflexivity.
  - cbn [length seq foldM app map]. rewrite Ef, (idxn_some _ _ _ (nth_mid npre b (bs ++ npost))). cbn [bind]. rewrite picks_cons.
    destruct b.
    + destruct rseg as [|r rseg]; [discriminate|]. rewrite Eo, (idxn_some _ _ _ (nth_mid apre (Fin q) (map Fin als ++ apost))). cbn [bind fst snd app]. rewrite set_mid. cbn [bind].
      specialize (IH als (npre ++ [true]) npost (apre ++ [Fin q]) apost (rpre ++ [Fin q]) rseg rpost off from (S a)).
      rewrite <- !app_assoc in IH. cbn [app map] in IH. replace (length (rpre ++ [Fin q])) with (S (length rpre)) in IH by (rewrite app_length; simpl; lia).
      rewrite IH; [|simpl in Hl; lia|reflexivity|reflexivity|unfold countb in *; cbn [filter length] in Hr; lia|rewrite app_length; simpl; lia|rewrite app_length; simpl; lia].
      cbn [length map]. do 2 f_equal. lia.
    + cbn [app bind]. specialize (IH als (npre ++ [false]) npost (apre ++ [Fin q]) apost rpre rseg rpost off from (S a)).
      rewrite <- !app_assoc in IH. cbn [app map] in IH.
      rewrite IH; [reflexivity|simpl in Hl; lia|reflexivity|reflexivity|unfold countb in *; cbn [filter length] in Hr; lia|rewrite app_length; simpl; lia|rewrite app_length; simpl; lia].
Qed.
(** the cell of row [r] reserved for class [b] *)
Definition cell (nsv : list nat) (M : list (list dbl)) (r b : nat) : list dbl := seg (offs nsv b) (nth b nsv 0) (nth r M []).
Lemma offs_le nsv b : b < length nsv -> offs nsv b + nth b nsv 0 <= list_sum nsv.
Proof.
  intros H. unfold offs. revert b H; induction nsv as [|x r IH]; intros [|b] H; simpl in H; try lia; cbn [firstn nth].
  - simpl. lia.
  - specialize (IH b ltac:(lia)). change (list_sum (x :: firstn b r)) with (x + list_sum (firstn b r)). change (list_sum (x :: r)) with (x + list_sum r). lia.
Qed.
Lemma offs_mono nsv b b' : b < b' -> b' <= length nsv -> offs nsv b + nth b nsv 0 <= offs nsv b'.
Proof.
  intros H Hl. unfold offs. revert b b' H Hl; induction nsv as [|x r IH]; intros b b' H Hl; simpl in Hl; [lia|]. destruct b' as [|b']; [lia|]. destruct b as [|b].
  - cbn [firstn nth]. simpl. lia.
  - cbn [firstn nth]. specialize (IH b b' ltac:(lia) ltac:(lia)). change (list_sum (x :: firstn b r)) with (x + list_sum (firstn b r)). change (list_sum (x :: firstn b' r)) with (x + list_sum (firstn b' r)). lia.
Qed.
Lemma cell_put nsv M r0 b0 v r b : r0 < length M -> b0 < length nsv -> b < length nsv -> length v = nth b0 nsv 0 ->
  Forall (fun row => length row = list_sum nsv) M ->
  cell nsv (upd M r0 (put (offs nsv b0) v (nth r0 M []))) r b = if (r =? r0) && (b =? b0) then v else cell nsv M r b.
Proof.
  intros Hr Hb0 Hb Hv HM. unfold cell. assert (length (nth r0 M []) = list_sum nsv) as Hrow.
  { rewrite Forall_forall in HM. apply HM, nth_In, Hr. }
  pose proof (offs_le nsv b0 Hb0) as Hle. destruct (Nat.eqb_spec r r0) as [->|Hne]; cbn [andb].
  - rewrite (nth_error_nth _ _ _ (nth_upd_same M r0 _ Hr)). destruct (Nat.eqb_spec b b0) as [->|Hnb].
    + rewrite <- Hv. apply seg_put_same. lia.
    + apply seg_put_other; [lia|]. destruct (Nat.lt_trichotomy b b0) as [H|[H|H]]; [left|contradiction|right].
      * apply offs_mono; [exact H|lia].
      * rewrite Hv. apply offs_mono; [exact H|lia].
  - f_equal. destruct (nth_error M r) as [row|] eqn:E.
    + rewrite (nth_error_nth _ _ [] E). apply nth_error_nth. rewrite nth_upd_other by congruence. exact E.
    + apply nth_error_None in E. rewrite !nth_overflow; [reflexivity|exact E|rewrite upd_length; exact E].
Qed.

(** ** Weighted sums *)
Definition wsum (s k : list Q) : Q := qsum (map (fun p => fst p * snd p)%Q (combine s k)).
Lemma wsum_cons a s b k : wsum (a :: s) (b :: k) = (a * b + wsum s k)%Q.
Proof. reflexivity. Qed.
Lemma wsum_app s1 : forall k1 s2 k2, length s1 = length k1 -> (wsum (s1 ++ s2) (k1 ++ k2) == wsum s1 k1 + wsum s2 k2)%Q.
Proof.
  induction s1 as [|a s1 IH]; intros [|b k1] s2 k2 H; try discriminate; cbn [app].
  - unfold wsum at 2. cbn. ring.
  - rewrite !wsum_cons, (IH k1 s2 k2) by (simpl in H; lia). ring.
Qed.
Lemma wsum_picks bs : forall s k, covers bs s -> length k = length s -> (wsum (picks bs s) (picks bs k) == wsum s k)%Q.
Proof.
  induction bs as [|b bs IH]; intros s k H Hl; inversion H as [|? q ? s' Hq H']; subst; [reflexivity|].
  destruct k as [|z k]; [discriminate|]. rewrite !picks_cons, wsum_cons. specialize (IH s' k H' ltac:(simpl in Hl; lia)). destruct b; cbn [app].
  - rewrite wsum_cons, IH. reflexivity.
  - rewrite (Hq eq_refl), IH. ring.
Qed.
Lemma wsum_ext s : forall k k', Forall2 Qeq k k' -> (wsum s k == wsum s k')%Q.
Proof.
  induction s as [|a s IH]; intros k k' H; [reflexivity|]. destruct H as [|b b' k k' Hb H]; [reflexivity|]. rewrite !wsum_cons, (IH k k' H), Hb. reflexivity.
Qed.
Lemma coef_sum_ok coef kv cq : forall cpre cpost kpre kpost kq from a acc, length cq = length kq ->
  coef = cpre ++ map Fin cq ++ cpost -> kv = kpre ++ map Fin kq ++ kpost -> from + a = length cpre -> from + a = length kpre ->
  exists r, foldM (fun s k => do a <- idxn coef (from + k); do v <- idxn kv (from + k); Ok (dadd s (dmul a v))) (seq a (length cq)) (Fin acc) = Ok (Fin r) /\
    (r == acc + wsum cq kq)%Q.
Proof.
  induction cq as [|q cq IH]; intros cpre cpost kpre kpost [|z kq] from a acc Hl Ec Ek E1 E2; try discriminate.
  - exists acc. split; [reflexivity|]. unfold wsum. cbn. ring.
  - cbn [length seq foldM]. rewrite (idxn_some coef (from + a) (Fin q)) by (rewrite Ec, E1; apply nth_mid). cbn [bind].
    rewrite (idxn_some kv (from + a) (Fin z)) by (rewrite Ek, E2; apply nth_mid). cbn [bind dmul dadd].
    destruct (IH (cpre ++ [Fin q]) cpost (kpre ++ [Fin z]) kpost kq from (S a) (acc + q * z)%Q) as (r & Er & Hr).
    + simpl in Hl. lia.
    + rewrite <- app_assoc. exact Ec.
    + rewrite <- app_assoc. exact Ek.
    + rewrite app_length. simpl. lia.
    + rewrite app_length. simpl. lia.
    + exists r. split; [exact Er|]. rewrite Hr, wsum_cons. ring.
Qed.
Definition signed (sg : list bool) (als : list Q) : list Q := map (fun ba => snd ba * sign (fst ba))%Q (combine sg als).
Lemma signed_length sg als : length sg = length als -> length (signed sg als) = length als.
Proof. intros H. unfold signed. rewrite map_length, combine_length. lia. Qed.

Lemma sorted_set_unique a : forall b, StronglySorted slt a -> StronglySorted slt b -> (forall k, In k a <-> In k b) -> a = b.
Proof.
  induction a as [|x a IH]; intros [|z b] Ha Hb H.
  - reflexivity.
  - exfalso. apply (H z). left. reflexivity.
  - exfalso. apply (H x). left. reflexivity.
  - apply StronglySorted_inv in Ha as [Ha1 Ha2]. apply StronglySorted_inv in Hb as [Hb1 Hb2]. rewrite Forall_forall in Ha2, Hb2.
    assert (x = z) as ->.
    { destruct (proj1 (H x) (or_introl eq_refl)) as [E|Hx]; [congruence|]. destruct (proj2 (H z) (or_introl eq_refl)) as [E|Hz]; [congruence|].
      exfalso. apply (slt_irrefl x). apply (slt_trans x z x); [apply Ha2, Hz|apply Hb2, Hx]. }
    f_equal. apply IH; try assumption. intros k. split; intros Hk.
    + destruct (proj1 (H k) (or_intror Hk)) as [E|Hk']; [|exact Hk']. exfalso. subst k. apply (slt_irrefl z), Ha2, Hk.
    + destruct (proj2 (H k) (or_intror Hk)) as [E|Hk']; [|exact Hk']. exfalso. subst k. apply (slt_irrefl z), Hb2, Hk.
Qed.

Lemma Forall2_nth_l {A B} (P : A -> B -> Prop) l l' : Forall2 P l l' -> forall i x, nth_error l i = Some x -> exists y, nth_error l' i = Some y /\ P x y.
Proof.
  induction 1 as [|a b l l' H _ IH]; intros [|i] x E; simpl in E; try discriminate E.
  - injection E as <-. exists b. split; [reflexivity|exact H].
  - apply (IH i x E).
Qed.

Lemma app_inj_len {A} (a : list A) : forall b c d, length a = length b -> a ++ c = b ++ d -> a = b /\ c = d.
Proof.
  induction a as [|x a IH]; intros [|z b] c d H E; try discriminate; [split; [reflexivity|exact E]|]. injection E as -> E. destruct (IH b c d) as [-> ->]; [simpl in H; lia|exact E|]. split; reflexivity.
Qed.

Lemma map_Fin_inj u : forall v, map Fin u = map Fin v -> u = v.
Proof. induction u as [|x u IH]; intros [|z v] E; try discriminate; [reflexivity|]. injection E as E1 E. rewrite (IH v E), E1. reflexivity. Qed.

Lemma nth_combine {A B} (u : list A) : forall (v : list B) i x y, nth_error u i = Some x -> nth_error v i = Some y -> nth_error (combine u v) i = Some (x, y).
Proof. induction u as [|a u IH]; intros [|b v] [|i] x y Hx Hy; try discriminate; [simpl in *; congruence|]. simpl in *. apply IH; assumption. Qed.

(** ** Training *)
Section Train.
Context (dexp dtanh : dbl -> dbl) (dpow : dbl -> Z -> dbl) (p : svm_param) (gamma coef0 C : Q) (l : ilist)
  (T : train_case dexp dtanh dpow p gamma coef0 C l).
Notation kv := (kernel_value dexp dtanh dpow p gamma coef0).

Lemma members_in c x : In x (members c l) -> In x l.
Proof. unfold members. intros H. apply filter_In in H. apply H. Qed.
Lemma members_finite c : Forall finite_values (members c l).
Proof. apply Forall_forall. intros x H. pose proof (tc_finite _ _ _ _ _ _ _ _ T) as F. rewrite Forall_forall in F. apply F, (members_in c x H). Qed.
Lemma nodes_svec (x : instance) : finite_values x -> inst_nodes x = svec (qvec x).
Proof. unfold finite_values, inst_nodes, svec. intros E. rewrite E at 1. reflexivity. Qed.
Lemma nodes_svecs ls : Forall finite_values ls -> map inst_nodes ls = map svec (map qvec ls).
Proof. induction 1 as [|x ls H _ IH]; [reflexivity|]. cbn [map]. rewrite IH, nodes_svec by exact H. reflexivity. Qed.
Lemma sum_over_nth {A} (f : A -> Q) (d : A) vs : (sum_over (length vs) (fun j => f (nth j vs d)) == qsum (map f vs))%Q.
Proof.
  unfold sum_over. replace (map (fun j => f (nth j vs d)) (seq 0 (length vs))) with (map f vs); [reflexivity|].
  apply list_ext. intros k. rewrite !nth_error_map. destruct (Nat.lt_ge_cases k (length vs)) as [Hk|Hk].
  - rewrite (nth_error_nth' (seq 0 (length vs)) 0) by (rewrite seq_length; exact Hk). rewrite seq_nth by exact Hk. cbn [option_map Nat.add].
    rewrite (nth_error_nth' vs d Hk). reflexivity.
  - rewrite (proj2 (nth_error_None vs k) Hk). rewrite (proj2 (nth_error_None (seq 0 (length vs)) k)) by (rewrite seq_length; exact Hk). reflexivity.
Qed.
Lemma pair_sum_le (f : instance -> Q) a b (ls : ilist) : a <> b -> (forall x, 0 <= f x)%Q ->
  (qsum (map f (members a ls ++ members b ls)) <= qsum (map f ls))%Q.
Proof.
  intros Hab Hf. rewrite map_app, qsum_app. unfold members. induction ls as [|x ls IH]; [cbn; lra|]. cbn [filter map]. change (qsum (f x :: map f ls)) with (f x + qsum (map f ls))%Q.
  pose proof (Hf x). destruct (String.eqb_spec (label x) a) as [E|E], (String.eqb_spec (label x) b) as [E'|E']; cbn [map].
  - congruence.
  - change (qsum (f x :: ?t)) with (f x + qsum t)%Q. lra.
  - change (qsum (f x :: ?t)) with (f x + qsum t)%Q. lra.
  - lra.
Qed.
Lemma pair_case a b : a <> b -> svm_case dexp dtanh dpow p gamma coef0 C (pair_vectors a b l) (pair_signs a b l).
Proof.
  intros Hab. destruct T as [T1 T2 T3 T4 T5 T6 T7 T8]. constructor; try assumption.
  - unfold pair_signs, pair_vectors, pair_problem. rewrite app_length, !map_length, app_length. reflexivity.
  - intros k Hk. unfold pair_vectors in *. rewrite map_length in Hk.
    destruct (nth_lt (pair_problem a b l) k Hk) as (x & Ex). assert (nth k (map qvec (pair_problem a b l)) [] = qvec x) as En.
    { apply nth_error_nth. rewrite nth_error_map, Ex. reflexivity. }
    assert (In x l) as Hx. { apply nth_error_In in Ex. unfold pair_problem in Ex. apply in_app_iff in Ex as [H|H]; apply members_in in H; exact H. }
    pose proof (T8 x Hx) as HT.
    assert (sum_over (length (map qvec (pair_problem a b l))) (fun j => Qabs (kern dexp dtanh dpow p gamma coef0 (map qvec (pair_problem a b l)) k j)) <=
            qsum (map (fun z => Qabs (kv (qvec x) (qvec z))) l))%Q as Hle.
    { unfold kern, gram. rewrite En. rewrite (sum_over_nth (fun v => Qabs (qval (textbook_kernel dexp dtanh dpow (p_kernel p) (p_degree p) gamma coef0 (qvec x) v)))).
      rewrite map_map. apply (pair_sum_le (fun z => Qabs (kv (qvec x) (qvec z))) a b l Hab). intros. apply Qabs_nonneg. }
    set (S1 := sum_over _ _) in *. set (S2 := qsum _) in *. clearbody S1 S2. assert (C * S1 <= C * S2)%Q by (apply Qmult_le_l; assumption). lra.
Qed.

Lemma mapM_signed ys : forall als n pa py, length ys = length als ->
  mapM (fun i => do a <- idxn (pa ++ map Fin als) i; do yi <- idxn (py ++ map (fun b => Fin (sign b)) ys) i; Ok (dmul a yi)) (seq n (length als)) =
    (if (length pa =? n) && (length py =? n) then Ok (map Fin (signed ys als)) else
     mapM (fun i => do a <- idxn (pa ++ map Fin als) i; do yi <- idxn (py ++ map (fun b => Fin (sign b)) ys) i; Ok (dmul a yi)) (seq n (length als))).
Proof.
  induction ys as [|b ys IH]; intros [|q als] n pa py Hl; try discriminate.
  - destruct (_ && _); reflexivity.
  - destruct (Nat.eqb_spec (length pa) n) as [<-|]; [|reflexivity]. destruct (Nat.eqb_spec (length py) (length pa)) as [Ey|]; [|reflexivity]. cbn [andb].
    cbn [length seq mapM map]. rewrite (idxn_some _ _ _ (nth_mid pa (Fin q) (map Fin als))). cbn [bind].
    rewrite (idxn_some (py ++ Fin (sign b) :: map (fun b => Fin (sign b)) ys) (length pa) (Fin (sign b))) by (rewrite <- Ey; apply nth_mid). cbn [bind dmul].
    specialize (IH als (S (length pa)) (pa ++ [Fin q]) (py ++ [Fin (sign b)]) ltac:(simpl in Hl; lia)). rewrite !app_length in IH. simpl (length [_]) in IH.
    rewrite Ey in IH. replace (length pa + 1) with (S (length pa)) in IH by lia. rewrite Nat.eqb_refl in IH. cbn [andb] in IH. rewrite <- !app_assoc in IH. cbn [app] in IH.
    rewrite IH. reflexivity.
Qed.
Lemma single_ok fuel a b : a <> b ->
  let run := solve_single dexp dtanh dpow fuel p (map inst_nodes (members a l) ++ map inst_nodes (members b l))
    (repeat d1 (length (members a l)) ++ repeat (dopp d1) (length (members b l))) in
  run = Diverge /\ svm_solve dexp dtanh dpow p (pair_vectors a b l) (pair_signs a b l) fuel = Diverge \/ exists r als, svm_solve dexp dtanh dpow p (pair_vectors a b l) (pair_signs a b l) fuel = Ok (Fin r, map Fin als) /\
    length als = length (members a l) + length (members b l) /\ run = Ok (Fin r, map Fin (signed (pair_signs a b l) als)).
Proof.
  intros Hab run. subst run. unfold solve_single.
  assert (length (repeat d1 (length (members a l)) ++ repeat (dopp d1) (length (members b l))) = length (pair_vectors a b l)) as El.
  { unfold pair_vectors, pair_problem. rewrite map_length, !app_length, !repeat_length. reflexivity. }
  assert (map (fun v => if dgtb v d0 then d1 else dopp d1) (repeat d1 (length (members a l)) ++ repeat (dopp d1) (length (members b l))) =
          map (fun b => Fin (sign b)) (pair_signs a b l)) as Ey.
  { clear. unfold pair_signs. rewrite !map_app, !map_map. f_equal; [induction (members a l) as [|? ? IH]|induction (members b l) as [|? ? IH]]; cbn [length repeat map]; try reflexivity; rewrite IH; reflexivity. }
  assert (map inst_nodes (members a l) ++ map inst_nodes (members b l) = map svec (pair_vectors a b l)) as Ex.
  { unfold pair_vectors, pair_problem. rewrite !map_app. f_equal; apply nodes_svecs, members_finite. }
  rewrite El, Ey, Ex. fold (svm_solve dexp dtanh dpow p (pair_vectors a b l) (pair_signs a b l) fuel).
  change (dopp d1) with (Fin (-(1))). fold (svm_solve dexp dtanh dpow p (pair_vectors a b l) (pair_signs a b l) fuel).
  destruct (run_ok _ _ _ _ _ _ _ _ _ (pair_case a b Hab) fuel) as [E|(r & al & a' & E & _ & Hl & Hal & _)].
  { left. split; [|exact E]. change (bind (svm_solve dexp dtanh dpow p (pair_vectors a b l) (pair_signs a b l) fuel)
      (fun r => do al <- mapM (fun i => do a0 <- idxn (snd r) i; do yi <- idxn (map (fun b0 => Fin (sign b0)) (pair_signs a b l)) i; Ok (dmul a0 yi)) (seq 0 (length (pair_vectors a b l))); Ok (fst r, al)) = Diverge).
    rewrite E. reflexivity. }
  right. assert (exists als, al = map Fin als) as (als & ->).
  { clear -Hl Hal. exists (map qval al). apply list_ext. intros k. rewrite map_map, nth_error_map. destruct (Nat.lt_ge_cases k (length al)) as [Hk|Hk].
    - destruct (Hal k) as (q & Eq & _); [rewrite <- Hl; exact Hk|]. rewrite Eq. reflexivity.
    - rewrite (proj2 (nth_error_None al k) Hk). reflexivity. }
  rewrite map_length in Hl. assert (length als = length (members a l) + length (members b l)) as Hl2.
  { rewrite Hl. unfold pair_vectors, pair_problem. rewrite map_length, app_length. reflexivity. }
  exists r, als. split; [exact E|]. split; [exact Hl2|].
  change (bind (svm_solve dexp dtanh dpow p (pair_vectors a b l) (pair_signs a b l) fuel)
      (fun r => do al <- mapM (fun i => do a0 <- idxn (snd r) i; do yi <- idxn (map (fun b0 => Fin (sign b0)) (pair_signs a b l)) i; Ok (dmul a0 yi)) (seq 0 (length (pair_vectors a b l))); Ok (fst r, al)) =
      Ok (Fin r, map Fin (signed (pair_signs a b l) als))).
  rewrite E. cbn [bind fst snd]. rewrite <- Hl.
  assert (length (pair_signs a b l) = length als) as Hsg. { rewrite Hl2. unfold pair_signs. rewrite app_length, !map_length. reflexivity. }
  pose proof (mapM_signed (pair_signs a b l) als 0 [] [] Hsg) as Em. cbn [app length Nat.eqb andb] in Em. rewrite Em. reflexivity.
Qed.
Notation mem a := (members a l).
Definition cs : list string := mkeys (class_distribution (sort_class l)).
Notation counts := (map (fun c => length (mem c)) cs).
Lemma cs_nodup : NoDup cs.
Proof. unfold cs. rewrite class_distribution_cofl. apply msorted_nodup, cofl_sorted. Qed.
Lemma cs_in c : In c cs <-> In c (map label l).
Proof.
  unfold cs. rewrite class_distribution_cofl, in_cofl. split; intros H; apply in_map_iff in H as (x & <- & H); apply in_map;
    [apply (Permutation_in _ (Permutation_sym (ssort_perm _ _)) H) || apply (Permutation_in _ (ssort_perm _ _) H)|apply (Permutation_in _ (ssort_perm _ _) H) || apply (Permutation_in _ (Permutation_sym (ssort_perm _ _)) H)].
Qed.
Lemma sorted_blocks : sort_class l = concat (map (fun c => mem c) cs).
Proof.
  destruct (sort_class_blocks l) as (cs' & Hs & Hin & E). rewrite E at 1. rewrite flat_map_concat_map. f_equal.
  replace cs' with cs; [reflexivity|]. unfold cs. apply sorted_set_unique.
  - rewrite class_distribution_cofl. apply cofl_sorted.
  - exact Hs.
  - intros k. rewrite Hin. apply cs_in.
Qed.
Lemma counts_eq : map (fun k => ccount (class_distribution (sort_class l)) k) (mkeys (class_distribution (sort_class l))) = counts.
Proof.
  apply map_ext. intros k. rewrite class_count. unfold countb, members, of_class. apply Permutation_length.
  assert (Permutation (sort_class l) l) as Hp by (unfold sort_class; first [apply ssort_perm|apply Permutation_sym, ssort_perm]).
  clear -Hp. induction Hp as [|x a b _ IH|x y a|a b c _ IH1 _ IH2]; cbn [filter].
  - constructor.
  - destruct (String.eqb (label x) k); [constructor; exact IH|exact IH].
  - destruct (String.eqb (label x) k), (String.eqb (label y) k); try reflexivity. constructor.
  - etransitivity; eassumption.
Qed.
Lemma cs_pair i j a b : i <> j -> nth_error cs i = Some a -> nth_error cs j = Some b -> a <> b.
Proof.
  intros Hij Ea Eb ->. apply Hij. apply (proj1 (NoDup_nth_error cs) cs_nodup); [apply nth_error_Some; congruence|congruence].
Qed.
Lemma cs_pairs i j : In (i, j) (class_pairs (length cs)) -> exists a b, nth_error cs i = Some a /\ nth_error cs j = Some b /\ a <> b /\ i < j /\ j < length cs.
Proof.
  intros H. apply in_class_pairs in H as [H1 H2]. destruct (nth_lt cs i) as (a & Ea); [lia|]. destruct (nth_lt cs j H2) as (b & Eb).
  exists a, b. split; [exact Ea|]. split; [exact Eb|]. split; [apply (cs_pair i j); [lia|assumption|assumption]|]. split; assumption.
Qed.
Definition xb : list (list (list node)) := map (fun c => map inst_nodes (mem c)) cs.
Lemma xb_concat : map inst_nodes (sort_class l) = concat xb.
Proof. rewrite sorted_blocks, concat_map, map_map. reflexivity. Qed.
Lemma xb_lengths : map (@length (list node)) xb = counts.
Proof. unfold xb. rewrite map_map. apply map_ext. intros c. apply map_length. Qed.

(** what is known about the pair (i, j) with solution [w], given the marks *)
Record pair_out (fuel : nat) (nzb : list (list bool)) (ij : nat * nat) (w : dbl * list dbl) (a b : string) (r : Q) (als s1 s2 : list Q) (n1 n2 : list bool) : Prop := {
  po_a : nth_error cs (fst ij) = Some a;
  po_b : nth_error cs (snd ij) = Some b;
  po_solve : svm_solve dexp dtanh dpow p (pair_vectors a b l) (pair_signs a b l) fuel = Ok (Fin r, map Fin als);
  po_len : length als = length (mem a) + length (mem b);
  po_signed : signed (pair_signs a b l) als = s1 ++ s2;
  po_s1 : length s1 = length (mem a);
  po_w : w = (Fin r, map Fin (s1 ++ s2));
  po_n1 : nth_error nzb (fst ij) = Some n1;
  po_n2 : nth_error nzb (snd ij) = Some n2;
  po_c1 : covers n1 s1;
  po_c2 : covers n2 s2 }.
Definition pair_fact fuel nzb ij w : Prop := exists a b r als s1 s2 n1 n2, pair_out fuel nzb ij w a b r als s1 s2 n1 n2.
Lemma pair_fact_grow fuel nzb nzb' ij w : Forall2 grows nzb nzb' -> pair_fact fuel nzb ij w -> pair_fact fuel nzb' ij w.
Proof.
  intros G (a & b & r & als & s1 & s2 & n1 & n2 & [H1 H2 H3 H4 H5 H6 H7 H8 H9 H10 H11]).
  destruct (Forall2_nth_l _ _ _ G _ _ H8) as (n1' & E1 & G1). destruct (Forall2_nth_l _ _ _ G _ _ H9) as (n2' & E2 & G2).
  exists a, b, r, als, s1, s2, n1', n2'. constructor; try assumption; eapply covers_grow; eassumption.
Qed.
Lemma upd_grows nzb i n n' : nth_error nzb i = Some n -> grows n n' -> Forall2 grows nzb (upd nzb i n').
Proof.
  revert i; induction nzb as [|x nzb IH]; intros [|i] E G; try discriminate; cbn [upd].
  - injection E as ->. constructor; [exact G|]. clear. induction nzb; constructor; [apply grows_refl|assumption].
  - constructor; [apply grows_refl|apply (IH i E G)].
Qed.
Lemma grows_trans a b c : grows a b -> grows b c -> grows a c.
Proof.
  intros H. revert c. induction H as [|x y a b Hx _ IH]; intros c H2; inversion H2; subst; constructor; [auto|apply IH; assumption].
Qed.
Lemma blocks_trans a b c : Forall2 grows a b -> Forall2 grows b c -> Forall2 grows a c.
Proof.
  intros H. revert c. induction H as [|x y a b Hx _ IH]; intros c H2; inversion H2; subst; constructor; [eapply grows_trans; eassumption|auto].
Qed.
Lemma mark_block al als apre apost nzb i n off : nth_error nzb i = Some n -> length n = length als -> al = apre ++ map Fin als ++ apost -> off = length apre ->
  mark al off (offs (map (@length bool) nzb) i) (length n) (concat nzb) = Ok (concat (upd nzb i (orm n als))).
Proof.
  intros E Hl Ea Eo. destruct (concat_split nzb i n E) as [E1 E2]. unfold mark. rewrite E1. rewrite (concat_upd nzb i n _ E).
  apply (mark_ok al n als _ _ apre apost _ off 0); [exact Hl|exact Ea|rewrite Nat.add_0_r; symmetry; exact E2|rewrite Nat.add_0_r; exact Eo].
Qed.
Lemma block_read i a : nth_error cs i = Some a -> mapM (fun k => idxn (concat xb) (offs counts i + k)) (seq 0 (length (mem a))) = Ok (map inst_nodes (mem a)).
Proof.
  intros E. assert (nth_error xb i = Some (map inst_nodes (mem a))) as Ex by (unfold xb; rewrite nth_error_map, E; reflexivity).
  destruct (concat_split xb i _ Ex) as [E1 E2]. rewrite E1. rewrite <- (map_length inst_nodes (mem a)). apply read_block. rewrite Nat.add_0_r, E2, xb_lengths. reflexivity.
Qed.
Lemma counts_nth i a : nth_error cs i = Some a -> nth_error counts i = Some (length (mem a)).
Proof. intros E. rewrite nth_error_map, E. reflexivity. Qed.
Lemma counts_length : length counts = length cs.
Proof. apply map_length. Qed.
Lemma map_len_nth {A} (bs : list (list A)) i a : map (@length A) bs = counts -> nth_error cs i = Some a -> exists b, nth_error bs i = Some b /\ length b = length (mem a).
Proof.
  intros E Ea. pose proof (counts_nth i a Ea) as H. rewrite <- E, nth_error_map in H. destruct (nth_error bs i) as [b|]; [|discriminate]. exists b. split; [reflexivity|]. injection H as H. exact H.
Qed.
Definition pairs_inv fuel (P : list (nat * nat)) (st : list (dbl * list dbl) * list bool) : Prop :=
  exists nzb, snd st = concat nzb /\ map (@length bool) nzb = counts /\ Forall2 (pair_fact fuel nzb) P (fst st).
(** one of the two-class problems is not solved within [fuel] *)
Definition unsolved (fuel : nat) : Prop := exists a b, In a cs /\ In b cs /\ a <> b /\
  svm_solve dexp dtanh dpow p (pair_vectors a b l) (pair_signs a b l) fuel = Diverge.
Lemma pair_fold fuel st0 : length cs <> 0 -> starts (length cs) counts = Ok st0 ->
  let run := foldM (pair_step dexp dtanh dpow fuel p st0 counts (concat xb)) (class_pairs (length cs)) ([], repeat false (length (sort_class l))) in
  run = Diverge /\ unsolved fuel \/ exists st, run = Ok st /\ pairs_inv fuel (class_pairs (length cs)) st.
Proof.
  intros Hne Est run. subst run. apply foldM_inv.
  - exists (map (fun c => repeat false (length (mem c))) cs). cbn [fst snd]. split; [|split; [|constructor]].
    + rewrite sorted_blocks. clear. induction cs as [|c r IH]; [reflexivity|]. cbn [map concat]. rewrite app_length, repeat_app, IH. reflexivity.
    + rewrite map_map. apply map_ext. intros c. apply repeat_length.
  - intros P1 [i j] P2 [ws nz] EP (nzb & En & El & HF). cbn [fst snd] in En, HF. subst nz.
    assert (In (i, j) (class_pairs (length cs))) as Hin by (rewrite EP; apply in_elt). destruct (cs_pairs i j Hin) as (a & b & Ea & Eb & Hab & Hij & Hj).
    unfold pair_step. rewrite (starts_nth (length cs) counts st0 i) by (rewrite ?counts_length; auto; lia). cbn [bind].
    rewrite (starts_nth (length cs) counts st0 j) by (rewrite ?counts_length; auto; lia). cbn [bind].
    rewrite (idxn_some _ _ _ (counts_nth i a Ea)). cbn [bind]. rewrite (idxn_some _ _ _ (counts_nth j b Eb)). cbn [bind].
    rewrite (block_read i a Ea). cbn [bind]. rewrite (block_read j b Eb). cbn [bind].
    destruct (single_ok fuel a b Hab) as [[E Eu]|(r & als & Es & Hl & E)]; rewrite E;
      [left; split; [reflexivity|exists a, b; split; [apply (nth_error_In _ _ Ea)|]; split; [apply (nth_error_In _ _ Eb)|]; split; assumption]|right]. cbn [bind snd fst].
    pose (s1 := firstn (length (mem a)) (signed (pair_signs a b l) als)). pose (s2 := skipn (length (mem a)) (signed (pair_signs a b l) als)).
    assert (signed (pair_signs a b l) als = s1 ++ s2) as Esg by (symmetry; apply firstn_skipn).
    assert (length (signed (pair_signs a b l) als) = length (mem a) + length (mem b)) as Hsl.
    { rewrite signed_length; [exact Hl|]. rewrite Hl. unfold pair_signs. rewrite app_length, !map_length. reflexivity. }
    assert (length s1 = length (mem a)) as H1 by (unfold s1; rewrite firstn_length, Hsl; lia).
    assert (length s2 = length (mem b)) as H2 by (unfold s2; rewrite skipn_length, Hsl; lia).
    clearbody s1 s2. rewrite Esg. rewrite map_app.
    destruct (map_len_nth nzb i a El Ea) as (n1 & N1 & L1). destruct (map_len_nth nzb j b El Eb) as (n2 & N2 & L2).
    assert (mark (map Fin s1 ++ map Fin s2) 0 (offs counts i) (length (mem a)) (concat nzb) = Ok (concat (upd nzb i (orm n1 s1)))) as M1.
    { rewrite <- El, <- L1. apply (mark_block (map Fin s1 ++ map Fin s2) s1 [] (map Fin s2) nzb i n1 0 N1); try reflexivity. congruence. }
    rewrite M1. cbn [bind].
    assert (map (@length bool) (upd nzb i (orm n1 s1)) = counts) as El1 by (rewrite (map_length_upd nzb i n1) by (try assumption; apply orm_length; congruence); exact El).
    assert (nth_error (upd nzb i (orm n1 s1)) j = Some n2) as N2' by (rewrite nth_upd_other by lia; exact N2).
    assert (mark (map Fin s1 ++ map Fin s2) (length (mem a)) (offs counts j) (length (mem b)) (concat (upd nzb i (orm n1 s1))) = Ok (concat (upd (upd nzb i (orm n1 s1)) j (orm n2 s2)))) as M2.
    { rewrite <- El1, <- L2. apply (mark_block (map Fin s1 ++ map Fin s2) s2 (map Fin s1) [] _ j n2 (length (mem a)) N2'); [congruence|rewrite app_nil_r; reflexivity|rewrite map_length; congruence]. }
    rewrite M2. cbn [bind].
    eexists. split; [reflexivity|]. exists (upd (upd nzb i (orm n1 s1)) j (orm n2 s2)). cbn [fst snd]. split; [reflexivity|].
    assert (Forall2 grows nzb (upd (upd nzb i (orm n1 s1)) j (orm n2 s2))) as G.
    { apply (blocks_trans _ (upd nzb i (orm n1 s1))); [apply (upd_grows nzb i n1 _ N1), orm_grows; congruence|apply (upd_grows _ j n2 _ N2'), orm_grows; congruence]. }
    split; [rewrite (map_length_upd _ j n2) by (try assumption; apply orm_length; congruence); exact El1|].
    apply Forall2_app.
    + eapply Forall2_imp; [|exact HF]. intros ij w. apply (pair_fact_grow fuel nzb _ ij w G).
    + constructor; [|constructor]. exists a, b, r, als, s1, s2, (orm n1 s1), (orm n2 s2). assert (j < length (upd nzb i (orm n1 s1))) as Hjl by (apply nth_error_Some; congruence).
      constructor; cbn [fst snd]; try assumption.
      * rewrite map_app. reflexivity.
      * rewrite nth_upd_other by lia. apply nth_upd_same. apply nth_error_Some. congruence.
      * apply nth_upd_same. exact Hjl.
      * apply orm_covers. congruence.
      * apply orm_covers. congruence.
Qed.

(** ** The trained machine *)
Definition nsv_of (nzb : list (list bool)) : list nat := map (countb (fun b => b)) nzb.
Definition svb_of (nzb : list (list bool)) : list (list (list node)) := map (fun nx => picks (fst nx) (snd nx)) (combine nzb xb).
Lemma nsv_length nzb : map (@length bool) nzb = counts -> length (nsv_of nzb) = length cs.
Proof. intros E. unfold nsv_of. rewrite map_length. rewrite <- (map_length (@length bool) nzb), E. apply counts_length. Qed.
Lemma nzb_length (nzb : list (list bool)) : map (@length bool) nzb = counts -> length nzb = length cs.
Proof. intros E. rewrite <- (map_length (@length bool) nzb), E. apply counts_length. Qed.
Lemma marked_all st0 nzb : map (@length bool) nzb = counts -> length cs <> 0 -> starts (length cs) counts = Ok st0 ->
  mapM (fun i => do s <- idxn st0 i; do k <- idxn counts i; marked (concat nzb) s k) (seq 0 (length cs)) = Ok (nsv_of nzb).
Proof.
  intros El Hne Est. apply mapM_ok. apply Forall2_by_nth; [rewrite seq_length, nsv_length by exact El; reflexivity|].
  intros i x v Hx Hv. assert (i < length cs) as Hi. { rewrite <- (seq_length (length cs) 0). apply nth_error_Some. congruence. }
  rewrite (nth_error_nth' _ 0), seq_nth in Hx by (rewrite ?seq_length; exact Hi). injection Hx as <-. cbn [Nat.add].
  rewrite (starts_nth (length cs) counts st0 i) by (rewrite ?counts_length; auto; lia). cbn [bind].
  destruct (nth_lt cs i Hi) as (a & Ea). rewrite (idxn_some _ _ _ (counts_nth i a Ea)). cbn [bind].
  destruct (map_len_nth nzb i a El Ea) as (n & En & Ln). unfold nsv_of in Hv. rewrite nth_error_map, En in Hv. injection Hv as <-.
  destruct (concat_split nzb i n En) as [E1 E2]. unfold marked. rewrite E1, <- Ln. rewrite (marked_ok n _ _ _ 0 0); [reflexivity|]. rewrite Nat.add_0_r, E2, El. reflexivity.
Qed.
Record coef_inv (nzb : list (list bool)) (ws : list (dbl * list dbl)) (P : list (nat * nat)) (st : list (list dbl) * nat) : Prop := {
  ci_pos : snd st = length P;
  ci_rows : length (fst st) = length cs - 1;
  ci_cols : Forall (fun row => length row = list_sum (nsv_of nzb)) (fst st);
  ci_cells : forall t i j w r s1 s2 n1 n2 a, nth_error P t = Some (i, j) -> nth_error ws t = Some w -> w = (Fin r, map Fin (s1 ++ s2)) ->
    nth_error cs i = Some a -> length s1 = length (mem a) -> nth_error nzb i = Some n1 -> nth_error nzb j = Some n2 ->
    cell (nsv_of nzb) (fst st) (j - 1) i = map Fin (picks n1 s1) /\ cell (nsv_of nzb) (fst st) i j = map Fin (picks n2 s2) }.
Lemma write_block nzb al als apre apost i n off row : nth_error nzb i = Some n -> length n = length als -> al = apre ++ map Fin als ++ apost -> off = length apre ->
  length row = list_sum (nsv_of nzb) ->
  write_coef (concat nzb) al off (offs (map (@length bool) nzb) i) (length n) (offs (nsv_of nzb) i) row = Ok (put (offs (nsv_of nzb) i) (map Fin (picks n als)) row).
Proof.
  intros En Hl Ea Eo Hr. destruct (concat_split nzb i n En) as [E1 E2]. unfold write_coef.
  assert (nth i (nsv_of nzb) 0 = countb (fun b => b) n) as Hn. { apply nth_error_nth. unfold nsv_of. rewrite nth_error_map, En. reflexivity. }
  assert (offs (nsv_of nzb) i + countb (fun b => b) n <= length row) as Hle.
  { rewrite Hr, <- Hn. apply offs_le. unfold nsv_of. rewrite map_length. apply nth_error_Some. congruence. }
  assert (length (picks n als) = countb (fun b => b) n) as Hp by (apply picks_length; exact Hl).
  pose proof (seg_split (offs (nsv_of nzb) i) (countb (fun b => b) n) row Hle) as Es.
  assert (length (firstn (offs (nsv_of nzb) i) row) = offs (nsv_of nzb) i) as Hf by (rewrite firstn_length; lia).
  pose proof (write_coef_ok (concat nzb) al n als (concat (firstn i nzb)) (concat (skipn (S i) nzb)) apre apost (firstn (offs (nsv_of nzb) i) row)
    (seg (offs (nsv_of nzb) i) (countb (fun b => b) n) row) (skipn (offs (nsv_of nzb) i + countb (fun b => b) n) row) off (offs (map (@length bool) nzb) i) 0 Hl E1 Ea
    (seg_length _ _ _ Hle) ltac:(lia) ltac:(lia)) as W.
  rewrite <- Es, Hf in W. rewrite W. cbn [bind fst]. unfold put. rewrite map_length, Hp. reflexivity.
Qed.
Lemma forall_upd {A} (P : A -> Prop) (M : list A) i v : Forall P M -> P v -> Forall P (upd M i v).
Proof. intros H Hv. revert i; induction H as [|x M Hx H IH]; intros [|i]; cbn [upd]; constructor; auto. Qed.
Lemma coef_fold fuel st0 nz0 nzb ws M0 : length cs <> 0 -> map (@length bool) nzb = counts -> starts (length cs) counts = Ok st0 -> starts (length cs) (nsv_of nzb) = Ok nz0 ->
  Forall2 (pair_fact fuel nzb) (class_pairs (length cs)) ws -> length M0 = length cs - 1 -> Forall (fun row => length row = list_sum (nsv_of nzb)) M0 ->
  exists st, foldM (coef_step st0 counts nz0 (concat nzb) ws) (class_pairs (length cs)) (M0, 0) = Ok st /\ coef_inv nzb ws (class_pairs (length cs)) st.
Proof.
  intros Hne El Est Enz HF HM0 HC0. pose proof (class_pairs_nodup (length cs)) as Hnd. apply foldM_inv_ok.
  - constructor; cbn [fst snd]; try assumption; [reflexivity|]. intros t i j w r s1 s2 n1 n2 a Et. destruct t; discriminate.
  - intros P1 [i j] P2 [M t0] EP [Ip Ir Ic Icells]. cbn [fst snd] in Ip, Ir, Ic, Icells. subst t0.
    assert (In (i, j) (class_pairs (length cs))) as Hin by (rewrite EP; apply in_elt). destruct (cs_pairs i j Hin) as (a & b & Ea & Eb & Hab & Hij & Hj).
    assert (nth_error (class_pairs (length cs)) (length P1) = Some (i, j)) as Et by (rewrite EP; apply nth_mid).
    destruct (Forall2_nth_l _ _ _ HF _ _ Et) as (w & Ew & a' & b' & r & als & s1 & s2 & n1 & n2 & [Q1 Q2 Q3 Q4 Q5 Q6 Q7 Q8 Q9 Q10 Q11]). cbn [fst snd] in Q1, Q2, Q8, Q9.
    rewrite Ea in Q1. injection Q1 as <-. rewrite Eb in Q2. injection Q2 as <-.
    pose proof (nsv_length nzb El) as Hnl.
    assert (length n1 = length s1) as L1 by (apply (Forall2_len _ _ _ Q10)). assert (length n2 = length s2) as L2 by (apply (Forall2_len _ _ _ Q11)).
    destruct (map_len_nth nzb i a El Ea) as (n1' & N1 & LA). rewrite Q8 in N1. injection N1 as <-. destruct (map_len_nth nzb j b El Eb) as (n2' & N2 & LB). rewrite Q9 in N2. injection N2 as <-.
    unfold coef_step. rewrite (starts_nth (length cs) counts st0 i) by (rewrite ?counts_length; auto; lia). cbn [bind].
    rewrite (starts_nth (length cs) counts st0 j) by (rewrite ?counts_length; auto; lia). cbn [bind].
    rewrite (idxn_some _ _ _ (counts_nth i a Ea)). cbn [bind]. rewrite (idxn_some _ _ _ (counts_nth j b Eb)). cbn [bind].
    rewrite (idxn_some _ _ _ Ew). cbn [bind].
    rewrite (starts_nth (length cs) (nsv_of nzb) nz0 i) by (rewrite ?Hnl; auto; lia). cbn [bind].
    assert (nth_error M (j - 1) = Some (nth (j - 1) M [])) as R1 by (apply nth_error_nth'; lia). rewrite (idxn_some _ _ _ R1). cbn [bind].
    assert (length (nth (j - 1) M []) = list_sum (nsv_of nzb)) as LR1. { rewrite Forall_forall in Ic. apply Ic, nth_In. lia. }
    rewrite Q7. cbn [snd]. rewrite map_app.
    assert (write_coef (concat nzb) (map Fin s1 ++ map Fin s2) 0 (offs counts i) (length (mem a)) (offs (nsv_of nzb) i) (nth (j - 1) M []) =
      Ok (put (offs (nsv_of nzb) i) (map Fin (picks n1 s1)) (nth (j - 1) M []))) as W1.
    { rewrite <- El, <- LA. apply (write_block nzb _ s1 [] (map Fin s2) i n1 0); try assumption; reflexivity. }
    rewrite W1. cbn [bind]. unfold set_at. rewrite (idxn_some _ _ _ R1). cbn [bind].
    set (v1 := map Fin (picks n1 s1)) in *. set (M1 := upd M (j - 1) (put (offs (nsv_of nzb) i) v1 (nth (j - 1) M []))).
    rewrite (starts_nth (length cs) (nsv_of nzb) nz0 j) by (rewrite ?Hnl; auto; lia). cbn [bind].
    assert (length M1 = length cs - 1) as HM1 by (unfold M1; rewrite upd_length; exact Ir).
    assert (forall k n, nth_error nzb k = Some n -> nth k (nsv_of nzb) 0 = countb (fun b => b) n) as Hcnt.
    { intros k n E. apply nth_error_nth. unfold nsv_of. rewrite nth_error_map, E. reflexivity. }
    assert (length v1 = nth i (nsv_of nzb) 0) as Hv1. { unfold v1. rewrite map_length, picks_length, (Hcnt i n1 Q8) by exact L1. reflexivity. }
    assert (Forall (fun row => length row = list_sum (nsv_of nzb)) M1) as HC1.
    { apply forall_upd; [exact Ic|]. rewrite put_length; [exact LR1|]. rewrite LR1, Hv1. apply offs_le. lia. }
    assert (nth_error M1 i = Some (nth i M1 [])) as R2 by (apply nth_error_nth'; lia). rewrite (idxn_some _ _ _ R2). cbn [bind].
    assert (length (nth i M1 []) = list_sum (nsv_of nzb)) as LR2. { rewrite Forall_forall in HC1. apply HC1, nth_In. lia. }
    assert (write_coef (concat nzb) (map Fin s1 ++ map Fin s2) (length (mem a)) (offs counts j) (length (mem b)) (offs (nsv_of nzb) j) (nth i M1 []) =
      Ok (put (offs (nsv_of nzb) j) (map Fin (picks n2 s2)) (nth i M1 []))) as W2.
    { rewrite <- El, <- LB. apply (write_block nzb _ s2 (map Fin s1) [] j n2); try assumption; [rewrite app_nil_r; reflexivity|rewrite map_length; congruence]. }
    rewrite W2. cbn [bind]. set (v2 := map Fin (picks n2 s2)) in *. set (M2 := upd M1 i (put (offs (nsv_of nzb) j) v2 (nth i M1 []))).
    assert (length v2 = nth j (nsv_of nzb) 0) as Hv2. { unfold v2. rewrite map_length, picks_length, (Hcnt j n2 Q9) by exact L2. reflexivity. }
    assert (forall rr bb, bb < length cs -> cell (nsv_of nzb) M2 rr bb =
      if (rr =? i) && (bb =? j) then v2 else if (rr =? j - 1) && (bb =? i) then v1 else cell (nsv_of nzb) M rr bb) as Hcell.
    { intros rr bb Hbb. unfold M2. rewrite cell_put by (rewrite ?Hnl; auto; lia). destruct (_ && _); [reflexivity|]. unfold M1. rewrite cell_put by (rewrite ?Hnl; auto; lia). reflexivity. }
    eexists. split; [reflexivity|]. constructor; cbn [fst snd].
    + rewrite app_length. simpl. lia.
    + unfold M2. rewrite upd_length. exact HM1.
    + apply forall_upd; [exact HC1|]. rewrite put_length; [exact LR2|]. rewrite LR2, Hv2. apply offs_le. lia.
    + intros t i' j' w' r' t1 t2 m1 m2 a' Et' Ew' Ew2 Ea' Ht1 Em1 Em2. destruct (Nat.lt_ge_cases t (length P1)) as [Hlt|Hge].
      * rewrite nth_error_app1 in Et' by exact Hlt. destruct (Icells t i' j' w' r' t1 t2 m1 m2 a' Et' Ew' Ew2 Ea' Ht1 Em1 Em2) as [C1 C2].
        assert (In (i', j') (class_pairs (length cs))) as Hin' by (rewrite EP; apply in_or_app; left; apply (nth_error_In _ _ Et')).
        destruct (cs_pairs i' j' Hin') as (_ & _ & _ & _ & _ & Hij' & Hj').
        assert (~ (i' = i /\ j' = j)) as Hd.
        { intros [-> ->]. rewrite EP in Hnd. apply NoDup_remove_2 in Hnd. apply Hnd. apply in_or_app. left. apply (nth_error_In _ _ Et'). }
        rewrite !Hcell by lia. rewrite <- C1, <- C2. split.
        -- destruct (Nat.eqb_spec (j' - 1) i), (Nat.eqb_spec i' j), (Nat.eqb_spec (j' - 1) (j - 1)), (Nat.eqb_spec i' i); cbn [andb]; try reflexivity; exfalso; lia.
        -- destruct (Nat.eqb_spec i' i), (Nat.eqb_spec j' j), (Nat.eqb_spec i' (j - 1)), (Nat.eqb_spec j' i); cbn [andb]; try reflexivity; exfalso; lia.
      * assert (t = length P1) as ->. { assert (t < length (P1 ++ [(i, j)])) as Hl by (apply nth_error_Some; congruence). rewrite app_length in Hl. simpl in Hl. lia. }
        rewrite nth_mid in Et'. injection Et' as <- <-. rewrite Ew in Ew'. injection Ew' as <-. rewrite Q7 in Ew2. injection Ew2 as _ Ew2.
        rewrite Ea in Ea'. injection Ea' as <-. rewrite Q8 in Em1. injection Em1 as <-. rewrite Q9 in Em2. injection Em2 as <-.
        assert (s1 ++ s2 = t1 ++ t2) as Eapp by (apply map_Fin_inj, Ew2).
        assert (s1 = t1 /\ s2 = t2) as [<- <-]. { apply app_inj_len; [congruence|exact Eapp]. }
        rewrite !Hcell by lia. split.
        -- destruct (Nat.eqb_spec i j); [lia|]. rewrite andb_false_r, !Nat.eqb_refl. reflexivity.
        -- rewrite !Nat.eqb_refl. reflexivity.
Qed.
Lemma fold_add_sum ns : forall a, fold_left Nat.add ns a = a + list_sum ns.
Proof. induction ns as [|x ns IH]; intros a; cbn [fold_left]; [cbn; lia|]. rewrite IH. change (list_sum (x :: ns)) with (x + list_sum ns). lia. Qed.

Record trained (fuel : nat) (m : svm) (ws : list (dbl * list dbl)) (nzb : list (list bool)) : Prop := {
  tr_dist : m_dist m = class_distribution (sort_class l);
  tr_par : m_par m = Some p;
  tr_ncl : m_ncl m = length cs;
  tr_nzb : map (@length bool) nzb = counts;
  tr_pairs : Forall2 (pair_fact fuel nzb) (class_pairs (length cs)) ws;
  tr_rho : m_rho m = map fst ws;
  tr_nsv : m_nsv m = nsv_of nzb;
  tr_sv : m_sv m = concat (svb_of nzb);
  tr_coef : exists k, coef_inv nzb ws (class_pairs (length cs)) (m_coef m, k) }.
Lemma train_ok fuel x0 : nth_error l 0 = Some x0 -> discrete_check x0 = true ->
  svm_train dexp dtanh dpow fuel svm_empty l p = Diverge /\ unsolved fuel \/
  exists m ws nzb, svm_train dexp dtanh dpow fuel svm_empty l p = Ok (m, sort_class l) /\ trained fuel m ws nzb.
Proof.
  intros E0 Hd. unfold svm_train. unfold atn. rewrite E0. cbn [bind]. rewrite Hd. cbn [negb].
  assert (length cs <> 0) as Hne.
  { assert (In (label x0) cs) as H by (apply cs_in, in_map, (nth_error_In l 0 E0)). destruct cs; [contradiction|discriminate]. }
  rewrite counts_eq. assert (length (class_distribution (sort_class l)) = length cs) as Hlc by (unfold cs, mkeys; rewrite map_length; reflexivity).
  rewrite Hlc. rewrite xb_concat.
  destruct (starts (length cs) counts) as [st0| | |] eqn:Est; try (rewrite starts_spec in Est by (rewrite ?counts_length; lia); discriminate). cbn [bind].
  destruct (pair_fold fuel st0 Hne Est) as [[E Eu]|((ws & nz) & E & nzb & En & El & HF)]; rewrite E; [left; split; [reflexivity|exact Eu]|right]. cbn [bind fst snd] in *. subst nz.
  assert (length ws = length (class_pairs (length cs))) as Hws by (symmetry; apply (Forall2_len _ _ _ HF)).
  rewrite class_pairs_div.
  assert (mapM (fun i => do w <- idxn ws i; Ok (fst w)) (seq 0 (length (class_pairs (length cs)))) = Ok (map fst ws)) as ->.
  { rewrite <- Hws. apply mapM_ok. apply Forall2_by_nth; [rewrite seq_length, map_length; reflexivity|]. intros i x v Hx Hv.
    assert (i < length ws) as Hi. { rewrite <- (seq_length (length ws) 0). apply nth_error_Some. congruence. }
    rewrite (nth_error_nth' _ 0), seq_nth in Hx by (rewrite ?seq_length; exact Hi). injection Hx as <-. cbn [Nat.add]. rewrite nth_error_map in Hv.
    destruct (nth_error ws i) as [w|] eqn:Ew; [|discriminate]. injection Hv as <-. rewrite (idxn_some _ _ _ Ew). reflexivity. }
  cbn [bind]. rewrite (marked_all st0 nzb El Hne Est). cbn [bind].
  pose proof (nsv_length nzb El) as Hnl.
  destruct (starts (length cs) (nsv_of nzb)) as [nz0| | |] eqn:Enz; try (rewrite starts_spec in Enz by lia; discriminate). cbn [bind].
  set (M0 := map _ (resize [] _ _)).
  assert (length M0 = length cs - 1) as HM0. { unfold M0, resize. cbn [svm_empty m_coef]. rewrite firstn_nil. cbn [app]. rewrite map_length, repeat_length. cbn [length]. lia. }
  assert (Forall (fun row => length row = list_sum (nsv_of nzb)) M0) as HC0.
  { unfold M0. apply Forall_forall. intros row H. apply in_map_iff in H as (r0 & <- & _). unfold resize. rewrite app_length, firstn_length, repeat_length, fold_add_sum. lia. }
  destruct (coef_fold fuel st0 nz0 nzb ws M0 Hne El Est Enz HF HM0 HC0) as ((M & k) & EM & HI). rewrite EM. cbn [bind fst].
  eexists. exists ws, nzb. split; [reflexivity|]. constructor; cbn [m_dist m_par m_ncl m_rho m_nsv m_sv m_coef svm_empty app]; try reflexivity; try assumption.
  - unfold svb_of. change (picks (concat nzb) (concat xb) = concat (map (fun nx => picks (fst nx) (snd nx)) (combine nzb xb))). apply picks_concat. rewrite xb_lengths. exact El.
  - exists k. exact HI.
Qed.

(** ** Decision values *)
Lemma kernel_val (q x : instance) : finite_values q -> finite_values x -> exists k, kernel_fun dexp dtanh dpow p (inst_nodes q) (inst_nodes x) = Fin k /\ (k == kv (qvec x) (qvec q))%Q.
Proof.
  intros Hq Hx. rewrite (nodes_svec q Hq), (nodes_svec x Hx). destruct T as [T1 T2 T3 T4 T5 T6 _ _].
  pose proof (kernel_fun_spec dexp dtanh dpow T1 p gamma coef0 T2 T3 (qvec q) (qvec x)) as H.
  pose proof (tk_sym dexp dtanh dpow T1 p gamma coef0 (qvec q) (qvec x)) as Hs.
  destruct (tk_finite dexp dtanh dpow T1 p gamma coef0 (qvec x) (qvec q) T6) as (t & Et). unfold kernel_value. rewrite Et in *. cbn [qval].
  destruct (tk_finite dexp dtanh dpow T1 p gamma coef0 (qvec q) (qvec x) T6) as (t' & Et'). rewrite Et' in *.
  destruct (kernel_fun dexp dtanh dpow p (svec (qvec q)) (svec (qvec x))) as [k| | |]; try contradiction. exists k. split; [reflexivity|]. simpl in H, Hs. rewrite H. exact Hs.
Qed.
Definition kvals (q : instance) (ls : ilist) : list Q := map (fun x => qval (kernel_fun dexp dtanh dpow p (inst_nodes q) (inst_nodes x))) ls.
Lemma kvals_ok q ls : finite_values q -> Forall finite_values ls ->
  map (fun x => kernel_fun dexp dtanh dpow p (inst_nodes q) (inst_nodes x)) ls = map Fin (kvals q ls) /\ Forall2 Qeq (kvals q ls) (map (fun v => kv v (qvec q)) (map qvec ls)).
Proof.
  intros Hq. induction 1 as [|x ls Hx _ [IH1 IH2]]; [split; [reflexivity|constructor]|]. destruct (kernel_val q x Hq Hx) as (k & Ek & Hk). unfold kvals in *. cbn [map]. rewrite IH1, Ek. cbn [qval].
  split; [reflexivity|]. constructor; assumption.
Qed.
Definition kvb (q : instance) (nzb : list (list bool)) : list (list dbl) := map (fun nc => map Fin (picks (fst nc) (kvals q (mem (snd nc))))) (combine nzb cs).
Lemma kvb_concat q nzb : finite_values q -> map (@length bool) nzb = counts ->
  map (kernel_fun dexp dtanh dpow p (inst_nodes q)) (concat (svb_of nzb)) = concat (kvb q nzb) /\ map (@length dbl) (kvb q nzb) = nsv_of nzb.
Proof.
  intros Hq. unfold svb_of, kvb, nsv_of, xb. revert nzb. induction cs as [|c r IH]; intros [|n nzb] El; try discriminate; [split; reflexivity|].
  cbn [map] in El. injection El as E1 E2. destruct (IH nzb E2) as [I1 I2]. cbn [map combine concat fst snd]. rewrite map_app, I1, I2.
  assert (map (kernel_fun dexp dtanh dpow p (inst_nodes q)) (picks n (map inst_nodes (mem c))) = map Fin (picks n (kvals q (mem c)))) as ->.
  { rewrite <- !picks_map. f_equal. rewrite map_map. apply (proj1 (kvals_ok q (mem c) Hq (members_finite c))). }
  split; [reflexivity|]. rewrite map_length, picks_length; [reflexivity|]. unfold kvals. rewrite map_length. exact E1.
Qed.
Lemma coef_block q nzb M r i n s c acc : finite_values q -> map (@length bool) nzb = counts -> nth_error cs i = Some c -> nth_error nzb i = Some n -> covers n s ->
  r < length M -> Forall (fun row => length row = list_sum (nsv_of nzb)) M -> cell (nsv_of nzb) M r i = map Fin (picks n s) ->
  exists v, coef_sum (nth r M []) (concat (kvb q nzb)) (offs (nsv_of nzb) i) (nth i (nsv_of nzb) 0) (Fin acc) = Ok (Fin v) /\
    (v == acc + wsum s (map (fun v => kv v (qvec q)) (map qvec (mem c))))%Q.
Proof.
  intros Hq El Ec En Hc Hr HM Hcell. pose proof (nsv_length nzb El) as Hnl. assert (i < length cs) as Hi by (apply nth_error_Some; congruence).
  destruct (kvb_concat q nzb Hq El) as [_ Hkl].
  assert (nth_error (kvb q nzb) i = Some (map Fin (picks n (kvals q (mem c))))) as Ek.
  { unfold kvb. rewrite nth_error_map. assert (nth_error (combine nzb cs) i = Some (n, c)) as ->; [|reflexivity]. apply nth_combine; assumption. }
  destruct (concat_split _ _ _ Ek) as [E1 E2]. rewrite Hkl in E2.
  assert (length (nth r M []) = list_sum (nsv_of nzb)) as Hrow. { rewrite Forall_forall in HM. apply HM, nth_In, Hr. }
  assert (nth i (nsv_of nzb) 0 = countb (fun b => b) n) as Hcnt. { apply nth_error_nth. unfold nsv_of. rewrite nth_error_map, En. reflexivity. }
  pose proof (offs_le (nsv_of nzb) i ltac:(lia)) as Hle. pose proof (seg_split (offs (nsv_of nzb) i) (nth i (nsv_of nzb) 0) (nth r M []) ltac:(lia)) as Es.
  unfold cell in Hcell. rewrite Hcell in Es.
  pose proof (Forall2_len _ _ _ Hc) as Hns. destruct (map_len_nth nzb i c El Ec) as (n' & En' & Ln). rewrite En in En'. injection En' as <-.
  assert (length (kvals q (mem c)) = length n) as Hkn by (unfold kvals; rewrite map_length; congruence).
  destruct (coef_sum_ok (nth r M []) (concat (kvb q nzb)) (picks n s) (firstn (offs (nsv_of nzb) i) (nth r M [])) (skipn (offs (nsv_of nzb) i + nth i (nsv_of nzb) 0) (nth r M []))
    (concat (firstn i (kvb q nzb))) (concat (skipn (S i) (kvb q nzb))) (picks n (kvals q (mem c))) (offs (nsv_of nzb) i) 0 acc) as (v & Ev & Hv).
  - rewrite !picks_length by congruence. reflexivity.
  - exact Es.
  - exact E1.
  - rewrite firstn_length. lia.
  - rewrite E2. lia.
  - exists v. split.
    + unfold coef_sum. rewrite picks_length in Ev by congruence. rewrite Hcnt at 1. rewrite <- Hcnt in Ev |- * . exact Ev.
    + rewrite Hv. rewrite (wsum_picks n s (kvals q (mem c)) Hc) by congruence. rewrite (wsum_ext s _ _ (proj2 (kvals_ok q (mem c) Hq (members_finite c)))). reflexivity.
Qed.
Lemma decision_split a b als s1 s2 rho w : signed (pair_signs a b l) als = s1 ++ s2 -> length s1 = length (mem a) ->
  length als = length (mem a) + length (mem b) ->
  (wsum s1 (map (fun v => kv v w) (map qvec (mem a))) + wsum s2 (map (fun v => kv v w) (map qvec (mem b))) - rho ==
   pair_decision dexp dtanh dpow p gamma coef0 a b l als rho w)%Q.
Proof.
  intros E H1 Hl. unfold pair_decision. rewrite <- wsum_app by (rewrite !map_length; exact H1). rewrite <- E, <- !map_app. fold (pair_problem a b l). fold (pair_vectors a b l).
  assert (forall sg al vs, wsum (signed sg al) (map (fun v => kv v w) vs) == qsum (map (fun t => sign (fst (fst t)) * snd (fst t) * kv (snd t) w) (combine (combine sg al) vs)))%Q as H.
  { clear. unfold signed. induction sg as [|b sg IH]; intros [|x al] [|v vs]; try reflexivity. cbn [combine map fst snd]. rewrite wsum_cons, IH.
    change (qsum (?h :: ?t)) with (h + qsum t)%Q. ring. }
  rewrite H. reflexivity.
Qed.
Lemma predict_ok fuel m ws nzb q : trained fuel m ws nzb -> finite_values q ->
  exists vals, predict_values dexp dtanh dpow m (inst_nodes q) = Ok vals /\ length vals = length (class_pairs (length cs)) /\
    forall t i j, nth_error (class_pairs (length cs)) t = Some (i, j) ->
      exists a b r als v, nth_error cs i = Some a /\ nth_error cs j = Some b /\
        svm_solve dexp dtanh dpow p (pair_vectors a b l) (pair_signs a b l) fuel = Ok (Fin r, map Fin als) /\
        nth_error vals t = Some (Fin v) /\ (v == pair_decision dexp dtanh dpow p gamma coef0 a b l als r (qvec q))%Q.
Proof.
  intros [Td Tp Tn Tz TF Tr Ts Tv (k0 & TC)] Hq. unfold predict_values. rewrite Tv, Tp, Tn, Ts, Tr. destruct TC as [Cp Cr Cc Ccell]. cbn [fst snd] in *.
  assert (mapM (fun v => Ok (kernel_fun dexp dtanh dpow p (inst_nodes q) v)) (concat (svb_of nzb)) = Ok (concat (kvb q nzb))) as ->.
  { rewrite <- (proj1 (kvb_concat q nzb Hq Tz)). clear. induction (concat (svb_of nzb)) as [|x r IH]; [reflexivity|]. cbn [mapM map bind]. rewrite IH. reflexivity. }
  cbn [bind]. pose proof (nsv_length nzb Tz) as Hnl.
  destruct (Nat.eq_dec (length cs) 0) as [Hz|Hne].
  { rewrite Hz. cbn. exists []. split; [reflexivity|]. split; [reflexivity|]. intros t i j E. destruct t; discriminate. }
  destruct (starts (length cs) (nsv_of nzb)) as [st0| | |] eqn:Est; try (rewrite starts_spec in Est by lia; discriminate). cbn [bind].
  match goal with |- context[foldM ?f _ _] => set (step := f) end.
  destruct (foldM_inv_ok step (class_pairs (length cs)) (fun P st => snd st = length P /\ length (fst st) = length P /\
    forall t i j, nth_error P t = Some (i, j) ->
      exists a b r als v, nth_error cs i = Some a /\ nth_error cs j = Some b /\
        svm_solve dexp dtanh dpow p (pair_vectors a b l) (pair_signs a b l) fuel = Ok (Fin r, map Fin als) /\
        nth_error (fst st) t = Some (Fin v) /\ (v == pair_decision dexp dtanh dpow p gamma coef0 a b l als r (qvec q))%Q) ([], 0)) as ((vals & k) & E & _ & Hl & H).
  - split; [reflexivity|]. split; [reflexivity|]. intros t i j E. destruct t; discriminate.
  - intros P1 [i j] P2 [vals k] EP (E1 & E2 & H). cbn [fst snd] in *. subst k.
    assert (In (i, j) (class_pairs (length cs))) as Hin by (rewrite EP; apply in_elt). destruct (cs_pairs i j Hin) as (a & b & Ea & Eb & Hab & Hij & Hj).
    assert (nth_error (class_pairs (length cs)) (length P1) = Some (i, j)) as Et by (rewrite EP; apply nth_mid).
    destruct (Forall2_nth_l _ _ _ TF _ _ Et) as (w & Ew & a' & b' & r & als & s1 & s2 & n1 & n2 & [Q1 Q2 Q3 Q4 Q5 Q6 Q7 Q8 Q9 Q10 Q11]). cbn [fst snd] in Q1, Q2, Q8, Q9.
    rewrite Ea in Q1. injection Q1 as <-. rewrite Eb in Q2. injection Q2 as <-.
    destruct (Ccell _ _ _ _ _ _ _ _ _ _ Et Ew Q7 Ea Q6 Q8 Q9) as [C1 C2].
    unfold step. rewrite (starts_nth (length cs) (nsv_of nzb) st0 i) by (rewrite ?Hnl; auto; lia). cbn [bind].
    rewrite (starts_nth (length cs) (nsv_of nzb) st0 j) by (rewrite ?Hnl; auto; lia). cbn [bind].
    rewrite (idxn_some (nsv_of nzb) i (nth i (nsv_of nzb) 0)) by (apply nth_error_nth'; lia). cbn [bind].
    rewrite (idxn_some (nsv_of nzb) j (nth j (nsv_of nzb) 0)) by (apply nth_error_nth'; lia). cbn [bind].
    rewrite (idxn_some (m_coef m) (j - 1) (nth (j - 1) (m_coef m) [])) by (apply nth_error_nth'; lia). cbn [bind].
    rewrite (idxn_some (m_coef m) i (nth i (m_coef m) [])) by (apply nth_error_nth'; lia). cbn [bind].
    destruct (coef_block q nzb (m_coef m) (j - 1) i n1 s1 a 0%Q Hq Tz Ea Q8 Q10 ltac:(lia) Cc C1) as (v1 & V1 & H1). change d0 with (Fin 0). rewrite V1. cbn [bind].
    destruct (coef_block q nzb (m_coef m) i j n2 s2 b v1 Hq Tz Eb Q9 Q11 ltac:(lia) Cc C2) as (v2 & V2 & H2). rewrite V2. cbn [bind].
    assert (nth_error (map fst ws) (length P1) = Some (Fin r)) as Er by (rewrite nth_error_map, Ew, Q7; reflexivity). rewrite (idxn_some _ _ _ Er). cbn [bind dsub].
    eexists. split; [reflexivity|]. cbn [fst snd]. rewrite !app_length. simpl (length [_]). split; [lia|]. split; [lia|].
    intros t i' j' Et'. destruct (Nat.lt_ge_cases t (length P1)) as [Hlt|Hge].
    + rewrite nth_error_app1 in Et' by exact Hlt. destruct (H t i' j' Et') as (a2 & b2 & r2 & als2 & v3 & F1 & F2 & F3 & F4 & F5). exists a2, b2, r2, als2, v3.
      rewrite nth_error_app1 by lia. split; [exact F1|]. split; [exact F2|]. split; [exact F3|]. split; assumption.
    + assert (t = length P1) as ->. { assert (t < length (P1 ++ [(i, j)])) as Hl by (apply nth_error_Some; congruence). rewrite app_length in Hl. simpl in Hl. lia. }
      rewrite nth_mid in Et'. injection Et' as <- <-. exists a, b, r, als, (v2 - r)%Q. split; [exact Ea|]. split; [exact Eb|]. split; [exact Q3|].
      split; [rewrite <- E2; apply nth_mid|]. rewrite H2, H1, <- (decision_split a b als s1 s2 r (qvec q) Q5 Q6 Q4). ring.
  - rewrite E. cbn [bind fst]. exists vals. split; [reflexivity|]. split; [exact Hl|exact H].
Qed.
End Train.

(** ** Votes *)
Lemma countb_app_ {A} (f : A -> bool) u v : countb f (u ++ v) = countb f u + countb f v.
Proof. unfold countb. rewrite filter_app, app_length. reflexivity. Qed.
Lemma combine_snoc {A B} (P1 : list A) x : forall (vals : list B) v, nth_error vals (length P1) = Some v -> combine (P1 ++ [x]) vals = combine P1 vals ++ [(x, v)].
Proof.
  induction P1 as [|z P1 IH]; intros [|w vals] v E; try discriminate; cbn [app length] in *.
  - injection E as ->. destruct vals; reflexivity.
  - cbn [combine]. rewrite (IH vals v E). reflexivity.
Qed.
Lemma count_votes_ok c vals : length vals = length (class_pairs c) ->
  exists vs, count_votes c vals = Ok vs /\ length vs = c /\ forall k, k < c -> nth_error vs k = Some (votes c vals k).
Proof.
  intros Hl. unfold count_votes. match goal with |- context[foldM ?f _ _] => set (step := f) end.
  destruct (foldM_inv_ok step (class_pairs c) (fun P st => snd st = length P /\ length (fst st) = c /\
    forall k, k < c -> nth_error (fst st) k = Some (countb (wins k) (combine P vals))) (repeat 0 c, 0)) as ((vs & k) & E & _ & H1 & H2).
  - cbn [fst snd]. split; [reflexivity|]. split; [apply repeat_length|]. intros k Hk. cbn [combine]. apply (fold_repeat_nth 0 c k Hk).
  - intros P1 [i j] P2 [vs pos] EP (E1 & E2 & H). cbn [fst snd] in *. subst pos.
    assert (In (i, j) (class_pairs c)) as Hin by (rewrite EP; apply in_elt). apply in_class_pairs in Hin as [Hij Hj].
    assert (length P1 < length vals) as Hlt by (rewrite Hl, EP, app_length; simpl; lia). destruct (nth_lt vals _ Hlt) as (v & Ev).
    unfold step. rewrite (idxn_some _ _ _ Ev). cbn [bind]. set (w := if dgtb v d0 then i else j). assert (w < c) as Hw by (unfold w; destruct (dgtb v d0); lia).
    rewrite (idxn_some _ _ _ (H w Hw)). cbn [bind]. unfold set_at. rewrite (idxn_some _ _ _ (H w Hw)). cbn [bind].
    eexists. split; [reflexivity|]. cbn [fst snd]. rewrite app_length, upd_length. simpl (length [_]). split; [lia|]. split; [exact E2|].
    intros k Hk. rewrite (combine_snoc P1 (i, j) vals v Ev), countb_app_.
    assert (countb (wins k) [((i, j), v)] = if k =? w then 1 else 0) as -> by (unfold countb; cbn [filter wins]; fold w; destruct (k =? w); reflexivity).
    destruct (Nat.eqb_spec k w) as [->|Hne].
    + rewrite nth_upd_same by lia. f_equal. lia.
    + rewrite nth_upd_other by congruence. rewrite (H k Hk). f_equal. lia.
  - rewrite E. cbn [bind fst]. exists vs. split; [reflexivity|]. split; [exact H1|exact H2].
Qed.
Lemma best_vote_ok c vs : 1 <= c -> length vs = c -> exists b v, best_vote c vs = Ok b /\ nth_error vs b = Some v /\
  (forall k w, nth_error vs k = Some w -> w <= v) /\ (forall k w, k < b -> nth_error vs k = Some w -> w < v).
Proof.
  intros Hc Hl. unfold best_vote. destruct (nth_lt vs 0) as (v0 & E0); [lia|]. rewrite (idxn_some _ _ _ E0). cbn [bind].
  match goal with |- context[foldM ?f _ _] => set (step := f) end.
  destruct (foldM_inv_ok step (seq 1 (c - 1)) (fun P st => snd st < S (length P) /\ nth_error vs (snd st) = Some (fst st) /\
    (forall k w, k < S (length P) -> nth_error vs k = Some w -> w <= fst st) /\ (forall k w, k < snd st -> nth_error vs k = Some w -> w < fst st)) (v0, 0)) as ((v & b) & E & H1 & H2 & H3 & H4).
  - cbn [fst snd length]. split; [lia|]. split; [exact E0|]. split; [|intros; lia]. intros k w Hk Ek. assert (k = 0) as -> by lia. rewrite E0 in Ek. injection Ek as <-. lia.
  - intros P1 x P2 [v b] EP (H1 & H2 & H3 & H4). cbn [fst snd] in *. assert (length P1 < c - 1) as Hlt. { rewrite <- (seq_length (c - 1) 1), EP, app_length. simpl. lia. }
    assert (x = S (length P1)) as ->.
    { assert (nth_error (seq 1 (c - 1)) (length P1) = Some x) as Hn by (rewrite EP; apply nth_mid). rewrite (nth_error_nth' _ 0) in Hn by (rewrite seq_length; exact Hlt). rewrite seq_nth in Hn by exact Hlt. injection Hn as <-. reflexivity. }
    destruct (nth_lt vs (S (length P1))) as (x & Ex); [lia|]. unfold step. rewrite (idxn_some _ _ _ Ex). cbn [bind fst]. eexists. split; [reflexivity|].
    rewrite app_length. simpl (length [_]). destruct (Nat.ltb_spec v x) as [L|L]; cbn [fst snd].
    + split; [lia|]. split; [exact Ex|]. split.
      * intros k w Hk Ek. destruct (Nat.eq_dec k (S (length P1))) as [->|Hne]; [rewrite Ex in Ek; injection Ek as <-; lia|]. specialize (H3 k w ltac:(lia) Ek). lia.
      * intros k w Hk Ek. specialize (H3 k w ltac:(lia) Ek). lia.
    + split; [lia|]. split; [exact H2|]. split; [|exact H4].
      intros k w Hk Ek. destruct (Nat.eq_dec k (S (length P1))) as [->|Hne]; [rewrite Ex in Ek; injection Ek as <-; lia|]. apply (H3 k w ltac:(lia) Ek).
  - rewrite E. cbn [bind snd fst] in *. exists b, v. split; [reflexivity|]. split; [exact H2|]. split; [|exact H4].
    intros k w Ek. apply (H3 k w); [|exact Ek]. rewrite seq_length. assert (k < length vs) by (apply nth_error_Some; congruence). lia.
Qed.
Lemma votes_total_aux pv c : Forall (fun x => fst (fst x) < c /\ snd (fst x) < c) pv -> list_sum (map (fun k => countb (wins k) pv) (seq 0 c)) = length pv.
Proof.
  induction 1 as [|[[i j] v] pv [Hi Hj] _ IH].
  - unfold countb. cbn. clear. induction (seq 0 c); [reflexivity|]. cbn. exact IHl.
  - cbn [fst snd] in Hi, Hj. set (w := if dgtb v d0 then i else j). assert (w < c) as Hw by (unfold w; destruct (dgtb v d0); lia).
    assert (forall k, countb (wins k) (((i, j), v) :: pv) = (if k =? w then 1 else 0) + countb (wins k) pv) as Hk.
    { intros k. unfold countb. cbn [filter wins]. fold w. destruct (k =? w); reflexivity. }
    rewrite (map_ext _ _ Hk). cbn [length]. rewrite <- IH.
    assert (forall s n, list_sum (map (fun k => (if k =? w then 1 else 0) + countb (wins k) pv) (seq s n)) =
      (if (s <=? w) && (w <? s + n) then 1 else 0) + list_sum (map (fun k => countb (wins k) pv) (seq s n))) as H.
    { clear. intros s n. revert s. induction n as [|n IH]; intros s.
      - cbn [seq map]. destruct (Nat.leb_spec s w), (Nat.ltb_spec w (s + 0)); cbn [andb]; lia.
      - cbn [seq map]. change (list_sum (?a :: ?b)) with (a + list_sum b). rewrite IH.
        destruct (Nat.eqb_spec s w), (Nat.leb_spec s w), (Nat.leb_spec (S s) w), (Nat.ltb_spec w (s + S n)), (Nat.ltb_spec w (S s + n)); cbn [andb]; lia. }
    rewrite H. destruct (Nat.leb_spec 0 w), (Nat.ltb_spec w (0 + c)); cbn [andb]; lia.
Qed.
Lemma votes_total c vals : length vals = length (class_pairs c) -> list_sum (map (votes c vals) (seq 0 c)) = length (class_pairs c).
Proof.
  intros Hl. unfold votes. rewrite votes_total_aux; [rewrite combine_length; lia|]. apply Forall_forall. intros [[i j] v] H. apply in_combine_l in H. apply in_class_pairs in H. cbn. lia.
Qed.
