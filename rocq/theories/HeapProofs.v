(** Lemmas about object lifetimes. *)
From Coq Require Import String ZArith QArith Bool List Lia.
From Verif Require Import Base BaseLemmas AttrModel TreeModel TreeGrowProofs HeapModel HeapSpec.
Import ListNotations.
Local Open Scope list_scope.
Local Open Scope nat_scope.

Lemma nth_mid {A} (l : list A) x r : nth_error (l ++ x :: r) (length l) = Some x.
Proof. induction l; simpl; auto. Qed.
Lemma upd_mid {A} (l : list A) x y r : upd (l ++ x :: r) (length l) y = l ++ y :: r.
Proof. induction l; simpl; congruence. Qed.
Lemma nth_upd {A} (l : list A) i j v : nth_error (upd l i v) j = if Nat.eqb i j then option_map (fun _ => v) (nth_error l j) else nth_error l j.
Proof.
  destruct (Nat.eqb_spec i j) as [<-|H]; [|apply nth_upd_other; exact H].
  destruct (Nat.lt_ge_cases i (length l)) as [L|L].
  - rewrite nth_upd_same by exact L. destruct (nth_error l i) eqn:E; [reflexivity|]. apply nth_error_None in E. lia.
  - rewrite upd_out by exact L. apply nth_error_None in L. rewrite L. reflexivity.
Qed.
Lemma foldM_app {A B} (f : A -> B -> res A) l1 l2 a : foldM f (l1 ++ l2) a = do a' <- foldM f l1 a; foldM f l2 a'.
Proof. revert a; induction l1 as [|x l1 IH]; simpl; intros; [reflexivity|]. destruct (f a x); simpl; auto. Qed.

(** * Building instances *)
Lemma h_add_cells h0 l ps c cells a :
  h_add (h0 ++ Live (OInst l ps c) :: cells) (length h0) a =
  Ok (h0 ++ Live (OInst l (ps ++ [length h0 + S (length cells)]) c) :: cells ++ [Live (OAttr a)]).
Proof.
  unfold h_add, alloc, h_add_ptr, deref_inst, deref. rewrite <- app_assoc; simpl. rewrite nth_mid; simpl.
  unfold store. rewrite upd_mid, app_length; simpl. reflexivity.
Qed.
Lemma h_adds h0 l c : forall al ps cells, ps = seq (S (length h0)) (length cells) ->
  foldM (fun h a => h_add h (length h0) a) al (h0 ++ Live (OInst l ps c) :: cells) =
  Ok (h0 ++ Live (OInst l (seq (S (length h0)) (length cells + length al)) c) :: cells ++ map (fun a => Live (OAttr a)) al).
Proof.
  induction al as [|a al IH]; intros ps cells ->; simpl.
  - rewrite Nat.add_0_r, app_nil_r. reflexivity.
  - rewrite h_add_cells; simpl. rewrite IH.
    + rewrite app_length, <- app_assoc; simpl. do 4 f_equal. f_equal. f_equal. lia.
    + rewrite app_length; simpl. rewrite Nat.add_1_r, seq_S. do 2 f_equal. lia.
Qed.
Definition inst_cells (n : nat) (x : instance) : list cell :=
  Live (OInst (label x) (seq (S n) (length (attrs x))) (composite x)) :: map (fun a => Live (OAttr a)) (attrs x).
Lemma h_make_cells x h : h_make x h = Ok (length h, h ++ inst_cells (length h) x).
Proof.
  unfold h_make, h_new, alloc. pose proof (h_adds h (label x) (composite x) (attrs x) [] [] eq_refl) as H. simpl in H. simpl.
  exact (f_equal (fun r => bind r (fun h2 => Ok (length h, h2))) H).
Qed.

(** * Reading *)
Lemma holds_inst h i ps : holds h i ps <-> exists l c, deref_inst h i = Ok (l, ps, c).
Proof.
  unfold holds, deref_inst, deref. split; intros (l & c & H); exists l, c.
  - rewrite H. reflexivity.
  - destruct (nth_error h i) as [[|[]]|]; simpl in H; congruence.
Qed.
Lemma read_inst_holds h i x : read_inst h i = Ok x ->
  exists ps, nth_error h i = Some (Live (OInst (label x) ps (composite x))) /\
             Forall2 (fun p a => nth_error h p = Some (Live (OAttr a))) ps (attrs x).
Proof.
  unfold read_inst, deref_inst, deref. destruct (nth_error h i) as [[|[]]|] eqn:E; simpl; try discriminate.
  destruct (mapM _ _) as [vs| | |] eqn:M; simpl; try discriminate. intros [= <-]; simpl. exists attributes. split; [reflexivity|].
  apply mapM_ok in M. clear E. induction M; constructor; auto.
  unfold deref_attr, deref in H. destruct (nth_error h x) as [[|[]]|]; simpl in H; congruence.
Qed.
Lemma read_inst_intro h i l ps c vs : nth_error h i = Some (Live (OInst l ps c)) ->
  Forall2 (fun p a => nth_error h p = Some (Live (OAttr a))) ps vs -> read_inst h i = Ok (mkInst l vs c).
Proof.
  intros E F. unfold read_inst, deref_inst, deref. rewrite E; simpl.
  assert (M : mapM (deref_attr h) ps = Ok vs).
  { apply mapM_ok. clear E. induction F; constructor; auto. unfold deref_attr, deref. rewrite H. reflexivity. }
  rewrite M. reflexivity.
Qed.
Lemma read_same h h' i x : read_inst h i = Ok x ->
  (forall a, a = i \/ (forall ps, holds h i ps -> In a ps) -> nth_error h' a = nth_error h a) -> read_inst h' i = Ok x.
Proof.
  intros R S. destruct (read_inst_holds _ _ _ R) as (ps & E & F). destruct x as [l vs c]; simpl in *.
  apply read_inst_intro with (ps := ps); [rewrite S; auto|].
  assert (S' : forall a, In a ps -> nth_error h' a = nth_error h a).
  { intros a Ha. apply S. right. intros qs (l' & c' & Q). congruence. }
  clear - F S'. induction F; constructor; simpl in *; auto. rewrite S'; auto.
Qed.

(** * In place rewriting *)
Lemma h_set_spec h p f a : nth_error h p = Some (Live (OAttr a)) ->
  exists h', h_set h p f = Ok h' /\ nth_error h' p = Some (Live (OAttr (rewritten f a))) /\
             forall b, b <> p -> nth_error h' b = nth_error h b.
Proof.
  intros E. unfold h_set, deref_attr, deref. rewrite E; simpl.
  destruct a; simpl; eexists; (split; [reflexivity|]); (split; [try exact E|auto]).
  - unfold store. rewrite nth_upd, Nat.eqb_refl, E. reflexivity.
  - intros b Hb. unfold store. apply nth_upd_other. auto.
Qed.
(** one pass over distinct attribute objects *)
Lemma h_rescale_from_spec f : forall ps vs i h, NoDup ps ->
  Forall2 (fun p a => nth_error h p = Some (Live (OAttr a))) ps vs ->
  exists h', h_rescale_from f i ps h = Ok h' /\
    (forall k p a, nth_error ps k = Some p -> nth_error vs k = Some a ->
                   nth_error h' p = Some (Live (OAttr (rewritten (f (i + k)) a)))) /\
    forall b, ~ In b ps -> nth_error h' b = nth_error h b.
Proof.
  induction ps as [|p ps IH]; intros vs i h ND F; simpl.
  - exists h. split; [reflexivity|]. split; [intros [|k]; discriminate|auto].
  - inversion F as [|? a ? vs' E F']; subst. inversion ND as [|? ? Hn ND']; subst.
    destruct (h_set_spec h p (f i) a E) as (h1 & E1 & P1 & O1). rewrite E1; simpl.
    assert (F1 : Forall2 (fun p a => nth_error h1 p = Some (Live (OAttr a))) ps vs').
    { clear - F' O1 Hn. induction F'; constructor; simpl in *.
      - rewrite O1; auto.
      - apply IHF'. auto. }
    destruct (IH vs' (S i) h1 ND' F1) as (h' & E' & P' & O'). exists h'. split; [exact E'|]. split.
    + intros [|k] q b Hq Hb; simpl in *.
      * injection Hq as <-. injection Hb as <-. rewrite O' by exact Hn. rewrite Nat.add_0_r. exact P1.
      * replace (i + S k) with (S i + k) by lia. eapply P'; eauto.
    + intros b Hb. rewrite O', O1; auto.
Qed.
Fixpoint rescale_list (f : nat -> dbl -> dbl) (i : nat) (vs : list attr) : list attr :=
  match vs with [] => [] | a :: vs' => rewritten (f i) a :: rescale_list f (S i) vs' end.
Lemma rescale_list_nth f : forall vs i k, nth_error (rescale_list f i vs) k = option_map (rewritten (f (i + k))) (nth_error vs k).
Proof.
  induction vs as [|a vs IH]; intros i [|k]; simpl; auto.
  - rewrite Nat.add_0_r. reflexivity.
  - rewrite IH. replace (i + S k) with (S i + k) by lia. reflexivity.
Qed.
Lemma rescale_list_length f : forall vs i, length (rescale_list f i vs) = length vs.
Proof. induction vs; simpl; auto. Qed.
Definition rescale_inst (f : nat -> dbl -> dbl) (x : instance) : instance :=
  mkInst (label x) (rescale_list f 0 (attrs x)) (composite x).
Lemma rescale_inst_rescaled f x : rescaled f x (rescale_inst f x).
Proof. split; [reflexivity|split; [reflexivity|]]. intros k. apply (rescale_list_nth f (attrs x) 0). Qed.
Lemma nth_error_ext' {A} (l l' : list A) : (forall k, nth_error l k = nth_error l' k) -> l = l'.
Proof.
  revert l'; induction l as [|x l IH]; intros [|y l'] H; auto.
  - specialize (H 0); discriminate.
  - specialize (H 0); discriminate.
  - f_equal; [specialize (H 0); simpl in H; congruence|]. apply IH. intros k. apply (H (S k)).
Qed.
Lemma rescaled_unique f x y : rescaled f x y -> y = rescale_inst f x.
Proof.
  intros (L & C & N). destruct x as [l vs c], y as [l' vs' c']; simpl in *; subst. unfold rescale_inst; simpl. f_equal.
  apply nth_error_ext'. intros k. rewrite N, (rescale_list_nth f vs 0). reflexivity.
Qed.
Lemma Forall2_nth {A B} (R : A -> B -> Prop) : forall l1 l2, length l1 = length l2 ->
  (forall k a b, nth_error l1 k = Some a -> nth_error l2 k = Some b -> R a b) -> Forall2 R l1 l2.
Proof.
  induction l1 as [|a l1 IH]; intros [|b l2] L H; try discriminate; constructor.
  - apply (H 0); reflexivity.
  - apply IH; [simpl in L; congruence|]. intros k. apply (H (S k)).
Qed.
Lemma h_rescale_spec f h i x ps : read_inst h i = Ok x -> holds h i ps -> NoDup ps ->
  exists h', h_rescale f h i = Ok h' /\ read_inst h' i = Ok (rescale_inst f x) /\
             (forall b, ~ In b ps -> nth_error h' b = nth_error h b) /\ holds h' i ps.
Proof.
  intros R H ND. destruct (read_inst_holds _ _ _ R) as (qs & E & F). destruct H as (l & c & E').
  rewrite E in E'. injection E' as <- -> <-.
  destruct (h_rescale_from_spec f ps (attrs x) 0 h ND F) as (h' & E1 & P & O). exists h'.
  assert (Hi : ~ In i ps).
  { intros Hi. destruct (In_nth_error _ _ Hi) as (k & Hk).
    assert (exists a, nth_error h i = Some (Live (OAttr a))) as (a & Ha); [|congruence].
    clear - F Hi. induction F; [destruct Hi|]. destruct Hi as [<-|Hi]; eauto. }
  repeat split.
  - unfold h_rescale, deref_inst, deref. rewrite E; simpl. exact E1.
  - apply read_inst_intro with (ps := ps); [rewrite O; auto|].
    apply Forall2_nth; [rewrite rescale_list_length; eapply Forall2_len; eauto|].
    intros k p b Hp Hb. rewrite (rescale_list_nth f (attrs x) 0 k) in Hb.
    destruct (nth_error (attrs x) k) as [a|] eqn:Ha; [|discriminate]. injection Hb as <-. eapply P; eauto.
  - exact O.
  - exists (label x), (composite x). rewrite O; auto.
Qed.
Lemma NoDup_app {A} (l l' : list A) : NoDup (l ++ l') -> NoDup l /\ NoDup l' /\ forall x, In x l -> ~ In x l'.
Proof.
  induction l as [|x l IH]; simpl; intros H; [split; [constructor|split; [exact H|tauto]]|].
  inversion H as [|? ? Hx HR]; subst. destruct (IH HR) as (A1 & A2 & A3). repeat split; auto.
  - constructor; auto. intros Hi. apply Hx. apply in_or_app. auto.
  - intros y [<-|Hy] Hy'; [apply Hx; apply in_or_app; auto|exact (A3 y Hy Hy')].
Qed.
Lemma holds_attr h i ps x p : read_inst h i = Ok x -> holds h i ps -> In p ps -> exists a, nth_error h p = Some (Live (OAttr a)).
Proof.
  intros R (l & c & E) Hp. destruct (read_inst_holds _ _ _ R) as (qs & E' & F). rewrite E in E'. injection E' as -> <- ->.
  clear - F Hp. induction F; [destruct Hp|]. destruct Hp as [<-|Hp]; eauto.
Qed.
Lemma frame h h1 ps js pss ys : (forall b, ~ In b ps -> nth_error h1 b = nth_error h b) ->
  Forall2 (holds h) js pss -> Forall2 (fun i y => read_inst h i = Ok y) js ys ->
  (forall p, In p ps -> ~ In p (concat pss)) -> (forall j, In j js -> ~ In j ps) ->
  Forall2 (holds h1) js pss /\ Forall2 (fun i y => read_inst h1 i = Ok y) js ys.
Proof.
  intros O H. revert ys. induction H as [|j qs js pss Hj H IH]; intros ys R N G; inversion R as [|? y ? ys' Ry1 Ry2]; subst.
  - split; constructor.
  - destruct (IH ys' Ry2) as (A1 & A2).
    { intros p Hp Hq. apply (N p Hp). simpl. apply in_or_app; auto. }
    { intros j' Hj'. apply G. right; exact Hj'. }
    assert (Nj : ~ In j ps) by (apply G; left; reflexivity).
    split; constructor; auto.
    + destruct Hj as (l & c & Ej). exists l, c. rewrite O; auto.
    + apply read_same with (h := h); [exact Ry1|]. intros a [->|Ha]; [auto|]. apply O. intros Hp.
      apply (N a Hp). simpl. apply in_or_app. left. apply Ha. exact Hj.
Qed.
Lemma h_convert_spec f : forall is pss xs h, NoDup is -> unshared h is pss -> read_all h is = Ok xs ->
  exists h', h_convert f is h = Ok h' /\ read_all h' is = Ok (map (rescale_inst f) xs) /\ unshared h' is pss /\
             forall b, ~ In b (concat pss) -> nth_error h' b = nth_error h b.
Proof.
  induction is as [|i is IH]; intros pss xs h NI [H ND] R.
  - inversion H; subst. injection R as <-. exists h. repeat split; auto.
  - inversion H as [|? ps ? pss' Hi H']; subst. apply mapM_ok in R. inversion R as [|? x ? xs' Rx Rxs]; subst.
    simpl in ND. destruct (NoDup_app _ _ ND) as (N1 & N2 & N3). inversion NI as [|? ? Ni NI']; subst.
    destruct (h_rescale_spec f h i x ps Rx Hi N1) as (h1 & E1 & R1 & O1 & H1).
    assert (G : forall j, In j is -> ~ In j ps).
    { intros j Hj Hp. destruct (holds_attr h i ps x j Rx Hi Hp) as (a & Ha).
      assert (exists l qs c, nth_error h j = Some (Live (OInst l qs c))) as (l & qs & c & E); [|congruence].
      clear - H' Hj. induction H'; [destruct Hj|]. destruct Hj as [<-|Hj]; auto. destruct H as (l0 & c0 & E0). eauto. }
    destruct (frame h h1 ps is pss' xs' O1 H' Rxs N3 G) as (K1 & K2).
    destruct (IH pss' xs' h1 NI' (conj K1 N2)) as (h' & E' & R' & [U' _] & O'); [apply mapM_ok; exact K2|].
    assert (Gi : ~ In i (concat pss')).
    { intros Hc. apply in_concat in Hc. destruct Hc as (qs & Hq & Hiq).
      assert (exists j y, read_inst h1 j = Ok y /\ holds h1 j qs) as (j & y & Rj & Hj).
      { clear - K1 K2 Hq. revert xs' K2. induction K1 as [|j q js pss Hj K1 IHk]; intros ys K2; [destruct Hq|].
        inversion K2; subst. destruct Hq as [<-|Hq]; eauto. }
      destruct (holds_attr h1 j qs y i Rj Hj Hiq) as (a & Ha). destruct H1 as (l & c & E). congruence. }
    exists h'. assert (Ri : read_inst h' i = Ok (rescale_inst f x)).
    { apply read_same with (h := h1); [exact R1|]. intros a [->|Ha]; apply O'; [exact Gi|]. intros Hc. apply (N3 a); auto. }
    repeat split.
    + unfold h_convert; simpl. rewrite E1; simpl. exact E'.
    + unfold read_all; simpl. rewrite Ri; simpl. unfold read_all in R'. rewrite R'. reflexivity.
    + constructor; [|exact U']. destruct H1 as (l & c & E). exists l, c. rewrite O'; auto.
    + exact ND.
    + intros b Hb. simpl in Hb. rewrite O', O1; auto; intros Hc; apply Hb; apply in_or_app; auto.
Qed.

(** * Data sets built from new instances *)
Lemma read_app h i x ext : read_inst h i = Ok x -> read_inst (h ++ ext) i = Ok x.
Proof.
  intros R. destruct (read_inst_holds _ _ _ R) as (ps & E & F). destruct x as [l vs c]; simpl in *.
  apply read_inst_intro with (ps := ps).
  - rewrite nth_error_app1; [exact E|]. apply nth_error_Some. congruence.
  - clear - F. induction F; constructor; auto. rewrite nth_error_app1; [assumption|]. apply nth_error_Some. congruence.
Qed.
Lemma holds_app h i ps ext : holds h i ps -> holds (h ++ ext) i ps.
Proof. intros (l & c & E). exists l, c. rewrite nth_error_app1; [exact E|]. apply nth_error_Some. congruence. Qed.
Lemma read_made h x : read_inst (h ++ inst_cells (length h) x) (length h) = Ok x /\
  holds (h ++ inst_cells (length h) x) (length h) (seq (S (length h)) (length (attrs x))).
Proof.
  assert (E : nth_error (h ++ inst_cells (length h) x) (length h) =
              Some (Live (OInst (label x) (seq (S (length h)) (length (attrs x))) (composite x)))) by apply nth_mid.
  split; [|eexists; eexists; exact E]. destruct x as [l vs c]; simpl in *. apply read_inst_intro with (1 := E).
  apply Forall2_nth; [apply seq_length|]. intros k p a Hp Ha.
  assert (Hk : k < length vs) by (apply nth_error_Some; congruence).
  rewrite nth_error_nth' with (d := 0) in Hp by (rewrite seq_length; exact Hk). injection Hp as <-. rewrite seq_nth by exact Hk.
  rewrite nth_error_app2 by lia. replace (S (length h) + k - length h) with (S k) by lia. unfold inst_cells; simpl.
  rewrite nth_error_map. rewrite Ha. reflexivity.
Qed.
Lemma h_make_all_spec : forall xs h0 h is ys pss, length h0 <= length h -> NoDup is -> unshared h is pss ->
  Forall2 (fun i y => read_inst h i = Ok y) is ys -> (forall b, In b is \/ In b (concat pss) -> length h0 <= b < length h) ->
  (forall b, b < length h0 -> nth_error h b = nth_error h0 b) ->
  exists is' h' pss', foldM (fun st x => do (i, h') <- h_make x (snd st); Ok (fst st ++ [i], h')) xs (is, h) = Ok (is', h') /\
    NoDup is' /\ unshared h' is' pss' /\ Forall2 (fun i y => read_inst h' i = Ok y) is' (ys ++ xs) /\
    (forall b, In b is' \/ In b (concat pss') -> length h0 <= b < length h') /\
    (forall b, b < length h0 -> nth_error h' b = nth_error h0 b).
Proof.
  induction xs as [|x xs IH]; intros h0 h is ys pss L NI [U ND] R B O; simpl.
  - exists is, h, pss. rewrite app_nil_r. repeat split; auto; apply B; auto.
  - rewrite h_make_cells; simpl. set (h1 := h ++ inst_cells (length h) x). destruct (read_made h x) as (R1 & H1). fold h1 in R1, H1.
    assert (L1 : length h1 = length h + S (length (attrs x))).
    { unfold h1, inst_cells. rewrite app_length; simpl. rewrite map_length. reflexivity. }
    destruct (IH h0 h1 (is ++ [length h]) (ys ++ [x]) (pss ++ [seq (S (length h)) (length (attrs x))])) as (is' & h' & pss' & E & A).
    + lia.
    + apply NoDup_rev in NI. rewrite <- (rev_involutive (is ++ _)). apply NoDup_rev. rewrite rev_app_distr; simpl. constructor; [|exact NI].
      intros Hi. apply in_rev in Hi. destruct (B (length h)) as [_ ?]; [auto|lia].
    + split.
      * apply Forall2_app; [|constructor; [exact H1|constructor]]. clear - U. induction U; constructor; auto. apply holds_app; assumption.
      * rewrite concat_app; simpl. rewrite app_nil_r.
        assert (Hs : NoDup (seq (S (length h)) (length (attrs x)))) by apply seq_NoDup.
        assert (Hd : forall b, In b (concat pss) -> ~ In b (seq (S (length h)) (length (attrs x)))).
        { intros b Hb Hs'. apply in_seq in Hs'. destruct (B b) as [_ ?]; [auto|lia]. }
        clear - ND Hs Hd. induction (concat pss) as [|b l IHl]; simpl; [exact Hs|]. inversion ND; subst. constructor.
        -- intros Hb. apply in_app_or in Hb. destruct Hb as [Hb|Hb]; [tauto|]. apply (Hd b); simpl; auto.
        -- apply IHl; auto. intros b' Hb'. apply Hd. right; exact Hb'.
    + apply Forall2_app; [|constructor; [exact R1|constructor]]. clear - R. induction R; constructor; auto. apply read_app; assumption.
    + intros b Hb. rewrite L1. rewrite concat_app in Hb; simpl in Hb. rewrite app_nil_r in Hb.
      assert (C : In b is \/ In b (concat pss) \/ b = length h \/ In b (seq (S (length h)) (length (attrs x)))).
      { destruct Hb as [Hb|Hb]; apply in_app_or in Hb; destruct Hb as [Hb|Hb]; auto. destruct Hb as [<-|[]]; auto. }
      destruct C as [C|[C|[->|C]]].
      * destruct (B b); [auto|lia].
      * destruct (B b); [auto|lia].
      * lia.
      * apply in_seq in C. lia.
    + intros b Hb. unfold h1. rewrite nth_error_app1 by lia. apply O; exact Hb.
    + exists is', h', pss'. split; [exact E|]. rewrite <- app_assoc in A. exact A.
Qed.

(** * Deleting instances *)
Lemma delete_attr n p h o : nth_error h p = Some (Live o) -> delete_ false (S n) TAttribute (At p) h = Ok (upd h p Freed).
Proof.
  intros E. cbn [delete_]. rewrite E. cbn [andb].
  assert (G : release h p = Ok (upd h p Freed)) by (unfold release; rewrite E; reflexivity).
  destruct o; exact G.
Qed.
Lemma delete_attrs n : forall ps h, NoDup ps -> (forall p, In p ps -> live h p) ->
  exists h', foldM (fun h p => delete_ false (S n) TAttribute (At p) h) ps h = Ok h' /\ released (fun a => In a ps) h h'.
Proof.
  induction ps as [|p ps IH]; intros h ND L.
  - exists h. split; [reflexivity|]. split; [reflexivity|]. intros a; split; [intros []|reflexivity].
  - inversion ND as [|? ? Hn ND']; subst. destruct (L p) as (o & E); [left; reflexivity|].
    assert (Lt : p < length h) by (apply nth_error_Some; congruence).
    destruct (IH (upd h p Freed) ND') as (h' & E' & [Len R]).
    { intros q Hq. destruct (L q) as (oq & Eq); [right; exact Hq|]. exists oq. rewrite nth_upd_other; [exact Eq|]. intros ->; contradiction. }
    exists h'. split.
    + cbn [foldM]. rewrite (delete_attr n p h o E). cbn [bind]. exact E'.
    + split; [rewrite Len; apply upd_length|]. intros a. destruct (R a) as (R1 & R2). split.
      * intros [<-|Ha].
        -- split; [eexists; exact E|]. unfold freed. rewrite R2 by exact Hn. apply nth_upd_same; exact Lt.
        -- destruct (R1 Ha) as [[oa La] Fa]. split; [|exact Fa]. exists oa. rewrite nth_upd_other in La; [exact La|].
           intros ->; contradiction.
      * intros Ha. rewrite R2 by (intros Hb; apply Ha; right; exact Hb). apply nth_upd_other. intros ->. apply Ha; left; reflexivity.
Qed.
Lemma delete_inst n st h i ps : st = TInstance \/ st = TCompositeInstance -> holds h i ps -> NoDup (i :: ps) -> (forall p, In p ps -> live h p) ->
  exists h', delete_ false (S (S n)) st (At i) h = Ok h' /\ released (fun a => In a (i :: ps)) h h'.
Proof.
  intros St (l & c & E) ND L. inversion ND as [|? ? Hn ND']; subst.
  destruct (delete_attrs n ps h ND' L) as (h1 & E1 & [Len R]).
  assert (Ei : nth_error h1 i = Some (Live (OInst l ps c))) by (rewrite (proj2 (R i)); auto).
  exists (upd h1 i Freed). split.
  - remember (S n) as m. cbn [delete_]. rewrite E. cbn [andb].
    assert (G : (do h' <- foldM (fun h p => delete_ false m TAttribute (At p) h) ps h; release h' i) = Ok (upd h1 i Freed)).
    { rewrite E1; simpl. unfold release. rewrite Ei. reflexivity. }
    destruct St as [->| ->]; exact G.
  - split; [rewrite upd_length; exact Len|]. intros a.
    assert (Lt : i < length h1) by (apply nth_error_Some; congruence).
    split.
    + intros [<-|Ha]; [split; [eexists; exact E|apply nth_upd_same; exact Lt]|].
      destruct (R a) as [R1 _]. destruct (R1 Ha) as (La & Fa). split; [exact La|]. unfold freed. rewrite nth_upd_other; [exact Fa|]. intros ->; contradiction.
    + intros Ha. rewrite nth_upd_other by (intros ->; apply Ha; left; reflexivity). apply R. intros H; apply Ha; right; exact H.
Qed.
(** whatever happens, an attribute is never an object of class Attribute *)
Lemma delete_inst_strict n st h i l p ps c a : st = TInstance \/ st = TCompositeInstance ->
  nth_error h i = Some (Live (OInst l (p :: ps) c)) -> nth_error h p = Some (Live (OAttr a)) ->
  delete_ true (S (S n)) st (At i) h = UB BadDelete.
Proof.
  intros St E Ep. cbn [delete_]. rewrite E. cbn [andb].
  destruct (negb (ty_eqb (dynamic (OInst l (p :: ps) c)) st)); [reflexivity|].
  assert (G : forall B (k : heap -> res B), (do h' <- (do h1 <- match nth_error h p with
     | Some (Live o) => if true && negb (ty_eqb (dynamic o) TAttribute) then UB BadDelete else Ok h | _ => UB BadDelete end;
     Ok h1); k h') = UB BadDelete).
  { intros. rewrite Ep. destruct a; reflexivity. }
  destruct St as [->| ->]; cbn [foldM]; rewrite Ep; cbn [andb]; destruct a; reflexivity.
Qed.

(** * Trees *)
Fixpoint tree_cells (soft : bool) (t : tree) (n : nat) : list cell :=
  match t with
  | Node _ _ _ c ch =>
      let v := match c_value c with Some a => [Live (OAttr a)] | None => [] end in
      let '(ps, cs) := fold_left (fun (st : list addr * list cell) t' => let s := tree_cells soft t' (n + length v + length (snd st)) in
                                               (fst st ++ [n + length v + length (snd st) + length s - 1], snd st ++ s)) ch (@nil addr, @nil cell) in
      v ++ cs ++ [Live (ONode soft (match c_value c with Some _ => At n | None => Null end) ps)]
  end.
Lemma tree_cells_pos soft t n : 0 < length (tree_cells soft t n).
Proof. destruct t as [l lf d c ch]; simpl. destruct (fold_left _ ch _). rewrite !app_length; simpl. lia. Qed.
Lemma tree_cells_last soft t n : exists cs v ps, tree_cells soft t n = cs ++ [Live (ONode soft v ps)].
Proof. destruct t as [l lf d c ch]. cbn [tree_cells]. destruct (fold_left _ _ _) as [ps cs]. rewrite ?app_assoc. eauto. Qed.
Lemma alloc_tree_cells soft : forall t h, alloc_tree soft t h =
  (length h + length (tree_cells soft t (length h)) - 1, h ++ tree_cells soft t (length h)).
Proof.
  induction t as [l lf d c ch IH] using tree_rect2; intros h. cbn [alloc_tree tree_cells].
  set (v := match c_value c with Some a => [Live (OAttr a)] | None => [] end).
  set (vp := match c_value c with Some _ => At (length h) | None => Null end).
  assert (Ev : (match c_value c with Some a => let '(p, h') := alloc (OAttr a) h in (At p, h') | None => (Null, h) end) = (vp, h ++ v)).
  { unfold vp, v. destruct (c_value c); simpl; [reflexivity|]. rewrite app_nil_r. reflexivity. }
  rewrite Ev.
  assert (G : forall (ps : list addr) (cs : list cell),
    fold_left (fun st t' => let '(p, h') := alloc_tree soft t' (snd st) in (fst st ++ [p], h')) ch (ps, (h ++ v) ++ cs) =
    let '(ps', cs') := fold_left (fun (st : list addr * list cell) t' => let s := tree_cells soft t' (length h + length v + length (snd st)) in
                                  (fst st ++ [length h + length v + length (snd st) + length s - 1], snd st ++ s)) ch (ps, cs) in
    (ps', (h ++ v) ++ cs')).
  { clear - IH. induction IH as [|t ch Ht IH IHc]; intros ps cs; [reflexivity|]. cbn [fold_left snd fst].
    rewrite Ht. cbn beta iota. rewrite !app_length. rewrite <- (app_assoc (h ++ v) cs). rewrite IHc. reflexivity. }
  specialize (G [] []). rewrite app_nil_r in G. cbn [length] in *.
  match type of G with _ = let '(ps', cs') := ?F in _ => destruct F as [ps cs] end.
  match goal with |- (let '(ps0, h2) := ?F in _) = _ => change F with (fold_left (fun (st : list addr * heap) t' => let '(p, h') := alloc_tree soft t' (snd st) in (fst st ++ [p], h')) ch ([], h ++ v)) end.
  match type of G with ?F = _ => match goal with |- (let '(ps0, h2) := ?F' in _) = _ => change F' with F end end.
  rewrite G. unfold alloc. rewrite !app_length. cbn [length]. f_equal; [lia|].
  rewrite <- !app_assoc. reflexivity.
Qed.
Definition dead (c : cell) : cell := if is_node c then Freed else c.
Fixpoint height (t : tree) : nat := match t with Node _ _ _ _ ch => S (fold_right (fun t n => Nat.max (height t) n) 0 ch) end.
Lemma map_dead_len l : length (map dead l) = length l.
Proof. apply map_length. Qed.
Lemma delete_tree strict soft : strict = false \/ soft = false -> forall t n m pre post, length pre = n -> height t <= m ->
  delete_ strict m TDecisionNode (At (n + length (tree_cells soft t n) - 1)) (pre ++ tree_cells soft t n ++ post) =
  Ok (pre ++ map dead (tree_cells soft t n) ++ post).
Proof.
  intros Hm. induction t as [l lf d c ch IH] using tree_rect2; intros n m pre post Hn Hh.
  destruct m as [|m]; [simpl in Hh; lia|]. cbn [tree_cells].
  set (v := match c_value c with Some a => [Live (OAttr a)] | None => [] end).
  set (vp := match c_value c with Some _ => At n | None => Null end).
  destruct (fold_left _ ch ([], [])) as [ps cs] eqn:F.
  assert (Hv : map dead v = v) by (unfold v; destruct (c_value c); reflexivity).
  assert (Ed : dynamic (ONode soft vp ps) = if soft then TSoftDecisionNode else TDecisionNode) by (destruct soft; reflexivity).
  set (N := Live (ONode soft vp ps)).
  (* deleting the children *)
  assert (G : forall ps0 cs0 ps cs pre0 post, length pre0 = n + length v ->
     fold_left (fun (st : list addr * list cell) t' => let s := tree_cells soft t' (n + length v + length (snd st)) in
                   (fst st ++ [n + length v + length (snd st) + length s - 1], snd st ++ s)) ch (ps0, cs0) = (ps, cs) ->
     exists qs, ps = ps0 ++ qs /\
     exists ds, cs = cs0 ++ ds /\ forall done, length done = length cs0 ->
     foldM (fun h p => delete_ strict m TDecisionNode (At p) h) qs (pre0 ++ done ++ ds ++ post) =
     Ok (pre0 ++ done ++ map dead ds ++ post)).
  { clear F. assert (Hch : fold_right (fun t n => Nat.max (height t) n) 0 ch <= m) by (simpl in Hh; lia).
    clear - IH Hch. induction IH as [|t ch Ht IH IHc]; intros ps0 cs0 ps cs pre0 post Lp F.
    - injection F as <- <-. exists []. rewrite app_nil_r. split; [reflexivity|]. exists []. rewrite app_nil_r. split; [reflexivity|]. reflexivity.
    - cbn [fold_left fst snd] in F. cbn [fold_right] in Hch.
      set (s := tree_cells soft t (n + length v + length cs0)) in *.
      destruct (IHc ltac:(lia) _ _ _ _ pre0 post Lp F) as (qs & -> & ds & -> & D).
      exists ((n + length v + length cs0 + length s - 1) :: qs). split; [rewrite <- app_assoc; reflexivity|].
      exists (s ++ ds). split; [rewrite <- app_assoc; reflexivity|]. intros done Ld. cbn [foldM].
      assert (Lpd : length (pre0 ++ done) = n + length v + length cs0) by (rewrite app_length; lia).
      pose proof (Ht (n + length v + length cs0) m (pre0 ++ done) (ds ++ post) Lpd ltac:(lia)) as X. fold s in X.
      rewrite <- !app_assoc in *. rewrite X. cbn [bind].
      specialize (D (done ++ map dead s)). rewrite <- !app_assoc in D. rewrite D; [|rewrite !app_length, map_length; lia].
      rewrite map_app, <- !app_assoc. reflexivity. }
  destruct (G [] [] ps cs (pre ++ v) (N :: post)) as (qs & Hq & ds & Hd & D); [rewrite app_length; lia|exact F|].
  simpl in Hq, Hd. subst qs ds. specialize (D [] eq_refl). simpl in D.
  assert (Ea : n + length (v ++ cs ++ [N]) - 1 = length (pre ++ v ++ cs)) by (rewrite !app_length; simpl; lia).
  rewrite Ea.
  assert (Eh : pre ++ (v ++ cs ++ [N]) ++ post = (pre ++ v ++ cs) ++ N :: post) by (rewrite <- !app_assoc; reflexivity).
  rewrite Eh. cbn [delete_]. rewrite nth_mid. unfold N at 1. rewrite Ed.
  assert (Ec : strict && negb (ty_eqb (if soft then TSoftDecisionNode else TDecisionNode) TDecisionNode) = false).
  { destruct Hm as [-> | ->]; [reflexivity|]. apply andb_false_r. }
  rewrite Ec. fold N. rewrite <- !app_assoc in D |- *. cbn [app] in D |- *. rewrite D. cbn [bind].
  assert (Er : pre ++ v ++ map dead cs ++ N :: post = (pre ++ v ++ map dead cs) ++ N :: post) by (rewrite <- !app_assoc; reflexivity).
  rewrite Er. replace (length (pre ++ v ++ cs)) with (length (pre ++ v ++ map dead cs)) by (rewrite !app_length, map_length; reflexivity).
  unfold release. rewrite nth_mid. unfold N at 1. rewrite upd_mid. rewrite !map_app. cbn [map]. rewrite Hv, <- !app_assoc. reflexivity.
Qed.
Lemma map_dead_counts soft : forall t n, count is_node (tree_cells soft t n) = node_count t /\
  count is_live (tree_cells soft t n) = node_count t + condition_count t /\ count is_tree (tree_cells soft t n) = 0 /\
  count is_live (map dead (tree_cells soft t n)) = condition_count t.
Proof.
  induction t as [l lf d c ch IH] using tree_rect2; intros n. cbn [tree_cells].
  set (v := match c_value c with Some a => [Live (OAttr a)] | None => [] end).
  assert (G : forall (ps : list addr) (cs : list cell),
    let cs' := snd (fold_left (fun (st : list addr * list cell) t' => let s := tree_cells soft t' (n + length v + length (snd st)) in
                         (fst st ++ [n + length v + length (snd st) + length s - 1], snd st ++ s)) ch (ps, cs)) in
    count is_node cs' = count is_node cs + fold_right (fun t n => node_count t + n) 0 ch /\
    count is_live cs' = count is_live cs + (fold_right (fun t n => node_count t + n) 0 ch + fold_right (fun t n => condition_count t + n) 0 ch) /\
    count is_tree cs' = count is_tree cs /\
    count is_live (map dead cs') = count is_live (map dead cs) + fold_right (fun t n => condition_count t + n) 0 ch).
  { clear - IH. induction IH as [|t ch Ht IH IHc]; intros ps cs; cbn [fold_left fold_right snd fst].
    - simpl. lia.
    - match goal with |- context [fold_left _ ch (?a, ?b)] => specialize (IHc a b) end.
      cbv zeta in *. destruct (Ht (n + length v + length cs)) as (T1 & T2 & T3 & T4).
      unfold count in *. rewrite map_app in IHc. rewrite !filter_app, !app_length in IHc. lia. }
  specialize (G [] []). cbv zeta in G.
  destruct (fold_left _ ch _) as [ps cs]. cbn [snd] in G.
  assert (V : count is_node v = 0 /\ count is_live v = (match c_value c with Some _ => 1 | None => 0 end) /\ count is_tree v = 0 /\ map dead v = v).
  { unfold v. destruct (c_value c); repeat split. }
  unfold count in *. rewrite !map_app, !filter_app, !app_length. cbn [node_count condition_count]. simpl in G |- *.
  destruct V as (V1 & V2 & V3 & V4). rewrite V4, V1, V2, V3. lia.
Qed.
Lemma h_subset_cells h i l ps c fs qs : nth_error h i = Some (Live (OInst l ps c)) -> mapM (at_ ps) fs = Ok qs ->
  h_subset h i fs = Ok (length h, h ++ [Live (OInst l qs None)]).
Proof. intros E M. unfold h_subset, deref_inst, deref. rewrite E; simpl. rewrite M. reflexivity. Qed.
Lemma h_subset_inv h i fs j h1 : h_subset h i fs = Ok (j, h1) ->
  exists l ps c qs, nth_error h i = Some (Live (OInst l ps c)) /\ mapM (at_ ps) fs = Ok qs /\
                    j = length h /\ h1 = h ++ [Live (OInst l qs None)].
Proof.
  unfold h_subset, deref_inst, deref. destruct (nth_error h i) as [[|[]]|]; simpl; try discriminate.
  destruct (mapM _ fs) as [qs| | |] eqn:M; simpl; try discriminate. unfold alloc. intros [= <- <-]. eauto 10.
Qed.
Lemma at_ok {A} (l : list A) k x : at_ l k = Ok x -> (0 <= k)%Z /\ nth_error l (Z.to_nat k) = Some x.
Proof.
  unfold at_. destruct (Z.ltb_spec k 0); [discriminate|]. destruct (nth_error l (Z.to_nat k)); [|discriminate]. intros [= <-]. auto.
Qed.
Lemma erase_in {A} (l : list A) k x : In x (erase_nth l k) -> In x l.
Proof. revert k. induction l as [|y l IH]; intros [|k] H; simpl in *; auto. destruct H as [<-|H]; eauto. Qed.
Lemma erase_nodup {A} (l : list A) k : NoDup l -> NoDup (erase_nth l k).
Proof.
  revert k. induction l as [|y l IH]; intros k ND; [destruct k; constructor|]. inversion ND; subst.
  destruct k; simpl; [assumption|]. constructor; [|apply IH; assumption]. intros Hy. apply erase_in in Hy. contradiction.
Qed.
Lemma erase_gone {A} (l : list A) k x : NoDup l -> nth_error l k = Some x -> ~ In x (erase_nth l k).
Proof.
  revert k. induction l as [|y l IH]; intros k ND Hk; [destruct k; discriminate|]. inversion ND; subst. destruct k; simpl in *.
  - injection Hk as ->. assumption.
  - intros [->|Hp]; [apply nth_error_In in Hk; contradiction|]. eapply IH; eauto.
Qed.
Lemma attrs_app h ext qs vs : Forall2 (fun p a => nth_error h p = Some (Live (OAttr a))) qs vs ->
  Forall2 (fun p a => nth_error (h ++ ext) p = Some (Live (OAttr a))) qs vs.
Proof. induction 1; constructor; auto. rewrite nth_error_app1; [assumption|]. apply nth_error_Some. congruence. Qed.
Lemma Forall2_at {A B} (R : A -> B -> Prop) l1 l2 : Forall2 R l1 l2 -> forall k a b, nth_error l1 k = Some a -> nth_error l2 k = Some b -> R a b.
Proof. induction 1; intros [|k] a b Ha Hb; try discriminate; simpl in *; [congruence|eauto]. Qed.

(** * Tree objects *)
Definition root_of (soft : bool) (t : tree) (n : nat) : addr := n + length (tree_cells soft t n) - 1.
Lemma set_root_cells h soft r mid t :
  h_set_root (h ++ Live (OTree soft r) :: mid) (length h) t =
  Ok (h ++ Live (OTree soft (At (root_of soft t (length h + S (length mid))))) :: mid ++ tree_cells soft t (length h + S (length mid))).
Proof.
  unfold h_set_root, deref. rewrite nth_mid. cbn [bind]. rewrite alloc_tree_cells. rewrite app_length. cbn [length].
  unfold store. rewrite <- app_assoc. cbn [app]. rewrite upd_mid. reflexivity.
Qed.
Lemma delete_tree_obj strict soft st t h mid post : (strict = false /\ (st = TDecisionTree \/ st = TSoftDecisionTree)) \/ (soft = false /\ st = TDecisionTree) -> forall m, S (height t) <= m ->
  delete_ strict m st (At (length h))
    (h ++ Live (OTree soft (At (root_of soft t (length h + S (length mid))))) :: mid ++ tree_cells soft t (length h + S (length mid)) ++ post) =
  Ok (h ++ Freed :: mid ++ map dead (tree_cells soft t (length h + S (length mid))) ++ post).
Proof.
  intros Hm m Lm. destruct m as [|m]; [lia|]. set (n := length h + S (length mid)). set (o := OTree soft (At (root_of soft t n))).
  cbn [delete_]. rewrite nth_mid.
  assert (Ec : strict && negb (ty_eqb (dynamic o) st) = false).
  { destruct Hm as [[-> _]|[-> ->]]; [reflexivity|]. apply andb_false_r. }
  rewrite Ec.
  assert (D : delete_ strict m TDecisionNode (At (root_of soft t n)) (h ++ Live o :: mid ++ tree_cells soft t n ++ post) =
              Ok (h ++ Live o :: mid ++ map dead (tree_cells soft t n) ++ post)).
  { pose proof (delete_tree strict soft ltac:(tauto) t n m (h ++ Live o :: mid) post) as X.
    rewrite <- !app_assoc in X. cbn [app] in X. apply X; [rewrite app_length; simpl; unfold n; lia|lia]. }
  assert (G : (do h' <- delete_ strict m TDecisionNode (At (root_of soft t n)) (h ++ Live o :: mid ++ tree_cells soft t n ++ post); release h' (length h)) =
              Ok (h ++ Freed :: mid ++ map dead (tree_cells soft t n) ++ post)).
  { rewrite D. cbn [bind]. unfold release. rewrite nth_mid, upd_mid. reflexivity. }
  destruct Hm as [[_ [->| ->]]|[_ ->]]; exact G.
Qed.
Lemma count_app p a b : count p (a ++ b) = count p a + count p b.
Proof. unfold count. rewrite filter_app, app_length. reflexivity. Qed.
Lemma count_cons p a b : count p (a :: b) = (if p a then 1 else 0) + count p b.
Proof. unfold count; simpl. destruct (p a); reflexivity. Qed.
Lemma count_node_dead l : count is_node (map dead l) = 0.
Proof. induction l as [|c l IH]; [reflexivity|]. cbn [map]. rewrite count_cons, IH. destruct c as [|[]]; reflexivity. Qed.
Lemma count_tree_dead l : count is_tree (map dead l) = count is_tree l.
Proof. induction l as [|c l IH]; [reflexivity|]. cbn [map]. rewrite !count_cons, IH. destruct c as [|[]]; reflexivity. Qed.

(** * Ensembles *)
Fixpoint forest_cells (ts : list tree) (n : nat) : list addr * list cell :=
  match ts with
  | [] => ([], [])
  | t :: ts' => let s := tree_cells false t n in
                let '(ps, cs) := forest_cells ts' (n + length s + 1) in
                ((n + length s) :: ps, s ++ Live (OTree false (At (root_of false t n))) :: cs)
  end.
Lemma add_trees_cells : forall ts h old mid, h_add_trees (length h) ts (h ++ Live (OEnsemble old) :: mid) =
  let '(ps, cs) := forest_cells ts (length h + S (length mid)) in
  Ok (h ++ Live (OEnsemble (old ++ ps)) :: mid ++ cs).
Proof.
  unfold h_add_trees. induction ts as [|t ts IH]; intros h old mid.
  - cbn. rewrite !app_nil_r. reflexivity.
  - cbn [foldM forest_cells]. unfold h_add_tree at 1, deref. rewrite nth_mid. cbn [bind].
    rewrite alloc_tree_cells. rewrite app_length. cbn [length]. set (n := length h + S (length mid)). unfold alloc, store.
    set (s := tree_cells false t n).
    assert (E : upd (((h ++ Live (OEnsemble old) :: mid) ++ s) ++ [Live (OTree false (At (n + length s - 1)))]) (length h)
                    (Live (OEnsemble (old ++ [length ((h ++ Live (OEnsemble old) :: mid) ++ s)]))) =
                h ++ Live (OEnsemble (old ++ [n + length s])) :: (mid ++ s ++ [Live (OTree false (At (root_of false t n)))])).
    { rewrite <- !app_assoc. cbn [app]. rewrite upd_mid. rewrite !app_length. cbn [length]. rewrite !app_length. cbn [length].
      unfold root_of. fold s.
      replace (length h + S (length mid + length s)) with (n + length s) by (unfold n; lia). reflexivity. }
    match goal with |- (do a' <- Ok ?x; _) = _ => change x with
       (upd (((h ++ Live (OEnsemble old) :: mid) ++ s) ++ [Live (OTree false (At (n + length s - 1)))]) (length h)
                    (Live (OEnsemble (old ++ [length ((h ++ Live (OEnsemble old) :: mid) ++ s)])))) end.
    rewrite E. cbn [bind].
    rewrite IH. rewrite !app_length. cbn [length].
    replace (length h + S (length mid + (length s + 1))) with (n + length s + 1) by (unfold n; lia).
    destruct (forest_cells ts (n + length s + 1)) as [ps cs]. rewrite <- !app_assoc. reflexivity.
Qed.
Definition deadt (c : cell) : cell := if is_node c || is_tree c then Freed else c.
Lemma deadt_tree soft t n : map deadt (tree_cells soft t n) = map dead (tree_cells soft t n).
Proof.
  destruct (map_dead_counts soft t n) as (_ & _ & H & _). induction (tree_cells soft t n) as [|c l IH]; [reflexivity|].
  rewrite count_cons in H. cbn [map]. rewrite IH by lia. f_equal. destruct c as [|[]]; try reflexivity. discriminate.
Qed.
Definition forest_height (ts : list tree) : nat := fold_right (fun t n => Nat.max (height t) n) 0 ts.
Lemma delete_forest strict : forall ts n m pre post, length pre = n -> S (forest_height ts) <= m ->
  foldM (fun h p => delete_ strict m TDecisionTree (At p) h) (fst (forest_cells ts n)) (pre ++ snd (forest_cells ts n) ++ post) =
  Ok (pre ++ map deadt (snd (forest_cells ts n)) ++ post).
Proof.
  induction ts as [|t ts IH]; intros n m pre post Ln Hm; [reflexivity|].
  cbn [forest_cells]. set (s := tree_cells false t n). specialize (IH (n + length s + 1)).
  destruct (forest_cells ts (n + length s + 1)) as [ps cs]. cbn [fst snd foldM] in *.
  unfold forest_height in Hm. cbn [fold_right] in Hm. fold (forest_height ts) in Hm.
  destruct m as [|m]; [lia|].
  assert (D : delete_ strict (S m) TDecisionTree (At (n + length s)) (pre ++ (s ++ Live (OTree false (At (root_of false t n))) :: cs) ++ post) =
              Ok (pre ++ map dead s ++ Freed :: cs ++ post)).
  { set (o := OTree false (At (root_of false t n))).
    assert (Eh : pre ++ (s ++ Live o :: cs) ++ post = (pre ++ s) ++ Live o :: cs ++ post) by (rewrite <- !app_assoc; reflexivity).
    rewrite Eh. replace (n + length s) with (length (pre ++ s)) by (rewrite app_length; lia).
    cbn [delete_]. rewrite nth_mid. unfold o at 1. cbn [dynamic ty_eqb negb]. rewrite andb_false_r.
    pose proof (delete_tree strict false (or_intror eq_refl) t n m pre (Live o :: cs ++ post) Ln ltac:(lia)) as X. fold s in X.
    unfold o at 1. cbn iota. rewrite <- !app_assoc.
    change (n + length s - 1) with (root_of false t n) in X. rewrite X. cbn [bind].
    rewrite app_length. replace (length pre + length s) with (length (pre ++ map dead s)) by (rewrite app_length, map_length; reflexivity).
    rewrite (app_assoc pre). unfold release. rewrite nth_mid, upd_mid, <- app_assoc. reflexivity. }
  rewrite D. cbn [bind].
  specialize (IH (S m) (pre ++ map dead s ++ [Freed]) post). rewrite <- !app_assoc in IH. cbn [app] in IH. rewrite IH.
  - rewrite map_app. cbn [map]. unfold s. rewrite deadt_tree. rewrite <- !app_assoc. reflexivity.
  - rewrite !app_length, map_length. cbn [length]. lia.
  - lia.
Qed.
Lemma forest_counts : forall ts n, let cs := snd (forest_cells ts n) in
  count is_node cs = fold_right (fun t n => node_count t + n) 0 ts /\ count is_tree cs = length ts /\
  count is_live (map deadt cs) = fold_right (fun t n => condition_count t + n) 0 ts.
Proof.
  induction ts as [|t ts IH]; intros n; [repeat split|]. cbn [forest_cells]. set (s := tree_cells false t n).
  specialize (IH (n + length s + 1)). destruct (forest_cells ts (n + length s + 1)) as [ps cs]. cbn [snd] in *. cbv zeta in *.
  destruct (map_dead_counts false t n) as (C1 & C2 & C3 & C4). fold s in C1, C2, C3, C4.
  rewrite map_app. cbn [map]. unfold s at 3. rewrite deadt_tree. fold s. rewrite !count_app, !count_cons. cbn [is_node is_tree deadt is_live orb fold_right length].
  lia.
Qed.
Lemma add_runs x : forall runs h, h_add_trees x (concat runs) h = foldM (fun h ts => h_add_trees x ts h) runs h.
Proof.
  induction runs as [|r runs IH]; intros h; [reflexivity|]. cbn [concat foldM]. unfold h_add_trees at 1. rewrite foldM_app.
  fold (h_add_trees x r h). destruct (h_add_trees x r h); cbn [bind]; auto. apply IH.
Qed.
(** deleting only ever releases live cells *)
Definition shrinks (h h' : heap) : Prop := forall b, nth_error h' b = nth_error h b \/ (exists o, nth_error h b = Some (Live o)) /\ nth_error h' b = Some Freed.
Lemma shrinks_refl h : shrinks h h.
Proof. intros b; auto. Qed.
Lemma shrinks_trans a b c : shrinks a b -> shrinks b c -> shrinks a c.
Proof. intros H1 H2 k. destruct (H1 k) as [E1|[[o E1] F1]], (H2 k) as [E2|[[o2 E2] F2]]; try congruence; [left|right|right]; try congruence; split; eauto; try congruence. exists o2. congruence. Qed.
Lemma foldM_shrinks {B} (f : heap -> B -> res heap) : (forall h x h', f h x = Ok h' -> shrinks h h') ->
  forall l h h', foldM f l h = Ok h' -> shrinks h h'.
Proof.
  intros Hf. induction l as [|x l IH]; intros h h' E; cbn [foldM] in E; [injection E as <-; apply shrinks_refl|].
  destruct (f h x) as [h1| | |] eqn:E1; cbn [bind] in E; try discriminate. eapply shrinks_trans; eauto.
Qed.
Lemma release_shrinks h a h' : release h a = Ok h' -> shrinks h h' /\ nth_error h' a = Some Freed.
Proof.
  unfold release. destruct (nth_error h a) as [[|o]|] eqn:E; try discriminate. intros X; injection X as <-. split.
  - intros b. rewrite nth_upd. destruct (Nat.eqb_spec a b) as [<-|]; [|auto]. right. rewrite E. simpl. eauto.
  - rewrite nth_upd, Nat.eqb_refl, E. reflexivity.
Qed.
Lemma delete_shrinks strict : forall n st p h h', delete_ strict n st p h = Ok h' ->
  shrinks h h' /\ forall a, p = At a -> nth_error h' a = Some Freed.
Proof.
  induction n as [|n IH]; intros st p h h' E; cbn [delete_] in E; [discriminate|].
  destruct p as [| |a]; [injection E as <-; split; [apply shrinks_refl|discriminate]|discriminate|].
  destruct (nth_error h a) as [[|o]|] eqn:Ea; try discriminate.
  destruct (strict && negb (ty_eqb (dynamic o) st)); try discriminate.
  match type of E with (do hx <- ?m; _) = _ => destruct m as [h1| | |] eqn:E1; cbn [bind] in E; try discriminate end.
  destruct (release_shrinks _ _ _ E) as [R1 R2]. split; [|intros b X; injection X as <-; exact R2].
  eapply shrinks_trans; [|exact R1].
  assert (F : forall st' ps hh hh', foldM (fun h p => delete_ strict n st' (At p) h) ps hh = Ok hh' -> shrinks hh hh').
  { intros st' ps hh hh' X. eapply foldM_shrinks; [|exact X]. intros h2 x h3 X2. cbv beta in X2. apply IH in X2. tauto. }
  destruct st, o; try (injection E1 as <-; apply shrinks_refl); try (eapply F; exact E1); try (apply IH in E1; tauto).
  destruct (foldM (fun h p => delete_ strict n TDecisionNode (At p) h) children h) as [h2| | |] eqn:E2; cbn [bind] in E1; try discriminate.
  eapply shrinks_trans; eapply F; eassumption.
Qed.
Lemma tree_cells_children soft t n : exists cs v ps, tree_cells soft t n = cs ++ [Live (ONode soft v ps)] /\ length ps = length (t_children t).
Proof.
  destruct t as [l lf d c ch]. cbn [tree_cells t_children]. set (v := match c_value c with Some a => [Live (OAttr a)] | None => [] end).
  assert (G : forall st, length (fst (fold_left (fun (st : list addr * list cell) t' => let s := tree_cells soft t' (n + length v + length (snd st)) in
    (fst st ++ [n + length v + length (snd st) + length s - 1], snd st ++ s)) ch st)) = length (fst st) + length ch).
  { induction ch as [|t ch IH]; intros st; cbn [fold_left]; [simpl; lia|]. rewrite IH. cbn [fst length]. rewrite app_length. simpl. lia. }
  specialize (G ([], [])). destruct (fold_left _ ch _) as [ps cs]. exists (v ++ cs). eexists; exists ps. rewrite <- app_assoc. split; [reflexivity|]. simpl in G. exact G.
Qed.
Lemma delete_soft_node t h m : t_children t <> [] -> S (S (height t)) <= m ->
  delete_ false m TSoftDecisionNode (At (length h + length (tree_cells true t (length h)) - 1)) (h ++ tree_cells true t (length h)) = UB DoubleFree.
Proof.
  intros Hc Hm. pose proof (delete_tree false true (or_introl eq_refl) t (length h) m h [] eq_refl ltac:(lia)) as D.
  rewrite !app_nil_r in D. destruct m as [|m]; [lia|].
  destruct (tree_cells_children true t (length h)) as (cs & v & ps & Et & Lp).
  assert (Er : nth_error (h ++ tree_cells true t (length h)) (length h + length (tree_cells true t (length h)) - 1) = Some (Live (ONode true v ps))).
  { rewrite Et, app_length. cbn [length]. replace (length h + (length cs + 1) - 1) with (length (h ++ cs)) by (rewrite app_length; lia).
    rewrite app_assoc. apply nth_mid. }
  cbn [delete_] in D |- *. rewrite Er in D |- *. cbn [andb] in *.
  destruct (foldM _ ps _) as [h1| | |] eqn:E1; cbn [bind] in D |- *; try discriminate.
  destruct ps as [|p ps]; [destruct (t_children t); [congruence|discriminate]|]. cbn [foldM] in E1.
  destruct (delete_ false m TDecisionNode (At p) _) as [h2| | |] eqn:E2; cbn [bind] in E1; try discriminate.
  destruct (delete_shrinks _ _ _ _ _ _ E2) as [_ F2]. specialize (F2 p eq_refl).
  assert (F1 : nth_error h1 p = Some Freed).
  { apply (foldM_shrinks (fun h p => delete_ false m TDecisionNode (At p) h)) in E1;
      [|intros a b c X; apply delete_shrinks in X; tauto]. destruct (E1 p) as [E|[[o E] _]]; congruence. }
  cbn [foldM]. destruct m as [|m]; [lia|]. cbn [delete_]. rewrite F1. reflexivity.
Qed.
