(** Proofs about attributes, instances and sparse vectors. *)
From Coq Require Import String ZArith QArith Bool Lia Lqa Sorting.Sorted Arith List.
From Verif Require Import Base Spec BaseLemmas DblLemmas AttrModel.
Import ListNotations.
Local Open Scope nat_scope.

Lemma deqb_zero x : deqb (Fin x) d0 = true <-> (x == 0)%Q.
Proof.
  unfold deqb, d0. rewrite andb_true_iff, !dleb_fin. split; intros H; [destruct H; lra|]. lra.
Qed.

(** ** Encodings *)
Lemma one_hot_length i n k : length (one_hot_from i n k) = n.
Proof. revert i; induction n as [|n IH]; intros i; simpl; auto. Qed.
Lemma one_hot_nth i n k j : j < n ->
  nth_error (one_hot_from i n k) j = Some (if (Z.of_nat (i + j) =? k)%Z then d1 else d0).
Proof.
  revert i j; induction n as [|n IH]; intros i j H; [lia|]. destruct j as [|j]; simpl.
  - rewrite Nat.add_0_r; reflexivity.
  - rewrite IH by lia. replace (S i + j) with (i + S j) by lia. reflexivity.
Qed.
Lemma attr_size_length a : attr_size a = length (attr_vals a).
Proof. destruct a; simpl; auto. rewrite one_hot_length; reflexivity. Qed.
Lemma fold_app_vals l acc : fold_left (fun r a => r ++ attr_vals a) l acc = acc ++ concat (map attr_vals l).
Proof.
  revert acc; induction l as [|a l IH]; intros acc; simpl; [rewrite app_nil_r; reflexivity|].
  rewrite IH, app_assoc; reflexivity.
Qed.
Lemma inst_vals_concat i : inst_vals i = concat (map attr_vals (attrs i)).
Proof. unfold inst_vals. rewrite fold_app_vals; reflexivity. Qed.
Lemma inst_vector_concat i : inst_vector i = concat (map attr_vals (attrs i)).
Proof. unfold inst_vector. rewrite fold_app_vals; reflexivity. Qed.
Lemma inst_size_sum i : inst_size i = list_sum (map attr_size (attrs i)).
Proof.
  unfold inst_size. assert (G : forall l s, fold_left (fun s a => s + attr_size a) l s = s + list_sum (map attr_size l)).
  { induction l as [|a l IH]; intros s; simpl; [lia|]. rewrite IH; lia. }
  apply G.
Qed.
Lemma inst_size_length i : inst_size i = length (inst_vals i).
Proof.
  rewrite inst_size_sum, inst_vals_concat. induction (attrs i) as [|a l IH]; simpl; [reflexivity|].
  rewrite app_length, <- IH, attr_size_length; reflexivity.
Qed.

(** ** Sparse vectors *)
Lemma nodes_from_in i v k x :
  In (k, x) (nodes_from i v) <-> exists j, k = Z.of_nat (i + j) /\ nth_error v j = Some x /\ deqb x d0 = false.
Proof.
  revert i; induction v as [|y v IH]; intros i; simpl.
  - split; [tauto|]. intros (j & _ & H & _). destruct j; discriminate.
  - destruct (deqb y d0) eqn:E.
    + rewrite IH. split; intros (j & Hk & Hn & Hz).
      * exists (S j); repeat split; auto. rewrite Hk; f_equal; lia.
      * destruct j as [|j]; simpl in Hn; [congruence|]. exists j; repeat split; auto. rewrite Hk; f_equal; lia.
    + simpl. rewrite IH. split.
      * intros [H|(j & Hk & Hn & Hz)].
        -- injection H as Hk Hx; subst. exists 0; repeat split; auto; f_equal; lia.
        -- exists (S j); repeat split; auto. rewrite Hk; f_equal; lia.
      * intros (j & Hk & Hn & Hz). destruct j as [|j]; simpl in Hn.
        -- left. injection Hn as ->. f_equal. rewrite Hk; f_equal; lia.
        -- right. exists j; repeat split; auto. rewrite Hk; f_equal; lia.
Qed.
Lemma nodes_from_ge i v : Forall (fun p => (Z.of_nat i <= fst p)%Z) (nodes_from i v).
Proof.
  apply Forall_forall. intros [k x] H. apply nodes_from_in in H. destruct H as (j & -> & _). simpl; lia.
Qed.
Lemma nodes_from_sorted i v : StronglySorted (fun p q => (fst p < fst q)%Z) (nodes_from i v).
Proof.
  revert i; induction v as [|y v IH]; intros i; simpl; [constructor|]. destruct (deqb y d0); [apply IH|].
  constructor; [apply IH|]. eapply Forall_impl; [|apply nodes_from_ge]. intros [k x] H; simpl in *; lia.
Qed.
Lemma ndot_loop_nil_r a acc : ndot_loop a [] acc = acc.
Proof. destruct a as [|[i x] a]; reflexivity. Qed.
Lemma ndot_skip_l i x a b acc : Forall (fun p => (i < fst p)%Z) b -> ndot_loop ((i, x) :: a) b acc = ndot_loop a b acc.
Proof.
  intros H. destruct b as [|[j y] b]; [rewrite !ndot_loop_nil_r; reflexivity|].
  inversion H as [|? ? Hj _]; simpl in Hj. cbn [ndot_loop].
  destruct (Z.eqb_spec i j) as [E|E]; [lia|]. destruct (Z.ltb_spec j i); [lia|]. reflexivity.
Qed.
Lemma ndot_skip_r i y a b acc : Forall (fun p => (i < fst p)%Z) a -> ndot_loop a ((i, y) :: b) acc = ndot_loop a b acc.
Proof.
  intros H. destruct a as [|[k x] a]; [reflexivity|].
  inversion H as [|? ? Hk _]; simpl in Hk. cbn [ndot_loop].
  destruct (Z.eqb_spec k i) as [E|E]; [lia|]. destruct (Z.ltb_spec i k); [|lia]. reflexivity.
Qed.
Lemma ndot_loop_same i x y a b acc :
  ndot_loop ((i, x) :: a) ((i, y) :: b) acc = ndot_loop a b (dadd acc (dmul x y)).
Proof. cbn [ndot_loop]. rewrite Z.eqb_refl. reflexivity. Qed.
Lemma ndot_loop_dense v w i a : exists r, 
  ndot_loop (nodes_from i (map Fin v)) (nodes_from i (map Fin w)) (Fin a) = Fin r /\ (r == a + qdot v w)%Q.
Proof.
  revert w i a; induction v as [|x v IH]; intros w i a.
  - exists a. split; [reflexivity|]. unfold qdot; simpl. ring.
  - destruct w as [|y w].
    + exists a. simpl. rewrite ndot_loop_nil_r. split; [reflexivity|]. unfold qdot; simpl. ring.
    + assert (Gv : forall u, Forall (fun p => (Z.of_nat i < fst p)%Z) (nodes_from (S i) u)).
      { intros u. eapply Forall_impl; [|apply nodes_from_ge]. intros [k z]; simpl; lia. }
      assert (E : (qdot (x :: v) (y :: w) == x * y + qdot v w)%Q) by (unfold qdot; simpl; ring).
      cbn [map nodes_from]. destruct (deqb (Fin x) d0) eqn:Ex.
      * apply deqb_zero in Ex. destruct (IH w (S i) a) as (r & Hr & Er).
        exists r. split.
        -- destruct (deqb (Fin y) d0); [exact Hr|]. rewrite ndot_skip_r by apply Gv. exact Hr.
        -- rewrite E, Er, Ex; ring.
      * destruct (deqb (Fin y) d0) eqn:Ey.
        -- apply deqb_zero in Ey. destruct (IH w (S i) a) as (r & Hr & Er).
           exists r. rewrite ndot_skip_l by apply Gv. split; [exact Hr|]. rewrite E, Er, Ey; ring.
        -- rewrite ndot_loop_same. cbn [dmul dadd]. destruct (IH w (S i) (a + x * y)%Q) as (r & Hr & Er).
           exists r. split; [exact Hr|]. rewrite E, Er; ring.
Qed.
Lemma ndot_dense v w : deq (ndot (nodelist (map Fin v)) (nodelist (map Fin w))) (Fin (qdot v w)).
Proof.
  unfold ndot, nodelist, d0. destruct (ndot_loop_dense v w 0 0) as (r & -> & E). simpl. rewrite E; ring.
Qed.

(** ** Feature subsets *)
Lemma at_ok {A} (l : list A) k x : at_ l k = Ok x <-> in_range (length l) k /\ nth_error l (Z.to_nat k) = Some x.
Proof.
  unfold at_, in_range. destruct (Z.ltb_spec k 0) as [H|H].
  - split; [discriminate|]. intros [? _]; lia.
  - destruct (nth_error l (Z.to_nat k)) eqn:E.
    + assert (Z.to_nat k < length l) by (apply nth_error_Some; congruence).
      split; [intros [= ->]; split; auto; lia|intros [_ [= ->]]; reflexivity].
    + split; [discriminate|intros [_ ?]; discriminate].
Qed.
Lemma at_throw {A} (l : list A) k e : at_ l k = Throw e <-> e = OutOfRange /\ ~ in_range (length l) k.
Proof.
  unfold at_, in_range. destruct (Z.ltb_spec k 0) as [H|H].
  - split; [intros [= <-]; split; [reflexivity|lia]|intros [-> _]; reflexivity].
  - destruct (nth_error l (Z.to_nat k)) eqn:E.
    + assert (Z.to_nat k < length l) by (apply nth_error_Some; congruence).
      split; [discriminate|]. intros [_ ?]; lia.
    + apply nth_error_None in E. split; [intros [= <-]; split; [reflexivity|lia]|intros [-> _]; reflexivity].
Qed.
Lemma at_total {A} (l : list A) k : (exists x, at_ l k = Ok x) \/ at_ l k = Throw OutOfRange.
Proof.
  unfold at_. destruct (k <? 0)%Z; [right; reflexivity|]. destruct (nth_error l (Z.to_nat k)); [left; eauto|right; reflexivity].
Qed.
Lemma mapM_at_cases {A} (l : list A) ks :
  (Forall (in_range (length l)) ks /\ exists ys, mapM (at_ l) ks = Ok ys) \/
  (Exists (fun k => ~ in_range (length l) k) ks /\ mapM (at_ l) ks = Throw OutOfRange).
Proof.
  induction ks as [|k ks IH].
  - left; split; [constructor|exists []; reflexivity].
  - simpl. destruct (at_total l k) as [[x Hx]|Hx].
    + rewrite Hx. pose proof (proj1 (at_ok _ _ _) Hx) as [Hr _]. simpl. destruct IH as [[Hf [ys Hy]]|[He Ht]].
      * left. rewrite Hy. split; [constructor; auto|simpl; eauto].
      * right. rewrite Ht. split; [apply Exists_cons_tl; exact He|reflexivity].
    + right. rewrite Hx. apply at_throw in Hx. split; [apply Exists_cons_hd; tauto|reflexivity].
Qed.
Lemma inst_subset_ok i fs r :
  inst_subset i fs = Ok r <->
  (label r = label i /\ composite r = None /\
   Forall2 (fun k a => in_range (length (attrs i)) k /\ nth_error (attrs i) (Z.to_nat k) = Some a) fs (attrs r)).
Proof.
  unfold inst_subset. rewrite bind_ok. split.
  - intros (l & Hl & [= <-]). simpl. repeat split. apply mapM_ok in Hl.
    eapply Forall2_imp; [|exact Hl]. intros k a H. apply at_ok in H. exact H.
  - intros (H1 & H2 & H3). exists (attrs r). split.
    + apply mapM_ok. eapply Forall2_imp; [|exact H3]. intros k a H. apply at_ok; exact H.
    + destruct r as [rl ra rc]; simpl in *; subst; reflexivity.
Qed.
Lemma inst_subset_throw i fs e :
  inst_subset i fs = Throw e <-> e = OutOfRange /\ Exists (fun k => ~ in_range (length (attrs i)) k) fs.
Proof.
  unfold inst_subset. destruct (mapM_at_cases (attrs i) fs) as [[Hf [ys Hy]]|[He Ht]].
  - change (fun k => at_ (attrs i) k) with (at_ (attrs i)). rewrite Hy. simpl. split; [discriminate|].
    intros [_ He]. apply Exists_exists in He. destruct He as (k & Hk & Hn). rewrite Forall_forall in Hf. elim (Hn (Hf _ Hk)).
  - change (fun k => at_ (attrs i) k) with (at_ (attrs i)). rewrite Ht. simpl. split; [intros [= <-]; auto|].
    intros [-> _]; reflexivity.
Qed.
Lemma inst_subset_total i fs : (exists r, inst_subset i fs = Ok r) \/ inst_subset i fs = Throw OutOfRange.
Proof.
  unfold inst_subset. destruct (mapM_at_cases (attrs i) fs) as [[Hf [ys Hy]]|[He Ht]];
    change (fun k => at_ (attrs i) k) with (at_ (attrs i)); [rewrite Hy; left; simpl; eauto|rewrite Ht; right; reflexivity].
Qed.
Lemma inst_subset_compose i fs gs r :
  inst_subset i fs = Ok r ->
  inst_subset r gs = (do ks <- mapM (at_ fs) gs; inst_subset i ks).
Proof.
  intros H. pose proof (proj1 (inst_subset_ok _ _ _) H) as (Hl & Hc & Hf).
  assert (Hlen : length fs = length (attrs r)) by (eapply Forall2_len; exact Hf).
  assert (G : forall g, at_ (attrs r) g = (do k <- at_ fs g; at_ (attrs i) k)).
  { intros g. destruct (at_total (attrs r) g) as [[x Hx]|Hx].
    - rewrite Hx. apply at_ok in Hx. destruct Hx as [Hr Hn].
      assert (exists k, nth_error fs (Z.to_nat g) = Some k) as [k Hk].
      { destruct (nth_error fs (Z.to_nat g)) eqn:E; [eauto|]. apply nth_error_None in E. unfold in_range in Hr; lia. }
      assert (Hg : at_ fs g = Ok k) by (apply at_ok; split; [unfold in_range in *; lia|exact Hk]).
      rewrite Hg. simpl. symmetry. apply at_ok.
      clear -Hf Hk Hn. revert Hk Hn. generalize (Z.to_nat g); intros n. revert n.
      induction Hf as [|k0 a0 fs as_ H0 H IH]; intros n Hk Hn; [destruct n; discriminate|].
      destruct n; simpl in *; [injection Hk as ->; injection Hn as ->; exact H0|eauto].
    - rewrite Hx. apply at_throw in Hx. destruct Hx as [_ Hx]. rewrite <- Hlen in Hx.
      assert (at_ fs g = Throw OutOfRange) as -> by (apply at_throw; auto). reflexivity. }
  unfold inst_subset. revert G; clear -Hl; intros G.
  assert (E : mapM (fun k => at_ (attrs r) k) gs = (do ks <- mapM (at_ fs) gs; mapM (fun k => at_ (attrs i) k) ks)).
  { induction gs as [|g gs IH]; simpl; [reflexivity|]. rewrite G, IH.
    destruct (at_total fs g) as [[k Hk]|Hk]; rewrite Hk; simpl; [|reflexivity].
    destruct (at_total (attrs i) k) as [[x Hx]|Hx];
      destruct (mapM_at_cases fs gs) as [[_ [ys Hy]]|[_ Ht]]; rewrite ?Hy, ?Ht; simpl; rewrite ?Hx; reflexivity. }
  rewrite E, Hl. destruct (mapM (at_ fs) gs); reflexivity.
Qed.
