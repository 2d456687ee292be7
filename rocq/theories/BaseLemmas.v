(** Lemmas about the shared definitions of Base.v. *)
From Coq Require Import String Ascii ZArith QArith Qabs Bool Lia Lqa Permutation Sorted Morphisms Setoid Arith List.
From Verif Require Import Base.
Import ListNotations.
Local Open Scope nat_scope.

(** * Strings *)
Lemma scompare_refl s : String.compare s s = Eq.
Proof.
  induction s as [|a s IH]; simpl; [reflexivity|].
  assert (H : Ascii.compare a a = Eq) by (unfold Ascii.compare; apply N.compare_refl).
  rewrite H; exact IH.
Qed.
Lemma scompare_eq s t : String.compare s t = Eq <-> s = t.
Proof. split; [apply String.compare_eq_iff|intros ->; apply scompare_refl]. Qed.
Definition slt (s t : string) : Prop := String.compare s t = Lt.
Lemma sltb_slt s t : sltb s t = true <-> slt s t.
Proof. unfold sltb, slt; destruct (String.compare s t); split; congruence. Qed.
Lemma slt_irrefl s : ~ slt s s.
Proof. unfold slt; rewrite scompare_refl; discriminate. Qed.
Lemma ascii_compare_eq a b : Ascii.compare a b = Eq -> a = b.
Proof.
  unfold Ascii.compare; intros H; apply N.compare_eq in H.
  rewrite <- (ascii_N_embedding a), <- (ascii_N_embedding b), H; reflexivity.
Qed.
Lemma slt_trans s t u : slt s t -> slt t u -> slt s u.
Proof.
  unfold slt; revert t u; induction s as [|a s IH]; intros [|b t] [|c u]; simpl; try congruence.
  destruct (Ascii.compare a b) eqn:E1; try congruence; destruct (Ascii.compare b c) eqn:E2; try congruence;
    intros H1 H2.
  - apply ascii_compare_eq in E1; subst b; rewrite E2; eauto.
  - apply ascii_compare_eq in E1; subst b; rewrite E2; reflexivity.
  - apply ascii_compare_eq in E2; subst c; rewrite E1; reflexivity.
  - assert (Ascii.compare a c = Lt) as ->; [|reflexivity].
    unfold Ascii.compare in *; rewrite N.compare_lt_iff in *; lia.
Qed.
Lemma sgt_slt s t : String.compare s t = Gt <-> slt t s.
Proof. unfold slt; rewrite (String.compare_antisym s t); destruct (String.compare t s); simpl; split; congruence. Qed.
Lemma slt_total s t : slt s t \/ s = t \/ slt t s.
Proof.
  destruct (String.compare s t) eqn:E; [right; left; apply scompare_eq; exact E|left; exact E|].
  right; right; apply sgt_slt; exact E.
Qed.
Lemma slt_neq s t : slt s t -> s <> t.
Proof. intros H ->; exact (slt_irrefl _ H). Qed.

(** * Outcomes *)
Lemma bind_ok {A B} (r : res A) (f : A -> res B) b : bind r f = Ok b <-> exists a, r = Ok a /\ f a = Ok b.
Proof.
  destruct r; simpl; split; try discriminate; try (intros (a' & H & _); discriminate).
  - intros H; eauto.
  - intros (a' & H & H'); congruence.
Qed.
Lemma mapM_ok {A B} (f : A -> res B) l ys : mapM f l = Ok ys <-> Forall2 (fun x y => f x = Ok y) l ys.
Proof.
  revert ys; induction l as [|x l IH]; intros ys; simpl.
  - split; [intros [= <-]; constructor|inversion 1; reflexivity].
  - rewrite bind_ok; split.
    + intros (y & Hy & H); apply bind_ok in H as (ys' & H & [= <-]). constructor; [exact Hy|apply IH; exact H].
    + inversion 1; subst. exists y; split; [assumption|]. apply bind_ok. exists l'; split; [apply IH; assumption|reflexivity].
Qed.
Lemma mapM_total {A B} (f : A -> res B) (g : A -> B) l :
  (forall x, In x l -> f x = Ok (g x)) -> mapM f l = Ok (map g l).
Proof.
  induction l as [|x l IH]; intros H; simpl; [reflexivity|].
  rewrite (H x (or_introl eq_refl)); simpl. rewrite IH; [reflexivity|intros y Hy; apply H; right; exact Hy].
Qed.
Lemma at_nat {A} (l : list A) (i : nat) : at_ l (Z.of_nat i) = atn l i.
Proof. unfold at_, atn. replace (Z.of_nat i <? 0)%Z with false by (symmetry; apply Z.ltb_ge; lia). rewrite Nat2Z.id; reflexivity. Qed.
Lemma atn_ok {A} (l : list A) i x : atn l i = Ok x <-> nth_error l i = Some x.
Proof. unfold atn; destruct (nth_error l i); split; congruence. Qed.

(** * In-place update *)
Lemma upd_length {A} (l : list A) i v : length (upd l i v) = length l.
Proof. revert i; induction l as [|x l IH]; intros [|i]; simpl; auto. Qed.
Lemma nth_upd_same {A} (l : list A) i v : i < length l -> nth_error (upd l i v) i = Some v.
Proof. revert i; induction l as [|x l IH]; intros [|i] H; simpl in *; try lia; [reflexivity|apply IH; lia]. Qed.
Lemma nth_upd_other {A} (l : list A) i j v : i <> j -> nth_error (upd l i v) j = nth_error l j.
Proof. revert i j; induction l as [|x l IH]; intros [|i] [|j] H; simpl; try congruence; apply IH; congruence. Qed.
Lemma upd_upd_same {A} (l : list A) i v w : upd (upd l i v) i w = upd l i w.
Proof. revert i; induction l as [|x l IH]; intros [|i]; simpl; congruence. Qed.
Lemma upd_out {A} (l : list A) i v : length l <= i -> upd l i v = l.
Proof. revert i; induction l as [|x l IH]; intros [|i] H; simpl in *; try lia; [reflexivity..|]. f_equal; apply IH; lia. Qed.
Lemma list_ext {A} (l l' : list A) : (forall i, nth_error l i = nth_error l' i) -> l = l'.
Proof.
  revert l'; induction l as [|x l IH]; intros [|y l'] H; [reflexivity|specialize (H 0); discriminate..|].
  pose proof (H 0) as H0; injection H0 as ->. f_equal. apply IH; intros i; exact (H (S i)).
Qed.

(** * Maps *)
Lemma mfind_mset_same {V} k (v : V) m : mfind k (mset k v m) = Some v.
Proof.
  induction m as [|[k' v'] m IH]; simpl; [rewrite String.eqb_refl; reflexivity|].
  destruct (String.compare k k') eqn:E; simpl; rewrite ?String.eqb_refl; try reflexivity.
  apply sgt_slt, slt_neq in E. destruct (String.eqb_spec k k'); [congruence|exact IH].
Qed.
Lemma mfind_mset_other {V} k k' (v : V) m : k <> k' -> mfind k' (mset k v m) = mfind k' m.
Proof.
  intros Hk; induction m as [|[k1 v1] m IH]; simpl; [destruct (String.eqb_spec k' k); congruence|].
  destruct (String.compare k k1) eqn:E; simpl.
  - apply scompare_eq in E; subst k1. destruct (String.eqb_spec k' k); [congruence|reflexivity].
  - destruct (String.eqb_spec k' k); [congruence|reflexivity].
  - rewrite IH; reflexivity.
Qed.
Lemma mfind_mset {V} k k' (v : V) m : mfind k' (mset k v m) = if String.eqb k k' then Some v else mfind k' m.
Proof. destruct (String.eqb_spec k k') as [->|H]; [apply mfind_mset_same|apply mfind_mset_other; exact H]. Qed.
Definition msorted {V} (m : smap V) : Prop := StronglySorted slt (mkeys m).
Lemma in_keys_mset {V} k k' (v : V) m : In k' (mkeys (mset k v m)) <-> k' = k \/ In k' (mkeys m).
Proof.
  induction m as [|[k1 v1] m IH]; simpl; [intuition|].
  destruct (String.compare k k1) eqn:E; simpl; rewrite ?IH; [apply scompare_eq in E; subst|..]; intuition.
Qed.
Lemma mset_sorted {V} k (v : V) m : msorted m -> msorted (mset k v m).
Proof.
  unfold msorted; induction m as [|[k1 v1] m IH]; simpl; intros H; [repeat constructor|].
  apply StronglySorted_inv in H as [H1 H2]. destruct (String.compare k k1) eqn:E; simpl.
  - apply scompare_eq in E; subst; constructor; assumption.
  - constructor; [constructor; assumption|]. constructor; [exact E|].
    eapply Forall_impl; [|exact H2]. intros a Ha; eapply slt_trans; eassumption.
  - constructor; [apply IH; exact H1|]. apply Forall_forall. intros x Hx.
    apply in_keys_mset in Hx as [->|Hx]; [apply sgt_slt; exact E|]. rewrite Forall_forall in H2; auto.
Qed.
Lemma msorted_nodup {V} (m : smap V) : msorted m -> NoDup (mkeys m).
Proof.
  unfold msorted; induction (mkeys m) as [|k l IH]; intros H; [constructor|].
  apply StronglySorted_inv in H as [H1 H2]. constructor; [|apply IH; exact H1].
  intros Hin. rewrite Forall_forall in H2. apply (slt_irrefl k); auto.
Qed.
Lemma mfind_in {V} k (v : V) m : mfind k m = Some v -> In (k, v) m.
Proof.
  induction m as [|[k' v'] m IH]; simpl; [discriminate|]. destruct (String.eqb_spec k k') as [->|]; [|auto].
  intros [= ->]; left; reflexivity.
Qed.
Lemma in_mfind {V} k (v : V) m : NoDup (mkeys m) -> In (k, v) m -> mfind k m = Some v.
Proof.
  induction m as [|[k' v'] m IH]; simpl; [tauto|]. intros Hn [[= -> ->]|Hin].
  - rewrite String.eqb_refl; reflexivity.
  - inversion Hn; subst. destruct (String.eqb_spec k k') as [->|]; [|auto].
    exfalso; apply H1. apply in_map_iff; exists (k', v); auto.
Qed.
Lemma mfind_none {V} k (m : smap V) : mfind k m = None <-> ~ In k (mkeys m).
Proof.
  induction m as [|[k' v'] m IH]; simpl; [tauto|]. destruct (String.eqb_spec k k') as [->|]; [split; [discriminate|tauto]|].
  rewrite IH; split; [intros H [Hk|Hk]; congruence || tauto|tauto].
Qed.
Lemma mfind_memplace {V} k k' (v : V) m :
  mfind k' (memplace k v m) = match mfind k' m with Some w => Some w | None => if String.eqb k k' then Some v else None end.
Proof.
  unfold memplace, mmem. destruct (mfind k m) eqn:E.
  - destruct (mfind k' m) eqn:E'; [reflexivity|]. destruct (String.eqb_spec k k'); [congruence|reflexivity].
  - rewrite mfind_mset. destruct (String.eqb_spec k k') as [->|]; [rewrite E; reflexivity|].
    destruct (mfind k' m); reflexivity.
Qed.
Lemma memplace_sorted {V} k (v : V) m : msorted m -> msorted (memplace k v m).
Proof. unfold memplace; destruct (mmem k m); [auto|apply mset_sorted]. Qed.
(** Two sorted maps with the same lookups are equal. *)
Lemma msorted_ext {V} (m m' : smap V) : msorted m -> msorted m' -> (forall k, mfind k m = mfind k m') -> m = m'.
Proof.
  revert m'; induction m as [|[k v] m IH]; intros [|[k' v'] m'] H H' E; [reflexivity|..].
  - specialize (E k'); simpl in E; rewrite String.eqb_refl in E; discriminate.
  - specialize (E k); simpl in E; rewrite String.eqb_refl in E; discriminate.
  - unfold msorted in *; simpl in H, H'. apply StronglySorted_inv in H as [H1 H2]; apply StronglySorted_inv in H' as [H1' H2'].
    rewrite Forall_forall in H2, H2'.
    assert (k = k') as ->.
    { destruct (slt_total k k') as [L|[L|L]]; [|exact L|]; exfalso.
      - pose proof (E k) as Ek; simpl in Ek; rewrite String.eqb_refl in Ek.
        destruct (String.eqb_spec k k'); [subst; exact (slt_irrefl _ L)|].
        symmetry in Ek; apply mfind_in in Ek. apply (in_map fst) in Ek; simpl in Ek.
        apply (slt_irrefl k). eapply slt_trans; [exact L|apply H2'; exact Ek].
      - pose proof (E k') as Ek; simpl in Ek; rewrite String.eqb_refl in Ek.
        destruct (String.eqb_spec k' k); [subst; exact (slt_irrefl _ L)|].
        apply mfind_in in Ek. apply (in_map fst) in Ek; simpl in Ek.
        apply (slt_irrefl k'). eapply slt_trans; [exact L|apply H2; exact Ek]. }
    assert (v = v') as -> by (specialize (E k'); simpl in E; rewrite String.eqb_refl in E; congruence).
    f_equal. apply IH; auto. intros q. specialize (E q); simpl in E.
    destruct (String.eqb_spec q k') as [Hq|]; [subst q|exact E].
    assert (N1 : mfind k' m = None) by (apply mfind_none; intros Hin; exact (slt_irrefl _ (H2 _ Hin))).
    assert (N2 : mfind k' m' = None) by (apply mfind_none; intros Hin; exact (slt_irrefl _ (H2' _ Hin))).
    congruence.
Qed.

(** * Counters *)
Lemma ccount_cputn c k n k' : ccount (cputn c k n) k' = ccount c k' + (if String.eqb k k' then n else 0).
Proof.
  unfold cputn, ccount at 1. rewrite mfind_mset. destruct (String.eqb_spec k k') as [->|]; [reflexivity|].
  unfold ccount; lia.
Qed.
Lemma ccount_cput c k k' : ccount (cput c k) k' = ccount c k' + (if String.eqb k k' then 1 else 0).
Proof.
  unfold cput, ccount at 1. rewrite mfind_mset. destruct (String.eqb_spec k k') as [->|]; unfold ccount; lia.
Qed.
Lemma cput_sorted c k : msorted c -> msorted (cput c k).
Proof. apply mset_sorted. Qed.
Lemma cputn_sorted c k n : msorted c -> msorted (cputn c k n).
Proof. apply mset_sorted. Qed.
Lemma cadd_sorted c d : msorted c -> msorted (cadd c d).
Proof. unfold cadd; revert c; induction d as [|kv d IH]; simpl; intros c H; [exact H|]. apply IH, cputn_sorted, H. Qed.
Lemma fold_cput_sorted l c : msorted c -> msorted (fold_left cput l c).
Proof. revert c; induction l as [|x l IH]; simpl; intros c H; [exact H|apply IH, cput_sorted, H]. Qed.
Lemma msorted_nil {V} : msorted (@nil (string * V)).
Proof. constructor. Qed.
#[global] Hint Resolve msorted_nil cput_sorted cputn_sorted cadd_sorted fold_cput_sorted : core.
Lemma csum_mset k n c : msorted c -> csum (mset k n c) + ccount c k = csum c + n.
Proof.
  unfold msorted, ccount; induction c as [|[k' n'] c IH]; simpl; intros H; [lia|].
  apply StronglySorted_inv in H as [H1 H2]. destruct (String.compare k k') eqn:E; simpl.
  - apply scompare_eq in E; subst. rewrite String.eqb_refl; lia.
  - destruct (String.eqb_spec k k') as [->|Hk]; [exfalso; exact (slt_irrefl _ E)|].
    assert (mfind k c = None) as ->; [|lia]. apply mfind_none. intros Hin. rewrite Forall_forall in H2.
    apply (slt_irrefl k). eapply slt_trans; [exact E|auto].
  - apply sgt_slt, slt_neq in E. destruct (String.eqb_spec k k'); [congruence|]. specialize (IH H1); lia.
Qed.
Lemma csum_cput c k : msorted c -> csum (cput c k) = S (csum c).
Proof. intros H; unfold cput. pose proof (csum_mset k (S (ccount c k)) c H); lia. Qed.
Lemma csum_cputn c k n : msorted c -> csum (cputn c k n) = csum c + n.
Proof. intros H; unfold cputn. pose proof (csum_mset k (ccount c k + n) c H); lia. Qed.
Lemma ccount_fold_cput l c k : ccount (fold_left cput l c) k = ccount c k + count_occ string_dec l k.
Proof.
  revert c; induction l as [|x l IH]; intros c; simpl; [lia|]. rewrite IH, ccount_cput.
  destruct (string_dec x k) as [->|Hx]; [rewrite String.eqb_refl; lia|].
  destruct (String.eqb_spec x k); [congruence|lia].
Qed.
Lemma ccount_cofl l k : ccount (cofl l) k = count_occ string_dec l k.
Proof. unfold cofl; rewrite ccount_fold_cput; reflexivity. Qed.
Lemma csum_fold_cput l c : msorted c -> csum (fold_left cput l c) = csum c + length l.
Proof. revert c; induction l as [|x l IH]; intros c H; simpl; [lia|]. rewrite IH, csum_cput by auto. lia. Qed.
Lemma csum_cofl l : csum (cofl l) = length l.
Proof. unfold cofl; rewrite csum_fold_cput; auto. Qed.
Lemma ccount_cadd c d k : NoDup (mkeys d) -> ccount (cadd c d) k = ccount c k + ccount d k.
Proof.
  unfold cadd; revert c; induction d as [|[k' n] d IH]; intros c H; simpl; [unfold ccount; simpl; lia|].
  inversion H; subst. rewrite IH, ccount_cputn by assumption.
  assert (E : ccount ((k', n) :: d) k = if String.eqb k k' then n else ccount d k).
  { unfold ccount; simpl; destruct (String.eqb k k'); reflexivity. }
  rewrite E. destruct (String.eqb_spec k k') as [->|Hk].
  - rewrite String.eqb_refl. assert (ccount d k' = 0) as ->; [|lia].
    unfold ccount. assert (mfind k' d = None) as ->; [apply mfind_none; assumption|reflexivity].
  - destruct (String.eqb_spec k' k); [congruence|]. lia.
Qed.
Lemma csum_cadd c d : msorted c -> csum (cadd c d) = csum c + csum d.
Proof.
  unfold cadd; revert c; induction d as [|[k' n] d IH]; intros c H; simpl; [lia|].
  rewrite IH, csum_cputn by auto. simpl; lia.
Qed.
(** counters built by puts have no zero entries *)
Definition cpos (c : counter) : Prop := Forall (fun kv => 0 < snd kv) c.
Lemma cpos_mset c k n : 0 < n -> cpos c -> cpos (mset k n c).
Proof.
  unfold cpos; intros Hn; induction c as [|[k' n'] c IH]; simpl; intros H; [repeat constructor; assumption|].
  inversion H; subst. destruct (String.compare k k'); repeat constructor; simpl in *; auto.
Qed.
Lemma cpos_fold_cput l c : cpos c -> cpos (fold_left cput l c).
Proof. revert c; induction l as [|x l IH]; simpl; intros c H; [exact H|]. apply IH, cpos_mset; [lia|exact H]. Qed.
Lemma in_cofl l k : In k (mkeys (cofl l)) <-> In k l.
Proof.
  unfold cofl. assert (G : forall c, In k (mkeys (fold_left cput l c)) <-> In k (mkeys c) \/ In k l).
  { induction l as [|x l IH]; intros c; simpl; [tauto|]. rewrite IH. unfold cput. rewrite in_keys_mset. intuition. }
  rewrite G; simpl; tauto.
Qed.
Lemma cofl_sorted l : msorted (cofl l).
Proof. unfold cofl; auto. Qed.
#[global] Hint Resolve cofl_sorted : core.
(** equal counts give equal counters *)
Lemma cofl_perm l l' : Permutation l l' -> cofl l = cofl l'.
Proof.
  intros HP. apply msorted_ext; auto. intros k.
  assert (E : count_occ string_dec l k = count_occ string_dec l' k).
  { rewrite (Permutation_count_occ string_dec) in HP; apply HP. }
  rewrite <- !ccount_cofl in E. unfold ccount in E.
  assert (K : In k (mkeys (cofl l)) <-> In k (mkeys (cofl l'))).
  { rewrite !in_cofl; split; intros H; [eapply Permutation_in; eassumption|eapply Permutation_in; [apply Permutation_sym|]; eassumption]. }
  destruct (mfind k (cofl l)) eqn:F, (mfind k (cofl l')) eqn:F'; try congruence; exfalso.
  - apply mfind_none in F'; apply F', K. apply mfind_in in F. apply (in_map fst) in F; exact F.
  - apply mfind_none in F; apply F, K. apply mfind_in in F'. apply (in_map fst) in F'; exact F'.
Qed.
Lemma cmax_fold c b : let r := fold_left cmax_step c b in
  (r = b \/ In r c) /\ snd b <= snd r /\ (forall kv, In kv c -> snd kv <= snd r) /\ (r <> b -> snd b < snd r).
Proof.
  revert b; induction c as [|kv c IH]; intros b; simpl; [repeat split; auto; tauto|].
  destruct (IH (cmax_step b kv)) as (H1 & H2 & H3 & H4). unfold cmax_step in *.
  destruct (Nat.ltb_spec (snd b) (snd kv)) as [L|L].
  - repeat split.
    + right; destruct H1 as [-> | H1]; [left; reflexivity|right; exact H1].
    + lia.
    + intros kv' [<-|Hin]; [exact H2|auto].
    + lia.
  - repeat split; [tauto|exact H2| |exact H4].
    intros kv' [<-|Hin]; [lia|auto].
Qed.
(** [cmax] of a non-empty counter without zero entries is a key of maximal count. *)
Lemma cmax_spec c : msorted c -> cpos c -> c <> [] ->
  In (cmax c) (mkeys c) /\ forall k, ccount c k <= ccount c (cmax c).
Proof.
  intros Hs Hp Hne. unfold cmax. destruct (cmax_fold c (EmptyString, 0)) as (H1 & H2 & H3 & H4). cbv zeta in *.
  set (r := fold_left cmax_step c (EmptyString, 0)) in *.
  assert (Hr : In r c).
  { destruct H1 as [H1|H1]; [|exact H1]. exfalso. destruct c as [|kv c]; [congruence|].
    specialize (H3 kv (or_introl eq_refl)). inversion Hp; subst. rewrite H1 in H3; simpl in H3; lia. }
  assert (F : mfind (fst r) c = Some (snd r)) by (apply in_mfind; [apply msorted_nodup; exact Hs|destruct r; exact Hr]).
  split; [apply in_map; exact Hr|]. intros k. unfold ccount at 2; rewrite F.
  unfold ccount; destruct (mfind k c) as [n|] eqn:E; [|lia]. apply mfind_in in E. exact (H3 _ E).
Qed.

(** * Distinct-element loops *)
Lemma mem_str_in x l : mem_str x l = true <-> In x l.
Proof.
  unfold mem_str; rewrite existsb_exists; split.
  - intros (y & Hy & E); apply String.eqb_eq in E; congruence.
  - intros H; exists x; split; [exact H|apply String.eqb_refl].
Qed.
Lemma push_new_nodup l acc : NoDup acc -> NoDup (fold_left push_new l acc).
Proof.
  revert acc; induction l as [|x l IH]; intros acc H; simpl; [exact H|]. apply IH. unfold push_new.
  destruct (mem_str x acc) eqn:E; [exact H|].
  apply (Permutation_NoDup (l := x :: acc)); [apply Permutation_cons_append|]. constructor; [|exact H].
  intros Hin; apply mem_str_in in Hin; congruence.
Qed.
Lemma push_new_in l acc x : In x (fold_left push_new l acc) <-> In x acc \/ In x l.
Proof.
  revert acc; induction l as [|y l IH]; intros acc; simpl; [tauto|]. rewrite IH. unfold push_new.
  destruct (mem_str y acc) eqn:E.
  - apply mem_str_in in E. split; [tauto|]. intros [H|[->|H]]; auto.
  - rewrite in_app_iff; simpl; tauto.
Qed.

(** * find *)
Lemma find_pos_lt x l : In x l <-> find_pos x l < length l.
Proof.
  induction l as [|y l IH]; simpl; [split; [tauto|lia]|]. destruct (String.eqb_spec x y) as [->|H]; [split; [lia|tauto]|].
  rewrite <- Nat.succ_lt_mono, <- IH. split; [intros [?|?]; congruence || assumption|tauto].
Qed.
Lemma find_pos_nth x l : In x l -> nth_error l (find_pos x l) = Some x.
Proof.
  induction l as [|y l IH]; simpl; [tauto|]. destruct (String.eqb_spec x y) as [->|H]; [reflexivity|].
  intros [?|?]; [congruence|auto].
Qed.
Lemma find_pos_unique l i x : NoDup l -> nth_error l i = Some x -> find_pos x l = i.
Proof.
  intros Hn Hi. assert (Hin : In x l) by (eapply nth_error_In; exact Hi).
  eapply NoDup_nth_error; [exact Hn|apply find_pos_lt; exact Hin|].
  rewrite find_pos_nth, Hi by exact Hin; reflexivity.
Qed.

(** ** Forall2 *)
Lemma Forall2_imp {A B} (P Q : A -> B -> Prop) l l' : (forall x y, P x y -> Q x y) -> Forall2 P l l' -> Forall2 Q l l'.
Proof. intros H F; induction F; constructor; auto. Qed.
Lemma Forall2_nth {A B} (P : A -> B -> Prop) l l' i x y :
  Forall2 P l l' -> nth_error l i = Some x -> nth_error l' i = Some y -> P x y.
Proof.
  intros F; revert i; induction F as [|a b l l' H F IH]; intros i Hx Hy; [destruct i; discriminate|].
  destruct i; simpl in *; [congruence|eauto].
Qed.
Lemma Forall2_map_l {A B C} (P : B -> C -> Prop) (f : A -> B) l l' :
  Forall2 P (map f l) l' <-> Forall2 (fun x y => P (f x) y) l l'.
Proof.
  revert l'; induction l as [|x l IH]; intros l'; simpl; split; intros H; inversion H; subst; constructor; auto; apply IH; auto.
Qed.
Lemma Forall2_map_r {A B C} (P : A -> C -> Prop) (f : B -> C) l l' :
  Forall2 P l (map f l') <-> Forall2 (fun x y => P x (f y)) l l'.
Proof.
  revert l; induction l' as [|x l' IH]; intros l; simpl; split; intros H; inversion H; subst; constructor; auto; apply IH; auto.
Qed.
Lemma Forall2_eq {A} (l l' : list A) : Forall2 eq l l' <-> l = l'.
Proof. split; [induction 1; congruence|intros ->; induction l'; constructor; auto]. Qed.
Lemma Forall2_len {A B} (P : A -> B -> Prop) l l' : Forall2 P l l' -> length l = length l'.
Proof. induction 1; simpl; congruence. Qed.
