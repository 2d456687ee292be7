(** Proofs about the SMO solver: vectors, the two-variable update, sums. *)
From Coq Require Import String ZArith QArith Qabs Bool Lia Lra Lqa Permutation List.
From Verif Require Import Base Spec BaseLemmas DblLemmas AttrModel SolverModel SvmSpec KernelProofs.
Import ListNotations.
Local Open Scope string_scope.
Local Open Scope list_scope.
Local Open Scope nat_scope.

(** ** Vectors of finite doubles described by a function *)
Definition vec (n : nat) (v : list dbl) (f : nat -> Q) : Prop :=
  length v = n /\ forall k, k < n -> exists q, nth_error v k = Some (Fin q) /\ (q == f k)%Q.

Lemma vec_ext n v f g : vec n v f -> (forall k, k < n -> (f k == g k)%Q) -> vec n v g.
Proof. intros [Hl H] E. split; [exact Hl|]. intros k Hk. destruct (H k Hk) as (q & A & B). exists q. split; [exact A|]. rewrite B. apply E, Hk. Qed.
Lemma vec_get n v f k : vec n v f -> k < n -> exists q, idxn v k = Ok (Fin q) /\ (q == f k)%Q.
Proof. intros [_ H] Hk. destruct (H k Hk) as (q & A & B). exists q. split; [apply idxn_some, A|exact B]. Qed.
Lemma vec_set n v f k q : vec n v f -> k < n ->
  exists v', set_at v k (Fin q) = Ok v' /\ vec n v' (fun i => if i =? k then q else f i).
Proof.
  intros [Hl H] Hk. destruct (H k Hk) as (q0 & E & _). unfold set_at. rewrite (idxn_some _ _ _ E). cbn [bind]. eexists; split; [reflexivity|].
  split; [rewrite upd_length; exact Hl|]. intros i Hi. destruct (Nat.eqb_spec i k) as [->|Hik].
  - exists q. split; [apply nth_upd_same; lia|reflexivity].
  - rewrite nth_upd_other by congruence. apply H, Hi.
Qed.
Lemma vec_mapM n (f : nat -> res dbl) h : (forall j, j < n -> exists q, f j = Ok (Fin q) /\ (q == h j)%Q) ->
  exists v, mapM f (seq 0 n) = Ok v /\ vec n v h.
Proof.
  intros H. assert (forall m s, (forall j, s <= j < s + m -> exists q, f j = Ok (Fin q) /\ (q == h j)%Q) ->
    exists v, mapM f (seq s m) = Ok v /\ vec m v (fun k => h (s + k))) as HG.
  { clear. induction m as [|m IH]; intros s H.
    - exists []. split; [reflexivity|]. split; [reflexivity|]. intros k Hk; lia.
    - destruct (H s ltac:(lia)) as (q & E & Hq). destruct (IH (S s)) as (v & Ev & Hl & Hv); [intros j Hj; apply H; lia|].
      exists (Fin q :: v). cbn [seq mapM]. rewrite E. cbn [bind]. rewrite Ev. split; [reflexivity|]. split; [simpl; congruence|].
      intros [|k] Hk.
      + exists q. split; [reflexivity|]. rewrite Nat.add_0_r. exact Hq.
      + destruct (Hv k ltac:(lia)) as (q' & A & B). exists q'. split; [exact A|]. rewrite <- Nat.add_succ_comm. exact B. }
  destruct (HG n 0) as (v & E & Hv); [intros j Hj; apply H; lia|]. exists v. split; [exact E|exact Hv].
Qed.
Lemma vec_swap n v f i j : vec n v f -> i < n -> j < n -> exists v', swap_at v i j = Ok v' /\ vec n v' (fun k => f (tr i j k)).
Proof.
  intros [Hl H] Hi Hj. destruct (swap_at_spec v i j) as (v' & E & Hl' & Hn); [lia..|]. exists v'. split; [exact E|]. split; [congruence|].
  intros k Hk. rewrite Hn. apply H, tr_lt; assumption.
Qed.
Lemma vec_repeat n q : vec n (repeat (Fin q) n) (fun _ => q).
Proof.
  split; [apply repeat_length|]. intros k Hk. exists q. split; [|reflexivity].
  revert k Hk; induction n as [|n IH]; intros [|k] Hk; simpl; try lia; [reflexivity|]. apply IH. lia.
Qed.
Lemma add_range_spec n v f from m inc h : vec n v f -> from + m <= n ->
  (forall k, from <= k < from + m -> exists d, inc k = Ok (Fin d) /\ (d == h k)%Q) ->
  exists v', add_range from m inc v = Ok v' /\
    vec n v' (fun k => if (from <=? k) && (k <? from + m) then (f k + h k)%Q else f k).
Proof.
  unfold add_range. revert v f from; induction m as [|m IH]; intros v f from Hv Hle Hinc.
  - exists v. split; [reflexivity|]. apply (vec_ext _ _ _ _ Hv). intros k Hk. destruct (Nat.leb_spec from k); destruct (Nat.ltb_spec k (from + 0)); cbn [andb]; try lia; reflexivity.
  - destruct (vec_get _ _ _ from Hv) as (x & Ex & Hx); [lia|]. destruct (Hinc from ltac:(lia)) as (d & Ed & Hd).
    destruct (vec_set _ _ _ from (x + d)%Q Hv) as (v1 & E1 & Hv1); [lia|].
    destruct (IH v1 _ (S from) Hv1) as (v2 & E2 & Hv2); [lia|intros k Hk; apply Hinc; lia|].
    exists v2. cbn [seq foldM]. rewrite Ex. cbn [bind]. rewrite Ed. cbn [bind dadd]. rewrite E1. cbn [bind]. split; [exact E2|].
    apply (vec_ext _ _ _ _ Hv2). intros k Hk. cbv beta.
    destruct (Nat.leb_spec (S from) k); destruct (Nat.ltb_spec k (S from + m)); destruct (Nat.leb_spec from k); destruct (Nat.ltb_spec k (from + S m)); destruct (Nat.eqb_spec k from); cbn [andb]; try lia; try reflexivity.
    subst k. rewrite Hx, Hd. reflexivity.
Qed.

(** ** Status *)
Lemma status_proper C a b : (a == b)%Q -> status_of (Fin C) (Fin a) = status_of (Fin C) (Fin b).
Proof. intros E. unfold status_of, dgeb, dleb, d0. rewrite (qle_bool_proper C C a b), (qle_bool_proper a b 0 0); try reflexivity; exact E. Qed.
Lemma status_upper C a : is_upper (status_of (Fin C) (Fin a)) = Qle_bool C a.
Proof. unfold status_of, dgeb, dleb, d0. destruct (Qle_bool C a); [reflexivity|]. destruct (Qle_bool a 0); reflexivity. Qed.
Lemma status_lower C a : (0 < C)%Q -> is_lower (status_of (Fin C) (Fin a)) = Qle_bool a 0.
Proof.
  intros HC. unfold status_of, dgeb, dleb, d0. destruct (Qle_bool C a) eqn:E; [|destruct (Qle_bool a 0); reflexivity].
  apply Qle_bool_iff in E. cbn [is_lower]. symmetry. destruct (Qle_bool a 0) eqn:E2; [|reflexivity]. apply Qle_bool_iff in E2. lra.
Qed.
Lemma qle_bool_false a b : Qle_bool a b = false <-> (b < a)%Q.
Proof.
  destruct (Qle_bool a b) eqn:E; split; try discriminate; try congruence.
  - apply Qle_bool_iff in E. intros H. exfalso. apply (Qlt_not_le _ _ H E).
  - intros _. apply Qnot_le_lt. intros H. apply Qle_bool_iff in H. congruence.
Qed.

(** ** The two-variable update *)
Ltac dcase := match goal with
  | |- context [dltb (Fin ?a) (Fin ?b)] =>
      let E := fresh "E" in destruct (dltb (Fin a) (Fin b)) eqn:E; [apply dltb_fin in E|apply dltb_fin_false in E]
  end.
Lemma deqb_sign yi yj : (yi == 1 \/ yi == -(1))%Q -> (yj == 1 \/ yj == -(1))%Q ->
  deqb (Fin yi) (Fin yj) = true /\ (yi == yj)%Q \/ deqb (Fin yi) (Fin yj) = false /\ (yi == - yj)%Q.
Proof.
  intros Hi Hj. unfold deqb. destruct Hi as [Hi|Hi], Hj as [Hj|Hj].
  - left. split; [|lra]. apply andb_true_iff. split; apply dleb_fin; lra.
  - right. split; [|lra]. apply andb_false_iff. left. apply dleb_fin_false. lra.
  - right. split; [|lra]. apply andb_false_iff. right. apply dleb_fin_false. lra.
  - left. split; [|lra]. apply andb_true_iff. split; apply dleb_fin; lra.
Qed.
Lemma dfmax0 d : (0 <= d)%Q /\ dfmax (Fin d) d0 = Fin d \/ (d < 0)%Q /\ dfmax (Fin d) d0 = Fin 0.
Proof. unfold dfmax, d0. dcase; [right|left]; split; auto. Qed.
Ltac dinf := cbn [dsub dadd dopp]; repeat (match goal with
  | |- context [dltb (Fin ?a) PInf] => change (dltb (Fin a) PInf) with true
  | |- context [dltb PInf ?a] => change (dltb PInf a) with false
  | |- context [dltb (Fin ?a) NInf] => change (dltb (Fin a) NInf) with false
  | |- context [dltb NInf (Fin ?a)] => change (dltb NInf (Fin a)) with true
  end; cbv iota; cbn [dsub dadd dopp]).
Ltac box_fin Hi Hj := solve [lra | rewrite ?Hi, ?Hj; lra].
Ltac box_all Hi Hj Hden Hnum := split; [reflexivity|]; split; [box_fin Hi Hj|]; split; [box_fin Hi Hj|]; split; [box_fin Hi Hj|];
  split; [box_fin Hi Hj|]; split; [box_fin Hi Hj|]; split; [intros; lra|]; split; [intros; first [lra | rewrite Hden, Hnum, Hi; nra]|];
  first [left; lra | right; left; lra | right; right; left; lra | right; right; right; left; lra |
         do 4 right; rewrite Hden, Hnum, Hi; split; [lra|nra]].
(** the step [t] along the direction (yi, -yj): positive when the pair may move, at most the unconstrained optimum,
    and equal to it unless one of the two multipliers ends on a bound *)
Lemma pair_update_spec C yi yj gi gj ai aj qii qjj qij :
  (0 < C)%Q -> (yi == 1 \/ yi == -(1))%Q -> (yj == 1 \/ yj == -(1))%Q -> (0 <= ai <= C)%Q -> (0 <= aj <= C)%Q ->
  (0 < yj * gj - yi * gi)%Q ->
  exists x y t, pair_update (Fin C) (Fin yi) (Fin yj) (Fin gi) (Fin gj) (Fin ai) (Fin aj) (Fin qii) (Fin qjj) (Fin qij) = (Fin x, Fin y) /\
    (0 <= x <= C)%Q /\ (0 <= y <= C)%Q /\ (x == ai + yi * t)%Q /\ (y == aj - yj * t)%Q /\ (0 <= t)%Q /\
    (((yi == 1 /\ ai < C) \/ (yi == -(1) /\ 0 < ai)) -> ((yj == 1 /\ 0 < aj) \/ (yj == -(1) /\ aj < C)) -> 0 < t)%Q /\
    ((0 < qii + qjj - 2 * (yi * yj * qij)) -> (qii + qjj - 2 * (yi * yj * qij)) * t <= yj * gj - yi * gi)%Q /\
    (x == 0 \/ x == C \/ y == 0 \/ y == C \/
     (0 < qii + qjj - 2 * (yi * yj * qij)) /\ (qii + qjj - 2 * (yi * yj * qij)) * t == yj * gj - yi * gi)%Q.
Proof.
  intros HC Hyi Hyj Hai Haj Hv. unfold pair_update. destruct (deqb_sign yi yj Hyi Hyj) as [[-> E]|[-> E]]; cbn [negb].
  - (* equal labels *)
    cbn [dmul dopp dsub dadd]. set (den := (qii + qjj + - (2 * qij))%Q).
    assert (qii + qjj - 2 * (yi * yj * qij) == den)%Q as Hden. { unfold den. destruct Hyi as [H|H]; rewrite <- E, H; ring. }
    set (num := (gi + - gj)%Q).
    assert (yj * gj - yi * gi == - (yi * num))%Q as Hnum. { unfold num. rewrite <- E. ring. }
    rewrite Hnum in Hv. clearbody den num.
    destruct (dfmax0 den) as [[Hd ->]|[Hd ->]].
    + destruct (Qlt_le_dec 0 den) as [Hp|Hz].
      * rewrite ddiv_fin by lra. set (d := (num / den)%Q).
        assert (den * d == num)%Q as Hdd by (unfold d; field; lra). clearbody d.
        unfold dgtb, d0. cbn [dsub dadd dopp]. 
        destruct Hyi as [Hi|Hi]; assert (Hj := Hi); rewrite E in Hj.
        -- assert (num < 0)%Q as Hn by (rewrite Hi in Hv; lra). assert (d < 0)%Q as Hneg by (clear - Hn Hp Hdd; nra).
           repeat (dcase; cbn [dsub dadd dopp]); try (exfalso; lra);
           (match goal with |- exists x y t, (Fin ?u, Fin ?w) = _ /\ _ => exists u, w, (u - ai)%Q end);
           box_all Hi Hj Hden Hnum.
        -- assert (0 < num)%Q as Hn by (rewrite Hi in Hv; lra). assert (0 < d)%Q as Hneg by (clear - Hn Hp Hdd; nra).
           repeat (dcase; cbn [dsub dadd dopp]); try (exfalso; lra);
           (match goal with |- exists x y t, (Fin ?u, Fin ?w) = _ /\ _ => exists u, w, (ai - u)%Q end);
           box_all Hi Hj Hden Hnum.
      * assert (den == 0)%Q as Hz0 by lra. destruct Hyi as [Hi|Hi]; assert (Hj := Hi); rewrite E in Hj.
        -- rewrite ddiv_neg0 by (try exact Hz0; rewrite Hi in Hv; lra). unfold dgtb, d0. dinf. dcase; dinf.
           ++ dcase; cbn [dsub dadd dopp]; [exfalso; lra|]. exists C, (ai + aj + - C)%Q, (C - ai)%Q. box_all Hi Hj Hden Hnum.
           ++ dcase; [exfalso; lra|]. exists (ai + aj)%Q, 0%Q, aj. box_all Hi Hj Hden Hnum.
        -- rewrite ddiv_pos0 by (try exact Hz0; rewrite Hi in Hv; lra). unfold dgtb, d0. dinf. dcase; dinf.
           ++ exists (ai + aj + - C)%Q, C, (C - aj)%Q. box_all Hi Hj Hden Hnum.
           ++ exists 0%Q, (ai + aj)%Q, ai. box_all Hi Hj Hden Hnum.
    + destruct Hyi as [Hi|Hi]; assert (Hj := Hi); rewrite E in Hj.
      * rewrite ddiv_neg0 by (try reflexivity; rewrite Hi in Hv; lra). unfold dgtb, d0. dinf. dcase; dinf.
        -- dcase; cbn [dsub dadd dopp]; [exfalso; lra|]. exists C, (ai + aj + - C)%Q, (C - ai)%Q. box_all Hi Hj Hden Hnum.
        -- dcase; [exfalso; lra|]. exists (ai + aj)%Q, 0%Q, aj. box_all Hi Hj Hden Hnum.
      * rewrite ddiv_pos0 by (try reflexivity; rewrite Hi in Hv; lra). unfold dgtb, d0. dinf. dcase; dinf.
        -- exists (ai + aj + - C)%Q, C, (C - aj)%Q. box_all Hi Hj Hden Hnum.
        -- exists 0%Q, (ai + aj)%Q, ai. box_all Hi Hj Hden Hnum.
  - (* different labels *)
    cbn [dmul dopp dsub dadd]. set (den := (qii + qjj + 2 * qij)%Q).
    assert (qii + qjj - 2 * (yi * yj * qij) == den)%Q as Hden. { unfold den. destruct Hyj as [H|H]; rewrite E, H; ring. }
    set (num := (- gi + - gj)%Q).
    assert (yj * gj - yi * gi == yi * num)%Q as Hnum. { unfold num. assert (yj == - yi)%Q as -> by lra. ring. }
    rewrite Hnum in Hv. clearbody den num.
    destruct (dfmax0 den) as [[Hd ->]|[Hd ->]].
    + destruct (Qlt_le_dec 0 den) as [Hp|Hz].
      * rewrite ddiv_fin by lra. set (d := (num / den)%Q).
        assert (den * d == num)%Q as Hdd by (unfold d; field; lra). clearbody d.
        unfold dgtb, d0. cbn [dsub dadd dopp]. 
        destruct Hyi as [Hi|Hi]; assert (yj == - yi)%Q as Hj by lra; rewrite Hi in Hj.
        -- assert (0 < num)%Q as Hn by (rewrite Hi in Hv; lra). assert (0 < d)%Q as Hneg by (clear - Hn Hp Hdd; nra).
           repeat (dcase; cbn [dsub dadd dopp]); try (exfalso; lra);
           (match goal with |- exists x y t, (Fin ?u, Fin ?w) = _ /\ _ => exists u, w, (u - ai)%Q end);
           box_all Hi Hj Hden Hnum.
        -- assert (num < 0)%Q as Hn by (rewrite Hi in Hv; lra). assert (d < 0)%Q as Hneg by (clear - Hn Hp Hdd; nra).
           repeat (dcase; cbn [dsub dadd dopp]); try (exfalso; lra);
           (match goal with |- exists x y t, (Fin ?u, Fin ?w) = _ /\ _ => exists u, w, (ai - u)%Q end);
           box_all Hi Hj Hden Hnum.
      * assert (den == 0)%Q as Hz0 by lra. destruct Hyi as [Hi|Hi]; assert (yj == - yi)%Q as Hj by lra; rewrite Hi in Hj.
        -- rewrite ddiv_pos0 by (try exact Hz0; rewrite Hi in Hv; lra). unfold dgtb, d0. dinf. dcase; dinf.
           ++ exists C, (C + - (ai + - aj))%Q, (C - ai)%Q. box_all Hi Hj Hden Hnum.
           ++ exists (C + (ai + - aj))%Q, C, (C - aj)%Q. box_all Hi Hj Hden Hnum.
        -- rewrite ddiv_neg0 by (try exact Hz0; rewrite Hi in Hv; lra). unfold dgtb, d0. dinf. dcase; dinf.
           ++ dcase; [exfalso; lra|]. exists (ai + - aj)%Q, 0%Q, aj. box_all Hi Hj Hden Hnum.
           ++ dcase; [exfalso; lra|]. exists 0%Q, (- (ai + - aj))%Q, ai. box_all Hi Hj Hden Hnum.
    + destruct Hyi as [Hi|Hi]; assert (yj == - yi)%Q as Hj by lra; rewrite Hi in Hj.
      * rewrite ddiv_pos0 by (try reflexivity; rewrite Hi in Hv; lra). unfold dgtb, d0. dinf. dcase; dinf.
        -- exists C, (C + - (ai + - aj))%Q, (C - ai)%Q. box_all Hi Hj Hden Hnum.
        -- exists (C + (ai + - aj))%Q, C, (C - aj)%Q. box_all Hi Hj Hden Hnum.
      * rewrite ddiv_neg0 by (try reflexivity; rewrite Hi in Hv; lra). unfold dgtb, d0. dinf. dcase; dinf.
        -- dcase; [exfalso; lra|]. exists (ai + - aj)%Q, 0%Q, aj. box_all Hi Hj Hden Hnum.
        -- dcase; [exfalso; lra|]. exists 0%Q, (- (ai + - aj))%Q, ai. box_all Hi Hj Hden Hnum.
Qed.
