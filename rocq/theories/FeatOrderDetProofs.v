(** Determinants, inverses and quadratic forms when rows and columns are rearranged alike. *)
From Coq Require Import String ZArith QArith Bool Lia Lqa Permutation Arith List.
From Verif Require Import Base Spec BaseLemmas DblLemmas AttrModel StatSpec CovProofs CovAllProofs DiscrimSpec DiscrimProofs InvSpec ModelInvSpec ModelInvProofs FeatOrderSpec.
Import ListNotations.
Local Open Scope list_scope.
Local Open Scope nat_scope.

Lemma ssum_S n f : (ssum (S n) f == f 0%nat + ssum n (fun i => f (S i)))%Q.
Proof. change (seq 0 (S n)) with (0 :: seq 1 n). rewrite <- seq_shift. cbn [map]. rewrite map_map. reflexivity. Qed.
Definition skip (j c : nat) : nat := if Nat.ltb c j then c else S c.
Definition sgn (j : nat) : Q := if Nat.even j then 1 else -(1).
Lemma sgn_S j : (sgn (S j) == - sgn j)%Q.
Proof. unfold sgn. rewrite Nat.even_succ, <- Nat.negb_even. destruct (Nat.even j); reflexivity. Qed.
Lemma det_S n w : (det (S n) w == ssum (S n) (fun j => sgn j * w 0%nat j * det n (fun i k => w (S i) (skip j k))))%Q.
Proof. reflexivity. Qed.
Lemma ssum_skip n : forall a f, a <= n -> (ssum (S n) f == f a + ssum n (fun b => f (skip a b)))%Q.
Proof.
  induction n as [|n IH]; intros a f Ha.
  - replace a with 0 by lia. rewrite ssum_S. reflexivity.
  - rewrite ssum_S. destruct a as [|a].
    + apply Qplus_comp; [reflexivity|]. apply ssum_ext. intros i _. reflexivity.
    + rewrite (IH a (fun i => f (S i)) ltac:(lia)). rewrite (ssum_S n). change (skip (S a) 0) with 0. rewrite Qplus_assoc, (Qplus_comm (f 0)), <- Qplus_assoc. apply Qplus_comp; [reflexivity|]. apply Qplus_comp; [reflexivity|].
      apply ssum_ext. intros i _. unfold skip. change (Nat.ltb (S i) (S a)) with (Nat.ltb i a). destruct (Nat.ltb i a); reflexivity.
Qed.
Definition tau (k i : nat) : nat := if Nat.eqb i k then S k else if Nat.eqb i (S k) then k else i.
Lemma ssum_tau n k f : S k < n -> (ssum n (fun j => f (tau k j)) == ssum n f)%Q.
Proof.
  intros H. rewrite <- (map_map (tau k) f). apply qsum_perm, Permutation_map. apply NoDup_Permutation.
  - apply FinFun.Injective_map_NoDup; [|apply seq_NoDup]. intros x y. unfold tau. destruct (Nat.eqb_spec x k), (Nat.eqb_spec x (S k)), (Nat.eqb_spec y k), (Nat.eqb_spec y (S k)); lia.
  - apply seq_NoDup.
  - intros x. rewrite in_map_iff. split.
    + intros (y & <- & Hy). apply in_seq in Hy. apply in_seq. unfold tau. destruct (Nat.eqb_spec y k), (Nat.eqb_spec y (S k)); lia.
    + intros Hx. apply in_seq in Hx. exists (tau k x). split; [|apply in_seq]; unfold tau; destruct (Nat.eqb_spec x k); try destruct (Nat.eqb_spec x (S k)); try (destruct (Nat.eqb_spec (S k) k)); try (destruct (Nat.eqb_spec (S k) (S k)));
        try (destruct (Nat.eqb_spec k k)); try (destruct (Nat.eqb_spec x k)); try (destruct (Nat.eqb_spec x (S k))); try lia.
Qed.
Ltac plain a := lazymatch a with context [if _ then _ else _] => fail | _ => idtac end.
Ltac cases := unfold tau, skip; repeat match goal with
  | |- context [Nat.eqb ?a ?b] => plain a; plain b; destruct (Nat.eqb_spec a b)
  | |- context [Nat.ltb ?a ?b] => plain a; plain b; destruct (Nat.ltb_spec a b) end; try lia.
Lemma det_col n : forall k w, S k < n -> (det n (fun i j => w i (tau k j)) == - det n w)%Q.
Proof.
  induction n as [|n IH]; intros k w Hk; [lia|]. rewrite !det_S.
  rewrite <- (ssum_tau (S n) k (fun j => sgn j * w 0%nat j * det n (fun i c => w (S i) (skip j c)))%Q Hk).
  setoid_replace (- ssum (S n) (fun j => sgn (tau k j) * w 0%nat (tau k j) * det n (fun i c => w (S i) (skip (tau k j) c))))%Q with
    (ssum (S n) (fun j => -(1) * (sgn (tau k j) * w 0%nat (tau k j) * det n (fun i c => w (S i) (skip (tau k j) c)))))%Q by (rewrite qsum_scale; ring).
  apply ssum_ext. intros j Hj. destruct (Nat.eq_dec j k) as [->|N1]; [|destruct (Nat.eq_dec j (S k)) as [->|N2]].
  - replace (tau k k) with (S k) by cases. rewrite sgn_S. rewrite (det_ext n (fun i c => w (S i) (tau k (skip k c))) (fun i c => w (S i) (skip (S k) c))); [ring|].
    intros i c _ _. replace (tau k (skip k c)) with (skip (S k) c); [reflexivity|]. cases.
  - replace (tau k (S k)) with k by cases. rewrite sgn_S. rewrite (det_ext n (fun i c => w (S i) (tau k (skip (S k) c))) (fun i c => w (S i) (skip k c))); [ring|].
    intros i c _ _. replace (tau k (skip (S k) c)) with (skip k c); [reflexivity|]. cases.
  - replace (tau k j) with j by cases. destruct (Nat.lt_ge_cases j k) as [L|L].
    + rewrite (det_ext n (fun i c => w (S i) (tau k (skip j c))) (fun i c => w (S i) (skip j (tau (k - 1) c)))); [|intros i c _ _; replace (tau k (skip j c)) with (skip j (tau (k - 1) c)); [reflexivity|cases]].
      rewrite (IH (k - 1) (fun i c => w (S i) (skip j c)) ltac:(lia)). ring.
    + rewrite (det_ext n (fun i c => w (S i) (tau k (skip j c))) (fun i c => w (S i) (skip j (tau k c)))); [|intros i c _ _; replace (tau k (skip j c)) with (skip j (tau k c)); [reflexivity|cases]].
      rewrite (IH k (fun i c => w (S i) (skip j c)) ltac:(lia)). ring.
Qed.
Definition unskip (a j : nat) : nat := if Nat.ltb j a then j else j - 1.
Definition pair_term n (w : nat -> nat -> Q) (a j : nat) : Q :=
  if Nat.eqb j a then 0%Q else (sgn a * sgn (unskip a j) * (w 0%nat a * w 1%nat j) * det n (fun i c => w (S (S i)) (skip a (skip (unskip a j) c))))%Q.
Lemma det_SS n w : (det (S (S n)) w == ssum (S (S n)) (fun a => ssum (S (S n)) (fun j => pair_term n w a j)))%Q.
Proof.
  rewrite det_S. apply ssum_ext. intros a Ha. rewrite (ssum_skip (S n) a (fun j => pair_term n w a j)) by lia. unfold pair_term at 1. rewrite Nat.eqb_refl, Qplus_0_l.
  rewrite det_S, <- qsum_scale. apply ssum_ext. intros b Hb. unfold pair_term. replace (Nat.eqb (skip a b) a) with false by (symmetry; apply Nat.eqb_neq; unfold skip; destruct (Nat.ltb_spec b a); lia).
  replace (unskip a (skip a b)) with b by (unfold unskip, skip; destruct (Nat.ltb_spec b a); [destruct (Nat.ltb_spec b a)|destruct (Nat.ltb_spec (S b) a)]; lia). ring.
Qed.
Lemma det_row0 n w : (det (S (S n)) (fun i j => w (tau 0 i) j) == - det (S (S n)) w)%Q.
Proof.
  rewrite !det_SS. rewrite qsum_swap.
  setoid_replace (- ssum (S (S n)) (fun a => ssum (S (S n)) (fun j => pair_term n w a j)))%Q with (ssum (S (S n)) (fun a => -(1) * ssum (S (S n)) (fun j => pair_term n w a j)))%Q by (rewrite qsum_scale; ring).
  apply ssum_ext. intros a Ha. rewrite <- qsum_scale. apply ssum_ext. intros j Hj. unfold pair_term. rewrite (Nat.eqb_sym a j). destruct (Nat.eqb_spec j a) as [->|N]; [ring|].
  change (tau 0 0) with 1. change (tau 0 1) with 0.
  rewrite (det_ext n (fun i c => w (tau 0 (S (S i))) (skip j (skip (unskip j a) c))) (fun i c => w (S (S i)) (skip a (skip (unskip a j) c)))).
  - assert (SG : (sgn j * sgn (unskip j a) == - (sgn a * sgn (unskip a j)))%Q); [|rewrite SG; ring].
    unfold unskip. destruct (Nat.ltb_spec a j); destruct (Nat.ltb_spec j a); try lia.
    + replace j with (S (j - 1)) at 1 by lia. rewrite sgn_S. ring.
    + replace a with (S (a - 1)) at 2 by lia. rewrite sgn_S. ring.
  - intros i c _ _. change (tau 0 (S (S i))) with (S (S i)). replace (skip j (skip (unskip j a) c)) with (skip a (skip (unskip a j) c)); [reflexivity|]. unfold unskip. cases.
Qed.
Lemma det_row n : forall k w, S k < n -> (det n (fun i j => w (tau k i) j) == - det n w)%Q.
Proof.
  induction n as [|n IH]; intros k w Hk; [lia|]. destruct k as [|k].
  - destruct n as [|n]; [lia|]. apply det_row0.
  - rewrite !det_S. change (tau (S k) 0) with 0.
    setoid_replace (- ssum (S n) (fun j => sgn j * w 0%nat j * det n (fun i c => w (S i) (skip j c))))%Q with (ssum (S n) (fun j => -(1) * (sgn j * w 0%nat j * det n (fun i c => w (S i) (skip j c)))))%Q by (rewrite qsum_scale; ring).
    apply ssum_ext. intros j Hj.
    rewrite (det_ext n (fun i c => w (tau (S k) (S i)) (skip j c)) (fun i c => w (S (tau k i)) (skip j c))); [|intros i c _ _; replace (tau (S k) (S i)) with (S (tau k i)) by cases; reflexivity].
    rewrite (IH k (fun i c => w (S i) (skip j c)) ltac:(lia)). ring.
Qed.
(** exchanging two rows and the same two columns *)
Lemma det_arrange w : forall l l', Permutation l l' -> (det (length l) (fun i j => w (nth i l 0%nat) (nth j l 0%nat)) == det (length l') (fun i j => w (nth i l' 0%nat) (nth j l' 0%nat)))%Q.
Proof.
  apply Permutation_ind_transp.
  - intros l. reflexivity.
  - intros x y l1 l2. set (l := l1 ++ x :: y :: l2). assert (L : length (l1 ++ y :: x :: l2) = length l) by (unfold l; rewrite !app_length; reflexivity). rewrite L.
    assert (T : forall i, nth i (l1 ++ y :: x :: l2) 0 = nth (tau (length l1) i) l 0).
    { intros i. unfold tau, l. destruct (Nat.eqb_spec i (length l1)) as [->|N1]; [|destruct (Nat.eqb_spec i (S (length l1))) as [->|N2]].
      - rewrite app_nth2 by lia. rewrite app_nth2 by lia. replace (length l1 - length l1) with 0 by lia. replace (S (length l1) - length l1) with 1 by lia. reflexivity.
      - rewrite app_nth2 by lia. rewrite app_nth2 by lia. replace (length l1 - length l1) with 0 by lia. replace (S (length l1) - length l1) with 1 by lia. reflexivity.
      - destruct (Nat.lt_ge_cases i (length l1)); [rewrite !app_nth1 by assumption; reflexivity|]. rewrite !app_nth2 by lia. destruct (i - length l1) as [|[|m]] eqn:E; [lia|lia|reflexivity]. }
    rewrite (det_ext (length l) _ (fun i j => w (nth (tau (length l1) i) l 0%nat) (nth (tau (length l1) j) l 0%nat))) by (intros; rewrite !T; reflexivity).
    assert (Hk : S (length l1) < length l) by (unfold l; rewrite app_length; cbn; lia).
    rewrite (det_row (length l) (length l1) (fun i j => w (nth i l 0%nat) (nth (tau (length l1) j) l 0%nat)) Hk).
    rewrite (det_col (length l) (length l1) (fun i j => w (nth i l 0%nat) (nth j l 0%nat)) Hk). ring.
  - intros l l' l'' _ H1 _ H2. rewrite H1. exact H2.
Qed.

Section Arr.
  Context (n : nat) (p : list nat) (Hp : arrangement n p).
  Let sg i := nth i p 0.
  Lemma sg_len : length p = n.
  Proof. rewrite (Permutation_length Hp). apply seq_length. Qed.
  Lemma sg_lt i : i < n -> sg i < n.
  Proof. intros H. assert (I : In (sg i) p) by (apply nth_In; rewrite sg_len; exact H). apply (Permutation_in _ Hp), in_seq in I. lia. Qed.
  Lemma sg_inj i j : i < n -> j < n -> sg i = sg j -> i = j.
  Proof. intros Hi Hj E. apply (proj1 (NoDup_nth p 0)); try (rewrite sg_len; assumption); [|exact E]. apply (Permutation_NoDup (Permutation_sym Hp)), seq_NoDup. Qed.
  Lemma map_sg : map sg (seq 0 n) = p.
  Proof. unfold sg. rewrite <- sg_len. clear sg Hp. induction p as [|x q IH]; [reflexivity|]. cbn [length seq map nth]. f_equal. rewrite <- seq_shift, map_map. exact IH. Qed.
  Lemma ssum_sg f : (ssum n (fun i => f (sg i)) == ssum n f)%Q.
  Proof. rewrite <- (map_map sg f). apply qsum_perm, Permutation_map. rewrite map_sg. exact Hp. Qed.
  Lemma det_sg w : (det n (fun i j => w (sg i) (sg j)) == det n w)%Q.
  Proof.
    pose proof (det_arrange w _ _ Hp) as E. rewrite sg_len, seq_length in E. unfold sg. rewrite E. apply det_ext. intros i j Hi Hj. rewrite !seq_nth by assumption. reflexivity.
  Qed.
  Lemma finv_sg w s : finv n w s -> finv n (fun i j => w (sg i) (sg j)) (fun i j => s (sg i) (sg j)).
  Proof.
    intros H i j Hi Hj. rewrite (ssum_sg (fun k => w (sg i) k * s k (sg j))%Q). rewrite (H _ _ (sg_lt i Hi) (sg_lt j Hj)).
    destruct (Nat.eqb_spec (sg i) (sg j)) as [E|N], (Nat.eqb_spec i j) as [->|N']; try reflexivity; [apply sg_inj in E; congruence|congruence].
  Qed.
  Lemma quad_sg w w' P P' S S' x x' : (forall i j, i < n -> j < n -> (w' i j == w (sg i) (sg j))%Q) -> (forall i j, (w i j == w j i)%Q) ->
    entries n P w -> entries n P' w' -> inverse_of n P S -> inverse_of n P' S' -> (forall i, i < n -> (x' i == x (sg i))%Q) -> (quad n S' x' == quad n S x)%Q.
  Proof.
    intros Hw Hy (_ & EP) (_ & EP') HS HS' Hx.
    assert (K : finv n w' (fun i j => mget S (sg i) (sg j))).
    { apply (finv_ext n (fun i j => w (sg i) (sg j))); [intros; symmetry; apply Hw; assumption|]. apply finv_sg. apply (finv_ext n (mget P)); [exact EP|exact (finv_of _ _ _ HS)]. }
    assert (K' : finv n w' (mget S')) by (apply (finv_ext n (mget P')); [exact EP'|exact (finv_of _ _ _ HS')]).
    assert (U : forall i j, i < n -> j < n -> (mget S' i j == mget S (sg i) (sg j))%Q).
    { apply (finv_unique n w'); try assumption. intros i j Hi Hj. rewrite !Hw, (Hy (sg i)) by assumption. reflexivity. }
    unfold quad. rewrite <- (ssum_sg (fun i => ssum n (fun j => x i * mget S i j * x j)))%Q.
    apply ssum_ext. intros i Hi. rewrite <- (ssum_sg (fun j => x (sg i) * mget S (sg i) j * x j))%Q. apply ssum_ext. intros j Hj. rewrite (U i j Hi Hj), (Hx i Hi), (Hx j Hj). reflexivity.
  Qed.
End Arr.
