(** Lemmas on the double model and on finite rational sums. *)
From Coq Require Import String ZArith QArith Qabs Qfield Bool Lia Lqa Permutation Morphisms Setoid Arith List.
From Verif Require Import Base Spec.
Import ListNotations.
Local Open Scope Q_scope.

(** * Rational sums *)

Lemma qofn_S n : qofn (S n) == 1 + qofn n.
Proof. unfold qofn. rewrite Nat2Z.inj_succ, <- Z.add_1_l, inject_Z_plus. reflexivity. Qed.
Lemma qofn_plus n m : qofn (n + m) == qofn n + qofn m.
Proof. unfold qofn. rewrite Nat2Z.inj_add, inject_Z_plus. reflexivity. Qed.
Lemma qofn_nonneg n : 0 <= qofn n.
Proof. unfold qofn. change 0 with (inject_Z 0). rewrite <- Zle_Qle. lia. Qed.
Lemma qofn_pos n : (0 < n)%nat -> 0 < qofn n.
Proof. intros H; unfold qofn. change 0 with (inject_Z 0). rewrite <- Zlt_Qlt. lia. Qed.
Lemma qofn_le n m : (n <= m)%nat <-> qofn n <= qofn m.
Proof. unfold qofn. rewrite <- Zle_Qle. lia. Qed.
Lemma qofn_lt n m : (n < m)%nat <-> qofn n < qofn m.
Proof. unfold qofn. rewrite <- Zlt_Qlt. lia. Qed.
Lemma qofn_inj n m : qofn n == qofn m <-> n = m.
Proof.
  split; [|intros ->; reflexivity]. intros H. apply Nat.le_antisymm; apply qofn_le; rewrite H; apply Qle_refl.
Qed.
Lemma qofn_0 : qofn 0 == 0.
Proof. reflexivity. Qed.
Lemma qofn_1 : qofn 1 == 1.
Proof. reflexivity. Qed.

Lemma qsum_app l l' : qsum (l ++ l') == qsum l + qsum l'.
Proof. induction l as [|x l IH]; simpl; [ring|]. rewrite IH; ring. Qed.
Lemma qsum_perm l l' : Permutation l l' -> qsum l == qsum l'.
Proof. induction 1; simpl; [reflexivity|rewrite IHPermutation; reflexivity|ring|rewrite IHPermutation1; exact IHPermutation2]. Qed.
Lemma qsum_ext {A} (f g : A -> Q) l : (forall x, In x l -> f x == g x) -> qsum (map f l) == qsum (map g l).
Proof.
  induction l as [|x l IH]; simpl; intros H; [reflexivity|]. rewrite (H x (or_introl eq_refl)), IH; [reflexivity|].
  intros y Hy; apply H; right; exact Hy.
Qed.
Lemma qsum_plus {A} (f g : A -> Q) l : qsum (map (fun x => f x + g x) l) == qsum (map f l) + qsum (map g l).
Proof. induction l as [|x l IH]; simpl; [ring|]. rewrite IH; ring. Qed.
Lemma qsum_scale {A} (c : Q) (f : A -> Q) l : qsum (map (fun x => c * f x) l) == c * qsum (map f l).
Proof. induction l as [|x l IH]; simpl; [ring|]. rewrite IH; ring. Qed.
Lemma qsum_const {A} (c : Q) (l : list A) : qsum (map (fun _ => c) l) == c * qofn (length l).
Proof. induction l as [|x l IH]; cbn [map qsum fold_right length]; [unfold qofn; simpl; ring|].
  change (fold_right Qplus 0 (map (fun _ : A => c) l)) with (qsum (map (fun _ : A => c) l)).
  rewrite IH, qofn_S; ring. Qed.
Lemma qsum_le {A} (f g : A -> Q) l : (forall x, In x l -> f x <= g x) -> qsum (map f l) <= qsum (map g l).
Proof.
  induction l as [|x l IH]; simpl; intros H; [apply Qle_refl|]. apply Qplus_le_compat; [apply H; left; reflexivity|].
  apply IH; intros y Hy; apply H; right; exact Hy.
Qed.
Lemma qsum_nonneg {A} (f : A -> Q) l : (forall x, In x l -> 0 <= f x) -> 0 <= qsum (map f l).
Proof.
  induction l as [|x l IH]; simpl; intros H; [apply Qle_refl|].
  pose proof (H x (or_introl eq_refl)). assert (0 <= qsum (map f l)) by (apply IH; intros y Hy; apply H; right; exact Hy).
  unfold qsum in *; lra.
Qed.
Lemma qsum_zero_all {A} (f : A -> Q) l : (forall x, In x l -> 0 <= f x) -> qsum (map f l) == 0 -> forall x, In x l -> f x == 0.
Proof.
  induction l as [|x l IH]; simpl; intros H E y Hy; [tauto|].
  pose proof (H x (or_introl eq_refl)) as Hx.
  assert (Hr : 0 <= qsum (map f l)) by (apply qsum_nonneg; intros z Hz; apply H; right; exact Hz).
  destruct Hy as [<-|Hy]; [unfold qsum in *; lra|].
  apply IH; [intros z Hz; apply H; right; exact Hz|unfold qsum in *; lra|exact Hy].
Qed.
Lemma fold_left_qsum l a : fold_left Qplus l a == a + qsum l.
Proof. revert a; induction l as [|x l IH]; intros a; simpl; [ring|]. rewrite IH; ring. Qed.
Lemma qsum_swap {A B} (f : A -> B -> Q) la lb :
  qsum (map (fun a => qsum (map (fun b => f a b) lb)) la) == qsum (map (fun b => qsum (map (fun a => f a b) la)) lb).
Proof.
  induction la as [|a la IH]; simpl.
  - induction lb as [|b lb IHb]; simpl; [reflexivity|]. rewrite <- IHb; ring.
  - rewrite IH. rewrite <- qsum_plus. reflexivity.
Qed.

(** * Doubles *)
#[global] Instance deq_equiv : Equivalence deq.
Proof.
  split.
  - intros [q| | |]; simpl; auto; reflexivity.
  - intros [x| | |] [y| | |]; simpl; auto; intros; symmetry; assumption.
  - intros [x| | |] [y| | |] [z| | |]; simpl; auto; try tauto. intros H1 H2; rewrite H1; exact H2.
Qed.
#[global] Instance Fin_proper : Proper (Qeq ==> deq) Fin.
Proof. intros x y H; exact H. Qed.
Lemma qle_bool_proper x x' y y' : x == x' -> y == y' -> Qle_bool x y = Qle_bool x' y'.
Proof.
  intros Hx Hy. destruct (Qle_bool x y) eqn:E, (Qle_bool x' y') eqn:E'; try reflexivity.
  - apply Qle_bool_iff in E. rewrite Hx, Hy in E. apply Qle_bool_iff in E; congruence.
  - apply Qle_bool_iff in E'. rewrite <- Hx, <- Hy in E'. apply Qle_bool_iff in E'; congruence.
Qed.
Lemma qcompare_proper x x' y y' : x == x' -> y == y' -> (x ?= y) = (x' ?= y').
Proof. intros Hx Hy. rewrite Hx, Hy. reflexivity. Qed.
#[global] Instance dopp_proper : Proper (deq ==> deq) dopp.
Proof. intros [x| | |] [y| | |]; simpl; try tauto. intros H; rewrite H; reflexivity. Qed.
#[global] Instance dadd_proper : Proper (deq ==> deq ==> deq) dadd.
Proof.
  intros [x| | |] [y| | |] H [a| | |] [b| | |] H'; simpl in *; try tauto. rewrite H, H'; reflexivity.
Qed.
#[global] Instance dsub_proper : Proper (deq ==> deq ==> deq) dsub.
Proof. intros x y H a b H'; unfold dsub; rewrite H, H'; reflexivity. Qed.
Lemma dsgn_proper a b : deq a b -> dsgn a = dsgn b.
Proof. destruct a, b; simpl; try tauto. intros H; rewrite H; reflexivity. Qed.
#[global] Instance dmul_proper : Proper (deq ==> deq ==> deq) dmul.
Proof.
  intros x y H a b H'. pose proof (dsgn_proper _ _ H) as E; pose proof (dsgn_proper _ _ H') as E'.
  destruct x, y; simpl in H; try tauto; destruct a, b; simpl in H'; try tauto; unfold dmul; cbn [dsgn] in *;
    rewrite ?H, ?H'; try reflexivity.
Qed.
#[global] Instance ddiv_proper : Proper (deq ==> deq ==> deq) ddiv.
Proof.
  intros x y H a b H'.
  destruct x as [x| | |], y as [y| | |]; simpl in H; try tauto; destruct a as [a| | |], b as [b| | |]; simpl in H'; try tauto; unfold ddiv; try reflexivity.
  - assert (E : Qeq_bool a 0 = Qeq_bool b 0).
    { destruct (Qeq_bool a 0) eqn:Ea, (Qeq_bool b 0) eqn:Eb; try reflexivity.
      - apply Qeq_bool_iff in Ea. rewrite H' in Ea. apply Qeq_bool_iff in Ea; congruence.
      - apply Qeq_bool_iff in Eb. rewrite <- H' in Eb. apply Qeq_bool_iff in Eb; congruence. }
    rewrite E. destruct (Qeq_bool b 0); [rewrite H; reflexivity|]. simpl. rewrite H, H'; reflexivity.
  - rewrite (qcompare_proper a b 0 0 H'); reflexivity.
  - rewrite (qcompare_proper a b 0 0 H'); reflexivity.
Qed.
#[global] Instance dltb_proper : Proper (deq ==> deq ==> eq) dltb.
Proof.
  intros [x| | |] [y| | |] H [a| | |] [b| | |] H'; simpl in *; try tauto. f_equal. apply qle_bool_proper; assumption.
Qed.
#[global] Instance dleb_proper : Proper (deq ==> deq ==> eq) dleb.
Proof.
  intros [x| | |] [y| | |] H [a| | |] [b| | |] H'; simpl in *; try tauto. apply qle_bool_proper; assumption.
Qed.

Lemma dltb_fin x y : dltb (Fin x) (Fin y) = true <-> x < y.
Proof.
  simpl. rewrite negb_true_iff. split; intros H.
  - apply Qnot_le_lt. rewrite <- Qle_bool_iff. congruence.
  - destruct (Qle_bool y x) eqn:E; [|reflexivity]. apply Qle_bool_iff in E. lra.
Qed.
Lemma dltb_fin_false x y : dltb (Fin x) (Fin y) = false <-> y <= x.
Proof. simpl. rewrite negb_false_iff. apply Qle_bool_iff. Qed.
Lemma dleb_fin x y : dleb (Fin x) (Fin y) = true <-> x <= y.
Proof. simpl; apply Qle_bool_iff. Qed.
Lemma dleb_fin_false x y : dleb (Fin x) (Fin y) = false <-> y < x.
Proof.
  simpl. split; intros H.
  - apply Qnot_le_lt. rewrite <- Qle_bool_iff. congruence.
  - destruct (Qle_bool x y) eqn:E; [|reflexivity]. apply Qle_bool_iff in E. lra.
Qed.
Lemma ddiv_fin x y : ~ y == 0 -> ddiv (Fin x) (Fin y) = Fin (x / y).
Proof.
  intros H. simpl. destruct (Qeq_bool y 0) eqn:E; [|reflexivity]. apply Qeq_bool_iff in E; tauto.
Qed.
Lemma ddiv_00 x y : x == 0 -> y == 0 -> ddiv (Fin x) (Fin y) = NaN.
Proof.
  intros Hx H. simpl. apply Qeq_bool_iff in H; rewrite H.
  assert ((x ?= 0) = Eq) as -> by (apply Qeq_alt; exact Hx). reflexivity.
Qed.
Lemma ddiv_pos0 x y : 0 < x -> y == 0 -> ddiv (Fin x) (Fin y) = PInf.
Proof.
  intros Hx H. simpl. apply Qeq_bool_iff in H; rewrite H.
  assert ((x ?= 0) = Gt) as -> by (apply Qgt_alt; exact Hx). reflexivity.
Qed.
Lemma ddiv_neg0 x y : x < 0 -> y == 0 -> ddiv (Fin x) (Fin y) = NInf.
Proof.
  intros Hx H. simpl. apply Qeq_bool_iff in H; rewrite H.
  assert ((x ?= 0) = Lt) as -> by (apply Qlt_alt; exact Hx). reflexivity.
Qed.
(** left-to-right summation of finite doubles *)
Lemma fold_dadd_fin l a : fold_left dadd (map Fin l) (Fin a) = Fin (fold_left Qplus l a).
Proof. revert a; induction l as [|x l IH]; intros a; simpl; [reflexivity|apply IH]. Qed.
Lemma dsum_fin l : deq (dsum (map Fin l)) (Fin (qsum l)).
Proof. unfold dsum, d0. rewrite fold_dadd_fin. simpl. rewrite fold_left_qsum; ring. Qed.
Lemma dsum_all_fin l qs : Forall2 (fun d q => deq d (Fin q)) l qs -> deq (dsum l) (Fin (qsum qs)).
Proof.
  intros H. unfold dsum.
  assert (G : forall a b, deq a (Fin b) -> deq (fold_left dadd l a) (Fin (b + qsum qs))).
  { induction H as [|d q l qs Hd H IH]; intros a b Ha; simpl.
    - rewrite Ha. simpl; ring.
    - rewrite (IH (dadd a d) (b + q)); [simpl; ring|]. rewrite Ha, Hd. reflexivity. }
  rewrite (G d0 0); [simpl; ring|reflexivity].
Qed.
Lemma fold_dadd_nan l : fold_left dadd l NaN = NaN.
Proof. induction l; simpl; auto. Qed.
