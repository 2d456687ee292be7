(** Lemmas about the soft decision tree model. *)
From Coq Require Import String ZArith QArith Qabs Bool Lia Lra Lqa Permutation List.
From Verif Require Import Base Spec BaseLemmas DblLemmas AttrModel AttrProofs DataSetModel InstanceListModel PartitionModel PerformanceModel DistanceModel GaussianModel
  TreeModel ListSpec ListProofs PartitionProofs GaussianProofs SvmSpec KernelProofs SolverInvProofs SvmTrainProofs NetModel NetSpec NetProofs NetTrainProofs SoftModel SoftSpec.
Import ListNotations.
Local Open Scope string_scope.
Local Open Scope list_scope.
Local Open Scope nat_scope.

(** * Trees up to scratch members *)
Definition same_node (n m : snode) : Prop := s_w0s n = s_w0s m /\ s_w n = s_w m /\ length (s_outputs n) = length (s_outputs m).
Lemma same_node_refl n : same_node n n. Proof. repeat split. Qed.
Lemma same_node_trans n m o : same_node n m -> same_node m o -> same_node n o.
Proof. intros (A & B & C) (D & E & F). repeat split; congruence. Qed.
Lemma same_node_sym n m : same_node n m -> same_node m n.
Proof. intros (A & B & C). repeat split; congruence. Qed.
Lemma same_leaf n m : same_tree (SLeaf n) (SLeaf m) <-> same_node n m.
Proof. reflexivity. Qed.
Lemma same_inner n l r m l' r' : same_tree (SNode n l r) (SNode m l' r') <-> same_node n m /\ same_tree l l' /\ same_tree r r'.
Proof. cbn. unfold same_node. tauto. Qed.
Lemma same_refl t : same_tree t t.
Proof. induction t; [apply same_leaf, same_node_refl|apply same_inner; auto using same_node_refl]. Qed.
Lemma same_sym t : forall u, same_tree t u -> same_tree u t.
Proof.
  induction t as [n|n l IHl r IHr]; intros [m|m l' r'] H; try contradiction.
  - apply same_node_sym. exact H.
  - apply same_inner in H. destruct H as (A & B & C). apply same_inner. auto using same_node_sym.
Qed.
Lemma same_trans t : forall u v, same_tree t u -> same_tree u v -> same_tree t v.
Proof.
  induction t as [n|n l IHl r IHr]; intros [m|m l' r'] [o|o l2 r2] H H'; try contradiction.
  - exact (same_node_trans _ _ _ H H').
  - apply same_inner in H, H'. destruct H as (A & B & C), H' as (A' & B' & C'). apply same_inner.
    split; [exact (same_node_trans _ _ _ A A')|]. split; [exact (IHl _ _ B B')|exact (IHr _ _ C C')].
Qed.
Lemma same_top t u : same_tree t u -> same_node (s_node t) (s_node u).
Proof. destruct t, u; try contradiction; intros H; [exact H|apply same_inner in H; apply H]. Qed.
Lemma same_weight a t : same_tree t (set_weight a t).
Proof. destruct t as [n|n l r]; [apply same_leaf; repeat split|]. apply same_inner. split; [repeat split|]. split; apply same_refl. Qed.
Lemma same_splits t : forall u, same_tree t u -> splits t = splits u.
Proof.
  induction t as [n|n l IHl r IHr]; intros [m|m l' r'] H; try contradiction; [reflexivity|]. apply same_inner in H. destruct H as (_ & B & C). cbn. rewrite (IHl _ B), (IHr _ C). reflexivity.
Qed.
Definition node_out (k d : nat) (n : snode) : Prop := length (s_w0s n) = k /\ length (s_outputs n) = k /\ length (s_w n) = S d.
Lemma laid_inner k d n l r : laid_out k d (SNode n l r) <-> node_out k d n /\ laid_out k d l /\ laid_out k d r.
Proof. reflexivity. Qed.
Lemma laid_top k d t : laid_out k d t -> node_out k d (s_node t).
Proof. destruct t; [intros H; exact H|intros H; apply H]. Qed.
Lemma same_node_out k d n m : same_node n m -> node_out k d n -> node_out k d m.
Proof. intros (A & B & C) (D & E & F). repeat split; congruence. Qed.
Lemma same_laid k d t : forall u, same_tree t u -> laid_out k d t -> laid_out k d u.
Proof.
  induction t as [n|n l IHl r IHr]; intros [m|m l' r'] H L; try contradiction.
  - exact (same_node_out _ _ _ _ H L).
  - apply same_inner in H. destruct H as (A & B & C), L as (D & E & F). split; [exact (same_node_out k d _ _ A D)|]. split; auto.
Qed.

(** ** Paths *)
Lemma sub_put t : forall p s u, sub t p = Ok u -> sub (put t p s) p = Ok s.
Proof. induction t as [n|n l IHl r IHr]; intros [|[|] p] s u H; cbn in *; try reflexivity; try discriminate H; eauto. Qed.
Lemma put_put t : forall p s s', put (put t p s) p s' = put t p s'.
Proof. induction t as [n|n l IHl r IHr]; intros [|[|] p] s s'; try reflexivity; cbn; rewrite ?IHl, ?IHr; reflexivity. Qed.
Lemma sub_laid k d t : forall p s, laid_out k d t -> sub t p = Ok s -> laid_out k d s.
Proof.
  induction t as [n|n l IHl r IHr]; intros [|b p] s L E; cbn in E; [injection E as <-; exact L|discriminate|injection E as <-; exact L|]. destruct L as (_ & A & B). destruct b; eauto.
Qed.
Lemma put_laid k d t : forall p s u, laid_out k d t -> laid_out k d s -> sub t p = Ok u -> laid_out k d (put t p s).
Proof.
  induction t as [n|n l IHl r IHr]; intros [|[|] p] s u L Ls E; cbn in *; try exact Ls; try discriminate; destruct L as (A & B & C); (split; [exact A|]); split; eauto.
Qed.
Lemma same_sub t : forall u p s, same_tree t u -> sub t p = Ok s -> exists s', sub u p = Ok s' /\ same_tree s s'.
Proof.
  induction t as [n|n l IHl r IHr]; intros [m|m l' r'] [|b p] s H E; try contradiction; cbn in E; try discriminate E; try (injection E as <-; eexists; split; [reflexivity|exact H]).
  apply same_inner in H. destruct H as (_ & B & C). destruct b; cbn; eauto.
Qed.
(** equal outside the node at [p] *)
Fixpoint same_off (p : list bool) (t u : stree) : Prop :=
  match p, t, u with
  | [], _, _ => True
  | true :: p', SNode n l r, SNode m l' r' => same_node n m /\ same_tree l l' /\ same_off p' r r'
  | false :: p', SNode n l r, SNode m l' r' => same_node n m /\ same_off p' l l' /\ same_tree r r'
  | _, _, _ => False
  end.
Lemma off_same p : forall t u s, same_tree t u -> sub t p = Ok s -> same_off p t u.
Proof.
  induction p as [|b p IH]; intros t u s H E; [exact I|]. destruct t as [|n l r], u as [|m l' r']; try contradiction; try discriminate. apply same_inner in H. destruct H as (A & B & C).
  destruct b; cbn in E |- *; (split; [exact A|]); split; eauto.
Qed.
Lemma off_put p : forall t s u, sub t p = Ok u -> same_off p t (put t p s).
Proof.
  induction p as [|b p IH]; intros t s u E; [exact I|]. destruct t as [|n l r]; [discriminate|]. destruct b; cbn in *; split; eauto using same_node_refl; split; eauto using same_refl.
Qed.
Lemma off_trans p : forall t u v, same_off p t u -> same_off p u v -> same_off p t v.
Proof.
  induction p as [|b p IH]; intros t u v H H'; [exact I|]. destruct t as [|n l r]; [destruct b; destruct H|]. destruct u as [|m l' r']; [destruct b; destruct H|]. destruct v as [|o l2 r2]; [destruct b; destruct H'|].
  destruct b; cbn in *; destruct H as (A & B & C), H' as (A' & B' & C'); (split; [eauto using same_node_trans|]); split; eauto using same_trans.
Qed.
Lemma off_sym p : forall t u, same_off p t u -> same_off p u t.
Proof.
  induction p as [|b p IH]; intros t u H; [exact I|]. destruct t as [|n l r], u as [|m l' r']; destruct b; try contradiction; cbn in *; destruct H as (A & B & C);
    (split; [eauto using same_node_sym|]); split; eauto using same_sym.
Qed.
Lemma off_full p : forall t u a b, same_off p t u -> sub t p = Ok a -> sub u p = Ok b -> same_tree a b -> same_tree t u.
Proof.
  induction p as [|x p IH]; intros t u a b H E E' S. { cbn in *. congruence. }
  destruct t as [|n l r], u as [|m l' r']; try discriminate. destruct x; cbn in *; destruct H as (A & B & C); apply same_inner; (split; [exact A|]); split; eauto.
Qed.
(** replacing the node at [p] on both sides by trees that are the same *)
Lemma off_put2 p t u a b s s' : same_off p t u -> sub t p = Ok a -> sub u p = Ok b -> same_tree s s' -> same_tree (put t p s) (put u p s').
Proof.
  intros H E E' S. eapply off_full with (p := p); [|eapply sub_put, E|eapply sub_put, E'|exact S].
  eapply off_trans; [apply off_sym; eapply off_put, E|]. eapply off_trans; [exact H|]. eapply off_put, E'.
Qed.
Lemma off_app p q : forall t u a, sub t p = Ok a -> same_off (p ++ q) t u -> same_off p t u /\ exists b, sub u p = Ok b /\ same_off q a b.
Proof.
  induction p as [|x p IH]; intros t u a E H. { cbn in *. injection E as <-. split; [exact I|]. eauto. }
  destruct t as [|n l r]; [discriminate|]. cbn [app same_off] in H. destruct u as [|m l' r']; [destruct x; destruct H|]. destruct x; cbn [sub] in E; destruct H as (A & B & C).
  - destruct (IH _ _ _ E C) as (D & b & F & G). split; [cbn; auto|]. exists b. auto.
  - destruct (IH _ _ _ E B) as (D & b & F & G). split; [cbn; auto|]. exists b. auto.
Qed.
Lemma sub_app p q : forall t a, sub t p = Ok a -> sub t (p ++ q) = sub a q.
Proof. induction p as [|x p IH]; intros t a E; cbn in *; [injection E as <-; reflexivity|]. destruct t; [discriminate|]. destruct x; eauto. Qed.
Lemma off_splits p : forall t u a b, same_off p t u -> sub t p = Ok a -> sub u p = Ok b -> splits t + splits b = splits u + splits a.
Proof.
  induction p as [|x p IH]; intros t u a b H E E'. { cbn in *. inversion E; inversion E'; subst. lia. }
  destruct t as [|n l r], u as [|m l' r']; try discriminate. destruct x; cbn in *; destruct H as (A & B & C).
  - specialize (IH _ _ _ _ C E E'). rewrite (same_splits _ _ B). lia.
  - specialize (IH _ _ _ _ B E E'). rewrite (same_splits _ _ C). lia.
Qed.

(** * Outputs *)
Section Output.
Context (dexp : dbl -> dbl).
Notation soft_output := (soft_output dexp).
Lemma soft_output_keeps x : forall t o t', soft_output x t = Ok (o, t') -> same_tree t t'.
Proof.
  induction t as [n|n l IHl r IHr]; intros o t' H; cbn [SoftModel.soft_output] in H. { injection H as <- <-. apply same_refl. }
  apply bind_ok in H. destruct H as (v & _ & H). apply bind_ok in H. destruct H as ([lo l1] & El & H). apply bind_ok in H. destruct H as ([ro r1] & Er & H).
  apply bind_ok in H. destruct H as (os & Eo & H). injection H as <- <-. apply same_inner. split.
  - split; [reflexivity|]. split; [reflexivity|]. cbn. apply mapM_ok, Forall2_len in Eo. rewrite seq_length in Eo. exact Eo.
  - cbn [snd]. split; (eapply same_trans; [|apply same_weight]); [exact (IHl _ _ El)|exact (IHr _ _ Er)].
Qed.
Lemma soft_output_same x : forall t u, same_tree t u -> rmap fst (soft_output x t) = rmap fst (soft_output x u).
Proof.
  induction t as [n|n l IHl r IHr]; intros [m|m l' r'] H; try contradiction.
  - cbn. rewrite (proj1 H). reflexivity.
  - apply same_inner in H. destruct H as ((A & B & C) & D & E). cbn [SoftModel.soft_output]. rewrite B. destruct (vdot_chk (biased x) (s_w m)) as [v| | |]; try reflexivity. cbn [bind].
    specialize (IHl _ D). specialize (IHr _ E). destruct (soft_output x l) as [[lo l1]| | |], (soft_output x l') as [[lo' l1']| | |]; try discriminate; cbn in IHl; try injection IHl as <-; try reflexivity.
    cbn [bind]. destruct (soft_output x r) as [[ro r1]| | |], (soft_output x r') as [[ro' r1']| | |]; try discriminate; cbn in IHr; try injection IHr as <-; try reflexivity.
    cbn [bind]. rewrite C. destruct (mapM _ _) as [os| | |]; reflexivity.
Qed.
Lemma soft_output_laid k d x t : laid_out k d t -> length x = d -> exists o t', soft_output x t = Ok (o, t') /\ length o = k.
Proof.
  intros L Hx. induction t as [n|n l IHl r IHr]. { eexists _, _. split; [reflexivity|]. apply L. }
  destruct L as ((A & B & C) & Ll & Lr). destruct (IHl Ll) as (lo & l1 & El & Hl). destruct (IHr Lr) as (ro & r1 & Er & Hr). cbn [SoftModel.soft_output].
  unfold vdot_chk, biased. cbn [length]. rewrite Hx, C, Nat.eqb_refl. cbn [bind]. rewrite El, Er. cbn [bind fst snd]. rewrite B.
  rewrite (mapM_total _ (fun i => dadd (dmul (dsigmoid dexp (vdot (d1 :: x) (s_w n))) (nth i lo NaN)) (dmul (dsub d1 (dsigmoid dexp (vdot (d1 :: x) (s_w n)))) (nth i ro NaN)))).
  - cbn [bind]. eexists _, _. split; [reflexivity|]. rewrite map_length, seq_length. reflexivity.
  - intros i Hi. apply in_seq in Hi. destruct (idxn_lt lo i) as (u & Eu); [lia|]. destruct (idxn_lt ro i) as (v & Ev); [lia|]. rewrite Eu, Ev. cbn [bind].
    apply idxn_ok in Eu, Ev. rewrite (nth_error_nth _ _ NaN Eu), (nth_error_nth _ _ NaN Ev). reflexivity.
Qed.
Lemma vdot_chkP u v n f g : vecP valP u n f -> vecP valP v n g -> exists o, vdot_chk u v = Ok o /\ valP o (sum_over n (fun i => f i * g i)%Q).
Proof.
  intros Hu Hv. unfold vdot_chk. rewrite (proj1 Hu), (proj1 Hv), Nat.eqb_refl. eexists. split; [reflexivity|]. apply (vdotP valP valP_closed); assumption.
Qed.
Lemma leaves_sum e d f k q c : (qsum (map (fun la => fst la * snd la c) (map (fun la => (k * fst la, snd la)) (leaves e d f q))) == k * expected e d f q c)%Q.
Proof.
  unfold expected. induction (leaves e d f q) as [|[w a] ls IH]; cbn [map fst snd qsum fold_right]; [ring|]. unfold qsum in *. cbn [map fst snd fold_right]. rewrite IH. ring.
Qed.
Lemma qsum_app a b : (qsum (a ++ b) == qsum a + qsum b)%Q.
Proof. unfold qsum. induction a as [|x a IH]; cbn [app fold_right]; [ring|]. rewrite IH. ring. Qed.
Lemma expected_node e d f g l r c : (expected e d f (QNode g l r) c == go_left e d f g * expected e d f l c + (1 - go_left e d f g) * expected e d f r c)%Q.
Proof.
  unfold expected at 1. cbn [leaves]. rewrite map_app, qsum_app. rewrite !leaves_sum. reflexivity.
Qed.
Lemma soft_outputP e k d x f : exp_like dexp e -> vecP valP x d f -> forall t q, is_tree k d t q ->
  exists o t', soft_output x t = Ok (o, t') /\ vecP valP o k (expected e d f q) /\ is_tree k d t' q.
Proof.
  intros He Hx. induction t as [n|n l IHl r IHr]; intros [a|g ql qr] H; try contradiction.
  - eexists _, _. split; [reflexivity|]. split; [|exact H]. cbn in H. eapply vecP_ext; [exact valP_closed| |exact H]. intros i _. unfold expected. cbn. lra.
  - cbn in H. destruct H as (Hw & Ho & Hl & Hr). destruct (IHl _ Hl) as (lo & l1 & El & Vl & Tl). destruct (IHr _ Hr) as (ro & r1 & Er & Vr & Tr).
    destruct (vdot_chkP (biased x) (s_w n) (S d) (with_bias f) g (vecP_biased valP valP_closed _ _ _ Hx) Hw) as (v & Ev & Vv).
    cbn [SoftModel.soft_output]. rewrite Ev. cbn [bind]. rewrite El, Er. cbn [bind fst snd]. rewrite Ho. set (a := dsigmoid dexp v).
    assert (valP a (go_left e d f g)) as Ha. { apply (actP valP valP_closed dexp (fun d => d) e (fun q => q) (exp_valP _ _ He) (exp_pos _ _ He) (fun d q H => H) SIGMOID v _ Vv). }
    rewrite (mapM_total _ (fun i => dadd (dmul a (nth i lo NaN)) (dmul (dsub d1 a) (nth i ro NaN)))).
    2: { intros i Hi. apply in_seq in Hi. destruct (idxn_lt lo i) as (u & Eu); [rewrite (proj1 Vl); lia|]. destruct (idxn_lt ro i) as (w & Ew); [rewrite (proj1 Vr); lia|]. rewrite Eu, Ew. cbn [bind].
         apply idxn_ok in Eu, Ew. rewrite (nth_error_nth _ _ NaN Eu), (nth_error_nth _ _ NaN Ew). reflexivity. }
    cbn [bind]. eexists _, _. split; [reflexivity|]. split.
    + split; [rewrite map_length, seq_length; reflexivity|]. intros i Hi. rewrite (nth_lt_map _ _ i 0) by (rewrite seq_length; exact Hi). rewrite seq_nth by exact Hi. cbn [Nat.add].
      apply (c_proper _ valP_closed) with (go_left e d f g * expected e d f ql i + (1 - go_left e d f g) * expected e d f qr i)%Q; [symmetry; apply expected_node|].
      pose proof (proj2 Vl i Hi) as A. pose proof (proj2 Vr i Hi) as B. apply valP_inv in A, B, Ha. destruct A as (p1 & -> & A), B as (p2 & -> & B), Ha as (p3 & -> & C). cbn. rewrite A, B, C. reflexivity.
    + cbn [is_tree]. cbn [s_w s_outputs]. split; [exact Hw|]. split; [rewrite map_length, seq_length; reflexivity|]. split.
      * destruct l1, ql; exact Tl.
      * destruct r1, qr; exact Tr.
Qed.
End Output.
