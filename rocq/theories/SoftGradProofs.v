(** The numbers of one training step of the soft decision tree. *)
From Coq Require Import String ZArith QArith Qabs Bool Lia Lra Lqa Permutation List.
From Verif Require Import Base Spec BaseLemmas DblLemmas AttrModel AttrProofs DataSetModel InstanceListModel PartitionModel PerformanceModel DistanceModel GaussianModel
  TreeModel ListSpec ListProofs PartitionProofs PerformanceProofs GaussianProofs SvmSpec KernelProofs SolverInvProofs SvmTrainProofs NetModel NetSpec NetProofs NetTrainProofs SoftModel SoftSpec SoftProofs SoftTrainProofs.
Import ListNotations.
Local Open Scope string_scope.
Local Open Scope list_scope.
Local Open Scope nat_scope.

Definition qprod (ws : list Q) : Q := fold_right (fun w a => (w * a)%Q) 1%Q ws.
Lemma path_set_weight a t p : path_weights (set_weight a t) p = path_weights t p.
Proof. destruct p, t; reflexivity. Qed.
Lemma path_val dexp e k d x f : exp_like dexp e -> vecP valP x d f -> forall p t q o t' s, is_tree k d t q -> soft_output dexp x t = Ok (o, t') -> sub t p = Ok s ->
  exists ws q1, Forall2 valP (path_weights t' p) ws /\ (qprod ws == reach e d f q p)%Q /\ node_at q p = Some q1 /\ is_tree k d s q1.
Proof.
  intros He Hx. induction p as [|b p IH]; intros t q o t' s T E Es. { exists [], q. cbn in Es. injection Es as <-. split; [destruct t'; constructor|]. split; [reflexivity|]. split; [destruct q; reflexivity|exact T]. }
  destruct t as [n|n l r]; [discriminate|]. destruct q as [|g ql qr]; [contradiction|]. destruct T as (Hw & Ho & Tl & Tr). cbn [SoftModel.soft_output] in E.
  destruct (vdot_chkP (biased x) (s_w n) (S d) (with_bias f) g (vecP_biased valP valP_closed _ _ _ Hx) Hw) as (v & Ev & Vv). rewrite Ev in E. cbn [bind] in E.
  assert (valP (dsigmoid dexp v) (go_left e d f g)) as Ha. { apply (actP valP valP_closed dexp (fun d => d) e (fun q => q) (exp_valP _ _ He) (exp_pos _ _ He) (fun d q H => H) SIGMOID v _ Vv). }
  assert (valP (dsub d1 (dsigmoid dexp v)) (1 - go_left e d f g)%Q) as Hb by (apply (c_sub _ valP_closed); [apply (c_one _ valP_closed)|exact Ha]).
  apply bind_ok in E. destruct E as ([lo l1] & El & E). apply bind_ok in E. destruct E as ([ro r1] & Er & E). apply bind_ok in E. destruct E as (os & _ & E). injection E as <- <-.
  cbn [snd fst path_weights sub reach node_at] in *. destruct b.
  - destruct (IH _ _ _ _ _ Tr Er Es) as (ws & q1 & F & Ep & En & Tq). exists ((1 - go_left e d f g)%Q :: ws), q1. rewrite path_set_weight. split; [|split; [cbn; rewrite Ep; reflexivity|auto]]. constructor; [|exact F].
    destruct r1; exact Hb.
  - destruct (IH _ _ _ _ _ Tl El Es) as (ws & q1 & F & Ep & En & Tq). exists (go_left e d f g :: ws), q1. rewrite path_set_weight. split; [|split; [cbn; rewrite Ep; reflexivity|auto]]. constructor; [|exact F].
    destruct l1; exact Ha.
Qed.
Lemma mult_val ws qs eta q : Forall2 valP ws qs -> valP eta q -> valP (fold_left dmul (rev ws) eta) (q * qprod qs)%Q.
Proof.
  intros H He. rewrite <- fold_left_rev_right, rev_involutive. induction H as [|w x ws qs Hw _ IH]; cbn [fold_right qprod].
  - apply (c_proper _ valP_closed) with q; [ring|exact He].
  - apply (c_proper _ valP_closed) with ((q * qprod qs) * x)%Q; [unfold qprod; ring|]. apply (c_mul _ valP_closed); [exact IH|exact Hw].
Qed.
(** the probability of the two children *)
Lemma child_val dexp e k d x f : exp_like dexp e -> vecP valP x d f -> forall p t q o t' n l r n1 l1 r1 g ql qr, is_tree k d t q -> soft_output dexp x t = Ok (o, t') ->
  sub t p = Ok (SNode n l r) -> node_at q p = Some (QNode g ql qr) -> sub t' p = Ok (SNode n1 l1 r1) ->
  valP (s_weight (s_node l1)) (go_left e d f g) /\ valP (s_weight (s_node r1)) (1 - go_left e d f g)%Q.
Proof.
  intros He Hx. induction p as [|b p IH]; intros t q o t' n l r n1 l1 r1 g ql qr T E Es En E1.
  - cbn in Es, E1. injection Es as ->. injection E1 as ->. assert (q = QNode g ql qr) as -> by (destruct q; cbn in En; congruence). destruct T as (Hw & Ho & Tl & Tr). cbn [SoftModel.soft_output] in E.
    destruct (vdot_chkP (biased x) (s_w n) (S d) (with_bias f) g (vecP_biased valP valP_closed _ _ _ Hx) Hw) as (v & Ev & Vv). rewrite Ev in E. cbn [bind] in E.
    assert (valP (dsigmoid dexp v) (go_left e d f g)) as Ha. { apply (actP valP valP_closed dexp (fun d => d) e (fun q => q) (exp_valP _ _ He) (exp_pos _ _ He) (fun d q H => H) SIGMOID v _ Vv). }
  assert (valP (dsub d1 (dsigmoid dexp v)) (1 - go_left e d f g)%Q) as Hb by (apply (c_sub _ valP_closed); [apply (c_one _ valP_closed)|exact Ha]).
    apply bind_ok in E. destruct E as ([lo l2] & El & E). apply bind_ok in E. destruct E as ([ro r2] & Er & E). apply bind_ok in E. destruct E as (os & _ & E). injection E as <- <- <- <-. cbn [snd].
    split; [destruct l2; exact Ha|]. destruct r2; exact Hb.
  - destruct t as [m|m l0 r0]; [discriminate|]. destruct q as [|g0 ql0 qr0]; [contradiction|]. destruct T as (Hw & Ho & Tl & Tr). cbn [SoftModel.soft_output] in E.
    apply bind_ok in E. destruct E as (v & _ & E). apply bind_ok in E. destruct E as ([lo l2] & El & E). apply bind_ok in E. destruct E as ([ro r2] & Er & E). apply bind_ok in E. destruct E as (os & _ & E). injection E as <- <-.
    cbn [sub node_at snd] in *. assert (forall c u, exists n1', sub (set_weight c u) p = Ok (SNode n1 l1 r1) -> sub u p = Ok (SNode n1' l1 r1)) as Hset.
    { intros c u. destruct p as [|y p]; [|exists n1; destruct u; exact (fun H => H)]. exists (s_node u). destruct u; cbn; intros H; [discriminate|]. injection H as _ -> ->. reflexivity. }
    destruct b.
    + destruct (Hset (dsub d1 (dsigmoid dexp v)) r2) as (n1' & Hu). exact (IH _ _ _ _ _ _ _ _ _ _ _ _ _ Tr Er Es En (Hu E1)).
    + destruct (Hset (dsigmoid dexp v) l2) as (n1' & Hu). exact (IH _ _ _ _ _ _ _ _ _ _ _ _ _ Tl El Es En (Hu E1)).
Qed.
Lemma sum_val (l : nat) (g : nat -> dbl) (h : nat -> Q) : (forall k, k < l -> valP (g k) (h k)) -> valP (fold_left (fun s k => dadd s (g k)) (seq 0 l) d0) (sum_over l h).
Proof.
  induction l as [|l IH]; intros H. { apply (c_zero _ valP_closed). } rewrite seq_S, fold_left_app. cbn [fold_left Nat.add]. apply (c_proper _ valP_closed) with (sum_over l h + h l)%Q; [rewrite sum_S; reflexivity|].
  apply (c_add _ valP_closed); [apply IH; intros; apply H; lia|apply H; lia].
Qed.
Lemma kron_val r k : valP (kronecker r k) (if Nat.eqb r k then 1 else 0)%Q.
Proof. unfold kronecker. destruct (Nat.eqb r k); reflexivity. Qed.
Lemma feature_val x d f : length (attrs x) = d -> Forall (fun a => exists v, a = ACont v) (attrs x) -> vecP valP (inst_vector x) d f -> forall j, j < S d -> valP (feature x j) (with_bias f j).
Proof.
  intros Hl Hc (L & V) [|j] Hj; [reflexivity|]. cbn [feature with_bias]. specialize (V j ltac:(lia)).
  assert (forall as_, Forall (fun a => exists v, a = ACont v) as_ -> forall i, i < length as_ -> nth i (concat (map attr_vals as_)) NaN = match nth_error as_ i with Some (ACont v) => v | _ => NaN end) as H.
  { clear. induction as_ as [|a l IH]; intros H i Hi; cbn in Hi; [lia|]. inversion H as [|? ? (v & ->) H']; subst. destruct i as [|i]; [reflexivity|]. cbn. apply IH; [exact H'|lia]. }
  rewrite inst_vector_concat, H in V by (auto; lia). exact V.
Qed.
Theorem step_numbers dexp e labels d alpha qa eta qe p st x f q g al ar n a b ul ur pl pr pw :
  exp_like dexp e -> deq alpha (Fin qa) -> deq eta (Fin qe) -> In (label x) labels -> length (attrs x) = d -> Forall (fun a => exists v, a = ACont v) (attrs x) -> is_vec (inst_vector x) d f ->
  laid_out (length labels) d (g_tree st) -> is_tree (length labels) d (g_tree st) q -> node_at q p = Some (QNode g (QLeaf al) (QLeaf ar)) ->
  sub (g_tree st) p = Ok (SNode n (SLeaf a) (SLeaf b)) -> is_vec (s_outputs a) (length labels) ul -> is_vec (s_outputs b) (length labels) ur ->
  is_vec (g_l st) (length labels) pl -> is_vec (g_r st) (length labels) pr -> is_vec (g_w st) (S d) pw ->
  let r := find_pos (label x) labels in
  let k := length labels in
  exists st' n' a' b', grad_inst dexp labels alpha eta p st x = Ok st' /\ sub (g_tree st') p = Ok (SNode n' (SLeaf a') (SLeaf b')) /\
    is_vec (s_w0s a') k (fun c => al c + (qe * leaf_gradient e d f k r q (p ++ [false]) c + qa * pl c))%Q /\
    is_vec (s_w0s b') k (fun c => ar c + (qe * leaf_gradient e d f k r q (p ++ [true]) c + qa * pr c))%Q /\
    is_vec (s_w n') (S d) (fun j => g j + (qe * gate_gradient e d f k r q p g ul ur j + qa * pw j))%Q /\
    is_vec (g_l st') k (fun c => qe * leaf_gradient e d f k r q (p ++ [false]) c)%Q /\
    is_vec (g_r st') k (fun c => qe * leaf_gradient e d f k r q (p ++ [true]) c)%Q /\
    is_vec (g_w st') (S d) (fun j => qe * gate_gradient e d f k r q p g ul ur j)%Q /\
    s_outputs a' = s_outputs a /\ s_outputs b' = s_outputs b /\ same_off p (g_tree st) (g_tree st').
Proof.
  intros He Ha Heta Hl Hd Hc Hx L T En Es Hul Hur Hpl Hpr Hpw r k.
  assert (fine labels d x) as Hf by (repeat split; assumption).
  destruct (grad_inst_step dexp labels d alpha eta p st x n a b L (proj1 Hpl) (proj1 Hpr) (proj1 Hpw) Es Hf)
    as (o & t & n1 & ca & cb & lw & lp & rw & rp & ww & wp & E & Ho & Hs & E1 & Sn & Eg & G1 & G2 & G3 & G4 & G5 & G6 & F1 & F2 & F3).
  destruct (soft_outputP dexp e k d (inst_vector x) f He Hx (g_tree st) q T) as (o' & t2 & E' & Vo & _). rewrite E in E'. injection E' as <- <-.
  destruct (path_val dexp e k d (inst_vector x) f He Hx p (g_tree st) q o t _ T E Es) as (ws & q1 & Fw & Ep & En' & Tq). rewrite En in En'. injection En' as <-. destruct Tq as (Tw & _ & Ta & Tb).
  destruct (child_val dexp e k d (inst_vector x) f He Hx p (g_tree st) q o t _ _ _ _ _ _ _ _ _ T E Es En E1) as (Wl & Wr). cbn [s_node s_weight] in Wl, Wr.
  pose proof (mult_val _ _ _ _ Fw Heta) as Hm. set (mult := fold_left dmul (rev (path_weights t p)) eta) in *.
  pose proof (normalizeP valP valP_closed dexp e (exp_valP _ _ He) (exp_pos _ _ He) _ _ _ Vo) as Hn. cbn zeta in Eg, F1, F2, F3. fold r in Eg, F1, F2, F3.
  assert (forall c, c < k -> valP (dmul mult (dsub (kronecker r c) (nth c (normalize dexp o) NaN))) ((qe * reach e d f q p) * slope e d f k r q c)%Q) as Hsl.
  { intros c Hck. apply (c_proper _ valP_closed) with ((qe * qprod ws) * slope e d f k r q c)%Q; [rewrite Ep; reflexivity|]. apply (c_mul _ valP_closed); [exact Hm|]. apply (c_sub _ valP_closed); [apply kron_val|]. apply (proj2 Hn c Hck). }
  assert (forall s, (reach e d f q (p ++ [s]) == reach e d f q p * (if s then 1 - go_left e d f g else go_left e d f g))%Q) as Hreach.
  { intros s. clear - En. revert q En. induction p as [|y p IH]; intros q En. { assert (q = QNode g (QLeaf al) (QLeaf ar)) as -> by (destruct q; cbn in En; congruence). cbn. destruct s; ring. }
    destruct q as [|g0 l0 r0]; [discriminate|]. cbn [app reach node_at] in *. rewrite (IH _ En). destruct y, s; ring. }
  assert (forall c, c < k -> valP (dmul (dmul mult (dsub (kronecker r c) (nth c (normalize dexp o) NaN))) ca) (qe * leaf_gradient e d f k r q (p ++ [false]) c)%Q) as HL.
  { intros c Hck. unfold leaf_gradient. apply (c_proper _ valP_closed) with (((qe * reach e d f q p) * slope e d f k r q c) * go_left e d f g)%Q; [rewrite Hreach; ring|]. apply (c_mul _ valP_closed); [apply Hsl, Hck|exact Wl]. }
  assert (forall c, c < k -> valP (dmul (dmul mult (dsub (kronecker r c) (nth c (normalize dexp o) NaN))) cb) (qe * leaf_gradient e d f k r q (p ++ [true]) c)%Q) as HR.
  { intros c Hck. unfold leaf_gradient. apply (c_proper _ valP_closed) with (((qe * reach e d f q p) * slope e d f k r q c) * (1 - go_left e d f g))%Q; [rewrite Hreach; ring|]. apply (c_mul _ valP_closed); [apply Hsl, Hck|exact Wr]. }
  assert (forall j, j < S d -> valP (gate_sum labels mult (normalize dexp o) r (feature x j) (mkSn (s_w0s a) (s_w a) (s_outputs a) ca) (mkSn (s_w0s b) (s_w b) (s_outputs b) cb)) (qe * gate_gradient e d f k r q p g ul ur j)%Q) as HG.
  { intros j Hj. unfold gate_sum. cbn [s_outputs s_weight]. unfold gate_gradient.
    set (z := (reach e d f q p * (go_left e d f g * (1 - go_left e d f g)) * with_bias f j * qe)%Q).
    apply (c_proper _ valP_closed) with (sum_over k (fun c => z * (slope e d f k r q c * (ul c - ur c))))%Q; [rewrite sum_scale; unfold z; ring|]. apply sum_val. intros c Hck.
    apply (c_proper _ valP_closed) with (((((qe * reach e d f q p) * slope e d f k r q c) * with_bias f j) * (ul c - ur c)) * go_left e d f g * (1 - go_left e d f g))%Q; [unfold z; ring|].
    apply (c_mul _ valP_closed); [|exact Wr]. apply (c_mul _ valP_closed); [|exact Wl]. apply (c_mul _ valP_closed).
    - apply (c_mul _ valP_closed); [apply Hsl, Hck|]. apply feature_val with (d := d); auto.
    - apply (c_sub _ valP_closed); [apply (proj2 Hul c Hck)|apply (proj2 Hur c Hck)]. }
  eexists _, _, _, _. split; [exact Eg|]. cbn [g_tree g_l g_r g_w]. split; [eapply sub_put, E1|]. cbn [s_w0s s_w s_outputs].
  split; [|split; [|split; [|split; [|split; [|split; [|split; [reflexivity|split; [reflexivity|]]]]]]]].
  - split; [exact G1|]. intros c Hck. rewrite (proj1 (F1 c Hck)). apply (c_add _ valP_closed); [apply (proj2 Ta c Hck)|]. apply (c_add _ valP_closed); [apply HL, Hck|]. apply (c_mul _ valP_closed); [exact Ha|apply (proj2 Hpl c Hck)].
  - split; [exact G3|]. intros c Hck. rewrite (proj1 (F2 c Hck)). apply (c_add _ valP_closed); [apply (proj2 Tb c Hck)|]. apply (c_add _ valP_closed); [apply HR, Hck|]. apply (c_mul _ valP_closed); [exact Ha|apply (proj2 Hpr c Hck)].
  - split; [exact G5|]. intros j Hj. rewrite (proj1 (F3 j Hj)). apply (c_add _ valP_closed); [apply (proj2 Tw j Hj)|]. apply (c_add _ valP_closed); [apply HG, Hj|]. apply (c_mul _ valP_closed); [exact Ha|apply (proj2 Hpw j Hj)].
  - split; [exact G2|]. intros c Hck. rewrite (proj2 (F1 c Hck)). apply HL, Hck.
  - split; [exact G4|]. intros c Hck. rewrite (proj2 (F2 c Hck)). apply HR, Hck.
  - split; [exact G6|]. intros j Hj. rewrite (proj2 (F3 j Hj)). apply HG, Hj.
  - eapply off_trans; [eapply off_same; [exact Hs|exact Es]|]. eapply off_put, E1.
Qed.
