(** Properties of the neural network models (C75-C79, C94, C95). *)
From Coq Require Import String ZArith QArith Qabs Qminmax Bool Lia Lra Lqa Permutation List.
From Verif Require Import Base Spec BaseLemmas DblLemmas AttrModel AttrProofs DataSetModel InstanceListModel PartitionModel PerformanceModel DistanceModel GaussianModel
  ListSpec ListProofs PartitionProofs GaussianProofs SvmSpec KernelProofs SolverInvProofs SvmTrainProofs NetModel NetSpec NetProofs NetTrainProofs.
Import ListNotations.
Local Open Scope string_scope.
Local Open Scope list_scope.
Local Open Scope nat_scope.

(** * Concrete instances used in the examples *)
(** functions that meet the contracts of exp and tanh *)
Definition e_ex (q : Q) : Q := if Qle_bool q 0 then 1 / (1 - q) else 1 + q.
Definition lift (f : Q -> Q) (d : dbl) : dbl := match d with Fin q => Fin (f q) | _ => NaN end.
Definition th_ex (q : Q) : Q := q / (1 + Qabs q).
Lemma e_ex_like : exp_like (lift e_ex) e_ex.
Proof.
  constructor.
  - intros q. reflexivity.
  - intros p q H. unfold e_ex. rewrite (qle_bool_proper p q 0 0 H (Qeq_refl _)). destruct (Qle_bool q 0); rewrite H; reflexivity.
  - intros q. unfold e_ex. destruct (Qle_bool q 0) eqn:E; [apply qle_true in E; apply Qlt_shift_div_l; lra|apply qle_false in E; lra].
  - intros p q H. unfold e_ex. destruct (Qle_bool p 0) eqn:E; destruct (Qle_bool q 0) eqn:E'; rewrite ?qle_true, ?qle_false in *; try lra.
    + apply Qlt_shift_div_l; [lra|]. setoid_replace (1 / (1 - p) * (1 - q))%Q with ((1 - q) / (1 - p))%Q by (field; lra). apply Qlt_shift_div_r; lra.
    + apply Qle_lt_trans with 1%Q; [|lra]. apply Qle_shift_div_r; lra.
Qed.
Lemma th_ex_like : tanh_like (lift th_ex) th_ex.
Proof. constructor; [intros q; reflexivity|]. intros p q H. unfold th_ex. rewrite H. reflexivity. Qed.
Definition rarr_ex (n : nat) (_ : Z) : list nat := seq 0 n.
Definition perm_ex (_ : Z) (n : nat) : list nat := rev (seq 0 n).
Definition rand_ex (_ : Z) (r c : nat) : list (list dbl) := map (fun i => map (fun j => Fin ((Z.of_nat (Nat.modulo (i + 2 * j) 3) - 1) # 100)) (seq 0 c)) (seq 0 r).
Lemma random_ex : randomness rarr_ex perm_ex rand_ex.
Proof.
  constructor; intros.
  - reflexivity.
  - symmetry. apply Permutation_rev.
  - unfold rand_ex. rewrite map_length, seq_length. reflexivity.
  - unfold rand_ex. apply Forall_forall. intros row H. apply in_map_iff in H. destruct H as (i & <- & _). rewrite map_length, seq_length. reflexivity.
Qed.
Definition num (l : string) (qs : list Q) : instance := mkInst l (map (fun q => ACont (Fin q)) qs) None.
Definition data_ex : ilist := [num "a" [1; 0]; num "b" [0; 1]; num "a" [2; 0]; num "b" [0; 2]; num "a" [3; 1]; num "b" [1; 3]]%Q.
Lemma data_ex_ok : net_data data_ex 2.
Proof. split; [eexists _, _; split; reflexivity|]. repeat constructor; discriminate. Qed.
Definition par_ex (hs : list nat) (a : activation) : net_param := mkPar 1 (Fin (1 # 2)) (Fin (9 # 10)) (Fin (1 # 3)) 2 hs a.

(** * C75: the normalised output *)
Theorem C75_distribution_partial : forall dexp e o n f, exp_like dexp e -> is_vec o n f -> 0 < n ->
  exists p, is_vec (normalize dexp o) n p /\ (forall i, i < n -> (0 < p i /\ p i <= 1)%Q) /\ (sum_over n p == 1)%Q /\
    (forall i j, i < n -> j < n -> ((f i < f j)%Q <-> (p i < p j)%Q)).
Proof.
  intros dexp e o n f He Ho Hn. exists (softmax e n f). split.
  { apply (normalizeP valP valP_closed dexp e (exp_valP _ _ He) (exp_pos _ _ He)). exact Ho. }
  set (s := sum_over n (fun j => e (f j))). assert (0 < s)%Q as Hs by (apply sum_pos; [exact Hn|]; intros; apply (exp_pos _ _ He)).
  assert (forall i, softmax e n f i == e (f i) * / s)%Q as Hp by (intros i; reflexivity).
  assert (0 < / s)%Q as His by (apply Qinv_lt_0_compat; exact Hs).
  assert (sum_over n (softmax e n f) == 1)%Q as H1.
  { rewrite (sum_ext n _ (fun i => / s * e (f i)))%Q. 2: { intros i _. rewrite Hp. ring. } rewrite sum_scale. fold s. field. lra. }
  assert (forall i, 0 < softmax e n f i)%Q as H0. { intros i. rewrite Hp. apply Qmult_lt_0_compat; [apply (exp_pos _ _ He)|exact His]. }
  split; [|split; [exact H1|]].
  - intros i Hi. split; [apply H0|]. rewrite <- H1. 
    apply elem_le_sum; [exact Hi|]. intros j _. apply Qlt_le_weak, H0.
  - intros i j Hi Hj. rewrite !Hp. split; intros H.
    + apply Qmult_lt_r; [exact His|]. apply (exp_incr _ _ He). exact H.
    + apply Qmult_lt_r in H; [|exact His]. destruct (Qlt_le_dec (f i) (f j)) as [|Hle]; [assumption|exfalso]. apply Qle_lteq in Hle. destruct Hle as [Hlt|Heq].
      * apply (exp_incr _ _ He) in Hlt. lra.
      * apply (exp_proper _ _ He) in Heq. lra.
Qed.

(** with an output above the range of exp the result is not a distribution: it contains NaN *)
Theorem C75_overflow_refuted : forall dexp, dexp (Fin 710) = PInf -> dexp (Fin 0) = d1 -> normalize dexp [Fin 710; Fin 0] = [NaN; Fin 0].
Proof. intros dexp H1 H2. unfold normalize. cbn [fold_left map]. rewrite H1, H2. reflexivity. Qed.
Example C75_case : exists p, is_vec (normalize (lift e_ex) [Fin 1; Fin (-2); Fin 3]) 3 p /\ (sum_over 3 p == 1)%Q /\ (p 1%nat < p O /\ p O < p 2%nat)%Q.
Proof.
  destruct (C75_distribution_partial (lift e_ex) e_ex [Fin 1; Fin (-2); Fin 3] 3 (fun i => nth i [1; -2; 3]%Q 0%Q) e_ex_like) as (p & H1 & _ & H2 & H3).
  - split; [reflexivity|]. intros [|[|[|i]]] Hi; try lia; reflexivity.
  - lia.
  - exists p. split; [exact H1|]. split; [exact H2|]. split; apply H3; try lia; reflexivity.
Qed.

(** * C76: prediction *)
Theorem C76_plain : forall labels y x f, is_vec y (length labels) f -> labels <> [] -> composite x = None ->
  exists c, choose labels y x = Ok c /\ first_best labels (fun _ => True) f c.
Proof. exact choose_val. Qed.
(** whatever the outputs are, the answer for a composite instance is one of its possible labels *)
Theorem C76_possible : forall labels y x ps, length y = length labels -> composite x = Some ps -> ps <> [] ->
  exists c, choose labels y x = Ok c /\ In c ps.
Proof. intros labels y x ps L E H. unfold choose. rewrite E. apply composite_total; assumption. Qed.
Theorem C76_linear : forall m d W x f, li_labels m <> [] -> is_mat (li_W m) (length (li_labels m)) (S d) W -> is_vec (inst_vector x) d f -> composite x <> Some [] ->
  let s := scores (fun z => z) d [(length (li_labels m), W)] f in in_range (li_labels m) x s ->
  exists c y, linear_predict m x = Ok (c, y) /\ chosen (li_labels m) x s c.
Proof.
  intros m d W x f Hl HW Hx Hc s Hr. destruct (linear_outputP valP valP_closed (li_W m) x (li_y m) _ d W f HW Hx) as (o & Eo & Ho).
  destruct (chosen_ok (li_labels m) o x s Ho Hl Hc Hr) as (c & Ec & H). exists c, o. split; [|exact H]. unfold linear_predict, net_predict. rewrite Eo. cbn [bind]. rewrite Ec. reflexivity.
Qed.
Theorem C76_mlp : forall dexp dtanh e th m n d W V x f, exp_like dexp e -> tanh_like dtanh th -> ml_labels m <> [] ->
  is_mat (ml_W m) n (S d) W -> is_mat (ml_V m) (length (ml_labels m)) (S n) V -> is_vec (inst_vector x) d f -> composite x <> Some [] ->
  let s := scores (qact e th (ml_act m)) d [(n, W); (length (ml_labels m), V)] f in in_range (ml_labels m) x s ->
  exists c y, mlp_predict dexp dtanh m x = Ok (c, y) /\ chosen (ml_labels m) x s c.
Proof.
  intros dexp dtanh e th m n d W V x f He Ht Hl HW HV Hx Hc s Hr.
  destruct (mlp_outputP valP valP_closed dexp dtanh e th (exp_valP _ _ He) (exp_pos _ _ He) (tanh_valP _ _ Ht) (ml_act m) (ml_W m) (ml_V m) x (ml_y m) n _ d W V f HW HV Hx) as (o & Eo & Ho).
  destruct (chosen_ok (ml_labels m) o x s Ho Hl Hc Hr) as (c & Ec & H). exists c, o. split; [|exact H]. unfold mlp_predict, net_predict. rewrite Eo. cbn [bind]. rewrite Ec. reflexivity.
Qed.
Theorem C76_deep : forall dexp dtanh e th m d ls x f, exp_like dexp e -> tanh_like dtanh th -> de_labels m <> [] ->
  1 < length ls -> is_net (de_weights m) d ls -> size d ls (length ls) = length (de_labels m) -> is_vec (inst_vector x) d f -> composite x <> Some [] ->
  let s := scores (qact e th (de_act m)) d ls f in in_range (de_labels m) x s ->
  exists c y, deep_predict dexp dtanh m x = Ok (c, y) /\ chosen (de_labels m) x s c.
Proof.
  intros dexp dtanh e th m d ls x f He Ht Hl Hlen HW HK Hx Hc s Hr. assert (length ls = S (length ls - 1)) as HL by lia.
  destruct (deep_outputP valP valP_closed dexp dtanh e th (exp_valP _ _ He) (exp_pos _ _ He) (tanh_valP _ _ Ht) (de_act m) d ls f (de_weights m) HW (length ls - 1) HL (input_vector x)
     (vecP_biased valP valP_closed _ _ _ Hx) (de_y m) ltac:(lia)) as (o & Eo & Ho).
  rewrite <- HL, HK in Ho. destruct (chosen_ok (de_labels m) o x s Ho Hl Hc Hr) as (c & Ec & H). exists c, o. split; [|exact H]. unfold deep_predict, net_predict. rewrite Eo. cbn [bind]. rewrite Ec. reflexivity.
Qed.
Definition lin_ex : linear := mkLin ["a"; "b"] [] (allocate rand_ex 1 2 3).
Example C76_case : forall W, W = (fun i j => nth j (nth i [[-1; 1; 0]; [0; -1; 1]] [])%Q 0 * (1 # 100))%Q ->
  is_mat (li_W lin_ex) 2 3 W /\ (exists y, linear_predict lin_ex (num "?" [1; 0]) = Ok ("a", y))%Q /\ (exists y, linear_predict lin_ex (num "?" [0; 1]) = Ok ("b", y))%Q /\
  exists y, linear_predict lin_ex (mkInst "?" [ACont (Fin 1); ACont (Fin 0)] (Some ["z"; "b"])) = Ok ("b", y).
Proof.
  intros W ->. split; [|split; [eexists; reflexivity|split; eexists; reflexivity]]. split; [split; [reflexivity|]; split; [reflexivity|repeat constructor]|].
  intros [|[|i]] [|[|[|j]]] Hi Hj; try lia; reflexivity.
Qed.

(** * C77: training keeps the best epoch *)
Theorem C77_linear : forall dexp rarr perm rand, randomness rarr perm rand -> forall old l d p q, net_data l d -> p_ratio p = Fin q ->
  exists m, linear_train dexp rarr perm rand old l p = Ok m /\ li_labels m = distinct_labels l /\ is_shape (li_W m) (length (li_labels m)) (S d) /\
  exists tr va ws accs k, part_strat rarr (Fin q) (p_seed p) l = Ok [va; tr] /\ Permutation (va ++ tr) l /\
    epochs_trace (allocate rand (p_seed p) (length (li_labels m)) (d + 1))
      (fun r w w' => exists l' y y', Permutation l' tr /\ foldM (linear_step dexp (li_labels m) r) l' (w, y) = Ok (w', y'))
      (fun w a => forall y, accuracy (fun x => rmap fst (linear_predict (mkLin (li_labels m) y w) x)) va a)
      (p_rate p) (p_decay p) (p_epochs p) ws accs /\
    best_high d0 accs k /\ nth_error ws k = Some (li_W m).
Proof. intros dexp rarr perm rand HR. exact (linear_train_trace dexp rarr perm rand HR). Qed.
Theorem C77_mlp : forall dexp dtanh rarr perm rand, randomness rarr perm rand -> forall old l d p q h hs, net_data l d -> p_ratio p = Fin q -> p_hidden p = h :: hs ->
  exists m, mlp_train dexp dtanh rarr perm rand old l p = Ok m /\ ml_labels m = distinct_labels l /\ ml_act m = p_act p /\
    is_shape (ml_W m) h (S d) /\ is_shape (ml_V m) (length (ml_labels m)) (S h) /\
  exists tr va ws accs k, part_strat rarr (Fin q) (p_seed p) l = Ok [va; tr] /\ Permutation (va ++ tr) l /\
    epochs_trace (allocate rand (p_seed p) h (d + 1), allocate rand (p_seed p) (length (ml_labels m)) (h + 1))
      (fun r w w' => exists l' y y', Permutation l' tr /\ foldM (mlp_step dexp dtanh (ml_labels m) (p_act p) r) l' (w, y) = Ok (w', y'))
      (fun w a => forall y, accuracy (fun x => rmap fst (mlp_predict dexp dtanh (mkMlp (ml_labels m) y (fst w) (snd w) (p_act p)) x)) va a)
      (p_rate p) (p_decay p) (p_epochs p) ws accs /\
    best_high d0 accs k /\ nth_error ws k = Some (ml_W m, ml_V m).
Proof. intros dexp dtanh rarr perm rand HR. exact (mlp_train_trace dexp dtanh rarr perm rand HR). Qed.
(** the auto encoder: the lowest mean squared reconstruction error; some class needs two instances, or no instance is left for
    training and the first access throws *)
Theorem C77_auto : forall dexp dtanh rarr perm rand, randomness rarr perm rand -> forall old l d p h hs, net_data l d -> ~ NoDup (map label l) -> p_hidden p = h :: hs ->
  exists m, auto_train dexp dtanh rarr perm rand old l p = Ok m /\ is_shape (au_W m) h (S d) /\ is_shape (au_V m) d (S h) /\
  exists tr va ws accs k, part_strat rarr (Fin (1 # 5)) (p_seed p) l = Ok [va; tr] /\ Permutation (va ++ tr) l /\
    epochs_trace (allocate rand (p_seed p) h (d + 1), allocate rand (p_seed p) d (h + 1))
      (fun r w w' => exists l' y y', Permutation l' tr /\ foldM (auto_step dexp dtanh r) l' (w, y) = Ok (w', y'))
      (fun w a => mean_error (fun x => forward2 dexp dtanh (input_vector x) (fst w) (snd w) SIGMOID) va a)
      (p_rate p) (Fin (95 # 100)) (p_epochs p) ws accs /\
    best_low dbl_max accs k /\ nth_error ws k = Some (au_W m, au_V m).
Proof. intros dexp dtanh rarr perm rand HR. exact (auto_train_trace dexp dtanh rarr perm rand HR). Qed.
Theorem C77_deep : forall dexp dtanh rarr perm rand, randomness rarr perm rand -> forall old l d p q, net_data l d -> p_ratio p = Fin q -> p_hidden p <> [] -> de_weights old = [] ->
  exists m, deep_train dexp dtanh rarr perm rand old l p = Ok m /\ de_labels m = distinct_labels l /\ de_act m = p_act p /\ de_layers m = length (p_hidden p) /\
    is_chain (de_weights m) d (p_hidden p ++ [length (de_labels m)]) /\
  exists tr va ms ws accs k, part_strat rarr (Fin q) (p_seed p) l = Ok [va; tr] /\ Permutation (va ++ tr) l /\
    deep_allocate rand [] (p_seed p) (p_hidden p) (length (de_labels m)) d = Ok ms /\
    epochs_trace ms
      (fun r w w' => exists l' y y', Permutation l' tr /\ foldM (deep_step dexp dtanh (de_labels m) (p_act p) (length (p_hidden p)) r) l' (w, y) = Ok (w', y'))
      (fun w a => forall y, accuracy (fun x => rmap fst (deep_predict dexp dtanh (mkDeep (de_labels m) y w (length (p_hidden p)) (p_act p)) x)) va a)
      (p_rate p) (p_decay p) (p_epochs p) ws accs /\
    best_high d0 accs k /\ nth_error ws k = Some (de_weights m).
Proof. intros dexp dtanh rarr perm rand HR. exact (deep_train_trace dexp dtanh rarr perm rand HR). Qed.
Example C77_case : randomness rarr_ex perm_ex rand_ex /\ net_data data_ex 2 /\ ~ NoDup (map label data_ex) /\
  match linear_train (lift e_ex) rarr_ex perm_ex rand_ex (mkLin [] [] (mkMat 0 [])) data_ex (mkPar 1 (Fin (1 # 2)) (Fin (9 # 10)) (Fin (2 # 3)) 1 [] SIGMOID) with
  | Ok m => forallb (fun x => match linear_predict m x with Ok (c, _) => String.eqb c (label x) | _ => false end) (firstn 4 data_ex) | _ => false end = true.
Proof.
  split; [exact random_ex|]. split; [exact data_ex_ok|]. split; [|vm_compute; reflexivity].
  intros H. inversion H as [|? ? Hn _]; subst. apply Hn. cbn. auto.
Qed.

(** * C78: predictProbability *)
(** one entry per label, with the raw output of the network *)
Theorem C78_raw_partial : forall output labels y x o, output (input_vector x) y = Ok o -> length o = length labels -> NoDup labels ->
  exists m, net_probability output labels y x = Ok (m, o) /\ (forall i c v, nth_error labels i = Some c -> nth_error o i = Some v -> mfind c m = Some v) /\ (forall c v, mfind c m = Some v -> In c labels).
Proof. intros output labels y x o E L H. destruct (probability_map labels o L H) as (m & Em & H1 & H2). exists m. split; [|auto]. unfold net_probability. rewrite E. cbn [bind]. rewrite Em. reflexivity. Qed.
(** ... which is no distribution: a trained perceptron returns a negative number *)
Theorem C78_refuted : exists l p m x mp y v, net_data l 2 /\ linear_train (lift e_ex) rarr_ex perm_ex rand_ex (mkLin [] [] (mkMat 0 [])) l p = Ok m /\
  linear_probability m x = Ok (mp, y) /\ mfind "a" mp = Some (Fin v) /\ (v < 0)%Q.
Proof.
  exists data_ex, (mkPar 1 (Fin (1 # 2)) (Fin (9 # 10)) (Fin (2 # 3)) 0 [] SIGMOID). eexists _, (num "?" [0; 1])%Q, _, _, _.
  split; [exact data_ex_ok|]. split; [vm_compute; reflexivity|]. split; [vm_compute; reflexivity|]. split; [vm_compute; reflexivity|]. reflexivity.
Qed.
Example C78_case : exists o, linear_output (li_W lin_ex) (input_vector (num "?" [1; 0]%Q)) [] = Ok o /\ length o = length (li_labels lin_ex) /\ NoDup (li_labels lin_ex).
Proof. eexists. split; [reflexivity|]. split; [reflexivity|]. repeat constructor; cbn; intuition discriminate. Qed.

(** * C79: layers of a deep network *)
Theorem C79_chain : forall rarr perm rand, randomness rarr perm rand -> forall old seed hs k d, hs <> [] ->
  exists ms, deep_allocate rand old seed hs k d = Ok (old ++ ms) /\ is_chain ms d (hs ++ [k]).
Proof. intros rarr perm rand HR. exact (deep_allocate_chain rarr perm rand HR). Qed.
Theorem C79_empty_topology : forall rand old seed k d, deep_allocate rand old seed [] k d = Throw OutOfRange.
Proof. reflexivity. Qed.
(** a training step keeps the chain, for every activation function *)
Theorem C79_step_chain : forall dexp dtanh labels a d hs rate ws y x, inst_size x = d -> composite x <> Some [] -> In (label x) labels ->
  is_chain ws d (hs ++ [length labels]) -> hs <> [] ->
  exists ws' y', deep_step dexp dtanh labels a (length hs) rate (ws, y) x = Ok (ws', y') /\ is_chain ws' d (hs ++ [length labels]).
Proof. intros dexp dtanh labels a d hs rate ws y x H1 H2 H3. apply deep_step_shape. repeat split; assumption. Qed.
(** every layer is updated: sigmoid and relu *)
Theorem C79_update_partial : forall dexp dtanh e th labels a d ls rate q ws y x f, exp_like dexp e -> tanh_like dtanh th -> a <> TANH ->
  deq rate (Fin q) -> In (label x) labels -> 1 < length ls -> is_net ws d ls -> size d ls (length ls) = length labels -> is_vec (inst_vector x) d f ->
  exists ws' y', deep_step dexp dtanh labels a (length ls - 1) rate (ws, y) x = Ok (ws', y') /\
    is_net ws' d (gradient_step (qact e th a) d ls f e (qact_deriv a) q (find_pos (label x) labels)).
Proof.
  intros dexp dtanh e th labels a d ls rate q ws y x f He Ht Ha Hq Hl Hlen HW HK Hx. assert (length ls = S (length ls - 1)) as HL by lia.
  destruct (deep_stepP valP valP_closed dexp dtanh e th (exp_valP _ _ He) (exp_pos _ _ He) (tanh_valP _ _ Ht) a d ls f ws HW (length ls - 1) HL ltac:(lia) (input_vector x)
     (vecP_biased valP valP_closed _ _ _ Hx) (find_pos (label x) labels) labels x Hl eq_refl eq_refl) with (rate := rate) (q := q) (y := y) as (ws' & y' & E & H).
  - rewrite <- HL. exact HK.
  - exact Hq.
  - congruence.
  - exists ws', y'. split; [exact E|]. destruct a; [exact H|congruence|exact H].
Qed.
(** tanh: if some hidden layer does not have as many units as there are hidden layers, training changes nothing *)
Theorem C79_tanh_refuted : forall dexp dtanh rarr perm rand, randomness rarr perm rand -> forall old l d p q, net_data l d -> p_ratio p = Fin q -> p_hidden p <> [] -> de_weights old = [] ->
  p_act p = TANH -> (exists k, k < length (p_hidden p) /\ nth k (p_hidden p) 0 <> length (p_hidden p)) ->
  exists m, deep_train dexp dtanh rarr perm rand old l p = Ok m /\ deep_allocate rand [] (p_seed p) (p_hidden p) (length (distinct_labels l)) d = Ok (de_weights m).
Proof. intros dexp dtanh rarr perm rand HR. exact (deep_train_stuck dexp dtanh rarr perm rand HR). Qed.
(** training a trained network again throws *)
Theorem C79_retrain_refuted : forall dexp dtanh rarr perm rand, randomness rarr perm rand -> forall m l d p q tr va, net_data l d -> p_ratio p = Fin q -> p_hidden p <> [] ->
  is_chain (de_weights m) d (p_hidden p ++ [length (distinct_labels l)]) ->
  part_strat rarr (Fin q) (p_seed p) l = Ok [va; tr] -> tr <> [] -> 0 < p_epochs p ->
  deep_train dexp dtanh rarr perm rand m l p = Throw OutOfRange.
Proof. intros dexp dtanh rarr perm rand HR. exact (deep_train_twice dexp dtanh rarr perm rand HR). Qed.
Example C79_case : exists m, deep_train (lift e_ex) (lift th_ex) rarr_ex perm_ex rand_ex deep_empty data_ex (par_ex [3; 2] SIGMOID) = Ok m /\
  is_chain (de_weights m) 2 [3; 2; 2] /\ deep_train (lift e_ex) (lift th_ex) rarr_ex perm_ex rand_ex m data_ex (par_ex [3; 2] SIGMOID) = Throw OutOfRange.
Proof.
  destruct (deep_train_trace (lift e_ex) (lift th_ex) rarr_ex perm_ex rand_ex random_ex deep_empty data_ex 2 (par_ex [3; 2] SIGMOID) (1 # 3) data_ex_ok eq_refl ltac:(discriminate) eq_refl)
    as (m & E & El & _ & _ & Hc & tr & va & _ & _ & _ & _ & Ep & _).
  exists m. split; [exact E|]. rewrite El in Hc. split; [exact Hc|].
  eapply (C79_retrain_refuted (lift e_ex) (lift th_ex) rarr_ex perm_ex rand_ex random_ex m data_ex 2 (par_ex [3; 2] SIGMOID) (1 # 3)); [exact data_ex_ok|reflexivity|discriminate|exact Hc|vm_compute; reflexivity|discriminate|cbn; lia].
Qed.
Example C79_tanh_case : exists m, deep_train (lift e_ex) (lift th_ex) rarr_ex perm_ex rand_ex deep_empty data_ex (par_ex [3; 2] TANH) = Ok m /\ deep_allocate rand_ex [] 1 [3; 2] 2 2 = Ok (de_weights m).
Proof.
  apply (C79_tanh_refuted (lift e_ex) (lift th_ex) rarr_ex perm_ex rand_ex random_ex deep_empty data_ex 2 (par_ex [3; 2] TANH) (1 # 3) data_ex_ok eq_refl ltac:(discriminate) eq_refl eq_refl).
  exists 0. cbn. lia.
Qed.

(** * C94: a prediction does not depend on earlier predictions *)
Theorem C94_linear_partial : forall labels w y y' x d, labels <> [] -> is_shape w (length labels) (S d) -> inst_size x = d ->
  linear_predict (mkLin labels y w) x = linear_predict (mkLin labels y' w) x.
Proof.
  intros labels w y y' x d Hl Hw Hd. unfold linear_predict, net_predict, linear_output, mul_r. cbn [li_W li_y li_labels]. rewrite (proj1 Hw), input_length, Hd, Nat.eqb_refl. reflexivity.
Qed.
Theorem C94_mlp_partial : forall dexp dtanh labels a w v y y' x n d, is_shape w n (S d) -> is_shape v (length labels) (S n) -> inst_size x = d ->
  mlp_predict dexp dtanh (mkMlp labels y w v a) x = mlp_predict dexp dtanh (mkMlp labels y' w v a) x.
Proof.
  intros dexp dtanh labels a w v y y' x n d Hw Hv Hd. unfold mlp_predict, net_predict, mlp_output, forward2, hidden, mul_r. cbn [ml_W ml_V ml_y ml_labels ml_act].
  rewrite (proj1 Hw), input_length, Hd, Nat.eqb_refl. cbn [bind]. destruct Hw as (_ & Hr & _). rewrite (proj1 Hv). cbn [biased length]. rewrite !map_length, Hr, Nat.eqb_refl. reflexivity.
Qed.
Theorem C94_deep_partial : forall dexp dtanh labels a ws y y' x d hs k, labels <> [] -> hs <> [] -> is_chain ws d (hs ++ [length labels]) -> inst_size x = d -> composite x <> Some [] ->
  deep_predict dexp dtanh (mkDeep labels y ws k a) x = deep_predict dexp dtanh (mkDeep labels y' ws k a) x.
Proof.
  intros dexp dtanh labels a ws y y' x d hs k Hl Hh Hc Hd Hx. destruct labels as [|c0 ls]; [congruence|].
  assert (fits d (c0 :: ls) (mkInst c0 (attrs x) (composite x))) as Hf by (split; [exact Hd|]; split; [exact Hx|left; reflexivity]).
  destruct (deep_output_shape dexp dtanh (c0 :: ls) a d hs ws (mkInst c0 (attrs x) (composite x)) Hf Hc Hh ltac:(discriminate)) as (o & c & Ho & _).
  unfold deep_predict, net_predict. cbn [de_weights de_act de_y de_labels]. change (input_vector (mkInst c0 (attrs x) (composite x))) with (input_vector x) in Ho. rewrite !Ho. reflexivity.
Qed.
(** an instance of another width: the mismatch is swallowed and the answer is that of the previous prediction *)
Theorem C94_stale_refuted : forall m x z c y d, is_shape (li_W m) (length (li_labels m)) (S d) -> inst_size z <> d -> composite x = None -> composite z = None ->
  linear_predict m x = Ok (c, y) -> linear_predict (mkLin (li_labels m) y (li_W m)) z = Ok (c, y).
Proof.
  intros m x z c y d Hw Hz Cx Cz E. unfold linear_predict, net_predict in *. apply bind_ok in E. destruct E as (o & Eo & E). apply bind_ok in E. destruct E as (c' & Ec & E). inversion E; subst.
  cbn [li_W li_y li_labels]. unfold linear_output, mul_r at 1. rewrite (proj1 Hw), input_length. destruct (Nat.eqb_spec (S d) (S (inst_size z))) as [H|_]; [lia|]. cbn [attempt caught bind].
  unfold choose in *. rewrite Cx in Ec. rewrite Cz, Ec. reflexivity.
Qed.
Example C94_case : exists y1 y2 z, linear_predict lin_ex (num "?" [1; 0])%Q = Ok ("a", y1) /\ linear_predict lin_ex (num "?" [0; 1])%Q = Ok ("b", y2) /\
  linear_predict (mkLin ["a"; "b"] y1 (li_W lin_ex)) z = Ok ("a", y1) /\ linear_predict (mkLin ["a"; "b"] y2 (li_W lin_ex)) z = Ok ("b", y2).
Proof. do 2 eexists. exists (num "?" [5])%Q. split; [reflexivity|]. split; [reflexivity|]. split; reflexivity. Qed.

(** * C95: one training step is one step of gradient ascent on the log-likelihood *)
Theorem C95_linear : forall dexp e labels rate q w y x W f, exp_like dexp e -> In (label x) labels -> deq rate (Fin q) ->
  is_mat w (length labels) (S (inst_size x)) W -> is_vec (inst_vector x) (inst_size x) f ->
  exists w' y', linear_step dexp labels rate (w, y) x = Ok (w', y') /\
    is_mat w' (length labels) (S (inst_size x))
      (fun i j => W i j + q * (((if Nat.eqb i (find_pos (label x) labels) then 1 else 0) - softmax e (length labels) (weigh (S (inst_size x)) W (with_bias f)) i) * with_bias f j))%Q.
Proof. intros dexp e labels rate q w y x W f He Hl Hq HW Hx. exact (linear_stepP valP valP_closed dexp e (exp_valP _ _ He) (exp_pos _ _ He) labels rate q w y x W f Hl Hq HW Hx). Qed.
Theorem C95_mlp_partial : forall dexp dtanh e th labels a rate q w v y x n W V f, exp_like dexp e -> tanh_like dtanh th -> a <> TANH -> In (label x) labels -> deq rate (Fin q) ->
  is_mat w n (S (inst_size x)) W -> is_mat v (length labels) (S n) V -> is_vec (inst_vector x) (inst_size x) f ->
  let nw := new_weight (qact e th a) (inst_size x) [(n, W); (length labels, V)] f e (qact_deriv a) q (find_pos (label x) labels) in
  exists w' v' y', mlp_step dexp dtanh labels a rate (w, v, y) x = Ok (w', v', y') /\ is_mat w' n (S (inst_size x)) (nw 0) /\ is_mat v' (length labels) (S n) (nw 1).
Proof.
  intros dexp dtanh e th labels a rate q w v y x n W V f He Ht Ha Hl Hq HW HV Hx.
  pose proof (mlp_stepP valP valP_closed dexp dtanh e th (exp_valP _ _ He) (exp_pos _ _ He) (tanh_valP _ _ Ht) labels a rate q w v y x n W V f Hl Hq HW HV Hx) as H. destruct a; [exact H|congruence|exact H].
Qed.
Theorem C95_deep_partial : forall dexp dtanh e th labels a d ls rate q ws y x f, exp_like dexp e -> tanh_like dtanh th -> a <> TANH ->
  deq rate (Fin q) -> In (label x) labels -> 1 < length ls -> is_net ws d ls -> size d ls (length ls) = length labels -> is_vec (inst_vector x) d f ->
  exists ws' y', deep_step dexp dtanh labels a (length ls - 1) rate (ws, y) x = Ok (ws', y') /\
    is_net ws' d (gradient_step (qact e th a) d ls f e (qact_deriv a) q (find_pos (label x) labels)).
Proof. exact C79_update_partial. Qed.
(** the auto encoder: gradient descent on half the squared reconstruction error *)
Theorem C95_auto : forall dexp dtanh e th rate q w v y x n d W V f, exp_like dexp e -> tanh_like dtanh th -> deq rate (Fin q) ->
  is_mat w n (S d) W -> is_mat v d (S n) V -> is_vec (inst_vector x) d f ->
  let h i := (1 / (1 + e (- weigh (S d) W (with_bias f) i)))%Q in
  let err i := (f i - weigh (S n) V (with_bias h) i)%Q in
  exists w' v' y', auto_step dexp dtanh rate (w, v, y) x = Ok (w', v', y') /\
    is_mat v' d (S n) (fun i j => V i j + q * (err i * with_bias h j))%Q /\
    is_mat w' n (S d) (fun i j => W i j + q * (sum_over d (fun r => err r * V r (S i)) * (h i * (1 - h i)) * with_bias f j))%Q.
Proof.
  intros dexp dtanh e th rate q w v y x n d W V f He Ht Hq HW HV Hx h err.
  exact (auto_stepP dexp dtanh valP valP_closed e (exp_valP _ _ He) (exp_pos _ _ He) th (tanh_valP _ _ Ht) rate q w v y x n d W V f Hq HW HV Hx).
Qed.

(** tanh: the derivative is taken at tanh of the hidden value, so the step is not the gradient step *)
Theorem C95_tanh_refuted : forall dexp dtanh e th, exp_like dexp e -> tanh_like dtanh th -> (forall q, (0 < q)%Q -> (0 < th q /\ th q < q)%Q) ->
  exists labels w v x n d W V f, In (label x) labels /\ inst_size x = d /\ is_mat w n (S d) W /\ is_mat v (length labels) (S n) V /\ is_vec (inst_vector x) d f /\
  forall y w' v' y', mlp_step dexp dtanh labels TANH d1 (w, v, y) x = Ok (w', v', y') ->
    ~ is_mat w' n (S d) (new_weight (qact e th TANH) d [(n, W); (length labels, V)] f e (qact_deriv TANH) 1 (find_pos (label x) labels) 0).
Proof.
  intros dexp dtanh e th He Ht Hth. set (W := fun (_ j : nat) => match j with O => 1%Q | _ => 0%Q end). set (V := fun (i j : nat) => match i, j with O, S O => 1%Q | _, _ => 0%Q end).
  exists ["a"; "b"], (mkMat 2 [[Fin 1; Fin 0]]), (mkMat 2 [[Fin 0; Fin 1]; [Fin 0; Fin 0]]), (num "a" [0]%Q), 1, 1, W, V, (fun _ => 0%Q).
  assert (In (label (num "a" [0%Q])) ["a"; "b"]) as Hl by (left; reflexivity).
  assert (is_mat (mkMat 2 [[Fin 1; Fin 0]]) 1 2 W) as HW. { split; [split; [reflexivity|]; split; [reflexivity|repeat constructor]|]. intros [|i] [|[|j]] Hi Hj; try lia; reflexivity. }
  assert (is_mat (mkMat 2 [[Fin 0; Fin 1]; [Fin 0; Fin 0]]) 2 2 V) as HV. { split; [split; [reflexivity|]; split; [reflexivity|repeat constructor]|]. intros [|[|i]] [|[|j]] Hi Hj; try lia; reflexivity. }
  assert (is_vec (inst_vector (num "a" [0]%Q)) 1 (fun _ => 0%Q)) as Hx. { split; [reflexivity|]. intros [|i] Hi; [reflexivity|lia]. }
  split; [exact Hl|]. split; [reflexivity|]. split; [exact HW|]. split; [exact HV|]. split; [exact Hx|].
  intros y w' v' y' E Hbad.
  destruct (mlp_stepP valP valP_closed dexp dtanh e th (exp_valP _ _ He) (exp_pos _ _ He) (tanh_valP _ _ Ht) ["a"; "b"] TANH d1 1%Q (mkMat 2 [[Fin 1; Fin 0]]) (mkMat 2 [[Fin 0; Fin 1]; [Fin 0; Fin 0]]) y (num "a" [0]%Q) 1 W V (fun _ => 0%Q) Hl (Qeq_refl 1) HW HV Hx) as (w2 & v2 & y2 & E2 & (_ & Hgood) & _).
  rewrite E in E2. injection E2 as <- <- <-. destruct Hbad as (_ & Hbad). specialize (Hgood 0 0 ltac:(lia) ltac:(cbn; lia)). specialize (Hbad 0 0 ltac:(lia) ltac:(lia)).
  apply valP_inv in Hgood. destruct Hgood as (r & Er & Hr). rewrite Er in Hbad. cbn [deq] in Hbad. rewrite Hr in Hbad. clear - He Hth Ht Hbad.
  unfold new_weight in Hbad. change (length ["a"; "b"]) with 2 in Hbad. change (inst_size (num "a" [0%Q])) with 1 in Hbad. change (find_pos (label (num "a" [0%Q])) ["a"; "b"]) with 0 in Hbad.
  set (ls := [(1, W); (2, V)]) in Hbad. change (last_layer ls - 0) with 1 in Hbad. cbn [signal] in Hbad. change (last_layer ls - 1) with 0 in Hbad.
  set (h := value (qact e th TANH) 1 ls (fun _ => 0%Q) 1 0) in Hbad.
  match type of Hbad with context [sum_over ?a ?b] => set (f := sum_over a b) in Hbad end.
  assert (0 < f)%Q as Hf.
  { unfold f. change (size 1 ls 2) with 2. change (weight ls 1) with V. change (size 1 ls (S (last_layer ls))) with 2. set (sc := scores _ _ _ _). unfold softmax, sum_over. cbn [seq map qsum V Nat.eqb].
    pose proof (exp_pos _ _ He (sc O)). pose proof (exp_pos _ _ He (sc 1%nat)). set (a := e (sc O)) in *. set (b := e (sc 1%nat)) in *. clearbody a b.
    setoid_replace ((1 - a / (a + (b + 0))) * 1 + ((0 - b / (a + (b + 0))) * 0 + 0))%Q with (b / (a + b))%Q by (field; lra). apply Qlt_shift_div_l; lra. }
  assert (h == th 1)%Q as Eh. { unfold h. cbn [value qact]. apply (tanh_proper _ _ Ht). unfold weigh, sum_over. change (size 1 ls 0) with 1. cbn. reflexivity. }
  destruct (Hth 1%Q ltac:(lra)) as (Hh0 & _). rewrite <- Eh in Hh0. destruct (Hth h Hh0) as (Ht0 & Ht1).
  cbn [code_deriv qact_deriv] in Hbad. change (with_bias (value (qact e th TANH) 1 ls (fun _ : nat => 0%Q) 0) 0) with 1%Q in Hbad.
  set (t := th h) in *. clearbody t f h.
  assert (0 < f * ((h - t) * (h + t)))%Q as H2 by (apply Qmult_lt_0_compat; [exact Hf|apply Qmult_lt_0_compat; lra]).
  set (w0 := weight ls 0 0 0) in Hbad. clearbody w0. nra.
Qed.
Lemma th_ex_small q : (0 < q)%Q -> (0 < th_ex q /\ th_ex q < q)%Q.
Proof.
  intros H. unfold th_ex. rewrite Qabs_pos by lra. split; [apply Qlt_shift_div_l; lra|]. apply Qlt_shift_div_r; [lra|]. nra.
Qed.
Example C95_case : is_mat (li_W lin_ex) 2 3 (fun i j => nth j (nth i [[-1; 1; 0]; [0; -1; 1]] [])%Q 0 * (1 # 100))%Q /\ is_vec (inst_vector (num "a" [1; 0]%Q)) 2 (fun i => nth i [1; 0]%Q 0%Q) /\
  exp_like (lift e_ex) e_ex /\ tanh_like (lift th_ex) th_ex /\ (forall q, (0 < q)%Q -> (0 < th_ex q /\ th_ex q < q)%Q) /\
  is_net [allocate rand_ex 1 3 3; allocate rand_ex 1 2 4] 2 [(3, fun i j => (Z.of_nat (Nat.modulo (i + 2 * j) 3) - 1) # 100); (2, fun i j => (Z.of_nat (Nat.modulo (i + 2 * j) 3) - 1) # 100)].
Proof.
  split; [exact (proj1 (C76_case _ eq_refl))|]. split; [split; [reflexivity|]; intros [|[|i]] Hi; try lia; reflexivity|]. split; [exact e_ex_like|]. split; [exact th_ex_like|]. split; [exact th_ex_small|].
  split; [reflexivity|]. intros [|[|k]] m Hm; cbn in Hm; try (destruct k; discriminate); inversion Hm; subst; (split; [split; [reflexivity|]; split; [reflexivity|repeat constructor]|]);
    cbn [size weight nth map fst snd]; intros [|[|[|i]]] [|[|[|[|j]]]] Hi Hj; try lia; reflexivity.
Qed.

Print Assumptions C75_distribution_partial.
Print Assumptions C75_overflow_refuted.
Print Assumptions C76_plain.
Print Assumptions C76_possible.
Print Assumptions C76_linear.
Print Assumptions C76_mlp.
Print Assumptions C76_deep.
Print Assumptions C77_linear.
Print Assumptions C77_mlp.
Print Assumptions C77_auto.
Print Assumptions C77_deep.
Print Assumptions C78_raw_partial.
Print Assumptions C78_refuted.
Print Assumptions C79_chain.
Print Assumptions C79_empty_topology.
Print Assumptions C79_step_chain.
Print Assumptions C79_update_partial.
Print Assumptions C79_tanh_refuted.
Print Assumptions C79_retrain_refuted.
Print Assumptions C94_linear_partial.
Print Assumptions C94_mlp_partial.
Print Assumptions C94_deep_partial.
Print Assumptions C94_stale_refuted.
Print Assumptions C95_linear.
Print Assumptions C95_mlp_partial.
Print Assumptions C95_deep_partial.
Print Assumptions C95_auto.
Print Assumptions C95_tanh_refuted.
