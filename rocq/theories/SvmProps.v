(** Support vector machine solver: properties C69-C72, C91-C93. *)
From Coq Require Import String ZArith QArith Qabs Bool Lia Lra Lqa Permutation List.
From Verif Require Import Base Spec BaseLemmas DblLemmas AttrModel SolverModel SvmSpec KernelProofs SolverProofs SolverInvProofs SvmProofs.
Import ListNotations.
Local Open Scope string_scope.
Local Open Scope list_scope.
Local Open Scope nat_scope.

Lemma deq_trans a b c : deq a b -> deq b c -> deq a c.
Proof. intros H1 H2. transitivity b; assumption. Qed.
Lemma deq_sym a b : deq a b -> deq b a.
Proof. intros H. symmetry. exact H. Qed.

(** ** C69: kernels *)
(** the prediction-time kernel is the textbook kernel *)
Theorem C69_prediction_kernel dexp dtanh dpow p gamma coef0 v w :
  libm dexp dtanh dpow -> p_gamma p = Fin gamma -> p_coef0 p = Fin coef0 ->
  deq (kernel_fun dexp dtanh dpow p (svec v) (svec w)) (textbook_kernel dexp dtanh dpow (p_kernel p) (p_degree p) gamma coef0 v w).
Proof. intros Hm Hg Hc. exact (kernel_fun_spec dexp dtanh dpow Hm p gamma coef0 Hg Hc v w). Qed.
Theorem C69_symmetric dexp dtanh dpow p gamma coef0 v w :
  libm dexp dtanh dpow -> p_gamma p = Fin gamma -> p_coef0 p = Fin coef0 ->
  deq (kernel_fun dexp dtanh dpow p (svec v) (svec w)) (kernel_fun dexp dtanh dpow p (svec w) (svec v)).
Proof.
  intros Hm Hg Hc. pose proof (kernel_fun_spec dexp dtanh dpow Hm p gamma coef0 Hg Hc v w) as H1.
  pose proof (kernel_fun_spec dexp dtanh dpow Hm p gamma coef0 Hg Hc w v) as H2.
  pose proof (tk_sym dexp dtanh dpow Hm p gamma coef0 v w) as H3.
  apply (deq_trans _ _ _ H1), (deq_trans _ _ _ H3), deq_sym, H2.
Qed.
(** the training-time kernel object, after any history of swaps, computes the same values for the vectors where they now are *)
Inductive swap_history {A} : list (nat * nat) -> list A -> list A -> Prop :=
| history_nil l : swap_history [] l l
| history_cons i j r l l1 l2 : i < length l -> j < length l -> exchanged i j l l1 -> swap_history r l1 l2 -> swap_history ((i, j) :: r) l l2.
Theorem C69_training_kernel dexp dtanh dpow p gamma coef0 vs swaps ws :
  libm dexp dtanh dpow -> p_gamma p = Fin gamma -> p_coef0 p = Fin coef0 -> swap_history swaps vs ws ->
  exists k, (do k0 <- kernel_new (length vs) (map svec vs) p; foldM (fun k ij => kernel_swap k (fst ij) (snd ij)) swaps k0) = Ok k /\
    forall i j v w, nth_error ws i = Some v -> nth_error ws j = Some w ->
      exists d, kernel_at dexp dtanh dpow k i j = Ok d /\ deq d (kernel_fun dexp dtanh dpow p (svec v) (svec w)).
Proof.
  intros Hm Hg Hc Hs. destruct (kernel_new_spec p vs) as (k0 & -> & H0). cbn [bind].
  assert (exists k, foldM (fun k ij => kernel_swap k (fst ij) (snd ij)) swaps k0 = Ok k /\ holds p k ws) as (k & E & Hk).
  { revert k0 H0. induction Hs as [l|i j r l l1 l2 Hi Hj [Hl Hx] _ IH]; intros k0 H0; [exists k0; split; [reflexivity|exact H0]|].
    destruct (kernel_swap_spec p gamma coef0 Hg Hc k0 l i j H0 Hi Hj) as (k' & ws' & Ek & Hk' & Hl' & Hn). cbn [foldM fst snd]. rewrite Ek. cbn [bind].
    assert (ws' = l1) as <- by (apply list_ext; intros o; rewrite Hn, Hx; reflexivity). apply IH, Hk'. }
  exists k. split; [exact E|]. intros i j v w Hv Hw. destruct (kernel_at_spec dexp dtanh dpow Hm p gamma coef0 Hg Hc k ws i j v w Hk Hv Hw) as (d & Ed & Hd).
  exists d. split; [exact Ed|]. apply (deq_trans _ _ _ Hd), deq_sym. exact (kernel_fun_spec dexp dtanh dpow Hm p gamma coef0 Hg Hc v w).
Qed.

(** ** C91: no undefined behaviour *)
Theorem C91_safe dexp dtanh dpow p gamma coef0 C vs signs fuel : svm_case dexp dtanh dpow p gamma coef0 C vs signs ->
  svm_solve dexp dtanh dpow p vs signs fuel = Diverge \/ exists r al, svm_solve dexp dtanh dpow p vs signs fuel = Ok (Fin r, al).
Proof.
  intros H. destruct (run_ok dexp dtanh dpow p gamma coef0 C vs signs H fuel) as [E|(r & al & a & E & _)]; [left; exact E|right; exists r, al; exact E].
Qed.
(** every iteration from a visited state succeeds: more fuel only continues the same run *)
Theorem C91_progress dexp dtanh dpow p gamma coef0 C vs signs c s : svm_case dexp dtanh dpow p gamma coef0 C vs signs ->
  visited dexp dtanh dpow p vs signs c s -> exists r, solve_iter dexp dtanh dpow c s = Ok r.
Proof. intros H V. exact (iter_total dexp dtanh dpow p gamma coef0 C vs signs H c s V). Qed.
(** the state the solver stops in satisfies the optimality and the margin conditions up to 0.001 *)
Theorem C91_optimal dexp dtanh dpow p gamma coef0 C vs signs c s s' : svm_case dexp dtanh dpow p gamma coef0 C vs signs ->
  visited dexp dtanh dpow p vs signs c s -> solve_iter dexp dtanh dpow c s = Ok (Leave s') ->
  exists a r, represents C vs signs s' a /\ calculate_rho s' = Ok (Fin r) /\
    feasible (length vs) (ylab signs) C a /\
    kkt (length vs) (ylab signs) (kern dexp dtanh dpow p gamma coef0 vs) C (1 # 1000) a /\
    margins dexp dtanh dpow p gamma coef0 C vs signs (1 # 1000) a r.
Proof. intros H V E. exact (final_optimal dexp dtanh dpow p gamma coef0 C vs signs H c s s' V E). Qed.

(** ** C70: constraints *)
Theorem C70_every_state dexp dtanh dpow p gamma coef0 C vs signs c s : svm_case dexp dtanh dpow p gamma coef0 C vs signs ->
  visited dexp dtanh dpow p vs signs c s -> exists a, represents C vs signs s a /\ feasible (length vs) (ylab signs) C a.
Proof.
  intros H V. destruct (gradient_kept dexp dtanh dpow p gamma coef0 C vs signs H c s V) as (a & R & F & _). exists a. split; assumption.
Qed.
Theorem C70_returned_box dexp dtanh dpow p gamma coef0 C vs signs fuel r al : svm_case dexp dtanh dpow p gamma coef0 C vs signs ->
  svm_solve dexp dtanh dpow p vs signs fuel = Ok (r, al) ->
  length al = length vs /\ Forall (fun d => exists q, d = Fin q /\ (0 <= q)%Q /\ (q <= C)%Q) al.
Proof.
  intros H E. destruct (run_ok dexp dtanh dpow p gamma coef0 C vs signs H fuel) as [E'|(r' & al' & a & E' & _ & Hl & Hb & _)]; rewrite E in E'; [discriminate|].
  injection E' as _ <-. split; [exact Hl|]. apply Forall_forall. intros d Hd. apply In_nth_error in Hd as (k & Ek).
  destruct (Hb k) as (q & Eq & B0 & B1); [rewrite <- Hl; apply nth_error_Some; congruence|]. rewrite Ek in Eq. injection Eq as ->. exists q. split; [reflexivity|]. split; assumption.
Qed.

(** ** C71: bookkeeping *)
Theorem C71_bookkeeping dexp dtanh dpow p gamma coef0 C vs signs c s : svm_case dexp dtanh dpow p gamma coef0 C vs signs ->
  visited dexp dtanh dpow p vs signs c s -> exists a, represents C vs signs s a /\
    (forall k o, nth_error (s_set s) k = Some o -> k < s_active s ->
       exists d, nth_error (s_G s) k = Some d /\ deq d (Fin (gradient (length vs) (ylab signs) (kern dexp dtanh dpow p gamma coef0 vs) a o))) /\
    (forall k o, nth_error (s_set s) k = Some o -> s_active s <= k -> (a o == 0 \/ a o == C)%Q).
Proof.
  intros H V. destruct (gradient_kept dexp dtanh dpow p gamma coef0 C vs signs H c s V) as (a & R & _ & G & B). exists a. split; [exact R|]. split; assumption.
Qed.

(** ** C92: every iteration lowers the dual objective *)
Theorem C92_descent dexp dtanh dpow p gamma coef0 C vs signs c s a c' s' : svm_case dexp dtanh dpow p gamma coef0 C vs signs ->
  visited dexp dtanh dpow p vs signs c s -> represents C vs signs s a -> solve_iter dexp dtanh dpow c s = Ok (Again c' s') ->
  exists a', represents C vs signs s' a' /\
    (objective (length vs) (ylab signs) (kern dexp dtanh dpow p gamma coef0 vs) a' < objective (length vs) (ylab signs) (kern dexp dtanh dpow p gamma coef0 vs) a)%Q.
Proof.
  intros H V R E. destruct (iter_descends dexp dtanh dpow p gamma coef0 C vs signs H c s a c' s' V R E) as (a' & R' & _ & O). exists a'. split; assumption.
Qed.

(** ** C72: the returned multipliers *)
(** A run of at most min(l, 1000) iterations, i.e. one that ends before the first shrinking, returns the multipliers it
    computed, in the order of the training vectors, and they are optimal up to 0.001. *)
Theorem C72_before_shrinking_partial dexp dtanh dpow p gamma coef0 C vs signs fuel r al : svm_case dexp dtanh dpow p gamma coef0 C vs signs ->
  fuel <= Nat.min (length vs) 1000 -> svm_solve dexp dtanh dpow p vs signs fuel = Ok (r, al) ->
  exists a rho, r = Fin rho /\ length al = length vs /\
    (forall k, k < length vs -> exists d, nth_error al k = Some d /\ deq d (Fin (a k))) /\
    feasible (length vs) (ylab signs) C a /\
    kkt (length vs) (ylab signs) (kern dexp dtanh dpow p gamma coef0 vs) C (1 # 1000) a /\
    margins dexp dtanh dpow p gamma coef0 C vs signs (1 # 1000) a rho.
Proof.
  intros H Hf E. destruct (run_ok dexp dtanh dpow p gamma coef0 C vs signs H fuel) as [E'|(r' & al' & a & E' & Ho & Hl & _ & Hv)]; rewrite E in E'; [discriminate|].
  injection E' as -> <-. exists a, r'. split; [reflexivity|]. split; [exact Hl|]. destruct Hv as [_ Hv]; [unfold counter_start; lia|].
  split; [intros k Hk; destruct (Hv k Hk) as (q & Eq & Hq); exists (Fin q); split; [exact Eq|exact Hq]|].
  pose proof (optimal_margins dexp dtanh dpow p gamma coef0 C vs signs H r' a Ho) as M. destruct Ho as (A & B & _). split; [exact A|]. split; [exact B|exact M].
Qed.

(** an instance of the libm contract and of a case, used below *)
Definition idd (d : dbl) : dbl := d.
Definition idp (d : dbl) (_ : Z) : dbl := d.
Lemma libm_id : libm idd idd idp.
Proof. constructor; unfold idd, idp; try (intros; assumption); intros; eexists; reflexivity. Qed.
Definition par0 : svm_param := mkParam LINEAR 1 (Fin 1) (Fin 0) (Fin (1 # 4)) true.
Definition vs0 : list (list Q) := [[-(1)]; [-(1)]; [2]]%Q.
Definition sg0 : list bool := [true; false; false].
Lemma case0 : svm_case idd idd idp par0 1 0 (1 # 4) vs0 sg0.
Proof.
  constructor; try reflexivity; [apply libm_id|discriminate|]. intros k Hk. simpl in Hk.
  destruct k as [|[|[|k]]]; [| | |lia]; vm_compute; discriminate.
Qed.
Lemma loop_visited dexp dtanh dpow p vs signs fuel : forall c s s', visited dexp dtanh dpow p vs signs c s ->
  solve_loop dexp dtanh dpow fuel c s = Ok s' -> exists c1 s1, visited dexp dtanh dpow p vs signs c1 s1 /\ solve_iter dexp dtanh dpow c1 s1 = Ok (Leave s').
Proof.
  induction fuel as [|fuel IH]; intros c s s' V; [discriminate|]. cbn [solve_loop]. intros E. apply bind_ok in E as (r & Er & E). destruct r as [s1|c1 s1].
  - injection E as ->. exists c, s. split; assumption.
  - apply (IH c1 s1 s'); [|exact E]. apply (visited_next _ _ _ _ _ _ c s c1 s1 V Er).
Qed.
Definition final0 : res solver :=
  do s <- solver_init idd idd idp 3 (repeat (Fin (-(1))) 3) (map (fun b => Fin (sign b)) sg0) par0 (map svec vs0);
  solve_loop idd idd idp 10 (counter_start 3 + 1) s.
Lemma final0_facts : exists s al, final0 = Ok s /\ nth_error (s_set s) 2 = Some 0 /\
  (exists q, nth_error (s_alpha s) 2 = Some (Fin q) /\ (q == 1 # 4)%Q) /\ write_back s = Ok al /\
  (exists q, nth_error al 0 = Some (Fin q) /\ (q == 0)%Q) /\ (exists q, nth_error al 1 = Some (Fin q) /\ (q == 1 # 4)%Q) /\ (exists q, nth_error al 2 = Some (Fin q) /\ (q == 0)%Q).
Proof.
  assert (exists s, final0 = Ok s) as (s & E). { vm_compute. eexists. reflexivity. }
  assert (match final0 with
          | Ok s => match nth_error (s_set s) 2, nth_error (s_alpha s) 2, write_back s with
                    | Some 0, Some (Fin q), Ok [Fin a; Fin b; Fin c] => Qeq_bool q (1 # 4) && (Qeq_bool a 0 && (Qeq_bool b (1 # 4) && Qeq_bool c 0))
                    | _, _, _ => false end
          | _ => false end = true) as H by (vm_compute; reflexivity).
  rewrite E in H. destruct (nth_error (s_set s) 2) as [[|]|] eqn:E1; try discriminate H. destruct (nth_error (s_alpha s) 2) as [[q| | |]|] eqn:E2; try discriminate H.
  destruct (write_back s) as [[|[a| | |] [|[b| | |] [|[c| | |] [|]]]]| | |] eqn:E3; try discriminate H.
  apply andb_prop in H as [H1 H]. apply andb_prop in H as [H2 H]. apply andb_prop in H as [H3 H4]. apply Qeq_bool_iff in H1, H2, H3, H4.
  exists s, [Fin a; Fin b; Fin c]. split; [exact E|]. split; [exact E1|]. split; [exists q; split; [exact E2|exact H1]|]. split; [exact E3|].
  split; [exists a; split; [reflexivity|exact H2]|]. split; [exists b; split; [reflexivity|exact H3]|]. exists c; split; [reflexivity|exact H4].
Qed.
Lemma final0_visited s : final0 = Ok s -> exists c1 s1, visited idd idd idp par0 vs0 sg0 c1 s1 /\ solve_iter idd idd idp c1 s1 = Ok (Leave s).
Proof.
  unfold final0. intros E. apply bind_ok in E as (s0 & E0 & E). apply (loop_visited _ _ _ _ _ _ 10 (counter_start 3 + 1) s0 s); [|exact E].
  exact (visited_start idd idd idp par0 vs0 sg0 s0 E0).
Qed.
(** The full claim is false: after shrinking the write-back overwrites entries that are still needed.  With vectors -1, -1, 2
    (classes +, -, -), linear kernel and C = 1/4 the solver computes multiplier 1/4 for the first vector and returns 0 for it. *)
Theorem C72_refuted : exists p gamma coef0 C vs signs c s s' a al,
  svm_case idd idd idp p gamma coef0 C vs signs /\ visited idd idd idp p vs signs c s /\ solve_iter idd idd idp c s = Ok (Leave s') /\
  represents C vs signs s' a /\ write_back s' = Ok al /\
  exists k d, nth_error al k = Some d /\ ~ deq d (Fin (a k)).
Proof.
  destruct final0_facts as (s' & al & E & E1 & (q & E2 & Hq) & Ew & (x & Ex & Hx) & _). destruct (final0_visited s' E) as (c & s & V & El).
  destruct (final_optimal _ _ _ _ _ _ _ _ _ case0 c s s' V El) as (a & r & R & _).
  exists par0, 1%Q, 0%Q, (1 # 4)%Q, vs0, sg0, c, s, s', a, al. split; [apply case0|]. split; [exact V|]. split; [exact El|]. split; [exact R|]. split; [exact Ew|].
  exists 0, (Fin x). split; [exact Ex|]. destruct (rep_alpha _ _ _ _ _ R 2 0 E1) as (d & Ed & Hd). rewrite E2 in Ed. injection Ed as <-.
  change (q == a O)%Q in Hd. change (~ (x == a O)%Q). lra.
Qed.
Lemma svm_solve_inv dexp dtanh dpow p vs signs fuel r al : svm_solve dexp dtanh dpow p vs signs fuel = Ok (r, al) ->
  exists s0 s1, solver_init dexp dtanh dpow (length vs) (repeat (Fin (-(1))) (length vs)) (map (fun b => Fin (sign b)) signs) p (map svec vs) = Ok s0 /\
    solve_loop dexp dtanh dpow fuel (counter_start (length vs) + 1) s0 = Ok s1 /\ write_back s1 = Ok al.
Proof.
  unfold svm_solve, solve. intros E. apply bind_ok in E as (s0 & E0 & E). apply bind_ok in E as (s1 & E1 & E). apply bind_ok in E as (w & Ew & E).
  apply bind_ok in E as (rho & _ & E). injection E as _ ->. exists s0, s1. split; [exact E0|]. split; assumption.
Qed.
Lemma final0_inv s : final0 = Ok s -> exists s0, solver_init idd idd idp 3 (repeat (Fin (-(1))) 3) (map (fun b => Fin (sign b)) sg0) par0 (map svec vs0) = Ok s0 /\
  solve_loop idd idd idp 10 (counter_start 3 + 1) s0 = Ok s.
Proof. unfold final0. intros E. apply bind_ok in E as (s0 & E0 & E). exists s0. split; assumption. Qed.
(** As a consequence the returned multipliers need not satisfy sum y alpha = 0. *)
Theorem C70_returned_sum_refuted : exists p gamma coef0 C vs signs fuel r al,
  svm_case idd idd idp p gamma coef0 C vs signs /\ svm_solve idd idd idp p vs signs fuel = Ok (r, al) /\
  forall a, (forall k, k < length vs -> exists d, nth_error al k = Some d /\ deq d (Fin (a k))) -> ~ feasible (length vs) (ylab signs) C a.
Proof.
  destruct final0_facts as (s' & al & E & _ & _ & Ew & (x0 & X0 & H0) & (x1 & X1 & H1) & (x2 & X2 & H2)).
  destruct (run_ok _ _ _ _ _ _ _ _ _ case0 10) as [Ed|(r & al' & a & Er & _)].
  { exfalso. assert (match svm_solve idd idd idp par0 vs0 sg0 10 with Diverge => false | _ => true end = true) as Hd by (vm_compute; reflexivity).
    rewrite Ed in Hd. discriminate Hd. }
  assert (al' = al) as ->.
  { destruct (svm_solve_inv _ _ _ _ _ _ _ _ _ Er) as (s0 & s1 & E0 & E1 & E2). apply final0_inv in E as (s0' & E0' & E). change (length vs0) with 3 in E0, E1.
    rewrite E0' in E0. injection E0 as <-. rewrite E in E1. injection E1 as <-. rewrite Ew in E2. injection E2 as <-. reflexivity. }
  exists par0, 1%Q, 0%Q, (1 # 4)%Q, vs0, sg0, 10, (Fin r), al. split; [apply case0|]. split; [exact Er|]. intros b Hb [_ Hs].
  destruct (Hb 0) as (d0 & D0 & Q0); [simpl; lia|]. destruct (Hb 1) as (d1 & D1 & Q1); [simpl; lia|]. destruct (Hb 2) as (d2 & D2 & Q2); [simpl; lia|].
  rewrite X0 in D0. rewrite X1 in D1. rewrite X2 in D2. injection D0 as <-. injection D1 as <-. injection D2 as <-.
  change (x0 == b 0%nat)%Q in Q0. change (x1 == b 1%nat)%Q in Q1. change (x2 == b 2%nat)%Q in Q2.
  change (sum_over 3 (fun k => ylab sg0 k * b k) == 0)%Q in Hs. unfold sum_over, qsum in Hs. cbn [seq map fold_right] in Hs. unfold ylab, sg0, sign in Hs. cbn [nth] in Hs. lra.
Qed.

(** ** C93: how far from the optimum the solver stops *)
Theorem C93_near_optimal dexp dtanh dpow p gamma coef0 C vs signs fuel r al b : svm_case dexp dtanh dpow p gamma coef0 C vs signs ->
  psd (length vs) (kern dexp dtanh dpow p gamma coef0 vs) -> fuel <= Nat.min (length vs) 1000 -> svm_solve dexp dtanh dpow p vs signs fuel = Ok (r, al) ->
  feasible (length vs) (ylab signs) C b ->
  exists a, (forall k, k < length vs -> exists d, nth_error al k = Some d /\ deq d (Fin (a k))) /\
    (objective (length vs) (ylab signs) (kern dexp dtanh dpow p gamma coef0 vs) a <=
     objective (length vs) (ylab signs) (kern dexp dtanh dpow p gamma coef0 vs) b + (1 # 1000) * C * inject_Z (Z.of_nat (length vs)))%Q.
Proof.
  intros H Hp Hf E Hb. destruct (run_ok dexp dtanh dpow p gamma coef0 C vs signs H fuel) as [E'|(r' & al' & a & E' & Ho & Hl & _ & Hv)]; rewrite E in E'; [discriminate|].
  injection E' as -> <-. exists a. destruct Hv as [_ Hv]; [unfold counter_start; lia|].
  split; [intros k Hk; destruct (Hv k Hk) as (q & Eq & Hq); exists (Fin q); split; [exact Eq|exact Hq]|].
  exact (near_optimal dexp dtanh dpow p gamma coef0 C vs signs H r' a b Hp Ho Hb).
Qed.
(** the same for the state any run stops in, however long it is *)
Theorem C93_final_state dexp dtanh dpow p gamma coef0 C vs signs c s s' a b : svm_case dexp dtanh dpow p gamma coef0 C vs signs ->
  psd (length vs) (kern dexp dtanh dpow p gamma coef0 vs) -> visited dexp dtanh dpow p vs signs c s -> solve_iter dexp dtanh dpow c s = Ok (Leave s') ->
  represents C vs signs s' a -> feasible (length vs) (ylab signs) C b ->
  (objective (length vs) (ylab signs) (kern dexp dtanh dpow p gamma coef0 vs) a <=
   objective (length vs) (ylab signs) (kern dexp dtanh dpow p gamma coef0 vs) b + (1 # 1000) * C * inject_Z (Z.of_nat (length vs)))%Q.
Proof.
  intros H Hp V E R Hb. exact (near_optimal_state dexp dtanh dpow p gamma coef0 C vs signs H c s s' a b Hp V E R Hb).
Qed.
(** the linear kernel is positive semidefinite, whatever the vectors *)
Theorem C93_linear_psd dexp dtanh dpow p gamma coef0 vs : p_kernel p = LINEAR -> psd (length vs) (kern dexp dtanh dpow p gamma coef0 vs).
Proof. apply linear_psd. Qed.

(** ** Concrete cases *)
Example C69_case : swap_history [(0, 2); (1, 2)] [[1]; [2]; [3]]%Q [[3]; [1]; [2]]%Q.
Proof.
  apply (history_cons 0 2 _ _ [[3]; [2]; [1]]%Q); [simpl; lia..| |].
  { split; [reflexivity|]. intros [|[|[|[|k]]]]; reflexivity. }
  apply (history_cons 1 2 _ _ [[3]; [1]; [2]]%Q); [simpl; lia..| |constructor].
  split; [reflexivity|]. intros [|[|[|[|k]]]]; reflexivity.
Qed.
(** two separable points: the run ends within the bound of C72 and C93 and returns nonzero multipliers *)
Definition vs1 : list (list Q) := [[0]; [1]]%Q.
Definition par1 : svm_param := mkParam LINEAR 1 (Fin 1) (Fin 0) (Fin 10) true.
Example C72_case : svm_case idd idd idp par1 1 0 10 vs1 [true; false] /\ 2 <= Nat.min (length vs1) 1000 /\
  exists r x y, svm_solve idd idd idp par1 vs1 [true; false] 2 = Ok (Fin r, [Fin x; Fin y]) /\ (r == -(1) /\ x == 2 /\ y == 2)%Q.
Proof.
  split; [|split; [simpl; lia|]].
  - constructor; try reflexivity; [apply libm_id|discriminate|]. intros k Hk. simpl in Hk. destruct k as [|[|k]]; [| |lia]; vm_compute; discriminate.
  - vm_compute. eexists _, _, _. split; [reflexivity|]. repeat split; reflexivity.
Qed.
Example C93_case : feasible 2 (ylab [true; false]) 10 (fun _ => 3%Q).
Proof. split; [intros; lra|]. reflexivity. Qed.
(** a run that shrinks: the states of C70, C71, C91 and C92 are reachable beyond the start *)
Fixpoint advance (n : nat) (c : Z) (s : solver) : res (Z * solver) :=
  match n with
  | O => Ok (c, s)
  | S n' => do r <- solve_iter idd idd idp c s; match r with Leave _ => Diverge | Again c' s' => advance n' c' s' end
  end.
Lemma advance_visited n : forall c s c' s', visited idd idd idp par0 vs0 sg0 c s -> advance n c s = Ok (c', s') -> visited idd idd idp par0 vs0 sg0 c' s'.
Proof.
  induction n as [|n IH]; intros c s c' s' V; cbn [advance].
  - intros E. injection E as <- <-. exact V.
  - intros E. apply bind_ok in E as (r & Er & E). destruct r as [|c1 s1]; [discriminate|]. apply (IH c1 s1); [|exact E]. apply (visited_next _ _ _ _ _ _ c s c1 s1 V Er).
Qed.
Example C71_case : exists c s, visited idd idd idp par0 vs0 sg0 c s /\ s_set s = [2; 1; 0] /\ s_active s = 2 /\
  exists s', solve_iter idd idd idp c s = Ok (Leave s').
Proof.
  assert (match solver_init idd idd idp 3 (repeat (Fin (-(1))) 3) (map (fun b => Fin (sign b)) sg0) par0 (map svec vs0) with
          | Ok s0 => match advance 4 (counter_start 3 + 1) s0 with
                     | Ok (c, s) => match s_set s, s_active s, solve_iter idd idd idp c s with [2; 1; 0], 2, Ok (Leave _) => true | _, _, _ => false end
                     | _ => false end
          | _ => false end = true) as H by (vm_compute; reflexivity).
  destruct (solver_init idd idd idp 3 _ _ par0 _) as [s0| | |] eqn:E0; try discriminate H. destruct (advance 4 (counter_start 3 + 1) s0) as [[c s]| | |] eqn:E; try discriminate H.
  exists c, s. split; [apply (advance_visited 4 _ _ _ _ (visited_start idd idd idp par0 vs0 sg0 s0 E0) E)|].
  destruct (s_set s) as [|[|[|[|]]] [|[|[|]] [|[|] [|]]]]; try discriminate H. split; [reflexivity|].
  destruct (s_active s) as [|[|[|]]]; try discriminate H. split; [reflexivity|].
  destruct (solve_iter idd idd idp c s) as [[s'|]| | |]; try discriminate H. exists s'. reflexivity.
Qed.

Print Assumptions C69_prediction_kernel.
Print Assumptions C69_symmetric.
Print Assumptions C69_training_kernel.
Print Assumptions C70_every_state.
Print Assumptions C70_returned_box.
Print Assumptions C70_returned_sum_refuted.
Print Assumptions C71_bookkeeping.
Print Assumptions C72_before_shrinking_partial.
Print Assumptions C72_refuted.
Print Assumptions C91_safe.
Print Assumptions C91_progress.
Print Assumptions C91_optimal.
Print Assumptions C92_descent.
Print Assumptions C93_near_optimal.
Print Assumptions C93_final_state.
Print Assumptions C93_linear_psd.
