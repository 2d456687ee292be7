(** Model of src/Model/Svm/{Kernel,QMatrix,Problem,SolutionInfo,Solver}.  Definitions only. *)
From Coq Require Import String ZArith QArith Bool List.
From Verif Require Import Base AttrModel.
Import ListNotations.
Local Open Scope string_scope.
Local Open Scope list_scope.
Local Open Scope nat_scope.

(** KernelType.h. *)
Inductive kernel_type := LINEAR | POLYNOM | RBF | SIGMOID.
(** SvmParameter.h / SvmParameter.cpp:17-23 (the seed is unused by the solver; [shrinking] is always true). *)
Record svm_param := mkParam {
  p_kernel : kernel_type; p_degree : Z; p_gamma : dbl; p_coef0 : dbl; p_C : dbl; p_shrinking : bool }.

(** std::swap of two entries of a vector through operator[]. *)
Definition swap_at {A} (l : list A) (i j : nat) : res (list A) :=
  do a <- idxn l i; do b <- idxn l j; Ok (upd (upd l i b) j a).
(** [v[i] = x] through operator[]. *)
Definition set_at {A} (l : list A) (i : nat) (x : A) : res (list A) := do _ <- idxn l i; Ok (upd l i x).

Section Svm.
(** libm: exp, tanh, pow(double, int). *)
Context (dexp dtanh : dbl -> dbl) (dpow : dbl -> Z -> dbl).

(** ** Kernel (Kernel.h).  The four parameter fields are kept as the parameter record. *)
Record kernel := mkKernel { k_x : list (list node); k_sq : list dbl; k_par : svm_param }.

(** Kernel::Kernel: Kernel.cpp:17-32. *)
Definition kernel_new (l : nat) (x : list (list node)) (p : svm_param) : res kernel :=
  do xs <- mapM (idxn x) (seq 0 l);
  do sq <- (match p_kernel p with
            | RBF => mapM (fun i => do xi <- idxn x i; Ok (ndot xi xi)) (seq 0 l)
            | _ => Ok []
            end);
  Ok (mkKernel xs sq p).
(** Kernel::swapIndex: Kernel.cpp:40-51. *)
Definition kernel_swap (k : kernel) (i j : nat) : res kernel :=
  do xs <- swap_at (k_x k) i j;
  do sq <- (match k_sq k with [] => Ok [] | _ => swap_at (k_sq k) i j end);
  Ok (mkKernel xs sq (k_par k)).
(** Kernel::linear/polynom/rbf/sigmoid/function(int,int): Kernel.cpp:60-117. *)
Definition kernel_at (k : kernel) (i j : nat) : res dbl :=
  do xi <- idxn (k_x k) i; do xj <- idxn (k_x k) j;
  let p := k_par k in
  match p_kernel p with
  | LINEAR => Ok (ndot xi xj)
  | POLYNOM => Ok (dpow (dadd (dmul (p_gamma p) (ndot xi xj)) (p_coef0 p)) (p_degree p))
  | RBF => do si <- idxn (k_sq k) i; do sj <- idxn (k_sq k) j;
           Ok (dexp (dmul (dopp (p_gamma p)) (dsub (dadd si sj) (dmul (Fin 2) (ndot xi xj)))))
  | SIGMOID => Ok (dtanh (dadd (dmul (p_gamma p) (ndot xi xj)) (p_coef0 p)))
  end.
(** The merge loop of the static RBF kernel: Kernel.cpp:137-162; [acc] is [sum]. *)
Fixpoint rbf_loop (a b : list node) (acc : dbl) {struct a} : dbl :=
  match a with
  | [] => fold_left (fun s q => dadd s (dmul (snd q) (snd q))) b acc
  | (i, x) :: a' =>
      (fix inner (b : list node) (acc : dbl) {struct b} : dbl :=
         match b with
         | [] => fold_left (fun s q => dadd s (dmul (snd q) (snd q))) a acc
         | (j, y) :: b' =>
             if (i =? j)%Z then rbf_loop a' b' (dadd acc (dmul (dsub x y) (dsub x y)))
             else if (j <? i)%Z then inner b' (dadd acc (dmul y y))
             else rbf_loop a' b (dadd acc (dmul x x))
         end) b acc
  end.
(** Kernel::function(const NodeList&, const NodeList&, SvmParameter* ): Kernel.cpp:130-168. *)
Definition kernel_fun (p : svm_param) (x y : list node) : dbl :=
  match p_kernel p with
  | LINEAR => ndot x y
  | POLYNOM => dpow (dadd (dmul (p_gamma p) (ndot x y)) (p_coef0 p)) (p_degree p)
  | RBF => dexp (dmul (dopp (p_gamma p)) (rbf_loop x y d0))
  | SIGMOID => dtanh (dadd (dmul (p_gamma p) (ndot x y)) (p_coef0 p))
  end.

(** ** QMatrix *)
Record qmatrix := mkQ { q_k : kernel; q_y : list dbl }.
(** QMatrix::QMatrix: QMatrix.cpp:14-20; [l] and [x] are the problem's (Problem.cpp:13-17). *)
Definition qmatrix_new (l : nat) (x : list (list node)) (p : svm_param) (y : list dbl) : res qmatrix :=
  do k <- kernel_new l x p; do ys <- mapM (idxn y) (seq 0 l); Ok (mkQ k ys).
(** QMatrix::getQ: QMatrix.cpp:29-36. *)
Definition get_q (q : qmatrix) (i len : nat) : res (list dbl) :=
  mapM (fun j => do yi <- idxn (q_y q) i; do yj <- idxn (q_y q) j; do kij <- kernel_at (q_k q) i j;
                 Ok (dmul (dmul yi yj) kij)) (seq 0 len).
(** QMatrix::swapIndex: QMatrix.cpp:44-49. *)
Definition qmatrix_swap (q : qmatrix) (i j : nat) : res qmatrix :=
  do k <- kernel_swap (q_k q) i j; do ys <- swap_at (q_y q) i j; Ok (mkQ k ys).

(** ** Solver (Solver.h) *)
(** AlphaStatusType.h *)
Inductive alpha_status := LOWER_BOUND | UPPER_BOUND | FREE.
Definition is_lower (s : alpha_status) := match s with LOWER_BOUND => true | _ => false end.
Definition is_upper (s : alpha_status) := match s with UPPER_BOUND => true | _ => false end.
Definition is_free (s : alpha_status) := match s with FREE => true | _ => false end.

Record solver := mkSolver {
  s_active : nat; s_y : list dbl; s_alpha : list dbl; s_G : list dbl; s_status : list alpha_status; s_Q : qmatrix;
  s_C : dbl; s_b : list dbl; s_set : list nat; s_Gbar : list dbl; s_l : nat; s_unshrinked : bool; s_shrinking : bool }.

(** Assignments to one field. *)
Definition with_active (s : solver) (n : nat) := mkSolver n (s_y s) (s_alpha s) (s_G s) (s_status s) (s_Q s) (s_C s) (s_b s) (s_set s) (s_Gbar s) (s_l s) (s_unshrinked s) (s_shrinking s).
Definition with_alpha (s : solver) v := mkSolver (s_active s) (s_y s) v (s_G s) (s_status s) (s_Q s) (s_C s) (s_b s) (s_set s) (s_Gbar s) (s_l s) (s_unshrinked s) (s_shrinking s).
Definition with_G (s : solver) v := mkSolver (s_active s) (s_y s) (s_alpha s) v (s_status s) (s_Q s) (s_C s) (s_b s) (s_set s) (s_Gbar s) (s_l s) (s_unshrinked s) (s_shrinking s).
Definition with_status (s : solver) v := mkSolver (s_active s) (s_y s) (s_alpha s) (s_G s) v (s_Q s) (s_C s) (s_b s) (s_set s) (s_Gbar s) (s_l s) (s_unshrinked s) (s_shrinking s).
Definition with_Gbar (s : solver) v := mkSolver (s_active s) (s_y s) (s_alpha s) (s_G s) (s_status s) (s_Q s) (s_C s) (s_b s) (s_set s) v (s_l s) (s_unshrinked s) (s_shrinking s).
Definition with_unshrinked (s : solver) v := mkSolver (s_active s) (s_y s) (s_alpha s) (s_G s) (s_status s) (s_Q s) (s_C s) (s_b s) (s_set s) (s_Gbar s) (s_l s) v (s_shrinking s).

(** The status updateAlphaStatus (Solver.cpp:172-182) assigns for a multiplier [a]. *)
Definition status_of (C a : dbl) : alpha_status :=
  if dgeb a C then UPPER_BOUND else if dleb a d0 then LOWER_BOUND else FREE.
(** Solver::updateAlphaStatus: Solver.cpp:172-182. *)
Definition update_status (s : solver) (i : nat) : res solver :=
  do a <- idxn (s_alpha s) i; do v <- set_at (s_status s) i (status_of (s_C s) a); Ok (with_status s v).

(** [for k in [from, from+n): v[k] += f[k]] with [f] a vector of increments: the accumulation loops
    Solver.cpp:49-51, 53-55, 134-136, 144-150, 156-162, 224-226. *)
Definition add_range (from n : nat) (f : nat -> res dbl) (v : list dbl) : res (list dbl) :=
  foldM (fun v k => do x <- idxn v k; do d <- f k; set_at v k (dadd x d)) (seq from n) v.

(** Solver::Solver (Solver.cpp:10-17) followed by the set-up part of solve (Solver.cpp:25-58). *)
Definition solver_init (l : nat) (b y : list dbl) (p : svm_param) (x : list (list node)) : res solver :=
  do q <- qmatrix_new l x p y;
  do g <- mapM (idxn b) (seq 0 l);
  let C := p_C p in
  let s0 := mkSolver l y (repeat d0 l) g (repeat (status_of C d0) l) q C b (seq 0 l) (repeat d0 l) l false (p_shrinking p) in
  foldM (fun s i =>
    do st <- idxn (s_status s) i;
    if is_lower st then Ok s
    else do qi <- get_q (s_Q s) i l;
         do a <- idxn (s_alpha s) i;
         do g <- add_range 0 l (fun j => do q <- idxn qi j; Ok (dmul a q)) (s_G s);
         do gb <- (if is_upper st then add_range 0 l (fun j => do q <- idxn qi j; Ok (dmul C q)) (s_Gbar s) else Ok (s_Gbar s));
         Ok (with_Gbar (with_G s g) gb)) (seq 0 l) s0.

(** Solver::swapIndex: Solver.cpp:200-209. *)
Definition swap_index (s : solver) (i j : nat) : res solver :=
  do q <- qmatrix_swap (s_Q s) i j;
  do y <- swap_at (s_y s) i j;
  do g <- swap_at (s_G s) i j;
  do a <- swap_at (s_alpha s) i j;
  do b <- swap_at (s_b s) i j;
  do gb <- swap_at (s_Gbar s) i j;
  do set <- swap_at (s_set s) i j;
  do st <- swap_at (s_status s) i j;
  Ok (mkSolver (s_active s) y a g st q (s_C s) b set gb (s_l s) (s_unshrinked s) (s_shrinking s)).

(** Solver::reconstructGradient: Solver.cpp:211-229. *)
Definition reconstruct (s : solver) : res solver :=
  if s_active s =? s_l s then Ok s
  else
    let n := s_active s in
    do g <- foldM (fun g i => do gb <- idxn (s_Gbar s) i; do b <- idxn (s_b s) i; set_at g i (dadd gb b))
                  (seq n (s_l s - n)) (s_G s);
    do g' <- foldM (fun g i =>
        do st <- idxn (s_status s) i;
        if is_free st
        then do qi <- get_q (s_Q s) i (s_l s); do a <- idxn (s_alpha s) i;
             add_range n (s_l s - n) (fun j => do q <- idxn qi j; Ok (dmul a q)) g
        else Ok g) (seq 0 n) g;
    Ok (with_G s g').

(** DBL_MAX = (2^53 - 1) * 2^971; the literals 0.001 and 0.001 * 10 are taken exactly. *)
Definition dbl_max : dbl := Fin (inject_Z ((2 ^ 53 - 1) * 2 ^ 971)).
Definition eps : dbl := Fin (1 # 1000).
Definition eps10 : dbl := Fin (1 # 100).

(** State of selectWorkingSet: GMax[0], GMax[1], out[0], out[1] ([None]: still the uninitialised [new int[2]]). *)
Record wsel := mkSel { g0 : dbl; g1 : dbl; o0 : option nat; o1 : option nat }.
Definition sel_up0 (w : wsel) (g : dbl) (i : nat) := if dgeb g (g0 w) then mkSel g (g1 w) (Some i) (o1 w) else w.
Definition sel_up1 (w : wsel) (g : dbl) (i : nat) := if dgeb g (g1 w) then mkSel (g0 w) g (o0 w) (Some i) else w.
(** One iteration of the loop Solver.cpp:233-261. *)
Definition sel_step (s : solver) (w : wsel) (i : nat) : res wsel :=
  do y <- idxn (s_y s) i; do g <- idxn (s_G s) i; do st <- idxn (s_status s) i;
  Ok (if deqb y d1
      then let w := if is_upper st then w else sel_up0 w (dopp g) i in
           if is_lower st then w else sel_up1 w g i
      else let w := if is_upper st then w else sel_up1 w (dopp g) i in
           if is_lower st then w else sel_up0 w g i).
(** Solver::selectWorkingSet: Solver.cpp:231-266; the [out] array is passed in and out. *)
Definition select_ws (s : solver) (out : option nat * option nat) : res (bool * (option nat * option nat)) :=
  do w <- foldM (sel_step s) (seq 0 (s_active s)) (mkSel (dopp dbl_max) (dopp dbl_max) (fst out) (snd out));
  Ok (dltb (dadd (g0 w) (g1 w)) eps, (o0 w, o1 w)).
(** Reading an entry of the [out] array. *)
Definition get_out (o : option nat) : res nat := match o with Some i => Ok i | None => UB Uninit end.

(** The [continue] tests of the two loops of doShrinking: [cmp x m] is [x >= m] in the first (Solver.cpp:308-332),
    [x < m] in the second (Solver.cpp:343-367). *)
Definition shrink_skip (cmp : dbl -> dbl -> bool) (s : solver) (gm0 gm1 : dbl) (k : nat) : res bool :=
  do st <- idxn (s_status s) k; do y <- idxn (s_y s) k; do g <- idxn (s_G s) k;
  Ok (match st with
      | LOWER_BOUND => if deqb y d1 then cmp (dopp g) gm0 else cmp (dopp g) gm1
      | UPPER_BOUND => if deqb y d1 then cmp g gm1 else cmp g gm0
      | FREE => true
      end).
(** First loop of doShrinking: Solver.cpp:307-336.  [n] is activeSize - k, which drops by one in every iteration. *)
Fixpoint shrink_loop (n k : nat) (gm0 gm1 : dbl) (s : solver) : res solver :=
  match n with
  | O => Ok s
  | S n' =>
      do skip <- shrink_skip dgeb s gm0 gm1 k;
      if skip : bool then shrink_loop n' (S k) gm0 gm1 s
      else let a := s_active s - 1 in
           do s' <- swap_index (with_active s a) k a; shrink_loop n' k gm0 gm1 s'
  end.
(** Second loop: Solver.cpp:342-371.  [m] is k + 1, [n] is m - activeSize, which drops by one in every iteration. *)
Fixpoint unshrink_loop (n m : nat) (gm0 gm1 : dbl) (s : solver) : res solver :=
  match n with
  | O => Ok s
  | S n' =>
      do skip <- shrink_skip dltb s gm0 gm1 (m - 1);
      if skip : bool then unshrink_loop n' (m - 1) gm0 gm1 s
      else do s' <- swap_index s (m - 1) (s_active s);
           unshrink_loop n' m gm0 gm1 (with_active s' (S (s_active s)))
  end.
(** Solver::doShrinking: Solver.cpp:299-372. *)
Definition do_shrinking (s : solver) : res solver :=
  do r <- select_ws s (None, None);
  let '(stop, out) := r in
  if stop : bool then Ok s
  else
    do i <- get_out (fst out); do j <- get_out (snd out);
    do yj <- idxn (s_y s) j; do gj <- idxn (s_G s) j; do yi <- idxn (s_y s) i; do gi <- idxn (s_G s) i;
    let gm0 := dmul (dopp yj) gj in
    let gm1 := dmul yi gi in
    do s1 <- shrink_loop (s_active s) 0 gm0 gm1 s;
    if s_unshrinked s1 || dgtb (dopp (dadd gm0 gm1)) eps10 then Ok s1
    else do s2 <- reconstruct (with_unshrinked s1 true);
         unshrink_loop (s_l s2 - s_active s2) (s_l s2) gm0 gm1 s2.

(** The analytic two-variable update with clipping: Solver.cpp:83-131.  [ai], [aj] are alpha[i], alpha[j]; the result is
    their new pair.  The code updates the array in place; that is the same because the working set never consists of one
    index twice (SolverInvProofs.select_ok). *)
Definition pair_update (C yi yj gi gj ai aj qii qjj qij : dbl) : dbl * dbl :=
  if negb (deqb yi yj) then
    let delta := ddiv (dsub (dopp gi) gj) (dfmax (dadd (dadd qii qjj) (dmul (Fin 2) qij)) d0) in
    let diff := dsub ai aj in
    let '(x, y) := (dadd ai delta, dadd aj delta) in
    if dgtb diff d0 then
      let '(x, y) := if dltb y d0 then (diff, d0) else (x, y) in
      if dgtb x C then (C, dsub C diff) else (x, y)
    else
      let '(x, y) := if dltb x d0 then (d0, dopp diff) else (x, y) in
      if dgtb y C then (dadd C diff, C) else (x, y)
  else
    let delta := ddiv (dsub gi gj) (dfmax (dsub (dadd qii qjj) (dmul (Fin 2) qij)) d0) in
    let sum := dadd ai aj in
    let '(x, y) := (dsub ai delta, dadd aj delta) in
    if dgtb sum C then
      let '(x, y) := if dgtb x C then (C, dsub sum C) else (x, y) in
      if dgtb y C then (dsub sum C, C) else (x, y)
    else
      let '(x, y) := if dltb y d0 then (sum, d0) else (x, y) in
      if dltb x d0 then (d0, sum) else (x, y).

(** Lines 141-152 / 153-164: the bound status of [i] changed from [was] to the present one. *)
Definition gbar_update (s : solver) (i : nat) (was : bool) : res solver :=
  do st <- idxn (s_status s) i;
  if Bool.eqb was (is_upper st) then Ok s
  else do q <- get_q (s_Q s) i (s_l s);
       do gb <- add_range 0 (s_l s)
                  (fun k => do x <- idxn q k; Ok (if was then dopp (dmul (s_C s) x) else dmul (s_C s) x)) (s_Gbar s);
       Ok (with_Gbar s gb).
(** Body of the main loop for the working set (i, j): Solver.cpp:79-164. *)
Definition take_step (s : solver) (i j : nat) : res solver :=
  let n := s_active s in
  do qi <- get_q (s_Q s) i n; do qj <- get_q (s_Q s) j n;
  do ai <- idxn (s_alpha s) i; do aj <- idxn (s_alpha s) j;
  do yi <- idxn (s_y s) i; do yj <- idxn (s_y s) j; do gi <- idxn (s_G s) i; do gj <- idxn (s_G s) j;
  do qii <- idxn qi i; do qjj <- idxn qj j; do qij <- idxn qi j;
  let '(ai', aj') := pair_update (s_C s) yi yj gi gj ai aj qii qjj qij in
  do a1 <- set_at (s_alpha s) i ai'; do a2 <- set_at a1 j aj';
  let di := dsub ai' ai in
  let dj := dsub aj' aj in
  do g <- add_range 0 n (fun k => do x <- idxn qi k; do y <- idxn qj k; Ok (dadd (dmul x di) (dmul y dj))) (s_G s);
  do ui <- idxn (s_status s) i; do uj <- idxn (s_status s) j;
  do s1 <- update_status (with_G (with_alpha s a2) g) i;
  do s2 <- update_status s1 j;
  do s3 <- gbar_update s2 i (is_upper ui);
  gbar_update s3 j (is_upper uj).

(** fmin(l, 1000). *)
Definition counter_start (l : nat) : Z := Z.min (Z.of_nat l) 1000.
(** One iteration of the main loop, Solver.cpp:60-165: leave it, or go on with [counter] and the state. *)
Inductive iter_result := Leave (s : solver) | Again (counter : Z) (s : solver).
Definition solve_iter (counter : Z) (s : solver) : res iter_result :=
  let c := (counter - 1)%Z in
  do p <- (if (c =? 0)%Z
           then do s' <- (if s_shrinking s then do_shrinking s else Ok s); Ok (counter_start (s_l s), s')
           else Ok (c, s));
  let '(c, s) := p in
  do r <- select_ws s (None, None);
  let '(stop, out) := r in
  if stop : bool then
    do s1 <- reconstruct s;
    let s' := with_active s1 (s_l s1) in
    do r' <- select_ws s' out;
    let '(stop', out') := r' in
    if stop' : bool then Ok (Leave s')
    else do i <- get_out (fst out'); do j <- get_out (snd out');
         do s'' <- take_step s' i j; Ok (Again 1 s'')
  else do i <- get_out (fst out); do j <- get_out (snd out);
       do s'' <- take_step s i j; Ok (Again c s'').
(** The main loop, on fuel. *)
Fixpoint solve_loop (fuel : nat) (counter : Z) (s : solver) : res solver :=
  match fuel with
  | O => Diverge
  | S fuel' => do r <- solve_iter counter s;
               match r with Leave s' => Ok s' | Again c s' => solve_loop fuel' c s' end
  end.

(** The final write-back [alpha[activeSet[i]] = alpha[i]], in place: Solver.cpp:166-168. *)
Definition write_back (s : solver) : res (list dbl) :=
  foldM (fun a i => do k <- idxn (s_set s) i; do x <- idxn a i; set_at a k x) (seq 0 (s_l s)) (s_alpha s).

(** Solver::calculateRho: Solver.cpp:268-297; state: upperBound, lowerBound, sumFree, numberOfFree. *)
Definition rho_step (s : solver) (acc : dbl * dbl * dbl * nat) (i : nat) : res (dbl * dbl * dbl * nat) :=
  let '(ub, lb, sf, nf) := acc in
  do y <- idxn (s_y s) i; do g <- idxn (s_G s) i; do st <- idxn (s_status s) i;
  let yg := dmul y g in
  Ok (match st with
      | LOWER_BOUND => if dgtb y d0 then (dfmin ub yg, lb, sf, nf) else (ub, dfmax lb yg, sf, nf)
      | UPPER_BOUND => if dltb y d0 then (dfmin ub yg, lb, sf, nf) else (ub, dfmax lb yg, sf, nf)
      | FREE => (ub, lb, dadd sf yg, S nf)
      end).
Definition calculate_rho (s : solver) : res dbl :=
  do acc <- foldM (rho_step s) (seq 0 (s_active s)) (dbl_max, dopp dbl_max, d0, 0);
  let '(ub, lb, sf, nf) := acc in
  Ok (if 0 <? nf then ddiv sf (dofnat nf) else ddiv (dadd ub lb) (Fin 2)).

(** Solver::solve: Solver.cpp:19-170.  The result is SolutionInfo(rho, alpha). *)
Definition solve (fuel l : nat) (b y : list dbl) (p : svm_param) (x : list (list node)) : res (dbl * list dbl) :=
  do s <- solver_init l b y p x;
  do s' <- solve_loop fuel (counter_start l + 1) s;
  do a <- write_back s';
  do r <- calculate_rho s';
  Ok (r, a).
End Svm.
