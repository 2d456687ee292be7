(** Model of src/Model/Svm/SvmModel.cpp: training on all pairs of classes, decision values, votes.  Definitions only.
    Class counts and positions are natural numbers here and int in the code. *)
From Coq Require Import String ZArith QArith Bool List.
From Verif Require Import Base AttrModel DataSetModel InstanceListModel PerformanceModel SolverModel.
Import ListNotations.
Local Open Scope string_scope.
Local Open Scope list_scope.
Local Open Scope nat_scope.

(** Data members: SvmModel.h:14-20.  [None] is the uninitialised [parameter] pointer of a model read from a file. *)
Record svm := mkSvm {
  m_dist : counter; m_rho : list dbl; m_nsv : list nat; m_sv : list (list node); m_coef : list (list dbl);
  m_par : option svm_param; m_ncl : nat; m_nprob : nat }.
(** An untrained model: the only constructor reads a stream (SvmModel.cpp:265-296); an empty one leaves all vectors empty. *)
Definition svm_empty : svm := mkSvm [] [] [] [] [] None 0 0.

(** the pairs visited by [for i < c, for j in i+1 .. c-1]: SvmModel.cpp:49-50, 112-113, 189-190, 218-219. *)
Definition class_pairs (c : nat) : list (nat * nat) := flat_map (fun i => map (pair i) (seq (S i) (c - S i))) (seq 0 c).
(** groupClasses: SvmModel.cpp:140-149; the same loop in predictValues 182-185 and for nonZeroStart 103-107. *)
Definition starts (c : nat) (counts : list nat) : res (list nat) :=
  foldM (fun st i => do s <- idxn st (i - 1); do k <- idxn counts (i - 1); Ok (st ++ [s + k])) (seq 1 (c - 1)) [0].
(** vector::resize *)
Definition resize {A} (d : A) (n : nat) (v : list A) : list A := firstn n v ++ repeat d (n - length v).

Section Svm.
Context (dexp dtanh : dbl -> dbl) (dpow : dbl -> Z -> dbl).

(** solveSingle: SvmModel.cpp:151-168. *)
Definition solve_single (fuel : nat) (p : svm_param) (x : list (list node)) (py : list dbl) : res (dbl * list dbl) :=
  let l := length py in
  let y := map (fun v => if dgtb v d0 then d1 else dopp d1) py in
  do r <- solve dexp dtanh dpow fuel l (repeat (dopp d1) l) y p x;
  do al <- mapM (fun i => do a <- idxn (snd r) i; do yi <- idxn y i; Ok (dmul a yi)) (seq 0 l);
  Ok (fst r, al).

(** marking the vectors with a nonzero multiplier: SvmModel.cpp:67-71 / 72-76. *)
Definition mark (al : list dbl) (off from n : nat) (nz : list bool) : res (list bool) :=
  foldM (fun nz k => do b <- idxn nz (from + k);
                     if b : bool then Ok nz
                     else do a <- idxn al (off + k);
                          if dgtb (dabs a) d0 then set_at nz (from + k) true else Ok nz) (seq 0 n) nz.
(** one pairwise subproblem: SvmModel.cpp:51-77. *)
Definition pair_step (fuel : nat) (p : svm_param) (start counts : list nat) (x : list (list node))
    (st : list (dbl * list dbl) * list bool) (ij : nat * nat) : res (list (dbl * list dbl) * list bool) :=
  let '(i, j) := ij in
  do si <- idxn start i; do sj <- idxn start j; do ci <- idxn counts i; do cj <- idxn counts j;
  do x1 <- mapM (fun k => idxn x (si + k)) (seq 0 ci);
  do x2 <- mapM (fun k => idxn x (sj + k)) (seq 0 cj);
  do w <- solve_single fuel p (x1 ++ x2) (repeat d1 ci ++ repeat (dopp d1) cj);
  do nz1 <- mark (snd w) 0 si ci (snd st);
  do nz2 <- mark (snd w) ci sj cj nz1;
  Ok (fst st ++ [w], nz2).
(** number of marked vectors of one class: SvmModel.cpp:88-94. *)
Definition marked (nz : list bool) (from n : nat) : res nat :=
  foldM (fun c k => do b <- idxn nz (from + k); Ok (if b : bool then S c else c)) (seq 0 n) 0.
(** writing the multipliers of one class of one pair into a coefficient row: SvmModel.cpp:118-124 / 125-131. *)
Definition write_coef (nz : list bool) (al : list dbl) (off from n q : nat) (row : list dbl) : res (list dbl) :=
  do r <- foldM (fun rq k => do b <- idxn nz (from + k);
                             if b : bool then do a <- idxn al (off + k); do row' <- set_at (fst rq) (snd rq) a; Ok (row', S (snd rq))
                             else Ok rq) (seq 0 n) (row, q);
  Ok (fst r).
Definition coef_step (start counts nzstart : list nat) (nz : list bool) (ws : list (dbl * list dbl))
    (st : list (list dbl) * nat) (ij : nat * nat) : res (list (list dbl) * nat) :=
  let '(i, j) := ij in
  let '(m, p) := st in
  do si <- idxn start i; do sj <- idxn start j; do ci <- idxn counts i; do cj <- idxn counts j;
  do w <- idxn ws p;
  do qi <- idxn nzstart i; do r1 <- idxn m (j - 1); do r1' <- write_coef nz (snd w) 0 si ci qi r1; do m1 <- set_at m (j - 1) r1';
  do qj <- idxn nzstart j; do r2 <- idxn m1 i; do r2' <- write_coef nz (snd w) ci sj cj qj r2; do m2 <- set_at m1 i r2';
  Ok (m2, S p).
(** train: SvmModel.cpp:18-138.  The second component is the caller's list, which train sorts in place (line 33). *)
Definition svm_train (fuel : nat) (old : svm) (l : ilist) (p : svm_param) : res (svm * ilist) :=
  do x0 <- atn l 0;
  if negb (discrete_check x0) then Throw DiscreteNotAllowed
  else
    let l := sort_class l in
    let n := length l in
    let dist := class_distribution l in
    let c := length dist in
    let counts := map (fun k => ccount dist k) (mkeys dist) in
    let x := map inst_nodes l in
    do start <- starts c counts;
    let nprob := Nat.div (c * (c - 1)) 2 in
    do r <- foldM (pair_step fuel p start counts x) (class_pairs c) ([], repeat false n);
    let '(ws, nz) := r in
    do rhos <- mapM (fun i => do w <- idxn ws i; Ok (fst w)) (seq 0 nprob);
    do nsv <- mapM (fun i => do s <- idxn start i; do k <- idxn counts i; marked nz s k) (seq 0 c);
    let total := fold_left Nat.add nsv 0 in
    let sv := map fst (filter snd (combine x nz)) in
    do nzstart <- starts c nsv;
    let coef0 := map (resize d0 total) (resize [] (c - 1) (m_coef old)) in
    do r2 <- foldM (coef_step start counts nzstart nz ws) (class_pairs c) (coef0, 0);
    Ok (mkSvm dist (m_rho old ++ rhos) (m_nsv old ++ nsv) (m_sv old ++ sv) (fst r2) (Some p) c nprob, l).

(** one product sum: SvmModel.cpp:198-200 / 201-203. *)
Definition coef_sum (coef kv : list dbl) (from n : nat) (acc : dbl) : res dbl :=
  foldM (fun s k => do a <- idxn coef (from + k); do v <- idxn kv (from + k); Ok (dadd s (dmul a v))) (seq 0 n) acc.
(** predictValues: SvmModel.cpp:170-210. *)
Definition predict_values (m : svm) (x : list node) : res (list dbl) :=
  do kv <- mapM (fun v => match m_par m with Some p => Ok (kernel_fun dexp dtanh dpow p x v) | None => UB Uninit end) (m_sv m);
  do start <- starts (m_ncl m) (m_nsv m);
  do r <- foldM (fun st ij =>
     let '(i, j) := (ij : nat * nat) in
     let '(res, p) := (st : list dbl * nat) in
     do si <- idxn start i; do sj <- idxn start j; do ci <- idxn (m_nsv m) i; do cj <- idxn (m_nsv m) j;
     do c1 <- idxn (m_coef m) (j - 1); do c2 <- idxn (m_coef m) i;
     do s1 <- coef_sum c1 kv si ci d0; do s2 <- coef_sum c2 kv sj cj s1; do rho <- idxn (m_rho m) p;
     Ok (res ++ [dsub s2 rho], S p)) (class_pairs (m_ncl m)) ([], 0);
  Ok (fst r).
(** the vote loop: SvmModel.cpp:217-227. *)
Definition count_votes (c : nat) (vals : list dbl) : res (list nat) :=
  do r <- foldM (fun st ij =>
     let '(i, j) := (ij : nat * nat) in
     let '(votes, pos) := (st : list nat * nat) in
     do v <- idxn vals pos;
     let w := if dgtb v d0 then i else j in
     do k <- idxn votes w; do votes' <- set_at votes w (S k); Ok (votes', S pos)) (class_pairs c) (repeat 0 c, 0);
  Ok (fst r).
(** the class with most votes: SvmModel.cpp:228-235. *)
Definition best_vote (c : nat) (votes : list nat) : res nat :=
  do v0 <- idxn votes 0;
  do r <- foldM (fun st i => do v <- idxn votes i; Ok (if fst st <? v then (v, i) else st)) (seq 1 (c - 1)) (v0, 0);
  Ok (snd r).
(** predict: SvmModel.cpp:212-238. *)
Definition svm_predict (m : svm) (q : instance) : res string :=
  do vals <- predict_values m (inst_nodes q);
  do votes <- count_votes (m_ncl m) vals;
  do b <- best_vote (m_ncl m) votes;
  idxn (mkeys (m_dist m)) b.
End Svm.
