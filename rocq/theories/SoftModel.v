(** Model of src/Model/DecisionTree/SoftDecisionNode.cpp and SoftDecisionTree.cpp.  Definitions only. *)
From Coq Require Import String ZArith QArith Bool List.
From Verif Require Import Base AttrModel DataSetModel InstanceListModel PartitionModel PerformanceModel DistanceModel GaussianModel TreeModel NetModel.
Import ListNotations.
Local Open Scope string_scope.
Local Open Scope list_scope.
Local Open Scope nat_scope.

(** The members of a node: SoftDecisionNode.h:16-21.  [parent] is not stored; a node is named by its path from the root. *)
Record snode := mkSn { s_w0s : list dbl; s_w : list dbl; s_outputs : list dbl; s_weight : dbl }.
(** A node has no children or two: SoftDecisionNode.cpp:88-93, 103-105, 125. *)
Inductive stree := SLeaf (n : snode) | SNode (n : snode) (l r : stree).
Definition s_node (t : stree) : snode := match t with SLeaf n | SNode n _ _ => n end.
Definition with_node (n : snode) (t : stree) : stree := match t with SLeaf _ => SLeaf n | SNode _ l r => SNode n l r end.
Definition set_weight (a : dbl) (t : stree) : stree :=
  let n := s_node t in with_node (mkSn (s_w0s n) (s_w n) (s_outputs n) a) t.
Definition set_w0s (v : list dbl) (t : stree) : stree :=
  let n := s_node t in with_node (mkSn v (s_w n) (s_outputs n) (s_weight n)) t.

(** The node at a path ([false] is children.at(0)), and its replacement.  The code holds a pointer; a path that leads nowhere
    is an invalid pointer. *)
Fixpoint sub (t : stree) (p : list bool) {struct p} : res stree :=
  match p, t with
  | [], _ => Ok t
  | b :: p', SNode _ l r => sub (if b then r else l) p'
  | _ :: _, SLeaf _ => UB NullDeref
  end.
Fixpoint put (t : stree) (p : list bool) (s : stree) {struct p} : stree :=
  match p, t with
  | [], _ => s
  | true :: p', SNode n l r => SNode n l (put r p' s)
  | false :: p', SNode n l r => SNode n (put l p' s) r
  | _ :: _, SLeaf _ => t
  end.
(** weights of the nodes on the path, the root excluded, from the top *)
Fixpoint path_weights (t : stree) (p : list bool) {struct p} : list dbl :=
  match p, t with
  | b :: p', SNode _ l r => let c := if b then r else l in s_weight (s_node c) :: path_weights c p'
  | _, _ => []
  end.

(** SoftDecisionTreeParameter *)
Record soft_param := mkSPar { sp_seed : Z; sp_decay : dbl; sp_ratio : dbl; sp_epochs : nat; sp_alpha : dbl }.

Section Soft.
(** [rnd k] is the [k]-th value of [(getRandomValue() * 0.02) - 0.01] after [srand(seed)]; the others as in NetModel *)
Context (dexp : dbl -> dbl) (rarr : nat -> Z -> list nat) (perm : Z -> nat -> list nat) (rnd : nat -> dbl).

(** constructor: SoftDecisionNode.cpp:27-42; [k] values have been drawn before. *)
Definition draw (k n : nat) : list dbl := map rnd (seq k n).
Definition new_node (data : ilist) (k : nat) : res (snode * nat) :=
  let c := length (distinct_labels data) in
  do x0 <- atn data 0;
  let d := S (attr_count x0) in
  Ok (mkSn (draw k c) (draw (k + c + c) d) (draw (k + c) c) d0, k + c + c + d).

(** Vector::dotProduct (Math) *)
Definition vdot_chk (u v : list dbl) : res dbl := if Nat.eqb (length u) (length v) then Ok (vdot u v) else Throw VectorSizeMismatch.
(** calculateOutput: SoftDecisionNode.cpp:51-65; the result and the tree with its new [weight] and [outputs] members.  The
    weights of the children are set here after the recursive calls, which neither read nor write them. *)
Fixpoint soft_output (x : list dbl) (t : stree) : res (list dbl * stree) :=
  match t with
  | SLeaf n => Ok (s_w0s n, t)
  | SNode n l r =>
      do v <- vdot_chk (biased x) (s_w n);
      let a := dsigmoid dexp v in
      let b := dsub d1 a in
      do lo <- soft_output x l;
      do ro <- soft_output x r;
      do os <- mapM (fun i => do u <- idxn (fst lo) i; do v <- idxn (fst ro) i; Ok (dadd (dmul a u) (dmul b v))) (seq 0 (length (s_outputs n)));
      Ok (os, SNode (mkSn (s_w0s n) (s_w n) os (s_weight n)) (set_weight a (snd lo)) (set_weight b (snd ro)))
  end.
(** classLabelIndexMap.at(label); the map holds the positions of the distinct labels *)
Definition class_index (labels : list string) (c : string) : res nat :=
  if mem_str c labels then Ok (find_pos c labels) else Throw OutOfRange.
(** the position of the largest output: SoftDecisionNode.cpp:73-80, SoftDecisionTree.cpp:26-33 *)
Definition arg_max (o : list dbl) : res nat := match o with [] => UB BadIndex | a :: o' => Ok (max_scan 1 o' (0, a)) end.
(** errorOfSoftDecisionTree: SoftDecisionNode.cpp:67-86. *)
Definition soft_error (labels : list string) (cv : ilist) (t : stree) : res (nat * stree) :=
  foldM (fun st x => do c <- class_index labels (label x);
                     do o <- soft_output (inst_vector x) (snd st);
                     do i <- arg_max (fst o);
                     Ok (if Nat.eqb i c then fst st else S (fst st), snd o)) cv (0, t).

(** ** gradientDescentSoftDecisionTree *)
Definition kronecker (r k : nat) : dbl := if Nat.eqb r k then d1 else d0.
(** SoftDecisionNode.cpp:157-162 for one child with responses [w], its weight and previous updates [pv] *)
Definition leaf_update (alpha mult : dbl) (out : list dbl) (r : nat) (weight : dbl) (st : list dbl * list dbl) (k : nat) : res (list dbl * list dbl) :=
  do o <- idxn out k;
  do w <- idxn (fst st) k;
  do pv <- idxn (snd st) k;
  let g := dmul (dmul mult (dsub (kronecker r k) o)) weight in
  Ok (upd (fst st) k (dadd w (dadd g (dmul alpha pv))), upd (snd st) k g).
(** SoftDecisionNode.cpp:163-176 for one [t]; a feature that is not continuous is a bad cast *)
Definition gate_update (labels : list string) (alpha mult : dbl) (out : list dbl) (r : nat) (x : instance) (cl cr : snode) (st : list dbl * list dbl) (t : nat) : res (list dbl * list dbl) :=
  do f <- (if Nat.eqb t 0 then Ok d1 else do a <- get_attr x (Z.of_nat t - 1); cont_value a);
  do s <- foldM (fun s k => do o <- idxn out k; do u <- idxn (s_outputs cl) k; do v <- idxn (s_outputs cr) k;
                            Ok (dadd s (dmul (dmul (dmul (dmul (dmul mult (dsub (kronecker r k) o)) f) (dsub u v)) (s_weight cl)) (s_weight cr))))
                (seq 0 (length labels)) d0;
  do w <- idxn (fst st) t;
  do pv <- idxn (snd st) t;
  Ok (upd (fst st) t (dadd w (dadd s (dmul alpha pv))), upd (snd st) t s).
(** previousUpdateLeftw0s, previousUpdateRightw0s, previousUpdatew *)
Record gstate := mkG { g_tree : stree; g_l : list dbl; g_r : list dbl; g_w : list dbl }.
(** one instance: SoftDecisionNode.cpp:141-176; [p] is the path of [this].  The two children's responses are updated
    alternately in the code; they do not influence each other. *)
Definition grad_inst (labels : list string) (alpha eta : dbl) (p : list bool) (st : gstate) (x : instance) : res gstate :=
  do o <- soft_output (inst_vector x) (g_tree st);
  let out := normalize dexp (fst o) in
  do r <- class_index labels (label x);
  let t := snd o in
  let mult := fold_left dmul (rev (path_weights t p)) eta in
  do this <- sub t p;
  match this with
  | SLeaf _ => Throw OutOfRange
  | SNode n cl cr =>
      do lw <- foldM (leaf_update alpha mult out r (s_weight (s_node cl))) (seq 0 (length labels)) (s_w0s (s_node cl), g_l st);
      do rw <- foldM (leaf_update alpha mult out r (s_weight (s_node cr))) (seq 0 (length labels)) (s_w0s (s_node cr), g_r st);
      do ww <- foldM (gate_update labels alpha mult out r x (s_node cl) (s_node cr)) (seq 0 (S (attr_count x))) (s_w n, g_w st);
      Ok (mkG (put t p (SNode (mkSn (s_w0s n) (fst ww) (s_outputs n) (s_weight n)) (set_w0s (fst lw) cl) (set_w0s (fst rw) cr)))
              (snd lw) (snd rw) (snd ww))
  end.
(** SoftDecisionNode.cpp:133-180: the tree and the shuffled data. *)
Definition descent (labels : list string) (par : soft_param) (p : list bool) (eta : dbl) (s : stree * ilist) : res (stree * ilist) :=
  do x0 <- atn (snd s) 0;
  let z n := repeat d0 n in
  do st <- foldM (fun st (_ : nat) =>
                    let '(g, data, eta) := st in
                    let data' := shuffle perm (sp_seed par) data in
                    do g' <- foldM (grad_inst labels (sp_alpha par) eta p) data' g;
                    Ok (g', data', dmul eta (sp_decay par)))
                 (seq 0 (sp_epochs par))
                 (mkG (fst s) (z (length labels)) (z (length labels)) (z (S (attr_count x0))), snd s, eta);
  Ok (g_tree (fst (fst st)), snd (fst st)).

(** ** findBestSoftDecisionTreeSplit *)
(** What copyTo (SoftDecisionNode.cpp:21-25) reads and writes: [w] and the responses of the two children. *)
Definition params := (list dbl * list dbl * list dbl)%type.
Definition copy_from (t : stree) : res params :=
  match t with SLeaf _ => Throw OutOfRange | SNode n l r => Ok (s_w n, s_w0s (s_node l), s_w0s (s_node r)) end.
Definition copy_to (v : params) (t : stree) : res stree :=
  match t with
  | SLeaf _ => Throw OutOfRange
  | SNode n l r => let '(w, wl, wr) := v in Ok (SNode (mkSn (s_w0s n) w (s_outputs n) (s_weight n)) (set_w0s wl l) (set_w0s wr r))
  end.
(** createNode: SoftDecisionNode.cpp:88-93; the node itself has an empty [w]. *)
Definition create_node (data : ilist) (k : nat) : res (params * nat) :=
  do a <- new_node data k; do b <- new_node data (snd a);
  Ok (([], s_w0s (fst a), s_w0s (fst b)), snd b).
Definition int_max_nat : Z := 2147483647.
(** eta of round [i], SoftDecisionNode.cpp:111-113, 121 *)
Definition eta_of (i : nat) : dbl := ddiv (dofnat 10) (dofnat (2 ^ i)).
(** one round of SoftDecisionNode.cpp:112-122; state: tree, data, performanceBest, bestNode. *)
Definition split_round (labels : list string) (par : soft_param) (cv : ilist) (p : list bool) (tmp : params) (st : stree * ilist * Z * params) (i : nat)
    : res (stree * ilist * Z * params) :=
  let '(t, data, best, bestNode) := st in
  do g <- descent labels par p (eta_of i) (t, data);
  do e <- soft_error labels cv (fst g);
  let t1 := snd e in
  do this <- sub t1 p;
  do now <- copy_from this;
  let better := (Z.of_nat (fst e) <? best)%Z in
  do this' <- copy_to tmp this;
  Ok (put t1 p this', snd g, if better then Z.of_nat (fst e) else best, if better then now else bestNode).
(** SoftDecisionNode.cpp:96-131; the result, and tree, data and random position afterwards. *)
Definition find_split (labels : list string) (par : soft_param) (cv : ilist) (p : list bool) (st : stree * ilist * nat) : res (bool * (stree * ilist * nat)) :=
  let '(t, data, k) := st in
  do this0 <- sub t p;
  let old := s_w0s (s_node this0) in
  do before <- soft_error labels cv t;
  let t1 := snd before in
  do this1 <- sub t1 p;
  do a <- new_node data k;
  do b <- new_node data (snd a);
  let this2 := SNode (s_node this1) (SLeaf (fst a)) (SLeaf (fst b)) in
  do best0 <- create_node data (snd b);
  do tmp0 <- create_node data (snd best0);
  do tmp <- copy_from this2;
  do r <- foldM (split_round labels par cv p tmp) (seq 0 11) (put t1 p this2, data, int_max_nat, fst best0);
  let '(t3, data3, best, bestNode) := r in
  do this3 <- sub t3 p;
  if (Z.of_nat (fst before) <=? best)%Z
  then Ok (false, (put t3 p (set_w0s old (SLeaf (s_node this3))), data3, snd tmp0))
  else do this4 <- copy_to bestNode this3; Ok (true, (put t3 p this4, data3, snd tmp0)).
(** createSoftDecisionTree: SoftDecisionNode.cpp:44-49; [fuel] bounds the recursion, running out is [Diverge]. *)
Fixpoint grow (labels : list string) (par : soft_param) (cv : ilist) (fuel : nat) (p : list bool) (st : stree * ilist * nat) : res (stree * ilist * nat) :=
  match fuel with
  | 0 => Diverge
  | S f => do r <- find_split labels par cv p st;
           if fst r then do s1 <- grow labels par cv f (p ++ [false]) (snd r); grow labels par cv f (p ++ [true]) s1
           else Ok (snd r)
  end.

(** * SoftDecisionTree *)
Record soft := mkSoft { so_labels : list string; so_root : stree }.
(** train: SoftDecisionTree.cpp:12-22. *)
Definition soft_train (fuel : nat) (l : ilist) (par : soft_param) : res soft :=
  do root <- new_node l 0;
  let labels := distinct_labels l in
  do sp <- split_lists rarr (sp_ratio par) (sp_seed par) l;
  do st <- grow labels par (snd sp) fuel [] (SLeaf (fst root), fst sp, snd root);
  Ok (mkSoft labels (fst (fst st))).
(** predict: SoftDecisionTree.cpp:24-40; the label and the tree after the call.  The unordered map has one label per index, so
    its iteration order does not matter. *)
Definition soft_predict (m : soft) (x : instance) : res (string * soft) :=
  do o <- soft_output (inst_vector x) (so_root m);
  do i <- arg_max (fst o);
  Ok (match nth_error (so_labels m) i with Some c => c | None => "" end, mkSoft (so_labels m) (snd o)).
(** The same object seen through its base class: classLabel, leaf, classLabelsDistribution and condition keep their defaults,
    DecisionNode.h:17-20; used by the inherited DecisionTree::predictProbability, DecisionTree.cpp:92-94. *)
Fixpoint as_tree (t : stree) : tree :=
  match t with SLeaf _ => Node "" false [] no_condition [] | SNode _ l r => Node "" false [] no_condition [as_tree l; as_tree r] end.
End Soft.
