(** Model of src/Model/NeuralNetwork (NeuralNetworkModel, LinearPerceptronModel, MultiLayerPerceptronModel,
    AutoEncoderModel, DeepNetworkModel).  Definitions only; saving and loading is in SerialModel.v.
    Sizes and positions are natural numbers here and int in the code. *)
From Coq Require Import String ZArith QArith Bool List.
From Verif Require Import Base AttrModel DataSetModel InstanceListModel PartitionModel PerformanceModel DistanceModel GaussianModel.
Import ListNotations.
Local Open Scope string_scope.
Local Open Scope list_scope.
Local Open Scope nat_scope.

(** * Math's Matrix and Vector (not in /repo; modelled by their documented behaviour) *)
(** A Matrix: number of columns, rows. *)
Record mat := mkMat { mcol : nat; mrow : list (list dbl) }.
(** Matrix::multiplyWithVectorFromRight *)
Definition mul_r (m : mat) (v : list dbl) : res (list dbl) :=
  if Nat.eqb (mcol m) (length v) then Ok (map (fun r => vdot r v) (mrow m)) else Throw MatrixColumnMismatch.
(** Matrix::multiplyWithVectorFromLeft *)
Definition mul_l (v : list dbl) (m : mat) : res (list dbl) :=
  if Nat.eqb (length (mrow m)) (length v)
  then Ok (map (fun j => vdot v (map (fun r => nth j r d0) (mrow m))) (seq 0 (mcol m))) else Throw MatrixRowMismatch.
(** Matrix(Vector, Vector) *)
Definition mouter (u v : list dbl) : mat := mkMat (length v) (map (fun a => map (dmul a) v) u).
(** Matrix::multiplyWithConstant *)
Definition mscale (c : dbl) (m : mat) : mat := mkMat (mcol m) (map (map (fun v => dmul v c)) (mrow m)).
(** Matrix::add *)
Definition madd (m m' : mat) : res mat :=
  if Nat.eqb (length (mrow m)) (length (mrow m')) && Nat.eqb (mcol m) (mcol m')
  then Ok (mkMat (mcol m) (map (fun p => map (fun q => dadd (fst q) (snd q)) (combine (fst p) (snd p))) (combine (mrow m) (mrow m'))))
  else Throw MatrixDimensionMismatch.
(** Vector::difference, Vector::elementProduct *)
Definition vdiff (u v : list dbl) : res (list dbl) :=
  if Nat.eqb (length u) (length v) then Ok (map (fun p => dsub (fst p) (snd p)) (combine u v)) else Throw VectorSizeMismatch.
Definition vprod (u v : list dbl) : res (list dbl) :=
  if Nat.eqb (length u) (length v) then Ok (map (fun p => dmul (fst p) (snd p)) (combine u v)) else Throw VectorSizeMismatch.
(** Vector::remove(0) *)
Definition vremove0 (v : list dbl) : res (list dbl) := match v with [] => UB BadIndex | _ :: t => Ok t end.
(** Vector::maxIndex: position of the first largest element. *)
Fixpoint max_scan (i : nat) (v : list dbl) (best : nat * dbl) : nat :=
  match v with [] => fst best | a :: v' => max_scan (S i) v' (if dgtb a (snd best) then (i, a) else best) end.
Definition max_index (v : list dbl) : res nat :=
  match v with [] => Throw OutOfRange | a :: v' => Ok (max_scan 1 v' (0, a)) end.
(** Vector(size, index, x): zeros and [x] at [index]. *)
Definition one_hot (k i : nat) : res (list dbl) := if Nat.ltb i k then Ok (upd (repeat d0 k) i d1) else UB BadIndex.
(** Vector::biased, and [insert(0, 1.0)] of createInputVector, NeuralNetworkModel.cpp:55-58. *)
Definition biased (v : list dbl) : list dbl := d1 :: v.
Definition input_vector (x : instance) : list dbl := biased (inst_vector x).

(** [try { a = r; k(a) } catch (mismatches) {}]: on a caught exception the state is [s], the state just before the throwing
    call.  [row] tells whether MatrixRowMismatch is in the list of handlers. *)
Definition caught (row : bool) (e : exn) : bool :=
  match e with MatrixColumnMismatch | MatrixDimensionMismatch | VectorSizeMismatch => true | MatrixRowMismatch => row | _ => false end.
Definition attempt {A S} (row : bool) (r : res A) (s : S) (k : A -> res S) : res S :=
  match r with Ok a => k a | Throw e => if caught row e then Ok s else Throw e | UB u => UB u | Diverge => Diverge end.

(** ActivationFunction.h *)
Inductive activation := SIGMOID | TANH | RELU.

Section Net.
Context (dexp dtanh : dbl -> dbl).
(** stratified split, shuffle and random initial weights: RandomArray::indexArray, std::shuffle and
    Matrix(row, col, -0.01, 0.01, engine) with [engine] seeded by the parameter's seed. *)
Context (rarr : nat -> Z -> list nat) (perm : Z -> nat -> list nat) (rand : Z -> nat -> nat -> list (list dbl)).

(** * NeuralNetworkModel *)
(** allocateLayerWeights: NeuralNetworkModel.cpp:19-21; the engine is passed by value, so every matrix starts from the seed. *)
Definition allocate (seed : Z) (row col : nat) : mat := mkMat col (rand seed row col).
(** initialize: NeuralNetworkModel.cpp:23-30; the labels and the input size. K is the number of labels. *)
Definition initialize (l : ilist) : res (list string * nat) :=
  do x0 <- atn l 0;
  if discrete_check x0 then Ok (distinct_labels l, inst_size x0) else Throw DiscreteNotAllowed.
(** normalizeOutput: NeuralNetworkModel.cpp:39-47. *)
Definition normalize (o : list dbl) : list dbl :=
  let s := fold_left (fun s v => dadd s (dexp v)) o d0 in map (fun v => ddiv (dexp v) s) o.
(** Vector::sigmoid, tanh, relu, reluDerivative (Math) *)
Definition dsigmoid (v : dbl) : dbl := ddiv d1 (dadd d1 (dexp (dopp v))).
Definition drelu (v : dbl) : dbl := if dltb v d0 then d0 else v.
Definition drelu_deriv (v : dbl) : dbl := if dgtb v d0 then d1 else d0.
Definition act_fn (a : activation) : dbl -> dbl := match a with SIGMOID => dsigmoid | TANH => dtanh | RELU => drelu end.
(** calculateHidden: NeuralNetworkModel.cpp:68-82. *)
Definition hidden (input : list dbl) (w : mat) (a : activation) : res (list dbl) := do z <- mul_r w input; Ok (map (act_fn a) z).
(** calculateOneMinusHidden: NeuralNetworkModel.cpp:92-95. *)
Definition one_minus (h : list dbl) : res (list dbl) := vdiff (repeat d1 (length h)) h.
(** calculateForwardSingleHiddenLayer: NeuralNetworkModel.cpp:105-109; the new value of the member [y]. *)
Definition forward2 (x : list dbl) (w v : mat) (a : activation) : res (list dbl) := do h <- hidden x w a; mul_r v (biased h).
(** calculateRMinusY: NeuralNetworkModel.cpp:121-126.  The result is the new [y] and the difference. *)
Definition r_minus_y (labels : list string) (x : instance) (input : list dbl) (w : mat) : res (list dbl * res (list dbl)) :=
  do r <- one_hot (length labels) (find_pos (label x) labels);
  do o <- mul_r w input;
  let y := normalize o in Ok (y, vdiff r y).
(** predictWithCompositeInstance: NeuralNetworkModel.cpp:135-145. *)
Definition composite_step (labels possible : list string) (y : list dbl) (st : dbl * string) (i : nat) : res (dbl * string) :=
  do c <- atn labels i;
  if mem_str c possible then do v <- idxn y i; Ok (if dgtb v (fst st) then (v, c) else st) else Ok st.
Definition predict_composite (labels possible : list string) (y : list dbl) : res string :=
  do p0 <- atn possible 0;
  do st <- foldM (composite_step labels possible y) (seq 0 (length labels)) (dopp dbl_max, p0); Ok (snd st).
(** the choice made by predict from the member [y]: NeuralNetworkModel.cpp:157-161. *)
Definition choose (labels : list string) (y : list dbl) (x : instance) : res string :=
  match composite x with
  | Some ls => predict_composite labels ls y
  | None => do i <- max_index y; atn labels i
  end.
(** predict: NeuralNetworkModel.cpp:154-162.  [output x y] is calculateOutput: the member [y] after the call.  The result is
    the label and the new [y]. *)
Definition net_predict (output : list dbl -> list dbl -> res (list dbl)) (labels : list string) (y : list dbl) (x : instance) : res (string * list dbl) :=
  do y' <- output (input_vector x) y; do c <- choose labels y' x; Ok (c, y').
(** predictProbability: NeuralNetworkModel.cpp:189-197. *)
Definition net_probability (output : list dbl -> list dbl -> res (list dbl)) (labels : list string) (y : list dbl) (x : instance) : res (smap dbl * list dbl) :=
  do y' <- output (input_vector x) y;
  do m <- foldM (fun m i => do c <- idxn labels i; do v <- idxn y' i; Ok (mset c v m)) (seq 0 (length labels)) [];
  Ok (m, y').
(** ValidatedModel::testClassifier: ValidatedModel.cpp:13-22, with the member [y] threaded through; the accuracy. *)
Definition net_test (output : list dbl -> list dbl -> res (list dbl)) (labels : list string) (l : ilist) (y : list dbl) : res (dbl * list dbl) :=
  do st <- foldM (fun st x => do p <- net_predict output labels (snd st) x;
                              Ok (if String.eqb (label x) (fst p) then S (fst st) else fst st, snd p)) l (0, y);
  Ok (ddiv (dofnat (fst st)) (dofnat (length l)), snd st).

(** The parameters: LinearPerceptronParameter, MultiLayerPerceptronParameter, DeepNetworkParameter. *)
Record net_param := mkPar { p_seed : Z; p_rate : dbl; p_decay : dbl; p_ratio : dbl; p_epochs : nat; p_hidden : list nat; p_act : activation }.

(** The epoch loop common to the four train functions: LinearPerceptronModel.cpp:48-73, MultiLayerPerceptronModel.cpp:62-114,
    AutoEncoderModel.cpp:95-135, DeepNetworkModel.cpp:95-165.  [S] is the mutable state (weights, member [y], training list),
    [body] the loop over the training list, [score] the test on the validation list, [better] the comparison with the best score. *)
Definition run_epochs {S W : Type} (body : dbl -> S -> res S) (score : S -> res (dbl * S)) (better : dbl -> dbl -> bool) (weights : S -> W)
    (decay : dbl) (n : nat) (rate : dbl) (start : S) (score0 : dbl) : res (S * W) :=
  do r <- foldM (fun (st : S * dbl * (dbl * W)) (_ : nat) =>
                   let '(s, rate, best) := st in
                   do s1 <- body rate s;
                   do t <- score s1;
                   Ok (snd t, dmul rate decay, if better (fst t) (fst best) then (fst t, weights (snd t)) else best))
                (seq 0 n) (start, rate, (score0, weights start));
  Ok (fst (fst r), snd (snd r)).
(** the split into validation and training list: LinearPerceptronModel.cpp:41-43 (and the same lines of the other models). *)
Definition split_lists (ratio : dbl) (seed : Z) (l : ilist) : res (ilist * ilist) :=
  do gs <- part_strat rarr ratio seed l; do tr <- atn gs 1; do va <- atn gs 0; Ok (tr, va).

(** * LinearPerceptronModel *)
Record linear := mkLin { li_labels : list string; li_y : list dbl; li_W : mat }.
(** calculateOutput: LinearPerceptronModel.cpp:16-21. *)
Definition linear_output (w : mat) (x y : list dbl) : res (list dbl) := attempt true (mul_r w x) y (fun y' => Ok y').
(** one training instance: LinearPerceptronModel.cpp:55-64.  State: W and y. *)
Definition linear_step (labels : list string) (rate : dbl) (st : mat * list dbl) (x : instance) : res (mat * list dbl) :=
  let (w, y) := st in
  let input := input_vector x in
  attempt false (r_minus_y labels x input w) (w, y) (fun p =>
  attempt false (snd p) (w, fst p) (fun d =>
  attempt false (madd w (mscale rate (mouter d input))) (w, fst p) (fun w' => Ok (w', fst p)))).
Definition linear_body (labels : list string) (seed : Z) (rate : dbl) (s : (mat * list dbl) * ilist) : res ((mat * list dbl) * ilist) :=
  let l := shuffle perm seed (snd s) in
  do st <- foldM (linear_step labels rate) l (fst s); Ok (st, l).
Definition linear_score (labels : list string) (va : ilist) (s : (mat * list dbl) * ilist) : res (dbl * ((mat * list dbl) * ilist)) :=
  do t <- net_test (linear_output (fst (fst s))) labels va (snd (fst s)); Ok (fst t, (fst (fst s), snd t, snd s)).
(** train: LinearPerceptronModel.cpp:39-74. *)
Definition linear_train (old : linear) (l : ilist) (p : net_param) : res linear :=
  do i <- initialize l;
  let labels := fst i in
  do sp <- split_lists (p_ratio p) (p_seed p) l;
  let w := allocate (p_seed p) (length labels) (snd i + 1) in
  do r <- run_epochs (linear_body labels (p_seed p)) (linear_score labels (snd sp)) dgtb (fun s => fst (fst s))
                     (p_decay p) (p_epochs p) (p_rate p) (w, li_y old, fst sp) d0;
  Ok (mkLin labels (snd (fst (fst r))) (snd r)).
Definition linear_predict (m : linear) (x : instance) : res (string * list dbl) := net_predict (linear_output (li_W m)) (li_labels m) (li_y m) x.
Definition linear_probability (m : linear) (x : instance) : res (smap dbl * list dbl) := net_probability (linear_output (li_W m)) (li_labels m) (li_y m) x.

(** * MultiLayerPerceptronModel *)
Record mlp := mkMlp { ml_labels : list string; ml_y : list dbl; ml_W : mat; ml_V : mat; ml_act : activation }.
(** calculateOutput: MultiLayerPerceptronModel.cpp:27-32. *)
Definition mlp_output (a : activation) (w v : mat) (x y : list dbl) : res (list dbl) := attempt false (forward2 x w v a) y (fun y' => Ok y').
(** activationDerivative from the hidden layer: MultiLayerPerceptronModel.cpp:78-92. *)
Definition mlp_deriv (a : activation) (h : list dbl) : res (list dbl) :=
  match a with
  | SIGMOID => do o <- one_minus h; vprod o h
  | TANH => let h' := map dtanh h in do p <- vprod h' h'; vdiff (repeat d1 (length h)) p
  | RELU => Ok (map drelu_deriv h)
  end.
(** the weight changes of one training instance, from [rMinusY]: MultiLayerPerceptronModel.cpp:75-94; deltaV, deltaW. *)
Definition mlp_deltas (a : activation) (v : mat) (input h d : list dbl) : res (mat * mat) :=
  do t <- mul_l d v;
  do t' <- vremove0 t;
  do ad <- mlp_deriv a h;
  do th <- vprod t' ad;
  Ok (mouter d (biased h), mouter th input).
(** one training instance: MultiLayerPerceptronModel.cpp:70-103.  State: W, V and y. *)
Definition mlp_step (labels : list string) (a : activation) (rate : dbl) (st : mat * mat * list dbl) (x : instance) : res (mat * mat * list dbl) :=
  let '(w, v, y) := st in
  let input := input_vector x in
  attempt true (hidden input w a) (w, v, y) (fun h =>
  attempt true (r_minus_y labels x (biased h) v) (w, v, y) (fun p =>
  attempt true (snd p) (w, v, fst p) (fun d =>
  attempt true (mlp_deltas a v input h d) (w, v, fst p) (fun dd =>
  attempt true (madd v (mscale rate (fst dd))) (w, v, fst p) (fun v' =>
  attempt true (madd w (mscale rate (snd dd))) (w, v', fst p) (fun w' => Ok (w', v', fst p))))))).
Definition mlp_body (labels : list string) (a : activation) (seed : Z) (rate : dbl) (s : (mat * mat * list dbl) * ilist) : res ((mat * mat * list dbl) * ilist) :=
  let l := shuffle perm seed (snd s) in
  do st <- foldM (mlp_step labels a rate) l (fst s); Ok (st, l).
Definition mlp_score (labels : list string) (a : activation) (va : ilist) (s : (mat * mat * list dbl) * ilist) : res (dbl * ((mat * mat * list dbl) * ilist)) :=
  let '(w, v, y) := fst s in
  do t <- net_test (mlp_output a w v) labels va y; Ok (fst t, ((w, v, snd t), snd s)).
(** train: MultiLayerPerceptronModel.cpp:50-115 (allocateWeights 19-22).  [p_hidden] holds the one hidden layer size. *)
Definition mlp_train (old : mlp) (l : ilist) (p : net_param) : res mlp :=
  do i <- initialize l;
  let labels := fst i in
  do sp <- split_lists (p_ratio p) (p_seed p) l;
  do h <- idxn (p_hidden p) 0;
  let w := allocate (p_seed p) h (snd i + 1) in
  let v := allocate (p_seed p) (length labels) (h + 1) in
  do r <- run_epochs (mlp_body labels (p_act p) (p_seed p)) (mlp_score labels (p_act p) (snd sp)) dgtb (fun s => fst (fst s))
                     (p_decay p) (p_epochs p) (p_rate p) (w, v, ml_y old, fst sp) d0;
  Ok (mkMlp labels (snd (fst (fst r))) (fst (snd r)) (snd (snd r)) (p_act p)).
Definition mlp_predict (m : mlp) (x : instance) : res (string * list dbl) :=
  net_predict (mlp_output (ml_act m) (ml_W m) (ml_V m)) (ml_labels m) (ml_y m) x.
Definition mlp_probability (m : mlp) (x : instance) : res (smap dbl * list dbl) :=
  net_probability (mlp_output (ml_act m) (ml_W m) (ml_V m)) (ml_labels m) (ml_y m) x.

(** * AutoEncoderModel *)
(** The only declared constructor (AutoEncoderModel.h:20) has no definition in /repo: a program using the class does not link.
    The functions are modelled all the same. *)
Record auto := mkAuto { au_labels : list string; au_y : list dbl; au_W : mat; au_V : mat }.
(** predictInput: AutoEncoderModel.cpp:51-58; after a caught mismatch control reaches the end of a value-returning function. *)
Definition auto_input (w v : mat) (x : instance) : res (list dbl) :=
  match forward2 (input_vector x) w v SIGMOID with Throw MatrixColumnMismatch => UB NoReturn | r => r end.
(** testAutoEncoder: AutoEncoderModel.cpp:31-43; the error and the new [y]. *)
Definition auto_test (w v : mat) (l : ilist) (y : list dbl) : res (dbl * list dbl) :=
  do st <- foldM (fun st x => do y' <- auto_input w v x;
                              attempt false (vdiff (inst_vector x) y') (fst st, y') (fun d => Ok (dadd (fst st) (vdot d d), y'))) l (d0, y);
  Ok (ddiv (fst st) (dofnat (length l)), snd st).
(** one training instance: AutoEncoderModel.cpp:103-124. *)
Definition auto_deltas (v : mat) (input h d : list dbl) : res (mat * mat) :=
  do o <- one_minus h;
  do t <- mul_l d v;
  do t' <- vremove0 t;
  do ht <- vprod h t';
  do th <- vprod o ht;
  Ok (mouter d (biased h), mouter th input).
Definition auto_step (rate : dbl) (st : mat * mat * list dbl) (x : instance) : res (mat * mat * list dbl) :=
  let '(w, v, y) := st in
  let input := input_vector x in
  attempt true (hidden input w SIGMOID) (w, v, y) (fun h =>
  attempt true (mul_r v (biased h)) (w, v, y) (fun y' =>
  attempt true (vdiff (inst_vector x) y') (w, v, y') (fun d =>
  attempt true (auto_deltas v input h d) (w, v, y') (fun dd =>
  attempt true (madd v (mscale rate (fst dd))) (w, v, y') (fun v' =>
  attempt true (madd w (mscale rate (snd dd))) (w, v', y') (fun w' => Ok (w', v', y'))))))).
Definition auto_body (seed : Z) (rate : dbl) (s : (mat * mat * list dbl) * ilist) : res ((mat * mat * list dbl) * ilist) :=
  let l := shuffle perm seed (snd s) in
  do st <- foldM (auto_step rate) l (fst s); Ok (st, l).
Definition auto_score (va : ilist) (s : (mat * mat * list dbl) * ilist) : res (dbl * ((mat * mat * list dbl) * ilist)) :=
  let '(w, v, y) := fst s in do t <- auto_test w v va y; Ok (fst t, ((w, v, snd t), snd s)).
(** train: AutoEncoderModel.cpp:81-136.  The ratio 0.2 and the decay 0.95 are fixed. *)
Definition auto_train (old : auto) (l : ilist) (p : net_param) : res auto :=
  do i <- initialize l;
  do sp <- split_lists (Fin (1 # 5)) (p_seed p) l;
  do x0 <- atn (fst sp) 0;
  do h <- idxn (p_hidden p) 0;
  let w := allocate (p_seed p) h (snd i + 1) in
  let v := allocate (p_seed p) (inst_size x0) (h + 1) in
  do r <- run_epochs (auto_body (p_seed p)) (auto_score (snd sp)) dltb (fun s => fst (fst s))
                     (Fin (95 # 100)) (p_epochs p) (p_rate p) (w, v, au_y old, fst sp) dbl_max;
  Ok (mkAuto (fst i) (snd (fst (fst r))) (fst (snd r)) (snd (snd r))).

(** * DeepNetworkModel *)
Record deep := mkDeep { de_labels : list string; de_y : list dbl; de_weights : list mat; de_layers : nat; de_act : activation }.
Definition deep_empty : deep := mkDeep [] [] [] 0 SIGMOID.
(** allocateWeights: DeepNetworkModel.cpp:21-28; the matrices are appended to those already there. *)
Definition deep_allocate (old : list mat) (seed : Z) (hs : list nat) (k d : nat) : res (list mat) :=
  do h0 <- atn hs 0;
  do mid <- mapM (fun i => do a <- atn hs (i + 1); do b <- atn hs i; Ok (allocate seed a (b + 1))) (seq 0 (length hs - 1));
  do hl <- atn hs (length hs - 1);
  Ok (old ++ [allocate seed h0 (d + 1)] ++ mid ++ [allocate seed k (hl + 1)]).
(** calculateOutput: DeepNetworkModel.cpp:48-62.  With no weights the bound [size - 1] wraps and [at(0)] throws. *)
Definition deep_hidden (a : activation) (x : list dbl) (ws : list mat) (hb : list dbl) (i : nat) : res (list dbl) :=
  do w <- atn ws i; do h <- hidden (if Nat.eqb i 0 then x else hb) w a; Ok (biased h).
Definition deep_output (a : activation) (ws : list mat) (x y : list dbl) : res (list dbl) :=
  attempt false (if Nat.eqb (length ws) 0 then Throw OutOfRange
                 else do hb <- foldM (deep_hidden a x ws) (seq 0 (length ws - 1)) [];
                      do w <- atn ws (length ws - 1); mul_r w hb) y (fun y' => Ok y').
(** the forward pass of train: DeepNetworkModel.cpp:107-114; hidden and hiddenBiased. *)
Definition deep_forward (a : activation) (x : list dbl) (ws : list mat) (n : nat) : res (list (list dbl) * list (list dbl)) :=
  foldM (fun st k => do inp <- (if Nat.eqb k 0 then Ok x else atn (snd st) (k - 1));
                     do w <- atn ws k; do h <- hidden inp w a; Ok (fst st ++ [h], snd st ++ [biased h])) (seq 0 n) ([], []).
(** activationDerivative and the changed hidden vector: DeepNetworkModel.cpp:124-138; [hn] is [hidden.size()], the number of
    layers. *)
Definition deep_deriv (a : activation) (hn : nat) (h : list dbl) : res (list dbl) :=
  match a with
  | SIGMOID => do o <- one_minus h; vprod o h
  | TANH => let h' := map dtanh h in do p <- vprod h' h'; vdiff (repeat d1 hn) p
  | RELU => Ok (map drelu_deriv h)
  end.
(** one iteration of the backward loop: DeepNetworkModel.cpp:118-144.  State: the vector to propagate (rMinusY, then
    tmpHidden) and deltaWeights.  The in-place changes of [hidden.at(k)] are not seen by later iterations. *)
Definition deep_back (a : activation) (x : list dbl) (ws : list mat) (hs hbs : list (list dbl)) (st : list dbl * list mat) (k : nat) : res (list dbl * list mat) :=
  do w <- atn ws (k + 1);
  do t <- mul_l (fst st) w;
  do t' <- vremove0 t;
  do h <- atn hs k;
  do ad <- deep_deriv a (length hs) h;
  do th <- vprod t' ad;
  do inp <- (if Nat.eqb k 0 then Ok x else atn hbs (k - 1));
  Ok (th, mouter th inp :: snd st).
(** the final loop: DeepNetworkModel.cpp:146-149; a mismatch leaves the earlier layers changed. *)
Fixpoint deep_update (rate : dbl) (done ws deltas : list mat) : res (list mat) :=
  match ws with
  | [] => Ok done
  | w :: ws' => match deltas with
                | [] => Throw OutOfRange
                | dl :: deltas' => attempt false (madd w (mscale rate dl)) (done ++ ws) (fun w' => deep_update rate (done ++ [w']) ws' deltas')
                end
  end.
(** one training instance: DeepNetworkModel.cpp:102-153.  State: weights and y. *)
Definition deep_step (labels : list string) (a : activation) (n : nat) (rate : dbl) (st : list mat * list dbl) (x : instance) : res (list mat * list dbl) :=
  let (ws, y) := st in
  let input := input_vector x in
  attempt false (deep_forward a input ws n) (ws, y) (fun hh =>
  attempt false (do hb <- atn (snd hh) (n - 1); do w <- atn ws (length ws - 1); do p <- r_minus_y labels x hb w; Ok (hb, p)) (ws, y) (fun q =>
  let (hb, p) := q in
  attempt false (snd p) (ws, fst p) (fun d =>
  attempt false (foldM (deep_back a input ws (fst hh) (snd hh)) (rev (seq 0 (length ws - 1))) (d, [mouter d hb])) (ws, fst p) (fun b =>
  do ws' <- deep_update rate [] ws (snd b); Ok (ws', fst p))))).
Definition deep_body (labels : list string) (a : activation) (n : nat) (seed : Z) (rate : dbl) (s : (list mat * list dbl) * ilist) : res ((list mat * list dbl) * ilist) :=
  let l := shuffle perm seed (snd s) in
  do st <- foldM (deep_step labels a n rate) l (fst s); Ok (st, l).
Definition deep_score (labels : list string) (a : activation) (va : ilist) (s : (list mat * list dbl) * ilist) : res (dbl * ((list mat * list dbl) * ilist)) :=
  let '(ws, y) := fst s in
  do t <- net_test (deep_output a ws) labels va y; Ok (fst t, ((ws, snd t), snd s)).
(** train: DeepNetworkModel.cpp:79-166. *)
Definition deep_train (old : deep) (l : ilist) (p : net_param) : res deep :=
  do i <- initialize l;
  let labels := fst i in
  do sp <- split_lists (p_ratio p) (p_seed p) l;
  do ws <- deep_allocate (de_weights old) (p_seed p) (p_hidden p) (length labels) (snd i);
  let n := length (p_hidden p) in
  do r <- run_epochs (deep_body labels (p_act p) n (p_seed p)) (deep_score labels (p_act p) (snd sp)) dgtb (fun s => fst (fst s))
                     (p_decay p) (p_epochs p) (p_rate p) (ws, de_y old, fst sp) d0;
  Ok (mkDeep labels (snd (fst (fst r))) (snd r) n (p_act p)).
Definition deep_predict (m : deep) (x : instance) : res (string * list dbl) :=
  net_predict (deep_output (de_act m) (de_weights m)) (de_labels m) (de_y m) x.
Definition deep_probability (m : deep) (x : instance) : res (smap dbl * list dbl) :=
  net_probability (deep_output (de_act m) (de_weights m)) (de_labels m) (de_y m) x.
End Net.
