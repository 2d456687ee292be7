(** Model of saving and loading: InstanceList, Instance, DummyModel, RandomModel, the Gaussian models, KnnModel, the decision
    trees and ensembles, the neural networks and SvmModel.  Files are character strings; the input stream is modelled
    character by character.  Definitions only. *)
From Coq Require Import String Ascii ZArith QArith Bool Decimal DecimalString List.
From Verif Require Import Base AttrModel DataSetModel InstanceListModel TreeModel GaussianModel SvmModel NetModel.
Import ListNotations.
Local Open Scope string_scope.
Local Open Scope list_scope.
Local Open Scope nat_scope.

(** * std::ifstream *)
(** What is left to read, and whether the stream is good(): once eofbit or failbit is set every later operation fails, so one
    flag is enough. *)
Record istr := mkIn { rest : string; good : bool }.
(** A reader: the outcome and the stream afterwards. *)
Definition rd (A : Type) := istr -> res (A * istr).
Definition rret {A} (a : A) : rd A := fun s => Ok (a, s).
Definition rbind {A B} (r : rd A) (k : A -> rd B) : rd B := fun s => do p <- r s; k (fst p) (snd p).
Notation "'rdo' x <- r ; k" := (rbind r (fun x => k)) (at level 200, x pattern, r at level 100, k at level 200, right associativity).
Definition rlift {A} (x : res A) : rd A := fun s => do a <- x; Ok (a, s).
(** reading an uninitialised variable *)
Definition init {A} (o : option A) : rd A := rlift (match o with Some a => Ok a | None => UB Uninit end).
(** [n] iterations of a loop body *)
Fixpoint rd_loop {S} (n : nat) (f : S -> rd S) (s : S) : rd S :=
  match n with O => rret s | Datatypes.S n' => rdo s' <- f s; rd_loop n' f s' end.

(** isspace in the "C" locale *)
Definition is_ws (c : ascii) : bool := let n := nat_of_ascii c in Nat.eqb n 32 || (Nat.leb 9 n && Nat.leb n 13).
Definition is_digit (c : ascii) : bool := let n := nat_of_ascii c in Nat.leb 48 n && Nat.leb n 57.
Fixpoint skip_ws (s : string) : string := match s with String c r => if is_ws c then skip_ws r else s | "" => "" end.
(** longest prefix whose characters satisfy [p], and what follows *)
Fixpoint span (p : ascii -> bool) (s : string) : string * string :=
  match s with
  | String c r => if p c then let (a, b) := span p r in (String c a, b) else ("", s)
  | "" => ("", "")
  end.
(** still good after extracting up to [r]: reaching the end sets eofbit *)
Definition upto (r : string) : istr := mkIn r (negb (String.eqb r "")).
Definition failed : istr := mkIn "" false.
(** [>>] of a formatted type: when the stream is not good or holds only white space the variable keeps its old value. *)
Definition formatted {A} (old : A) (scan : string -> A * istr) : rd A := fun s =>
  if good s then match skip_ws (rest s) with "" => Ok (old, failed) | t => Ok (scan t) end else Ok (old, s).
(** [>>] std::string *)
Definition rd_tok (old : string) : rd string := formatted old (fun t => let (w, r) := span (fun c => negb (is_ws c)) t in (w, upto r)).
(** [>>] char; [None] is an uninitialised variable *)
Definition rd_char (old : option ascii) : rd (option ascii) :=
  formatted old (fun t => match t with String c r => (Some c, mkIn r true) | "" => (old, failed) end).
Definition int_max : Z := 2147483647.
Definition int_min : Z := (-2147483648)%Z.
(** a decimal integer at the start of the text: optional sign, digits *)
Definition scan_digits (neg : bool) (t : string) : option (Z * string) :=
  let (d, r) := span is_digit t in
  if String.eqb d "" then None
  else match NilEmpty.uint_of_string d with
       | None => None
       | Some u => Some ((if neg then Z.opp (Z.of_uint u) else Z.of_uint u), r)
       end.
Definition scan_int (t : string) : option (Z * string) :=
  match t with
  | String c r => if Ascii.eqb c "-" then scan_digits true r else if Ascii.eqb c "+" then scan_digits false r else scan_digits false t
  | "" => None
  end.
(** [>>] int: no digits stores 0 and fails, an overflow stores the limit and fails *)
Definition rd_int (old : option Z) : rd (option Z) :=
  formatted old (fun t => match scan_int t with
                          | None => (Some 0%Z, failed)
                          | Some (z, r) => if (int_max <? z)%Z then (Some int_max, failed)
                                           else if (z <? int_min)%Z then (Some int_min, failed) else (Some z, upto r)
                          end).
(** getline: an unset line keeps its value; the end of the file without a newline ends the line *)
Fixpoint cut_line (s : string) : string * option string :=
  match s with
  | "" => ("", None)
  | String c r => if Ascii.eqb c nl then ("", Some r) else let (a, b) := cut_line r in (String c a, b)
  end.
Definition rd_line (old : string) : rd string := fun s =>
  if good s then match cut_line (rest s) with (l, Some r) => Ok (l, mkIn r true) | (l, None) => Ok (l, failed) end else Ok (old, s).
(** ignore(): one character *)
Definition rd_ignore : rd unit := fun s =>
  if good s then match rest s with String _ r => Ok (tt, mkIn r true) | "" => Ok (tt, failed) end else Ok (tt, s).
(** std::stoi *)
Definition stoi (s : string) : res Z :=
  match scan_int (skip_ws s) with
  | None => Throw InvalidArgument
  | Some (z, _) => if (int_max <? z)%Z || (z <? int_min)%Z then Throw OutOfRange else Ok z
  end.

(** * Output *)
(** [<<] int *)
Definition show_Z (z : Z) : string := NilZero.string_of_int (Z.to_int z).
Definition show_nat (n : nat) : string := show_Z (Z.of_nat n).
Definition line (s : string) : string := (s ++ String nl "")%string.
Definition concat_str (l : list string) : string := fold_right String.append "" l.

Section Serial.
  (** Outside /repo: [words] is StringUtils::split(line), [split] is StringUtils::split(line, sep); [stof] is std::stof;
      [fmt] is std::to_string(double); [show] is [<<] of a double and [scan] its [>>] on text without leading white space
      ([None] is a failed conversion); [w_dist]/[r_dist], [w_vec]/[r_vec], [w_mat]/[r_mat] are serialize and the stream
      constructor of Math's DiscreteDistribution, Vector and Matrix. *)
  Context (words : string -> list string) (split : string -> string -> list string) (stof : string -> res dbl).
  Context (fmt show : dbl -> string) (scan : string -> option (dbl * string)).
  Context (w_dist : counter -> string) (r_dist : rd counter) (w_vec : list dbl -> string) (r_vec : rd (list dbl)) (r_mat : rd mat).

  (** [>>] double: a failed conversion stores 0 and fails *)
  Definition rd_dbl (old : option dbl) : rd (option dbl) :=
    formatted old (fun t => match scan t with None => (Some d0, failed) | Some (d, r) => (Some d, upto r) end).

  (** * Instance and InstanceList *)
  (** Instance::serialize: Instance.cpp:210-215. *)
  Definition inst_text (x : instance) : string :=
    (concat_str (map (fun a => attr_string fmt a ++ " ") (attrs x)) ++ line (label x))%string.
  (** the type word of an attribute: InstanceList.cpp:572-582; an indexed attribute writes nothing. *)
  Definition type_word (a : attr) : string :=
    match a with ADisc _ => "Discrete " | ACont _ => "Continuous " | ABin _ => "Binary " | AIdx _ _ _ => "" end.
  (** InstanceList::serialize: InstanceList.cpp:568-589. *)
  Definition list_text (l : ilist) : res string :=
    do x0 <- atn l 0;
    Ok (line (show_nat (attr_count x0)) ++ line (concat_str (map type_word (attrs x0))) ++ line (show_nat (List.length l))
        ++ concat_str (map inst_text l))%string.
  (** the attributes of a row, column [j] of the types on: InstanceList.cpp:608-617. *)
  Fixpoint read_cells (j : nat) (types : list string) (vals : list string) : res (list attr) :=
    match types with
    | [] => Ok []
    | t :: ts =>
        if String.eqb t "DISCRETE" then do v <- idxn vals j; do r <- read_cells (S j) ts vals; Ok (ADisc v :: r)
        else if String.eqb t "CONTINUOUS" then do v <- idxn vals j; do d <- stof v; do r <- read_cells (S j) ts vals; Ok (ACont d :: r)
        else read_cells (S j) ts vals
    end.
  (** one row: InstanceList.cpp:604-620; the state holds [line] and the list so far. *)
  Definition read_row (types : list string) (st : string * ilist) : rd (string * ilist) :=
    rdo l <- rd_line (fst st);
    let vals := split l "," in
    rdo cells <- rlift (read_cells 0 types vals);
    rdo lab <- rlift (idxn vals (List.length types));
    rret (l, snd st ++ [mkInst lab cells None]).
  (** InstanceList(ifstream): InstanceList.cpp:595-621. *)
  Definition list_read : rd ilist :=
    rdo _ <- rd_ignore;
    rdo l <- rd_line "";
    let types := words l in
    rdo size <- rd_int None;
    rdo n <- init size;
    rdo _ <- rd_ignore;
    rdo st <- rd_loop (Z.to_nat n) (read_row types) (l, []);
    rret (snd st).

  (** * KnnModel: [k] and the training data (the distance is reset to Euclidean) *)
  (** serialize: KnnModel.cpp:76-79. *)
  Definition knn_text (k : Z) (l : ilist) : res string := do t <- list_text l; Ok (line (show_Z k) ++ t)%string.
  (** load: KnnModel.cpp:127-131; [old] is the member before. *)
  Definition knn_load (old : option Z) : rd (option Z * ilist) := rdo k <- rd_int old; rdo l <- list_read; rret (k, l).

  (** * DummyModel, RandomModel *)
  (** DummyModel.cpp:36-38, 83-85. *)
  Definition dummy_text (d : counter) : string := w_dist d.
  Definition dummy_load (old : counter) : rd counter := r_dist.
  (** RandomModel::serialize: RandomModel.cpp:41-46. *)
  Definition random_text (labels : list string) : string := (line (show_nat (List.length labels)) ++ concat_str (map line labels))%string.
  (** [n] labels appended to a list, with the variable they are read into: RandomModel.cpp:99-102, NeuralNetworkModel.cpp:226-229. *)
  Definition read_label (st : string * list string) : rd (string * list string) :=
    rdo c <- rd_tok (fst st); rret (c, snd st ++ [c]).
  (** load: RandomModel.cpp:94-103; the labels are appended to those of the model. *)
  Definition random_load (seed : option Z) (labels : list string) : rd (option Z * list string) :=
    rdo sd <- rd_int seed;
    rdo size <- rd_int None;
    rdo n <- init size;
    rdo st <- rd_loop (Z.to_nat n) read_label ("", labels);
    rret (sd, snd st).

  (** * Gaussian models; GaussianModel: GaussianModel.cpp:51-53, 67-69. *)
  Definition prior_text (d : counter) : string := w_dist d.
  Definition prior_load : rd counter := r_dist.
  (** a loop reading a label and a value into a map with emplace *)
  Definition read_entry {A} (r : rd A) (st : string * smap A) : rd (string * smap A) :=
    rdo c <- rd_tok (fst st); rdo v <- r; rret (c, memplace c v (snd st)).
  (** the same with a [double weight] declared outside the loop: LdaModel.cpp:124-130. *)
  Definition read_weight (st : string * option dbl * smap dbl) : rd (string * option dbl * smap dbl) :=
    let '(c0, w0, m) := st in
    rdo c <- rd_tok c0; rdo o <- rd_dbl w0; rdo v <- init o; rret (c, o, memplace c v m).
  (** KMeansModel::serialize and load: KMeansModel.cpp:34-37, 67-82. *)
  Definition kmeans_text (m : kmeans) : res string := do t <- list_text (km_means m); Ok (prior_text (km_prior m) ++ t)%string.
  Definition kmeans_load (old : kmeans) : rd kmeans := rdo p <- prior_load; rdo l <- list_read; rret (mkKM p l).
  (** NaiveBayesModel::serialize: NaiveBayesModel.cpp:74-84; the distributions of discrete features are not written. *)
  Definition entries_text (m : smap (list dbl)) : string := concat_str (map (fun kv => line (fst kv) ++ w_vec (snd kv))%string m).
  Definition bayes_text (m : bayes) : string := (prior_text (nb_prior m) ++ entries_text (nb_means m) ++ entries_text (nb_devs m))%string.
  (** loadModel and load: NaiveBayesModel.cpp:142-167. *)
  Definition bayes_load (old : bayes) : rd bayes :=
    rdo p <- prior_load;
    rdo st1 <- rd_loop (List.length p) (read_entry r_vec) ("", nb_means old);
    rdo st2 <- rd_loop (List.length p) (read_entry r_vec) (fst st1, nb_devs old);
    rret (mkNB p (snd st1) (snd st2) (nb_dists old)).
  (** LdaModel::serialize: LdaModel.cpp:42-53; QdaModel has no serialize of its own. *)
  Definition lda_text (m : lda) : string :=
    (prior_text (l_prior m) ++ line (show_nat (List.length (l_w0 m)))
     ++ concat_str (map (fun kv => line (fst kv) ++ line (show (snd kv)))%string (l_w0 m)) ++ entries_text (l_w m))%string.
  Definition qda_text (m : qda) : string := lda_text (q_lda m).
  (** load: LdaModel.cpp:123-136. *)
  Definition lda_rest (p : counter) (old : lda) : rd lda :=
    rdo st1 <- rd_loop (List.length p) read_weight ("", None, l_w0 old);
    rdo st2 <- rd_loop (List.length p) (read_entry r_vec) (fst (fst st1), l_w old);
    rret (mkLda p (snd st1) (snd st2)).
  (** loadModel: LdaModel.cpp:111-117. *)
  Definition lda_load (old : lda) : rd lda := rdo p <- prior_load; lda_rest p old.
  (** QdaModel::loadModel and load: QdaModel.cpp:90-112. *)
  Definition qda_load (old : qda) : rd qda :=
    rdo l <- lda_load (q_lda old);
    rdo st <- rd_loop (List.length (l_prior l)) (read_entry (rdo m <- r_mat; rret (mrow m))) ("", q_W old);
    rret (mkQda l (snd st)).

  (** * Decision trees *)
  Definition cmp_char (c : cmp) : ascii := match c with CEq => "="%char | CLt => "<"%char | CGt => ">"%char end.
  (** DecisionCondition::serialize: DecisionCondition.cpp:94-107; the unset value of a default condition is not touched. *)
  Definition cond_text (c : condition) : res string :=
    if (c_index c =? -1)%Z then Ok (line (show_Z (c_index c)))
    else do a <- match c_value c with Some a => Ok a | None => UB Uninit end;
         Ok (line (show_Z (c_index c)) ++ line (String (cmp_char (c_cmp c)) "")
             ++ (if isDiscrete a then line "Discrete" else if isContinuous a then line "Continuous" else "")
             ++ line (attr_string fmt a))%string.
  (** DecisionCondition(ifstream): DecisionCondition.cpp:113-132.  A comparison character other than '<' and '>' on a
      continuous value never holds in satisfy; it is represented by [CEq].  Simplification: a negative maxIndex is read as 0. *)
  Definition cond_read : rd condition :=
    rdo oi <- rd_int (Some (-1)%Z);
    rdo i <- init oi;
    rdo oc <- rd_char None;
    rdo t <- rd_tok "";
    if (i =? -1)%Z then rret (mkCond i CEq None)
    else rdo c <- init oc;
         if Ascii.eqb c "=" then rret (mkCond i CEq (Some (ADisc t)))
         else if Ascii.eqb c ":" then
           rdo om <- rd_int None; rdo k <- rlift (stoi t); rdo m <- init om; rret (mkCond i CEq (Some (AIdx "" k (Z.to_nat m))))
         else rdo v <- rlift (stof t);
              rret (mkCond i (if Ascii.eqb c "<" then CLt else if Ascii.eqb c ">" then CGt else CEq) (Some (ACont v))).
  (** DecisionNode::serialize: DecisionNode.cpp:295-305. *)
  Fixpoint node_text (t : tree) : res string :=
    match t with
    | Node lab _ _ c ch =>
        do a <- cond_text c;
        do b <- (fix go (ch : list tree) : res string := match ch with [] => Ok "" | n :: ch' => do x <- node_text n; do y <- go ch'; Ok (x ++ y)%string end) ch;
        Ok (a ++ line (show_nat (List.length ch)) ++ match ch with [] => line lab | _ => b end)%string
    end.
  (** DecisionNode(ifstream): DecisionNode.cpp:311-326.  [fuel] bounds the depth of the recursion. *)
  Fixpoint node_read (fuel : nat) : rd tree :=
    match fuel with
    | O => fun _ => Diverge
    | S fuel' =>
        rdo c <- cond_read;
        rdo size <- rd_int None;
        rdo n <- init size;
        if (n =? 0)%Z then rdo lab <- rd_tok ""; rdo d <- r_dist; rret (Node lab true d c [])
        else rdo ch <- rd_loop (Z.to_nat n) (fun acc => rdo t <- node_read fuel'; rret (acc ++ [t])) [];
             rret (Node "" false [] c ch)
    end.
  (** DecisionTree::serialize and loadModel, DecisionStump::loadModel: DecisionTree.cpp:75-77, 118-123, DecisionStump.cpp:23-28.
      The depth of the tree read is at most the length of the file. *)
  Definition tree_text (t : tree) : res string := node_text t.
  Definition tree_load : rd tree := fun s => node_read (S (String.length (rest s))) s.
  (** TreeEnsembleModel::serialize and load: TreeEnsembleModel.cpp:33-38, 61-68; the trees are appended. *)
  Definition ensemble_text (f : list tree) : res string :=
    do ts <- mapM tree_text f; Ok (line (show_nat (List.length f)) ++ concat_str ts)%string.
  Definition ensemble_load (forest : list tree) : rd (list tree) :=
    rdo size <- rd_int None; rdo n <- init size;
    rd_loop (Z.to_nat n) (fun acc => rdo t <- tree_load; rret (acc ++ [t])) forest.

  (** * Neural networks *)
  (** NeuralNetworkModel::serialize: NeuralNetworkModel.cpp:168-174, inherited by LinearPerceptronModel, MultiLayerPerceptronModel
      and DeepNetworkModel: [k] classes, [d] inputs, the labels. *)
  Definition net_text (k d : nat) (labels : list string) : string :=
    (line (show_nat k) ++ line (show_nat d) ++ concat_str (map line labels))%string.
  (** AutoEncoderModel::serialize: AutoEncoderModel.cpp:70-72. *)
  Definition auto_text (m : auto) : string := "".
  (** load: NeuralNetworkModel.cpp:222-230; [k] and [d] are the members before, the labels are appended. *)
  Definition net_load (k d : option Z) (labels : list string) : rd (list string) :=
    rdo ok <- rd_int k; rdo _ <- rd_int d; rdo n <- init ok;
    rdo st <- rd_loop (Z.to_nat n) read_label ("", labels); rret (snd st).
  (** getActivationFunction: NeuralNetworkModel.cpp:204-216. *)
  Definition act_read : rd activation :=
    rdo f <- rd_tok ""; rret (if String.eqb f "TANH" then TANH else if String.eqb f "RELU" then RELU else SIGMOID).
  (** LinearPerceptronModel.cpp:80-94. *)
  Definition linear_load (k d : option Z) (old : linear) : rd linear :=
    rdo ls <- net_load k d (li_labels old); rdo w <- r_mat; rret (mkLin ls (li_y old) w).
  (** MultiLayerPerceptronModel.cpp:121-133. *)
  Definition mlp_load (k d : option Z) (old : mlp) : rd mlp :=
    rdo ls <- net_load k d (ml_labels old); rdo w <- r_mat; rdo v <- r_mat; rdo a <- act_read; rret (mkMlp ls (ml_y old) w v a).
  (** DeepNetworkModel.cpp:168-187; [h] is the member hiddenLayerSize before, the matrices are appended. *)
  Definition deep_load (k d h : option Z) (old : deep) : rd deep :=
    rdo ls <- net_load k d (de_labels old);
    rdo oh <- rd_int h; rdo n <- init oh;
    rdo ws <- rd_loop (Z.to_nat (n + 1)) (fun acc => rdo w <- r_mat; rret (acc ++ [w])) (de_weights old);
    rdo a <- act_read; rret (mkDeep ls (de_y old) ws (Z.to_nat n) a).

  (** * SvmModel *)
  (** Node and NodeList: Node.cpp:46-54, NodeList.cpp:84-98. *)
  Definition nodes_text (l : list node) : string :=
    (line (show_nat (List.length l)) ++ concat_str (map (fun n => line (show_Z (fst n)) ++ line (show (snd n)))%string l))%string.
  Definition node_read1 : rd node := rdo oi <- rd_int None; rdo od <- rd_dbl None; rdo i <- init oi; rdo v <- init od; rret (i, v).
  Definition nodes_read : rd (list node) :=
    rdo os <- rd_int None; rdo n <- init os; rd_loop (Z.to_nat n) (fun acc => rdo x <- node_read1; rret (acc ++ [x])) [].
  (** SvmModel::serialize: SvmModel.cpp:240-263. *)
  Definition svm_text (m : svm) : string :=
    (line (show_nat (m_ncl m)) ++ line (show_nat (m_nprob m)) ++ w_dist (m_dist m)
     ++ line (show_nat (List.length (m_rho m))) ++ concat_str (map (fun r => line (show r)) (m_rho m))
     ++ line (show_nat (List.length (m_nsv m))) ++ concat_str (map (fun n => line (show_nat n)) (m_nsv m))
     ++ line (show_nat (List.length (m_sv m))) ++ concat_str (map nodes_text (m_sv m))
     ++ line (show_nat (List.length (m_coef m)))
     ++ concat_str (map (fun c => line (show_nat (List.length c)) ++ concat_str (map (fun v => line (show v)) c))%string (m_coef m)))%string.
  (** SvmModel(ifstream): SvmModel.cpp:265-296; the variables [r], [s], [value] are declared outside the loops, [parameter] is
      never set.  Simplification: a negative support vector count is read as 0. *)
  Definition read_dbls (o : option Z) (old : option dbl) : rd (option dbl * list dbl) :=
    rdo n <- init o;
    rd_loop (Z.to_nat n) (fun st => rdo x <- rd_dbl (fst st); rdo v <- init x; rret (x, snd st ++ [v])) (old, []).
  Definition svm_load : rd svm :=
    rdo oc <- rd_int None; rdo op <- rd_int None;
    rdo dist <- r_dist;
    rdo s1 <- rd_int None; rdo rho <- read_dbls s1 None;
    rdo s2 <- rd_int s1; rdo n2 <- init s2;
    rdo nsv <- rd_loop (Z.to_nat n2) (fun st => rdo x <- rd_int (fst st); rdo v <- init x; rret (x, snd st ++ [Z.to_nat v])) (None, []);
    rdo s3 <- rd_int s2; rdo n3 <- init s3;
    rdo sv <- rd_loop (Z.to_nat n3) (fun acc => rdo l <- nodes_read; rret (acc ++ [l])) [];
    rdo s4 <- rd_int s3; rdo n4 <- init s4;
    rdo co <- rd_loop (Z.to_nat n4) (fun st => let '(sz, x, acc) := st in
                                               rdo sz' <- rd_int sz; rdo p <- read_dbls sz' x; rret (sz', fst p, acc ++ [snd p]))
                (None, None, []);
    rdo c <- init oc; rdo p <- init op;
    rret (mkSvm dist (snd rho) (snd nsv) sv (snd co) None (Z.to_nat c) (Z.to_nat p)).
End Serial.
