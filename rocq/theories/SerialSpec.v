(** Vocabulary for saving and loading: what a file layout is and what it means that a reader reads it. *)
From Coq Require Import String Ascii ZArith QArith Bool List.
From Verif Require Import Base AttrModel DataSetModel DataSetSpec InstanceListModel TreeModel GaussianModel SvmModel NetModel SerialModel.
Import ListNotations.
Local Open Scope string_scope.
Local Open Scope list_scope.
Local Open Scope nat_scope.

(** ** Text *)
Fixpoint all_chars (p : ascii -> bool) (s : string) : bool := match s with "" => true | String c r => p c && all_chars p r end.
Definition blank (s : string) : Prop := all_chars is_ws s = true.
(** a word: not empty, no white space *)
Definition word (s : string) : Prop := s <> "" /\ all_chars (fun c => negb (is_ws c)) s = true.
(** a 32-bit int *)
Definition is_int (z : Z) : Prop := (-2147483648 <= z <= 2147483647)%Z.

(** ** Readers *)
(** the reader, at text (after blanks) followed by a newline, yields [a] and stops before the newline *)
Definition reads_upto {A} (r : rd A) (text : string) (a : A) : Prop :=
  forall w rest, blank w -> r (mkIn (w ++ text ++ String nl rest)%string true) = Ok (a, mkIn (String nl rest) true).
(** the reader consumes the text, yields [a] and leaves what follows, up to blanks *)
Definition reads {A} (r : rd A) (text : string) (a : A) : Prop :=
  forall w rest, blank w -> exists w', blank w' /\ r (mkIn (w ++ text ++ rest)%string true) = Ok (a, mkIn (w' ++ rest)%string true).
(** contract of a library class: what [w] writes for [a] ends with a newline and is read back by [r] as [b] *)
Definition written_read {A} (w : A -> string) (r : rd A) (a b : A) : Prop :=
  exists body, w a = line body /\ reads_upto r body b.
(** text [t] is a number that [>>] reads as [d] *)
Definition numeral (scan : string -> option (dbl * string)) (t : string) (d : dbl) : Prop :=
  word t /\ forall c rest, is_ws c = true -> scan (t ++ String c rest)%string = Some (d, String c rest).
(** text [t] is not the start of a number *)
Definition no_numeral (scan : string -> option (dbl * string)) (t : string) : Prop := forall c rest, is_ws c = true -> scan (t ++ String c rest)%string = None.
Definition no_integer (t : string) : Prop := match t with String c _ => is_digit c = false /\ c <> "-"%char /\ c <> "+"%char | "" => True end.

(** ** The layouts of the model files shipped in cmake-build-debug/models *)
(** random-*.txt: seed, number of labels, labels *)
Definition random_layout (seed : Z) (labels : list string) : string :=
  (line (show_Z seed) ++ line (show_nat (List.length labels)) ++ concat_str (map line labels))%string.
(** knn-*.txt, kMeans-*.txt: a line of types, the number of rows, the rows with commas *)
Inductive column := CDisc | CCont.
Definition column_word (c : column) : string := match c with CDisc => "DISCRETE" | CCont => "CONTINUOUS" end.
Definition row := (list string * string)%type. (* the cells and the label *)
Definition types_line (cols : list column) : string := concat_str (map (fun c => column_word c ++ " ")%string cols).
(** StringUtils::split separates the types of a line *)
Definition words_ok (words : string -> list string) : Prop := forall cols, words (types_line cols) = map column_word cols.
Definition list_layout (cols : list column) (rows : list row) : string :=
  (line (types_line cols) ++ line (show_nat (List.length rows)) ++ concat_str (map (fun r => line (join "," (fst r ++ [snd r]))) rows))%string.
Definition knn_layout (k : Z) (cols : list column) (rows : list row) : string := (line (show_Z k) ++ list_layout cols rows)%string.
(** the instance a row stands for *)
Definition cell_attr (stof : string -> res dbl) (c : column) (s : string) (a : attr) : Prop :=
  match c with CDisc => a = ADisc s | CCont => exists v, stof s = Ok v /\ a = ACont v end.
Definition row_instance (stof : string -> res dbl) (cols : list column) (r : row) (x : instance) : Prop :=
  label x = snd r /\ composite x = None /\ List.length (fst r) = List.length cols /\
  Forall2 (fun cs a => cell_attr stof (fst cs) (snd cs) a) (combine cols (fst r)) (attrs x).
Definition clean_cell (s : string) : Prop := s <> "" /\ has_char "," s = false /\ has_char nl s = false.

Section Layouts.
  (** the text of the library's objects *)
  Context (t_dist : counter -> string) (t_vec : list dbl -> string) (t_mat : mat -> string) (num : dbl -> string).
  Definition kmeans_layout (prior : counter) (cols : list column) (rows : list row) : string := (t_dist prior ++ list_layout cols rows)%string.
  (** lda-*.txt: prior, "label weight" lines, "label vector" lines; qda-*.txt adds "label, matrix" entries; naiveBayes-*.txt
      has two blocks of vectors *)
  Definition weights_layout (l : list (string * dbl)) : string := concat_str (map (fun e => fst e ++ " " ++ line (num (snd e)))%string l).
  Definition vectors_layout (l : list (string * list dbl)) : string := concat_str (map (fun e => fst e ++ " " ++ t_vec (snd e))%string l).
  Definition matrices_layout (l : list (string * mat)) : string := concat_str (map (fun e => line (fst e) ++ t_mat (snd e))%string l).
  Definition lda_layout (prior : counter) (w0 : list (string * dbl)) (w : list (string * list dbl)) : string :=
    (t_dist prior ++ weights_layout w0 ++ vectors_layout w)%string.
  Definition qda_layout (prior : counter) (w0 : list (string * dbl)) (w : list (string * list dbl)) (W : list (string * mat)) : string :=
    (lda_layout prior w0 w ++ matrices_layout W)%string.
  Definition bayes_layout (prior : counter) (means devs : list (string * list dbl)) : string :=
    (t_dist prior ++ vectors_layout means ++ vectors_layout devs)%string.
  (** c45-*.txt: per node "attribute comparison value", the number of children, then the children or label and distribution *)
  Definition cond_layout (c : condition) : string :=
    match c_value c with
    | None => line "-1 = -1"
    | Some (ADisc v) | Some (ABin v) => line (show_Z (c_index c) ++ " = " ++ v)
    | Some (AIdx _ k m) => line (show_Z (c_index c) ++ " : " ++ show_Z k ++ " " ++ show_nat m)
    | Some (ACont x) => line (show_Z (c_index c) ++ (match c_cmp c with CGt => " > " | _ => " < " end) ++ num x)
    end.
  Fixpoint tree_layout (t : tree) : string :=
    match t with
    | Node lab _ d c [] => (cond_layout c ++ line "0" ++ line lab ++ t_dist d)%string
    | Node lab _ d c ch => (cond_layout c ++ line (show_nat (List.length ch)) ++ concat_str (map tree_layout ch))%string
    end.
  (** bagging-*.txt, randomforest-*.txt *)
  Definition ensemble_layout (f : list tree) : string := (line (show_nat (List.length f)) ++ concat_str (map tree_layout f))%string.
  (** linearPerceptron-*.txt, multiLayerPerceptron-*.txt, deepNetwork-*.txt *)
  Definition act_word (a : activation) : string := match a with SIGMOID => "SIGMOID" | TANH => "TANH" | RELU => "RELU" end.
  Definition net_layout (d : nat) (labels : list string) : string :=
    (show_nat (List.length labels) ++ " " ++ line (show_nat d) ++ concat_str (map line labels))%string.
  Definition linear_layout (d : nat) (labels : list string) (w : mat) : string := (net_layout d labels ++ t_mat w)%string.
  Definition mlp_layout (d : nat) (labels : list string) (w v : mat) (a : activation) : string :=
    (net_layout d labels ++ t_mat w ++ t_mat v ++ line (act_word a))%string.
  Definition deep_layout (d : nat) (labels : list string) (h : nat) (ws : list mat) (a : activation) : string :=
    (net_layout d labels ++ line (show_nat h) ++ concat_str (map t_mat ws) ++ line (act_word a))%string.
End Layouts.

(** ** Trees that can be stored *)
Definition storable_cond (stof : string -> res dbl) (num : dbl -> string) (c : condition) : Prop :=
  match c_value c with
  | None => c = no_condition
  | Some a => (0 <= c_index c <= int_max)%Z /\
              match a with
              | ADisc v => word v /\ c_cmp c = CEq
              | AIdx _ k m => is_int k /\ is_int (Z.of_nat m) /\ c_cmp c = CEq
              | ACont x => word (num x) /\ stof (num x) = Ok x /\ (c_cmp c = CLt \/ c_cmp c = CGt)
              | ABin _ => False
              end
  end.
Inductive storable (stof : string -> res dbl) (num : dbl -> string) : tree -> Prop :=
| storable_leaf lab d c : storable_cond stof num c -> word lab -> storable stof num (Node lab true d c [])
| storable_inner lab d c ch : storable_cond stof num c -> ch <> [] -> is_int (Z.of_nat (List.length ch)) -> Forall (storable stof num) ch ->
    storable stof num (Node lab false d c ch).
(** all class distributions of the leaves *)
Fixpoint leaf_dists (t : tree) : list counter := match t with Node _ _ d _ [] => [d] | Node _ _ _ _ ch => flat_map leaf_dists ch end.
(** the instance is sent to a leaf: at every inner node some child accepts it *)
Fixpoint covered (t : tree) (x : instance) : bool :=
  match t with
  | Node _ leaf _ _ ch => leaf || (fix go (ch : list tree) := match ch with
                                      | [] => false
                                      | n :: ch' => match satisfy (t_cond n) x with Ok true => covered n x | Ok false => go ch' | _ => false end
                                      end) ch
  end.
(** ** What is left of a tree in a file: inner nodes keep neither label nor distribution, indexed values lose their text *)
Definition loaded_cond (c : condition) : condition :=
  match c_value c with Some (AIdx _ k m) => mkCond (c_index c) (c_cmp c) (Some (AIdx "" k m)) | _ => c end.
Fixpoint loaded (t : tree) : tree :=
  match t with
  | Node lab _ d c [] => Node lab true d (loaded_cond c) []
  | Node _ _ _ c ch => Node "" false [] (loaded_cond c) (map loaded ch)
  end.

(** the condition of a child: an attribute index and a value *)
Definition inner_cond (c : condition) : Prop := (0 <= c_index c <= int_max)%Z /\ c_value c <> None.

(** ** Models that can be stored *)
Section Storable.
  Context (show : dbl -> string) (scan : string -> option (dbl * string)) (w_dist : counter -> string) (r_dist : rd counter).
  Context (w_vec : list dbl -> string) (r_vec : rd (list dbl)).
  (** [rnd] is what printing with [show] and reading back does to a number *)
  Definition nodes_ok (rnd : dbl -> dbl) (l : list node) : Prop := is_int (Z.of_nat (List.length l)) /\ Forall (fun n => is_int (fst n) /\ numeral scan (show (snd n)) (rnd (snd n))) l.
  Definition svm_ok (rnd : dbl -> dbl) (m : svm) : Prop :=
    is_int (Z.of_nat (m_ncl m)) /\ is_int (Z.of_nat (m_nprob m)) /\ written_read w_dist r_dist (m_dist m) (m_dist m) /\
    is_int (Z.of_nat (List.length (m_rho m))) /\ Forall (fun v => numeral scan (show v) (rnd v)) (m_rho m) /\
    is_int (Z.of_nat (List.length (m_nsv m))) /\ Forall (fun n => is_int (Z.of_nat n)) (m_nsv m) /\
    is_int (Z.of_nat (List.length (m_sv m))) /\ Forall (nodes_ok rnd) (m_sv m) /\
    is_int (Z.of_nat (List.length (m_coef m))) /\ Forall (fun c => is_int (Z.of_nat (List.length c)) /\ Forall (fun v => numeral scan (show v) (rnd v)) c) (m_coef m).
  (** [rv] is what writing and reading back does to a vector *)
  Definition entries_ok (rv : list dbl -> list dbl) (m : smap (list dbl)) : Prop := Forall (fun e => word (fst e) /\ written_read w_vec r_vec (snd e) (rv (snd e))) m.
End Storable.
