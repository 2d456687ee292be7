(** Model of the report texts: DataSet::getClasses, info, to_string and its counters, KnnInstance::to_string, and what() of
    the library's exceptions.  Definitions only.  Simplification: the counters are [int] in the code, natural numbers here. *)
From Coq Require Import String Ascii ZArith QArith Bool List.
From Verif Require Import Base AttrModel DataSetModel InstanceListModel SerialModel.
Import ListNotations.
Local Open Scope string_scope.
Local Open Scope list_scope.
Local Open Scope nat_scope.

(** * DataSet *)
(** sampleSize: DataSet.cpp:167-169. *)
Definition sample_size (s : dataset) : nat := List.length (insts s).
(** classCount: DataSet.cpp:176-178. *)
Definition class_count (s : dataset) : nat := List.length (class_distribution (insts s)).
(** attributeCount, discreteAttributeCount, continuousAttributeCount: DataSet.cpp:185-187, 194-196, 203-205. *)
Definition feature_count (s : dataset) : nat := def_count (ddef s).
Definition discrete_count (s : dataset) : nat := def_discrete (ddef s).
Definition continuous_count (s : dataset) : nat := def_continuous (ddef s).
(** getClasses: DataSet.cpp:212-220; [at(0)] throws on an empty data set. *)
Definition get_classes (s : dataset) : res string :=
  let ls := distinct_labels (insts s) in
  do c <- atn ls 0; Ok (fold_left (fun r l => r ++ (";" ++ l))%string (tl ls) c).
(** info: DataSet.cpp:229-238. *)
Definition info (name : string) (s : dataset) : res string :=
  let r := ("DATASET: " ++ name ++ String nl "")%string in
  let r := (r ++ "Number of instances: " ++ show_nat (sample_size s) ++ String nl "")%string in
  let r := (r ++ "Number of distinct class labels: " ++ show_nat (class_count s) ++ String nl "")%string in
  let r := (r ++ "Number of attributes: " ++ show_nat (feature_count s) ++ String nl "")%string in
  let r := (r ++ "Number of discrete attributes: " ++ show_nat (discrete_count s) ++ String nl "")%string in
  let r := (r ++ "Number of continuous attributes: " ++ show_nat (continuous_count s) ++ String nl "")%string in
  do c <- get_classes s;
  Ok (r ++ "Class labels: " ++ c)%string.
(** to_string: DataSet.cpp:246-248. *)
Definition dataset_text (name : string) (s : dataset) : string :=
  (name ++ show_nat (sample_size s) ++ show_nat (class_count s) ++ show_nat (feature_count s) ++ show_nat (discrete_count s)
   ++ show_nat (continuous_count s))%string.

(** * KnnInstance *)
(** KnnInstance.h:11-12 and the constructor, KnnInstance.cpp:13-16. *)
Record neighbour := mkNeighbour { n_instance : instance; n_distance : dbl }.
(** conversion of a double to (signed) char: the fraction is dropped; undefined if the rest is not representable *)
Definition to_char (d : dbl) : res ascii :=
  match d with
  | Fin q => let z := Z.quot (Qnum q) (Zpos (Qden q)) in
             if ((-128 <=? z) && (z <=? 127))%Z then Ok (ascii_of_nat (Z.to_nat (z mod 256))) else UB IntOverflow
  | _ => UB IntOverflow
  end.
(** to_string: KnnInstance.cpp:23-29; [str += distance] appends one character. *)
Definition neighbour_text (n : neighbour) : res string :=
  do c <- to_char (n_distance n);
  Ok ((label (n_instance n) ++ " ") ++ String c "")%string.

(** * what() *)
(** The exceptions' fields: StatisticalTestNotApplicable.cpp:12-15; the two others have none. *)
Inductive error := NotApplicable (test reason : string) | AlgorithmExpected | FeaturesNotAllowed.
(** a [const char*]: into a literal, or into the buffer of a string object that has been destroyed *)
Inductive cstring := Literal (s : string) | Destroyed (s : string).
(** StatisticalTestNotApplicable.cpp:7-10, ClassificationAlgorithmExpectedException.cpp:12-14,
    DiscreteFeaturesNotAllowed.cpp:7-9. *)
Definition what (e : error) : cstring :=
  match e with
  | NotApplicable test reason => Destroyed (test ++ " is not applicable. " ++ reason)
  | AlgorithmExpected => Literal "Classification Algorithm required for accuracy metric"
  | FeaturesNotAllowed => Literal "Discrete Features are not allowed for this classifier"
  end.
(** reading the characters behind the pointer *)
Definition read_cstring (p : cstring) : res string := match p with Literal s => Ok s | Destroyed _ => UB Dangling end.
