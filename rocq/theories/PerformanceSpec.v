(** Vocabulary for the performance properties. *)
From Coq Require Import String ZArith QArith Bool List.
From Verif Require Import Base Spec AttrModel PerformanceModel.
Import ListNotations.
Local Open Scope list_scope.
Local Open Scope nat_scope.

(** the matrix after classifying the (actual, predicted) pairs [ps] in order *)
Definition classified (labels : list string) (ps : list (string * string)) : cmatrix :=
  fold_left (fun m p => classify m (fst p) (snd p)) ps (cm_empty labels).
(** matrix entry (actual, predicted); 0 when absent *)
Definition cm_entry (m : cmatrix) (a p : string) : nat :=
  match mfind a (rows m) with Some r => ccount r p | None => 0 end.

(** how often the pair / the actual label / the predicted label occurs *)
Definition pair_count (ps : list (string * string)) (a p : string) : nat :=
  List.length (filter (fun q => String.eqb (fst q) a && String.eqb (snd q) p) ps).
Definition actual_count (ps : list (string * string)) (a : string) : nat :=
  List.length (filter (fun q => String.eqb (fst q) a) ps).
Definition predicted_count (ps : list (string * string)) (p : string) : nat :=
  List.length (filter (fun q => String.eqb (snd q) p) ps).
Definition correct_count (ps : list (string * string)) : nat :=
  List.length (filter (fun q => String.eqb (fst q) (snd q)) ps).

(** the experiment obtained by adding the results in order *)
Definition exp_of (ps : list perf) : experiment := fold_left exp_add ps exp_empty.
(** the lines of a text, joined by newlines without a final one *)
Fixpoint join_lines (ls : list string) : string :=
  match ls with
  | [] => EmptyString
  | [s] => s
  | s :: ls' => (s ++ String (Ascii.ascii_of_nat 10) (join_lines ls'))%string
  end.
(** no newline in the text *)
Definition one_line (s : string) : Prop := forall i, String.get i s <> Some (Ascii.ascii_of_nat 10).
