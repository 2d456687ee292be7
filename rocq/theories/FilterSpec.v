(** Vocabulary for the filter properties. *)
From Coq Require Import String ZArith QArith Reals Bool List.
From Verif Require Import Base Spec AttrModel.
Import ListNotations.
Local Open Scope list_scope.
Local Open Scope nat_scope.

(** every instance of [l] has the same number of features, and feature [i] is discrete in all of them or in none:
    [ks] tells which *)
Definition consistent (ks : list bool) (l : list instance) : Prop :=
  Forall (fun x => Forall2 (fun (k : bool) a => if k then exists v, a = ADisc v else forall v, a <> ADisc v) ks (attrs x)) l.
(** [v] is a value of discrete feature [i] of some instance *)
Definition occurs (l : list instance) (i : nat) (v : string) : Prop := exists x, In x l /\ nth_error (attrs x) i = Some (ADisc v).
(** [known] lists, for every discrete feature, the values that occur, each once; and nothing for other features *)
Definition known_values (ks : list bool) (l : list instance) (known : list (list string)) : Prop :=
  List.length known = List.length ks /\
  forall i k vs, nth_error ks i = Some k -> nth_error known i = Some vs ->
    NoDup vs /\ if k then (vs <> [] /\ forall v, In v vs <-> occurs l i v) else vs = [].
(** text of a discrete feature *)
Definition text (a : attr) : string := match a with ADisc v | ABin v | AIdx v _ _ => v | ACont _ => "" end.
(** the features that are not discrete, in order *)
Definition kept (known : list (list string)) (aa : list attr) : list attr :=
  flat_map (fun p => match fst p with [] => [snd p] | _ => [] end) (combine known aa).
(** the discrete features, in order, each with its list of known values *)
Definition replaced (known : list (list string)) (aa : list attr) : list (list string * string) :=
  flat_map (fun p => match fst p with [] => [] | vs => [(vs, text (snd p))] end) (combine known aa).
(** indicators of a value: one per known value *)
Definition indicators (p : list string * string) : list bool := map (String.eqb (snd p)) (fst p).
(** the text under which a value is looked up: a comma is spelt out *)
Definition shown (v : string) : string := if String.eqb v "," then "comma" else v.
Definition shown_indicators (p : list string * string) : list bool := indicators (fst p, shown (snd p)).
(** every instance has as many features as [ks], and feature [i] is a finite number in all of them or in none *)
Definition number_columns (ks : list bool) (l : list instance) : Prop :=
  Forall (fun x => Forall2 (fun (k : bool) a => if k then exists q, a = ACont (Fin q) else forall v, a <> ACont v) ks (attrs x)) l.
(** sum of real numbers *)
Definition rsum (l : list R) : R := fold_right Rplus 0%R l.
(** a column all of whose values are equal *)
Definition constant (qs : list Q) : Prop := forall p q, In p qs -> In q qs -> (p == q)%Q.
