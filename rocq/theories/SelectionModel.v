(** Model of src/FeatureSelection and Experiment::featureSelectedExperiment.  Definitions only. *)
From Coq Require Import ZArith Bool List.
From Verif Require Import Base.
Import ListNotations.
Local Open Scope list_scope.
Local Open Scope Z_scope.

(** A FeatureSubSet is its indexList: src/FeatureSelection/FeatureSubSet.h:13-28. *)
Definition fset := list Z.
(** [0, 1, ..., n-1], the loop [for (int i = 0; i < n; i++)] *)
Definition zrange (n : Z) : list Z := map Z.of_nat (seq 0 (Z.to_nat n)).
(** FeatureSubSet(numberOfFeatures) and FeatureSubSet(): FeatureSubSet.cpp:21-30. *)
Definition fs_all (n : Z) : fset := zrange n.
Definition fs_empty : fset := [].
(** contains, add, get, remove: FeatureSubSet.cpp:57-87; erase past the end is undefined. *)
Definition fs_contains (s : fset) (i : Z) : bool := existsb (Z.eqb i) s.
Definition fs_add (s : fset) (i : Z) : fset := s ++ [i].
Definition fs_get (s : fset) (i : Z) : res Z := at_ s i.
Definition fs_remove (s : fset) (i : Z) : res fset :=
  if (i <? 0) || (Z.of_nat (length s) <=? i) then UB BadIndex else Ok (erase_nth s (Z.to_nat i)).
(** operator==: FeatureSubSet.h:25-27; the order of the indices matters. *)
Fixpoint fs_eqb (s t : fset) : bool :=
  match s, t with
  | [], [] => true
  | i :: s', j :: t' => Z.eqb i j && fs_eqb s' t'
  | _, _ => false
  end.

(** SubSetSelection::forward: SubSetSelection.cpp:23-31. *)
Definition forward (lst : list fset) (cur : fset) (n : Z) : list fset :=
  fold_left (fun acc i => if fs_contains cur i then acc else acc ++ [fs_add cur i]) (zrange n) lst.
(** SubSetSelection::backward: SubSetSelection.cpp:39-45. *)
Definition backward (lst : list fset) (cur : fset) : res (list fset) :=
  foldM (fun acc i => do c <- fs_remove cur i; Ok (acc ++ [c])) (zrange (Z.of_nat (length cur))) lst.

(** operatorToModify of the three strategies: ForwardSelection.cpp:20-24, BackwardSelection.cpp:22-26,
    FloatingSelection.cpp:20-25. *)
Inductive strategy := SForward | SBackward | SFloating.
Definition operator (s : strategy) (cur : fset) (n : Z) : res (list fset) :=
  match s with
  | SForward => Ok (forward [] cur n)
  | SBackward => backward [] cur
  | SFloating => backward (forward [] cur n) cur
  end.

Section Execute.
  (** [eval s] is multipleRun->execute(experiment.featureSelectedExperiment(s)); [better] is isBetter. *)
  Context {E : Type} (eval : fset -> res E) (better : E -> E -> res bool).
  (** processed, best, bestPerformance, betterFound; [log] is not in the code: the subsets evaluated so far, in order *)
  Record sel_state := mkSel { processed : list fset; best : fset; bestPerf : option E; found : bool; log : list fset }.
  (** one iteration of the inner loop: SubSetSelection.cpp:68-87. *)
  Definition sel_candidate (st : sel_state) (c : fset) : res sel_state :=
    if existsb (fun p => fs_eqb p c) (processed st) then Ok st
    else match c with
         | [] => Ok (mkSel (processed st ++ [c]) (best st) (bestPerf st) (found st) (log st))
         | _ => do cur <- eval c;
                do b <- match bestPerf st with None => Ok true | Some bp => better cur bp end;
                Ok (if b then mkSel (processed st ++ [c]) c (Some cur) true (log st ++ [c])
                    else mkSel (processed st ++ [c]) (best st) (bestPerf st) (found st) (log st ++ [c]))
         end.
  (** one iteration of the while loop: SubSetSelection.cpp:66-87. *)
  Definition sel_round (s : strategy) (n : Z) (st : sel_state) : res sel_state :=
    do cs <- operator s (best st) n;
    foldM sel_candidate cs (mkSel (processed st) (best st) (bestPerf st) false (log st)).
  (** while (betterFound): SubSetSelection.cpp:65-88. *)
  Fixpoint sel_loop (fuel : nat) (s : strategy) (n : Z) (st : sel_state) : res sel_state :=
    match fuel with
    | O => Diverge
    | S fuel' => do st' <- sel_round s n st; if found st' then sel_loop fuel' s n st' else Ok st'
    end.
  (** execute: SubSetSelection.cpp:55-90; [n] is the definition's attributeCount.  Returns the final state, whose
      [best] is the result. *)
  Definition sel_execute (fuel : nat) (s : strategy) (initial : fset) (n : Z) : res sel_state :=
    do st <- match initial with
             | [] => Ok (mkSel [initial] initial None true [])
             | _ => do p <- eval initial; Ok (mkSel [initial] initial (Some p) true [initial])
             end;
    sel_loop fuel s n st.
End Execute.
Arguments mkSel {E}. Arguments processed {E}. Arguments best {E}. Arguments bestPerf {E}. Arguments found {E}. Arguments log {E}.
(** Initial subsets: ForwardSelection.cpp:11-12, BackwardSelection.cpp:12-13, FloatingSelection.cpp:11-12. *)
Definition initial_of (s : strategy) (n : Z) : fset := match s with SBackward => fs_all n | _ => fs_empty end.
