(** Words for C148: several classifiers trained one after the other on one list object. *)
From Coq Require Import String ZArith Bool List.
From Verif Require Import Base Spec AttrModel DataSetModel InstanceListModel LibModel.
Import ListNotations.

(** Each call of train gets the list as the previous call left it. *)
Fixpoint train_all (E : env) (l : ilist) (jobs : list (classifier * option param)) : res (list classifier * ilist) :=
  match jobs with
  | [] => Ok ([], l)
  | (c, p) :: jobs =>
      match train E c l p with
      | Ok (m, l1) => match train_all E l1 jobs with Ok (ms, l2) => Ok (m :: ms, l2) | Throw e => Throw e | UB k => UB k | Diverge => Diverge end
      | Throw e => Throw e | UB k => UB k | Diverge => Diverge
      end
  end.
Definition is_svm (c : classifier) : bool := match c with SvmC _ => true | _ => false end.
(** [s] holds the instances of [l] ordered by label, those of one label in the order they had *)
Definition by_class (l s : ilist) : Prop := is_stable_sort (fun x y => sltb (label x) (label y)) l s.
(** a support vector machine is among the first [k] of [jobs] *)
Definition svm_before (jobs : list (classifier * option param)) (k : nat) : bool := existsb (fun j => is_svm (fst j)) (firstn k jobs).
