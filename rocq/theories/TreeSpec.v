(** Vocabulary for the decision tree properties. *)
From Coq Require Import String ZArith QArith Bool List Permutation.
From Verif Require Import Base Spec AttrModel ListSpec TreeModel.
Import ListNotations.
Local Open Scope string_scope.
Local Open Scope list_scope.
Local Open Scope nat_scope.

(** * Well typed training data *)
(** The kinds of columns; a continuous column holds ordinary (finite) numbers, an indexed column of size [m] any index. *)
Inductive kind := KDisc | KBin | KIdx (m : nat) | KCont.
Definition has_kind (k : kind) (a : attr) : Prop :=
  match k with
  | KDisc => exists v, a = ADisc v
  | KBin => exists v, a = ABin v
  | KIdx m => exists v i, a = AIdx v i m
  | KCont => exists q, a = ACont (Fin q)
  end.
Definition typed (shape : list kind) (x : instance) : Prop := Forall2 has_kind shape (attrs x).
Definition tabular (shape : list kind) (l : list instance) : Prop := Forall (typed shape) l.

(** * Conditions *)
(** What it means that [x] satisfies condition [c], written on the features themselves. *)
Definition satisfied (c : condition) (x : instance) : Prop :=
  exists a, feature x (c_index c) a /\
    match c_value c with
    | Some (ADisc v) => a = ADisc v
    | Some (AIdx _ i _) => i = (-1)%Z \/ exists s m, a = AIdx s i m
    | Some (ACont t) => exists v, a = ACont v /\ match c_cmp c with CLt => dleb v t = true | CGt => dltb t v = true | CEq => False end
    | _ => False
    end.
(** [i] is the first of the conditions [cs] that [x] satisfies *)
Definition routed (cs : list condition) (i : nat) (x : instance) : Prop :=
  (exists c, nth_error cs i = Some c /\ satisfied c x) /\
  forall j c, j < i -> nth_error cs j = Some c -> ~ satisfied c x.

(** * Trees *)
(** [lab] is a most frequent entry of [labels] *)
Definition majority (labels : list string) (lab : string) : Prop :=
  In lab labels /\ forall c, occ labels c <= occ labels lab.
(** [grown data t]: [t] is a tree grown on [data]: every node carries a majority label and the class counts of its data;
    an inner node divides its data among at least two children, each getting a nonempty, strictly smaller part; an
    instance goes to the first child whose condition it satisfies. *)
Inductive grown : list instance -> tree -> Prop :=
| grown_leaf data lab dist c :
    majority (map label data) lab -> (forall l, ccount dist l = occ (map label data) l) ->
    grown data (Node lab true dist c [])
| grown_inner data lab dist c groups ch :
    majority (map label data) lab -> (forall l, ccount dist l = occ (map label data) l) ->
    2 <= length ch ->
    Permutation (concat groups) data ->
    Forall (fun g => g <> [] /\ length g < length data) groups ->
    (forall i g x, nth_error groups i = Some g -> In x data -> (In x g <-> routed (map t_cond ch) i x)) ->
    Forall2 grown groups ch ->
    grown data (Node lab false dist c ch).

(** number of edges on the longest path *)
Fixpoint height (t : tree) : nat :=
  match t with Node _ _ _ _ ch => fold_right Nat.max 0 (map (fun c => S (height c)) ch) end.
(** [t'] is [t] with some inner nodes turned into leaves and nothing else changed *)
Inductive pruned : tree -> tree -> Prop :=
| pruned_node lab leaf leaf' dist c ch ch' :
    (leaf = true -> leaf' = true) -> Forall2 pruned ch ch' ->
    pruned (Node lab leaf dist c ch) (Node lab leaf' dist c ch').

(** [x] comes through the node at the end of [path], a list of child numbers *)
Fixpoint passes (t : tree) (path : list nat) (x : instance) : Prop :=
  match path with
  | [] => True
  | i :: p => t_leaf t = false /\ routed (map t_cond (t_children t)) i x /\ exists n, nth_error (t_children t) i = Some n /\ passes n p x
  end.
(** ... and goes no further *)
Definition stops (t : tree) (path : list nat) (x : instance) : Prop :=
  passes t path x /\ forall i, ~ passes t (path ++ [i]) x.

(** number of instances of [l] whose label the classifier returns *)
Definition hits (predict : instance -> res string) (l : list instance) : nat :=
  countb (fun x => match predict x with Ok p => String.eqb p (label x) | _ => false end) l.

(** * Contracts of the parts that are not in the repository *)
(** DiscreteDistribution::entropy returns an ordinary number for every distribution *)
Definition entropy_finite (entropy : counter -> dbl) : Prop := forall c, exists q, entropy c = Fin q.
(** exact midpoint *)
Definition mid_exact (mid : dbl -> dbl -> dbl) : Prop := forall a b, deq (mid (Fin a) (Fin b)) (Fin ((a + b) / 2)).
(** RandomArray::indexArray(n, seed) is a rearrangement of 0, ..., n-1 *)
Definition rarr_perm (rarr : nat -> Z -> list nat) : Prop := forall n seed, Permutation (rarr n seed) (seq 0 n).
(** getMaxItem(labels) returns one of the labels when there is one *)
Definition max_item_in (max_item : counter -> list string -> string) : Prop :=
  forall d ls, ls <> [] -> In (max_item d ls) ls.
