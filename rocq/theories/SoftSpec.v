(** Vocabulary for the soft decision tree properties. *)
From Coq Require Import String ZArith QArith Bool Permutation List.
From Verif Require Import Base Spec AttrModel InstanceListModel PerformanceModel SvmSpec NetModel NetSpec SoftModel.
Import ListNotations.
Local Open Scope list_scope.
Local Open Scope nat_scope.

(** * The textbook soft tree *)
(** a leaf answers with one number per class; an inner node sends an instance to the left with a probability that depends on
    the instance, and to the right with the rest *)
Inductive qtree := QLeaf (answer : nat -> Q) | QNode (gate : nat -> Q) (l r : qtree).
(** the stored tree [t] for [k] classes and [d] features holds the numbers of [q] *)
Fixpoint is_tree (k d : nat) (t : stree) (q : qtree) : Prop :=
  match t, q with
  | SLeaf n, QLeaf a => is_vec (s_w0s n) k a
  | SNode n l r, QNode g ql qr => is_vec (s_w n) (S d) g /\ length (s_outputs n) = k /\ is_tree k d l ql /\ is_tree k d r qr
  | _, _ => False
  end.
Section Textbook.
  Context (e : Q -> Q) (d : nat) (x : nat -> Q).
  (** probability of going left *)
  Definition go_left (gate : nat -> Q) : Q := (1 / (1 + e (- sum_over (S d) (fun j => with_bias x j * gate j))))%Q.
  (** the leaves from left to right, each with the probability of reaching it *)
  Fixpoint leaves (t : qtree) : list (Q * (nat -> Q)) :=
    match t with
    | QLeaf a => [(1%Q, a)]
    | QNode g l r => map (fun la => (go_left g * fst la, snd la)%Q) (leaves l) ++ map (fun la => ((1 - go_left g) * fst la, snd la)%Q) (leaves r)
    end.
  (** the expected answer for class [c] *)
  Definition expected (t : qtree) (c : nat) : Q := qsum (map (fun la => fst la * snd la c)%Q (leaves t)).
  (** the part of the tree at a path ([false] is left), and the probability of getting there *)
  Fixpoint node_at (t : qtree) (p : list bool) {struct p} : option qtree :=
    match p, t with [], _ => Some t | b :: p', QNode _ l r => node_at (if b then r else l) p' | _ :: _, QLeaf _ => None end.
  Fixpoint reach (t : qtree) (p : list bool) {struct p} : Q :=
    match p, t with
    | [], _ => 1
    | b :: p', QNode g l r => ((if b then 1 - go_left g else go_left g) * reach (if b then r else l) p')%Q
    | _ :: _, QLeaf _ => 0
    end.
  (** how much the answer of class [c] should grow for an instance of class [r], with [k] classes: the derivative of the
      log-likelihood of [r] by the tree's answer for [c] *)
  Definition slope (k r : nat) (t : qtree) (c : nat) : Q := ((if Nat.eqb r c then 1 else 0) - softmax e k (expected t) c)%Q.
  (** derivatives of that log-likelihood by the answer of a leaf at [p], and by the gate of a node at [p] with leaves answering
      [al] and [ar] *)
  Definition leaf_gradient (k r : nat) (t : qtree) (p : list bool) (c : nat) : Q := (slope k r t c * reach t p)%Q.
  Definition gate_gradient (k r : nat) (t : qtree) (p : list bool) (g al ar : nat -> Q) (j : nat) : Q :=
    (sum_over k (fun c => slope k r t c * (al c - ar c)) * reach t p * (go_left g * (1 - go_left g)) * with_bias x j)%Q.
End Textbook.

(** * Trees that answer alike *)
(** same shape, same responses at the leaves, same gates at the inner nodes; the scratch members may differ *)
Fixpoint same_tree (t u : stree) : Prop :=
  match t, u with
  | SLeaf n, SLeaf m => s_w0s n = s_w0s m /\ s_w n = s_w m /\ length (s_outputs n) = length (s_outputs m)
  | SNode n l r, SNode m l' r' => s_w0s n = s_w0s m /\ s_w n = s_w m /\ length (s_outputs n) = length (s_outputs m) /\ same_tree l l' /\ same_tree r r'
  | _, _ => False
  end.
(** number of inner nodes *)
Fixpoint splits (t : stree) : nat := match t with SLeaf _ => 0 | SNode _ l r => S (splits l + splits r) end.
(** [n] instances of [cv] are predicted wrongly by the tree [t] *)
Definition mistakes (dexp : dbl -> dbl) (labels : list string) (t : stree) (cv : ilist) (n : nat) : Prop :=
  exists ps, Forall2 (fun x p => exists m, soft_predict dexp (mkSoft labels t) x = Ok (p, m)) cv ps /\
    n = countb (fun xp => negb (String.eqb (label (fst xp)) (snd xp))) (combine cv ps).

(** * Training data *)
(** [d] features, all continuous *)
Definition continuous_data (d : nat) (l : ilist) : Prop := Forall (fun x => length (attrs x) = d /\ Forall (fun a => exists v, a = ACont v) (attrs x)) l.
(** all instances have labels from [labels]; all of [labels] occur *)
Definition labelled (labels : list string) (l : ilist) : Prop := Forall (fun x => In (label x) labels) l.
Definition exhausts (labels : list string) (l : ilist) : Prop := forall c, In c labels -> exists x, In x l /\ label x = c.
(** every class of [l] has an instance in [tr] *)
Definition covers (tr l : ilist) : Prop := forall x, In x l -> exists y, In y tr /\ label y = label x.
(** all nodes of the tree are laid out for [k] classes and [d] features *)
Fixpoint laid_out (k d : nat) (t : stree) : Prop :=
  let ok n := length (s_w0s n) = k /\ length (s_outputs n) = k /\ length (s_w n) = S d in
  match t with SLeaf n => ok n | SNode n l r => ok n /\ laid_out k d l /\ laid_out k d r end.

(** * Candidates of one split *)
Section Candidates.
  Context (dexp : dbl -> dbl) (perm : Z -> nat -> list nat) (labels : list string) (par : soft_param) (cv data : ilist).
  (** [start] is [t] with the leaf at [p] replaced by a node with two new leaves *)
  Definition split_of (t : stree) (p : list bool) (start : stree) : Prop :=
    exists n m a b, sub t p = Ok (SLeaf n) /\ s_w0s m = s_w0s n /\ s_w m = s_w n /\ length (s_outputs m) = length (s_outputs n) /\
      same_tree start (put t p (SNode m (SLeaf a) (SLeaf b))).
  (** gradient descent at the node [p] of [start] with learning rate 10 / 2^i, on the training data in some order, gives [c] *)
  Definition trained (p : list bool) (start : stree) (i : nat) (c : stree) : Prop :=
    exists t d1 d2, same_tree start t /\ Permutation d1 data /\ descent dexp perm labels par p (eta_of i) (t, d1) = Ok (c, d2).
  (** the eleven candidates, each with its number of mistakes on the validation set *)
  Definition candidates (p : list bool) (start : stree) (cs : list (stree * nat)) : Prop :=
    Forall2 (fun i cn => trained p start i (fst cn) /\ mistakes dexp labels (fst cn) cv (snd cn)) (seq 0 11) cs.
  (** [c] is the first candidate with the fewest mistakes, [n] of them *)
  Definition best_of (cs : list (stree * nat)) (c : stree) (n : nat) : Prop :=
    exists j, nth_error cs j = Some (c, n) /\ forall j' c' n', nth_error cs j' = Some (c', n') -> n <= n' /\ (j' < j -> n < n').
End Candidates.
(** * Attempts *)
(** [attempts s tr s']: the split attempts [tr] (path of the node, kept or not), made one after the other, lead from [s] to [s'] *)
Inductive attempts (dexp : dbl -> dbl) (perm : Z -> nat -> list nat) (rnd : nat -> dbl) (labels : list string) (par : soft_param) (cv : ilist)
    : stree * ilist * nat -> list (list bool * bool) -> stree * ilist * nat -> Prop :=
| no_attempt s : attempts dexp perm rnd labels par cv s [] s
| one_attempt s p kept s1 tr s2 : find_split dexp perm rnd labels par cv p s = Ok (kept, s1) -> attempts dexp perm rnd labels par cv s1 tr s2 ->
    attempts dexp perm rnd labels par cv s ((p, kept) :: tr) s2.
(** what the node at path [p] is: [Some false] a leaf, [Some true] an inner node, [None] there is no such node *)
Fixpoint kind_at (t : stree) (p : list bool) : option bool :=
  match p, t with
  | [], SLeaf _ => Some false
  | [], SNode _ _ _ => Some true
  | _ :: _, SLeaf _ => None
  | true :: p', SNode _ _ r => kind_at r p'
  | false :: p', SNode _ l _ => kind_at l p'
  end.
