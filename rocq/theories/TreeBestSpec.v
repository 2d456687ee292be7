(** Vocabulary for the choice of splits in decision trees. *)
From Coq Require Import String ZArith QArith Bool List Permutation.
From Verif Require Import Base Spec AttrModel ListSpec TreeModel TreeSpec.
Import ListNotations.
Local Open Scope list_scope.
Local Open Scope nat_scope.

(** Tests on feature [k]. *)
Definition has_index (k : nat) (w : nat) (x : instance) : bool :=
  match nth_error (attrs x) k with Some (AIdx _ i _) => (i =? Z.of_nat w)%Z | _ => false end.
Definition has_text (k : nat) (v : string) (x : instance) : bool :=
  match nth_error (attrs x) k with Some (ADisc w) => String.eqb w v | _ => false end.
Definition at_most (k : nat) (t : Q) (x : instance) : bool :=
  match nth_error (attrs x) k with Some (ACont (Fin q)) => Qle_bool q t | _ => false end.

Section Splits.
  Context (entropy : counter -> dbl) (shape : list kind) (allowed : nat -> Prop).
  (** entropy of the class distribution of a set of instances *)
  Definition impurity (l : list instance) : Q := match entropy (cofl (map label l)) with Fin q => q | _ => 0%Q end.
  (** average entropy of the parts of a split of [data], weighted by their sizes *)
  Definition split_impurity (data : list instance) (gs : list (list instance)) : Q :=
    qsum (map (fun g => qofn (length g) / qofn (length data) * impurity g)%Q gs).
  (** The splits that are considered on an allowed feature: one index against the rest, all the values of a discrete
      feature, every threshold of a continuous feature (also the useless ones, which leave a part empty). *)
  Inductive candidate (data : list instance) : nat -> list (list instance) -> Prop :=
  | cand_index k m w : allowed k -> nth_error shape k = Some (KIdx m) -> w < m ->
      candidate data k [filter (has_index k w) data; filter (fun x => negb (has_index k w x)) data]
  | cand_values k vs : allowed k -> nth_error shape k = Some KDisc -> NoDup vs ->
      (forall v, In v vs <-> exists x, In x data /\ has_text k v x = true) ->
      candidate data k (map (fun v => filter (has_text k v) data) vs)
  | cand_cut k t : allowed k -> nth_error shape k = Some KCont ->
      candidate data k [filter (at_most k t) data; filter (fun x => negb (at_most k t x)) data].
  (** no split has a smaller average entropy than [e] *)
  Definition none_below (data : list instance) (e : Q) : Prop :=
    forall k gs, candidate data k gs -> (e <= split_impurity data gs)%Q.
  (** [chosen sub data t]: the root of [t] is a leaf because its data have one class or because no split lowers the
      entropy; or it makes a split with the smallest average entropy there is, smaller than the entropy of the data, and
      every child is related by [sub] to the part it gets. *)
  Inductive chosen (sub : list instance -> tree -> Prop) (data : list instance) : tree -> Prop :=
  | chosen_pure lab d c : (forall x y, In x data -> In y data -> label x = label y) -> chosen sub data (Node lab true d c [])
  | chosen_stop lab d c : none_below data (impurity data) -> chosen sub data (Node lab true d c [])
  | chosen_split lab d c data' k gs ch :
      Permutation data data' -> candidate data' k gs ->
      (split_impurity data' gs < impurity data)%Q -> none_below data (split_impurity data' gs) ->
      Forall (fun n => c_index (t_cond n) = Z.of_nat k) ch ->
      (forall i g x, nth_error gs i = Some g -> In x data -> (In x g <-> routed (map t_cond ch) i x)) ->
      Forall2 sub gs ch ->
      chosen sub data (Node lab false d c ch).
  (** every node of the tree *)
  Inductive greedy (data : list instance) (t : tree) : Prop := greedy_node : chosen greedy data t -> greedy data t.
End Splits.
(** the features a node looks at: with an attribute subset size below the number of features the first ones of the random
    arrangement, otherwise all *)
Definition looked_at (rarr : nat -> Z -> list nat) (param : option (nat * Z)) (n : nat) (k : nat) : Prop :=
  match param with
  | Some (size, seed) => if Nat.ltb size n then In k (firstn size (rarr n seed)) else k < n
  | None => k < n
  end.
