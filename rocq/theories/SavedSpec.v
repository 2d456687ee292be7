(** Vocabulary for C160: what the saved file of a tree or a network says. *)
From Coq Require Import String Ascii ZArith Bool List DecimalString.
From Verif Require Import Base AttrModel TreeModel DataSetModel DataSetSpec SerialModel SerialTextProps.
Import ListNotations.
Local Open Scope string_scope.
Local Open Scope list_scope.
Local Open Scope nat_scope.

(** a text within one line *)
Definition one_line (s : string) : Prop := has_char nl s = false.
Definition sign_of (c : cmp) : string := match c with CEq => "=" | CLt => "<" | CGt => ">" end.
Definition shown (fmt : dbl -> string) (a : attr) : string :=
  match a with ADisc v | ABin v | AIdx v _ _ => if String.eqb v "," then "comma" else v | ACont v => fmt v end.
(** the line with the type, missing for binary and indexed values *)
Definition kind_of (a : attr) : list string := match a with ADisc _ => ["Discrete"] | ACont _ => ["Continuous"] | _ => [] end.
(** the lines of a condition: only -1 for the one of the root *)
Definition cond_lines (fmt : dbl -> string) (c : condition) : list string :=
  match c_value c with
  | None => ["-1"]
  | Some a => [decimal (Z.to_nat (c_index c)); sign_of (c_cmp c)] ++ kind_of a ++ [shown fmt a]
  end.
(** the lines of a tree: condition, number of children, then the label of a leaf or the children one after the other *)
Fixpoint tree_lines (fmt : dbl -> string) (t : tree) : list string :=
  match t with
  | Node lab _ _ c ch =>
      cond_lines fmt c ++ [decimal (length ch)] ++
      match ch with [] => [lab] | _ => (fix go (l : list tree) := match l with [] => [] | n :: l' => tree_lines fmt n ++ go l' end) ch end
  end.
(** conditions as training makes them *)
Definition made (c : condition) : Prop := match c_value c with None => c_index c = (-1)%Z | Some _ => (0 <= c_index c)%Z end.
Inductive writable (fmt : dbl -> string) : tree -> Prop :=
| writable_node lab leaf d c ch : made c -> one_line lab -> (forall a, c_value c = Some a -> one_line (shown fmt a)) -> Forall (writable fmt) ch -> writable fmt (Node lab leaf d c ch).
(** every node without children is a leaf and the others are not, as growing leaves them; all conditions compare words other than
    the comma or numbers out of [P], below the root, with the sign that growing uses *)
Definition comparable (P : dbl -> Prop) (c : condition) : Prop :=
  match c_value c with
  | None => c = no_condition
  | Some (ADisc v) => (0 <= c_index c)%Z /\ v <> ","
  | Some (ACont v) => (0 <= c_index c)%Z /\ P v
  | _ => False
  end.
Inductive unpruned (P : dbl -> Prop) : tree -> Prop :=
| unpruned_leaf lab d c : comparable P c -> unpruned P (Node lab true d c [])
| unpruned_inner lab d c ch : comparable P c -> ch <> [] -> Forall (unpruned P) ch -> unpruned P (Node lab false d c ch).
