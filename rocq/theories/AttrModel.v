(** Model of src/Attribute, src/Instance and src/Model/Svm/{Node,NodeList}.  Definitions only. *)
From Coq Require Import String ZArith QArith Bool List.
From Verif Require Import Base.
Import ListNotations.
Local Open Scope string_scope.
Local Open Scope list_scope.
Local Open Scope nat_scope.

(** * Attributes *)

(** The four concrete classes: src/Attribute/DiscreteAttribute.h:11-26, BinaryAttribute.h:9-17,
    DiscreteIndexedAttribute.h:9-24, ContinuousAttribute.h:12-28.
    Simplification: [maxIndex] is a natural number (a negative one makes [reserve] throw length_error in
    DiscreteIndexedAttribute.cpp:45; every constructor call in the library passes a container size). *)
Inductive attr :=
| ADisc (v : string)
| ABin (v : string)
| AIdx (v : string) (index : Z) (maxIndex : nat)
| ACont (v : dbl).

(** isDiscrete/isContinuous/isDiscreteIndexed/isBinary overrides in the four headers
    (DiscreteAttribute.h:19-22, BinaryAttribute.h:13-16, DiscreteIndexedAttribute.h:19-22, ContinuousAttribute.h:22-25). *)
Definition isDiscrete (a : attr) : bool := match a with ADisc _ => true | _ => false end.
Definition isContinuous (a : attr) : bool := match a with ACont _ => true | _ => false end.
Definition isDiscreteIndexed (a : attr) : bool := match a with AIdx _ _ _ => true | _ => false end.
Definition isBinary (a : attr) : bool := match a with ABin _ => true | _ => false end.

(** BinaryAttribute(bool) through DiscreteAttribute(bool): BinaryAttribute.cpp:12-13, DiscreteAttribute.cpp:38-44. *)
Definition bool_value (b : bool) : string := if b then "true" else "false".
Definition new_binary (b : bool) : attr := ABin (bool_value b).

(** [((DiscreteAttribute* ) a)->getValue()]: DiscreteAttribute.cpp:21-23; a C-style cast of a ContinuousAttribute is
    undefined behaviour. *)
Definition disc_value (a : attr) : res string :=
  match a with ADisc v | ABin v | AIdx v _ _ => Ok v | ACont _ => UB BadCast end.
(** [((ContinuousAttribute* ) a)->getValue()]: ContinuousAttribute.cpp:21-23. *)
Definition cont_value (a : attr) : res dbl := match a with ACont v => Ok v | _ => UB BadCast end.
(** [((DiscreteIndexedAttribute* ) a)->getIndex()]: DiscreteIndexedAttribute.cpp:26-28. *)
Definition idx_index (a : attr) : res Z := match a with AIdx _ i _ => Ok i | _ => UB BadCast end.
(** [getMaxIndex]: DiscreteIndexedAttribute.cpp:35-37. *)
Definition idx_max (a : attr) : res nat := match a with AIdx _ _ m => Ok m | _ => UB BadCast end.

(** continuousAttributeSize: DiscreteAttribute.cpp:46-48 (inherited by Binary), DiscreteIndexedAttribute.cpp:39-41,
    ContinuousAttribute.cpp:43-45. *)
Definition attr_size (a : attr) : nat := match a with ADisc _ | ABin _ => 0 | AIdx _ _ m => m | ACont _ => 1 end.

(** The loop of DiscreteIndexedAttribute::continuousAttributes, DiscreteIndexedAttribute.cpp:43-54: [i] counts up,
    [n] iterations are left. *)
Fixpoint one_hot_from (i n : nat) (index : Z) : list dbl :=
  match n with
  | O => []
  | S n' => (if (Z.of_nat i =? index)%Z then d1 else d0) :: one_hot_from (S i) n' index
  end.
(** continuousAttributes: DiscreteAttribute.cpp:50-52, DiscreteIndexedAttribute.cpp:43-54, ContinuousAttribute.cpp:47-51. *)
Definition attr_vals (a : attr) : list dbl :=
  match a with
  | ADisc _ | ABin _ => []
  | AIdx _ i m => one_hot_from 0 m i
  | ACont v => [v]
  end.

(** to_string: DiscreteAttribute.cpp:30-36 ("," is written as "comma"), ContinuousAttribute.cpp:39-41.
    [fmt] stands for [std::to_string(double)]. *)
Definition attr_string (fmt : dbl -> string) (a : attr) : string :=
  match a with
  | ADisc v | ABin v | AIdx v _ _ => if String.eqb v "," then "comma" else v
  | ACont v => fmt v
  end.

(** * Instances *)

(** Instance (Instance.h:16-20) and CompositeInstance (CompositeInstance.h:11-13): [composite] is [Some labels] exactly
    for a CompositeInstance.  Simplification: attributes are values, not shared heap objects; sharing and destruction
    are modelled separately in HeapModel.v. *)
Record instance := mkInst { label : string; attrs : list attr; composite : option (list string) }.

(** Instance(classLabel, attributes) / Instance(classLabel): Instance.cpp:16-19, 27-29. *)
Definition new_instance (l : string) (a : list attr) : instance := mkInst l a None.
(** CompositeInstance constructors: CompositeInstance.cpp:15-16, 25-26 (no labels), 34-36, 46-49. *)
Definition new_composite0 (l : string) (a : list attr) : instance := mkInst l a (Some []).
Definition new_composite_labels (ls : list string) : res instance :=
  match ls with [] => Throw OutOfRange | l :: r => Ok (mkInst l [] (Some r)) end.
Definition new_composite (l : string) (a : list attr) (ls : list string) : instance := mkInst l a (Some ls).

(** isComposite: Instance.h:45, CompositeInstance.h:20. *)
Definition isComposite (i : instance) : bool := match composite i with Some _ => true | None => false end.
(** getPossibleClassLabels: Instance.cpp:142-146, CompositeInstance.cpp:56-58. *)
Definition possible_labels (i : instance) : list string :=
  match composite i with Some ls => ls | None => [label i] end.
(** setPossibleClassLabels: CompositeInstance.cpp:65-67.  Only a CompositeInstance has the method. *)
Definition set_possible (i : instance) (ls : list string) : instance :=
  match composite i with
  | Some old => mkInst (label i) (attrs i) (Some (old ++ ls))
  | None => i
  end.

(** addAttribute overloads and addVectorAttribute: Instance.cpp:36-38, 45-47, 54-56, 63-67. *)
Definition add_attr (i : instance) (a : attr) : instance := mkInst (label i) (attrs i ++ [a]) (composite i).
Definition add_vector (i : instance) (v : list dbl) : instance :=
  mkInst (label i) (attrs i ++ map ACont v) (composite i).
(** removeAttribute: Instance.cpp:74-76, [erase(begin()+index)]. *)
Definition remove_attr (i : instance) (k : Z) : res instance :=
  if (k <? 0)%Z then UB BadIndex
  else if Nat.ltb (Z.to_nat k) (List.length (attrs i))
       then Ok (mkInst (label i) (erase_nth (attrs i) (Z.to_nat k)) (composite i))
       else UB BadIndex.
(** removeAllAttributes: Instance.cpp:81-83. *)
Definition remove_all_attrs (i : instance) : instance := mkInst (label i) [] (composite i).
(** getAttribute: Instance.cpp:91-93. *)
Definition get_attr (i : instance) (k : Z) : res attr := at_ (attrs i) k.
(** attributeSize: Instance.cpp:100-102. *)
Definition attr_count (i : instance) : nat := List.length (attrs i).
(** continuousAttributeSize: Instance.cpp:109-115. *)
Definition inst_size (i : instance) : nat := fold_left (fun s a => s + attr_size a) (attrs i) 0.
(** continuousAttributes: Instance.cpp:124-131. *)
Definition inst_vals (i : instance) : list dbl := fold_left (fun r a => r ++ attr_vals a) (attrs i) [].
(** toVector: Instance.cpp:167-174 (Math's Vector wraps the list of values). *)
Definition inst_vector (i : instance) : list dbl := fold_left (fun r a => r ++ attr_vals a) (attrs i) [].
(** Instance::to_string / CompositeInstance::to_string: Instance.cpp:153-160, CompositeInstance.cpp:74-80. *)
Definition inst_string (fmt : dbl -> string) (i : instance) : string :=
  let base := (fold_left (fun r a => r ++ attr_string fmt a ++ ",")%string (attrs i) "" ++ label i)%string in
  match composite i with
  | None => base
  | Some ls => fold_left (fun r l => r ++ ";" ++ l)%string ls base
  end.
(** getSubSetOfFeatures: Instance.cpp:189-195; the feature subset is FeatureSubSet's [indexList]
    (FeatureSubSet.cpp:42-44 [get]); not virtual, so a composite instance yields a plain Instance. *)
Definition inst_subset (i : instance) (fs : list Z) : res instance :=
  do l <- mapM (fun k => at_ (attrs i) k) fs; Ok (mkInst (label i) l None).

(** operator<: Instance.h:46-48. *)
Definition inst_ltb (a b : instance) : bool := sltb (label a) (label b).

(** * Sparse vectors *)

(** Node (src/Model/Svm/Node.h) : index and value. *)
Definition node := (Z * dbl)%type.
(** NodeList(values): NodeList.cpp:13-19, keeps the entries with [value != 0] (a NaN is kept). *)
Fixpoint nodes_from (i : nat) (v : list dbl) : list node :=
  match v with
  | [] => []
  | x :: v' => if deqb x d0 then nodes_from (S i) v' else (Z.of_nat i, x) :: nodes_from (S i) v'
  end.
Definition nodelist (v : list dbl) : list node := nodes_from 0 v.
(** Instance::toNodeList: Instance.cpp:202-204. *)
Definition inst_nodes (i : instance) : list node := nodelist (inst_vals i).
(** NodeList::dot: NodeList.cpp:46-63, a merge over both lists; [acc] is the running [sum]. *)
Fixpoint ndot_loop (a b : list node) (acc : dbl) {struct a} : dbl :=
  match a with
  | [] => acc
  | (i, x) :: a' =>
      (fix inner (b : list node) (acc : dbl) {struct b} : dbl :=
         match b with
         | [] => acc
         | (j, y) :: b' =>
             if (i =? j)%Z then ndot_loop a' b' (dadd acc (dmul x y))
             else if (j <? i)%Z then inner b' acc
             else ndot_loop a' b acc
         end) b acc
  end.
Definition ndot (a b : list node) : dbl := ndot_loop a b d0.
