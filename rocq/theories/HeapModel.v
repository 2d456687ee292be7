(** Object lifetimes: which objects the library allocates, shares and deletes.  Definitions only.
    The other model files treat attributes, instances and tree nodes as values; here they are heap objects. *)
From Coq Require Import String ZArith QArith Bool List.
From Verif Require Import Base AttrModel StatModel PerformanceModel StatTestModel TreeModel.
Import ListNotations.
Local Open Scope list_scope.
Local Open Scope nat_scope.

(** An address is a position in the heap; cells are never reused, so a dangling pointer stays recognisable. *)
Definition addr := nat.
(** A pointer member: null, never initialised, or an address. *)
Inductive ptr := Null | Wild | At (a : addr).
(** Objects created with [new].  Attributes (src/Attribute), instances ([attributes] of Instance.h:19,
    [possibleClassLabels] of CompositeInstance.h:13), nodes ([children] of DecisionNode.h:15, the [value] of the
    condition, DecisionCondition.h:16; [soft] for SoftDecisionNode), trees ([root] of DecisionTree.h:12), ensembles
    ([forest] of TreeEnsembleModel.h:12) and arrays of doubles. *)
Inductive obj :=
| OAttr (a : attr)
| OInst (label : string) (attributes : list addr) (possible : option (list string))
| ONode (soft : bool) (value : ptr) (children : list addr)
| OTree (soft : bool) (root : ptr)
| OEnsemble (forest : list addr)
| OArray (size : nat).
Inductive cell := Freed | Live (o : obj).
Definition heap := list cell.

Definition alloc (o : obj) (h : heap) : addr * heap := (List.length h, h ++ [Live o]).
(** any use of [*p] *)
Definition deref (h : heap) (a : addr) : res obj :=
  match nth_error h a with Some (Live o) => Ok o | _ => UB Dangling end.
Definition store (h : heap) (a : addr) (o : obj) : heap := upd h a (Live o).

(** * Instances on the heap *)
Definition deref_attr (h : heap) (a : addr) : res attr :=
  do o <- deref h a; match o with OAttr x => Ok x | _ => UB BadCast end.
Definition deref_inst (h : heap) (a : addr) : res (string * list addr * option (list string)) :=
  do o <- deref h a; match o with OInst l p c => Ok (l, p, c) | _ => UB BadCast end.
(** What an instance looks like through its accessors: getClassLabel, getAttribute(0..), getPossibleClassLabels. *)
Definition read_inst (h : heap) (a : addr) : res instance :=
  do (l, p, c) <- deref_inst h a;
  do vs <- mapM (deref_attr h) p;
  Ok (mkInst l vs c).
Definition read_all (h : heap) (l : list addr) : res (list instance) := mapM (read_inst h) l.
(** [new Instance(classLabel)], [new CompositeInstance(...)]: Instance.cpp:27-29, CompositeInstance.cpp:34-36. *)
Definition h_new (l : string) (c : option (list string)) (h : heap) : addr * heap := alloc (OInst l [] c) h.
(** addAttribute(Attribute* ): Instance.cpp:54-56; keeps the pointer. *)
Definition h_add_ptr (h : heap) (i : addr) (p : addr) : res heap :=
  do (l, ps, c) <- deref_inst h i; Ok (store h i (OInst l (ps ++ [p]) c)).
(** addAttribute(value): Instance.cpp:36-47; makes a new attribute. *)
Definition h_add (h : heap) (i : addr) (a : attr) : res heap :=
  let '(p, h') := alloc (OAttr a) h in h_add_ptr h' i p.
(** the loops that build an instance: DataSet.cpp:57-77, InstanceList.cpp:42-70 and every caller *)
Definition h_make (x : instance) (h : heap) : res (addr * heap) :=
  let '(i, h1) := h_new (label x) (composite x) h in
  do h2 <- foldM (fun h a => h_add h i a) (attrs x) h1; Ok (i, h2).
(** a data set filled with new instances, one after the other *)
Definition h_make_all (xs : list instance) (h : heap) : res (list addr * heap) :=
  foldM (fun st x => do (i, h') <- h_make x (snd st); Ok (fst st ++ [i], h')) xs ([], h).
(** removeAttribute: Instance.cpp:74-76; the attribute object is not deleted. *)
Definition h_remove (h : heap) (i : addr) (k : Z) : res heap :=
  do (l, ps, c) <- deref_inst h i;
  if (k <? 0)%Z then UB BadIndex
  else if Nat.ltb (Z.to_nat k) (List.length ps) then Ok (store h i (OInst l (erase_nth ps (Z.to_nat k)) c))
       else UB BadIndex.
(** removeAllAttributes: Instance.cpp:81-83. *)
Definition h_remove_all (h : heap) (i : addr) : res heap :=
  do (l, ps, c) <- deref_inst h i; Ok (store h i (OInst l [] c)).
(** getSubSetOfFeatures: Instance.cpp:189-195; a new plain instance holding the same pointers. *)
Definition h_subset (h : heap) (i : addr) (fs : list Z) : res (addr * heap) :=
  do (l, ps, c) <- deref_inst h i;
  do qs <- mapM (at_ ps) fs;
  Ok (alloc (OInst l qs None) h).
(** ContinuousAttribute::setValue through the pointer: ContinuousAttribute.cpp:30-32. *)
Definition h_set (h : heap) (p : addr) (f : dbl -> dbl) : res heap :=
  do a <- deref_attr h p;
  match a with ACont v => Ok (store h p (OAttr (ACont (f v)))) | _ => Ok h end.
(** Normalize::convertInstance, Normalize.cpp:24-33, with [f i] the arithmetic of feature [i]
    ([v -> (v - mean i) / deviation i]). *)
Fixpoint h_rescale_from (f : nat -> dbl -> dbl) (i : nat) (ps : list addr) (h : heap) : res heap :=
  match ps with [] => Ok h | p :: ps' => do h' <- h_set h p (f i); h_rescale_from f (S i) ps' h' end.
Definition h_rescale (f : nat -> dbl -> dbl) (h : heap) (i : addr) : res heap :=
  do (_, ps, _) <- deref_inst h i; h_rescale_from f 0 ps h.
(** FeatureFilter::convert, FeatureFilter.cpp:20-26, on the instances of a data set (InstanceList.h:18 holds pointers). *)
Definition h_convert (f : nat -> dbl -> dbl) (l : list addr) (h : heap) : res heap := foldM (h_rescale f) l h.
(** DataSet::getSubSetOfFeatures, DataSet.cpp:333-340, for the instances *)
Definition h_subset_all (l : list addr) (fs : list Z) (h : heap) : res (list addr * heap) :=
  foldM (fun st i => do (j, h') <- h_subset (snd st) i fs; Ok (fst st ++ [j], h')) l ([], h).

(** * Delete *)
Inductive ty := TAttribute | TDiscreteAttribute | TBinaryAttribute | TDiscreteIndexedAttribute | TContinuousAttribute
              | TInstance | TCompositeInstance | TDecisionNode | TSoftDecisionNode | TDecisionTree | TSoftDecisionTree
              | TTreeEnsemble | TArray.
Definition ty_eqb (a b : ty) : bool :=
  match a, b with
  | TAttribute, TAttribute | TDiscreteAttribute, TDiscreteAttribute | TBinaryAttribute, TBinaryAttribute
  | TDiscreteIndexedAttribute, TDiscreteIndexedAttribute | TContinuousAttribute, TContinuousAttribute
  | TInstance, TInstance | TCompositeInstance, TCompositeInstance | TDecisionNode, TDecisionNode
  | TSoftDecisionNode, TSoftDecisionNode | TDecisionTree, TDecisionTree | TSoftDecisionTree, TSoftDecisionTree
  | TTreeEnsemble, TTreeEnsemble | TArray, TArray => true
  | _, _ => false
  end.
(** the class an object was created with *)
Definition dynamic (o : obj) : ty :=
  match o with
  | OAttr (ADisc _) => TDiscreteAttribute | OAttr (ABin _) => TBinaryAttribute
  | OAttr (AIdx _ _ _) => TDiscreteIndexedAttribute | OAttr (ACont _) => TContinuousAttribute
  | OInst _ _ None => TInstance | OInst _ _ (Some _) => TCompositeInstance
  | ONode false _ _ => TDecisionNode | ONode true _ _ => TSoftDecisionNode
  | OTree false _ => TDecisionTree | OTree true _ => TSoftDecisionTree
  | OEnsemble _ => TTreeEnsemble
  | OArray _ => TArray
  end.
Section Delete.
  (** No class of these hierarchies has a virtual destructor (Attribute.h:11-20, Instance.h:23, Model.h:20-34,
      DecisionNode.h:26, DecisionTree.h:17, TreeEnsembleModel.h:16, SoftDecisionNode.h:33).  Deleting an object through a
      pointer to another class is then undefined ([expr.delete]/3), and so is [delete] on the result of [new T[n]]
      ([expr.delete]/2).  With [strict = true] both are the outcome [UB BadDelete].  With [strict = false] they do what
      the usual implementations do: run the destructor of the pointer's class and release the block. *)
  Context (strict : bool).
  Definition release (h : heap) (a : addr) : res heap :=
    match nth_error h a with
    | Some (Live _) => Ok (upd h a Freed)
    | Some Freed => UB DoubleFree
    | None => UB Dangling
    end.
  (** [delete p] for [static* p].  Fuel bounds the nesting of destructors (a cyclic structure would recurse for ever).
      Destructors: Instance.cpp:176-180, DecisionNode.cpp:261-265, SoftDecisionNode.cpp:182-186 followed by the one of
      its base class, DecisionTree.cpp:12-14, TreeEnsembleModel.cpp:8-12; the other classes have none of their own. *)
  Fixpoint delete_ (fuel : nat) (static : ty) (p : ptr) (h : heap) : res heap :=
    match fuel with
    | O => Diverge
    | S n =>
      match p with
      | Null => Ok h
      | Wild => UB Uninit
      | At a =>
        match nth_error h a with
        | None => UB Dangling
        | Some Freed => UB DoubleFree
        | Some (Live o) =>
          if strict && negb (ty_eqb (dynamic o) static) then UB BadDelete
          else
            do h' <- match static, o with
                     | TInstance, OInst _ ps _ | TCompositeInstance, OInst _ ps _ =>
                         foldM (fun h p => delete_ n TAttribute (At p) h) ps h
                     | TDecisionNode, ONode _ _ ch => foldM (fun h p => delete_ n TDecisionNode (At p) h) ch h
                     | TSoftDecisionNode, ONode _ _ ch =>
                         do h1 <- foldM (fun h p => delete_ n TDecisionNode (At p) h) ch h;
                         foldM (fun h p => delete_ n TDecisionNode (At p) h) ch h1
                     | TDecisionTree, OTree _ r | TSoftDecisionTree, OTree _ r => delete_ n TDecisionNode r h
                     | TTreeEnsemble, OEnsemble ts => foldM (fun h p => delete_ n TDecisionTree (At p) h) ts h
                     | _, _ => Ok h
                     end;
            release h' a
        end
      end
    end.

  (** * Temporary arrays *)
  (** [delete[] p] *)
  Definition delete_array (a : addr) (h : heap) : res heap :=
    match nth_error h a with
    | Some (Live (OArray _)) => Ok (upd h a Freed)
    | Some (Live _) => UB BadDelete
    | Some Freed => UB DoubleFree
    | None => UB Dangling
    end.
  (** ConfusionMatrix::fMeasure, ConfusionMatrix.cpp:150-161: the arrays of precision() and recall() (new double[n] in
      lines 118 and 134) are given back with plain [delete].  [n] is the number of labels; returns the result array. *)
  Definition h_fmeasure (n : nat) (h : heap) : res (addr * heap) :=
    let '(p, h1) := alloc (OArray n) h in
    let '(r, h2) := alloc (OArray n) h1 in
    let '(f, h3) := alloc (OArray n) h2 in
    do h4 <- delete_ 1 TAttribute (At p) h3;
    do h5 <- delete_ 1 TAttribute (At r) h4;
    Ok (f, h5).
  (** weightedFMeasure, ConfusionMatrix.cpp:169-177: never gives the array of fMeasure back. *)
  Definition h_weighted (n : nat) (h : heap) : res heap := do (_, h') <- h_fmeasure n h; Ok h'.
End Delete.
(** The array [difference] of the tests.  [n] is its size, [applicable] that the guards before the [new] pass, [stat] the
    outcome of the whole call.  Pairedt.cpp:19-31 and Combined5x2f.cpp:22-35 give it back before they check the variance,
    Combined5x2t.cpp:22-35 and Paired5x2t.cpp:22-38 are below.  [early] stands for an exception
    between [new] and [delete[]]. *)
Definition h_difference {A} (applicable early kept_on_throw : bool) (n : nat) (stat : res A) (h : heap) : heap :=
  if negb applicable then h
  else let '(d, h1) := alloc (OArray n) h in
       if early then h1
       else match stat with
            | Ok _ => upd h1 d Freed
            | _ => if kept_on_throw then h1 else upd h1 d Freed
            end.
Definition throws {A} (r : res A) : bool := match r with Ok _ => false | _ => true end.
(** Pairedt::testStatistic: Pairedt.cpp:15-37 *)
Definition h_pairedt (c1 c2 : experiment) (h : heap) : res rdbl * heap :=
  (pairedt_stat c1 c2,
   h_difference (Nat.eqb (exp_size c1) (exp_size c2)) (throws (differences c1 c2)) false (exp_size c1) (pairedt_stat c1 c2) h).
(** Combined5x2f::testStatistic: Combined5x2f.cpp:15-41 *)
Definition h_combined5x2f (c1 c2 : experiment) (h : heap) : res dbl * heap :=
  (combined5x2f_stat c1 c2,
   h_difference (ten_results c1 c2) (throws (differences c1 c2)) false (exp_size c1) (combined5x2f_stat c1 c2) h).
(** Combined5x2t::testStatistic: Combined5x2t.cpp:15-42 *)
Definition h_combined5x2t (c1 c2 : experiment) (h : heap) : res rdbl * heap :=
  (combined5x2t_stat c1 c2,
   h_difference (ten_results c1 c2) (throws (differences c1 c2)) false (exp_size c1) (combined5x2t_stat c1 c2) h).
(** Paired5x2t::testStatistic: Paired5x2t.cpp:15-40: [delete[]] comes after the [throw] for variance 0. *)
Definition h_paired5x2t (c1 c2 : experiment) (h : heap) : res rdbl * heap :=
  (paired5x2t_stat c1 c2,
   h_difference (ten_results c1 c2) (throws (differences c1 c2)) true (exp_size c1) (paired5x2t_stat c1 c2) h).

(** * Trees on the heap *)
(** The nodes a constructor call creates (DecisionNode.cpp:45-47, 66-69, 83-84 with the attributes of the conditions;
    SoftDecisionNode.cpp:102-103).  Simplification: children are allocated before their parent; the order of addresses
    is not observable. *)
Fixpoint alloc_tree (soft : bool) (t : tree) (h : heap) : addr * heap :=
  match t with
  | Node _ _ _ c ch =>
      let '(v, h1) := match c_value c with
                      | Some a => let '(p, h') := alloc (OAttr a) h in (At p, h')
                      | None => (Null, h)
                      end in
      let '(ps, h2) := fold_left (fun st t' => let '(p, h') := alloc_tree soft t' (snd st) in (fst st ++ [p], h')) ch ([], h1) in
      alloc (ONode soft v ps) h2
  end.
(** A tree object: [DecisionTree t;] leaves [root] indeterminate (DecisionTree.h:12,16 has no initialiser),
    [new DecisionTree()] and [DecisionTree t{}] zero it. *)
Definition h_new_tree (soft zeroed : bool) (h : heap) : addr * heap := alloc (OTree soft (if zeroed then Null else Wild)) h.
(** train and loadModel: DecisionTree.cpp:103-112, 118-123, SoftDecisionTree.cpp:15; [root] is overwritten.  [t] is the
    tree that is built. *)
Definition h_set_root (h : heap) (x : addr) (t : tree) : res heap :=
  do o <- deref h x;
  match o with
  | OTree soft _ => let '(r, h') := alloc_tree soft t h in Ok (store h' x (OTree soft (At r)))
  | _ => UB BadCast
  end.
(** the implicit copy constructor *)
Definition h_copy (h : heap) (x : addr) : res (addr * heap) := do o <- deref h x; Ok (alloc o h).
(** BaggingModel::train / RandomForestModel::train / TreeEnsembleModel::load append trees: BaggingModel.cpp:20-26,
    RandomForestModel.cpp:18-24, TreeEnsembleModel.cpp:59-66; [DecisionTree(DecisionNode* )] is DecisionTree.cpp:36-38. *)
Definition h_add_tree (x : addr) (h : heap) (t : tree) : res heap :=
  do o <- deref h x;
  match o with
  | OEnsemble ts => let '(r, h1) := alloc_tree false t h in
                    let '(p, h2) := alloc (OTree false (At r)) h1 in
                    Ok (store h2 x (OEnsemble (ts ++ [p])))
  | _ => UB BadCast
  end.
Definition h_add_trees (x : addr) (ts : list tree) (h : heap) : res heap := foldM (h_add_tree x) ts h.
