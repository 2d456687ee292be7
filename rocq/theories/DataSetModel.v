(** Model of src/DataSet/{DataDefinition,DataSet}.cpp and of the file reading constructor of
    src/InstanceList/InstanceList.cpp.  Definitions only. *)
From Coq Require Import String Ascii ZArith QArith Bool List.
From Verif Require Import Base AttrModel.
Import ListNotations.
Local Open Scope string_scope.
Local Open Scope list_scope.
Local Open Scope nat_scope.

(** * DataDefinition *)

(** AttributeType: src/Attribute/AttributeType.h:8-25. *)
Inductive atype := TCont | TDisc | TBin | TIdx.
Definition atype_eqb (a b : atype) : bool :=
  match a, b with TCont, TCont | TDisc, TDisc | TBin, TBin | TIdx, TIdx => true | _, _ => false end.

(** DataDefinition: DataDefinition.h:17-20; constructors DataDefinition.cpp:10, 17-19, 140-143. *)
Record datadef := mkDef { types : list atype; vlists : list (list string) }.
Definition def_empty : datadef := mkDef [] [].
Definition def_of (t : list atype) : datadef := mkDef t [].

(** attributeCount: DataDefinition.cpp:26-28. *)
Definition def_count (d : datadef) : nat := List.length (types d).
(** discreteAttributeCount: DataDefinition.cpp:35-43. *)
Definition def_discrete (d : datadef) : nat :=
  fold_left (fun c t => if atype_eqb t TDisc || atype_eqb t TBin then S c else c) (types d) 0.
(** continuousAttributeCount: DataDefinition.cpp:50-58. *)
Definition def_continuous (d : datadef) : nat :=
  fold_left (fun c t => if atype_eqb t TCont then S c else c) (types d) 0.
(** getAttributeType: DataDefinition.cpp:66-68. *)
Definition def_type (d : datadef) (i : Z) : res atype := at_ (types d) i.
(** addAttribute: DataDefinition.cpp:75-77. *)
Definition def_add (d : datadef) (t : atype) : datadef := mkDef (types d ++ [t]) (vlists d).
(** removeAttribute: DataDefinition.cpp:84-86. *)
Definition def_remove (d : datadef) (i : Z) : res datadef :=
  if (i <? 0)%Z then UB BadIndex
  else if Nat.ltb (Z.to_nat i) (def_count d) then Ok (mkDef (erase_nth (types d) (Z.to_nat i)) (vlists d)) else UB BadIndex.
(** removeAllAttributes: DataDefinition.cpp:91-93 (the value lists stay). *)
Definition def_clear (d : datadef) : datadef := mkDef [] (vlists d).
(** getSubSetOfFeatures: DataDefinition.cpp:101-108. *)
Definition def_subset (d : datadef) (fs : list Z) : res datadef :=
  do t <- mapM (fun k => at_ (types d) k) fs; Ok (def_of t).
(** numberOfValues: DataDefinition.cpp:115-117 (unchecked index). *)
Definition def_nvalues (d : datadef) (i : nat) : res nat := do l <- idxn (vlists d) i; Ok (List.length l).
(** The search loop of featureValueIndex: DataDefinition.cpp:126-131; [i] is the loop counter. *)
Fixpoint value_index_from (i : Z) (v : string) (l : list string) : Z :=
  match l with [] => (-1)%Z | x :: l' => if String.eqb x v then i else value_index_from (i + 1) v l' end.
(** featureValueIndex: DataDefinition.cpp:125-132. *)
Definition def_value_index (d : datadef) (i : nat) (v : string) : res Z :=
  do l <- idxn (vlists d) i; Ok (value_index_from 0 v l).

(** * DataSet *)

(** DataSet: DataSet.h:15-17; an InstanceList is the list of its instances (InstanceList.h). *)
Record dataset := mkDS { insts : list instance; ddef : datadef }.
(** DataSet() / DataSet(definition): DataSet.cpp:15-17, 24-27. *)
Definition ds_empty : dataset := mkDS [] def_empty.
Definition ds_new (d : datadef) : dataset := mkDS [] d.

(** The type test both checkDefinition (DataSet.cpp:110-127) and setDefinition (143-157) perform, in that order:
    binary, indexed, discrete, continuous. *)
Definition type_of (a : attr) : option atype :=
  if isBinary a then Some TBin else if isDiscreteIndexed a then Some TIdx
  else if isDiscrete a then Some TDisc else if isContinuous a then Some TCont else None.

(** The loop of checkDefinition: DataSet.cpp:108-131; [i] is the loop counter, [getAttributeType] throws when the
    instance has more attributes than the definition. *)
Fixpoint check_from (d : datadef) (i : nat) (l : list attr) : res bool :=
  match l with
  | [] => Ok true
  | a :: l' => match type_of a with
               | None => check_from d (S i) l'
               | Some t => do t' <- def_type d (Z.of_nat i);
                           if atype_eqb t' t then check_from d (S i) l' else Ok false
               end
  end.
Definition check_def (d : datadef) (x : instance) : res bool := check_from d 0 (attrs x).
(** setDefinition: DataSet.cpp:139-160. *)
Fixpoint types_of (l : list attr) : list atype :=
  match l with [] => [] | a :: l' => match type_of a with Some t => t :: types_of l' | None => types_of l' end end.
(** addInstance: DataSet.cpp:255-264. *)
Definition add_instance (s : dataset) (x : instance) : res dataset :=
  if Nat.eqb (def_count (ddef s)) 0 then Ok (mkDS (insts s ++ [x]) (def_of (types_of (attrs x))))
  else do b <- check_def (ddef s) x;
       if b then Ok (mkDS (insts s ++ [x]) (ddef s)) else Ok s.
(** addInstanceList: DataSet.cpp:271-275. *)
Definition add_instance_list (s : dataset) (l : list instance) : res dataset := foldM add_instance l s.
(** A client that catches an exception of addInstance and goes on: the data set is left as it was, because
    checkDefinition is const and [instances.add] comes after it. *)
Definition offer (s : dataset) (x : instance) : dataset := match add_instance s x with Ok s' => s' | _ => s end.
Definition offers (s : dataset) (l : list instance) : dataset := fold_left offer l s.

(** getSubSetOfFeatures: DataSet.cpp:333-340. *)
Definition ds_subset (s : dataset) (fs : list Z) : res dataset :=
  do d <- def_subset (ddef s) fs;
  foldM (fun acc x => do y <- inst_subset x fs; add_instance acc y) (insts s) (ds_new d).

(** * Text files *)
Definition nl : ascii := ascii_of_nat 10.
(** The successive strings that [getline] delivers; the part after the last newline is delivered too (it may be empty). *)
Fixpoint split_lines (s : string) : list string :=
  match s with
  | "" => [""]
  | String c r => if Ascii.eqb c nl then "" :: split_lines r
                  else match split_lines r with [] => [String c ""] | l :: ls => String c l :: ls end
  end.

(** writeToFile: DataSet.cpp:318-325; the text of the file. *)
Definition write_file (fmt : dbl -> string) (s : dataset) : string :=
  fold_left (fun r x => (r ++ inst_string fmt x ++ String nl "")%string) (insts s) "".

(** [find_first_of(c) == npos] *)
Fixpoint has_char (c : ascii) (s : string) : bool :=
  match s with "" => false | String d r => Ascii.eqb d c || has_char c r end.

Section Load.
  (** [split s sep] stands for StringUtils::split (Util library, not in /repo); [stod] for std::stod, which throws
      invalid_argument or out_of_range. *)
  Variable split : string -> string -> list string.
  Variable stod : string -> res dbl.

  (** DataSet.cpp:44-51: types from the columns of the first line (all but the last). *)
  Definition col_type (t : string) : res atype :=
    match stod t with
    | Ok _ => Ok TCont
    | Throw InvalidArgument => Ok TDisc
    | Throw e => Throw e | UB u => UB u | Diverge => Diverge
    end.

  (** DataSet.cpp:64-79: attributes of one line; [ts] are the attribute types from position j on. *)
  Fixpoint line_attrs (ts : list atype) (toks : list string) : res (list attr) :=
    match toks with
    | [] => Ok []
    | s :: toks' =>
        match ts with
        | [] => Throw OutOfRange
        | t :: ts' =>
            do a <- match t with
                    | TCont => match stod s with
                               | Ok v => Ok [ACont v]
                               | Throw InvalidArgument => Ok []
                               | Throw e => Throw e | UB u => UB u | Diverge => Diverge
                               end
                    | TDisc => Ok [ADisc s]
                    | TBin | TIdx => Ok []
                    end;
            do r <- line_attrs ts' toks'; Ok (a ++ r)
        end
    end.

  (** DataSet.cpp:57-63: the (composite) instance made from the label column. *)
  Definition line_label (lab : string) : res instance :=
    if has_char ";"%char lab then new_composite_labels (split lab ";") else Ok (new_instance lab []).

  (** DataSet.cpp:57-82 for one line whose columns are [toks] (non-empty). *)
  Definition load_row (s : dataset) (toks : list string) : res dataset :=
    do x <- line_label (List.last toks "");
    do l <- line_attrs (types (ddef s)) (removelast toks);
    if Nat.eqb (List.length l) (def_count (ddef s))
    then Ok (mkDS (insts s ++ [mkInst (label x) l (composite x)]) (ddef s))
    else Ok s.

  (** One round of the loop DataSet.cpp:40-84; [first] is [i == 0].  With no columns at all the first round runs
      [attributes[0]] on an empty vector ([size() - 1] wraps around). *)
  Definition load_line (st : bool * dataset) (line : string) : res (bool * dataset) :=
    let (first, s) := st in
    let toks := split line "," in
    if first then
      match toks with
      | [] => UB BadIndex
      | _ => do ts <- mapM col_type (removelast toks);
             do s' <- load_row (mkDS (insts s) (mkDef (types (ddef s) ++ ts) (vlists (ddef s)))) toks; Ok (false, s')
      end
    else if negb (Nat.eqb (List.length toks) (S (def_count (ddef s)))) then Ok (false, s)
    else do s' <- load_row s toks; Ok (false, s').

  (** DataSet(ifstream): DataSet.cpp:34-86 for an opened file with the given text. *)
  Definition load_file (content : string) : res dataset :=
    do st <- foldM load_line (split_lines content) (true, ds_empty); Ok (snd st).

  (** InstanceList(definition, separator, file): InstanceList.cpp:51-68, attributes of one line. *)
  Fixpoint def_attrs_from (d : datadef) (i : nat) (toks : list string) : res (list attr) :=
    match toks with
    | [] => Ok []
    | s :: toks' =>
        do t <- def_type d (Z.of_nat i);
        do a <- match t with
                | TDisc => Ok (ADisc s)
                | TBin => Ok (ABin s)
                | TCont => do v <- stod s; Ok (ACont v)
                | TIdx => do k <- def_value_index d i s; do n <- def_nvalues d i; Ok (AIdx s k n)
                end;
        do r <- def_attrs_from d (S i) toks'; Ok (a :: r)
    end.
  (** InstanceList.cpp:48-70: one line. *)
  Definition read_def_line (d : datadef) (sep : string) (acc : list instance) (line : string) : res (list instance) :=
    let toks := split line sep in
    if Nat.eqb (List.length toks) (S (def_count d))
    then do l <- def_attrs_from d 0 (removelast toks); Ok (acc ++ [new_instance (List.last toks "") l])
    else Ok acc.
  (** InstanceList.cpp:41-73: [getline] before the loop and at its end, tested by [good()], so the text after the last
      newline is never processed. *)
  Definition read_def (d : datadef) (sep : string) (content : string) : res (list instance) :=
    foldM (read_def_line d sep) (removelast (split_lines content)) [].
  (** DataSet(definition, separator, fileName): DataSet.cpp:95-98. *)
  Definition ds_read (d : datadef) (sep : string) (content : string) : res dataset :=
    do l <- read_def d sep content; Ok (mkDS l d).
End Load.
