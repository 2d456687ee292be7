(** Vocabulary for the data set properties; independent of the model's helper functions. *)
From Coq Require Import String Ascii ZArith QArith Bool List.
From Verif Require Import Base Spec AttrModel DataSetModel.
Import ListNotations.
Local Open Scope string_scope.
Local Open Scope list_scope.
Local Open Scope nat_scope.

(** the attribute type an attribute object belongs to *)
Definition attr_type (a : attr) : atype :=
  match a with ADisc _ => TDisc | ABin _ => TBin | AIdx _ _ _ => TIdx | ACont _ => TCont end.

(** position by position the instance has the types of the definition (it may be shorter) *)
Definition conforms (ts : list atype) (x : instance) : Prop :=
  exists rest, ts = map attr_type (attrs x) ++ rest.
Definition conforms_exactly (ts : list atype) (x : instance) : Prop := ts = map attr_type (attrs x).

(** decidable version of [conforms] (DataSetProofs: [conformsb_spec]) *)
Fixpoint is_prefix (l l' : list atype) : bool :=
  match l, l' with
  | [], _ => true
  | a :: l, b :: l' => atype_eqb a b && is_prefix l l'
  | _, _ => false
  end.
Definition conformsb (ts : list atype) (x : instance) : bool := is_prefix (map attr_type (attrs x)) ts.

(** text joined with a separator *)
Fixpoint join (sep : string) (l : list string) : string :=
  match l with [] => "" | [x] => x | x :: l' => (x ++ sep ++ join sep l')%string end.

(** Contract for StringUtils::split on a one-character separator: non-empty tokens that do not contain the separator
    are recovered; an empty line gives at most one token (both keeping and dropping empty tokens satisfy this). *)
Definition good_token (c : ascii) (s : string) : Prop := s <> "" /\ has_char c s = false.
Definition split_ok (split : string -> string -> list string) (c : ascii) : Prop :=
  (forall toks, toks <> [] -> Forall (good_token c) toks -> split (join (String c "") toks) (String c "") = toks) /\
  List.length (split "" (String c "")) <= 1.

(** std::stod: succeeds or throws one of its two exceptions *)
Definition stod_ok (stod : string -> res dbl) : Prop :=
  forall s, (exists v, stod s = Ok v) \/ stod s = Throw InvalidArgument \/ stod s = Throw OutOfRange.

Section Rows.
  Variable split : string -> string -> list string.
  Variable stod : string -> res dbl.

  (** a column of type [t] holding text [s] is read as attribute [a] *)
  Definition column_attr (t : atype) (s : string) (a : attr) : Prop :=
    match t with
    | TCont => exists v, stod s = Ok v /\ a = ACont v
    | TDisc => a = ADisc s
    | _ => False
    end.
  (** the label column: plain, or several labels separated by ';' of which the first is the class label *)
  Definition column_label (s : string) (x : instance) : Prop :=
    if has_char ";" s then exists l ls, split s ";" = l :: ls /\ label x = l /\ composite x = Some ls
    else label x = s /\ composite x = None.
  (** the line is well formed for column types [ts] and denotes the instance [x] *)
  Definition line_instance (ts : list atype) (line : string) (x : instance) : Prop :=
    exists cols lab, split line "," = cols ++ [lab] /\ column_label lab x /\
      List.length cols = List.length ts /\ List.length (attrs x) = List.length ts /\
      forall j t s a, nth_error ts j = Some t -> nth_error cols j = Some s -> nth_error (attrs x) j = Some a ->
                      column_attr t s a.
  (** one stored instance per well formed line, in line order *)
  Inductive stored (ts : list atype) : list string -> list instance -> Prop :=
  | stored_nil : stored ts [] []
  | stored_keep l x ls xs : line_instance ts l x -> stored ts ls xs -> stored ts (l :: ls) (x :: xs)
  | stored_skip l ls xs : (forall x, ~ line_instance ts l x) -> stored ts ls xs -> stored ts (l :: ls) xs.

  (** the column types of the first line *)
  Definition first_types (line : string) (ts : list atype) : Prop :=
    exists cols lab, split line "," = cols ++ [lab] /\
      Forall2 (fun s t => (t = TCont /\ exists v, stod s = Ok v) \/ (t = TDisc /\ stod s = Throw InvalidArgument)) cols ts.

  Variable fmt : dbl -> string.
  (** text that survives: one line, no separators, not empty *)
  Definition clean (s : string) : Prop := s <> "" /\ has_char "," s = false /\ has_char nl s = false.
  Definition clean_label (s : string) : Prop := clean s /\ has_char ";" s = false.
  Definition writable_attr (a : attr) : Prop :=
    match a with
    | ADisc v => clean v
    | ACont v => clean (fmt v) /\ stod (fmt v) = Ok v
    | _ => False
    end.
  Definition writable (x : instance) : Prop :=
    Forall writable_attr (attrs x) /\ clean_label (label x) /\
    match composite x with None => True | Some ls => ls <> [] /\ Forall clean_label ls end.
  (** discrete values of the first instance must not look like numbers *)
  Definition recognisable (x : instance) : Prop :=
    forall v, In (ADisc v) (attrs x) -> stod v = Throw InvalidArgument.

End Rows.

(** types the file loader assigns to columns *)
Definition basic (t : atype) : Prop := t = TCont \/ t = TDisc.

(** A concrete splitter (drops empty tokens) and number reader (digits only), to show that the contracts can be met.
    [cur] is the token read so far. *)
Fixpoint split_at (c : ascii) (s cur : string) : list string :=
  match s with
  | "" => if String.eqb cur "" then [] else [cur]
  | String d r => if Ascii.eqb d c then (if String.eqb cur "" then split_at c r "" else cur :: split_at c r "")
                  else split_at c r (cur ++ String d "")%string
  end.
Definition split_ex (s sep : string) : list string :=
  match sep with String c "" => split_at c s "" | _ => [s] end.
Definition digit (c : ascii) : option Z :=
  let n := Z.of_nat (nat_of_ascii c) in if ((48 <=? n) && (n <=? 57))%Z then Some (n - 48)%Z else None.
Fixpoint digits (s : string) (acc : Z) : option Z :=
  match s with
  | "" => Some acc
  | String c r => match digit c with Some d => digits r (10 * acc + d)%Z | None => None end
  end.
Definition stod_ex (s : string) : res dbl :=
  match s with
  | "" => Throw InvalidArgument
  | _ => match digits s 0 with Some z => Ok (dofZ z) | None => Throw InvalidArgument end
  end.
