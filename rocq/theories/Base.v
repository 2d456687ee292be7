(** Base definitions shared by all model files.  Definitions only; lemmas are in BaseLemmas.v. *)
From Coq Require Import List String Ascii ZArith QArith Qabs Bool.
Import ListNotations.
Local Open Scope Z_scope.

(** * Outcomes of a C++ call *)

(** C++ exceptions the library lets escape. [OutOfRange] is what [vector::at] throws, [InvalidArgument] what
    [std::stod] throws, the others are the library's own exception classes
    (src/StatisticalTest/StatisticalTestNotApplicable.cpp, src/Performance/ClassificationAlgorithmExpectedException.cpp,
    src/Model/DiscreteFeaturesNotAllowed.cpp).  The four mismatches are thrown by Math's Matrix and Vector. *)
Inductive exn := OutOfRange | InvalidArgument | StatTestNotApplicable | ClassificationExpected | DiscreteNotAllowed
               | MatrixColumnMismatch | MatrixRowMismatch | MatrixDimensionMismatch | VectorSizeMismatch.

(** Kinds of undefined behaviour met in the code. *)
Inductive ub := NullDeref | BadIndex | Uninit | BadCast | IntDivZero | NoReturn | DoubleFree | IntOverflow
              | EndDeref | BadOrder | Dangling | BadDelete.

(** [Diverge] is only produced by fuelled loops that run out of fuel. *)
Inductive res (A : Type) := Ok (a : A) | Throw (e : exn) | UB (u : ub) | Diverge.
Arguments Ok {A} a. Arguments Throw {A} e. Arguments UB {A} u. Arguments Diverge {A}.

Definition bind {A B} (r : res A) (f : A -> res B) : res B :=
  match r with Ok a => f a | Throw e => Throw e | UB u => UB u | Diverge => Diverge end.
Notation "'do' x <- r ; f" := (bind r (fun x => f)) (at level 200, x pattern, r at level 100, f at level 200).

Definition rmap {A B} (f : A -> B) (r : res A) : res B := bind r (fun a => Ok (f a)).

(** Left-to-right monadic map and fold: a C++ range-for loop that pushes to a vector / updates a local. *)
Fixpoint mapM {A B} (f : A -> res B) (l : list A) : res (list B) :=
  match l with
  | [] => Ok []
  | x :: l' => do y <- f x; do ys <- mapM f l'; Ok (y :: ys)
  end.
Fixpoint foldM {A B} (f : A -> B -> res A) (l : list B) (a : A) : res A :=
  match l with [] => Ok a | x :: l' => do a' <- f a x; foldM f l' a' end.

(** [vector::at(i)] with an [int] argument (negative ints convert to huge size_t, so they throw too). *)
Definition at_ {A} (l : list A) (i : Z) : res A :=
  if (i <? 0)%Z then Throw OutOfRange
  else match nth_error l (Z.to_nat i) with Some x => Ok x | None => Throw OutOfRange end.
Definition atn {A} (l : list A) (i : nat) : res A :=
  match nth_error l i with Some x => Ok x | None => Throw OutOfRange end.
(** unchecked [vector::operator[]]. *)
Definition idx {A} (l : list A) (i : Z) : res A :=
  if (i <? 0)%Z then UB BadIndex
  else match nth_error l (Z.to_nat i) with Some x => Ok x | None => UB BadIndex end.
Definition idxn {A} (l : list A) (i : nat) : res A :=
  match nth_error l i with Some x => Ok x | None => UB BadIndex end.

(** In-place update of position [i]; identity when out of range (callers guard). *)
Fixpoint upd {A} (l : list A) (i : nat) (v : A) : list A :=
  match l, i with
  | [], _ => []
  | _ :: l', O => v :: l'
  | x :: l', S i' => x :: upd l' i' v
  end.
(** [vector::erase(begin()+i)]; UB when out of range. *)
Fixpoint erase_nth {A} (l : list A) (i : nat) : list A :=
  match l, i with
  | [], _ => []
  | _ :: l', O => l'
  | x :: l', S i' => x :: erase_nth l' i'
  end.

(** * Doubles: exact rationals plus the IEEE special values; one unsigned zero; no rounding. *)
Inductive dbl := Fin (q : Q) | PInf | NInf | NaN.

Definition is_fin (d : dbl) : bool := match d with Fin _ => true | _ => false end.
Definition is_nan (d : dbl) : bool := match d with NaN => true | _ => false end.

Definition dopp (a : dbl) : dbl :=
  match a with Fin q => Fin (- q)%Q | PInf => NInf | NInf => PInf | NaN => NaN end.
Definition dadd (a b : dbl) : dbl :=
  match a, b with
  | NaN, _ | _, NaN => NaN
  | Fin x, Fin y => Fin (x + y)%Q
  | PInf, NInf | NInf, PInf => NaN
  | PInf, _ | _, PInf => PInf
  | NInf, _ | _, NInf => NInf
  end.
Definition dsub (a b : dbl) : dbl := dadd a (dopp b).
Definition dsgn (a : dbl) : option comparison := (* sign; None for NaN *)
  match a with Fin q => Some (q ?= 0)%Q | PInf => Some Gt | NInf => Some Lt | NaN => None end.
Definition dmul (a b : dbl) : dbl :=
  match a, b with
  | Fin x, Fin y => Fin (x * y)%Q
  | _, _ => match dsgn a, dsgn b with
            | None, _ | _, None | Some Eq, _ | _, Some Eq => NaN
            | Some Gt, Some Gt | Some Lt, Some Lt => PInf
            | _, _ => NInf
            end
  end.
Definition ddiv (a b : dbl) : dbl :=
  match a, b with
  | NaN, _ | _, NaN => NaN
  | Fin x, Fin y => if Qeq_bool y 0 then
                      match (x ?= 0)%Q with Eq => NaN | Gt => PInf | Lt => NInf end
                    else Fin (x / y)%Q
  | Fin _, _ => Fin 0
  | PInf, Fin y => match (y ?= 0)%Q with Lt => NInf | _ => PInf end
  | NInf, Fin y => match (y ?= 0)%Q with Lt => PInf | _ => NInf end
  | _, _ => NaN
  end.
Definition dltb (a b : dbl) : bool :=
  match a, b with
  | NaN, _ | _, NaN => false
  | Fin x, Fin y => negb (Qle_bool y x)
  | NInf, NInf | PInf, PInf => false
  | NInf, _ | _, PInf => true
  | _, _ => false
  end.
Definition dleb (a b : dbl) : bool :=
  match a, b with
  | NaN, _ | _, NaN => false
  | Fin x, Fin y => Qle_bool x y
  | NInf, _ | _, PInf => true
  | _, _ => false
  end.
Definition deqb (a b : dbl) : bool := dleb a b && dleb b a.
Definition dgtb a b := dltb b a.
Definition dgeb a b := dleb b a.
Definition dfmax (a b : dbl) : dbl := (* fmax: ignores a single NaN *)
  match a, b with NaN, _ => b | _, NaN => a | _, _ => if dltb a b then b else a end.
Definition dfmin (a b : dbl) : dbl :=
  match a, b with NaN, _ => b | _, NaN => a | _, _ => if dltb b a then b else a end.
Definition dabs (a : dbl) : dbl :=
  match a with Fin q => Fin (Qabs q) | PInf | NInf => PInf | NaN => NaN end.
Definition d0 : dbl := Fin 0.
Definition d1 : dbl := Fin 1.
Definition dofnat (n : nat) : dbl := Fin (inject_Z (Z.of_nat n)).
Definition dofZ (n : Z) : dbl := Fin (inject_Z n).
Definition dsum (l : list dbl) : dbl := fold_left dadd l d0.
Definition dpow2 (a : dbl) : dbl := dmul a a. (* pow(a, 2) *)

(** Same double, up to the representation of rationals. *)
Definition deq (a b : dbl) : Prop :=
  match a, b with Fin x, Fin y => (x == y)%Q | PInf, PInf | NInf, NInf | NaN, NaN => True | _, _ => False end.

(** * std::map<string,V>: association list kept in increasing key order *)
Definition smap (V : Type) := list (string * V).
Fixpoint mfind {V} (k : string) (m : smap V) : option V :=
  match m with [] => None | (k', v) :: m' => if String.eqb k k' then Some v else mfind k m' end.
Definition mmem {V} (k : string) (m : smap V) : bool := match mfind k m with Some _ => true | None => false end.
(** [insert_or_assign] *)
Fixpoint mset {V} (k : string) (v : V) (m : smap V) : smap V :=
  match m with
  | [] => [(k, v)]
  | (k', v') :: m' => match String.compare k k' with
                      | Eq => (k, v) :: m'
                      | Lt => (k, v) :: (k', v') :: m'
                      | Gt => (k', v') :: mset k v m'
                      end
  end.
(** [emplace]: keeps an existing entry *)
Definition memplace {V} (k : string) (v : V) (m : smap V) : smap V := if mmem k m then m else mset k v m.
Fixpoint merase {V} (k : string) (m : smap V) : smap V :=
  match m with [] => [] | (k', v) :: m' => if String.eqb k k' then m' else (k', v) :: merase k m' end.
Definition mkeys {V} (m : smap V) : list string := map fst m.

(** * Counters: DataStructure's CounterHashMap<string> and Math's DiscreteDistribution (both std::map<string,int>,
    not in /repo; modelled by their documented behaviour) *)
Definition counter := smap nat.
Definition ccount (c : counter) (k : string) : nat := match mfind k c with Some n => n | None => 0%nat end.
Definition cput (c : counter) (k : string) : counter := mset k (S (ccount c k)) c.
Definition cputn (c : counter) (k : string) (n : nat) : counter := mset k (ccount c k + n)%nat c.
Definition cadd (c d : counter) : counter := fold_left (fun a kv => cputn a (fst kv) (snd kv)) d c.
Definition csum (c : counter) : nat := fold_right (fun kv s => (snd kv + s)%nat) 0%nat c.
Definition cofl (l : list string) : counter := fold_left cput l [].
(** [removeItem]: the entry disappears when its count reaches 0. *)
Definition crem (c : counter) (k : string) : counter :=
  match mfind k c with
  | None => c
  | Some n => if (n <=? 1)%nat then merase k c else mset k (pred n) c
  end.
(** first key, in map order, with strictly maximal count; "" for the empty map *)
Definition cmax_step (best : string * nat) (kv : string * nat) : string * nat :=
  if (snd best <? snd kv)%nat then kv else best.
Definition cmax (c : counter) : string := fst (fold_left cmax_step c (EmptyString, 0%nat)).

(** [std::string::compare(...) < 0], i.e. [operator<] *)
Definition sltb (s t : string) : bool := match String.compare s t with Lt => true | _ => false end.

(** * std::find on a vector: position of the first equal element, [length] when absent ([end()-begin()]) *)
Fixpoint find_pos (x : string) (l : list string) : nat :=
  match l with [] => 0%nat | y :: l' => if String.eqb x y then 0%nat else S (find_pos x l') end.
Definition mem_str (x : string) (l : list string) : bool := existsb (String.eqb x) l.

(** Push [x] unless already present, as in the three "distinct" loops. *)
Definition push_new (acc : list string) (x : string) : list string := if mem_str x acc then acc else acc ++ [x].

(** * std::stable_sort with comparator [lt] (insertion sort; BaseLemmas proves it is the only stable sorted
    rearrangement, which is what the C++ standard promises for a strict weak order) *)
Section Sort.
  Context {A : Type} (lt : A -> A -> bool).
  Fixpoint sinsert (x : A) (l : list A) : list A :=
    match l with [] => [x] | y :: l' => if lt y x then y :: sinsert x l' else x :: y :: l' end.
  Definition ssort (l : list A) : list A := fold_right sinsert [] l.
End Sort.

(** number of elements satisfying a test *)
Definition countb {A} (f : A -> bool) (l : list A) : nat := List.length (filter f l).
