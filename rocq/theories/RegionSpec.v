(** Vocabulary for C154: the regions in which a classifier gives one answer. *)
From Coq Require Import String ZArith QArith Bool List.
From Verif Require Import Base Spec AttrModel SolverModel SvmModel.
Import ListNotations.
Local Open Scope list_scope.
Local Open Scope nat_scope.

(** [x] has the numbers [v] as features *)
Definition has_row (v : list Q) (x : instance) : Prop := attrs x = map (fun q => ACont (Fin q)) v.
Definition of_numbers (n : nat) (x : instance) : Prop := exists v, length v = n /\ has_row v x.
(** [z] is on the way from [x] to [y]: the share [t] of the way is behind it *)
Definition mixed (t p q r : Q) : Prop := (r == (1 - t) * p + t * q)%Q.
Definition mixed_rows (t : Q) (u v w : list Q) : Prop := length u = length w /\ length v = length w /\ forall i, i < length w -> mixed t (nth i u 0%Q) (nth i v 0%Q) (nth i w 0%Q).
Definition on_the_way (n : nat) (t : Q) (x y z : instance) : Prop :=
  (0 <= t <= 1)%Q /\ composite x = composite z /\ composite y = composite z /\
  exists u v w, has_row u x /\ has_row v y /\ has_row w z /\ length w = n /\ mixed_rows t u v w.
(** [ok]: what is asked of the two ends *)
Definition convex (n : nat) (ok : instance -> Prop) (predict : instance -> res string) : Prop :=
  forall t x y z c, on_the_way n t x y z -> ok x -> ok y -> predict x = Ok c -> predict y = Ok c -> predict z = Ok c.
(** [z] in the box with the corners [x] and [y]: numbers in between, everything else from one of the two *)
Definition between_attr (a b c : attr) : Prop :=
  c = a \/ c = b \/ exists p q r, a = ACont (Fin p) /\ b = ACont (Fin q) /\ c = ACont (Fin r) /\ ((p <= r /\ r <= q) \/ (q <= r /\ r <= p))%Q.
Definition in_box (x y z : instance) : Prop :=
  composite x = composite z /\ composite y = composite z /\ length (attrs x) = length (attrs z) /\ length (attrs y) = length (attrs z) /\
  forall i a b c, nth_error (attrs x) i = Some a -> nth_error (attrs y) i = Some b -> nth_error (attrs z) i = Some c -> between_attr a b c.
Definition all_fin (l : list dbl) : Prop := Forall (fun d => exists q, d = Fin q) l.
(** a machine for two classes, with the linear kernel and ordinary numbers inside *)
Definition flat_machine (m : svm) : Prop :=
  m_ncl m = 2 /\ (exists p, m_par m = Some p /\ p_kernel p = LINEAR) /\ Forall (fun s => exists u, s = nodelist (map Fin u)) (m_sv m) /\ Forall all_fin (m_coef m) /\ all_fin (m_rho m).
