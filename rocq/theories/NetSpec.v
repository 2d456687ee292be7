(** Vocabulary for the neural network properties: networks as rational functions, written without reference to the model. *)
From Coq Require Import String ZArith QArith Bool Permutation List.
From Verif Require Import Base Spec AttrModel InstanceListModel PerformanceModel SvmSpec NetModel.
Import ListNotations.
Local Open Scope list_scope.
Local Open Scope nat_scope.

(** * Reading stored numbers *)
(** a stored vector holds the rationals [f 0 .. f (n-1)] *)
Definition is_vec (v : list dbl) (n : nat) (f : nat -> Q) : Prop :=
  length v = n /\ forall i, i < n -> deq (nth i v NaN) (Fin (f i)).
(** a stored matrix has [r] rows and [c] columns *)
Definition is_shape (m : mat) (r c : nat) : Prop := mcol m = c /\ length (mrow m) = r /\ Forall (fun row => length row = c) (mrow m).
(** and holds the rationals [w i j] *)
Definition is_mat (m : mat) (r c : nat) (w : nat -> nat -> Q) : Prop :=
  is_shape m r c /\ forall i j, i < r -> j < c -> deq (nth j (nth i (mrow m) []) NaN) (Fin (w i j)).

(** * exp and tanh: what is assumed of the C library *)
(** [e] is what [exp] computes on finite arguments: positive and increasing *)
Record exp_like (dexp : dbl -> dbl) (e : Q -> Q) : Prop := {
  exp_fin : forall q, deq (dexp (Fin q)) (Fin (e q));
  exp_proper : forall p q, (p == q)%Q -> (e p == e q)%Q;
  exp_pos : forall q, (0 < e q)%Q;
  exp_incr : forall p q, (p < q)%Q -> (e p < e q)%Q }.
Record tanh_like (dtanh : dbl -> dbl) (th : Q -> Q) : Prop := {
  tanh_fin : forall q, deq (dtanh (Fin q)) (Fin (th q));
  tanh_proper : forall p q, (p == q)%Q -> (th p == th q)%Q }.

(** * The textbook network *)
(** bias input followed by the values *)
Definition with_bias (x : nat -> Q) (j : nat) : Q := match j with O => 1 | S j' => x j' end.
(** a layer with [c] inputs: weighted sums *)
Definition weigh (c : nat) (w : nat -> nat -> Q) (x : nat -> Q) (i : nat) : Q := sum_over c (fun j => w i j * x j)%Q.
Definition softmax (e : Q -> Q) (k : nat) (o : nat -> Q) (i : nat) : Q := (e (o i) / sum_over k (fun j => e (o j)))%Q.
Definition qact (e th : Q -> Q) (a : activation) (z : Q) : Q :=
  match a with
  | SIGMOID => (1 / (1 + e (- z)))%Q
  | TANH => th z
  | RELU => if Qle_bool 0 z then z else 0
  end.
(** derivative of the activation function, in terms of its value [h] *)
Definition qact_deriv (a : activation) (h : Q) : Q :=
  match a with
  | SIGMOID => (h * (1 - h))%Q
  | TANH => (1 - h * h)%Q
  | RELU => if Qle_bool h 0 then 0 else 1
  end.

(** a layer: number of outputs, weights; its inputs are the outputs of the previous layer and a bias *)
Definition layer := (nat * (nat -> nat -> Q))%type.
Section Textbook.
  (** layers [ls] on [n] inputs with values [x]; [act] is the activation function of all layers but the last *)
  Context (act : Q -> Q) (n : nat) (ls : list layer) (x : nat -> Q).
  Definition size (k : nat) : nat := nth k (n :: map fst ls) 0.
  Definition weight (k : nat) : nat -> nat -> Q := snd (nth k ls (0, fun _ _ => 0%Q)).
  (** index of the last layer *)
  Definition last_layer : nat := length ls - 1.
  (** values entering layer [k] *)
  Fixpoint value (k : nat) : nat -> Q :=
    match k with
    | O => x
    | S k' => fun i => act (weigh (S (size k')) (weight k') (with_bias (value k')) i)
    end.
  (** outputs of the network *)
  Definition scores : nat -> Q := weigh (S (size last_layer)) (weight last_layer) (with_bias (value last_layer)).

  (** Back propagation for an instance of class [t].  [dact] is the derivative of the activation function in terms of its value.
      [signal m] is the error signal of the layer [m] steps below the last one. *)
  Context (e dact : Q -> Q) (rate : Q) (t : nat).
  Fixpoint signal (m : nat) : nat -> Q :=
    match m with
    | O => fun i => ((if Nat.eqb i t then 1 else 0) - softmax e (size (S last_layer)) scores i)%Q
    | S m' => let k := last_layer - S m' in
              fun i => (sum_over (size (S (S k))) (fun r => signal m' r * weight (S k) r (S i)) * dact (value (S k) i))%Q
    end.
  (** one step of gradient ascent on the log-likelihood of class [t] *)
  Definition new_weight (k i j : nat) : Q := (weight k i j + rate * (signal (last_layer - k) i * with_bias (value k) j))%Q.
  Definition gradient_step : list layer := map (fun k => (size (S k), new_weight k)) (seq 0 (length ls)).
End Textbook.
(** stored weight matrices hold the weights of [ls], for [n] inputs *)
Definition is_net (ms : list mat) (n : nat) (ls : list layer) : Prop :=
  length ms = length ls /\
  forall k m, nth_error ms k = Some m -> is_mat m (size n ls (S k)) (S (size n ls k)) (weight ls k).
(** shapes only: layer sizes [rs] on [n] inputs, each layer taking the outputs of the previous one and a bias *)
Definition is_chain (ms : list mat) (n : nat) (rs : list nat) : Prop :=
  length ms = length rs /\
  forall k m, nth_error ms k = Some m -> is_shape m (nth k rs 0) (S (nth k (n :: rs) 0)).

(** * Choosing a label *)
(** [p] is the label with the largest score, the first of them *)
Definition first_best (labels : list string) (ok : string -> Prop) (f : nat -> Q) (p : string) : Prop :=
  exists i, nth_error labels i = Some p /\ ok p /\
    (forall j c, nth_error labels j = Some c -> ok c -> (f j <= f i)%Q) /\
    (forall j c, j < i -> nth_error labels j = Some c -> ok c -> (f j < f i)%Q).

(** what [predict] should answer for [x] from the scores [f]: the best label; for a composite instance the best of its possible
    labels, the first possible label if the network knows none of them *)
Definition chosen (labels : list string) (x : instance) (f : nat -> Q) (c : string) : Prop :=
  match composite x with
  | None => first_best labels (fun _ => True) f c
  | Some ps => In c ps /\ ((exists c', In c' labels /\ In c' ps) -> first_best labels (fun c' => In c' ps) f c) /\
               ((forall c', In c' labels -> ~ In c' ps) -> hd_error ps = Some c)
  end.
(** scores are within the range of double *)
Definition in_range (labels : list string) (x : instance) (f : nat -> Q) : Prop :=
  composite x = None \/ forall j, j < length labels -> (- MAXQ < f j)%Q.

(** * Keeping the best epoch *)
(** epoch [k] (0 is the state before the first epoch) is the first with the highest score above [base] *)
Definition best_high (base : dbl) (accs : list dbl) (k : nat) : Prop :=
  (k = 0 /\ forall a, In a accs -> dgtb a base = false) \/
  (exists a, nth_error accs (k - 1) = Some a /\ 0 < k /\ dgtb a base = true /\
     (forall j b, nth_error accs j = Some b -> dgtb b a = false) /\
     (forall j b, j < k - 1 -> nth_error accs j = Some b -> dgeb b a = false)).
(** the first with the lowest score below [base] *)
Definition best_low (base : dbl) (accs : list dbl) (k : nat) : Prop :=
  (k = 0 /\ forall a, In a accs -> dltb a base = false) \/
  (exists a, nth_error accs (k - 1) = Some a /\ 0 < k /\ dltb a base = true /\
     (forall j b, nth_error accs j = Some b -> dltb b a = false) /\
     (forall j b, j < k - 1 -> nth_error accs j = Some b -> dleb b a = false)).
(** [a] is the fraction of the instances of [l] whose label [predict] returns *)
Definition accuracy (predict : instance -> res string) (l : ilist) (a : dbl) : Prop :=
  exists ps, Forall2 (fun x p => predict x = Ok p) l ps /\
    a = ddiv (dofnat (countb (fun xp => String.eqb (label (fst xp)) (snd xp)) (combine l ps))) (dofnat (length l)).

(** squared distance of an input and its reconstruction, and the mean of it over [l] *)
Definition sq_error (x o : list dbl) : dbl := dsum (map (fun p => dpow2 (dsub (fst p) (snd p))) (combine x o)).
Definition mean_error (out : instance -> res (list dbl)) (l : ilist) (a : dbl) : Prop :=
  exists os, Forall2 (fun x o => out x = Ok o) l os /\
    a = ddiv (dsum (map (fun xo => sq_error (inst_vector (fst xo)) (snd xo)) (combine l os))) (dofnat (length l)).
(** the rate of epoch [i] *)
Fixpoint rate_at (rate decay : dbl) (i : nat) : dbl := match i with O => rate | S i' => dmul (rate_at rate decay i') decay end.
(** [n] epochs: [ws] are the weights before the first epoch and after each of them, [accs] the validation scores after each of
    them; [pass r w w']: one pass over the training list at rate [r] changes [w] into [w'] *)
Definition epochs_trace {W} (w0 : W) (pass : dbl -> W -> W -> Prop) (score : W -> dbl -> Prop) (rate decay : dbl) (n : nat) (ws : list W) (accs : list dbl) : Prop :=
  length ws = S n /\ length accs = n /\ nth_error ws 0 = Some w0 /\
  forall i, i < n -> exists w w' a, nth_error ws i = Some w /\ nth_error ws (S i) = Some w' /\ nth_error accs i = Some a /\
    pass (rate_at rate decay i) w w' /\ score w' a.

(** training data a network accepts: no discrete attribute that is not indexed in the first instance, same width everywhere,
    composite instances have possible labels *)
Definition net_data (l : ilist) (d : nat) : Prop :=
  (exists x0 l', l = x0 :: l' /\ discrete_check x0 = true) /\ Forall (fun x => inst_size x = d /\ composite x <> Some []) l.
(** the random sources: index arrays and shuffles are permutations, random matrices have the requested shape *)
Record randomness (rarr : nat -> Z -> list nat) (perm : Z -> nat -> list nat) (rand : Z -> nat -> nat -> list (list dbl)) : Prop := {
  rarr_perm : forall n seed, Permutation (rarr n seed) (seq 0 n);
  perm_perm : forall n seed, Permutation (perm seed n) (seq 0 n);
  rand_rows : forall seed r c, length (rand seed r c) = r;
  rand_cols : forall seed r c, Forall (fun row => length row = c) (rand seed r c) }.
