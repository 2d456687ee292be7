(** Averages, standard deviations and normalisation in rounded arithmetic.  Definitions only.  As in RoundModel: the functions of
    InstanceListModel, StatModel and FilterModel for one continuous feature, with a rounding [R] after every operation and a square
    root [sq] on doubles. *)
From Coq Require Import String ZArith QArith Bool List.
From Verif Require Import Base AttrModel InstanceListModel RoundModel.
Import ListNotations.
Local Open Scope list_scope.
Local Open Scope nat_scope.

Section RoundedNormalize.
  Context (R sq : dbl -> dbl).
  (** attributeAverage, InstanceList.cpp:288-294, and continuousAttributeAverage, 318-325 *)
  Definition r_cont_sum (k : Z) (l : ilist) : res dbl := foldM (fun s x => do v <- cont_at k x; Ok (radd R s v)) l d0.
  Definition r_average (k : Z) (l : ilist) : res dbl := do s <- r_cont_sum k l; Ok (rdiv R s (rnat R (List.length l))).
  (** attributeStandardDeviation, InstanceList.cpp:340-350, and continuousAttributeStandardDeviation, 389-401 *)
  Definition r_sq_dev_sum (k : Z) (avg : dbl) (l : ilist) : res dbl :=
    foldM (fun s x => do v <- cont_at k x; Ok (radd R s (rpow2 R (rsub R v avg)))) l d0.
  Definition r_std (k : Z) (l : ilist) : res dbl :=
    do a <- r_average k l; do q <- r_sq_dev_sum k a l; Ok (sq (rdiv R q (rnat R (List.length l - 1)))).
  (** Normalize::convertInstance, Normalize.cpp:30 *)
  Definition r_norm_value (avg std v : dbl) : dbl := rdiv R (rsub R v avg) std.
  (** what feature [k] of the instances becomes: the constructor, Normalize.cpp:14-17, reads all of them before the first one is changed *)
  Definition r_normalize (k : Z) (l : ilist) : res (list dbl) :=
    do a <- r_average k l; do s <- r_std k l; mapM (fun x => do v <- cont_at k x; Ok (r_norm_value a s v)) l.
End RoundedNormalize.
