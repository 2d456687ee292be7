(** Property of the two network models with hidden layers: with one hidden layer they are the same classifier (C126). *)
From Coq Require Import String ZArith QArith Bool Lia Permutation List.
From Verif Require Import Base Spec BaseLemmas AttrModel DataSetModel InstanceListModel PartitionModel PerformanceModel DistanceModel GaussianModel
  NetModel NetSpec NetProofs NetTrainProofs NetProps NetSameProofs.
Import ListNotations.
Local Open Scope string_scope.
Local Open Scope list_scope.
Local Open Scope nat_scope.

(** A multi-layer perceptron and a deep network, both fresh, trained on the same data with the same parameters (one
    hidden layer, sigmoid or relu, or a single hidden unit) end with the same labels and the same weights, and answer
    every query alike, including when the query ends in an exception. *)
Theorem C126_train_partial : forall dexp dtanh rarr perm rand, randomness rarr perm rand -> forall oldm oldd l d p q h,
  net_data l d -> p_ratio p = Fin q -> p_hidden p = [h] -> p_act p <> TANH \/ h = 1 -> de_weights oldd = [] -> ml_y oldm = de_y oldd ->
  exists m m', mlp_train dexp dtanh rarr perm rand oldm l p = Ok m /\ deep_train dexp dtanh rarr perm rand oldd l p = Ok m' /\
    ml_labels m = de_labels m' /\ de_weights m' = [ml_W m; ml_V m] /\
    forall x, mlp_predict dexp dtanh m x = deep_predict dexp dtanh m' x /\ mlp_probability dexp dtanh m x = deep_probability dexp dtanh m' x.
Proof.
  intros dexp dtanh rarr perm rand HR oldm oldd l d p q h Hd Hq Hh Ha Ho Hy.
  destruct (same_train dexp dtanh rarr perm rand HR oldm oldd l d p q h Hd Hq Hh Ha Ho Hy) as (labels & y & w & v & E & E').
  eexists _, _. split; [exact E|]. split; [exact E'|]. split; [reflexivity|]. split; [reflexivity|]. intros x.
  unfold mlp_predict, deep_predict, mlp_probability, deep_probability, net_predict, net_probability. cbn [ml_act ml_W ml_V ml_labels ml_y de_act de_weights de_labels de_y].
  rewrite same_output. split; reflexivity.
Qed.

(** With tanh and more than one hidden unit they are not the same: the deep network is not trained at all *)
Definition rnd_id (_ : Z) (r c : nat) : list (list dbl) := map (fun i => map (fun j => Fin (if Nat.eqb i j then 1 else 0)) (seq 0 c)) (seq 0 r).
Lemma random_id : randomness rarr_ex perm_ex rnd_id.
Proof.
  constructor; intros.
  - reflexivity.
  - symmetry. apply Permutation_rev.
  - unfold rnd_id. rewrite map_length, seq_length. reflexivity.
  - unfold rnd_id. apply Forall_forall. intros row H. apply in_map_iff in H. destruct H as (i & <- & _). rewrite map_length, seq_length. reflexivity.
Qed.
Definition data_t : ilist := [num "a" [0]; num "b" [1]; num "b" [1]]%Q.
Definition par_t (a : activation) : net_param := mkPar 1 (Fin 9) (Fin 1) (Fin (1#2)) 1 [2] a.
Definition mlp_fresh : mlp := mkMlp [] [] (mkMat 0 []) (mkMat 0 []) SIGMOID.
Definition answer (r : res (string * list dbl)) : string := match r with Ok (c, _) => c | _ => "?" end.
Theorem C126_tanh_refuted : exists m m',
  mlp_train (lift e_ex) (lift th_ex) rarr_ex perm_ex rnd_id mlp_fresh data_t (par_t TANH) = Ok m /\
  deep_train (lift e_ex) (lift th_ex) rarr_ex perm_ex rnd_id deep_empty data_t (par_t TANH) = Ok m' /\
  map (fun x => answer (mlp_predict (lift e_ex) (lift th_ex) m x)) data_t = ["b"; "b"; "b"] /\
  map (fun x => answer (deep_predict (lift e_ex) (lift th_ex) m' x)) data_t = ["a"; "a"; "a"].
Proof. eexists _, _. split; [vm_compute; reflexivity|]. split; [vm_compute; reflexivity|]. split; vm_compute; reflexivity. Qed.
(** with relu the same data and parameters give two networks that agree and have learned *)
Example C126_case : exists m m',
  mlp_train (lift e_ex) (lift th_ex) rarr_ex perm_ex rnd_id mlp_fresh data_t (par_t RELU) = Ok m /\
  deep_train (lift e_ex) (lift th_ex) rarr_ex perm_ex rnd_id deep_empty data_t (par_t RELU) = Ok m' /\
  de_weights m' = [ml_W m; ml_V m] /\ de_weights m' <> [mkMat 2 (rnd_id 1 2 2); mkMat 3 (rnd_id 1 2 3)] /\
  map (fun x => answer (mlp_predict (lift e_ex) (lift th_ex) m x)) data_t = map (fun x => answer (deep_predict (lift e_ex) (lift th_ex) m' x)) data_t.
Proof. eexists _, _. split; [vm_compute; reflexivity|]. split; [vm_compute; reflexivity|]. split; [reflexivity|]. split; [vm_compute; discriminate|vm_compute; reflexivity]. Qed.

Print Assumptions C126_train_partial.
Print Assumptions C126_tanh_refuted.
