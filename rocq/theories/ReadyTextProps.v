(** C151: on discrete and on mixed data every classifier either works or refuses, and which one does what. *)
From Coq Require Import String ZArith QArith Bool Lia Permutation Arith List.
From Verif Require Import Base Spec BaseLemmas DblLemmas AttrModel AttrProofs DataSetModel InstanceListModel PartitionModel PerformanceModel DistanceModel
  GaussianModel TreeModel TreeSpec EnsembleModel NetModel SoftModel SvmModel LibModel LibSpec LibProps
  ReadySpec ReadyProofs ReadyProps ReadyTextSpec ReadyTextProofs.
Import ListNotations.
Local Open Scope string_scope.
Local Open Scope list_scope.
Local Open Scope nat_scope.

(** Words: the classes of [reads_words] can be trained, leave the list as it was, and answer every query of words, also words they have never seen,
    with a label they have been shown. *)
Theorem C151_works : forall E d L c l p, sound E -> texts d l -> incl (map label l) L -> kept E (text_inst d) d L c -> reads_words c = true -> fits (text_inst d) l c p -> length l < e_fuel E ->
  exists c', train E c l (Some p) = Ok (c', l) /\ answers_all E (text_inst d) L c' /\ fresh c' = fresh c /\ kept E (text_inst d) d L c'.
Proof. intros E d L c l p HE. exact (texts_train E HE d L c l p). Qed.
Print Assumptions C151_works.
Theorem C151_new : forall E d c l p, sound E -> texts d l -> reads_words c = true -> fits (text_inst d) l c p -> length l < e_fuel E ->
  exists c', train E (fresh c) l (Some p) = Ok (c', l) /\ answers_all E (text_inst d) (map label l) c'.
Proof.
  intros E d c l p HE T Hr Hp Hf. destruct (C151_works E d (map label l) (fresh c) l p HE T) as (c' & Et & R & _); [intros x Hx; exact Hx| | | |exact Hf|exists c'; split; assumption].
  - destruct c; cbn; constructor.
  - destruct c; exact Hr.
  - destruct c; exact Hp.
Qed.
Print Assumptions C151_new.
(** The classes of [refuses_words] throw the exception made for it, whatever they hold and whatever the parameters are: even when there are none. *)
Theorem C151_refuses : forall E d c l p, texts d l -> refuses_words c = true -> train E c l p = Throw DiscreteNotAllowed.
Proof. intros E d c l p. exact (texts_refused E d c l p). Qed.
Print Assumptions C151_refuses.
(** The soft tree does not look: as soon as it has an instance to compute with, Math's dot product throws. *)
Theorem C151_soft : forall E d l s f q a cv tr m, sound E -> texts d l -> f_ratio f = Fin q -> part_strat (e_rarr E) (Fin q) s l = Ok [cv; tr] -> length l < e_fuel E ->
  (tr = [] -> train E (SoftC m) l (Some (PSoft s f a)) = Throw OutOfRange) /\
  (tr <> [] -> (1 <= f_epoch f)%Z \/ cv <> [] -> train E (SoftC m) l (Some (PSoft s f a)) = Throw VectorSizeMismatch).
Proof. intros E d l s f q a cv tr m HE. exact (soft_texts E HE d l s f q a cv tr m). Qed.
Print Assumptions C151_soft.
(** Any mixture of discrete, binary, indexed and numeric columns: trees, ensembles, nearest neighbours, dummy and random model work. *)
Theorem C151_mixed : forall E shape L c l p, sound E -> l <> [] -> Forall (row_of shape) l -> incl (map label l) L -> kept E (row_of shape) (length shape) L c ->
  reads_rows c = true -> fits (row_of shape) l c p -> length l < e_fuel E ->
  exists c', train E c l (Some p) = Ok (c', l) /\ answers_all E (row_of shape) L c' /\ fresh c' = fresh c /\ kept E (row_of shape) (length shape) L c'.
Proof. intros E shape L c l p HE N F. exact (rows_train E HE shape L c l p F N). Qed.
Print Assumptions C151_mixed.
(** the library's distance is good for all of them *)
Theorem C151_distance : forall shape, measures_all (row_of shape) eucl /\ forall d, measures_all (text_inst d) eucl.
Proof.
  intros shape. split; [apply eucl_rows|]. intros d x y Hx Hy. apply (eucl_rows (repeat KDisc d)); apply text_row; assumption.
Qed.
Print Assumptions C151_distance.

(** ** Cases *)
Definition tx (c : string) (v : list string) : instance := mkInst c (map ADisc v) None.
Definition txs : ilist := [tx "a" ["x"; "y"]; tx "b" ["z"; "y"]; tx "a" ["x"; "t"]; tx "b" ["z"; "t"]; tx "a" ["x"; "y"]; tx "b" ["u"; "y"]].
Lemma txs_texts : texts 2 txs.
Proof. split; [discriminate|]. split; [lia|]. repeat constructor; eexists; (split; [|reflexivity]); reflexivity. Qed.
Definition verdict (cp : classifier * param) : list string :=
  match train clean_env (fst cp) txs (Some (snd cp)) with
  | Ok (c, _) => map (fun q => match predict clean_env c q with Ok y => y | _ => "?" end) [tx "" ["x"; "y"]; tx "" ["z"; "new"]; tx "" ["new"; "t"]]
  | Throw DiscreteNotAllowed => ["discrete"]
  | Throw VectorSizeMismatch => ["size"]
  | _ => ["?"]
  end.
Definition all_kinds : list (classifier * param) := firstn 14 every ++ [(SoftC None, PSoft 1 (mkLF d1 d1 (Fin (1 # 3)) 1) d0); (SvmC svm_empty, PPlain 1)].
Example C151_case : sound clean_env /\ texts 2 txs /\ length txs < e_fuel clean_env /\
  Forall (fun cp => reads_words (fst cp) = true -> kept clean_env (text_inst 2) 2 ["a"; "b"] (fst cp) /\ fits (text_inst 2) txs (fst cp) (snd cp)) all_kinds /\
  map verdict all_kinds =
  [["a"; "b"; "a"]; ["a"; "b"; "a"]; ["discrete"]; ["discrete"]; ["a"; "b"; "a"]; ["a"; "a"; "a"]; ["b"; "b"; "b"]; ["a"; "b"; "a"]; ["a"; "b"; "a"]; ["a"; "b"; "a"]; ["a"; "b"; "a"];
   ["discrete"]; ["discrete"]; ["discrete"]; ["size"]; ["discrete"]].
Proof.
  split; [exact clean_env_sound|]. split; [exact txs_texts|]. split; [cbn; lia|]. split.
  - assert (eucl_m : measures_all (text_inst 2) eucl) by exact (proj2 (C151_distance []) 2).
    repeat apply Forall_cons; try apply Forall_nil; cbn [fst snd reads_words]; intros Hr; try discriminate Hr; clear Hr; (split; [repeat constructor|]); cbn [fits]; try exact I.
    + exists 1%Z, eucl, 3%Z. split; [reflexivity|]. split; [lia|exact eucl_m].
    + exists 1%Z, eucl. split; [left; reflexivity|exact eucl_m].
    + right. exists 1%Z, (1 # 5). split; [reflexivity|]. exists "a". split; [left; reflexivity|vm_compute; discriminate].
    + exists 1%Z, 2%Z. split; [left; reflexivity|lia].
    + exists 1%Z, 2%Z, 1%Z. split; [reflexivity|lia].
  - vm_compute. reflexivity.
Qed.
(** a mixture *)
Definition mx (c v : string) (q : Q) : instance := mkInst c [ADisc v; ACont (Fin q)] None.
Definition mxs : ilist := [mx "a" "x" 0; mx "b" "z" 3; mx "a" "x" 1; mx "b" "x" 5]%Q.
Lemma mxs_rows : Forall (row_of [KDisc; KCont]) mxs.
Proof. repeat constructor; eexists; reflexivity. Qed.
Example C151_mixed_case : map (fun cp => match train clean_env (fst cp) mxs (Some (snd cp)) with
    | Ok (c, _) => map (fun q => match predict clean_env c q with Ok y => y | _ => "?" end) [mx "" "x" 0; mx "" "new" 4; mx "" "z" 1]%Q | _ => [] end)
  [(KnnC None, PKnn 1 eucl 1); (TreeC None, PC45 1 false (Fin 0)); (StumpC None, PPlain 1); (BaggingC [], PBagging 1 2)] = [["a"; "b"; "a"]; ["a"; "b"; "a"]; ["a"; "b"; "a"]; ["a"; "b"; "a"]].
Proof. vm_compute. reflexivity. Qed.
(** Naive Bayes decides by the first column of the first instance how to read all columns.  On a mixture it trains without a complaint; the first question is
    then undefined behaviour: it takes a number for a word. *)
Theorem C151_mixed_bayes_refuted : exists E l p m, sound E /\ l <> [] /\ Forall (row_of [KDisc; KCont]) l /\ length l < e_fuel E /\
  train E (BayesC bayes_empty) l (Some p) = Ok (BayesC m, l) /\ forall x, In x l -> predict E (BayesC m) x = UB BadCast.
Proof.
  exists clean_env, mxs, (PPlain 1). eexists. split; [exact clean_env_sound|]. split; [discriminate|]. split; [exact mxs_rows|]. split; [cbn; lia|]. split; [vm_compute; reflexivity|].
  intros x Hx. repeat (destruct Hx as [<-|Hx]; [vm_compute; reflexivity|]). destruct Hx.
Qed.
Print Assumptions C151_mixed_bayes_refuted.
(** An object of naive Bayes that has seen words is not able to read numbers afterwards: the distributions stay. *)
Theorem C151_bayes_again_refuted : exists E l l' p m m', sound E /\ texts 1 l /\ clean 1 l' /\ length l < e_fuel E /\ length l' < e_fuel E /\
  train E (BayesC bayes_empty) l (Some p) = Ok (BayesC m, l) /\ train E (BayesC m) l' (Some p) = Ok (BayesC m', l') /\
  forall x, In x l' -> predict E (BayesC m') x = UB BadCast.
Proof.
  exists clean_env, [tx "a" ["x"]; tx "b" ["y"]], [row "a" [0]; row "b" [1]]%Q, (PPlain 1). eexists. eexists. split; [exact clean_env_sound|].
  split; [split; [discriminate|]; split; [lia|]; repeat constructor; eexists; (split; [|reflexivity]); reflexivity|].
  split; [split; [discriminate|]; split; [lia|]; repeat constructor; eexists; (split; [|reflexivity]); reflexivity|].
  split; [cbn; lia|]. split; [cbn; lia|]. split; [vm_compute; reflexivity|]. split; [vm_compute; reflexivity|].
  intros x Hx. repeat (destruct Hx as [<-|Hx]; [vm_compute; reflexivity|]). destruct Hx.
Qed.
Print Assumptions C151_bayes_again_refuted.
