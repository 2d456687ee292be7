(** Property C141: giving every training instance several times. *)
From Coq Require Import String ZArith QArith Bool Lia Lqa Permutation List.
From Verif Require Import Base Spec BaseLemmas DblLemmas AttrModel InstanceListModel PartitionModel PerformanceModel
  ListSpec ListProofs PartitionProofs DistanceModel DistanceSpec DistanceProofs GaussianModel TreeModel TreeSpec TreeProofs TreeGrowProofs TreeBestSpec TreeProps
  EnsembleModel FeatOrderSpec InvProps RepeatSpec RepeatProofs RepeatDistProofs.
Import ListNotations.
Local Open Scope string_scope.
Local Open Scope list_scope.
Local Open Scope nat_scope.

(** * Decision trees that are not pruned, and stumps *)
Definition copies {A} (m : nat) (l l' : list A) : Prop := Permutation (again m l) l'.
(** two trees give the same label and the same probabilities *)
Definition same_answers (max_item : counter -> list string -> string) (t t' : tree) (x : instance) : Prop :=
  (isComposite x = false \/ max_item_relative max_item -> tree_predict max_item t' x = tree_predict max_item t x) /\
  forall p, node_probability t x = Ok p -> exists p', node_probability t' x = Ok p' /\ Forall2 (fun a b => fst a = fst b /\ deq (snd a) (snd b)) p p'.
Lemma grown_copies max_item entropy mid rarr stump shape m data data' :
  entropy_finite entropy -> entropy_relative entropy -> mid_exact mid -> rarr_perm rarr -> 0 < m -> tabular shape data -> data <> [] -> copies m data data' ->
  exists t t', build entropy mid rarr None stump (length data) data no_condition = Ok t /\ build entropy mid rarr None stump (length data') data' no_condition = Ok t' /\
    forall x, typed shape x -> same_answers max_item t t' x.
Proof.
  intros He Hr Hmid Hra Hm T Hne P. destruct (build_ok entropy mid rarr shape He Hmid Hra None stump (length data) data no_condition T Hne (le_n _)) as (t & E & _).
  assert (P' : Permutation (each m data) data') by (rewrite each_again; exact P).
  assert (E2 : build entropy mid rarr None stump (length (each m data)) (each m data) no_condition = Ok (enlarge m t)).
  { apply (build_each entropy mid shape m He Hr Hmid Hm rarr Hra); [exact T|exact Hne|]. apply (build_more _ _ _ _ _ (length data)); [rewrite each_length; nia|exact E]. }
  destruct (both_grown InvSpec.same_units entropy mid rarr None stump shape (each m data) data' He Hmid Hra increasing_same (tab_each shape m _ T) (each_ne m Hm _ Hne) (TreeInvProofs.same_data_perm _ _ P')) as (t1 & t' & E1 & E' & A).
  rewrite E2 in E1. injection E1 as <-. exists t, t'. split; [exact E|]. split; [rewrite <- (Permutation_length P'); exact E'|].
  intros x Tx. destruct (A x x Tx (rescaled_self x)) as (A1 & A2). split.
  - intros H. rewrite <- A1. unfold tree_predict. rewrite (enlarge_predict m Hm max_item x H). reflexivity.
  - intros p Ep. destruct (enlarge_probability m Hm x t p Ep) as (p' & Ep' & S). exists p'. split; [rewrite <- A2; exact Ep'|exact S].
Qed.
Theorem C141_tree : forall max_item entropy mid rarr ratio seed shape m data data',
  entropy_finite entropy -> entropy_relative entropy -> mid_exact mid -> rarr_perm rarr -> 0 < m -> tabular shape data -> data <> [] -> copies m data data' ->
  exists t t', tree_train max_item entropy mid rarr false ratio seed (length data) data = Ok t /\
    tree_train max_item entropy mid rarr false ratio seed (length data') data' = Ok t' /\ forall x, typed shape x -> same_answers max_item t t' x.
Proof. intros mi entropy mid rarr ratio seed. exact (grown_copies mi entropy mid rarr false). Qed.
Theorem C141_stump : forall max_item entropy mid rarr shape m data data',
  entropy_finite entropy -> entropy_relative entropy -> mid_exact mid -> rarr_perm rarr -> 0 < m -> tabular shape data -> data <> [] -> copies m data data' ->
  exists t t', stump_train entropy mid rarr (length data) data = Ok t /\ stump_train entropy mid rarr (length data') data' = Ok t' /\ forall x, typed shape x -> same_answers max_item t t' x.
Proof. intros mi entropy mid rarr. exact (grown_copies mi entropy mid rarr true). Qed.
Lemma ex_entropy_relative : entropy_relative ex_entropy.
Proof. intros m [|a [|b c]] _; reflexivity. Qed.
Lemma ex_max_relative : max_item_relative ex_max.
Proof.
  intros m c ls Hm. unfold ex_max. generalize (hd "" ls). induction ls as [|l ls IH]; intros b; [reflexivity|]. cbn [fold_left]. rewrite !ccount_times, IH.
  destruct (Nat.ltb_spec (m * ccount c b) (m * ccount c l)), (Nat.ltb_spec (ccount c b) (ccount c l)); try reflexivity; nia.
Qed.
(** the data twice; the counts in the tree differ, the answers do not *)
Example C141_tree_case : copies 2 ex_data (again 2 ex_data) /\ entropy_relative ex_entropy /\ max_item_relative ex_max /\
  exists t t', tree_train ex_max ex_entropy ex_mid ex_rarr false (Fin (1#5)) 1 5 ex_data = Ok t /\ tree_train ex_max ex_entropy ex_mid ex_rarr false (Fin (1#5)) 1 10 (again 2 ex_data) = Ok t' /\ t <> t' /\
    t_dist t = [("a", 3); ("b", 2)] /\ t_dist t' = [("a", 6); ("b", 4)] /\
    map (fun q => tree_predict ex_max t (ex_row "?" q "u" 1)) [1; 3; 9]%Q = [Ok "b"; Ok "b"; Ok "a"] /\ map (fun q => tree_predict ex_max t' (ex_row "?" q "u" 1)) [1; 3; 9]%Q = [Ok "b"; Ok "b"; Ok "a"].
Proof.
  split; [apply Permutation_refl|]. split; [exact ex_entropy_relative|]. split; [exact ex_max_relative|].
  eexists _, _. split; [vm_compute; reflexivity|]. split; [vm_compute; reflexivity|]. split; [discriminate|]. repeat (split; [vm_compute; reflexivity|]). vm_compute; reflexivity.
Qed.

(** * The dummy and the random classifier *)
Theorem C141_dummy_and_random : forall max_item old_d old_d' old_r old_r' m data data' x, 0 < m -> copies m data data' ->
  random_train old_r' data' = random_train old_r data /\
  (isComposite x = false \/ max_item_relative max_item -> dummy_predict max_item (dummy_train old_d' data') x = dummy_predict max_item (dummy_train old_d data) x) /\
  Forall2 (fun a b => fst a = fst b /\ deq (snd a) (snd b)) (dummy_probability (dummy_train old_d data) x) (dummy_probability (dummy_train old_d' data') x).
Proof.
  intros mi od od' or or' m data data' x Hm P.
  assert (E : class_distribution data' = times m (class_distribution data)).
  { rewrite !class_distribution_cofl, <- (lc_each m Hm). apply cofl_perm, Permutation_map. rewrite each_again. symmetry. exact P. }
  unfold random_train, dummy_train, dummy_predict, dummy_probability. rewrite E, times_keys, (cmax_times m _ Hm). split; [reflexivity|]. split; [|apply (times_probabilities m Hm)].
  intros [->|H]; [reflexivity|]. rewrite (H m _ _ Hm). reflexivity.
Qed.
Example C141_dummy_case : dummy_train [] (again 3 ex_data) = [("a", 9); ("b", 6)] /\ dummy_train [] ex_data = [("a", 3); ("b", 2)] /\ random_train [] (again 3 ex_data) = ["a"; "b"].
Proof. repeat split. Qed.

(** * Nearest neighbours: every instance m times in a row; any distance that gives numbers *)
Definition measured_by (dist : instance -> instance -> res dbl) (data : list instance) (q : instance) : Prop :=
  forall x, In x data -> may_answer q x -> exists d, dist x q = Ok d /\ is_nan d = false.
Lemma measured_fun dist data q : measured_by dist data q -> forall x, In x data -> may_answer q x ->
  dist x q = Ok ((fun x => match dist x q with Ok d => d | _ => d0 end) x) /\ is_nan ((fun x => match dist x q with Ok d => d | _ => d0 end) x) = false.
Proof. intros H x Hx Hq. destruct (H x Hx Hq) as (d & E & N). cbn beta. rewrite E. split; [reflexivity|exact N]. Qed.
(** m times as many neighbours: the same neighbours, each m times; the same answer and the same probabilities *)
Theorem C141_knn : forall dist m data k q, 0 < m -> measured_by dist data q ->
  nearest dist (each m data) (Z.of_nat (m * k)) q = rmap (each m) (nearest dist data (Z.of_nat k) q) /\
  knn_predict dist (each m data) (Z.of_nat (m * k)) q = knn_predict dist data (Z.of_nat k) q /\
  exists p p', knn_probability dist data (Z.of_nat k) q = Ok p /\ knn_probability dist (each m data) (Z.of_nat (m * k)) q = Ok p' /\ Forall2 (fun a b => fst a = fst b /\ deq (snd a) (snd b)) p p'.
Proof.
  intros dist m data k q Hm H. pose proof (measured_fun _ _ _ H) as Hd. pose proof (neighbours_each dist _ m data q Hm Hd k) as E. split; [exact E|].
  unfold knn_predict, knn_probability. unfold ilist in *. rewrite E, (near_plain dist _ data q Hd). unfold rmap. cbn [bind]. set (ns := firstn _ _). split.
  - unfold class_labels. rewrite map_each, (max_each m _ Hm), each_length. destruct ns as [|x ns]; [rewrite Nat.mul_0_r; reflexivity|].
    cbn [length]. destruct (m * S (length ns)) as [|j] eqn:Ej; [nia|]. reflexivity.
  - eexists _, _. split; [reflexivity|]. split; [reflexivity|]. rewrite !class_distribution_cofl, (lc_each m Hm). apply (times_probabilities m Hm).
Qed.
(** at most m neighbours: all of them copies of the one nearest instance *)
Theorem C141_one_neighbour : forall dist m data k q, 1 <= k <= m -> measured_by dist data q ->
  knn_predict dist (each m data) (Z.of_nat k) q = knn_predict dist data 1 q.
Proof.
  intros dist m data k q Hk H. pose proof (measured_fun _ _ _ H) as Hd. unfold knn_predict. rewrite (neighbour_first dist _ m data q ltac:(lia) Hd k Hk), (near_plain dist _ data q Hd). unfold rmap. cbn [bind].
  change (Z.to_nat 1) with 1. destruct (ssort _ _) as [|x l]; [reflexivity|]. cbn [firstn length]. rewrite repeat_length. destruct k as [|k]; [lia|]. cbn [Nat.eqb]. rewrite andb_false_r. unfold class_labels.
  replace (map label (repeat x (S k))) with (each (S k) (map label [x])); [rewrite max_each by lia; reflexivity|]. rewrite <- map_each. unfold each. cbn [flat_map]. rewrite app_nil_r. reflexivity.
Qed.
Definition line (l : string) (v : Q) : instance := mkInst l [ACont (Fin v)] None.
Definition line_ex : list instance := [line "a" 0; line "b" 1; line "b" 2].
Lemma line_measured : measured_by eucl line_ex (line "?" 0).
Proof. intros x Hx _. repeat destruct Hx as [<-|Hx]; try (eexists; split; vm_compute; reflexivity). destruct Hx. Qed.
Example C141_knn_case : measured_by eucl line_ex (line "?" 0) /\ knn_predict eucl line_ex 3 (line "?" 0) = Ok "b" /\
  knn_predict eucl (each 3 line_ex) 9 (line "?" 0) = Ok "b" /\ knn_predict eucl (each 3 line_ex) 2 (line "?" 0) = Ok "a" /\ knn_predict eucl line_ex 1 (line "?" 0) = Ok "a".
Proof. split; [exact line_measured|]. repeat split. Qed.
(** with the same number of neighbours the answer changes *)
Theorem C141_knn_refuted : exists data k m q a b, measured_by eucl data q /\ knn_predict eucl data k q = Ok a /\ knn_predict eucl (each m data) k q = Ok b /\ a <> b.
Proof. exists line_ex, 3%Z, 3, (line "?" 0), "b", "a". split; [exact line_measured|]. split; [reflexivity|]. split; [reflexivity|discriminate]. Qed.

(** * k-means: any values, infinities and NaN included *)
Theorem C141_kmeans : forall n m old old' l km, 0 < m -> width_n n l -> kmeans_train old l = Ok km ->
  exists km', kmeans_train old' (each m l) = Ok km' /\ forall q, length (attrs q) = n -> kmeans_predict eucl km' q = kmeans_predict eucl km q.
Proof.
  intros n m old old' l km Hm W E. destruct (kmeans_each m Hm n old old' l km W E) as (km' & E' & P & F & L). exists km'. split; [exact E'|]. intros q Lq. exact (kmeans_predict_each m Hm n km km' q P F L Lq).
Qed.
Definition centre_ex : list instance := [mkInst "a" [ACont (Fin 1); ADisc "u"] None; mkInst "b" [ACont (Fin 4); ADisc "w"] None; mkInst "a" [ACont (Fin 2); ADisc "u"] None; mkInst "c" [ACont PInf; ADisc "w"] None].
Example C141_kmeans_case : width_n 2 centre_ex /\ exists km km', kmeans_train (mkKM [] []) centre_ex = Ok km /\ kmeans_train (mkKM [] []) (each 2 centre_ex) = Ok km' /\ km <> km' /\
  map attrs (km_means km) = [[ACont (Fin (3 # 2)); ADisc "u"]; [ACont (Fin (4 # 1)); ADisc "w"]; [ACont PInf; ADisc "w"]] /\
  map attrs (km_means km') = [[ACont (Fin (6 # 4)); ADisc "u"]; [ACont (Fin (8 # 2)); ADisc "w"]; [ACont PInf; ADisc "w"]] /\
  kmeans_predict eucl km' (mkInst "?" [ACont (Fin 3); ADisc "u"] None) = Ok "b".
Proof.
  split; [repeat constructor|]. eexists _, _. split; [vm_compute; reflexivity|]. split; [vm_compute; reflexivity|]. split; [discriminate|]. repeat (split; [vm_compute; reflexivity|]). vm_compute; reflexivity.
Qed.

(** * Naive Bayes on discrete features: the smoothing weighs less when there are more data *)
(** what is needed of a logarithm: finite and increasing on the probabilities that occur *)
Definition log_like (ln : dbl -> dbl) : Prop := forall p q, (1 # 100 <= p)%Q -> (p < q)%Q -> (q <= 1)%Q -> exists a b, ln (Fin p) = Fin a /\ ln (Fin q) = Fin b /\ (a < b)%Q /\ (-1000 < a)%Q.
Definition word (l v : string) : instance := mkInst l [ADisc v] None.
Definition words_ex : list instance :=
  map (word "a") ["u"; "u"; "u"; "1"; "2"; "3"; "4"; "5"] ++ map (word "b") ["u"; "u"; "w"; "w"; "w"; "w"; "w"; "w"].
Lemma two_classes prior metric q x y : mkeys prior = ["a"; "b"] -> composite q = None -> metric "a" = Ok (Fin x) -> metric "b" = Ok (Fin y) -> (-2000 < x)%Q -> (-2000 < y)%Q ->
  ((x < y)%Q -> gauss_predict prior metric q = Ok "b") /\ ((y < x)%Q -> gauss_predict prior metric q = Ok "a").
Proof.
  intros K C A B Lx Ly. destruct prior as [|[k v] [|[k' v'] [|]]]; try discriminate K. injection K as -> ->.
  assert (F : (- inject_Z (2 ^ 1024 - 2 ^ 971) < -2000)%Q) by reflexivity.
  assert (G : gauss_predict [("a", v); ("b", v')] metric q = Ok (if dltb (Fin x) (Fin y) then "b" else "a")).
  { unfold gauss_predict. rewrite C. cbn [bind fst snd mkeys map foldM]. unfold gauss_step, mmem. cbn [mfind String.eqb Ascii.eqb Bool.eqb]. rewrite A. cbn [bind fst]. unfold dgtb. change (dopp dbl_max) with (Fin (- inject_Z (2 ^ 1024 - 2 ^ 971))).
    rewrite (proj2 (dltb_fin _ x)) by lra. rewrite B. cbn [bind fst snd]. destruct (dltb (Fin x) (Fin y)); reflexivity. }
  split; intros H; rewrite G; [rewrite (proj2 (dltb_fin _ _) H)|rewrite (proj2 (dltb_fin_false _ _)) by lra]; reflexivity.
Qed.
Theorem C141_bayes_refuted : exists data q, forall ln std_vec, log_like ln -> exists nb nb',
  bayes_train std_vec bayes_empty data = Ok nb /\ bayes_train std_vec bayes_empty (each 2 data) = Ok nb' /\ bayes_predict ln nb q = Ok "b" /\ bayes_predict ln nb' q = Ok "a".
Proof.
  exists words_ex, (word "?" "u"). intros ln std_vec HL. eexists _, _. split; [vm_compute; reflexivity|]. split; [vm_compute; reflexivity|].
  destruct (HL (4 # 15) (3 # 11)) as (a & b & Ea & Eb & Lab & La); [discriminate|reflexivity|discriminate|].
  destruct (HL (5 # 19) (7 # 23)) as (b' & a' & Eb' & Ea' & Lab' & Lb'); [discriminate|reflexivity|discriminate|].
  destruct (HL (8 # 16) 1%Q) as (p & z & Ep & _ & _ & Lp); [discriminate|reflexivity|discriminate|].
  destruct (HL (16 # 32) 1%Q) as (p' & z' & Ep' & _ & _ & Lp'); [discriminate|reflexivity|discriminate|].
  unfold bayes_predict. split.
  - match goal with |- gauss_predict ?pr ?mt ?q = _ => destruct (two_classes pr mt q (p + a) (p + b)) as [H _]; [reflexivity|reflexivity|..|lra|lra|apply H; lra] end.
    + change (Ok (dadd (ln (Fin (8 # 16))) (ln (Fin (4 # 15)))) = Ok (Fin (p + a))). rewrite Ea, Ep. reflexivity.
    + change (Ok (dadd (ln (Fin (8 # 16))) (ln (Fin (3 # 11)))) = Ok (Fin (p + b))). rewrite Eb, Ep. reflexivity.
  - match goal with |- gauss_predict ?pr ?mt ?q = _ => destruct (two_classes pr mt q (p' + a') (p' + b')) as [_ H]; [reflexivity|reflexivity|..|lra|lra|apply H; lra] end.
    + change (Ok (dadd (ln (Fin (16 # 32))) (ln (Fin (7 # 23)))) = Ok (Fin (p' + a'))). rewrite Ea', Ep'. reflexivity.
    + change (Ok (dadd (ln (Fin (16 # 32))) (ln (Fin (5 # 19)))) = Ok (Fin (p' + b'))). rewrite Eb', Ep'. reflexivity.
Qed.
Example C141_bayes_case : log_like (fun d => d) /\ length words_ex = 16 /\ length (each 2 words_ex) = 32.
Proof. split; [|split; reflexivity]. intros p q L1 L2 L3. exists p, q. split; [reflexivity|]. split; [reflexivity|]. split; [exact L2|lra]. Qed.
Print Assumptions C141_tree.
Print Assumptions C141_stump.
Print Assumptions C141_dummy_and_random.
Print Assumptions C141_knn.
Print Assumptions C141_one_neighbour.
Print Assumptions C141_knn_refuted.
Print Assumptions C141_kmeans.
Print Assumptions C141_bayes_refuted.
