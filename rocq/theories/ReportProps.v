(** Properties C122-C124: report texts. *)
From Coq Require Import String Ascii ZArith QArith Bool Lia Lqa Arith List.
From Verif Require Import Base Spec BaseLemmas AttrModel DataSetModel DataSetSpec DataSetProofs InstanceListModel ListSpec ListProofs ListProps SerialModel SerialSpec SerialProofs ReportModel.
From Verif Require SerialTextProps.
Import ListNotations.
Local Open Scope string_scope.
Local Open Scope list_scope.
Local Open Scope nat_scope.

(** * C122: the description of a data set *)
(** decimal numeral *)
Definition numeral (n : nat) : string := SerialTextProps.decimal n.
(** the numbers in the description: instances, labels, features, discrete or binary features, continuous features *)
Definition figures (s : dataset) : list nat :=
  [List.length (insts s); List.length (nodup string_dec (map label (insts s))); List.length (types (ddef s));
   List.length (filter (fun t => match t with TDisc | TBin => true | _ => false end) (types (ddef s)));
   List.length (filter (fun t => match t with TCont => true | _ => false end) (types (ddef s)))].
Definition captions : list string :=
  ["Number of instances: "; "Number of distinct class labels: "; "Number of attributes: "; "Number of discrete attributes: "; "Number of continuous attributes: "].
Definition newline : string := String (ascii_of_nat 10) "".

Lemma fold_filter {A} (p q : A -> bool) l : (forall x, p x = q x) -> forall n, fold_left (fun c t => if p t then S c else c) l n = n + List.length (filter q l).
Proof. intros E. induction l as [|x l IH]; intros n; cbn [fold_left filter]; [cbn; lia|]. rewrite IH, <- E. destruct (p x); cbn; lia. Qed.
Lemma sapp_assoc (a b c : string) : ((a ++ b) ++ c = a ++ b ++ c)%string.
Proof. induction a; cbn; congruence. Qed.
Lemma fold_classes ls : forall c, fold_left (fun r l => r ++ (";" ++ l))%string ls c = String.concat ";" (c :: ls).
Proof.
  induction ls as [|l ls IH]; intros c; [reflexivity|]. cbn [fold_left]. rewrite IH. destruct ls; cbn [String.concat]; [reflexivity|]. rewrite !sapp_assoc. reflexivity.
Qed.
Lemma class_count_eq s : class_count s = List.length (nodup string_dec (map label (insts s))).
Proof.
  unfold class_count. rewrite class_distribution_cofl. set (l := map label (insts s)). transitivity (List.length (mkeys (cofl l))); [unfold mkeys; rewrite map_length; reflexivity|].
  apply Nat.le_antisymm; apply NoDup_incl_length; try apply NoDup_nodup; try apply msorted_nodup, cofl_sorted; intros x; rewrite nodup_In, in_cofl; auto.
Qed.
Lemma figures_eq s : [sample_size s; class_count s; feature_count s; discrete_count s; continuous_count s] = figures s.
Proof.
  unfold figures, sample_size, feature_count, discrete_count, continuous_count, def_count, def_discrete, def_continuous. rewrite class_count_eq. do 3 f_equal.
  rewrite (fold_filter _ (fun t => match t with TDisc | TBin => true | _ => false end)) by (intros []; reflexivity).
  rewrite (fold_filter _ (fun t => match t with TCont => true | _ => false end)) by (intros []; reflexivity). reflexivity.
Qed.
Lemma info_eq name s : info name s = (do c <- get_classes s; Ok (String.concat newline (("DATASET: " ++ name)%string :: map (fun p => (fst p ++ numeral (snd p))%string) (combine captions (figures s)) ++ [("Class labels: " ++ c)%string])))%string.
Proof.
  unfold info. destruct (get_classes s) as [c| | |]; [|reflexivity..]. cbn [bind]. f_equal. rewrite <- figures_eq. cbn [captions combine map app fst snd String.concat]. rewrite !sapp_assoc. reflexivity.
Qed.
(** a data set with instances is described by seven lines: its name, five figures, and its labels in order of appearance *)
Theorem C122_info : forall name s, insts s <> [] ->
  exists ls, first_occurrences (map label (insts s)) ls /\
    info name s = Ok (String.concat newline (("DATASET: " ++ name)%string :: map (fun p => (fst p ++ numeral (snd p))%string) (combine captions (figures s)) ++
                                             [("Class labels: " ++ String.concat ";" ls)%string])).
Proof.
  intros name s H. exists (distinct_labels (insts s)). split; [apply C15_distinct_labels|]. rewrite info_eq. unfold get_classes.
  destruct (distinct_labels (insts s)) as [|c ls] eqn:E.
  - exfalso. destruct (insts s) as [|x l] eqn:El; [congruence|]. pose proof (proj2 (proj1 (proj2 (C15_distinct_labels (x :: l))) (label x)) (or_introl eq_refl)) as Hi. rewrite E in Hi. destruct Hi.
  - cbn [atn nth_error bind tl]. rewrite fold_classes. reflexivity.
Qed.
(** there is no description of an empty data set *)
Theorem C122_empty_refuted : forall name d, info name (ds_new d) = Throw OutOfRange.
Proof. reflexivity. Qed.
Lemma cut_at c a a' b b' : has_char c a = false -> has_char c a' = false -> (a ++ String c b = a' ++ String c b')%string -> a = a' /\ b = b'.
Proof.
  revert a'. induction a as [|x a IH]; intros [|x' a'] H H' E; cbn [has_char String.append] in *.
  - injection E as <-. split; reflexivity.
  - injection E as -> _. rewrite Ascii.eqb_refl in H'. discriminate H'.
  - injection E as -> _. rewrite Ascii.eqb_refl in H. discriminate H.
  - apply orb_false_iff in H, H'. injection E as -> E. destruct (IH a' (proj2 H) (proj2 H') E) as (-> & ->). split; reflexivity.
Qed.
Lemma numeral_inj n n' : numeral n = numeral n' -> n = n'.
Proof.
  intros E. change (show_Z (Z.of_nat n) = show_Z (Z.of_nat n')) in E. pose proof (scan_int_show_end (Z.of_nat n)) as A. rewrite E, scan_int_show_end in A. injection A as A. lia.
Qed.
Lemma prefix_inj (p a b : string) : (p ++ a = p ++ b)%string -> a = b.
Proof. induction p as [|c p IH]; cbn; intros E; [exact E|]. injection E as E. apply IH, E. Qed.
Lemma last_clean c a b d : has_char c a = false -> a <> (b ++ String c d)%string.
Proof. intros H ->. rewrite SerialTextProps.has_char_app in H. cbn [has_char] in H. rewrite Ascii.eqb_refl, orb_true_r in H. discriminate H. Qed.
Lemma concat_cons2 sep a b l : String.concat sep (a :: b :: l) = (a ++ sep ++ String.concat sep (b :: l))%string.
Proof. reflexivity. Qed.
Lemma concat_inj c ls ls' : ls <> [] -> ls' <> [] -> Forall (fun s => has_char c s = false) ls -> Forall (fun s => has_char c s = false) ls' ->
  String.concat (String c "") ls = String.concat (String c "") ls' -> ls = ls'.
Proof.
  revert ls'. induction ls as [|a ls IH]; intros [|a' ls'] N N' F F' E; try congruence. inversion F as [|? ? Fa Fl]; subst. inversion F' as [|? ? Fa' Fl']; subst.
  destruct ls as [|b ls], ls' as [|b' ls'].
  - cbn in E. congruence.
  - rewrite concat_cons2 in E. cbn [String.concat String.append] in E. exfalso. exact (last_clean _ _ _ _ Fa E).
  - rewrite concat_cons2 in E. cbn [String.concat String.append] in E. exfalso. symmetry in E. exact (last_clean _ _ _ _ Fa' E).
  - rewrite !concat_cons2 in E. change (String c "" ++ String.concat (String c "") (b :: ls))%string with (String c (String.concat (String c "") (b :: ls))) in E.
    change (String c "" ++ String.concat (String c "") (b' :: ls'))%string with (String c (String.concat (String c "") (b' :: ls'))) in E.
    destruct (cut_at c a a' _ _ Fa Fa' E) as (-> & E'). f_equal. apply IH; try assumption; discriminate.
Qed.
Lemma ok_inj {A} (a b : A) : Ok a = Ok b -> a = b.
Proof. intros E. injection E. auto. Qed.
(** what the description shows can be read off it: two data sets with the same description have the same name and figures,
    and the same labels if no label contains ';' *)
Theorem C122_info_faithful : forall name name' s s' text, has_char (ascii_of_nat 10) name = false -> has_char (ascii_of_nat 10) name' = false ->
  info name s = Ok text -> info name' s' = Ok text ->
  name = name' /\ figures s = figures s' /\
  (Forall (fun x => has_char ";" (label x) = false) (insts s ++ insts s') ->
   exists ls, first_occurrences (map label (insts s)) ls /\ first_occurrences (map label (insts s')) ls).
Proof.
  intros name name' s s' text Hn Hn' E E'.
  assert (N : forall n s, info n s = Ok text -> insts s <> []) by (intros n [[|x l] d] H; [discriminate H|discriminate]).
  destruct (C122_info name s (N name s E)) as (ls & F & I). destruct (C122_info name' s' (N name' s' E')) as (ls' & F' & I'). rewrite E in I. rewrite E' in I'.
  pose proof (N name s E) as Ns. pose proof (N name' s' E') as Ns'. apply ok_inj in I, I'. subst text. clear E E' N.
  assert (L : forall s, exists a b c d e, figures s = [a; b; c; d; e]) by (intros; do 5 eexists; reflexivity).
  destruct (L s) as (a & b & c & d & e & Es). destruct (L s') as (a' & b' & c' & d' & e' & Es'). rewrite Es, Es' in *.
  assert (K : forall p n, has_char (ascii_of_nat 10) p = false -> has_char (ascii_of_nat 10) (p ++ numeral n)%string = false) by (intros p n H; rewrite SerialTextProps.has_char_app, H; apply SerialTextProps.decimal_clean).
  unfold captions, newline in I'. cbn [combine map app fst snd] in I'. rewrite !concat_cons2 in I'.
  repeat match type of I' with context [(String ?c "" ++ ?t)%string] => change (String c "" ++ t)%string with (String c t) in I' end. cbn [String.concat] in I'.
  assert (D : forall p n n' r r', has_char (ascii_of_nat 10) p = false -> ((p ++ numeral n) ++ String (ascii_of_nat 10) r = (p ++ numeral n') ++ String (ascii_of_nat 10) r')%string -> n = n' /\ r = r').
  { intros p n n' r r' H G. apply cut_at in G as (G1 & G2); [|apply K, H..]. split; [apply numeral_inj, (prefix_inj p), G1|exact G2]. }
  apply cut_at in I' as (J0 & I').
  2,3: rewrite SerialTextProps.has_char_app; assumption.
  apply prefix_inj in J0. apply D in I' as (J1 & I'); [|reflexivity]. apply D in I' as (J2 & I'); [|reflexivity]. apply D in I' as (J3 & I'); [|reflexivity].
  apply D in I' as (J4 & I'); [|reflexivity]. apply D in I' as (J5 & I'); [|reflexivity]. apply prefix_inj in I'. split; [congruence|]. split; [congruence|]. intros FL.
  apply Forall_app in FL as (FL & FL'). assert (G : forall l ls, first_occurrences (map label l) ls -> Forall (fun x => has_char ";" (label x) = false) l -> Forall (fun x => has_char ";" x = false) ls).
  { intros l0 ls0 (_ & H & _) H0. rewrite Forall_forall in *. intros x Hx. apply H in Hx. apply in_map_iff in Hx as (y & <- & Hy). apply H0, Hy. }
  assert (G0 : forall l (ls : list string), first_occurrences (map label l) ls -> l <> [] -> ls <> []).
  { intros [|x l] ls0 (_ & H & _) H0; [congruence|]. intros ->. destruct (proj2 (H (label x)) (or_introl eq_refl)). }
  exists ls. split; [exact F|]. rewrite (concat_inj ";" ls ls'); [exact F'| | | | |].
  - exact (G0 _ _ F Ns).
  - exact (G0 _ _ F' Ns').
  - exact (G _ _ F FL).
  - exact (G _ _ F' FL').
  - exact I'.
Qed.
(** to_string has no separators: two different data sets share name and text *)
Theorem C122_text_refuted : exists s s', figures s <> figures s' /\ forall name, dataset_text name s = dataset_text name s'.
Proof.
  exists (offers ds_empty (repeat (mkInst "a" [ADisc "x"] None) 11)), (offers ds_empty [mkInst "a" (ADisc "x" :: repeat (AIdx "y" 0 2) 10) None]).
  split; [vm_compute; discriminate|]. intros name. reflexivity.
Qed.
(** nor do labels with ';' come back from the list of labels *)
Theorem C122_labels_refuted : exists s s', figures s = figures s' /\ (exists t, info "d" s = Ok t /\ info "d" s' = Ok t) /\ (forall x, In x (map label (insts s)) -> ~ In x (map label (insts s'))).
Proof.
  exists (mkDS [mkInst "a;b" [] None; mkInst "c" [] None] def_empty), (mkDS [mkInst "a" [] None; mkInst "b;c" [] None] def_empty).
  split; [reflexivity|]. split; [eexists; split; [vm_compute; reflexivity|vm_compute; reflexivity]|]. cbn. intros x [<-|[<-|[]]] [E|[E|[]]]; discriminate E.
Qed.
Definition ex_set : dataset := offers ds_empty [mkInst "b" [ADisc "x"; ACont (Fin 1)] None; mkInst "a" [ADisc "y"; ACont (Fin 2)] None; mkInst "b" [ADisc "x"; ACont (Fin 3)] None].
Example C122_case : insts ex_set <> [] /\ figures ex_set = [3; 2; 2; 1; 1] /\
  info "iris" ex_set = Ok (String.concat newline ["DATASET: iris"; "Number of instances: 3"; "Number of distinct class labels: 2"; "Number of attributes: 2";
    "Number of discrete attributes: 1"; "Number of continuous attributes: 1"; "Class labels: b;a"]) /\ dataset_text "iris" ex_set = "iris32211".
Proof. split; [discriminate|]. repeat split. Qed.
Print Assumptions C122_info.
Print Assumptions C122_empty_refuted.
Print Assumptions C122_info_faithful.
Print Assumptions C122_text_refuted.
Print Assumptions C122_labels_refuted.

(** * C123: the text of a neighbour *)
(** the distance is shown as the one character whose code is its integral part; from 128 on nothing is defined *)
Theorem C123_neighbour : forall x q, (0 <= q)%Q ->
  (forall n, (n < 128)%nat -> (inject_Z (Z.of_nat n) <= q < inject_Z (Z.of_nat n + 1))%Q ->
     neighbour_text (mkNeighbour x (Fin q)) = Ok (label x ++ " " ++ String (ascii_of_nat n) "")%string) /\
  ((128 <= q)%Q -> neighbour_text (mkNeighbour x (Fin q)) = UB IntOverflow).
Proof.
  intros x [a b] H0. unfold neighbour_text, to_char. cbn [n_distance n_instance Qnum Qden]. unfold Qle, Qlt in *. cbn in H0. cbn [Qnum Qden inject_Z].
  assert (Ha : (0 <= a)%Z) by lia. rewrite (Z.quot_div_nonneg a (Zpos b)) by lia. split.
  - intros n Hn (H1 & H2). assert (E : (a / Zpos b = Z.of_nat n)%Z) by (symmetry; apply Z.div_unique with (a - Zpos b * Z.of_nat n)%Z; [left|]; lia).
    rewrite E. replace ((-128 <=? Z.of_nat n) && (Z.of_nat n <=? 127))%Z with true by (symmetry; apply andb_true_iff; split; apply Z.leb_le; lia). cbn [bind].
    rewrite Z.mod_small, Nat2Z.id by lia. rewrite sapp_assoc. reflexivity.
  - intros H1. assert (E : (128 <= a / Zpos b)%Z) by (apply Z.div_le_lower_bound; lia). replace ((-128 <=? a / Zpos b) && (a / Zpos b <=? 127))%Z with false; [reflexivity|].
    symmetry. apply andb_false_iff. right. apply Z.leb_gt. lia.
Qed.
(** so the text does not tell the distance: 65 and 65.9 are both shown as "A" *)
Theorem C123_distance_refuted : exists x q q', (0 <= q < q')%Q /\ neighbour_text (mkNeighbour x (Fin q)) = Ok "a A" /\ neighbour_text (mkNeighbour x (Fin q')) = Ok "a A".
Proof. exists (mkInst "a" [] None), 65%Q, (659#10)%Q. split; [split; lra|]. split; reflexivity. Qed.
Example C123_case : neighbour_text (mkNeighbour (mkInst "a" [] None) (Fin (13#4))) = Ok (String "a" (String " " (String (ascii_of_nat 3) ""))) /\
  neighbour_text (mkNeighbour (mkInst "a" [] None) (Fin 200)) = UB IntOverflow.
Proof. split; reflexivity. Qed.
Print Assumptions C123_neighbour.
Print Assumptions C123_distance_refuted.

(** * C124: the texts of the exceptions *)
Theorem C124_fixed_texts : read_cstring (what AlgorithmExpected) = Ok "Classification Algorithm required for accuracy metric" /\
  read_cstring (what FeaturesNotAllowed) = Ok "Discrete Features are not allowed for this classifier".
Proof. split; reflexivity. Qed.
(** the reason why a statistical test refuses cannot be read: what() points into a destroyed string, which held the test's
    name and the reason, in this order *)
Theorem C124_reason_refuted : forall test reason, read_cstring (what (NotApplicable test reason)) = UB Dangling /\
  what (NotApplicable test reason) = Destroyed (test ++ " is not applicable. " ++ reason).
Proof. split; reflexivity. Qed.
Example C124_case : read_cstring (what (NotApplicable "Paired t test" "Variance is 0.")) = UB Dangling.
Proof. reflexivity. Qed.
Print Assumptions C124_fixed_texts.
Print Assumptions C124_reason_refuted.
