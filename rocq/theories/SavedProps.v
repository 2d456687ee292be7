(** C160: what the saved file of a tree or a network says. *)
From Coq Require Import String Ascii ZArith QArith Bool Lia List.
From Verif Require Import Base BaseLemmas DblLemmas AttrModel InstanceListModel TreeModel TreeSpec TreeProofs TreeGrowProofs TreePredictProofs TreeProps DataSetModel DataSetSpec SerialModel SerialSpec SerialProofs SerialLoadProofs SerialTextProps SavedSpec SavedProofs.
Import ListNotations.
Local Open Scope string_scope.
Local Open Scope list_scope.
Local Open Scope nat_scope.

(** A tree is written line by line: for every node its condition, the number of its children, and the label of a leaf or the children. *)
Theorem C160_tree : forall fmt t, writable fmt t -> exists text, tree_text fmt t = Ok text /\ lines text = tree_lines fmt t.
Proof.
  intros fmt t W. destruct (tree_written fmt t W) as (s & E & L). exists s. split; [exact E|]. specialize (L ""). rewrite sapp_nil in L. rewrite L. apply app_nil_r.
Qed.
(** A forest: the number of trees, then the trees. *)
Theorem C160_forest : forall fmt f, Forall (writable fmt) f -> exists text, ensemble_text fmt f = Ok text /\ lines text = decimal (length f) :: flat_map (tree_lines fmt) f.
Proof.
  intros fmt f W. assert (exists ts, mapM (tree_text fmt) f = Ok ts /\ forall r, lines (concat_str ts ++ r)%string = flat_map (tree_lines fmt) f ++ lines r) as (ts & E & L).
  { induction W as [|t f Ht _ IH]; [exists []; split; reflexivity|]. destruct IH as (ts & E & L). destruct (tree_written fmt t Ht) as (s & Es & Ls). exists (s :: ts). cbn [mapM]. unfold tree_text at 1. rewrite Es. cbn [bind]. rewrite E. split; [reflexivity|].
    intros r. change (concat_str (s :: ts)) with (s ++ concat_str ts)%string. rewrite sapp_assoc, Ls, L. cbn [flat_map]. rewrite app_assoc. reflexivity. }
  unfold ensemble_text. rewrite E. cbn [bind]. eexists. split; [reflexivity|]. rewrite lines_line by apply decimal_clean. specialize (L ""). rewrite sapp_nil in L. rewrite L, app_nil_r. reflexivity.
Qed.
(** A network: the number of classes, the number of inputs, the labels and no weights; reading it gives back the labels. *)
Theorem C160_network : forall d labels, Forall word labels ->
  lines (net_text (length labels) d labels) = decimal (length labels) :: decimal d :: labels /\
  (is_int (Z.of_nat (length labels)) -> is_int (Z.of_nat d) -> forall k0 d0, exists s, net_load k0 d0 [] (mkIn (net_text (length labels) d labels) true) = Ok (labels, s)).
Proof.
  intros d labels W. split.
  - unfold net_text. rewrite lines_line by apply decimal_clean. rewrite lines_line by apply decimal_clean. f_equal. f_equal. induction W as [|w ls Hw _ IH]; [reflexivity|]. cbn [map]. change (concat_str (line w :: map line ls)) with (line w ++ concat_str (map line ls))%string.
    rewrite lines_line, IH; [reflexivity|]. destruct Hw as [_ H]. clear - H. induction w as [|c w IH]; [reflexivity|]. cbn [all_chars has_char] in *. apply andb_true_iff in H as [H1 H2]. rewrite (IH H2), orb_false_r. destruct (Ascii.eqb_spec c nl) as [->|]; [discriminate H1|reflexivity].
  - intros Hl Hd k0 d0. apply (reads_start (net_load k0 d0 [])). unfold net_load, net_text.
    eapply reads_seq; [apply (reads_nat_line k0 _ Hl)|reflexivity|]. eapply reads_seq; [apply reads_nat_line, Hd|reflexivity|].
    eapply reads_silent; [apply reads_init|]. rewrite to_nat_of. change labels with ([] ++ labels) at 3. rewrite <- (labels_fold labels "" []). apply (reads_last _ (@snd string (list string))). apply reads_labels, W.
Qed.
(** Trees that growing or pruning returns can always be written. *)
Theorem C160_trained : forall fmt max_item entropy mid rarr param stump shape data fuel t l t',
  entropy_finite entropy -> mid_exact mid -> rarr_perm rarr -> tabular shape data -> data <> [] -> length data <= fuel ->
  build entropy mid rarr param stump fuel data no_condition = Ok t -> tabular shape l -> Forall (fun x => isComposite x = true -> possible_labels x <> []) l -> prune max_item t l = Ok t' ->
  exists text, tree_text fmt t = Ok text /\ exists text', tree_text fmt t' = Ok text'.
Proof.
  intros fmt max_item entropy mid rarr param stump shape data fuel t l t' He Hm Hr Ht Hne Hf E Hl Hc Ep.
  destruct (build_ok entropy mid rarr shape He Hm Hr param stump fuel data no_condition Ht Hne Hf) as (t1 & E1 & _ & C1 & F1). rewrite E1 in E. injection E as ->.
  destruct (fits_written fmt shape t F1) as (s & Es); [rewrite C1; reflexivity|]. exists s. split; [exact Es|].
  destruct (prune_node_total max_item shape l Hl Hc t (fun t => t) F1 ltac:(auto)) as (t2 & E2 & F2 & C2). unfold prune in Ep. rewrite E2 in Ep. injection Ep as ->.
  apply (fits_written fmt shape t' F2). rewrite C2, C1. reflexivity.
Qed.
(** The file decides the answers: two grown trees over words (other than the comma) and numbers that are printed differently, with
    the same file, give the same answer to every plain query that ends in a leaf. *)
Theorem C160_enough_partial : forall fmt (P : dbl -> Prop) max_item t t' text x, (forall p q, P p -> P q -> fmt p = fmt q -> p = q) -> unpruned P t -> unpruned P t' -> writable fmt t -> writable fmt t' ->
  tree_text fmt t = Ok text -> tree_text fmt t' = Ok text -> isComposite x = false -> covered t x = true ->
  covered t' x = true /\ tree_predict max_item t x = tree_predict max_item t' x.
Proof.
  intros fmt P max_item t t' text x Inj U U' W W' E E' Hx C. destruct (C160_tree fmt t W) as (s & Es & Ls). destruct (C160_tree fmt t' W') as (s' & Es' & Ls').
  rewrite E in Es. rewrite E' in Es'. injection Es as <-. injection Es' as <-. rewrite Ls in Ls'.
  destruct (tree_decides fmt P Inj t t' [] [] U U') as [S _]; [rewrite Ls'; reflexivity|].
  assert (C' : covered t' x = true) by (rewrite <- seen_covered, <- S, seen_covered; exact C). split; [exact C'|].
  unfold tree_predict. rewrite (proj1 (seen_answers P max_item x Hx t U C)), (proj1 (seen_answers P max_item x Hx t' U' C')), S. reflexivity.
Qed.
(** Numbers that are printed the same way (std::to_string stops after six digits): the files agree, the answers do not. *)
Definition cut_at (a : attr) (b : cmp) (lab : string) : tree := Node lab true [(lab, 1)] (mkCond 0 b (Some a)) [].
Theorem C160_rounded_refuted : forall fmt p q, (p < q)%Q -> fmt (Fin p) = fmt (Fin q) -> exists t t' text x, tree_text fmt t = Ok text /\ tree_text fmt t' = Ok text /\ forall max_item, tree_predict max_item t x = Ok "no" /\ tree_predict max_item t' x = Ok "yes".
Proof.
  intros fmt p q L E. exists (Node "yes" false [] no_condition [cut_at (ACont (Fin p)) CLt "yes"; cut_at (ACont (Fin p)) CGt "no"]), (Node "yes" false [] no_condition [cut_at (ACont (Fin q)) CLt "yes"; cut_at (ACont (Fin q)) CGt "no"]).
  eexists. exists (mkInst "?" [ACont (Fin q)] None). split; [reflexivity|]. split.
  - cbn. rewrite E. reflexivity.
  - intros max_item. split.
    + assert (dleb (Fin q) (Fin p) = false) as A by (apply dleb_fin_false, L). assert (dgtb (Fin q) (Fin p) = true) as B by (apply dltb_fin, L).
      unfold tree_predict, cut_at. cbn -[dleb dgtb]. rewrite A. cbn -[dleb dgtb]. rewrite B. reflexivity.
    + assert (dleb (Fin q) (Fin q) = true) as A by (apply dleb_fin, Qle_refl). unfold tree_predict, cut_at. cbn -[dleb dgtb]. rewrite A. reflexivity.
Qed.
(** Indexed features: the index is not written at all.  Two stumps trained on different data have the same file and different answers. *)
Definition paint (c : string) (i : Z) (w : string) : instance := mkInst c [AIdx w i 3] None.
Theorem C160_indexed_refuted : exists t t' text x, stump_train ex_entropy ex_mid ex_rarr 5 [paint "a" 0 "red"; paint "b" 1 "green"; paint "b" 2 "blue"] = Ok t /\
  stump_train ex_entropy ex_mid ex_rarr 5 [paint "b" 0 "red"; paint "a" 1 "green"; paint "b" 2 "blue"] = Ok t' /\
  (forall fmt, tree_text fmt t = Ok text /\ tree_text fmt t' = Ok text) /\ lines text = ["-1"; "2"; "0"; "="; ""; "0"; "a"; "0"; "="; ""; "0"; "b"] /\
  forall max_item, tree_predict max_item t x = Ok "a" /\ tree_predict max_item t' x = Ok "b".
Proof.
  do 2 eexists. exists (concat_str (map line ["-1"; "2"; "0"; "="; ""; "0"; "a"; "0"; "="; ""; "0"; "b"])), (paint "?" 0 "red"). split; [vm_compute; reflexivity|]. split; [vm_compute; reflexivity|]. split; [intros fmt; split; vm_compute; reflexivity|]. split; [vm_compute; reflexivity|]. intros; split; reflexivity.
Qed.
(** The word "," is written as "comma". *)
Theorem C160_comma_refuted : exists t t' text x, (forall fmt, tree_text fmt t = Ok text /\ tree_text fmt t' = Ok text) /\ forall max_item, tree_predict max_item t x = Ok "a" /\ tree_predict max_item t' x = Ok "b".
Proof.
  exists (Node "b" false [] no_condition [cut_at (ADisc ",") CEq "a"; cut_at (ADisc "dot") CEq "b"]), (Node "b" false [] no_condition [cut_at (ADisc "comma") CEq "a"; cut_at (ADisc "dot") CEq "b"]).
  exists (concat_str (map line ["-1"; "2"; "0"; "="; "Discrete"; "comma"; "0"; "a"; "0"; "="; "Discrete"; "dot"; "0"; "b"])), (mkInst "?" [ADisc ","] None). split; [intros fmt; split; vm_compute; reflexivity|]. intros; split; reflexivity.
Qed.
(** Reading a condition on an index: the layout of the shipped files has the sign ":"; a value that does not start with a number is refused, and so is a number that is not an int. *)
Theorem C160_index : forall stof i t m, is_int (Z.of_nat i) -> is_int (Z.of_nat m) -> word t ->
  let file := mkIn (line (show_nat i) ++ line ":" ++ line t ++ line (show_nat m))%string true in
  (no_integer t -> cond_read stof file = Throw InvalidArgument) /\
  (forall k, is_int k -> t = show_Z k -> exists s, cond_read stof file = Ok (mkCond (Z.of_nat i) CEq (Some (AIdx "" k m)), s)) /\
  (forall k, ~ is_int k -> t = show_Z k -> cond_read stof file = Throw OutOfRange).
Proof.
  intros stof i t m Hi Hm W file. assert (exists s, cond_read stof file = bind (stoi t) (fun k => Ok (mkCond (Z.of_nat i) CEq (Some (AIdx "" k (Z.to_nat (Z.of_nat m)))), s))) as (s & E).
  { destruct (reads_nat_line (Some (-1)%Z) i Hi "" (line ":" ++ line t ++ line (show_nat m))%string eq_refl) as (w1 & B1 & E1).
    destruct (reads_char None ":"%char eq_refl w1 (String nl (line t ++ line (show_nat m)))%string B1) as (w2 & B2 & E2).
    assert (blank (w2 ++ String nl "")) as B2' by (apply blank_app; [exact B2|reflexivity]).
    destruct (reads_tok_line "" t W (w2 ++ String nl "")%string (line (show_nat m))%string B2') as (w3 & B3 & E3).
    destruct (reads_nat_line None m Hm w3 "" B3) as (w4 & B4 & E4). rewrite sapp_nil in E4.
    exists (mkIn (w4 ++ "") true). unfold cond_read. rewrite (rbind_ok _ _ _ _ _ E1). rewrite (rbind_ok (init (Some (Z.of_nat i))) _ _ (Z.of_nat i) _ eq_refl). rewrite (rbind_ok _ _ _ _ _ E2).
    rewrite sapp_assoc in E3. rewrite (rbind_ok _ _ _ _ _ E3). destruct (Z.eqb_spec (Z.of_nat i) (-1)); [lia|]. rewrite (rbind_ok (init (Some ":"%char)) _ _ ":"%char _ eq_refl). change (Ascii.eqb ":" "=") with false. change (Ascii.eqb ":" ":") with true. cbn iota. rewrite (rbind_ok _ _ _ _ _ E4). unfold rbind, rlift. destruct (stoi t); reflexivity. }
  rewrite E. split; [|split].
  - intros Hn. unfold stoi. rewrite <- (sapp_nil t), (skip_ws_word t "" W), sapp_nil. rewrite scan_int_none; [reflexivity|exact Hn|]. destruct W as [W _]. exact W.
  - intros k Hk ->. rewrite (stoi_show k Hk). cbn [bind]. rewrite Nat2Z.id. eauto.
  - intros k Hk ->. unfold stoi. pose proof (skip_ws_word (show_Z k) "" W) as K. rewrite sapp_nil in K. rewrite K, scan_int_show_end.
    assert ((int_max <? k)%Z || (k <? int_min)%Z = true) as ->; [|reflexivity]. apply orb_true_iff. unfold is_int, int_max, int_min in *. rewrite !Z.ltb_lt. lia.
Qed.

(** A tree with a word and a number, and what its file says. *)
Example C160_case : let fmt := fun d : dbl => "2.000000" in let t := Node "yes" false [] no_condition [cut_at (ADisc "red") CEq "yes"; cut_at (ACont (Fin 2)) CGt "no"] in
  writable fmt t /\ unpruned (fun d => d = Fin 2) t /\ tree_lines fmt t = ["-1"; "2"; "0"; "="; "Discrete"; "red"; "0"; "yes"; "0"; ">"; "Continuous"; "2.000000"; "0"; "no"] /\
  lines (net_text 2 4 ["no"; "yes"]) = ["2"; "4"; "no"; "yes"].
Proof.
  cbv zeta. split; [|split; [|split; reflexivity]].
  - assert (writable (fun _ => "2.000000") (cut_at (ADisc "red") CEq "yes")) as A by (constructor; [cbn; lia|reflexivity|intros a E; injection E as <-; reflexivity|constructor]).
    assert (writable (fun _ => "2.000000") (cut_at (ACont (Fin 2)) CGt "no")) as B by (constructor; [cbn; lia|reflexivity|intros a E; injection E as <-; reflexivity|constructor]).
    constructor; [reflexivity|reflexivity|discriminate|]. constructor; [exact A|]. constructor; [exact B|constructor].
  - apply unpruned_inner; [reflexivity|discriminate|]. repeat constructor; cbn; (lia || discriminate).
Qed.

Print Assumptions C160_tree.
Print Assumptions C160_forest.
Print Assumptions C160_network.
Print Assumptions C160_trained.
Print Assumptions C160_enough_partial.
Print Assumptions C160_rounded_refuted.
Print Assumptions C160_indexed_refuted.
Print Assumptions C160_comma_refuted.
Print Assumptions C160_index.
