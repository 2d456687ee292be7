(** C133: loading a model file that is missing, empty or cut off. *)
From Coq Require Import String Ascii ZArith QArith Bool Lia List.
From Verif Require Import Base Spec BaseLemmas AttrModel DataSetModel DataSetSpec InstanceListModel TreeModel GaussianModel SvmModel NetModel
  DistanceModel DataFileProofs SerialModel SerialSpec SerialProofs SerialLoadProofs SerialSaveProofs SerialExamples.
Import ListNotations.
Local Open Scope string_scope.
Local Open Scope list_scope.
Local Open Scope nat_scope.

(** ** Vocabulary *)
(** Nothing left to read.  A file that could not be opened is a stream that is not good; an empty file or one with blanks only
    is good. *)
Definition exhausted (s : istr) : Prop := good s = false \/ blank (rest s).
Definition missing_file : istr := mkIn "" false.
Definition file (text : string) : istr := mkIn text true.
(** a reader of the library at the end of the file: it returns something, still at the end, or reads an unset variable itself *)
Definition gentle {A} (r : rd A) : Prop := forall s, exhausted s -> (exists a s', r s = Ok (a, s') /\ exhausted s') \/ exists k, r s = UB k.
Definition undefined {A} (x : res A) : Prop := exists k, x = UB k.

(** ** Streams at the end *)
Lemma formatted_end {A} (old : A) scan s : exhausted s -> exists s', formatted old scan s = Ok (old, s') /\ exhausted s'.
Proof.
  destruct s as [t g]. intros H. destruct g.
  - destruct H as [H|H]; [discriminate H|]. exists failed. split; [exact (formatted_blank old scan t H)|left; reflexivity].
  - exists (mkIn t false). split; [apply formatted_failed; reflexivity|left; reflexivity].
Qed.
Lemma cut_blank t : blank t -> match snd (cut_line t) with Some r => blank r | None => True end.
Proof.
  unfold blank. induction t as [|c t IH]; cbn [cut_line all_chars]; intros H; [exact I|]. apply andb_true_iff in H. destruct H as [_ H].
  destruct (Ascii.eqb c nl); [exact H|]. specialize (IH H). destruct (cut_line t) as [a b]. exact IH.
Qed.
Lemma line_end old s : exhausted s -> exists l s', rd_line old s = Ok (l, s') /\ exhausted s'.
Proof.
  destruct s as [t g]. intros H. unfold rd_line. cbn [good rest]. destruct g; [|exists old, (mkIn t false); split; [reflexivity|left; reflexivity]].
  destruct H as [H|H]; [discriminate H|]. cbn [rest] in H. pose proof (cut_blank t H) as C. destruct (cut_line t) as [l [r|]].
  - exists l, (mkIn r true). split; [reflexivity|right; exact C].
  - exists l, failed. split; [reflexivity|left; reflexivity].
Qed.
Lemma ignore_end s : exhausted s -> exists s', rd_ignore s = Ok (tt, s') /\ exhausted s'.
Proof.
  destruct s as [t g]. intros H. unfold rd_ignore. cbn [good rest]. destruct g; [|exists (mkIn t false); split; [reflexivity|left; reflexivity]].
  destruct H as [H|H]; [discriminate H|]. cbn [rest] in H. destruct t as [|c t]; [exists failed; split; [reflexivity|left; reflexivity]|].
  exists (mkIn t true). split; [reflexivity|right]. unfold blank in *. cbn [all_chars] in H. apply andb_true_iff in H. exact (proj2 H).
Qed.
Lemma int_end old s : exhausted s -> exists s', rd_int old s = Ok (old, s') /\ exhausted s'.
Proof. apply formatted_end. Qed.
Lemma unset_size {B} (k : option Z -> Z -> rd B) s : exhausted s -> undefined (rbind (rd_int None) (fun o => rbind (init o) (k o)) s).
Proof.
  intros H. destruct (int_end None s H) as (s1 & E & _). rewrite (rbind_ok _ _ _ _ _ E). exists Uninit. reflexivity.
Qed.
Lemma list_end words split stof s : exhausted s -> undefined (list_read words split stof s).
Proof.
  intros H. unfold list_read. destruct (ignore_end s H) as (s1 & E1 & H1). rewrite (rbind_ok _ _ _ _ _ E1).
  destruct (line_end "" s1 H1) as (l & s2 & E2 & H2). rewrite (rbind_ok _ _ _ _ _ E2). cbv zeta. apply unset_size, H2.
Qed.
Lemma node_end stof r_dist fuel s : exhausted s -> undefined (node_read stof r_dist (S fuel) s).
Proof.
  intros H. cbn [node_read]. unfold cond_read.
  destruct (int_end (Some (-1)%Z) s H) as (s1 & E1 & H1).
  destruct (@formatted_end (option ascii) None (fun t => match t with String c r => (Some c, mkIn r true) | "" => (None, failed) end) s1 H1) as (s2 & E2 & H2).
  destruct (@formatted_end string "" (fun t => let (w, r) := span (fun c => negb (is_ws c)) t in (w, upto r)) s2 H2) as (s3 & E3 & H3).
  erewrite rbind_ok.
  2: { rewrite (rbind_ok _ _ _ _ _ E1). rewrite (rbind_ok (init (Some (-1)%Z)) _ s1 (-1)%Z s1 eq_refl).
       rewrite (rbind_ok (rd_char None) _ _ _ _ E2). rewrite (rbind_ok (rd_tok "") _ _ _ _ E3).
       change (-1 =? -1)%Z with true. cbv iota. reflexivity. }
  apply unset_size, H3.
Qed.
Lemma labels_end n : forall c acc s, exhausted s -> exists s', rd_loop n read_label (c, acc) s = Ok ((c, acc ++ repeat c n), s') /\ exhausted s'.
Proof.
  induction n as [|n IH]; intros c acc s H; cbn [rd_loop].
  - exists s. rewrite app_nil_r. split; [reflexivity|exact H].
  - destruct (@formatted_end string c (fun t => let (w, r) := span (fun c => negb (is_ws c)) t in (w, upto r)) s H) as (s1 & E1 & H1).
    assert (read_label (c, acc) s = Ok ((c, acc ++ [c]), s1)) as E. { unfold read_label. cbn [fst snd]. rewrite (rbind_ok (rd_tok c) _ _ _ _ E1). reflexivity. }
    rewrite (rbind_ok _ _ _ _ _ E). destruct (IH c (acc ++ [c]) s1 H1) as (s2 & E2 & H2). exists s2. split; [|exact H2].
    rewrite E2, <- app_assoc. reflexivity.
Qed.
Lemma rd_loop_add {S} (f : S -> rd S) a b : forall s i, rd_loop (a + b) f s i = rbind (rd_loop a f s) (rd_loop b f) i.
Proof.
  induction a as [|a IH]; intros s i; cbn [Nat.add rd_loop]; [reflexivity|]. unfold rbind at 1. destruct (f s i) as [[s' i']| | |] eqn:E.
  - cbn [bind fst snd]. rewrite IH. unfold rbind. rewrite E. reflexivity.
  - unfold rbind. rewrite E. reflexivity.
  - unfold rbind. rewrite E. reflexivity.
  - unfold rbind. rewrite E. reflexivity.
Qed.

(** ** C133: nothing to read *)
(** Loading a model from a file that does not exist, is empty or holds only blanks does not fail: every loader that reads a
    count reads it into an unset variable and goes on with that. *)
Theorem C133_nothing_refuted : forall words split stof scan r_dist s, exhausted s ->
  (forall sd old, undefined (random_load sd old s)) /\
  (forall old, undefined (knn_load words split stof old s)) /\
  (gentle r_dist -> forall old, undefined (kmeans_load words split stof r_dist old s)) /\
  undefined (tree_load stof r_dist s) /\
  (forall old, undefined (ensemble_load stof r_dist old s)) /\
  (gentle r_dist -> undefined (svm_load scan r_dist s)) /\
  (forall d old, undefined (net_load None d old s)).
Proof.
  intros words split stof scan r_dist s H. repeat split.
  - intros sd old. unfold random_load. destruct (int_end sd s H) as (s1 & E1 & H1). rewrite (rbind_ok _ _ _ _ _ E1). apply unset_size, H1.
  - intros old. unfold knn_load. destruct (int_end old s H) as (s1 & E1 & H1). rewrite (rbind_ok _ _ _ _ _ E1).
    destruct (list_end words split stof s1 H1) as [k E]. exists k. unfold rbind. rewrite E. reflexivity.
  - intros G old. unfold kmeans_load, prior_load. destruct (G s H) as [(a & s1 & E1 & H1)|[k E]].
    + rewrite (rbind_ok _ _ _ _ _ E1). destruct (list_end words split stof s1 H1) as [k E]. exists k. unfold rbind. rewrite E. reflexivity.
    + exists k. unfold rbind. rewrite E. reflexivity.
  - unfold tree_load. apply node_end, H.
  - intros old. unfold ensemble_load. apply unset_size, H.
  - intros G. unfold svm_load. destruct (int_end None s H) as (s1 & E1 & H1). rewrite (rbind_ok _ _ _ _ _ E1).
    destruct (int_end None s1 H1) as (s2 & E2 & H2). rewrite (rbind_ok _ _ _ _ _ E2). destruct (G s2 H2) as [(a & s3 & E3 & H3)|[k E]].
    + rewrite (rbind_ok _ _ _ _ _ E3). destruct (int_end None s3 H3) as (s4 & E4 & H4). rewrite (rbind_ok _ _ _ _ _ E4). exists Uninit. reflexivity.
    + exists k. unfold rbind. rewrite E. reflexivity.
  - intros d old. unfold net_load. destruct (int_end None s H) as (s1 & E1 & H1). rewrite (rbind_ok _ _ _ _ _ E1).
    destruct (int_end d s1 H1) as (s2 & E2 & H2). rewrite (rbind_ok _ _ _ _ _ E2). exists Uninit. reflexivity.
Qed.
Print Assumptions C133_nothing_refuted.
Example C133_nothing_case : exhausted missing_file /\ exhausted (file "") /\ exhausted (file (String " " (String nl ""))) /\ ~ exhausted (file "7") /\
  random_load (Some 3%Z) ["a"] missing_file = UB Uninit /\ random_load (Some 3%Z) ["a"] (file "") = UB Uninit.
Proof.
  split; [left; reflexivity|]. split; [right; reflexivity|]. split; [right; reflexivity|]. split; [intros [H|H]; discriminate H|].
  split; reflexivity.
Qed.

(** A network that was trained keeps its class count, so the same load is silent: it adds that many empty class labels. *)
Theorem C133_network_refuted : forall k d old s, exhausted s -> (0 <= k)%Z ->
  exists s', net_load (Some k) d old s = Ok (old ++ repeat "" (Z.to_nat k), s').
Proof.
  intros k d old s H Hk. unfold net_load. destruct (int_end (Some k) s H) as (s1 & E1 & H1). rewrite (rbind_ok _ _ _ _ _ E1).
  destruct (int_end d s1 H1) as (s2 & E2 & H2). rewrite (rbind_ok _ _ _ _ _ E2). unfold rbind at 1. cbn [init rlift bind fst snd].
  destruct (labels_end (Z.to_nat k) "" old s2 H2) as (s3 & E3 & _). exists s3. rewrite (rbind_ok _ _ _ _ _ E3). reflexivity.
Qed.
Print Assumptions C133_network_refuted.
Example C133_network_case : net_load (Some 2%Z) (Some 4%Z) ["no"; "yes"] missing_file = Ok (["no"; "yes"; ""; ""], missing_file).
Proof. reflexivity. Qed.

(** ** C133: files cut off *)
(** the head of a random-*.txt file announcing [n] labels, and the first labels *)
Definition random_cut (seed : Z) (n : nat) (labels : list string) : string :=
  (line (show_Z seed) ++ line (show_nat n) ++ concat_str (map line labels))%string.
Lemma random_cut_state sd old seed n labels rst : is_int seed -> is_int (Z.of_nat n) -> Forall word labels -> List.length labels <= n ->
  exists w, blank w /\ random_load sd old (file (random_cut seed n labels ++ rst)) =
    rbind (rd_loop (n - List.length labels) read_label (last labels "", old ++ labels)) (fun st => rret (Some seed, snd st)) (file (w ++ rst)%string).
Proof.
  intros Hs Hn Hl Len. unfold random_load, random_cut, file. rewrite !sapp_assoc.
  destruct (reads_int_line sd seed Hs "" (line (show_nat n) ++ concat_str (map line labels) ++ rst)%string eq_refl) as (w1 & B1 & E1).
  cbn [String.append] in E1. rewrite (rbind_ok _ _ _ _ _ E1).
  destruct (reads_nat_line None n Hn w1 (concat_str (map line labels) ++ rst)%string B1) as (w2 & B2 & E2). rewrite (rbind_ok _ _ _ _ _ E2).
  unfold rbind at 1. cbn [init rlift bind fst snd]. rewrite to_nat_of.
  destruct (reads_labels labels "" old Hl w2 rst B2) as (w3 & B3 & E3). exists w3. split; [exact B3|].
  replace n with (List.length labels + (n - List.length labels)) at 1 by lia.
  unfold rbind at 1. rewrite rd_loop_add, (rbind_ok _ _ _ _ _ E3).
  assert (forall c acc, fold_left (fun (st : string * list string) l => (l, snd st ++ [l])) labels (c, acc) = (last labels c, acc ++ labels)) as F.
  { clear. induction labels as [|l ls IH]; intros c acc; cbn [fold_left]; [rewrite app_nil_r; reflexivity|]. rewrite IH. cbn [snd]. rewrite <- app_assoc.
    f_equal. destruct ls as [|l' ls]; [reflexivity|]. change (last (l :: l' :: ls) c) with (last (l' :: ls) c). clear. revert l'. induction ls as [|y ls IH]; intros l'; [reflexivity|].
    exact (IH y). }
  rewrite F. reflexivity.
Qed.
(** The labels that are missing are replaced by copies of the last one in the file, without any error. *)
Theorem C133_labels_refuted : forall sd old seed n labels w, is_int seed -> is_int (Z.of_nat n) -> Forall word labels -> List.length labels <= n -> blank w ->
  exists s, random_load sd old (file (random_cut seed n labels ++ w)) = Ok ((Some seed, old ++ labels ++ repeat (last labels "") (n - List.length labels)), s).
Proof.
  intros sd old seed n labels w Hs Hn Hl Len Hw. destruct (random_cut_state sd old seed n labels w Hs Hn Hl Len) as (w3 & B3 & E). rewrite E.
  destruct (labels_end (n - List.length labels) (last labels "") (old ++ labels) (file (w3 ++ w)%string)) as (s' & E' & _).
  { right. apply blank_app; assumption. }
  exists s'. rewrite (rbind_ok _ _ _ _ _ E'). rewrite <- app_assoc. reflexivity.
Qed.
Print Assumptions C133_labels_refuted.
(** The same when the file ends inside a label: the part that is there counts as the label, and is repeated. *)
Theorem C133_half_label_refuted : forall sd old seed n labels t, is_int seed -> is_int (Z.of_nat n) -> Forall word labels -> List.length labels < n -> word t ->
  exists s, random_load sd old (file (random_cut seed n labels ++ t)) = Ok ((Some seed, old ++ labels ++ repeat t (n - List.length labels)), s).
Proof.
  intros sd old seed n labels t Hs Hn Hl Len Ht. destruct (random_cut_state sd old seed n labels t Hs Hn Hl ltac:(lia)) as (w3 & B3 & E). rewrite E.
  destruct (n - List.length labels) as [|m] eqn:Em; [lia|]. cbn [rd_loop].
  assert (read_label (last labels "", old ++ labels) (file (w3 ++ t)%string) = Ok ((t, (old ++ labels) ++ [t]), mkIn "" false)) as E1.
  { unfold read_label, file. cbn [fst snd]. rewrite <- (sapp_nil t) at 1. unfold rd_tok. unfold rbind. rewrite (formatted_word _ _ _ _ _ B3 Ht).
    rewrite sapp_nil, (span_all _ _ (proj2 Ht)). reflexivity. }
  unfold rbind at 1 2. rewrite E1. cbn [bind fst snd].
  destruct (labels_end m t ((old ++ labels) ++ [t]) (mkIn "" false)) as (s' & E' & _); [left; reflexivity|]. exists s'. rewrite E'. cbn [bind fst snd].
  unfold rret. rewrite <- !app_assoc. reflexivity.
Qed.
Print Assumptions C133_half_label_refuted.
Example C133_labels_case : random_load None [] (file (random_cut 1 4 ["no"; "maybe"])) = Ok ((Some 1%Z, ["no"; "maybe"; "maybe"; "maybe"]), mkIn "" false) /\
  random_load None [] (file (random_cut 1 3 ["no"] ++ "ye")) = Ok ((Some 1%Z, ["no"; "ye"; "ye"]), mkIn "" false).
Proof. split; reflexivity. Qed.

(** *** rows *)
(** a data file announcing [n] rows of which only [rows] are there *)
Definition rows_cut (cols : list column) (n : nat) (rows : list row) : string :=
  (line (types_line cols) ++ line (show_nat n) ++ concat_str (map (fun r => line (join "," (fst r ++ [snd r]))) rows))%string.
Lemma rows_cut_state words split stof cols n rows xs rst : words_ok words -> split_ok split "," -> is_int (Z.of_nat n) -> List.length rows <= n ->
  Forall2 (row_instance stof cols) rows xs -> Forall (fun r => Forall clean_cell (fst r ++ [snd r])) rows ->
  exists l, list_read words split stof (mkIn (String nl (rows_cut cols n rows ++ rst))%string true) =
    rbind (rd_loop (n - List.length rows) (read_row split stof (map column_word cols)) (l, xs)) (fun st => rret (snd st)) (file rst).
Proof.
  intros Hw Hs Hn Len H Hc. unfold list_read, rows_cut. unfold rbind at 1. cbn [rd_ignore good SerialModel.rest bind fst snd].
  unfold line at 1. rewrite !sapp_assoc. cbn [String.append].
  set (tl := (concat_str (map (fun r => line (join "," (fst r ++ [snd r]))) rows) ++ rst)%string).
  set (body := (line (show_nat n) ++ tl)%string).
  rewrite (rbind_ok (rd_line "") _ _ (types_line cols) (mkIn body true)).
  2: { unfold rd_line. cbn [good SerialModel.rest]. rewrite (cut_line_at _ _ (types_line_nl cols)). reflexivity. }
  cbv zeta. rewrite (Hw cols).
  rewrite (rbind_ok (rd_int None) _ _ (Some (Z.of_nat n)) (mkIn (String nl tl) true)).
  2: { unfold body, line. rewrite !sapp_assoc. cbn [String.append]. apply (int_shown None "" (Z.of_nat n) nl tl); [reflexivity|reflexivity|exact Hn]. }
  unfold rbind at 1. cbn [init rlift bind fst snd]. unfold rbind at 1. cbn [rd_ignore good SerialModel.rest bind fst snd]. rewrite to_nat_of.
  destruct (rd_loop_rows split stof cols rows xs Hs H Hc (types_line cols) [] rst) as (l & E). fold tl in E. exists l.
  replace n with (List.length rows + (n - List.length rows)) at 1 by lia. unfold rbind at 1. rewrite rd_loop_add, (rbind_ok _ _ _ _ _ E). reflexivity.
Qed.
(** a row whose text is the current line, however the line was read *)
Lemma row_of_line split stof cols r x l0 acc s s' : split_ok split "," -> row_instance stof cols r x -> Forall clean_cell (fst r ++ [snd r]) ->
  rd_line l0 s = Ok (join "," (fst r ++ [snd r]), s') ->
  read_row split stof (map column_word cols) (l0, acc) s = Ok ((join "," (fst r ++ [snd r]), acc ++ [x]), s').
Proof.
  intros [Hsp _] (Hlab & Hcomp & Len & Hx) Hcl E. unfold read_row. cbn [fst snd]. rewrite (rbind_ok _ _ _ _ _ E). cbv zeta.
  assert (split (join "," (fst r ++ [snd r])) "," = fst r ++ [snd r]) as Es.
  { apply Hsp; [destruct (fst r); discriminate|]. apply (Forall_impl _ (fun s (h : clean_cell s) => conj (proj1 h) (proj1 (proj2 h))) Hcl). }
  rewrite Es. unfold rbind, rlift. rewrite (read_cells_ok stof cols 0 (fst r ++ [snd r]) [] (fst r) [snd r] (attrs x) eq_refl eq_refl Len Hx). cbn [bind fst snd].
  unfold idxn. rewrite map_length, <- Len, nth_error_app2, Nat.sub_diag by lia. cbn [nth_error bind fst snd]. unfold rret.
  destruct x as [lx ax cx]. simpl in *. subst. reflexivity.
Qed.
Lemma rows_repeat split stof cols r x : split_ok split "," -> row_instance stof cols r x -> Forall clean_cell (fst r ++ [snd r]) ->
  forall m acc, rd_loop m (read_row split stof (map column_word cols)) (join "," (fst r ++ [snd r]), acc) failed =
    Ok ((join "," (fst r ++ [snd r]), acc ++ repeat x m), failed).
Proof.
  intros Hs Hr Hc. induction m as [|m IH]; intros acc; cbn [rd_loop repeat]; [rewrite app_nil_r; reflexivity|].
  rewrite (rbind_ok _ _ _ _ _ (row_of_line split stof cols r x _ acc failed failed Hs Hr Hc eq_refl)). rewrite IH, <- app_assoc. reflexivity.
Qed.
Lemma cut_line_none t : has_char nl t = false -> cut_line t = (t, None).
Proof.
  induction t as [|c t IH]; cbn [cut_line has_char]; [reflexivity|]. intros H. apply orb_false_iff in H. destruct H as [Hc Ht].
  destruct (Ascii.eqb_spec c nl) as [->|_]; [discriminate Hc|]. rewrite (IH Ht). reflexivity.
Qed.
(** a knn-*.txt file announcing [n] rows *)
Definition knn_cut (k : Z) (cols : list column) (n : nat) (rows : list row) : string := (line (show_Z k) ++ rows_cut cols n rows)%string.
Lemma knn_cut_state words split stof old k cols n rows xs rst : is_int k -> words_ok words -> split_ok split "," -> is_int (Z.of_nat n) -> List.length rows <= n ->
  Forall2 (row_instance stof cols) rows xs -> Forall (fun r => Forall clean_cell (fst r ++ [snd r])) rows ->
  exists l, knn_load words split stof old (file (knn_cut k cols n rows ++ rst)) =
    do p <- rd_loop (n - List.length rows) (read_row split stof (map column_word cols)) (l, xs) (file rst); Ok ((Some k, snd (fst p)), snd p).
Proof.
  intros Hk Hw Hs Hn Len H Hc. destruct (rows_cut_state words split stof cols n rows xs rst Hw Hs Hn Len H Hc) as (l & E). exists l.
  unfold knn_load, knn_cut, file, line at 1. rewrite !sapp_assoc. cbn [String.append].
  rewrite (rbind_ok _ _ _ _ _ (int_shown old "" k nl (rows_cut cols n rows ++ rst)%string eq_refl eq_refl Hk)).
  unfold rbind at 1. rewrite E. unfold rbind, file. destruct (rd_loop _ _ _ _) as [[]| | |]; reflexivity.
Qed.
(** Cut inside a row so that cells are missing, or at the end of a row (an empty line, which has no label), the load has no
    defined result: it indexes past the cells, unless stof throws before. *)
Theorem C133_short_row : forall words split stof old k cols n rows xs t, is_int k -> words_ok words -> split_ok split "," -> is_int (Z.of_nat n) -> List.length rows < n ->
  Forall2 (row_instance stof cols) rows xs -> Forall (fun r => Forall clean_cell (fst r ++ [snd r])) rows ->
  has_char nl t = false -> List.length (split t ",") <= List.length cols ->
  forall p, knn_load words split stof old (file (knn_cut k cols n rows ++ t)) <> Ok p.
Proof.
  intros words split stof old k cols n rows xs t Hk Hw Hs Hn Len H Hc Ht Hlt p.
  destruct (knn_cut_state words split stof old k cols n rows xs t Hk Hw Hs Hn ltac:(lia) H Hc) as (l & E). rewrite E. clear E.
  destruct (n - List.length rows) as [|m] eqn:Em; [lia|]. cbn [rd_loop]. unfold rbind at 1.
  enough (forall q, read_row split stof (map column_word cols) (l, xs) (file t) <> Ok q) as N.
  { destruct (read_row _ _ _ _ _) as [q| | |]; [exfalso; exact (N q eq_refl)|discriminate|discriminate|discriminate]. }
  intros q. unfold read_row, rd_line, file. unfold rbind at 1. cbn [good rest fst snd]. rewrite (cut_line_none _ Ht). cbn [bind fst snd]. cbv zeta. unfold rbind, rlift.
  destruct (read_cells _ _ _ _) as [cs| | |]; cbn [bind fst snd]; try discriminate.
  unfold idxn. assert (nth_error (split t ",") (List.length (map column_word cols)) = None) as ->; [|discriminate].
  apply nth_error_None. rewrite map_length. exact Hlt.
Qed.
Print Assumptions C133_short_row.
Theorem C133_rows : forall words split stof old k cols n rows xs, is_int k -> words_ok words -> split_ok split "," -> is_int (Z.of_nat n) -> List.length rows < n -> cols <> [] ->
  Forall2 (row_instance stof cols) rows xs -> Forall (fun r => Forall clean_cell (fst r ++ [snd r])) rows ->
  forall p, knn_load words split stof old (file (knn_cut k cols n rows)) <> Ok p.
Proof.
  intros words split stof old k cols n rows xs Hk Hw Hs Hn Len Hcols H Hc p.
  pose proof (C133_short_row words split stof old k cols n rows xs "" Hk Hw Hs Hn Len H Hc eq_refl) as S0. rewrite sapp_nil in S0. apply S0.
  destruct Hs as [_ Hs]. destruct cols; [congruence|]. simpl. lia.
Qed.
Print Assumptions C133_rows.
(** Cut without the newline of the last row that is there, that row is loaded again for every row that is missing: the model is
    built from data nobody supplied. *)
Theorem C133_open_row_refuted : forall words split stof old k cols n rows xs r x, is_int k -> words_ok words -> split_ok split "," -> is_int (Z.of_nat n) -> List.length rows < n ->
  Forall2 (row_instance stof cols) rows xs -> Forall (fun r => Forall clean_cell (fst r ++ [snd r])) rows -> row_instance stof cols r x -> Forall clean_cell (fst r ++ [snd r]) ->
  exists s, knn_load words split stof old (file (knn_cut k cols n rows ++ join "," (fst r ++ [snd r]))) = Ok ((Some k, xs ++ repeat x (n - List.length rows)), s).
Proof.
  intros words split stof old k cols n rows xs r x Hk Hw Hs Hn Len H Hc Hr Hcr.
  destruct (knn_cut_state words split stof old k cols n rows xs (join "," (fst r ++ [snd r])) Hk Hw Hs Hn ltac:(lia) H Hc) as (l & E). rewrite E. clear E.
  exists failed. destruct (n - List.length rows) as [|m] eqn:Em; [lia|]. cbn [rd_loop].
  assert (rd_line l (file (join "," (fst r ++ [snd r]))) = Ok (join "," (fst r ++ [snd r]), failed)) as El.
  { unfold rd_line, file. cbn [good rest]. rewrite (cut_line_none _ (join_nl _ Hcr)). reflexivity. }
  rewrite (rbind_ok _ _ _ _ _ (row_of_line split stof cols r x l xs _ _ Hs Hr Hcr El)). rewrite (rows_repeat split stof cols r x Hs Hr Hcr m).
  cbn [bind fst snd repeat]. rewrite <- app_assoc. reflexivity.
Qed.
Print Assumptions C133_open_row_refuted.
Definition rows_ex : list row := [(["red"; "4"], "yes")].
Definition insts_ex : ilist := [mkInst "yes" [ADisc "red"; ACont (Fin 4)] None].
Example C133_rows_case :
  knn_load words_ex split_ex stof_ex None (file (knn_cut 1 [CDisc; CCont] 3 rows_ex)) = UB BadIndex /\
  knn_load words_ex split_ex stof_ex None (file (knn_cut 1 [CDisc; CCont] 3 rows_ex ++ "blue,-7")) = UB BadIndex /\
  knn_load words_ex split_ex stof_ex None (file (knn_cut 1 [CDisc; CCont] 3 rows_ex ++ "blue,-7,no")) =
    Ok ((Some 1%Z, insts_ex ++ repeat (mkInst "no" [ADisc "blue"; ACont (Fin (-7))] None) 2), failed).
Proof. repeat split; vm_compute; reflexivity. Qed.

(** *** ensembles *)
(** Fewer trees than announced: the next tree is read from nothing. *)
Theorem C133_trees_refuted : forall stof r_dist t_dist num old n f w, Forall (storable stof num) f -> Forall (fun d => written_read t_dist r_dist d d) (flat_map leaf_dists f) ->
  is_int (Z.of_nat n) -> List.length f < n -> blank w ->
  undefined (ensemble_load stof r_dist old (file (line (show_nat n) ++ concat_str (map (tree_layout t_dist num) f) ++ w))).
Proof.
  intros stof r_dist t_dist num old n f w Hs Hd Hn Len Hw. unfold ensemble_load, file.
  destruct (reads_nat_line None n Hn "" (concat_str (map (tree_layout t_dist num) f) ++ w)%string eq_refl) as (w1 & B1 & E1). cbn [String.append] in E1.
  rewrite (rbind_ok _ _ _ _ _ E1). unfold rbind at 1. cbn [init rlift bind fst snd]. rewrite to_nat_of.
  replace n with (List.length f + S (n - S (List.length f))) by lia. rewrite rd_loop_add.
  assert (reads (rd_loop (List.length f) (fun acc => rdo t <- tree_load stof r_dist; rret (acc ++ [t])) old) (concat_str (map (tree_layout t_dist num) f)) (old ++ map loaded f)) as R.
  { apply reads_snoc. intros t Ht. apply tree_reads.
    - exact (proj1 (Forall_forall _ _) Hs t Ht).
    - apply Forall_forall. intros e He. apply (proj1 (Forall_forall _ _) Hd). apply in_flat_map. exists t. auto. }
  destruct (R w1 w B1) as (w2 & B2 & E2). rewrite (rbind_ok _ _ _ _ _ E2). cbn [rd_loop].
  assert (undefined (tree_load stof r_dist (mkIn (w2 ++ w)%string true))) as [k U]. { unfold tree_load. apply node_end. right. apply blank_app; assumption. }
  exists k. unfold rbind. rewrite U. reflexivity.
Qed.
Print Assumptions C133_trees_refuted.
Definition leaf_ex : tree := Node "yes" true [("yes", 2)] no_condition [].
Example C133_trees_case : gentle r_dist_ex /\
  ensemble_load stof_ex r_dist_ex [] (file (line (show_nat 2) ++ concat_str (map (tree_layout w_dist_ex num_ex) [leaf_ex]) ++ "")) = UB Uninit.
Proof.
  split; [|vm_compute; reflexivity]. intros s H. left. unfold r_dist_ex.
  destruct (int_end (Some 0%Z) s H) as (s1 & E & H1). exists [], s1. split; [rewrite (rbind_ok _ _ _ _ _ E); reflexivity|exact H1].
Qed.
