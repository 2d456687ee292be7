(** C06-C12, C83, C84: data definitions, data sets, data files. *)
From Coq Require Import String Ascii ZArith QArith Bool Lia Arith List.
From Verif Require Import Base Spec BaseLemmas AttrModel AttrProofs DataSetModel DataSetSpec DataSetProofs DataFileProofs.
Import ListNotations.
Local Open Scope string_scope.
Local Open Scope list_scope.
Local Open Scope nat_scope.

(** [offers s l] is the data set after the client offered the instances [l] one by one to addInstance, ignoring
    exceptions; [ds_new d] is a new data set with definition [d] ([ds_empty] with none). *)
Definition ex1 : instance := mkInst "a" [ADisc "red"; ACont (Fin 1)] None.
Definition ex2 : instance := mkInst "b" [ADisc "blue"; ACont (Fin 2)] None.
Definition ex_short : instance := mkInst "b" [ADisc "blue"] None.
Definition ex_bad : instance := mkInst "b" [ACont (Fin 2); ADisc "blue"] None.
Definition ex_long : instance := mkInst "b" [ADisc "blue"; ACont (Fin 2); ACont (Fin 3)] None.

(** * C06 *)
Theorem C06_stored_conform : forall d l,
  Forall (conforms (types (ddef (offers (ds_new d) l)))) (insts (offers (ds_new d) l)).
Proof. intros d l. apply offers_inv. constructor. Qed.
Theorem C06_add_keeps_conformance : forall s x s',
  Forall (conforms (types (ddef s))) (insts s) -> add_instance s x = Ok s' ->
  Forall (conforms (types (ddef s'))) (insts s').
Proof. intros s x s' H E. pose proof (offer_inv s x H) as G. unfold offer in G. rewrite E in G. exact G. Qed.
Example C06_case : insts (offers ds_empty [ex1; ex_bad; ex2; ex_long]) = [ex1; ex2].
Proof. reflexivity. Qed.
Print Assumptions C06_stored_conform.
Print Assumptions C06_add_keeps_conformance.

(** * C07 *)
Theorem C07_arity_refuted : exists l x,
  In x (insts (offers ds_empty l)) /\ attr_count x <> def_count (ddef (offers ds_empty l)).
Proof. exists [ex1; ex_short], ex_short. split; [right; left; reflexivity|discriminate]. Qed.
Theorem C07_arity_at_most_partial : forall d l x,
  In x (insts (offers (ds_new d) l)) -> attr_count x <= def_count (ddef (offers (ds_new d) l)).
Proof.
  intros d l x H. pose proof (C06_stored_conform d l) as F. rewrite Forall_forall in F. apply conforms_length, F, H.
Qed.
(** exactly the shorter prefixes slip through: every proper prefix of a conforming instance is accepted *)
Theorem C07_every_prefix_accepted : forall s x k, def_count (ddef s) <> 0 -> conforms (types (ddef s)) x ->
  add_instance s (mkInst (label x) (firstn k (attrs x)) (composite x)) =
  Ok (mkDS (insts s ++ [mkInst (label x) (firstn k (attrs x)) (composite x)]) (ddef s)).
Proof.
  intros s x k H [r E]. rewrite add_instance_nonempty by exact H.
  assert (conformsb (types (ddef s)) (mkInst (label x) (firstn k (attrs x)) (composite x)) = true) as ->; [|reflexivity].
  apply conformsb_spec. exists (map attr_type (skipn k (attrs x)) ++ r). simpl. rewrite app_assoc, <- map_app, firstn_skipn. exact E.
Qed.
Theorem C07_arity_uniform_partial : forall n d l, Forall (fun x => attr_count x = n) l ->
  Forall (fun x => attr_count x = n) (insts (offers (ds_new d) l)).
Proof. intros n d l H. apply offers_arity; [exact H|constructor]. Qed.
Example C07_case : def_count (ddef (offers ds_empty [ex1; ex2])) = 2 /\ conforms (types (ddef (offers ds_empty [ex1]))) ex2.
Proof. split; [reflexivity|exists []; reflexivity]. Qed.
Print Assumptions C07_arity_refuted.
Print Assumptions C07_arity_at_most_partial.
Print Assumptions C07_every_prefix_accepted.
Print Assumptions C07_arity_uniform_partial.

(** * C08 *)
Theorem C08_history : forall s l, def_count (ddef s) <> 0 ->
  insts (offers s l) = insts s ++ filter (conformsb (types (ddef s))) l /\ ddef (offers s l) = ddef s.
Proof. intros s l H. rewrite offers_nonempty by exact H. split; reflexivity. Qed.
Theorem C08_first_instance_defines : forall s x l, def_count (ddef s) = 0 ->
  offers s (x :: l) = offers (mkDS (insts s ++ [x]) (def_of (map attr_type (attrs x)))) l.
Proof. intros s x l H. rewrite offers_cons, offer_empty by exact H. reflexivity. Qed.
(** outcome of one call on a data set with a non-empty definition: stored, silently refused, or out_of_range *)
Theorem C08_outcome : forall s x, def_count (ddef s) <> 0 ->
  (add_instance s x = Ok (mkDS (insts s ++ [x]) (ddef s)) <-> conforms (types (ddef s)) x) /\
  (add_instance s x = Throw OutOfRange <->
     exists t ts, map attr_type (attrs x) = types (ddef s) ++ t :: ts) /\
  (add_instance s x = Ok (mkDS (insts s ++ [x]) (ddef s)) \/ add_instance s x = Throw OutOfRange \/ add_instance s x = Ok s).
Proof.
  intros s x H. rewrite add_instance_nonempty by exact H. pose proof (conformsb_spec (types (ddef s)) x) as C.
  pose proof (is_prefix_spec (types (ddef s)) (map attr_type (attrs x))) as P.
  destruct (conformsb (types (ddef s)) x) eqn:E.
  - split; [tauto|]. split; [|left; reflexivity]. split; [discriminate|]. intros (t & ts & Ht).
    destruct C as [C _]. destruct (C eq_refl) as [r Hr]. rewrite Ht in Hr.
    assert (length (types (ddef s)) = length ((types (ddef s) ++ t :: ts) ++ r)) as Hl by (rewrite <- Hr; reflexivity).
    rewrite !app_length in Hl. simpl in Hl. lia.
  - assert (Hn : ~ conforms (types (ddef s)) x) by (intros Hc; apply C in Hc; discriminate).
    destruct (is_prefix (types (ddef s)) (map attr_type (attrs x))) eqn:E2.
    + split; [split; [discriminate|contradiction]|]. split; [|right; left; reflexivity]. split; [intros _|reflexivity].
      destruct P as [P _]. destruct (P eq_refl) as [r Hr]. destruct r as [|t ts]; [|exists t, ts; exact Hr].
      elim Hn. exists []. rewrite Hr, !app_nil_r. reflexivity.
    + split; [split; [|contradiction]|]. { intros G. injection G as G. assert (length (insts s) = length (insts s ++ [x])) as L by (rewrite G at 1; reflexivity). rewrite app_length in L; simpl in L; lia. }
      split; [|right; right; reflexivity]. split; [discriminate|]. intros (t & ts & Ht).
      destruct P as [_ P]. discriminate P. exists (t :: ts). exact Ht.
Qed.
Example C08_case : offers ds_empty [ex1; ex_bad; ex2] = mkDS [ex1; ex2] (def_of [TDisc; TCont]) /\
  add_instance (offers ds_empty [ex1]) ex_long = Throw OutOfRange.
Proof. split; reflexivity. Qed.
Print Assumptions C08_history.
Print Assumptions C08_first_instance_defines.
Print Assumptions C08_outcome.

(** * C09 *)
Theorem C09_load_stores_well_formed_lines : forall split stod content s,
  load_file split stod content = Ok s ->
  exists first rest, split_lines content = first :: rest /\ first_types split stod first (types (ddef s)) /\
    stored split stod (types (ddef s)) (first :: rest) (insts s) /\
    Forall (conforms_exactly (types (ddef s))) (insts s).
Proof.
  intros split stod content s H. destruct (load_file_spec _ _ _ _ H) as (first & rest & E & F & B & _ & S).
  exists first, rest. repeat (split; [assumption|]). eapply stored_conforms; eassumption.
Qed.
(** no malformed line makes loading fail, provided the first line has a column, every label column split at ';' has a
    part, and no number overflows (std::stod's out_of_range) *)
Theorem C09_load_succeeds : forall split stod content,
  (forall t, (exists v, stod t = Ok v) \/ stod t = Throw InvalidArgument) -> (forall t, split t ";" <> []) ->
  (forall first rest, split_lines content = first :: rest -> split first "," <> []) ->
  exists s, load_file split stod content = Ok s.
Proof. intros; apply load_file_total; assumption. Qed.
(** outside these conditions: an empty first line is undefined behaviour, a number out of double range an exception *)
Theorem C09_empty_first_line_undefined : forall split stod content rest,
  split_lines content = "" :: rest -> split "" "," = [] -> load_file split stod content = UB BadIndex.
Proof. intros split stod content rest H H'. unfold load_file. rewrite H. cbn [foldM]. unfold load_line. rewrite H'. reflexivity. Qed.
Definition ex_content : string :=
  ("red,1,a" ++ String nl ("blue,x,b" ++ String nl ("blue,7" ++ String nl ("green,22,a;b" ++ String nl ""))))%string.
Example C09_case : load_file split_ex stod_ex ex_content =
  Ok (mkDS [mkInst "a" [ADisc "red"; ACont (dofZ 1)] None; mkInst "a" [ADisc "green"; ACont (dofZ 22)] (Some ["b"])]
           (def_of [TDisc; TCont])).
Proof. vm_compute. reflexivity. Qed.
Definition split_keep (s sep : string) : list string := match split_ex s sep with [] => [""] | l => l end.
Lemma stod_ex_cases t : (exists v, stod_ex t = Ok v) \/ stod_ex t = Throw InvalidArgument.
Proof. unfold stod_ex. destruct t; [right; reflexivity|]. destruct (digits _ _); [left; eauto|right; reflexivity]. Qed.
Example C09_case_hyps : (forall t, (exists v, stod_ex t = Ok v) \/ stod_ex t = Throw InvalidArgument) /\
  (forall t, split_keep t ";" <> []) /\
  (forall first rest, split_lines ex_content = first :: rest -> split_keep first "," <> []).
Proof.
  split; [exact stod_ex_cases|]. split.
  - intros t; unfold split_keep. destruct (split_ex t ";"); discriminate.
  - intros f r _; unfold split_keep. destruct (split_ex f ","); discriminate.
Qed.
Print Assumptions C09_load_stores_well_formed_lines.
Print Assumptions C09_load_succeeds.
Print Assumptions C09_empty_first_line_undefined.

(** * C10 *)
(** binary and indexed attributes never survive, whatever the number format, splitter and number reader *)
Theorem C10_write_read_refuted : exists l, forall split stod fmt s',
  insts (offers ds_empty l) <> [] /\
  (load_file split stod (write_file fmt (offers ds_empty l)) = Ok s' -> insts s' <> insts (offers ds_empty l)).
Proof.
  exists [mkInst "a" [ABin "true"] None]. intros split stod fmt s'. split; [discriminate|].
  intros H E. destruct (load_file_spec _ _ _ _ H) as (first & rest & _ & _ & B & _ & S).
  pose proof (stored_conforms _ _ _ _ _ B S) as C. rewrite E in C. inversion C as [|? ? C1 _]; subst.
  unfold conforms_exactly in C1. rewrite C1 in B. inversion B as [|? ? [B1|B1] _]; discriminate.
Qed.
(** nor does the discrete value ",", which is written as "comma" *)
Theorem C10_comma_refuted : exists s, forall split stod fmt,
  split_ok split "," -> stod "comma" = Throw InvalidArgument ->
  load_file split stod (write_file fmt s) = Ok (mkDS [mkInst "a" [ADisc "comma"] None] (def_of [TDisc])) /\
  insts s = [mkInst "a" [ADisc ","] None].
Proof.
  exists (mkDS [mkInst "a" [ADisc ","] None] (def_of [TDisc])). intros split stod fmt H1 H2. split; [|reflexivity].
  assert (split "comma,a" "," = ["comma"; "a"]) as E.
  { apply (proj1 H1 ["comma"; "a"]); [discriminate|]. repeat constructor; discriminate. }
  unfold load_file, write_file. simpl. rewrite E. unfold load_line, load_row, line_label, col_type, line_attrs, def_count. simpl. rewrite H2. simpl.
  destruct H1 as [_ H1]. destruct (Nat.eqb_spec (length (split "" ",")) 2) as [E2|E2]; [rewrite E2 in H1; lia|]. reflexivity.
Qed.
(** nor two numbers that the writer prints alike (std::to_string keeps six decimals) *)
Theorem C10_precision_refuted : forall split stod fmt v w,
  fmt v = fmt w -> v <> w ->
  let one u := mkDS [mkInst "a" [ACont u] None] (def_of [TCont]) in
  ~ (load_file split stod (write_file fmt (one v)) = Ok (one v) /\ load_file split stod (write_file fmt (one w)) = Ok (one w)).
Proof.
  intros split stod fmt v w E Hn one [H1 H2].
  assert (write_file fmt (one v) = write_file fmt (one w)) as Ew by (unfold write_file, one, inst_string; cbn [insts attrs fold_left attr_string label composite]; rewrite E; reflexivity).
  rewrite Ew in H1. rewrite H1 in H2. injection H2 as H2. contradiction.
Qed.
(** what is true: discrete and continuous attributes, clean texts, numbers that survive printing, and discrete values of
    the first instance that do not read as numbers *)
Theorem C10_write_read_partial : forall split stod fmt ts x rest d,
  split_ok split "," -> split_ok split ";" -> ts <> [] ->
  Forall (writable stod fmt) (x :: rest) -> Forall (conforms_exactly ts) (x :: rest) -> recognisable stod x ->
  load_file split stod (write_file fmt (mkDS (x :: rest) d)) = Ok (mkDS (x :: rest) (def_of ts)).
Proof. intros. apply roundtrip; assumption. Qed.
Definition fmt_ex (d : dbl) : string := match d with Fin q => if Qeq_bool q 1 then "1" else "22" | _ => "7" end.
Example C10_case : let x := mkInst "a" [ADisc "red"; ACont (dofZ 1)] None in
  let y := mkInst "a" [ADisc "12"; ACont (dofZ 22)] (Some ["b"; "c"]) in
  split_ok split_ex "," /\ split_ok split_ex ";" /\ Forall (writable stod_ex fmt_ex) [x; y] /\
  Forall (conforms_exactly [TDisc; TCont]) [x; y] /\ recognisable stod_ex x.
Proof.
  cbv zeta. split; [apply split_ex_ok|]. split; [apply split_ex_ok|]. split; [|split].
  - assert (C : forall s, s <> "" -> has_char "," s = false -> has_char nl s = false -> has_char ";" s = false -> clean_label s)
      by (intros s H1 H2 H3 H4; split; [split; [|split]|]; assumption).
    assert (L : forall s, clean_label s -> clean s) by (intros s H; apply H).
    repeat constructor; simpl; try discriminate; try (apply L, C; (discriminate || reflexivity)); try (apply C; (discriminate || reflexivity)).
  - repeat constructor.
  - intros v [H|[H|[]]]; [injection H as <-; reflexivity|discriminate].
Qed.
Print Assumptions C10_write_read_refuted.
Print Assumptions C10_comma_refuted.
Print Assumptions C10_precision_refuted.
Print Assumptions C10_write_read_partial.

(** * C11 *)
Theorem C11_feature_subset : forall s fs,
  Forall (conforms_exactly (types (ddef s))) (insts s) -> Forall (in_range (def_count (ddef s))) fs ->
  exists r, ds_subset s fs = Ok r /\
    Forall2 (fun k t => nth_error (types (ddef s)) (Z.to_nat k) = Some t) fs (types (ddef r)) /\
    Forall2 (fun x y => inst_subset x fs = Ok y) (insts s) (insts r).
Proof.
  intros s fs H H'. destruct (ds_subset_spec s fs H H') as (ts & l & Ht & Hs & Hl). exists (mkDS l (def_of ts)).
  split; [exact Hs|]. split; [|exact Hl]. simpl. apply mapM_ok in Ht. eapply Forall2_imp; [|exact Ht].
  intros k t Hk. apply at_ok in Hk. apply Hk.
Qed.
Theorem C11_out_of_range : forall s fs, Exists (fun k => ~ in_range (def_count (ddef s)) k) fs -> ds_subset s fs = Throw OutOfRange.
Proof.
  intros s fs H. unfold ds_subset, def_subset. destruct (mapM_at_cases (types (ddef s)) fs) as [[F _]|[_ E]].
  - apply Exists_exists in H. destruct H as (k & Hk & Hn). rewrite Forall_forall in F. elim (Hn (F _ Hk)).
  - change (fun k => at_ (types (ddef s)) k) with (at_ (types (ddef s))). rewrite E. reflexivity.
Qed.
Example C11_case : ds_subset (offers ds_empty [ex1; ex2]) [1]%Z =
  Ok (mkDS [mkInst "a" [ACont (Fin 1)] None; mkInst "b" [ACont (Fin 2)] None] (def_of [TCont])) /\
  Forall (conforms_exactly (types (ddef (offers ds_empty [ex1; ex2])))) (insts (offers ds_empty [ex1; ex2])).
Proof. split; [reflexivity|]. repeat constructor. Qed.
Print Assumptions C11_feature_subset.
Print Assumptions C11_out_of_range.

(** * C12 *)
Theorem C12_counts_refuted : exists d, def_discrete d + def_continuous d <> def_count d.
Proof. exists (def_of [TIdx]). discriminate. Qed.
(** exactly the indexed attributes are missing from the two counts *)
Theorem C12_counts_partial : forall d,
  def_discrete d + def_continuous d + List.length (filter (atype_eqb TIdx) (types d)) = def_count d.
Proof. exact def_counts_total. Qed.
Theorem C12_add : forall d t,
  def_count (def_add d t) = S (def_count d) /\
  match t with
  | TDisc | TBin => def_discrete (def_add d t) = S (def_discrete d) /\ def_continuous (def_add d t) = def_continuous d
  | TCont => def_discrete (def_add d t) = def_discrete d /\ def_continuous (def_add d t) = S (def_continuous d)
  | TIdx => def_discrete (def_add d t) = def_discrete d /\ def_continuous (def_add d t) = def_continuous d
  end.
Proof.
  intros d t. rewrite !def_discrete_countb, !def_continuous_countb. unfold def_add, def_count; simpl types. rewrite !countb_app, app_length.
  destruct t; unfold countb; simpl; lia.
Qed.
Theorem C12_remove : forall d i t, nth_error (types d) i = Some t -> exists d',
  def_remove d (Z.of_nat i) = Ok d' /\ S (def_count d') = def_count d /\
  (forall j, j < i -> nth_error (types d') j = nth_error (types d) j) /\
  (forall j, i <= j -> nth_error (types d') j = nth_error (types d) (S j)) /\
  match t with
  | TDisc | TBin => S (def_discrete d') = def_discrete d /\ def_continuous d' = def_continuous d
  | TCont => def_discrete d' = def_discrete d /\ S (def_continuous d') = def_continuous d
  | TIdx => def_discrete d' = def_discrete d /\ def_continuous d' = def_continuous d
  end.
Proof.
  intros d i t H. assert (Hi : i < def_count d) by (apply nth_error_Some; congruence).
  exists (mkDef (erase_nth (types d) i) (vlists d)). unfold def_remove. rewrite Nat2Z.id.
  destruct (Z.ltb_spec (Z.of_nat i) 0); [lia|]. destruct (Nat.ltb_spec i (def_count d)); [|lia]. split; [reflexivity|].
  destruct (erase_split _ _ _ H) as (a & b & E & Ee & La). unfold def_count. simpl types. rewrite Ee, E.
  split; [rewrite !app_length; simpl; lia|].
  split; [intros j Hj; rewrite !nth_error_app1 by lia; reflexivity|].
  split. { intros j Hj. rewrite !nth_error_app2 by lia. replace (S j - length a) with (S (j - length a)) by lia. reflexivity. }
  rewrite !def_discrete_countb, !def_continuous_countb. simpl types. rewrite ?Ee, ?E, !countb_app, !countb_cons. destruct t; simpl; lia.
Qed.
Example C12_case : def_discrete (def_of [TDisc; TCont; TBin]) = 2 /\ nth_error (types (def_of [TDisc; TCont; TBin])) 1 = Some TCont.
Proof. split; reflexivity. Qed.
Print Assumptions C12_counts_refuted.
Print Assumptions C12_counts_partial.
Print Assumptions C12_add.
Print Assumptions C12_remove.

(** * C83: reading a file with a declared definition *)
Definition declared_attr (stod : string -> res dbl) (d : datadef) (i : nat) (t : atype) (s : string) (a : attr) : Prop :=
  match t with
  | TDisc => a = ADisc s
  | TBin => a = ABin s
  | TCont => exists v, stod s = Ok v /\ a = ACont v
  | TIdx => exists vs k, nth_error (vlists d) i = Some vs /\ a = AIdx s k (length vs) /\
              ((In s vs /\ k = Z.of_nat (find_pos s vs)) \/ (~ In s vs /\ k = (-1)%Z))
  end.
Definition declared_line (split : string -> string -> list string) stod d sep (line : string) (x : instance) : Prop :=
  exists cols, split line sep = cols ++ [label x] /\ composite x = None /\ length (attrs x) = length cols /\
    forall j t s a, nth_error (types d) j = Some t -> nth_error cols j = Some s -> nth_error (attrs x) j = Some a ->
      declared_attr stod d j t s a.
Definition arity_ok (split : string -> string -> list string) (d : datadef) sep (line : string) : bool :=
  length (split line sep) =? S (def_count d).
Lemma def_attrs_spec stod d toks i l : def_attrs_from stod d i toks = Ok l ->
  length l = length toks /\
  forall j t s a, nth_error (types d) (i + j) = Some t -> nth_error toks j = Some s -> nth_error l j = Some a -> declared_attr stod d (i + j) t s a.
Proof.
  revert i l; induction toks as [|s toks IH]; intros i l H.
  - injection H as <-. split; [reflexivity|]. intros [|j] t s a _ H; discriminate.
  - cbn [def_attrs_from] in H. apply bind_ok in H. destruct H as (t0 & Ht & H). apply bind_ok in H. destruct H as (a0 & Ha & H).
    apply bind_ok in H. destruct H as (r & Hr & H). injection H as <-. destruct (IH _ _ Hr) as [L C].
    split; [simpl; congruence|]. intros [|j] t s' a H1 H2 H3; simpl in *.
    + injection H2 as <-; injection H3 as <-. rewrite Nat.add_0_r in *. unfold def_type in Ht. rewrite at_nat in Ht. apply atn_ok in Ht.
      rewrite Ht in H1; injection H1 as ->. destruct t; simpl.
      * apply bind_ok in Ha. destruct Ha as (v & Hv & E). injection E as <-. exists v; auto.
      * congruence.
      * congruence.
      * apply bind_ok in Ha. destruct Ha as (k & Hk & Ha). apply bind_ok in Ha. destruct Ha as (n & Hn & E). injection E as <-.
        unfold def_value_index, def_nvalues, idxn in *. destruct (nth_error (vlists d) i) as [vs|]; [|discriminate]. simpl in *.
        injection Hk as <-; injection Hn as <-. exists vs, (value_index_from 0 s vs). split; [reflexivity|]. split; [reflexivity|].
        rewrite value_index_from_spec by lia. destruct (mem_str s vs) eqn:Em.
        -- left. apply mem_str_in in Em. split; [exact Em|lia].
        -- right. split; [|reflexivity]. intros Hin. apply mem_str_in in Hin. congruence.
    + replace (i + S j) with (S i + j) in * by lia. eapply C; eassumption.
Qed.
(** a successful read stores exactly the newline-terminated lines with the right number of columns, in order *)
Theorem C83_declared_read_partial : forall split stod d sep content xs,
  read_def split stod d sep content = Ok xs ->
  Forall2 (declared_line split stod d sep) (filter (arity_ok split d sep) (removelast (split_lines content))) xs.
Proof.
  intros split stod d sep content xs. unfold read_def. generalize (removelast (split_lines content)). intros ls.
  assert (G : forall ls acc xs, foldM (read_def_line split stod d sep) ls acc = Ok xs ->
    exists ys, xs = acc ++ ys /\ Forall2 (declared_line split stod d sep) (filter (arity_ok split d sep) ls) ys).
  { clear. induction ls as [|l ls IH]; intros acc xs H.
    - injection H as <-. exists []. rewrite app_nil_r. split; [reflexivity|constructor].
    - cbn [foldM] in H. apply bind_ok in H. destruct H as (acc' & H1 & H). unfold read_def_line in H1. cbn [filter]. unfold arity_ok at 1.
      destruct (Nat.eqb_spec (length (split l sep)) (S (def_count d))) as [E|E].
      + apply bind_ok in H1. destruct H1 as (as_ & Ha & E1). injection E1 as <-.
        destruct (IH _ _ H) as (ys & -> & F). rewrite <- app_assoc. eexists. split; [reflexivity|]. constructor; [|exact F].
        assert (Hne : split l sep <> []) by (intros E0; rewrite E0 in E; discriminate).
        destruct (exists_last Hne) as (cols & lab & Es). rewrite Es, removelast_last, ?last_last in *.
        destruct (def_attrs_spec _ _ _ _ _ Ha) as [L C]. exists cols. simpl. split; [exact Es|]. split; [reflexivity|]. split; [exact L|exact C].
      + injection H1 as <-. apply IH; exact H. }
  intros H. destruct (G ls [] xs H) as (ys & -> & F). exact F.
Qed.
(** the text after the last newline is lost *)
Theorem C83_last_line_refuted : exists content line d,
  In line (split_lines content) /\ arity_ok split_ex d "," line = true /\
  read_def split_ex stod_ex d "," content = Ok [mkInst "a" [ADisc "red"] None] /\
  forall x, declared_line split_ex stod_ex d "," line x -> ~ In x [mkInst "a" [ADisc "red"] None].
Proof.
  exists ("red,a" ++ String nl "blue,b")%string, "blue,b", (def_of [TDisc]).
  split; [right; left; reflexivity|]. split; [reflexivity|]. split; [reflexivity|].
  intros x (cols & E & _) [<-|[]]. simpl in E.
  change ["blue"; "b"] with (["blue"] ++ ["b"]) in E. apply app_inj_tail in E. destruct E; discriminate.
Qed.
(** an unparsable number aborts the read with an exception instead of skipping the line *)
Theorem C83_bad_number_throws : exists content d, read_def split_ex stod_ex d "," content = Throw InvalidArgument.
Proof. exists ("x,a" ++ String nl "")%string, (def_of [TCont]). reflexivity. Qed.
Example C83_case : read_def split_ex stod_ex (mkDef [TIdx; TCont] [["r"; "g"]]) ";"
    ("g;5;yes" ++ String nl ("short;yes" ++ String nl ("x;7;no" ++ String nl "")))%string =
  Ok [mkInst "yes" [AIdx "g" 1 2; ACont (dofZ 5)] None; mkInst "no" [AIdx "x" (-1) 2; ACont (dofZ 7)] None].
Proof. vm_compute. reflexivity. Qed.
Print Assumptions C83_declared_read_partial.
Print Assumptions C83_last_line_refuted.
Print Assumptions C83_bad_number_throws.

(** * C84: value lists *)
Theorem C84_value_index : forall d i v vs, nth_error (vlists d) i = Some vs ->
  def_nvalues d i = Ok (length vs) /\
  exists k, def_value_index d i v = Ok k /\
    ((exists p, k = Z.of_nat p /\ nth_error vs p = Some v /\ forall q, q < p -> nth_error vs q <> Some v) \/ (k = (-1)%Z /\ ~ In v vs)).
Proof.
  intros d i v vs H. unfold def_nvalues, def_value_index, idxn. rewrite H. split; [reflexivity|]. eexists. split; [reflexivity|].
  rewrite value_index_from_spec by lia. destruct (mem_str v vs) eqn:E.
  - left. apply mem_str_in in E. exists (find_pos v vs). split; [lia|]. split; [apply find_pos_nth; exact E|].
    clear. induction vs as [|x vs IH]; intros q Hq; [simpl in Hq; lia|]. simpl in Hq. destruct (String.eqb_spec v x) as [->|Hn]; [lia|].
    destruct q; simpl; [congruence|]. apply IH; lia.
  - right. split; [reflexivity|]. intros Hin. apply mem_str_in in Hin. congruence.
Qed.
(** the value list of a definition made by addAttribute or getSubSetOfFeatures is missing: undefined behaviour *)
Theorem C84_missing_list_undefined : forall d i v, nth_error (vlists d) i = None ->
  def_nvalues d i = UB BadIndex /\ def_value_index d i v = UB BadIndex.
Proof. intros d i v H. unfold def_nvalues, def_value_index, idxn. rewrite H. split; reflexivity. Qed.
Theorem C84_subset_loses_values : forall d fs d', def_subset d fs = Ok d' -> vlists d' = [].
Proof. intros d fs d' H. unfold def_subset in H. apply bind_ok in H. destruct H as (t & _ & E). injection E as <-. reflexivity. Qed.
Example C84_case : def_value_index (mkDef [TIdx] [["r"; "g"]]) 0 "g" = Ok 1%Z /\ nth_error (vlists (def_of [TIdx])) 0 = None.
Proof. split; reflexivity. Qed.
Print Assumptions C84_value_index.
Print Assumptions C84_missing_list_undefined.
Print Assumptions C84_subset_loses_values.
