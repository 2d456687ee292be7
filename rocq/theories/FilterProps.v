(** C41-C44, C86: filters. *)
From Coq Require Import String ZArith QArith Qreals Reals Bool Lia Lra Lqa Permutation Sorted Arith List.
From Verif Require Import Base Spec BaseLemmas DblLemmas AttrModel DataSetModel InstanceListModel StatModel ListSpec StatSpec ListProofs CovProofs CovAllProofs GaussianModel FilterModel FilterSpec FilterProofs NormProofs.
Import ListNotations.
Local Open Scope string_scope.
Local Open Scope list_scope.
Local Open Scope nat_scope.

(** * C41 *)
(** no discrete value is the single character "," (that value is C42) *)
Definition no_comma (l : list instance) : Prop := forall i, ~ occurs l i ",".
(** the instances of [s'] are those of [s] with the discrete features dropped and one block per discrete feature, in
    order, put at the end *)
Definition recoded (known : list (list string)) (block : list string * string -> list attr) (s s' : dataset) : Prop :=
  insts s' = map (fun x => mkInst (label x) (kept known (attrs x) ++ flat_map block (replaced known (attrs x))) (composite x)) (insts s).
(** in every instance, each discrete feature has exactly one indicator set *)
Definition one_set (known : list (list string)) (l : list instance) : Prop :=
  Forall (fun x => Forall (fun p => trues (indicators p) = 1) (replaced known (attrs x))) l.

Lemma replaced_no_comma known l x : no_comma l -> In x l -> good_row known (attrs x) ->
  (forall p, In p (replaced known (attrs x)) -> shown (snd p) = snd p /\ In (snd p) (fst p) /\ NoDup (fst p)).
Proof.
  intros Nc Hx H p Hp. unfold replaced in Hp. apply in_flat_map in Hp as ([vs a] & Hin & Hp). cbn [fst snd] in Hp.
  apply In_nth_error in Hin as [i Hi].
  assert (E : nth_error known i = Some vs /\ nth_error (attrs x) i = Some a).
  { clear -Hi. revert i Hi. generalize (attrs x). induction known as [|k known IH]; intros aa i Hi; [destruct i; discriminate|].
    destruct aa as [|b aa]; [destruct i; discriminate|]. destruct i; cbn in *; [injection Hi as -> ->; split; reflexivity|apply IH; exact Hi]. }
  destruct E as [E1 E2]. destruct (Forall2_nth _ _ _ i vs a H E1 E2) as [HN Hv]. destruct vs as [|w vs]; [destruct Hp|].
  destruct Hp as [<-|[]]. destruct Hv as (v & -> & Hv); [discriminate|]. cbn [fst snd text]. split; [|split; assumption].
  unfold shown. destruct (String.eqb_spec v ",") as [->|]; [|reflexivity]. exfalso. apply (Nc i). exists x. split; assumption.
Qed.
Lemma recode_blocks fmt encode block tf s ks :
  consistent ks (insts s) -> insts s <> [] -> no_comma (insts s) -> length (types (ddef s)) = length ks ->
  (forall d v, NoDup (mkeys d) -> encode v (dist_index d v) (length d) = block (mkeys d, v)) ->
  exists known s', known_values ks (insts s) known /\ lary_filter fmt encode (convert_def tf) s = Ok s' /\ recoded known block s s' /\
    one_set known (insts s) /\ (forall x p, In x (insts s) -> In p (replaced known (attrs x)) -> In (snd p) (fst p)).
Proof.
  intros H1 H2 H3 H4 H5. destruct (lary_filter_ok fmt encode (fun vs v => block (vs, v)) tf s ks H1 H2 H4 H5) as (known & s' & K & E & _ & EI & GR).
  rewrite Forall_forall in GR. exists known, s'. split; [exact K|]. split; [exact E|]. split; [|split].
  - unfold recoded. rewrite EI. apply map_ext_in. intros x Hx. f_equal. f_equal.
    pose proof (replaced_no_comma known (insts s) x H3 Hx (GR x Hx)) as R. revert R. generalize (replaced known (attrs x)). intros rp R.
    induction rp as [|p rp IH]; [reflexivity|]. cbn [flat_map]. f_equal; [|apply IH; intros q Hq; apply R; right; exact Hq].
    destruct (R p (or_introl eq_refl)) as (-> & _ & _). destruct p; reflexivity.
  - apply Forall_forall. intros x Hx. apply Forall_forall. intros p Hp. destruct (replaced_no_comma known (insts s) x H3 Hx (GR x Hx) p Hp) as (_ & I1 & I2).
    apply indicators_one; assumption.
  - intros x p Hx Hp. apply (replaced_no_comma known (insts s) x H3 Hx (GR x Hx) p Hp).
Qed.
Theorem C41_to_continuous : forall fmt s ks,
  consistent ks (insts s) -> insts s <> [] -> no_comma (insts s) -> length (types (ddef s)) = length ks ->
  exists known s', known_values ks (insts s) known /\ to_continuous fmt s = Ok s' /\ one_set known (insts s) /\
    recoded known (fun p => map (fun b : bool => ACont (Fin (if b then 1 else 0)%Q)) (indicators p)) s s'.
Proof.
  intros fmt s ks H1 H2 H3 H4.
  destruct (recode_blocks fmt enc_continuous (fun p => map (fun b : bool => ACont (Fin (if b then 1 else 0)%Q)) (indicators p)) (fun n => repeat TCont n) s ks H1 H2 H3 H4) as (known & s' & A & B & C & D & _).
  - intros d v ND. unfold enc_continuous, indicators. cbn [fst snd]. rewrite map_map.
    rewrite <- (dist_flags (fun b : bool => ACont (Fin (if b then 1 else 0)%Q)) d v ND). apply map_ext. intros j. destruct (Z.of_nat j =? dist_index d v)%Z; reflexivity.
  - exists known, s'. exact (conj A (conj B (conj D C))).
Qed.
Theorem C41_to_binary : forall fmt s ks,
  consistent ks (insts s) -> insts s <> [] -> no_comma (insts s) -> length (types (ddef s)) = length ks ->
  exists known s', known_values ks (insts s) known /\ to_binary fmt s = Ok s' /\ one_set known (insts s) /\
    recoded known (fun p => map (fun b : bool => ABin (if b then "true" else "false")) (indicators p)) s s'.
Proof.
  intros fmt s ks H1 H2 H3 H4.
  destruct (recode_blocks fmt enc_binary (fun p => map (fun b : bool => ABin (if b then "true" else "false")) (indicators p)) (fun n => repeat TBin n) s ks H1 H2 H3 H4) as (known & s' & A & B & C & D & _).
  - intros d v ND. unfold enc_binary, indicators. cbn [fst snd]. rewrite map_map.
    rewrite <- (dist_flags (fun b : bool => ABin (if b then "true" else "false")) d v ND). apply map_ext. intros j. destruct (Z.of_nat j =? dist_index d v)%Z; reflexivity.
  - exists known, s'. exact (conj A (conj B (conj D C))).
Qed.
(** the indexed attribute holds the value, its position among the known values, and their number *)
Theorem C41_to_indexed : forall fmt s ks,
  consistent ks (insts s) -> insts s <> [] -> no_comma (insts s) -> length (types (ddef s)) = length ks ->
  exists known s' position, known_values ks (insts s) known /\ to_indexed fmt s = Ok s' /\
    (forall x vs v, In x (insts s) -> In (vs, v) (replaced known (attrs x)) -> nth_error vs (position vs v) = Some v) /\
    recoded known (fun p => [AIdx (snd p) (Z.of_nat (position (fst p) (snd p))) (length (fst p))]) s s'.
Proof.
  intros fmt s ks H1 H2 H3 H4.
  destruct (recode_blocks fmt enc_indexed (fun p => [AIdx (snd p) (value_index_from 0 (snd p) (fst p)) (length (fst p))]) (fun _ => [TIdx]) s ks H1 H2 H3 H4) as (known & s' & A & B & C & D & E).
  - intros d v ND. unfold enc_indexed, dist_index. cbn [fst snd]. unfold mkeys. rewrite map_length. reflexivity.
  - exists known, s', (fun vs v => find_pos v vs). split; [exact A|]. split; [exact B|]. split.
    + intros x vs v Hx Hp. apply find_pos_nth. exact (E x (vs, v) Hx Hp).
    + unfold recoded in *. rewrite C. apply map_ext_in. intros x Hx. f_equal. f_equal. specialize (E x). revert E. generalize (replaced known (attrs x)). intros rp E.
      induction rp as [|p rp IH]; [reflexivity|]. cbn [flat_map]. f_equal; [|apply IH; intros q _ Hq; apply E; [exact Hx|right; exact Hq]].
      f_equal. f_equal. pose proof (E p Hx (or_introl eq_refl)) as I. rewrite DataSetProofs.value_index_from_spec by lia. apply mem_str_in in I. rewrite I. lia.
Qed.
(** all converted instances have the same number of features *)
Theorem C41_arity : forall known (l : list instance), Forall (fun x => length (attrs x) = length known) l ->
  forall x y, In x l -> In y l -> length (kept known (attrs x)) = length (kept known (attrs y)) /\
    map (@length bool) (map indicators (replaced known (attrs x))) = map (@length bool) (map indicators (replaced known (attrs y))).
Proof.
  intros known l H x y Hx Hy. rewrite Forall_forall in H. pose proof (H x Hx) as Lx. pose proof (H y Hy) as Ly. clear -Lx Ly.
  revert Lx Ly. generalize (attrs x), (attrs y). unfold kept, replaced. induction known as [|vs known IH]; intros [|a aa] [|b bb] Lx Ly; try discriminate; [split; reflexivity|].
  cbn [combine flat_map fst snd]. destruct (IH aa bb ltac:(now injection Lx) ltac:(now injection Ly)) as [E1 E2]. destruct vs as [|v vs]; cbn [app length map].
  - split; [f_equal; exact E1|exact E2].
  - split; [exact E1|]. f_equal; [unfold indicators; cbn [fst]; rewrite !map_length; reflexivity|exact E2].
Qed.
Print Assumptions C41_to_continuous.
Print Assumptions C41_to_binary.
Print Assumptions C41_to_indexed.
Print Assumptions C41_arity.
Definition fx (c v : string) (q : Q) (w : string) : instance := mkInst c [ADisc v; ACont (Fin q); ADisc w] None.
Definition ex_fs : dataset := mkDS [fx "p" "red" 1 "x"; fx "n" "blue" (1#2) "x"; fx "p" "red" 3 "y"] (def_of [TDisc; TCont; TDisc]).
Example C41_case : consistent [true; false; true] (insts ex_fs) /\ insts ex_fs <> [] /\ no_comma (insts ex_fs) /\
  exists s', to_continuous (fun _ => "") ex_fs = Ok s' /\
    map attrs (insts s') = [[ACont (Fin 1); ACont d0; ACont d1; ACont d1; ACont d0]; [ACont (Fin (1#2)); ACont d1; ACont d0; ACont d1; ACont d0];
                            [ACont (Fin 3); ACont d0; ACont d1; ACont d0; ACont d1]].
Proof.
  split; [|split; [discriminate|split; [|eexists; split; [vm_compute; reflexivity|reflexivity]]]].
  - unfold consistent, ex_fs, fx. cbn [insts]. repeat (apply Forall_cons || apply Forall_nil || apply Forall2_cons || apply Forall2_nil); cbn; try (eexists; reflexivity); discriminate.
  - intros i (x & Hx & E). cbn in Hx. destruct Hx as [<-|[<-|[<-|[]]]]; do 3 (destruct i as [|i]; [cbn in E; congruence|]); destruct i; discriminate E.
Qed.

(** * C42 *)
(** The value "," is looked up under the text "comma": it is encoded by no indicator at all ... *)
Definition comma_ds (vs : list string) : dataset := mkDS (map (fun v => mkInst "p" [ADisc v] None) vs) (def_of [TDisc]).
Theorem C42_no_indicator_refuted : exists s s', to_continuous (fun _ => "") s = Ok s' /\ occurs (insts s) 0 "," /\
  exists x, In x (insts s') /\ attrs x = [ACont d0; ACont d0].
Proof. exists (comma_ds [","; "dot"]). eexists. split; [vm_compute; reflexivity|]. split; [eexists; split; [left; reflexivity|reflexivity]|]. eexists. split; [left; reflexivity|reflexivity]. Qed.
(** ... by the invalid index -1 ... *)
Theorem C42_bad_index_refuted : exists s s', to_indexed (fun _ => "") s = Ok s' /\ occurs (insts s) 0 "," /\
  exists x, In x (insts s') /\ attrs x = [AIdx "comma" (-1) 2].
Proof. exists (comma_ds [","; "dot"]). eexists. split; [vm_compute; reflexivity|]. split; [eexists; split; [left; reflexivity|reflexivity]|]. eexists. split; [left; reflexivity|reflexivity]. Qed.
(** ... and two different values get the same encoding when "comma" occurs too *)
Theorem C42_collision_refuted : exists s s' x y, to_binary (fun _ => "") s = Ok s' /\ insts s = [mkInst "p" [ADisc ","] None; mkInst "p" [ADisc "comma"] None] /\
  insts s' = [x; y] /\ attrs x = attrs y.
Proof. exists (comma_ds [","; "comma"]). do 3 eexists. repeat split; try (vm_compute; reflexivity). Qed.
Print Assumptions C42_no_indicator_refuted.
Print Assumptions C42_bad_index_refuted.
Print Assumptions C42_collision_refuted.
(** What holds for every string, commas included: each block holds the indicators of the shown text, so exactly one is
    set unless the value is "," and "comma" does not occur, in which case none is. *)
Definition set_unless_comma (known : list (list string)) (l : list instance) : Prop :=
  forall x p, In x l -> In p (replaced known (attrs x)) ->
    trues (shown_indicators p) = (if String.eqb (snd p) "," then if mem_str "comma" (fst p) then 1 else 0 else 1).
Lemma set_unless known l : Forall (fun x => good_row known (attrs x)) l -> set_unless_comma known l.
Proof.
  intros GR x p Hx Hp. rewrite Forall_forall in GR. specialize (GR x Hx). unfold replaced in Hp. apply in_flat_map in Hp as ([vs a] & Hin & Hp). cbn [fst snd] in Hp.
  assert (G : NoDup vs /\ (vs <> [] -> exists v, a = ADisc v /\ In v vs)).
  { clear -GR Hin. induction GR as [|k b known aa H HF IH]; [destruct Hin|]. destruct Hin as [[= -> ->]|Hin]; [exact H|exact (IH Hin)]. }
  destruct G as [ND G]. destruct vs as [|w vs]; [destruct Hp|]. destruct G as (v & -> & Hv); [discriminate|]. destruct Hp as [<-|[]].
  unfold shown_indicators. cbn [fst snd text]. unfold shown. destruct (String.eqb_spec v ",") as [E|N].
  - destruct (mem_str "comma" (w :: vs)) eqn:M.
    + apply mem_str_in in M. apply (indicators_one "comma"); assumption.
    + assert (Z : forall u, In u (w :: vs) -> u <> "comma") by (intros u Hu ->; apply mem_str_in in Hu; congruence).
      unfold indicators. cbn [fst snd]. clear -Z. unfold trues. induction (w :: vs) as [|u us IH]; [reflexivity|]. cbn [map filter].
      destruct (String.eqb_spec "comma" u) as [<-|]; [exfalso; apply (Z "comma"); [left; reflexivity|reflexivity]|]. apply IH. intros u' Hu. apply Z. right. exact Hu.
  - apply (indicators_one v); assumption.
Qed.
Theorem C42_continuous_partial : forall fmt s ks,
  consistent ks (insts s) -> insts s <> [] -> length (types (ddef s)) = length ks ->
  exists known s', known_values ks (insts s) known /\ to_continuous fmt s = Ok s' /\
    recoded known (fun p => map (fun b : bool => ACont (Fin (if b then 1 else 0)%Q)) (shown_indicators p)) s s' /\ set_unless_comma known (insts s).
Proof.
  intros fmt s ks H1 H2 H4.
  destruct (lary_filter_ok fmt enc_continuous (fun vs v => map (fun b : bool => ACont (Fin (if b then 1 else 0)%Q)) (indicators (vs, v))) (fun n => repeat TCont n) s ks H1 H2 H4) as (known & s' & K & E & _ & EI & GR).
  { intros d v ND. unfold enc_continuous, indicators. cbn [fst snd]. rewrite map_map.
    rewrite <- (dist_flags (fun b : bool => ACont (Fin (if b then 1 else 0)%Q)) d v ND). apply map_ext. intros j. destruct (Z.of_nat j =? dist_index d v)%Z; reflexivity. }
  exists known, s'. exact (conj K (conj E (conj EI (set_unless _ _ GR)))).
Qed.
Theorem C42_binary_partial : forall fmt s ks,
  consistent ks (insts s) -> insts s <> [] -> length (types (ddef s)) = length ks ->
  exists known s', known_values ks (insts s) known /\ to_binary fmt s = Ok s' /\
    recoded known (fun p => map (fun b : bool => ABin (if b then "true" else "false")) (shown_indicators p)) s s' /\ set_unless_comma known (insts s).
Proof.
  intros fmt s ks H1 H2 H4.
  destruct (lary_filter_ok fmt enc_binary (fun vs v => map (fun b : bool => ABin (if b then "true" else "false")) (indicators (vs, v))) (fun n => repeat TBin n) s ks H1 H2 H4) as (known & s' & K & E & _ & EI & GR).
  { intros d v ND. unfold enc_binary, indicators. cbn [fst snd]. rewrite map_map.
    rewrite <- (dist_flags (fun b : bool => ABin (if b then "true" else "false")) d v ND). apply map_ext. intros j. destruct (Z.of_nat j =? dist_index d v)%Z; reflexivity. }
  exists known, s'. exact (conj K (conj E (conj EI (set_unless _ _ GR)))).
Qed.
Print Assumptions C42_continuous_partial.
Print Assumptions C42_binary_partial.
Example C42_case : consistent [true] (insts (comma_ds [","; "dot"])) /\ insts (comma_ds [","; "dot"]) <> [].
Proof. split; [|discriminate]. unfold consistent, comma_ds. cbn. repeat (apply Forall_cons || apply Forall_nil || apply Forall2_cons || apply Forall2_nil); cbn; eexists; reflexivity. Qed.

(** * C43 *)
(** Before conversion the definition accepts every instance; afterwards it rejects the converted ones. *)
Definition accepts (s : dataset) : Prop := Forall (fun x => check_def (ddef s) x = Ok true) (insts s).
Definition col_ds : dataset := comma_ds ["red"; "blue"].
Theorem C43_refuted : accepts col_ds /\
  (exists s', to_continuous (fun _ => "") col_ds = Ok s' /\ Forall (fun x => check_def (ddef s') x = Ok false) (insts s')) /\
  (exists s', to_binary (fun _ => "") col_ds = Ok s' /\ Forall (fun x => check_def (ddef s') x = Ok false) (insts s')) /\
  (exists s', to_indexed (fun _ => "") col_ds = Ok s' /\ Forall (fun x => check_def (ddef s') x = Ok false) (insts s')).
Proof.
  split; [repeat (apply Forall_cons; [reflexivity|]); apply Forall_nil|].
  repeat split; (eexists; split; [vm_compute; reflexivity|]); repeat (apply Forall_cons; [vm_compute; reflexivity|]); apply Forall_nil.
Qed.
(** the same for principal components: two features become one, the definition still lists two *)
Theorem C43_pca_refuted : exists s s', accepts s /\ pca_filter (fun _ => Some [(d1, [d1; d0]); (d0, [d0; d1])]) 1 s = Ok s' /\
  types (ddef s') = [TCont; TCont] /\ Forall (fun x => length (attrs x) = 1) (insts s').
Proof.
  exists (mkDS [mkInst "p" [ACont d1; ACont d0] None; mkInst "n" [ACont d0; ACont d1] None] (def_of [TCont; TCont])). eexists.
  split; [repeat (apply Forall_cons; [reflexivity|]); apply Forall_nil|]. split; [vm_compute; reflexivity|]. split; [reflexivity|].
  repeat (apply Forall_cons; [reflexivity|]); apply Forall_nil.
Qed.
Print Assumptions C43_refuted.
Print Assumptions C43_pca_refuted.
(** What holds: the recoding filters never touch the definition, and change nothing when there is no discrete feature. *)
Theorem C43_partial : forall fmt s ks, consistent ks (insts s) -> insts s <> [] -> length (types (ddef s)) = length ks ->
  exists s1 s2 s3, to_continuous fmt s = Ok s1 /\ to_binary fmt s = Ok s2 /\ to_indexed fmt s = Ok s3 /\
    ddef s1 = ddef s /\ ddef s2 = ddef s /\ ddef s3 = ddef s /\
    (Forall (fun k => k = false) ks -> s1 = s /\ s2 = s /\ s3 = s).
Proof.
  intros fmt s ks H1 H2 H4.
  assert (W : forall encode f tf, (forall d v, NoDup (mkeys d) -> encode v (dist_index d v) (length d) = f (mkeys d) v) ->
     exists s', lary_filter fmt encode (convert_def tf) s = Ok s' /\ ddef s' = ddef s /\ (Forall (fun k => k = false) ks -> s' = s)).
  { intros encode f tf He. destruct (lary_filter_ok fmt encode f tf s ks H1 H2 H4 He) as (known & s' & [KL K] & E & ED & EI & GR). exists s'. split; [exact E|]. split; [exact ED|].
    intros HF. destruct s as [l d], s' as [l' d']. cbn [insts ddef] in *. subst d' l'. f_equal. rewrite <- (map_id l) at 2. apply map_ext_in. intros x Hx.
    assert (KN : Forall (fun vs => vs = []) known).
    { apply Forall_forall. intros vs Hvs. apply In_nth_error in Hvs as [i Hi]. destruct (nth_error ks i) as [k|] eqn:Ek.
      - destruct (K i k vs Ek Hi) as [_ Kk]. rewrite Forall_forall in HF. rewrite (HF k (nth_error_In _ _ Ek)) in Kk. exact Kk.
      - apply nth_error_None in Ek. assert (i < length known) by (apply nth_error_Some; congruence). lia. }
    assert (L : length known = length (attrs x)) by (rewrite KL; symmetry; eapply consistent_len; eassumption).
    assert (R : forall known aa, Forall (fun vs : list string => vs = []) known -> length known = length aa -> kept known aa = aa /\ replaced known aa = []).
    { clear. unfold kept, replaced. induction known as [|vs known IH]; intros [|a aa] HF L; try discriminate; [split; reflexivity|]. inversion HF as [|? ? -> HF']; subst.
      cbn [combine flat_map fst snd app]. destruct (IH aa HF' ltac:(now injection L)) as [E1 E2]. split; [f_equal; exact E1|exact E2]. }
    destruct (R known (attrs x) KN L) as [-> ->]. cbn. rewrite app_nil_r. destruct x; reflexivity. }
  destruct (W enc_continuous (fun vs v => map (fun w => ACont (if String.eqb v w then d1 else d0)) vs) (fun n => repeat TCont n)) as (s1 & A1 & B1 & C1).
  { intros d v ND. apply (dist_flags (fun b : bool => ACont (if b then d1 else d0)) d v ND). }
  destruct (W enc_binary (fun vs v => map (fun w => new_binary (String.eqb v w)) vs) (fun n => repeat TBin n)) as (s2 & A2 & B2 & C2).
  { intros d v ND. apply (dist_flags new_binary d v ND). }
  destruct (W enc_indexed (fun vs v => [AIdx v (value_index_from 0 v vs) (length vs)]) (fun _ => [TIdx])) as (s3 & A3 & B3 & C3).
  { intros d v ND. unfold enc_indexed, dist_index, mkeys. rewrite map_length. reflexivity. }
  exists s1, s2, s3. repeat split; try assumption; intros; [apply C1|apply C2|apply C3]; assumption.
Qed.
Print Assumptions C43_partial.

(** * C44 *)
(** feature [i] of a normalised instance *)
Definition nfeature (y : string * list nattr * option (list string)) (i : nat) (b : nattr) : Prop := nth_error (snd (fst y)) i = Some b.
(** [ks] says which features are numbers.  Every instance keeps its label, its list of possible labels, its number of
    features and its other features; a non-constant number feature gets mean 0 and standard deviation 1, by a common
    shift and positive scale; a constant one becomes NaN. *)
Theorem C44_normalize : forall ks l, number_columns ks l -> 2 <= length l ->
  exists r, normalize l = Ok r /\
    Forall2 (fun x y => fst (fst y) = label x /\ snd y = composite x /\ length (snd (fst y)) = length (attrs x) /\
                        forall i a, nth_error ks i = Some false -> nth_error (attrs x) i = Some a -> nfeature y i (NSame a)) l r /\
    forall i qs, nth_error ks i = Some true -> num_column (Z.of_nat i) l (map Fin qs) ->
      (constant qs -> Forall (fun y => nfeature y i (NCont RNaN)) r) /\
      (~ constant qs -> exists s rs, (0 < s)%R /\ rs = map (fun q => (Q2R (q + - qmean qs) / s)%R) qs /\
                        Forall2 (fun y v => nfeature y i (NCont (RFin v))) r rs /\
                        rsum rs = 0%R /\ rsum (map (fun v => v * v)%R rs) = INR (length l - 1)).
Proof.
  intros ks l H HL. assert (Hn : l <> []) by (destruct l; [cbn in HL; lia|congruence]). destruct (normalize_spec ks l H Hn) as (r & E & F).
  exists r. split; [exact E|].
  assert (LK : forall x, In x l -> length (attrs x) = length ks) by (intros x Hx; eapply numeric_len; eassumption). split.
  - clear E HL Hn H. assert (G : forall l1 r1, (forall x, In x l1 -> In x l) -> Forall2 (fun x y => exists bs, y = (label x, bs, composite x) /\ length bs = length ks /\
      (forall i a b, nth_error (attrs x) i = Some a -> nth_error bs i = Some b -> norm_out l ks i a b)) l1 r1 ->
      Forall2 (fun x y => fst (fst y) = label x /\ snd y = composite x /\ length (snd (fst y)) = length (attrs x) /\
                        forall i a, nth_error ks i = Some false -> nth_error (attrs x) i = Some a -> nfeature y i (NSame a)) l1 r1).
    { induction l1 as [|x l1 IH]; intros r1 HI HF; inversion HF as [|? y ? r1' (bs & -> & Lb & Hb) HF']; subst; [constructor|].
      constructor; [|apply IH; [intros z Hz; apply HI; right; exact Hz|exact HF']]. cbn [fst snd]. repeat split; [rewrite (LK x (HI x (or_introl eq_refl))); exact Lb|].
      intros i a Hk Ha. unfold nfeature. cbn [fst snd]. destruct (nth_error bs i) as [b|] eqn:Eb.
      - pose proof (Hb i a b Ha Eb) as O. unfold norm_out in O. rewrite Hk in O. rewrite O. reflexivity.
      - apply nth_error_None in Eb. assert (i < length ks) by (apply nth_error_Some; congruence). lia. }
    apply G; [intros x Hx; exact Hx|exact F].
  - intros i qs Hk Hq. pose proof (num_column_length _ _ _ Hq) as Lq.
    assert (Hi : i < length ks) by (apply nth_error_Some; congruence).
    assert (P : exists ms, Forall (fun m => (m == qmean qs)%Q) ms /\ Forall2 (fun y p => nfeature y i (NCont (rdivd (Fin (fst p + - snd p)) (RFin (sqrt (Q2R (sqdev qs / qofn (length qs - 1)))))))) r (combine qs ms) /\ length ms = length qs).
    { assert (G : forall l1 r1 qs1, num_column (Z.of_nat i) l1 (map Fin qs1) -> Forall2 (fun x y => exists bs, y = (label x, bs, composite x) /\ length bs = length ks /\
      (forall i a b, nth_error (attrs x) i = Some a -> nth_error bs i = Some b -> norm_out l ks i a b)) l1 r1 ->
       exists ms, Forall (fun m => (m == qmean qs)%Q) ms /\ Forall2 (fun y p => nfeature y i (NCont (rdivd (Fin (fst p + - snd p)) (RFin (sqrt (Q2R (sqdev qs / qofn (length qs - 1)))))))) r1 (combine qs1 ms) /\ length ms = length qs1).
      { induction l1 as [|x l1 IH]; intros r1 qs1 HC HF; inversion HF as [|? y ? r1' (bs & -> & Lb & Hb) HF']; subst.
        - destruct qs1; [|inversion HC]. exists []. split; [constructor|split; [constructor|reflexivity]].
        - destruct qs1 as [|q qs1]; [inversion HC|]. inversion HC as [|? ? ? ? [HC0 HC1] HC2]; subst.
          destruct (IH r1' qs1 HC2 HF') as (ms & M1 & M2 & M3). rewrite Nat2Z.id in HC1.
          destruct (nth_error bs i) as [b|] eqn:Eb; [|apply nth_error_None in Eb; lia].
          pose proof (Hb i _ b HC1 Eb) as O. unfold norm_out in O. rewrite Hk in O. destruct O as (qs' & q' & m & sd & O1 & O2 & O3 & O4 & O5).
          pose proof (num_column_fun _ _ _ _ O1 Hq) as ->. injection O2 as <-.
          exists (m :: ms). split; [constructor; assumption|]. split; [|cbn; f_equal; exact M3]. cbn [combine]. constructor; [|exact M2].
          unfold nfeature. cbn [fst snd]. rewrite Eb, O4, O5. replace (length l <=? 1) with false by (symmetry; apply Nat.leb_gt; lia). reflexivity. }
      apply (G l r qs Hq F). }
    destruct P as (ms & PM & PF & PL). split.
    + intros Hc. clear -Hc PM PF PL Lq HL. apply Forall_forall. intros y Hy. apply In_nth_error in Hy as [j Hj].
      destruct (nth_error (combine qs ms) j) as [p|] eqn:Ep.
      * pose proof (Forall2_nth _ _ _ j y p PF Hj Ep) as N. cbv beta in N. unfold nfeature in *. rewrite N. f_equal. f_equal. destruct p as [q m]. cbn [fst snd].
        apply nth_error_In in Ep. pose proof (in_combine_l _ _ _ _ Ep) as I1. pose proof (in_combine_r _ _ _ _ Ep) as I2. rewrite Forall_forall in PM.
        apply norm_constant; [lia|apply PM; exact I2|exact Hc|exact I1].
      * apply nth_error_None in Ep. rewrite <- (Forall2_len _ _ _ PF) in Ep. assert (j < length r) by (apply nth_error_Some; congruence). lia.
    + intros Hc. destruct (norm_column qs (qmean qs) ltac:(lia) (Qeq_refl _) Hc) as (S1 & S2 & S3). eexists. eexists. split; [exact S1|]. split; [reflexivity|]. split; [|split].
      * set (s := sqrt (Q2R (sqdev qs / qofn (length qs - 1)))) in *. clearbody s. clear -PM PF PL S1. revert r ms PM PF PL. generalize (qmean qs). intros mu. induction qs as [|q qs IH]; intros r ms PM PF PL.
        -- destruct ms; [|discriminate]. inversion PF; subst. constructor.
        -- destruct ms as [|m ms]; [discriminate|]. inversion PM as [|? ? Pm PM']; subst. cbn [combine] in PF. inversion PF as [|y ? r' ? Py PF']; subst. cbn [map]. constructor.
           ++ cbn [fst snd] in Py. unfold nfeature in *. rewrite Py. cbn [rdivd]. destruct (Req_EM_T s 0) as [Z|_]; [Lra.lra|]. do 3 f_equal. unfold Rdiv. f_equal. apply Qeq_eqR. rewrite Pm. reflexivity.
           ++ apply (IH r' ms PM' PF'). now injection PL.
      * exact S2.
      * rewrite map_map. rewrite S3, Lq. reflexivity.
Qed.
Print Assumptions C44_normalize.
(** with a single instance every number feature becomes NaN *)
Theorem C44_single : forall ks x, number_columns ks [x] ->
  exists bs, normalize [x] = Ok [(label x, bs, composite x)] /\ length bs = length (attrs x) /\
    forall i, nth_error ks i = Some true -> nth_error bs i = Some (NCont RNaN).
Proof.
  intros ks x H. destruct (normalize_spec ks [x] H) as (r & E & F); [discriminate|]. inversion F as [|? y ? r' (bs & -> & Lb & Hb) F']; subst. inversion F'; subst.
  exists bs. split; [exact E|]. pose proof (numeric_len _ _ x H (or_introl eq_refl)) as L. split; [congruence|]. intros i Hk.
  assert (Hi : i < length ks) by (apply nth_error_Some; congruence). destruct (numeric_get _ _ x i H (or_introl eq_refl) Hi) as [a Ea].
  destruct (nth_error bs i) as [b|] eqn:Eb; [|apply nth_error_None in Eb; lia]. pose proof (Hb i a b Ea Eb) as O. unfold norm_out in O. rewrite Hk in O.
  destruct O as (qs & q & m & sd & _ & _ & _ & -> & ->). cbn [length Nat.leb]. reflexivity.
Qed.
Print Assumptions C44_single.
Definition nx (c : string) (q : Q) (w : string) : instance := mkInst c [ACont (Fin q); ADisc w; ACont (Fin 7)] None.
Definition ex_ns : ilist := [nx "p" 1 "x"; nx "n" 2 "y"; nx "p" 3 "x"].
Example C44_case : number_columns [true; false; true] ex_ns /\ 2 <= length ex_ns /\
  num_column 0 ex_ns (map Fin [1; 2; 3]%Q) /\ ~ constant [1; 2; 3]%Q /\ num_column 2 ex_ns (map Fin [7; 7; 7]%Q) /\ constant [7; 7; 7]%Q.
Proof.
  split; [|split; [cbn; lia|split; [|split; [|split]]]].
  - unfold number_columns, ex_ns, nx. repeat (apply Forall_cons || apply Forall_nil || apply Forall2_cons || apply Forall2_nil); cbn; try (eexists; reflexivity); discriminate.
  - repeat (apply Forall2_cons || apply Forall2_nil); split; try reflexivity; unfold in_range; cbn; lia.
  - intros C. specialize (C 1%Q 2%Q (or_introl eq_refl) (or_intror (or_introl eq_refl))). vm_compute in C. discriminate C.
  - repeat (apply Forall2_cons || apply Forall2_nil); split; try reflexivity; unfold in_range; cbn; lia.
  - intros p q Hp Hq. cbn in Hp, Hq. destruct Hp as [<-|[<-|[<-|[]]]], Hq as [<-|[<-|[<-|[]]]]; reflexivity.
Qed.

(** * C86 *)
(** Asking for an explained share of the variance (or for nothing) walks an iterator that was never set. *)
Theorem C86_default_refuted : forall characteristics shape l, uniform shape l -> 2 <= length l ->
  (forall d m, square d m -> (forall i j, i < d -> j < d -> (mget m i j == mget m j i)%Q) -> exists ev, characteristics (map (map Fin) m) = Some ev) ->
  pca_train characteristics (-1) l = UB Uninit.
Proof.
  intros ch shape l H HL Hch. destruct (average_all shape l H ltac:(lia)) as (av & Ea & La & _).
  destruct (covariance_fin (dim shape) av l (map row l) HL La (uniform_rows shape l H)) as (m & Em & Sm & Hm).
  unfold pca_train. rewrite Ea. cbn [bind]. rewrite Em. cbn [bind]. destruct (Hch (dim shape) m Sm) as [ev ->]; [|reflexivity].
  intros i j Hi Hj. rewrite !Hm by assumption. apply Qmult_comp; [|reflexivity]. apply qsum_ext. intros r _. ring.
Qed.
Print Assumptions C86_default_refuted.
(** With a number of dimensions [k] that the eigenvectors can supply, every instance keeps its label and gets the [k]
    projections of its numbers on the first [k] eigenvectors of the covariance matrix. *)
Theorem C86_partial : forall characteristics shape s k, uniform shape (insts s) -> 2 <= length (insts s) ->
  (forall d m, square d m -> (forall i j, i < d -> j < d -> (mget m i j == mget m j i)%Q) ->
     exists ev, characteristics (map (map Fin) m) = Some (map (fun p => (Fin (fst p), map Fin (snd p))) ev) /\ k <= length ev /\ Forall (fun p => length (snd p) = d) ev) ->
  exists m ev s' vs, square (dim shape) m /\
    characteristics (map (map Fin) m) = Some (map (fun p => (Fin (fst p), map Fin (snd p))) ev) /\
    pca_filter characteristics (Z.of_nat k) s = Ok s' /\
    Forall2 (fun x v => inst_vals x = map Fin v) (insts s) vs /\
    (exists mu, length mu = dim shape /\ (forall i, i < dim shape -> (nth i mu 0 == qmean (col i vs))%Q) /\
      forall i j, i < dim shape -> j < dim shape ->
       (mget m i j == qsum (map (fun v => (nth i v 0 - nth i mu 0) * (nth j v 0 - nth j mu 0)) vs) / qofn (length (insts s) - 1))%Q) /\
    Forall2 (fun xv y => label y = label (fst xv) /\ composite y = composite (fst xv) /\
               exists ds, attrs y = map ACont ds /\ length ds = k /\
                          Forall2 (fun d e => deq d (Fin (qdot (snd xv) e))) ds (map snd (firstn k ev))) (combine (insts s) vs) (insts s').
Proof.
  intros ch shape s k H HL Hch. destruct (average_all shape (insts s) H ltac:(lia)) as (av & Ea & La & Hav).
  destruct (covariance_fin (dim shape) av (insts s) (map row (insts s)) HL La (uniform_rows shape _ H)) as (m & Em & Sm & Hm).
  destruct (Hch (dim shape) m Sm) as (ev & Ech & Lk & Fev).
  { intros i j Hi Hj. rewrite !Hm by assumption. apply Qmult_comp; [|reflexivity]. apply qsum_ext. intros r _. ring. }
  exists m, ev. eexists. exists (map row (insts s)). split; [exact Sm|]. split; [exact Ech|]. split; [|split; [|split]].
  - unfold pca_filter, pca_train. rewrite Ea. cbn [bind]. rewrite Em. cbn [bind]. rewrite Ech.
    replace (Z.of_nat k =? -1)%Z with false by (symmetry; apply Z.eqb_neq; lia).
    replace ((Z.of_nat k <? 0)%Z || (Z.of_nat (length (map (fun p : Q * list Q => (Fin (fst p), map Fin (snd p))) ev)) <? Z.of_nat k)%Z) with false
      by (rewrite map_length; symmetry; apply orb_false_intro; apply Z.ltb_ge; lia).
    cbn [bind]. rewrite Nat2Z.id, firstn_map, map_map. cbn [snd]. reflexivity.
  - pose proof (uniform_rows shape _ H) as R. eapply Forall2_imp; [|exact R]. intros x r [E _]. exact E.
  - exists av. split; [exact La|]. split; [exact Hav|]. exact Hm.
  - cbn [insts]. rewrite <- (map_map snd (map Fin)). assert (FE : Forall (fun e => length e = dim shape) (map snd (firstn k ev))).
    { apply Forall_forall. intros e He. apply in_map_iff in He as (p & <- & Hp). rewrite Forall_forall in Fev. apply Fev. rewrite <- (firstn_skipn k ev). apply in_or_app. left. exact Hp. }
    assert (LE : length (map snd (firstn k ev)) = k) by (rewrite map_length, firstn_length; lia).
    pose proof (uniform_rows shape _ H) as R. revert FE LE. generalize (map snd (firstn k ev)). intros es FE LE. clear -R FE LE.
    remember (map row (insts s)) as rows eqn:Er. clear Er. revert R. generalize (insts s). intros l R. induction R as [|x v l rows [E L] R IH]; [constructor|].
    cbn [combine map]. constructor; [|exact IH]. cbn [fst snd].
    destruct (pca_convert_spec es x v E) as (ds & Ec & Fd); [eapply Forall_impl; [|exact FE]; cbv beta; intros; congruence|]. rewrite Ec. cbn [label composite attrs].
    split; [reflexivity|]. split; [reflexivity|]. exists ds. split; [reflexivity|]. split; [rewrite (Forall2_len _ _ _ Fd); exact LE|exact Fd].
Qed.
Print Assumptions C86_partial.
(** more dimensions than eigenvectors: erasing past the end *)
Theorem C86_too_many_refuted : exists characteristics l k, uniform [None] l /\ 2 <= length l /\ pca_train characteristics k l = UB BadIndex /\
  (forall m, characteristics m = Some [(d1, [d1])]).
Proof.
  exists (fun _ => Some [(d1, [d1])]), [mkInst "p" [ACont (Fin 1)] None; mkInst "n" [ACont (Fin 2)] None], 2%Z.
  split; [repeat (apply Forall_cons || apply Forall_nil || apply Forall2_cons || apply Forall2_nil); eexists; reflexivity|]. split; [cbn; lia|]. split; [vm_compute; reflexivity|reflexivity].
Qed.
Print Assumptions C86_too_many_refuted.
Definition unit_rows (d : nat) : list (Q * list Q) := map (fun i => (1%Q, map (fun j => if Nat.eqb i j then 1%Q else 0%Q) (seq 0 d))) (seq 0 d).
Definition ch_ex (m : list (list dbl)) : option (list (dbl * list dbl)) := Some (map (fun p => (Fin (fst p), map Fin (snd p))) (unit_rows (length m))).
Example C86_case : uniform [None; None] [mkInst "p" [ACont (Fin 1); ACont (Fin 5)] None; mkInst "n" [ACont (Fin 2); ACont (Fin 3)] None] /\
  (forall d m, square d m -> exists ev, ch_ex (map (map Fin) m) = Some (map (fun p => (Fin (fst p), map Fin (snd p))) ev) /\ d <= length ev /\ Forall (fun p => length (snd p) = d) ev) /\
  exists s', pca_filter ch_ex 1 (mkDS [mkInst "p" [ACont (Fin 1); ACont (Fin 5)] None; mkInst "n" [ACont (Fin 2); ACont (Fin 3)] None] (def_of [TCont; TCont])) = Ok s' /\
    map label (insts s') = ["p"; "n"].
Proof.
  split; [repeat (apply Forall_cons || apply Forall_nil || apply Forall2_cons || apply Forall2_nil); eexists; reflexivity|]. split.
  - intros d m [L _]. exists (unit_rows d). unfold ch_ex. rewrite map_length, L. split; [reflexivity|]. unfold unit_rows. rewrite map_length, seq_length. split; [lia|].
    apply Forall_forall. intros p Hp. apply in_map_iff in Hp as (i & <- & _). cbn. rewrite map_length, seq_length. reflexivity.
  - eexists. split; [vm_compute; reflexivity|reflexivity].
Qed.
