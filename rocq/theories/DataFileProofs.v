(** Proofs about loading and writing data files. *)
From Coq Require Import String Ascii ZArith QArith Bool Lia Arith List.
From Verif Require Import Base Spec BaseLemmas AttrModel AttrProofs DataSetModel DataSetSpec DataSetProofs.
Import ListNotations.
Local Open Scope string_scope.
Local Open Scope list_scope.
Local Open Scope nat_scope.

(** ** Strings *)
Lemma sapp_assoc a b c : ((a ++ b) ++ c)%string = (a ++ b ++ c)%string.
Proof. induction a as [|x a IH]; simpl; [reflexivity|rewrite IH; reflexivity]. Qed.
Lemma sapp_nil_r a : (a ++ "")%string = a.
Proof. induction a as [|x a IH]; simpl; [reflexivity|rewrite IH; reflexivity]. Qed.
Lemma has_char_app c a b : has_char c (a ++ b)%string = has_char c a || has_char c b.
Proof. induction a as [|x a IH]; simpl; [reflexivity|rewrite IH, orb_assoc; reflexivity]. Qed.
Lemma split_lines_nonempty s : split_lines s <> [].
Proof. destruct s as [|c s]; simpl; [discriminate|]. destruct (Ascii.eqb c nl); [discriminate|]. destruct (split_lines s); discriminate. Qed.
Lemma split_lines_line s r : has_char nl s = false -> split_lines (s ++ String nl r)%string = s :: split_lines r.
Proof.
  induction s as [|c s IH]; intros H.
  - cbn [String.append split_lines]. rewrite Ascii.eqb_refl. reflexivity.
  - cbn [has_char] in H. apply orb_false_iff in H. destruct H as [H1 H2]. cbn [String.append split_lines].
    rewrite H1, IH by exact H2. reflexivity.
Qed.
Lemma has_char_join c sep l : has_char c sep = false -> Forall (fun s => has_char c s = false) l -> has_char c (join sep l) = false.
Proof.
  intros Hs H; induction H as [|x l Hx H IH]; [reflexivity|]. destruct l as [|y l]; [exact Hx|].
  cbn [join]. rewrite !has_char_app, Hx, Hs. exact IH.
Qed.
Lemma join_nonempty sep l : l <> [] -> Forall (fun s => s <> "") l -> join sep l <> "".
Proof.
  intros H F. destruct F as [|x l Hx F]; [contradiction|]. destruct l; [exact Hx|]. simpl. destruct x; [contradiction|discriminate].
Qed.
Lemma join_snoc sep l x : join sep (l ++ [x]) = (fold_right (fun a r => a ++ sep ++ r) x l)%string.
Proof.
  induction l as [|a l IH]; [reflexivity|]. cbn [app fold_right]. rewrite <- IH. destruct l; reflexivity.
Qed.

Fixpoint text (fmt : dbl -> string) (l : list instance) : string :=
  match l with [] => "" | x :: l' => (inst_string fmt x ++ String nl (text fmt l'))%string end.
Lemma write_file_text fmt s : write_file fmt s = text fmt (insts s).
Proof.
  unfold write_file.
  assert (G : forall l acc, fold_left (fun r x => (r ++ inst_string fmt x ++ String nl "")%string) l acc = (acc ++ text fmt l)%string).
  { induction l as [|x l IH]; intros acc; simpl; [rewrite sapp_nil_r; reflexivity|].
    rewrite IH, !sapp_assoc. reflexivity. }
  apply G.
Qed.
Lemma text_lines fmt l : Forall (fun x => has_char nl (inst_string fmt x) = false) l ->
  split_lines (text fmt l) = map (inst_string fmt) l ++ [""].
Proof.
  induction 1 as [|x l Hx H IH]; [reflexivity|]. cbn [text]. rewrite split_lines_line by exact Hx. rewrite IH. reflexivity.
Qed.

(** the label column *)
Definition label_col (x : instance) : string :=
  match composite x with None => label x | Some ls => join ";" (label x :: ls) end.
Lemma inst_string_join fmt x : inst_string fmt x = join "," (map (attr_string fmt) (attrs x) ++ [label_col x]).
Proof.
  rewrite join_snoc. unfold inst_string, label_col.
  assert (G1 : forall l acc t, (fold_left (fun r a => r ++ attr_string fmt a ++ ",") l acc ++ t)%string =
                 (acc ++ fold_right (fun a r => a ++ "," ++ r) t (map (attr_string fmt) l))%string).
  { induction l as [|a l IH]; intros acc t; [reflexivity|]. simpl. rewrite IH, !sapp_assoc. reflexivity. }
  assert (G2 : forall ls b, fold_left (fun r l => (r ++ ";" ++ l)%string) ls b = (b ++ fold_right (fun l r => (";" ++ l) ++ r) "" ls)%string).
  { induction ls as [|l ls IH]; intros b; [rewrite sapp_nil_r; reflexivity|]. cbn [fold_left fold_right]. rewrite IH, !sapp_assoc. reflexivity. }
  assert (G3 : forall ls l, join ";" (l :: ls) = (l ++ fold_right (fun l r => (";" ++ l) ++ r) "" ls)%string).
  { induction ls as [|m ls IH]; intros l; [simpl; rewrite sapp_nil_r; reflexivity|]. cbn [join fold_right].
    rewrite sapp_assoc. f_equal. f_equal. apply IH. }
  destruct (composite x) as [ls|].
  - rewrite G2, sapp_assoc, G1, G3. reflexivity.
  - rewrite G1. reflexivity.
Qed.

(** ** Loading *)
Section Loading.
  Variable split : string -> string -> list string.
  Variable stod : string -> res dbl.
  Notation line_attrs := (line_attrs stod).
  Notation load_row := (load_row split stod).
  Notation load_line := (load_line split stod).
  Notation column_attr := (column_attr stod).
  Notation line_instance := (line_instance split stod).
  Notation first_types := (first_types split stod).

  Fixpoint cols_rel (ts : list atype) (toks : list string) (l : list attr) : Prop :=
    match ts, toks, l with
    | [], [], [] => True
    | t :: ts, s :: toks, a :: l => column_attr t s a /\ cols_rel ts toks l
    | _, _, _ => False
    end.
  Lemma cols_rel_nth ts toks l :
    cols_rel ts toks l <->
    (length toks = length ts /\ length l = length ts /\
     forall j t s a, nth_error ts j = Some t -> nth_error toks j = Some s -> nth_error l j = Some a -> column_attr t s a).
  Proof.
    revert toks l; induction ts as [|t ts IH]; intros toks l.
    - simpl. split.
      + destruct toks, l; try tauto. intros _. repeat split. intros [|j] t s a Ht; discriminate.
      + intros (H1 & H2 & _). destruct toks, l; try discriminate. exact I.
    - split.
      + destruct toks as [|s toks], l as [|a l]; simpl; try tauto. intros [H1 H2]. apply IH in H2.
        destruct H2 as (L1 & L2 & H2). repeat split; [congruence|congruence|].
        intros [|j] t' s' a'; simpl; intros; [congruence|eauto].
      + intros (L1 & L2 & H). destruct toks as [|s toks]; [discriminate|]. destruct l as [|a l]; [discriminate|].
        simpl in *. split; [apply (H 0); reflexivity|]. apply IH. repeat split; try lia.
        intros j t' s' a' H1 H2 H3. apply (H (S j)); assumption.
  Qed.
  Lemma line_attrs_cases ts toks l : Forall basic ts -> length toks = length ts -> line_attrs ts toks = Ok l ->
    (length l = length ts /\ cols_rel ts toks l) \/ (length l < length ts /\ forall l', ~ cols_rel ts toks l').
  Proof.
    revert ts l; induction toks as [|s toks IH]; intros ts l Hb Hlen H.
    - destruct ts; [|discriminate]. injection H as <-. left; split; [reflexivity|exact I].
    - destruct ts as [|t ts]; [discriminate|]. cbn [DataSetModel.line_attrs] in H.
      inversion Hb as [|? ? Ht Hb']; subst. injection Hlen as Hlen.
      assert (exists a r, l = a ++ r /\ line_attrs ts toks = Ok r /\
        match t with TCont => match stod s with Ok v => a = [ACont v] | Throw InvalidArgument => a = [] | _ => False end
                   | TDisc => a = [ADisc s] | _ => False end) as (a & r & -> & Hr & Ha).
      { apply bind_ok in H. destruct H as (a & Ha & H). apply bind_ok in H. destruct H as (r & Hr & H). injection H as <-.
        exists a, r. split; [reflexivity|]. split; [exact Hr|]. destruct Ht as [-> | ->].
        - destruct (stod s) as [v|e| |]; try discriminate; [congruence|]. destruct e; congruence.
        - congruence. }
      destruct (IH _ _ Hb' Hlen Hr) as [[L C]|[L C]]; destruct Ht as [-> | ->].
      + destruct (stod s) as [v|e| |] eqn:Es; try contradiction.
        * subst. left. simpl. split; [congruence|]. split; [exists v; auto|exact C].
        * destruct e; try contradiction. subst. right. simpl. split; [lia|]. intros [|a l'] Hc; [exact Hc|].
          destruct Hc as [(v & Hv & _) _]. congruence.
      + subst. left. simpl. split; [congruence|]. split; [reflexivity|exact C].
      + destruct (stod s) as [v|e| |] eqn:Es; try contradiction.
        * subst. right. simpl. split; [lia|]. intros [|a l'] Hc; [exact Hc|]. destruct Hc as [_ Hc]. exact (C _ Hc).
        * destruct e; try contradiction. subst. right. simpl. split; [lia|]. intros [|a l'] Hc; [exact Hc|].
          destruct Hc as [(v & Hv & _) _]. congruence.
      + subst. right. simpl. split; [lia|]. intros [|a l'] Hc; [exact Hc|]. destruct Hc as [_ Hc]. exact (C _ Hc).
  Qed.
  Lemma line_label_ok lab x : line_label split lab = Ok x -> column_label split lab x /\ attrs x = [].
  Proof.
    unfold line_label, column_label, new_composite_labels. destruct (has_char ";" lab).
    - destruct (split lab ";") as [|l ls] eqn:E; [discriminate|]. intros [= <-]. simpl. split; [exists l, ls; auto|reflexivity].
    - intros [= <-]. simpl. auto.
  Qed.
  Lemma column_label_ext lab x y : column_label split lab x -> label y = label x -> composite y = composite x -> column_label split lab y.
  Proof. unfold column_label. intros H E1 E2. rewrite E1, E2. exact H. Qed.
  Lemma load_row_cases s toks line s' :
    Forall basic (types (ddef s)) -> split line "," = toks -> length toks = S (def_count (ddef s)) ->
    load_row s toks = Ok s' ->
    (exists x, line_instance (types (ddef s)) line x /\ s' = mkDS (insts s ++ [x]) (ddef s)) \/
    ((forall x, ~ line_instance (types (ddef s)) line x) /\ s' = s).
  Proof.
    intros Hb Hs Hlen H.
    assert (toks <> []) as Hne by (destruct toks; [discriminate|congruence]).
    destruct (exists_last Hne) as (cols & lab & E). rewrite E in *. clear E toks Hne.
    unfold DataSetModel.load_row in H. rewrite last_last, removelast_last in H.
    apply bind_ok in H. destruct H as (x & Hx & H). apply bind_ok in H. destruct H as (l & Hl & H).
    apply line_label_ok in Hx. destruct Hx as [Hx _].
    rewrite app_length in Hlen. simpl in Hlen. unfold def_count in *.
    assert (Hc : length cols = length (types (ddef s))) by lia.
    destruct (line_attrs_cases _ _ _ Hb Hc Hl) as [[L C]|[L C]].
    - rewrite L, Nat.eqb_refl in H. injection H as <-. left. eexists. split; [|reflexivity].
      apply cols_rel_nth in C. destruct C as (C1 & C2 & C3).
      exists cols, lab. split; [exact Hs|]. split; [eapply column_label_ext; [exact Hx|reflexivity|reflexivity]|].
      split; [exact C1|]. split; [exact C2|exact C3].
    - destruct (Nat.eqb_spec (length l) (length (types (ddef s)))); [lia|]. injection H as <-. right. split; [|reflexivity].
      intros y (cols' & lab' & E & _ & C1 & C2 & C3). rewrite Hs in E. apply app_inj_tail in E. destruct E as [<- <-].
      apply (C (attrs y)). apply cols_rel_nth. auto.
  Qed.
  Lemma load_rest lines s st : Forall basic (types (ddef s)) -> foldM load_line lines (false, s) = Ok st ->
    exists xs, stored split stod (types (ddef s)) lines xs /\ st = (false, mkDS (insts s ++ xs) (ddef s)).
  Proof.
    revert s; induction lines as [|l lines IH]; intros s Hb H.
    - injection H as <-. exists []. split; [constructor|]. rewrite app_nil_r. destruct s; reflexivity.
    - cbn [foldM] in H. apply bind_ok in H. destruct H as ([f s1] & H1 & H). unfold DataSetModel.load_line in H1.
      destruct (Nat.eqb_spec (length (split l ",")) (S (def_count (ddef s)))) as [E|E]; simpl in H1.
      + apply bind_ok in H1. destruct H1 as (s2 & H1 & E2). injection E2 as <- <-.
        destruct (load_row_cases s _ l s2 Hb eq_refl E H1) as [(x & Hx & ->)|[Hx ->]].
        * destruct (IH (mkDS (insts s ++ [x]) (ddef s)) Hb H) as (xs & S & ->). simpl in *. exists (x :: xs). split; [constructor; assumption|].
          rewrite <- app_assoc. reflexivity.
        * destruct (IH _ Hb H) as (xs & S & ->). exists xs. split; [constructor 3; assumption|reflexivity].
      + injection H1 as <- <-. destruct (IH _ Hb H) as (xs & S & ->). exists xs. split; [|reflexivity].
        constructor 3; [|exact S]. intros x (cols & lab & Es & _ & L & _). apply E. rewrite Es, app_length, L. simpl.
        unfold def_count. lia.
  Qed.
  Lemma col_types_basic toks ts : mapM (col_type stod) toks = Ok ts -> Forall basic ts.
  Proof.
    intros H. apply mapM_ok in H. induction H as [|s t toks ts H _ IH]; [constructor|]. constructor; [|exact IH].
    unfold col_type in H. unfold basic. destruct (stod s) as [|e| |]; try discriminate; [left; congruence|]. destruct e; try discriminate. right; congruence.
  Qed.
  Lemma load_file_spec content s : load_file split stod content = Ok s ->
    exists first rest, split_lines content = first :: rest /\
      first_types first (types (ddef s)) /\ Forall basic (types (ddef s)) /\ vlists (ddef s) = [] /\
      stored split stod (types (ddef s)) (first :: rest) (insts s).
  Proof.
    unfold load_file. intros H. apply bind_ok in H. destruct H as ([f s'] & H & E). injection E as <-. simpl.
    destruct (split_lines content) as [|first rest] eqn:El; [elim (split_lines_nonempty _ El)|].
    exists first, rest. split; [reflexivity|]. cbn [foldM] in H. apply bind_ok in H. destruct H as (st & H1 & H).
    unfold DataSetModel.load_line in H1. destruct (split first ",") as [|t0 toks0] eqn:Es; [discriminate|].
    remember (t0 :: toks0) as toks eqn:Et.
    assert (Hne : toks <> []) by (rewrite Et; discriminate).
    destruct (exists_last Hne) as (cols & lab & E). rewrite E in *. clear E.
    apply bind_ok in H1. destruct H1 as (ts & Hts & H1). apply bind_ok in H1. destruct H1 as (s1 & H1 & E). injection E as <-.
    rewrite removelast_last in Hts.
    assert (Hb : Forall basic ts) by (eapply col_types_basic; exact Hts).
    assert (Hf : Forall2 (fun s t => (t = TCont /\ exists v, stod s = Ok v) \/ (t = TDisc /\ stod s = Throw InvalidArgument)) cols ts).
    { apply mapM_ok in Hts. eapply Forall2_imp; [|exact Hts]. intros s2 t H2. unfold col_type in H2.
      destruct (stod s2) as [v|e| |]; try discriminate; [left; split; [congruence|eauto]|]. destruct e; try discriminate.
      right; split; congruence. }
    assert (Hlen : length (cols ++ [lab]) = S (length ts)).
    { rewrite app_length, (Forall2_len _ _ _ Hf). simpl; lia. }
    cbn [insts ddef types vlists ds_empty def_empty app] in H1.
    destruct (load_row_cases (mkDS [] (mkDef ts [])) _ first s1 Hb Es Hlen H1) as [(x & Hx & ->)|[Hx ->]].
    - destruct (load_rest _ (mkDS ([] ++ [x]) (mkDef ts [])) _ Hb H) as (xs & S & Exs). injection Exs as _ Es'; subst s'. simpl in *.
      split; [exists cols, lab; auto|]. split; [exact Hb|]. split; [reflexivity|]. constructor; assumption.
    - destruct (load_rest _ (mkDS [] (mkDef ts [])) _ Hb H) as (xs & S & Exs). injection Exs as _ Es'; subst s'. simpl in *.
      split; [exists cols, lab; auto|]. split; [exact Hb|]. split; [reflexivity|]. constructor 3; assumption.
  Qed.
  Lemma line_instance_conforms ts line x : Forall basic ts -> line_instance ts line x -> conforms_exactly ts x.
  Proof.
    intros Hb (cols & lab & _ & _ & L1 & L2 & H). unfold conforms_exactly.
    assert (C : cols_rel ts cols (attrs x)) by (apply cols_rel_nth; auto).
    clear -Hb C. revert cols C. generalize (attrs x). induction Hb as [|t ts Ht Hb IH]; intros l cols C.
    - destruct cols, l; simpl in C; tauto.
    - destruct cols as [|s cols], l as [|a l]; simpl in C; try tauto. destruct C as [Ca C].
      simpl. f_equal; [|eapply IH; exact C]. destruct Ht as [-> | ->]; simpl in Ca.
      + destruct Ca as (v & _ & ->). reflexivity.
      + subst; reflexivity.
  Qed.
  Lemma stored_conforms ts lines xs : Forall basic ts -> stored split stod ts lines xs -> Forall (conforms_exactly ts) xs.
  Proof.
    intros Hb H; induction H; [constructor| |assumption]. constructor; [eapply line_instance_conforms; eauto|assumption].
  Qed.

  (** success *)
  Lemma line_attrs_total ts toks : (forall s, (exists v, stod s = Ok v) \/ stod s = Throw InvalidArgument) ->
    length toks = length ts -> exists l, line_attrs ts toks = Ok l.
  Proof.
    intros Hs. revert ts; induction toks as [|s toks IH]; intros ts Hl; [destruct ts; [exists []; reflexivity|discriminate]|].
    destruct ts as [|t ts]; [discriminate|]. injection Hl as Hl. destruct (IH _ Hl) as [r Hr].
    cbn [DataSetModel.line_attrs]. rewrite Hr. destruct t; simpl; eauto. destruct (Hs s) as [[v ->]| ->]; simpl; eauto.
  Qed.
  Lemma load_row_total s toks : (forall s, (exists v, stod s = Ok v) \/ stod s = Throw InvalidArgument) ->
    (forall s, split s ";" <> []) -> length toks = S (def_count (ddef s)) -> exists s', load_row s toks = Ok s' /\ ddef s' = ddef s.
  Proof.
    intros Hs Hl Hlen. unfold DataSetModel.load_row, line_label, new_composite_labels.
    assert (Hlen' : length (removelast toks) = length (types (ddef s))).
    { assert (toks <> []) as Hne by (destruct toks; [discriminate|congruence]).
      destruct (exists_last Hne) as (c & lab & ->). rewrite removelast_last. rewrite app_length in Hlen. unfold def_count in Hlen. simpl in Hlen; lia. }
    destruct (line_attrs_total _ _ Hs Hlen') as [l El].
    destruct (has_char ";" (last toks "")).
    - destruct (split (last toks "") ";") as [|a b] eqn:E; [elim (Hl _ E)|]. simpl. rewrite El. simpl. destruct (_ =? _); eauto.
    - simpl. rewrite El. simpl. destruct (_ =? _); eauto.
  Qed.
  Lemma load_file_total content : (forall s, (exists v, stod s = Ok v) \/ stod s = Throw InvalidArgument) ->
    (forall s, split s ";" <> []) -> (forall first rest, split_lines content = first :: rest -> split first "," <> []) ->
    exists s, load_file split stod content = Ok s.
  Proof.
    intros Hs Hl Hf. unfold load_file. destruct (split_lines content) as [|first rest] eqn:El; [elim (split_lines_nonempty _ El)|].
    specialize (Hf _ _ eq_refl). cbn [foldM]. unfold DataSetModel.load_line at 1.
    destruct (split first ",") as [|t toks] eqn:E; [contradiction|]. clear E.
    assert (exists ts, mapM (col_type stod) (removelast (t :: toks)) = Ok ts /\ length ts = length toks) as (ts & Ets & Lts).
    { assert (length (removelast (t :: toks)) = length toks) as <-.
      { assert (t :: toks <> []) as Hne by discriminate. destruct (exists_last Hne) as (c & lab & E). rewrite E, removelast_last.
        assert (length (t :: toks) = length (c ++ [lab])) as L by (rewrite E; reflexivity). rewrite app_length in L. simpl in L. lia. }
      induction (removelast (t :: toks)) as [|s l IH]; [exists []; auto|]. destruct IH as (ts & E & L). cbn [mapM]. rewrite E.
      unfold col_type. destruct (Hs s) as [[v ->]| ->]; simpl; eexists; split; try reflexivity; simpl; congruence. }
    rewrite Ets. cbn [bind insts ddef types vlists ds_empty def_empty app].
    destruct (load_row_total (mkDS [] (mkDef ts [])) (t :: toks) Hs Hl) as (s1 & E1 & D1); [unfold def_count; simpl; congruence|].
    rewrite E1. cbn [bind]. clear E1.
    assert (G : forall lines s, exists st, foldM load_line lines (false, s) = Ok st).
    { induction lines as [|l lines IH]; intros s; [eexists; reflexivity|]. cbn [foldM]. unfold DataSetModel.load_line at 1.
      destruct (Nat.eqb_spec (length (split l ",")) (S (def_count (ddef s)))) as [E|E]; simpl.
      - destruct (load_row_total s _ Hs Hl E) as (s2 & E2 & _). rewrite E2. simpl. apply IH.
      - apply IH. }
    destruct (G rest s1) as [st ->]. simpl. eauto.
  Qed.

  (** ** Round trip *)
  Variable fmt : dbl -> string.
  Notation writable_attr := (writable_attr stod fmt).
  Notation writable := (writable stod fmt).
  Notation recognisable := (recognisable stod).
  Lemma writable_attr_string a : writable_attr a -> clean (attr_string fmt a).
  Proof.
    destruct a as [v|v|v k m|v]; simpl; try tauto. intros H. destruct (String.eqb_spec v ",") as [->|]; [|exact H].
    destruct H as (_ & H & _). discriminate.
  Qed.
  Lemma label_col_clean x : writable x -> clean (label_col x).
  Proof.
    intros (_ & [Hl Hs] & Hc). unfold label_col. destruct (composite x) as [ls|]; [|exact Hl]. destruct Hc as [Hn Hc].
    assert (F : Forall clean (label x :: ls)) by (constructor; [exact Hl|eapply Forall_impl; [|exact Hc]; intros y [Hy _]; exact Hy]).
    split; [|split].
    - apply join_nonempty; [discriminate|]. eapply Forall_impl; [|exact F]. intros y (Hy & _); exact Hy.
    - apply has_char_join; [reflexivity|]. eapply Forall_impl; [|exact F]. intros y (_ & Hy & _); exact Hy.
    - apply has_char_join; [reflexivity|]. eapply Forall_impl; [|exact F]. intros y (_ & _ & Hy); exact Hy.
  Qed.
  Lemma inst_tokens_clean x : writable x -> Forall clean (map (attr_string fmt) (attrs x) ++ [label_col x]).
  Proof.
    intros H. apply Forall_app. split; [|constructor; [apply label_col_clean; exact H|constructor]].
    destruct H as [H _]. induction H; simpl; constructor; auto. apply writable_attr_string; assumption.
  Qed.
  Lemma inst_string_nl x : writable x -> has_char nl (inst_string fmt x) = false.
  Proof.
    intros H. rewrite inst_string_join. apply has_char_join; [reflexivity|].
    eapply Forall_impl; [|apply inst_tokens_clean; exact H]. intros y (_ & _ & Hy); exact Hy.
  Qed.
  Lemma split_inst_string x : split_ok split "," -> writable x ->
    split (inst_string fmt x) "," = map (attr_string fmt) (attrs x) ++ [label_col x].
  Proof.
    intros [Hs _] H. rewrite inst_string_join. apply Hs; [intros E; apply app_eq_nil in E; destruct E; discriminate|].
    eapply Forall_impl; [|apply inst_tokens_clean; exact H]. intros y (H1 & H2 & _); split; assumption.
  Qed.
  Lemma line_attrs_roundtrip l : Forall writable_attr l -> line_attrs (map attr_type l) (map (attr_string fmt) l) = Ok l.
  Proof.
    induction 1 as [|a l Ha H IH]; [reflexivity|]. cbn [map DataSetModel.line_attrs]. rewrite IH.
    destruct a as [v|v|v k m|v]; simpl in Ha; try tauto.
    - simpl. destruct (String.eqb_spec v ",") as [->|]; [|reflexivity]. destruct Ha as (_ & Ha & _). discriminate.
    - destruct Ha as [_ Ha]. simpl. rewrite Ha. reflexivity.
  Qed.
  Lemma line_label_roundtrip x : split_ok split ";" -> writable x ->
    line_label split (label_col x) = Ok (mkInst (label x) [] (composite x)).
  Proof.
    intros [Hs _] (_ & [Hl Hsc] & Hc). unfold line_label, label_col, new_composite_labels. destruct (composite x) as [ls|].
    - destruct Hc as [Hn Hc]. assert (has_char ";" (join ";" (label x :: ls)) = true) as ->.
      { destruct ls as [|l ls]; [contradiction|]. cbn [join]. rewrite !has_char_app. simpl. rewrite orb_true_r. reflexivity. }
      rewrite Hs; [reflexivity|discriminate|].
      constructor; [split; [apply Hl|exact Hsc]|]. eapply Forall_impl; [|exact Hc]. intros y [(Hy & _) Hy']; split; assumption.
    - rewrite Hsc. reflexivity.
  Qed.
  Lemma load_row_roundtrip s x : split_ok split ";" -> writable x -> conforms_exactly (types (ddef s)) x ->
    load_row s (map (attr_string fmt) (attrs x) ++ [label_col x]) = Ok (mkDS (insts s ++ [x]) (ddef s)).
  Proof.
    intros Hs Hw Hc. unfold DataSetModel.load_row. rewrite last_last, removelast_last, line_label_roundtrip by assumption.
    cbn [bind]. rewrite Hc, line_attrs_roundtrip by apply Hw. cbn [bind]. unfold def_count. rewrite Hc, map_length, Nat.eqb_refl.
    destruct x; reflexivity.
  Qed.
  Lemma load_line_roundtrip s x : split_ok split "," -> split_ok split ";" -> writable x -> conforms_exactly (types (ddef s)) x ->
    load_line (false, s) (inst_string fmt x) = Ok (false, mkDS (insts s ++ [x]) (ddef s)).
  Proof.
    intros H1 H2 Hw Hc. unfold DataSetModel.load_line. rewrite split_inst_string by assumption.
    rewrite app_length, map_length. simpl length. unfold def_count. rewrite Hc at 1. rewrite map_length, Nat.add_1_r, Nat.eqb_refl. simpl negb.
    cbv iota. rewrite load_row_roundtrip by assumption. reflexivity.
  Qed.
  Lemma col_types_roundtrip l : Forall writable_attr l -> (forall v, In (ADisc v) l -> stod v = Throw InvalidArgument) ->
    mapM (col_type stod) (map (attr_string fmt) l) = Ok (map attr_type l).
  Proof.
    induction 1 as [|a l Ha H IH]; intros Hr; [reflexivity|]. cbn [map mapM].
    rewrite IH by (intros v Hv; apply Hr; right; exact Hv).
    destruct a as [v|v|v k m|v]; simpl in Ha; try tauto; simpl.
    - destruct (String.eqb_spec v ",") as [->|]; [destruct Ha as (_ & Ha & _); discriminate|].
      unfold col_type. rewrite (Hr v (or_introl eq_refl)). reflexivity.
    - unfold col_type. destruct Ha as [_ ->]. reflexivity.
  Qed.
  Lemma roundtrip ts x0 rest :
    split_ok split "," -> split_ok split ";" -> ts <> [] ->
    Forall writable (x0 :: rest) -> Forall (conforms_exactly ts) (x0 :: rest) -> recognisable x0 ->
    forall d, load_file split stod (write_file fmt (mkDS (x0 :: rest) d)) = Ok (mkDS (x0 :: rest) (def_of ts)).
  Proof.
    intros H1 H2 Hts Hw Hc Hr d. rewrite write_file_text. unfold load_file. cbn [insts].
    rewrite text_lines by (eapply Forall_impl; [|exact Hw]; intros; apply inst_string_nl; assumption).
    inversion Hw as [|? ? Hw0 Hw']; inversion Hc as [|? ? Hc0 Hc']; subst. cbn [map app foldM].
    unfold DataSetModel.load_line at 1. rewrite split_inst_string by assumption.
    destruct (map (attr_string fmt) (attrs x0) ++ [label_col x0]) as [|t0 toks0] eqn:Et; [apply app_eq_nil in Et; destruct Et; discriminate|].
    rewrite <- Et. clear Et t0 toks0. rewrite removelast_last, col_types_roundtrip; [|apply Hw0|exact Hr].
    cbn [bind insts ddef types vlists ds_empty def_empty app].
    rewrite load_row_roundtrip by (assumption || reflexivity). cbn [bind app insts ddef].
    assert (G : forall l acc, Forall writable l -> Forall (conforms_exactly ts) l ->
       foldM load_line (map (inst_string fmt) l ++ [""]) (false, mkDS acc (def_of ts)) = Ok (false, mkDS (acc ++ l) (def_of ts))).
    { induction l as [|x l IH]; intros acc Hwl Hcl.
      - cbn [map app foldM]. unfold DataSetModel.load_line. unfold def_count; simpl types.
        destruct (Nat.eqb_spec (length (split "" ",")) (S (length ts))) as [E|E].
        + destruct H1 as [_ H1]. destruct ts; [contradiction|]. simpl in E, H1. rewrite E in H1. simpl in H1; lia.
        + simpl. rewrite app_nil_r. reflexivity.
      - inversion Hwl; inversion Hcl; subst. cbn [map app foldM]. rewrite load_line_roundtrip by assumption. cbn [bind].
        rewrite IH by assumption. cbn [insts ddef]. rewrite <- app_assoc. reflexivity. }
    unfold conforms_exactly in Hc0. rewrite <- Hc0. fold (def_of ts). rewrite G by assumption. reflexivity.
  Qed.
End Loading.

(** ** The example splitter meets the contract *)
Lemma split_at_token c s cur r : has_char c s = false -> (cur ++ s)%string <> "" ->
  split_at c (s ++ String c r)%string cur = (cur ++ s)%string :: split_at c r "".
Proof.
  revert cur; induction s as [|d s IH]; intros cur H Hn.
  - rewrite sapp_nil_r in *. cbn [String.append split_at]. rewrite Ascii.eqb_refl. destruct (String.eqb_spec cur ""); [contradiction|reflexivity].
  - cbn [has_char] in H. apply orb_false_iff in H. destruct H as [Hd H]. cbn [String.append split_at]. rewrite Hd.
    rewrite IH; [rewrite sapp_assoc; reflexivity|exact H|rewrite sapp_assoc; exact Hn].
Qed.
Lemma split_at_last c s cur : has_char c s = false -> (cur ++ s)%string <> "" -> split_at c s cur = [(cur ++ s)%string].
Proof.
  revert cur; induction s as [|d s IH]; intros cur H Hn.
  - rewrite sapp_nil_r in *. simpl. destruct (String.eqb_spec cur ""); [contradiction|reflexivity].
  - cbn [has_char] in H. apply orb_false_iff in H. destruct H as [Hd H]. cbn [split_at]. rewrite Hd.
    rewrite IH; [rewrite sapp_assoc; reflexivity|exact H|rewrite sapp_assoc; exact Hn].
Qed.
Lemma split_ex_ok c : split_ok split_ex c.
Proof.
  split; [|simpl; lia]. intros toks Hn F. unfold split_ex. induction F as [|x l [Hx Hc] F IH]; [contradiction|].
  destruct l as [|y l].
  - cbn [join]. apply split_at_last; assumption.
  - change (join (String c "") (x :: y :: l)) with (x ++ String c (join (String c "") (y :: l)))%string.
    rewrite split_at_token by assumption. f_equal. apply IH. discriminate.
Qed.
