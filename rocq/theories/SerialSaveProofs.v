(** What becomes of the files the library writes. *)
From Coq Require Import String Ascii ZArith QArith Bool Lia List.
From Verif Require Import Base Spec BaseLemmas AttrModel DataSetModel DataSetSpec InstanceListModel TreeModel TreeGrowProofs GaussianModel SvmModel NetModel
  SvmTrainProofs SerialModel SerialSpec SerialProofs SerialLoadProofs.
Import ListNotations.
Local Open Scope string_scope.
Local Open Scope list_scope.
Local Open Scope nat_scope.

Definition plain_attr (a : attr) : bool := negb (isDiscreteIndexed a).
Lemma types_start l : existsb plain_attr l = true -> exists t r, concat_str (map type_word l) = (t ++ r)%string /\ word t /\ no_integer t.
Proof.
  induction l as [|a l IH]; [discriminate|]. intros H. change (concat_str (map type_word (a :: l))) with (type_word a ++ concat_str (map type_word l))%string.
  destruct a as [v|v|v i m|v].
  - exists "Discrete", (" " ++ concat_str (map type_word l))%string. split; [reflexivity|]. split; [split; [discriminate|reflexivity]|]. repeat split; discriminate.
  - exists "Binary", (" " ++ concat_str (map type_word l))%string. split; [reflexivity|]. split; [split; [discriminate|reflexivity]|]. repeat split; discriminate.
  - simpl in H. destruct (IH H) as (t & r & E & Ht & Hn). exists t, r. simpl. auto.
  - exists "Continuous", (" " ++ concat_str (map type_word l))%string. split; [reflexivity|]. split; [split; [discriminate|reflexivity]|]. repeat split; discriminate.
Qed.
Lemma show_nat_cons n : exists c r, show_nat n = String c r /\ is_digit c = true /\ all_chars is_digit r = true.
Proof.
  destruct (show_Z_shape (Z.of_nat n)) as (u & Hu & E & _). unfold show_nat. rewrite E.
  assert ((Z.of_nat n <? 0)%Z = false) as -> by (apply Z.ltb_ge; lia).
  destruct (uint_nonempty u Hu) as (c & r & Es & Hc). exists c, r. split; [exact Es|]. split; [exact Hc|].
  pose proof (digits_uint u) as H. rewrite Es in H. simpl in H. apply andb_true_iff in H. exact (proj2 H).
Qed.
Lemma digits_no_nl s : all_chars is_digit s = true -> has_char nl s = false.
Proof.
  induction s as [|c s IH]; [reflexivity|]. simpl. intros H. apply andb_true_iff in H. destruct H as [Hc Hs]. rewrite (IH Hs), orb_false_r.
  destruct (Ascii.eqb_spec c nl); [subst; discriminate Hc|reflexivity].
Qed.
(** after the first line, the reader meets a type word where it wants the number of rows *)
Lemma list_read_lost words split stof c first t r : has_char nl first = false -> word t -> no_integer t ->
  list_read words split stof (mkIn (String c (first ++ String nl (t ++ r)))%string true) = Ok ([], failed).
Proof.
  intros Hf Ht Hn. unfold list_read. unfold rbind at 1. cbn [rd_ignore good SerialModel.rest bind fst snd].
  rewrite (rbind_ok (rd_line "") _ _ first (mkIn (t ++ r)%string true)).
  2: { unfold rd_line. cbn [good SerialModel.rest]. rewrite (cut_line_at _ _ Hf). reflexivity. }
  cbv zeta. rewrite (rbind_ok (rd_int None) _ _ (Some 0%Z) failed); [reflexivity|]. apply (int_none None "" t r eq_refl Ht Hn).
Qed.
Lemma list_text_lost words split stof fmt l x0 text : hd_error l = Some x0 -> existsb plain_attr (attrs x0) = true -> list_text fmt l = Ok text ->
  list_read words split stof (mkIn text true) = Ok ([], failed) /\
  list_read words split stof (mkIn (String nl text) true) = Ok ([], failed).
Proof.
  intros H0 Hp E. unfold list_text in E. destruct l as [|y l]; [discriminate H0|]. injection H0 as ->. change (atn (x0 :: l) 0) with (Ok (A := instance) x0) in E. cbn [bind] in E.
  injection E as <-. destruct (types_start _ Hp) as (t & r & Et & Ht & Hn). rewrite Et.
  destruct (show_nat_cons (attr_count x0)) as (c & d & Ec & Hc & Hd). rewrite Ec.
  match goal with |- context[(line (t ++ r) ++ ?u)%string] => generalize u end. intros tl.
  assert (line (String c d) ++ line (t ++ r) ++ tl = String c d ++ String nl (t ++ (r ++ String nl tl)))%string as ->.
  { unfold line. rewrite !sapp_assoc. reflexivity. }
  split.
  - change (String c d ++ String nl (t ++ r ++ String nl tl))%string with (String c (d ++ String nl (t ++ (r ++ String nl tl))))%string.
    apply list_read_lost; try assumption. apply digits_no_nl, Hd.
  - apply list_read_lost; try assumption. apply digits_no_nl. simpl. rewrite Hc, Hd. reflexivity.
Qed.
Lemma knn_lost words split stof fmt old k l x0 text : is_int k -> hd_error l = Some x0 -> existsb plain_attr (attrs x0) = true -> knn_text fmt k l = Ok text ->
  knn_load words split stof old (mkIn text true) = Ok ((Some k, []), failed).
Proof.
  intros Hk H0 Hp E. unfold knn_text in E. apply bind_ok in E. destruct E as (lt & El & E). injection E as <-.
  unfold knn_load, line. rewrite sapp_assoc. cbn [String.append].
  rewrite (rbind_ok (rd_int old) _ _ (Some k) (mkIn (String nl lt) true)).
  2: { apply (int_shown old "" k nl lt eq_refl eq_refl Hk). }
  rewrite (rbind_ok _ _ _ _ _ (proj2 (list_text_lost words split stof fmt l x0 lt H0 Hp El))). reflexivity.
Qed.

(** ** random *)
Lemma random_lost sd labels l0 ls : labels = l0 :: ls -> word l0 -> no_integer l0 -> is_int (Z.of_nat (List.length labels)) ->
  random_load sd [] (mkIn (random_text labels) true) = Ok ((Some (Z.of_nat (List.length labels)), []), failed).
Proof.
  intros El Hw Hn Hi. unfold random_load, random_text. unfold line at 1. rewrite sapp_assoc. cbn [String.append].
  set (n := List.length labels) in *. set (tl := concat_str (map line labels)).
  rewrite (rbind_ok (rd_int sd) _ _ (Some (Z.of_nat n)) (mkIn (String nl tl) true)).
  2: { apply (int_shown sd "" (Z.of_nat n) nl tl eq_refl eq_refl Hi). }
  rewrite (rbind_ok (rd_int None) _ _ (Some 0%Z) failed); [reflexivity|].
  unfold tl. rewrite El. cbn [map]. change (concat_str (line l0 :: map line ls)) with (line l0 ++ concat_str (map line ls))%string. unfold line at 1. rewrite sapp_assoc.
  apply (int_none None (String nl "") l0); [reflexivity|exact Hw|exact Hn].
Qed.

Section Saves.
  Context (words : string -> list string) (split : string -> string -> list string) (stof : string -> res dbl) (fmt show : dbl -> string).
  Context (scan : string -> option (dbl * string)) (w_dist : counter -> string) (r_dist : rd counter) (w_vec : list dbl -> string) (r_vec : rd (list dbl)).

  (** ** trees *)
  Lemma cond_text_inner c : inner_cond c -> exists r, cond_text fmt c = Ok (line (show_Z (c_index c)) ++ String (cmp_char (c_cmp c)) (String nl r))%string.
  Proof.
    intros [Hi Hv]. unfold cond_text. assert ((c_index c =? -1)%Z = false) as -> by (apply Z.eqb_neq; lia).
    destruct (c_value c) as [a|]; [|congruence]. cbn [bind]. eexists. reflexivity.
  Qed.
  Lemma node_text_start n s : inner_cond (t_cond n) -> node_text fmt n = Ok s ->
    exists r, s = (show_Z (c_index (t_cond n)) ++ String nl (String (cmp_char (c_cmp (t_cond n))) (String nl r)))%string.
  Proof.
    destruct n as [lab lf d c ch]. cbn [t_cond]. intros Hc E. destruct (cond_text_inner c Hc) as (r & Er). cbn [node_text] in E. rewrite Er in E. cbn [bind] in E.
    match type of E with bind ?x _ = _ => destruct x as [b| | |]; try discriminate E end. cbn [bind] in E. injection E as <-.
    unfold line. rewrite !sapp_assoc. cbn [String.append]. eexists. reflexivity.
  Qed.
  Lemma tree_text_start lab lf d n ch s : inner_cond (t_cond n) -> node_text fmt (Node lab lf d no_condition (n :: ch)) = Ok s ->
    exists r, s = ("-1" ++ String nl (show_nat (S (List.length ch)) ++ String nl (show_Z (c_index (t_cond n)) ++ String nl (String (cmp_char (c_cmp (t_cond n))) (String nl r)))))%string.
  Proof.
    intros Hc E. cbn [node_text] in E. change (cond_text fmt no_condition) with (Ok (A := string) (line "-1")) in E. cbn [bind] in E.
    destruct (node_text fmt n) as [x| | |] eqn:En; try discriminate E. cbn [bind] in E.
    match type of E with bind (bind ?x _) _ = _ => destruct x as [b| | |]; try discriminate E end. cbn [bind] in E. injection E as <-.
    destruct (node_text_start n x Hc En) as (r & ->). unfold line. cbn [String.append]. rewrite ?sapp_assoc. cbn [String.append]. rewrite ?sapp_assoc. cbn [String.append].
    exists (r ++ b)%string. reflexivity.
  Qed.
  Lemma cmp_word c : word (String (cmp_char c) "") /\ no_integer (String (cmp_char c) "").
  Proof. destruct c; (split; [split; [discriminate|reflexivity]|]; repeat split; discriminate). Qed.
  Lemma node_read_failed fuel : node_read stof r_dist (S fuel) failed = UB Uninit.
  Proof. reflexivity. Qed.
  Lemma char_digit old d r : is_digit d = true -> rd_char old (mkIn (String nl (String d r)) true) = Ok (Some d, mkIn r true).
  Proof.
    intros H. unfold rd_char. assert (word (String d "")) as Hw. { split; [discriminate|]. simpl. rewrite (digit_nows _ H). reflexivity. }
    change (String nl (String d r)) with (String nl "" ++ String d "" ++ r)%string. rewrite (formatted_word _ _ (String nl "") (String d "") r eq_refl Hw). reflexivity.
  Qed.
  (** reading back the file of a tree whose root has children *)
  Lemma tree_lost_more lab lf d n ch w s more t' s' : blank w -> inner_cond (t_cond n) -> node_text fmt (Node lab lf d no_condition (n :: ch)) = Ok s ->
    tree_load stof r_dist (mkIn (w ++ s ++ more)%string true) = Ok (t', s') ->
    exists lab' d', t' = Node lab' true d' no_condition [] /\ In lab' [""; "="; "<"; ">"].
  Proof.
    intros Hw0 Hc Es E. destruct (tree_text_start lab lf d n ch s Hc Es) as (r0 & ->). clear Es.
    assert (exists r, (("-1" ++ String nl (show_nat (S (List.length ch)) ++ String nl (show_Z (c_index (t_cond n)) ++ String nl (String (cmp_char (c_cmp (t_cond n))) (String nl r0))))) ++ more
      = "-1" ++ String nl (show_nat (S (List.length ch)) ++ String nl (show_Z (c_index (t_cond n)) ++ String nl (String (cmp_char (c_cmp (t_cond n))) (String nl r)))))%string) as (r & Er).
    { exists (r0 ++ more)%string. cbn [String.append]. rewrite !sapp_assoc. cbn [String.append]. rewrite !sapp_assoc. reflexivity. }
    rewrite Er in E. clear Er r0.
    unfold tree_load in E. cbn [SerialModel.rest] in E.
    set (cc := cmp_char (c_cmp (t_cond n))) in *. set (i := c_index (t_cond n)) in *. destruct Hc as [Hi _]. fold i in Hi.
    assert (is_int i) as Hii by (unfold is_int, int_max in *; lia).
    destruct (show_nat_cons (S (List.length ch))) as (dg & ds & En & Hdg & Hds). rewrite En in E.
    match type of E with node_read _ _ (S ?f) _ = _ => remember f as fuel eqn:Ef end.
    assert (1 <= fuel) as Hfu by (rewrite Ef, !slen_app; simpl; lia). clear Ef. cbn [node_read] in E.
    set (tail := String nl (show_Z i ++ String nl (String cc (String nl r)))%string) in *.
    assert (rd_int (Some (-1)%Z) (mkIn (w ++ "-1" ++ String nl (String dg ds ++ tail))%string true) = Ok (Some (-1)%Z, mkIn (String nl (String dg ds ++ tail))%string true)) as E1.
    { apply (int_shown (Some (-1)%Z) w (-1) nl); [exact Hw0|reflexivity|unfold is_int; lia]. }
    destruct ds as [|ds0 ds'].
    - (* one digit *)
      assert (cond_read stof (mkIn (w ++ "-1" ++ String nl (String dg "" ++ tail))%string true) = Ok (no_condition, mkIn (String nl (String cc (String nl r))) true)) as Ec.
      { unfold cond_read. rewrite (rbind_ok _ _ _ _ _ E1). unfold rbind at 1. cbn [init rlift bind fst snd String.append].
        rewrite (rbind_ok _ _ _ _ _ (char_digit None dg tail Hdg)).
        rewrite (rbind_ok (rd_tok "") _ _ (show_Z i) (mkIn (String nl (String cc (String nl r))) true)); [reflexivity|].
        unfold tail. apply (tok_word "" (String nl "") (show_Z i) nl); [reflexivity|apply show_Z_word|reflexivity]. }
      rewrite (rbind_ok _ _ _ _ _ Ec) in E.
      rewrite (rbind_ok (rd_int None) _ _ (Some 0%Z) failed) in E.
      2: { destruct (cmp_word (c_cmp (t_cond n))) as [A B]. apply (int_none None (String nl "") (String cc "") (String nl r) eq_refl A B). }
      unfold rbind at 1 in E. cbn [init rlift bind fst snd] in E. change (0 =? 0)%Z with true in E. cbv iota in E.
      unfold rbind at 1 in E. change (rd_tok "" failed) with (Ok (A := string * istr) ("", failed)) in E. cbn [bind fst snd] in E.
      unfold rbind in E. destruct (r_dist failed) as [[d' s1]| | |]; try discriminate E. cbn [bind fst snd] in E. injection E as <- <-.
      exists "", d'. split; [reflexivity|left; reflexivity].
    - (* several digits *)
      assert (word (String ds0 ds')) as Hw. { split; [discriminate|]. apply (all_chars_imp is_digit); [|exact Hds]. intros c Hc. rewrite (digit_nows _ Hc). reflexivity. }
      assert (cond_read stof (mkIn (w ++ "-1" ++ String nl (String dg (String ds0 ds') ++ tail))%string true) = Ok (no_condition, mkIn tail true)) as Ec.
      { unfold cond_read. rewrite (rbind_ok _ _ _ _ _ E1). unfold rbind at 1. cbn [init rlift bind fst snd].
        change (String dg (String ds0 ds') ++ tail)%string with (String dg (String ds0 ds' ++ tail)%string).
        rewrite (rbind_ok _ _ _ _ _ (char_digit None dg _ Hdg)).
        rewrite (rbind_ok (rd_tok "") _ _ (String ds0 ds') (mkIn tail true)); [reflexivity|].
        unfold tail. apply (tok_word "" "" (String ds0 ds') nl); [reflexivity|exact Hw|reflexivity]. }
      rewrite (rbind_ok _ _ _ _ _ Ec) in E.
      rewrite (rbind_ok (rd_int None) _ _ (Some i) (mkIn (String nl (String cc (String nl r))) true)) in E.
      2: { unfold tail. apply (int_shown None (String nl "") i nl); [reflexivity|reflexivity|exact Hii]. }
      unfold rbind at 1 in E. cbn [init rlift bind fst snd] in E. destruct (cmp_word (c_cmp (t_cond n))) as [A B]. fold cc in A, B.
      destruct (Z.eqb_spec i 0) as [->|Hi0].
      + rewrite (rbind_ok (rd_tok "") _ _ (String cc "") (mkIn (String nl r) true)) in E.
        2: { apply (tok_word "" (String nl "") (String cc "") nl r eq_refl A eq_refl). }
        unfold rbind in E. destruct (r_dist (mkIn (String nl r) true)) as [[d' s1]| | |]; try discriminate E. cbn [bind fst snd] in E. injection E as <- <-.
        exists (String cc ""), d'. split; [reflexivity|]. unfold cc. destruct (c_cmp (t_cond n)); simpl; auto.
      + exfalso. destruct (Z.to_nat i) as [|m] eqn:Em; [lia|]. destruct fuel as [|fuel]; [lia|].
        assert (node_read stof r_dist (S fuel) (mkIn (String nl (String cc (String nl r))) true) = UB Uninit) as Eu.
        { cbn [node_read]. unfold rbind at 1. unfold cond_read. unfold rbind at 1.
          pose proof (int_none (Some (-1)%Z) (String nl "") (String cc "") (String nl r) eq_refl A B) as E0. cbn [String.append] in E0. rewrite E0. reflexivity. }
        cbn [rd_loop] in E. unfold rbind at 1 2 3 in E. rewrite Eu in E. discriminate E.
  Qed.
  Lemma tree_lost lab lf d n ch s t' s' : inner_cond (t_cond n) -> node_text fmt (Node lab lf d no_condition (n :: ch)) = Ok s ->
    tree_load stof r_dist (mkIn s true) = Ok (t', s') ->
    exists lab' d', t' = Node lab' true d' no_condition [] /\ In lab' [""; "="; "<"; ">"].
  Proof. intros Hc Es E. apply (tree_lost_more lab lf d n ch "" s "" t' s' eq_refl Hc Es). cbn [String.append]. rewrite sapp_nil. exact E. Qed.
  Lemma ensemble_lost old lab lf d n ch f s f' s' : inner_cond (t_cond n) -> is_int (Z.of_nat (S (List.length f))) ->
    ensemble_text fmt (Node lab lf d no_condition (n :: ch) :: f) = Ok s -> ensemble_load stof r_dist old (mkIn s true) = Ok (f', s') ->
    exists lab' d' more, f' = old ++ Node lab' true d' no_condition [] :: more /\ In lab' [""; "="; "<"; ">"].
  Proof.
    intros Hc Hl Es E. unfold ensemble_text, tree_text in Es. cbn [mapM] in Es. apply bind_ok in Es. destruct Es as (ts & Ets & Es). injection Es as <-.
    apply bind_ok in Ets. destruct Ets as (t0 & Et0 & Ets). apply bind_ok in Ets. destruct Ets as (ts' & _ & Ets). injection Ets as <-.
    destruct (tree_text_start lab lf d n ch t0 Hc Et0) as (r & Er).
    unfold ensemble_load in E. unfold line in E. cbn [List.length] in E. rewrite sapp_assoc in E. cbn [String.append] in E.
    match type of E with rbind _ _ (mkIn (show_nat ?k ++ String nl ?u)%string true) = _ =>
      rewrite (rbind_ok (rd_int None) _ _ (Some (Z.of_nat k)) (mkIn (String nl u) true) (int_shown None "" (Z.of_nat k) nl u eq_refl eq_refl Hl)) in E end.
    unfold rbind at 1 in E. cbn [init rlift bind fst snd] in E. rewrite to_nat_of in E. cbn [rd_loop] in E.
    unfold rbind at 1 in E. unfold rbind at 1 in E.
    change (String nl (concat_str (t0 :: ts')))%string with (String nl "" ++ (t0 ++ concat_str ts'))%string in E.
    match type of E with bind (bind ?x _) _ = _ => destruct x as [[t1 s1]| | |] eqn:E1; try discriminate E end. cbn [bind fst snd rret] in E.
    destruct (tree_lost_more lab lf d n ch (String nl "") t0 (concat_str ts') t1 s1 eq_refl Hc Et0 E1) as (lab' & d' & -> & Hin).
    clear E1. unfold rret in E. cbn [bind fst snd] in E.
    assert (forall m acc s f' s', rd_loop m (fun acc => rdo t <- tree_load stof r_dist; rret (acc ++ [t])) acc s = Ok (f', s') -> exists more, f' = acc ++ more) as G.
    { clear. induction m as [|m IH]; intros acc s f' s' E; [injection E as <- _; exists []; rewrite app_nil_r; reflexivity|].
      cbn [rd_loop] in E. unfold rbind at 1 in E. unfold rbind at 1 in E. destruct (tree_load stof r_dist s) as [[t s1]| | |]; try discriminate E.
      unfold rret in E. cbn [bind fst snd] in E. destruct (IH _ _ _ _ E) as (more & ->). exists (t :: more). rewrite <- app_assoc. reflexivity. }
    destruct (G _ _ _ _ _ E) as (more & ->). exists lab', d', more. rewrite <- app_assoc. split; [reflexivity|exact Hin].
  Qed.
  Lemma leaf_lost lab lf d : word lab -> exists s, node_text fmt (Node lab lf d no_condition []) = Ok s /\ tree_load stof r_dist (mkIn s true) = UB Uninit.
  Proof.
    intros Hl. exists (line "-1" ++ line (show_nat (List.length (@nil tree))) ++ line lab)%string. split; [reflexivity|]. unfold tree_load. cbn [node_read]. unfold rbind at 1.
    assert (cond_read stof (mkIn (line "-1" ++ line (show_nat (List.length (@nil tree))) ++ line lab)%string true) = Ok (no_condition, mkIn (String nl "") true)) as Ec.
    { unfold cond_read. rewrite (rbind_ok (rd_int (Some (-1)%Z)) _ _ (Some (-1)%Z) (mkIn (String nl ("0" ++ String nl (line lab)))%string true)).
      2: { apply (int_shown (Some (-1)%Z) "" (-1) nl); [reflexivity|reflexivity|unfold is_int; lia]. }
      unfold rbind at 1. cbn [init rlift bind fst snd String.append]. rewrite (rbind_ok _ _ _ _ _ (char_digit None "0" _ eq_refl)).
      rewrite (rbind_ok (rd_tok "") _ _ lab (mkIn (String nl "") true)); [reflexivity|].
      apply (tok_word "" (String nl "") lab nl "" eq_refl Hl eq_refl). }
    cbn [SerialModel.rest]. rewrite Ec. reflexivity.
  Qed.

  (** ** linear discriminants *)
  Lemma read_entry_stuck {A} (r : rd A) : forall n c m s st s', good s = false -> (forall s, good s = false -> forall a s', r s = Ok (a, s') -> good s' = false) ->
    rd_loop n (read_entry r) (c, m) s = Ok (st, s') -> good s' = false.
  Proof.
    induction n as [|n IH]; intros c m s st s' Hg Hr E.
    - cbn in E. injection E as <- <-. exact Hg.
    - cbn [rd_loop] in E. unfold rbind at 1 in E. unfold read_entry at 1 in E. unfold rbind at 1 in E. cbn [fst snd] in E.
      unfold rd_tok in E. rewrite (formatted_failed _ _ _ Hg) in E. cbn [bind fst snd] in E. unfold rbind at 1 in E.
      destruct (r s) as [[a s1]| | |] eqn:Er; try discriminate E. cbn [bind fst snd] in E. unfold rret in E. cbn [bind fst snd] in E.
      exact (IH _ _ _ _ _ (Hr s Hg a s1 Er) Hr E).
  Qed.
  Lemma weights_stuck n : forall c v m s, good s = false -> mfind c m <> None ->
    rd_loop n (read_weight scan) (c, Some v, m) s = Ok ((c, Some v, m), s).
  Proof.
    induction n as [|n IH]; intros c v m s Hg Hm; [reflexivity|]. cbn [rd_loop].
    rewrite (rbind_ok (read_weight scan (c, Some v, m)) _ s (c, Some v, m) s); [apply IH; assumption|].
    unfold read_weight. unfold rbind. unfold rd_tok, rd_dbl. rewrite (formatted_failed _ _ _ Hg). cbn [bind fst snd].
    rewrite (formatted_failed _ _ _ Hg). cbn [bind fst snd init rlift]. unfold rret. unfold memplace, mmem. destruct (mfind c m); [reflexivity|congruence].
  Qed.
  Lemma lda_lost m l0 w0 rest0 : l_w0 m = (l0, w0) :: rest0 -> written_read w_dist r_dist (l_prior m) (l_prior m) -> l_prior m <> [] ->
    is_int (Z.of_nat (List.length (l_w0 m))) -> word l0 -> no_numeral scan l0 ->
    forall old m' s', lda_load scan r_dist r_vec old (mkIn (lda_text show w_dist w_vec m) true) = Ok (m', s') ->
      l_prior m' = l_prior m /\ l_w0 m' = memplace (show_nat (List.length (l_w0 m))) d0 (l_w0 old).
  Proof.
    intros Hw0 Hd Hp Hi Hl Hn old m' s' E. unfold lda_load, lda_text, prior_load, prior_text in E.
    destruct Hd as (body & Eb & Hb). rewrite Eb in E. unfold line at 1 in E. rewrite !sapp_assoc in E. cbn [String.append] in E.
    match type of E with rbind _ _ (mkIn (body ++ String nl ?t)%string true) = _ => set (tl := t) in E end.
    rewrite (rbind_ok _ _ _ _ _ (Hb "" tl eq_refl)) in E. unfold lda_rest in E.
    destruct (l_prior m) as [|p0 pr] eqn:Ep; [congruence|]. cbn [List.length rd_loop] in E.
    set (k := show_nat (List.length (l_w0 m))) in *.
    assert (exists tl', tl = (k ++ String nl (l0 ++ String nl tl'))%string) as (tl' & Etl).
    { unfold tl. rewrite Hw0. change (concat_str (map (fun kv => line (fst kv) ++ line (show (snd kv)))%string ((l0, w0) :: rest0)))
        with ((line l0 ++ line (show w0)) ++ concat_str (map (fun kv => line (fst kv) ++ line (show (snd kv)))%string rest0))%string.
      unfold k. rewrite Hw0. unfold line at 1 2. rewrite !sapp_assoc. cbn [String.append]. rewrite ?sapp_assoc. eexists. reflexivity. }
    rewrite Etl in E. clear tl Etl.
    assert (read_weight scan ("", None, l_w0 old) (mkIn (String nl (k ++ String nl (l0 ++ String nl tl')))%string true) = Ok ((k, Some d0, memplace k d0 (l_w0 old)), failed)) as E1.
    { unfold read_weight. rewrite (rbind_ok (rd_tok "") _ _ k (mkIn (String nl (l0 ++ String nl tl'))%string true)).
      2: { apply (tok_word "" (String nl "") k nl _ eq_refl (show_nat_word _) eq_refl). }
      rewrite (rbind_ok (rd_dbl scan None) _ _ (Some d0) failed); [reflexivity|].
      unfold rd_dbl. change (String nl (l0 ++ String nl tl'))%string with (String nl "" ++ l0 ++ String nl tl')%string.
      rewrite (formatted_word _ _ (String nl "") l0 (String nl tl') eq_refl Hl). rewrite (Hn nl tl' eq_refl). reflexivity. }
    unfold rbind at 1 in E. rewrite (rbind_ok _ _ _ _ _ E1) in E.
    rewrite (weights_stuck _ k d0 (memplace k d0 (l_w0 old)) failed eq_refl) in E.
    2: { rewrite mfind_memplace, String.eqb_refl. destruct (mfind k (l_w0 old)); discriminate. }
    cbn [bind fst snd] in E. unfold rbind at 1 in E.
    match type of E with bind ?x _ = _ => destruct x as [[st2 s2]| | |]; try discriminate E end. cbn [bind fst snd] in E. unfold rret in E. injection E as <- <-.
    split; reflexivity.
  Qed.

  (** ** SVM *)
  Lemma node1_reads rnd (n : node) : is_int (fst n) -> numeral scan (show (snd n)) (rnd (snd n)) ->
    reads (node_read1 scan) (line (show_Z (fst n)) ++ line (show (snd n)))%string (fst n, rnd (snd n)).
  Proof.
    intros Hi Hn. unfold node_read1. eapply reads_seq; [apply reads_int_line, Hi|reflexivity|].
    eapply reads_seq; [apply (reads_dbl scan None _ _ nl Hn eq_refl)|symmetry; apply sapp_nil|].
    eapply reads_silent; [apply reads_init|]. eapply reads_silent; [apply reads_init|]. apply reads_ret.
  Qed.
  Lemma nodes_reads rnd l : nodes_ok show scan rnd l -> reads (nodes_read scan) (nodes_text show l) (map (fun n => (fst n, rnd (snd n))) l).
  Proof.
    intros [Hl Hn]. unfold nodes_read, nodes_text. eapply reads_seq; [apply (reads_nat_line None _ Hl)|reflexivity|].
    eapply reads_silent; [apply reads_init|]. rewrite to_nat_of.
    apply (reads_snoc (node_read1 scan) (fun n : node => line (show_Z (fst n)) ++ line (show (snd n)))%string (fun n : node => (fst n, rnd (snd n))) l []).
    intros n Hin. destruct (proj1 (Forall_forall _ _) Hn n Hin). apply node1_reads; assumption.
  Qed.
  Lemma dbls_reads rnd n old l : n = Some (Z.of_nat (List.length l)) -> Forall (fun v => numeral scan (show v) (rnd v)) l ->
    exists o, reads (read_dbls scan n old) (concat_str (map (fun v => line (show v)) l)) (o, map rnd l).
  Proof.
    intros -> H. set (step := fun (st : option dbl * list dbl) v => (Some (rnd v), snd st ++ [rnd v])).
    assert (forall l o acc, exists o', fold_left step l (o, acc) = (o', acc ++ map rnd l)) as Hf.
    { clear. induction l as [|v l IH]; intros o acc; cbn [fold_left map]; [exists o; rewrite app_nil_r; reflexivity|].
      destruct (IH (Some (rnd v)) (acc ++ [rnd v])) as (o' & E). exists o'. unfold step at 2. cbn [snd]. rewrite E, <- app_assoc. reflexivity. }
    destruct (Hf l old []) as (o & Eo). exists o. unfold read_dbls. eapply reads_silent; [apply reads_init|]. rewrite to_nat_of.
    change ([] ++ map rnd l) with (map rnd l) in Eo. rewrite <- Eo. apply (reads_loop _ step). intros [o0 a0] v Hv. cbn [fst snd].
    eapply reads_seq; [apply (reads_dbl scan o0 _ _ nl (proj1 (Forall_forall _ _) H v Hv) eq_refl)|symmetry; apply sapp_nil|].
    eapply reads_silent; [apply reads_init|]. apply reads_ret.
  Qed.
  Lemma counts_reads l n : n = List.length l -> Forall (fun n => is_int (Z.of_nat n)) l ->
    exists o, reads (rd_loop n (fun st => rdo x <- rd_int (fst st); rdo v <- init x; rret (x, snd st ++ [Z.to_nat v])) (None, []))
                    (concat_str (map (fun n => line (show_nat n)) l)) (o, l).
  Proof.
    intros -> H. set (step := fun (st : option Z * list nat) n => (Some (Z.of_nat n), snd st ++ [n])).
    assert (forall l o acc, exists o', fold_left step l (o, acc) = (o', acc ++ l)) as Hf.
    { clear. induction l as [|v l IH]; intros o acc; cbn [fold_left]; [exists o; rewrite app_nil_r; reflexivity|].
      destruct (IH (Some (Z.of_nat v)) (acc ++ [v])) as (o' & E). exists o'. unfold step at 2. cbn [snd]. rewrite E, <- app_assoc. reflexivity. }
    destruct (Hf l None []) as (o & Eo). exists o. change ([] ++ l) with l in Eo. rewrite <- Eo. apply (reads_loop _ step). intros [o0 a0] v Hv. cbn [fst snd].
    eapply reads_seq; [apply (reads_nat_line o0 v (proj1 (Forall_forall _ _) H v Hv))|symmetry; apply sapp_nil|].
    eapply reads_silent; [apply reads_init|]. rewrite to_nat_of. apply reads_ret.
  Qed.
  Lemma coefs_reads rnd cs n : n = List.length cs -> Forall (fun c => is_int (Z.of_nat (List.length c)) /\ Forall (fun v => numeral scan (show v) (rnd v)) c) cs ->
    forall sz x acc, exists sz' x', reads (rd_loop n (fun st => let '(sz, x, acc) := st in
                                               rdo sz' <- rd_int sz; rdo p <- read_dbls scan sz' x; rret (sz', fst p, acc ++ [snd p])) (sz, x, acc))
       (concat_str (map (fun c => line (show_nat (List.length c)) ++ concat_str (map (fun v => line (show v)) c))%string cs)) (sz', x', acc ++ map (map rnd) cs).
  Proof.
    intros ->. induction 1 as [|c cs [Hl Hc] Hcs IH]; intros sz x acc.
    - exists sz, x. cbn. rewrite app_nil_r. apply reads_ret.
    - destruct (dbls_reads rnd (Some (Z.of_nat (List.length c))) x c eq_refl Hc) as (o & Ho).
      destruct (IH (Some (Z.of_nat (List.length c))) o (acc ++ [map rnd c])) as (sz' & x' & Hr). exists sz', x'.
      cbn [List.length rd_loop map]. rewrite <- app_assoc in Hr.
      match goal with |- reads _ (concat_str (?a :: ?b)) _ => change (concat_str (a :: b)) with (a ++ concat_str b)%string end.
      eapply reads_bind; [|exact Hr]. eapply reads_seq; [apply (reads_nat_line sz _ Hl)|reflexivity|].
      apply (reads_last _ (fun p : option dbl * list dbl => (Some (Z.of_nat (List.length c)), fst p, acc ++ [snd p])) _ (o, map rnd c) Ho).
  Qed.
  Lemma svm_reads rnd m : svm_ok show scan w_dist r_dist rnd m -> reads (svm_load scan r_dist) (svm_text show w_dist m)
    (mkSvm (m_dist m) (map rnd (m_rho m)) (m_nsv m) (map (map (fun n => (fst n, rnd (snd n)))) (m_sv m)) (map (map rnd) (m_coef m)) None (m_ncl m) (m_nprob m)).
  Proof.
    intros (Hc & Hp & Hd & Lr & Hr & Ln & Hn & Ls & Hs & Lc & Hco). unfold svm_load, svm_text.
    eapply reads_seq; [apply (reads_nat_line None _ Hc)|reflexivity|].
    eapply reads_seq; [apply (reads_nat_line None _ Hp)|reflexivity|].
    eapply reads_seq; [apply (reads_written _ _ _ _ Hd)|reflexivity|].
    eapply reads_seq; [apply (reads_nat_line None _ Lr)|reflexivity|].
    destruct (dbls_reads rnd (Some (Z.of_nat (List.length (m_rho m)))) None (m_rho m) eq_refl Hr) as (o1 & H1).
    eapply reads_seq; [exact H1|reflexivity|].
    eapply reads_seq; [apply (reads_nat_line _ _ Ln)|reflexivity|]. eapply reads_silent; [apply reads_init|]. rewrite to_nat_of.
    destruct (counts_reads (m_nsv m) _ eq_refl Hn) as (o2 & H2).
    eapply reads_seq; [exact H2|reflexivity|].
    eapply reads_seq; [apply (reads_nat_line _ _ Ls)|reflexivity|]. eapply reads_silent; [apply reads_init|]. rewrite to_nat_of.
    eapply reads_seq; [apply (reads_snoc (nodes_read scan) (nodes_text show) (map (fun n => (fst n, rnd (snd n)))) (m_sv m) [])|reflexivity|].
    { intros l Hl. apply nodes_reads. exact (proj1 (Forall_forall _ _) Hs l Hl). }
    eapply reads_seq; [apply (reads_nat_line _ _ Lc)|reflexivity|]. eapply reads_silent; [apply reads_init|]. rewrite to_nat_of.
    destruct (coefs_reads rnd (m_coef m) _ eq_refl Hco None None []) as (sz & x & H3).
    eapply reads_seq; [exact H3|symmetry; apply sapp_nil|].
    eapply reads_silent; [apply reads_init|]. eapply reads_silent; [apply reads_init|]. rewrite !to_nat_of. apply reads_ret.
  Qed.

  (** ** naive Bayes *)
  Lemma bayes_text_layout m : bayes_text w_dist w_vec m = (w_dist (nb_prior m) ++ concat_str (map (fun e => fst e ++ String nl (w_vec (snd e)))%string (nb_means m))
      ++ concat_str (map (fun e => fst e ++ String nl (w_vec (snd e)))%string (nb_devs m)))%string.
  Proof.
    unfold bayes_text, prior_text, entries_text. f_equal. f_equal; f_equal; apply map_ext; intros e; unfold line; rewrite sapp_assoc; reflexivity.
  Qed.
  Lemma reads_entries_rnd rv es c m : entries_ok w_vec r_vec rv es ->
    exists c', reads (rd_loop (List.length es) (read_entry r_vec) (c, m)) (concat_str (map (fun e => fst e ++ String nl (w_vec (snd e)))%string es))
          (c', fold_left (fun m e => memplace (fst e) (snd e) m) (map (fun e => (fst e, rv (snd e))) es) m).
  Proof.
    intros H. set (step := fun (st : string * smap (list dbl)) (e : string * list dbl) => (fst e, memplace (fst e) (rv (snd e)) (snd st))).
    assert (forall es c m, exists c', fold_left step es (c, m) = (c', fold_left (fun m e => memplace (fst e) (snd e) m) (map (fun e => (fst e, rv (snd e))) es) m)) as Hf.
    { clear. induction es as [|e es IH]; intros c m; cbn [fold_left map]; [eauto|]. apply IH. }
    destruct (Hf es c m) as (c' & E). exists c'. rewrite <- E. apply (reads_loop (read_entry r_vec) step). intros [c0 m0] e He.
    destruct (proj1 (Forall_forall _ _) H e He) as [Hw Hr]. unfold read_entry. cbn [fst snd].
    eapply reads_sep; [apply (reads_tok c0 (fst e) nl Hw eq_refl)|].
    apply (reads_last r_vec (fun v => (fst e, memplace (fst e) v m0))). apply (reads_written _ _ _ _ Hr).
  Qed.
  Lemma fold_memplace_sorted {V} (es : smap V) : msorted es -> fold_left (fun m e => memplace (fst e) (snd e) m) es [] = es.
  Proof.
    intros H. apply msorted_ext; [|exact H|].
    - clear H. assert (forall m : smap V, msorted m -> msorted (fold_left (fun m e => memplace (fst e) (snd e) m) es m)) as G; [|apply G; constructor].
      induction es as [|e es IH]; intros m Hm; cbn [fold_left]; [exact Hm|]. apply IH, memplace_sorted, Hm.
    - intros k. rewrite fold_memplace. reflexivity.
  Qed.
  Lemma map_sorted {V W} (f : V -> W) (es : smap V) : msorted es -> msorted (map (fun e => (fst e, f (snd e))) es).
  Proof. unfold msorted, mkeys. rewrite map_map. cbn [fst]. auto. Qed.
  Lemma bayes_back rv m : written_read w_dist r_dist (nb_prior m) (nb_prior m) -> entries_ok w_vec r_vec rv (nb_means m) -> entries_ok w_vec r_vec rv (nb_devs m) ->
    msorted (nb_means m) -> msorted (nb_devs m) -> List.length (nb_means m) = List.length (nb_prior m) -> List.length (nb_devs m) = List.length (nb_prior m) ->
    reads (bayes_load r_dist r_vec bayes_empty) (bayes_text w_dist w_vec m)
      (mkNB (nb_prior m) (map (fun e => (fst e, rv (snd e))) (nb_means m)) (map (fun e => (fst e, rv (snd e))) (nb_devs m)) []).
  Proof.
    intros Hd Hm Hv Sm Sv L0 L. rewrite bayes_text_layout. unfold bayes_load.
    eapply reads_seq; [apply (reads_written _ _ _ _ Hd)|reflexivity|]. cbn [nb_means nb_devs nb_dists bayes_empty].
    destruct (reads_entries_rnd rv (nb_means m) "" [] Hm) as (c1 & H1). rewrite L0 in H1.
    eapply reads_seq; [exact H1|reflexivity|]. cbn [fst snd].
    destruct (reads_entries_rnd rv (nb_devs m) c1 [] Hv) as (c2 & H2). rewrite L in H2.
    eapply reads_seq; [exact H2|symmetry; apply sapp_nil|]. cbn [fst snd].
    rewrite !fold_memplace_sorted by (apply map_sorted; assumption). apply reads_ret.
  Qed.
  (** loading never touches the feature distributions *)
  Lemma bayes_dists old s m' s' : bayes_load r_dist r_vec old s = Ok (m', s') -> nb_dists m' = nb_dists old.
  Proof.
    unfold bayes_load, rbind, rret. intros E. apply bind_ok in E. destruct E as (p & _ & E). apply bind_ok in E. destruct E as (q & _ & E).
    apply bind_ok in E. destruct E as (q' & _ & E). injection E as <- _. reflexivity.
  Qed.
End Saves.
