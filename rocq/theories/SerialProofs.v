(** Proofs about the input stream: tokens, integers, sequences. *)
From Coq Require Import String Ascii ZArith QArith Bool Lia Decimal DecimalString DecimalFacts DecimalPos DecimalN DecimalZ List.
From Verif Require Import Base Spec BaseLemmas AttrModel DataSetModel InstanceListModel TreeModel GaussianModel SvmModel NetModel SerialModel SerialSpec.
Import ListNotations.
Local Open Scope string_scope.
Local Open Scope list_scope.
Local Open Scope nat_scope.

(** ** strings *)
Lemma sapp_assoc a b c : ((a ++ b) ++ c = a ++ (b ++ c))%string.
Proof. induction a as [|x a IH]; simpl; [reflexivity|rewrite IH; reflexivity]. Qed.
Lemma sapp_nil a : (a ++ "" = a)%string.
Proof. induction a as [|x a IH]; simpl; [reflexivity|rewrite IH; reflexivity]. Qed.
Lemma sapp_eq_nil a b : (a ++ b)%string = "" -> a = "" /\ b = "".
Proof. destruct a; simpl; [auto|discriminate]. Qed.
Lemma slen_app a b : String.length (a ++ b)%string = String.length a + String.length b.
Proof. induction a; simpl; auto. Qed.
Lemma concat_app l l' : concat_str (l ++ l') = (concat_str l ++ concat_str l')%string.
Proof. induction l as [|x l IH]; simpl; [reflexivity|]. unfold concat_str in *. rewrite IH, sapp_assoc. reflexivity. Qed.
Lemma all_chars_app p a b : all_chars p (a ++ b)%string = all_chars p a && all_chars p b.
Proof. induction a as [|x a IH]; simpl; [reflexivity|rewrite IH, andb_assoc; reflexivity]. Qed.
Lemma blank_app a b : blank a -> blank b -> blank (a ++ b)%string.
Proof. unfold blank. intros A B. rewrite all_chars_app, A, B. reflexivity. Qed.
Lemma nl_ws : is_ws nl = true.
Proof. reflexivity. Qed.
Lemma nl_nodigit : is_digit nl = false.
Proof. reflexivity. Qed.
Lemma ws_nodigit c : is_ws c = true -> is_digit c = false.
Proof.
  unfold is_ws, is_digit. set (n := nat_of_ascii c). intros H. apply orb_true_iff in H. destruct H as [H|H].
  - apply Nat.eqb_eq in H. rewrite H. reflexivity.
  - apply andb_true_iff in H. destruct H as [_ H]. apply Nat.leb_le in H.
    destruct (Nat.leb_spec 48 n); [lia|reflexivity].
Qed.
Lemma digit_nows c : is_digit c = true -> is_ws c = false.
Proof. intros H. destruct (is_ws c) eqn:E; [|reflexivity]. apply ws_nodigit in E. congruence. Qed.

Lemma skip_ws_blank w r : blank w -> skip_ws (w ++ r)%string = skip_ws r.
Proof.
  unfold blank. induction w as [|c w IH]; simpl; [reflexivity|]. intros H. apply andb_true_iff in H. destruct H as [Hc Hw].
  rewrite Hc. exact (IH Hw).
Qed.
Lemma skip_ws_word t r : word t -> skip_ws (t ++ r)%string = (t ++ r)%string.
Proof.
  intros [Hne H]. destruct t as [|c t]; [congruence|]. simpl in *. apply andb_true_iff in H. destruct H as [Hc _].
  destruct (is_ws c); [discriminate Hc|reflexivity].
Qed.
Lemma span_stop p t c r : all_chars p t = true -> p c = false -> span p (t ++ String c r)%string = (t, String c r).
Proof.
  induction t as [|x t IH]; simpl; intros H Hc; [rewrite Hc; reflexivity|]. apply andb_true_iff in H. destruct H as [Hx Ht].
  rewrite Hx, (IH Ht Hc). reflexivity.
Qed.
Lemma span_all p t : all_chars p t = true -> span p t = (t, "").
Proof.
  induction t as [|x t IH]; simpl; intros H; [reflexivity|]. apply andb_true_iff in H. destruct H as [Hx Ht].
  rewrite Hx, (IH Ht). reflexivity.
Qed.

(** ** [>>] *)
Lemma formatted_word {A} (old : A) scan w t r : blank w -> word t ->
  formatted old scan (mkIn (w ++ t ++ r)%string true) = Ok (scan (t ++ r)%string).
Proof.
  intros Hw Ht. unfold formatted. cbn [good rest]. rewrite (skip_ws_blank _ _ Hw), (skip_ws_word _ _ Ht).
  destruct t as [|c t]; [destruct Ht as [H _]; congruence|]. reflexivity.
Qed.
Lemma formatted_failed {A} (old : A) scan s : good s = false -> formatted old scan s = Ok (old, s).
Proof. intros H. unfold formatted. rewrite H. reflexivity. Qed.
Lemma formatted_blank {A} (old : A) scan w : blank w -> formatted old scan (mkIn w true) = Ok (old, failed).
Proof. intros H. unfold formatted. cbn [good rest]. pose proof (skip_ws_blank w "" H) as E. rewrite sapp_nil in E. rewrite E. reflexivity. Qed.

Lemma tok_word old w t c r : blank w -> word t -> is_ws c = true ->
  rd_tok old (mkIn (w ++ t ++ String c r)%string true) = Ok (t, mkIn (String c r) true).
Proof.
  intros Hw Ht Hc. unfold rd_tok. rewrite (formatted_word _ _ _ _ _ Hw Ht). rewrite span_stop; [reflexivity|exact (proj2 Ht)|rewrite Hc; reflexivity].
Qed.

(** ** integers *)
Lemma digits_uint u : all_chars is_digit (NilEmpty.string_of_uint u) = true.
Proof. induction u; simpl; auto. Qed.
Lemma to_uint_nonnil p : Pos.to_uint p <> Nil.
Proof. apply Unsigned.to_uint_nonnil. Qed.
Lemma show_Z_shape z : exists u, u <> Nil /\ show_Z z = (if (z <? 0)%Z then String "-" (NilEmpty.string_of_uint u) else NilEmpty.string_of_uint u) /\
  Z.of_uint u = Z.abs z.
Proof.
  destruct z as [|p|p].
  - exists (D0 Nil). split; [discriminate|]. split; reflexivity.
  - exists (Pos.to_uint p). split; [apply to_uint_nonnil|]. split.
    + unfold show_Z. simpl. destruct (Pos.to_uint p) eqn:E; try reflexivity. exfalso. exact (to_uint_nonnil p E).
    + pose proof (DecimalZ.of_to (Zpos p)) as H. simpl in H. exact H.
  - exists (Pos.to_uint p). split; [apply to_uint_nonnil|]. split.
    + unfold show_Z. simpl. destruct (Pos.to_uint p) eqn:E; try reflexivity. exfalso. exact (to_uint_nonnil p E).
    + pose proof (DecimalZ.of_to (Zneg p)) as H. simpl in H. simpl. destruct (Z.of_uint (Pos.to_uint p)); simpl in *; congruence.
Qed.
Lemma uint_nonempty u : u <> Nil -> exists c r, NilEmpty.string_of_uint u = String c r /\ is_digit c = true.
Proof. destruct u; intros H; try (eexists _, _; split; [reflexivity|reflexivity]). congruence. Qed.
Lemma all_chars_imp (p q : ascii -> bool) s : (forall c, p c = true -> q c = true) -> all_chars p s = true -> all_chars q s = true.
Proof. intros H. induction s as [|c s IH]; simpl; [auto|]. intros E. apply andb_true_iff in E. destruct E as [A B]. rewrite (H _ A), (IH B). reflexivity. Qed.
Lemma show_Z_word z : word (show_Z z).
Proof.
  destruct (show_Z_shape z) as (u & Hu & -> & _). destruct (uint_nonempty u Hu) as (c & r & E & Hc).
  assert (all_chars (fun c => negb (is_ws c)) (NilEmpty.string_of_uint u) = true) as Hd.
  { apply (all_chars_imp is_digit); [|apply digits_uint]. intros x Hx. rewrite (digit_nows _ Hx). reflexivity. }
  destruct (z <? 0)%Z; split; try (rewrite E; discriminate); try discriminate; [|exact Hd]. simpl. exact Hd.
Qed.
Lemma show_nat_word n : word (show_nat n).
Proof. apply show_Z_word. Qed.
Lemma scan_digits_show neg u t r : u <> Nil -> span is_digit t = (NilEmpty.string_of_uint u, r) ->
  scan_digits neg t = Some ((if neg then Z.opp (Z.of_uint u) else Z.of_uint u), r).
Proof.
  intros Hu E. unfold scan_digits. rewrite E. destruct (uint_nonempty u Hu) as (d & s & Es & _).
  destruct (String.eqb_spec (NilEmpty.string_of_uint u) "") as [E0|_]; [rewrite Es in E0; discriminate E0|]. rewrite NilEmpty.usu. reflexivity.
Qed.
Lemma scan_int_gen z r r' : (forall u, span is_digit (NilEmpty.string_of_uint u ++ r)%string = (NilEmpty.string_of_uint u, r')) ->
  scan_int (show_Z z ++ r)%string = Some (z, r').
Proof.
  intros Hs. destruct (show_Z_shape z) as (u & Hu & E & Ev). rewrite E. destruct (uint_nonempty u Hu) as (d & s & Es & Hd).
  destruct (Z.ltb_spec z 0) as [Hz|Hz].
  - cbn [String.append]. unfold scan_int. rewrite Ascii.eqb_refl. rewrite (scan_digits_show true u _ r' Hu (Hs u)). f_equal. f_equal. lia.
  - assert ((d =? "-")%char = false) as H1. { destruct (Ascii.eqb_spec d "-"); [subst; discriminate Hd|reflexivity]. }
    assert ((d =? "+")%char = false) as H2. { destruct (Ascii.eqb_spec d "+"); [subst; discriminate Hd|reflexivity]. }
    pose proof (scan_digits_show false u _ r' Hu (Hs u)) as H. rewrite Es in H |- *. cbn [String.append] in H |- *. unfold scan_int. rewrite H1, H2, H.
    f_equal. f_equal. lia.
Qed.
Lemma scan_int_show z c r : is_digit c = false -> scan_int (show_Z z ++ String c r)%string = Some (z, String c r).
Proof. intros Hc. apply scan_int_gen. intros u. apply span_stop; [apply digits_uint|exact Hc]. Qed.
Lemma scan_int_show_end z : scan_int (show_Z z) = Some (z, "").
Proof. rewrite <- (sapp_nil (show_Z z)). apply scan_int_gen. intros u. rewrite sapp_nil. apply span_all, digits_uint. Qed.
Lemma in_range z : is_int z -> (int_max <? z)%Z = false /\ (z <? int_min)%Z = false.
Proof. unfold is_int, int_max, int_min. intros H. split; apply Z.ltb_ge; lia. Qed.
Lemma stoi_show z : is_int z -> stoi (show_Z z) = Ok z.
Proof.
  intros H. unfold stoi. pose proof (skip_ws_word (show_Z z) "" (show_Z_word z)) as E. rewrite sapp_nil in E. rewrite E, scan_int_show_end.
  destruct (in_range _ H) as [-> ->]. reflexivity.
Qed.
Lemma int_shown old w z c r : blank w -> is_ws c = true -> is_int z ->
  rd_int old (mkIn (w ++ show_Z z ++ String c r)%string true) = Ok (Some z, mkIn (String c r) true).
Proof.
  intros Hw Hc Hz. unfold rd_int. rewrite (formatted_word _ _ _ _ _ Hw (show_Z_word z)), (scan_int_show _ _ _ (ws_nodigit _ Hc)).
  destruct (in_range _ Hz) as [-> ->]. reflexivity.
Qed.
Lemma scan_int_none t : no_integer t -> t <> "" -> scan_int t = None.
Proof.
  destruct t as [|c t]; [congruence|]. intros (Hd & Hm & Hp) _. unfold scan_int.
  destruct (Ascii.eqb_spec c "-"); [congruence|]. destruct (Ascii.eqb_spec c "+"); [congruence|].
  unfold scan_digits. cbn [span]. rewrite Hd. reflexivity.
Qed.
Lemma int_none old w t r : blank w -> word t -> no_integer t ->
  rd_int old (mkIn (w ++ t ++ r)%string true) = Ok (Some 0%Z, failed).
Proof.
  intros Hw Ht Hn. unfold rd_int. rewrite (formatted_word _ _ _ _ _ Hw Ht), scan_int_none; [reflexivity| |].
  - destruct t; [destruct Ht as [H _]; congruence|exact Hn].
  - destruct t; [destruct Ht as [H _]; congruence|discriminate].
Qed.

(** ** composing readers *)
Lemma rbind_ok {A B} (r : rd A) (k : A -> rd B) s a s' : r s = Ok (a, s') -> rbind r k s = k a s'.
Proof. intros H. unfold rbind. rewrite H. reflexivity. Qed.
Lemma reads_upto_line {A} (r : rd A) t a : reads_upto r t a -> reads r (line t) a.
Proof.
  intros H w rest Hw. exists (String nl ""). split; [reflexivity|]. unfold line. rewrite !sapp_assoc. cbn [String.append]. exact (H w rest Hw).
Qed.
Lemma reads_written {A} (w : A -> string) (r : rd A) a b : written_read w r a b -> reads r (w a) b.
Proof. intros (body & -> & H). apply reads_upto_line, H. Qed.
Lemma reads_ret {A} (a : A) : reads (rret a) "" a.
Proof. intros w rest Hw. exists w. split; [exact Hw|reflexivity]. Qed.
Lemma reads_lift {A} (x : res A) a : x = Ok a -> reads (rlift x) "" a.
Proof. intros -> w rest Hw. exists w. split; [exact Hw|reflexivity]. Qed.
Lemma reads_init {A} (a : A) : reads (init (Some a)) "" a.
Proof. apply reads_lift. reflexivity. Qed.
Lemma reads_bind {A B} (r : rd A) (k : A -> rd B) t1 t2 a b : reads r t1 a -> reads (k a) t2 b -> reads (rbind r k) (t1 ++ t2)%string b.
Proof.
  intros H1 H2 w rest Hw. destruct (H1 w (t2 ++ rest)%string Hw) as (w1 & Hw1 & E1).
  destruct (H2 w1 rest Hw1) as (w2 & Hw2 & E2). exists w2. split; [exact Hw2|].
  rewrite sapp_assoc, (rbind_ok _ _ _ _ _ E1). exact E2.
Qed.
(** with the text given up to associativity *)
Lemma reads_seq {A B} (r : rd A) (k : A -> rd B) t t1 t2 a b : reads r t1 a -> t = (t1 ++ t2)%string -> reads (k a) t2 b -> reads (rbind r k) t b.
Proof. intros H1 -> H2. exact (reads_bind _ _ _ _ _ _ H1 H2). Qed.
Lemma reads_sep {A B} (r : rd A) (k : A -> rd B) t c t2 a b : reads r (t ++ String c "")%string a -> reads (k a) t2 b -> reads (rbind r k) (t ++ String c t2)%string b.
Proof. intros H1 H2. eapply reads_seq; [exact H1|rewrite sapp_assoc; reflexivity|exact H2]. Qed.
Lemma reads_silent {A B} (r : rd A) (k : A -> rd B) t a b : reads r "" a -> reads (k a) t b -> reads (rbind r k) t b.
Proof. intros H1 H2. exact (reads_bind r k "" t a b H1 H2). Qed.
Lemma reads_last {A B} (r : rd A) (f : A -> B) t a : reads r t a -> reads (rbind r (fun x => rret (f x))) t (f a).
Proof. intros H. eapply reads_seq; [exact H|symmetry; apply sapp_nil|apply reads_ret]. Qed.
Lemma reads_tok old t c : word t -> is_ws c = true -> reads (rd_tok old) (t ++ String c "")%string t.
Proof.
  intros Ht Hc w rest Hw. exists (String c ""). split; [unfold blank; simpl; rewrite Hc; reflexivity|].
  rewrite sapp_assoc. cbn [String.append]. apply tok_word; assumption.
Qed.
Lemma reads_tok_line old t : word t -> reads (rd_tok old) (line t) t.
Proof. intros H. exact (reads_tok old t nl H eq_refl). Qed.
Lemma reads_int old z c : is_int z -> is_ws c = true -> reads (rd_int old) (show_Z z ++ String c "")%string (Some z).
Proof.
  intros Hz Hc w rest Hw. exists (String c ""). split; [unfold blank; simpl; rewrite Hc; reflexivity|].
  rewrite sapp_assoc. cbn [String.append]. apply int_shown; assumption.
Qed.
Lemma reads_int_line old z : is_int z -> reads (rd_int old) (line (show_Z z)) (Some z).
Proof. intros H. exact (reads_int old z nl H eq_refl). Qed.
Lemma reads_nat_line old n : is_int (Z.of_nat n) -> reads (rd_int old) (line (show_nat n)) (Some (Z.of_nat n)).
Proof. apply reads_int_line. Qed.
Lemma reads_char old c : is_ws c = false -> reads (rd_char old) (String c "") (Some c).
Proof.
  intros Hc w rest Hw. exists "". split; [reflexivity|]. unfold rd_char.
  assert (word (String c "")) as Ht. { split; [discriminate|]. simpl. rewrite Hc. reflexivity. }
  rewrite (formatted_word _ _ _ _ _ Hw Ht). reflexivity.
Qed.
Lemma reads_blank {A} (r : rd A) c t a : is_ws c = true -> reads r t a -> reads r (String c t) a.
Proof.
  intros Hc H w rest Hw. destruct (H (w ++ String c "")%string rest) as (w' & Hw' & E).
  { apply blank_app; [exact Hw|unfold blank; simpl; rewrite Hc; reflexivity]. }
  exists w'. split; [exact Hw'|]. rewrite sapp_assoc in E. exact E.
Qed.
Lemma reads_dbl scan old t d c : numeral scan t d -> is_ws c = true -> reads (rd_dbl scan old) (t ++ String c "")%string (Some d).
Proof.
  intros [Ht Hs] Hc w rest Hw. exists (String c ""). split; [unfold blank; simpl; rewrite Hc; reflexivity|].
  rewrite sapp_assoc. cbn [String.append]. unfold rd_dbl. rewrite (formatted_word _ _ _ _ _ Hw Ht), (Hs _ _ Hc). reflexivity.
Qed.
Lemma reads_loop {S X} (f : S -> rd S) (step : S -> X -> S) (txt : X -> string) xs : forall s,
  (forall s x, In x xs -> reads (f s) (txt x) (step s x)) ->
  reads (rd_loop (List.length xs) f s) (concat_str (map txt xs)) (fold_left step xs s).
Proof.
  induction xs as [|x xs IH]; intros s H; [apply reads_ret|]. cbn [List.length rd_loop map fold_left]. unfold concat_str. cbn [fold_right].
  apply (reads_bind _ _ _ _ (step s x)); [apply H; left; reflexivity|]. apply IH. intros s' y Hy. apply H. right. exact Hy.
Qed.
Lemma reads_start {A} (r : rd A) t a : reads r t a -> exists s, r (mkIn t true) = Ok (a, s).
Proof. intros H. destruct (H "" "" eq_refl) as (w & _ & E). cbn [String.append] in E. rewrite !sapp_nil in E. exists (mkIn w true). exact E. Qed.
Lemma to_nat_of n : Z.to_nat (Z.of_nat n) = n.
Proof. apply Nat2Z.id. Qed.
