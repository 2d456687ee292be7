(** The loaders read the layouts of the shipped model files. *)
From Coq Require Import String Ascii ZArith QArith Bool Lia List.
From Verif Require Import Base Spec BaseLemmas AttrModel DataSetModel DataSetSpec InstanceListModel TreeModel TreeGrowProofs GaussianModel SvmModel NetModel
  SvmTrainProofs SerialModel SerialSpec SerialProofs.
Import ListNotations.
Local Open Scope string_scope.
Local Open Scope list_scope.
Local Open Scope nat_scope.

(** ** labels *)
Lemma labels_fold (ls : list string) c acc : snd (fold_left (fun (st : string * list string) l => (l, snd st ++ [l])) ls (c, acc)) = acc ++ ls.
Proof.
  revert c acc. induction ls as [|l ls IH]; intros c acc; cbn [fold_left]; [symmetry; apply app_nil_r|]. rewrite IH. simpl. rewrite <- app_assoc. reflexivity.
Qed.
Lemma reads_labels ls c acc : Forall word ls ->
  reads (rd_loop (List.length ls) read_label (c, acc)) (concat_str (map line ls)) (fold_left (fun (st : string * list string) l => (l, snd st ++ [l])) ls (c, acc)).
Proof.
  intros H. apply (reads_loop read_label (fun st l => (l, snd st ++ [l]))). intros [c0 a0] l Hl. unfold read_label. cbn [fst snd].
  apply (reads_last (rd_tok c0) (fun x => (x, a0 ++ [x]))). apply reads_tok_line. exact (proj1 (Forall_forall _ _) H l Hl).
Qed.
Lemma random_reads sd old seed labels : is_int seed -> is_int (Z.of_nat (List.length labels)) -> Forall word labels ->
  reads (random_load sd old) (random_layout seed labels) (Some seed, old ++ labels).
Proof.
  intros Hs Hn Hl. unfold random_load, random_layout.
  eapply reads_seq; [apply reads_int_line, Hs|reflexivity|].
  eapply reads_seq; [apply reads_nat_line, Hn|reflexivity|].
  eapply reads_silent; [apply reads_init|]. rewrite to_nat_of.
  rewrite <- (labels_fold labels "" old).
  apply (reads_last _ (fun st : string * list string => (Some seed, snd st))). apply reads_labels, Hl.
Qed.

(** ** maps *)
Lemma fold_memplace {V} (es : list (string * V)) : forall m k,
  mfind k (fold_left (fun m e => memplace (fst e) (snd e) m) es m) = match mfind k m with Some v => Some v | None => mfind k es end.
Proof.
  induction es as [|[k0 v0] es IH]; intros m k; cbn [fold_left mfind]; [destruct (mfind k m); reflexivity|]. rewrite IH, mfind_memplace. cbn [fst snd].
  destruct (mfind k m); [reflexivity|]. rewrite String.eqb_sym. destruct (String.eqb k k0); reflexivity.
Qed.
Lemma entries_fold {V} (es : list (string * V)) : forall c m,
  snd (fold_left (fun (st : string * smap V) e => (fst e, memplace (fst e) (snd e) (snd st))) es (c, m)) = fold_left (fun m e => memplace (fst e) (snd e) m) es m.
Proof. induction es as [|e es IH]; intros c m; cbn [fold_left]; [reflexivity|]. apply IH. Qed.
Lemma reads_entries {V} (r : rd V) sep (txt : V -> string) es c m : is_ws sep = true ->
  Forall (fun e => word (fst e) /\ reads r (txt (snd e)) (snd e)) es ->
  reads (rd_loop (List.length es) (read_entry r) (c, m)) (concat_str (map (fun e => fst e ++ String sep (txt (snd e)))%string es))
        (fold_left (fun (st : string * smap V) e => (fst e, memplace (fst e) (snd e) (snd st))) es (c, m)).
Proof.
  intros Hsep H. apply (reads_loop (read_entry r) (fun st e => (fst e, memplace (fst e) (snd e) (snd st)))). intros [c0 m0] e He.
  destruct (proj1 (Forall_forall _ _) H e He) as [Hw Hr]. unfold read_entry. cbn [fst snd].
  eapply reads_seq; [apply (reads_tok c0 (fst e) sep Hw Hsep)|rewrite sapp_assoc; reflexivity|].
  apply (reads_last r (fun v => (fst e, memplace (fst e) v m0))). exact Hr.
Qed.
Lemma weights_fold (es : list (string * dbl)) : forall c o m,
  snd (fold_left (fun (st : string * option dbl * smap dbl) e => (fst e, Some (snd e), memplace (fst e) (snd e) (snd st))) es (c, o, m)) =
  fold_left (fun m e => memplace (fst e) (snd e) m) es m.
Proof. induction es as [|e es IH]; intros c o m; cbn [fold_left]; [reflexivity|]. apply IH. Qed.
Lemma reads_weights scan (num : dbl -> string) es c o m :
  Forall (fun e => word (fst e) /\ numeral scan (num (snd e)) (snd e)) es ->
  reads (rd_loop (List.length es) (read_weight scan) (c, o, m)) (weights_layout num es)
        (fold_left (fun (st : string * option dbl * smap dbl) e => (fst e, Some (snd e), memplace (fst e) (snd e) (snd st))) es (c, o, m)).
Proof.
  intros H. unfold weights_layout. apply (reads_loop (read_weight scan) (fun st e => (fst e, Some (snd e), memplace (fst e) (snd e) (snd st)))).
  intros [[c0 o0] m0] e He. destruct (proj1 (Forall_forall _ _) H e He) as [Hw Hn]. unfold read_weight. cbn [fst snd].
  eapply reads_seq; [apply (reads_tok c0 (fst e) " " Hw eq_refl)|rewrite sapp_assoc; reflexivity|].
  eapply reads_seq; [apply (reads_dbl scan o0 _ _ nl Hn eq_refl)|symmetry; apply sapp_nil|].
  eapply reads_silent; [apply reads_init|]. apply reads_ret.
Qed.

Section Loads.
  Context (words : string -> list string) (split : string -> string -> list string) (stof : string -> res dbl).
  Context (scan : string -> option (dbl * string)) (r_dist : rd counter) (r_vec : rd (list dbl)) (r_mat : rd mat).
  Context (t_dist : counter -> string) (t_vec : list dbl -> string) (t_mat : mat -> string) (num : dbl -> string).

  Lemma lda_reads old prior w0 w : written_read t_dist r_dist prior prior ->
    Forall (fun e => word (fst e) /\ numeral scan (num (snd e)) (snd e)) w0 ->
    Forall (fun e => word (fst e) /\ written_read t_vec r_vec (snd e) (snd e)) w ->
    List.length w0 = List.length prior -> List.length w = List.length prior ->
    reads (lda_load scan r_dist r_vec old) (lda_layout t_dist t_vec num prior w0 w)
      (mkLda prior (fold_left (fun m e => memplace (fst e) (snd e) m) w0 (l_w0 old)) (fold_left (fun m e => memplace (fst e) (snd e) m) w (l_w old))).
  Proof.
    intros Hd Hw0 Hw L0 L. unfold lda_load, lda_layout, lda_rest.
    eapply reads_seq; [apply (reads_written _ _ _ _ Hd)|reflexivity|]. cbv beta.
    eapply reads_seq; [rewrite <- L0; apply (reads_weights scan num w0 "" None (l_w0 old) Hw0)|reflexivity|].
    match goal with |- reads (rbind (rd_loop _ _ (fst (fst ?f), _)) _) _ _ => set (st1 := f) end.
    rewrite <- (weights_fold w0 "" None (l_w0 old)). fold st1.
    rewrite <- (entries_fold w (fst (fst st1)) (l_w old)).
    apply (reads_last _ (fun st2 : string * smap (list dbl) => mkLda prior (snd st1) (snd st2))). rewrite <- L.
    apply (reads_entries r_vec " " t_vec w); [reflexivity|]. apply (Forall_impl _ (fun e p => conj (proj1 p) (reads_written _ _ _ _ (proj2 p))) Hw).
  Qed.
  Lemma qda_reads old prior w0 w W : written_read t_dist r_dist prior prior ->
    Forall (fun e => word (fst e) /\ numeral scan (num (snd e)) (snd e)) w0 ->
    Forall (fun e => word (fst e) /\ written_read t_vec r_vec (snd e) (snd e)) w ->
    Forall (fun e => word (fst e) /\ written_read t_mat r_mat (snd e) (snd e)) W ->
    List.length w0 = List.length prior -> List.length w = List.length prior -> List.length W = List.length prior ->
    reads (qda_load scan r_dist r_vec r_mat old) (qda_layout t_dist t_vec t_mat num prior w0 w W)
      (mkQda (mkLda prior (fold_left (fun m e => memplace (fst e) (snd e) m) w0 (l_w0 (q_lda old))) (fold_left (fun m e => memplace (fst e) (snd e) m) w (l_w (q_lda old))))
             (fold_left (fun m e => memplace (fst e) (snd e) m) (map (fun e => (fst e, mrow (snd e))) W) (q_W old))).
  Proof.
    intros Hd Hw0 Hw HW L0 L LW. unfold qda_load, qda_layout.
    eapply reads_seq; [apply lda_reads; eassumption|reflexivity|]. cbn [l_prior].
    rewrite <- (entries_fold (map (fun e => (fst e, mrow (snd e))) W) "" (q_W old)).
    match goal with |- reads _ _ (mkQda ?l _) => apply (reads_last _ (fun st : string * smap (list (list dbl)) => mkQda l (snd st))) end.
    rewrite <- LW. unfold matrices_layout.
    replace (fold_left (fun (st : string * smap (list (list dbl))) e => (fst e, memplace (fst e) (snd e) (snd st))) (map (fun e => (fst e, mrow (snd e))) W) ("", q_W old))
      with (fold_left (fun (st : string * smap (list (list dbl))) (e : string * mat) => (fst e, memplace (fst e) (mrow (snd e)) (snd st))) W ("", q_W old)).
    2: { generalize (("", q_W old) : string * smap (list (list dbl))). clear. induction W as [|e W IH]; intros st; simpl; [reflexivity|]. apply IH. }
    apply (reads_loop (read_entry (rdo m <- r_mat; rret (mrow m))) (fun st (e : string * mat) => (fst e, memplace (fst e) (mrow (snd e)) (snd st)))).
    intros [c0 m0] e He. destruct (proj1 (Forall_forall _ _) HW e He) as [Hx Hr]. unfold read_entry. cbn [fst snd].
    eapply reads_seq; [apply (reads_tok_line c0 (fst e) Hx)|reflexivity|].
    apply (reads_last (rdo m <- r_mat; rret (mrow m)) (fun v => (fst e, memplace (fst e) v m0))).
    apply (reads_last r_mat mrow). apply (reads_written _ _ _ _ Hr).
  Qed.
  Lemma bayes_reads old prior means devs : written_read t_dist r_dist prior prior ->
    Forall (fun e => word (fst e) /\ written_read t_vec r_vec (snd e) (snd e)) means ->
    Forall (fun e => word (fst e) /\ written_read t_vec r_vec (snd e) (snd e)) devs ->
    List.length means = List.length prior -> List.length devs = List.length prior ->
    reads (bayes_load r_dist r_vec old) (bayes_layout t_dist t_vec prior means devs)
      (mkNB prior (fold_left (fun m e => memplace (fst e) (snd e) m) means (nb_means old)) (fold_left (fun m e => memplace (fst e) (snd e) m) devs (nb_devs old)) (nb_dists old)).
  Proof.
    intros Hd Hm Hv L0 L. unfold bayes_load, bayes_layout.
    eapply reads_seq; [apply (reads_written _ _ _ _ Hd)|reflexivity|]. cbv beta.
    assert (forall es, Forall (fun e : string * list dbl => word (fst e) /\ written_read t_vec r_vec (snd e) (snd e)) es ->
              Forall (fun e => word (fst e) /\ reads r_vec (t_vec (snd e)) (snd e)) es) as Hc.
    { intros es He. apply (Forall_impl _ (fun e p => conj (proj1 p) (reads_written _ _ _ _ (proj2 p))) He). }
    eapply reads_seq; [rewrite <- L0; apply (reads_entries r_vec " " t_vec means "" (nb_means old) eq_refl (Hc _ Hm))|reflexivity|].
    match goal with |- reads (rbind (rd_loop _ _ (fst ?f, _)) _) _ _ => set (st1 := f) end.
    rewrite <- (entries_fold means "" (nb_means old)). fold st1.
    rewrite <- (entries_fold devs (fst st1) (nb_devs old)).
    apply (reads_last _ (fun st2 : string * smap (list dbl) => mkNB prior (snd st1) (snd st2) (nb_dists old))). rewrite <- L.
    apply (reads_entries r_vec " " t_vec devs); [reflexivity|exact (Hc _ Hv)].
  Qed.

  (** ** networks *)
  Lemma net_reads k d old n labels : is_int (Z.of_nat (List.length labels)) -> is_int (Z.of_nat n) -> Forall word labels ->
    reads (net_load k d old) (net_layout n labels) (old ++ labels).
  Proof.
    intros Hk Hn Hl. unfold net_load, net_layout.
    eapply reads_seq; [apply (reads_int k _ " " Hk eq_refl)|rewrite sapp_assoc; reflexivity|].
    eapply reads_seq; [apply reads_nat_line, Hn|reflexivity|].
    eapply reads_silent; [apply reads_init|]. rewrite to_nat_of.
    rewrite <- (labels_fold labels "" old). apply (reads_last _ (@snd string (list string))). apply reads_labels, Hl.
  Qed.
  Lemma act_reads a : reads act_read (line (act_word a)) a.
  Proof.
    unfold act_read. set (f := fun s => if String.eqb s "TANH" then TANH else if String.eqb s "RELU" then RELU else SIGMOID).
    replace a with (f (act_word a)) by (destruct a; reflexivity). apply (reads_last (rd_tok "") f).
    replace (act_word (f (act_word a))) with (act_word a) by (destruct a; reflexivity).
    apply reads_tok_line. destruct a; split; try discriminate; reflexivity.
  Qed.
  Lemma linear_reads k d old n labels w : is_int (Z.of_nat (List.length labels)) -> is_int (Z.of_nat n) -> Forall word labels ->
    written_read t_mat r_mat w w ->
    reads (linear_load r_mat k d old) (linear_layout t_mat n labels w) (mkLin (li_labels old ++ labels) (li_y old) w).
  Proof.
    intros Hk Hn Hl Hw. unfold linear_load, linear_layout. eapply reads_seq; [apply (net_reads k d _ n labels Hk Hn Hl)|reflexivity|].
    apply (reads_last r_mat (fun w => mkLin (li_labels old ++ labels) (li_y old) w)). apply (reads_written _ _ _ _ Hw).
  Qed.
  Lemma mlp_reads k d old n labels w v a : is_int (Z.of_nat (List.length labels)) -> is_int (Z.of_nat n) -> Forall word labels ->
    written_read t_mat r_mat w w -> written_read t_mat r_mat v v ->
    reads (mlp_load r_mat k d old) (mlp_layout t_mat n labels w v a) (mkMlp (ml_labels old ++ labels) (ml_y old) w v a).
  Proof.
    intros Hk Hn Hl Hw Hv. unfold mlp_load, mlp_layout. eapply reads_seq; [apply (net_reads k d _ n labels Hk Hn Hl)|reflexivity|].
    eapply reads_seq; [apply (reads_written _ _ _ _ Hw)|reflexivity|]. eapply reads_seq; [apply (reads_written _ _ _ _ Hv)|reflexivity|].
    apply (reads_last act_read (fun a => mkMlp (ml_labels old ++ labels) (ml_y old) w v a)). apply act_reads.
  Qed.
  Lemma snoc_fold {A} (l acc : list A) : fold_left (fun a x => a ++ [x]) l acc = acc ++ l.
  Proof. revert acc. induction l as [|x l IH]; intros acc; simpl; [symmetry; apply app_nil_r|]. rewrite IH, <- app_assoc. reflexivity. Qed.
  Lemma reads_snoc {A X} (r : rd A) (txt : X -> string) (val : X -> A) xs acc : (forall x, In x xs -> reads r (txt x) (val x)) ->
    reads (rd_loop (List.length xs) (fun acc => rdo x <- r; rret (acc ++ [x])) acc) (concat_str (map txt xs)) (acc ++ map val xs).
  Proof.
    intros H. replace (acc ++ map val xs) with (fold_left (fun a x => a ++ [val x]) xs acc).
    - apply (reads_loop _ (fun a x => a ++ [val x])). intros s x Hx. apply (reads_last r (fun v => s ++ [v])), H, Hx.
    - clear. revert acc. induction xs as [|x xs IH]; intros acc; simpl; [symmetry; apply app_nil_r|]. rewrite IH, <- app_assoc. reflexivity.
  Qed.
  Lemma deep_reads k d h0 old n labels h ws a : is_int (Z.of_nat (List.length labels)) -> is_int (Z.of_nat n) -> Forall word labels ->
    is_int (Z.of_nat h) -> List.length ws = S h -> Forall (fun w => written_read t_mat r_mat w w) ws ->
    reads (deep_load r_mat k d h0 old) (deep_layout t_mat n labels h ws a) (mkDeep (de_labels old ++ labels) (de_y old) (de_weights old ++ ws) h a).
  Proof.
    intros Hk Hn Hl Hh Lw Hw. unfold deep_load, deep_layout. eapply reads_seq; [apply (net_reads k d _ n labels Hk Hn Hl)|reflexivity|].
    eapply reads_seq; [apply reads_nat_line, Hh|reflexivity|]. eapply reads_silent; [apply reads_init|].
    replace (Z.to_nat (Z.of_nat h + 1)) with (List.length ws) by lia.
    eapply reads_seq; [apply (reads_snoc r_mat t_mat (fun w => w) ws)|reflexivity|].
    { intros w Hx. apply (reads_written _ _ _ _ (proj1 (Forall_forall _ _) Hw w Hx)). }
    cbv beta. rewrite map_id, to_nat_of. apply (reads_last act_read (fun a => mkDeep (de_labels old ++ labels) (de_y old) (de_weights old ++ ws) h a)). apply act_reads.
  Qed.

  (** ** instance lists *)
  Lemma cut_line_at t r : has_char nl t = false -> cut_line (t ++ String nl r)%string = (t, Some r).
  Proof.
    induction t as [|c t IH]; simpl; [reflexivity|]. intros H. apply orb_false_iff in H. destruct H as [Hc Ht]. rewrite Hc, (IH Ht). reflexivity.
  Qed.
  Lemma has_char_app c a b : has_char c (a ++ b)%string = has_char c a || has_char c b.
  Proof. induction a as [|x a IH]; simpl; [reflexivity|rewrite IH, orb_assoc; reflexivity]. Qed.
  Lemma types_line_nl cols : has_char nl (types_line cols) = false.
  Proof. unfold types_line. induction cols as [|c cols IH]; [reflexivity|]. cbn [map concat_str fold_right]. rewrite has_char_app. unfold concat_str in IH. rewrite IH. destruct c; reflexivity. Qed.
  Lemma join_nl l : Forall clean_cell l -> has_char nl (join "," l) = false.
  Proof.
    induction 1 as [|x l Hx Hl IH]; [reflexivity|]. destruct l as [|y l]; [exact (proj2 (proj2 Hx))|].
    change (join "," (x :: y :: l)) with (x ++ "," ++ join "," (y :: l))%string. rewrite !has_char_app, IH, (proj2 (proj2 Hx)). reflexivity.
  Qed.
  Lemma read_cells_ok cols : forall j vals pre cells lab xs, vals = pre ++ cells ++ lab -> List.length pre = j -> List.length cells = List.length cols ->
    Forall2 (fun cs a => cell_attr stof (fst cs) (snd cs) a) (combine cols cells) xs ->
    read_cells stof j (map column_word cols) vals = Ok xs.
  Proof.
    induction cols as [|c cols IH]; intros j vals pre cells lab xs E Lj Lc H.
    - simpl in *. inversion H; subst. reflexivity.
    - destruct cells as [|s cells]; [discriminate Lc|]. cbn [combine] in H. inversion H as [|? a ? xs' Ha Hxs]; subst. cbn [fst snd] in Ha.
      assert (idxn (pre ++ (s :: cells) ++ lab) (List.length pre) = Ok s) as Ei.
      { unfold idxn. rewrite nth_error_app2, Nat.sub_diag by lia. reflexivity. }
      assert (read_cells stof (S (List.length pre)) (map column_word cols) (pre ++ (s :: cells) ++ lab) = Ok xs') as Er.
      { apply (IH _ _ (pre ++ [s]) cells lab); [rewrite <- app_assoc; reflexivity|rewrite app_length; simpl; lia|simpl in Lc; lia|exact Hxs]. }
      destruct c; cbn [map column_word read_cells].
      + change (String.eqb "DISCRETE" "DISCRETE") with true. cbv iota. rewrite Ei. cbn [bind]. rewrite Er. simpl in Ha. subst a. reflexivity.
      + change (String.eqb "CONTINUOUS" "DISCRETE") with false. change (String.eqb "CONTINUOUS" "CONTINUOUS") with true. cbv iota. rewrite Ei. cbn [bind].
        destruct Ha as (v & Ev & ->). rewrite Ev. cbn [bind]. rewrite Er. reflexivity.
  Qed.
  Lemma read_row_ok cols r x l0 acc rest : split_ok split "," -> row_instance stof cols r x -> Forall clean_cell (fst r ++ [snd r]) ->
    exists l, read_row split stof (map column_word cols) (l0, acc) (mkIn (line (join "," (fst r ++ [snd r])) ++ rest)%string true) = Ok ((l, acc ++ [x]), mkIn rest true).
  Proof.
    intros [Hsp _] (Hlab & Hcomp & Len & Hx) Hcl. exists (join "," (fst r ++ [snd r])). unfold read_row, rbind. cbn [fst snd].
    unfold rd_line. cbn [good SerialModel.rest]. unfold line. rewrite sapp_assoc. cbn [String.append]. rewrite (cut_line_at _ _ (join_nl _ Hcl)). cbn [bind fst snd].
    assert (split (join "," (fst r ++ [snd r])) "," = fst r ++ [snd r]) as Es.
    { apply Hsp; [destruct (fst r); discriminate|]. apply (Forall_impl _ (fun s (h : clean_cell s) => conj (proj1 h) (proj1 (proj2 h))) Hcl). }
    rewrite Es. unfold rlift. rewrite (read_cells_ok cols 0 (fst r ++ [snd r]) [] (fst r) [snd r] (attrs x) eq_refl eq_refl Len Hx). cbn [bind fst snd].
    unfold idxn. rewrite map_length, <- Len, nth_error_app2, Nat.sub_diag by lia. cbn [nth_error bind fst snd]. unfold rret.
    destruct x as [lx ax cx]. simpl in *. subst. reflexivity.
  Qed.
  Lemma rd_loop_rows cols rows xs : split_ok split "," -> Forall2 (row_instance stof cols) rows xs -> Forall (fun r => Forall clean_cell (fst r ++ [snd r])) rows ->
    forall l0 acc rest, exists l, rd_loop (List.length rows) (read_row split stof (map column_word cols)) (l0, acc)
       (mkIn (concat_str (map (fun r => line (join "," (fst r ++ [snd r]))) rows) ++ rest)%string true) = Ok ((l, acc ++ xs), mkIn rest true).
  Proof.
    intros Hs H Hc. induction H as [|r x rows xs Hr Hrs IH]; intros l0 acc rest.
    - exists l0. cbn. unfold rret. rewrite app_nil_r. reflexivity.
    - inversion Hc as [|? ? Hc1 Hc2]; subst. cbn [List.length rd_loop map concat_str fold_right].
      rewrite sapp_assoc. destruct (read_row_ok cols r x l0 acc (concat_str (map (fun r => line (join "," (fst r ++ [snd r]))) rows) ++ rest)%string Hs Hr Hc1) as (l & E).
      destruct (IH Hc2 l (acc ++ [x]) rest) as (l' & E'). exists l'. unfold concat_str in E, E'. rewrite (rbind_ok _ _ _ _ _ E). etransitivity; [exact E'|].
      rewrite <- app_assoc. reflexivity.
  Qed.
  Lemma list_reads cols rows xs rest : words_ok words -> split_ok split "," -> is_int (Z.of_nat (List.length rows)) ->
    Forall2 (row_instance stof cols) rows xs -> Forall (fun r => Forall clean_cell (fst r ++ [snd r])) rows ->
    list_read words split stof (mkIn (String nl (list_layout cols rows ++ rest))%string true) = Ok (xs, mkIn rest true).
  Proof.
    intros Hw Hs Hn H Hc. unfold list_read, list_layout. unfold rbind at 1. cbn [rd_ignore good SerialModel.rest bind fst snd].
    unfold line at 1. rewrite !sapp_assoc. cbn [String.append].
    set (body := (line (show_nat (List.length rows)) ++ concat_str (map (fun r => line (join "," (fst r ++ [snd r]))) rows) ++ rest)%string).
    rewrite (rbind_ok (rd_line "") _ _ (types_line cols) (mkIn body true)).
    2: { unfold rd_line. cbn [good SerialModel.rest]. rewrite (cut_line_at _ _ (types_line_nl cols)). reflexivity. }
    cbv zeta. rewrite (Hw cols).
    set (tl := (concat_str (map (fun r => line (join "," (fst r ++ [snd r]))) rows) ++ rest)%string) in *.
    rewrite (rbind_ok (rd_int None) _ _ (Some (Z.of_nat (List.length rows))) (mkIn (String nl tl) true)).
    2: { unfold body, line. rewrite !sapp_assoc. cbn [String.append]. apply (int_shown None "" (Z.of_nat (List.length rows)) nl tl); [reflexivity|reflexivity|exact Hn]. }
    unfold rbind at 1. cbn [init rlift bind fst snd]. unfold rbind at 1. cbn [rd_ignore good SerialModel.rest bind fst snd]. rewrite to_nat_of.
    destruct (rd_loop_rows cols rows xs Hs H Hc (types_line cols) [] rest) as (l & E). fold tl in E.
    rewrite (rbind_ok _ _ _ _ _ E). reflexivity.
  Qed.

  (** ** trees *)
  Lemma cond_reads c : storable_cond stof num c -> reads (cond_read stof) (cond_layout num c) (loaded_cond c).
  Proof.
    intros H. unfold storable_cond in H. unfold cond_read, cond_layout, loaded_cond. destruct (c_value c) as [a|] eqn:Ea.
    2: { subst c. eapply reads_seq; [apply (reads_int (Some (-1)%Z) (-1) " "); [unfold is_int; lia|reflexivity]|reflexivity|].
         eapply reads_silent; [apply reads_init|]. eapply reads_seq; [apply (reads_char None "=" eq_refl)|reflexivity|].
         apply (reads_blank _ " " _ _ eq_refl). eapply reads_seq; [apply (reads_tok_line "" "-1"); split; [discriminate|reflexivity]|reflexivity|].
         change (-1 =? -1)%Z with true. cbv iota. apply reads_ret. }
    destruct H as [Hi H]. assert (is_int (c_index c)) as Hii by (unfold is_int, int_max in *; lia).
    assert ((c_index c =? -1)%Z = false) as Hne by (apply Z.eqb_neq; lia).
    destruct c as [i cm va]. cbn [c_index c_cmp c_value] in *. subst va.
    destruct a as [v|v|v k m|x].
    - destruct H as [Hv ->]. unfold line. rewrite !sapp_assoc. cbn [String.append].
      cbn [String.append]. eapply reads_sep; [apply (reads_int _ _ " " Hii eq_refl)|]. eapply reads_silent; [apply reads_init|].
      eapply reads_seq; [apply (reads_char None "=" eq_refl)|reflexivity|].
      apply (reads_blank _ " " _ _ eq_refl). cbn [String.append].
      eapply reads_seq; [apply (reads_tok_line "" v Hv)|symmetry; apply sapp_nil|]. rewrite Hne. eapply reads_silent; [apply reads_init|].
      change (Ascii.eqb "=" "=") with true. cbv iota. apply reads_ret.
    - destruct H.
    - destruct H as (Hk & Hm & ->). unfold line. rewrite !sapp_assoc. cbn [String.append].
      cbn [String.append]. eapply reads_sep; [apply (reads_int _ _ " " Hii eq_refl)|]. eapply reads_silent; [apply reads_init|].
      eapply reads_seq; [apply (reads_char None ":" eq_refl)|reflexivity|].
      apply (reads_blank _ " " _ _ eq_refl). eapply reads_sep; [apply (reads_tok "" (show_Z k) " " (show_Z_word k) eq_refl)|]. rewrite Hne. eapply reads_silent; [apply reads_init|].
      change (Ascii.eqb ":" "=") with false. change (Ascii.eqb ":" ":") with true. cbv iota. cbn [String.append].
      eapply reads_seq; [apply (reads_nat_line None m Hm)|symmetry; apply sapp_nil|].
      eapply reads_silent; [apply reads_lift, stoi_show, Hk|]. eapply reads_silent; [apply reads_init|]. rewrite to_nat_of. apply reads_ret.
    - destruct H as (Hx & Hs & Hc). unfold line. rewrite !sapp_assoc.
      assert (exists ch, (match cm with CGt => " > " | _ => " < " end) = String " " (String ch " ") /\ Ascii.eqb ch "=" = false /\ Ascii.eqb ch ":" = false /\ is_ws ch = false /\
               (if Ascii.eqb ch "<" then CLt else if Ascii.eqb ch ">" then CGt else CEq) = cm) as (ch & -> & H1 & H2 & H3 & H4).
      { destruct Hc as [-> | ->]; [exists "<"%char|exists ">"%char]; repeat split. }
      cbn [String.append]. eapply reads_sep; [apply (reads_int _ _ " " Hii eq_refl)|]. eapply reads_silent; [apply reads_init|].
      eapply reads_seq; [apply (reads_char None ch H3)|reflexivity|].
      apply (reads_blank _ " " _ _ eq_refl). cbn [String.append].
      eapply reads_seq; [apply (reads_tok_line "" (num x) Hx)|symmetry; apply sapp_nil|]. rewrite Hne. eapply reads_silent; [apply reads_init|].
      rewrite H1, H2. eapply reads_silent; [apply reads_lift, Hs|]. rewrite H4. apply reads_ret.
  Qed.
  Fixpoint depth (t : tree) : nat := match t with Node _ _ _ _ ch => S (fold_right Nat.max 0 (map depth ch)) end.
  Lemma tree_layout_eq t : tree_layout t_dist num t =
    match t with
    | Node lab _ d c [] => (cond_layout num c ++ line "0" ++ line lab ++ t_dist d)%string
    | Node lab _ d c ch => (cond_layout num c ++ line (show_nat (List.length ch)) ++ concat_str (map (tree_layout t_dist num) ch))%string
    end.
  Proof. destruct t as [lab lf d c ch]. destruct ch; reflexivity. Qed.
  Lemma loaded_eq t : loaded t =
    match t with Node lab _ d c [] => Node lab true d (loaded_cond c) [] | Node _ _ _ c ch => Node "" false [] (loaded_cond c) (map loaded ch) end.
  Proof. destruct t as [lab lf d c ch]. destruct ch; reflexivity. Qed.
  Lemma leaf_dists_eq t : leaf_dists t = match t with Node _ _ d _ [] => [d] | Node _ _ _ _ ch => flat_map leaf_dists ch end.
  Proof. destruct t as [lab lf d c ch]. destruct ch; reflexivity. Qed.
  Lemma max_in (l : list nat) n : In n l -> n <= fold_right Nat.max 0 l.
  Proof. induction l as [|x l IH]; simpl; [tauto|]. intros [->|H]; [lia|]. specialize (IH H). lia. Qed.
  Lemma node_reads t : storable stof num t -> Forall (fun d => written_read t_dist r_dist d d) (leaf_dists t) ->
    forall fuel, depth t <= fuel -> reads (node_read stof r_dist fuel) (tree_layout t_dist num t) (loaded t).
  Proof.
    induction t as [lab lf d c ch IH] using tree_rect2. intros Hs Hd fuel Hf. rewrite tree_layout_eq, loaded_eq. rewrite leaf_dists_eq in Hd.
    destruct fuel as [|fuel]; [simpl in Hf; lia|]. cbn [node_read].
    inversion Hs as [lab0 d0 c0 Hc Hl|lab0 d0 c0 ch0 Hc Hne Hn Hch]; subst.
    - eapply reads_seq; [apply cond_reads, Hc|reflexivity|].
      eapply reads_seq; [apply (reads_int_line None 0); unfold is_int; lia|reflexivity|]. eapply reads_silent; [apply reads_init|].
      change (0 =? 0)%Z with true. cbv iota. eapply reads_seq; [apply (reads_tok_line "" lab Hl)|reflexivity|].
      apply (reads_last r_dist (fun d => Node lab true d (loaded_cond c) [])). inversion Hd; subst. apply (reads_written _ _ _ _ H1).
    - destruct ch as [|n0 ch0]; [congruence|]. set (chs := n0 :: ch0) in *.
      eapply reads_seq; [apply cond_reads, Hc|reflexivity|].
      eapply reads_seq; [apply (reads_nat_line None _ Hn)|reflexivity|]. eapply reads_silent; [apply reads_init|].
      assert ((Z.of_nat (List.length chs) =? 0)%Z = false) as -> by (apply Z.eqb_neq; unfold chs; simpl; lia). rewrite to_nat_of.
      apply (reads_last _ (fun chs => Node "" false [] (loaded_cond c) chs)).
      change (map loaded chs) with ([] ++ map loaded chs). apply reads_snoc. intros n Hin.
      apply (proj1 (Forall_forall _ _) IH n Hin).
      + exact (proj1 (Forall_forall _ _) Hch n Hin).
      + apply Forall_forall. intros e He. apply (proj1 (Forall_forall _ _) Hd). apply in_flat_map. exists n. auto.
      + assert (depth n <= fold_right Nat.max 0 (map depth chs)) by (apply max_in, in_map, Hin). cbn [depth] in Hf. lia.
  Qed.
  Lemma cond_layout_len c : 1 <= String.length (cond_layout num c).
  Proof.
    assert (forall s, 1 <= String.length (line s)) as H. { intros s. unfold line. rewrite slen_app. change (String.length (String nl "")) with 1. lia. }
    unfold cond_layout. destruct (c_value c) as [[]|]; apply H.
  Qed.
  Lemma concat_len (l : list string) s : In s l -> String.length s <= String.length (concat_str l).
  Proof.
    induction l as [|x l IH]; [intros []|]. intros H. change (concat_str (x :: l)) with (x ++ concat_str l)%string. rewrite slen_app.
    destruct H as [->|H]; [lia|]. specialize (IH H). lia.
  Qed.
  Lemma depth_len t : depth t <= String.length (tree_layout t_dist num t).
  Proof.
    induction t as [lab lf d c ch IH] using tree_rect2. rewrite tree_layout_eq. pose proof (cond_layout_len c) as Hc. destruct ch as [|n0 ch0].
    - rewrite !slen_app. cbn [depth map fold_right]. lia.
    - set (chs := n0 :: ch0) in *. rewrite !slen_app. cbn [depth].
      enough (fold_right Nat.max 0 (map depth chs) <= String.length (concat_str (map (tree_layout t_dist num) chs))) by (fold chs; lia).
      assert (forall l m, (forall n, In n l -> n <= m) -> fold_right Nat.max 0 l <= m) as Hm.
      { clear. induction l as [|x l IHl]; simpl; intros m H; [lia|]. apply Nat.max_lub; [apply H; left; reflexivity|apply IHl; intros n Hn; apply H; right; exact Hn]. }
      apply Hm. intros n Hn. apply in_map_iff in Hn. destruct Hn as (t & <- & Ht).
      etransitivity; [apply (proj1 (Forall_forall _ _) IH t Ht)|]. apply concat_len, in_map, Ht.
  Qed.
  Lemma tree_reads t : storable stof num t -> Forall (fun d => written_read t_dist r_dist d d) (leaf_dists t) ->
    reads (tree_load stof r_dist) (tree_layout t_dist num t) (loaded t).
  Proof.
    intros Hs Hd w rest Hw. unfold tree_load. cbn [SerialModel.rest]. apply (node_reads t Hs Hd); [|exact Hw].
    pose proof (depth_len t). rewrite !slen_app. lia.
  Qed.
  Lemma ensemble_reads old f : Forall (storable stof num) f -> Forall (fun d => written_read t_dist r_dist d d) (flat_map leaf_dists f) ->
    is_int (Z.of_nat (List.length f)) ->
    reads (ensemble_load stof r_dist old) (ensemble_layout t_dist num f) (old ++ map loaded f).
  Proof.
    intros Hs Hd Hn. unfold ensemble_load, ensemble_layout. eapply reads_seq; [apply (reads_nat_line None _ Hn)|reflexivity|].
    eapply reads_silent; [apply reads_init|]. rewrite to_nat_of. apply reads_snoc. intros t Ht. apply tree_reads.
    - exact (proj1 (Forall_forall _ _) Hs t Ht).
    - apply Forall_forall. intros e He. apply (proj1 (Forall_forall _ _) Hd). apply in_flat_map. exists t. auto.
  Qed.

  (** ** answers of a loaded tree *)
  Lemma loaded_satisfy c x : satisfy (loaded_cond c) x = satisfy c x.
  Proof. unfold loaded_cond. destruct (c_value c) as [[]|] eqn:E; try reflexivity. unfold satisfy. rewrite E. cbn [c_value c_index]. reflexivity. Qed.
  Lemma loaded_cond_of t : t_cond (loaded t) = loaded_cond (t_cond t).
  Proof. destruct t as [lab lf d c ch]. destruct ch; reflexivity. Qed.
  Lemma covered_answers (max_item : counter -> list string -> string) t x : storable stof num t -> covered t x = true -> isComposite x = true ->
    (forall d, max_item d (possible_labels x) <> "") -> exists p, node_predict max_item t x = Ok p /\ p <> "".
  Proof.
    intros Hs Hc Hx Hm. induction t as [lab lf d c ch IH] using tree_rect2. inversion Hs as [lab0 d0 c0 Hc0 Hl|lab0 d0 c0 ch0' Hc0 Hne Hn Hch]; subst.
    - cbn [node_predict]. rewrite Hx. eauto.
    - cbn [node_predict covered orb] in *. rewrite Hx. clear Hs Hne Hn. revert IH Hc Hch. induction ch as [|n ch IHch]; intros IH Hc Hch; [discriminate Hc|].
      pose proof (Forall_inv IH) as H1; pose proof (Forall_inv_tail IH) as H2; pose proof (Forall_inv Hch) as H4; pose proof (Forall_inv_tail Hch) as H5; cbv beta in H1. destruct (satisfy (t_cond n) x) as [[]| | |]; try discriminate Hc.
      + cbn [bind]. destruct (H1 H4 Hc) as (p & -> & Hp). cbn [bind]. destruct (String.eqb_spec p ""); [contradiction|]. eauto.
      + cbn [bind]. apply IHch; assumption.
  Qed.
  Lemma loaded_predict (max_item : counter -> list string -> string) t x : storable stof num t -> covered t x = true ->
    (isComposite x = true -> forall d, max_item d (possible_labels x) <> "") ->
    node_predict max_item (loaded t) x = node_predict max_item t x.
  Proof.
    intros Hs Hc Hm. induction t as [lab lf d c ch IH] using tree_rect2. rewrite loaded_eq. inversion Hs as [lab0 d0 c0 Hc0 Hl|lab0 d0 c0 ch0' Hc0 Hne Hn Hch]; subst; [reflexivity|].
    destruct ch as [|n0 ch0]; [congruence|]. set (chs := n0 :: ch0) in *. clearbody chs. clear n0 ch0 Hs Hne Hn.
    cbn [node_predict covered orb] in *. destruct (isComposite x) eqn:Hx.
    - revert IH Hc Hch. induction chs as [|n ch IHch]; intros IH Hc Hch; [discriminate Hc|]. cbn [map].
      pose proof (Forall_inv IH) as H1; pose proof (Forall_inv_tail IH) as H2; pose proof (Forall_inv Hch) as H4; pose proof (Forall_inv_tail Hch) as H5; cbv beta in H1. rewrite loaded_cond_of, loaded_satisfy. destruct (satisfy (t_cond n) x) as [[]| | |]; try discriminate Hc.
      + cbn [bind]. rewrite (H1 H4 Hc). destruct (covered_answers max_item n x H4 Hc Hx (Hm eq_refl)) as (p & -> & Hp). cbn [bind].
        destruct (String.eqb_spec p ""); [contradiction|reflexivity].
      + cbn [bind]. apply IHch; assumption.
    - revert IH Hc Hch. induction chs as [|n ch IHch]; intros IH Hc Hch; [discriminate Hc|]. cbn [map].
      pose proof (Forall_inv IH) as H1; pose proof (Forall_inv_tail IH) as H2; pose proof (Forall_inv Hch) as H4; pose proof (Forall_inv_tail Hch) as H5; cbv beta in H1. rewrite loaded_cond_of, loaded_satisfy. destruct (satisfy (t_cond n) x) as [[]| | |]; try discriminate Hc.
      + cbn [bind]. exact (H1 H4 Hc).
      + cbn [bind]. apply IHch; assumption.
  Qed.
  Lemma loaded_probability t x : storable stof num t -> covered t x = true -> node_probability (loaded t) x = node_probability t x.
  Proof.
    intros Hs Hc. induction t as [lab lf d c ch IH] using tree_rect2. rewrite loaded_eq. inversion Hs as [lab0 d0 c0 Hc0 Hl|lab0 d0 c0 ch0' Hc0 Hne Hn Hch]; subst; [reflexivity|].
    destruct ch as [|n0 ch0]; [congruence|]. set (chs := n0 :: ch0) in *. clearbody chs. clear n0 ch0 Hs Hne Hn.
    cbn [node_probability covered orb] in *. revert IH Hc Hch. induction chs as [|n ch IHch]; intros IH Hc Hch; [discriminate Hc|]. cbn [map].
    pose proof (Forall_inv IH) as H1; pose proof (Forall_inv_tail IH) as H2; pose proof (Forall_inv Hch) as H4; pose proof (Forall_inv_tail Hch) as H5; cbv beta in H1. rewrite loaded_cond_of, loaded_satisfy. destruct (satisfy (t_cond n) x) as [[]| | |]; try discriminate Hc.
    - cbn [bind]. exact (H1 H4 Hc).
    - cbn [bind]. apply IHch; assumption.
  Qed.
  Lemma loaded_uncovered (max_item : counter -> list string -> string) t x p : storable stof num t -> covered t x = false -> isComposite x = false ->
    node_predict max_item t x = Ok p -> node_predict max_item (loaded t) x = Ok "".
  Proof.
    intros Hs Hc Hx. induction t as [lab lf d c ch IH] using tree_rect2. rewrite loaded_eq. inversion Hs as [lab0 d0 c0 Hc0 Hl|lab0 d0 c0 ch0' Hc0 Hne Hn Hch]; subst; [discriminate Hc|].
    destruct ch as [|n0 ch0]; [congruence|]. set (chs := n0 :: ch0) in *. clearbody chs. clear n0 ch0 Hs Hne Hn.
    cbn [node_predict covered orb] in *. rewrite Hx. revert IH Hc Hch. induction chs as [|n ch IHch]; intros IH Hc Hch; [reflexivity|]. cbn [map].
    pose proof (Forall_inv IH) as H1; pose proof (Forall_inv_tail IH) as H2; pose proof (Forall_inv Hch) as H4; pose proof (Forall_inv_tail Hch) as H5; cbv beta in H1. rewrite loaded_cond_of, loaded_satisfy. destruct (satisfy (t_cond n) x) as [[]| | |]; cbn [bind].
    - exact (H1 H4 Hc).
    - apply IHch; assumption.
    - discriminate.
    - discriminate.
    - discriminate.
  Qed.
End Loads.
