(** Proofs about the filters. *)
From Coq Require Import String ZArith QArith Qreals Reals Bool Lia Lra Lqa Permutation Sorted Arith List.
From Verif Require Import Base Spec BaseLemmas DblLemmas AttrModel DataSetModel DataSetProofs InstanceListModel StatModel ListSpec StatSpec ListProofs CovProofs CovAllProofs PartitionProofs FilterModel FilterSpec.
Import ListNotations.
Local Open Scope string_scope.
Local Open Scope list_scope.
Local Open Scope nat_scope.

Lemma atn_at {A} (pre : list A) d post : atn (pre ++ d :: post) (length pre) = Ok d.
Proof. apply atn_ok. rewrite nth_error_app2 by lia. rewrite Nat.sub_diag. reflexivity. Qed.
Lemma add_attrs l y : fold_left add_attr l y = mkInst (label y) (attrs y ++ l) (composite y).
Proof.
  revert y. induction l as [|a l IH]; intros y; cbn [fold_left]; [rewrite app_nil_r; destruct y; reflexivity|].
  rewrite IH. cbn. rewrite <- app_assoc. reflexivity.
Qed.
Definition enc_of fmt (encode : string -> Z -> nat -> list attr) (p : counter * attr) : list attr :=
  if dist_used (fst p) then encode (attr_string fmt (snd p)) (dist_index (fst p) (attr_string fmt (snd p))) (length (fst p)) else [].
Definition stage1 fmt encode dists :=
  fun y i => do d <- atn dists i;
             if dist_used d then
               do a <- get_attr y (Z.of_nat i);
               let s := attr_string fmt a in
               Ok (fold_left add_attr (encode s (dist_index d s) (length d)) y)
             else Ok y.
Lemma stage1_spec fmt encode lb co : forall drest rest dpre pre added, length drest = length rest -> length dpre = length pre ->
  foldM (stage1 fmt encode (dpre ++ drest)) (seq (length pre) (length rest)) (mkInst lb ((pre ++ rest) ++ added) co) =
  Ok (mkInst lb ((pre ++ rest) ++ added ++ flat_map (enc_of fmt encode) (combine drest rest)) co).
Proof.
  induction drest as [|d drest IH]; intros [|a rest] dpre pre added H1 H2; try discriminate.
  - cbn. rewrite !app_nil_r. reflexivity.
  - cbn [length seq foldM]. unfold stage1 at 1. rewrite <- H2 at 1. rewrite atn_at. cbn [bind combine flat_map].
    assert (G : get_attr (mkInst lb ((pre ++ a :: rest) ++ added) co) (Z.of_nat (length pre)) = Ok a).
    { unfold get_attr. cbn [attrs]. rewrite at_nat, <- app_assoc. cbn [app]. apply atn_at. }
    rewrite G. cbn [bind]. cbv zeta. rewrite add_attrs. cbn [label attrs composite]. unfold enc_of at 1. cbn [fst snd].
    assert (E1 : dpre ++ d :: drest = (dpre ++ [d]) ++ drest) by (rewrite <- app_assoc; reflexivity).
    assert (E2 : pre ++ a :: rest = (pre ++ [a]) ++ rest) by (rewrite <- app_assoc; reflexivity).
    assert (L : S (length pre) = length (pre ++ [a])) by (rewrite app_length; cbn; lia).
    destruct (dist_used d); cbn [bind].
    + rewrite E1, E2, L, <- (app_assoc _ added). rewrite IH; [|now injection H1|rewrite !app_length, H2; reflexivity].
      rewrite <- !app_assoc. reflexivity.
    + rewrite E1, E2, L. rewrite IH; [|now injection H1|rewrite !app_length, H2; reflexivity]. reflexivity.
Qed.
Definition kept_d (dists : list counter) (aa : list attr) : list attr :=
  flat_map (fun p : counter * attr => if dist_used (fst p) then [] else [snd p]) (combine dists aa).
Lemma remove_at lb pre a post co : remove_attr (mkInst lb (pre ++ a :: post) co) (Z.of_nat (length pre)) = Ok (mkInst lb (pre ++ post) co).
Proof.
  unfold remove_attr. destruct (Z.ltb_spec (Z.of_nat (length pre)) 0); [lia|]. cbn [attrs label composite]. rewrite Nat2Z.id.
  replace (length pre <? length (pre ++ a :: post)) with true by (symmetry; apply Nat.ltb_lt; rewrite app_length; cbn; lia).
  f_equal. f_equal. clear. induction pre as [|x pre IH]; [reflexivity|]. cbn. rewrite IH. reflexivity.
Qed.
Lemma remove_spec lb co added : forall drest rest dpre done i, length drest = length rest -> length dpre = i ->
  exists k, foldM (fun st j => do d <- atn (dpre ++ drest) j;
                      if dist_used d then do y <- remove_attr (snd st) (Z.of_nat (fst st)); Ok (fst st, y)
                      else Ok (S (fst st), snd st)) (seq i (length rest)) (length done, mkInst lb (done ++ rest ++ added) co) =
  Ok (k, mkInst lb (done ++ kept_d drest rest ++ added) co).
Proof.
  induction drest as [|d drest IH]; intros [|a rest] dpre done i H1 H2; try discriminate.
  - cbn. eexists; reflexivity.
  - cbn [length seq foldM]. subst i. rewrite atn_at. cbn [bind fst snd]. unfold kept_d. cbn [combine flat_map fst snd].
    assert (E1 : dpre ++ d :: drest = (dpre ++ [d]) ++ drest) by (rewrite <- app_assoc; reflexivity). rewrite E1.
    destruct (dist_used d).
    + cbn [app]. rewrite remove_at. cbn [bind].
      apply (IH rest (dpre ++ [d]) done (S (length dpre))); [now injection H1|rewrite app_length; cbn; lia].
    + cbn [bind].
      destruct (IH rest (dpre ++ [d]) (done ++ [a]) (S (length dpre))) as [k Hk]; [now injection H1|rewrite app_length; cbn; lia|].
      exists k. rewrite app_length in Hk. cbn [length] in Hk. replace (length done + 1) with (S (length done)) in Hk by lia.
      rewrite <- !app_assoc in Hk. cbn [app] in *. rewrite <- E1. cbn [fst snd app] in *. exact Hk.
Qed.
Lemma lary_convert_spec fmt encode dists x : length dists = attr_count x ->
  lary_convert fmt encode dists x = Ok (mkInst (label x) (kept_d dists (attrs x) ++ flat_map (enc_of fmt encode) (combine dists (attrs x))) (composite x)).
Proof.
  intros H. destruct x as [lb aa co]. unfold lary_convert, attr_count in *. cbn [attrs label composite] in *.
  pose proof (stage1_spec fmt encode lb co dists aa [] [] [] H eq_refl) as S1. cbn [app length] in S1. rewrite app_nil_r in S1.
  fold (stage1 fmt encode dists). rewrite S1. cbn [bind]. unfold remove_discrete.
  destruct (remove_spec lb co (flat_map (enc_of fmt encode) (combine dists aa)) dists aa [] [] 0 H eq_refl) as [k Hk].
  cbn [app length] in Hk. rewrite Hk. reflexivity.
Qed.

(** * The distributions of a consistent data set *)
Lemma attr_distribution_disc k l vs v0 : num_column k l [] \/ text_column k l vs -> (exists x l', l = x :: l' /\ feature x k (ADisc v0)) ->
  text_column k l vs -> attr_distribution k l = Ok (cofl vs).
Proof.
  intros _ (x & l' & -> & Hx) H. unfold attr_distribution. change (atn (x :: l') 0) with (@Ok instance x). cbn [bind].
  apply get_attr_ok in Hx. rewrite Hx. cbn [bind isDiscrete]. 
  assert (G : forall (l : list instance) vs c, text_column k l vs -> foldM (fun c x => do v <- disc_at k x; Ok (cput c v)) l c = Ok (fold_left cput vs c)).
  { clear. intros l vs c H. apply disc_column, mapM_ok in H. revert c. induction H as [|x v l vs Hx HF IH]; intros c; [reflexivity|]. cbn [foldM fold_left]. rewrite Hx. cbn [bind]. apply IH. }
  apply G, H.
Qed.
Lemma feature_of_nth x i a : nth_error (attrs x) i = Some a -> feature x (Z.of_nat i) a.
Proof. exact (feature_nth x i a). Qed.
Lemma consistent_len ks l x : consistent ks l -> In x l -> length (attrs x) = length ks.
Proof. unfold consistent. rewrite Forall_forall. intros H Hx. symmetry. eapply Forall2_len, (H x Hx). Qed.
Lemma consistent_nth ks l x i k a : consistent ks l -> In x l -> nth_error ks i = Some k -> nth_error (attrs x) i = Some a ->
  if k then exists v, a = ADisc v else forall v, a <> ADisc v.
Proof. unfold consistent. rewrite Forall_forall. intros H Hx Hk Ha. apply (Forall2_nth _ _ _ i k a (H x Hx) Hk Ha). Qed.
Lemma column_of ks l i : consistent ks l -> nth_error ks i = Some true ->
  exists vs, text_column (Z.of_nat i) l vs /\ (forall v, In v vs <-> occurs l i v).
Proof.
  intros H Hk. induction l as [|x l IH].
  - exists []. split; [constructor|]. intros v. split; [intros []|intros (x & [] & _)].
  - destruct IH as (vs & Hc & Ho); [inversion H; assumption|].
    assert (Hl : i < length (attrs x)) by (rewrite (consistent_len _ _ x H (or_introl eq_refl)); apply nth_error_Some; congruence).
    destruct (nth_error (attrs x) i) as [a|] eqn:Ea; [|apply nth_error_None in Ea; lia].
    destruct (consistent_nth _ _ x i true a H (or_introl eq_refl) Hk Ea) as [v ->].
    exists (v :: vs). split.
    + constructor; [|exact Hc]. exists (ADisc v). split; [apply feature_of_nth, Ea|left; reflexivity].
    + intros w. split.
      * intros [<-|Hw]; [exists x; split; [left; reflexivity|exact Ea]|]. apply Ho in Hw as (y & Hy & Ey). exists y. split; [right; exact Hy|exact Ey].
      * intros (y & [<-|Hy] & Ey); [left; congruence|right; apply Ho; exists y; split; assumption].
Qed.
Lemma distributions ks l : consistent ks l -> l <> [] ->
  exists ds, all_attr_distribution l = Ok ds /\ known_values ks l (map mkeys ds).
Proof.
  intros H Hn. destruct l as [|x0 l0] eqn:El; [congruence|]. rewrite <- El in *. assert (Hx0 : In x0 l) by (rewrite El; left; reflexivity).
  unfold all_attr_distribution. replace (atn l 0) with (Ok x0) by (rewrite El; reflexivity). cbn [bind].
  unfold attr_count. rewrite (consistent_len _ _ _ H Hx0).
  assert (P : forall i, i < length ks -> exists d, attr_distribution (Z.of_nat i) l = Ok d /\ NoDup (mkeys d) /\
     match nth_error ks i with Some true => mkeys d <> [] /\ forall v, In v (mkeys d) <-> occurs l i v | _ => mkeys d = [] end).
  { intros i Hi. destruct (nth_error ks i) as [k|] eqn:Ek; [|apply nth_error_None in Ek; lia].
    assert (Hl : i < length (attrs x0)) by (rewrite (consistent_len _ _ _ H Hx0); exact Hi).
    destruct (nth_error (attrs x0) i) as [a|] eqn:Ea; [|apply nth_error_None in Ea; lia].
    pose proof (consistent_nth _ _ x0 i k a H Hx0 Ek Ea) as Ka. destruct k.
    - destruct Ka as [v0 ->]. destruct (column_of ks l i H Ek) as (vs & Hc & Ho).
      exists (cofl vs). split; [|split; [|split]].
      + apply (attr_distribution_disc _ _ vs v0); [right; exact Hc| |exact Hc]. exists x0, l0. split; [exact El|apply feature_of_nth, Ea].
      + apply msorted_nodup, cofl_sorted.
      + intros F. assert (I : In v0 (mkeys (cofl vs))) by (apply in_cofl, Ho; exists x0; split; assumption). rewrite F in I. destruct I.
      + intros v. rewrite in_cofl. apply Ho.
    - exists []. split; [|split; [constructor|reflexivity]]. unfold attr_distribution. replace (atn l 0) with (Ok x0) by (rewrite El; reflexivity). cbn [bind].
      rewrite (proj2 (get_attr_ok x0 (Z.of_nat i) a) (feature_of_nth _ _ _ Ea)). cbn [bind]. destruct a; try reflexivity. exfalso. eapply Ka; reflexivity. }
  assert (M : forall n, n <= length ks -> exists ds, mapM (fun i => attr_distribution (Z.of_nat i) l) (seq 0 n) = Ok ds /\ length ds = n /\
     forall i d, nth_error ds i = Some d -> NoDup (mkeys d) /\ match nth_error ks i with Some true => mkeys d <> [] /\ forall v, In v (mkeys d) <-> occurs l i v | _ => mkeys d = [] end).
  { induction n as [|n IH]; intros Hn'; [exists []; split; [reflexivity|split; [reflexivity|intros [|i] d F; discriminate]]|].
    destruct IH as (ds & E & L & HP); [lia|]. destruct (P n) as (d & Ed & HN & HK); [lia|].
    exists (ds ++ [d]). split; [|split; [rewrite app_length, L; cbn; lia|]].
    - rewrite seq_S. cbn [plus]. apply mapM_ok. apply mapM_ok in E. apply Forall2_app; [exact E|]. constructor; [exact Ed|constructor].
    - intros i d' Hd. destruct (Nat.lt_ge_cases i n) as [Hi|Hi].
      + rewrite nth_error_app1 in Hd by lia. apply HP, Hd.
      + rewrite nth_error_app2 in Hd by lia. rewrite L in Hd. destruct (i - n) as [|j] eqn:Ej; [|cbn in Hd; destruct j; discriminate Hd].
        injection Hd as <-. replace i with n by lia. split; assumption. }
  destruct (M (length ks) (le_n _)) as (ds & E & L & HP). exists ds. split; [exact E|]. split; [rewrite map_length; exact L|].
  intros i k vs Hk Hv. rewrite nth_error_map in Hv. match type of Hv with option_map _ ?t = _ => destruct t as [d|] eqn:Ed end; [|discriminate Hv]. injection Hv as <-.
  destruct (HP i d Ed) as [HN HK]. rewrite Hk in HK. split; [exact HN|]. destruct k; exact HK.
Qed.

Lemma dist_used_keys d : dist_used d = match mkeys d with [] => false | _ => true end.
Proof. destruct d as [|[k v] d]; reflexivity. Qed.
Lemma kept_d_kept ds aa : kept_d ds aa = kept (map mkeys ds) aa.
Proof.
  unfold kept_d, kept. revert aa. induction ds as [|d ds IH]; intros [|a aa]; try reflexivity. cbn [map combine flat_map fst snd]. rewrite IH, dist_used_keys.
  destruct (mkeys d); reflexivity.
Qed.
Lemma dist_index_in d v : In v (mkeys d) -> dist_index d v = Z.of_nat (find_pos v (mkeys d)).
Proof. intros H. unfold dist_index. rewrite value_index_from_spec by lia. apply mem_str_in in H. rewrite H. lia. Qed.
Lemma dist_index_out d v : ~ In v (mkeys d) -> dist_index d v = (-1)%Z.
Proof. intros H. unfold dist_index. rewrite value_index_from_spec by lia. destruct (mem_str v (mkeys d)) eqn:E; [apply mem_str_in in E; contradiction|reflexivity]. Qed.
(** the loop over [j] gives the indicators *)
Lemma position_flags {A} (f : bool -> A) v vs : NoDup vs -> In v vs ->
  map (fun j => f (Z.of_nat j =? Z.of_nat (find_pos v vs))%Z) (seq 0 (length vs)) = map (fun w => f (String.eqb v w)) vs.
Proof.
  intros ND Hv. apply list_ext. intros i. rewrite !nth_error_map. destruct (nth_error vs i) as [w|] eqn:E.
  - assert (Hi : i < length vs) by (apply nth_error_Some; congruence).
    rewrite (nth_error_nth' _ 0) by (rewrite seq_length; exact Hi). rewrite seq_nth by exact Hi. cbn. f_equal. f_equal.
    pose proof (find_pos_unique vs i w ND E) as Fw. destruct (String.eqb_spec v w) as [->|N]; [rewrite Fw; apply Z.eqb_refl|].
    apply Z.eqb_neq. intros F. apply Nat2Z.inj in F. apply N. pose proof (find_pos_nth v vs Hv) as Fv. rewrite <- F in Fv. congruence.
  - apply nth_error_None in E. rewrite (proj2 (nth_error_None (seq 0 (length vs)) i)) by (rewrite seq_length; exact E). reflexivity.
Qed.
Lemma indicators_one v vs : NoDup vs -> In v vs -> trues (map (String.eqb v) vs) = 1.
Proof.
  unfold trues. induction vs as [|w vs IH]; intros ND Hv; [destruct Hv|]. inversion ND as [|? ? N1 N2]; subst. cbn.
  destruct (String.eqb_spec v w) as [->|N].
  - cbn. f_equal. clear IH Hv ND. induction vs as [|u vs IH]; [reflexivity|]. cbn. inversion N2; subst. destruct (String.eqb_spec w u) as [->|]; [exfalso; apply N1; left; reflexivity|]. apply IH; [intros F; apply N1; right; exact F|assumption].
  - destruct Hv as [->|Hv]; [congruence|apply IH; assumption].
Qed.

(** encoded features of one instance *)
Definition good_row (known : list (list string)) (aa : list attr) : Prop :=
  Forall2 (fun vs a => NoDup vs /\ (vs <> [] -> exists v, a = ADisc v /\ In v vs)) known aa.
Lemma encode_row fmt encode (f : list string -> string -> list attr) ds aa : good_row (map mkeys ds) aa ->
  (forall d v, NoDup (mkeys d) -> encode v (dist_index d v) (length d) = f (mkeys d) v) ->
  flat_map (enc_of fmt encode) (combine ds aa) = flat_map (fun p => f (fst p) (shown (snd p))) (replaced (map mkeys ds) aa).
Proof.
  intros H He. remember (map mkeys ds) as ks eqn:Ek. revert ds Ek. induction H as [|vs a known aa [HN Hv] HF IH]; intros ds Ek.
  - destruct ds; [reflexivity|discriminate].
  - destruct ds as [|d ds]; [discriminate|]. cbn in Ek. injection Ek as -> ->. specialize (IH ds eq_refl).
    unfold replaced in *. cbn [combine flat_map fst snd map]. rewrite IH. unfold enc_of at 1. cbn [fst snd]. rewrite dist_used_keys.
    destruct (mkeys d) as [|w vs] eqn:Em; [reflexivity|]. destruct Hv as (v & -> & Hin); [discriminate|].
    cbn [flat_map app fst snd text]. f_equal. rewrite <- Em. cbn [attr_string]. fold (shown v).
    apply He. rewrite Em; assumption.
Qed.
Lemma good_rows ks l known x : consistent ks l -> known_values ks l known -> In x l -> good_row known (attrs x).
Proof.
  intros H [HL HK] Hx. unfold good_row.
  assert (G : forall i vs a, nth_error known i = Some vs -> nth_error (attrs x) i = Some a -> NoDup vs /\ (vs <> [] -> exists v, a = ADisc v /\ In v vs)).
  { intros i vs a Ev Ea. destruct (nth_error ks i) as [k|] eqn:Ek.
    - destruct (HK i k vs Ek Ev) as [HN Hk]. split; [exact HN|]. intros Hne. pose proof (consistent_nth _ _ x i k a H Hx Ek Ea) as Ka. destruct k; [|contradiction].
      destruct Ka as [v ->]. exists v. split; [reflexivity|]. assert (O : occurs l i v) by (exists x; split; assumption). apply Hk, O.
    - apply nth_error_None in Ek. assert (i < length known) by (apply nth_error_Some; congruence). lia. }
  assert (L : length known = length (attrs x)) by (rewrite HL; symmetry; eapply consistent_len; eassumption).
  clear -G L. revert G L. generalize (attrs x). intros aa. revert aa. induction known as [|vs known IH]; intros [|a aa] G L; try discriminate; [constructor|].
  constructor; [apply (G 0); reflexivity|]. apply IH; [intros i; apply (G (S i))|now injection L].
Qed.
Lemma dist_flags {A} (f : bool -> A) d v : NoDup (mkeys d) ->
  map (fun j => f (Z.of_nat j =? dist_index d v)%Z) (seq 0 (length d)) = map (fun w => f (String.eqb v w)) (mkeys d).
Proof.
  intros ND. assert (L : length d = length (mkeys d)) by (unfold mkeys; rewrite map_length; reflexivity). rewrite L.
  destruct (in_dec string_dec v (mkeys d)) as [Hv|Hv].
  - rewrite (dist_index_in _ _ Hv). apply position_flags; assumption.
  - rewrite (dist_index_out _ _ Hv). apply list_ext. intros i. rewrite !nth_error_map. destruct (nth_error (mkeys d) i) as [w|] eqn:E.
    + assert (Hi : i < length (mkeys d)) by (apply nth_error_Some; congruence).
      rewrite (nth_error_nth' _ 0) by (rewrite seq_length; exact Hi). rewrite seq_nth by exact Hi. cbn [option_map plus]. f_equal. f_equal.
      destruct (String.eqb_spec v w) as [->|N]; [exfalso; apply Hv; eapply nth_error_In; exact E|]. apply Z.eqb_neq. lia.
    + apply nth_error_None in E. rewrite (proj2 (nth_error_None (seq 0 (length (mkeys d))) i)) by (rewrite seq_length; exact E). reflexivity.
Qed.

(** * The definition is never changed *)
Lemma convert_def_same tf ds d e : convert_def tf ds d = Ok e -> e = d.
Proof. unfold convert_def. intros E. apply bind_ok in E as (? & _ & E). apply bind_ok in E as (? & _ & E). injection E as <-. reflexivity. Qed.
Lemma def_remove_at pre t post vl : def_remove (mkDef (pre ++ t :: post) vl) (Z.of_nat (length pre)) = Ok (mkDef (pre ++ post) vl).
Proof.
  unfold def_remove. destruct (Z.ltb_spec (Z.of_nat (length pre)) 0); [lia|]. cbn [types vlists]. rewrite Nat2Z.id. unfold def_count. cbn [types].
  replace (length pre <? length (pre ++ t :: post)) with true by (symmetry; apply Nat.ltb_lt; rewrite app_length; cbn; lia).
  f_equal. f_equal. clear. induction pre as [|x pre IH]; [reflexivity|]. cbn. rewrite IH. reflexivity.
Qed.
Lemma convert_def_ok tf ds d : length ds = def_count d -> convert_def tf ds d = Ok d.
Proof.
  intros H. unfold convert_def.
  assert (A : forall n i e, i + n = length ds -> exists e', foldM (fun e i => do c <- atn ds i; if dist_used c then Ok (fold_left def_add (tf (length c)) e) else Ok e) (seq i n) e = Ok e').
  { induction n as [|n IH]; intros i e Hi; [eexists; reflexivity|]. cbn [seq foldM]. destruct (nth_error ds i) as [c|] eqn:Ec; [|apply nth_error_None in Ec; lia].
    rewrite (proj2 (atn_ok ds i c) Ec). cbn [bind]. destruct (dist_used c); cbn [bind]; apply IH; lia. }
  destruct (A (def_count d) 0 d) as [e He]; [lia|]. rewrite He. cbn [bind].
  assert (B : forall drest rest dpre done i vl, length drest = length rest -> length dpre = i ->
     exists r, foldM (fun st j => do c <- atn (dpre ++ drest) j;
                      if dist_used c then do e <- def_remove (snd st) (Z.of_nat (fst st)); Ok (fst st, e)
                      else Ok (S (fst st), snd st)) (seq i (length rest)) (length done, mkDef (done ++ rest) vl) = Ok r).
  { induction drest as [|c drest IH]; intros [|t rest] dpre done i vl H1 H2; try discriminate; [eexists; reflexivity|].
    cbn [length seq foldM]. subst i. rewrite atn_at. cbn [bind fst snd].
    assert (E1 : dpre ++ c :: drest = (dpre ++ [c]) ++ drest) by (rewrite <- app_assoc; reflexivity). rewrite E1. destruct (dist_used c).
    - rewrite def_remove_at. cbn [bind fst snd]. apply IH; [now injection H1|rewrite app_length; cbn; lia].
    - cbn [bind fst snd]. destruct (IH rest (dpre ++ [c]) (done ++ [t]) (S (length dpre)) vl) as [r Hr]; [now injection H1|rewrite app_length; cbn; lia|].
      exists r. rewrite app_length in Hr. cbn [length] in Hr. rewrite Nat.add_1_r, <- (app_assoc done) in Hr. exact Hr. }
  unfold remove_discrete_def. destruct d as [ts vl]. unfold def_count in *. cbn [types] in *.
  destruct (B ds ts [] [] 0 vl H eq_refl) as [r Hr]. cbn [app length] in Hr. rewrite Hr. reflexivity.
Qed.

Lemma lary_filter_ok fmt encode (f : list string -> string -> list attr) tf s ks :
  consistent ks (insts s) -> insts s <> [] -> length (types (ddef s)) = length ks ->
  (forall d v, NoDup (mkeys d) -> encode v (dist_index d v) (length d) = f (mkeys d) v) ->
  exists known s', known_values ks (insts s) known /\ lary_filter fmt encode (convert_def tf) s = Ok s' /\ ddef s' = ddef s /\
    insts s' = map (fun x => mkInst (label x) (kept known (attrs x) ++ flat_map (fun p => f (fst p) (shown (snd p))) (replaced known (attrs x))) (composite x)) (insts s) /\
    Forall (fun x => good_row known (attrs x)) (insts s).
Proof.
  intros H Hn Ht He. destruct (distributions _ _ H Hn) as (ds & Ed & Hk). exists (map mkeys ds).
  assert (GR : Forall (fun x => good_row (map mkeys ds) (attrs x)) (insts s)) by (apply Forall_forall; intros x Hx; eapply good_rows; eassumption).
  eexists. split; [exact Hk|]. split; [|split; [|split; [|exact GR]]].
  - unfold lary_filter. rewrite Ed. cbn [bind].
    assert (M : mapM (lary_convert fmt encode ds) (insts s) = Ok (map (fun x => mkInst (label x) (kept (map mkeys ds) (attrs x) ++ flat_map (fun p => f (fst p) (shown (snd p))) (replaced (map mkeys ds) (attrs x))) (composite x)) (insts s))).
    { apply mapM_total. intros x Hx. rewrite Forall_forall in GR. specialize (GR x Hx).
      assert (L : length ds = attr_count x) by (unfold attr_count; rewrite (consistent_len _ _ _ H Hx); destruct Hk as [Hk _]; rewrite map_length in Hk; exact Hk).
      etransitivity; [exact (lary_convert_spec fmt encode ds x L)|]. cbv beta. f_equal. f_equal.
      exact (f_equal2 (@app attr) (kept_d_kept ds (attrs x)) (encode_row fmt encode f ds (attrs x) GR He)). }
    rewrite M. cbn [bind]. rewrite convert_def_ok; [reflexivity|]. destruct Hk as [Hk _]. rewrite map_length in Hk. unfold def_count. rewrite Ht; exact Hk.
  - reflexivity.
  - reflexivity.
Qed.
