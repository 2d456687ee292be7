(** C162: naive Bayes and k-means judge every feature by itself. *)
From Coq Require Import String ZArith QArith Bool Lia Lqa Permutation Arith List.
From Verif Require Import Base Spec BaseLemmas DblLemmas AttrModel InstanceListModel StatModel ListSpec ListProofs StatSpec DiscrimSpec DistanceModel GaussianModel BayesProofs CoincideGaussProofs DiscrimProps TreeModel TreeProps ChooseSpec ChooseProofs ChooseProps ApartSpec ApartProofs.
Import ListNotations.
Local Open Scope string_scope.
Local Open Scope list_scope.
Local Open Scope nat_scope.

(** Whatever features are chosen, in whatever order and however often: the score of a class is the logarithm of its frequency and the parts
    of the chosen features, and the part of a feature does not depend on the others. *)
Theorem C162_texts : forall ln f std_vec n l s, log_reads ln f -> Forall2 reads_text l s -> Forall (fun r => length (snd r) = n) s -> l <> [] ->
  forall fs l', fs <> [] -> reduced fs l l' -> exists m, bayes_train std_vec bayes_empty l' = Ok m /\
  forall q q' vs c, attrs q = map ADisc vs -> length vs = n -> picks fs q q' -> In c (map label l) ->
    exists r, bayes_metric ln m q' c = Ok (Fin r) /\ (r == f (tfrequency s c) + parts (text_part f s c vs) fs)%Q.
Proof.
  intros ln f std_vec n l s Hln HR HL Hne fs l' Hfs F.
  destruct (C103_discrete_bayes ln f std_vec Hln (length fs) l' (map (cut (choose_texts fs)) s)) as (m & Em & HM).
  { apply (reads_reduced reads_text _ fs l l' s (texts_picks fs) F HR). } { apply len_cut. intros v. apply map_length. } { apply (reduced_nonempty _ _ _ F Hne). } { destruct fs; [contradiction|cbn; lia]. }
  exists m. split; [exact Em|]. intros q q' vs c Hq Lv P Hc. destruct (proj1 (HM q' (choose_texts fs vs) (texts_query _ _ _ _ P Hq) (map_length _ _)) c (reduced_in _ _ _ _ F Hc)) as (r & Er & Vr).
  exists r. split; [exact Er|]. rewrite Vr, tfrequency_cut. apply Qplus_comp; [reflexivity|].
  apply (sum_positions (fun i => i) (fun i => f (smoothed (map (cut (choose_texts fs)) s) c i (nth i (choose_texts fs vs) "")))). intros i Hi. rewrite smoothed_cut by exact Hi. rewrite nth_texts by exact Hi. reflexivity.
Qed.
Theorem C162_numbers : forall ln f std_vec n l s sd, log_reads ln f -> Forall2 reads_numbers l s -> Forall (fun r => length (snd r) = n) s -> l <> [] ->
  (forall c, In c (map label l) -> length (sd c) = n /\ Forall (fun z => ~ z == 0)%Q (sd c)) ->
  forall fs l', fs <> [] -> reduced fs l l' ->
  (forall c, In c (map label l) -> std_vec (filter (fun x => String.eqb (label x) c) l') = Ok (map Fin (choose fs (sd c)))) ->
  exists m, bayes_train std_vec bayes_empty l' = Ok m /\
  forall q q' v c, attrs q = map (fun z => ACont (Fin z)) v -> length v = n -> picks fs q q' -> In c (map label l) ->
    exists r, bayes_metric ln m q' c = Ok (Fin r) /\ (r == f (frequency s c) + parts (number_part s (sd c) c v) fs)%Q.
Proof.
  intros ln f std_vec n l s sd Hln HR HL Hne Hsd fs l' Hfs F Hst.
  assert (Hr : Forall (in_range n) fs).
  { destruct F as [|x y l l' P F]; [contradiction|]. inversion HR as [|? r ? s' [_ H] _]; subst. inversion HL; subst. pose proof (picks_range _ _ _ P) as K. unfold attr_count in K. rewrite H, map_length in K. assumption. }
  destruct (C104_continuous_bayes ln f std_vec Hln (length fs) l' (map (cut (choose fs)) s) (fun c => choose fs (sd c))) as (m & Em & HM).
  { apply (reads_reduced reads_numbers _ fs l l' s (numbers_reads fs) F HR). } { apply len_cut. intros v. apply map_length. } { apply (reduced_nonempty _ _ _ F Hne). } { destruct fs; [contradiction|cbn; lia]. }
  { intros c Hc. rewrite (reduced_labels _ _ _ F) in Hc. split; [apply Hst, Hc|]. split; [apply map_length|]. destruct (Hsd c Hc) as [Ln Nz]. apply Forall_forall. intros z Hz. apply in_map_iff in Hz as (k & <- & Hk).
    rewrite Forall_forall in Hr, Nz. apply Nz. apply nth_In. pose proof (Hr k Hk) as R. unfold in_range in R. lia. }
  exists m. split; [exact Em|]. intros q q' v c Hq Lv P Hc. destruct (proj1 (HM q' (choose fs v) (numbers_query _ _ _ _ P Hq) (map_length _ _)) c (reduced_in _ _ _ _ F Hc)) as (r & Er & Vr).
  exists r. split; [exact Er|]. rewrite Vr, frequency_cut. unfold Qminus. apply Qplus_comp; [reflexivity|].
  rewrite <- (sum_positions (fun i => i) (fun j => - (1 # 2) * ((away (map (cut (choose fs)) s) c (choose fs v) j / nth j (choose fs (sd c)) 0) * (away (map (cut (choose fs)) s) c (choose fs v) j / nth j (choose fs (sd c)) 0)))%Q).
  - rewrite qsum_scale. ring.
  - intros i Hi. unfold number_part. rewrite away_cut by exact Hi. rewrite nth_choose by exact Hi. reflexivity.
Qed.
Theorem C162_kmeans : forall old n l s, Forall2 reads_numbers l s -> Forall (fun r => length (snd r) = n) s -> 
  forall fs l', reduced fs l l' -> exists m, kmeans_train old l' = Ok m /\
  forall q q' v c, attrs q = map (fun z => ACont (Fin z)) v -> length v = n -> picks fs q q' -> In c (map label l) ->
    exists r, kmeans_metric eucl m q' c = Ok (Fin r) /\ (r == parts (centre_part s c v) fs)%Q.
Proof.
  intros old n l s HR HL fs l' F.
  destruct (kmeans_formula old (length fs) l' (map (cut (choose fs)) s)) as (m & Em & _ & HM).
  { apply (reads_reduced reads_numbers _ fs l l' s (numbers_reads fs) F HR). } { apply len_cut. intros v. apply map_length. }
  exists m. split; [exact Em|]. intros q q' v c Hq Lv P Hc. destruct (HM q' (choose fs v) c (numbers_query _ _ _ _ P Hq) (map_length _ _) (reduced_in _ _ _ _ F Hc)) as (r & Er & Vr).
  exists r. split; [exact Er|]. rewrite Vr. 
  rewrite <- (sum_positions (fun i => i) (fun j => - (1) * (away (map (cut (choose fs)) s) c (choose fs v) j * away (map (cut (choose fs)) s) c (choose fs v) j))%Q).
  - rewrite qsum_scale. ring.
  - intros i Hi. unfold centre_part. rewrite away_cut by exact Hi. ring.
Qed.

(** * If every feature alone speaks for a class, so do all together *)
(** [says train metric l q c c']: trained on [l] the class [c] has at least the score of [c'] for [q] *)
Definition says {M} (train : list instance -> res M) (metric : M -> instance -> string -> res dbl) (l : list instance) (q : instance) (c c' : string) : Prop :=
  exists m r r', train l = Ok m /\ metric m q c = Ok (Fin r) /\ metric m q c' = Ok (Fin r') /\ (r' <= r)%Q.
Theorem C162_unanimous_texts : forall ln f std_vec n l s, log_reads ln f -> Forall2 reads_text l s -> Forall (fun r => length (snd r) = n) s -> l <> [] -> 1 <= n ->
  forall q vs c c', attrs q = map ADisc vs -> length vs = n -> In c (map label l) -> In c' (map label l) -> (tfrequency s c == tfrequency s c')%Q ->
  (forall k, k < n -> exists l' q', only k l l' q q' /\ says (bayes_train std_vec bayes_empty) (bayes_metric ln) l' q' c c') ->
  says (bayes_train std_vec bayes_empty) (bayes_metric ln) l q c c'.
Proof.
  intros ln f std_vec n l s Hln HR HL Hne Hn q vs c c' Hq Lv Hc Hc' Hf H.
  destruct (C103_discrete_bayes ln f std_vec Hln n l s HR HL Hne Hn) as (m & Em & HM). destruct (proj1 (HM q vs Hq Lv) c Hc) as (r & Er & Vr). destruct (proj1 (HM q vs Hq Lv) c' Hc') as (r' & Er' & Vr').
  exists m, r, r'. split; [exact Em|]. split; [exact Er|]. split; [exact Er'|]. rewrite Vr, Vr', (proj2 Hln _ _ Hf).
  enough (K : (qsum (map (text_part f s c' vs) (seq 0 n)) <= qsum (map (text_part f s c vs) (seq 0 n)))%Q) by (unfold text_part in K; lra).
  apply sum_le. intros k Hk. destruct (H k Hk) as (l' & q' & (Rk & Pk) & mk & x & x' & Ek & Ex & Ex' & Le).
  destruct (C162_texts ln f std_vec n l s Hln HR HL Hne [Z.of_nat k] l' ltac:(discriminate) Rk) as (m0 & E0 & K). rewrite Ek in E0. injection E0 as <-.
  destruct (K q q' vs c Hq Lv Pk Hc) as (y & Ey & Vy). destruct (K q q' vs c' Hq Lv Pk Hc') as (y' & Ey' & Vy'). rewrite Ex in Ey. injection Ey as <-. rewrite Ex' in Ey'. injection Ey' as <-.
  rewrite parts_one in Vy, Vy'. rewrite Vy, Vy', (proj2 Hln _ _ Hf) in Le. lra.
Qed.
Theorem C162_unanimous_numbers : forall ln f std_vec n l s sd, log_reads ln f -> Forall2 reads_numbers l s -> Forall (fun r => length (snd r) = n) s -> l <> [] -> 1 <= n ->
  (forall c, In c (map label l) -> std_vec (filter (fun x => String.eqb (label x) c) l) = Ok (map Fin (sd c)) /\ length (sd c) = n /\ Forall (fun z => ~ z == 0)%Q (sd c)) ->
  forall q v c c', attrs q = map (fun z => ACont (Fin z)) v -> length v = n -> In c (map label l) -> In c' (map label l) -> (frequency s c == frequency s c')%Q ->
  (forall k, k < n -> exists l' q', only k l l' q q' /\ (forall c, In c (map label l) -> std_vec (filter (fun x => String.eqb (label x) c) l') = Ok [Fin (nth k (sd c) 0%Q)]) /\
     says (bayes_train std_vec bayes_empty) (bayes_metric ln) l' q' c c') ->
  says (bayes_train std_vec bayes_empty) (bayes_metric ln) l q c c'.
Proof.
  intros ln f std_vec n l s sd Hln HR HL Hne Hn Hsd q v c c' Hq Lv Hc Hc' Hf H.
  destruct (C104_continuous_bayes ln f std_vec Hln n l s sd HR HL Hne Hn Hsd) as (m & Em & HM). destruct (proj1 (HM q v Hq Lv) c Hc) as (r & Er & Vr). destruct (proj1 (HM q v Hq Lv) c' Hc') as (r' & Er' & Vr').
  exists m, r, r'. split; [exact Em|]. split; [exact Er|]. split; [exact Er'|]. rewrite Vr, Vr', (proj2 Hln _ _ Hf).
  assert (P : forall c, (qsum (map (number_part s (sd c) c v) (seq 0 n)) == - (1 # 2) * qsum (map (fun j => (away s c v j / nth j (sd c) 0) * (away s c v j / nth j (sd c) 0)) (seq 0 n)))%Q) by (intros; unfold number_part; rewrite qsum_scale; reflexivity).
  enough (K : (qsum (map (number_part s (sd c') c' v) (seq 0 n)) <= qsum (map (number_part s (sd c) c v) (seq 0 n)))%Q) by (rewrite !P in K; lra).
  apply sum_le. intros k Hk. destruct (H k Hk) as (l' & q' & (Rk & Pk) & Hst & mk & x & x' & Ek & Ex & Ex' & Le).
  destruct (C162_numbers ln f std_vec n l s sd Hln HR HL Hne (fun c Hc => proj2 (Hsd c Hc)) [Z.of_nat k] l' ltac:(discriminate) Rk) as (m0 & E0 & K).
  { intros e He. rewrite (Hst e He). unfold choose. cbn [map]. rewrite Nat2Z.id. reflexivity. }
  rewrite Ek in E0. injection E0 as <-.
  destruct (K q q' v c Hq Lv Pk Hc) as (y & Ey & Vy). destruct (K q q' v c' Hq Lv Pk Hc') as (y' & Ey' & Vy'). rewrite Ex in Ey. injection Ey as <-. rewrite Ex' in Ey'. injection Ey' as <-.
  rewrite parts_one in Vy, Vy'. rewrite Vy, Vy', (proj2 Hln _ _ Hf) in Le. lra.
Qed.
Theorem C162_unanimous_kmeans : forall old n l s, Forall2 reads_numbers l s -> Forall (fun r => length (snd r) = n) s ->
  forall q v c c', attrs q = map (fun z => ACont (Fin z)) v -> length v = n -> In c (map label l) -> In c' (map label l) ->
  (forall k, k < n -> exists l' q', only k l l' q q' /\ says (kmeans_train old) (kmeans_metric eucl) l' q' c c') -> says (kmeans_train old) (kmeans_metric eucl) l q c c'.
Proof.
  intros old n l s HR HL q v c c' Hq Lv Hc Hc' H.
  destruct (kmeans_formula old n l s HR HL) as (m & Em & _ & HM). destruct (HM q v c Hq Lv Hc) as (r & Er & Vr). destruct (HM q v c' Hq Lv Hc') as (r' & Er' & Vr').
  exists m, r, r'. split; [exact Em|]. split; [exact Er|]. split; [exact Er'|]. rewrite Vr, Vr'.
  assert (P : forall c, (qsum (map (centre_part s c v) (seq 0 n)) == - qsum (map (fun j => away s c v j * away s c v j) (seq 0 n)))%Q).
  { intros e. rewrite (qsum_ext (centre_part s e v) (fun j => - (1) * (away s e v j * away s e v j))%Q) by (intros; unfold centre_part; ring). rewrite qsum_scale. ring. }
  rewrite <- !P. apply sum_le. intros k Hk. destruct (H k Hk) as (l' & q' & (Rk & Pk) & mk & x & x' & Ek & Ex & Ex' & Le).
  destruct (C162_kmeans old n l s HR HL [Z.of_nat k] l' Rk) as (m0 & E0 & K). rewrite Ek in E0. injection E0 as <-.
  destruct (K q q' v c Hq Lv Pk Hc) as (y & Ey & Vy). destruct (K q q' v c' Hq Lv Pk Hc') as (y' & Ey' & Vy'). rewrite Ex in Ey. injection Ey as <-. rewrite Ex' in Ey'. injection Ey' as <-.
  rewrite parts_one in Vy, Vy'. rewrite Vy, Vy' in Le. exact Le.
Qed.
(** Not so for nearest neighbours and decision trees: each feature alone answers "a", both together answer "b". *)
Theorem C162_knn_refuted : exists l q, (forall k l' q', k < 2 -> only k l l' q q' -> knn_predict eucl l' 1 q' = Ok "a") /\ knn_predict eucl l 1 q = Ok "b".
Proof.
  exists [mkInst "a" [ACont (Fin 0); ACont (Fin 5)] None; mkInst "a" [ACont (Fin 5); ACont (Fin 0)] None; mkInst "b" [ACont (Fin 1); ACont (Fin 1)] None], (mkInst "?" [ACont (Fin 0); ACont (Fin 0)] None).
  split; [|vm_compute; reflexivity]. intros k l' q' Hk (R & P). apply C161_subset in R. apply picks_subset in P. destruct k as [|[|k]]; [| |lia]; vm_compute in R, P; injection R as <-; injection P as <-; vm_compute; reflexivity.
Qed.
Definition crossed : ilist := [mkInst "b" [ADisc "x"; ADisc "u"] None; mkInst "a" [ADisc "x"; ADisc "v"] None; mkInst "a" [ADisc "x"; ADisc "v"] None;
  mkInst "a" [ADisc "y"; ADisc "u"] None; mkInst "a" [ADisc "y"; ADisc "u"] None; mkInst "a" [ADisc "y"; ADisc "u"] None; mkInst "b" [ADisc "y"; ADisc "w"] None].
Theorem C162_tree_refuted : exists l q, (forall k l' q', k < 2 -> only k l l' q q' -> exists t, tree_train ex_max ex_entropy ex_mid ex_rarr false (Fin (1#5)) 1 9 l' = Ok t /\ tree_predict ex_max t q' = Ok "a") /\
  exists t, tree_train ex_max ex_entropy ex_mid ex_rarr false (Fin (1#5)) 1 9 l = Ok t /\ tree_predict ex_max t q = Ok "b".
Proof.
  exists crossed, (mkInst "?" [ADisc "x"; ADisc "u"] None).
  split; [|eexists; split; [vm_compute; reflexivity|vm_compute; reflexivity] ]. intros k l' q' Hk (R & P). apply C161_subset in R. apply picks_subset in P. destruct k as [|[|k]]; [| |lia]; vm_compute in R, P; injection R as <-; injection P as <-; eexists; (split; [vm_compute; reflexivity|vm_compute; reflexivity]).
Qed.
(** Nor for the linear discriminant, which weighs a feature by what the other one says. *)
Definition inverse2 (m : list (list dbl)) : list (list dbl) :=
  match m with
  | [[a]] => [[ddiv d1 a]]
  | [[a; b]; [c; d]] => let e := dsub (dmul a d) (dmul b c) in [[ddiv d e; dopp (ddiv b e)]; [dopp (ddiv c e); ddiv a e]]
  | _ => []
  end.
Definition slanted : ilist := let at_ c x y := mkInst c [ACont (Fin x); ACont (Fin y)] None in
  [at_ "a" (-2) (-1); at_ "a" 2 1; at_ "a" 0 1; at_ "a" 0 (-1); at_ "b" 2 0; at_ "b" 6 2; at_ "b" 4 2; at_ "b" 4 0]%Q.
Theorem C162_lda_refuted : let ln := fun d => dsub d d1 in exists l q, (forall k l' q', k < 2 -> only k l l' q q' -> exists m, lda_train inverse2 ln lda_empty l' = Ok m /\ lda_predict m q' = Ok "a") /\
  exists m, lda_train inverse2 ln lda_empty l = Ok m /\ lda_predict m q = Ok "b".
Proof.
  cbv zeta. exists slanted, (mkInst "?" [ACont (Fin 1); ACont (Fin (-3))] None).
  split; [|eexists; split; [vm_compute; reflexivity|vm_compute; reflexivity] ]. intros k l' q' Hk (R & P). apply C161_subset in R. apply picks_subset in P. destruct k as [|[|k]]; [| |lia]; vm_compute in R, P; injection R as <-; injection P as <-; eexists; (split; [vm_compute; reflexivity|vm_compute; reflexivity]).
Qed.
(** Three instances, two words each: the parts and the scores. *)
Example C162_case : let s := [("a", ["x"; "u"]); ("a", ["x"; "w"]); ("b", ["y"; "u"])] in
  Forall2 reads_text [mkInst "a" [ADisc "x"; ADisc "u"] None; mkInst "a" [ADisc "x"; ADisc "w"] None; mkInst "b" [ADisc "y"; ADisc "u"] None] s /\
  (parts (text_part (fun p => p) s "a" ["x"; "u"]) [0%Z; 1%Z] == (3#4) + (2#5))%Q /\ (parts (text_part (fun p => p) s "a" ["x"; "u"]) [1%Z] == 2#5)%Q /\
  (parts (centre_part [("a", [1; 4]); ("a", [3; 0]); ("b", [5; 5])]%Q "a" [0; 0]%Q) [1%Z; 0%Z] == -(4) + -(4))%Q.
Proof. cbv zeta. split; [repeat constructor|]. split; [vm_compute; reflexivity|]. split; vm_compute; reflexivity. Qed.
Print Assumptions C162_unanimous_texts.
Print Assumptions C162_unanimous_numbers.
Print Assumptions C162_unanimous_kmeans.
Print Assumptions C162_knn_refuted.
Print Assumptions C162_tree_refuted.
Print Assumptions C162_lda_refuted.
Print Assumptions C162_texts.
Print Assumptions C162_numbers.
Print Assumptions C162_kmeans.
