(** Further theorems for the properties C01, C08, C14, C35, C40, C59, C82, C83, C84, C106, C107 and C131: the functions that
    the files of those properties define but do not speak about. *)
From Coq Require Import String ZArith QArith Bool Lia Permutation Arith List.
From Verif Require Import Base Spec BaseLemmas DblLemmas AttrModel AttrProps DataSetModel DataSetSpec DataSetProofs DataSetProps InstanceListModel ListSpec ListProofs ListProps
  PartitionModel PartitionProofs PerformanceModel PerformanceSpec PerformanceProofs ExperimentModel ExperimentSpec ExperimentProofs SelectionModel NetModel SerialModel
  HeapModel HeapSpec HeapProofs HeapProps StatTestModel RoundModel RoundSpec RoundStatModel RoundStatSpec RoundStatProps.
Import ListNotations.
Local Open Scope string_scope.
Local Open Scope list_scope.
Local Open Scope nat_scope.

(** * C01: addVectorAttribute adds the numbers, and nothing else changes *)
Theorem C01_add_vector : forall i v, inst_vals (add_vector i v) = inst_vals i ++ v /\ inst_size (add_vector i v) = inst_size i + length v /\
  label (add_vector i v) = label i /\ add_vector i v = fold_left add_attr (map ACont v) i.
Proof.
  intros i v. assert (inst_vals (add_vector i v) = inst_vals i ++ v) as E.
  { rewrite !C01_instance_vector. unfold add_vector. cbn [attrs]. rewrite map_app, concat_app. f_equal. induction v as [|d v IH]; [reflexivity|]. cbn. f_equal. exact IH. }
  split; [exact E|]. split; [rewrite !(proj1 (C01_instance_size _)), E, app_length; reflexivity|]. split; [reflexivity|].
  revert i E. induction v as [|d v IH]; intros i _; cbn [map fold_left].
  - unfold add_vector. cbn [map]. rewrite app_nil_r. destruct i; reflexivity.
  - rewrite <- IH; [|rewrite !C01_instance_vector; unfold add_vector; cbn [attrs]; rewrite map_app, concat_app; f_equal; clear; induction v as [|x v IH]; [reflexivity|cbn; f_equal; exact IH]].
    unfold add_vector, add_attr. cbn [label attrs composite map]. rewrite <- app_assoc. reflexivity.
Qed.
Example C01_add_vector_case : inst_vals (add_vector (mkInst "a" [ACont d1] None) [d0; d1]) = [d1; d0; d1].
Proof. reflexivity. Qed.

(** * C14: the comparison of instances is a strict weak order, as std::sort asks; equivalent means of the same class *)
Theorem C14_less : (forall x, inst_ltb x x = false) /\ (forall x y z, inst_ltb x y = true -> inst_ltb y z = true -> inst_ltb x z = true) /\
  (forall x y, equivb inst_ltb x y = true <-> label x = label y) /\ (forall l, is_stable_sort inst_ltb l (sort_class l)).
Proof.
  unfold inst_ltb. split; [|split; [|split]].
  - intros x. apply not_true_is_false. rewrite sltb_slt. apply slt_irrefl.
  - intros x y z. rewrite !sltb_slt. apply slt_trans.
  - intros x y. unfold equivb. rewrite andb_true_iff, !negb_true_iff. split; [|intros ->; split; apply not_true_is_false; rewrite sltb_slt; apply slt_irrefl].
    unfold sltb. intros [A B]. destruct (String.compare (label x) (label y)) eqn:C; [apply scompare_eq; exact C|discriminate A|].
    rewrite String.compare_antisym, C in B. discriminate B.
  - exact C14_sort_by_class.
Qed.
Example C14_less_case : inst_ltb (mkInst "a" [] None) (mkInst "b" [] None) = true /\ inst_ltb (mkInst "b" [] None) (mkInst "a" [] None) = false.
Proof. split; reflexivity. Qed.

(** * C08: addInstanceList *)
(** too many attributes: the types of the definition, and at least one more *)
Definition overlong (ts : list atype) (x : instance) : Prop := exists t more, map attr_type (attrs x) = ts ++ t :: more.
Theorem C08_list : forall l s, def_count (ddef s) <> 0 ->
  (add_instance_list s l = Throw OutOfRange <-> Exists (overlong (types (ddef s))) l) /\
  (~ Exists (overlong (types (ddef s))) l -> add_instance_list s l = Ok (offers s l) /\
     offers s l = mkDS (insts s ++ filter (conformsb (types (ddef s))) l) (ddef s)).
Proof.
  intros l s N. split.
  - revert s N. induction l as [|x l IH]; intros s N; unfold add_instance_list in *; cbn [foldM].
    + split; [discriminate|intros H; inversion H].
    + destruct (C08_outcome s x N) as (A & T & [E|[E|E]]); rewrite E; cbn [bind].
      * rewrite IH by exact N. cbn [ddef]. split; intros H; [right; exact H|]. inversion H as [? ? O|]; subst; [|assumption]. apply T in O. congruence.
      * split; [intros _; left; apply T; exact E|reflexivity].
      * rewrite IH by exact N. split; intros H; [right; exact H|]. inversion H as [? ? O|]; subst; [|assumption]. apply T in O. congruence.
  - intros H. split.
    + revert s N H. induction l as [|x l IH]; intros s N H; unfold add_instance_list in *; cbn [foldM]; [reflexivity|].
      destruct (C08_outcome s x N) as (A & T & [E|[E|E]]); unfold offers; cbn [fold_left]; unfold offer at 2; rewrite E; cbn [bind].
      * apply IH; [exact N|]. intros K. apply H. right. exact K.
      * exfalso. apply H. left. apply T. exact E.
      * apply IH; [exact N|]. intros K. apply H. right. exact K.
    + destruct (C08_history s l N) as [E1 E2]. destruct (offers s l) as [i d]. cbn in *. congruence.
Qed.
Example C08_list_case : add_instance_list (ds_new (def_of [TCont])) [mkInst "a" [ACont d1] None; mkInst "b" [ADisc "x"] None] = Ok (mkDS [mkInst "a" [ACont d1] None] (def_of [TCont])) /\
  add_instance_list (ds_new (def_of [TCont])) [mkInst "a" [ACont d1; ACont d1] None] = Throw OutOfRange.
Proof. split; reflexivity. Qed.

(** * C83: the data set read with a definition keeps it, and every stored instance has exactly its types *)
Theorem C83_data_set_conforms : forall split stod d sep content s, ds_read split stod d sep content = Ok s ->
  ddef s = d /\ Forall (conforms_exactly (types d)) (insts s).
Proof.
  intros split stod d sep content s H. unfold ds_read in H. apply bind_ok in H as (xs & R & E). injection E as <-. split; [reflexivity|]. cbn [insts].
  apply C83_declared_read_partial in R. set (ls := removelast (split_lines content)) in *. clearbody ls.
  remember (filter (arity_ok split d sep) ls) as fs eqn:Ef. assert (forall l, In l fs -> arity_ok split d sep l = true) as A by (intros l Hl; subst fs; apply filter_In in Hl; tauto). clear Ef.
  induction R as [|l x fs xs D R IH]; constructor; [|apply IH; intros k Hk; apply A; right; exact Hk].
  pose proof (A l (or_introl eq_refl)) as Al. unfold arity_ok, def_count in Al. apply Nat.eqb_eq in Al. destruct D as (cols & Es & _ & La & Da). rewrite Es, app_length in Al. cbn [length] in Al.
  assert (length cols = length (types d)) as Lc by lia. unfold conforms_exactly. clear - La Lc Da. apply list_ext. intros j. rewrite nth_error_map.
  destruct (nth_error (types d) j) as [t|] eqn:Et.
  - assert (j < length (types d)) as Lj by (apply nth_error_Some; congruence).
    destruct (nth_error cols j) as [c|] eqn:Ec; [|apply nth_error_None in Ec; lia]. destruct (nth_error (attrs x) j) as [a|] eqn:Ea; [|apply nth_error_None in Ea; lia].
    pose proof (Da j t c a Et Ec Ea) as D. cbn. destruct t; cbn in D; [destruct D as (v & _ & ->)|subst a|subst a|destruct D as (vs & k & _ & -> & _)]; reflexivity.
  - apply nth_error_None in Et. assert (nth_error (attrs x) j = None) as -> by (apply nth_error_None; lia). reflexivity.
Qed.
Example C83_data_set_case : ds_read split_ex stod_ex (def_of [TDisc]) "," ("red,a" ++ String nl "") = Ok (mkDS [mkInst "a" [ADisc "red"] None] (def_of [TDisc])).
Proof. reflexivity. Qed.

(** * C84: removeAllAttributes leaves the value lists, which then belong to the attributes added afterwards *)
Theorem C84_clear_keeps_values : forall d t i, def_count (def_clear d) = 0 /\ def_nvalues (def_clear d) i = def_nvalues d i /\
  def_nvalues (mkDef (types (def_clear d) ++ [t]) (vlists (def_clear d))) i = def_nvalues d i.
Proof. intros d t i. repeat split. Qed.
Example C84_clear_case : def_nvalues (def_clear (mkDef [TIdx] [["x"; "y"]])) 0 = Ok 2.
Proof. reflexivity. Qed.

(** * C35: getAccuracy of one result *)
Theorem C35_accuracy : forall ps i, 
  (forall a, exp_accuracy (exp_of ps) i = Ok a <-> exists p, (0 <= i)%Z /\ nth_error ps (Z.to_nat i) = Some p /\ accuracy_of p = Ok a) /\
  (exp_accuracy (exp_of ps) i = Throw ClassificationExpected <-> exists p, (0 <= i)%Z /\ nth_error ps (Z.to_nat i) = Some p /\ is_classification p = false) /\
  (exp_accuracy (exp_of ps) i = Throw OutOfRange <-> (i < 0 \/ Z.of_nat (length ps) <= i)%Z).
Proof.
  intros ps i. unfold exp_accuracy. rewrite exp_of_results. unfold at_. destruct (Z.ltb_spec i 0) as [L|L]; cbn [bind].
  - split; [|split]; [intros a| |]; split; try discriminate; try (intros (p & H & _); lia); [intros _; left; exact L|reflexivity].
  - destruct (nth_error ps (Z.to_nat i)) as [p|] eqn:E; cbn [bind].
    + assert (Z.to_nat i < length ps) as Lt by (apply nth_error_Some; congruence).
      destruct p as [e|a0 e|a0 e m]; cbn [is_classification accuracy_of]; (split; [|split]); try (intros a); split; try discriminate; try (intros [?|?]; lia);
        try (intros (p & _ & K & Q); injection K as <-; cbn in Q; try discriminate Q; congruence); try reflexivity;
        try (intros Q; eexists; split; [exact L|]; split; [reflexivity|]; first [exact Q|reflexivity]).
    + apply nth_error_None in E. split; [|split]; [intros a| |]; split; try discriminate; try (intros (p & _ & K & _); discriminate K); [intros _; right; lia|reflexivity].
Qed.
Example C35_accuracy_case : exp_accuracy (exp_of [PError d0; PClass d1 d0]) 1 = Ok d1 /\ exp_accuracy (exp_of [PError d0; PClass d1 d0]) 0 = Throw ClassificationExpected.
Proof. split; reflexivity. Qed.

(** * C40: reading the indices of a feature subset back, after add and remove *)
Theorem C40_get : forall s i, (forall k, (0 <= k < Z.of_nat (length s))%Z -> fs_get (fs_add s i) k = fs_get s k) /\
  fs_get (fs_add s i) (Z.of_nat (length s)) = Ok i /\
  (forall k t, fs_remove s k = Ok t -> forall j, (0 <= j < Z.of_nat (length t))%Z -> fs_get t j = fs_get s (if (j <? k)%Z then j else j + 1)%Z).
Proof.
  intros s i. unfold fs_get, fs_add, at_. split; [|split].
  - intros k Hk. destruct (Z.ltb_spec k 0); [lia|]. rewrite nth_error_app1 by lia. reflexivity.
  - destruct (Z.ltb_spec (Z.of_nat (length s)) 0); [lia|]. rewrite Nat2Z.id, nth_error_app2, Nat.sub_diag by lia. reflexivity.
  - unfold fs_remove. intros k t H j Hj. destruct (Z.ltb_spec k 0); [discriminate H|]. destruct (Z.leb_spec (Z.of_nat (length s)) k); [discriminate H|]. cbn [orb] in H. injection H as <-.
    assert (forall (l : list Z) n m, nth_error (erase_nth l n) m = nth_error l (if m <? n then m else S m)) as G.
    { clear. induction l as [|a l IH]; intros n m.
      - replace (erase_nth (@nil Z) n) with (@nil Z) by (destruct n; reflexivity). destruct m, (_ <? n); reflexivity.
      - destruct n as [|n]; cbn [erase_nth]; [reflexivity|]. destruct m as [|m]; [reflexivity|]. cbn [nth_error]. rewrite IH. change (S m <? S n) with (m <? n). destruct (m <? n); reflexivity. }
    destruct (Z.ltb_spec j 0); [lia|]. rewrite G. destruct (Z.ltb_spec j k), (Nat.ltb_spec (Z.to_nat j) (Z.to_nat k)); try lia.
    + destruct (Z.ltb_spec j 0); [lia|]. reflexivity.
    + destruct (Z.ltb_spec (j + 1) 0); [lia|]. replace (Z.to_nat (j + 1)) with (S (Z.to_nat j)) by lia. reflexivity.
Qed.
Example C40_get_case : fs_get (fs_add [3; 5]%Z 7%Z) 2 = Ok 7%Z /\ fs_remove [3; 5; 7]%Z 1 = Ok [3; 7]%Z.
Proof. split; reflexivity. Qed.

(** * C59: the stratified single run trains on one part of the data and tests on the rest *)
Theorem C59_single_stratified : forall M train test skfold K seed l (m : M) m' p, fold_provider skfold (@concat instance) -> 1 <= K ->
  ssinglek_run train test skfold K seed l m = Ok (m', p) ->
  exists tr te, Permutation (tr ++ te) l /\ rounds train test m [(tr, te)] m' [p] /\
    (forall m2 e, skfold_run train test skfold K seed l m = Ok (m2, e) -> exists ps, results e = p :: ps).
Proof.
  intros M train test skfold K seed l m m' p C HK H. unfold ssinglek_run in H. destruct (part_class_spec l) as [E P]. rewrite E in H. cbn [bind] in H.
  set (gs := map (fun c => filter (of_class c) l) (distinct_labels l)) in *. exists (fst (skfold gs K seed 0)), (snd (skfold gs K seed 0)).
  unfold single_run in H. apply bind_ok in H as (m1 & E1 & H). apply bind_ok in H as (q & E2 & H). injection H as <- <-. split; [|split].
  - destruct (C gs K seed HK) as [A _]. rewrite Forall_forall in A. rewrite A; [exact P|]. apply in_map, in_seq. lia.
  - econstructor; [exact E1|exact E2|constructor].
  - intros m2 e R. unfold skfold_run in R. rewrite E in R. cbn [bind] in R. fold gs in R. rewrite run_folds_pairs in R. apply run_pairs_rounds in R as (ps & Rd & ->). rewrite results_adds. cbn [results exp_empty app].
    destruct K as [|K]; [lia|]. cbn [seq map] in Rd. destruct (skfold gs (S K) seed 0) as [tr te]. cbn [fst snd] in *. inversion Rd; subst. eexists. f_equal. congruence.
Qed.
Example C59_single_stratified_case : let l := [mkInst "b" [ACont (Fin 1)] None; mkInst "a" [ACont (Fin 2)] None; mkInst "b" [ACont (Fin 3)] None; mkInst "a" [ACont (Fin 4)] None] in
  fold_provider (fun gs K (_ : Z) => mod_fold (concat gs) K) (@concat instance) /\
  ssinglek_run (fun (_ : nat) tr => Ok (length tr)) (fun _ te => Ok (PError (dofnat (length te)))) (fun gs K (_ : Z) => mod_fold (concat gs) K) 2 5 l 0 = Ok (2, PError (dofnat 2)).
Proof.
  split; [|vm_compute; reflexivity]. intros gs K seed HK. exact (mod_fold_provider (fun _ l => l) (fun _ _ => Permutation_refl _) (concat gs) K seed HK).
Qed.

(** * C82: the text of an auto encoder says nothing about it *)
Theorem C82_auto_encoder_refuted : forall m m', auto_text m = auto_text m'.
Proof. reflexivity. Qed.
Example C82_auto_encoder_case : mkAuto ["a"] [Fin 1] (mkMat 1 [[Fin 2]]) (mkMat 1 [[Fin 3]]) <> mkAuto [] [] (mkMat 0 []) (mkMat 0 []) /\ auto_text (mkAuto ["a"] [Fin 1] (mkMat 1 [[Fin 2]]) (mkMat 1 [[Fin 3]])) = auto_text (mkAuto [] [] (mkMat 0 []) (mkMat 0 [])).
Proof. split; [discriminate|reflexivity]. Qed.

(** * C107: the feature subset of a whole data set *)
Theorem C107_data_set : forall fs l h xs ys, read_all h l = Ok xs -> mapM (fun x => inst_subset x fs) xs = Ok ys ->
  exists js h1, h_subset_all l fs h = Ok (js, h1) /\ read_all h1 js = Ok ys /\ read_all h1 l = Ok xs /\ length js = length l /\ Forall (fun j => ~ live h j) js /\
    (exists ext, h1 = h ++ ext).
Proof.
  intros fs l h xs ys R S.
  assert (forall l h h0 acc xs ys ext, h = h0 ++ ext -> mapM (read_inst h0) l = Ok xs -> mapM (fun x => inst_subset x fs) xs = Ok ys ->
    exists js h1 ext1, foldM (fun st i => do (j, h') <- h_subset (snd st) i fs; Ok (fst st ++ [j], h')) l (acc, h) = Ok (acc ++ js, h1) /\
      mapM (read_inst h1) js = Ok ys /\ h1 = h ++ ext1 /\ length js = length l /\ Forall (fun j => length h <= j) js) as G.
  { clear. induction l as [|i l IH]; intros h h0 acc xs ys ext -> R S.
    - cbn in R. injection R as <-. cbn in S. injection S as <-. exists [], (h0 ++ ext), []. cbn [foldM]. rewrite !app_nil_r. repeat split; constructor.
    - cbn [mapM] in R. apply bind_ok in R as (x & Rx & R). apply bind_ok in R as (xs' & Rl & E). injection E as <-.
      cbn [mapM] in S. apply bind_ok in S as (y & Sy & S). apply bind_ok in S as (ys' & Sl & E). injection E as <-.
      destruct (C107_projection (h0 ++ ext) i x fs y (read_app _ _ _ ext Rx) Sy) as (j & h1 & E1 & Rj & _ & Lj).
      destruct (h_subset_inv _ _ _ _ _ E1) as (la & ps & c & qs & _ & _ & Ej & Eh).
      cbn [foldM snd fst]. rewrite E1. cbn [bind].
      destruct (IH h1 h0 (acc ++ [j]) xs' ys' (ext ++ [Live (OInst la qs None)]) ltac:(rewrite Eh, app_assoc; reflexivity) Rl Sl) as (js & h2 & e2 & F & Rs & Eh2 & Ln & Fj).
      exists (j :: js), h2, (Live (OInst la qs None) :: e2). split; [etransitivity; [exact F|rewrite <- app_assoc; reflexivity]|]. split; [|split; [|split]].
      + cbn [mapM]. rewrite Eh2, (read_app _ _ _ e2 Rj), <- Eh2. cbn [bind]. rewrite Rs. reflexivity.
      + rewrite Eh2, Eh, <- app_assoc. reflexivity.
      + cbn. congruence.
      + constructor; [lia|]. eapply Forall_impl; [|exact Fj]. intros k. rewrite Eh, app_length. lia. }
  destruct (G l h h [] xs ys [] ltac:(rewrite app_nil_r; reflexivity) R S) as (js & h1 & ext & F & Rs & Eh & Ln & Fj). exists js, h1. split; [exact F|]. split; [exact Rs|]. split; [|split; [exact Ln|split; [|exists ext; exact Eh]]].
  - rewrite Eh. clear - R. unfold read_all in *. revert xs R. induction l as [|i l IH]; intros xs R; cbn [mapM] in *; [exact R|].
    apply bind_ok in R as (x & Rx & R). apply bind_ok in R as (xs' & Rl & E). injection E as <-. rewrite (read_app _ _ _ ext Rx). cbn [bind]. rewrite (IH _ Rl). reflexivity.
  - eapply Forall_impl; [|exact Fj]. intros j Hj (o & E). assert (nth_error h j = None) by (apply nth_error_None; exact Hj). congruence.
Qed.
Example C107_data_set_case : exists js h1, h_subset_all [0] [1%Z] ex_h = Ok (js, h1) /\ read_all h1 js = Ok [mkInst "a" [ADisc "u"] None] /\ js = [3].
Proof. eexists; eexists. split; [reflexivity|]. split; reflexivity. Qed.

(** * C106: removeAllAttributes empties the instance and forgets the attributes, which nothing releases *)
Theorem C106_remove_all_refuted : forall h i x ps n, read_inst h i = Ok x -> holds h i ps -> NoDup ps ->
  exists h1 h2, h_remove_all h i = Ok h1 /\ read_inst h1 i = Ok (mkInst (label x) [] (composite x)) /\
    delete_ false (S (S n)) TInstance (At i) h1 = Ok h2 /\ Forall (live h2) ps.
Proof.
  intros h i x ps n R H ND.
  assert (Hi : ~ In i ps). { intros Hp. destruct (holds_attr h i ps x i R H Hp) as (a & Ha). destruct H as (l & c & E). congruence. }
  pose proof H as (l & c & E). assert (Li : i < length h) by (apply nth_error_Some; congruence).
  destruct (read_inst_holds _ _ _ R) as (qs & E' & _). rewrite E in E'. injection E' as El Eq Ec.
  set (h1 := store h i (OInst l [] c)). assert (nth_error h1 i = Some (Live (OInst l [] c))) as N1 by (unfold h1, store; apply nth_upd_same; exact Li).
  destruct (delete_inst n TInstance h1 i []) as (h2 & D & [Len Rel]); auto; [exists l, c; exact N1|constructor; [intros []|constructor]|intros q []|].
  exists h1, h2. split; [unfold h_remove_all, deref_inst, deref; rewrite E; reflexivity|]. split; [rewrite <- El, <- Ec; apply (read_inst_intro h1 i l [] c []); [exact N1|constructor]|]. split; [exact D|].
  apply Forall_forall. intros p Hp. destruct (holds_attr h i ps x p R H Hp) as (a & Ha). exists (OAttr a).
  destruct (Rel p) as [_ K]. rewrite K; [|cbn; intros [->|[]]; contradiction]. unfold h1, store. rewrite nth_upd_other; [exact Ha|]. intros ->. contradiction.
Qed.
Example C106_remove_all_case : exists h1, h_remove_all ex_h 0 = Ok h1 /\ delete_ false 2 TInstance (At 0) h1 = Ok [Freed; Live (OAttr (ACont (Fin 1))); Live (OAttr (ADisc "u"))].
Proof. eexists. split; reflexivity. Qed.

(** * C131: the decision of the F test in rounded arithmetic does not depend on the order of the classifiers *)
Theorem C131_f_decision : r_combined5x2f_compare (fun d => d) = combined5x2f_compare /\
  forall R fdist, rounding R -> (forall f f' a b, deq f f' -> fdist f a b = fdist f' a b) -> forall c1 c2,
  same_outcome eq (r_combined5x2f_compare R fdist c1 c2) (r_combined5x2f_compare R fdist c2 c1).
Proof.
  split; [reflexivity|]. intros R fdist HR Fe c1 c2. unfold r_combined5x2f_compare. destruct (C131_swap R b64_sqrt HR C131_root c1 c2) as (_ & _ & _ & E).
  assert (forall f, r_combined5x2f_stat R c1 c2 = Ok f -> exp_size c1 = exp_size c2) as Z.
  { intros f. unfold r_combined5x2f_stat, ten_results. destruct (Nat.eqb_spec (exp_size c1) (exp_size c2)); [auto|discriminate]. }
  destruct (r_combined5x2f_stat R c1 c2) as [f| | |] eqn:E1, (r_combined5x2f_stat R c2 c1) as [f'| | |] eqn:E2; cbn in E; try contradiction; cbn [bind same_outcome]; try assumption.
  rewrite (Z f eq_refl), (Fe f f' _ _ E). reflexivity.
Qed.
Example C131_f_decision_case : let c1 := rates_of [1 # 10; 2 # 10; 3 # 10; 1 # 10; 2 # 10; 3 # 10; 1 # 10; 2 # 10; 3 # 10; 1 # 10]%Q in
  let c2 := rates_of [2 # 10; 4 # 10; 4 # 10; 2 # 10; 2 # 10; 3 # 10; 1 # 10; 3 # 10; 3 # 10; 1 # 10]%Q in
  let F := fun f (a b : Z) => if dltb f d0 then Fin 1 else Fin (1 # 4) in
  r_combined5x2f_compare b64 F c1 c2 = Ok (mkTR (Fin (1 # 4)) true) /\ r_combined5x2f_compare b64 F c2 c1 = Ok (mkTR (Fin (1 # 4)) true).
Proof. cbv zeta. split; vm_compute; reflexivity. Qed.
Print Assumptions C01_add_vector.
Print Assumptions C14_less.
Print Assumptions C08_list.
Print Assumptions C83_data_set_conforms.
Print Assumptions C84_clear_keeps_values.
Print Assumptions C35_accuracy.
Print Assumptions C40_get.
Print Assumptions C59_single_stratified.
Print Assumptions C82_auto_encoder_refuted.
Print Assumptions C107_data_set.
Print Assumptions C106_remove_all_refuted.
Print Assumptions C131_f_decision.
