(** More theorems for C05, C17, C71, C77, C81, C82 and C116. *)
From Coq Require Import String ZArith QArith Bool Lia Lqa List.
From Verif Require ListSpec ListProofs LibModel AttrModel NetModel SerialModel.
From Verif Require Import Base Spec BaseLemmas DblLemmas AttrModel InstanceListModel PerformanceModel PerformanceProofs SolverModel SoftModel.
Import ListNotations.
Local Open Scope list_scope.
Local Open Scope nat_scope.

(** * C71: which samples shrinking sets aside *)
(** A sample at a bound can only be moved one way: its multiplier times its label [y] can grow or it can fall. *)
Definition only_grows (st : alpha_status) (y : Q) : Prop := (st = LOWER_BOUND /\ y == 1)%Q \/ (st = UPPER_BOUND /\ y == -(1))%Q.
Definition only_falls (st : alpha_status) (y : Q) : Prop := (st = UPPER_BOUND /\ y == 1)%Q \/ (st = LOWER_BOUND /\ y == -(1))%Q.
(** The first loop of doShrinking keeps a sample if it is free, if it can only grow and [-y G] is at least [Gm[0]], or if it can only
    fall and [-y G] is at most [-Gm[1]]; the second one brings back those at a bound that pass the same test. *)
Theorem C71_set_aside : forall s a b k st y g, nth_error (s_status s) k = Some st -> nth_error (s_y s) k = Some (Fin y) -> nth_error (s_G s) k = Some (Fin g) -> (y == 1 \/ y == -(1))%Q ->
  exists kept back, shrink_skip dgeb s (Fin a) (Fin b) k = Ok kept /\ shrink_skip dltb s (Fin a) (Fin b) k = Ok back /\
    (kept = true <-> st = FREE \/ (only_grows st y /\ a <= - (y * g))%Q \/ (only_falls st y /\ - (y * g) <= - b)%Q) /\
    (back = negb kept \/ st = FREE).
Proof.
  intros s a b k st y g Es Ey Eg Hy. unfold shrink_skip, idxn. rewrite Es, Ey, Eg. cbn [bind]. do 2 eexists. split; [reflexivity|]. split; [reflexivity|]. unfold dgeb, only_grows, only_falls.
  assert (N : forall x m : Q, dltb (Fin x) (Fin m) = negb (dleb (Fin m) (Fin x))) by reflexivity.
  destruct Hy as [Hy|Hy].
  - assert (deqb (Fin y) d1 = true) as -> by (unfold deqb, d1; apply andb_true_iff; split; apply dleb_fin; lra). cbn [dopp]. split.
    + destruct st; [rewrite dleb_fin|rewrite dleb_fin|]; (split; [intros H | intros [H | [ [ [ [H1 H2] | [H1 H2] ] H3] | [ [ [H1 H2] | [H1 H2] ] H3] ] ] ]); try discriminate; try reflexivity; try (rewrite H2 in H3; lra); try (left; reflexivity).
      * right; left. split; [left; split; [reflexivity|exact Hy]|rewrite Hy; lra].
      * right; right. split; [left; split; [reflexivity|exact Hy]|rewrite Hy; lra].
    + destruct st; [left|left|right; reflexivity]; rewrite N; reflexivity.
  - assert (deqb (Fin y) d1 = false) as -> by (unfold deqb, d1; apply andb_false_iff; right; apply dleb_fin_false; lra). cbn [dopp]. split.
    + destruct st; [rewrite dleb_fin|rewrite dleb_fin|]; (split; [intros H | intros [H | [ [ [ [H1 H2] | [H1 H2] ] H3] | [ [ [H1 H2] | [H1 H2] ] H3] ] ] ]); try discriminate; try reflexivity; try (rewrite H2 in H3; lra); try (left; reflexivity).
      * right; right. split; [right; split; [reflexivity|exact Hy]|rewrite Hy; lra].
      * right; left. split; [right; split; [reflexivity|exact Hy]|rewrite Hy; lra].
    + destruct st; [left|left|right; reflexivity]; rewrite N; reflexivity.
Qed.

Example C71_set_aside_case : forall q, let s := mkSolver 3 [Fin 1; Fin (-1); Fin 1] [Fin 0; Fin 0; Fin (1 # 2)] [Fin 3; Fin 3; Fin 0] [LOWER_BOUND; LOWER_BOUND; FREE] q (Fin 1) [] [] [] 3 false true in
  (shrink_skip dgeb s (Fin (-1)) (Fin (-1)) 0 = Ok false /\ shrink_skip dltb s (Fin (-1)) (Fin (-1)) 0 = Ok true) /\ shrink_skip dgeb s (Fin (-1)) (Fin (-4)) 1 = Ok true /\
  shrink_skip dgeb s (Fin (-1)) (Fin (-1)) 1 = Ok false /\ shrink_skip dgeb s (Fin (-1)) (Fin (-1)) 2 = Ok true.
Proof. intros q. repeat split; reflexivity. Qed.

(** * C81: the learning factors are 10, 5, 2.5, ... *)
Theorem C81_factor : forall i, deq (eta_of i) (Fin (10 / inject_Z (2 ^ Z.of_nat i))).
Proof.
  intros i. unfold eta_of. rewrite !dofnat_fin. assert (qofn (2 ^ i) == inject_Z (2 ^ Z.of_nat i))%Q as E.
  { unfold qofn. rewrite Nat2Z.inj_pow. reflexivity. }
  assert (0 < qofn (2 ^ i))%Q as P by (apply qofn_pos; pose proof (Nat.pow_nonzero 2 i); lia). rewrite ddiv_fin by lra. cbn [deq]. rewrite E. reflexivity.
Qed.
Example C81_factor_case : deq (eta_of 0) (Fin 10) /\ deq (eta_of 1) (Fin 5) /\ deq (eta_of 2) (Fin (5 # 2)) /\ deq (eta_of 10) (Fin (10 # 1024)).
Proof. repeat split; vm_compute; reflexivity. Qed.

(** * C05: what the attributes of an instance have to do with its possible labels *)
(** Adding an attribute puts it last and changes neither the label nor the possible labels. *)
Theorem C05_add_attribute : forall i a, attrs (add_attr i a) = attrs i ++ [a] /\ label (add_attr i a) = label i /\ composite (add_attr i a) = composite i /\ possible_labels (add_attr i a) = possible_labels i.
Proof. intros i a. repeat split. Qed.
Example C05_add_attribute_case : possible_labels (add_attr (mkInst "a" [ADisc "x"] (Some ["a"; "b"]))%string (ACont (Fin 1))) = ["a"; "b"]%string /\ attr_count (add_attr (mkInst "a" [ADisc "x"] (Some ["a"; "b"]))%string (ACont (Fin 1))) = 2.
Proof. split; reflexivity. Qed.

(** * C17: a number among the words *)
(** If a column starts with words and then has a number, counting its values is undefined: the number is read as if it were a word. *)
Theorem C17_mixed_column : forall k l1 x l2 v, Forall (fun y => exists w, ListSpec.feature y k (ADisc w)) l1 -> ListSpec.feature x k (ACont v) ->
  value_list k (l1 ++ x :: l2) = UB BadCast /\ (l1 <> [] -> attr_distribution k (l1 ++ x :: l2) = UB BadCast).
Proof.
  intros k l1 x l2 v H Hx.
  assert (G : forall B (f : B -> string -> B) acc, foldM (fun c y => do w <- disc_at k y; Ok (f c w)) (l1 ++ x :: l2) acc = UB BadCast).
  { intros B f. induction H as [|y l1 (w & Hw) _ IH]; intros acc; cbn [app foldM]; unfold disc_at at 1.
    - rewrite (proj2 (ListProofs.get_attr_ok x k _) Hx). reflexivity.
    - rewrite (proj2 (ListProofs.get_attr_ok y k _) Hw). cbn [bind disc_value]. apply IH. }
  split; [apply (G _ push_new)|]. intros Hn. unfold attr_distribution. destruct l1 as [|y l1]; [congruence|]. inversion H as [|? ? (w & Hw) _]; subst. cbn [app]. change (atn (y :: l1 ++ x :: l2) 0) with (@Ok instance y). cbn [bind].
  rewrite (proj2 (ListProofs.get_attr_ok y k _) Hw). cbn [bind isDiscrete]. apply (G _ cput).
Qed.
Example C17_mixed_column_case : attr_distribution 0%Z [mkInst "a" [ADisc "x"] None; mkInst "b" [ACont (Fin 1)] None] = UB BadCast /\ attr_distribution 0%Z [mkInst "a" [ADisc "x"] None; mkInst "b" [ADisc "x"] None] = Ok [("x", 2)]%string.
Proof. split; reflexivity. Qed.

(** * C116: the short constructors *)
(** The constructors that leave arguments out keep the seed, and so the folds of an experiment. *)
Theorem C116_seeds : forall seed k kernel degree gamma coef0 C, LibModel.get_seed (LibModel.new_kmeans_param seed) = seed /\ LibModel.get_seed (LibModel.new_knn_param seed k) = seed /\
  LibModel.get_seed (LibModel.new_svm_param seed kernel degree gamma coef0 C) = seed.
Proof. intros. repeat split. Qed.

(** * C77, C82: auto encoders *)
(** An instance whose number of values does not fit the trained matrices: predictInput catches the mismatch and then returns no value, which is
    undefined behaviour; so is the test on a list with such an instance in front. *)
Theorem C77_auto_misfit : forall dexp dtanh w v x l y, NetModel.mcol w <> S (length (AttrModel.inst_vector x)) ->
  NetModel.auto_input dexp dtanh w v x = UB NoReturn /\ NetModel.auto_test dexp dtanh w v (x :: l) y = UB NoReturn.
Proof.
  intros dexp dtanh w v x l y H. assert (E : NetModel.auto_input dexp dtanh w v x = UB NoReturn).
  { unfold NetModel.auto_input, NetModel.forward2, NetModel.hidden, NetModel.mul_r, NetModel.input_vector, NetModel.biased. cbn [length]. rewrite (proj2 (Nat.eqb_neq _ _) H). reflexivity. }
  split; [exact E|]. unfold NetModel.auto_test. cbn [foldM]. rewrite E. reflexivity.
Qed.
Example C77_auto_misfit_case : NetModel.mcol (NetModel.mkMat 2 [[Fin 1; Fin 1]]) <> S (length (AttrModel.inst_vector (mkInst "a" [ACont (Fin 1); ACont (Fin 2)] None))) /\
  NetModel.mcol (NetModel.mkMat 2 [[Fin 1; Fin 1]]) = S (length (AttrModel.inst_vector (mkInst "a" [ACont (Fin 1)] None))).
Proof. split; [discriminate|reflexivity]. Qed.
(** An auto encoder writes nothing at all. *)
Theorem C82_auto_encoder_empty : forall m, SerialModel.auto_text m = ""%string.
Proof. reflexivity. Qed.
Print Assumptions C71_set_aside.
Print Assumptions C81_factor.
Print Assumptions C05_add_attribute.
Print Assumptions C17_mixed_column.
Print Assumptions C116_seeds.
Print Assumptions C77_auto_misfit.
Print Assumptions C82_auto_encoder_empty.
