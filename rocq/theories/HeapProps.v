(** Object lifetimes: C106 - C112. *)
From Coq Require Import String ZArith QArith Bool List Lia.
From Verif Require Import Base BaseLemmas AttrModel StatModel PerformanceModel StatTestModel TreeModel TreeGrowProofs StatTestProofs StatTestProps HeapModel HeapSpec HeapProofs.
Import ListNotations.
Local Open Scope list_scope.
Local Open Scope nat_scope.

(** * C106: destroying an instance releases the instance and its attributes, and nothing else *)
(** Under the rules of the language it never does: every attribute is deleted through a pointer to its abstract base,
    which has no virtual destructor. *)
Theorem C106_destroy_refuted : forall h i x n, read_inst h i = Ok x -> attrs x <> [] ->
  delete_ true (S (S n)) TInstance (At i) h = UB BadDelete /\
  delete_ true (S (S n)) TCompositeInstance (At i) h = UB BadDelete.
Proof.
  intros h i x n R Hne. destruct (read_inst_holds _ _ _ R) as (ps & E & F).
  destruct F as [|p a ps vs Hp F]; [congruence|].
  split; (eapply delete_inst_strict; [|exact E|exact Hp]; auto).
Qed.
(** A composite instance cannot even be deleted as an Instance when it has no attribute. *)
Theorem C106_composite_refuted : forall h i x n, read_inst h i = Ok x -> isComposite x = true ->
  delete_ true (S (S n)) TInstance (At i) h = UB BadDelete.
Proof.
  intros h i x n R Hc. destruct (read_inst_holds _ _ _ R) as (ps & E & F). unfold isComposite in Hc.
  cbn [delete_]. rewrite E. destruct (composite x); [reflexivity|discriminate].
Qed.
(** On implementations that run the base destructor and release the block: exactly the instance and its attributes are
    released, provided no attribute object is used twice. *)
Theorem C106_destroy_partial : forall h i x ps n, read_inst h i = Ok x -> holds h i ps -> NoDup ps ->
  exists h', delete_ false (S (S n)) TInstance (At i) h = Ok h' /\ released (fun a => a = i \/ In a ps) h h'.
Proof.
  intros h i x ps n R H ND.
  assert (L : forall p, In p ps -> live h p).
  { intros p Hp. destruct (holds_attr h i ps x p R H Hp) as (a & Ha). eexists; exact Ha. }
  assert (Hi : ~ In i ps).
  { intros Hp. destruct (holds_attr h i ps x i R H Hp) as (a & Ha). destruct H as (l & c & E). congruence. }
  destruct (delete_inst n TInstance h i ps) as (h' & E & [Len Rel]); auto; [constructor; assumption|].
  exists h'. split; [exact E|]. split; [exact Len|]. intros a. destruct (Rel a) as [R1 R2]. split.
  - intros Ha. apply R1. destruct Ha as [->|Ha]; [left; reflexivity|right; exact Ha].
  - intros Ha. apply R2. intros [<-|Hb]; apply Ha; auto.
Qed.
(** A removed attribute is never released: it outlives the instance with nobody left to refer to it. *)
Theorem C106_removed_leak_refuted : forall h i x ps k p h1 n, read_inst h i = Ok x -> holds h i ps -> NoDup ps ->
  nth_error ps k = Some p -> h_remove h i (Z.of_nat k) = Ok h1 ->
  exists h', delete_ false (S (S n)) TInstance (At i) h1 = Ok h' /\ live h' p /\
             (forall j qs, holds h' j qs -> holds h j qs).
Proof.
  intros h i x ps k p h1 n R H ND Hk Rm.
  destruct (holds_attr h i ps x p R H (nth_error_In _ _ Hk)) as (ap & Hap).
  assert (Hi : ~ In i ps).
  { intros Hp. destruct (holds_attr h i ps x i R H Hp) as (a & Ha). destruct H as (l & c & E). congruence. }
  destruct H as (l & c & E). unfold h_remove, deref_inst, deref in Rm. rewrite E in Rm; simpl in Rm.
  destruct (Z.ltb_spec (Z.of_nat k) 0); [lia|]. rewrite Nat2Z.id in Rm.
  destruct (Nat.ltb_spec k (length ps)) as [Lk|]; [|discriminate]. injection Rm as <-.
  assert (Li : i < length h) by (apply nth_error_Some; congruence).
  set (qs := erase_nth ps k).
  assert (Sub : forall q, In q qs -> In q ps) by (intros q; apply erase_in).
  assert (ND' : NoDup qs) by (apply erase_nodup; exact ND).
  assert (Np : ~ In p qs) by (apply erase_gone; assumption).
  assert (Hi' : ~ In i qs) by (intros Hq; apply Hi, Sub, Hq).
  set (h1 := store h i (OInst l qs c)).
  assert (O1 : forall b, b <> i -> nth_error h1 b = nth_error h b) by (intros b Hb; unfold h1, store; apply nth_upd_other; auto).
  destruct (delete_inst n TInstance h1 i qs) as (h' & D & [Len Rel]); auto.
  - exists l, c. unfold h1, store. apply nth_upd_same. exact Li.
  - constructor; assumption.
  - intros q Hq. destruct (holds_attr h i ps x q R ltac:(eexists; eexists; exact E) (Sub q Hq)) as (a & Ha).
    exists (OAttr a). rewrite O1; [exact Ha|]. intros ->. contradiction.
  - exists h'. assert (Hpi : p <> i) by congruence. split; [exact D|]. split.
    + exists (OAttr ap). rewrite (proj2 (Rel p)), O1; auto. intros [Hq|Hq]; [congruence|contradiction].
    + intros j rs (l' & c' & Ej). exists l', c'. destruct (Rel j) as [R1 R2].
      destruct (in_dec Nat.eq_dec j (i :: qs)) as [Hj|Hj]; [destruct (R1 Hj) as [_ Fj]; unfold freed in Fj; congruence|].
      rewrite <- O1; [rewrite <- R2; auto|]. intros ->. apply Hj. left; reflexivity.
Qed.
Definition ex_x : instance := mkInst "a" [ACont (Fin 1); ADisc "u"] None.
Definition ex_h : heap := inst_cells 0 ex_x.
Example C106_case : h_make ex_x [] = Ok (0, ex_h) /\ read_inst ex_h 0 = Ok ex_x /\ holds ex_h 0 [1; 2] /\ NoDup [1; 2] /\
  delete_ true 2 TInstance (At 0) ex_h = UB BadDelete /\
  delete_ false 2 TInstance (At 0) ex_h = Ok [Freed; Freed; Freed] /\
  exists h1, h_remove ex_h 0 0 = Ok h1 /\ delete_ false 2 TInstance (At 0) h1 = Ok [Freed; Live (OAttr (ACont (Fin 1))); Freed].
Proof.
  repeat split; try reflexivity.
  - exists "a"%string, None. reflexivity.
  - repeat constructor; simpl; intuition discriminate.
  - eexists; split; reflexivity.
Qed.
Print Assumptions C106_destroy_refuted.
Print Assumptions C106_composite_refuted.
Print Assumptions C106_destroy_partial.
Print Assumptions C106_removed_leak_refuted.

(** * C107: an instance made by feature selection is independent of the instance it was made from *)
(** It reads as the projection ... *)
Theorem C107_projection : forall h i x fs y, read_inst h i = Ok x -> inst_subset x fs = Ok y ->
  exists j h1, h_subset h i fs = Ok (j, h1) /\ read_inst h1 j = Ok y /\ read_inst h1 i = Ok x /\ ~ live h j.
Proof.
  intros h i x fs y R S. destruct (read_inst_holds _ _ _ R) as (ps & E & F).
  unfold inst_subset in S. destruct (mapM _ fs) as [vs| | |] eqn:M; simpl in S; try discriminate. injection S as <-.
  assert (Q : exists qs, mapM (at_ ps) fs = Ok qs /\ Forall2 (fun p a => nth_error h p = Some (Live (OAttr a))) qs vs).
  { apply mapM_ok in M. clear E R. induction M as [|k a fs vs Hk M (qs & IHq & IHf)]; [exists []; split; [reflexivity|constructor]|].
    apply at_ok in Hk. destruct Hk as [H0 Hk].
    assert (exists p, nth_error ps (Z.to_nat k) = Some p /\ nth_error h p = Some (Live (OAttr a))) as (p & P1 & P2).
    { clear - F Hk. revert Hk. generalize (Z.to_nat k) as m. induction F as [|p b ps vs Hp F IH]; intros [|m] Hm; try discriminate.
      - injection Hm as <-. exists p. auto.
      - apply IH in Hm. exact Hm. }
    exists (p :: qs). split; [|constructor; assumption]. simpl. unfold at_. destruct (Z.ltb_spec k 0); [lia|]. rewrite P1; simpl.
    exact (f_equal (fun r => bind r (fun ys => Ok (p :: ys))) IHq). }
  destruct Q as (qs & Mq & Fq). exists (length h), (h ++ [Live (OInst (label x) qs None)]).
  repeat split.
  - eapply h_subset_cells; eauto.
  - apply read_inst_intro with (ps := qs).
    + apply nth_mid.
    + apply attrs_app. exact Fq.
  - apply read_app. exact R.
  - intros (o & Ho). assert (length h < length h) by (apply nth_error_Some; congruence). lia.
Qed.
(** ... but it shares the attribute objects: rescaling the projection rescales the original. *)
Theorem C107_rescaling_refuted : forall f h i x ps fs j h1, read_inst h i = Ok x -> holds h i ps -> NoDup ps -> NoDup fs ->
  h_subset h i fs = Ok (j, h1) ->
  exists h2 y, h_rescale f h1 j = Ok h2 /\ read_inst h2 i = Ok y /\ length (attrs y) = length (attrs x) /\
    (forall m k, nth_error fs m = Some (Z.of_nat k) ->
       nth_error (attrs y) k = option_map (rewritten (f m)) (nth_error (attrs x) k)) /\
    (forall k, ~ In (Z.of_nat k) fs -> nth_error (attrs y) k = nth_error (attrs x) k).
Proof.
  intros f h i x ps fs j h1 R H ND NF S.
  destruct (h_subset_inv _ _ _ _ _ S) as (l & ps' & c & qs & E & M & -> & ->).
  destruct H as (l0 & c0 & E0). rewrite E in E0. injection E0 as <- -> <-.
  destruct (read_inst_holds _ _ _ R) as (ps2 & E2 & F). rewrite E in E2. injection E2 as -> <- ->.
  assert (Q : forall m q, nth_error qs m = Some q -> exists k, nth_error fs m = Some (Z.of_nat k) /\ nth_error ps k = Some q).
  { apply mapM_ok in M. clear - M. induction M as [|k q fs qs Hk M IH]; intros [|m] q' Hq; try discriminate; simpl in *.
    - injection Hq as <-. apply at_ok in Hk. destruct Hk as [H0 Hk]. exists (Z.to_nat k). rewrite Z2Nat.id by exact H0. auto.
    - apply IH; exact Hq. }
  assert (Lq : length qs = length fs) by (apply mapM_ok in M; apply Forall2_len in M; auto).
  assert (NQ : NoDup qs).
  { apply NoDup_nth_error. intros m m' Hm Eq. destruct (nth_error qs m) as [q|] eqn:Eqm; [|apply nth_error_None in Eqm; lia].
    symmetry in Eq. destruct (Q m q Eqm) as (k & K1 & K2). destruct (Q m' q Eq) as (k' & K1' & K2').
    assert (k = k').
    { apply (proj1 (NoDup_nth_error ps) ND); [apply nth_error_Some; congruence|congruence]. }
    subst k'. apply (proj1 (NoDup_nth_error fs) NF); [apply nth_error_Some; congruence|congruence]. }
  (* values seen through qs *)
  assert (V : exists vs, Forall2 (fun p a => nth_error (h ++ [Live (OInst (label x) qs None)]) p = Some (Live (OAttr a))) qs vs).
  { assert (G : forall q, In q qs -> exists a, nth_error (h ++ [Live (OInst (label x) qs None)]) q = Some (Live (OAttr a))).
    { intros q Hq. destruct (In_nth_error _ _ Hq) as (m & Hm). destruct (Q m q Hm) as (k & _ & K).
      destruct (holds_attr h i ps x q R ltac:(eexists; eexists; exact E) (nth_error_In _ _ K)) as (a & Ha).
      exists a. rewrite nth_error_app1; [exact Ha|]. apply nth_error_Some. congruence. }
    generalize (h ++ [Live (OInst (label x) qs None)]) G. clear. intros h G. induction qs as [|q qs IH]; [exists []; constructor|].
    destruct IH as (vs & Fv); [intros; apply G; right; assumption|]. destruct (G q) as (a & Ha); [left; reflexivity|].
    exists (a :: vs). constructor; assumption. }
  destruct V as (vs & FV).
  set (h1 := h ++ [Live (OInst (label x) qs None)]) in *.
  destruct (h_rescale_from_spec f qs vs 0 h1 NQ FV) as (h2 & E2 & P & O).
  assert (Old : forall b, b < length h -> nth_error h1 b = nth_error h b) by (intros; unfold h1; apply nth_error_app1; assumption).
  assert (Hi : i < length h) by (apply nth_error_Some; congruence).
  assert (Niq : ~ In i qs).
  { intros Hq. destruct (In_nth_error _ _ Hq) as (m & Hm). destruct (Q m i Hm) as (k & _ & K).
    destruct (holds_attr h i ps x i R ltac:(eexists; eexists; exact E) (nth_error_In _ _ K)) as (a & Ha). congruence. }
  (* attribute k of the original afterwards *)
  assert (A : forall k p a, nth_error ps k = Some p -> nth_error (attrs x) k = Some a ->
     (forall m, nth_error fs m = Some (Z.of_nat k) -> nth_error h2 p = Some (Live (OAttr (rewritten (f m) a)))) /\
     (~ In (Z.of_nat k) fs -> nth_error h2 p = Some (Live (OAttr a)))).
  { intros k p a Hp Ha.
    assert (Hpa : nth_error h p = Some (Live (OAttr a))).
    { exact (Forall2_at _ _ _ F _ _ _ Hp Ha). }
    assert (Lp : p < length h) by (apply nth_error_Some; congruence). split.
    - intros m Hm. assert (Hq : nth_error qs m = Some p).
      { destruct (nth_error qs m) as [q|] eqn:Eq.
        - destruct (Q m q Eq) as (k' & K1 & K2). rewrite Hm in K1. injection K1 as K1. apply Nat2Z.inj in K1. congruence.
        - apply nth_error_None in Eq. assert (m < length fs) by (apply nth_error_Some; congruence). unfold addr in *; lia. }
      destruct (nth_error vs m) as [b|] eqn:Eb.
      + assert (b = a).
        { assert (X : nth_error h1 p = Some (Live (OAttr b))); [|rewrite Old in X by exact Lp; congruence].
          exact (Forall2_at _ _ _ FV _ _ _ Hq Eb). }
        subst b. apply (P m p a Hq Eb).
      + apply nth_error_None in Eb. apply Forall2_len in FV. assert (m < length qs) by (apply nth_error_Some; congruence). unfold addr in *; unfold addr in *; lia.
    - intros Hn. rewrite O, Old; auto. intros Hq. destruct (In_nth_error _ _ Hq) as (m & Hm). destruct (Q m p Hm) as (k' & K1 & K2).
      assert (k = k') by (apply (proj1 (NoDup_nth_error ps) ND); [apply nth_error_Some; congruence|congruence]).
      subst k'. apply Hn. eapply nth_error_In; exact K1. }
  assert (Lx : length ps = length (attrs x)) by (apply Forall2_len in F; exact F).
  (* read it *)
  assert (Y : exists ws, Forall2 (fun p a => nth_error h2 p = Some (Live (OAttr a))) ps ws).
  { assert (G : forall p, In p ps -> exists a, nth_error h2 p = Some (Live (OAttr a))).
    { intros p Hp. destruct (In_nth_error _ _ Hp) as (k & Hk).
      destruct (nth_error (attrs x) k) as [a|] eqn:Ea; [|apply nth_error_None in Ea; assert (k < length ps) by (apply nth_error_Some; congruence); unfold addr in *; lia].
      destruct (A k p a Hk Ea) as [A1 A2]. destruct (in_dec Z.eq_dec (Z.of_nat k) fs) as [Hf|Hf]; [|eauto].
      destruct (In_nth_error _ _ Hf) as (m & Hm). eexists. apply (A1 m Hm). }
    clear - G. induction ps as [|p ps IH]; [exists []; constructor|]. destruct IH as (ws & Fw); [intros; apply G; right; assumption|].
    destruct (G p) as (a & Ha); [left; reflexivity|]. exists (a :: ws). constructor; assumption. }
  destruct Y as (ws & FW). exists h2, (mkInst (label x) ws (composite x)). repeat split.
  - unfold h_rescale, deref_inst, deref. unfold h1. rewrite nth_mid; simpl. exact E2.
  - apply read_inst_intro with (ps := ps); [rewrite O, Old; auto|exact FW].
  - simpl. apply Forall2_len in FW. unfold addr in *; lia.
  - simpl. intros m k Hm. destruct (nth_error ps k) as [p|] eqn:Ep.
    + destruct (nth_error (attrs x) k) as [a|] eqn:Ea; [|apply nth_error_None in Ea; assert (k < length ps) by (apply nth_error_Some; congruence); unfold addr in *; lia].
      destruct (A k p a Ep Ea) as [A1 _]. specialize (A1 m Hm). simpl.
      destruct (nth_error ws k) as [w|] eqn:Ew; [|apply nth_error_None in Ew; apply Forall2_len in FW; assert (k < length ps) by (apply nth_error_Some; congruence); unfold addr in *; lia].
      pose proof (Forall2_at _ _ _ FW _ _ _ Ep Ew) as X; cbv beta in X. congruence.
    + apply nth_error_None in Ep. rewrite (proj2 (nth_error_None (attrs x) k)) by (unfold addr in *; lia). apply nth_error_None. apply Forall2_len in FW. unfold addr in *; lia.
  - simpl. intros k Hn. destruct (nth_error ps k) as [p|] eqn:Ep.
    + destruct (nth_error (attrs x) k) as [a|] eqn:Ea; [|apply nth_error_None in Ea; assert (k < length ps) by (apply nth_error_Some; congruence); unfold addr in *; lia].
      destruct (A k p a Ep Ea) as [_ A2]. specialize (A2 Hn).
      destruct (nth_error ws k) as [w|] eqn:Ew; [|apply nth_error_None in Ew; apply Forall2_len in FW; assert (k < length ps) by (apply nth_error_Some; congruence); unfold addr in *; lia].
      pose proof (Forall2_at _ _ _ FW _ _ _ Ep Ew) as X; cbv beta in X. congruence.
    + apply nth_error_None in Ep. rewrite (proj2 (nth_error_None (attrs x) k)) by (unfold addr in *; lia). apply nth_error_None. apply Forall2_len in FW. unfold addr in *; lia.
Qed.
(** ... and destroying either of them destroys attributes of the other. *)
Theorem C107_destroy_refuted : forall h i x ps fs j h1 n, read_inst h i = Ok x -> holds h i ps -> NoDup ps -> fs <> [] ->
  h_subset h i fs = Ok (j, h1) ->
  exists h2, delete_ false (S (S n)) TInstance (At i) h1 = Ok h2 /\
             read_inst h2 j = UB Dangling /\ delete_ false (S (S n)) TInstance (At j) h2 = UB DoubleFree.
Proof.
  intros h i x ps fs j h1 n R H ND Hne HS.
  destruct (h_subset_inv _ _ _ _ _ HS) as (l & ps' & c & qs & E & M & -> & ->).
  destruct H as (l0 & c0 & E0). rewrite E in E0. injection E0 as <- -> <-.
  set (h1 := h ++ [Live (OInst l qs None)]).
  assert (H1 : holds h1 i ps) by (apply holds_app; eexists; eexists; exact E).
  destruct (C106_destroy_partial h1 i x ps n) as (h2 & D & [Len Rel]); auto; [apply read_app; exact R|].
  exists h2. split; [exact D|].
  destruct fs as [|k fs]; [congruence|]. cbn [mapM] in M. destruct (at_ ps k) as [q| | |] eqn:Ek; simpl in M; try discriminate.
  destruct (mapM (at_ ps) fs) as [qs'| | |]; simpl in M; try discriminate. injection M as <-.
  apply at_ok in Ek. destruct Ek as [_ Ek].
  assert (Fq : nth_error h2 q = Some Freed).
  { apply (Rel q). right. eapply nth_error_In; exact Ek. }
  assert (Ej : nth_error h2 (length h) = Some (Live (OInst l (q :: qs') None))).
  { rewrite (proj2 (Rel (length h))); [apply nth_mid|].
    assert (Hb : forall b, (exists o, nth_error h b = Some (Live o)) -> length h <> b).
    { intros b (o & Hb) <-. assert (length h < length h) by (apply nth_error_Some; congruence). lia. }
    intros [Hi|Hp].
    - revert Hi. apply Hb. eauto.
    - destruct (holds_attr h i ps x _ R ltac:(eexists; eexists; exact E) Hp) as (a & Ha). exact (Hb _ (ex_intro _ _ Ha) eq_refl). }
  split.
  - unfold read_inst, deref_inst, deref. rewrite Ej; simpl. unfold deref_attr, deref. rewrite Fq. reflexivity.
  - remember (S n) as m eqn:Hm. cbn [delete_]. rewrite Ej. cbn [andb foldM]. subst m. cbn [delete_]. rewrite Fq. reflexivity.
Qed.
Example C107_case : exists j h1, h_subset ex_h 0 [0%Z] = Ok (j, h1) /\ NoDup [0%Z] /\
  read_inst h1 j = Ok (mkInst "a" [ACont (Fin 1)] None) /\
  exists h2, h_rescale (fun _ _ => Fin 5) h1 j = Ok h2 /\ read_inst h2 0 = Ok (mkInst "a" [ACont (Fin 5); ADisc "u"] None).
Proof. eexists; eexists. split; [reflexivity|]. split; [repeat constructor; simpl; tauto|]. split; [reflexivity|]. eexists; split; reflexivity. Qed.
Print Assumptions C107_projection.
Print Assumptions C107_rescaling_refuted.
Print Assumptions C107_destroy_refuted.

(** * C108: normalising a data set rewrites every stored instance once and touches nothing else *)
(** Data sets built from new instances: every instance is rewritten once (this is what justifies treating instances as
    values in the other model files). *)
Theorem C108_fresh_partial : forall f xs h, exists is h1 h2 ys,
  h_make_all xs h = Ok (is, h1) /\ read_all h1 is = Ok xs /\
  h_convert f is h1 = Ok h2 /\ read_all h2 is = Ok ys /\ Forall2 (rescaled f) xs ys /\
  forall b, b < length h -> nth_error h2 b = nth_error h b.
Proof.
  intros f xs h.
  destruct (h_make_all_spec xs h h [] [] []) as (is & h1 & pss & E & NI & U & R & B & O); auto.
  - constructor.
  - split; constructor.
  - intros b [[]|[]].
  - apply mapM_ok in R. destruct (h_convert_spec f is pss xs h1 NI U R) as (h2 & E2 & R2 & _ & O2).
    exists is, h1, h2, (map (rescale_inst f) xs). repeat split; auto.
    + clear. induction xs; constructor; auto. apply rescale_inst_rescaled.
    + intros b Hb. rewrite O2; [apply O; exact Hb|]. intros Hc. destruct (B b); [auto|lia].
Qed.
(** More generally, for instances that share no attribute object. *)
Theorem C108_unshared_partial : forall f h is pss xs, NoDup is -> unshared h is pss -> read_all h is = Ok xs ->
  exists h2 ys, h_convert f is h = Ok h2 /\ read_all h2 is = Ok ys /\ Forall2 (rescaled f) xs ys /\
  forall b, ~ In b (concat pss) -> nth_error h2 b = nth_error h b.
Proof.
  intros f h is pss xs NI U R. destruct (h_convert_spec f is pss xs h NI U R) as (h2 & E2 & R2 & _ & O2).
  exists h2, (map (rescale_inst f) xs). repeat split; auto. clear. induction xs; constructor; auto. apply rescale_inst_rescaled.
Qed.
(** An instance that is stored twice (a bootstrap sample, or added twice) is rewritten twice. *)
Theorem C108_twice_refuted : forall f h i x ps, read_inst h i = Ok x -> holds h i ps -> NoDup ps ->
  exists h2 y z, h_convert f [i; i] h = Ok h2 /\ rescaled f x y /\ rescaled f y z /\ read_all h2 [i; i] = Ok [z; z].
Proof.
  intros f h i x ps R H ND. destruct (h_rescale_spec f h i x ps R H ND) as (h1 & E1 & R1 & _ & H1).
  destruct (h_rescale_spec f h1 i _ ps R1 H1 ND) as (h2 & E2 & R2 & _ & H2).
  exists h2, (rescale_inst f x), (rescale_inst f (rescale_inst f x)).
  repeat split; auto; try (intros; apply (rescale_list_nth f _ 0)).
  - unfold h_convert; simpl. rewrite E1; simpl. rewrite E2. reflexivity.
  - unfold read_all; simpl. rewrite R2. reflexivity.
Qed.
Example C108_case : unshared ex_h [0] [[1; 2]] /\ read_all ex_h [0] = Ok [ex_x] /\
  exists h2, h_convert (fun _ v => dadd v d1) [0; 0] ex_h = Ok h2 /\ read_inst h2 0 = Ok (mkInst "a" [ACont (Fin 3); ADisc "u"] None).
Proof.
  split; [|split; [reflexivity|eexists; split; reflexivity]]. split.
  - constructor; [|constructor]. exists "a"%string, None. reflexivity.
  - repeat constructor; simpl; intuition discriminate.
Qed.
Print Assumptions C108_fresh_partial.
Print Assumptions C108_unshared_partial.
Print Assumptions C108_twice_refuted.

(** * C109: a decision tree owns its nodes *)
(** Destroying a tree that was trained (or loaded) once gives back the tree object and every node, whatever the tree. *)
Theorem C109_nodes : forall strict zeroed t h x h0 h1, h_new_tree false zeroed h = (x, h0) -> h_set_root h0 x t = Ok h1 ->
  count is_node h1 = count is_node h + node_count t /\
  exists n h2, delete_ strict n TDecisionTree (At x) h1 = Ok h2 /\
    released (fun a => a = x \/ length h <= a /\ exists s v ch, nth_error h1 a = Some (Live (ONode s v ch))) h1 h2 /\
    count is_node h2 = count is_node h /\ count is_tree h2 = count is_tree h.
Proof.
  intros strict z t h x h0 h1 E0 E1. injection E0 as <- <-. set (r0 := if z then Null else Wild) in *.
  rewrite (set_root_cells h false r0 [] t) in E1. cbn [app length] in E1. set (n := length h + 1) in *. set (cs := tree_cells false t n) in *.
  injection E1 as <-. destruct (map_dead_counts false t n) as (C1 & C2 & C3 & C4). fold cs in C1, C2, C3, C4.
  split; [rewrite count_app, count_cons, C1; cbn; lia|].
  pose proof (delete_tree_obj strict false TDecisionTree t h [] [] ltac:(right; auto) _ (le_n _)) as D.
  rewrite !app_nil_r in D. cbn [app length] in D. fold n cs in D.
  eexists; eexists. split; [exact D|]. split; [|split].
  - split; [rewrite !app_length; cbn [length]; rewrite map_length; reflexivity|]. intros a.
    destruct (Nat.lt_trichotomy a (length h)) as [Hl|[->|Hg]].
    + split; [intros [->|[Hb _]]; unfold addr in *; lia|]. intros _. rewrite !nth_error_app1 by (unfold addr in *; lia). reflexivity.
    + split; [|tauto]. intros _. unfold live, freed. rewrite !nth_mid. eauto.
    + rewrite !nth_error_app2 by (unfold addr in *; lia). unfold live, freed. rewrite !nth_error_app2 by (unfold addr in *; lia).
      destruct (a - length h) as [|k] eqn:Ek; [unfold addr in *; lia|]. cbn [nth_error]. rewrite nth_error_map. split.
      * intros [->|[_ (s & v & ch & Hn)]]; [unfold addr in *; lia|]. rewrite Hn. simpl. eauto.
      * intros Nd. destruct (nth_error cs k) as [c|] eqn:Ec; [|reflexivity]. simpl. f_equal.
        destruct c as [|[]]; try reflexivity. exfalso. apply Nd. right. split; [unfold addr in *; lia|]. eauto.
  - rewrite count_app, count_cons, count_node_dead. cbn. lia.
  - rewrite count_app, count_cons, count_tree_dead, C3. cbn. lia.
Qed.
(** REFUTED: "destroying the tree gives everything back" — the attributes of the branch conditions are never deleted. *)
Theorem C109_conditions_refuted : forall strict zeroed t h x h0 h1, h_new_tree false zeroed h = (x, h0) -> h_set_root h0 x t = Ok h1 ->
  exists n h2, delete_ strict n TDecisionTree (At x) h1 = Ok h2 /\ count is_live h2 = count is_live h + condition_count t.
Proof.
  intros strict z t h x h0 h1 E0 E1. injection E0 as <- <-. set (r0 := if z then Null else Wild) in *.
  rewrite (set_root_cells h false r0 [] t) in E1. cbn [app length] in E1. set (n := length h + 1) in *. set (cs := tree_cells false t n) in *.
  injection E1 as <-. destruct (map_dead_counts false t n) as (C1 & C2 & C3 & C4). fold cs in C1, C2, C3, C4.
  pose proof (delete_tree_obj strict false TDecisionTree t h [] [] ltac:(right; auto) _ (le_n _)) as D.
  rewrite !app_nil_r in D. cbn [app length] in D. fold n cs in D.
  eexists; eexists. split; [exact D|]. rewrite count_app, count_cons, C4. reflexivity.
Qed.
(** REFUTED: "training again replaces the tree" — the nodes of the first tree stay, also after the tree is destroyed. *)
Theorem C109_retrain_refuted : forall strict zeroed t1 t2 h x h0 h1 h2, h_new_tree false zeroed h = (x, h0) ->
  h_set_root h0 x t1 = Ok h1 -> h_set_root h1 x t2 = Ok h2 ->
  exists n h3, delete_ strict n TDecisionTree (At x) h2 = Ok h3 /\ count is_node h3 = count is_node h + node_count t1.
Proof.
  intros strict z t1 t2 h x h0 h1 h2 E0 E1 E2. injection E0 as <- <-. set (r0 := if z then Null else Wild) in *.
  rewrite (set_root_cells h false r0 [] t1) in E1. cbn [app length] in E1. injection E1 as <-.
  rewrite set_root_cells in E2. injection E2 as <-.
  pose proof (delete_tree_obj strict false TDecisionTree t2 h (tree_cells false t1 (length h + 1)) [] ltac:(right; auto) _ (le_n _)) as D.
  rewrite !app_nil_r in D. eexists; eexists. split; [exact D|].
  destruct (map_dead_counts false t1 (length h + 1)) as (C1 & _).
  rewrite count_app, count_cons, count_app, C1, count_node_dead. cbn. lia.
Qed.
(** REFUTED: "a tree that was never trained can be destroyed" — [DecisionTree t;] has no root yet, and its destructor
    deletes it; only a value-initialised tree survives. *)
Theorem C109_untrained_refuted : forall strict h x h0,
  (h_new_tree false false h = (x, h0) -> forall n, delete_ strict (S (S n)) TDecisionTree (At x) h0 = UB Uninit) /\
  (h_new_tree false true h = (x, h0) -> exists h1, delete_ strict 2 TDecisionTree (At x) h0 = Ok h1 /\ released (fun a => a = x) h0 h1).
Proof.
  intros strict h x h0. split; intros E; injection E as <- <-.
  - intros n. remember (S n) as m eqn:Hm. cbn [delete_]. rewrite nth_mid. cbn [dynamic ty_eqb negb]. rewrite andb_false_r. subst m. reflexivity.
  - eexists. split.
    + cbn [delete_]. rewrite nth_mid. cbn [dynamic ty_eqb negb]. rewrite andb_false_r. cbn [bind]. unfold release. rewrite nth_mid, upd_mid. reflexivity.
    + split; [rewrite !app_length; reflexivity|]. intros a. split.
      * intros ->. unfold live, freed. rewrite !nth_mid. eauto.
      * intros Na. destruct (Nat.lt_trichotomy a (length h)) as [Hl|[->|Hg]]; [|congruence|].
        -- rewrite !nth_error_app1 by (unfold addr in *; lia). reflexivity.
        -- rewrite !nth_error_app2 by (unfold addr in *; lia). destruct (a - length h) as [|k] eqn:Ek; [unfold addr in *; lia|]. destruct k; reflexivity.
Qed.
(** REFUTED: "a trained tree can be copied" — both objects delete the same nodes. *)
Theorem C109_copy_refuted : forall strict zeroed t h x h0 h1 y h2, h_new_tree false zeroed h = (x, h0) ->
  h_set_root h0 x t = Ok h1 -> h_copy h1 x = Ok (y, h2) ->
  exists n h3, delete_ strict n TDecisionTree (At x) h2 = Ok h3 /\ delete_ strict n TDecisionTree (At y) h3 = UB DoubleFree.
Proof.
  intros strict z t h x h0 h1 y h2 E0 E1 E2. injection E0 as <- <-. set (r0 := if z then Null else Wild) in *.
  rewrite (set_root_cells h false r0 [] t) in E1. cbn [app length] in E1. set (n := length h + 1) in *. set (cs := tree_cells false t n) in *.
  set (o := OTree false (At (root_of false t n))) in *. injection E1 as <-.
  unfold h_copy, deref in E2. rewrite nth_mid in E2. injection E2 as <- <-.
  pose proof (delete_tree_obj strict false TDecisionTree t h [] [Live o] ltac:(right; auto) (S (S (height t))) ltac:(lia)) as D.
  cbn [app length] in D. fold n cs in D. fold o in D.
  exists (S (S (height t))). eexists. split.
  - rewrite <- app_assoc. cbn [app]. exact D.
  - clear D. remember (S (height t)) as m eqn:Hm. cbn [delete_].
    assert (Ey : nth_error (h ++ Freed :: map dead cs ++ [Live o]) (length (h ++ Live o :: cs)) = Some (Live o)).
    { replace (length (h ++ Live o :: cs)) with (length (h ++ Freed :: map dead cs)) by (rewrite !app_length; cbn [length]; rewrite map_length; reflexivity).
      change (Freed :: map dead cs ++ [Live o]) with ((Freed :: map dead cs) ++ [Live o]). rewrite app_assoc. apply nth_mid. }
    rewrite Ey. unfold o at 1. cbn [dynamic ty_eqb negb]. rewrite andb_false_r. unfold o at 1. cbn iota.
    subst m. cbn [delete_].
    assert (Er : nth_error (h ++ Freed :: map dead cs ++ [Live o]) (root_of false t n) = Some Freed).
    { destruct (tree_cells_last false t n) as (cs' & v & ps & Et). fold cs in Et. unfold root_of. fold cs. rewrite Et, app_length. cbn [length].
      replace (n + (length cs' + 1) - 1) with (length (h ++ Freed :: map dead cs')) by (rewrite app_length; cbn [length]; rewrite map_length; unfold n; lia).
      rewrite map_app. rewrite <- app_assoc. cbn [map app].
      change (Freed :: map dead cs' ++ dead (Live (ONode false v ps)) :: [Live o]) with ((Freed :: map dead cs') ++ dead (Live (ONode false v ps)) :: [Live o]).
      rewrite app_assoc. rewrite nth_mid. reflexivity. }
    rewrite Er. reflexivity.
Qed.
Definition ex_t : tree :=
  Node "a" false [] no_condition
    [Node "a" true [] (mkCond 0 CLt (Some (ACont (Fin 1)))) []; Node "b" true [] (mkCond 0 CGt (Some (ACont (Fin 1)))) []].
Example C109_case : node_count ex_t = 3 /\ condition_count ex_t = 2 /\
  exists h1 h2, h_set_root (snd (h_new_tree false false ex_h)) 3 ex_t = Ok h1 /\ delete_ true 4 TDecisionTree (At 3) h1 = Ok h2 /\
    count is_live ex_h = 3 /\ count is_live h1 = 9 /\ count is_live h2 = 5.
Proof. split; [reflexivity|]. split; [reflexivity|]. eexists; eexists. repeat split; reflexivity. Qed.
Print Assumptions C109_nodes.
Print Assumptions C109_conditions_refuted.
Print Assumptions C109_retrain_refuted.
Print Assumptions C109_untrained_refuted.
Print Assumptions C109_copy_refuted.

(** * C110: destroying a soft decision tree *)
(** REFUTED: "a trained soft decision tree can be destroyed" — its nodes are SoftDecisionNode objects, deleted through a
    DecisionNode pointer without a virtual destructor. *)
Theorem C110_destroy_refuted : forall st zeroed t h x h0 h1 n, h_new_tree true zeroed h = (x, h0) -> h_set_root h0 x t = Ok h1 ->
  delete_ true (S (S n)) st (At x) h1 = UB BadDelete.
Proof.
  intros st z t h x h0 h1 n E0 E1. injection E0 as <- <-. set (r0 := if z then Null else Wild) in *.
  rewrite (set_root_cells h true r0 [] t) in E1. cbn [app length] in E1. injection E1 as <-.
  remember (S n) as m eqn:Hm. cbn [delete_]. rewrite nth_mid. cbn [dynamic].
  destruct st; try reflexivity. cbn [ty_eqb negb andb]. subst m. cbn [delete_].
  destruct (tree_cells_last true t (length h + 1)) as (cs & v & ps & Et). unfold root_of. rewrite Et, app_length. cbn [length].
  set (o := OTree true _).
  replace (length h + 1 + (length cs + 1) - 1) with (length (h ++ Live o :: cs)) by (rewrite app_length; cbn [length]; lia).
  change (Live o :: cs ++ [Live (ONode true v ps)]) with ((Live o :: cs) ++ [Live (ONode true v ps)]).
  rewrite app_assoc, nth_mid. reflexivity.
Qed.
(** Where such a delete runs the destructor of the pointer's class (the usual implementations), destroying the tree gives
    back the tree and every node exactly once. *)
Theorem C110_usual_partial : forall st zeroed t h x h0 h1, st = TDecisionTree \/ st = TSoftDecisionTree ->
  h_new_tree true zeroed h = (x, h0) -> h_set_root h0 x t = Ok h1 ->
  count is_node h1 = count is_node h + node_count t /\
  exists n h2, delete_ false n st (At x) h1 = Ok h2 /\
    count is_node h2 = count is_node h /\ count is_tree h2 = count is_tree h /\ count is_live h2 = count is_live h + condition_count t.
Proof.
  intros st z t h x h0 h1 Hs E0 E1. injection E0 as <- <-. set (r0 := if z then Null else Wild) in *.
  rewrite (set_root_cells h true r0 [] t) in E1. cbn [app length] in E1. set (n := length h + 1) in *. set (cs := tree_cells true t n) in *.
  injection E1 as <-. destruct (map_dead_counts true t n) as (C1 & C2 & C3 & C4). fold cs in C1, C2, C3, C4.
  split; [rewrite count_app, count_cons, C1; cbn; lia|].
  pose proof (delete_tree_obj false true st t h [] [] ltac:(left; auto) _ (le_n _)) as D.
  rewrite !app_nil_r in D. cbn [app length] in D. fold n cs in D.
  eexists; eexists. split; [exact D|].
  rewrite !count_app, !count_cons, count_node_dead, count_tree_dead, C3, C4. cbn. lia.
Qed.
(** REFUTED: "a soft node owns its children" — ~SoftDecisionNode deletes them, and so does the destructor of its base
    class: a node with a child is freed twice as soon as the right destructor runs. *)
Theorem C110_node_refuted : forall t h r h1, t_children t <> [] -> alloc_tree true t h = (r, h1) ->
  exists n, delete_ false n TSoftDecisionNode (At r) h1 = UB DoubleFree.
Proof.
  intros t h r h1 Hc E. rewrite alloc_tree_cells in E. injection E as <- <-.
  exists (S (S (height t))). eapply delete_soft_node; [exact Hc|]. lia.
Qed.
Example C110_case : exists h1 h2, h_set_root (snd (h_new_tree true false ex_h)) 3 ex_t = Ok h1 /\
  delete_ true 4 TSoftDecisionTree (At 3) h1 = UB BadDelete /\
  delete_ false 4 TSoftDecisionTree (At 3) h1 = Ok h2 /\ count is_live h1 = 9 /\ count is_live h2 = 5 /\
  delete_ false 4 TSoftDecisionNode (At 8) h1 = UB DoubleFree.
Proof. eexists; eexists. repeat split; reflexivity. Qed.
Print Assumptions C110_destroy_refuted.
Print Assumptions C110_usual_partial.
Print Assumptions C110_node_refuted.

(** * C111: an ensemble owns its trees *)
(** However often it was trained, destroying the ensemble gives back itself, every tree and every node exactly once. *)
Theorem C111_destroy : forall strict runs h x h0 h1, alloc (OEnsemble []) h = (x, h0) ->
  foldM (fun h ts => h_add_trees x ts h) runs h0 = Ok h1 ->
  count is_node h1 = count is_node h + fold_right (fun t n => node_count t + n) 0 (concat runs) /\
  count is_tree h1 = count is_tree h + length (concat runs) /\
  exists n h2, delete_ strict n TTreeEnsemble (At x) h1 = Ok h2 /\ count is_node h2 = count is_node h /\ count is_tree h2 = count is_tree h /\
    count is_live h2 = count is_live h + fold_right (fun t n => condition_count t + n) 0 (concat runs) /\
    forall b, b < length h -> nth_error h2 b = nth_error h b.
Proof.
  intros strict runs h x h0 h1 E0 E1. injection E0 as <- <-. rewrite <- add_runs in E1.
  pose proof (add_trees_cells (concat runs) h [] []) as E2. cbn [app length] in E2.
  set (n := length h + 1) in *. destruct (forest_cells (concat runs) n) as [ps cs] eqn:F.
  assert (E3 : h1 = h ++ Live (OEnsemble ps) :: cs) by (rewrite E2 in E1; injection E1 as <-; reflexivity). subst h1. clear E1 E2.
  destruct (forest_counts (concat runs) n) as (C1 & C2 & C3). rewrite F in C1, C2, C3. cbn [snd] in C1, C2, C3.
  split; [rewrite count_app, count_cons, C1; cbn; lia|]. split; [rewrite count_app, count_cons, C2; cbn; lia|].
  exists (S (S (forest_height (concat runs)))), (h ++ Freed :: map deadt cs).
  pose proof (delete_forest strict (concat runs) n (S (forest_height (concat runs))) (h ++ [Live (OEnsemble ps)]) []
                ltac:(rewrite app_length; reflexivity) (le_n _)) as D. rewrite F in D. cbn [fst snd] in D.
  rewrite !app_nil_r, <- !app_assoc in D. cbn [app] in D.
  assert (K : count is_node (map deadt cs) = 0 /\ count is_tree (map deadt cs) = 0).
  { clear. induction cs as [|c cs [I1 I2]]; [split; reflexivity|]. cbn [map]. rewrite !count_cons, I1, I2. destruct c as [|[]]; split; reflexivity. }
  split; [|rewrite !count_app, !count_cons, C3, (proj1 K), (proj2 K); cbn [is_node is_tree is_live]; repeat split; try lia].
  - remember (S (forest_height (concat runs))) as m. cbn [delete_]. rewrite nth_mid. cbn [dynamic ty_eqb negb]. rewrite andb_false_r.
    rewrite D. cbn [bind]. unfold release. rewrite nth_mid, upd_mid. reflexivity.
  - intros b Hb. rewrite nth_error_app1 by exact Hb. reflexivity.
Qed.
(** REFUTED: "an ensemble can be copied" — both destructors delete the same trees. *)
Theorem C111_copy_refuted : forall strict ts h x h0 h1 y h2, ts <> [] -> alloc (OEnsemble []) h = (x, h0) ->
  h_add_trees x ts h0 = Ok h1 -> h_copy h1 x = Ok (y, h2) ->
  exists n h3, delete_ strict n TTreeEnsemble (At x) h2 = Ok h3 /\ delete_ strict n TTreeEnsemble (At y) h3 = UB DoubleFree.
Proof.
  intros strict ts h x h0 h1 y h2 Hts E0 E1 Ec. injection E0 as <- <-.
  pose proof (add_trees_cells ts h [] []) as E2. cbn [app length] in E2.
  set (n := length h + 1) in *. destruct (forest_cells ts n) as [ps cs] eqn:F.
  assert (E3 : h1 = h ++ Live (OEnsemble ps) :: cs) by (rewrite E2 in E1; injection E1 as <-; reflexivity). subst h1. clear E1 E2.
  set (o := OEnsemble ps) in *. unfold h_copy, deref in Ec. rewrite nth_mid in Ec. injection Ec as <- <-.
  pose proof (delete_forest strict ts n (S (forest_height ts)) (h ++ [Live o]) [Live o]
                ltac:(rewrite app_length; reflexivity) (le_n _)) as D. rewrite F in D. cbn [fst snd] in D.
  rewrite <- !app_assoc in D. cbn [app] in D.
  exists (S (S (forest_height ts))), (h ++ Freed :: map deadt cs ++ [Live o]). split.
  - remember (S (forest_height ts)) as m. rewrite <- app_assoc. cbn [app]. cbn [delete_]. rewrite nth_mid.
    unfold o at 1. cbn [dynamic ty_eqb negb]. rewrite andb_false_r. unfold o at 1. cbn iota.
    rewrite D. cbn [bind]. unfold release. rewrite nth_mid, upd_mid. reflexivity.
  - remember (S (forest_height ts)) as m eqn:Hm. cbn [delete_].
    assert (Ey : nth_error (h ++ Freed :: map deadt cs ++ [Live o]) (length (h ++ Live o :: cs)) = Some (Live o)).
    { replace (length (h ++ Live o :: cs)) with (length (h ++ Freed :: map deadt cs)) by (rewrite !app_length; cbn [length]; rewrite map_length; reflexivity).
      change (Freed :: map deadt cs ++ [Live o]) with ((Freed :: map deadt cs) ++ [Live o]). rewrite app_assoc. apply nth_mid. }
    rewrite Ey. unfold o at 1. cbn [dynamic ty_eqb negb]. rewrite andb_false_r. unfold o at 1. cbn iota.
    destruct ts as [|t ts]; [congruence|]. cbn [forest_cells] in F. set (s := tree_cells false t n) in *.
    destruct (forest_cells ts (n + length s + 1)) as [ps' cs']. injection F as <- <-. cbn [foldM].
    subst m. cbn [delete_].
    assert (Er : nth_error (h ++ Freed :: map deadt (s ++ Live (OTree false (At (root_of false t n))) :: cs') ++ [Live o]) (n + length s) = Some Freed).
    { rewrite map_app. replace (n + length s) with (length (h ++ Freed :: map deadt s)) by (rewrite app_length; cbn [length]; rewrite map_length; unfold n; lia).
      rewrite <- app_assoc. cbn [map app].
      change (Freed :: map deadt s ++ deadt (Live (OTree false (At (root_of false t n)))) :: map deadt cs' ++ [Live o])
        with ((Freed :: map deadt s) ++ deadt (Live (OTree false (At (root_of false t n)))) :: map deadt cs' ++ [Live o]).
      rewrite app_assoc. rewrite nth_mid. reflexivity. }
    rewrite Er. reflexivity.
Qed.
(** REFUTED: "two ensembles can be made of the same trees". *)
Theorem C111_shared_refuted : forall strict h x y ps p n h1, nth_error h x = Some (Live (OEnsemble (p :: ps))) -> nth_error h y = Some (Live (OEnsemble (p :: ps))) ->
  x <> y -> delete_ strict (S (S n)) TTreeEnsemble (At x) h = Ok h1 ->
  delete_ strict (S (S n)) TTreeEnsemble (At y) h1 = UB DoubleFree.
Proof.
  intros strict h x y ps p n h1 Hx Hy Ne D. destruct (delete_shrinks _ _ _ _ _ _ D) as [S1 _].
  remember (S n) as m eqn:Hm. cbn [delete_] in D. rewrite Hx in D. cbn [dynamic ty_eqb negb] in D.
  rewrite andb_false_r in D. cbn [foldM] in D.
  destruct (delete_ strict m TDecisionTree (At p) h) as [ha| | |] eqn:Dp; cbn [bind] in D; try discriminate.
  destruct (delete_shrinks _ _ _ _ _ _ Dp) as [_ Fp]. specialize (Fp p eq_refl).
  destruct (foldM _ ps ha) as [hb| | |] eqn:Dq; cbn [bind] in D; try discriminate.
  apply (foldM_shrinks (fun h p => delete_ strict m TDecisionTree (At p) h)) in Dq; [|intros a b c X; apply delete_shrinks in X; tauto].
  destruct (release_shrinks _ _ _ D) as [Dr _].
  assert (F1 : nth_error h1 p = Some Freed).
  { destruct (Dr p) as [E|[[o E] F]], (Dq p) as [E'|[[o' E'] F']]; congruence. }
  cbn [delete_]. destruct (S1 y) as [E|[_ F]]; [|rewrite F; reflexivity].
  rewrite E, Hy. cbn [dynamic ty_eqb negb]. rewrite andb_false_r. cbn [foldM]. subst m. cbn [delete_]. rewrite F1. reflexivity.
Qed.
Example C111_case : exists h1 h2, h_add_trees 3 [ex_t; ex_t] (ex_h ++ [Live (OEnsemble [])]) = Ok h1 /\
  delete_ true 6 TTreeEnsemble (At 3) h1 = Ok h2 /\ count is_live h1 = 16 /\ count is_live h2 = 7 /\ count is_node h2 = 0.
Proof. eexists; eexists. repeat split; reflexivity. Qed.
Print Assumptions C111_destroy.
Print Assumptions C111_copy_refuted.
Print Assumptions C111_shared_refuted.

(** * C112: temporary arrays *)
Definition is_array (c : cell) : bool := match c with Live (OArray _) => true | _ => false end.
(** REFUTED: "fMeasure can be called" (in the letter of the standard) — it returns [new double[n]] arrays with [delete]. *)
Theorem C112_fmeasure_refuted : forall n h, h_fmeasure true n h = UB BadDelete /\ h_weighted true n h = UB BadDelete.
Proof.
  intros n h. unfold h_weighted, h_fmeasure, alloc. cbn [delete_].
  assert (E : nth_error (((h ++ [Live (OArray n)]) ++ [Live (OArray n)]) ++ [Live (OArray n)]) (length h) = Some (Live (OArray n))).
  { rewrite <- !app_assoc. apply nth_mid. }
  rewrite E. split; reflexivity.
Qed.
(** Where [delete] on such an array releases it, fMeasure leaves exactly its result behind, for the caller to delete;
    weightedFMeasure, which is such a caller, does not: every call leaks an array. *)
Theorem C112_fmeasure_partial : forall n h, exists f h', h_fmeasure false n h = Ok (f, h') /\
  nth_error h' f = Some (Live (OArray n)) /\ count is_live h' = S (count is_live h) /\
  (exists h'', delete_array f h' = Ok h'' /\ count is_live h'' = count is_live h) /\
  h_weighted false n h = Ok h' /\ count is_array h' = S (count is_array h).
Proof.
  intros n h. exists (S (S (length h))), (h ++ [Freed; Freed; Live (OArray n)]).
  assert (E : h_fmeasure false n h = Ok (S (S (length h)), h ++ [Freed; Freed; Live (OArray n)])).
  { unfold h_fmeasure, alloc. cbn [delete_ andb]. rewrite !app_length. cbn [length]. rewrite <- !app_assoc. cbn [app].
    rewrite nth_mid. cbn [bind]. unfold release. rewrite nth_mid, upd_mid. cbn [bind].
    assert (R : nth_error (h ++ [Freed; Live (OArray n); Live (OArray n)]) (length h + 1) = Some (Live (OArray n))).
    { rewrite nth_error_app2 by lia. replace (length h + 1 - length h) with 1 by lia. reflexivity. }
    rewrite R. cbn [bind]. do 2 f_equal; [lia|].
    pose proof (upd_mid (h ++ [Freed]) (Live (OArray n)) Freed [Live (OArray n)]) as U.
    rewrite app_length in U. cbn [length] in U. rewrite <- !app_assoc in U. exact U. }
  split; [exact E|].
  assert (R : nth_error (h ++ [Freed; Freed; Live (OArray n)]) (S (S (length h))) = Some (Live (OArray n))).
  { rewrite nth_error_app2 by lia. replace (S (S (length h)) - length h) with 2 by lia. reflexivity. }
  split; [exact R|]. split; [rewrite count_app; cbn; lia|]. split; [|split; [unfold h_weighted; rewrite E; reflexivity|rewrite count_app; cbn; lia]].
  unfold delete_array. rewrite R. eexists; split; [reflexivity|].
  pose proof (upd_mid (h ++ [Freed; Freed]) (Live (OArray n)) Freed []) as U. rewrite app_length in U. cbn [length] in U.
  rewrite <- !app_assoc in U. cbn [app] in U. replace (S (S (length h))) with (length h + 2) by lia. rewrite U, count_app. cbn. lia.
Qed.
(** The paired t test and the combined 5x2 tests give their array back, whether they return or throw ... *)
Lemma differences_ok c1 c2 : exp_size c1 = exp_size c2 -> throws (differences c1 c2) = false.
Proof.
  intros E. assert (G : exists ds, differences c1 c2 = Ok ds); [|destruct G as [ds ->]; reflexivity].
  unfold differences. assert (B : forall k, In k (seq 0 (exp_size c1)) -> k < exp_size c1) by (intros k K; apply in_seq in K; lia).
  induction (seq 0 (exp_size c1)) as [|k l IH]; cbn [mapM]; [eauto|].
  assert (A : forall c, exp_size c = exp_size c1 -> exists v, exp_error c (Z.of_nat k) = Ok v).
  { intros c Ec. unfold exp_error, at_. specialize (B k ltac:(left; reflexivity)).
    destruct (Z.ltb_spec (Z.of_nat k) 0); [lia|]. rewrite Nat2Z.id. destruct (nth_error (results c) k) as [r|] eqn:Er; [simpl; eauto|].
    apply nth_error_None in Er. unfold exp_size in *. lia. }
  destruct (A c1 eq_refl) as [a ->], (A c2 (eq_sym E)) as [b ->]. cbn [bind]. destruct IH as [ds ->]; [intros; apply B; right; assumption|]. cbn [bind]. eauto.
Qed.
Theorem C112_tests : forall c1 c2 h,
  count is_live (snd (h_pairedt c1 c2 h)) = count is_live h /\
  count is_live (snd (h_combined5x2f c1 c2 h)) = count is_live h /\
  count is_live (snd (h_combined5x2t c1 c2 h)) = count is_live h.
Proof.
  intros c1 c2 h.
  assert (G : forall A g n (r : res A), (g = true -> exp_size c1 = exp_size c2) -> count is_live (h_difference g (throws (differences c1 c2)) false n r h) = count is_live h).
  { intros A g n r Hg. unfold h_difference, alloc. destruct g; [|reflexivity]. rewrite differences_ok by auto. cbn [negb].
    destruct r; rewrite upd_mid, count_app; cbn; lia. }
  unfold h_pairedt, h_combined5x2f, h_combined5x2t, ten_results. cbn [snd].
  repeat split; apply G; rewrite ?andb_true_iff, ?Nat.eqb_eq; tauto.
Qed.
(** ... REFUTED for the 5x2 t test: when the variance is 0 it throws before it gives the array back. *)
Theorem C112_paired5x2t_refuted : forall c1 c2 h, ten_results c1 c2 = true ->
  ((exists t, fst (h_paired5x2t c1 c2 h) = Ok t) -> count is_live (snd (h_paired5x2t c1 c2 h)) = count is_live h) /\
  ((exists e, fst (h_paired5x2t c1 c2 h) = Throw e) -> count is_array (snd (h_paired5x2t c1 c2 h)) = S (count is_array h)).
Proof.
  intros c1 c2 h T. assert (E : exp_size c1 = exp_size c2) by (unfold ten_results in T; apply andb_true_iff in T; apply Nat.eqb_eq; tauto).
  unfold h_paired5x2t in *. cbn [fst snd] in *. rewrite T, differences_ok by exact E.
  unfold h_difference, alloc. cbn [negb]. split; intros (e & ->).
  - rewrite upd_mid, count_app. cbn. lia.
  - rewrite count_app. cbn. lia.
Qed.
Example C112_case : let c := exp_of (repeat (1 # 10)%Q 10) in ten_results c c = true /\
  fst (h_paired5x2t c c []) = Throw StatTestNotApplicable /\ count is_array (snd (h_paired5x2t c c [])) = 1 /\
  count is_array (snd (h_combined5x2t c c [])) = 0 /\ h_fmeasure false 2 [] = Ok (2, [Freed; Freed; Live (OArray 2)]).
Proof.
  intros c. assert (T : ten_results c c = true) by reflexivity.
  assert (E : fst (h_paired5x2t c c []) = Throw StatTestNotApplicable).
  { unfold h_paired5x2t. cbn [fst]. rewrite (paired5x2t_fin c c _ _ (rates_exp_of _) (rates_exp_of _) eq_refl eq_refl). reflexivity. }
  split; [exact T|]. split; [exact E|]. split; [apply C112_paired5x2t_refuted; [exact T|eexists; exact E]|].
  split; [|reflexivity]. assert (X : count is_live (snd (h_combined5x2t c c [])) = 0) by apply C112_tests.
  unfold count in *. apply length_zero_iff_nil in X. revert X. generalize (snd (h_combined5x2t c c [])). clear.
  intros l X. induction l as [|[|o] l IH]; [reflexivity|auto|discriminate].
Qed.
Print Assumptions C112_fmeasure_refuted.
Print Assumptions C112_fmeasure_partial.
Print Assumptions C112_tests.
Print Assumptions C112_paired5x2t_refuted.
