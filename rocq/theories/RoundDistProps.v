(** C130: Euclidean distances and nearest neighbours in rounded arithmetic. *)
From Coq Require Import String ZArith QArith Qabs Bool Lia Lqa List Setoid.
From Verif Require Import Base Spec BaseLemmas DblLemmas SortLemmas AttrModel InstanceListModel DistanceModel DistanceSpec DistanceProofs RoundModel RoundSpec RoundProofs RoundDistSpec RoundPerfProofs RoundDistProofs.
Import ListNotations.
Local Open Scope string_scope.
Local Open Scope list_scope.
Local Open Scope nat_scope.

(** The distance is symmetric, whatever the features. *)
Theorem C130_symmetric : forall R, rounding R -> forall x y, length (attrs x) = length (attrs y) ->
  exists d e, r_eucl R x y = Ok d /\ r_eucl R y x = Ok e /\ deq d e.
Proof.
  intros R HR x y H. do 2 eexists. split; [apply reucl_ok, H|]. split; [apply reucl_ok; symmetry; exact H|].
  apply rdist_sym; [exact HR|exact H| | |reflexivity]; apply fixed_0, HR.
Qed.
(** Of finite features it is never NaN and never negative, and 0 from an instance to itself. *)
Theorem C130_nonnegative : forall R, rounding R -> forall x y, length (attrs x) = length (attrs y) -> Forall finite (attrs x) -> Forall finite (attrs y) ->
  (exists d, r_eucl R x y = Ok d /\ is_nan d = false /\ dleb d0 d = true) /\ exists e, r_eucl R x x = Ok e /\ deq e d0.
Proof.
  intros R HR x y H Fx Fy. split.
  - eexists. split; [apply reucl_ok, H|]. assert (dleb d0 (rdist R (attrs x) (attrs y) d0) = true) as P by (apply rdist_pos; try assumption; [reflexivity|apply fixed_0, HR]). split; [apply pos_not_nan, P|exact P].
  - eexists. split; [apply reucl_ok; reflexivity|].
    assert (forall r, fixed R r -> deq r d0 -> deq (rdist R (attrs x) (attrs x) r) d0) as G; [|apply G; [apply fixed_0, HR|reflexivity]].
    clear H Fy y. induction Fx as [|a xs Fa Fx IH]; intros r F E; [exact E|]. unfold rdist in *. cbn [combine fold_left fst snd]. apply IH; [apply fixed_step; assumption|].
    rewrite (rstep_gap R HR r a a F). destruct (rgap_root R HR a a Fa Fa) as (t & P & Et & Eg). rewrite gapq_self in Et. assert (t == 0)%Q as T by nra.
    assert (deq (rgap R a a) d0) as Z.
    { rewrite Eg. unfold rpow2, rmul. pose proof (R_proper R HR) as PR. assert (deq (R (Fin t)) d0) as -> by (etransitivity; [|apply (R_0 R HR)]; apply (r_ext R HR); exact T).
      etransitivity; [|apply (R_0 R HR)]. apply (r_ext R HR). cbn. ring. }
    rewrite (radd_proper' R HR _ _ _ _ E Z). etransitivity; [|apply (R_0 R HR)]. apply (r_ext R HR). cbn. ring.
Qed.
(** An instance that is at least as near in every feature is not farther. *)
Theorem C130_monotone : forall R, rounding R -> forall x y q, length (attrs x) = length (attrs q) -> length (attrs y) = length (attrs q) ->
  Forall finite (attrs x) -> Forall finite (attrs y) -> Forall finite (attrs q) ->
  (forall i a b c, nth_error (attrs x) i = Some a -> nth_error (attrs y) i = Some b -> nth_error (attrs q) i = Some c -> dleb (gap a c) (gap b c) = true) ->
  exists d e, r_eucl R x q = Ok d /\ r_eucl R y q = Ok e /\ dleb d e = true.
Proof.
  intros R HR x y q H H' Fx Fy Fq G. do 2 eexists. split; [apply reucl_ok, H|]. split; [apply reucl_ok, H'|].
  apply rdist_mono; try assumption; try (apply fixed_0, HR); try reflexivity.
  revert H H' Fx Fy Fq G. generalize (attrs x), (attrs y), (attrs q). intros xs. induction xs as [|a xs IH]; intros [|b ys] [|c qs] H H' Fx Fy Fq G; try discriminate; cbn [combine]; constructor.
  - inversion Fx; subst. inversion Fy; subst. inversion Fq; subst. cbn [fst snd]. pose proof (G 0 a b c eq_refl eq_refl eq_refl) as L. rewrite !gap_fin in L by assumption. apply dleb_fin, L.
  - inversion Fx; subst. inversion Fy; subst. inversion Fq; subst. apply IH; try assumption; try (now injection H); try (now injection H'). intros i. exact (G (S i)).
Qed.
Lemma moderate_length xs ys : Forall2 moderate xs ys -> length xs = length ys.
Proof. induction 1; cbn; congruence. Qed.
(** With n features the relative error is at most (n + 3) / 2^52, if no difference is extreme. *)
Theorem C130_error : forall R, rounding R -> forall x q, comparable x q ->
  exists d r r', eucl x q = Ok (Fin d) /\ r_eucl R x q = Ok r /\ deq r (Fin r') /\ (Qabs (r' - d) <= slack (length (attrs q)) * d)%Q.
Proof.
  intros R HR x q (Fx & Fq & M & N). assert (length (attrs x) = length (attrs q)) as HL by (apply moderate_length, M).
  destruct (eucl_fin x q HL Fx Fq) as (d & Ed & Vd). exists d. eexists.
  destruct (rdist_near R HR (attrs x) (attrs q) d0 0 3 0 HL M (fixed_0 R HR)) as (r & Er & W); [reflexivity|lia|left; reflexivity|unfold within; lra|rewrite HL; lia|].
  exists r. split; [exact Ed|]. split; [apply reucl_ok, HL|]. split; [exact Er|]. unfold slack, within in *. rewrite HL in W. replace (length (attrs q) + 3) with (3 + length (attrs q)) by lia.
  rewrite Qplus_0_l, <- Vd in W. apply Qabs_Qle_condition. lra.
Qed.
(** Distances between whole numbers are exact as long as they stay below 2^53. *)
Theorem C130_whole : forall R, rounding R -> forall x q d, length (attrs x) = length (attrs q) -> Forall whole (attrs x) -> Forall whole (attrs q) ->
  eucl x q = Ok d -> dleb d (dofZ (2 ^ 53)) = true -> exists r, r_eucl R x q = Ok r /\ deq r d.
Proof.
  intros R HR x q d H Wx Wq E B. assert (forall l, Forall whole l -> Forall finite l) as WF.
  { intros l. apply Forall_impl. intros a Wa v ->. destruct (Wa v eq_refl) as [z Ez]. destruct v; try contradiction. eexists. reflexivity. }
  destruct (eucl_fin x q H (WF _ Wx) (WF _ Wq)) as (d' & Ed & Vd). rewrite E in Ed. injection Ed as ->. unfold dofZ in B. apply dleb_fin in B.
  eexists. split; [apply reucl_ok, H|]. rewrite (rdist_whole R HR (attrs x) (attrs q) d0 0 H Wx Wq (fixed_0 R HR)); [|reflexivity|rewrite qofn_0, <- Vd; lra]. cbn. rewrite qofn_0, <- Vd. ring.
Qed.
(** The neighbours are the first k in the stable order of the rounded distances; no sort sees a NaN. *)
Theorem C130_nearest : forall R, rounding R -> forall data k q, Forall finite (attrs q) ->
  (forall x, In x data -> may_answer q x -> length (attrs x) = length (attrs q) /\ Forall finite (attrs x)) ->
  exists d, (forall x, In x data -> may_answer q x -> r_eucl R x q = Ok (d x)) /\
  exists s, is_stable_sort (fun x y => dltb (d x) (d y)) (filter (eligible q) data) s /\ nearest (r_eucl R) data k q = Ok (firstn (Z.to_nat k) s).
Proof.
  intros R HR data k q Fq H. exists (fun x => rdist R (attrs x) (attrs q) d0). split; [intros x Hx Hm; apply reucl_ok, (H x Hx Hm)|].
  assert (forall x, In x data -> may_answer q x -> is_nan (rdist R (attrs x) (attrs q) d0) = false) as N.
  { intros x Hx Hm. apply pos_not_nan, rdist_pos; try assumption; [apply (H x Hx Hm)|reflexivity|apply fixed_0, HR]. }
  eexists. split; [|apply nearest_total; intros x Hx Hm; split; [apply reucl_ok, (H x Hx Hm)|apply N; assumption]].
  apply nearest_sorted, Forall_forall. intros x Hx. apply filter_In in Hx as [Hx Hm]. apply N; [exact Hx|apply eligible_iff, Hm].
Qed.
(** If the distances that compete are clearly apart, or come from the same features, rounding changes neither neighbours nor answer. *)
Lemma same_neighbours R (HR : rounding R) data k q d r :
  (forall x, In x data -> may_answer q x -> eucl x q = Ok (d x) /\ is_nan (d x) = false) ->
  (forall x, In x data -> may_answer q x -> r_eucl R x q = Ok (r x) /\ is_nan (r x) = false) ->
  (forall x y, In x data -> In y data -> may_answer q x -> may_answer q y -> dltb (r x) (r y) = dltb (d x) (d y)) ->
  nearest (r_eucl R) data k q = nearest eucl data k q /\ knn_predict (r_eucl R) data k q = knn_predict eucl data k q.
Proof.
  intros Hd Hr Hl. assert (nearest (r_eucl R) data k q = nearest eucl data k q) as E.
  { rewrite (nearest_total (r_eucl R) data k q r Hr), (nearest_total eucl data k q d Hd). do 2 f_equal. apply ssort_ext. intros x y Hx Hy. apply filter_In in Hx as [Hx Mx]. apply filter_In in Hy as [Hy My].
    apply Hl; try assumption; apply eligible_iff; assumption. }
  split; [exact E|]. unfold knn_predict. rewrite E. reflexivity.
Qed.
Theorem C130_same_answer : forall R, rounding R -> forall data k q, (forall x, In x data -> may_answer q x -> comparable x q) ->
  (forall x y, In x data -> In y data -> may_answer q x -> may_answer q y -> attrs x = attrs y \/
     exists d e, eucl x q = Ok (Fin d) /\ eucl y q = Ok (Fin e) /\ (clearly_less (length (attrs q)) d e \/ clearly_less (length (attrs q)) e d)) ->
  nearest (r_eucl R) data k q = nearest eucl data k q /\ knn_predict (r_eucl R) data k q = knn_predict eucl data k q.
Proof.
  intros R HR data k q C S.
  assert (forall x, In x data -> may_answer q x -> length (attrs x) = length (attrs q)) as HL by (intros x Hx Mx; destruct (C x Hx Mx) as (_ & _ & M & _); apply moderate_length, M).
  apply (same_neighbours R HR data k q (fun x => match eucl x q with Ok v => v | _ => NaN end) (fun x => rdist R (attrs x) (attrs q) d0)).
  - intros x Hx Mx. destruct (C130_error R HR x q (C x Hx Mx)) as (d & _ & _ & E & _). rewrite E. split; reflexivity.
  - intros x Hx Mx. split; [apply reucl_ok, HL; assumption|]. destruct (C x Hx Mx) as (Fx & Fq & _). apply pos_not_nan, rdist_pos; try assumption; [reflexivity|apply fixed_0, HR].
  - intros x y Hx Hy Mx My. destruct (S x y Hx Hy Mx My) as [A|(d & e & Ed & Ee & A)].
    + rewrite !eucl_eq, A. assert (forall v, dltb v v = false) as I by (intros [v| | |]; try reflexivity; apply dltb_fin_false; lra). rewrite !I. reflexivity.
    + rewrite Ed, Ee. destruct (C130_error R HR x q (C x Hx Mx)) as (d' & r & r' & Ed' & Er & Vr & Br). destruct (C130_error R HR y q (C y Hy My)) as (e' & s & s' & Ee' & Es & Vs & Bs).
      rewrite Ed in Ed'. injection Ed' as <-. rewrite Ee in Ee'. injection Ee' as <-. rewrite reucl_ok in Er, Es by (apply HL; assumption). injection Er as <-. injection Es as <-. rewrite Vr, Vs.
      assert (0 <= d)%Q as Pd. { destruct (C x Hx Mx) as (Fx & Fq & _). destruct (eucl_fin x q (HL x Hx Mx) Fx Fq) as (d2 & E2 & V2). rewrite Ed in E2. injection E2 as <-. rewrite V2. apply distq_nonneg. }
      assert (0 <= e)%Q as Pe. { destruct (C y Hy My) as (Fx & Fq & _). destruct (eucl_fin y q (HL y Hy My) Fx Fq) as (d2 & E2 & V2). rewrite Ee in E2. injection E2 as <-. rewrite V2. apply distq_nonneg. }
      assert (0 <= slack (length (attrs q)))%Q as Ps by (unfold slack; apply Qmult_le_0_compat; [apply qofn_nonneg|vm_compute; discriminate]).
      apply Qabs_Qle_condition in Br, Bs. unfold clearly_less in A. set (c := slack (length (attrs q))) in *. clearbody c.
      assert (0 <= d * c)%Q by (apply Qmult_le_0_compat; assumption). assert (0 <= e * c)%Q by (apply Qmult_le_0_compat; assumption).
      destruct A as [A|A].
      * transitivity true; [apply dltb_fin|symmetry; apply dltb_fin]; lra.
      * transitivity false; [apply dltb_fin_false|symmetry; apply dltb_fin_false]; lra.
Qed.
(** The same on whole numbers, without a condition on how far apart the distances are. *)
Theorem C130_same_answer_whole : forall R, rounding R -> forall data k q, Forall whole (attrs q) ->
  (forall x, In x data -> may_answer q x -> length (attrs x) = length (attrs q) /\ Forall whole (attrs x) /\ exists d, eucl x q = Ok d /\ dleb d (dofZ (2 ^ 53)) = true) ->
  nearest (r_eucl R) data k q = nearest eucl data k q /\ knn_predict (r_eucl R) data k q = knn_predict eucl data k q.
Proof.
  intros R HR data k q Wq H.
  assert (forall x, In x data -> may_answer q x -> exists d, eucl x q = Ok d /\ is_nan d = false /\ deq (rdist R (attrs x) (attrs q) d0) d) as G.
  { intros x Hx Mx. destruct (H x Hx Mx) as (HL & Wx & d & E & B). exists d. split; [exact E|]. split; [destruct d; try reflexivity; discriminate B|].
    destruct (C130_whole R HR x q d HL Wx Wq E B) as (r & Er & Vr). rewrite reucl_ok in Er by exact HL. injection Er as <-. exact Vr. }
  apply (same_neighbours R HR data k q (fun x => match eucl x q with Ok v => v | _ => NaN end) (fun x => rdist R (attrs x) (attrs q) d0)).
  - intros x Hx Mx. destruct (G x Hx Mx) as (d & -> & N & _). split; [reflexivity|exact N].
  - intros x Hx Mx. split; [apply reucl_ok, (H x Hx Mx)|]. destruct (G x Hx Mx) as (d & _ & N & V). destruct (rdist R (attrs x) (attrs q) d0), d; try contradiction; try reflexivity; discriminate N.
  - intros x y Hx Hy Mx My. destruct (G x Hx Mx) as (d & -> & _ & ->). destruct (G y Hy My) as (e & -> & _ & ->). reflexivity.
Qed.

Definition pt (l : string) (vs : list Q) : instance := mkInst l (map (fun q => ACont (Fin q)) vs) None.
(** Different instances can be at distance 0, and finite ones at infinite distance. *)
Theorem C130_separation_refuted : r_eucl b64 (pt "a" [1 # (2 ^ 600)]%positive) (pt "b" [0%Q]) = Ok (Fin 0) /\
  r_eucl b64 (pt "a" [inject_Z (2 ^ 600)]) (pt "b" [0%Q]) = Ok PInf.
Proof. split; vm_compute; reflexivity. Qed.
(** Without the gap the nearest neighbour changes: both features below are small numbers. *)
Theorem C130_order_refuted : let data := [pt "far" [1; 1 # (2 ^ 30)]%Q; pt "near" [1; 0]%Q] in let q := pt "?" [0; 0]%Q in
  knn_predict eucl data 1 q = Ok "near" /\ knn_predict (r_eucl b64) data 1 q = Ok "far".
Proof. split; vm_compute; reflexivity. Qed.
(** The order of the features matters. *)
Theorem C130_feature_order_refuted : exists d e, r_eucl b64 (pt "a" [1; 1 # (2 ^ 27); 1 # (2 ^ 27); 1 # (2 ^ 27)]%Q) (pt "?" [0; 0; 0; 0]%Q) = Ok d /\
  r_eucl b64 (pt "a" [1 # (2 ^ 27); 1 # (2 ^ 27); 1 # (2 ^ 27); 1]%Q) (pt "?" [0; 0; 0; 0]%Q) = Ok e /\ ~ deq d e.
Proof. do 2 eexists. split; [vm_compute; reflexivity|]. split; [vm_compute; reflexivity|]. vm_compute. discriminate. Qed.
Lemma finite_pt l vs : Forall finite (attrs (pt l vs)).
Proof. apply Forall_forall. intros a H v ->. apply in_map_iff in H as (q & E & _). injection E as <-. eexists. reflexivity. Qed.
Definition shop : ilist := [pt "a" [1 # 10; 7 # 10]%Q; pt "b" [9 # 10; 2 # 10]%Q; pt "a" [1 # 10; 7 # 10]%Q].
Example C130_case : knn_predict (r_eucl b64) shop 2 (pt "?" [2 # 10; 6 # 10]%Q) = Ok "a".
Proof.
  destruct (C130_same_answer b64 rounding_b64 shop 2 (pt "?" [2 # 10; 6 # 10]%Q)) as [_ ->]; [| |vm_compute; reflexivity].
  - intros x Hx _. cbn [In shop] in Hx. destruct Hx as [<-|[<-|[<-|[]]]]; (split; [apply finite_pt|split; [apply finite_pt|split; [|vm_compute; discriminate]]]);
      (apply Forall2_cons; [|apply Forall2_cons; [|apply Forall2_nil]]); right; split; vm_compute; discriminate.
  - intros x y Hx Hy _ _. cbn in Hx, Hy. destruct Hx as [<-|[<-|[<-|[]]]], Hy as [<-|[<-|[<-|[]]]];
      try (left; reflexivity); right; do 2 eexists; (split; [vm_compute; reflexivity|]); (split; [vm_compute; reflexivity|]); first [left; vm_compute; reflexivity|right; vm_compute; reflexivity].
Qed.
Print Assumptions C130_symmetric.
Print Assumptions C130_nonnegative.
Print Assumptions C130_monotone.
Print Assumptions C130_error.
Print Assumptions C130_whole.
Print Assumptions C130_nearest.
Print Assumptions C130_same_answer.
Print Assumptions C130_same_answer_whole.
Print Assumptions C130_separation_refuted.
Print Assumptions C130_order_refuted.
Print Assumptions C130_feature_order_refuted.
Print Assumptions C130_case.
