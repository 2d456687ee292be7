(** C168, support vector machines: the class that beats every other class, and leaving out a class. *)
From Coq Require Import String ZArith QArith Qabs Bool Lia Lqa Permutation Sorted List.
From Verif Require NearProps.
From Verif Require Import Base Spec BaseLemmas DblLemmas ListProofs AttrModel InstanceListModel PerformanceModel SolverModel SvmModel SvmSpec SvmTrainSpec KernelProofs
  SvmProofs SvmProps SvmTrainProofs SvmTrainProps SepProofs WithoutProps.
Import ListNotations.
Local Open Scope string_scope.
Local Open Scope list_scope.
Local Open Scope nat_scope.

(** In the two-class problem of [a] and [b], whose positive side is the class whose name is first, the query is on the side of [a]. *)
Definition beats dexp dtanh dpow p (gamma coef0 : Q) (fuel : nat) (l : ilist) (q : instance) (a b : string) : Prop :=
  (slt a b /\ exists rho al, svm_solve dexp dtanh dpow p (pair_vectors a b l) (pair_signs a b l) fuel = Ok (Fin rho, map Fin al) /\
     (0 < pair_decision dexp dtanh dpow p gamma coef0 a b l al rho (qvec q))%Q) \/
  (slt b a /\ exists rho al, svm_solve dexp dtanh dpow p (pair_vectors b a l) (pair_signs b a l) fuel = Ok (Fin rho, map Fin al) /\
     (pair_decision dexp dtanh dpow p gamma coef0 b a l al rho (qvec q) <= 0)%Q).

Lemma map_Fin_inj a b : map Fin a = map Fin b -> a = b.
Proof. revert b. induction a as [|x a IH]; intros [|y b] H; try discriminate; [reflexivity|]. injection H as -> H. rewrite (IH b H). reflexivity. Qed.
Lemma sorted_nth cl : StronglySorted slt cl -> forall i j a b, i < j -> nth_error cl i = Some a -> nth_error cl j = Some b -> slt a b.
Proof.
  induction 1 as [|z zs S IH F]; intros i j a b L Ea Eb; [destruct i; discriminate|]. destruct j as [|j]; [lia|]. cbn in Eb.
  destruct i as [|i]; cbn in Ea; [injection Ea as <-; rewrite Forall_forall in F; apply F, (nth_error_In _ _ Eb)|apply (IH i j a b); [lia|exact Ea|exact Eb]].
Qed.

(** A class of the training data that beats every other class is the answer. *)
Theorem C168_svm_champion dexp dtanh dpow p gamma coef0 C l fuel m l' q a : train_case dexp dtanh dpow p gamma coef0 C l ->
  svm_train dexp dtanh dpow fuel svm_empty l p = Ok (m, l') -> finite_values q -> In a (map label l) ->
  (forall b, In b (map label l) -> b <> a -> beats dexp dtanh dpow p gamma coef0 fuel l q a b) ->
  svm_predict dexp dtanh dpow m q = Ok a.
Proof.
  intros T E Hq Ha Hb. set (cl := cs l).
  assert (Hcl : classes_of l cl). { split; [unfold cl, cs; rewrite class_distribution_cofl; apply cofl_sorted|]. intros k. apply cs_in. }
  destruct (C73_decision_values _ _ _ _ _ _ _ _ _ _ _ q cl T Hcl E Hq) as (vals & Ev & Hl & Hv).
  destruct (C74_votes _ _ _ _ _ _ _ _ _ _ _ q cl T Hcl E Hq) as (vals' & w & c & Ev' & Ep & Eb & _ & Hmax & _). rewrite Ev in Ev'. injection Ev' as <-.
  rewrite Ep. f_equal. assert (In a cl) as Ht by (apply (proj2 Hcl), Ha). apply In_nth_error in Ht as (t & Et).
  enough (w = t) as -> by congruence.
  apply (winner (length cl) vals t w Hl); [apply nth_error_Some; congruence|apply nth_error_Some; congruence| |exact Hmax].
  intros i j v Hin Hij. apply In_nth_error in Hin as (k & Ek).
  assert (nth_error (class_pairs (length cl)) k = Some (i, j) /\ nth_error vals k = Some v) as [Eq1 Eq2].
  { clear -Ek. revert k vals Ek. induction (class_pairs (length cl)) as [|z zs IH]; intros k [|w ws] Ek; cbn in Ek; destruct k; try discriminate; cbn in *; [injection Ek as -> ->; split; reflexivity|apply (IH k ws Ek)]. }
  destruct (Hv k i j Eq1) as (x & y & rho & al & v' & Ex & Ey & Es & Ev2 & Hval). rewrite Eq2 in Ev2. injection Ev2 as ->.
  assert (i < j) as Lij by (apply (in_class_pairs (length cl) i j), (nth_error_In _ _ Eq1)).
  pose proof (sorted_nth cl (proj1 Hcl) i j x y Lij Ex Ey) as Lxy.
  assert (Hx : In x (map label l)) by (apply (proj2 Hcl), (nth_error_In _ _ Ex)). assert (Hy : In y (map label l)) by (apply (proj2 Hcl), (nth_error_In _ _ Ey)).
  unfold wins, dgtb, d0. destruct Hij as [->| ->].
  - assert (x = a) by congruence. subst x. destruct (Hb y Hy) as [(L & r & al' & Es' & P)|(L & _)]; [intros ->; apply (slt_irrefl a Lxy)| |destruct (slt_irrefl a (slt_trans _ _ _ Lxy L))].
    rewrite Es in Es'. injection Es' as <- Em. apply map_Fin_inj in Em. subst al'. rewrite (proj2 (dltb_fin _ _)) by lra. apply Nat.eqb_refl.
  - assert (y = a) by congruence. subst y. destruct (Hb x Hx) as [(L & _)|(L & r & al' & Es' & P)]; [intros ->; apply (slt_irrefl a Lxy)|destruct (slt_irrefl a (slt_trans _ _ _ L Lxy))|].
    rewrite Es in Es'. injection Es' as <- Em. apply map_Fin_inj in Em. subst al'. rewrite (proj2 (dltb_fin_false _ _)) by lra. apply Nat.eqb_refl.
Qed.

Lemma qsum_filter {A} (f : A -> Q) (g : A -> bool) l : (forall x, 0 <= f x)%Q -> (qsum (map f (filter g l)) <= qsum (map f l))%Q.
Proof. intros H. induction l as [|x l IH]; cbn [filter map]; [apply Qle_refl|]. specialize (H x). change (qsum (f x :: map f l)) with (f x + qsum (map f l))%Q. destruct (g x); cbn [map]; [change (qsum (f x :: map f (filter g l))) with (f x + qsum (map f (filter g l)))%Q|]; lra. Qed.

(** Such a class is also the answer of every training that leaves out another class. *)
Theorem C168_svm_without dexp dtanh dpow p gamma coef0 C l fuel m l' m' l'' q a c : train_case dexp dtanh dpow p gamma coef0 C l ->
  svm_train dexp dtanh dpow fuel svm_empty l p = Ok (m, l') -> svm_train dexp dtanh dpow fuel svm_empty (filter (fun x => negb (String.eqb (label x) c)) l) p = Ok (m', l'') ->
  finite_values q -> In a (map label l) -> a <> c -> (forall b, In b (map label l) -> b <> a -> beats dexp dtanh dpow p gamma coef0 fuel l q a b) ->
  svm_predict dexp dtanh dpow m q = Ok a /\ svm_predict dexp dtanh dpow m' q = Ok a.
Proof.
  intros T E E' Hq Ha Hac Hb. split; [apply (C168_svm_champion _ _ _ _ _ _ _ _ _ _ _ _ _ T E Hq Ha Hb)|].
  assert (T' : train_case dexp dtanh dpow p gamma coef0 C (filter (fun x => negb (String.eqb (label x) c)) l)).
  { destruct T as [A1 A2 A3 A4 A5 A6 A7 A8]. constructor; try assumption.
    - rewrite Forall_forall in *. intros x Hx. apply filter_In in Hx as [Hx _]. apply A7, Hx.
    - intros x Hx. apply filter_In in Hx as [Hx _]. eapply Qle_trans; [|apply (A8 x Hx)]. apply Qplus_le_r. rewrite !(Qmult_comm C). apply Qmult_le_compat_r; [|lra].
      apply qsum_filter. intros z. apply Qabs_nonneg. }
  apply (C168_svm_champion _ _ _ _ _ _ _ _ _ _ _ _ _ T' E' Hq).
  - apply in_map_iff in Ha as (x & <- & Hx). apply in_map, filter_In. split; [exact Hx|]. destruct (String.eqb_spec (label x) c); [contradiction|reflexivity].
  - intros b Hin Hne. apply in_map_iff in Hin as (x & <- & Hx). apply filter_In in Hx as [Hx Nx]. destruct (String.eqb_spec (label x) c) as [|Nc]; [discriminate|].
    specialize (Hb (label x) (in_map label _ _ Hx) Hne). destruct (C168_svm_pairs a (label x) c l Hac Nc) as [V1 S1]. destruct (C168_svm_pairs (label x) a c l Nc Hac) as [V2 S2].
    unfold beats, pair_decision in *. rewrite V1, S1, V2, S2. exact Hb.
Qed.
(** It is false for an answer that does not win every pair: "a" beats "c", "c" beats "b" and "b" beats "a", and "a", the first of the three, is the answer;
    without "c" the answer is "b". *)
Theorem C168_svm_refuted : exists l q m m' l' l'', svm_train idd idd idp 12 svm_empty l parS = Ok (m, l') /\ svm_train idd idd idp 12 svm_empty (filter (fun x => negb (String.eqb (label x) "c")) l) parS = Ok (m', l'') /\
  svm_predict idd idd idp m q = Ok "a" /\ svm_predict idd idd idp m' q = Ok "b".
Proof.
  exists [NearProps.two "a" (-1) (-2); NearProps.two "a" 2 0; NearProps.two "b" (-1) 0; NearProps.two "c" 3 0], (NearProps.two "?" 1 1). do 4 eexists. repeat (split; [vm_compute; reflexivity|]). vm_compute. reflexivity.
Qed.
(** Three classes: "c" beats the other two at 5, and is the answer with and without "a". *)
Example C168_svm_case : train_case idd idd idp parS 1 0 10 data3 /\ (forall b, In b (map label data3) -> b <> "c" -> beats idd idd idp parS 1 0 20 data3 (pt "?" 5) "c" b) /\
  match svm_train idd idd idp 20 svm_empty data3 parS, svm_train idd idd idp 20 svm_empty (filter (fun x => negb (String.eqb (label x) "a")) data3) parS with
  | Ok (m, _), Ok (m', _) => svm_predict idd idd idp m (pt "?" 5) = Ok "c" /\ svm_predict idd idd idp m' (pt "?" 5) = Ok "c" | _, _ => False end.
Proof.
  split; [exact (proj1 C73_case)|split; [|vm_compute; split; reflexivity]]. assert (B : forall b, b = "a" \/ b = "b" -> beats idd idd idp parS 1 0 20 data3 (pt "?" 5) "c" b).
  { intros b Hb. right. split; [destruct Hb; subst b; reflexivity|].
    assert (match svm_solve idd idd idp parS (pair_vectors b "c" data3) (pair_signs b "c" data3) 20 with
      | Ok (Fin rho, al) => (fix fins d := match d with [] => true | Fin _ :: d' => fins d' | _ => false end) al = true /\
          (pair_decision idd idd idp parS 1 0 b "c" data3 (map (fun d => match d with Fin x => x | _ => 0%Q end) al) rho (qvec (pt "?" 5)) <= 0)%Q
      | _ => False end) as H by (destruct Hb; subst b; vm_compute; (split; [reflexivity|discriminate])).
    destruct (svm_solve idd idd idp parS _ _ 20) as [[[rho| | |] al]| | |]; try contradiction. destruct H as [F D].
    exists rho, (map (fun d => match d with Fin x => x | _ => 0%Q end) al). split; [|exact D]. do 2 f_equal. clear D. induction al as [|d al IH]; [reflexivity|].
    destruct d; try discriminate. cbn. rewrite <- (IH F). reflexivity. }
  intros b Hb Hn. apply B. cbn in Hb. destruct Hb as [<-|[<-|[<-|[<-|[]]]]]; auto; destruct Hn; reflexivity.
Qed.
Print Assumptions C168_svm_champion.
Print Assumptions C168_svm_without.
Print Assumptions C168_svm_refuted.
