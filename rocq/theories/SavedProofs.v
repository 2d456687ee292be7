(** Proofs for C160. *)
From Coq Require Import String Ascii ZArith Bool Lia List DecimalString DecimalFacts DecimalZ.
From Verif Require Import Base BaseLemmas AttrModel InstanceListModel TreeModel TreeSpec TreeProofs TreeGrowProofs TreePredictProofs SerialModel SerialSpec SerialProofs SerialTextProps SavedSpec.
Import ListNotations.
Local Open Scope string_scope.
Local Open Scope list_scope.
Local Open Scope nat_scope.

Lemma decimal_inj n m : decimal n = decimal m -> n = m.
Proof.
  unfold decimal. intros H. assert (forall k, NilZero.int_of_string (NilZero.string_of_int (Z.to_int (Z.of_nat k))) = Some (Z.to_int (Z.of_nat k))) as I.
  { intros k. apply NilZero.isi; destruct k; cbn; try discriminate; intros E; injection E as E; exact (DecimalPos.Unsigned.to_uint_nonnil _ E). }
  pose proof (f_equal NilZero.int_of_string H) as E. rewrite !I in E. injection E as E. apply (f_equal Z.of_int) in E. rewrite !DecimalZ.of_to in E. lia.
Qed.
Lemma decimal_minus n : decimal n <> "-1".
Proof.
  intros H. pose proof (f_equal NilZero.int_of_string H) as E. unfold decimal in E. rewrite NilZero.isi in E.
  - injection E as E. apply (f_equal Z.of_int) in E. rewrite DecimalZ.of_to in E. cbn in E. lia.
  - destruct n; cbn; try discriminate. intros E'. injection E' as E'. exact (DecimalPos.Unsigned.to_uint_nonnil _ E').
  - destruct n; cbn; discriminate.
Qed.
Lemma show_decimal z : (0 <= z)%Z -> show_Z z = decimal (Z.to_nat z).
Proof. intros H. unfold show_Z, decimal. rewrite Z2Nat.id by exact H. reflexivity. Qed.
Lemma cond_written fmt c : made c -> (forall a, c_value c = Some a -> one_line (shown fmt a)) -> exists s, cond_text fmt c = Ok s /\ forall r, lines (s ++ r)%string = cond_lines fmt c ++ lines r.
Proof.
  unfold made, cond_text, cond_lines. intros M L. destruct (c_value c) as [a|].
  - destruct (Z.eqb_spec (c_index c) (-1)); [lia|]. cbn [bind]. eexists. split; [reflexivity|]. intros r. specialize (L a eq_refl).
    assert (attr_string fmt a = shown fmt a) as -> by (destruct a; reflexivity).
    rewrite !sapp_assoc. rewrite lines_line by (rewrite show_decimal by exact M; apply decimal_clean). rewrite show_decimal by exact M.
    rewrite lines_line by (destruct (c_cmp c); reflexivity).
    destruct a, (c_cmp c); cbn [isDiscrete isContinuous String.append]; repeat (rewrite lines_line; [|first [exact L|reflexivity]]); reflexivity.
  - rewrite M. cbn [Z.eqb]. eexists. split; [reflexivity|]. intros r. rewrite lines_line by reflexivity. reflexivity.
Qed.

Definition go_lines (fmt : dbl -> string) := fix go (l : list tree) := match l with [] => [] | n :: l' => tree_lines fmt n ++ go l' end.
Lemma tree_lines_eq fmt lab leaf d c ch : tree_lines fmt (Node lab leaf d c ch) = cond_lines fmt c ++ decimal (length ch) :: match ch with [] => [lab] | _ => go_lines fmt ch end.
Proof. destruct ch; reflexivity. Qed.
Lemma tree_written fmt : forall t, writable fmt t -> exists s, node_text fmt t = Ok s /\ forall r, lines (s ++ r)%string = tree_lines fmt t ++ lines r.
Proof.
  apply (tree_rect2 (fun t => writable fmt t -> exists s, node_text fmt t = Ok s /\ forall r, lines (s ++ r)%string = tree_lines fmt t ++ lines r)).
  intros lab leaf d c ch IH W. inversion W as [? ? ? ? ? M L A F]; subst. destruct (cond_written fmt c M A) as (a & Ea & La).
  assert (exists b, (fix go (ch : list tree) : res string := match ch with [] => Ok "" | n :: ch' => do x <- node_text fmt n; do y <- go ch'; Ok (x ++ y)%string end) ch = Ok b /\ forall r, lines (b ++ r)%string = go_lines fmt ch ++ lines r) as (b & Eb & Lb).
  { clear W. induction ch as [|n ch IHc]; [exists ""; split; reflexivity|]. inversion IH; inversion F; subst. destruct IHc as (b & Eb & Lb); [assumption|assumption|]. destruct H1 as (x & Ex & Lx); [assumption|].
    rewrite Ex. cbn [bind]. rewrite Eb. cbn [bind]. eexists. split; [reflexivity|]. intros r. rewrite sapp_assoc, Lx, Lb. cbn [go_lines]. rewrite app_assoc. reflexivity. }
  cbn [node_text]. rewrite Ea. cbn [bind]. rewrite Eb. cbn [bind]. eexists. split; [reflexivity|]. intros r. rewrite tree_lines_eq, !sapp_assoc, La. rewrite lines_line by apply decimal_clean.
  rewrite <- app_assoc. cbn [app]. f_equal. change (show_nat (length ch)) with (decimal (length ch)). f_equal. destruct ch; [|apply Lb]. rewrite lines_line by exact L. reflexivity.
Qed.

(** * What the text decides *)
(** the tree without what is not written *)
Fixpoint seen (t : tree) : tree := match t with Node lab leaf _ c ch => Node (match ch with [] => lab | _ => "" end) leaf [] c (map seen ch) end.
Lemma sign_inj c c' : sign_of c = sign_of c' -> c = c'.
Proof. destruct c, c'; (reflexivity || discriminate). Qed.
Lemma cond_decides fmt (P : dbl -> Prop) c c' r r' : (forall p q, P p -> P q -> fmt p = fmt q -> p = q) -> comparable P c -> comparable P c' -> cond_lines fmt c ++ r = cond_lines fmt c' ++ r' -> c = c' /\ r = r'.
Proof.
  intros Inj C C' E. destruct c as [i s v], c' as [i' s' v']. unfold comparable, cond_lines in *. cbn [c_value c_index c_cmp] in *.
  destruct v as [[v|v|v k m|v]|], v' as [[v'|v'|v' k' m'|v']|]; try contradiction; cbn [app kind_of shown] in E; try (injection E as E1 E2 E3 E4; discriminate E3).
  - destruct C as [C Nv], C' as [C' Nv']. injection E as E1 E2 E3 E4. apply decimal_inj in E1. apply sign_inj in E2. apply String.eqb_neq in Nv, Nv'. rewrite Nv, Nv' in E3. assert (i = i') as -> by lia. subst. split; reflexivity.
  - injection E as E1 E2. exfalso. exact (decimal_minus _ E1).
  - destruct C as [C Nv], C' as [C' Nv']. injection E as E1 E2 E3 E4. apply decimal_inj in E1. apply sign_inj in E2. assert (i = i') as -> by lia. rewrite (Inj v v' Nv Nv' E3). subst. split; reflexivity.
  - injection E as E1 E2. exfalso. exact (decimal_minus _ E1).
  - injection E as E1 E2. exfalso. exact (decimal_minus _ (eq_sym E1)).
  - injection E as E1 E2. exfalso. exact (decimal_minus _ (eq_sym E1)).
  - injection E as E. split; [congruence|exact E].
Qed.
Lemma tree_decides fmt (P : dbl -> Prop) : (forall p q, P p -> P q -> fmt p = fmt q -> p = q) -> forall t t' r r', unpruned P t -> unpruned P t' ->
  tree_lines fmt t ++ r = tree_lines fmt t' ++ r' -> seen t = seen t' /\ r = r'.
Proof.
  intros Inj. apply (tree_rect2 (fun t => forall t' r r', unpruned P t -> unpruned P t' -> tree_lines fmt t ++ r = tree_lines fmt t' ++ r' -> seen t = seen t' /\ r = r')).
  intros lab leaf d c ch IH t' r r' U U' E. destruct t' as [lab' leaf' d' c' ch']. rewrite !tree_lines_eq, <- !app_assoc in E.
  assert (comparable P c) as Cc by (inversion U; assumption). assert (comparable P c') as Cc' by (inversion U'; assumption).
  destruct (cond_decides fmt P c c' _ _ Inj Cc Cc' E) as [-> E2]. cbn [app] in E2. injection E2 as En E2. apply decimal_inj in En.
  destruct ch as [|n ch], ch' as [|n' ch']; try discriminate En.
  - inversion U; inversion U'; subst; try contradiction. cbn [app] in E2. injection E2 as -> ->. split; reflexivity.
  - inversion U as [|? ? ? ? _ _ F]; inversion U' as [|? ? ? ? _ _ F']; subst. set (l := n :: ch) in *. set (l' := n' :: ch') in *.
    assert (map seen l = map seen l' /\ r = r') as [M ->].
    { clearbody l l'. clear - IH F F' En E2. revert l' F' En E2. induction l as [|x l IHl]; intros [|x' l'] F' En E2; try discriminate En; [split; [reflexivity|exact E2]|].
      inversion IH as [|? ? Hx IH']; inversion F; inversion F'; subst. cbn [go_lines] in E2. rewrite <- !app_assoc in E2. destruct (Hx x' _ _ ltac:(assumption) ltac:(assumption) E2) as [S E3].
      destruct (IHl ltac:(assumption) ltac:(assumption) l' ltac:(assumption) ltac:(injection En; auto) E3) as [S' ->]. cbn [map]. rewrite S, S'. split; reflexivity. }
    split; [|reflexivity]. unfold l, l' in *. cbn [seen]. rewrite M. reflexivity.
Qed.
(** a plain query that ends in a leaf reads only what is written *)
Lemma seen_cond t : t_cond (seen t) = t_cond t. Proof. destruct t; reflexivity. Qed.
Lemma seen_answers P max_item x : isComposite x = false -> forall t, unpruned P t -> covered t x = true -> node_predict max_item t x = node_predict max_item (seen t) x /\ covered (seen t) x = true.
Proof.
  intros Hx. apply (tree_rect2 (fun t => unpruned P t -> covered t x = true -> node_predict max_item t x = node_predict max_item (seen t) x /\ covered (seen t) x = true)).
  intros lab leaf d c ch IH U C. inversion U as [? ? ? Cc|? ? ? ? Cc N F]; subst.
  - cbn [seen map node_predict covered]. rewrite Hx. split; reflexivity.
  - cbn [seen]. rewrite !predict_plain by exact Hx. cbn [covered orb] in *. clear U N Cc. generalize (match ch with [] => lab | _ => "" end) as q. intros q.
    induction ch as [|n ch IHc]; [discriminate|]. inversion IH; inversion F; subst. cbn [map pick]. rewrite seen_cond. destruct (satisfy (t_cond n) x) as [[]| | |]; try discriminate; cbn [bind].
    + destruct H1 as [A B]; [assumption|exact C|]. split; [exact A|exact B].
    + apply IHc; assumption.
Qed.
Lemma seen_covered x : forall t, covered (seen t) x = covered t x.
Proof.
  apply (tree_rect2 (fun t => covered (seen t) x = covered t x)). intros lab leaf d c ch IH. cbn [seen covered]. f_equal. induction IH as [|n ch Hn _ IH]; [reflexivity|]. cbn [map]. rewrite seen_cond.
  destruct (satisfy (t_cond n) x) as [[]| | |]; try reflexivity; [exact Hn|exact IH].
Qed.
(** * Trained trees can be written *)
Lemma cond_some fmt c : made c -> exists s, cond_text fmt c = Ok s.
Proof. unfold made, cond_text. intros H. destruct (Z.eqb_spec (c_index c) (-1)) as [E|E]; [eauto|]. destruct (c_value c); [cbn [bind]; eauto|contradiction]. Qed.
Lemma fits_made shape c : fits shape c -> made c.
Proof. intros (j & kd & E & _ & M). unfold made. rewrite E. destruct (c_value c); [lia|contradiction]. Qed.
Lemma fits_written fmt shape : forall t, fits_tree shape t -> made (t_cond t) -> exists s, node_text fmt t = Ok s.
Proof.
  apply (tree_rect2 (fun t => fits_tree shape t -> made (t_cond t) -> exists s, node_text fmt t = Ok s)). intros lab leaf d c ch IH F M. inversion F as [? ? ? ? ? Fc Ft]; subst. destruct (cond_some fmt c M) as (a & Ea).
  cbn [node_text]. rewrite Ea. cbn [bind]. match goal with |- context [bind ?g _] => assert (exists b, g = Ok b) as (b & Eb) end; [|rewrite Eb; cbn [bind]; eauto].
  clear F M. induction IH as [|n ch Hn _ IHc]; [eauto|]. inversion Fc as [|? ? F1 F2]; inversion Ft as [|? ? F3 F4]; subst. destruct (Hn F3 (fits_made _ _ F1)) as (x & Ex). destruct (IHc F2 F4) as (y & Ey). rewrite Ex. cbn [bind]. rewrite Ey. cbn [bind]. eauto.
Qed.
