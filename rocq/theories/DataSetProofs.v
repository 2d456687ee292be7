(** Proofs about data definitions, data sets and data files. *)
From Coq Require Import String Ascii ZArith QArith Bool Lia Arith List.
From Verif Require Import Base Spec BaseLemmas AttrModel AttrProofs DataSetModel DataSetSpec.
Import ListNotations.
Local Open Scope string_scope.
Local Open Scope list_scope.
Local Open Scope nat_scope.

Lemma atype_eqb_spec a b : reflect (a = b) (atype_eqb a b).
Proof. destruct a, b; constructor; congruence. Qed.
Lemma atype_eqb_sym a b : atype_eqb a b = atype_eqb b a.
Proof. destruct a, b; reflexivity. Qed.
Lemma type_of_some a : type_of a = Some (attr_type a).
Proof. destruct a; reflexivity. Qed.
Lemma types_of_map l : types_of l = map attr_type l.
Proof. induction l as [|a l IH]; [reflexivity|]. cbn [types_of map]. rewrite type_of_some, IH; reflexivity. Qed.

Lemma is_prefix_spec l l' : is_prefix l l' = true <-> exists r, l' = l ++ r.
Proof.
  revert l'; induction l as [|a l IH]; intros l'; simpl.
  - split; [intros _; exists l'; reflexivity|reflexivity].
  - destruct l' as [|b l'].
    + split; [discriminate|]. intros [r H]; discriminate.
    + rewrite andb_true_iff, IH. destruct (atype_eqb_spec a b) as [E|E].
      * subst. split; [intros [_ [r ->]]; exists r; reflexivity|intros [r H]; injection H as H; eauto].
      * split; [intros [H _]; discriminate|intros [r H]; injection H; congruence].
Qed.
Lemma conformsb_spec ts x : conformsb ts x = true <-> conforms ts x.
Proof. apply is_prefix_spec. Qed.

(** ** checkDefinition *)
Definition check_outcome (ts l : list atype) : res bool :=
  if is_prefix l ts then Ok true else if is_prefix ts l then Throw OutOfRange else Ok false.
Lemma nth_error_skipn {A} (l : list A) i x : nth_error l i = Some x -> skipn i l = x :: skipn (S i) l.
Proof.
  revert i; induction l as [|y l IH]; intros i H; [destruct i; discriminate|].
  destruct i; simpl in *; [congruence|]. apply IH in H. rewrite H. reflexivity.
Qed.
Lemma check_from_spec d i l : check_from d i l = check_outcome (skipn i (types d)) (map attr_type l).
Proof.
  revert i; induction l as [|a l IH]; intros i; [reflexivity|]. cbn [check_from map]. rewrite type_of_some.
  unfold def_type. rewrite at_nat. unfold atn. destruct (nth_error (types d) i) as [t|] eqn:E.
  - simpl. rewrite (nth_error_skipn _ _ _ E), IH. unfold check_outcome. simpl.
    rewrite (atype_eqb_sym (attr_type a) t). destruct (atype_eqb t (attr_type a)); reflexivity.
  - apply nth_error_None in E. rewrite skipn_all2 by exact E. reflexivity.
Qed.
Lemma check_def_spec d x : check_def d x = check_outcome (types d) (map attr_type (attrs x)).
Proof. unfold check_def. rewrite check_from_spec. reflexivity. Qed.

Lemma add_instance_nonempty s x : def_count (ddef s) <> 0 ->
  add_instance s x =
  if conformsb (types (ddef s)) x then Ok (mkDS (insts s ++ [x]) (ddef s))
  else if is_prefix (types (ddef s)) (map attr_type (attrs x)) then Throw OutOfRange else Ok s.
Proof.
  intros H. unfold add_instance. destruct (Nat.eqb_spec (def_count (ddef s)) 0) as [E|E]; [contradiction|].
  rewrite check_def_spec. unfold check_outcome, conformsb. destruct (is_prefix _ _); [reflexivity|].
  destruct (is_prefix _ _); reflexivity.
Qed.
Lemma add_instance_empty s x : def_count (ddef s) = 0 ->
  add_instance s x = Ok (mkDS (insts s ++ [x]) (def_of (map attr_type (attrs x)))).
Proof. intros H. unfold add_instance. rewrite H, types_of_map. reflexivity. Qed.

Lemma offer_nonempty s x : def_count (ddef s) <> 0 ->
  offer s x = if conformsb (types (ddef s)) x then mkDS (insts s ++ [x]) (ddef s) else s.
Proof.
  intros H. unfold offer. rewrite add_instance_nonempty by exact H. destruct (conformsb _ _); [reflexivity|].
  destruct (is_prefix _ _); reflexivity.
Qed.
Lemma offers_nonempty l s : def_count (ddef s) <> 0 ->
  offers s l = mkDS (insts s ++ filter (conformsb (types (ddef s))) l) (ddef s).
Proof.
  revert s; induction l as [|x l IH]; intros s H; simpl.
  - rewrite app_nil_r. destruct s; reflexivity.
  - unfold offers in *. simpl. rewrite offer_nonempty by exact H. destruct (conformsb (types (ddef s)) x) eqn:E.
    + rewrite IH by exact H. simpl. rewrite <- app_assoc. reflexivity.
    + apply IH; exact H.
Qed.
Lemma offers_cons s x l : offers s (x :: l) = offers (offer s x) l.
Proof. reflexivity. Qed.
Lemma offer_empty s x : def_count (ddef s) = 0 ->
  offer s x = mkDS (insts s ++ [x]) (def_of (map attr_type (attrs x))).
Proof. intros H; unfold offer; rewrite add_instance_empty by exact H; reflexivity. Qed.

Definition ds_inv (s : dataset) : Prop := Forall (conforms (types (ddef s))) (insts s).
Lemma conforms_nil ts x : conforms ts x -> ts = [] -> attrs x = [].
Proof. intros [r E] ->. destruct (attrs x); [reflexivity|discriminate]. Qed.
Lemma offer_inv s x : ds_inv s -> ds_inv (offer s x).
Proof.
  intros H. unfold ds_inv in *. destruct (Nat.eq_dec (def_count (ddef s)) 0) as [E|E].
  - rewrite offer_empty by exact E. simpl. apply Forall_app. split.
    + eapply Forall_impl; [|exact H]. intros y Hy. apply conforms_nil in Hy; [|apply length_zero_iff_nil; exact E].
      exists (map attr_type (attrs x)). rewrite Hy. reflexivity.
    + constructor; [|constructor]. exists []. rewrite app_nil_r. reflexivity.
  - rewrite offer_nonempty by exact E. destruct (conformsb (types (ddef s)) x) eqn:C; [|exact H].
    simpl. apply Forall_app. split; [exact H|]. constructor; [apply conformsb_spec; exact C|constructor].
Qed.
Lemma offers_inv l s : ds_inv s -> ds_inv (offers s l).
Proof. revert s; induction l as [|x l IH]; intros s H; [exact H|]. rewrite offers_cons. apply IH, offer_inv, H. Qed.
Lemma conforms_length ts x : conforms ts x -> attr_count x <= length ts.
Proof. intros [r ->]. unfold attr_count. rewrite app_length, map_length. lia. Qed.

(** exact arity when all offered instances have the same arity *)
Lemma offers_arity n l s : Forall (fun x => attr_count x = n) l -> Forall (fun x => attr_count x = n) (insts s) ->
  Forall (fun x => attr_count x = n) (insts (offers s l)).
Proof.
  revert s; induction l as [|x l IH]; intros s Hl Hs; [exact Hs|]. inversion Hl as [|? ? Hx Hl']; subst.
  rewrite offers_cons. apply IH; [exact Hl'|]. destruct (Nat.eq_dec (def_count (ddef s)) 0) as [E|E].
  - rewrite offer_empty by exact E. simpl. apply Forall_app; split; [exact Hs|constructor; [reflexivity|constructor]].
  - rewrite offer_nonempty by exact E. destruct (conformsb _ _); [|exact Hs].
    simpl. apply Forall_app; split; [exact Hs|constructor; [reflexivity|constructor]].
Qed.

(** ** Definition counts *)
Definition tcount (t : atype) (l : list atype) : nat := length (filter (atype_eqb t) l).
Lemma fold_count {A} (f : A -> bool) l c : fold_left (fun c t => if f t then S c else c) l c = c + countb f l.
Proof.
  unfold countb. revert c; induction l as [|x l IH]; intros c; simpl; [lia|]. rewrite IH. destruct (f x); simpl; lia.
Qed.
Lemma def_discrete_countb d : def_discrete d = countb (fun t => atype_eqb t TDisc || atype_eqb t TBin) (types d).
Proof. unfold def_discrete. rewrite fold_count. reflexivity. Qed.
Lemma def_continuous_countb d : def_continuous d = countb (fun t => atype_eqb t TCont) (types d).
Proof. unfold def_continuous. rewrite fold_count. reflexivity. Qed.
Lemma countb_app {A} (f : A -> bool) l l' : countb f (l ++ l') = countb f l + countb f l'.
Proof. unfold countb. rewrite filter_app, app_length. reflexivity. Qed.
Lemma countb_cons {A} (f : A -> bool) x l : countb f (x :: l) = (if f x then 1 else 0) + countb f l.
Proof. unfold countb; simpl. destruct (f x); reflexivity. Qed.
Lemma def_counts_total d :
  def_discrete d + def_continuous d + countb (atype_eqb TIdx) (types d) = def_count d.
Proof.
  rewrite def_discrete_countb, def_continuous_countb. unfold def_count.
  induction (types d) as [|t l IH]; [reflexivity|]. rewrite !countb_cons. simpl length. destruct t; simpl; lia.
Qed.
Lemma erase_split {A} (l : list A) i x : nth_error l i = Some x ->
  exists a b, l = a ++ x :: b /\ erase_nth l i = a ++ b /\ length a = i.
Proof.
  revert i; induction l as [|y l IH]; intros i H; [destruct i; discriminate|]. destruct i; simpl in *.
  - injection H as ->. exists [], l; auto.
  - destruct (IH _ H) as (a & b & -> & E & Hl). exists (y :: a), b. simpl. rewrite E; auto.
Qed.

(** ** Value lists *)
Lemma value_index_from_spec v l i : (0 <= i)%Z ->
  value_index_from i v l = if mem_str v l then (i + Z.of_nat (find_pos v l))%Z else (-1)%Z.
Proof.
  revert i; induction l as [|x l IH]; intros i H; [reflexivity|]. cbn [value_index_from mem_str existsb find_pos].
  rewrite String.eqb_sym. destruct (String.eqb v x) eqn:E; simpl; [lia|].
  rewrite IH by lia. unfold mem_str. destruct (existsb (String.eqb v) l); [lia|reflexivity].
Qed.

(** ** Feature subsets of data sets *)
Lemma foldM_total {A B} (f : A -> B -> res A) (g : A -> B -> A) l a (P : A -> Prop) :
  P a -> (forall a b, P a -> In b l -> f a b = Ok (g a b) /\ P (g a b)) -> foldM f l a = Ok (fold_left g l a).
Proof.
  revert a; induction l as [|x l IH]; intros a Ha H; [reflexivity|]. simpl.
  destruct (H a x Ha (or_introl eq_refl)) as [-> Hg]. simpl. apply IH; [exact Hg|].
  intros a' b Ha' Hb. apply H; [exact Ha'|right; exact Hb].
Qed.

Lemma conforms_exactly_subset ts x fs y :
  conforms_exactly ts x -> inst_subset x fs = Ok y ->
  exists ts', mapM (fun k => at_ ts k) fs = Ok ts' /\ conforms_exactly ts' y.
Proof.
  intros Hx Hy. apply inst_subset_ok in Hy. destruct Hy as (_ & _ & H).
  exists (map attr_type (attrs y)). split; [|reflexivity]. apply mapM_ok. apply Forall2_map_r.
  eapply Forall2_imp; [|exact H]. intros k a [Hr Hn]. apply at_ok. rewrite Hx, map_length. split; [exact Hr|].
  rewrite nth_error_map, Hn. reflexivity.
Qed.
Lemma ds_subset_spec s fs :
  Forall (conforms_exactly (types (ddef s))) (insts s) -> Forall (in_range (def_count (ddef s))) fs ->
  exists ts l, mapM (fun k => at_ (types (ddef s)) k) fs = Ok ts /\
    ds_subset s fs = Ok (mkDS l (def_of ts)) /\
    Forall2 (fun x y => inst_subset x fs = Ok y) (insts s) l.
Proof.
  intros Hc Hr.
  destruct (mapM_at_cases (types (ddef s)) fs) as [[_ [ts Hts]]|[He _]].
  2:{ apply Exists_exists in He. destruct He as (k & Hk & Hn). rewrite Forall_forall in Hr. elim (Hn (Hr _ Hk)). }
  assert (Hp : forall x, In x (insts s) -> exists y, inst_subset x fs = Ok y /\ conforms_exactly ts y).
  { intros x Hx. rewrite Forall_forall in Hc. specialize (Hc _ Hx).
    destruct (inst_subset_total x fs) as [[y Hy]|Ht].
    - exists y. split; [exact Hy|]. destruct (conforms_exactly_subset _ _ _ _ Hc Hy) as (ts' & E & C).
      change (fun k => at_ (types (ddef s)) k) with (at_ (types (ddef s))) in E. rewrite E in Hts. injection Hts as ->. exact C.
    - apply inst_subset_throw in Ht. destruct Ht as [_ He]. apply Exists_exists in He. destruct He as (k & Hk & Hn).
      rewrite Forall_forall in Hr. specialize (Hr _ Hk). unfold def_count in Hr. rewrite Hc, map_length in Hr. contradiction. }
  unfold ds_subset, def_subset. change (fun k => at_ (types (ddef s)) k) with (at_ (types (ddef s))). rewrite Hts. simpl.
  assert (G : forall l acc, (forall x, In x l -> In x (insts s)) ->
     exists ys, Forall2 (fun x y => inst_subset x fs = Ok y) l ys /\
       foldM (fun acc x => do y <- inst_subset x fs; add_instance acc y) l (mkDS acc (def_of ts)) = Ok (mkDS (acc ++ ys) (def_of ts))).
  { induction l as [|x l IH]; intros acc Hin.
    - exists []. rewrite app_nil_r. split; [constructor|reflexivity].
    - destruct (Hp x (Hin x (or_introl eq_refl))) as (y & Hy & Cy). simpl. rewrite Hy. simpl.
      assert (Ha : add_instance (mkDS acc (def_of ts)) y = Ok (mkDS (acc ++ [y]) (def_of ts))).
      { destruct (Nat.eq_dec (def_count (def_of ts)) 0) as [E|E].
        - rewrite add_instance_empty by exact E. simpl. rewrite <- Cy. reflexivity.
        - rewrite add_instance_nonempty by exact E. simpl.
          assert (conformsb ts y = true) as -> by (apply conformsb_spec; exists []; rewrite app_nil_r; exact Cy). reflexivity. }
      rewrite Ha. simpl. destruct (IH (acc ++ [y])) as (ys & Hys & E); [intros z Hz; apply Hin; right; exact Hz|].
      exists (y :: ys). split; [constructor; auto|]. rewrite E, <- app_assoc. reflexivity. }
  destruct (G (insts s) []) as (ys & Hys & E); [auto|]. exists ts, ys. split; [reflexivity|]. split; [exact E|exact Hys].
Qed.
