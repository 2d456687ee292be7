(** Renaming the class labels: how every function of the model commutes with it (C128). *)
From Coq Require Import String ZArith QArith Bool Lia List.
From Verif Require Import Base Spec BaseLemmas AttrModel DataSetModel InstanceListModel PartitionModel PerformanceModel
  DistanceModel GaussianModel TreeModel EnsembleModel PartitionProofs RenameSpec.
Import ListNotations.
Local Open Scope string_scope.
Local Open Scope list_scope.
Local Open Scope nat_scope.

(** * Loops *)
Lemma rmap_bind {A B C} (g : B -> C) (r : res A) (h : A -> res B) : rmap g (bind r h) = bind r (fun a => rmap g (h a)).
Proof. destruct r; reflexivity. Qed.
Lemma bind_rmap {A B C} (g : A -> B) (r : res A) (h : B -> res C) : bind (rmap g r) h = bind r (fun a => h (g a)).
Proof. destruct r; reflexivity. Qed.
Lemma bind_ext {A B} (r : res A) (g h : A -> res B) : (forall a, g a = h a) -> bind r g = bind r h.
Proof. intros H. destruct r; [apply H|reflexivity..]. Qed.
Lemma rmap_id {A} (r : res A) : rmap (fun a => a) r = r.
Proof. destruct r; reflexivity. Qed.
Lemma rmap_ext {A B} (g h : A -> B) r : (forall a, g a = h a) -> rmap g r = rmap h r.
Proof. intros H. destruct r; try reflexivity. cbn. rewrite H. reflexivity. Qed.
Lemma foldM_sim {S S' X} (phi : S -> S') (g : S -> X -> res S) (g' : S' -> X -> res S') l :
  (forall s x, In x l -> g' (phi s) x = rmap phi (g s x)) -> forall s, foldM g' l (phi s) = rmap phi (foldM g l s).
Proof.
  induction l as [|x l IH]; intros H s; [reflexivity|]. cbn [foldM]. rewrite H by (left; reflexivity). rewrite bind_rmap, rmap_bind.
  apply bind_ext. intros a. apply IH. intros; apply H; right; assumption.
Qed.
Lemma mapM_sim {A B B'} (phi : B -> B') (g : A -> res B) (g' : A -> res B') l :
  (forall x, In x l -> g' x = rmap phi (g x)) -> mapM g' l = rmap (map phi) (mapM g l).
Proof.
  induction l as [|x l IH]; intros H; [reflexivity|]. cbn [mapM]. rewrite H by (left; reflexivity). rewrite bind_rmap, rmap_bind. apply bind_ext. intros b.
  rewrite IH by (intros; apply H; right; assumption). rewrite bind_rmap, rmap_bind. apply bind_ext. intros bs. reflexivity.
Qed.
Lemma mapM_map' {A B C} (h : A -> B) (g : B -> res C) l : mapM g (map h l) = mapM (fun x => g (h x)) l.
Proof. induction l as [|x l IH]; [reflexivity|]. cbn [map mapM]. rewrite IH. reflexivity. Qed.
Lemma mapM_ext' {A B} (g h : A -> res B) l : (forall x, In x l -> g x = h x) -> mapM g l = mapM h l.
Proof.
  induction l as [|x l IH]; intros H; [reflexivity|]. cbn [mapM]. rewrite H by (left; reflexivity). apply bind_ext. intros b.
  rewrite IH by (intros; apply H; right; assumption). reflexivity.
Qed.
Lemma atn_map {A B} (h : A -> B) l i : atn (map h l) i = rmap h (atn l i).
Proof. unfold atn. rewrite nth_error_map. destruct (nth_error l i); reflexivity. Qed.
Lemma idxn_map {A B} (h : A -> B) l i : idxn (map h l) i = rmap h (idxn l i).
Proof. unfold idxn. rewrite nth_error_map. destruct (nth_error l i); reflexivity. Qed.
Lemma upd_map {A B} (h : A -> B) l : forall i v, upd (map h l) i (h v) = map h (upd l i v).
Proof. induction l as [|x l IH]; intros [|i] v; try reflexivity. cbn. rewrite IH. reflexivity. Qed.
Lemma sinsert_map {A B} (h : A -> B) (lt : A -> A -> bool) (lt' : B -> B -> bool) : (forall a b, lt' (h a) (h b) = lt a b) ->
  forall x l, sinsert lt' (h x) (map h l) = map h (sinsert lt x l).
Proof. intros H x l. induction l as [|y l IH]; [reflexivity|]. cbn. rewrite H. destruct (lt y x); [cbn; rewrite IH; reflexivity|reflexivity]. Qed.
Lemma ssort_map {A B} (h : A -> B) (lt : A -> A -> bool) (lt' : B -> B -> bool) : (forall a b, lt' (h a) (h b) = lt a b) ->
  forall l, ssort lt' (map h l) = map h (ssort lt l).
Proof. intros H l. unfold ssort. induction l as [|x l IH]; [reflexivity|]. cbn [map fold_right]. rewrite IH. apply (sinsert_map h lt lt' H). Qed.
Lemma rearrange_map {A B} (h : A -> B) p l : rearrange p (map h l) = map h (rearrange p l).
Proof.
  unfold rearrange. induction p as [|i p IH]; [reflexivity|]. cbn [flat_map]. rewrite map_app, IH, nth_error_map. destruct (nth_error l i); reflexivity.
Qed.
Lemma fold_left_sim {S S' X Y} (phi : S -> S') (h : X -> Y) (g : S -> X -> S) (g' : S' -> Y -> S') l :
  (forall s x, g' (phi s) (h x) = phi (g s x)) -> forall s, fold_left g' (map h l) (phi s) = phi (fold_left g l s).
Proof. intros H. induction l as [|x l IH]; intros s; [reflexivity|]. cbn. rewrite H. apply IH. Qed.
Lemma combine_map_r {A B C} (h : B -> C) (l : list A) (m : list B) : combine l (map h m) = map (fun p => (fst p, h (snd p))) (combine l m).
Proof. revert m. induction l as [|x l IH]; intros [|y m]; try reflexivity. cbn. rewrite IH. reflexivity. Qed.
Lemma combine_map_l {A B C} (h : A -> C) (l : list A) (m : list B) : combine (map h l) m = map (fun p => (h (fst p), snd p)) (combine l m).
Proof. revert m. induction l as [|x l IH]; intros [|y m]; try reflexivity. cbn. rewrite IH. reflexivity. Qed.

Lemma map_repeat_ {A B} (h : A -> B) a n : map h (repeat a n) = repeat (h a) n.
Proof. induction n as [|n IH]; [reflexivity|]. cbn. rewrite IH. reflexivity. Qed.

(** * Injective renaming *)
Section Inj.
  Context (f : string -> string).
  Hypothesis inj : forall s t, f s = f t -> s = t.
  Lemma f_eqb s t : String.eqb (f s) (f t) = String.eqb s t.
  Proof. destruct (String.eqb_spec s t) as [->|H]; [apply String.eqb_refl|]. apply String.eqb_neq. intros E. apply H, inj, E. Qed.
  Lemma f_find x l : find_pos (f x) (map f l) = find_pos x l.
  Proof. induction l as [|y l IH]; [reflexivity|]. cbn. rewrite f_eqb, IH. reflexivity. Qed.
  Lemma f_mem x l : mem_str (f x) (map f l) = mem_str x l.
  Proof. unfold mem_str. induction l as [|y l IH]; [reflexivity|]. cbn. rewrite f_eqb, IH. reflexivity. Qed.
  Lemma f_push acc x : push_new (map f acc) (f x) = map f (push_new acc x).
  Proof. unfold push_new. rewrite f_mem. destruct (mem_str x acc); [reflexivity|]. rewrite map_app. reflexivity. Qed.
  Notation ren := (rename f).
  Lemma ren_composite x : isComposite (ren x) = isComposite x.
  Proof. unfold isComposite. cbn. destruct (composite x); reflexivity. Qed.
  Lemma ren_possible x : possible_labels (ren x) = map f (possible_labels x).
  Proof. unfold possible_labels. cbn. destruct (composite x); reflexivity. Qed.
  Lemma ren_distinct l : distinct_labels (map ren l) = map f (distinct_labels l).
  Proof. unfold distinct_labels. refine (fold_left_sim (map f) ren _ _ l _ []). intros s x. apply f_push. Qed.
  Lemma ren_class_labels l : class_labels (map ren l) = map f (class_labels l).
  Proof. unfold class_labels. rewrite !map_map. reflexivity. Qed.
  Lemma ren_add_to gs i x : add_to (map (map ren) gs) i (ren x) = rmap (map (map ren)) (add_to gs i x).
  Proof.
    unfold add_to. rewrite atn_map, bind_rmap, rmap_bind. apply bind_ext. intros l. cbn. f_equal. rewrite <- upd_map. f_equal. rewrite map_app. reflexivity.
  Qed.
  Lemma ren_empties n : repeat (@nil instance) n = map (map ren) (repeat [] n).
  Proof. rewrite map_repeat_. reflexivity. Qed.
  Lemma ren_part_class l : part_class (map ren l) = rmap (map (map ren)) (part_class l).
  Proof.
    unfold part_class. rewrite ren_distinct, map_length, foldM_map. rewrite (ren_empties (length (distinct_labels l))) at 1.
    apply (foldM_sim (map (map ren))). intros gs x _. cbn [label rename]. rewrite f_find. apply ren_add_to.
  Qed.
  (** features are not touched *)
  Lemma ren_value_list k l : value_list k (map ren l) = value_list k l.
  Proof. unfold value_list. rewrite foldM_map. reflexivity. Qed.
  Lemma ren_part_disc k l : part_disc k (map ren l) = rmap (map (map ren)) (part_disc k l).
  Proof.
    unfold part_disc. rewrite ren_value_list, rmap_bind. apply bind_ext. intros vs. rewrite foldM_map. rewrite (ren_empties (length vs)) at 1.
    apply (foldM_sim (map (map ren))). intros gs x _. rewrite rmap_bind. change (disc_at k (ren x)) with (disc_at k x). apply bind_ext. intros v. apply ren_add_to.
  Qed.
  Lemma ren_part_idx k v l : part_idx k v (map ren l) = rmap (map (map ren)) (part_idx k v l).
  Proof.
    unfold part_idx. rewrite foldM_map. change [[]; []] with (map (map ren) [[]; []]) at 1.
    apply (foldM_sim (map (map ren))). intros gs x _. rewrite rmap_bind. change (index_at k (ren x)) with (index_at k x). apply bind_ext. intros i. apply ren_add_to.
  Qed.
  Lemma ren_part_cont k t l : part_cont k t (map ren l) = rmap (map (map ren)) (part_cont k t l).
  Proof.
    unfold part_cont. rewrite foldM_map. change [[]; []] with (map (map ren) [[]; []]) at 1.
    apply (foldM_sim (map (map ren))). intros gs x _. rewrite rmap_bind. change (cont_at k (ren x)) with (cont_at k x). apply bind_ext. intros i. apply ren_add_to.
  Qed.
  Lemma ren_cont_keys k l : mapM (cont_at k) (map ren l) = mapM (cont_at k) l.
  Proof. rewrite mapM_map'. reflexivity. Qed.
  Lemma ren_sort_by k l : sort_by k (map ren l) = rmap (map ren) (sort_by k l).
  Proof.
    unfold sort_by. rewrite map_length. destruct (length l <=? 1); [reflexivity|]. rewrite ren_cont_keys, rmap_bind. apply bind_ext. intros keys.
    destruct (existsb is_nan keys); [reflexivity|]. cbn. f_equal. rewrite combine_map_r.
    rewrite (ssort_map (fun p : dbl * instance => (fst p, ren (snd p))) (fun p q => dltb (fst p) (fst q))) by reflexivity. rewrite !map_map. reflexivity.
  Qed.
  Lemma ren_bootstrap pick seed l : bootstrap pick seed (map ren l) = map ren (bootstrap pick seed l).
  Proof. unfold bootstrap. rewrite map_length. apply rearrange_map. Qed.
  Lemma ren_shuffle perm seed l : shuffle perm seed (map ren l) = map ren (shuffle perm seed l).
  Proof. unfold shuffle. rewrite map_length. apply rearrange_map. Qed.
  Lemma ren_cont_sum k l : cont_sum k (map ren l) = cont_sum k l.
  Proof. unfold cont_sum. rewrite foldM_map. reflexivity. Qed.
  Lemma ren_head {B} l (g : instance -> res B) : (do x <- atn (map ren l) 0; g x) = (do x <- atn l 0; g (ren x)).
  Proof. rewrite atn_map, bind_rmap. reflexivity. Qed.
  Lemma ren_attr_average k l : attr_average k (map ren l) = attr_average k l.
  Proof.
    unfold attr_average. rewrite ren_head. apply bind_ext. intros x0. change (get_attr (ren x0) k) with (get_attr x0 k). apply bind_ext. intros a.
    rewrite mapM_map', ren_cont_sum, map_length. reflexivity.
  Qed.
  Lemma ren_cont_average k l : cont_average k (map ren l) = cont_average k l.
  Proof.
    unfold cont_average. rewrite ren_head. apply bind_ext. intros x0. change (get_attr (ren x0) k) with (get_attr x0 k). apply bind_ext. intros a.
    rewrite ren_cont_sum, map_length. destruct (isDiscreteIndexed a); [|reflexivity]. apply bind_ext. intros m. rewrite foldM_map. reflexivity.
  Qed.
  Lemma ren_cont_average_all l : cont_average_all (map ren l) = cont_average_all l.
  Proof.
    unfold cont_average_all. rewrite ren_head. apply bind_ext. intros x0. change (attr_count (ren x0)) with (attr_count x0).
    rewrite (mapM_ext' _ (fun i => cont_average (Z.of_nat i) l)) by (intros i _; apply ren_cont_average). reflexivity.
  Qed.
  Lemma ren_average l : average (map ren l) = rmap (fun p => (f (fst p), snd p)) (average l).
  Proof.
    unfold average. rewrite ren_head, rmap_bind. apply bind_ext. intros x0. change (attr_count (ren x0)) with (attr_count x0).
    rewrite (mapM_ext' _ (fun i => attr_average (Z.of_nat i) l)) by (intros i _; apply ren_attr_average). rewrite rmap_bind. reflexivity.
  Qed.
  Lemma ren_attr_distribution k l : attr_distribution k (map ren l) = attr_distribution k l.
  Proof.
    unfold attr_distribution. rewrite ren_head. apply bind_ext. intros x0. change (get_attr (ren x0) k) with (get_attr x0 k). apply bind_ext. intros a.
    rewrite foldM_map. reflexivity.
  Qed.
  Lemma ren_all_attr_distribution l : all_attr_distribution (map ren l) = all_attr_distribution l.
  Proof.
    unfold all_attr_distribution. rewrite ren_head. apply bind_ext. intros x0. change (attr_count (ren x0)) with (attr_count x0).
    apply mapM_ext'. intros i _. apply ren_attr_distribution.
  Qed.
  Lemma ren_covariance avg l : covariance avg (map ren l) = covariance avg l.
  Proof.
    unfold covariance. rewrite ren_head. apply bind_ext. intros x0. change (inst_size (ren x0)) with (inst_size x0). rewrite foldM_map, map_length. reflexivity.
  Qed.
  Lemma ren_class_lists l : class_lists (map ren l) = rmap (map (fun g => (f (fst g), map ren (snd g)))) (class_lists l).
  Proof.
    unfold class_lists. rewrite ren_part_class, bind_rmap, rmap_bind. apply bind_ext. intros gs. cbn. f_equal.
    rewrite ren_distinct, combine_map_r, combine_map_l, map_map. reflexivity.
  Qed.
End Inj.

(** * Order preserving renaming: maps and counters *)
Section Mono.
  Context (f : string -> string).
  Hypothesis Hf : keeps_order f.
  Notation ren := (rename f).
  Lemma f_slt s t : slt s t -> slt (f s) (f t).
  Proof.
    unfold slt. intros H. pose proof (proj1 Hf s t) as Hm. unfold sltb in Hm. rewrite H in Hm. specialize (Hm eq_refl).
    destruct (String.compare (f s) (f t)); congruence.
  Qed.
  Lemma f_inj s t : f s = f t -> s = t.
  Proof.
    intros E. destruct (slt_total s t) as [H|[H|H]]; [|exact H|]; apply f_slt in H; rewrite E in H; destruct (slt_irrefl _ H).
  Qed.
  Lemma f_compare s t : String.compare (f s) (f t) = String.compare s t.
  Proof.
    destruct (String.compare s t) eqn:E.
    - apply scompare_eq in E. subst. apply scompare_refl.
    - apply f_slt, E.
    - apply sgt_slt, f_slt, sgt_slt, E.
  Qed.
  Lemma f_empty s : String.eqb (f s) "" = String.eqb s "".
  Proof. rewrite <- (proj2 Hf) at 1. apply f_eqb, f_inj. Qed.
  Notation rkey := (RenameSpec.rkey f).
  Lemma rk_find {V} k (m : smap V) : mfind (f k) (rkey m) = mfind k m.
  Proof. induction m as [|[k' v] m IH]; [reflexivity|]. cbn. rewrite (f_eqb f f_inj), <- IH. reflexivity. Qed.
  Lemma rk_mem {V} k (m : smap V) : mmem (f k) (rkey m) = mmem k m.
  Proof. unfold mmem. rewrite rk_find. reflexivity. Qed.
  Lemma rk_set {V} k v (m : smap V) : mset (f k) v (rkey m) = rkey (mset k v m).
  Proof.
    induction m as [|[k' v'] m IH]; [reflexivity|]. cbn [RenameSpec.rkey map mset fst snd]. rewrite f_compare.
    destruct (String.compare k k'); [reflexivity|reflexivity|]. unfold RenameSpec.rkey in IH |- *. cbn [map fst snd]. rewrite <- IH. reflexivity.
  Qed.
  Lemma rk_emplace {V} k v (m : smap V) : memplace (f k) v (rkey m) = rkey (memplace k v m).
  Proof. unfold memplace. rewrite rk_mem, rk_set. destruct (mmem k m); reflexivity. Qed.
  Lemma rk_erase {V} k (m : smap V) : merase (f k) (rkey m) = rkey (merase k m).
  Proof. induction m as [|[k' v'] m IH]; [reflexivity|]. cbn [RenameSpec.rkey map merase fst snd]. rewrite (f_eqb f f_inj). destruct (String.eqb k k'); [reflexivity|]. cbn. f_equal. exact IH. Qed.
  Lemma rk_keys {V} (m : smap V) : mkeys (rkey m) = map f (mkeys m).
  Proof. unfold mkeys, RenameSpec.rkey. rewrite !map_map. reflexivity. Qed.
  Lemma rk_length {V} (m : smap V) : length (rkey m) = length m.
  Proof. apply map_length. Qed.
  Lemma rk_count c k : ccount (rkey c) (f k) = ccount c k.
  Proof. unfold ccount. rewrite rk_find. reflexivity. Qed.
  Lemma rk_put c k : cput (rkey c) (f k) = rkey (cput c k).
  Proof. unfold cput. rewrite rk_count, rk_set. reflexivity. Qed.
  Lemma rk_putn c k n : cputn (rkey c) (f k) n = rkey (cputn c k n).
  Proof. unfold cputn. rewrite rk_count, rk_set. reflexivity. Qed.
  Lemma rk_sum c : csum (rkey c) = csum c.
  Proof. unfold csum, RenameSpec.rkey. induction c as [|kv c IH]; [reflexivity|]. cbn [map fold_right snd]. rewrite IH. reflexivity. Qed.
  Lemma rk_cofl l : fold_left cput (map f l) [] = rkey (fold_left cput l []).
  Proof. refine (fold_left_sim rkey f _ _ l _ []). intros. apply rk_put. Qed.
  Lemma rk_rem c k : crem (rkey c) (f k) = rkey (crem c k).
  Proof. unfold crem. rewrite rk_find. destruct (mfind k c) as [n|]; [|reflexivity]. destruct (n <=? 1); [apply rk_erase|apply rk_set]. Qed.
  Lemma rk_add c d : cadd (rkey c) (rkey d) = rkey (cadd c d).
  Proof. unfold cadd. refine (fold_left_sim rkey (fun kv => (f (fst kv), snd kv)) _ _ d _ c). intros s x. apply rk_putn. Qed.
  Lemma rk_subd c d : csubd (rkey c) (rkey d) = rkey (csubd c d).
  Proof.
    unfold csubd. refine (fold_left_sim rkey (fun kv => (f (fst kv), snd kv)) _ _ d _ c). intros s x. cbn [fst snd]. rewrite rk_count.
    destruct (_ =? 0); [apply rk_erase|apply rk_set].
  Qed.
  Lemma rk_max c : cmax (rkey c) = f (cmax c).
  Proof.
    unfold cmax. pose proof (fold_left_sim (fun p : string * nat => (f (fst p), snd p)) (fun kv : string * nat => (f (fst kv), snd kv)) cmax_step cmax_step c) as H.
    specialize (H ltac:(intros s x; unfold cmax_step; cbn [snd]; destruct (_ <? _); reflexivity) (EmptyString, 0)). cbn [fst snd] in H. rewrite (proj2 Hf) in H.
    unfold RenameSpec.rkey. rewrite H. reflexivity.
  Qed.
  Lemma rk_probabilities c : probabilities (rkey c) = rkey (probabilities c).
  Proof. unfold probabilities. rewrite rk_sum. unfold RenameSpec.rkey. rewrite !map_map. reflexivity. Qed.
  Lemma ren_maximum ls : get_maximum (map f ls) = f (get_maximum ls).
  Proof. unfold get_maximum. rewrite rk_cofl. apply rk_max. Qed.
  Lemma ren_class_distribution l : class_distribution (map ren l) = rkey (class_distribution l).
  Proof. unfold class_distribution. refine (fold_left_sim rkey ren _ _ l _ []). intros s x. apply rk_put. Qed.
  Lemma ren_sort_class l : sort_class (map ren l) = map ren (sort_class l).
  Proof. unfold sort_class. apply ssort_map. intros a b. unfold sltb. cbn [label rename]. rewrite f_compare. reflexivity. Qed.
  Lemma rk_empties n : repeat (@nil (string * nat)) n = map (@RenameSpec.rkey f nat) (repeat [] n).
  Proof. rewrite map_repeat_. reflexivity. Qed.
  Lemma ren_attr_class k l : attr_class_distribution k (map ren l) = rmap (map rkey) (attr_class_distribution k l).
  Proof.
    unfold attr_class_distribution. rewrite (ren_value_list f), rmap_bind. apply bind_ext. intros vs. rewrite foldM_map.
    rewrite (rk_empties (length vs)) at 1.
    apply (foldM_sim (map rkey)). intros ds x _. change (disc_at k (ren x)) with (disc_at k x). rewrite rmap_bind. apply bind_ext. intros v.
    rewrite idxn_map, bind_rmap, rmap_bind. apply bind_ext. intros c. cbn. f_equal. rewrite <- upd_map. f_equal. apply rk_put.
  Qed.
  Lemma ren_idx_class k v l : idx_class_distribution k v (map ren l) = rmap rkey (idx_class_distribution k v l).
  Proof.
    unfold idx_class_distribution. rewrite foldM_map. refine (foldM_sim rkey _ _ l _ []). intros c x _.
    change (index_at k (ren x)) with (index_at k x). rewrite rmap_bind. apply bind_ext. intros i. cbn. f_equal. destruct (i =? v)%Z; [apply rk_put|reflexivity].
  Qed.
  Lemma rk_probability c v : probability (rkey c) (f v) = probability c v.
  Proof. unfold probability. rewrite rk_count, rk_sum. reflexivity. Qed.
  Lemma rk_prob c v : prob (rkey c) (f v) = prob c v.
  Proof. unfold prob. rewrite rk_mem, rk_count, rk_sum. reflexivity. Qed.
  Lemma ren_strat rarr ratio seed l : part_strat rarr ratio seed (map ren l) = rmap (map (map ren)) (part_strat rarr ratio seed l).
  Proof.
    unfold part_strat. rewrite map_length.
    rewrite (foldM_sim (fun st : counter * list ilist => (rkey (fst st), map (map ren) (snd st))) (strat_step l ratio) (strat_step (map ren l) ratio) _) with (s := ([], [[]; []])).
    - rewrite bind_rmap, rmap_bind. reflexivity.
    - intros [c gs] i _. unfold strat_step. cbn [fst snd]. rewrite atn_map, bind_rmap, rmap_bind. apply bind_ext. intros x. cbn [label rename].
      rewrite ren_class_distribution, rk_probability, rk_count, map_length. rewrite ren_add_to, bind_rmap, rmap_bind. apply bind_ext. intros gs'. cbn.
      f_equal. f_equal. apply rk_put.
  Qed.
End Mono.
