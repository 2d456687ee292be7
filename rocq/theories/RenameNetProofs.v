(** Renaming the class labels: networks and soft trees, for which the order of the labels does not matter (C128). *)
From Coq Require Import String ZArith QArith Bool Lia List.
From Verif Require Import Base Spec BaseLemmas AttrModel DataSetModel InstanceListModel PartitionModel PerformanceModel
  DistanceModel GaussianModel NetModel SoftModel PartitionProofs RenameSpec RenameProofs.
Import ListNotations.
Local Open Scope string_scope.
Local Open Scope list_scope.
Local Open Scope nat_scope.

Lemma foldM_ext' {A S} (g h : S -> A -> res S) l : (forall s x, In x l -> g s x = h s x) -> forall s, foldM g l s = foldM h l s.
Proof.
  induction l as [|x l IH]; intros H s; [reflexivity|]. cbn [foldM]. rewrite H by (left; reflexivity). apply bind_ext. intros a.
  apply IH. intros; apply H; right; assumption.
Qed.
Lemma attempt_sim {A B S S'} (psi : A -> B) (phi : S -> S') row (r : res A) s k k' :
  (forall a, k' (psi a) = rmap phi (k a)) -> attempt row (rmap psi r) (phi s) k' = rmap phi (attempt row r s k).
Proof. intros H. destruct r as [a|e| |]; cbn; try reflexivity. - apply H. - destruct (caught row e); reflexivity. Qed.

Lemma bind_cong {A B} (r r' : res A) (g : A -> res B) : r = r' -> bind r g = bind r' g.
Proof. intros ->. reflexivity. Qed.

Section Inj.
  Context (f : string -> string).
  Hypothesis inj : forall s t, f s = f t -> s = t.
  Notation ren := (rename f).

  (** * The stratified split *)
  Lemma inj_count l k : count_occ string_dec (map f l) (f k) = count_occ string_dec l k.
  Proof.
    induction l as [|x l IH]; [reflexivity|]. cbn. rewrite IH. destruct (string_dec x k) as [->|H]; destruct (string_dec (f _) (f k)) as [E|E]; try reflexivity; try congruence.
    destruct (H (inj _ _ E)).
  Qed.
  Lemma distribution_cofl l : class_distribution l = cofl (map label l).
  Proof. unfold class_distribution, cofl. generalize (@nil (string * nat)). induction l as [|x l IH]; intros c; [reflexivity|]. cbn. apply IH. Qed.
  Lemma inj_probability l k : probability (class_distribution (map ren l)) (f k) = probability (class_distribution l) k.
  Proof.
    unfold probability. rewrite !distribution_cofl, !csum_cofl, !ccount_cofl, !map_length, map_map. cbn [label rename].
    rewrite <- (inj_count (map label l)), map_map. reflexivity.
  Qed.
  Lemma inj_strat rarr ratio seed l : part_strat rarr ratio seed (map ren l) = rmap (map (map ren)) (part_strat rarr ratio seed l).
  Proof.
    unfold part_strat. rewrite map_length. generalize (rarr (length l) seed). intros is.
    assert (G : forall is c c' gs, (forall k, ccount c' (f k) = ccount c k) ->
      (do st <- foldM (strat_step (map ren l) ratio) is (c', map (map ren) gs); Ok (snd st)) = rmap (map (map ren)) (do st <- foldM (strat_step l ratio) is (c, gs); Ok (snd st))).
    { clear is. induction is as [|i is IH]; intros c c' gs Hc; [reflexivity|]. cbn [foldM].
      unfold strat_step at 1 3. rewrite atn_map.
      destruct (atn l i) as [x| | |]; cbn [rmap bind]; try reflexivity. cbn [label rename]. rewrite inj_probability, Hc, map_length, ren_add_to.
      destruct (add_to gs _ x) as [gs'| | |]; cbn [rmap bind]; try reflexivity.
      apply IH. intros k. rewrite !ccount_cput, Hc, (f_eqb f inj). reflexivity. }
    apply (G is [] [] [[]; []]). reflexivity.
  Qed.

  (** * Networks *)
  Section Net.
    Context (dexp dtanh : dbl -> dbl) (rarr : nat -> Z -> list nat) (perm : Z -> nat -> list nat) (rand : Z -> nat -> nat -> list (list dbl)).
    Notation rl := (fun p : string * list dbl => (f (fst p), snd p)).
    Lemma inj_initialize l : initialize (map ren l) = rmap (fun p => (map f (fst p), snd p)) (initialize l).
    Proof.
      unfold initialize. rewrite ren_head, rmap_bind. apply bind_ext. intros x0. change (discrete_check (ren x0)) with (discrete_check x0).
      change (inst_size (ren x0)) with (inst_size x0). destruct (discrete_check x0); [|reflexivity]. rewrite (ren_distinct f inj). reflexivity.
    Qed.
    Lemma inj_split ratio seed l : split_lists rarr ratio seed (map ren l) =
      rmap (fun p => (map ren (fst p), map ren (snd p))) (split_lists rarr ratio seed l).
    Proof.
      unfold split_lists. rewrite inj_strat, bind_rmap, rmap_bind. apply bind_ext. intros gs. rewrite !atn_map, bind_rmap, rmap_bind. apply bind_ext. intros tr.
      rewrite bind_rmap, rmap_bind. reflexivity.
    Qed.
    Lemma inj_minus labels x input w : r_minus_y dexp (map f labels) (ren x) input w = r_minus_y dexp labels x input w.
    Proof. unfold r_minus_y. rewrite map_length. cbn [label rename]. rewrite (f_find f inj). reflexivity. Qed.
    Lemma inj_composite labels ls y : predict_composite (map f labels) (map f ls) y = rmap f (predict_composite labels ls y).
    Proof.
      unfold predict_composite. rewrite atn_map, bind_rmap, rmap_bind. apply bind_ext. intros p0. rewrite map_length.
      pose proof (foldM_sim (fun st : dbl * string => (fst st, f (snd st))) (composite_step labels ls y) (composite_step (map f labels) (map f ls) y) (seq 0 (length labels))) as F.
      specialize (F ltac:(intros [d s] i _; unfold composite_step; rewrite atn_map, bind_rmap, rmap_bind; apply bind_ext; intros c; rewrite (f_mem f inj);
        destruct (mem_str c ls); [|reflexivity]; rewrite rmap_bind; apply bind_ext; intros v; cbn [fst snd]; destruct (dgtb v d); reflexivity) (dopp dbl_max, p0)).
      cbn [fst snd] in F. rewrite F, bind_rmap, rmap_bind. reflexivity.
    Qed.
    Lemma inj_choose labels y x : choose (map f labels) y (ren x) = rmap f (choose labels y x).
    Proof.
      unfold choose. cbn [composite rename]. destruct (composite x) as [ls|]; cbn [option_map]; [apply inj_composite|].
      rewrite rmap_bind. apply bind_ext. intros i. apply atn_map.
    Qed.
    Lemma inj_net_predict output labels y x : net_predict output (map f labels) y (ren x) = rmap rl (net_predict output labels y x).
    Proof.
      unfold net_predict. change (input_vector (ren x)) with (input_vector x). rewrite rmap_bind. apply bind_ext. intros y'.
      rewrite inj_choose, bind_rmap, rmap_bind. reflexivity.
    Qed.
    Lemma inj_net_test output labels l y : net_test output (map f labels) (map ren l) y = net_test output labels l y.
    Proof.
      unfold net_test. rewrite foldM_map, map_length. f_equal. apply foldM_ext'. intros [k y0] x _. cbn [fst snd]. rewrite inj_net_predict, bind_rmap. apply bind_ext.
      intros p. cbn [fst snd label rename]. rewrite (f_eqb f inj). reflexivity.
    Qed.
    Lemma epochs_sim {S S' W : Type} (phi : S -> S') body body' score score' better (weights : S -> W) (weights' : S' -> W) decay n rate s score0 :
      (forall r s, body' r (phi s) = rmap phi (body r s)) ->
      (forall s, score' (phi s) = rmap (fun p : dbl * S => (fst p, phi (snd p))) (score s)) ->
      (forall s, weights' (phi s) = weights s) ->
      run_epochs body' score' better weights' decay n rate (phi s) score0 = rmap (fun r => (phi (fst r), snd r)) (run_epochs body score better weights decay n rate s score0).
    Proof.
      intros Hb Hs Hw. unfold run_epochs. rewrite Hw.
      pose proof (foldM_sim (fun st : S * dbl * (dbl * W) => (phi (fst (fst st)), snd (fst st), snd st))
        (fun (st : S * dbl * (dbl * W)) (_ : nat) => let '(s, rate, best) := st in do s1 <- body rate s; do t <- score s1;
           Ok (snd t, dmul rate decay, if better (fst t) (fst best) then (fst t, weights (snd t)) else best))
        (fun (st : S' * dbl * (dbl * W)) (_ : nat) => let '(s, rate, best) := st in do s1 <- body' rate s; do t <- score' s1;
           Ok (snd t, dmul rate decay, if better (fst t) (fst best) then (fst t, weights' (snd t)) else best)) (seq 0 n)) as F.
      specialize (F ltac:(intros [[s0 r0] b0] i _; cbn [fst snd]; rewrite Hb, bind_rmap, rmap_bind; apply bind_ext; intros s1; rewrite Hs, bind_rmap, rmap_bind;
        apply bind_ext; intros t; cbn [fst snd rmap]; rewrite Hw; reflexivity) (s, rate, (score0, weights s))).
      cbn [fst snd] in F. rewrite F, bind_rmap, rmap_bind. reflexivity.
    Qed.
    Notation rs := (fun s => (fst s, map ren (snd s))).
    Lemma body_sim {S} (step step' : S -> instance -> res S) seed s : (forall st x, step' st (ren x) = step st x) ->
      (let l := shuffle perm seed (map ren (snd s)) in do st <- foldM step' l (fst s); Ok (st, l)) =
      rmap rs (let l := shuffle perm seed (snd s) in do st <- foldM step l (fst s); Ok (st, l)).
    Proof.
      intros H. cbv zeta. rewrite ren_shuffle, foldM_map, rmap_bind. rewrite (foldM_ext' _ step) by (intros; apply H). reflexivity.
    Qed.
    (** linear perceptron *)
    Definition ren_linear (m : linear) := mkLin (map f (li_labels m)) (li_y m) (li_W m).
    Lemma inj_linear_step labels rate st x : linear_step dexp (map f labels) rate st (ren x) = linear_step dexp labels rate st x.
    Proof. unfold linear_step. destruct st as [w y]. rewrite inj_minus. reflexivity. Qed.
    Lemma inj_linear_train old l p : linear_train dexp rarr perm rand (ren_linear old) (map ren l) p = rmap ren_linear (linear_train dexp rarr perm rand old l p).
    Proof.
      unfold linear_train. rewrite inj_initialize, bind_rmap, rmap_bind. apply bind_ext. intros i. cbn [fst snd].
      rewrite inj_split, bind_rmap, rmap_bind. apply bind_ext. intros sp. cbn [fst snd]. rewrite map_length.
      pose proof (epochs_sim (S := (mat * list dbl) * ilist) rs (linear_body dexp perm (fst i) (p_seed p)) (linear_body dexp perm (map f (fst i)) (p_seed p))
        (linear_score (fst i) (snd sp)) (linear_score (map f (fst i)) (map ren (snd sp))) dgtb (fun s => fst (fst s)) (fun s => fst (fst s))
        (p_decay p) (p_epochs p) (p_rate p) (allocate rand (p_seed p) (length (fst i)) (snd i + 1), li_y old, fst sp) d0) as E.
      cbn [fst snd] in E. etransitivity; [apply bind_cong, E|].
      - intros r s. exact (body_sim (linear_step dexp (fst i) r) (linear_step dexp (map f (fst i)) r) (p_seed p) s (inj_linear_step (fst i) r)).
      - intros s. unfold linear_score. cbn [fst snd]. rewrite inj_net_test, rmap_bind. reflexivity.
      - reflexivity.
      - rewrite bind_rmap, rmap_bind. reflexivity.
    Qed.
    Lemma inj_linear_predict m x : linear_predict (ren_linear m) (ren x) = rmap rl (linear_predict m x).
    Proof. apply inj_net_predict. Qed.
    (** multilayer perceptron *)
    Definition ren_mlp (m : mlp) := mkMlp (map f (ml_labels m)) (ml_y m) (ml_W m) (ml_V m) (ml_act m).
    Lemma inj_mlp_step labels a rate st x : mlp_step dexp dtanh (map f labels) a rate st (ren x) = mlp_step dexp dtanh labels a rate st x.
    Proof.
      unfold mlp_step. destruct st as [[w v] y]. change (input_vector (ren x)) with (input_vector x).
      destruct (hidden dexp dtanh (input_vector x) w a) as [h|e| |]; cbn [attempt]; try reflexivity. rewrite inj_minus. reflexivity.
    Qed.
    Lemma inj_mlp_train old l p : mlp_train dexp dtanh rarr perm rand (ren_mlp old) (map ren l) p = rmap ren_mlp (mlp_train dexp dtanh rarr perm rand old l p).
    Proof.
      unfold mlp_train. rewrite inj_initialize, bind_rmap, rmap_bind. apply bind_ext. intros i. cbn [fst snd].
      rewrite inj_split, bind_rmap, rmap_bind. apply bind_ext. intros sp. cbn [fst snd]. rewrite map_length. rewrite rmap_bind. apply bind_ext. intros h.
      pose proof (epochs_sim (S := (mat * mat * list dbl) * ilist) rs (mlp_body dexp dtanh perm (fst i) (p_act p) (p_seed p)) (mlp_body dexp dtanh perm (map f (fst i)) (p_act p) (p_seed p))
        (mlp_score dexp dtanh (fst i) (p_act p) (snd sp)) (mlp_score dexp dtanh (map f (fst i)) (p_act p) (map ren (snd sp))) dgtb (fun s => fst (fst s)) (fun s => fst (fst s))
        (p_decay p) (p_epochs p) (p_rate p) (allocate rand (p_seed p) h (snd i + 1), allocate rand (p_seed p) (length (fst i)) (h + 1), ml_y old, fst sp) d0) as E.
      cbn [fst snd] in E. etransitivity; [apply bind_cong, E|].
      - intros r s. exact (body_sim (mlp_step dexp dtanh (fst i) (p_act p) r) (mlp_step dexp dtanh (map f (fst i)) (p_act p) r) (p_seed p) s (inj_mlp_step (fst i) (p_act p) r)).
      - intros [[[w v] y] d]. unfold mlp_score. cbn [fst snd]. rewrite inj_net_test, rmap_bind. reflexivity.
      - reflexivity.
      - rewrite bind_rmap, rmap_bind. reflexivity.
    Qed.
    Lemma inj_mlp_predict m x : mlp_predict dexp dtanh (ren_mlp m) (ren x) = rmap rl (mlp_predict dexp dtanh m x).
    Proof. apply inj_net_predict. Qed.
    (** deep network *)
    Definition ren_deep (m : deep) := mkDeep (map f (de_labels m)) (de_y m) (de_weights m) (de_layers m) (de_act m).
    Lemma inj_deep_step labels a n rate st x : deep_step dexp dtanh (map f labels) a n rate st (ren x) = deep_step dexp dtanh labels a n rate st x.
    Proof.
      unfold deep_step. destruct st as [ws y]. change (input_vector (ren x)) with (input_vector x).
      destruct (deep_forward dexp dtanh a (input_vector x) ws n) as [hh|e| |]; cbn [attempt]; try reflexivity.
      destruct (atn (snd hh) (n - 1)) as [hb|e| |]; cbn [bind attempt]; try reflexivity.
      destruct (atn ws (length ws - 1)) as [w|e| |]; cbn [bind attempt]; try reflexivity. rewrite inj_minus. reflexivity.
    Qed.
    Lemma inj_deep_train old l p : deep_train dexp dtanh rarr perm rand (ren_deep old) (map ren l) p = rmap ren_deep (deep_train dexp dtanh rarr perm rand old l p).
    Proof.
      unfold deep_train. rewrite inj_initialize, bind_rmap, rmap_bind. apply bind_ext. intros i. cbn [fst snd].
      rewrite inj_split, bind_rmap, rmap_bind. apply bind_ext. intros sp. cbn [fst snd]. rewrite map_length. cbn [de_weights de_y ren_deep]. rewrite rmap_bind. apply bind_ext. intros ws.
      pose proof (epochs_sim (S := (list mat * list dbl) * ilist) rs (deep_body dexp dtanh perm (fst i) (p_act p) (length (p_hidden p)) (p_seed p))
        (deep_body dexp dtanh perm (map f (fst i)) (p_act p) (length (p_hidden p)) (p_seed p))
        (deep_score dexp dtanh (fst i) (p_act p) (snd sp)) (deep_score dexp dtanh (map f (fst i)) (p_act p) (map ren (snd sp))) dgtb (fun s => fst (fst s)) (fun s => fst (fst s))
        (p_decay p) (p_epochs p) (p_rate p) (ws, de_y old, fst sp) d0) as E.
      cbn [fst snd] in E. etransitivity; [apply bind_cong, E|].
      - intros r s. exact (body_sim (deep_step dexp dtanh (fst i) (p_act p) (length (p_hidden p)) r) (deep_step dexp dtanh (map f (fst i)) (p_act p) (length (p_hidden p)) r) (p_seed p) s
          (inj_deep_step (fst i) (p_act p) (length (p_hidden p)) r)).
      - intros [[ws0 y] d]. unfold deep_score. cbn [fst snd]. rewrite inj_net_test, rmap_bind. reflexivity.
      - reflexivity.
      - rewrite bind_rmap, rmap_bind. reflexivity.
    Qed.
    Lemma inj_deep_predict m x : deep_predict dexp dtanh (ren_deep m) (ren x) = rmap rl (deep_predict dexp dtanh m x).
    Proof. apply inj_net_predict. Qed.
    (** auto encoder *)
    Definition ren_auto (m : auto) := mkAuto (map f (au_labels m)) (au_y m) (au_W m) (au_V m).
    Lemma inj_auto_train old l p : auto_train dexp dtanh rarr perm rand (ren_auto old) (map ren l) p = rmap ren_auto (auto_train dexp dtanh rarr perm rand old l p).
    Proof.
      unfold auto_train. rewrite inj_initialize, bind_rmap, rmap_bind. apply bind_ext. intros i. cbn [fst snd].
      rewrite inj_split, bind_rmap, rmap_bind. apply bind_ext. intros sp. cbn [fst snd]. rewrite ren_head, rmap_bind. apply bind_ext. intros x0.
      change (inst_size (ren x0)) with (inst_size x0). rewrite rmap_bind. apply bind_ext. intros h.
      pose proof (epochs_sim (S := (mat * mat * list dbl) * ilist) rs (auto_body dexp dtanh perm (p_seed p)) (auto_body dexp dtanh perm (p_seed p))
        (auto_score dexp dtanh (snd sp)) (auto_score dexp dtanh (map ren (snd sp))) dltb (fun s => fst (fst s)) (fun s => fst (fst s))
        (Fin (95 # 100)) (p_epochs p) (p_rate p) (allocate rand (p_seed p) h (snd i + 1), allocate rand (p_seed p) (inst_size x0) (h + 1), au_y old, fst sp) dbl_max) as E.
      cbn [fst snd] in E. etransitivity; [apply bind_cong, E|].
      - intros r s. exact (body_sim (auto_step dexp dtanh r) (auto_step dexp dtanh r) (p_seed p) s (fun _ _ => eq_refl)).
      - intros [[[w v] y] d]. unfold auto_score. cbn [fst snd]. assert (T : auto_test dexp dtanh w v (map ren (snd sp)) y = auto_test dexp dtanh w v (snd sp) y).
        { unfold auto_test. rewrite foldM_map, map_length. reflexivity. }
        rewrite T, rmap_bind. reflexivity.
      - reflexivity.
      - rewrite bind_rmap, rmap_bind. reflexivity.
    Qed.
  End Net.

  (** * Soft trees *)
  Section Soft.
    Context (dexp : dbl -> dbl) (rarr : nat -> Z -> list nat) (perm : Z -> nat -> list nat) (rnd : nat -> dbl).
    Lemma inj_new_node l k : new_node rnd (map ren l) k = new_node rnd l k.
    Proof. unfold new_node. rewrite (ren_distinct f inj), map_length, ren_head. reflexivity. Qed.
    Lemma inj_class_index labels c : class_index (map f labels) (f c) = class_index labels c.
    Proof. unfold class_index. rewrite (f_mem f inj), (f_find f inj). reflexivity. Qed.
    Lemma inj_soft_error labels cv t : soft_error dexp (map f labels) (map ren cv) t = soft_error dexp labels cv t.
    Proof. unfold soft_error. rewrite foldM_map. apply foldM_ext'. intros st x _. cbn [label rename]. rewrite inj_class_index. reflexivity. Qed.
    Lemma inj_grad labels alpha eta p st x : grad_inst dexp (map f labels) alpha eta p st (ren x) = grad_inst dexp labels alpha eta p st x.
    Proof.
      unfold grad_inst. change (inst_vector (ren x)) with (inst_vector x). apply bind_ext. intros o. cbn [label rename]. rewrite inj_class_index. apply bind_ext. intros r.
      apply bind_ext. intros this. destruct this as [n|n cl cr]; [reflexivity|]. rewrite map_length. apply bind_ext. intros lw. apply bind_ext. intros rw.
      unfold gate_update. rewrite map_length. reflexivity.
    Qed.
    Notation rsd := (fun s : stree * ilist => (fst s, map ren (snd s))).
    Lemma inj_descent labels par p eta s : descent dexp perm (map f labels) par p eta (rsd s) = rmap rsd (descent dexp perm labels par p eta s).
    Proof.
      unfold descent. cbn [fst snd]. rewrite ren_head, rmap_bind. apply bind_ext. intros x0. change (attr_count (ren x0)) with (attr_count x0). rewrite map_length. cbv zeta.
      match goal with |- context [foldM ?g' _ (?a, map ren (snd s), eta)] => match goal with |- context [foldM ?g _ (a, snd s, eta)] =>
        pose proof (foldM_sim (fun st : gstate * ilist * dbl => (fst (fst st), map ren (snd (fst st)), snd st)) g g' (seq 0 (sp_epochs par))) as F;
        specialize (F ltac:(intros [[g0 d0'] e0] i _; cbn [fst snd]; rewrite ren_shuffle, foldM_map, rmap_bind;
          rewrite (foldM_ext' _ (grad_inst dexp labels (sp_alpha par) e0 p)) by (intros; apply inj_grad); reflexivity) (a, snd s, eta)) end end.
      cbn [fst snd] in F. etransitivity; [apply bind_cong, F|]. rewrite bind_rmap, rmap_bind. reflexivity.
    Qed.
    Lemma inj_round labels par cv p tmp st i :
      split_round dexp perm (map f labels) par (map ren cv) p tmp (fst (fst (fst st)), map ren (snd (fst (fst st))), snd (fst st), snd st) i =
      rmap (fun st => (fst (fst (fst st)), map ren (snd (fst (fst st))), snd (fst st), snd st)) (split_round dexp perm labels par cv p tmp st i).
    Proof.
      destruct st as [[[t data] best] bn]. unfold split_round. cbn [fst snd].
      pose proof (inj_descent labels par p (eta_of i) (t, data)) as D. cbn [fst snd] in D. etransitivity; [apply bind_cong, D|]. rewrite bind_rmap, rmap_bind. apply bind_ext. intros g. cbn [fst snd].
      rewrite inj_soft_error, rmap_bind. apply bind_ext. intros e. rewrite rmap_bind. apply bind_ext. intros this. rewrite rmap_bind. apply bind_ext. intros now.
      rewrite rmap_bind. apply bind_ext. intros this'. reflexivity.
    Qed.
    Notation rst := (fun st : stree * ilist * nat => (fst (fst st), map ren (snd (fst st)), snd st)).
    Lemma inj_create data k : create_node rnd (map ren data) k = create_node rnd data k.
    Proof.
      unfold create_node. rewrite inj_new_node. apply bind_ext. intros a. rewrite inj_new_node. reflexivity.
    Qed.
    Lemma inj_find_split labels par cv p st : find_split dexp perm rnd (map f labels) par (map ren cv) p (rst st) =
      rmap (fun r => (fst r, rst (snd r))) (find_split dexp perm rnd labels par cv p st).
    Proof.
      destruct st as [[t data] k]. unfold find_split. cbn [fst snd]. rewrite rmap_bind. apply bind_ext. intros this0.
      rewrite inj_soft_error, rmap_bind. apply bind_ext. intros before. rewrite rmap_bind. apply bind_ext. intros this1.
      rewrite inj_new_node, rmap_bind. apply bind_ext. intros a. rewrite inj_new_node, rmap_bind. apply bind_ext. intros b.
      rewrite inj_create, rmap_bind. apply bind_ext. intros best0. rewrite inj_create, rmap_bind. apply bind_ext. intros tmp0.
      rewrite rmap_bind. apply bind_ext. intros tmp.
      pose proof (foldM_sim (fun st : stree * ilist * Z * params => (fst (fst (fst st)), map ren (snd (fst (fst st))), snd (fst st), snd st))
        (split_round dexp perm labels par cv p tmp) (split_round dexp perm (map f labels) par (map ren cv) p tmp) (seq 0 11) (fun s i _ => inj_round labels par cv p tmp s i)
        (put (snd before) p (SNode (s_node this1) (SLeaf (fst a)) (SLeaf (fst b))), data, int_max_nat, fst best0)) as F.
      cbn [fst snd] in F. etransitivity; [apply bind_cong, F|]. rewrite bind_rmap, rmap_bind. apply bind_ext. intros [[[t3 data3] best] bn]. cbn [fst snd].
      rewrite rmap_bind. apply bind_ext. intros this3. destruct (_ <=? best)%Z; [reflexivity|]. rewrite rmap_bind. reflexivity.
    Qed.
    Lemma inj_grow labels par cv fuel : forall p st, grow dexp perm rnd (map f labels) par (map ren cv) fuel p (rst st) = rmap rst (grow dexp perm rnd labels par cv fuel p st).
    Proof.
      induction fuel as [|fuel IH]; intros p st; [reflexivity|]. cbn [grow]. rewrite inj_find_split, bind_rmap, rmap_bind. apply bind_ext. intros r. cbn [fst snd].
      destruct (fst r); [|reflexivity]. rewrite (IH _ (snd r)), bind_rmap, rmap_bind. apply bind_ext. intros s1. apply IH.
    Qed.
    Definition ren_soft (m : soft) := mkSoft (map f (so_labels m)) (so_root m).
    Lemma inj_soft_train fuel l par : soft_train dexp rarr perm rnd fuel (map ren l) par = rmap ren_soft (soft_train dexp rarr perm rnd fuel l par).
    Proof.
      unfold soft_train. rewrite inj_new_node, rmap_bind. apply bind_ext. intros root. rewrite (ren_distinct f inj), (inj_split rarr), bind_rmap, rmap_bind.
      apply bind_ext. intros sp. cbn [fst snd]. pose proof (inj_grow (distinct_labels l) par (snd sp) fuel [] (SLeaf (fst root), fst sp, snd root)) as G. cbn [fst snd] in G.
      etransitivity; [apply bind_cong, G|]. rewrite bind_rmap, rmap_bind. reflexivity.
    Qed.
    Lemma inj_soft_predict m x : f "" = "" -> soft_predict dexp (ren_soft m) (ren x) = rmap (fun p => (f (fst p), ren_soft (snd p))) (soft_predict dexp m x).
    Proof.
      intros H0. unfold soft_predict. change (inst_vector (ren x)) with (inst_vector x). cbn [so_root so_labels ren_soft]. rewrite rmap_bind. apply bind_ext. intros o.
      rewrite rmap_bind. apply bind_ext. intros i. rewrite nth_error_map. destruct (nth_error (so_labels m) i); [reflexivity|].
      cbn. unfold ren_soft. cbn. rewrite H0. reflexivity.
    Qed.
  End Soft.
End Inj.
