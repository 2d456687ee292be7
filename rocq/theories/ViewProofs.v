(** Proofs for C142. *)
From Coq Require Import String ZArith QArith Bool List Lia Permutation.
From Verif Require Import Base AttrModel InstanceListModel PartitionModel PartitionProofs PerformanceModel ExperimentModel LibModel RenameProofs RenameLibProofs HeapProofs ViewSpec.
From Verif Require ConstTreeProofs.
Import ListNotations.
Local Open Scope list_scope.
Local Open Scope nat_scope.

Notation h2 h := (fun t : ilist * ilist => (map h (fst t), map h (snd t))).

Lemma bind_assoc {A B C} (r : res A) (f : A -> res B) (g : B -> res C) : bind (bind r f) g = bind r (fun a => bind (f a) g).
Proof. destruct r; reflexivity. Qed.
Section View.
  Context (h : instance -> instance) (Hh : keeps_class h).
  Lemma vw_labels l : map label (map h l) = map label l.
  Proof. rewrite map_map. apply map_ext. exact Hh. Qed.
  Lemma vw_add_to gs i x : add_to (map (map h) gs) i (h x) = rmap (map (map h)) (add_to gs i x).
  Proof. unfold add_to. rewrite atn_map, bind_rmap, rmap_bind. apply bind_ext. intros l. cbn. f_equal. rewrite <- upd_map. f_equal. rewrite map_app. reflexivity. Qed.
  Lemma vw_distinct l : distinct_labels (map h l) = distinct_labels l.
  Proof.
    unfold distinct_labels. generalize (@nil string). induction l as [|x l IH]; intros acc; [reflexivity|]. cbn [map fold_left]. rewrite Hh. apply IH.
  Qed.
  Lemma vw_class_distribution l : class_distribution (map h l) = class_distribution l.
  Proof.
    unfold class_distribution. generalize (@nil (string * nat)). induction l as [|x l IH]; intros acc; [reflexivity|]. cbn [map fold_left]. rewrite Hh. apply IH.
  Qed.
  Lemma vw_part_class l : part_class (map h l) = rmap (map (map h)) (part_class l).
  Proof.
    unfold part_class. rewrite vw_distinct, foldM_map.
    replace (repeat (@nil instance) (length (distinct_labels l))) with (map (map h) (repeat [] (length (distinct_labels l)))) at 1 by (rewrite map_repeat_; reflexivity).
    apply (foldM_sim (map (map h))). intros gs x _. rewrite Hh. apply vw_add_to.
  Qed.
  Lemma vw_shuffle perm seed l : shuffle perm seed (map h l) = map h (shuffle perm seed l).
  Proof. unfold shuffle. rewrite map_length. apply rearrange_map. Qed.
  Lemma vw_part_random perm ratio seed l : part_random perm ratio seed (map h l) =
    rmap (fun r => (map h (fst r), map (map h) (snd r))) (part_random perm ratio seed l).
  Proof.
    unfold part_random. rewrite vw_shuffle, map_length, combine_map_r, foldM_map.
    match goal with |- context [foldM ?g _ _] => pose proof (foldM_sim (map (map h))
      (fun gs (ix : nat * instance) => add_to gs (if dltb (dofnat (fst ix)) (dmul (dofnat (length (shuffle perm seed l))) ratio) then 0 else 1) (snd ix)) g
      (combine (seq 0 (length (shuffle perm seed l))) (shuffle perm seed l))) as F end.
    specialize (F ltac:(intros gs ix _; cbn [fst snd]; apply vw_add_to) [[]; []]). cbn [map] in F. rewrite F, bind_rmap, rmap_bind. reflexivity.
  Qed.
  Lemma vw_strat rarr ratio seed l : part_strat rarr ratio seed (map h l) = rmap (map (map h)) (part_strat rarr ratio seed l).
  Proof.
    unfold part_strat. rewrite map_length. set (phi := fun st : counter * list ilist => (fst st, map (map h) (snd st))).
    pose proof (foldM_sim phi (strat_step l ratio) (strat_step (map h l) ratio) (rarr (length l) seed)) as F. match type of F with ?A -> _ => assert (H : A) end; [clear F|specialize (F H ([], [[]; []])); change (phi ([], [[]; []])) with (@nil (string * nat), [@nil instance; @nil instance]) in F; unfold counter, smap, ilist in *; rewrite F, bind_rmap, rmap_bind; reflexivity].
    intros [cs gs] i _. unfold strat_step, phi. cbn [fst snd]. rewrite atn_map, bind_rmap, rmap_bind. apply bind_ext. intros x. rewrite map_length, vw_class_distribution, Hh.
    rewrite vw_add_to, bind_rmap, rmap_bind. reflexivity.
  Qed.
  Lemma vw_hold_out perm seed l : hold_out perm seed (map h l) = rmap (h2 h) (hold_out perm seed l).
  Proof.
    unfold hold_out. rewrite vw_part_random, bind_rmap, rmap_bind. apply bind_ext. intros [l' gs]. cbn [fst snd]. destruct gs as [|g0 [|g1 [|g2 gs]]]; reflexivity.
  Qed.
  Lemma vw_shold_out rarr seed l : shold_out rarr seed (map h l) = rmap (h2 h) (shold_out rarr seed l).
  Proof.
    unfold shold_out. rewrite vw_strat, bind_rmap, rmap_bind. apply bind_ext. intros gs. destruct gs as [|g0 [|g1 [|g2 gs]]]; reflexivity.
  Qed.
End View.

Section Rounds.
  Context (kfold : ilist -> nat -> Z -> nat -> ilist * ilist) (skfold : list ilist -> nat -> Z -> nat -> ilist * ilist) (sample : ilist -> Z -> ilist)
          (perm : Z -> nat -> list nat) (rarr : nat -> Z -> list nat).
  Definition folds (cv : nat -> ilist * ilist) (K : nat) : list (ilist * ilist) := map cv (seq 0 K).
  Definition seps (cv : nat -> ilist * ilist) (K : nat) (te : ilist) : list (ilist * ilist) := map (fun i => (fst (cv i), te)) (seq 0 K).
  Definition times_ (n : nat) (l : list (ilist * ilist)) : list (ilist * ilist) := concat (repeat l n).
  Definition rounds_of (r : run) (seed : Z) (l : ilist) : res (list (ilist * ilist)) :=
    match r with
    | KFold K => Ok (folds (kfold l K seed) K)
    | SKFold K => do gs <- part_class l; Ok (folds (skfold gs K seed) K)
    | MxKFold n K => Ok (times_ n (folds (kfold l K seed) K))
    | SMxKFold n K => match n with 0 => Ok [] | _ => do gs <- part_class l; Ok (times_ n (folds (skfold gs K seed) K)) end
    | KFoldSep K => do t <- hold_out perm seed l; Ok (seps (kfold (snd t) K seed) K (fst t))
    | SKFoldSep K => do t <- shold_out rarr seed l; do gs <- part_class (snd t); Ok (seps (skfold gs K seed) K (fst t))
    | MxKFoldSep n K => do t <- hold_out perm seed l; Ok (times_ n (seps (kfold (snd t) K seed) K (fst t)))
    | SMxKFoldSep n K => do t <- shold_out rarr seed l;
                         match n with 0 => Ok [] | _ => do gs <- part_class (snd t); Ok (times_ n (seps (skfold gs K seed) K (fst t))) end
    | Boot n => Ok (map (fun i => (sample l (Z.of_nat i + seed)%Z, l)) (seq 0 n))
    end.
  Section Any.
    Context {M : Type} (train : M -> ilist -> res M) (test : M -> ilist -> res perf).
    Definition step (st : M * experiment) (t : ilist * ilist) : res (M * experiment) :=
      do m <- train (fst st) (fst t); do p <- test m (snd t); Ok (m, exp_add (snd st) p).
    Lemma run_folds_step cv K st : run_folds train test cv K st = foldM step (folds cv K) st.
    Proof. unfold folds. rewrite foldM_map. reflexivity. Qed.
    Lemma run_separate_step cv K te st : run_separate train test cv K te st = foldM step (seps cv K te) st.
    Proof. unfold seps. rewrite foldM_map. reflexivity. Qed.
    Lemma repeat_step n rs : forall st k, foldM (fun s (_ : nat) => foldM step rs s) (seq k n) st = foldM step (times_ n rs) st.
    Proof.
      unfold times_. induction n as [|n IH]; intros st k; [reflexivity|]. cbn [seq foldM repeat concat]. rewrite HeapProofs.foldM_app. apply bind_ext. intros s. apply IH.
    Qed.
    Lemma repeat_ext n (g g' : M * experiment -> res (M * experiment)) st : (forall s, g s = g' s) -> repeatM n g st = repeatM n g' st.
    Proof. intros H. unfold repeatM. apply ConstTreeProofs.foldM_same. intros a x _. apply H. Qed.
    Lemma repeat_under {A} n (r : res A) (g : A -> M * experiment -> res (M * experiment)) st :
      repeatM (S n) (fun s => do a <- r; g a s) st = do a <- r; repeatM (S n) (g a) st.
    Proof. destruct r; reflexivity. Qed.
    Lemma run_rounds r seed l m : run_with train test kfold skfold sample perm rarr r seed l m = do rs <- rounds_of r seed l; foldM step rs (m, exp_empty).
    Proof.
      destruct r as [K|K|n K|n K|K|K|n K|n K|n]; cbn [run_with rounds_of bind].
      - apply run_folds_step.
      - unfold skfold_run. rewrite bind_assoc. apply bind_ext. intros gs. apply run_folds_step.
      - unfold mxkfold_run. rewrite (repeat_ext n _ (foldM step (folds (kfold l K seed) K))) by (intros s; apply run_folds_step). apply repeat_step.
      - unfold smxkfold_run. destruct n as [|n]; [reflexivity|]. rewrite repeat_under, bind_assoc. apply bind_ext. intros gs.
        rewrite (repeat_ext (S n) _ (foldM step (folds (skfold gs K seed) K))) by (intros s; apply run_folds_step). apply repeat_step.
      - unfold kfold_sep_run. rewrite bind_assoc. apply bind_ext. intros t. apply run_separate_step.
      - unfold skfold_sep_run. rewrite bind_assoc. apply bind_ext. intros t. rewrite bind_assoc. apply bind_ext. intros gs. apply run_separate_step.
      - unfold mxkfold_sep_run. rewrite bind_assoc. apply bind_ext. intros t.
        rewrite (repeat_ext n _ (foldM step (seps (kfold (snd t) K seed) K (fst t)))) by (intros s; apply run_separate_step). apply repeat_step.
      - unfold smxkfold_sep_run. rewrite bind_assoc. apply bind_ext. intros t. destruct n as [|n]; [reflexivity|]. rewrite repeat_under, bind_assoc. apply bind_ext. intros gs.
        rewrite (repeat_ext (S n) _ (foldM step (seps (skfold gs K seed) K (fst t)))) by (intros s; apply run_separate_step). apply repeat_step.
      - unfold bootstrap_run. rewrite foldM_map. reflexivity.
    Qed.
    Lemma step_play rs : forall m done, foldM step rs (m, fold_left exp_add done exp_empty) = rmap (fun s => (fst s, fold_left exp_add (snd s) exp_empty)) (play train test rs m done).
    Proof.
      induction rs as [|[tr te] rs IH]; intros m done; [reflexivity|]. cbn [foldM play]. unfold step at 1. cbn [fst snd]. destruct (train m tr) as [m1| | |]; cbn [bind]; try reflexivity.
      destruct (test m1 te) as [p| | |]; cbn [bind]; try reflexivity. rewrite <- IH, fold_left_app. reflexivity.
    Qed.
  End Any.
  Lemma times_map h n rs : times_ n (map (h2 h) rs) = map (h2 h) (times_ n rs).
  Proof. unfold times_. induction n as [|n IH]; [reflexivity|]. cbn [repeat concat]. rewrite IH, map_app. reflexivity. Qed.
  Lemma folds_map h cv cv' K : (forall i, cv' i = h2 h (cv i)) -> folds cv' K = map (h2 h) (folds cv K).
  Proof. intros H. unfold folds. rewrite map_map. apply map_ext. exact H. Qed.
  Lemma seps_map h cv cv' K te : (forall i, cv' i = h2 h (cv i)) -> seps cv' K (map h te) = map (h2 h) (seps cv K te).
  Proof. intros H. unfold seps. rewrite map_map. apply map_ext. intros i. rewrite H. reflexivity. Qed.
  Lemma rounds_view h r seed l : keeps_class h -> positional kfold skfold sample -> rounds_of r seed (map h l) = rmap (through h) (rounds_of r seed l).
  Proof.
    intros Hh HP. destruct (HP h) as (Hk & Hsk & Hsm). unfold through. destruct r as [K|K|n K|n K|K|K|n K|n K|n]; cbn [rounds_of].
    - apply (f_equal Ok). apply folds_map. intros i. apply Hk.
    - rewrite (vw_part_class h Hh), bind_rmap, rmap_bind. apply bind_ext. intros gs. apply (f_equal Ok). apply folds_map. intros i. apply Hsk.
    - apply (f_equal Ok). rewrite <- times_map. f_equal. apply folds_map. intros i. apply Hk.
    - destruct n as [|n]; [reflexivity|]. rewrite (vw_part_class h Hh), bind_rmap, rmap_bind. apply bind_ext. intros gs. apply (f_equal Ok). rewrite <- times_map. f_equal. apply folds_map. intros i. apply Hsk.
    - rewrite (vw_hold_out h), bind_rmap, rmap_bind. apply bind_ext. intros t. cbn [fst snd]. apply (f_equal Ok). apply seps_map. intros i. apply Hk.
    - rewrite (vw_shold_out h Hh), bind_rmap, rmap_bind. apply bind_ext. intros t. cbn [fst snd]. rewrite (vw_part_class h Hh), bind_rmap, rmap_bind. apply bind_ext. intros gs. apply (f_equal Ok). apply seps_map. intros i. apply Hsk.
    - rewrite (vw_hold_out h), bind_rmap, rmap_bind. apply bind_ext. intros t. cbn [fst snd]. apply (f_equal Ok). rewrite <- times_map. f_equal. apply seps_map. intros i. apply Hk.
    - rewrite (vw_shold_out h Hh), bind_rmap, rmap_bind. apply bind_ext. intros t. cbn [fst snd]. destruct n as [|n]; [reflexivity|]. rewrite (vw_part_class h Hh), bind_rmap, rmap_bind. apply bind_ext. intros gs. apply (f_equal Ok).
      rewrite <- times_map. f_equal. apply seps_map. intros i. apply Hsk.
    - apply (f_equal Ok). rewrite map_map. apply map_ext. intros i. cbn [fst snd]. rewrite Hsm. reflexivity.
  Qed.
End Rounds.
