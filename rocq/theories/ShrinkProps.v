(** C71: the pair that violates most stays active when the solver shrinks, and when everything is looked at again. *)
From Coq Require Import String ZArith QArith Bool Lia Lqa List.
From Verif Require Import Base Spec BaseLemmas DblLemmas SolverModel SvmModel SvmSpec SvmProps SvmTrainProps FurtherProps.
Import ListNotations.
Local Open Scope list_scope.
Local Open Scope nat_scope.

(** Neither sample of a pair that violates the optimality conditions is set aside by doShrinking's test, whose bounds are those of the pair: [i] can still
    grow (as a multiplier times its label), [j] can still fall, and the pair can be improved. *)
Theorem C71_pair_stays : forall s i j sti stj yi yj gi gj,
  nth_error (s_status s) i = Some sti -> nth_error (s_y s) i = Some (Fin yi) -> nth_error (s_G s) i = Some (Fin gi) -> (yi == 1 \/ yi == -(1))%Q ->
  nth_error (s_status s) j = Some stj -> nth_error (s_y s) j = Some (Fin yj) -> nth_error (s_G s) j = Some (Fin gj) -> (yj == 1 \/ yj == -(1))%Q ->
  ~ only_falls sti yi -> ~ only_grows stj yj -> (0 <= yj * gj - yi * gi)%Q ->
  shrink_skip dgeb s (dmul (dopp (Fin yj)) (Fin gj)) (dmul (Fin yi) (Fin gi)) i = Ok true /\
  shrink_skip dgeb s (dmul (dopp (Fin yj)) (Fin gj)) (dmul (Fin yi) (Fin gi)) j = Ok true.
Proof.
  intros s i j sti stj yi yj gi gj Si Yi Gi Hi Sj Yj Gj Hj Fi Gj' V. cbn [dmul dopp].
  destruct (C71_set_aside s (- yj * gj)%Q (yi * gi)%Q i sti yi gi Si Yi Gi Hi) as (ki & bi & -> & _ & Ki & _).
  destruct (C71_set_aside s (- yj * gj)%Q (yi * gi)%Q j stj yj gj Sj Yj Gj Hj) as (kj & bj & -> & _ & Kj & _).
  split; f_equal.
  - apply Ki. destruct sti; [right; left|right; left|left; reflexivity]; (split; [|lra]); unfold only_grows, only_falls in *; destruct Hi as [Hi|Hi];
      first [left; split; [reflexivity|exact Hi]|right; split; [reflexivity|exact Hi]|exfalso; apply Fi; first [left; split; [reflexivity|exact Hi]|right; split; [reflexivity|exact Hi]] ].
  - apply Kj. destruct stj; [right; right|right; right|left; reflexivity]; (split; [|lra]); unfold only_grows, only_falls in *; destruct Hj as [Hj|Hj];
      first [left; split; [reflexivity|exact Hj]|right; split; [reflexivity|exact Hj]|exfalso; apply Gj'; first [left; split; [reflexivity|exact Hj]|right; split; [reflexivity|exact Hj]] ].
Qed.

Lemma swap_flag s i j s' : swap_index s i j = Ok s' -> s_unshrinked s' = s_unshrinked s.
Proof. unfold swap_index. intros E. do 8 (apply bind_ok in E as (? & _ & E)). injection E as <-. reflexivity. Qed.
Lemma shrink_flag n : forall k g0 g1 s s', shrink_loop n k g0 g1 s = Ok s' -> s_unshrinked s' = s_unshrinked s.
Proof.
  induction n as [|n IH]; intros k g0 g1 s s' E; cbn [shrink_loop] in E; [injection E as <-; reflexivity|]. apply bind_ok in E as (b & _ & E). destruct b; [apply (IH _ _ _ _ _ E)|].
  cbv zeta in E. apply bind_ok in E as (s1 & E1 & E). rewrite (IH _ _ _ _ _ E). apply swap_flag in E1. exact E1.
Qed.
Lemma unshrink_flag n : forall m g0 g1 s s', unshrink_loop n m g0 g1 s = Ok s' -> s_unshrinked s' = s_unshrinked s.
Proof.
  induction n as [|n IH]; intros m g0 g1 s s' E; cbn [unshrink_loop] in E; [injection E as <-; reflexivity|]. apply bind_ok in E as (b & _ & E). destruct b; [apply (IH _ _ _ _ _ E)|].
  apply bind_ok in E as (s1 & E1 & E). rewrite (IH _ _ _ _ _ E). apply swap_flag in E1. exact E1.
Qed.
Lemma reconstruct_flag dexp dtanh dpow s s' : reconstruct dexp dtanh dpow s = Ok s' -> s_unshrinked s' = s_unshrinked s.
Proof. unfold reconstruct. destruct (_ =? _); intros E; [injection E as <-; reflexivity|]. cbv zeta in E. apply bind_ok in E as (? & _ & E). apply bind_ok in E as (? & _ & E). injection E as <-. reflexivity. Qed.

(** All samples are looked at again once, in the first shrinking in which the pair violates the conditions by 0.01 or less (and still by 0.001, as
    otherwise nothing is shrunk). *)
Theorem C71_looks_again : forall dexp dtanh dpow s s' i j yi yj gi gj, select_ws s (None, None) = Ok (false, (Some i, Some j)) ->
  nth_error (s_y s) i = Some (Fin yi) -> nth_error (s_G s) i = Some (Fin gi) -> nth_error (s_y s) j = Some (Fin yj) -> nth_error (s_G s) j = Some (Fin gj) ->
  do_shrinking dexp dtanh dpow s = Ok s' -> (s_unshrinked s' = true <-> s_unshrinked s = true \/ yj * gj - yi * gi <= 1 # 100)%Q.
Proof.
  intros dexp dtanh dpow s s' i j yi yj gi gj Es Yi Gi Yj Gj E. unfold do_shrinking in E. rewrite Es in E. cbn [bind fst snd get_out] in E. unfold idxn in E at 1 2 3 4. rewrite Yi, Gi, Yj, Gj in E. cbn [bind] in E.
  cbv zeta in E. apply bind_ok in E as (s1 & E1 & E). apply shrink_flag in E1. cbn [dmul dopp dadd] in E. unfold eps10, dgtb in E. rewrite <- E1.
  destruct (s_unshrinked s1) eqn:U; cbn [orb] in E; [injection E as <-; rewrite U; tauto|].
  destruct (dltb _ _) eqn:D.
  - injection E as <-. rewrite U. apply dltb_fin in D. split; [discriminate|]. intros [H|H]; [discriminate|lra].
  - apply dltb_fin_false in D. apply bind_ok in E as (s2 & E2 & E). apply reconstruct_flag in E2. apply unshrink_flag in E. rewrite E, E2. split; [intros _; right; lra|reflexivity].
Qed.
(** A shrinking in which nothing violates the conditions by 0.001 changes nothing. *)
Theorem C71_shrinks_nothing : forall dexp dtanh dpow s out, select_ws s (None, None) = Ok (true, out) -> do_shrinking dexp dtanh dpow s = Ok s.
Proof. intros dexp dtanh dpow s out E. unfold do_shrinking. rewrite E. reflexivity. Qed.

(** Three samples at the lower bound. The first two violate by 0.02: the third is set aside. They violate by 0.008: it is set aside and brought back. *)
Example C71_looks_again_case : let ys := [Fin 1; Fin (-1); Fin 1] in
  match qmatrix_new 3 [[]; []; []] parS ys with
  | Ok q => let st (v : Q) := mkSolver 3 ys [Fin 0; Fin 0; Fin 0] [Fin v; Fin v; Fin 5] [LOWER_BOUND; LOWER_BOUND; LOWER_BOUND] q (Fin 1) [Fin (-1); Fin (-1); Fin (-1)] [0; 1; 2] [Fin 0; Fin 0; Fin 0] 3 false true in
      match do_shrinking idd idd idp (st (-1 # 100)), do_shrinking idd idd idp (st (-1 # 250)), do_shrinking idd idd idp (st (-1 # 2500)) with
      | Ok a, Ok b, Ok c => (s_active a, s_unshrinked a) = (2, false) /\ (s_active b, s_unshrinked b) = (3, true) /\ (s_active c, s_unshrinked c) = (3, false)
      | _, _, _ => False end
  | _ => False end.
Proof. vm_compute. auto. Qed.
Print Assumptions C71_pair_stays.
Print Assumptions C71_looks_again.
Print Assumptions C71_shrinks_nothing.
