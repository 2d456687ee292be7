(** A deep network with one hidden layer and a multi-layer perceptron do the same work. *)
From Coq Require Import String ZArith QArith Bool Lia Permutation List.
From Verif Require Import Base Spec BaseLemmas AttrModel DataSetModel InstanceListModel PartitionModel PerformanceModel DistanceModel GaussianModel
  NetModel NetSpec NetProofs NetTrainProofs.
Import ListNotations.
Local Open Scope list_scope.
Local Open Scope nat_scope.

(** two loops whose states are related by [g] *)
Section Simulation.
Context {S T W V : Type} (g : S -> T) (h : W -> V) (Inv : S -> Prop) (body : dbl -> S -> res S) (body' : dbl -> T -> res T)
  (score : S -> res (dbl * S)) (score' : T -> res (dbl * T)) (weights : S -> W) (weights' : T -> V).
Context (Hb : forall r s, Inv s -> exists s', body r s = Ok s' /\ body' r (g s) = Ok (g s') /\ Inv s').
Context (Hs : forall s, Inv s -> exists a s', score s = Ok (a, s') /\ score' (g s) = Ok (a, g s') /\ Inv s').
Context (Hw : forall s, weights' (g s) = h (weights s)).
Lemma run_epochs_same better decay n rate s s0 : Inv s -> exists r w, run_epochs body score better weights decay n rate s s0 = Ok (r, w) /\
  run_epochs body' score' better weights' decay n rate (g s) s0 = Ok (g r, h w).
Proof.
  intros I. unfold run_epochs. rewrite Hw.
  assert (K : forall ks s rate a w, Inv s -> exists s1 rate1 a1 w1,
    foldM (fun (st : S * dbl * (dbl * W)) (_ : nat) =>
                   let '(s, rate, best) := st in
                   do s1 <- body rate s;
                   do t <- score s1;
                   Ok (snd t, dmul rate decay, if better (fst t) (fst best) then (fst t, weights (snd t)) else best)) ks (s, rate, (a, w)) = Ok (s1, rate1, (a1, w1)) /\
    foldM (fun (st : T * dbl * (dbl * V)) (_ : nat) =>
                   let '(s, rate, best) := st in
                   do s1 <- body' rate s;
                   do t <- score' s1;
                   Ok (snd t, dmul rate decay, if better (fst t) (fst best) then (fst t, weights' (snd t)) else best)) ks (g s, rate, (a, h w)) = Ok (g s1, rate1, (a1, h w1))).
  { induction ks as [|k ks IH]; intros s1 rt a w I1; cbn [foldM]; [eexists _, _, _, _; split; reflexivity|].
    destruct (Hb rt s1 I1) as (s2 & -> & -> & I2). cbn [bind]. destruct (Hs s2 I2) as (a2 & s3 & -> & -> & I3). cbn [bind fst snd]. rewrite Hw.
    destruct (better a2 a); apply IH; exact I3. }
  destruct (K (seq 0 n) s rate s0 (weights s) I) as (s1 & r1 & a1 & w1 & E1 & E2). rewrite E1, E2. cbn [bind fst snd]. eauto.
Qed.
End Simulation.

Section Same.
Context (dexp dtanh : dbl -> dbl) (rarr : nat -> Z -> list nat) (perm : Z -> nat -> list nat) (rand : Z -> nat -> nat -> list (list dbl)).
Context (HR : randomness rarr perm rand).
Lemma same_output a w v x y : deep_output dexp dtanh a [w; v] x y = mlp_output dexp dtanh a w v x y.
Proof.
  unfold deep_output, mlp_output, forward2. cbn [length Nat.eqb Nat.sub seq foldM]. unfold deep_hidden at 1. cbn [atn nth_error bind Nat.eqb].
  destruct (hidden dexp dtanh x w a); reflexivity.
Qed.
Lemma net_test_same output output' labels l y : (forall x y, output x y = output' x y) -> net_test output labels l y = net_test output' labels l y.
Proof.
  intros H. unfold net_test. f_equal. generalize (0, y). induction l as [|x l IH]; intros st; cbn [foldM]; [reflexivity|]. unfold net_predict at 1 3. rewrite H.
  destruct (output' (input_vector x) (snd st)); cbn [bind]; [|reflexivity..]. destruct (choose labels a x); cbn [bind]; [|reflexivity..]. apply IH.
Qed.
Lemma same_step labels a d n rate w v y x : fits d labels x -> is_shape w n (S d) -> is_shape v (length labels) (S n) -> a <> TANH \/ n = 1 ->
  exists w' v' y', mlp_step dexp dtanh labels a rate (w, v, y) x = Ok (w', v', y') /\ deep_step dexp dtanh labels a 1 rate ([w; v], y) x = Ok ([w'; v'], y') /\
    is_shape w' n (S d) /\ is_shape v' (length labels) (S n).
Proof.
  intros (Hd & _ & Hl) Sw Sv Ha. pose proof (proj1 (shape_any w n (S d) wzero) Sw) as Hw. pose proof (proj1 (shape_any v (length labels) (S n) wzero) Sv) as Hv.
  assert (Hi : vecP anyP (input_vector x) (S d) (fun _ => 0%Q)) by (split; [rewrite input_length, Hd; reflexivity|intros; exact I]).
  unfold mlp_step, deep_step.
  destruct (hiddenP anyP anyP_closed dexp dtanh (fun _ => 1%Q) (fun _ => 0%Q) (fun d q (k : anyP d q) => k) one_pos (fun d q (k : anyP d q) => k) a (input_vector x) w n (S d) wzero (fun _ => 0%Q) Hw Hi) as (h & Eh & Hh).
  assert (Hhb : vecP anyP (biased h) (S n) (fun _ => 0%Q)) by (split; [cbn; rewrite (proj1 Hh); reflexivity|intros; exact I]).
  unfold deep_forward. cbn [seq foldM Nat.eqb bind atn nth_error]. rewrite Eh. cbn [attempt bind fst snd app atn nth_error Nat.sub length].
  destruct (r_minus_yP anyP anyP_closed dexp (fun _ => 1%Q) (fun d q (k : anyP d q) => k) one_pos labels x (biased h) v (S n) wzero (fun _ => 0%Q) Hl Hv Hhb) as (y' & e & -> & _ & He).
  cbn [attempt bind fst snd rev app seq foldM]. unfold deep_back, mlp_deltas. cbn [Nat.add atn nth_error bind fst snd].
  destruct (mul_lP anyP anyP_closed v _ _ wzero e _ Hv He) as (t & -> & Ht). cbn [bind]. destruct (vremove0P anyP t _ _ Ht) as (t' & -> & Ht'). cbn [bind atn nth_error].
  rewrite mlp_deriv_deep.
  assert (Ed : deep_deriv dtanh a (length [h]) h = deep_deriv dtanh a (length h) h).
  { destruct Ha as [Ha | ->]; [destruct a; try reflexivity; congruence|]. rewrite (proj1 Hh). reflexivity. }
  cbn [length] in Ed |- *. rewrite Ed.
  destruct (deep_derivP anyP anyP_closed dtanh (fun _ => 0%Q) (fun d q (k : anyP d q) => k) a (length h) h n _ (fun _ => proj1 Hh) Hh) as (ad & -> & Had). cbn [bind].
  destruct (vprodP anyP anyP_closed t' ad _ _ _ Ht' Had) as (tt & -> & Htt). cbn [bind attempt fst snd Nat.eqb].
  destruct (stepP anyP anyP_closed v _ _ wzero e (biased h) _ _ rate 0%Q Hv I He Hhb) as (v' & Ev & Hv'). rewrite Ev. cbn [attempt].
  destruct (stepP anyP anyP_closed w _ _ wzero tt (input_vector x) _ _ rate 0%Q Hw I Htt Hi) as (w' & Ew & Hw'). cbn [deep_update]. rewrite Ew. cbn [attempt app deep_update]. rewrite Ev. cbn [attempt app deep_update bind].
  exists w', v', y'. split; [reflexivity|]. split; [reflexivity|]. apply shape_any in Hw', Hv'. split; assumption.
Qed.
Lemma same_train oldm oldd l d p q h : net_data l d -> p_ratio p = Fin q -> p_hidden p = [h] -> p_act p <> TANH \/ h = 1 -> de_weights oldd = [] -> ml_y oldm = de_y oldd ->
  exists labels y w v, mlp_train dexp dtanh rarr perm rand oldm l p = Ok (mkMlp labels y w v (p_act p)) /\
    deep_train dexp dtanh rarr perm rand oldd l p = Ok (mkDeep labels y [w; v] 1 (p_act p)).
Proof.
  intros Hd Hq Hh Ha Ho Hy. unfold mlp_train, deep_train. rewrite (net_data_init l d Hd). cbn [bind fst snd]. rewrite Hq. destruct (split_ok rarr perm rand HR q (p_seed p) l) as (tr & va & -> & _ & Hp). cbn [bind fst snd].
  rewrite Hh. unfold idxn, deep_allocate. cbn [idxn nth_error bind length Nat.sub seq mapM atn app]. rewrite Ho, Hy. cbn [app].
  set (labels := distinct_labels l) in *. destruct (fits_app _ _ va tr l (net_data_fits l d Hd) Hp) as (Fva & Ftr). fold labels in Fva, Ftr. rewrite Forall_forall in Fva, Ftr.
  pose proof (net_data_labels l d Hd) as Hne. fold labels in Hne.
  set (w0 := allocate rand (p_seed p) h (d + 1)). set (v0 := allocate rand (p_seed p) (length labels) (h + 1)).
  destruct (run_epochs_same (fun s : (mat * mat * list dbl) * ilist => ([fst (fst (fst s)); snd (fst (fst s))], snd (fst s), snd s)) (fun w : mat * mat => [fst w; snd w])
    (fun s => (is_shape (fst (fst (fst s))) h (S d) /\ is_shape (snd (fst (fst s))) (length labels) (S h)) /\ Permutation (snd s) tr)
    (mlp_body dexp dtanh perm labels (p_act p) (p_seed p)) (deep_body dexp dtanh perm labels (p_act p) 1 (p_seed p))
    (mlp_score dexp dtanh labels (p_act p) va) (deep_score dexp dtanh labels (p_act p) va) (fun s => fst (fst s)) (fun s => fst (fst s))) with
    (better := dgtb) (decay := p_decay p) (n := p_epochs p) (rate := p_rate p) (s := (w0, v0, de_y oldd, tr)) (s0 := d0) as (r & w & E1 & E2).
  - intros r [[[w v] y] li] ((Sw & Sv) & P). cbn [fst snd] in *. unfold mlp_body, deep_body. cbn [fst snd].
    assert (Q : Permutation (shuffle perm (p_seed p) li) tr) by (rewrite <- P; apply (shuffle_perm rarr perm rand HR)).
    assert (K : forall xs w v y, (forall x, In x xs -> In x tr) -> is_shape w h (S d) -> is_shape v (length labels) (S h) -> exists w' v' y',
      foldM (mlp_step dexp dtanh labels (p_act p) r) xs (w, v, y) = Ok (w', v', y') /\ foldM (deep_step dexp dtanh labels (p_act p) 1 r) xs ([w; v], y) = Ok ([w'; v'], y') /\
      is_shape w' h (S d) /\ is_shape v' (length labels) (S h)).
    { induction xs as [|x xs IH]; intros w1 v1 y1 Hx S1 S2; cbn [foldM]; [eexists _, _, _; repeat split; try reflexivity; try apply S1; try apply S2|].
      destruct (same_step labels (p_act p) d h r w1 v1 y1 x (Ftr x (Hx x (or_introl eq_refl))) S1 S2 Ha) as (w2 & v2 & y2 & -> & -> & S3 & S4). cbn [bind].
      apply IH; [intros z Hz; apply Hx; right; exact Hz|exact S3|exact S4]. }
    destruct (K (shuffle perm (p_seed p) li) w v y) as (w' & v' & y' & -> & -> & S3 & S4); [intros x Hx; eapply Permutation_in; [exact Q|exact Hx]|exact Sw|exact Sv|].
    cbn [bind]. eexists. split; [reflexivity|]. split; [reflexivity|]. cbn [fst snd]. repeat split; try apply S3; try apply S4. exact Q.
  - intros [[[w v] y] li] ((Sw & Sv) & P). cbn [fst snd] in *. unfold mlp_score, deep_score. cbn [fst snd].
    rewrite (net_test_same (deep_output dexp dtanh (p_act p) [w; v]) (mlp_output dexp dtanh (p_act p) w v)) by (intros; apply same_output).
    destruct (net_test_accuracy (mlp_output dexp dtanh (p_act p) w v) labels va y) as (a & y' & E & _).
    { rewrite Forall_forall. intros x Hx. apply (mlp_output_shape dexp dtanh labels (p_act p) d h); auto. }
    rewrite E. cbn [bind fst snd]. eexists _, _. split; [reflexivity|]. split; [reflexivity|]. cbn [fst snd]. split; [split; assumption|exact P].
  - intros s. reflexivity.
  - cbn [fst snd]. unfold w0, v0. rewrite !Nat.add_1_r. split; [split; apply (allocate_shape rarr perm rand HR)|reflexivity].
  - rewrite E1. cbn [fst snd] in E2. rewrite E2. cbn [bind fst snd]. eexists _, _, _, _. split; reflexivity.
Qed.
End Same.
