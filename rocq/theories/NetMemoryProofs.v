(** The member [y] of a network keeps the outputs of the last prediction; training does not depend on it. *)
From Coq Require Import String ZArith QArith Bool Lia Permutation List.
From Verif Require Import Base Spec BaseLemmas AttrModel DataSetModel InstanceListModel PartitionModel PerformanceModel DistanceModel GaussianModel
  NetModel NetSpec NetProofs NetTrainProofs.
Import ListNotations.
Local Open Scope list_scope.
Local Open Scope nat_scope.

Section Memory.
Context {X : Type} (step : dbl -> X * list dbl -> instance -> res (X * list dbl)) (test : X -> list dbl -> res (dbl * list dbl)) (good : X -> Prop) (perm : Z -> nat -> list nat) (seed : Z).
Context (body : dbl -> (X * list dbl) * ilist -> res ((X * list dbl) * ilist)) (score : (X * list dbl) * ilist -> res (dbl * ((X * list dbl) * ilist))).
Context (Eb : forall r s, body r s = do st <- foldM (step r) (shuffle perm seed (snd s)) (fst s); Ok (st, shuffle perm seed (snd s))).
Context (Es : forall s, score s = do t <- test (fst (fst s)) (snd (fst s)); Ok (fst t, (fst (fst s), snd t, snd s))).
Context (tr : ilist) (HP : forall A s (l : list A), Permutation (shuffle perm s l) l).
Context (Hgood : forall r w y x w' y', In x tr -> good w -> step r (w, y) x = Ok (w', y') -> good w').
Context (Hstep : forall r w y z x w' y', step r (w, y) x = Ok (w', y') -> exists z', step r (w, z) x = Ok (w', z')).
Context (Htest : forall w y z a y', good w -> test w y = Ok (a, y') -> exists z', test w z = Ok (a, z')).
Lemma fold_memory r l : (forall x, In x l -> In x tr) -> forall w y z w' y', good w -> foldM (step r) l (w, y) = Ok (w', y') -> (exists z', foldM (step r) l (w, z) = Ok (w', z')) /\ good w'.
Proof.
  induction l as [|x l IH]; intros I w y z w' y' G H; cbn [foldM] in *; [injection H as <- <-; split; [exists z; reflexivity|exact G]|].
  apply bind_ok in H as ([w1 y1] & H1 & H). destruct (Hstep _ _ _ z _ _ _ H1) as (z1 & E1). rewrite E1. cbn [bind].
  eapply IH; [intros x' Hx'; apply I; right; exact Hx'| |exact H]. eapply Hgood; [apply I; left; reflexivity|exact G|exact H1].
Qed.
Definition alike (s t : (X * list dbl) * ilist) : Prop := fst (fst s) = fst (fst t) /\ snd s = snd t /\ good (fst (fst s)) /\ Permutation (snd s) tr.
Lemma body_memory r s t s' : alike s t -> body r s = Ok s' -> exists t', body r t = Ok t' /\ alike s' t'.
Proof.
  destruct s as [[w y] l], t as [[w' z] l']. intros (A & B & G & P) H. cbn [fst snd] in *. subst w' l'. rewrite Eb in H. rewrite Eb. cbn [fst snd] in *. apply bind_ok in H as ([w1 y1] & H & E). injection E as <-.
  destruct (fold_memory r (shuffle perm seed l)) with (2 := G) (z := z) (3 := H) as ((z1 & Hz) & G1).
  - intros x Hx. eapply Permutation_in; [exact P|]. eapply Permutation_in; [apply HP|exact Hx].
  - exists (w1, z1, shuffle perm seed l). rewrite Hz. cbn [bind]. split; [reflexivity|]. repeat split; [exact G1|]. cbn [snd]. rewrite HP. exact P.
Qed.
Lemma score_memory s t a s' : alike s t -> score s = Ok (a, s') -> exists t', score t = Ok (a, t') /\ alike s' t'.
Proof.
  destruct s as [[w y] l], t as [[w' z] l']. intros (A & B & G & P) H. cbn [fst snd] in *. subst w' l'. rewrite Es in H. rewrite Es. cbn [fst snd] in *. apply bind_ok in H as ([a1 y1] & H & E). injection E as <- <-.
  destruct (Htest _ _ z _ _ G H) as (z1 & ->). exists (w, z1, l). split; [reflexivity|]. repeat split; assumption.
Qed.
Lemma run_epochs_memory better decay n rate s t s0 r w : alike s t ->
  run_epochs body score better (fun s => fst (fst s)) decay n rate s s0 = Ok (r, w) ->
  exists r', run_epochs body score better (fun s => fst (fst s)) decay n rate t s0 = Ok (r', w).
Proof.
  intros A H. unfold run_epochs in *. apply bind_ok in H as ([[s1 rt] b] & H & E). injection E as <- <-.
  assert (K : forall ks (st st' : (X * list dbl * ilist) * dbl * (dbl * X)) o, alike (fst (fst st)) (fst (fst st')) -> snd (fst st) = snd (fst st') -> snd st = snd st' ->
    foldM (fun (st : (X * list dbl * ilist) * dbl * (dbl * X)) (_ : nat) =>
                   let '(s, rate, best) := st in
                   do s1 <- body rate s;
                   do t <- score s1;
                   Ok (snd t, dmul rate decay, if better (fst t) (fst best) then (fst t, fst (fst (snd t))) else best)) ks st = Ok o ->
    exists o', foldM (fun (st : (X * list dbl * ilist) * dbl * (dbl * X)) (_ : nat) =>
                   let '(s, rate, best) := st in
                   do s1 <- body rate s;
                   do t <- score s1;
                   Ok (snd t, dmul rate decay, if better (fst t) (fst best) then (fst t, fst (fst (snd t))) else best)) ks st' = Ok o' /\ snd o = snd o').
  { induction ks as [|k ks IH]; intros [[u rr] bb] [[u' rr'] bb'] o Au Ar Ab Ho; cbn [fst snd] in *; subst rr' bb'; cbn [foldM] in *; [injection Ho as <-; eexists; split; reflexivity|].
    apply bind_ok in Ho as (o1 & Ho1 & Ho). apply bind_ok in Ho1 as (u1 & Hu1 & Ho1). apply bind_ok in Ho1 as ([a u2] & Hu2 & Ho1). injection Ho1 as <-.
    destruct (body_memory _ _ _ _ Au Hu1) as (v1 & Hv1 & A1). destruct (score_memory _ _ _ _ A1 Hu2) as (v2 & Hv2 & A2). rewrite Hv1. cbn [bind]. rewrite Hv2. cbn [bind fst snd] in *.
    eapply IH; [| | |exact Ho]; cbn [fst snd]; [exact A2|reflexivity|]. destruct A2 as (-> & _). reflexivity. }
  destruct A as (A1 & A2 & A3). rewrite A1 in H. destruct (K _ (s, rate, (s0, fst (fst t))) (t, rate, (s0, fst (fst t))) _ (conj A1 (conj A2 A3)) eq_refl eq_refl H) as ([[o1 o2] o3] & -> & Eo). cbn [bind]. cbn [snd] in Eo. subst o3. eexists. reflexivity.
Qed.
End Memory.

Ltac split_attempts H :=
  repeat match type of H with
         | attempt _ ?r _ _ = _ => let a := fresh "a" in let e := fresh "e" in destruct r as [a|e|?u|]; cbn [attempt] in H |- *; [|try destruct (caught _ e); try discriminate H|try discriminate H|try discriminate H]
         | (let '_ := ?q in _) = _ => destruct q
         end.
Section Nets.
Context (dexp dtanh : dbl -> dbl) (rarr : nat -> Z -> list nat) (perm : Z -> nat -> list nat) (rand : Z -> nat -> nat -> list (list dbl)).
Context (HR : randomness rarr perm rand).
Lemma linear_step_memory labels r w y z x w' y' : linear_step dexp labels r (w, y) x = Ok (w', y') -> exists z', linear_step dexp labels r (w, z) x = Ok (w', z').
Proof. unfold linear_step. intros H. split_attempts H; injection H as <- <-; eexists; reflexivity. Qed.
Lemma mlp_step_memory labels act r w y z x w' y' : mlp_step dexp dtanh labels act r (w, y) x = Ok (w', y') -> exists z', mlp_step dexp dtanh labels act r (w, z) x = Ok (w', z').
Proof. unfold mlp_step. destruct w as [w v]. intros H. split_attempts H; injection H as <- <-; eexists; reflexivity. Qed.
Lemma auto_step_memory r w y z x w' y' : auto_step dexp dtanh r (w, y) x = Ok (w', y') -> exists z', auto_step dexp dtanh r (w, z) x = Ok (w', z').
Proof. unfold auto_step. destruct w as [w v]. intros H. split_attempts H; injection H as <- <-; eexists; reflexivity. Qed.
Lemma net_test_memory output labels va y z a y' : (forall x, In x va -> exists o, forall y, output (input_vector x) y = Ok o) ->
  net_test output labels va y = Ok (a, y') -> exists z', net_test output labels va z = Ok (a, z').
Proof.
  intros F H. unfold net_test in *. apply bind_ok in H as ([n y1] & H & E). injection E as <- <-.
  assert (K : forall l k y z n y1, (forall x, In x l -> In x va) ->
    foldM (fun st x => do p <- net_predict output labels (snd st) x; Ok (if String.eqb (label x) (fst p) then S (fst st) else fst st, snd p)) l (k, y) = Ok (n, y1) ->
    exists z1, foldM (fun st x => do p <- net_predict output labels (snd st) x; Ok (if String.eqb (label x) (fst p) then S (fst st) else fst st, snd p)) l (k, z) = Ok (n, z1)).
  { clear -F. induction l as [|x l IH]; intros k y z n y1 I H; cbn [foldM] in *; [injection H as <- <-; eexists; reflexivity|].
    destruct (F x (I x (or_introl eq_refl))) as (o & Ho). unfold net_predict at 1 in H. unfold net_predict at 1. cbn [snd] in *. rewrite Ho in H. rewrite Ho. cbn [bind] in *.
    destruct (choose labels o x) as [c| | |]; try discriminate H. cbn [bind fst snd] in *. eapply IH; [intros x' Hx'; apply I; right; exact Hx'|exact H]. }
  destruct (K va 0 y z n y1 (fun x Hx => Hx) H) as (z1 & ->). cbn [bind fst snd]. eexists. reflexivity.
Qed.
Lemma linear_output_const w k d x : is_shape w k (S d) -> inst_size x = d -> exists o, forall y, linear_output w (input_vector x) y = Ok o.
Proof.
  intros Hw Hx. destruct (mul_rP anyP anyP_closed w k (S d) wzero (input_vector x) (fun _ => 0%Q)) as (o & E & _); [apply shape_any; exact Hw|split; [rewrite input_length, Hx; reflexivity|intros; exact I]|].
  exists o. intros y. unfold linear_output. rewrite E. reflexivity.
Qed.
Lemma mlp_output_const a w v n k d x : is_shape w n (S d) -> is_shape v k (S n) -> inst_size x = d -> exists o, forall y, mlp_output dexp dtanh a w v (input_vector x) y = Ok o.
Proof.
  intros Hw Hv Hx. destruct (hiddenP anyP anyP_closed dexp dtanh (fun _ => 1%Q) (fun _ => 0%Q) (any_e dexp) one_pos (any_t dtanh) a (input_vector x) w n (S d) wzero (fun _ => 0%Q)) as (h & Eh & Hh);
    [apply shape_any; exact Hw|split; [rewrite input_length, Hx; reflexivity|intros; exact I]|].
  destruct (mul_rP anyP anyP_closed v k (S n) wzero (biased h) (fun _ => 0%Q)) as (o & E & _); [apply shape_any; exact Hv|split; [cbn; rewrite (proj1 Hh); reflexivity|intros; exact I]|].
  exists o. intros y. unfold mlp_output, forward2. rewrite Eh. cbn [bind]. rewrite E. reflexivity.
Qed.
Lemma linear_train_memory old old' l d p q m : net_data l d -> p_ratio p = Fin q -> linear_train dexp rarr perm rand old l p = Ok m ->
  exists y, linear_train dexp rarr perm rand old' l p = Ok (mkLin (li_labels m) y (li_W m)).
Proof.
  intros Hd Hq H. unfold linear_train in *. rewrite (net_data_init l d Hd) in *. cbn [bind fst snd] in *. rewrite Hq in *. destruct (split_ok rarr perm rand HR q (p_seed p) l) as (tr & va & Esp & _ & Hp). rewrite Esp in *. cbn [bind fst snd] in *.
  set (labels := distinct_labels l) in *. destruct (fits_app _ _ va tr l (net_data_fits l d Hd) Hp) as (Fva & Ftr). fold labels in Fva, Ftr. rewrite Forall_forall in Fva, Ftr.
  apply bind_ok in H as ([r w] & H & E). injection E as <-. cbn [li_labels li_W fst snd].
  destruct (run_epochs_memory (linear_step dexp labels) (fun w => net_test (linear_output w) labels va) (fun w => is_shape w (length labels) (S d)) perm (p_seed p)
    (linear_body dexp perm labels (p_seed p)) (linear_score labels va) (fun _ _ => eq_refl) (fun _ => eq_refl) tr) with (6 := H) (t := (allocate rand (p_seed p) (length labels) (d + 1), li_y old', tr)) as (r' & ->).
  - intros A sd k. eapply shuffle_perm. exact HR.
  - intros r0 w0 y x w' y' Hx G E. destruct (linear_step_shape dexp labels d r0 w0 y x (Ftr x Hx) G) as (w1 & y1 & E1 & G1). rewrite E in E1. injection E1 as <- <-. exact G1.
  - intros. eapply linear_step_memory. eassumption.
  - intros w0 y z a y' G E. eapply net_test_memory; [|exact E]. intros x Hx. eapply linear_output_const; [exact G|]. apply (Fva x Hx).
  - split; [reflexivity|]. split; [reflexivity|]. split; [|apply Permutation_refl]. cbn [fst]. rewrite Nat.add_1_r. apply (allocate_shape rarr perm rand HR).
  - cbn [bind fst snd]. eexists. reflexivity.
Qed.
Lemma mlp_train_memory old old' l d p q h hs m : net_data l d -> p_ratio p = Fin q -> p_hidden p = h :: hs -> mlp_train dexp dtanh rarr perm rand old l p = Ok m ->
  exists y, mlp_train dexp dtanh rarr perm rand old' l p = Ok (mkMlp (ml_labels m) y (ml_W m) (ml_V m) (ml_act m)).
Proof.
  intros Hd Hq Hh H. unfold mlp_train in *. rewrite (net_data_init l d Hd) in *. cbn [bind fst snd] in *. rewrite Hq in *. destruct (split_ok rarr perm rand HR q (p_seed p) l) as (tr & va & Esp & _ & Hp). rewrite Esp in *. cbn [bind fst snd] in *.
  rewrite Hh in *. cbn [idxn nth_error bind] in *.
  set (labels := distinct_labels l) in *. destruct (fits_app _ _ va tr l (net_data_fits l d Hd) Hp) as (Fva & Ftr). fold labels in Fva, Ftr. rewrite Forall_forall in Fva, Ftr.
  apply bind_ok in H as ([r w] & H & E). injection E as <-. cbn [ml_labels ml_W ml_V ml_act fst snd].
  destruct (run_epochs_memory (mlp_step dexp dtanh labels (p_act p)) (fun w => net_test (mlp_output dexp dtanh (p_act p) (fst w) (snd w)) labels va) (fun w => is_shape (fst w) h (S d) /\ is_shape (snd w) (length labels) (S h)) perm (p_seed p)
    (mlp_body dexp dtanh perm labels (p_act p) (p_seed p)) (mlp_score dexp dtanh labels (p_act p) va)) with (tr := tr) (8 := H) (t := (allocate rand (p_seed p) h (d + 1), allocate rand (p_seed p) (length labels) (h + 1), ml_y old', tr)) as (r' & ->).
  - reflexivity.
  - intros [[[w0 v0] y0] l0]. reflexivity.
  - intros A sd k. eapply shuffle_perm. exact HR.
  - intros r0 [w0 v0] y x [w' v'] y' Hx G E. destruct (mlp_step_shape dexp dtanh labels (p_act p) d h r0 w0 v0 y x (Ftr x Hx) G) as (w1 & v1 & y1 & E1 & G1). rewrite E in E1. injection E1 as <- <- <-. exact G1.
  - intros. eapply mlp_step_memory. eassumption.
  - intros [w0 v0] y z a y' G E. eapply net_test_memory; [|exact E]. intros x Hx. eapply mlp_output_const; [apply G|apply G|]. apply (Fva x Hx).
  - split; [reflexivity|]. split; [reflexivity|]. split; [|apply Permutation_refl]. cbn [fst snd]. rewrite !Nat.add_1_r. split; apply (allocate_shape rarr perm rand HR).
  - cbn [bind fst snd]. eexists. reflexivity.
Qed.
Lemma auto_test_memory w v l y z a y' : auto_test dexp dtanh w v l y = Ok (a, y') -> exists z', auto_test dexp dtanh w v l z = Ok (a, z').
Proof.
  unfold auto_test. intros H. apply bind_ok in H as ([n y1] & H & E). injection E as <- <-.
  destruct l as [|x l]; [cbn in *; injection H as <- <-; eexists; reflexivity|]. cbn [foldM fst snd] in *. rewrite H. cbn [bind fst snd]. eexists. reflexivity.
Qed.
Lemma auto_train_memory old old' l p m : auto_train dexp dtanh rarr perm rand old l p = Ok m ->
  exists y, auto_train dexp dtanh rarr perm rand old' l p = Ok (mkAuto (au_labels m) y (au_W m) (au_V m)).
Proof.
  intros H. unfold auto_train in *. apply bind_ok in H as (i & Ei & H). rewrite Ei. cbn [bind]. apply bind_ok in H as (sp & Esp & H). rewrite Esp. cbn [bind]. apply bind_ok in H as (x0 & Ex & H). rewrite Ex. cbn [bind].
  apply bind_ok in H as (h & Eh & H). rewrite Eh. cbn [bind]. cbv zeta in *. apply bind_ok in H as ([r w] & H & E). injection E as <-. cbn [au_labels au_W au_V fst snd].
  destruct (run_epochs_memory (auto_step dexp dtanh) (fun w => auto_test dexp dtanh (fst w) (snd w) (snd sp)) (fun _ => True) perm (p_seed p)
    (auto_body dexp dtanh perm (p_seed p)) (auto_score dexp dtanh (snd sp))) with (tr := fst sp) (8 := H) (t := (allocate rand (p_seed p) h (snd i + 1), allocate rand (p_seed p) (inst_size x0) (h + 1), au_y old', fst sp)) as (r' & ->).
  - reflexivity.
  - intros [[[w0 v0] y0] l0]. reflexivity.
  - intros A sd k. eapply shuffle_perm. exact HR.
  - trivial.
  - intros. eapply auto_step_memory. eassumption.
  - intros [w0 v0] y z a y' _ E. eapply auto_test_memory. exact E.
  - split; [reflexivity|]. split; [reflexivity|]. split; [exact I|apply Permutation_refl].
  - cbn [bind fst snd]. eexists. reflexivity.
Qed.
End Nets.
