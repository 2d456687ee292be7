(** C146: a class with no more instances than features takes over the quadratic discriminant. *)
From Coq Require Import String ZArith QArith Bool Lia Lqa Permutation Arith List.
From Verif Require Import Base Spec BaseLemmas DblLemmas AttrModel InstanceListModel PartitionModel PerformanceModel PerformanceProofs StatSpec ListSpec ListProofs PartitionProofs CovProofs CovAllProofs
  GaussianModel GaussianSpec GaussianProofs DiscrimSpec DiscrimProofs DiscrimProps InvSpec ModelInvSpec ModelInvProofs DegenSpec DegenProofs CopyProps HeapProofs.
Import ListNotations.
Local Open Scope string_scope.
Local Open Scope list_scope.
Local Open Scope nat_scope.

(** * Which covariances have no inverse *)
Theorem C146_few : forall d s c, 1 <= length (members s c) <= d ->
  dependent d (class_cov s c) /\ degenerate d s c /\ forall P S, entries d P (class_cov s c) -> ~ inverse_of d P S.
Proof.
  intros d s c [H1 H2]. assert (D : dependent d (class_cov s c)) by (apply few_degenerate; [intros E; rewrite E in H1; cbn in H1; lia|exact H2]).
  split; [exact D|]. split; [apply dependent_det, D|]. intros P S. apply dependent_no_inverse, D.
Qed.
Print Assumptions C146_few.
Theorem C146_pooled : forall d s, length s < d + classes s ->
  dependent d (pooled_cov s) /\ (det d (pooled_cov s) == 0)%Q /\ forall P S, entries d P (pooled_cov s) -> ~ inverse_of d P S.
Proof.
  intros d s H. pose proof (few_pooled d s H) as D. split; [exact D|]. split; [apply dependent_det, D|]. intros P S. apply dependent_no_inverse, D.
Qed.
Print Assumptions C146_pooled.

(** * The quadratic discriminant then answers with such a class *)
Section Qda.
  Context (inverse : list (list dbl) -> list (list dbl)) (determinant : list (list dbl) -> dbl) (ln : dbl -> dbl) (f : Q -> Q) (Hln : log_reads ln f) (Hed : log_edges ln).
  Context (shape : list (option nat)) (l : ilist) (s : sample) (HU : uniform shape l) (Hn : l <> []) (HR : Forall2 reads l s).
  Let d := dim shape.
  Context (HD : finds_determinant d determinant) (HI : leaves_numbers d inverse) (H2 : forall c, In c (map label l) -> 2 <= length (members s c)).

  Lemma takes_over : exists m, qda_train inverse determinant ln qda_empty l = Ok m /\
    forall q v c, inst_vals q = map Fin v -> length v = d ->
      first_of (fun c => In c (map label l) /\ degenerate d s c) (candidates (mkeys (class_distribution l)) q) c -> qda_predict m q = Ok c.
  Proof.
    pose proof H2 as H2'. rewrite (reads_rows shape l s HU HR) in *. change (map (fun x => (label x, row x)) l) with (sample_of l) in *.
    destruct (qda_scores inverse determinant ln f Hln Hed shape l HU Hn HD HI H2') as (m & Em & HM). exists m. split; [exact Em|].
    intros q v c Hq Lv (ls1 & ls2 & EL & (Hc & Dc) & N). pose proof (qda_train_prior _ _ _ _ _ _ Em) as [HPr _].
    unfold qda_predict, gauss_predict. rewrite HPr.
    destruct (gauss_inf (class_distribution l) (qda_metric m q) (degenerate d (sample_of l))) as (G1 & G2).
    { intros x Hx. apply (HM q v x Hq Lv). apply mmem_prior, Hx. }
    { intros x. unfold degenerate. destruct (Qeq_dec (det d (class_cov (sample_of l) x)) 0); [left|right]; assumption. }
    assert (K : forall b, exists st, foldM (gauss_step (class_distribution l) (qda_metric m q)) (ls1 ++ c :: ls2) (dopp dbl_max, b) = Ok st /\ snd st = c).
    { intros b. rewrite foldM_app. change (dopp dbl_max) with (Fin (- inject_Z (2 ^ 1024 - 2 ^ 971)))%Q. destruct (G2 ls1 (- inject_Z (2 ^ 1024 - 2 ^ 971))%Q b) as (z & b' & ->).
      { intros x Hx Mx Dx. apply (N x Hx). split; [apply mmem_prior, Mx|exact Dx]. }
      cbn [bind foldM]. unfold gauss_step at 1. assert (M : mmem c (class_distribution l) = true) by (apply mmem_prior, Hc). rewrite M.
      destruct (HM q v c Hq Lv Hc) as (r & -> & R1 & _). rewrite (R1 Dc). cbn [bind fst snd]. change (dgtb PInf (Fin z)) with true. cbn iota.
      destruct (G1 ls2 c) as (b'' & -> & ->). eexists. split; reflexivity. }
    unfold candidates in EL. destruct (composite q) as [ls|].
    - subst ls. destruct (ls1 ++ c :: ls2) as [|c0 t] eqn:E; [destruct ls1; discriminate|]. cbn [atn nth_error bind fst snd]. destruct (K c0) as (st & K1 & K2). unfold atn. cbn [nth_error bind fst snd]. rewrite K1. cbn [bind]. rewrite K2. reflexivity.
    - cbn [bind fst snd]. rewrite EL. destruct (K (cmax (class_distribution l))) as (st & K1 & K2). rewrite K1. cbn [bind]. rewrite K2. reflexivity.
  Qed.
End Qda.
Lemma first_ex (P : string -> Prop) ls : (forall c, P c \/ ~ P c) -> (exists c, In c ls /\ P c) -> exists c, first_of P ls c.
Proof.
  intros Dec. induction ls as [|a ls IH]; intros (c & Hc & Pc); [contradiction|]. destruct (Dec a) as [Pa|Na].
  - exists a, [], ls. split; [reflexivity|]. split; [exact Pa|]. intros x [].
  - destruct IH as (c' & ls1 & ls2 & -> & Pc' & N); [exists c; split; [|exact Pc]; destruct Hc as [->|Hc]; [contradiction|exact Hc]|]. exists c', (a :: ls1), ls2. split; [reflexivity|]. split; [exact Pc'|]. intros x [<-|Hx]; [exact Na|apply N, Hx].
Qed.
(** the answer is the first degenerate class among the candidates *)
Theorem C146_takes_over : forall inverse determinant ln f, log_reads ln f -> log_edges ln ->
  forall shape l s, uniform shape l -> l <> [] -> Forall2 reads l s -> finds_determinant (dim shape) determinant -> leaves_numbers (dim shape) inverse ->
  (forall c, In c (map label l) -> 2 <= length (members s c)) ->
  exists m, qda_train inverse determinant ln qda_empty l = Ok m /\
    forall q v c, inst_vals q = map Fin v -> length v = dim shape ->
      first_of (fun c => In c (map label l) /\ degenerate (dim shape) s c) (candidates (mkeys (class_distribution l)) q) c -> qda_predict m q = Ok c.
Proof. intros inverse determinant ln f H1 H2 shape l s H3 H4 H5 H6 H7 H8. exact (takes_over inverse determinant ln f H1 H2 shape l s H3 H4 H5 H6 H7 H8). Qed.
Print Assumptions C146_takes_over.
(** one class with no more instances than features: a single answer for all plain queries, and it is a degenerate class *)
Theorem C146_one_answer : forall inverse determinant ln f, log_reads ln f -> log_edges ln ->
  forall shape l s, uniform shape l -> l <> [] -> Forall2 reads l s -> finds_determinant (dim shape) determinant -> leaves_numbers (dim shape) inverse ->
  (forall c, In c (map label l) -> 2 <= length (members s c)) ->
  forall c0, In c0 (map label l) -> length (members s c0) <= dim shape ->
  exists m c, qda_train inverse determinant ln qda_empty l = Ok m /\ In c (map label l) /\ degenerate (dim shape) s c /\
    (forall q v, inst_vals q = map Fin v -> length v = dim shape -> composite q = None -> qda_predict m q = Ok c) /\
    (forall q v ls, inst_vals q = map Fin v -> length v = dim shape -> composite q = Some ls -> In c0 ls -> exists c', qda_predict m q = Ok c' /\ In c' ls /\ degenerate (dim shape) s c').
Proof.
  intros inverse determinant ln f Hln Hed shape l s HU Hn HR HD HI H2 c0 Hc0 Hd.
  destruct (takes_over inverse determinant ln f Hln Hed shape l s HU Hn HR HD HI H2) as (m & Em & HM).
  assert (D0 : degenerate (dim shape) s c0) by (apply C146_few; split; [pose proof (H2 c0 Hc0); lia|exact Hd]).
  assert (Dec : forall c, (In c (map label l) /\ degenerate (dim shape) s c) \/ ~ (In c (map label l) /\ degenerate (dim shape) s c)).
  { intros c. destruct (in_dec string_dec c (map label l)) as [I|N]; [|right; tauto]. unfold degenerate. destruct (Qeq_dec (det (dim shape) (class_cov s c)) 0); [left; tauto|right; tauto]. }
  destruct (first_ex (fun c => In c (map label l) /\ degenerate (dim shape) s c) (mkeys (class_distribution l)) Dec) as (c & F).
  { exists c0. split; [apply mmem_keys, mmem_prior, Hc0|split; assumption]. }
  pose proof F as (ls1 & ls2 & _ & (Ic & Dc) & _). exists m, c. split; [exact Em|]. split; [exact Ic|]. split; [exact Dc|]. split.
  - intros q v Hq Lv HN. apply (HM q v c Hq Lv). unfold candidates. rewrite HN. exact F.
  - intros q v ls Hq Lv HN Hls. destruct (first_ex (fun c => In c (map label l) /\ degenerate (dim shape) s c) ls Dec) as (c' & F'); [exists c0; split; [exact Hls|split; assumption]|].
    exists c'. split; [apply (HM q v c' Hq Lv); unfold candidates; rewrite HN; exact F'|]. destruct F' as (l1 & l2 & -> & (_ & D') & _). split; [apply in_or_app; right; left; reflexivity|exact D'].
Qed.
Print Assumptions C146_one_answer.
(** a feature that is a multiple of another one plus a constant: nothing about the query matters any more *)
Theorem C146_repeated : forall inverse determinant ln f, log_reads ln f -> log_edges ln ->
  forall shape l s, uniform shape l -> l <> [] -> Forall2 reads l s -> finds_determinant (dim shape) determinant -> leaves_numbers (dim shape) inverse ->
  (forall c, In c (map label l) -> 2 <= length (members s c)) ->
  forall a b j k, j < dim shape -> k < dim shape -> j <> k -> (forall r, In r s -> (coord r k == a * coord r j + b)%Q) ->
  exists m, qda_train inverse determinant ln qda_empty l = Ok m /\
    (forall q v, inst_vals q = map Fin v -> length v = dim shape -> composite q = None -> exists c t, mkeys (class_distribution l) = c :: t /\ qda_predict m q = Ok c) /\
    (forall q v c t, inst_vals q = map Fin v -> length v = dim shape -> composite q = Some (c :: t) -> In c (map label l) -> qda_predict m q = Ok c).
Proof.
  intros inverse determinant ln f Hln Hed shape l s HU Hn HR HD HI H2 a b j k Hj Hk Hjk HL.
  destruct (takes_over inverse determinant ln f Hln Hed shape l s HU Hn HR HD HI H2) as (m & Em & HM). exists m. split; [exact Em|].
  assert (D : forall c, degenerate (dim shape) s c) by (intros c; apply dependent_det, (repeated_degenerate _ _ a j k Hj Hk Hjk); exact (class_line s a b j k HL c)).
  split.
  - intros q v Hq Lv HN. destruct (mkeys (class_distribution l)) as [|c t] eqn:E.
    + exfalso. assert (In (cmax (class_distribution l)) (mkeys (class_distribution l))) by (apply mmem_keys, mmem_prior, cmax_prior, Hn). rewrite E in *. contradiction.
    + exists c, t. split; [reflexivity|]. apply (HM q v c Hq Lv). unfold candidates. rewrite HN. exists [], t. split; [reflexivity|]. split; [|intros ? []]. split; [|apply D]. apply mmem_prior, mmem_keys. rewrite E. left. reflexivity.
  - intros q v c t Hq Lv HN Hc. apply (HM q v c Hq Lv). unfold candidates. rewrite HN. exists [], t. split; [reflexivity|]. split; [split; [exact Hc|apply D]|intros ? []].
Qed.
Print Assumptions C146_repeated.

(** * Cases *)
(** two features; "a" has four instances, "b" two: everything is "b", also the instances of "a" themselves *)
Definition pt2 (c : string) (x y : Q) : instance := mkInst c [ACont (Fin x); ACont (Fin y)] None.
Definition two_ex : ilist := [pt2 "a" 0 0; pt2 "a" 1 0; pt2 "a" 0 1; pt2 "a" 1 1; pt2 "b" 100 100; pt2 "b" 101 100].
Definition det2 (m : list (list dbl)) : dbl := match m with [[Fin p; Fin q]; [Fin r; Fin t]] => Fin (p * t - q * r) | _ => NaN end.
Definition inv2 (m : list (list dbl)) : list (list dbl) :=
  match m with [[Fin p; Fin q]; [Fin r; Fin t]] => let z := (p * t - q * r)%Q in if Qeq_bool z 0 then m else [[Fin (t / z); Fin (- q / z)]; [Fin (- r / z); Fin (p / z)]]%Q | _ => m end.
Definition ln0 (x : dbl) : dbl := match x with Fin q => if Qeq_bool q 0 then NInf else if Qle_bool q 0 then NaN else Fin 0 | PInf => PInf | _ => NaN end.
Lemma two_shape (P : list (list Q)) : square 2 P -> exists p q r t, P = [[p; q]; [r; t]].
Proof. intros (L & F). destruct P as [|R1 [|R2 [|]]]; try discriminate. inversion F as [|? ? L1 F1]; subst. inversion F1 as [|? ? L2 _]; subst. destruct R1 as [|p [|q [|]]]; try discriminate. destruct R2 as [|r [|t [|]]]; try discriminate. eauto. Qed.
Example C146_case : let s := [("a", [0; 0]); ("a", [1; 0]); ("a", [0; 1]); ("a", [1; 1]); ("b", [100; 100]); ("b", [101; 100])]%Q in
  log_reads ln0 (fun _ => 0%Q) /\ log_edges ln0 /\ uniform [None; None] two_ex /\ Forall2 reads two_ex s /\ finds_determinant 2 det2 /\ leaves_numbers 2 inv2 /\
  (forall c, In c (map label two_ex) -> 2 <= length (members s c)) /\ length (members s "b") <= 2 /\ ~ degenerate 2 s "a" /\
  exists m, qda_train inv2 det2 ln0 qda_empty two_ex = Ok m /\ qda_predict m (pt2 "" 0 0) = Ok "b" /\ qda_predict m (mkInst "" [ACont (Fin 0); ACont (Fin 0)] (Some ["a"])) = Ok "a".
Proof.
  cbv zeta. split. { split; [|reflexivity]. intros p Hp. exists 0%Q. split; [|reflexivity]. unfold ln0. destruct (Qeq_bool p 0) eqn:E; [apply Qeq_bool_iff in E; lra|]. destruct (Qle_bool p 0) eqn:E'; [apply Qle_bool_iff in E'; lra|reflexivity]. }
  split. { intros q. unfold ln0. split; intros H; [apply Qeq_bool_iff in H; rewrite H; reflexivity|]. destruct (Qeq_bool q 0) eqn:E; [apply Qeq_bool_iff in E; lra|]. assert (K : (q <= 0)%Q) by lra. apply Qle_bool_iff in K. rewrite K. reflexivity. }
  split; [repeat (constructor; [repeat (constructor; [eexists; reflexivity|]); constructor|]); constructor|]. split; [repeat constructor|].
  split. { intros P HP. destruct (two_shape P HP) as (p & q & r & t & ->). eexists. split; [reflexivity|]. unfold det, qsum, mget. cbn. ring. }
  split. { intros P HP. destruct (two_shape P HP) as (p & q & r & t & ->). cbn. destruct (Qeq_bool (p * t - q * r) 0); eexists; (split; [|reflexivity + (instantiate (1 := [[_; _]; [_; _]]); reflexivity)]); split; repeat constructor. }
  split; [cbn; intros c Hc; repeat destruct Hc as [<-|Hc]; try contradiction; vm_compute; lia|]. split; [vm_compute; lia|]. split; [vm_compute; discriminate|].
  eexists. split; [vm_compute; reflexivity|]. split; vm_compute; reflexivity.
Qed.
