(** C131: the statistical tests in rounded arithmetic. *)
From Coq Require Import String ZArith QArith Qabs Qreduction Bool Lia Lqa List Setoid Morphisms SpecFloat.
From Verif Require Import Base Spec BaseLemmas DblLemmas AttrModel InstanceListModel PerformanceModel StatModel StatTestModel StatTestSpec StatTestProofs StatTestProps RoundModel RoundSpec RoundProofs RoundPerfProofs RoundStatModel RoundStatSpec RoundStatProofs.
Import ListNotations.
Local Open Scope list_scope.
Local Open Scope nat_scope.

(** Without rounding it is the code of StatTestModel. *)
Theorem C131_same_code : r_combined5x2f_stat (fun d => d) = combined5x2f_stat /\ r_sign_compare (fun d => d) = sign_compare /\
  r_two_tailed (fun d => d) = two_tailed /\ r_differences (fun d => d) = differences /\ r_five (fun d => d) = five.
Proof. repeat split. Qed.
(** Swapping the classifiers turns the sign of the three t statistics and leaves the F statistic as it is, to the last digit. *)
Theorem C131_swap : forall R sq, rounding R -> root_like sq -> forall c1 c2,
  same_outcome (fun t t' => deq t' (dopp t)) (r_pairedt_stat R sq c1 c2) (r_pairedt_stat R sq c2 c1) /\
  same_outcome (fun t t' => deq t' (dopp t)) (r_paired5x2t_stat R sq c1 c2) (r_paired5x2t_stat R sq c2 c1) /\
  same_outcome (fun t t' => deq t' (dopp t)) (r_combined5x2t_stat R sq c1 c2) (r_combined5x2t_stat R sq c2 c1) /\
  same_outcome deq (r_combined5x2f_stat R c1 c2) (r_combined5x2f_stat R c2 c1).
Proof. intros R sq HR Hs c1 c2. split; [apply swap_t; assumption|apply swap_5x2; assumption]. Qed.
(** So the decision between two classifiers is antisymmetric. *)
Lemma decide_anti tdist alpha stat deg : fair tdist alpha -> (forall c1 c2, same_outcome (fun t t' => deq t' (dopp t)) (stat c1 c2) (stat c2 c1)) ->
  (forall c1 c2 t, stat c1 c2 = Ok t -> deg c1 = deg c2 :> Z) -> forall c1 c2 z,
  decide (fun c1 c2 => do t <- stat c1 c2; Ok (mkTR (tdist t (deg c1)) false)) c1 c2 alpha = Ok z ->
  decide (fun c1 c2 => do t <- stat c1 c2; Ok (mkTR (tdist t (deg c1)) false)) c2 c1 alpha = Ok (- z)%Z.
Proof.
  intros [Fe Ff] S D c1 c2 z. unfold decide. pose proof (S c1 c2) as E. destruct (stat c1 c2) as [t| | |] eqn:E1, (stat c2 c1) as [t'| | |] eqn:E2; cbn in E; try contradiction; cbn [bind]; try discriminate.
  unfold one_tailed. cbn [only_two p_value bind]. rewrite (D c1 c2 t E1). set (n := deg c2). pose proof (Ff t n) as F. rewrite (Fe t' (dopp t) n E).
  destruct (dltb (tdist t n) alpha), (dltb (tdist (dopp t) n) alpha); cbn; intros H; injection H as <-; try reflexivity. exfalso. apply F. split; reflexivity.
Qed.
Lemma size_of_t R sq c1 c2 t : r_pairedt_stat R sq c1 c2 = Ok t -> exp_size c1 = exp_size c2.
Proof. unfold r_pairedt_stat. destruct (Nat.eqb_spec (exp_size c1) (exp_size c2)); [auto|discriminate]. Qed.
Lemma size_of_5 R sq c1 c2 t : r_paired5x2t_stat R sq c1 c2 = Ok t -> exp_size c1 = exp_size c2.
Proof. unfold r_paired5x2t_stat, ten_results. destruct (Nat.eqb_spec (exp_size c1) (exp_size c2)); [auto|discriminate]. Qed.
Lemma size_of_c R sq c1 c2 t : r_combined5x2t_stat R sq c1 c2 = Ok t -> exp_size c1 = exp_size c2.
Proof. unfold r_combined5x2t_stat, ten_results. destruct (Nat.eqb_spec (exp_size c1) (exp_size c2)); [auto|discriminate]. Qed.
Theorem C131_decision : forall R sq tdist alpha, rounding R -> root_like sq -> fair tdist alpha -> forall cmp,
  cmp = r_pairedt_compare R sq tdist \/ cmp = r_paired5x2t_compare R sq tdist \/ cmp = r_combined5x2t_compare R sq tdist ->
  forall c1 c2 z, decide cmp c1 c2 alpha = Ok z -> decide cmp c2 c1 alpha = Ok (- z)%Z.
Proof.
  intros R sq tdist alpha HR Hs F cmp [->|[->| ->]] c1 c2 z.
  - apply (decide_anti tdist alpha (r_pairedt_stat R sq) (fun c => (Z.of_nat (exp_size c) - 1)%Z) F); [intros; apply (C131_swap R sq HR Hs)|]. intros a b t E. rewrite (size_of_t R sq a b t E). reflexivity.
  - apply (decide_anti tdist alpha (r_paired5x2t_stat R sq) (fun c => (Z.of_nat (exp_size c) / 2)%Z) F); [intros; apply (C131_swap R sq HR Hs)|]. intros a b t E. rewrite (size_of_5 R sq a b t E). reflexivity.
  - apply (decide_anti tdist alpha (r_combined5x2t_stat R sq) (fun c => (Z.of_nat (exp_size c) / 2)%Z) F); [intros; apply (C131_swap R sq HR Hs)|]. intros a b t E. rewrite (size_of_c R sq a b t E). reflexivity.
Qed.
(** A larger level keeps rejections, also of the two-tailed test with its rounded halves. *)
Theorem C131_kept : forall R, rounding R -> forall t a a', dleb a a' = true -> r_two_tailed R t a = REJECT -> r_two_tailed R t a' = REJECT.
Proof.
  intros R HR [p b] a a' L. unfold r_two_tailed. cbn [only_two p_value].
  assert (forall x y z, dltb x y = true -> dleb y z = true -> dltb x z = true) as T.
  { intros x y z H H'. destruct x, y; try discriminate H; destruct z; try discriminate H'; try reflexivity. rewrite dltb_fin in *. rewrite dleb_fin in *. lra. }
  assert (dleb (rdiv R a (Fin 2)) (rdiv R a' (Fin 2)) = true) as H2.
  { apply (r_mono R HR). destruct a, a'; try discriminate L; try reflexivity. rewrite !ddiv_fin by discriminate. apply dleb_fin in L. apply dleb_fin. apply Qmult_le_compat_r; [exact L|discriminate]. }
  assert (dleb (rsub R d1 (rdiv R a' (Fin 2))) (rsub R d1 (rdiv R a (Fin 2))) = true) as H1.
  { apply (r_mono R HR). destruct (rdiv R a (Fin 2)), (rdiv R a' (Fin 2)); try discriminate H2; try reflexivity. cbn [dsub dadd dopp d1]. apply dleb_fin in H2. apply dleb_fin. lra. }
  destruct b.
  - destruct (dltb p a) eqn:E; [|discriminate]. rewrite (T _ _ _ E L). reflexivity.
  - destruct (dltb p (rdiv R a (Fin 2))) eqn:E; cbn [orb].
    + intros _. rewrite (T _ _ _ E H2). reflexivity.
    + unfold dgtb. destruct (dltb (rsub R d1 (rdiv R a (Fin 2))) p) eqn:E'; [|discriminate]. intros _.
      assert (dltb (rsub R d1 (rdiv R a' (Fin 2))) p = true) as ->; [|rewrite orb_true_r; reflexivity].
      clear - E' H1. set (x := rsub R d1 (rdiv R a' (Fin 2))) in *. set (y := rsub R d1 (rdiv R a (Fin 2))) in *. clearbody x y.
      destruct x, y; try discriminate H1; destruct p; try discriminate E'; try reflexivity. rewrite dltb_fin in *. rewrite dleb_fin in *. lra.
Qed.
(** ** Two classifiers with the same finite results: every test refuses *)
Lemma b64_double d : deq (b64 (Fin d)) (Fin d) -> (Qabs d <= inject_Z (2 ^ 1000))%Q -> deq (b64 (Fin (d + d))) (Fin (d + d)).
Proof.
  intros F B.
  assert (representable d) as (m & e & Bm & Be & E).
  { destruct (b64_cases d) as [[_ H]|[[_ H]|[_ (r & H & E)]]]; rewrite H in F; try contradiction. cbn in F. destruct (representable_round d) as (m & e & Bm & Be & Em). exists m, e. split; [exact Bm|]. split; [exact Be|]. rewrite <- F, E. exact Em. }
  apply b64_representable.
  - exists m, (e + 1)%Z. split; [exact Bm|]. split; [lia|]. rewrite E, pow2_succ. ring.
  - assert (inject_Z (2 ^ 1000) + inject_Z (2 ^ 1000) < pow2 1024)%Q as L by (vm_compute; reflexivity). apply Qabs_Qle_condition in B. set (h := inject_Z (2 ^ 1000)) in *. set (g := pow2 1024) in *. clearbody h g. lra.
Qed.

Lemma halve d : deq (b64 (Fin d)) (Fin d) -> (Qabs d <= inject_Z (2 ^ 1000))%Q -> forall a b, deq a (Fin d) -> deq b (Fin d) ->
  deq (rdiv b64 (radd b64 a b) (Fin 2)) (Fin d).
Proof.
  intros F B a b Ea Eb. pose proof (R_proper b64 rounding_b64) as P. unfold rdiv, radd. rewrite Ea, Eb. cbn [dadd]. rewrite (b64_double d F B).
  rewrite ddiv_fin by discriminate. etransitivity; [|exact F]. apply (r_ext b64 rounding_b64). cbn. field.
Qed.
Section Zero.
  Context (R : dbl -> dbl) (HR : rounding R).
  #[local] Instance R_z : Proper (deq ==> deq) R := R_proper R HR.
  Lemma zero_square a b d : deq a (Fin d) -> deq b (Fin d) -> deq (rpow2 R (rsub R a b)) d0.
  Proof.
    intros E E'. unfold rpow2, rmul, rsub. rewrite E, E'. assert (deq (dsub (Fin d) (Fin d)) d0) as -> by (cbn; ring). rewrite (R_0 R HR). etransitivity; [|apply (R_0 R HR)]. apply (r_ext R HR). cbn. ring.
  Qed.
  Lemma zero_add a b : deq a d0 -> deq b d0 -> deq (radd R a b) d0.
  Proof. intros E E'. unfold radd. rewrite E, E'. etransitivity; [|apply (R_0 R HR)]. apply (r_ext R HR). cbn. ring. Qed.
  Lemma zero_sum l : Forall (fun x => deq x d0) l -> deq (r_sum R l) d0.
  Proof.
    intros H. unfold r_sum. assert (forall a, deq a d0 -> deq (fold_left (radd R) l a) d0) as G; [|apply G; reflexivity].
    induction H as [|x l Hx H IH]; intros a Ha; [exact Ha|]. cbn [fold_left]. apply IH, zero_add; assumption.
  Qed.
  Lemma zero_div a q : deq a d0 -> ~ (q == 0)%Q -> deq (rdiv R a (Fin q)) d0.
  Proof. intros E N. unfold rdiv. rewrite E. unfold d0 at 1. rewrite ddiv_fin by exact N. etransitivity; [|apply (R_0 R HR)]. apply (r_ext R HR). cbn. field. exact N. Qed.
  Lemma zero_mul a q : deq a d0 -> deq (rmul R a (Fin q)) d0.
  Proof. intros E. unfold rmul. rewrite E. etransitivity; [|apply (R_0 R HR)]. apply (r_ext R HR). cbn. ring. Qed.
  Lemma zero_deqb a : deq a d0 -> deqb a d0 = true.
  Proof. intros E. rewrite (deqb_proper a d0 d0 d0 E) by reflexivity. reflexivity. Qed.
  (** the variance loop over pairs whose rounded mean is their common value *)
  Lemma five_constant ds d : (forall a b, deq a (Fin d) -> deq b (Fin d) -> deq (rdiv R (radd R a b) (Fin 2)) (Fin d)) -> Forall (fun x => deq x (Fin d)) ds ->
    exists mv, r_five R ds = Ok mv /\ deq (snd mv) d0.
  Proof.
    intros M F. unfold r_five.
    assert (forall i, i < length ds -> exists a, idxn ds i = Ok a /\ deq a (Fin d)) as I.
    { intros i Hi. unfold idxn. destruct (nth_error ds i) as [a|] eqn:E; [|apply nth_error_None in E; lia]. exists a. split; [reflexivity|]. rewrite Forall_forall in F. apply F, (nth_error_In _ _ E). }
    assert (forall l st, Forall (fun i => 2 * i + 1 < length ds) l -> deq (snd st) d0 -> exists mv,
      foldM (fun st i => do a <- idxn ds (2 * i); do b <- idxn ds (2 * i + 1); let mean := rdiv R (radd R a b) (Fin 2) in
         Ok (radd R (fst st) mean, radd R (snd st) (radd R (rpow2 R (rsub R a mean)) (rpow2 R (rsub R b mean))))) l st = Ok mv /\ deq (snd mv) d0) as G.
    { induction l as [|i l IH]; intros st L E; [exists st; split; [reflexivity|exact E]|]. inversion L; subst. cbn [foldM].
      destruct (I (2 * i)) as (a & -> & Ea); [lia|]. destruct (I (2 * i + 1)) as (b & -> & Eb); [lia|]. cbn [bind]. cbv zeta. apply IH; [assumption|]. cbn [snd].
      apply zero_add; [exact E|]. apply zero_add; apply (zero_square _ _ d); try assumption; apply M; assumption. }
    apply G; [|reflexivity]. apply Forall_forall. intros i Hi. apply in_seq in Hi. pose proof (Nat.div_mod (length ds) 2 ltac:(lia)). lia.
  Qed.
End Zero.
Lemma not_applicable_5x2 R sq c1 c2 ds mv : root_like sq -> rounding R -> r_differences R c1 c2 = Ok ds -> r_five R ds = Ok mv -> deq (snd mv) d0 ->
  r_paired5x2t_stat R sq c1 c2 = Throw StatTestNotApplicable /\ r_combined5x2t_stat R sq c1 c2 = Throw StatTestNotApplicable /\ r_combined5x2f_stat R c1 c2 = Throw StatTestNotApplicable.
Proof.
  intros [Se S0] HR Ed Ef Z. unfold r_paired5x2t_stat, r_combined5x2t_stat, r_combined5x2f_stat. destruct (ten_results c1 c2); cbn [negb]; [|repeat split].
  rewrite Ed. cbn [bind]. rewrite Ef. cbn [bind]. cbv zeta.
  assert (deq (sq (rdiv R (snd mv) (Fin 5))) d0) as D by (etransitivity; [apply Se, zero_div; [exact HR|exact Z|discriminate]|exact S0]).
  rewrite (zero_deqb _ D), (zero_deqb (rmul R (snd mv) (Fin 2)) (zero_mul R HR _ _ Z)). repeat split.
Qed.
Theorem C131_equal : forall R sq, rounding R -> root_like sq -> forall c1 c2 qs, exp_size c1 = exp_size c2 -> 2 <= exp_size c1 -> (Z.of_nat (exp_size c1) <= 2 ^ 53)%Z -> map error_rate (results c1) = map Fin qs -> map error_rate (results c2) = map Fin qs ->
  r_pairedt_stat R sq c1 c2 = Throw StatTestNotApplicable /\ r_paired5x2t_stat R sq c1 c2 = Throw StatTestNotApplicable /\
  r_combined5x2t_stat R sq c1 c2 = Throw StatTestNotApplicable /\ r_combined5x2f_stat R c1 c2 = Throw StatTestNotApplicable /\ r_sign_compare R c1 c2 = Throw StatTestNotApplicable.
Proof.
  intros R sq HR Hs c1 c2 qs H N Sm E1 E2.
  assert (forall c, map error_rate (results c) = map Fin qs -> forall i, exp_error c (Z.of_nat i) = match nth_error qs i with Some q => Ok (Fin q) | None => Throw OutOfRange end) as Er.
  { intros c E i. unfold exp_error. rewrite at_nat. unfold atn. assert (nth_error (map error_rate (results c)) i = nth_error (map Fin qs) i) as En by (rewrite E; reflexivity).
    rewrite !nth_error_map in En. destruct (nth_error (results c) i), (nth_error qs i); cbn in *; try discriminate; try reflexivity. injection En as ->. reflexivity. }
  assert (exp_size c1 = length qs) as Ls by (unfold exp_size; rewrite <- (map_length error_rate), E1, map_length; reflexivity).
  assert (exists ds, r_differences R c1 c2 = Ok ds /\ Forall (fun x => deq x d0) ds) as (ds & Ed & Zd).
  { unfold r_differences. rewrite Ls. assert (forall l, Forall (fun i => i < length qs) l -> exists ds,
      mapM (fun i => do a <- exp_error c1 (Z.of_nat i); do b <- exp_error c2 (Z.of_nat i); Ok (rsub R a b)) l = Ok ds /\ Forall (fun x => deq x d0) ds) as G; [|apply G, Forall_forall; intros i Hi; apply in_seq in Hi; lia].
    induction l as [|i l IH]; intros F; [exists []; split; [reflexivity|constructor]|]. inversion F; subst. destruct IH as (ds & Ed & Z); [assumption|]. cbn [mapM]. rewrite (Er c1 E1), (Er c2 E2).
    destruct (nth_error qs i) as [q|] eqn:Eq; [|apply nth_error_None in Eq; lia]. cbn [bind]. rewrite Ed. cbn [bind]. eexists. split; [reflexivity|]. constructor; [|exact Z].
    unfold rsub. etransitivity; [|apply (R_0 R HR)]. apply (r_ext R HR). cbn. ring. }
  pose proof (R_proper R HR) as P. split.
  - unfold r_pairedt_stat. rewrite H, Nat.eqb_refl. cbn [negb]. rewrite Ed. cbn [bind]. cbv zeta. rewrite <- H. set (n := exp_size c1) in *.
    assert (deq (rdiv R (r_sum R ds) (rnat R n)) d0) as M.
    { etransitivity; [|apply (zero_div R HR (r_sum R ds) (qofn n)); [apply zero_sum; assumption|]]; [unfold rdiv; rewrite (rnat_exact R HR n Sm); reflexivity|]. pose proof (qofn_pos n ltac:(lia)). intros E. lra. }
    set (m := rdiv R (r_sum R ds) (rnat R n)) in *.
    assert (deq (rdiv R (r_sum R (map (fun d => rpow2 R (rsub R d m)) ds)) (R (dofZ (Z.of_nat n - 1)))) d0) as V.
    { etransitivity; [|apply (zero_div R HR (r_sum R (map (fun d => rpow2 R (rsub R d m)) ds)) (inject_Z (Z.of_nat n - 1)))].
      - unfold rdiv. rewrite (r_int R HR (Z.of_nat n - 1)) by lia. reflexivity.
      - apply zero_sum; [exact HR|]. apply Forall_map. revert Zd. apply Forall_impl. intros d Hd. apply (zero_square R HR d m 0 Hd M).
      - intros E. change 0%Q with (inject_Z 0) in E. apply (proj1 (inject_Z_injective _ _)) in E. lia. }
    rewrite (zero_deqb (sq (rdiv R (r_sum R (map (fun d => rpow2 R (rsub R d m)) ds)) (R (dofZ (Z.of_nat n - 1)))))); [reflexivity|]. destruct Hs as [Se S0]. etransitivity; [apply Se, V|exact S0].
  - destruct (five_constant R HR ds 0) as (mv & Ef & Zm).
    + intros a b Ea Eb. apply (zero_div R HR); [|discriminate]. apply (zero_add R HR); assumption.
    + exact Zd.
    + destruct (not_applicable_5x2 R sq c1 c2 ds mv Hs HR Ed Ef Zm) as (A & B & C). split; [exact A|]. split; [exact B|]. split; [exact C|].
      unfold r_sign_compare. rewrite H, Nat.eqb_refl. cbn [negb].
      assert (sign_counts c1 c2 = Ok (0, 0)) as ->; [|reflexivity]. unfold sign_counts. rewrite Ls.
      assert (forall l, Forall (fun i => i < length qs) l -> foldM (fun st i => do a <- exp_error c1 (Z.of_nat i); do b <- exp_error c2 (Z.of_nat i);
        Ok (if dltb a b then (S (fst st), snd st) else if dgtb a b then (fst st, S (snd st)) else st)) l (0, 0) = Ok (0, 0)) as G; [|apply G, Forall_forall; intros i Hi; apply in_seq in Hi; lia].
      induction l as [|i l IH]; intros F; [reflexivity|]. inversion F; subst. cbn [foldM]. rewrite (Er c1 E1), (Er c2 E2). destruct (nth_error qs i) as [q|] eqn:Eq; [|apply nth_error_None in Eq; lia]. cbn [bind].
      assert (dltb (Fin q) (Fin q) = false) as I by (apply dltb_fin_false; lra). unfold dgtb. rewrite I. apply IH. assumption.
Qed.
(** A constant difference between the classifiers: the 5x2 tests refuse, as in exact arithmetic, *)
Theorem C131_constant : forall sq, root_like sq -> forall c1 c2 ds d, r_differences b64 c1 c2 = Ok ds -> Forall (fun x => deq x (Fin d)) ds -> (Qabs d <= inject_Z (2 ^ 1000))%Q ->
  r_paired5x2t_stat b64 sq c1 c2 = Throw StatTestNotApplicable /\ r_combined5x2t_stat b64 sq c1 c2 = Throw StatTestNotApplicable /\ r_combined5x2f_stat b64 c1 c2 = Throw StatTestNotApplicable.
Proof.
  intros sq Hs c1 c2 ds d Ed Fd B.
  assert (exists mv, r_five b64 ds = Ok mv /\ deq (snd mv) d0) as (mv & Ef & Z).
  { destruct ds as [|x ds']; [eexists; split; [reflexivity|reflexivity]|].
    apply (five_constant b64 rounding_b64 _ d); [|exact Fd]. apply halve; [|exact B].
    inversion Fd as [|? ? Hx _]; subst. unfold r_differences in Ed. apply mapM_ok in Ed. inversion Ed as [|i ? ? ? Ex _]; subst.
    destruct (exp_error c1 _) as [a| | |]; try discriminate. destruct (exp_error c2 _) as [b| | |]; try discriminate. cbn in Ex. injection Ex as <-. unfold rsub in Hx.
    etransitivity; [apply (r_ext b64 rounding_b64); symmetry; exact Hx|]. etransitivity; [apply (r_idem b64 rounding_b64)|exact Hx]. }
  exact (not_applicable_5x2 b64 sq c1 c2 ds mv Hs rounding_b64 Ed Ef Z).
Qed.
(** but the paired t test does not: the rounded mean of ten equal differences is not that difference, and a variance that should
    be 0 becomes the denominator. *)
Definition rates_of (qs : list Q) : experiment := mkExp (map (fun q => PError (b64 (Fin q))) qs) false false.
Theorem C131_constant_refuted : let c1 := rates_of (repeat (2 # 10)%Q 10) in let c2 := rates_of (repeat (1 # 10)%Q 10) in
  pairedt_stat c1 c2 = Throw StatTestNotApplicable /\ r_pairedt_stat b64 b64_sqrt c1 c2 = Ok (Fin (inject_Z 21617278211378380)).
Proof.
  split; [|vm_compute; reflexivity].
  set (a := match b64 (Fin (2 # 10)) with Fin q => q | _ => 0%Q end). set (b := match b64 (Fin (1 # 10)) with Fin q => q | _ => 0%Q end).
  apply (C52_value_partial (rates_of (repeat (2 # 10)%Q 10)) (rates_of (repeat (1 # 10)%Q 10)) (repeat a 10) (repeat b 10)); [vm_compute; reflexivity|vm_compute; reflexivity|reflexivity|cbn; lia|].
  cbn [repeat diffs combine map fst snd]. intros d d' H H'. cbn [In] in H, H'. assert (d = (a - b)%Q) as -> by (repeat destruct H as [H|H]; try (symmetry; exact H); contradiction). assert (d' = (a - b)%Q) as -> by (repeat destruct H' as [H'|H']; try (symmetry; exact H'); contradiction). reflexivity.
Qed.
(** ** The sign test is exact *)
Lemma int_mul_range a b z : int_mul a b = Ok z -> (- 2147483648 <= z <= 2147483647)%Z.
Proof. unfold int_mul. destruct (_ && _) eqn:E; [|discriminate]. intros H. injection H as <-. apply andb_true_iff in E. lia. Qed.
Lemma factorial_range n z : sign_factorial n = Ok z -> (- 2147483648 <= z <= 2147483647)%Z.
Proof.
  unfold sign_factorial. assert (forall l a, (- 2147483648 <= a <= 2147483647)%Z -> foldM (fun r i => int_mul r (Z.of_nat i)) l a = Ok z -> (- 2147483648 <= z <= 2147483647)%Z) as G; [|apply G; lia].
  induction l as [|i l IH]; intros a B E; cbn [foldM] in E; [injection E as <-; exact B|]. destruct (int_mul a (Z.of_nat i)) as [b| | |] eqn:Em; try discriminate. apply (IH b); [apply (int_mul_range _ _ _ Em)|exact E].
Qed.
Lemma binomial_range m n z : sign_binomial m n = Ok z -> (Z.abs z <= 2147483648)%Z.
Proof.
  unfold sign_binomial. destruct (_ || _); [intros H; injection H as <-; lia|]. destruct (sign_factorial m) as [a| | |] eqn:Ea; try discriminate. cbn [bind]. destruct (sign_factorial n) as [b| | |]; try discriminate. cbn [bind]. destruct (sign_factorial (m - n)) as [c| | |]; try discriminate. cbn [bind].
  destruct (int_mul b c) as [bc| | |]; try discriminate. cbn [bind]. destruct (Z.eqb_spec bc 0) as [Z|Z]; [discriminate|]. intros H. injection H as <-. apply factorial_range in Ea.
  rewrite <- Z.quot_abs by exact Z. assert (0 < Z.abs bc)%Z by lia. pose proof (Z.quot_le_upper_bound (Z.abs a) (Z.abs bc) (Z.abs a) ltac:(lia) ltac:(nia)). lia.
Qed.
Lemma dyadic j t : (Z.abs j <= 2 ^ 53)%Z -> (t <= 1000) -> deq (b64 (Fin (inject_Z j / inject_Z (2 ^ Z.of_nat t)))) (Fin (inject_Z j / inject_Z (2 ^ Z.of_nat t))).
Proof.
  intros B T. assert (inject_Z j / inject_Z (2 ^ Z.of_nat t) == inject_Z j * pow2 (- Z.of_nat t))%Q as E.
  { assert (pow2 (Z.of_nat t) == inject_Z (2 ^ Z.of_nat t))%Q as P by (apply pow2_Z; lia). pose proof (pow2_inv (Z.of_nat t)) as I. pose proof (pow2_pos (Z.of_nat t)) as Q. rewrite <- P.
    assert (~ pow2 (Z.of_nat t) == 0)%Q as N by (intros N; rewrite N in Q; discriminate Q). transitivity (inject_Z j * (pow2 (- Z.of_nat t) * pow2 (Z.of_nat t)) / pow2 (Z.of_nat t))%Q; [rewrite I; field; exact N|field; exact N]. }
  apply b64_representable; [exists j, (- Z.of_nat t)%Z; split; [exact B|]; split; [lia|exact E]|]. rewrite E.
  pose proof (inject_big j B) as [L U]. pose proof (pow2_pos (- Z.of_nat t)) as P. assert (pow2 (- Z.of_nat t) <= 1)%Q as P1 by (change 1%Q with (pow2 0); apply pow2_le; lia).
  set (x := inject_Z j) in *. set (y := pow2 (- Z.of_nat t)) in *. pose proof (pow2_pos 1024) as G. set (g := pow2 1024) in *. clearbody x y g. clear - L U P P1 G. split; nra.
Qed.
Theorem C131_sign_exact : forall c1 c2, exp_size c1 <= 1000 ->
  same_outcome (fun t t' => deq (p_value t) (p_value t') /\ only_two t = only_two t') (r_sign_compare b64 c1 c2) (sign_compare c1 c2).
Proof.
  intros c1 c2 S. unfold r_sign_compare, sign_compare. destruct (negb _); [reflexivity|]. destruct (sign_counts c1 c2) as [[p m]| | |] eqn:E; cbn [bind]; try reflexivity. cbv zeta. cbn [fst snd].
  assert (p + m <= exp_size c1) as L.
  { unfold sign_counts in E. assert (forall l a b p m, foldM (fun st i => do a <- exp_error c1 (Z.of_nat i); do b <- exp_error c2 (Z.of_nat i);
        Ok (if dltb a b then (Datatypes.S (fst st), snd st) else if dgtb a b then (fst st, Datatypes.S (snd st)) else st)) l (a, b) = Ok (p, m) -> p + m <= a + b + length l) as G.
    { clear. induction l as [|i l IH]; intros a b p m E; cbn [foldM] in E; [injection E as <- <-; cbn; lia|]. destruct (exp_error c1 _) as [x| | |]; try discriminate. destruct (exp_error c2 _) as [y| | |]; try discriminate. cbn [bind fst snd] in E.
      destruct (dltb x y); [apply IH in E; cbn; lia|]. destruct (dgtb x y); apply IH in E; cbn; lia. }
    apply G in E. rewrite seq_length in E. lia. }
  destruct (Nat.eqb (p + m) 0); [reflexivity|]. set (t := p + m) in *. assert (t <= 1000) as T by lia. assert (p <= t) as Pt by lia. clearbody t.
  set (w := inject_Z (2 ^ Z.of_nat t)). assert (0 < 2 ^ Z.of_nat t)%Z as Wp by (apply Z.pow_pos_nonneg; lia). assert (~ (w == 0))%Q as W by (intros F; apply (proj1 (inject_Z_injective _ 0)) in F; lia).
  assert (forall l d d' j, deq d d' -> deq d' (Fin (inject_Z j / w)) -> (Z.abs j + 2147483648 * Z.of_nat (length l) <= 2 ^ 53)%Z -> same_outcome deq
    (foldM (fun p i => do b <- sign_binomial t i; Ok (radd b64 p (rdiv b64 (b64 (dofZ b)) (dofZ (2 ^ Z.of_nat t))))) l d)
    (foldM (fun p i => do b <- sign_binomial t i; Ok (dadd p (ddiv (dofZ b) (dofZ (2 ^ Z.of_nat t))))) l d')) as G.
  { induction l as [|i l IH]; intros d d' j Ed Ej B; cbn [foldM]; [exact Ed|]. destruct (sign_binomial t i) as [b| | |] eqn:Eb; cbn [bind]; try reflexivity. apply binomial_range in Eb. cbn [length] in B.
    pose proof (R_proper b64 rounding_b64) as P.
    assert (deq (rdiv b64 (b64 (dofZ b)) (dofZ (2 ^ Z.of_nat t))) (Fin (inject_Z b / w))) as Eq.
    { unfold rdiv. rewrite (r_int b64 rounding_b64 b) by lia. unfold dofZ. rewrite ddiv_fin by exact W. apply dyadic; lia. }
    assert (inject_Z j / w + inject_Z b / w == inject_Z (j + b) / w)%Q as Es by (rewrite inject_Z_plus; field; exact W).
    assert (deq (dadd d' (ddiv (dofZ b) (dofZ (2 ^ Z.of_nat t)))) (Fin (inject_Z (j + b) / w))) as E2 by (rewrite Ej; unfold dofZ; rewrite ddiv_fin by exact W; cbn [dadd deq]; exact Es).
    apply (IH _ _ (j + b)%Z); [|exact E2|lia]. rewrite E2. unfold radd. rewrite Ed, Ej, Eq. cbn [dadd]. rewrite Es. apply dyadic; lia. }
  assert (same_outcome deq
    (foldM (fun p i => do b <- sign_binomial t i; Ok (radd b64 p (rdiv b64 (b64 (dofZ b)) (dofZ (2 ^ Z.of_nat t))))) (seq 0 (Datatypes.S p)) d0)
    (foldM (fun p i => do b <- sign_binomial t i; Ok (dadd p (ddiv (dofZ b) (dofZ (2 ^ Z.of_nat t))))) (seq 0 (Datatypes.S p)) d0)) as K.
  { apply (G _ d0 d0 0%Z); [reflexivity|unfold d0; cbn [deq]; field; exact W|rewrite seq_length; lia]. }
  destruct (foldM _ _ d0) as [x| | |]; destruct (foldM _ _ d0) as [y| | |]; cbn in K; try contradiction; cbn [bind]; try exact K. split; [exact K|reflexivity].
Qed.
(** The square root meets what is asked of it here, and agrees with the standard library's. *)
Lemma qexp_comp p q : (p == q)%Q -> ~ (p == 0)%Q -> qexp p = qexp q.
Proof. intros E N. symmetry. apply qexp_unique; [rewrite <- E; exact N|]. rewrite <- E. apply qexp_spec, N. Qed.
Theorem C131_root : root_like b64_sqrt.
Proof.
  split; [|vm_compute; reflexivity]. intros a b E. destruct a as [p| | |], b as [q| | |]; try contradiction; try exact I. cbn in E. unfold b64_sqrt.
  assert (Qle_bool 0 p = Qle_bool 0 q) as -> by (apply qle_bool_proper; [reflexivity|exact E]). destruct (Qle_bool 0 q); [|exact I].
  assert (Qeq_bool p 0 = Qeq_bool q 0) as Z.
  { destruct (Qeq_bool q 0) eqn:Z; [apply Qeq_bool_iff; apply Qeq_bool_iff in Z; rewrite E; exact Z|]. apply qeqb0. apply qeqb0 in Z. rewrite E. exact Z. }
  rewrite Z. destruct (Qeq_bool q 0) eqn:Zq; [reflexivity|]. apply qeqb0 in Zq. rewrite (qexp_comp p q E) by (rewrite E; exact Zq). cbv zeta. set (k := Z.max 0 _). clearbody k.
  assert (p * pow2 (2 * k) == q * pow2 (2 * k))%Q as Ex by (rewrite E; reflexivity).
  rewrite (Qround.Qfloor_comp _ _ Ex). set (n := Qround.Qfloor (q * pow2 (2 * k))). set (x := (p * pow2 (2 * k))%Q) in *. set (y := (q * pow2 (2 * k))%Q) in *.
  assert (Qeq_bool x (inject_Z n) = Qeq_bool y (inject_Z n)) as ->; [|reflexivity].
  destruct (Qeq_bool y (inject_Z n)) eqn:B; [apply Qeq_bool_iff; apply Qeq_bool_iff in B; rewrite Ex; exact B|]. destruct (Qeq_bool x (inject_Z n)) eqn:B'; [|reflexivity]. apply Qeq_bool_iff in B'. apply Qeq_bool_neq in B. exfalso. apply B. rewrite <- Ex. exact B'.
Qed.
Definition sample_roots : list spec_float := let n z e := binary_normalize 53 1024 z e false in [n 1 0; n 2 0; n 3 0; n 10 0; n 9 2; n 7 (-90); n 5 101; S754_zero false; n (-4) 0; S754_infinity false]%Z.
Example C131_sqrt_case : forallb (fun x => match SFsqrt 53 1024 x, b64_sqrt match x with S754_finite s m e => Fin (inject_Z (if s then Zneg m else Zpos m) * pow2 e) | S754_zero _ => d0 | S754_infinity false => PInf | _ => NaN end with
  | S754_finite false m e, Fin q => Qeq_bool q (inject_Z (Zpos m) * pow2 e) | S754_zero _, Fin q => Qeq_bool q 0 | S754_infinity false, PInf | S754_nan, NaN => true | _, _ => false end) sample_roots = true.
Proof. vm_compute. reflexivity. Qed.
Definition coin (t : dbl) (_ : Z) : dbl := if dltb t d0 then Fin (1 # 10) else Fin (9 # 10).
Example C131_fair_case : fair coin (Fin (1 # 2)).
Proof.
  split.
  - intros t t' n E. unfold coin. rewrite E. reflexivity.
  - intros t n [H H']. unfold coin in *. destruct (dltb t d0) eqn:A; [|vm_compute in H; discriminate]. destruct (dltb (dopp t) d0) eqn:B; [|vm_compute in H'; discriminate].
    destruct t; try discriminate. cbn [dopp] in B. unfold d0 in *. apply dltb_fin in A, B. lra.
Qed.
Example C131_case : let c1 := rates_of [1 # 10; 2 # 10; 3 # 10]%Q in let c2 := rates_of [2 # 10; 4 # 10; 4 # 10]%Q in
  exists t, r_pairedt_stat b64 b64_sqrt c1 c2 = Ok (Fin t) /\ (Qabs (t + 4) <= 1 # (2 ^ 48))%Q /\ r_pairedt_stat b64 b64_sqrt c2 c1 = Ok (Fin (- t)) /\
  decide (r_pairedt_compare b64 b64_sqrt coin) c1 c2 (Fin (1 # 2)) = Ok 1%Z /\ decide (r_pairedt_compare b64 b64_sqrt coin) c2 c1 (Fin (1 # 2)) = Ok (-1)%Z.
Proof. cbv zeta. eexists. split; [vm_compute; reflexivity|]. split; [vm_compute; discriminate|]. split; [vm_compute; reflexivity|]. split; vm_compute; reflexivity. Qed.
Print Assumptions C131_same_code.
Print Assumptions C131_swap.
Print Assumptions C131_decision.
Print Assumptions C131_kept.
Print Assumptions C131_equal.
Print Assumptions C131_constant.
Print Assumptions C131_constant_refuted.
Print Assumptions C131_sign_exact.
Print Assumptions C131_root.
