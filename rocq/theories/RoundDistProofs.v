(** Euclidean distances in rounded arithmetic. *)
From Coq Require Import String ZArith QArith Qabs Bool Lia Lqa List Setoid Morphisms.
From Verif Require Import Base Spec BaseLemmas DblLemmas SortLemmas AttrModel InstanceListModel ListSpec ListProofs PartitionProofs DistanceModel DistanceSpec RoundModel RoundSpec RoundDistSpec RoundPerfProofs DistanceProofs.
Import ListNotations.
Local Open Scope list_scope.
Local Open Scope nat_scope.

Lemma qabs_sq q : (Qabs q * Qabs q == q * q)%Q.
Proof. rewrite <- Qabs_Qmult. apply Qabs_pos. nra. Qed.

(** [r] is [q] up to [k] roundings *)
Definition within (k : nat) (q r : Q) : Prop := (q * (1 - qofn k * (2 * ulp_half)) <= r <= q * (1 + qofn k * (2 * ulp_half)))%Q.
Definition tiny : Q := 1 # (2 ^ 1000)%positive.
Definition huge : Q := inject_Z (2 ^ 1000).
Lemma tiny_normal : (1 # (2 ^ 1022)%positive <= tiny * (1 # 2))%Q. Proof. vm_compute. discriminate. Qed.
Lemma huge_normal : (inject_Z (2 ^ 20) * huge * 2 <= inject_Z (2 ^ 1023))%Q. Proof. vm_compute. discriminate. Qed.
Lemma tiny_pos : (0 < tiny)%Q. Proof. reflexivity. Qed.
Lemma huge_1 : (1 <= huge)%Q. Proof. vm_compute. discriminate. Qed.
Lemma tiny_1 : (tiny <= 1)%Q. Proof. vm_compute. discriminate. Qed.

Section RoundDist.
  Context (R : dbl -> dbl).
  Definition rstep (r : dbl) (a b : attr) : dbl :=
    match a, b with
    | ADisc v, ADisc w => if String.eqb v w then r else radd R r d1
    | ACont v, ACont w => radd R r (rpow2 R (rsub R v w))
    | _, _ => r
    end.
  Fixpoint reucl_l (xs ys : list attr) (r : dbl) : res dbl :=
    match xs, ys with
    | [], _ => Ok r
    | a :: xs', b :: ys' => reucl_l xs' ys' (rstep r a b)
    | a :: xs', [] => if measuredb a then Throw OutOfRange else reucl_l xs' [] r
    end.
  Lemma reucl_struct l1 c1 l2 c2 xs : forall ys r, reucl_l xs ys r = foldM (r_eucl_step R (mkInst l1 xs c1) (mkInst l2 ys c2)) (seq 0 (length xs)) r.
  Proof.
    induction xs as [|a xs IH]; intros ys r; [reflexivity|].
    cbn [length]. rewrite foldM_seq_S.
    destruct ys as [|b ys]; cbn [reucl_l].
    - assert (E : forall s, foldM (fun s i => r_eucl_step R (mkInst l1 (a :: xs) c1) (mkInst l2 [] c2) s (S i)) (seq 0 (length xs)) s = reucl_l xs [] s).
      { intros s. rewrite IH. apply foldM_ext. intros t i _. unfold r_eucl_step, get_attr; cbn [attrs]. rewrite at_S, !(at_nat []). destruct i; reflexivity. }
      unfold r_eucl_step at 1, get_attr at 1; cbn [attrs]. change (at_ (a :: xs) (Z.of_nat 0)) with (Ok a). cbn [bind].
      destruct a; cbn [isDiscrete isContinuous measuredb orb]; try reflexivity; cbn [bind]; symmetry; apply E.
    - assert (E : forall s, foldM (fun s i => r_eucl_step R (mkInst l1 (a :: xs) c1) (mkInst l2 (b :: ys) c2) s (S i)) (seq 0 (length xs)) s = reucl_l xs ys s).
      { intros s. rewrite IH. apply foldM_ext. intros t i _. unfold r_eucl_step, get_attr; cbn [attrs]. rewrite !at_S. reflexivity. }
      unfold r_eucl_step at 1, get_attr at 1; cbn [attrs]. change (at_ (a :: xs) (Z.of_nat 0)) with (Ok a). cbn [bind].
      unfold get_attr; cbn [attrs]. change (at_ (b :: ys) (Z.of_nat 0)) with (Ok b). cbn [bind].
      destruct a, b; cbn [isDiscrete isContinuous disc_value cont_value bind rstep]; rewrite E; reflexivity.
  Qed.
  Lemma reucl_eq x y : r_eucl R x y = reucl_l (attrs x) (attrs y) d0.
  Proof. destruct x as [l1 xs c1], y as [l2 ys c2]. unfold r_eucl. rewrite (reucl_struct l1 c1 l2 c2). reflexivity. Qed.
  Definition rdist (xs ys : list attr) (r : dbl) : dbl := fold_left (fun r p => rstep r (fst p) (snd p)) (combine xs ys) r.
  Lemma reucl_l_ok xs : forall ys r, length xs = length ys -> reucl_l xs ys r = Ok (rdist xs ys r).
  Proof. induction xs as [|a xs IH]; intros [|b ys] r H; try discriminate; [reflexivity|]. cbn [reucl_l]. rewrite IH by (now injection H). reflexivity. Qed.
  Lemma reucl_ok x y : length (attrs x) = length (attrs y) -> r_eucl R x y = Ok (rdist (attrs x) (attrs y) d0).
  Proof. intros H. rewrite reucl_eq. apply reucl_l_ok, H. Qed.

  Context (HR : rounding R).
  #[local] Instance R_proper' : Proper (deq ==> deq) R := R_proper R HR.
  Lemma radd_mono a b c d : dleb a b = true -> dleb c d = true -> dleb d0 a = true -> dleb d0 c = true -> dleb (radd R a c) (radd R b d) = true.
  Proof.
    intros H H' P P'. apply (r_mono R HR). destruct a, b; try discriminate H; try discriminate P; destruct c, d; try discriminate H'; try discriminate P'; cbn [dadd]; try reflexivity.
    rewrite dleb_fin in *. lra.
  Qed.
  Lemma R_pos a : dleb d0 a = true -> dleb d0 (R a) = true.
  Proof. intros H. rewrite <- (R_0 R HR). apply (r_mono R HR), H. Qed.
  Lemma radd_pos a b : dleb d0 a = true -> dleb d0 b = true -> dleb d0 (radd R a b) = true.
  Proof. intros H H'. apply R_pos. destruct a, b; try discriminate H; try discriminate H'; try reflexivity. cbn [dadd]. unfold d0 in *. rewrite dleb_fin in *. lra. Qed.
  (** the contribution of a feature *)
  Definition rgap (a b : attr) : dbl :=
    match a, b with
    | ADisc v, ADisc w => if String.eqb v w then d0 else d1
    | ACont v, ACont w => rpow2 R (rsub R v w)
    | _, _ => d0
    end.
  Definition fixed (r : dbl) : Prop := deq (R r) r.
  Lemma radd_0 r : fixed r -> deq (radd R r d0) r.
  Proof. intros F. unfold radd. rewrite dadd_0_r. exact F. Qed.
  Lemma rstep_gap r a b : fixed r -> deq (rstep r a b) (radd R r (rgap a b)).
  Proof.
    intros F. destruct a, b; cbn [rstep rgap]; try (symmetry; apply radd_0, F); [|reflexivity].
    destruct (String.eqb v v0); [symmetry; apply radd_0, F|reflexivity].
  Qed.
  Lemma fixed_R a : fixed (R a). Proof. apply (r_idem R HR). Qed.
  Lemma fixed_step r a b : fixed r -> fixed (rstep r a b).
  Proof. intros F. unfold fixed. rewrite (rstep_gap r a b F). apply fixed_R. Qed.
  Lemma fixed_0 : fixed d0. Proof. apply (R_0 R HR). Qed.
  Lemma rsquare_opp a b : deq a (dopp b) -> deq (rpow2 R a) (rpow2 R b).
  Proof. intros E. unfold rpow2, rmul. rewrite E. apply (r_ext R HR). destruct b; cbn; try exact I. ring. Qed.
  Lemma dsub_swap v w : deq (dsub v w) (dopp (dsub w v)).
  Proof. destruct v, w; cbn; try exact I. ring. Qed.
  Lemma rgap_sym a b : deq (rgap a b) (rgap b a).
  Proof.
    destruct a, b; cbn [rgap]; try reflexivity.
    - rewrite String.eqb_sym. reflexivity.
    - apply rsquare_opp. unfold rsub. rewrite dsub_swap. apply (r_opp R HR).
  Qed.
  Lemma radd_proper' r r' g g' : deq r r' -> deq g g' -> deq (radd R r g) (radd R r' g').
  Proof. intros E E'. unfold radd. rewrite E, E'. reflexivity. Qed.
  Lemma rdist_rel xs : forall ys zs ws r r', length xs = length ys -> length zs = length xs -> length ws = length xs -> fixed r -> fixed r' -> deq r r' ->
    Forall2 (fun p p' => deq (rgap (fst p) (snd p)) (rgap (fst p') (snd p'))) (combine xs ys) (combine zs ws) -> deq (rdist xs ys r) (rdist zs ws r').
  Proof.
    unfold rdist. induction xs as [|a xs IH]; intros [|b ys] [|c zs] [|d ws] r r' H H1 H2 F F' E G; try discriminate; [exact E|].
    cbn [combine] in G. inversion G; subst. cbn [combine fold_left fst snd] in *. apply IH; try (cbn in *; lia); try (apply fixed_step; assumption); [|assumption].
    rewrite !rstep_gap by assumption. apply radd_proper'; assumption.
  Qed.
  Lemma rdist_sym xs : forall ys r r', length xs = length ys -> fixed r -> fixed r' -> deq r r' -> deq (rdist xs ys r) (rdist ys xs r').
  Proof.
    intros ys r r' H F F' E. apply rdist_rel; try (symmetry; assumption); try reflexivity; try assumption.
    clear - H HR. revert ys H. induction xs as [|a xs IH]; intros [|b ys] H; try discriminate; cbn [combine]; constructor; [cbn [fst snd]; apply rgap_sym|apply IH; now injection H].
  Qed.
  Lemma rgap_pos a b : finite a -> finite b -> dleb d0 (rgap a b) = true.
  Proof.
    intros Fa Fb. destruct a, b; cbn [rgap]; try reflexivity; [destruct (String.eqb _ _); reflexivity|].
    destruct (Fa v eq_refl) as [p ->], (Fb v0 eq_refl) as [q ->]. unfold rpow2, rmul, rsub. apply R_pos. cbn [dsub dadd dopp].
    pose proof (r_fin R HR (p + - q)%Q) as N. destruct (R _) as [x| | |]; try reflexivity; [|contradiction]. cbn [dmul]. unfold d0. apply dleb_fin. nra.
  Qed.
  Lemma rdist_pos xs : forall ys r, Forall finite xs -> Forall finite ys -> dleb d0 r = true -> fixed r -> dleb d0 (rdist xs ys r) = true.
  Proof.
    unfold rdist. induction xs as [|a xs IH]; intros [|b ys] r Fx Fy P F; try exact P. inversion Fx; subst. inversion Fy; subst. cbn [combine fold_left fst snd].
    apply IH; try assumption; [|apply fixed_step, F]. rewrite (rstep_gap r a b F). apply radd_pos; [exact P|apply rgap_pos; assumption].
  Qed.
  Lemma dleb_trans' a b c : dleb a b = true -> dleb b c = true -> dleb a c = true.
  Proof. intros H H'. destruct a, b; try discriminate H; destruct c; try discriminate H'; try reflexivity. rewrite dleb_fin in *. lra. Qed.
  Lemma pos_not_nan a : dleb d0 a = true -> is_nan a = false. Proof. destruct a; try discriminate; reflexivity. Qed.
  (** the rounded square grows with the exact one *)
  Lemma abs_R q : deq (dabs (R (Fin q))) (R (Fin (Qabs q))).
  Proof.
    destruct (Qlt_le_dec q 0) as [L|L].
    - assert (deq (R (Fin (Qabs q))) (dopp (R (Fin q)))) as ->. { rewrite <- (r_opp R HR). apply (r_ext R HR). cbn. apply Qabs_neg. lra. }
      assert (dleb (R (Fin q)) d0 = true) as N by (rewrite <- (R_0 R HR); apply (r_mono R HR); unfold d0; apply dleb_fin; lra).
      destruct (R (Fin q)); cbn in *; try discriminate N; try exact I. apply Qle_bool_iff in N. apply Qabs_neg, N.
    - assert (deq (R (Fin (Qabs q))) (R (Fin q))) as -> by (apply (r_ext R HR); cbn; apply Qabs_pos; lra).
      assert (dleb d0 (R (Fin q)) = true) as N by (apply R_pos; unfold d0; apply dleb_fin; lra).
      destruct (R (Fin q)); cbn in *; try discriminate N; try exact I. apply Qle_bool_iff in N. apply Qabs_pos, N.
  Qed.
  Lemma square_abs a : deq (dmul a a) (dmul (dabs a) (dabs a)).
  Proof. destruct a; cbn; try exact I. symmetry. apply qabs_sq. Qed.
  Lemma rsquare_mono p q : (Qabs p <= Qabs q)%Q -> dleb (rpow2 R (R (Fin p))) (rpow2 R (R (Fin q))) = true.
  Proof.
    intros H. unfold rpow2, rmul. apply (r_mono R HR). rewrite (square_abs (R (Fin p))), (square_abs (R (Fin q))), !abs_R.
    assert (dleb (R (Fin (Qabs p))) (R (Fin (Qabs q))) = true) as M by (apply (r_mono R HR), dleb_fin, H).
    assert (dleb d0 (R (Fin (Qabs p))) = true) as P by (apply R_pos; unfold d0; apply dleb_fin, Qabs_nonneg).
    destruct (R (Fin (Qabs p))), (R (Fin (Qabs q))); try discriminate M; try discriminate P; try reflexivity. cbn [dmul]. unfold d0 in P. rewrite dleb_fin in *. nra.
  Qed.
  Lemma rsquare_abs q : deq (rpow2 R (R (Fin q))) (rpow2 R (R (Fin (Qabs q)))).
  Proof.
    unfold rpow2, rmul. apply (r_ext R HR). rewrite (square_abs (R (Fin q))), abs_R. reflexivity.
  Qed.
  (** every contribution is a rounded square, also that of discrete features *)
  Lemma rgap_root a b : finite a -> finite b -> exists t, (0 <= t)%Q /\ (gapq a b == t * t)%Q /\ deq (rgap a b) (rpow2 R (R (Fin t))).
  Proof.
    intros Fa Fb.
    assert (exists t, (0 <= t)%Q /\ (0 == t * t)%Q /\ deq d0 (rpow2 R (R (Fin t)))) as Z.
    { exists 0%Q. split; [lra|split; [lra|]]. unfold rpow2, rmul. rewrite (R_0 R HR). etransitivity; [symmetry; apply (R_0 R HR)|]. apply (r_ext R HR). cbn. ring. }
    destruct a, b; cbn [rgap gapq]; try exact Z; try (destruct v; exact Z).
    - destruct (String.eqb v v0); [exact Z|]. exists 1%Q. split; [lra|split; [lra|]]. unfold rpow2, rmul. rewrite (R_1 R HR). etransitivity; [symmetry; apply (R_1 R HR)|]. apply (r_ext R HR). cbn. ring.
    - destruct (Fa v eq_refl) as [p ->], (Fb v0 eq_refl) as [q ->]. exists (Qabs (p - q)). split; [apply Qabs_nonneg|]. split.
      + symmetry. apply qabs_sq.
      + unfold rsub. cbn [dsub dadd dopp]. apply rsquare_abs.
  Qed.
  Lemma rgap_mono a b c d : finite a -> finite b -> finite c -> finite d -> (gapq a b <= gapq c d)%Q -> dleb (rgap a b) (rgap c d) = true.
  Proof.
    intros Fa Fb Fc Fd H. destruct (rgap_root a b Fa Fb) as (t & P & E & ->). destruct (rgap_root c d Fc Fd) as (t' & P' & E' & ->).
    apply rsquare_mono. rewrite !Qabs_pos by assumption. nra.
  Qed.
  Lemma rdist_mono xs : forall ys qs r r', length xs = length qs -> length ys = length qs -> Forall finite xs -> Forall finite ys -> Forall finite qs ->
    fixed r -> fixed r' -> dleb d0 r = true -> dleb r r' = true ->
    Forall2 (fun p p' => gapq (fst p) (snd p) <= gapq (fst p') (snd p'))%Q (combine xs qs) (combine ys qs) -> dleb (rdist xs qs r) (rdist ys qs r') = true.
  Proof.
    unfold rdist. induction xs as [|a xs IH]; intros [|b ys] [|q qs] r r' H H1 Fx Fy Fq F F' P L G; try discriminate; [exact L|].
    inversion Fx; subst. inversion Fy; subst. inversion Fq; subst. cbn [combine] in G. inversion G; subst. cbn [combine fold_left fst snd] in *.
    assert (dleb d0 (rgap a q) = true) as Pg by (apply rgap_pos; assumption).
    apply IH; try assumption; try (now injection H); try (now injection H1); try (apply fixed_step; assumption).
    - rewrite (rstep_gap r a q F). apply radd_pos; assumption.
    - rewrite (rstep_gap r a q F), (rstep_gap r' b q F'). apply radd_mono; try assumption. apply rgap_mono; assumption.
  Qed.
  (** ** Whole numbers *)
  Lemma whole_gap a b : whole a -> whole b -> exists n, (gapq a b == qofn n)%Q /\ (small n -> deq (rgap a b) (dofnat n)).
  Proof.
    intros Wa Wb.
    assert (exists n, (0 == qofn n)%Q /\ (small n -> deq d0 (dofnat n))) as Z by (exists 0; split; [reflexivity|intros _; reflexivity]).
    destruct a, b; cbn [rgap gapq]; try exact Z; try (destruct v; exact Z).
    - destruct (String.eqb v v0); [exact Z|]. exists 1. split; [reflexivity|intros _; reflexivity].
    - destruct (Wa v eq_refl) as [z E], (Wb v0 eq_refl) as [z' E']. destruct v as [p| | |], v0 as [q| | |]; try contradiction. cbn [deq dofZ] in E, E'.
      assert (p - q == inject_Z (z - z'))%Q as D by (unfold Z.sub; rewrite inject_Z_plus, inject_Z_opp, E, E'; reflexivity).
      set (w := (z - z')%Z) in *. clearbody w. pose proof (Z.square_nonneg w) as N. exists (Z.to_nat (w * w)).
      split; [rewrite qofn_Z, Z2Nat.id, D, inject_Z_mult by exact N; reflexivity|]. intros S. rewrite Z2Nat.id in S by exact N. assert (Z.abs w <= 2 ^ 53)%Z as B by nia.
      unfold rpow2, rmul, rsub.
      assert (deq (R (dsub (Fin p) (Fin q))) (dofZ w)) as ->. { etransitivity; [|apply (r_int R HR w B)]. apply (r_ext R HR). exact D. }
      assert (deq (dmul (dofZ w) (dofZ w)) (dofZ (w * w))) as -> by (unfold dofZ; cbn [dmul deq]; rewrite inject_Z_mult; reflexivity).
      rewrite (r_int R HR) by lia. unfold dofnat, dofZ. rewrite Z2Nat.id by exact N. reflexivity.
  Qed.
  Lemma rdist_whole xs : forall ys r m, length xs = length ys -> Forall whole xs -> Forall whole ys -> fixed r -> deq r (dofnat m) ->
    (qofn m + distq xs ys <= inject_Z (2 ^ 53))%Q -> deq (rdist xs ys r) (Fin (qofn m + distq xs ys)).
  Proof.
    unfold rdist, distq. induction xs as [|a xs IH]; intros [|b ys] r m H Wx Wy F E B; try discriminate; cbn [combine map fold_left fst snd] in *.
    - rewrite E. unfold dofnat. cbn. unfold qofn. lra.
    - inversion Wx; subst. inversion Wy; subst. cbn [qsum fold_right] in *. fold (qsum (map (fun p => gapq (fst p) (snd p)) (combine xs ys))) in *. destruct (whole_gap a b H2 H4) as (n & En & Eg).
      assert (0 <= qsum (map (fun p => gapq (fst p) (snd p)) (combine xs ys)))%Q as P.
      { apply qsum_nonneg. intros [c d] _. apply gapq_nonneg. }
      assert (small (m + n)) as S. { rewrite En in B. pose proof (qofn_plus m n) as Ep. assert (qofn (m + n) <= inject_Z (2 ^ 53))%Q as Bn by lra. rewrite qofn_Z, <- Zle_Qle in Bn. exact Bn. }
      rewrite (IH ys (rstep r a b) (m + n)); [| | | |apply fixed_step, F| |].
      + apply Fin_proper. rewrite En, qofn_plus. ring.
      + now injection H.
      + assumption.
      + assumption.
      + rewrite (rstep_gap r a b F). rewrite (radd_proper' r (dofnat m) (rgap a b) (dofnat n) E) by (apply Eg; lia). apply (radd_nat R HR), S.
      + rewrite En in B. rewrite qofn_plus. lra.
  Qed.
  (** ** Relative error *)
  Definition ranged (q : Q) (c : nat) : Prop := (q == 0 \/ tiny <= q <= qofn c * huge)%Q.
  Lemma within_round k q x c : ranged q c -> (Z.of_nat c <= 2 ^ 20)%Z -> (qofn k * (4 * ulp_half) <= 1)%Q -> within k q x -> exists r, R (Fin x) = Fin r /\ within (S k) q r.
  Proof.
    intros Rg C K W. unfold within in *. pose proof u_pos as U. pose proof (qofn_nonneg k) as Nk. set (e := (qofn k * ulp_half)%Q) in *.
    assert (e <= 1 # 4)%Q as Be by (unfold e; lra). assert (0 <= e)%Q as Pe by (unfold e; nra). assert (ulp_half <= 1 # 4)%Q as Ub by (vm_compute; discriminate).
    assert (q * (1 - 2 * e) <= x <= q * (1 + 2 * e))%Q as W' by (unfold e; destruct W; split; nra).
    destruct Rg as [Z|[L B]].
    - assert (x == 0)%Q as X by (rewrite Z in W'; lra). assert (deq (R (Fin x)) (Fin 0)) as E by (rewrite <- (R_0 R HR); apply (r_ext R HR); exact X).
      destruct (R (Fin x)) as [r| | |]; try contradiction. exists r. split; [reflexivity|]. cbn in E. rewrite Z, E. lra.
    - pose proof tiny_pos as T. assert (normal x) as N.
      { unfold normal. assert (0 <= x)%Q as Px by nra. rewrite Qabs_pos by exact Px. pose proof tiny_normal as T1. pose proof huge_normal as T2. pose proof huge_1 as H1.
        assert (qofn c <= inject_Z (2 ^ 20))%Q as Bc by (rewrite qofn_Z, <- Zle_Qle; exact C).
        set (h := huge) in *. set (t := tiny) in *. set (lo := 1 # (2 ^ 1022)%positive) in *. set (hi := inject_Z (2 ^ 1023)) in *. set (cc := inject_Z (2 ^ 20)) in *. set (c' := qofn c) in *.
        clearbody h t lo hi cc c'. clear - Be Pe W' L B T T1 T2 H1 Bc Px. assert (c' * h <= cc * h)%Q by nra. split; nra. }
      destruct (near R HR x N ltac:(nra)) as (r & E & Br). exists r. split; [exact E|].
      assert (qofn k * (2 * ulp_half) == 2 * e)%Q as Ek by (unfold e; ring).
      assert ((1 + qofn k) * (2 * ulp_half) == 2 * e + 2 * ulp_half)%Q as Ek' by (unfold e; ring). rewrite (qofn_S k), Ek'. clear Ek Ek' W K. clearbody e.
      set (u := ulp_half) in *. clearbody u. assert (0 <= q)%Q as Pq by lra. clear - Be Pe W' U Ub Br Pq.
      destruct W' as [Wl Wu], Br as [Bl Bu]. split.
      + apply Qle_trans with (y := (x * (1 - u))%Q); [|exact Bl]. apply Qle_trans with (y := (q * (1 - 2 * e) * (1 - u))%Q); [|apply Qmult_le_compat_r; lra].
        assert (0 <= q * (u * (1 + 0 * e)))%Q by nra. assert (0 <= q * (u * e))%Q by (apply Qmult_le_0_compat; [lra|]; apply Qmult_le_0_compat; lra). lra.
      + apply Qle_trans with (y := (x * (1 + u))%Q); [exact Bu|]. apply Qle_trans with (y := (q * (1 + 2 * e) * (1 + u))%Q); [apply Qmult_le_compat_r; lra|].
        assert (0 <= q * (u * (1 - 2 * e)))%Q by (apply Qmult_le_0_compat; [lra|]; apply Qmult_le_0_compat; lra). lra.
  Qed.
  Lemma moderate_finite a b : moderate a b -> (forall v, a = ACont v -> isContinuous b = true -> exists q, v = Fin q) /\ (forall v, b = ACont v -> isContinuous a = true -> exists q, v = Fin q).
  Proof. intros M. split; intros v -> C; [destruct b|destruct a]; try discriminate C; cbn in M; destruct v, v0; try contradiction; eexists; reflexivity. Qed.
  Lemma rgap_near a b : moderate a b -> exists r, deq (rgap a b) (Fin r) /\ within 3 (gapq a b) r /\ ranged (gapq a b) 1.
  Proof.
    intros M. pose proof u_pos as U.
    assert (exists r, deq d0 (Fin r) /\ within 3 0 r /\ ranged 0 1) as Z by (exists 0%Q; repeat split; try reflexivity; try (unfold within; lra); left; reflexivity).
    destruct a, b; cbn [rgap gapq]; try exact Z; try (destruct v; exact Z).
    - destruct (String.eqb v v0); [exact Z|]. exists 1%Q. split; [reflexivity|split]; [unfold within; vm_compute; split; discriminate|]. right. rewrite qofn_1. pose proof huge_1. pose proof tiny_1. lra.
    - cbn in M. destruct v as [p| | |], v0 as [q| | |]; try contradiction. unfold rsub. cbn [dsub dadd dopp]. unfold rpow2, rmul. change (p + - q)%Q with (p - q)%Q. set (d := (p - q)%Q) in *.
      assert (d == 0 \/ 1 # (2 ^ 500)%positive <= Qabs d <= inject_Z (2 ^ 500))%Q as [D|D] by (destruct M as [M|M]; [left; unfold d; lra|right; exact M]).
      + destruct Z as (r & Er & Wr & Rr). exists r. assert (d * d == 0)%Q as Z0 by (rewrite D; ring). split; [|split].
        * assert (deq (Fin d) d0) as -> by exact D. rewrite (R_0 R HR). rewrite <- Er. etransitivity; [|apply (R_0 R HR)]. apply (r_ext R HR). cbn. ring.
        * unfold within in *. rewrite Z0. exact Wr.
        * left. exact Z0.
      + assert (normal d) as Nd. { unfold normal. assert (1 # (2 ^ 1022)%positive <= 1 # (2 ^ 500)%positive)%Q by (vm_compute; discriminate). assert (inject_Z (2 ^ 500) <= inject_Z (2 ^ 1023))%Q by (vm_compute; discriminate). lra. }
        destruct (r_err R HR d Nd) as (a & Ea & Ba). rewrite Ea. cbn [dmul].
        assert (ranged (d * d) 1) as Rd.
        { right. rewrite <- (qabs_sq d), qofn_1. assert (tiny == (1 # (2 ^ 500)%positive) * (1 # (2 ^ 500)%positive))%Q as -> by (vm_compute; reflexivity).
          assert (huge == inject_Z (2 ^ 500) * inject_Z (2 ^ 500))%Q as -> by (vm_compute; reflexivity). assert (0 < 1 # (2 ^ 500)%positive)%Q by reflexivity.
          set (l := 1 # (2 ^ 500)%positive) in *. set (h := inject_Z (2 ^ 500)) in *. clearbody l h. set (t := Qabs d) in *. clearbody t. clear - D H. nra. }
        assert (within 2 (d * d) (a * a)) as W2.
        { unfold within. assert (qofn 2 == 2)%Q as -> by reflexivity. assert (ulp_half <= 1 # 4)%Q as Ub by (vm_compute; discriminate).
          apply Qabs_Qle_condition in Ba. rewrite <- (qabs_sq d). set (u := ulp_half) in *. clearbody u.
          assert (exists s, Qabs d == s * d /\ s * s == 1)%Q as (s & Es & Es2).
          { destruct (Qlt_le_dec d 0) as [L|L]; [exists (-(1))%Q; split; [rewrite Qabs_neg by lra; ring|ring]|exists 1%Q; split; [rewrite Qabs_pos by lra; ring|ring]]. }
          set (t := Qabs d) in *. assert (0 <= t)%Q as Pt by (apply Qabs_nonneg). assert (t * t == d * d)%Q as Sq by apply qabs_sq. clearbody t.
          assert (t - u * t <= s * a <= t + u * t)%Q as Bs.
          { assert (- (u * t) <= a - d <= u * t)%Q as B1 by exact Ba. assert (s == 1 \/ s == - (1))%Q as [S|S] by (assert ((s - 1) * (s + 1) == 0)%Q as Z1 by lra; apply Qmult_integral in Z1; destruct Z1; [left|right]; lra); rewrite S in *; lra. }
          assert (a * a == (s * a) * (s * a))%Q as -> by (transitivity ((s * s) * (a * a))%Q; [rewrite Es2; ring|ring]). set (x := (s * a)%Q) in *. clearbody x. clear - Bs Pt U Ub.
          assert (0 <= t * (1 - u))%Q as P1 by (apply Qmult_le_0_compat; lra). destruct Bs as [B1 B2].
          assert (x * x <= (t + u * t) * (t + u * t))%Q as X2 by nra. assert ((t - u * t) * (t - u * t) <= x * x)%Q as X1 by nra.
          assert (0 <= t * t)%Q as T by nra. set (T2 := (t * t)%Q) in *.
          assert ((t + u * t) * (t + u * t) == T2 * ((1 + u) * (1 + u)))%Q as E2 by (unfold T2; ring). assert ((t - u * t) * (t - u * t) == T2 * ((1 - u) * (1 - u)))%Q as E1 by (unfold T2; ring).
          rewrite E2 in X2. rewrite E1 in X1. clearbody T2. assert (0 <= T2 * (u * (2 - u)))%Q by (apply Qmult_le_0_compat; [lra|]; apply Qmult_le_0_compat; lra). assert (0 <= T2 * (u * u))%Q by (apply Qmult_le_0_compat; [lra|]; apply Qmult_le_0_compat; lra). assert (0 <= T2 * u)%Q by (apply Qmult_le_0_compat; lra). split; lra. }
        destruct (within_round 2 (d * d) (a * a) 1 Rd ltac:(lia) ltac:(vm_compute; discriminate) W2) as (r & Er & Wr).
        exists r. split; [rewrite Er; reflexivity|]. split; assumption.
  Qed.
  Lemma rdist_near xs : forall ys r s c rq, length xs = length ys -> Forall2 moderate xs ys -> fixed r -> deq r (Fin rq) -> (3 <= c)%nat ->
    (s == 0 \/ tiny <= s <= qofn (c - 3) * huge)%Q -> within c s rq -> (Z.of_nat (c + length xs) <= 2 ^ 20)%Z ->
    exists q, deq (rdist xs ys r) (Fin q) /\ within (c + length xs) (s + distq xs ys) q.
  Proof.
    induction xs as [|a xs IH]; intros [|b ys] r s c rq H M F E C Rs W B; try discriminate.
    - exists rq. split; [exact E|]. cbn [length]. rewrite Nat.add_0_r. unfold within in *. assert (distq [] [] == 0)%Q as -> by reflexivity. assert (s + 0 == s)%Q as -> by ring. exact W.
    - inversion M; subst. destruct (rgap_near a b H3) as (g & Eg & Wg & Rg). unfold rdist in *. cbn [combine fold_left fst snd length] in *.
      assert (deq (rstep r a b) (R (Fin (rq + g)))) as Er by (rewrite (rstep_gap r a b F); unfold radd; apply (r_ext R HR); rewrite E, Eg; reflexivity).
      pose proof u_pos as U. pose proof tiny_pos as T. pose proof huge_1 as Hg. pose proof (gapq_nonneg a b) as Pg.
      assert (0 <= s)%Q as Ps by (destruct Rs as [->|Rs]; lra).
      assert (s + gapq a b == 0 \/ tiny <= s + gapq a b <= qofn (S c - 3) * huge)%Q as Rs'.
      { replace (S c - 3)%nat with (S (c - 3)) by lia. rewrite qofn_S. pose proof (qofn_nonneg (c - 3)) as Nc. unfold ranged in Rg. rewrite qofn_1 in Rg. assert (0 <= qofn (c - 3) * huge)%Q by (apply Qmult_le_0_compat; lra). destruct Rs as [Z|Rs], Rg as [Z'|Rg]; [left; lra|right; lra|right; lra|right; lra]. }
      assert (ranged (s + gapq a b) c) as Rr.
      { destruct Rs' as [Z|[L1 L2]]; [left; exact Z|right; split; [exact L1|]]. apply (Qle_trans _ _ _ L2). apply Qmult_le_compat_r; [|lra]. apply qofn_le. lia. }
      assert (within c (s + gapq a b) (rq + g)) as Wx.
      { unfold within in *. assert (qofn 3 <= qofn c)%Q as L by (apply qofn_le, C). set (k := qofn c) in *. set (k3 := qofn 3) in *. clearbody k k3. set (u := ulp_half) in *. clearbody u.
        assert (0 <= gapq a b * ((k - k3) * (2 * u)))%Q as L2 by (apply Qmult_le_0_compat; [exact Pg|]; apply Qmult_le_0_compat; lra). lra. }
      assert (qofn c * (4 * ulp_half) <= 1)%Q as K.
      { assert (qofn c <= inject_Z (2 ^ 20))%Q as L by (rewrite qofn_Z, <- Zle_Qle; lia). assert (inject_Z (2 ^ 20) * (4 * ulp_half) <= 1)%Q as L2 by (vm_compute; discriminate). apply (Qle_trans _ (inject_Z (2 ^ 20) * (4 * ulp_half))); [apply Qmult_le_compat_r; [exact L|lra]|exact L2]. }
      destruct (within_round c (s + gapq a b) (rq + g) c Rr ltac:(lia) K Wx) as (r' & Er' & Wr').
      destruct (IH ys (rstep r a b) (s + gapq a b)%Q (S c) r') as (q & Eq & Wq); [now injection H|assumption|apply fixed_step, F|rewrite Er, Er'; reflexivity|lia|exact Rs'|exact Wr'|lia|].
      exists q. split; [exact Eq|]. replace (c + S (length xs))%nat with (S c + length xs)%nat by lia. unfold within in *. rewrite distq_cons, Qplus_assoc. exact Wq.
  Qed.
End RoundDist.
(** ** Sorting by keys that compare alike *)
Lemma ssort_ext {A} (lt lt' : A -> A -> bool) l : (forall x y, In x l -> In y l -> lt x y = lt' x y) -> ssort lt l = ssort lt' l.
Proof.
  induction l as [|x l IH]; intros H; [reflexivity|]. unfold ssort in *. cbn [fold_right]. rewrite IH by (intros; apply H; right; assumption).
  change (fold_right (sinsert lt') [] l) with (ssort lt' l).
  assert (forall y, In y (ssort lt' l) -> lt y x = lt' y x) as K.
  { intros y Hy. apply H; [right|left; reflexivity]. apply (Permutation.Permutation_in (l := ssort lt' l)); [apply Permutation.Permutation_sym, ssort_perm|exact Hy]. }
  revert K. generalize (ssort lt' l). clear. intros m. induction m as [|y m IH]; intros K; [reflexivity|]. cbn [sinsert]. rewrite K by (left; reflexivity). rewrite IH by (intros; apply K; right; assumption). reflexivity.
Qed.
