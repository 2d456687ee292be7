(** Training of the soft decision tree. *)
From Coq Require Import String ZArith QArith Qabs Bool Lia Lra Lqa Permutation List.
From Verif Require Import Base Spec BaseLemmas DblLemmas AttrModel AttrProofs DataSetModel InstanceListModel PartitionModel PerformanceModel DistanceModel GaussianModel
  TreeModel ListSpec ListProofs PartitionProofs PerformanceProofs GaussianProofs SvmSpec KernelProofs SolverInvProofs SvmTrainProofs NetModel NetSpec NetProofs NetTrainProofs SoftModel SoftSpec SoftProofs.
Import ListNotations.
Local Open Scope string_scope.
Local Open Scope list_scope.
Local Open Scope nat_scope.

(** * Loops that update one position per iteration *)
Lemma fold_upd2 (step : list dbl * list dbl -> nat -> res (list dbl * list dbl)) (A B : nat -> dbl -> dbl -> dbl) w0 pv0 m :
  (forall st k w pv, k < m -> nth_error (fst st) k = Some w -> nth_error (snd st) k = Some pv -> step st k = Ok (upd (fst st) k (A k w pv), upd (snd st) k (B k w pv))) ->
  m <= length w0 -> m <= length pv0 ->
  exists w' pv', foldM step (seq 0 m) (w0, pv0) = Ok (w', pv') /\ length w' = length w0 /\ length pv' = length pv0 /\
    (forall k, k < m -> nth k w' NaN = A k (nth k w0 NaN) (nth k pv0 NaN) /\ nth k pv' NaN = B k (nth k w0 NaN) (nth k pv0 NaN)) /\
    (forall k, m <= k -> nth k w' NaN = nth k w0 NaN /\ nth k pv' NaN = nth k pv0 NaN).
Proof.
  induction m as [|m IH]; intros Hs Hw Hp. { exists w0, pv0. cbn. repeat split; intros; lia. }
  destruct IH as (w & pv & E & Lw & Lp & H1 & H2); [intros; apply Hs; auto; lia|lia|lia|].
  rewrite seq_S, foldM_app_, E. cbn [bind Nat.add foldM]. destruct (nth_error w m) as [a|] eqn:Ea; [|apply nth_error_None in Ea; lia]. destruct (nth_error pv m) as [b|] eqn:Eb; [|apply nth_error_None in Eb; lia].
  rewrite (Hs (w, pv) m a b) by (auto; lia). cbn [bind fst snd]. eexists _, _. split; [reflexivity|]. rewrite !upd_length. split; [exact Lw|]. split; [exact Lp|].
  destruct (H2 m (le_n m)) as (Em & Em'). rewrite (nth_error_nth _ _ NaN Ea) in Em. rewrite (nth_error_nth _ _ NaN Eb) in Em'.
  assert (forall (l : list dbl) v j, j <> m -> nth j (upd l m v) NaN = nth j l NaN) as Hoth.
  { intros l v j Hj. destruct (nth_error l j) as [x|] eqn:Ex.
    - rewrite (nth_error_nth _ _ NaN Ex). apply nth_error_nth. rewrite nth_upd_other by congruence. exact Ex.
    - apply nth_error_None in Ex. rewrite !nth_overflow; [reflexivity|exact Ex|rewrite upd_length; exact Ex]. }
  split.
  - intros k Hk. destruct (Nat.eq_dec k m) as [->|Hne].
    + erewrite (nth_error_nth (upd w m _) m NaN) by (apply nth_upd_same; lia). erewrite (nth_error_nth (upd pv m _) m NaN) by (apply nth_upd_same; lia). rewrite <- Em, <- Em'. split; reflexivity.
    + rewrite !Hoth by exact Hne. apply H1. lia.
  - intros k Hk. rewrite !Hoth by lia. apply H2. lia.
Qed.

Section Train.
Context (dexp : dbl -> dbl) (labels : list string) (d : nat).
Context (Hnd : NoDup labels) (Hne : labels <> []).
Notation K := (length labels).
Notation soft_output := (soft_output dexp).
(** an instance the tree can be trained with and asked about *)
Definition fine (x : instance) : Prop := In (label x) labels /\ length (attrs x) = d /\ Forall (fun a => exists v, a = ACont v) (attrs x).
Lemma fine_vector x : fine x -> length (inst_vector x) = d.
Proof.
  intros (_ & <- & H). rewrite inst_vector_concat. induction (attrs x) as [|a l IH]; [reflexivity|]. inversion H as [|? ? (v & ->) H']; subst. cbn. f_equal. apply IH, H'.
Qed.
Lemma fine_feature x t : fine x -> 0 < t <= d -> exists v, (do a <- get_attr x (Z.of_nat t - 1); cont_value a) = Ok v.
Proof.
  intros (_ & Hl & H) Ht. unfold get_attr. replace (Z.of_nat t - 1)%Z with (Z.of_nat (t - 1)) by lia. rewrite at_nat. destruct (nth_error (attrs x) (t - 1)) as [a|] eqn:E; [|apply nth_error_None in E; lia].
  rewrite (proj2 (atn_ok _ _ _) E). cbn [bind]. rewrite Forall_forall in H. destruct (H a (nth_error_In _ _ E)) as (v & ->). exists v. reflexivity.
Qed.
(** * Validation errors *)
Lemma arg_max_ok o : o <> [] -> exists i, arg_max o = Ok i /\ i < length o.
Proof. destruct o as [|a o]; [congruence|]. intros _. eexists. split; [reflexivity|]. pose proof (max_scan_bound o 1 (0, a) ltac:(cbn; lia)). cbn [length]. lia. Qed.
Lemma answer t x : laid_out K d t -> fine x -> exists o t' i c, soft_output (inst_vector x) t = Ok (o, t') /\ same_tree t t' /\ arg_max o = Ok i /\ nth_error labels i = Some c /\
  Nat.eqb i (find_pos (label x) labels) = String.eqb (label x) c.
Proof.
  intros L Hf. destruct (soft_output_laid dexp K d (inst_vector x) t L (fine_vector x Hf)) as (o & t' & E & Hl). destruct (arg_max_ok o) as (i & Ei & Hi). { destruct o; [|discriminate]. destruct labels; [congruence|discriminate]. }
  destruct (nth_error labels i) as [c|] eqn:Ec; [|apply nth_error_None in Ec; lia]. exists o, t', i, c. split; [exact E|]. split; [eapply soft_output_keeps, E|]. split; [exact Ei|]. split; [exact Ec|].
  destruct (String.eqb_spec (label x) c) as [<-|Hc].
  - apply Nat.eqb_eq. symmetry. eapply find_pos_unique; eassumption.
  - apply Nat.eqb_neq. intros ->. apply Hc. pose proof (find_pos_nth _ _ (proj1 Hf)) as H. congruence.
Qed.
Lemma error_from t : laid_out K d t -> forall cv n0 u, Forall fine cv -> same_tree t u -> exists ps u',
  foldM (fun st x => do c <- class_index labels (label x);
                     do o <- soft_output (inst_vector x) (snd st);
                     do i <- arg_max (fst o);
                     Ok (if Nat.eqb i c then fst st else S (fst st), snd o)) cv (n0, u)
    = Ok (n0 + countb (fun xp => negb (String.eqb (label (fst xp)) (snd xp))) (combine cv ps), u') /\ same_tree t u' /\
  Forall2 (fun x p => exists m, soft_predict dexp (mkSoft labels t) x = Ok (p, m)) cv ps.
Proof.
  intros L. induction cv as [|x cv IH]; intros n0 u Hf Hs. { exists [], u. cbn. rewrite Nat.add_0_r. split; [reflexivity|]. split; [exact Hs|constructor]. }
  inversion Hf as [|? ? Hx Hf']; subst. cbn [foldM]. unfold class_index at 1. rewrite (proj2 (mem_str_in _ _) (proj1 Hx)). cbn [bind].
  destruct (answer u x (same_laid _ _ _ _ Hs L) Hx) as (o & u1 & i & c & E & Hu & Ei & Ec & Eq). cbn [snd]. rewrite E. cbn [bind fst snd]. rewrite Ei. cbn [bind]. rewrite Eq.
  destruct (IH (if String.eqb (label x) c then n0 else S n0) u1 Hf' (same_trans _ _ _ Hs Hu)) as (ps & u' & E' & Hs' & F). exists (c :: ps), u'. split; [|split; [exact Hs'|]].
  - etransitivity; [exact E'|]. cbn [combine]. unfold countb. cbn [filter fst snd]. destruct (String.eqb (label x) c); cbn [negb length]; [reflexivity|rewrite Nat.add_succ_r; reflexivity].
  - constructor; [|exact F]. pose proof (soft_output_same dexp (inst_vector x) t u Hs) as Ho. rewrite E in Ho. destruct (soft_output (inst_vector x) t) as [[o' t1]| | |] eqn:Et; try discriminate. cbn in Ho. injection Ho as ->.
    exists (mkSoft labels t1). unfold soft_predict. cbn [so_root so_labels]. rewrite Et. cbn [bind fst snd]. rewrite Ei. cbn [bind]. rewrite Ec. reflexivity.
Qed.
Lemma soft_error_ok t cv : laid_out K d t -> Forall fine cv -> exists n t', soft_error dexp labels cv t = Ok (n, t') /\ same_tree t t' /\ n <= length cv /\ mistakes dexp labels t cv n.
Proof.
  intros L Hf. destruct (error_from t L cv 0 t Hf (same_refl t)) as (ps & u' & E & Hs & F). eexists _, _. split; [exact E|]. split; [exact Hs|]. split.
  - cbn [Nat.add]. etransitivity; [apply countb_le|]. rewrite combine_length. apply Nat.le_min_l.
  - exists ps. split; [exact F|reflexivity].
Qed.
Lemma mistakes_fun t cv n n' : mistakes dexp labels t cv n -> mistakes dexp labels t cv n' -> n = n'.
Proof.
  intros (ps & F & ->) (ps' & F' & ->). replace ps' with ps; [reflexivity|]. clear - F F'. revert ps' F'. induction F as [|x p cv ps (m & E) F IH]; intros ps' F'; inversion F' as [|? p' ? ps2 (m' & E') F2]; subst; [reflexivity|].
  f_equal; [congruence|]. apply IH, F2.
Qed.
Lemma mistakes_same t u cv n : same_tree t u -> mistakes dexp labels t cv n -> mistakes dexp labels u cv n.
Proof.
  intros Hs (ps & F & ->). exists ps. split; [|reflexivity]. eapply Forall2_imp; [|exact F]. intros x p (m & E). pose proof (soft_output_same dexp (inst_vector x) t u Hs) as Ho.
  unfold soft_predict in *. cbn [so_root so_labels] in *. destruct (soft_output (inst_vector x) t) as [[o t1]| | |]; try discriminate. destruct (soft_output (inst_vector x) u) as [[o' u1]| | |]; try discriminate.
  cbn in Ho. injection Ho as <-. cbn [bind fst snd] in *. destruct (arg_max o) as [i| | |]; try discriminate. cbn [bind] in *. injection E as <- _. eexists. reflexivity.
Qed.

(** * One gradient step *)
(** what a step leaves alone in a child *)
Definition like (a a' : snode) : Prop := s_w a' = s_w a /\ s_outputs a' = s_outputs a.
Definition split_at (t : stree) (p : list bool) (w0 : list dbl) (a b : snode) : Prop :=
  exists n' a' b', sub t p = Ok (SNode n' (SLeaf a') (SLeaf b')) /\ s_w0s n' = w0 /\ like a a' /\ like b b'.
Lemma leaf_scratch x : forall p t o t' a, soft_output x t = Ok (o, t') -> sub t p = Ok (SLeaf a) -> exists c, sub t' p = Ok (SLeaf (mkSn (s_w0s a) (s_w a) (s_outputs a) c)).
Proof.
  induction p as [|b p IH]; intros t o t' a E Es. { cbn in Es. injection Es as ->. cbn in E. injection E as <- <-. exists (s_weight a). destruct a; reflexivity. }
  destruct t as [n|n l r]; [discriminate|]. cbn [SoftModel.soft_output] in E. apply bind_ok in E. destruct E as (v & _ & E). apply bind_ok in E. destruct E as ([lo l1] & El & E).
  apply bind_ok in E. destruct E as ([ro r1] & Er & E). apply bind_ok in E. destruct E as (os & _ & E). injection E as <- <-. cbn [snd sub] in *.
  assert (forall w q u c, sub u q = Ok (SLeaf c) -> exists c0, sub (set_weight w u) q = Ok (SLeaf (mkSn (s_w0s c) (s_w c) (s_outputs c) c0))) as H.
  { intros w [|y q] u c Hu; cbn in Hu |- *; [injection Hu as ->; eexists; reflexivity|]. destruct u; [discriminate|]. cbn. rewrite Hu. exists (s_weight c). destruct c; reflexivity. }
  destruct b.
  - destruct (IH _ _ _ _ Er Es) as (c & Hc). exact (H _ _ _ _ Hc).
  - destruct (IH _ _ _ _ El Es) as (c & Hc). exact (H _ _ _ _ Hc).
Qed.
Record gfine (p : list bool) (t0 : stree) (w0 : list dbl) (a b : snode) (st : gstate) : Prop := {
  gf_laid : laid_out K d (g_tree st);
  gf_off : same_off p t0 (g_tree st);
  gf_at : split_at (g_tree st) p w0 a b;
  gf_l : length (g_l st) = K; gf_r : length (g_r st) = K; gf_w : length (g_w st) = S d }.
Lemma normalize_length o : length (normalize dexp o) = length o.
Proof. unfold normalize. apply map_length. Qed.
Definition kron r k : dbl := kronecker r k.
(** responses of a child after a step *)
Lemma leaf_loop alpha mult out r wt w pv : length out = K -> length w = K -> length pv = K ->
  exists w' pv', foldM (leaf_update alpha mult out r wt) (seq 0 K) (w, pv) = Ok (w', pv') /\ length w' = K /\ length pv' = K /\
    forall k, k < K -> let g := dmul (dmul mult (dsub (kronecker r k) (nth k out NaN))) wt in
                       nth k w' NaN = dadd (nth k w NaN) (dadd g (dmul alpha (nth k pv NaN))) /\ nth k pv' NaN = g.
Proof.
  intros Ho Hw Hp. destruct (fold_upd2 (leaf_update alpha mult out r wt) (fun k w pv => dadd w (dadd (dmul (dmul mult (dsub (kronecker r k) (nth k out NaN))) wt) (dmul alpha pv)))
    (fun k _ _ => dmul (dmul mult (dsub (kronecker r k) (nth k out NaN))) wt) w pv K) as (w' & pv' & E & L1 & L2 & H & _); [|lia|lia|].
  - intros st k a b Hk Ea Eb. unfold leaf_update. destruct (idxn_lt out k) as (o & Eo); [lia|]. rewrite Eo. cbn [bind]. unfold idxn. rewrite Ea, Eb. cbn [bind]. apply idxn_ok in Eo. rewrite (nth_error_nth _ _ NaN Eo). reflexivity.
  - exists w', pv'. split; [exact E|]. split; [congruence|]. split; [congruence|]. exact H.
Qed.
Definition gate_sum (mult : dbl) (out : list dbl) (r : nat) (f : dbl) (cl cr : snode) : dbl :=
  fold_left (fun s k => dadd s (dmul (dmul (dmul (dmul (dmul mult (dsub (kronecker r k) (nth k out NaN))) f) (dsub (nth k (s_outputs cl) NaN) (nth k (s_outputs cr) NaN))) (s_weight cl)) (s_weight cr))) (seq 0 K) d0.
Definition feature (x : instance) (t : nat) : dbl := match t with O => d1 | S t' => match nth_error (attrs x) t' with Some (ACont v) => v | _ => NaN end end.
Lemma foldM_pure {S B} (f : S -> B -> res S) (g : S -> B -> S) l : forall s, (forall s x, In x l -> f s x = Ok (g s x)) -> foldM f l s = Ok (fold_left g l s).
Proof. clear. induction l as [|x l IH]; intros s H; [reflexivity|]. cbn [foldM fold_left]. rewrite H by (left; reflexivity). cbn [bind]. apply IH. intros; apply H; right; assumption. Qed.
Lemma gate_loop alpha mult out r x cl cr w pv : fine x -> length out = K -> length (s_outputs cl) = K -> length (s_outputs cr) = K -> length w = S d -> length pv = S d ->
  exists w' pv', foldM (gate_update labels alpha mult out r x cl cr) (seq 0 (S (attr_count x))) (w, pv) = Ok (w', pv') /\ length w' = S d /\ length pv' = S d /\
    forall t, t < S d -> let s := gate_sum mult out r (feature x t) cl cr in
                         nth t w' NaN = dadd (nth t w NaN) (dadd s (dmul alpha (nth t pv NaN))) /\ nth t pv' NaN = s.
Proof.
  intros Hf Ho Hl Hr Hw Hp. assert (attr_count x = d) as -> by apply Hf.
  destruct (fold_upd2 (gate_update labels alpha mult out r x cl cr) (fun t w pv => dadd w (dadd (gate_sum mult out r (feature x t) cl cr) (dmul alpha pv)))
    (fun t _ _ => gate_sum mult out r (feature x t) cl cr) w pv (S d)) as (w' & pv' & E & L1 & L2 & H & _); [|lia|lia|].
  - intros st t a b Ht Ea Eb. unfold gate_update.
    assert ((if Nat.eqb t 0 then Ok d1 else do a <- get_attr x (Z.of_nat t - 1); cont_value a) = Ok (feature x t)) as ->.
    { destruct t as [|t]; [reflexivity|]. cbn [Nat.eqb]. destruct (fine_feature x (S t) Hf) as (v & Ev); [lia|]. rewrite Ev. unfold get_attr in Ev. replace (Z.of_nat (S t) - 1)%Z with (Z.of_nat t) in Ev by lia.
      rewrite at_nat in Ev. unfold atn in Ev. cbn [feature]. destruct (nth_error (attrs x) t) as [[]|]; cbn in Ev; try discriminate. congruence. }
    cbn [bind]. rewrite (foldM_pure _ (fun s k => dadd s (dmul (dmul (dmul (dmul (dmul mult (dsub (kronecker r k) (nth k out NaN))) (feature x t)) (dsub (nth k (s_outputs cl) NaN) (nth k (s_outputs cr) NaN))) (s_weight cl)) (s_weight cr)))).
    + cbn [bind]. unfold idxn. rewrite Ea, Eb. reflexivity.
    + intros s k Hk. apply in_seq in Hk. destruct (idxn_lt out k) as (o & Eo); [lia|]. destruct (idxn_lt (s_outputs cl) k) as (u & Eu); [lia|]. destruct (idxn_lt (s_outputs cr) k) as (v & Ev); [lia|].
      rewrite Eo, Eu, Ev. cbn [bind]. apply idxn_ok in Eo, Eu, Ev. rewrite (nth_error_nth _ _ NaN Eo), (nth_error_nth _ _ NaN Eu), (nth_error_nth _ _ NaN Ev). reflexivity.
  - exists w', pv'. split; [exact E|]. split; [congruence|]. split; [congruence|]. exact H.
Qed.
(** the whole step, with the numbers it computes *)
Lemma grad_inst_step alpha eta p st x n a b : laid_out K d (g_tree st) -> length (g_l st) = K -> length (g_r st) = K -> length (g_w st) = S d ->
  sub (g_tree st) p = Ok (SNode n (SLeaf a) (SLeaf b)) -> fine x ->
  exists o t n1 ca cb lw lp rw rp ww wp, soft_output (inst_vector x) (g_tree st) = Ok (o, t) /\ length o = K /\ same_tree (g_tree st) t /\
    sub t p = Ok (SNode n1 (SLeaf (mkSn (s_w0s a) (s_w a) (s_outputs a) ca)) (SLeaf (mkSn (s_w0s b) (s_w b) (s_outputs b) cb))) /\ same_node n n1 /\
    let mult := fold_left dmul (rev (path_weights t p)) eta in
    let out := normalize dexp o in
    let r := find_pos (label x) labels in
    grad_inst dexp labels alpha eta p st x =
      Ok (mkG (put t p (SNode (mkSn (s_w0s n1) ww (s_outputs n1) (s_weight n1)) (SLeaf (mkSn lw (s_w a) (s_outputs a) ca)) (SLeaf (mkSn rw (s_w b) (s_outputs b) cb)))) lp rp wp) /\
    length lw = K /\ length lp = K /\ length rw = K /\ length rp = K /\ length ww = S d /\ length wp = S d /\
    (forall k, k < K -> let g := dmul (dmul mult (dsub (kronecker r k) (nth k out NaN))) ca in nth k lw NaN = dadd (nth k (s_w0s a) NaN) (dadd g (dmul alpha (nth k (g_l st) NaN))) /\ nth k lp NaN = g) /\
    (forall k, k < K -> let g := dmul (dmul mult (dsub (kronecker r k) (nth k out NaN))) cb in nth k rw NaN = dadd (nth k (s_w0s b) NaN) (dadd g (dmul alpha (nth k (g_r st) NaN))) /\ nth k rp NaN = g) /\
    (forall i, i < S d -> let s := gate_sum mult out r (feature x i) (mkSn (s_w0s a) (s_w a) (s_outputs a) ca) (mkSn (s_w0s b) (s_w b) (s_outputs b) cb) in
        nth i ww NaN = dadd (nth i (s_w n) NaN) (dadd s (dmul alpha (nth i (g_w st) NaN))) /\ nth i wp NaN = s).
Proof.
  intros L Ll Lr Lw Es Hf. destruct (soft_output_laid dexp K d (inst_vector x) (g_tree st) L (fine_vector x Hf)) as (o & t & E & Ho). pose proof (soft_output_keeps dexp _ _ _ _ E) as Hs.
  destruct (same_sub _ _ _ _ Hs Es) as (s1 & E1 & S1). destruct s1 as [|n1 cl cr]; [contradiction|]. apply same_inner in S1. destruct S1 as (Sn & _ & _).
  assert (exists ca, cl = SLeaf (mkSn (s_w0s a) (s_w a) (s_outputs a) ca)) as (ca & ->).
  { destruct (leaf_scratch _ (p ++ [false]) _ _ _ a E) as (c & Hc). { rewrite (sub_app _ _ _ _ Es). reflexivity. } rewrite (sub_app _ _ _ _ E1) in Hc. cbn in Hc. injection Hc as ->. eauto. }
  assert (exists cb, cr = SLeaf (mkSn (s_w0s b) (s_w b) (s_outputs b) cb)) as (cb & ->).
  { destruct (leaf_scratch _ (p ++ [true]) _ _ _ b E) as (c & Hc). { rewrite (sub_app _ _ _ _ Es). reflexivity. } rewrite (sub_app _ _ _ _ E1) in Hc. cbn in Hc. injection Hc as ->. eauto. }
  pose proof (sub_laid _ _ _ _ _ L Es) as ((N1 & N2 & N3) & (A1 & A2 & A3) & (B1 & B2 & B3)).
  set (mult := fold_left dmul (rev (path_weights t p)) eta). set (out := normalize dexp o). set (r := find_pos (label x) labels).
  assert (length out = K) as Lo by (unfold out; rewrite normalize_length; exact Ho).
  destruct (leaf_loop alpha mult out r ca (s_w0s a) (g_l st) Lo A1 Ll) as (lw & lp & El & H1 & H2 & H3).
  destruct (leaf_loop alpha mult out r cb (s_w0s b) (g_r st) Lo B1 Lr) as (rw & rp & Er & H4 & H5 & H6).
  destruct (gate_loop alpha mult out r x (mkSn (s_w0s a) (s_w a) (s_outputs a) ca) (mkSn (s_w0s b) (s_w b) (s_outputs b) cb) (s_w n) (g_w st) Hf Lo A2 B2 N3 Lw) as (ww & wp & Ew & H7 & H8 & H9).
  exists o, t, n1, ca, cb, lw, lp, rw, rp, ww, wp. split; [exact E|]. split; [exact Ho|]. split; [exact Hs|]. split; [exact E1|]. split; [exact Sn|]. split.
  - unfold grad_inst. rewrite E. cbn [bind fst snd]. unfold class_index. rewrite (proj2 (mem_str_in _ _) (proj1 Hf)). cbn [bind]. rewrite E1. cbn [bind s_node s_weight s_w0s]. fold out mult r. rewrite El. cbn [bind]. rewrite Er. cbn [bind].
    rewrite <- (proj1 (proj2 Sn)). rewrite Ew. reflexivity.
  - auto 10.
Qed.
Lemma grad_inst_fine p t0 w0 a b alpha eta st x : gfine p t0 w0 a b st -> fine x -> exists st', grad_inst dexp labels alpha eta p st x = Ok st' /\ gfine p t0 w0 a b st'.
Proof.
  intros [L Off (n & a1 & b1 & Es & Ew & (La1 & La2) & (Lb1 & Lb2)) H1 H2 H3] Hf.
  destruct (grad_inst_step alpha eta p st x n a1 b1 L H1 H2 H3 Es Hf) as (o & t & n1 & ca & cb & lw & lp & rw & rp & ww & wp & _ & _ & Hs & E1 & Sn & E & G1 & G2 & G3 & G4 & G5 & G6 & _).
  eexists. split; [exact E|]. pose proof (sub_laid _ _ _ _ _ L Es) as ((N1 & N2 & N3) & (A1 & A2 & A3) & (B1 & B2 & B3)). destruct Sn as (S1 & S2 & S3). constructor; cbn [g_tree g_l g_r g_w]; auto.
  - eapply put_laid; [eapply same_laid, L; exact Hs| |exact E1]. split; [repeat split; cbn; congruence|]. split; repeat split; cbn; congruence.
  - eapply off_trans; [exact Off|]. eapply off_trans; [eapply off_same, Es; exact Hs|]. eapply off_put, E1.
  - eexists _, _, _. split; [eapply sub_put, E1|]. split; [cbn; congruence|]. split; split; cbn; assumption.
Qed.

(** * Descent *)
Context (perm : Z -> nat -> list nat) (Hperm : forall seed n, Permutation (perm seed n) (seq 0 n)) (par : soft_param).
Lemma shuffle_perm_ {A} seed (l : list A) : Permutation (shuffle perm seed l) l.
Proof. apply rearrange_perm, Hperm. Qed.
Lemma fine_perm l l' : Permutation l l' -> Forall fine l -> Forall fine l'.
Proof. intros P H. rewrite Forall_forall in *. intros x Hx. apply H. eapply Permutation_in; [symmetry; exact P|exact Hx]. Qed.
Lemma descent_ok p t w0 a b eta (data : ilist) : laid_out K d t -> split_at t p w0 a b -> Forall fine data -> data <> [] ->
  exists t' data', descent dexp perm labels par p eta (t, data) = Ok (t', data') /\ laid_out K d t' /\ same_off p t t' /\ split_at t' p w0 a b /\ Permutation data' data.
Proof.
  intros L At Hf Hn. destruct data as [|x0 data0] eqn:Ed; [congruence|]. rewrite <- Ed in *. clear Hn. assert (attr_count x0 = d) as Ex0. { subst data. inversion Hf as [|? ? Hx _]; subst. apply Hx. }
  unfold descent. cbn [fst snd]. assert (atn data 0 = Ok x0) as -> by (rewrite Ed; reflexivity). cbn [bind]. rewrite Ex0. cbv zeta.
  set (step := fun (st : gstate * ilist * dbl) (_ : nat) => let '(g, data, eta) := st in let data' := shuffle perm (sp_seed par) data in
     do g' <- foldM (grad_inst dexp labels (sp_alpha par) eta p) data' g; Ok (g', data', dmul eta (sp_decay par))).
  destruct (foldM_inv_ok step (seq 0 (sp_epochs par)) (fun _ st => gfine p t w0 a b (fst (fst st)) /\ Permutation (snd (fst st)) data)
    (mkG t (repeat d0 K) (repeat d0 K) (repeat d0 (S d)), data, eta)) as (st & E & G & P).
  - split; [|reflexivity]. constructor; cbn [fst snd g_tree g_l g_r g_w]; try (now rewrite repeat_length); try assumption. destruct At as (n & a' & b' & Es & _). eapply off_same; [apply same_refl|exact Es].
  - intros P1 i P2 [[g dt] et] _ (G & P). cbn [fst snd] in *. unfold step.
    assert (Forall fine (shuffle perm (sp_seed par) dt)) as Hf'. { eapply fine_perm; [|exact Hf]. symmetry. etransitivity; [apply shuffle_perm_|exact P]. }
    destruct (foldM_inv_ok (grad_inst dexp labels (sp_alpha par) et p) (shuffle perm (sp_seed par) dt) (fun _ st => gfine p t w0 a b st) g G) as (g' & E' & G').
    { intros Q1 x Q2 s EQ Gs. apply grad_inst_fine; [exact Gs|]. rewrite Forall_forall in Hf'. apply Hf'. rewrite EQ. apply in_elt. }
    rewrite E'. cbn [bind]. eexists. split; [reflexivity|]. cbn [fst snd]. split; [exact G'|]. etransitivity; [apply shuffle_perm_|exact P].
  - match goal with |- context [foldM ?f (seq 0 (sp_epochs par)) ?x] => replace (foldM f (seq 0 (sp_epochs par)) x) with (Ok st) by (symmetry; exact E) end. cbn [bind]. eexists _, _. split; [reflexivity|]. destruct G as [G1 G2 G3 _ _ _]. repeat split; assumption.
Qed.

(** * One split *)
Context (cv : ilist) (Hcv : Forall fine cv) (Hint : (Z.of_nat (length cv) < 2147483647)%Z).
Definition so_far (p : list bool) (cs : list (stree * nat)) (best : Z) (v : params) : Prop :=
  (cs = [] /\ best = int_max_nat) \/
  exists c n, best_of cs c n /\ best = Z.of_nat n /\ exists s, sub c p = Ok s /\ copy_from s = Ok v.
Lemma nth_snoc {A} (l : list A) y j x : nth_error (l ++ [y]) j = Some x -> (j < length l /\ nth_error l j = Some x) \/ (j = length l /\ x = y).
Proof.
  clear. intros H. destruct (Nat.lt_ge_cases j (length l)) as [Hj|Hj]; [left; rewrite nth_error_app1 in H by exact Hj; auto|]. rewrite nth_error_app2 in H by exact Hj.
  destruct (j - length l) as [|i] eqn:E; [|destruct i; discriminate]. cbn in H. injection H as <-. right. split; [lia|reflexivity].
Qed.
Lemma so_far_snoc p cs best v c n s u : so_far p cs best v -> n <= length cv -> sub c p = Ok s -> copy_from s = Ok u ->
  so_far p (cs ++ [(c, n)]) (if (Z.of_nat n <? best)%Z then Z.of_nat n else best) (if (Z.of_nat n <? best)%Z then u else v).
Proof.
  intros H Hn Es Eu. right. assert (best_of (cs ++ [(c, n)]) c n -> exists c0 n0, best_of (cs ++ [(c, n)]) c0 n0 /\ Z.of_nat n = Z.of_nat n0 /\ exists s0, sub c0 p = Ok s0 /\ copy_from s0 = Ok u) as Hnew by eauto 10.
  destruct H as [(-> & ->)|(c0 & n0 & (j & Ej & Hb) & -> & s0 & E1 & E2)].
  - unfold int_max_nat. destruct (Z.ltb_spec (Z.of_nat n) 2147483647); [|lia]. apply Hnew. exists 0. split; [reflexivity|]. intros [|[|]] c' n' E'; cbn in E'; try discriminate. injection E' as <- <-. lia.
  - destruct (Z.ltb_spec (Z.of_nat n) (Z.of_nat n0)) as [Hlt|Hge].
    + apply Hnew. exists (length cs). split; [rewrite nth_error_app2, Nat.sub_diag by lia; reflexivity|]. intros j' c' n' E'. apply nth_snoc in E'. destruct E' as [(Hj & E')|(-> & E')].
      * apply Hb in E'. lia.
      * injection E' as -> ->. lia.
    + exists c0, n0. split; [|eauto]. exists j. assert (j < length cs) as Hj by (apply nth_error_Some; congruence). split; [rewrite nth_error_app1 by exact Hj; exact Ej|].
      intros j' c' n' E'. apply nth_snoc in E'. destruct E' as [(Hj' & E')|(-> & E')]; [apply Hb in E'; exact E'|]. injection E' as -> ->. lia.
Qed.
Section Split.
  Context (data : ilist) (Hdata : Forall fine data) (Hdne : data <> []).
  Context (p : list bool) (start : stree) (n0 : snode) (a b : snode) (Hstart : laid_out K d start) (Hsub : sub start p = Ok (SNode n0 (SLeaf a) (SLeaf b))).
  Notation tmp := (s_w n0, s_w0s a, s_w0s b).
  Record round_inv (i : nat) (cs : list (stree * nat)) (st : stree * ilist * Z * params) : Prop := {
    ri_tree : same_tree start (fst (fst (fst st)));
    ri_data : Permutation (snd (fst (fst st))) data;
    ri_cs : Forall2 (fun i cn => trained dexp perm labels par data p start i (fst cn) /\ mistakes dexp labels (fst cn) cv (snd cn) /\
                                 same_off p start (fst cn) /\ laid_out K d (fst cn) /\
                                 exists n1 a1 b1, sub (fst cn) p = Ok (SNode n1 (SLeaf a1) (SLeaf b1)) /\ s_w0s n1 = s_w0s n0 /\ s_w a1 = s_w a /\ s_w b1 = s_w b) (seq 0 i) cs;
    ri_best : so_far p cs (snd (fst st)) (snd st) }.
  Lemma split_round_ok i cs st : round_inv i cs st -> exists cs' st', split_round dexp perm labels par cv p tmp st i = Ok st' /\ round_inv (S i) cs' st'.
  Proof.
    destruct st as [[[t dt] best] v]. intros [H1 H2 H3 H4]. cbn [fst snd] in *. pose proof (same_laid _ _ _ _ H1 Hstart) as L.
    destruct (same_sub _ _ _ _ H1 Hsub) as (s & Es & Ss). destruct s as [|n1 l1 r1]; [contradiction|]. apply same_inner in Ss. destruct Ss as (Sn & Sl & Sr).
    destruct l1 as [a1|]; [|contradiction]. destruct r1 as [b1|]; [|contradiction].
    destruct (descent_ok p t (s_w0s n1) a1 b1 (eta_of i) dt L) as (t2 & dt2 & Ed & L2 & O2 & (n2 & a2 & b2 & E2 & W2 & A2 & B2) & P2).
    { exists n1, a1, b1. repeat split; auto. } { eapply fine_perm; [symmetry; exact H2|exact Hdata]. } { intros ->. apply Permutation_nil in H2. congruence. }
    unfold split_round. rewrite Ed. cbn [bind fst]. destruct (soft_error_ok t2 cv L2 Hcv) as (n & t3 & Ee & S3 & Hn & Hm). rewrite Ee. cbn [bind snd fst].
    destruct (same_sub _ _ _ _ S3 E2) as (s & Es3 & Ss3). destruct s as [|n3 l3 r3]; [contradiction|]. apply same_inner in Ss3. destruct Ss3 as (Sn3 & Sl3 & Sr3).
    destruct l3 as [a3|]; [|contradiction]. destruct r3 as [b3|]; [|contradiction]. rewrite Es3. cbn [bind copy_from copy_to s_node].
    exists (cs ++ [(t2, n)]). eexists. split; [reflexivity|].
    pose proof (same_laid _ _ _ _ S3 L2) as L3. pose proof (sub_laid _ _ _ _ _ L3 Es3) as ((N1 & N2 & N3) & (A31 & A32 & A33) & (B31 & B32 & B33)).
    pose proof (sub_laid _ _ _ _ _ Hstart Hsub) as ((M1 & M2 & M3) & (AA1 & AA2 & AA3) & (BB1 & BB2 & BB3)).
    destruct Sn as (Sn1 & Sn2 & Sn3'). destruct Sl as (Sl1 & Sl2 & Sl3'). destruct Sr as (Sr1 & Sr2 & Sr3').
    destruct Sn3 as (U1 & U2 & U3). destruct Sl3 as (V1 & V2 & V3). destruct Sr3 as (X1 & X2 & X3). destruct A2 as (A2a & A2b), B2 as (B2a & B2b).
    assert (same_off p start t2) as Off2 by (eapply off_trans; [eapply off_same; [exact H1|exact Hsub]|exact O2]).
    constructor; cbn [fst snd].
    - eapply off_full with (p := p); [|exact Hsub|eapply sub_put, Es3|].
      + eapply off_trans; [exact Off2|]. eapply off_trans; [eapply off_same; [exact S3|exact E2]|]. eapply off_put, Es3.
      + apply same_inner. split; [repeat split; cbn; congruence|]. split; repeat split; cbn; congruence.
    - etransitivity; [exact P2|exact H2].
    - rewrite seq_S. apply Forall2_app; [exact H3|]. constructor; [|constructor]. cbn [fst snd Nat.add]. split; [exists t, dt, dt2; auto|]. split; [exact Hm|]. split; [exact Off2|]. split; [exact L2|].
      exists n2, a2, b2. split; [exact E2|]. split; [congruence|]. split; congruence.
    - replace (s_w n3) with (s_w n2) by congruence. replace (s_w0s a3) with (s_w0s a2) by congruence. replace (s_w0s b3) with (s_w0s b2) by congruence. eapply so_far_snoc; [exact H4|exact Hn|exact E2|reflexivity].
  Qed.
  Lemma rounds_ok t (dt : ilist) : same_tree start t -> Permutation dt data -> forall v k, exists cs st, foldM (split_round dexp perm labels par cv p tmp) (seq 0 k) (t, dt, int_max_nat, v) = Ok st /\ round_inv k cs st.
  Proof.
    intros Ht Hd v. induction k as [|k (cs & st & E & IH)]. { exists []. eexists. split; [reflexivity|]. constructor; cbn; auto. left. auto. }
    destruct (split_round_ok k cs st IH) as (cs' & st' & E' & H'). exists cs', st'. split; [|exact H']. rewrite seq_S, foldM_app_, E. cbn [bind foldM Nat.add]. rewrite E'. reflexivity.
  Qed.
End Split.
Lemma same_leaves data : Forall fine data -> covers data data -> (forall c, In c labels -> exists y, In y data /\ label y = c) -> length (distinct_labels data) = K.
Proof.
  intros Hf _ Hc. apply Nat.le_antisymm; apply NoDup_incl_length; auto using distinct_nodup.
  - intros c Hin. apply distinct_in, in_map_iff in Hin. destruct Hin as (x & <- & Hx). rewrite Forall_forall in Hf. apply (Hf x Hx).
  - intros c Hin. apply distinct_in, in_map_iff. destruct (Hc c Hin) as (y & Hy & E). eauto.
Qed.
Context (rnd : nat -> dbl).
Lemma new_node_ok data k : length (distinct_labels data) = K -> Forall fine data -> data <> [] -> exists n k', new_node rnd data k = Ok (n, k') /\ node_out K d n.
Proof.
  intros Hk Hf Hn. unfold new_node. destruct data as [|x0 data]; [congruence|]. cbn [atn nth_error bind]. eexists _, _. split; [reflexivity|]. inversion Hf as [|? ? Hx _]; subst.
  unfold node_out, draw. cbn [s_w0s s_outputs s_w]. rewrite !map_length, !seq_length. split; [exact Hk|]. split; [exact Hk|]. f_equal. apply Hx.
Qed.
Definition tells (data : ilist) : Prop := Forall fine data /\ forall c, In c labels -> exists y, In y data /\ label y = c.
Lemma tells_perm l l' : Permutation l l' -> tells l -> tells l'.
Proof. intros P (H1 & H2). split; [eapply fine_perm; eassumption|]. intros c Hc. destruct (H2 c Hc) as (y & Hy & E). exists y. split; [eapply Permutation_in; eassumption|exact E]. Qed.
Lemma find_split_ok t p n (data : ilist) k : laid_out K d t -> sub t p = Ok (SLeaf n) -> tells data ->
  exists r t' data' k', find_split dexp perm rnd labels par cv p (t, data, k) = Ok (r, (t', data', k')) /\ laid_out K d t' /\ same_off p t t' /\ Permutation data' data /\
    exists before start cs c best, mistakes dexp labels t cv before /\ split_of t p start /\ candidates dexp perm labels par cv data p start cs /\ best_of cs c best /\
      if r then best < before /\ same_tree c t' /\ exists m a b, sub t' p = Ok (SNode m (SLeaf a) (SLeaf b))
      else before <= best /\ same_tree t t'.
Proof.
  intros L Es (Hf & Hc). assert (data <> []) as Hn. { intros ->. destruct labels as [|c ls]; [congruence|]. destruct (Hc c (or_introl eq_refl)) as (y & [] & _). }
  assert (length (distinct_labels data) = K) as HK. { apply same_leaves; auto. intros x Hx. exists x. auto. }
  unfold find_split. rewrite Es. cbn [bind s_node]. destruct (soft_error_ok t cv L Hcv) as (before & t1 & Ee & S1 & _ & Hm). rewrite Ee. cbn [bind fst snd].
  destruct (same_sub _ _ _ _ S1 Es) as (s1 & Es1 & Ss1). destruct s1 as [n1|]; [|contradiction]. rewrite Es1. cbn [bind s_node].
  destruct (new_node_ok data k HK Hf Hn) as (a & ka & Ea & Oa). rewrite Ea. cbn [bind fst snd]. destruct (new_node_ok data ka HK Hf Hn) as (b & kb & Eb & Ob). rewrite Eb. cbn [bind fst snd].
  unfold create_node. destruct (new_node_ok data kb HK Hf Hn) as (c1 & kc & Ec & Oc). rewrite Ec. cbn [bind fst snd]. destruct (new_node_ok data kc HK Hf Hn) as (c2 & kd & Ed & Od). rewrite Ed. cbn [bind fst snd].
  destruct (new_node_ok data kd HK Hf Hn) as (c3 & ke & Ee3 & Oe). rewrite Ee3. cbn [bind fst snd]. destruct (new_node_ok data ke HK Hf Hn) as (c4 & kf & Ef & Of). rewrite Ef. cbn [bind fst snd copy_from s_node].
  set (start := put t1 p (SNode n1 (SLeaf a) (SLeaf b))). pose proof (same_laid _ _ _ _ S1 L) as L1. pose proof (sub_laid _ _ _ _ _ L1 Es1) as O1.
  assert (laid_out K d start) as Ls. { eapply put_laid; [exact L1| |exact Es1]. apply laid_inner. split; [exact O1|]. split; assumption. }
  assert (sub start p = Ok (SNode n1 (SLeaf a) (SLeaf b))) as Hss by (eapply sub_put, Es1).
  destruct (rounds_ok data Hf Hn p start n1 a b Ls Hss start data (same_refl _) (Permutation_refl _) ([], s_w0s c1, s_w0s c2) 11) as (cs & st & E & I).
  rewrite E. cbn [bind]. destruct st as [[[t3 data3] best] v]. destruct I as [I1 I2 I3 I4]. cbn [fst snd] in *.
  destruct (same_sub _ _ _ _ I1 Hss) as (s3 & E3 & Ss3). destruct s3 as [|n3 l3 r3]; [contradiction|]. apply same_inner in Ss3. destruct Ss3 as (Sn3 & Sl3 & Sr3). rewrite E3. cbn [bind].
  destruct I4 as [(-> & _)|(c & nb & Hb & -> & sc & Esc & Ecp)]. { inversion I3. }
  assert (same_off p t t3) as Off. { eapply off_trans; [eapply off_same; [exact S1|exact Es]|]. eapply off_trans; [eapply off_put, Es1|]. eapply off_same; [exact I1|exact Hss]. }
  pose proof (same_laid _ _ _ _ I1 Ls) as L3.
  assert (split_of t p start) as Hso.
  { destruct Ss1 as (Q1 & Q2 & Q3). exists n, n1, a, b. split; [exact Es|]. split; [congruence|]. split; [congruence|]. split; [congruence|]. eapply off_put2; [|exact Es1|exact Es|apply same_refl]. apply off_sym. eapply off_same; [exact S1|exact Es]. }
  assert (candidates dexp perm labels par cv data p start cs) as Hcs. { eapply Forall2_imp; [|exact I3]. intros i cn (H1 & H2 & _). split; assumption. }
  destruct (Z.leb_spec (Z.of_nat before) (Z.of_nat nb)) as [Hle|Hlt].
  - eexists false, _, _, _. split; [reflexivity|]. set (t4 := put t3 p (set_w0s (s_w0s n) (SLeaf (s_node (SNode n3 l3 r3))))). cbn [s_node set_w0s with_node] in t4.
    assert (same_tree t t4) as S4. { destruct Ss1 as (Q1 & Q2 & Q3), Sn3 as (R1 & R2 & R3). eapply off_full with (p := p); [|exact Es|eapply sub_put, E3|]. { eapply off_trans; [exact Off|]. eapply off_put, E3. } repeat split; cbn; congruence. }
    split; [exact (same_laid _ _ _ _ S4 L)|]. split; [eapply off_same; [exact S4|exact Es]|]. split; [exact I2|]. exists before, start, cs, c, nb. repeat (split; [assumption|]). split; [lia|exact S4].
  - destruct Hb as (j & Ej & Hb). destruct (Forall2_nth_r _ _ _ I3 _ _ Ej) as (i & _ & (_ & _ & Offc & Lc & nc & ac & bc & Enc & W1 & W2 & W3)). cbn [fst snd] in *.
    rewrite Enc in Esc. injection Esc as <-. cbn [copy_from s_node] in Ecp. injection Ecp as <-. destruct l3 as [a3|]; [|contradiction]. destruct r3 as [b3|]; [|contradiction]. cbn [copy_to set_w0s s_node with_node bind].
    eexists true, _, _, _. split; [reflexivity|]. set (t4 := put t3 p _).
    pose proof (sub_laid _ _ _ _ _ Lc Enc) as ((N1 & N2 & N3) & (A31 & A32 & A33) & (B31 & B32 & B33)).
    pose proof (sub_laid _ _ _ _ _ L3 E3) as ((M1 & M2 & M3) & (AA1 & AA2 & AA3) & (BB1 & BB2 & BB3)).
    destruct Sn3 as (R1 & R2 & R3), Sl3 as (V1 & V2 & V3), Sr3 as (X1 & X2 & X3).
    assert (same_tree c t4) as S4. { eapply off_full with (p := p); [|exact Enc|eapply sub_put, E3|].
      - eapply off_trans; [apply off_sym, Offc|]. eapply off_trans; [eapply off_same; [exact I1|exact Hss]|]. eapply off_put, E3.
      - apply same_inner. split; [repeat split; cbn; congruence|]. split; repeat split; cbn; congruence. }
    split; [exact (same_laid _ _ _ _ S4 Lc)|]. split; [eapply off_trans; [exact Off|eapply off_put, E3]|]. split; [exact I2|]. exists before, start, cs, c, nb. repeat (split; [assumption|]).
    split; [exists j; auto|]. split; [lia|]. split; [exact S4|]. eexists _, _, _. eapply sub_put, E3.
Qed.
(** * The whole tree *)
Lemma attempts_app s tr s1 tr' s2 : attempts dexp perm rnd labels par cv s tr s1 -> attempts dexp perm rnd labels par cv s1 tr' s2 -> attempts dexp perm rnd labels par cv s (tr ++ tr') s2.
Proof. intros H H'. induction H as [|s p kept sa tr sb E _ IH]; [exact H'|]. cbn [app]. econstructor; [exact E|apply IH, H']. Qed.
Lemma same_kind_at t : forall u p, same_tree t u -> kind_at t p = kind_at u p.
Proof.
  induction t as [n|n l IHl r IHr]; intros [m|m l' r'] p H; try contradiction; [destruct p; reflexivity|]. apply same_inner in H. destruct H as (_ & B & C).
  destruct p as [|[|] p]; cbn [kind_at]; [reflexivity|apply IHr, C|apply IHl, B].
Qed.
Lemma kind_at_app p q : forall t a, sub t p = Ok a -> kind_at t (p ++ q) = kind_at a q.
Proof. induction p as [|x p IH]; intros t a E; cbn in *; [injection E as <-; reflexivity|]. destruct t; [discriminate|]. destruct x; eauto. Qed.
Lemma candidate_mistakes data p start cs c n : candidates dexp perm labels par cv data p start cs -> best_of cs c n -> mistakes dexp labels c cv n.
Proof. intros H (j & E & _). destruct (Forall2_nth_r _ _ _ H _ _ E) as (i & _ & (_ & Hm)). exact Hm. Qed.
Lemma grow_ok fuel : forall t p n (data : ilist) k before, laid_out K d t -> sub t p = Ok (SLeaf n) -> tells data -> mistakes dexp labels t cv before -> before < fuel ->
  exists t' data' k' after, grow dexp perm rnd labels par cv fuel p (t, data, k) = Ok (t', data', k') /\ laid_out K d t' /\ same_off p t t' /\ Permutation data' data /\
    mistakes dexp labels t' cv after /\ splits t <= splits t' /\ after + splits t' <= before + splits t.
Proof.
  induction fuel as [|f IH]; intros t p n data k before L Es T Hm Hf; [lia|].
  destruct (find_split_ok t p n data k L Es T) as (r & t1 & data1 & k1 & E & L1 & O1 & P1 & b0 & start & cs & c & best & Hb0 & _ & Hcs & Hb & H).
  rewrite (mistakes_fun _ _ _ _ Hb0 Hm) in *. cbn [grow]. rewrite E. cbn [bind fst snd]. destruct r.
  - destruct H as (Hlt & Sc & m & a & b & E1). pose proof (mistakes_same _ _ _ _ Sc (candidate_mistakes _ _ _ _ _ _ Hcs Hb)) as Hm1.
    assert (splits t1 = S (splits t)) as HS1. { pose proof (off_splits p _ _ _ _ O1 Es E1) as Ho. cbn in Ho. lia. }
    destruct (IH t1 (p ++ [false]) a data1 k1 best L1) as (t2 & data2 & k2 & n2 & E2 & L2 & O2 & P2 & Hm2 & HS2 & HS2'); [rewrite (sub_app _ _ _ _ E1); reflexivity|eapply tells_perm; [symmetry; exact P1|exact T]|exact Hm1|lia|].
    rewrite E2. cbn [bind]. destruct (off_app p [false] _ _ _ E1 O2) as (O2' & u & Eu & Ou). destruct u as [|mu lu ru]; [contradiction|]. destruct Ou as (_ & _ & Ou). destruct ru as [bu|]; [|contradiction].
    destruct (IH t2 (p ++ [true]) bu data2 k2 n2 L2) as (t3 & data3 & k3 & n3 & E3 & L3 & O3 & P3 & Hm3 & HS3 & HS3'); [rewrite (sub_app _ _ _ _ Eu); reflexivity|eapply tells_perm; [symmetry; etransitivity; [exact P2|exact P1]|exact T]|exact Hm2|lia|].
    exists t3, data3, k3, n3. split; [exact E3|]. split; [exact L3|]. split. { eapply off_trans; [exact O1|]. eapply off_trans; [exact O2'|]. exact (proj1 (off_app p [true] _ _ _ Eu O3)). }
    split; [etransitivity; [exact P3|]; etransitivity; [exact P2|exact P1]|]. split; [exact Hm3|]. lia.
  - destruct H as (_ & S1). exists t1, data1, k1, before. split; [reflexivity|]. split; [exact L1|]. split; [exact O1|]. split; [exact P1|]. split; [exact (mistakes_same _ _ _ _ S1 Hm)|]. rewrite (same_splits _ _ S1). lia.
Qed.
Lemma NoDup_app_ {A} (l l' : list A) : NoDup l -> NoDup l' -> (forall x, In x l -> In x l' -> False) -> NoDup (l ++ l').
Proof.
  intros H H' Hd. induction H as [|x l Hx _ IH]; [exact H'|]. cbn [app]. constructor.
  - rewrite in_app_iff. intros [Hi|Hi]; [exact (Hx Hi)|exact (Hd x (or_introl eq_refl) Hi)].
  - apply IH. intros y Hy Hy'. exact (Hd y (or_intror Hy) Hy').
Qed.
(** every node that is a leaf afterwards was tried in vain, every inner node was split, each once *)
Lemma grow_tries fuel : forall t p n (data : ilist) k before t' data' k', laid_out K d t -> sub t p = Ok (SLeaf n) -> tells data -> mistakes dexp labels t cv before -> before < fuel ->
  grow dexp perm rnd labels par cv fuel p (t, data, k) = Ok (t', data', k') ->
  exists tr, attempts dexp perm rnd labels par cv (t, data, k) tr (t', data', k') /\ NoDup (map fst tr) /\
    (forall q b, In (q, b) tr <-> exists s, q = p ++ s /\ kind_at t' q = Some b).
Proof.
  induction fuel as [|f IH]; intros t p n data k before t' data' k' L Es T Hm Hf Hg; [lia|].
  destruct (find_split_ok t p n data k L Es T) as (r & t1 & data1 & k1 & E & L1 & O1 & P1 & b0 & start & cs & c & best & Hb0 & _ & Hcs & Hb & H).
  rewrite (mistakes_fun _ _ _ _ Hb0 Hm) in *. cbn [grow] in Hg. rewrite E in Hg. cbn [bind fst snd] in Hg. destruct r.
  - destruct H as (Hlt & Sc & m & a & b & E1). pose proof (mistakes_same _ _ _ _ Sc (candidate_mistakes _ _ _ _ _ _ Hcs Hb)) as Hm1.
    assert (sub t1 (p ++ [false]) = Ok (SLeaf a)) as Ea by (rewrite (sub_app _ _ _ _ E1); reflexivity).
    assert (tells data1) as T1 by (eapply tells_perm; [symmetry; exact P1|exact T]).
    destruct (grow_ok f t1 (p ++ [false]) a data1 k1 best L1 Ea T1 Hm1 ltac:(lia)) as (t2 & data2 & k2 & n2 & E2 & L2 & O2 & P2 & Hm2 & HS2 & HS2').
    rewrite E2 in Hg. cbn [bind] in Hg. destruct (off_app p [false] _ _ _ E1 O2) as (O2' & u & Eu & Ou). destruct u as [|mu lu ru]; [contradiction|]. destruct Ou as (_ & _ & Ou). destruct ru as [bu|]; [|contradiction].
    assert (sub t2 (p ++ [true]) = Ok (SLeaf bu)) as Eb by (rewrite (sub_app _ _ _ _ Eu); reflexivity).
    assert (tells data2) as T2 by (eapply tells_perm; [symmetry; etransitivity; [exact P2|exact P1]|exact T]).
    destruct (grow_ok f t2 (p ++ [true]) bu data2 k2 n2 L2 Eb T2 Hm2 ltac:(lia)) as (t3 & data3 & k3 & n3 & E3 & L3 & O3 & P3 & Hm3 & HS3 & HS3').
    rewrite E3 in Hg. injection Hg as <- <- <-.
    destruct (IH _ _ _ _ _ _ _ _ _ L1 Ea T1 Hm1 ltac:(lia) E2) as (trl & Al & Nl & Hl). destruct (IH _ _ _ _ _ _ _ _ _ L2 Eb T2 Hm2 ltac:(lia) E3) as (trr & Ar & Nr & Hr).
    destruct (off_app p [true] _ _ _ Eu O3) as (_ & v & Ev & Ov). destruct v as [|mv lv rv]; [contradiction|]. destruct Ov as (_ & Slv & _).
    exists ((p, true) :: trl ++ trr). split; [econstructor; [exact E|eapply attempts_app; [exact Al|exact Ar]]|].
    assert (forall q b, In (q, b) trl -> exists s, q = p ++ false :: s) as Pl. { intros q b0' Hi. apply Hl in Hi. destruct Hi as (s & -> & _). exists s. rewrite <- app_assoc. reflexivity. }
    assert (forall q b, In (q, b) trr -> exists s, q = p ++ true :: s) as Pr. { intros q b0' Hi. apply Hr in Hi. destruct Hi as (s & -> & _). exists s. rewrite <- app_assoc. reflexivity. }
    assert (forall x s, p ++ x :: s <> p) as Hpre. { intros x s Hx. apply (f_equal (@length bool)) in Hx. rewrite app_length in Hx. simpl in Hx. lia. }
    split.
    + cbn [map fst]. rewrite map_app. constructor.
      * rewrite in_app_iff, !in_map_iff. intros [((q & b') & Eq & Hi)|((q & b') & Eq & Hi)]; cbn [fst] in Eq; [apply Pl in Hi|apply Pr in Hi]; destruct Hi as (s & ->); exact (Hpre _ _ Eq).
      * apply NoDup_app_; [exact Nl|exact Nr|]. intros q Hq Hq'. apply in_map_iff in Hq. apply in_map_iff in Hq'. destruct Hq as ((q1 & b1) & E1' & Hi1), Hq' as ((q2 & b2) & E2' & Hi2). cbn [fst] in *.
        apply Pl in Hi1. apply Pr in Hi2. destruct Hi1 as (s1 & ->), Hi2 as (s2 & ->). subst q. apply app_inv_head in E2'. discriminate E2'.
    + intros q b'. cbn [In]. rewrite in_app_iff. split.
      * intros [Hi|[Hi|Hi]].
        -- injection Hi as <- <-. exists []. rewrite app_nil_r. split; [reflexivity|]. rewrite <- (app_nil_r p), (kind_at_app _ _ _ _ Ev). reflexivity.
        -- apply Hl in Hi. destruct Hi as (s & -> & Hs). exists (false :: s). rewrite <- app_assoc. split; [reflexivity|]. rewrite <- app_assoc in Hs. cbn [app] in *. rewrite (kind_at_app _ _ _ _ Eu) in Hs.
           rewrite (kind_at_app _ _ _ _ Ev). cbn [kind_at] in *. rewrite <- (same_kind_at _ _ s Slv). exact Hs.
        -- apply Hr in Hi. destruct Hi as (s & -> & Hs). exists (true :: s). rewrite <- app_assoc in *. split; [reflexivity|exact Hs].
      * intros (s & -> & Hs). destruct s as [|[|] s].
        -- left. rewrite app_nil_r in *. rewrite <- (app_nil_r p) in Hs. rewrite (kind_at_app _ _ _ _ Ev) in Hs. cbn in Hs. congruence.
        -- right. right. apply Hr. exists s. rewrite <- app_assoc. split; [reflexivity|exact Hs].
        -- right. left. apply Hl. exists s. rewrite <- app_assoc. split; [reflexivity|]. cbn [app]. rewrite (kind_at_app _ _ _ _ Ev) in Hs. rewrite (kind_at_app _ _ _ _ Eu). cbn [kind_at] in *. rewrite (same_kind_at _ _ s Slv). exact Hs.
  - injection Hg as <- <- <-. destruct H as (_ & S1). exists [(p, false)]. split; [econstructor; [exact E|constructor]|]. split; [repeat constructor; intros []|].
    destruct (same_sub _ _ _ _ S1 Es) as (u & Eu & Su). destruct u as [u|]; [|contradiction].
    intros q b'. cbn [In]. split.
    + intros [Hi|[]]. injection Hi as <- <-. exists []. rewrite app_nil_r. split; [reflexivity|]. rewrite <- (app_nil_r p), (kind_at_app _ _ _ _ Eu). reflexivity.
    + intros (s & -> & Hs). left. rewrite (kind_at_app _ _ _ _ Eu) in Hs. destruct s as [|[|] s]; try discriminate Hs. cbn in Hs. rewrite app_nil_r. congruence.
Qed.
End Train.
