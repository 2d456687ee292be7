(** Concrete readers and writers that meet the contracts assumed of the library classes outside /repo. *)
From Coq Require Import String Ascii ZArith QArith Bool Lia List.
From Verif Require Import Base Spec BaseLemmas AttrModel DataSetModel DataSetSpec InstanceListModel TreeModel GaussianModel SvmModel NetModel
  DataFileProofs SerialModel SerialSpec SerialProofs SerialLoadProofs SerialSaveProofs.
Import ListNotations.
Local Open Scope string_scope.
Local Open Scope list_scope.
Local Open Scope nat_scope.

(** the reader stops at the blank after the text *)
Definition reads_at {A} (r : rd A) (t : string) (a : A) : Prop :=
  forall w c rest, blank w -> is_ws c = true -> r (mkIn (w ++ t ++ String c rest)%string true) = Ok (a, mkIn (String c rest) true).
Lemma at_upto {A} (r : rd A) t a : reads_at r t a -> reads_upto r t a.
Proof. intros H w rest Hw. apply H; [exact Hw|reflexivity]. Qed.
Lemma at_written {A} (body : A -> string) (r : rd A) a b : reads_at r (body a) b -> written_read (fun a => line (body a)) r a b.
Proof. intros H. exists (body a). split; [reflexivity|apply at_upto, H]. Qed.
Lemma at_bind {A B} (r : rd A) (k : A -> rd B) t1 t2 a b : reads_at r t1 a -> reads_at (k a) t2 b -> reads_at (rbind r k) (t1 ++ String " " t2)%string b.
Proof.
  intros H1 H2 w c rest Hw Hc. rewrite sapp_assoc. cbn [String.append]. rewrite (rbind_ok _ _ _ _ _ (H1 w " "%char _ Hw eq_refl)).
  apply (H2 (String " " "") c rest eq_refl Hc).
Qed.
Lemma at_silent {A B} (r : rd A) (k : A -> rd B) t a b : (forall s, r s = Ok (a, s)) -> reads_at (k a) t b -> reads_at (rbind r k) t b.
Proof. intros H1 H2 w c rest Hw Hc. rewrite (rbind_ok _ _ _ _ _ (H1 _)). apply H2; assumption. Qed.
Lemma at_last {A B} (r : rd A) (f : A -> B) t a : reads_at r t a -> reads_at (rbind r (fun x => rret (f x))) t (f a).
Proof. intros H w c rest Hw Hc. rewrite (rbind_ok _ _ _ _ _ (H w c rest Hw Hc)). reflexivity. Qed.
Lemma at_int old z : is_int z -> reads_at (rd_int old) (show_Z z) (Some z).
Proof. intros H w c rest Hw Hc. apply int_shown; assumption. Qed.
Lemma at_tok old t : word t -> reads_at (rd_tok old) t t.
Proof. intros H w c rest Hw Hc. apply tok_word; assumption. Qed.
Lemma at_dbl scan old t d : numeral scan t d -> reads_at (rd_dbl scan old) t (Some d).
Proof. intros [Hw Hn] w c rest Hb Hc. unfold rd_dbl. rewrite (formatted_word _ _ _ _ _ Hb Hw), (Hn c rest Hc). reflexivity. Qed.
(** a count followed by that many items, each after a blank *)
Definition items_text {X} (txt : X -> string) (l : list X) : string := concat_str (map (fun x => String " " (txt x)) l).
Lemma at_items {S X} (f : S -> rd S) (step : S -> X -> S) (txt : X -> string) : forall xs t0 (r : rd (option Z)) s,
  (forall s x, In x xs -> reads_at (f s) (txt x) (step s x)) -> reads_at r t0 (Some (Z.of_nat (List.length xs))) ->
  reads_at (rbind r (fun o => rbind (init o) (fun n => rd_loop (Z.to_nat n) f s))) (t0 ++ items_text txt xs)%string (fold_left step xs s).
Proof.
  intros xs t0 r s Hf Hr w c rest Hw Hc. rewrite sapp_assoc.
  assert (forall xs s c0 r0, (forall s x, In x xs -> reads_at (f s) (txt x) (step s x)) -> (items_text txt xs ++ String c rest)%string = String c0 r0 ->
            rd_loop (List.length xs) f s (mkIn (String c0 r0) true) = Ok (fold_left step xs s, mkIn (String c rest) true) /\ is_ws c0 = true) as G.
  { clear Hf Hr s xs. induction xs as [|x xs IH]; intros s c0 r0 Hf E.
    - cbn in E. injection E as <- <-. split; [reflexivity|exact Hc].
    - unfold items_text in E. cbn [map] in E. change (concat_str (String " " (txt x) :: map (fun x => String " " (txt x)) xs)) with (String " " (txt x ++ items_text txt xs)) in E.
      cbn [String.append] in E. injection E as <- <-. split; [|reflexivity]. cbn [List.length rd_loop fold_left]. rewrite sapp_assoc.
      destruct (items_text txt xs ++ String c rest)%string as [|c1 r1] eqn:E1.
      { destruct (sapp_eq_nil _ _ E1) as [_ X0]. discriminate X0. }
      destruct (IH (step s x) c1 r1 (fun s y Hy => Hf s y (or_intror Hy)) eq_refl) as [E2 Hc1].
      assert (f s (mkIn (String " " (txt x ++ String c1 r1)) true) = Ok (step s x, mkIn (String c1 r1) true)) as E3
        by exact (Hf s x (or_introl eq_refl) (String " " "") c1 r1 eq_refl Hc1).
      rewrite (rbind_ok _ _ _ _ _ E3). exact E2. }
  destruct (items_text txt xs ++ String c rest)%string as [|c0 r0] eqn:E0. { destruct (sapp_eq_nil _ _ E0) as [_ X0]. discriminate X0. }
  destruct (G xs s c0 r0 Hf E0) as [E1 Hc0]. rewrite (rbind_ok _ _ _ _ _ (Hr w c0 r0 Hw Hc0)).
  rewrite (rbind_ok (init (Some (Z.of_nat (List.length xs)))) _ _ (Z.of_nat (List.length xs)) (mkIn (String c0 r0) true) eq_refl), to_nat_of. exact E1.
Qed.

(** numbers: integral doubles in decimal *)
Definition scan_ex (t : string) : option (dbl * string) := match scan_int t with Some (z, r) => Some (Fin (inject_Z z), r) | None => None end.
Definition num_ex (d : dbl) : string := match d with Fin q => show_Z (Qnum q) | _ => "nan" end.
Definition integral (d : dbl) : Prop := exists z, d = Fin (inject_Z z).
Lemma num_ex_ok d : integral d -> numeral scan_ex (num_ex d) d.
Proof.
  intros (z & ->). split; [apply show_Z_word|]. intros c rest Hc. unfold scan_ex, num_ex. cbn [Qnum inject_Z].
  rewrite (scan_int_show z c rest (ws_nodigit _ Hc)). reflexivity.
Qed.
Definition stof_ex (s : string) : res dbl := match scan_int s with Some (z, _) => Ok (Fin (inject_Z z)) | None => Throw InvalidArgument end.
Lemma stof_ex_ok d : integral d -> word (num_ex d) /\ stof_ex (num_ex d) = Ok d.
Proof. intros (z & ->). split; [apply show_Z_word|]. unfold stof_ex, num_ex. cbn [Qnum inject_Z]. rewrite scan_int_show_end. reflexivity. Qed.

(** distributions *)
Definition dist_body (c : counter) : string := (show_nat (List.length c) ++ items_text (fun e : string * nat => (fst e ++ String " " (show_nat (snd e)))%string) c)%string.
Definition w_dist_ex (c : counter) : string := line (dist_body c).
Definition r_dist_ex : rd counter :=
  rdo o <- rd_int (Some 0%Z); rdo n <- init o;
  rd_loop (Z.to_nat n) (fun m => rdo k <- rd_tok ""; rdo i <- rd_int None; rdo v <- init i; rret (memplace k (Z.to_nat v) m)) [].
Lemma init_silent {A} (a : A) s : init (Some a) s = Ok (a, s).
Proof. reflexivity. Qed.
Lemma dist_ex_ok c : msorted c -> is_int (Z.of_nat (List.length c)) -> Forall (fun e => word (fst e) /\ is_int (Z.of_nat (snd e))) c ->
  written_read w_dist_ex r_dist_ex c c.
Proof.
  intros Hs Hl Hc. unfold w_dist_ex. apply (at_written dist_body). unfold dist_body, r_dist_ex.
  replace c with (fold_left (fun m e => memplace (fst e) (snd e) m) c []) at 3 by (apply fold_memplace_sorted, Hs).
  apply (at_items _ (fun (m : counter) (e : string * nat) => memplace (fst e) (snd e) m) (fun e : string * nat => (fst e ++ String " " (show_nat (snd e)))%string)).
  - intros m e He. destruct (proj1 (Forall_forall _ _) Hc e He) as [H1 H2]. apply at_bind with (a := fst e); [apply at_tok, H1|].
    intros w ch rest Hw Hch. rewrite (rbind_ok _ _ _ _ _ (at_int None _ H2 w ch rest Hw Hch)). rewrite (rbind_ok _ _ _ _ _ (init_silent _ _)), to_nat_of. reflexivity.
  - apply at_int, Hl.
Qed.

(** vectors *)
Definition vec_body (v : list dbl) : string := (show_nat (List.length v) ++ items_text num_ex v)%string.
Definition w_vec_ex (v : list dbl) : string := line (vec_body v).
Definition r_vec_ex : rd (list dbl) :=
  rdo o <- rd_int (Some 0%Z); rdo n <- init o; rd_loop (Z.to_nat n) (fun acc => rdo x <- rd_dbl scan_ex None; rdo v <- init x; rret (acc ++ [v])) [].
Lemma vec_at v : is_int (Z.of_nat (List.length v)) -> Forall integral v -> reads_at r_vec_ex (vec_body v) v.
Proof.
  intros Hl Hv. unfold vec_body, r_vec_ex.
  replace v with (fold_left (fun acc x => acc ++ [x]) v []) at 3 by apply (snoc_fold v []).
  apply (at_items _ (fun acc x => acc ++ [x]) num_ex).
  - intros acc x Hx. pose proof (num_ex_ok x (proj1 (Forall_forall _ _) Hv x Hx)) as H.
    intros w ch rest Hw Hch. rewrite (rbind_ok _ _ _ _ _ (at_dbl scan_ex None _ _ H w ch rest Hw Hch)). rewrite (rbind_ok _ _ _ _ _ (init_silent _ _)). reflexivity.
  - apply at_int, Hl.
Qed.
Lemma vec_ex_ok v : is_int (Z.of_nat (List.length v)) -> Forall integral v -> written_read w_vec_ex r_vec_ex v v.
Proof. intros Hl Hv. apply (at_written vec_body), vec_at; assumption. Qed.

(** matrices *)
Definition mat_body (m : mat) : string := (show_nat (mcol m) ++ String " " (show_nat (List.length (mrow m)) ++ items_text vec_body (mrow m)))%string.
Definition w_mat_ex (m : mat) : string := line (mat_body m).
Definition r_mat_ex : rd mat :=
  rdo oc <- rd_int (Some 0%Z); rdo c <- init oc; rdo rows <- (rdo o <- rd_int (Some 0%Z); rdo n <- init o; rd_loop (Z.to_nat n) (fun acc => rdo x <- r_vec_ex; rret (acc ++ [x])) []);
  rret (mkMat (Z.to_nat c) rows).
Lemma mat_ex_ok m : is_int (Z.of_nat (mcol m)) -> is_int (Z.of_nat (List.length (mrow m))) ->
  Forall (fun v => is_int (Z.of_nat (List.length v)) /\ Forall integral v) (mrow m) -> written_read w_mat_ex r_mat_ex m m.
Proof.
  intros Hc Hl Hr. apply (at_written mat_body). destruct m as [c rows]. cbn [mcol mrow] in *. unfold mat_body, r_mat_ex. cbn [mcol mrow].
  apply at_bind with (a := Some (Z.of_nat c)); [apply at_int, Hc|]. eapply at_silent; [intros s; apply init_silent|]. rewrite to_nat_of.
  apply (at_last _ (mkMat c)). replace rows with (fold_left (fun acc x => acc ++ [x]) rows []) at 3 by apply (snoc_fold rows []).
  apply (at_items _ (fun acc x => acc ++ [x]) vec_body).
  - intros acc v Hv. destruct (proj1 (Forall_forall _ _) Hr v Hv) as [H1 H2]. apply (at_last r_vec_ex (fun x => acc ++ [x])), vec_at; assumption.
  - apply at_int, Hl.
Qed.

(** StringUtils::split of a line of types *)
Definition words_ex (s : string) : list string := split_ex s " ".
Lemma words_ex_ok : words_ok words_ex.
Proof.
  intros cols. unfold words_ex, split_ex. induction cols as [|c cols IH]; [reflexivity|]. cbn [map]. unfold types_line. cbn [map].
  change (concat_str ((column_word c ++ " ")%string :: map (fun c => column_word c ++ " ")%string cols)) with ((column_word c ++ " ") ++ types_line cols)%string.
  rewrite SerialProofs.sapp_assoc. cbn [String.append]. rewrite split_at_token by (destruct c; [reflexivity|reflexivity] || (destruct c; discriminate)). f_equal. exact IH.
Qed.
