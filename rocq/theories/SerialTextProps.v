(** Property C21, the file that is written. *)
From Coq Require Import String Ascii ZArith QArith Bool Lia List DecimalString.
From Verif Require Import Base AttrModel DataSetModel DataSetSpec InstanceListModel SerialModel SerialSpec SerialProofs.
Import ListNotations.
Local Open Scope string_scope.
Local Open Scope list_scope.
Local Open Scope nat_scope.

(** the lines of a text; the part behind the last newline counts as a line unless it is empty *)
Fixpoint lines (s : string) : list string :=
  match s with
  | "" => []
  | String c r => if Ascii.eqb c nl then "" :: lines r
                  else match lines r with
                       | [] => [String c ""]
                       | l :: ls => if has_char nl r then String c l :: ls else [String c r]
                       end
  end.
Definition decimal (n : nat) : string := NilZero.string_of_int (Z.to_int (Z.of_nat n)).
(** the name of a feature's type; an indexed feature has none *)
Definition type_name (a : attr) : string :=
  match a with ADisc _ => "Discrete " | ACont _ => "Continuous " | ABin _ => "Binary " | AIdx _ _ _ => "" end.
Lemma has_char_app c a b : has_char c (a ++ b)%string = has_char c a || has_char c b.
Proof. induction a as [|x a IH]; [reflexivity|]. cbn [String.append has_char]. rewrite IH. destruct (Ascii.eqb x c); reflexivity. Qed.
Lemma lines_line a b : has_char nl a = false -> lines (line a ++ b)%string = a :: lines b.
Proof.
  unfold line. induction a as [|c a IH]; intros H; [reflexivity|]. cbn [has_char] in H. apply orb_false_iff in H. destruct H as [Hc H].
  cbn [String.append lines]. rewrite Hc, (IH H), !has_char_app. cbn [has_char]. rewrite Ascii.eqb_refl, orb_true_r. reflexivity.
Qed.
Lemma concat_clean l : (forall s, In s l -> has_char nl s = false) -> has_char nl (concat_str l) = false.
Proof.
  induction l as [|s l IH]; intros H; [reflexivity|]. unfold concat_str in *. cbn [fold_right]. rewrite has_char_app, (H s (or_introl eq_refl)). apply IH.
  intros t Ht. apply H. right; exact Ht.
Qed.
Lemma decimal_clean n : has_char nl (decimal n) = false.
Proof.
  destruct (show_Z_word (Z.of_nat n)) as [_ H]. unfold decimal. change (NilZero.string_of_int (Z.to_int (Z.of_nat n))) with (show_Z (Z.of_nat n)).
  revert H. generalize (show_Z (Z.of_nat n)). induction s as [|c s IH]; [reflexivity|]. cbn [all_chars has_char]. intros H. apply andb_true_iff in H. destruct H as [H1 H2].
  rewrite (IH H2), orb_false_r. destruct (Ascii.eqb_spec c nl) as [->|]; [discriminate H1|reflexivity].
Qed.
(** A list is written as: the number of features, their types, the number of instances, and one line for each instance with
    its values and its label, in order. *)
Theorem C21_written : forall fmt l x0, hd_error l = Some x0 ->
  (forall x a, In x l -> In a (attrs x) -> has_char nl (attr_string fmt a) = false) -> (forall x, In x l -> has_char nl (label x) = false) ->
  exists text, list_text fmt l = Ok text /\
    lines text = [decimal (List.length (attrs x0)); String.concat "" (map type_name (attrs x0)); decimal (List.length l)]
                 ++ map (fun x => String.concat " " (map (attr_string fmt) (attrs x) ++ [label x])) l.
Proof.
  intros fmt l x0 H0 Ha Hl. destruct l as [|y l]; [discriminate H0|]. injection H0 as ->.
  assert (Hcc : forall ts, String.concat "" ts = concat_str ts).
  { induction ts as [|t ts IH]; [reflexivity|]. cbn [String.concat]. destruct ts as [|u ts].
    - unfold concat_str. cbn [fold_right]. rewrite sapp_nil. reflexivity.
    - rewrite IH. reflexivity. }
  assert (Hrow : forall x, inst_text fmt x = line (String.concat " " (map (attr_string fmt) (attrs x) ++ [label x]))).
  { intros x. unfold inst_text. induction (attrs x) as [|a as_ IH]; [reflexivity|]. cbn [map]. rewrite <- app_comm_cons. unfold concat_str in *. cbn [fold_right].
    cbn [String.concat]. destruct (map (attr_string fmt) as_ ++ [label x]) as [|u us] eqn:E; [destruct as_; discriminate E|].
    rewrite sapp_assoc, IH. unfold line. rewrite !sapp_assoc. reflexivity. }
  eexists. split; [reflexivity|]. cbn [atn nth_error bind].
  rewrite lines_line by apply decimal_clean. rewrite lines_line.
  2:{ apply concat_clean. intros s Hs. apply in_map_iff in Hs. destruct Hs as (a & <- & _). destruct a; reflexivity. }
  rewrite lines_line by apply decimal_clean. cbn [app]. rewrite Hcc. f_equal. f_equal. f_equal.
  set (ll := x0 :: l) in *. clearbody ll. induction ll as [|x ll IH]; [reflexivity|]. unfold concat_str in *. cbn [map fold_right]. rewrite Hrow, lines_line.
  - f_equal. apply IH; [intros z Hz; apply Hl; right; exact Hz|intros z a Hz; apply Ha; right; exact Hz].
  - assert (Hj : forall ts, (forall t, In t ts -> has_char nl t = false) -> has_char nl (String.concat " " ts) = false).
    { induction ts as [|t [|u us] IHt]; intros Ht; [reflexivity|exact (Ht t (or_introl eq_refl))|]. cbn [String.concat]. rewrite !has_char_app.
      rewrite (Ht t (or_introl eq_refl)). cbn [has_char orb]. apply IHt. intros v Hv. apply Ht. right; exact Hv. }
    apply Hj. intros t Ht. apply in_app_or in Ht. destruct Ht as [Ht|[<-|[]]]; [|apply Hl; left; reflexivity].
    apply in_map_iff in Ht. destruct Ht as (a & <- & Hin). apply (Ha x); [left; reflexivity|exact Hin].
Qed.
Example C21_written_case : exists text,
  list_text (fun _ => "4.000000") [mkInst "yes" [ADisc "red"; ACont (Fin 4)] None; mkInst "no" [ADisc "blue"; ACont (Fin 4)] None] = Ok text /\
  lines text = ["2"; "Discrete Continuous "; "2"; "red 4.000000 yes"; "blue 4.000000 no"].
Proof. eexists. split; [reflexivity|]. vm_compute. reflexivity. Qed.
Print Assumptions C21_written.
