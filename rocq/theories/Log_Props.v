(** C139-C141: what the run scripts log, and what the plot scripts read from it *)
From Coq Require Import List Bool Arith ZArith QArith Lia NArith String Ascii Qabs.
From Verif Require Import Log_Model.
Import ListNotations.
Close Scope Q_scope.
Local Open Scope string_scope.

(** ** Statements *)
Definition chars : string -> list ascii := list_ascii_of_string.
(** no line boundary of Python *)
Definition one_line (s : string) : Prop := forall c, In c (chars s) -> ~ In (nat_of_ascii c) [10; 11; 12; 13; 28; 29; 30; 133].
(** only white space *)
Definition white : list nat := [9; 10; 11; 12; 13; 28; 29; 30; 31; 32; 133; 160].
Definition blank (s : string) : Prop := forall c, In c (chars s) -> In (nat_of_ascii c) white.
Definition ends_black (s : string) : Prop := exists t c, s = t ++ String c "" /\ ~ In (nat_of_ascii c) white.
Definition has (sub s : string) : Prop := exists a b, s = a ++ sub ++ b.
Definition starts (p s : string) : Prop := exists b, s = p ++ b.

(** ** Strings *)
Lemma app_assoc_s (a b c : string) : (a ++ b) ++ c = a ++ b ++ c.
Proof. induction a as [|x a IH]; simpl; congruence. Qed.
Lemma app_nil_s (a : string) : a ++ "" = a.
Proof. induction a as [|x a IH]; simpl; congruence. Qed.
Lemma chars_app a b : chars (a ++ b) = (chars a ++ chars b)%list.
Proof. induction a as [|x a IH]; simpl; [auto|]. unfold chars in *. congruence. Qed.
Lemma length_app_s a b : String.length (a ++ b) = String.length a + String.length b.
Proof. induction a; simpl; lia. Qed.
Lemma nat_N c : nat_of_ascii c = N.to_nat (N_of_ascii c).
Proof. reflexivity. Qed.
Lemma in_codes n l : existsb (Nat.eqb n) l = true <-> In n l.
Proof. rewrite existsb_exists. split; [intros (x & Hx & E); apply Nat.eqb_eq in E; now subst|]. intro H. exists n. split; auto. apply Nat.eqb_refl. Qed.
Lemma space_white c : is_space c = true <-> In (nat_of_ascii c) white.
Proof. rewrite <- in_codes. replace (existsb (Nat.eqb (nat_of_ascii c)) white) with (is_space c); [reflexivity|]. destruct c as [[] [] [] [] [] [] [] []]; reflexivity. Qed.
Lemma break_codes c : is_break c = true <-> In (nat_of_ascii c) [10; 11; 12; 13; 28; 29; 30; 133].
Proof. rewrite <- in_codes. match goal with |- _ <-> ?x = true => replace x with (is_break c); [reflexivity|] end. destruct c as [[] [] [] [] [] [] [] []]; reflexivity. Qed.
Lemma break_space c : is_break c = true -> is_space c = true.
Proof. rewrite break_codes, space_white. unfold white. cbn [In]. tauto. Qed.
Lemma one_line_b s : one_line s <-> forall c, In c (chars s) -> is_break c = false.
Proof. unfold one_line. split; intros H c Hc; specialize (H c Hc); [apply not_true_is_false; rewrite break_codes; auto|rewrite <- break_codes; congruence]. Qed.
Lemma prefix_starts p s : prefix p s = true <-> starts p s.
Proof.
  unfold starts. revert s. induction p as [|c p IH]; intro s; simpl.
  - split; [exists s; auto|destruct s; auto].
  - destruct s as [|c' s]; [split; [discriminate|intros (b & X); discriminate]|]. cbn [prefix]. destruct (ascii_dec c c') as [<-|N].
    + rewrite (IH s). split; intros (b & X); exists b; simpl in *; [congruence|injection X; auto].
    + split; [discriminate|]. intros (b & X). simpl in X. congruence.
Qed.
Lemma contains_has sub s : contains sub s = true <-> has sub s.
Proof.
  unfold has. revert s. induction s as [|c s IH]; cbn [contains]; rewrite orb_true_iff, prefix_starts.
  - split; [intros [(b & X)|X]; [exists "", b; auto|discriminate]|]. intros (a & b & X). left. exists b. destruct a; [auto|discriminate].
  - rewrite IH. split.
    + intros [(b & X)|(a & b & X)]; [exists "", b; auto|exists (String c a), b; simpl; congruence].
    + intros (a & b & X). destruct a as [|c' a]; [left; exists b; auto|right; exists a, b; simpl in X; congruence].
Qed.
Lemma has_dec sub s : {has sub s} + {~ has sub s}.
Proof. destruct (contains sub s) eqn:E; [left; now apply contains_has|right; rewrite <- contains_has; congruence]. Defined.

Lemma rstrip_blank s : blank s -> rstrip s = "".
Proof.
  induction s as [|c s IH]; intro B; auto. simpl. rewrite IH by (intros x Hx; apply B; now right).
  now rewrite (proj2 (space_white c) (B c (or_introl eq_refl))).
Qed.
Lemma rstrip_black t b : ends_black t -> blank b -> rstrip (t ++ b) = t.
Proof.
  intros (u & c & -> & N) B. induction u as [|x u IH]; simpl.
  - rewrite rstrip_blank by auto. destruct (is_space c) eqn:E; auto. apply space_white in E. contradiction.
  - simpl in IH. rewrite IH. destruct u; reflexivity.
Qed.
Lemma rstrip_split s : exists b, s = rstrip s ++ b /\ blank b /\ (rstrip s = "" \/ ends_black (rstrip s)).
Proof.
  induction s as [|c s (b & E & B & H)]; [exists ""; repeat split; auto; intros x []|]. simpl. destruct (rstrip s) as [|c' t] eqn:R.
  - destruct (is_space c) eqn:Sp.
    + exists (String c s). repeat split; auto. intros x [<-|Hx]; [now apply space_white|]. simpl in E. rewrite E in Hx. auto.
    + exists s. repeat split; [simpl in E; now rewrite E|]. right. exists "", c. split; auto. rewrite <- space_white. congruence.
  - exists b. repeat split; auto; [simpl; rewrite E; reflexivity|]. right. destruct H as [H|(u & x & H & N)]; [discriminate|]. exists (String c u), x. split; auto. simpl. congruence.
Qed.
Lemma rstrip_idem s : rstrip (rstrip s) = rstrip s.
Proof.
  destruct (rstrip_split s) as (b & _ & _ & [->|H]); auto. rewrite <- (app_nil_s (rstrip s)) at 1. apply rstrip_black; auto. intros c [].
Qed.
Lemma rstrip_chars s c : In c (chars (rstrip s)) -> In c (chars s).
Proof. intro H. destruct (rstrip_split s) as (b & E & _). rewrite E, chars_app. apply in_or_app. auto. Qed.
Lemma lstrip_idem s : lstrip (lstrip s) = lstrip s.
Proof. induction s as [|c s IH]; auto. simpl. destruct (is_space c) eqn:E; auto. simpl. now rewrite E. Qed.
Lemma lstrip_rstrip s : lstrip s = s -> lstrip (rstrip s) = rstrip s.
Proof.
  destruct s as [|c s]; auto. simpl. destruct (is_space c) eqn:E.
  - intro H. exfalso. assert (L : forall s, String.length (lstrip s) <= String.length s) by (clear; induction s as [|x s IH]; simpl; [lia|destruct (is_space x); simpl; lia]).
    specialize (L s). rewrite H in L. simpl in L. lia.
  - intros _. destruct (rstrip s) as [|c' t]; simpl; now rewrite E.
Qed.
Lemma strip_idem s : strip (strip s) = strip s.
Proof. unfold strip. rewrite (lstrip_rstrip (lstrip s)) by apply lstrip_idem. apply rstrip_idem. Qed.

(** ** C139: writing *)
Lemma splitlines_one s : forall cur, one_line s -> splitlines cur s = match cur ++ s with "" => [] | t => [t] end.
Proof.
  induction s as [|c s IH]; intros cur H; simpl.
  - rewrite app_nil_s. destruct cur; reflexivity.
  - rewrite (proj1 (one_line_b _) H c (or_introl eq_refl)). rewrite IH by (intros x Hx; apply H; now right). now rewrite app_assoc_s.
Qed.
Lemma splitlines_lines n : forall s cur, String.length s <= n -> one_line cur -> Forall one_line (splitlines cur s).
Proof.
  induction n as [|n IH]; intros s cur L C.
  - destruct s; [|simpl in L; lia]. simpl. destruct cur; repeat constructor; auto.
  - assert (E0 : one_line "") by (intros x []). destruct s as [|c s]; [simpl; destruct cur; repeat constructor; auto|]. simpl in L. simpl. destruct (is_break c) eqn:B.
    + destruct s as [|c2 s]; [repeat constructor; auto|]. simpl in L. destruct (Ascii.eqb c CR && Ascii.eqb c2 LF)%bool; constructor; auto; apply IH; auto; simpl; lia.
    + apply IH; [lia|]. apply one_line_b. intros x Hx. rewrite chars_app in Hx. apply in_app_iff in Hx. destruct Hx as [Hx|[<-|[]]]; auto. now apply (proj1 (one_line_b _) C).
Qed.
Lemma write_lines buf : Forall one_line (write buf).
Proof.
  unfold write. apply Forall_forall. intros l Hl. apply in_map_iff in Hl. destruct Hl as (t & <- & Ht).
  assert (F : Forall one_line (splitlines "" (rstrip buf))) by (apply (splitlines_lines (String.length (rstrip buf))); [lia|intros x []]).
  rewrite Forall_forall in F. intros c Hc. apply (F t Ht), rstrip_chars, Hc.
Qed.
Lemma write_blank s : blank s -> write s = [].
Proof. intro B. unfold write. now rewrite (rstrip_blank s B). Qed.
Lemma write_one t b : one_line t -> ends_black t -> blank b -> write (t ++ b) = [t].
Proof.
  intros O E B. unfold write. rewrite rstrip_black by auto.
  assert (X : splitlines "" t = [t]). { rewrite splitlines_one by auto. simpl. destruct t; auto. destruct E as (u & z & E & _). destruct u; discriminate. }
  rewrite X. cbn [map]. f_equal. replace (rstrip t) with (rstrip (t ++ "")) by now rewrite app_nil_s. apply rstrip_black; auto. intros x [].
Qed.
Lemma write_space : write " " = [] /\ write eol = [].
Proof. split; reflexivity. Qed.
(** A print of one text of one line logs that line, without the blanks at its end. *)
Theorem print_line : forall t b, one_line t -> ends_black t -> blank b -> py_print [t ++ b] = [t].
Proof. intros t b O E B. unfold py_print, print_args. now rewrite (write_one t b O E B), (proj2 write_space). Qed.
(** A print of blanks logs nothing. *)
Theorem print_blank : forall s, blank s -> py_print [s] = [].
Proof. intros s B. unfold py_print, print_args. now rewrite (write_blank s), (proj2 write_space). Qed.
(** A print of several texts logs each in a line of its own. *)
Theorem print_splits : forall args, Forall (fun a => one_line a /\ ends_black a) args -> py_print args = args.
Proof.
  intros args H. unfold py_print. rewrite (proj2 write_space), app_nil_r. induction H as [|a args [O E] F IH]; auto.
  assert (W : write a = [a]) by (rewrite <- (app_nil_s a) at 1; apply write_one; auto; intros x []).
  destruct args as [|a2 args]; [exact W|]. change (print_args (a :: a2 :: args)) with (write a ++ write " " ++ print_args (a2 :: args))%list. rewrite W, (proj1 write_space), IH. reflexivity.
Qed.
Theorem print_is_one_line_refuted : exists args, Forall one_line args /\ args <> [] /\ List.length (py_print args) <> 1.
Proof.
  exists ["0"; "pick"; "(rover, q0)"]. rewrite print_splits; [split; [|split; simpl; discriminate]|]; repeat (constructor; try apply one_line_b; try (intros c Hc; simpl in Hc; repeat (destruct Hc as [<-|Hc]; [reflexivity|]); destruct Hc)).
  - exists "", "0"%char. split; auto. rewrite <- space_white. discriminate.
  - exists "pic", "k"%char. split; auto. rewrite <- space_white. discriminate.
  - exists "(rover, q0", ")"%char. split; auto. rewrite <- space_white. discriminate.
Qed.

(** The log is read back line by line. *)
Lemma log_chars lines c : In c (chars (log_file lines)) -> c = LF \/ exists l, In l lines /\ In c (chars l).
Proof.
  induction lines as [|l lines IH]; simpl; [tauto|]. rewrite chars_app, in_app_iff. intros [H|[H|H]]; [right; exists l; auto|left; auto|].
  destruct (IH H) as [X|(k & K1 & K2)]; auto. right. exists k. auto.
Qed.
Lemma universal_id s : ~ In CR (chars s) -> universal s = s.
Proof.
  induction s as [|c s IH]; intro H; auto. simpl. destruct (Ascii.eqb_spec c CR) as [->|N]; [exfalso; apply H; now left|].
  f_equal. apply IH. intro X. apply H. now right.
Qed.
Lemma cut_line l : ~ In LF (chars l) -> forall cur rest, cut_lines cur (l ++ eol ++ rest) = (cur ++ l ++ eol) :: cut_lines "" rest.
Proof.
  induction l as [|c l IH]; intros N cur rest; simpl; [reflexivity|].
  destruct (Ascii.eqb_spec c LF) as [->|E]; [exfalso; apply N; now left|]. simpl in IH. rewrite IH by (intro X; apply N; now right). now rewrite !app_assoc_s.
Qed.
Lemma read_log lines : Forall one_line lines -> readlines (log_file lines) = map (fun l => l ++ eol) lines.
Proof.
  intro F. assert (B : forall l c, In l lines -> In c (chars l) -> is_break c = false) by (intros l c Hl; rewrite Forall_forall in F; apply (proj1 (one_line_b _) (F l Hl))).
  unfold readlines. rewrite universal_id.
  - induction F as [|l lines O F IH]; auto. cbn [log_file map]. rewrite cut_line.
    + simpl. f_equal. apply IH. intros; eapply B; [right|]; eauto.
    + intro X. specialize (B l LF (or_introl eq_refl) X). discriminate.
  - intro X. apply log_chars in X. destruct X as [X|(l & Hl & Hc)]; [discriminate|]. specialize (B l CR Hl Hc). discriminate.
Qed.
Theorem log_read_back : forall prints, readlines (log_file (flat_map py_print prints)) = map (fun l => l ++ eol) (flat_map py_print prints).
Proof.
  intro prints. apply read_log. apply Forall_forall. intros l Hl. apply in_flat_map in Hl. destruct Hl as (args & _ & Hl). unfold py_print in Hl.
  rewrite (proj2 write_space), app_nil_r in Hl. revert Hl. induction args as [|a args IH]; [intros []|]. destruct args as [|a2 args].
  - simpl. intro Hl. pose proof (write_lines a) as W. rewrite Forall_forall in W. auto.
  - change (print_args (a :: a2 :: args)) with (write a ++ write " " ++ print_args (a2 :: args))%list. rewrite (proj1 write_space), in_app_iff. intros [Hl|Hl]; [|auto]. pose proof (write_lines a) as W. rewrite Forall_forall in W. auto.
Qed.
Example print_line_ex : py_print ["Solved: True" ++ String LF (String " "%char "")] = ["Solved: True"] /\ py_print ["a  " ++ String LF ("" ++ String LF "b ")] = ["a"; ""; "b"] /\ py_print [""] = [].
Proof. repeat split; vm_compute; reflexivity. Qed.
Example log_read_back_ex : readlines (log_file (flat_map py_print [["Delta: 0.05"]; ["Objects:"; "[1, 2]"]; [""]])) = ["Delta: 0.05" ++ eol; "Objects:" ++ eol; "[1, 2]" ++ eol].
Proof. vm_compute. reflexivity. Qed.

Print Assumptions print_line.
Print Assumptions print_blank.
Print Assumptions print_splits.
Print Assumptions print_is_one_line_refuted.
Print Assumptions log_read_back.

(** Any file, written as pieces of text, each ended by one of the three line breaks, and a
    last piece: its lines are the pieces, and all three breaks are read as one. *)
Definition no_break (t : string) : Prop := ~ In LF (chars t) /\ ~ In CR (chars t).
Fixpoint pieces (l : list (string * string)) (rest : string) : string :=
  match l with [] => rest | (t, e) :: l' => t ++ e ++ pieces l' rest end.
Fixpoint well_cut (l : list (string * string)) (rest : string) : Prop :=
  match l with
  | [] => no_break rest
  | (t, e) :: l' =>
      no_break t /\ In e [String LF ""; String CR ""; String CR (String LF "")] /\
      (e = String CR "" -> forall r, pieces l' rest <> String LF r) /\ well_cut l' rest
  end.

Lemma universal_text t s : ~ In CR (chars t) -> universal (t ++ s) = t ++ universal s.
Proof.
  induction t as [|c t IH]; intro H; [reflexivity|].
  change (String c t ++ s) with (String c (t ++ s)). cbn [universal].
  destruct (Ascii.eqb_spec c CR) as [->|N]; [exfalso; apply H; now left|].
  change (String c t ++ universal s) with (String c (t ++ universal s)). f_equal. apply IH. intro X. apply H. now right.
Qed.

Theorem readlines_exact : forall l rest, well_cut l rest ->
  readlines (pieces l rest) = app (map (fun p => fst p ++ eol) l) (if String.eqb rest "" then [] else [rest]).
Proof.
  intros l rest. unfold readlines. induction l as [|[t e] l IH]; intro W.
  - destruct W as [W1 W2]. cbn [pieces map app]. rewrite (universal_id rest W2).
    destruct (String.eqb_spec rest "") as [->|N]; [reflexivity|].
    assert (G : forall s cur, ~ In LF (chars s) -> cur ++ s <> "" -> cut_lines cur s = [cur ++ s]).
    { clear. induction s as [|c s IH]; intros cur N E.
      - cbn [cut_lines]. rewrite app_nil_s in *. destruct cur; [congruence|reflexivity].
      - cbn [cut_lines]. destruct (Ascii.eqb_spec c LF) as [->|Nc]; [exfalso; apply N; now left|].
        rewrite IH; [now rewrite !app_assoc_s|intro X; apply N; now right|].
        rewrite app_assoc_s. exact E. }
    apply (G rest ""); auto.
  - destruct W as (T & E & Amb & W). specialize (IH W). cbn [pieces map app fst].
    rewrite (universal_text t) by apply T.
    assert (U : universal (e ++ pieces l rest) = eol ++ universal (pieces l rest)).
    { destruct E as [<-|[<-|[<-|[]]]]; [reflexivity| |reflexivity].
      specialize (Amb eq_refl). change (String CR "" ++ pieces l rest) with (String CR (pieces l rest)). cbn [universal].
      change (Ascii.eqb CR CR) with true. cbv iota.
      destruct (pieces l rest) as [|c r]; [reflexivity|]. destruct (Ascii.eqb_spec c LF) as [->|N]; [exfalso; exact (Amb r eq_refl)|]. reflexivity. }
    rewrite U, cut_line by apply T. change ("" ++ t ++ eol) with (t ++ eol). f_equal. exact IH.
Qed.
Print Assumptions readlines_exact.

Example readlines_case :
  readlines ("ab" ++ String CR "" ++ "c" ++ String CR (String LF "") ++ String LF "" ++ "d") = ["ab" ++ eol; "c" ++ eol; eol; "d"] /\
  well_cut [("ab", String CR ""); ("c", String CR (String LF "")); ("", String LF "")] "d".
Proof.
  split; [reflexivity|]. cbn [well_cut pieces]. unfold no_break. cbn.
  repeat split; try tauto; try (intros H; repeat (destruct H as [H|H]; [discriminate H|]); exact H); try (intros; discriminate).
Qed.
