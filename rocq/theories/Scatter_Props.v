(** Properties C174-C176: what the notebooks of success rates over times read, group and draw. *)
From Coq Require Import List Bool Arith ZArith QArith Qreals Reals Lra Lia NArith String Ascii.
From Verif Require Import Sched_Model Submit_Model Submit_Props Job_Model Job_Props Main_Model Main_Props Shell_Model Shell_Props Log_Model Log_Props LogPlot_Props Scatter_Model.
Import ListNotations.
Close Scope Q_scope.
Close Scope R_scope.
Open Scope string_scope.

(** ** Dictionaries as vars(args) prints them *)
Definition plain_text (s : string) : Prop := ~ In "'"%char (chars s) /\ ~ In "\"%char (chars s).
Definition number_chars : list ascii := list_ascii_of_string "0123456789.e+-".
(** the text of a value *)
Inductive prints : value -> string -> Prop :=
| PInt z : prints (VInt z) (show z)
| PFloat x s : Forall (fun c => In c number_chars) (chars s) -> number_start s = true -> py_int s = None -> py_float s = Some x -> prints (VFloat x) s
| PStr s : plain_text s -> prints (VStr s) ("'" ++ s ++ "'")
| PTrue : prints (VBool true) "True"
| PFalse : prints (VBool false) "False".

Lemma chars_cons c s : chars (String c s) = c :: chars s. Proof. reflexivity. Qed.
Lemma in_key k : plain_text k -> forall acc d r, literal_dict (InKey acc) d (k ++ String "'" r) = literal_dict (AfterKey (acc ++ k)) d r.
Proof.
  induction k as [|c k IH]; intros [P Q] acc d r; [cbn [append]; rewrite app_nil_s; reflexivity|].
  rewrite chars_cons in P, Q. cbn [append literal_dict]. destruct (Ascii.eqb_spec c "'") as [E|_]; [exfalso; apply P; now left|]. destruct (Ascii.eqb_spec c "\") as [E|_]; [exfalso; apply Q; now left|].
  rewrite (IH ltac:(split; intro X; [apply P|apply Q]; now right)). f_equal. f_equal. now rewrite app_assoc_s.
Qed.
Lemma in_text k v : plain_text v -> forall acc d r, literal_dict (InText k acc) d (v ++ String "'" r) = literal_dict AfterValue (set_value k (VStr (acc ++ v)) d) r.
Proof.
  induction v as [|c v IH]; intros [P Q] acc d r; [cbn [append]; rewrite app_nil_s; reflexivity|].
  rewrite chars_cons in P, Q. cbn [append literal_dict]. destruct (Ascii.eqb_spec c "'") as [E|_]; [exfalso; apply P; now left|]. destruct (Ascii.eqb_spec c "\") as [E|_]; [exfalso; apply Q; now left|].
  rewrite (IH ltac:(split; intro X; [apply P|apply Q]; now right)). f_equal. f_equal. f_equal. now rewrite app_assoc_s.
Qed.
Definition no_end (s : string) : Prop := Forall (fun c => c <> ","%char /\ c <> "}"%char) (chars s).
Lemma in_word k w : no_end w -> forall acc d c r v, (c = "," \/ c = "}")%char -> literal (acc ++ w) = Some v ->
  literal_dict (InWord k acc) d (w ++ String c r) = literal_dict (if Ascii.eqb c "," then WantKey else Done) (set_value k v d) r.
Proof.
  induction w as [|b w IH]; intros F acc d c r v Hc L.
  - rewrite app_nil_s in L. cbn [append literal_dict]. replace (Ascii.eqb c "," || Ascii.eqb c "}")%bool with true by (destruct Hc as [-> | ->]; reflexivity). now rewrite L.
  - unfold no_end in F. rewrite chars_cons in F. apply Forall_cons_iff in F as [[B1 B2] F]. cbn [append literal_dict].
    destruct (Ascii.eqb_spec b ",") as [E|_]; [contradiction|]. destruct (Ascii.eqb_spec b "}") as [E|_]; [contradiction|]. cbn [orb]. apply IH; auto. rewrite app_assoc_s. exact L.
Qed.
(** a text that is read as a word *)
Definition wordy (s : string) (v : value) : Prop := no_end s /\ literal s = Some v /\ exists c t, s = String c t /\ c <> "'"%char /\ is_blank c = false.
Lemma digit_codes c : digit c <> None -> is_space c = false /\ is_blank c = false /\ c <> "'"%char /\ c <> ","%char /\ c <> "}"%char /\ c <> "T"%char /\ c <> "F"%char /\ c <> "-"%char.
Proof. destruct c as [[] [] [] [] [] [] [] []]; cbn; intro H; try (exfalso; apply H; reflexivity); repeat split; discriminate. Qed.
Lemma number_codes c : In c number_chars -> is_space c = false /\ c <> ","%char /\ c <> "}"%char.
Proof. intro I. cbn in I. decompose [or] I; try contradiction; subst; repeat split; discriminate. Qed.
Lemma all_digits_forall s : all_digits s = true <-> Forall (fun c => digit c <> None) (chars s).
Proof.
  induction s as [|c s IH]; [split; [constructor|reflexivity]|]. rewrite chars_cons, Forall_cons_iff, <- IH. cbn [all_digits].
  destruct (digit c); split; [intros H; split; [discriminate|auto]|intros [_ H]; auto|discriminate|intros [H _]; now elim H].
Qed.
Lemma strip_black s : Forall (fun c => is_space c = false) (chars s) -> strip s = s.
Proof.
  intro F. unfold strip. replace (lstrip s) with s.
  - induction s as [|c s IH]; auto. rewrite chars_cons in F. apply Forall_cons_iff in F as [F1 F2]. cbn [rstrip]. rewrite (IH F2), F1. now destruct s.
  - destruct s as [|c s]; auto. rewrite chars_cons in F. apply Forall_cons_iff in F as [F1 F2]. cbn [lstrip]. now rewrite F1.
Qed.
Lemma show_number z : Forall (fun c => In c number_chars) (chars (show z)) /\ number_start (show z) = true /\ exists c t, show z = String c t /\ (c = "-"%char \/ digit c <> None).
Proof.
  assert (N : forall c, digit c <> None -> In c number_chars).
  { intros c. destruct c as [[] [] [] [] [] [] [] []]; cbn; intro H; try (exfalso; apply H; reflexivity); tauto. }
  assert (A : forall n, (0 <= n)%Z -> Forall (fun c => digit c <> None) (chars (show n)) /\ exists c t, show n = String c t /\ digit c <> None).
  { intros n H. destruct (show_all_digits n H) as [D E]. apply all_digits_forall in D. split; auto. destruct (show n) as [|c t]; [contradiction|]. exists c, t. split; auto. rewrite chars_cons in D. now apply Forall_cons_iff in D as [D _]. }
  assert (B : forall c t, digit c <> None -> number_start (String c t) = true).
  { intros c t H. unfold number_start. destruct (Ascii.eqb_spec c "-") as [->|_]; [now elim H|]. destruct (digit c); [reflexivity|now elim H]. }
  destruct z as [|p|p].
  - destruct (A 0%Z ltac:(lia)) as (F & c & t & E & D). split; [eapply Forall_impl; [|exact F]; auto|]. rewrite E. split; [now apply B|]. eauto.
  - destruct (A (Zpos p) ltac:(lia)) as (F & c & t & E & D). split; [eapply Forall_impl; [|exact F]; auto|]. rewrite E. split; [now apply B|]. eauto.
  - rewrite show_neg. destruct (A (Zpos p) ltac:(lia)) as (F & c & t & E & D). split; [rewrite chars_cons; constructor; [cbn; tauto|]; eapply Forall_impl; [|exact F]; auto|]. split; [|eauto].
    rewrite E. unfold number_start. change (Ascii.eqb "-" "-") with true. cbn iota. destruct (digit c); [reflexivity|now elim D].
Qed.
Lemma number_wordy s v : Forall (fun c => In c number_chars) (chars s) -> number_start s = true -> match py_int s with Some z => Some (VInt z) | None => option_map VFloat (py_float s) end = Some v -> wordy s v.
Proof.
  intros F N V. assert (C : exists c t, s = String c t /\ (c = "-"%char \/ digit c <> None)).
  { destruct s as [|c t]; [discriminate|]. exists c, t. split; auto. unfold number_start in N. destruct (Ascii.eqb_spec c "-") as [->|_]; auto. right. destruct (digit c); discriminate. }
  destruct C as (c & t & -> & C).
  assert (D : c <> "T"%char /\ c <> "F"%char /\ c <> "'"%char /\ is_blank c = false).
  { destruct C as [-> | C]; [repeat split; discriminate|]. pose proof (digit_codes c C). tauto. }
  split; [|split].
  - eapply Forall_impl; [|exact F]. intros a Ha. pose proof (number_codes a Ha). tauto.
  - unfold literal. rewrite strip_black by (eapply Forall_impl; [|exact F]; intros a Ha; now apply number_codes).
    destruct (String.eqb_spec (String c t) "True") as [E|_]; [injection E as -> _; now elim (proj1 D)|]. destruct (String.eqb_spec (String c t) "False") as [E|_]; [injection E as -> _; now elim (proj1 (proj2 D))|].
    rewrite N. exact V.
  - exists c, t. tauto.
Qed.
Lemma prints_wordy v s : prints v s -> wordy s v \/ exists t, plain_text t /\ v = VStr t /\ s = "'" ++ t ++ "'".
Proof.
  intros [z|x t F N I V|t P| |]; eauto; left.
  - destruct (show_number z) as (F & N & _). apply number_wordy; auto. now rewrite int_shown.
  - apply number_wordy; auto. now rewrite I, V.
  - split; [|split; [reflexivity|]]; [repeat constructor; discriminate|]. exists "T"%char, "rue". repeat split; discriminate.
  - split; [|split; [reflexivity|]]; [repeat constructor; discriminate|]. exists "F"%char, "alse". repeat split; discriminate.
Qed.
(** one entry, with what follows it *)
Lemma item_read k v s d c r : plain_text k -> prints v s -> (c = "," \/ c = "}")%char ->
  literal_dict WantKey d ("'" ++ k ++ "': " ++ s ++ String c r) = literal_dict (if Ascii.eqb c "," then WantKey else Done) (set_value k v d) r.
Proof.
  intros P V Hc. cbn [append]. cbn [literal_dict]. change (Ascii.eqb "'" "'") with true. cbn iota. rewrite (in_key k P). cbn [append literal_dict].
  change (Ascii.eqb ":" ":") with true. cbn iota. cbn [literal_dict]. change (Ascii.eqb " " "'") with false. change (is_blank " ") with true. cbn iota.
  destruct (prints_wordy v s V) as [(NE & L & b & t & -> & B1 & B2)|(t & Q & -> & ->)].
  - unfold no_end in NE. rewrite chars_cons in NE. apply Forall_cons_iff in NE as [[N1 N2] NE]. cbn [append literal_dict]. destruct (Ascii.eqb_spec b "'"); [contradiction|]. rewrite B2.
    destruct (Ascii.eqb_spec b ","); [contradiction|]. destruct (Ascii.eqb_spec b "}"); [contradiction|]. cbn [orb]. apply (in_word k t NE); auto.
  - rewrite !app_assoc_s. cbn [append literal_dict]. change (Ascii.eqb "'" "'") with true. cbn iota. rewrite (in_text k t Q). cbn [append literal_dict]. destruct Hc as [-> | ->]; reflexivity.
Qed.
Lemma want_blank d r : literal_dict WantKey d (String " " r) = literal_dict WantKey d r. Proof. reflexivity. Qed.
Definition listed (kv : string * value) (kt : string * string) : Prop := fst kv = fst kt /\ plain_text (fst kv) /\ prints (snd kv) (snd kt).
Lemma items_read kvs texts : Forall2 listed kvs texts -> texts <> [] -> forall d, NoDup (map fst (d ++ kvs)) ->
  literal_dict WantKey d (repr_items texts ++ "}" ++ eol) = Some (d ++ kvs)%list.
Proof.
  induction 1 as [|[k v] [k' s] kvs texts (E & P & V) F IH]; intros N d ND; [contradiction|]. cbn [fst snd] in E, P, V. subst k'.
  assert (K : set_value k v d = (d ++ [(k, v)])%list).
  { apply dset_new. apply (dget_none String.eqb seqb). rewrite map_app in ND. intro I. apply NoDup_remove_2 in ND. apply ND, in_or_app. now left. }
  destruct F as [|[k2 v2] [k2' s2] kvs texts L F].
  - change (repr_items [(k, s)]) with ("'" ++ k ++ "': " ++ s). rewrite !app_assoc_s. change ("}" ++ eol) with (String "}" eol). rewrite (item_read k v s d "}" eol P V (or_intror eq_refl)), K. reflexivity.
  - change (repr_items ((k, s) :: (k2', s2) :: texts)) with ("'" ++ k ++ "': " ++ s ++ ", " ++ repr_items ((k2', s2) :: texts)). rewrite !app_assoc_s.
    change (", " ++ repr_items ((k2', s2) :: texts) ++ "}" ++ eol) with (String "," (" " ++ repr_items ((k2', s2) :: texts) ++ "}" ++ eol)).
    rewrite (item_read k v s d "," _ P V (or_introl eq_refl)), K. change (Ascii.eqb "," ",") with true. cbn iota. change (" " ++ ?x) with (String " " x). rewrite want_blank, IH; [now rewrite <- app_assoc|discriminate|now rewrite <- app_assoc].
Qed.
(** The second line of a log, which str(vars(args)) printed, is read back as the arguments. *)
Theorem literal_eval_repr : forall kvs texts, kvs <> [] -> Forall2 listed kvs texts -> NoDup (map fst kvs) -> literal_eval (repr_dict texts ++ eol) = Some kvs.
Proof.
  intros kvs texts N F ND. unfold literal_eval, repr_dict. rewrite !app_assoc_s. cbn [append literal_dict]. change (Ascii.eqb "{" "{") with true. cbn iota.
  apply (items_read kvs texts F ltac:(intro E; subst; inversion F; subst; contradiction) [] ND).
Qed.

(** ** The directory names *)
(** the directory of a deployed job, below ./runs *)
Definition job_dir (n : option string) (seed : Z) (now : string) : string := "./runs/prm-" ++ show seed ++ "-" ++ var n ++ "-" ++ now.
Lemma job_dir_name n seed now : exists base, job_dir n seed now = "./runs/" ++ base /\ directory n seed now = "/home/gridsan/acurtis/runs/" ++ base.
Proof. now exists ("prm-" ++ show seed ++ "-" ++ var n ++ "-" ++ now). Qed.
Lemma after_none sep s : after_first sep s = None <-> ~ has sep s.
Proof.
  induction s as [|c s IH]; cbn [after_first].
  - destruct (prefix sep "") eqn:P.
    + split; [discriminate|]. intro N. elim N. apply prefix_starts in P as (b & E). now exists "", b.
    + split; auto. intros _ (a & b & E). symmetry in E. destruct a; [|discriminate]. assert (starts sep "") by (exists b; symmetry; exact E). apply prefix_starts in H. congruence.
  - destruct (prefix sep (String c s)) eqn:P.
    + split; [discriminate|]. intro N. elim N. apply prefix_starts in P as (b & E). now exists "", b.
    + rewrite IH. split; intros N (a & b & E); apply N.
      * destruct a as [|e a]; [|injection E as -> ->; now exists a, b]. assert (starts sep (String c s)) by (exists b; exact E). apply prefix_starts in H. congruence.
      * exists (String c a), b. now rewrite E.
Qed.
(** The name must hold two dashes in a row. *)
Theorem file_date_index : forall path, file_date path = Raise IndexError <-> ~ has "--" path.
Proof.
  intro path. rewrite <- after_none. unfold file_date. destruct (after_first "--" path) as [r|]; cbn [need bind]; [|tauto]. split; [|discriminate]. destruct (py_float _); discriminate.
Qed.
Lemma after_dashes p r : ~ In "-"%char (chars p) -> after_first "--" (p ++ "--" ++ r) = Some r.
Proof.
  induction p as [|c p IH]; intro N; [destruct r; reflexivity|]. rewrite chars_cons in N. change (String c p ++ "--" ++ r) with (String c (p ++ "--" ++ r)). cbn [after_first].
  replace (prefix "--" (String c (p ++ "--" ++ r))) with false; [apply IH; intro; apply N; now right|]. symmetry. apply not_true_iff_false. intro P. apply prefix_starts in P as (b & E). injection E as -> _. apply N. now left.
Qed.
Lemma after_past p q r x : ~ has "--" (p ++ q) -> chars q <> [] -> after_first "--" (q ++ r) = Some x -> after_first "--" (p ++ q ++ r) = Some x.
Proof.
  intros N Q A. revert N. induction p as [|c p IH]; intro N; [exact A|]. change (String c p ++ q ++ r) with (String c (p ++ q ++ r)). cbn [after_first].
  replace (prefix "--" (String c (p ++ q ++ r))) with false; [apply IH; intros (a & b & E); apply N; exists (String c a), b; simpl; now rewrite E|].
  symmetry. apply not_true_iff_false. intro P. apply prefix_starts in P as (b & E). apply N. destruct p as [|c' p].
  - destruct q as [|e q]; [now elim Q|]. injection E as -> -> _. now exists "", q.
  - injection E as -> -> _. exists "", (p ++ q). reflexivity.
Qed.
Lemma before_absent sep s : ~ has sep s -> before_first sep s = s.
Proof.
  induction s as [|c s IH]; intro N; cbn [before_first].
  - destruct (prefix sep "") eqn:P; auto.
  - destruct (prefix sep (String c s)) eqn:P; [exfalso; apply N; apply prefix_starts in P as (b & E); now exists "", b|]. f_equal. apply IH. intros (a & b & E). apply N. exists (String c a), b. simpl. now rewrite E.
Qed.
Lemma before_slash a r : ~ In "/"%char (chars a) -> before_first "/" (a ++ "/" ++ r) = a.
Proof.
  induction a as [|c a IH]; intro N; [destruct r; reflexivity|]. rewrite chars_cons in N. change (String c a ++ "/" ++ r) with (String c (a ++ "/" ++ r)). cbn [before_first].
  replace (prefix "/" (String c (a ++ "/" ++ r))) with false; [f_equal; apply IH; intro; apply N; now right|]. symmetry. apply not_true_iff_false. intro P. apply prefix_starts in P as (b & E). injection E as -> _. apply N. now left.
Qed.
Lemma before_dashes a r : ~ has "--" a -> exists r', before_first "--" (a ++ "/" ++ r) = a ++ "/" ++ r'.
Proof.
  induction a as [|c a IH]; intro N.
  - exists (before_first "--" r). change ("" ++ "/" ++ r) with (String "/" r). reflexivity.
  - destruct IH as (r' & IH); [intros (x & b & E); apply N; exists (String c x), b; simpl; now rewrite E|]. exists r'. change (String c a ++ "/" ++ r) with (String c (a ++ "/" ++ r)). cbn [before_first].
    replace (prefix "--" (String c (a ++ "/" ++ r))) with false; [now rewrite IH|]. symmetry. apply not_true_iff_false. intro P. apply prefix_starts in P as (b & E). apply N. destruct a as [|c' a]; [discriminate|].
    injection E as -> -> _. now exists "", a.
Qed.
Lemma numeral_chars ds : Forall (fun d => d < 10) ds -> Forall (fun c => digit c <> None) (chars (numeral ds)).
Proof.
  induction 1 as [|d ds H F IH]; [constructor|]. change (numeral (d :: ds)) with (String (digit_char d) (numeral ds)). rewrite chars_cons. constructor; auto. now rewrite digit_ok.
Qed.
Lemma dots_digits s t : Forall (fun c => digit c <> None) (chars s) -> dots (s ++ t) = s ++ dots t.
Proof.
  induction s as [|c s IH]; intro F; auto. rewrite chars_cons in F. apply Forall_cons_iff in F as [F1 F2]. cbn [append dots]. rewrite IH by auto.
  destruct (Ascii.eqb_spec c "-") as [E|]; auto. apply digit_codes in F1. tauto.
Qed.
Lemma digits_no_dashes s t : Forall (fun c => digit c <> None) (chars s) -> ~ has "--" t -> ~ has "--" (s ++ t).
Proof.
  induction s as [|c s IH]; intros F N; auto. rewrite chars_cons in F. apply Forall_cons_iff in F as [F1 F2]. intros (a & b & E). destruct a as [|e a].
  - injection E as -> _. apply digit_codes in F1. tauto.
  - injection E as _ E. apply (IH F2 N). now exists a, b.
Qed.
Lemma not_dash_cons c s : c <> "-"%char -> ~ has "--" s -> ~ has "--" (String c s).
Proof. intros C N (a & b & E). destruct a as [|e a]; [injection E as E1; contradiction|]. injection E as _ E2. apply N. now exists a, b. Qed.
Lemma digits_clear s : Forall (fun c => digit c <> None) (chars s) -> ~ has "--" s.
Proof. intro F. rewrite <- (app_nil_s s). apply digits_no_dashes; auto. intros (x & y & Z). destruct x; discriminate. Qed.
Lemma dash_digits s : Forall (fun c => digit c <> None) (chars s) -> ~ has "--" (String "-" s).
Proof.
  intros F (a & b & E). destruct a as [|e a].
  - destruct s as [|c s]; [discriminate|]. injection E as -> _. rewrite chars_cons in F. apply Forall_cons_iff in F as [F _]. now elim F.
  - injection E as _ E2. apply (digits_clear s F). now exists a, b.
Qed.
Lemma join_below d file : String.prefix "/" file = false -> forall name, exists r, path_join (d ++ "/" ++ name) file = d ++ "/" ++ r.
Proof.
  intros P name. unfold path_join. rewrite P. destruct (_ || _)%bool; [exists (name ++ file)|exists (name ++ "/" ++ file)]; now rewrite !app_assoc_s.
Qed.
(** For a deployed job that was started without a variable n the date is read, wherever below its directory the log lies. *)
Theorem job_date_read : forall n seed ds fs name file, var n = "" -> (0 <= seed)%Z -> ds <> [] -> fs <> [] -> Forall (fun d => d < 10) ds -> Forall (fun d => d < 10) fs ->
  String.prefix "/" file = false -> exists q, file_date (path_join (job_dir n seed (numeral ds ++ "-" ++ numeral fs) ++ "/" ++ name) file) = Ok (Fin q) /\
  (q == inject_Z (dec_value ds) + inject_Z (dec_value fs) / inject_Z (10 ^ Z.of_nat (List.length fs)))%Q.
Proof.
  intros n seed ds fs name file V S D F FD FF P. destruct (join_below (job_dir n seed (numeral ds ++ "-" ++ numeral fs)) file P name) as (r & ->).
  destruct (float_numeral ds fs D F FD FF) as (q & Q & Eq). exists q. split; [|exact Eq]. set (a := numeral ds ++ "-" ++ numeral fs).
  destruct (show_all_digits seed S) as [SD SN]. apply all_digits_forall in SD.
  assert (E : job_dir n seed a ++ "/" ++ r = "./runs/prm-" ++ show seed ++ "--" ++ a ++ "/" ++ r) by (unfold job_dir; rewrite V, !app_assoc_s; reflexivity).
  rewrite E. unfold file_date.
  assert (A : after_first "--" ("./runs/prm-" ++ show seed ++ "--" ++ a ++ "/" ++ r) = Some (a ++ "/" ++ r)).
  { apply after_past.
    - cbn [append]. repeat (apply not_dash_cons; [discriminate|]). now apply dash_digits.
    - destruct (show seed); [contradiction|discriminate].
    - apply after_dashes. intro I. rewrite Forall_forall in SD. apply SD, digit_codes in I. tauto. }
  rewrite A. cbn [need bind]. destruct (before_dashes a r) as (r' & B).
  { unfold a. apply digits_no_dashes; [now apply numeral_chars|]. apply dash_digits. now apply numeral_chars. }
  rewrite B, before_slash.
  - unfold a. rewrite dots_digits by now apply numeral_chars. change (dots ("-" ++ numeral fs)) with ("." ++ dots (numeral fs)). rewrite <- (app_nil_s (numeral fs)), dots_digits by now apply numeral_chars.
    cbn [dots]. rewrite app_nil_s, Q. reflexivity.
  - unfold a. rewrite !chars_app, !in_app_iff. intros [I|[I|I]].
    + apply (proj1 (Forall_forall _ _) (numeral_chars ds FD)) in I. now apply I.
    + cbn in I. destruct I; [discriminate|contradiction].
    + apply (proj1 (Forall_forall _ _) (numeral_chars fs FF)) in I. now apply I.
Qed.

(** ** What a log says *)
Definition content (f : string * string * string) : list string := readlines (snd f).
Definition name_of (f : string * string * string) : string := snd (fst f).
Definition log_files (t : walk) : walk := filter (fun f => ends_with ".log" (name_of f)) t.
(** the last line of a kind, if there is one, says [o] *)
Definition last_says {A} (p : string -> Prop) (R : string -> A -> Prop) (lines : list string) (o : option A) : Prop :=
  match o with Some v => exists l, last_line p lines l /\ R l v | None => Forall (fun l => ~ p l) lines end.
Record entry := mkEntry { e_args : namespace; e_solved : option bool; e_time : option pyfloat }.
Record reads_log (f : string * string * string) (e : entry) : Prop := {
  rl_args : exists l0 l1 rest, content f = l0 :: l1 :: rest /\ literal_eval l1 = Some (e_args e);
  rl_date : exists v, file_date (path_join (fst (fst f)) (name_of f)) = Ok v;
  rl_key : e_solved e <> None -> exists v, dget String.eqb "adaptive_n" (e_args e) = Some v;
  rl_times : forall l, In l (content f) -> starts "Time:" l -> exists v, says_time l v;
  rl_solved : last_says (starts "Solved:") says_solved (content f) (e_solved e);
  rl_time : last_says (starts "Time:") says_time (content f) (e_time e) }.

Definition ok_line (a : namespace) (l : string) : Prop := (sol l = true -> exists v, dget String.eqb "adaptive_n" a = Some v) /\ (tim l = true -> exists v, says_time l v).
Definition solved_of (o : option string) : option bool := option_map (fun l => contains "True" (strip l)) o.
Definition time_of (o : option string) : option pyfloat := match o with Some l => py_float (remove_all "Time: " 0 (strip l)) | None => None end.
Definition set_opt {A} (file : string) (o : option A) (d : list (string * A)) : list (string * A) := match o with Some v => dset String.eqb file v d | None => d end.
Lemma set_twice {A} file (o o' : option A) d : set_opt file o' (set_opt file o d) = set_opt file (match o' with Some v => Some v | None => o end) d.
Proof. destruct o' as [v|], o as [w|]; auto. apply dset_twice, seqb. Qed.
Lemma line_ok file l d a : dget String.eqb file (d_args d) = Some a -> ok_line a l ->
  scatter_line file l d = Ok (mkDicts (d_args d) (set_opt file (solved_of (if sol l then Some l else None)) (d_succ d)) (set_opt file (time_of (if tim l then Some l else None)) (d_time d))).
Proof.
  intros A [S T]. unfold scatter_line. fold sol tim. unfold sol, tim in *. destruct (prefix "Solved:" l).
  - rewrite A. cbn [need bind]. destruct (S eq_refl) as (v & ->). cbn [need bind d_args d_succ d_time]. destruct (prefix "Time:" l); [|reflexivity].
    destruct (T eq_refl) as (w & W). unfold says_time in W. cbn [time_of]. rewrite W. reflexivity.
  - cbn [bind]. destruct (prefix "Time:" l); [|now destruct d]. destruct (T eq_refl) as (w & W). unfold says_time in W. cbn [time_of]. rewrite W. reflexivity.
Qed.
Lemma line_bad file l d a d' : dget String.eqb file (d_args d) = Some a -> scatter_line file l d = Ok d' -> ok_line a l.
Proof.
  intros A H. unfold scatter_line in H. rewrite A in H. unfold ok_line, sol, tim, says_time. destruct (prefix "Solved:" l).
  - cbn [need bind] in H. destruct (dget String.eqb "adaptive_n" a) as [v|]; [|discriminate]. cbn [need bind] in H. split; [eauto|]. intro T. rewrite T in H. destruct (py_float _); [eauto|discriminate].
  - cbn [bind] in H. split; [discriminate|]. intro T. rewrite T in H. destruct (py_float _); [eauto|discriminate].
Qed.
Lemma lines_ok file a lines : forall d, dget String.eqb file (d_args d) = Some a -> Forall (ok_line a) lines ->
  scatter_lines file lines d = Ok (mkDicts (d_args d) (set_opt file (solved_of (ll sol lines)) (d_succ d)) (set_opt file (time_of (ll tim lines)) (d_time d))).
Proof.
  induction lines as [|l lines IH]; intros d A F; [now destruct d|]. apply Forall_cons_iff in F as [F1 F]. cbn [scatter_lines]. rewrite (line_ok _ _ _ a A F1). cbn [bind].
  rewrite IH by auto. cbn [d_args d_succ d_time]. rewrite !set_twice, !ll_cons. f_equal. f_equal; f_equal.
  - destruct (ll sol lines); cbn [solved_of option_map]; auto.
  - destruct (ll tim lines) as [x|] eqn:L; cbn [time_of]; auto. assert (X : In x lines /\ tim x = true) by (unfold ll in L; apply find_some in L; rewrite <- in_rev in L; exact L).
    destruct X as [X1 X2]. rewrite Forall_forall in F. destruct (proj2 (F x X1) X2) as (v & V). unfold says_time in V. rewrite V. reflexivity.
Qed.
Lemma lines_bad file a lines : forall d d', dget String.eqb file (d_args d) = Some a -> scatter_lines file lines d = Ok d' -> Forall (ok_line a) lines.
Proof.
  induction lines as [|l lines IH]; intros d d' A H; [constructor|]. cbn [scatter_lines] in H. destruct (scatter_line file l d) as [d1|] eqn:E; [|discriminate]. cbn [bind] in H.
  pose proof (line_bad _ _ _ _ _ A E) as O. constructor; auto. rewrite (line_ok _ _ _ _ A O) in E. injection E as <-. eapply IH; [|exact H]. exact A.
Qed.

Definition dicts_of (es : list (string * entry)) : dicts :=
  mkDicts (map (fun x => (fst x, e_args (snd x))) es)
          (flat_map (fun x => match e_solved (snd x) with Some b => [(fst x, b)] | None => [] end) es)
          (flat_map (fun x => match e_time (snd x) with Some v => [(fst x, v)] | None => [] end) es).
Lemma opt_keys {A} (h : entry -> option A) es k : ~ In k (map fst es) -> dget String.eqb k (flat_map (fun x : string * entry => match h (snd x) with Some v => [(fst x, v)] | None => [] end) es) = None.
Proof.
  intro N. apply (dget_none String.eqb seqb). intro I. apply N. apply in_map_iff in I as ((k' & v) & <- & I). apply in_flat_map in I as (x & X & I). destruct (h (snd x)); [destruct I as [I|[]]|destruct I]. injection I as <- _. exact (in_map fst _ _ X).
Qed.
Lemma set_new {A} (h : entry -> option A) es k o e : ~ In k (map fst es) -> h e = o ->
  set_opt k o (flat_map (fun x : string * entry => match h (snd x) with Some v => [(fst x, v)] | None => [] end) es) =
  flat_map (fun x => match h (snd x) with Some v => [(fst x, v)] | None => [] end) (es ++ [(k, e)]).
Proof.
  intros N E. rewrite flat_map_app. cbn [flat_map fst snd]. rewrite E, app_nil_r. destruct o as [v|]; cbn [set_opt]; [|now rewrite app_nil_r]. apply dset_new, opt_keys, N.
Qed.
Lemma file_read root file text es : ~ In file (map fst es) -> forall d, scatter_file root file text (dicts_of es) = Ok d <-> exists e, reads_log (root, file, text) e /\ d = dicts_of (es ++ [(file, e)]).
Proof.
  intros N d. 
  assert (DA : forall a, dset String.eqb file a (d_args (dicts_of es)) = (map (fun x => (fst x, e_args (snd x))) es ++ [(file, a)])%list).
  { intro a. apply dset_new. apply (dget_none String.eqb seqb). cbn [dicts_of d_args]. rewrite map_map. exact N. }
  assert (GA : forall a, dget String.eqb file (d_args (mkDicts (dset String.eqb file a (d_args (dicts_of es))) (d_succ (dicts_of es)) (d_time (dicts_of es)))) = Some a).
  { intro a. cbn [d_args]. rewrite (dget_dset _ seqb), String.eqb_refl. reflexivity. }
  unfold scatter_file. split.
  - intro H. destruct (nth_error (readlines text) 1) as [l1|] eqn:N1; [|discriminate]. cbn [need bind] in H. destruct (literal_eval l1) as [a|] eqn:L; [|discriminate]. cbn [need bind] in H.
    destruct (file_date (path_join root file)) as [v|] eqn:D; [|discriminate]. cbn [bind] in H. pose proof (lines_bad _ a _ _ _ (GA a) H) as O. rewrite (lines_ok _ a _ _ (GA a) O) in H. injection H as <-.
    set (e := mkEntry a (solved_of (ll sol (readlines text))) (time_of (ll tim (readlines text)))). exists e. split.
    + constructor; cbn [e_args e_solved e_time e fst snd name_of content].
      * destruct (readlines text) as [|l0 [|l rest]] eqn:Rl; try discriminate. injection N1 as ->. exists l0, l1, rest. split; [exact Rl|exact L].
      * eauto.
      * intro S. destruct (ll sol (readlines text)) as [x|] eqn:Lx; [|now elim S]. unfold ll in Lx. apply find_some in Lx. rewrite <- in_rev in Lx. destruct Lx as [X1 X2]. rewrite Forall_forall in O. exact (proj1 (O x X1) X2).
      * intros l I T. rewrite Forall_forall in O. apply (proj2 (O l I)). now apply is_tim.
      * unfold last_says, content. cbn [snd]. destruct (ll sol (readlines text)) as [x|] eqn:Lx; cbn [solved_of option_map]; [|now apply (none_last _ _ _ is_sol)]. exists x. split; [now apply (ll_spec _ _ _ _ is_sol)|]. apply contains_has.
      * unfold last_says, content. cbn [snd]. destruct (ll tim (readlines text)) as [x|] eqn:Lx; cbn [time_of]; [|now apply (none_last _ _ _ is_tim)].
        assert (X : In x (readlines text) /\ tim x = true) by (unfold ll in Lx; apply find_some in Lx; rewrite <- in_rev in Lx; exact Lx). destruct X as [X1 X2]. rewrite Forall_forall in O. destruct (proj2 (O x X1) X2) as (w & W).
        unfold says_time in W. rewrite W. exists x. split; [now apply (ll_spec _ _ _ _ is_tim)|exact W].
    + rewrite DA. unfold dicts_of. rewrite map_app. cbn [map fst snd e_args e d_args d_succ d_time]. f_equal; apply set_new; auto.
  - intros (e & [(l0 & l1 & rest & C & L) (v & D) K T S1 S2] & ->). unfold content in *. cbn [fst snd name_of] in *. rewrite C. cbn [nth_error need bind]. rewrite L. cbn [need bind]. rewrite D. cbn [bind]. rewrite <- C.
    assert (Es : e_solved e = solved_of (ll sol (readlines text))).
    { unfold last_says in S1. destruct (e_solved e) as [b|].
      - destruct S1 as (x & X & Y). apply (ll_spec _ _ _ _ is_sol) in X. rewrite X. cbn [solved_of option_map]. f_equal. apply eq_true_iff_eq. rewrite contains_has. exact Y.
      - apply (none_last _ _ _ is_sol) in S1. now rewrite S1. }
    assert (Et : e_time e = time_of (ll tim (readlines text))).
    { unfold last_says in S2. destruct (e_time e) as [b|].
      - destruct S2 as (x & X & Y). apply (ll_spec _ _ _ _ is_tim) in X. rewrite X. cbn [time_of]. symmetry. exact Y.
      - apply (none_last _ _ _ is_tim) in S2. now rewrite S2. }
    rewrite (lines_ok _ (e_args e) _ _ (GA _)).
    + rewrite DA. unfold dicts_of. rewrite map_app. cbn [map fst snd d_args d_succ d_time]. f_equal. f_equal; apply set_new; auto.
    + apply Forall_forall. intros l I. split; [|intro X; apply (T l I); now apply is_tim]. intro X. apply K. rewrite Es. destruct (ll sol (readlines text)) as [y|] eqn:Ly; [discriminate|].
      apply (none_last _ _ _ is_sol) in Ly. rewrite Forall_forall in Ly. exfalso. apply (Ly l I). now apply is_sol.
Qed.
Lemma walk_read t : forall es d, NoDup (map fst es ++ map name_of (log_files t)) ->
  (scatter_walk t (dicts_of es) = Ok d <-> exists es', Forall2 reads_log (log_files t) es' /\ d = dicts_of (es ++ combine (map name_of (log_files t)) es')).
Proof.
  induction t as [|((root, file), text) t IH]; intros es d ND.
  - cbn [scatter_walk log_files filter map combine]. split.
    + intro H. injection H as <-. exists []. split; [constructor|now rewrite app_nil_r].
    + intros (es' & F & ->). inversion F. subst. now rewrite app_nil_r.
  - cbn [scatter_walk]. unfold log_files in *. cbn [filter name_of fst snd] in *. destruct (ends_with ".log" file) eqn:E.
    + cbn [map name_of fst snd] in *. assert (N : ~ In file (map fst es)) by (apply NoDup_remove_2 in ND; intro I; apply ND, in_or_app; now left).
      assert (ND' : forall e, NoDup (map fst (es ++ [(file, e)]) ++ map name_of (filter (fun f => ends_with ".log" (name_of f)) t))) by (intro e; rewrite map_app, <- app_assoc; exact ND).
      split.
      * intro H. destruct (scatter_file root file text (dicts_of es)) as [d1|] eqn:S; [|discriminate]. cbn [bind] in H. apply (file_read _ _ _ _ N) in S as (e & R & ->). apply (IH _ _ (ND' e)) in H as (es' & F & ->).
        exists (e :: es'). split; [now constructor|]. cbn [combine]. now rewrite <- app_assoc.
      * intros (es' & F & ->). inversion F as [|x e y es2 R F2]; subst. assert (S : scatter_file root file text (dicts_of es) = Ok (dicts_of (es ++ [(file, e)]))) by (apply (file_read _ _ _ _ N); eauto).
        rewrite S. cbn [bind]. apply (IH _ _ (ND' e)). exists es2. split; auto. cbn [combine]. now rewrite <- app_assoc.
    + cbn [bind]. now apply IH.
Qed.

(** ** Grouping *)
Definition has_time (e : entry) : bool := match e_time e with Some _ => true | None => false end.
(** a run that counts: its sample counts, whether the number of samples was computed, whether it was solved, its time *)
Definition run_says (e : entry) (r : drun) : Prop :=
  let '(mn, mx, ad, s, v) := r in
  dget String.eqb "min_samples" (e_args e) = Some (VInt mn) /\ dget String.eqb "max_samples" (e_args e) = Some (VInt mx) /\ dget String.eqb "adaptive_n" (e_args e) = Some (VBool ad) /\
  e_solved e = Some s /\ e_time e = Some v.
Lemma dicts_get es k e : NoDup (map fst es) -> In (k, e) es -> dget String.eqb k (d_args (dicts_of es)) = Some (e_args e) /\ dget String.eqb k (d_succ (dicts_of es)) = e_solved e.
Proof.
  induction es as [|[k' e'] es IH]; intros ND I; [destruct I|]. cbn [map fst] in ND. apply NoDup_cons_iff in ND as [N ND]. cbn [dicts_of d_args d_succ map flat_map fst snd].
  destruct I as [I|I].
  - injection I as -> ->. split; [rewrite (dget_cons _ k k), String.eqb_refl; reflexivity|]. destruct (e_solved e) as [b|]; cbn [app]; [rewrite dget_cons, String.eqb_refl; reflexivity|]. apply (opt_keys e_solved), N.
  - assert (K : k' <> k) by (intros ->; apply N; exact (in_map fst _ _ I)). destruct (IH ND I) as [I1 I2]. split.
    + rewrite dget_cons. destruct (String.eqb_spec k' k); [contradiction|exact I1].
    + destruct (e_solved e'); cbn [app]; [|exact I2]. rewrite dget_cons. destruct (String.eqb_spec k' k); [contradiction|exact I2].
Qed.
Lemma groups_read es : NoDup (map fst es) -> forall es2, incl es2 es -> forall gs gs', scatter_groups (dicts_of es) (d_time (dicts_of es2)) gs = Ok gs' <->
  exists rs, Forall2 run_says (filter has_time (map snd es2)) rs /\ gs' = collect gs rs.
Proof.
  intros ND es2. induction es2 as [|[k e] es2 IH]; intros I gs gs'.
  - cbn [dicts_of d_time flat_map scatter_groups map filter]. split; [intro H; injection H as <-; exists []; split; [constructor|reflexivity]|]. intros (rs & F & ->). inversion F. reflexivity.
  - destruct (dicts_get es k e ND (I _ (or_introl eq_refl))) as [GA GS]. assert (I' : incl es2 es) by (intros x X; apply I; now right). cbn [dicts_of d_time flat_map fst snd map filter]. unfold has_time at 1.
    destruct (e_time e) as [v|] eqn:T; cbn [app]; [|exact (IH I' gs gs')]. cbn [scatter_groups]. rewrite GA. cbn [need bind]. unfold lookup. split.
    + intro H. destruct (dget String.eqb "adaptive_n" (e_args e)) as [ad|] eqn:E1; [|discriminate]. cbn [need bind] in H. destruct ad as [| | |ad]; try discriminate. cbn [as_bool need bind] in H.
      destruct (dget String.eqb "min_samples" (e_args e)) as [mn|] eqn:E2; [|discriminate]. cbn [need bind] in H. destruct mn as [mn| | |]; try discriminate. cbn [as_int need bind] in H.
      destruct (dget String.eqb "max_samples" (e_args e)) as [mx|] eqn:E3; [|discriminate]. cbn [need bind] in H. destruct mx as [mx| | |]; try discriminate. cbn [as_int need bind] in H.
      rewrite GS in H. destruct (e_solved e) as [s|] eqn:E4; [|discriminate]. cbn [need bind] in H. apply (IH I') in H as (rs & F & ->). exists ((mn, mx, ad, s, v) :: rs). split; [|reflexivity]. constructor; auto. unfold run_says. auto.
    + intros (rs & F & ->). inversion F as [|x r y rs' R F']; subst. destruct r as [[[[mn mx] ad] s] w]. destruct R as (E2 & E3 & E1 & E4 & E5). rewrite T in E5. injection E5 as <-.
      rewrite E1, E2, E3, GS, E4. cbn [need bind as_int as_bool]. apply (IH I'). exists rs'. split; auto.
Qed.
Lemma combine_keys {A B} (ks : list A) (es : list B) : List.length ks = List.length es -> map fst (combine ks es) = ks /\ map snd (combine ks es) = es.
Proof. revert es. induction ks as [|k ks IH]; intros [|e es] L; try discriminate; auto. injection L as L. destruct (IH es L) as [I1 I2]. cbn [combine map fst snd]. now rewrite I1, I2. Qed.
Lemma forall2_len {A B} (P : A -> B -> Prop) l m : Forall2 P l m -> List.length l = List.length m.
Proof. induction 1; cbn; auto. Qed.
Lemma scatter_iff t gs : NoDup (map name_of (log_files t)) ->
  (scatter t = Ok gs <-> exists es rs, Forall2 reads_log (log_files t) es /\ Forall2 run_says (filter has_time es) rs /\ gs = collect [] rs).
Proof.
  intro ND. unfold scatter. change (mkDicts [] [] []) with (dicts_of []).
  assert (K : forall es, Forall2 reads_log (log_files t) es -> NoDup (map fst (combine (map name_of (log_files t)) es)) /\ map snd (combine (map name_of (log_files t)) es) = es).
  { intros es F. destruct (combine_keys (map name_of (log_files t)) es) as [K1 K2]; [rewrite map_length; eapply forall2_len, F|]. now rewrite K1. }
  split.
  - intro H. destruct (scatter_walk t (dicts_of [])) as [d|] eqn:W; [|discriminate]. cbn [bind] in H. apply (walk_read t [] d ND) in W as (es & F & ->). cbn [app] in H. destruct (K es F) as [K1 K2].
    apply (groups_read _ K1 _ (incl_refl _)) in H as (rs & G & ->). rewrite K2 in G. eauto.
  - intros (es & rs & F & G & ->). destruct (K es F) as [K1 K2]. assert (W : scatter_walk t (dicts_of []) = Ok (dicts_of (combine (map name_of (log_files t)) es))) by (apply (walk_read t [] _ ND); eauto).
    rewrite W. cbn [bind]. apply (groups_read _ K1 _ (incl_refl _)). exists rs. rewrite K2. auto.
Qed.
Lemma collect_exact rs : NoDup (map fst (collect [] rs)) /\ forall g ss ts, In (g, (ss, ts)) (collect [] rs) <-> runs_of g rs <> [] /\ ss = map (fun r => snd (fst r)) (runs_of g rs) /\ ts = map snd (runs_of g rs).
Proof.
  destruct (collect_grouped rs [] [] (conj (NoDup_nil _) (fun g => eq_refl))) as [N G]. split; auto. intros g ss ts. rewrite (dget_in _ geqb) by auto. rewrite (G g). simpl app.
  destruct (runs_of g rs) as [|r rs']; [split; [discriminate|intros (X & _); contradiction]|]. split; [intro X; injection X as <- <-; repeat split; auto; discriminate|]. intros (_ & -> & ->). reflexivity.
Qed.
(** If the notebook gets to its figure, every log was read, every log with a time names its settings and says whether it was solved,
    and each setting has the outcomes and times of exactly its timed logs, in order. *)
Theorem scatter_exact : forall t gs, NoDup (map name_of (log_files t)) -> scatter t = Ok gs ->
  exists es rs, Forall2 reads_log (log_files t) es /\ Forall2 run_says (filter has_time es) rs /\ NoDup (map fst gs) /\
  forall g ss ts, In (g, (ss, ts)) gs <-> runs_of g rs <> [] /\ ss = map (fun r => snd (fst r)) (runs_of g rs) /\ ts = map snd (runs_of g rs).
Proof.
  intros t gs ND H. apply (scatter_iff t gs ND) in H as (es & rs & F & G & ->). exists es, rs. destruct (collect_exact rs) as [C1 C2]. auto.
Qed.
(** And it gets there whenever the logs can be read. *)
Theorem scatter_draws : forall t es rs, NoDup (map name_of (log_files t)) -> Forall2 reads_log (log_files t) es -> Forall2 run_says (filter has_time es) rs -> exists gs, scatter t = Ok gs.
Proof. intros t es rs ND F G. exists (collect [] rs). apply (scatter_iff t _ ND). eauto. Qed.
(** One log that cannot be read, or a timed one that does not say whether it was solved, stops it. *)
Theorem scatter_raises : forall t f, NoDup (map name_of (log_files t)) -> In f (log_files t) ->
  (List.length (content f) < 2 \/ ~ has "--" (path_join (fst (fst f)) (name_of f)) \/
   (exists l, In l (content f) /\ starts "Time:" l) /\ Forall (fun l => ~ starts "Solved:" l) (content f)) -> exists e, scatter t = Raise e.
Proof.
  intros t f ND I H. destruct (scatter t) as [gs|e] eqn:S; [|eauto]. exfalso. destruct (scatter_exact t gs ND S) as (es & rs & F & G & _).
  assert (X : exists e, In e es /\ reads_log f e). { clear - F I. induction F as [|x e l es R F IH]; [destruct I|]. destruct I as [->|I]; [exists e; split; auto; now left|]. destruct (IH I) as (e' & J & R'). exists e'. split; auto. now right. }
  destruct X as (e & J & [(l0 & l1 & rest & C & _) (v & D) _ _ S1 S2]). destruct H as [H|[H|((l & Il & Tl) & H)]].
  - rewrite C in H. cbn in H. lia.
  - apply file_date_index in H. congruence.
  - assert (T : has_time e = true). { unfold has_time, last_says in *. destruct (e_time e); auto. rewrite Forall_forall in S2. exfalso. exact (S2 l Il Tl). }
    assert (Y : exists r, run_says e r). { clear - G J T. assert (K : In e (filter has_time es)) by (apply filter_In; auto). induction G as [|x r l rs R G IH]; [destruct K|]. destruct K as [->|K]; eauto. }
    destruct Y as ([[[[mn mx] ad] s] w] & _ & _ & _ & Q & _). unfold last_says in S1. rewrite Q in S1. destruct S1 as (l' & (a & b & E & P & _) & _). rewrite Forall_forall in H. apply (H l'); auto. rewrite E. apply in_elt.
Qed.

(** ** The figure *)
(** Every setting is drawn under exactly one of the three names. *)
Theorem conditions_partition : forall k, exists c, In c legend /\ forall c', In c' legend -> (condition_holds c' k = true <-> c' = c).
Proof.
  intros [[mn mx] ad]. exists (if ad then "aPRM" else if (mn =? mx - 1)%Z then "sPRM" else "iPRM"). unfold condition_holds, legend. split.
  - destruct ad; [cbn; tauto|]. destruct (mn =? mx - 1)%Z; cbn; tauto.
  - intros c' I. cbn [In] in I. decompose [or] I; try contradiction; subst c'; destruct ad, (mn =? mx - 1)%Z; cbn; split; intro H; try reflexivity; discriminate.
Qed.
(** The points under a name: one for every setting of that kind that has runs, made of those runs. *)
Theorem figure_exact : forall gs, map fst (figure gs) = legend /\ forall c pts, In (c, pts) (figure gs) ->
  Forall2 (fun x p => p = point_of (fst (snd x)) (snd (snd x))) (filter (fun x => condition_holds c (fst x)) gs) pts.
Proof.
  intro gs. split; [reflexivity|]. intros c pts I. unfold figure in I. apply in_map_iff in I as (c' & E & _). injection E as <- <-. unfold condition_points. generalize (filter (fun x => condition_holds c' (fst x)) gs). intro l.
  induction l; cbn [map]; constructor; auto.
Qed.
Theorem figure_counts : forall gs, list_sum (map (fun x => List.length (snd x)) (figure gs)) = List.length gs.
Proof.
  intro gs. unfold figure. rewrite map_map. cbn [snd]. unfold condition_points. cbn [map legend list_sum fold_right]. rewrite !map_length. induction gs as [|[k v] gs IH]; [reflexivity|].
  cbn [filter fst]. destruct k as [[mn mx] ad]. unfold condition_holds in *. destruct ad, (mn =? mx - 1)%Z; cbn in *; lia.
Qed.

(** ** Deployed jobs *)
(** the keys of vars(args): the names of the options without the leading dashes, the other dashes as underscores *)
Fixpoint underscores (s : string) : string := match s with "" => "" | String c r => String (if Ascii.eqb c "-" then "_"%char else c) (underscores r) end.
Definition vars_args (opts : list opt) (l : list (string * value)) : namespace := map (fun o => (underscores (drop 2 (flag o)), wanted l o)) opts.
(** what the deployment scripts mean by their arg sets: the computed number of samples, a growing number up to n, just n *)
Inductive deployed (min_min : Z) (ns : list Z) : Z * Z * Z -> string -> Prop :=
| DAdaptive : deployed min_min ns (0, 0, 1)%Z "aPRM"
| DIncremental n : In n ns -> deployed min_min ns (min_min - 1, n, 0)%Z "iPRM"
| DSingle n : In n ns -> deployed min_min ns (n - 1, n, 0)%Z "sPRM".
Lemma arg_sets_deployed min_min ns a : In a (arg_sets min_min ns) <-> exists c, deployed min_min ns a c.
Proof.
  unfold arg_sets. split.
  - intros [<-|I]; [eexists; constructor|]. apply in_flat_map in I as (n & N & [<-|[<-|[]]]); eexists; [now apply DIncremental|now apply DSingle].
  - intros (c & [|n I|n I]); [now left|right; apply in_flat_map; exists n; split; auto; cbn; tauto..].
Qed.
Definition group_of (a : namespace) (k : group) : Prop :=
  dget String.eqb "min_samples" a = Some (VInt (fst (fst k))) /\ dget String.eqb "max_samples" a = Some (VInt (snd (fst k))) /\ dget String.eqb "adaptive_n" a = Some (VBool (snd k)).
Lemma deployed_group min_min ns a c dmin dmax : Forall (fun m => min_min + 1 <= m)%Z ns -> deployed min_min ns a c ->
  let k := (if snd a =? 0 then (fst (fst a), snd (fst a), false) else (dmin, dmax, true))%Z in
  forall c', In c' legend -> (condition_holds c' k = true <-> c' = c).
Proof.
  intros F [|n I|n I] k c' L; cbn [snd fst Z.eqb k]; unfold k, condition_holds; cbn [snd fst Z.eqb]; cbn [In legend] in L.
  - decompose [or] L; try contradiction; subst c'; cbn; destruct (dmin =? dmax - 1)%Z; cbn; split; intro H; try reflexivity; discriminate.
  - rewrite Forall_forall in F. specialize (F n I). assert (E : (min_min - 1 =? n - 1)%Z = false) by (apply Z.eqb_neq; lia). rewrite E. decompose [or] L; try contradiction; subst c'; cbn; split; intro H; try reflexivity; discriminate.
  - rewrite Z.eqb_refl. decompose [or] L; try contradiction; subst c'; cbn; split; intro H; try reflexivity; discriminate.
Qed.
(** A deployed kuka job writes down arguments that the notebook draws under the name that was meant. *)
Theorem kuka_deployed : forall pi_12 min_min ns a c n seed now, Forall (fun m => min_min + 1 <= m)%Z ns -> deployed min_min ns a c ->
  exists k, group_of (vars_args (kuka_opts pi_12) (sampled_options a n seed now)) k /\ forall c', In c' legend -> (condition_holds c' k = true <-> c' = c).
Proof.
  intros pi min_min ns a c n seed now F D. exists (if snd a =? 0 then (fst (fst a), snd (fst a), false) else (500, 30000, true))%Z. split; [|now apply (deployed_group min_min ns)].
  destruct D; cbn [snd fst Z.eqb]; repeat split.
Qed.
(** The same for the turtlebot, if pddlstream's own options have other names. *)
Theorem turtle_deployed : forall extra min_min ns a c n seed now, Forall (fun o => ~ In (underscores (drop 2 (flag o))) ["min_samples"; "max_samples"; "adaptive_n"]) extra ->
  Forall (fun m => min_min + 1 <= m)%Z ns -> deployed min_min ns a c ->
  exists k, group_of (vars_args (turtle_opts extra) (sampled_options a n seed now)) k /\ forall c', In c' legend -> (condition_holds c' k = true <-> c' = c).
Proof.
  intros extra min_min ns a c n seed now X F D. exists (if snd a =? 0 then (fst (fst a), snd (fst a), false) else (10, 2000, true))%Z. split; [|now apply (deployed_group min_min ns)].
  assert (S : forall key, In key ["min_samples"; "max_samples"; "adaptive_n"] -> dget String.eqb key (vars_args (turtle_opts extra) (sampled_options a n seed now)) = dget String.eqb key (vars_args (turtle_opts []) (sampled_options a n seed now))).
  { intros key K. unfold vars_args, turtle_opts. rewrite map_app.
    induction extra as [|o extra IH]; [reflexivity|]. apply Forall_cons_iff in X as [X1 X2]. cbn [map app]. rewrite dget_cons. destruct (String.eqb_spec (underscores (drop 2 (flag o))) key) as [E|_]; [exfalso; apply X1; now rewrite E|exact (IH X2)]. }
  unfold group_of. rewrite !S by (cbn; tauto). destruct D; cbn [snd fst Z.eqb]; repeat split.
Qed.
(** The jobs of deploy_tamp_adaptive_kuka.py differ in three numbers that the notebooks do not look at: all of them are one setting. *)
Theorem adaptive_one_group : forall pi_12 d b th n seed now, group_of (vars_args (kuka_opts pi_12) (float_options d b th n seed now)) (500, 30000, true)%Z.
Proof. intros. repeat split. Qed.
Lemma group_unique a k k' : group_of a k -> group_of a k' -> k = k'.
Proof. destruct k as [[x y] z], k' as [[x' y'] z']. unfold group_of. cbn [fst snd]. intros (A & B & C) (A' & B' & C'). congruence. Qed.
Lemma run_group e r : run_says e r -> group_of (e_args e) (fst (fst r)).
Proof. destruct r as [[[[mn mx] ad] s] v]. intros (A & B & C & _). repeat split; auto. Qed.
(** If all logs come from these jobs, the figure has at most one point. *)
Theorem adaptive_one_point : forall t gs pi_12, NoDup (map name_of (log_files t)) -> scatter t = Ok gs ->
  (forall f e, In f (log_files t) -> reads_log f e -> exists d b th n seed now, e_args e = vars_args (kuka_opts pi_12) (float_options d b th n seed now)) ->
  List.length gs <= 1 /\ forall g x, In (g, x) gs -> g = (500, 30000, true)%Z.
Proof.
  intros t gs pi ND H A. destruct (scatter_exact t gs ND H) as (es & rs & F & G & N & C).
  assert (E : forall e, In e es -> exists d b th n seed now, e_args e = vars_args (kuka_opts pi) (float_options d b th n seed now)).
  { clear - F A. induction F as [|f e l es R F IH]; intros x I; [destruct I|]. destruct I as [<-|I]; [apply (A f); auto; now left|]. apply IH; auto. intros f' e' I' R'. apply (A f'); auto. now right. }
  assert (R : forall r, In r rs -> fst (fst r) = (500, 30000, true)%Z).
  { intros r I. assert (X : exists e, In e es /\ run_says e r). { clear - G I. assert (K : exists e, In e (filter has_time es) /\ run_says e r). { induction G as [|e r' l rs S G IH]; [destruct I|]. destruct I as [->|I]; [exists e; split; auto; now left|]. destruct (IH I) as (e' & J & Q). exists e'. split; auto. now right. }
      destruct K as (e & K & Q). apply filter_In in K as [K _]. eauto. }
    destruct X as (e & J & Q). destruct (E e J) as (d & b & th & n & seed & now & Ea). apply run_group in Q. rewrite Ea in Q. eapply group_unique; [exact Q|]. apply adaptive_one_group. }
  assert (K : forall g x, In (g, x) gs -> g = (500, 30000, true)%Z).
  { intros g [ss ts] I. apply C in I as (I & _). destruct (runs_of g rs) as [|r l] eqn:Er; [contradiction|]. assert (J : In r (runs_of g rs)) by (rewrite Er; now left). unfold runs_of in J. apply filter_In in J as [J1 J2]. apply geqb in J2. rewrite <- J2. now apply R. }
  split; [|exact K]. destruct gs as [|[g x] [|[g' x'] gs]]; cbn; try lia. exfalso. cbn [map fst] in N. apply NoDup_cons_iff in N as [N _]. apply N. left. rewrite (K g x), (K g' x'); [reflexivity|right; now left|now left].
Qed.

(** C175.  The abscissa of a point is the mean of the times of its runs, and is no number exactly when some time is none. *)
Theorem time_exact : forall ss ts,
  (forall qs, ts = map Fin qs -> ts <> [] -> exists m, px (point_of ss ts) = Some m /\ (m * INR (List.length qs) = Q2R (fold_right Qplus 0%Q qs))%R) /\
  (px (point_of ss ts) = None <-> exists t, In t ts /\ forall q, t <> Fin q) /\ (pxerr (point_of ss ts) = None <-> exists t, In t ts /\ forall q, t <> Fin q).
Proof.
  intros ss ts. cbn [px pxerr point_of].
  assert (R1 : forall qs, reals (map Fin qs) = Some (map Q2R qs)) by (induction qs as [|q l IH]; [reflexivity|]; cbn [map reals]; rewrite IH; reflexivity).
  assert (N : reals ts = None <-> exists t, In t ts /\ forall q, t <> Fin q).
  { induction ts as [|t l IH]; [split; [discriminate|intros (t & [] & _)]|]. destruct t as [q| |]; cbn [reals].
    2-3: split; [intros _; eexists; split; [left; reflexivity|discriminate]|reflexivity].
    split.
    - intros E. destruct (reals l); [discriminate|]. destruct (proj1 IH eq_refl) as (t & It & Ht). exists t. split; [right|]; assumption.
    - intros (t & [<-|It] & Ht); [now destruct (Ht q)|]. rewrite (proj2 IH) by (exists t; split; assumption). reflexivity. }
  split; [|split].
  - intros qs -> Hn. rewrite R1. eexists. split; [reflexivity|]. unfold np_mean. rewrite map_length.
    assert (INR (List.length qs) <> 0%R) by (destruct qs; [now destruct Hn|apply not_0_INR; discriminate]).
    replace (total (map Q2R qs)) with (Q2R (fold_right Qplus 0%Q qs)); [field; assumption|]. clear. unfold total.
    induction qs as [|q l IH]; [cbn; unfold Q2R; cbn; lra|]. cbn [map fold_right]. rewrite Q2R_plus, IH. reflexivity.
  - rewrite <- N. destruct (reals ts); cbn; split; intros H; try discriminate; reflexivity.
  - rewrite <- N. destruct (reals ts); cbn; split; intros H; try discriminate; reflexivity.
Qed.
Print Assumptions time_exact.
Example time_ex : exists m, px (point_of [true; false] [Fin (315 # 10)%Q; Fin (405 # 10)%Q]) = Some m /\ (m * 2 = Q2R (720 # 10))%R.
Proof.
  destruct (time_exact [true; false] [Fin (315 # 10)%Q; Fin (405 # 10)%Q]) as (H & _). destruct (H [315 # 10; 405 # 10]%Q eq_refl) as (m & E & V); [discriminate|].
  exists m. split; [exact E|]. cbn [List.length INR] in V. rewrite <- (Qeq_eqR (fold_right Qplus 0%Q [315 # 10; 405 # 10]%Q)) by reflexivity. rewrite <- V. lra.
Qed.

(** ** The points *)
Open Scope R_scope.
Lemma div_ge_0 a b : 0 <= a -> 0 < b -> 0 <= a / b.
Proof. intros A B. apply Rmult_le_pos; auto. apply Rlt_le, Rinv_0_lt_compat, B. Qed.
Lemma total_bool ss : total (outcomes ss) = INR (count_occ Bool.bool_dec ss true) /\ (count_occ Bool.bool_dec ss true <= List.length ss)%nat.
Proof.
  induction ss as [|b ss [I1 I2]]; [split; [reflexivity|auto]|]. cbn [outcomes map total fold_right List.length]. fold (outcomes ss). fold (total (outcomes ss)). rewrite I1.
  destruct b; cbn [count_occ]; destruct (Bool.bool_dec _ _) as [E|E]; try discriminate; try contradiction; [rewrite S_INR; split; [ring|lia]|split; [ring|lia]].
Qed.
Lemma total_square p ss : total (map (fun x => (x - p) * (x - p)) (outcomes ss)) = INR (count_occ Bool.bool_dec ss true) * (1 - 2 * p) + INR (List.length ss) * (p * p).
Proof.
  induction ss as [|b ss IH]; [cbn; ring|]. cbn [outcomes map total fold_right List.length]. fold (outcomes ss). fold (total (map (fun x => (x - p) * (x - p)) (outcomes ss))). rewrite IH, S_INR.
  destruct b; cbn [count_occ]; destruct (Bool.bool_dec _ _) as [E|E]; try discriminate; try contradiction; rewrite ?S_INR; ring.
Qed.
(** The height of a point is the fraction of solved runs, the bar the standard error of that fraction; bars never leave [0, 1] and are
    at most half the inverse root of the number of runs. *)
Theorem rate_exact : forall ss ts, ss <> [] -> let p := py (point_of ss ts) in let n := INR (List.length ss) in
  p * n = INR (count_occ Bool.bool_dec ss true) /\ pyerr (point_of ss ts) = sqrt (p * (1 - p) / n) /\
  0 <= p - pyerr (point_of ss ts) /\ p + pyerr (point_of ss ts) <= 1 /\ pyerr (point_of ss ts) <= / (2 * sqrt n).
Proof.
  intros ss ts N p n. destruct (total_bool ss) as [T K]. set (k := count_occ Bool.bool_dec ss true) in *.
  assert (L : List.length (outcomes ss) = List.length ss) by apply map_length.
  assert (Pn : 1 <= n) by (unfold n; destruct ss; [contradiction|]; cbn [List.length]; rewrite S_INR; pose proof (pos_INR (List.length ss)); lra).
  assert (P : p = INR k / n) by (unfold p, point_of, np_mean; cbn [py]; rewrite T, L; reflexivity).
  assert (Pk : p * n = INR k) by (rewrite P; field; lra).
  assert (Kn : INR k <= n) by (apply le_INR, K). pose proof (pos_INR k) as K0.
  assert (P01 : 0 <= p <= 1) by (split; rewrite P; [apply div_ge_0; lra|apply Rmult_le_reg_r with n; [lra|]; unfold Rdiv; rewrite Rmult_assoc, Rinv_l; lra]).
  assert (E : pyerr (point_of ss ts) = sqrt (p * (1 - p) / n)).
  { unfold point_of, std_error, np_std. cbn [pyerr]. change (np_mean (outcomes ss)) with p. rewrite L. fold n. unfold np_mean. rewrite map_length, L. fold n. rewrite (total_square p ss). fold k n. rewrite <- Pk.
    replace ((p * n * (1 - 2 * p) + n * (p * p)) / n) with (p * (1 - p)) by (field; lra). symmetry. apply sqrt_div; [apply Rmult_le_pos; lra|lra]. }
  assert (Q0 : 0 <= p * (1 - p) / n) by (apply div_ge_0; [apply Rmult_le_pos|]; lra).
  split; [exact Pk|]. split; [exact E|]. rewrite E.
  assert (B1 : p * (1 - p) / n <= p * p).
  { destruct (Nat.eq_dec k 0) as [Z|Z]; [assert (p = 0) by (rewrite P, Z; cbn; field; lra); rewrite H; lra|]. assert (K1 : 1 <= INR k) by (change 1 with (INR 1); apply le_INR; lia).
    apply Rmult_le_reg_r with n; [lra|]. replace (p * (1 - p) / n * n) with (p * (1 - p)) by (field; lra). rewrite Rmult_assoc. apply Rmult_le_compat_l; [lra|]. rewrite Pk. lra. }
  assert (B2 : p * (1 - p) / n <= (1 - p) * (1 - p)).
  { destruct (Nat.eq_dec k (List.length ss)) as [Z|Z]; [assert (p = 1) by (rewrite P, Z; unfold n; field; fold n; lra); rewrite H; lra|]. assert (K1 : INR k + 1 <= n) by (rewrite <- S_INR; apply le_INR; lia).
    apply Rmult_le_reg_r with n; [lra|]. replace (p * (1 - p) / n * n) with ((1 - p) * p) by (field; lra). rewrite Rmult_assoc. apply Rmult_le_compat_l; [lra|]. rewrite Rmult_minus_distr_r, Pk. lra. }
  assert (S1 : sqrt (p * (1 - p) / n) <= p) by (apply Rle_trans with (sqrt (p * p)); [now apply sqrt_le_1_alt|rewrite sqrt_square; lra]).
  assert (S2 : sqrt (p * (1 - p) / n) <= 1 - p) by (apply Rle_trans with (sqrt ((1 - p) * (1 - p))); [now apply sqrt_le_1_alt|rewrite sqrt_square; lra]).
  split; [lra|]. split; [lra|]. assert (Sn : 0 < sqrt n) by (apply sqrt_lt_R0; lra).
  replace (/ (2 * sqrt n)) with (sqrt ((1 / 2) * (1 / 2) / n)) by (rewrite sqrt_div, sqrt_square by lra; field; lra).
  apply sqrt_le_1_alt. unfold Rdiv. apply Rmult_le_compat_r; [apply Rlt_le, Rinv_0_lt_compat; lra|]. pose proof (Rle_0_sqr (p - 1 / 2)) as S. unfold Rsqr in S. lra.
Qed.
Lemma total_nonneg l : (forall x, In x l -> 0 <= x) -> 0 <= total l /\ (total l = 0 <-> forall x, In x l -> x = 0).
Proof.
  induction l as [|a l IH]; intro H; [cbn; split; [lra|split; [intros _ x []|auto]]|]. destruct IH as [I1 I2]; [intros; apply H; now right|]. pose proof (H a (or_introl eq_refl)) as Ha. cbn [total fold_right]. fold (total l).
  split; [lra|]. split; [intros E x [<-|I]; [lra|apply I2; auto; lra]|]. intro Z. rewrite (Z a (or_introl eq_refl)), (proj2 I2); [lra|]. intros; apply Z; now right.
Qed.
(** A bar vanishes only if all values agree. *)
Theorem std_error_zero : forall l, l <> [] -> 0 <= std_error l /\ (std_error l = 0 <-> forall x y, In x l -> In y l -> x = y).
Proof.
  intros l N. unfold std_error. assert (Pn : 1 <= INR (List.length l)) by (destruct l; [contradiction|]; cbn [List.length]; rewrite S_INR; pose proof (pos_INR (List.length l)); lra).
  assert (Sn : 0 < sqrt (INR (List.length l))) by (apply sqrt_lt_R0; lra). set (m := np_mean l). set (sq := map (fun x => (x - m) * (x - m)) l).
  assert (Hsq : forall x, In x sq -> 0 <= x) by (intros x I; apply in_map_iff in I as (y & <- & _); apply Rle_0_sqr). destruct (total_nonneg sq Hsq) as [T0 TZ].
  assert (M0 : 0 <= np_mean sq) by (unfold np_mean, sq; rewrite map_length; fold sq; apply div_ge_0; lra).
  assert (S0 : 0 <= np_std l) by apply sqrt_pos. split; [apply div_ge_0; auto|].
  assert (MZ : np_std l / sqrt (INR (List.length l)) = 0 <-> total sq = 0).
  { unfold np_std. fold m. fold sq. split.
    - intro E. assert (E1 : sqrt (np_mean sq) = 0) by (apply Rmult_eq_reg_r with (/ sqrt (INR (List.length l))); [rewrite Rmult_0_l; exact E|apply Rinv_neq_0_compat; lra]).
      apply sqrt_eq_0 in E1; auto. unfold np_mean in E1. unfold sq in E1 at 2. rewrite map_length in E1. apply Rmult_eq_reg_r with (/ INR (List.length l)); [rewrite Rmult_0_l; exact E1|apply Rinv_neq_0_compat; lra].
    - intro E. unfold np_mean. rewrite E. unfold Rdiv at 2. rewrite Rmult_0_l, sqrt_0. unfold Rdiv. ring. }
  rewrite MZ, TZ. unfold sq. split.
  - intros H x y Ix Iy. assert (A : forall z, In z l -> z = m). { intros z I. specialize (H ((z - m) * (z - m)) (in_map (fun x => (x - m) * (x - m)) l z I)). apply Rmult_integral in H. lra. } rewrite (A x), (A y); auto.
  - intros H x I. apply in_map_iff in I as (y & <- & I). assert (A : total l = INR (List.length l) * y).
    { assert (A : forall l', (forall x, In x l' -> x = y) -> total l' = INR (List.length l') * y).
      { induction l' as [|a l' IH]; intro Ha; [cbn; ring|]. cbn [total fold_right List.length]. fold (total l'). rewrite IH by (intros; apply Ha; now right). rewrite (Ha a (or_introl eq_refl)), S_INR. ring. }
      apply A. intros x Ix. auto. }
    assert (Em : m = y) by (unfold m, np_mean; rewrite A; field; lra). rewrite Em. ring.
Qed.
Close Scope R_scope.

(** ** Concrete logs *)
Definition args_text (mn mx delta adaptive : string) : string :=
  repr_dict [("min_samples", mn); ("max_samples", mx); ("factor", "1.1"); ("delta", delta); ("seed", "-1"); ("save_dir", "'/home/gridsan/acurtis/runs/prm-1--20240131-120000'"); ("adaptive_n", adaptive)].
Definition log_of (args : string) (rest : list string) : string := log_file ("Experiment arguments:" :: args :: "Delta: 0.04" :: rest).
Definition dir1 : string := "./runs/prm-1--20240131-120000/4711_1706702400.25".
Definition dir2 : string := "./runs/prm-1--20240131-120007/815_1706702407.5".
Definition small_walk : walk :=
  [("./runs", "notes.txt", "Time: later");
   (dir1, "1706702400.3.log", log_of (args_text "499" "2000" "0.04" "False") ["Solved: True"; "Cost: 12"; "Time: 31.5"]);
   (dir2, "1706702407.6.log", log_of (args_text "1999" "2000" "0.04" "False") ["Solved: False"; "Time: 60.25"]);
   (dir2, "1706702409.1.log", log_of (args_text "500" "30000" "0.04" "True") ["Planning for object:7"]);
   (dir1, "1706702411.8.log", log_of (args_text "499" "2000" "0.04" "False") ["Solved: False"; "Time: 40.5"])].
Example small_walk_ex : NoDup (map name_of (log_files small_walk)) /\
  scatter small_walk = Ok [((499, 2000, false)%Z, ([true; false], [Fin (315 # 10)%Q; Fin (405 # 10)%Q])); ((1999, 2000, false)%Z, ([false], [Fin (6025 # 100)%Q]))].
Proof. split; [|vm_compute; reflexivity]. change (NoDup ["1706702400.3.log"; "1706702407.6.log"; "1706702409.1.log"; "1706702411.8.log"]). repeat constructor; simpl; intuition discriminate. Qed.
Example small_figure : map (fun x => (fst x, List.length (snd x))) (figure (match scatter small_walk with Ok gs => gs | Raise _ => [] end)) = [("sPRM", 1); ("iPRM", 1); ("aPRM", 0)].
Proof. rewrite (proj2 small_walk_ex). reflexivity. Qed.
Example small_rate : py (point_of [true; false] [Fin (315 # 10)%Q; Fin (405 # 10)%Q]) = (1 / 2)%R.
Proof. unfold point_of, np_mean. cbn. field. Qed.
Example literal_ex : literal_eval (args_text "499" "2000" "0.04" "False" ++ eol) =
  Some [("min_samples", VInt 499); ("max_samples", VInt 2000); ("factor", VFloat (Fin (inject_Z 11 * (10 # 1) ^ (-1))%Q)); ("delta", VFloat (Fin (inject_Z 4 * (10 # 1) ^ (-2))%Q)); ("seed", VInt (-1));
        ("save_dir", VStr "/home/gridsan/acurtis/runs/prm-1--20240131-120000"); ("adaptive_n", VBool false)].
Proof.
  apply literal_eval_repr; [discriminate| |cbn; repeat constructor; cbn; intuition discriminate].
  assert (P : forall s, contains "'" s = false -> contains "\" s = false -> plain_text s).
  { intros s A B. split; intro I; [apply not_true_iff_false in A; apply A|apply not_true_iff_false in B; apply B]; apply contains_has; apply in_split in I as (x & y & E); exists (string_of_list_ascii x), (string_of_list_ascii y);
      rewrite <- (string_of_list_ascii_of_string s); unfold chars in E; rewrite E; clear; (induction x as [|c x IH]; [reflexivity|cbn [app string_of_list_ascii append]; now rewrite IH]). }
  repeat (apply Forall2_cons; [split; [reflexivity|]; split; [apply P; reflexivity|]; cbn [snd]|]); try apply Forall2_nil.
  - exact (PInt 499).
  - exact (PInt 2000).
  - apply PFloat; [repeat constructor; cbn; tauto|reflexivity|reflexivity|reflexivity].
  - apply PFloat; [repeat constructor; cbn; tauto|reflexivity|reflexivity|reflexivity].
  - exact (PInt (-1)).
  - apply (PStr "/home/gridsan/acurtis/runs/prm-1--20240131-120000"). apply P; reflexivity.
  - exact PFalse.
Qed.
Example job_date_ex : exists q, file_date (path_join (job_dir None 1 "20240131-120000" ++ "/" ++ "4711_1706702400.25") "1706702400.3.log") = Ok (Fin q) /\ (q == 202401311200 # 10000)%Q.
Proof.
  destruct (job_date_read None 1 [2; 0; 2; 4; 0; 1; 3; 1] [1; 2; 0; 0; 0; 0] "4711_1706702400.25" "1706702400.3.log") as (q & Q & E); try discriminate; try reflexivity; try lia; try (repeat constructor; lia).
  exists q. split; [exact Q|]. rewrite E. reflexivity.
Qed.
(** With a variable n in the job's environment the notebook stops; so it does for a run with the default directory. *)
Example job_date_n : file_date (path_join (job_dir (Some "5") 1 "20240131-120000" ++ "/4711_1706702400.25") "1706702400.3.log") = Raise IndexError.
Proof. vm_compute. reflexivity. Qed.
Example scatter_raises_ex : scatter [(dir1, "1.log", log_of (args_text "499" "2000" "0.04" "False") ["Time: 31.5"])] = Raise KeyError /\
  scatter [(dir1, "1.log", "Experiment arguments:" ++ eol)] = Raise IndexError /\
  scatter [("./logs/debug/1706702400.25", "1.log", log_of (args_text "499" "2000" "0.04" "False") ["Solved: True"; "Time: 31.5"])] = Raise IndexError.
Proof. repeat split; vm_compute; reflexivity. Qed.
Example deployed_ex : exists k, group_of (vars_args (kuka_opts (Fin (1 # 4))) (sampled_options (499, 2000, 0)%Z None 1 "20240131-120000")) k /\ condition_holds "iPRM" k = true.
Proof.
  destruct (kuka_deployed (Fin (1 # 4)) 500 [2000%Z] (499, 2000, 0)%Z "iPRM" None 1 "20240131-120000") as (k & G & C); [repeat constructor; lia|apply (DIncremental 500 [2000%Z]); now left|].
  exists k. split; auto. apply C; cbn; tauto.
Qed.
(** n = min_min, which the scripts never draw, would be drawn under the other name. *)
Example deployed_tight : condition_holds "sPRM" (500 - 1, 500, false)%Z = true.
Proof. reflexivity. Qed.

Lemma args_read f e l a : reads_log f e -> nth_error (content f) 1 = Some l -> literal_eval l = Some a -> e_args e = a.
Proof. intros [(l0 & l1 & rest & C & L) _ _ _ _ _] N A. rewrite C in N. injection N as <-. congruence. Qed.
Lemma time_read f e : reads_log f e -> e_time e = time_of (ll tim (content f)).
Proof.
  intros [_ _ _ _ _ T]. unfold last_says in T. destruct (e_time e) as [v|].
  - destruct T as (x & X & Y). apply (ll_spec _ _ _ _ is_tim) in X. rewrite X. symmetry. exact Y.
  - apply (none_last _ _ _ is_tim) in T. now rewrite T.
Qed.
(** a log of deploy_tamp_adaptive_kuka.py with all its arguments *)
Definition adaptive_text (delta theta : string) : string :=
  repr_dict [("min_samples", "500"); ("max_samples", "30000"); ("factor", "1.1"); ("delta", delta); ("theta_margin", theta); ("collision_buffer", "0.03"); ("seed", "1");
             ("save_dir", "'/home/gridsan/acurtis/runs/prm-1--20240131-120000'"); ("vis", "False"); ("teleport", "False"); ("randomize_delta", "False"); ("num_targets", "5"); ("adaptive_n", "True")].
Definition adaptive_walk : walk :=
  [(dir1, "1.log", log_of (adaptive_text "0.02" "0.098") ["Solved: True"; "Time: 31.5"]); (dir2, "2.log", log_of (adaptive_text "0.04" "0.175") ["Solved: False"; "Time: 7.5"])].
Example adaptive_walk_ex : NoDup (map name_of (log_files adaptive_walk)) /\ (exists gs, scatter adaptive_walk = Ok gs) /\
  forall f e, In f (log_files adaptive_walk) -> reads_log f e -> exists d b th n seed now, e_args e = vars_args (kuka_opts (Fin (1 # 4))) (float_options d b th n seed now).
Proof.
  split; [change (NoDup ["1.log"; "2.log"]); repeat constructor; simpl; intuition discriminate|]. split; [eexists; vm_compute; reflexivity|].
  intros f e I R. change (log_files adaptive_walk) with adaptive_walk in I. destruct I as [<-|[<-|[]]]; (erewrite args_read; [|exact R|vm_compute; reflexivity|vm_compute; reflexivity]).
  - exists (Fin (2 # 100)), (Fin (3 # 100)), (Fin (98 # 1000)), None, 1%Z, "20240131-120000". vm_compute. reflexivity.
  - exists (Fin (4 # 100)), (Fin (3 # 100)), (Fin (175 # 1000)), None, 1%Z, "20240131-120000". vm_compute. reflexivity.
Qed.
(** Logs are told apart by their names only: with equal names in two directories, a point can have the setting of one run and the time of another. *)
Theorem point_of_run_refuted : exists t g s v, scatter t = Ok [(g, ([s], [v]))] /\ forall f e r, In f (log_files t) -> reads_log f e -> run_says e r -> fst (fst r) <> g.
Proof.
  exists [(dir1, "1.log", log_of (args_text "499" "2000" "0.04" "False") ["Solved: False"; "Time: 60.25"]); (dir2, "1.log", log_of (args_text "1999" "2000" "0.04" "False") ["Planning for object:7"])],
    (1999, 2000, false)%Z, false, (Fin (6025 # 100)%Q). split; [vm_compute; reflexivity|]. intros f e r I R S. match type of I with In f (log_files ?t) => change (log_files t) with t in I end. destruct I as [<-|[<-|[]]].
  - pose proof (run_group _ _ S) as G. intro X. rewrite X in G. assert (N : group_of (e_args e) (499, 2000, false)%Z). { erewrite args_read; [|exact R|vm_compute; reflexivity|vm_compute; reflexivity]. repeat split. }
    pose proof (group_unique _ _ _ G N). discriminate.
  - destruct r as [[[[mn mx] ad] s] v]. destruct S as (_ & _ & _ & _ & S). rewrite (time_read _ _ R) in S. vm_compute in S. discriminate.
Qed.
(** The success rate is not over all runs of a setting: those that did not end are left out. *)
Theorem rate_all_runs_refuted : exists t g ss ts, NoDup (map name_of (log_files t)) /\ scatter t = Ok [(g, (ss, ts))] /\ Forall (fun f => exists e, reads_log f e /\ group_of (e_args e) g) (log_files t) /\
  List.length (log_files t) = 2 /\ List.length ss = 1 /\ py (point_of ss ts) = 1%R.
Proof.
  set (t := [(dir1, "1.log", log_of (args_text "499" "2000" "0.04" "False") ["Solved: True"; "Time: 31.5"]); (dir2, "2.log", log_of (args_text "499" "2000" "0.04" "False") ["Planning for object:7"])]).
  assert (ND : NoDup (map name_of (log_files t))) by (change (NoDup ["1.log"; "2.log"]); repeat constructor; simpl; intuition discriminate).
  assert (E : scatter t = Ok [((499, 2000, false)%Z, ([true], [Fin (315 # 10)%Q]))]) by (vm_compute; reflexivity).
  exists t, (499, 2000, false)%Z, [true], [Fin (315 # 10)%Q]. split; [exact ND|]. split; [exact E|]. split; [|split; [reflexivity|split; [reflexivity|unfold point_of, np_mean; cbn; field]]].
  destruct (scatter_exact t _ ND E) as (es & rs & F & _). change (log_files t) with t in *. unfold t in *. inversion F as [|f1 e1 l1 es1 R1 F1]; subst. inversion F1 as [|f2 e2 l2 es2 R2 F2]; subst.
  repeat constructor; [exists e1|exists e2]; (split; [assumption|]); (erewrite args_read; [|eassumption|vm_compute; reflexivity|vm_compute; reflexivity]); repeat split.
Qed.
(** Nor is a point one setting of a run: adaptive runs with different gaps are averaged. *)
Theorem one_setting_refuted : exists t g ss ts f1 f2 e1 e2, NoDup (map name_of (log_files t)) /\ scatter t = Ok [(g, (ss, ts))] /\ log_files t = [f1; f2] /\ List.length ss = 2 /\
  reads_log f1 e1 /\ reads_log f2 e2 /\ dget String.eqb "delta" (e_args e1) <> dget String.eqb "delta" (e_args e2).
Proof.
  set (t := [(dir1, "1.log", log_of (args_text "500" "30000" "0.02" "True") ["Solved: True"; "Time: 31.5"]); (dir2, "2.log", log_of (args_text "500" "30000" "0.04" "True") ["Solved: False"; "Time: 7.5"])]).
  assert (ND : NoDup (map name_of (log_files t))) by (change (NoDup ["1.log"; "2.log"]); repeat constructor; simpl; intuition discriminate).
  assert (E : scatter t = Ok [((500, 30000, true)%Z, ([true; false], [Fin (315 # 10)%Q; Fin (75 # 10)%Q]))]) by (vm_compute; reflexivity).
  destruct (scatter_exact t _ ND E) as (es & rs & F & _). change (log_files t) with t in F. unfold t in F. inversion F as [|f1 e1 l1 es1 R1 F1]; subst. inversion F1 as [|f2 e2 l2 es2 R2 F2]; subst.
  do 6 eexists. exists e1, e2. split; [exact ND|]. split; [exact E|]. split; [reflexivity|]. split; [reflexivity|]. split; [exact R1|]. split; [exact R2|].
  erewrite args_read; [|exact R1|vm_compute; reflexivity|vm_compute; reflexivity]. erewrite args_read; [|exact R2|vm_compute; reflexivity|vm_compute; reflexivity]. vm_compute. discriminate.
Qed.
Print Assumptions literal_eval_repr.
Print Assumptions file_date_index.
Print Assumptions job_date_read.
Print Assumptions scatter_exact.
Print Assumptions scatter_draws.
Print Assumptions scatter_raises.
Print Assumptions conditions_partition.
Print Assumptions figure_exact.
Print Assumptions figure_counts.
Print Assumptions kuka_deployed.
Print Assumptions turtle_deployed.
Print Assumptions adaptive_one_group.
Print Assumptions adaptive_one_point.
Print Assumptions rate_exact.
Print Assumptions std_error_zero.
Print Assumptions point_of_run_refuted.
Print Assumptions rate_all_runs_refuted.
Print Assumptions one_setting_refuted.
