(** C156-C158: submitting, resuming and tuning experiments *)
From Coq Require Import List Bool Arith ZArith Lia String Ascii DecimalString DecimalZ.
From Verif Require Import Sched_Model Deploy_Props Submit_Model.
Import ListNotations.
Open Scope string_scope.

(** ** Specification *)

(** what the shell does with the last line of a script: it is what follows the last line feed, and
    blanks separate its words *)
Fixpoint has_char (c : ascii) (s : string) : bool :=
  match s with "" => false | String d s' => Ascii.eqb c d || has_char c s' end.
Fixpoint last_line (s : string) : string :=
  match s with
  | "" => ""
  | String c s' => if has_char "010" s then if Ascii.eqb "010" c then (if has_char "010" s' then last_line s' else s') else last_line s' else s
  end.
Fixpoint words_from (w s : string) : list string :=
  match s with
  | "" => if String.eqb w "" then [] else [w]
  | String c s' => if Ascii.eqb " " c then (if String.eqb w "" then [] else [w]) ++ words_from "" s' else words_from (w ++ String c "") s'
  end%list.
Definition words (s : string) : list string := words_from "" s.

(** a text that the shell leaves as it is *)
Definition plain (s : string) : Prop := has_char " " s = false /\ has_char "010" s = false.

(** the job of an experiment: trial script, its configuration, and where it saves *)
Definition job (k : kind) (dir : string) : list string :=
  ["python"; "-u";
   match k with Narrow => "run_narrow_passage_clearance_trial.py" | Line => "run_straight_line_optimality_trial.py" | Knn => "run_knn_radius_trial.py" end;
   "$LLSUB_RANK"; "$LLSUB_SIZE"; dir ++ "/config.json"; dir].
(** the script at [path] runs the job *)
Definition runs (st : store) (path : string) (k : kind) (dir : string) : Prop :=
  exists text, files st path = Some (Text text) /\ words (last_line text) = job k dir.
(** the submitted jobs of a run *)
Definition submitted (evs : list event) : list (string * string) :=
  flat_map (fun e => match e with LLsub p t => [(p, t)] | _ => [] end) evs.

(** ** Strings *)
Lemma has_char_app c a b : has_char c (a ++ b) = has_char c a || has_char c b.
Proof. induction a as [|d a IH]; cbn; auto. rewrite IH, orb_assoc. reflexivity. Qed.
Lemma app_nil_s a : a ++ "" = a.
Proof. induction a as [|c a IH]; cbn; congruence. Qed.
Lemma app_assoc_s a b c : (a ++ b) ++ c = a ++ b ++ c.
Proof. induction a as [|d a IH]; cbn; congruence. Qed.
Lemma app_inj_s p a b : p ++ a = p ++ b -> a = b.
Proof. induction p as [|c p IH]; cbn; intros H; auto. injection H. auto. Qed.
Lemma last_line_none s : has_char "010" s = false -> last_line s = s.
Proof. destruct s; cbn [last_line]; intros H; auto. rewrite H. reflexivity. Qed.
Lemma last_line_app a s : has_char "010" s = false -> last_line (a ++ String "010" s) = s.
Proof.
  intros H. induction a as [|c a IH].
  - cbn [append last_line]. cbn [has_char]. cbn [Ascii.eqb Bool.eqb orb]. change (Ascii.eqb "010" "010") with true. cbn [orb]. rewrite H. reflexivity.
  - cbn [append last_line].
    assert (L : has_char "010" (a ++ String "010" s) = true) by (rewrite has_char_app; cbn [has_char]; change (Ascii.eqb "010" "010") with true; cbn; apply orb_true_r).
    cbn [has_char]. rewrite L, orb_true_r. destruct (Ascii.eqb "010" c); exact IH.
Qed.
Lemma words_from_plain w s t : has_char " " s = false -> words_from w (s ++ t) = words_from (w ++ s) t.
Proof.
  revert w. induction s as [|c s IH]; cbn [append has_char]; intros w H; [rewrite app_nil_s; reflexivity|].
  apply orb_false_iff in H as [H1 H2]. cbn [words_from]. rewrite H1, IH by auto. rewrite app_assoc_s. reflexivity.
Qed.
Lemma words_cons s t : has_char " " s = false -> s <> "" -> words (s ++ " " ++ t) = s :: words t.
Proof.
  intros H N. unfold words. rewrite words_from_plain by auto. cbn [append words_from]. change (Ascii.eqb " " " ") with true. cbn iota.
  destruct (String.eqb_spec s ""); [congruence|reflexivity].
Qed.
Lemma words_one s : has_char " " s = false -> s <> "" -> words s = [s].
Proof. intros H N. unfold words. rewrite <- (app_nil_s s), words_from_plain by auto. cbn [append words_from]. destruct (String.eqb_spec s ""); [congruence|rewrite app_nil_s; reflexivity]. Qed.

Lemma plain_app a b : plain a -> plain b -> plain (a ++ b).
Proof. intros [A1 A2] [B1 B2]. split; rewrite has_char_app; [rewrite A1|rewrite A2]; auto. Qed.

(** ** C156 *)
Lemma script_last k dir : plain dir -> dir <> "" ->
  words (last_line (script_text (script_name k) (dir ++ "/config.json") dir)) = job k dir.
Proof.
  intros P N. unfold script_text.
  set (line := "python -u " ++ script_name k ++ " $LLSUB_RANK $LLSUB_SIZE " ++ (dir ++ "/config.json") ++ " " ++ dir).
  assert (E : script_head ++ line = (substring 0 (length script_head - 1) script_head) ++ String "010" line) by reflexivity.
  rewrite E, last_line_app.
  - unfold line. change ("python -u " ++ script_name k ++ " $LLSUB_RANK $LLSUB_SIZE " ++ (dir ++ "/config.json") ++ " " ++ dir)
      with ("python" ++ " " ++ "-u" ++ " " ++ script_name k ++ " " ++ "$LLSUB_RANK" ++ " " ++ "$LLSUB_SIZE" ++ " " ++ (dir ++ "/config.json") ++ " " ++ dir).
    rewrite !words_cons; try reflexivity; try discriminate; try (destruct k; (reflexivity || discriminate)).
    + rewrite words_one by (apply P || auto). destruct k; reflexivity.
    + rewrite has_char_app. rewrite (proj1 P). reflexivity.
    + destruct dir; discriminate.
  - unfold line. rewrite !has_char_app. rewrite (proj2 P). destruct k; reflexivity.
Qed.

Lemma dget_dset k k' v d : dget k (dset k' v d) = if String.eqb k k' then Some v else dget k d.
Proof.
  induction d as [|[k0 w] d IH]; cbn [dset dget].
  - reflexivity.
  - destruct (String.eqb_spec k' k0) as [->|N]; cbn [dget].
    + destruct (String.eqb_spec k k0); reflexivity.
    + rewrite IH. destruct (String.eqb_spec k k0) as [->|]; auto. destruct (String.eqb_spec k0 k'); congruence.
Qed.

Definition taken (name stamp : string) (st : store) : Prop := In (name ++ "_" ++ stamp) (map fst (dirs st)).
Lemma taken_eqb name stamp st : existsb (fun d => String.eqb (fst d) (exp_dir name stamp)) (dirs st) = true <-> taken name stamp st.
Proof.
  unfold taken, exp_dir. rewrite existsb_exists, in_map_iff. split; intros (d & A & B).
  - exists d. apply String.eqb_eq in B. auto.
  - exists d. split; auto. apply String.eqb_eq. auto.
Qed.

(** A run without --resume submits exactly one job, or none: one exactly if the directory is new, can
    be made, and the configuration is an object of JSON or missing. *)
Theorem submit_when k name cfg t stamp time st :
  let '(e, evs, st') := submit (Args k name cfg t false) stamp time st in
  let dir := "./results/" ++ name ++ "_" ++ stamp in
  let accepted := has_results st = true /\ ~ taken name stamp st /\ (files st cfg = None \/ exists d, files st cfg = Some (Json d)) in
  (accepted -> e = Done /\ submitted evs = [(dir ++ "/submit_job.sh", triples_text t)]) /\
  (~ accepted -> e <> Done /\ submitted evs = []).
Proof.
  unfold submit, submit_new. cbn [a_resume a_name a_config a_triples a_kind].
  destruct (existsb (fun d => String.eqb (fst d) (exp_dir name stamp)) (dirs st)) eqn:X.
  - apply taken_eqb in X. split; [intros (_ & N & _); contradiction|]. intros _. split; [discriminate|reflexivity].
  - assert (N : ~ taken name stamp st) by (rewrite <- taken_eqb; congruence).
    destruct (has_results st) eqn:R; cbn [negb].
    + cbn [files]. destruct (files st cfg) as [[d| |s]|] eqn:F.
      * split; [intros _; split; reflexivity|]. intros C. exfalso. apply C. eauto 6.
      * split; [intros (_ & _ & [C|[d C]]); discriminate|]. intros _. split; [discriminate|reflexivity].
      * split; [intros (_ & _ & [C|[d C]]); discriminate|]. intros _. split; [discriminate|reflexivity].
      * split; [intros _; split; reflexivity|]. intros C. exfalso. apply C. auto.
    + split; [intros (C & _); discriminate|]. intros _. split; [discriminate|reflexivity].
Qed.
Print Assumptions submit_when.

(** A job submitted for a name without blanks and a configuration that exists runs the trial script of
    the type with the stored configuration, which is the given one but for its name and triples;
    nothing else changes. *)
Theorem submit_runs k name cfg t stamp time st config : plain name -> plain stamp ->
  has_results st = true -> ~ taken name stamp st -> files st cfg = Some (Json config) ->
  let dir := "./results/" ++ name ++ "_" ++ stamp in
  exists st', submit (Args k name cfg t false) stamp time st = (Done, [Chmod (dir ++ "/submit_job.sh"); LLsub (dir ++ "/submit_job.sh") (triples_text t)], st') /\
    runs st' (dir ++ "/submit_job.sh") k dir /\
    (exists config', files st' (dir ++ "/config.json") = Some (Json config') /\
      dget "name" config' = Some (JStr name) /\ dget "triples" config' = Some (JInts (triple_list t)) /\
      forall key, key <> "name" -> key <> "triples" -> dget key config' = dget key config) /\
    (forall p, p <> dir ++ "/submit_job.sh" -> p <> dir ++ "/config.json" -> files st' p = files st p) /\
    dirs st' = List.app (dirs st) [(name ++ "_" ++ stamp, time)].
Proof.
  intros PN PS R N F dir. unfold submit, submit_new. cbn [a_resume a_name a_config a_triples a_kind].
  destruct (existsb (fun d => String.eqb (fst d) (exp_dir name stamp)) (dirs st)) eqn:X; [apply taken_eqb in X; contradiction|]. rewrite R. cbn [negb files]. rewrite F. cbn [app].
  change (save_path name stamp) with dir. unfold launch.
  assert (PD : plain dir). { unfold dir. repeat (apply plain_app; auto); split; reflexivity. }
  assert (NE : String.eqb (dir ++ "/config.json") (dir ++ "/submit_job.sh") = false).
  { destruct (String.eqb_spec (dir ++ "/config.json") (dir ++ "/submit_job.sh")) as [E|]; auto. apply app_inj_s in E. discriminate. }
  eexists. split; [reflexivity|]. split; [|split; [|split]].
  - eexists. split; [cbn [put files]; rewrite String.eqb_refl; reflexivity|]. apply script_last; auto. discriminate.
  - eexists. split; [cbn [put files]; rewrite NE, String.eqb_refl; reflexivity|]. rewrite !dget_dset. split; [reflexivity|]. split; [reflexivity|].
    intros key K1 K2. rewrite !dget_dset. destruct (String.eqb_spec key "triples"); [congruence|]. destruct (String.eqb_spec key "name"); [congruence|]. reflexivity.
  - intros p P1 P2. cbn [put files]. destruct (String.eqb_spec p (dir ++ "/submit_job.sh")); [congruence|]. destruct (String.eqb_spec p (dir ++ "/config.json")); [congruence|]. reflexivity.
  - reflexivity.
Qed.
Print Assumptions submit_runs.

(** C156 refuted: a job whose configuration does not exist is submitted, ... *)
Theorem missing_config_refuted : exists k name cfg t stamp time st st' dir text,
  files st cfg = None /\
  submit (Args k name cfg t false) stamp time st = (Done, [Print text; Chmod (dir ++ "/submit_job.sh"); LLsub (dir ++ "/submit_job.sh") (triples_text t)], st') /\
  runs st' (dir ++ "/submit_job.sh") k dir /\ files st' (dir ++ "/config.json") = None.
Proof.
  exists Line, "run", "conf.json", (1, 2, 4)%Z, "20240101-120000", 5, (Store true [] (fun _ => None)).
  eexists. exists "./results/run_20240101-120000". eexists. split; [reflexivity|]. split; [reflexivity|]. split; [|reflexivity].
  eexists. split; reflexivity.
Qed.
Print Assumptions missing_config_refuted.

(** ... and one whose name holds a blank gives the trial script other paths. *)
Theorem blank_name_refuted : exists k name cfg t stamp time st config st' evs text,
  files st cfg = Some (Json config) /\ submit (Args k name cfg t false) stamp time st = (Done, evs, st') /\
  let dir := "./results/" ++ name ++ "_" ++ stamp in
  files st' (dir ++ "/submit_job.sh") = Some (Text text) /\
  nth 5 (words (last_line text)) "" = "./results/my" /\ files st' "./results/my" = None.
Proof.
  exists Knn, "my run", "conf.json", (1, 2, 4)%Z, "20240101-120000", 5, (Store true [] (fun p => if String.eqb p "conf.json" then Some (Json []) else None)), [].
  do 3 eexists. split; [reflexivity|]. split; [reflexivity|]. cbn zeta. split; [reflexivity|]. split; reflexivity.
Qed.
Print Assumptions blank_name_refuted.

(** ** C157 *)

(** Resuming never changes a file; it submits at most one job, and does exactly if the configuration
    of the latest directory with the name in front holds three numbers under "triples"; the job is
    that directory's script with these integers. *)
Theorem resume_exact k name cfg t stamp time st :
  let '(e, evs, st') := submit (Args k name cfg t true) stamp time st in
  st' = st /\
  forall p s, submitted evs = [(p, s)] /\ e = Done <->
    exists d a b c x y z config, resume_dir name (dirs st) = Some d /\ files st ("./results/" ++ fst d ++ "/config.json") = Some (Json config) /\
      dget "triples" config = Some (JList [a; b; c]) /\ as_int a = Some x /\ as_int b = Some y /\ as_int c = Some z /\ p = "./results/" ++ fst d ++ "/submit_job.sh" /\ s = triples_text (x, y, z).
Proof.
  unfold submit, submit_resume. cbn [a_resume a_name].
  destruct (resume_dir name (dirs st)) as [d|] eqn:D.
  2: { split; auto. intros p s. split; [intros [H _]; discriminate|]. intros (d & a & b & c & x & y & z & c0 & H & _). discriminate. }
  rewrite !app_assoc_s.
  destruct (files st ("./results/" ++ fst d ++ "/config.json")) as [[config| |txt]|] eqn:F.
  2-4: split; auto; intros p s; split; [intros [H _]; discriminate|intros (d' & a & b & c & x & y & z & c0 & [= <-] & F' & _); rewrite F in F'; discriminate].
  assert (K : forall (evs : list event) (en : ending),
    (forall a b c x y z, dget "triples" config = Some (JList [a; b; c]) -> as_int a = Some x -> as_int b = Some y -> as_int c = Some z -> False) -> en <> Done ->
    st = st /\ forall p s, submitted evs = [(p, s)] /\ en = Done <->
    exists d0 a b c x y z config0, Some d = Some d0 /\ files st ("./results/" ++ fst d0 ++ "/config.json") = Some (Json config0) /\
      dget "triples" config0 = Some (JList [a; b; c]) /\ as_int a = Some x /\ as_int b = Some y /\ as_int c = Some z /\ p = "./results/" ++ fst d0 ++ "/submit_job.sh" /\ s = triples_text (x, y, z)).
  { intros evs en H Ne. split; auto. intros p s. split; [intros [_ E]; contradiction|].
    intros (d' & a & b & c & x & y & z & c0 & [= <-] & F' & G' & A & B & C & _). rewrite F in F'. injection F' as <-. exfalso. eauto. }
  destruct (dget "triples" config) as [[s0|z0|q0|b0| |l|o]|] eqn:G; try (apply K; [intros; discriminate|discriminate]).
  destruct l as [|a [|b [|c [|w l]]]]; try (apply K; [intros; discriminate|discriminate]).
  destruct (as_int a) as [x|] eqn:A, (as_int b) as [y|] eqn:B, (as_int c) as [z|] eqn:C; try (apply K; [intros a' b' c' x' y' z' [= <- <- <-]; congruence|discriminate]).
  split; auto. intros p s. split.
  - intros [H _]. cbn -[append triples_text] in H. injection H as <- <-. exists d, a, b, c, x, y, z, config. auto 10.
  - intros (d' & a' & b' & c' & x' & y' & z' & c0 & [= <-] & F' & G' & A' & B' & C' & -> & ->). rewrite F in F'. injection F' as <-. rewrite G in G'. injection G' as <- <- <-.
    rewrite A in A'. rewrite B in B'. rewrite C in C'. injection A' as <-. injection B' as <-. injection C' as <-. split; reflexivity.
Qed.
Print Assumptions resume_exact.

Lemma prefix_app a b : String.prefix a (a ++ b) = true.
Proof. induction a as [|c a IH]; [destruct b; reflexivity|]. cbn. destruct (ascii_dec c c); congruence. Qed.

(** Submitting and resuming later, when the experiment's files are still there and every directory
    whose name begins like it was changed earlier: the same job is submitted again. *)
Theorem resume_after_submit k name cfg t stamp time st config e evs st1 k' cfg' t' stamp' time' st2 : plain name -> plain stamp ->
  has_results st = true -> ~ taken name stamp st -> files st cfg = Some (Json config) ->
  submit (Args k name cfg t false) stamp time st = (e, evs, st1) ->
  let dir := "./results/" ++ name ++ "_" ++ stamp in
  In (name ++ "_" ++ stamp, time) (dirs st2) ->
  (forall d, In d (dirs st2) -> String.prefix name (fst d) = true -> fst d = name ++ "_" ++ stamp \/ snd d < time) ->
  files st2 (dir ++ "/config.json") = files st1 (dir ++ "/config.json") ->
  files st2 (dir ++ "/submit_job.sh") = files st1 (dir ++ "/submit_job.sh") ->
  exists evs', submit (Args k' name cfg' t' true) stamp' time' st2 = (Done, evs', st2) /\
    submitted evs' = submitted evs /\ runs st2 (dir ++ "/submit_job.sh") k dir.
Proof.
  intros PN PS R N F E dir ID L FC FS.
  destruct (submit_runs k name cfg t stamp time st config PN PS R N F) as (s1 & E1 & RN & (config' & C1 & _ & C2 & _) & _ & _).
  rewrite E in E1. injection E1 as -> -> ->. fold dir in RN, C1.
  pose proof (resume_dir_latest name (dirs st2)) as RL.
  destruct (resume_dir name (dirs st2)) as [d|] eqn:D.
  2: { specialize (RL _ ID). cbn [fst] in RL. rewrite prefix_app in RL. discriminate. }
  destruct RL as (Id & Pd & Md). specialize (Md _ ID). cbn [fst snd] in Md. specialize (Md (prefix_app _ _)).
  destruct (L d Id Pd) as [Ed|Ld]; [|lia].
  unfold submit, submit_resume. cbn [a_resume a_name]. rewrite D, Ed.
  change ("./results/" ++ name ++ "_" ++ stamp) with dir. rewrite FC, C1, C2.
  destruct t as [[x y] z]. cbn [triple_list]. eexists. split; [reflexivity|]. split; [reflexivity|].
  destruct RN as (text & T & W). exists text. rewrite FS. auto.
Qed.
Print Assumptions resume_after_submit.

(** Resuming an experiment whose configuration was missing raises after the job was submitted once. *)
Theorem resume_missing_refuted : exists k name cfg t stamp time st text evs st1,
  submit (Args k name cfg t false) stamp time st = (Done, Print text :: evs, st1) /\ List.length (submitted evs) = 1 /\
  submit (Args k name cfg t true) stamp time st1 = (Raises FileNotFoundError, [], st1).
Proof.
  exists Line, "run", "conf.json", (1, 2, 4)%Z, "20240101-120000", 5, (Store true [] (fun _ => None)).
  do 3 eexists. split; [reflexivity|]. split; reflexivity.
Qed.
Print Assumptions resume_missing_refuted.

(** ** C158 *)

(** the values the tuner knows, and the triple for one of them *)
Definition sizes : list Z := [1; 2; 4; 8; 16; 24; 32; 48]%Z.
Definition triple_of (t : tested) (fill n : Z) : Z * Z * Z := match t with Threads => (1, fill, n) | Nppn => (1, n, fill) end%Z.
Definition cores (t : Z * Z * Z) : Z := let '(a, b, c) := t in (a * b * c)%Z.

Lemma tune_values_spec t n : In n (tune_values t) <-> In n sizes /\ (n * t_fill t <= 48)%Z.
Proof.
  unfold tune_values. rewrite filter_In. replace (match t_tested t with Threads => n_threads_to_test | Nppn => nppns_to_test end) with sizes by (destruct (t_tested t); reflexivity).
  split; intros [A B]; split; auto.
  - apply negb_true_iff, Z.ltb_ge in B. auto.
  - apply negb_true_iff, Z.ltb_ge. auto.
Qed.
Lemma tune_values_nodup t : NoDup (tune_values t).
Proof.
  apply NoDup_filter. replace (match t_tested t with Threads => n_threads_to_test | Nppn => nppns_to_test end) with sizes by (destruct (t_tested t); reflexivity).
  repeat constructor; cbn; intuition discriminate.
Qed.

(** different values give different directories, whatever the time stamps *)
Lemma tune_dirs_differ k t n m s1 s2 : In n sizes -> In m sizes ->
  a_name (tune_args k t n) ++ "_" ++ s1 = a_name (tune_args k t m) ++ "_" ++ s2 -> n = m.
Proof.
  intros In1 In2. unfold tune_args, tune_triple. destruct (t_tested t); cbn [a_name]; unfold tune_name; rewrite !app_assoc_s; intros E;
    repeat (apply app_inj_s in E).
  - cbn [In sizes] in In1, In2. decompose [or] In1; try contradiction; decompose [or] In2; try contradiction; subst; try reflexivity; cbn in E; discriminate.
  - cbn [In sizes] in In1, In2. decompose [or] In1; try contradiction; decompose [or] In2; try contradiction; subst; try reflexivity; cbn in E; discriminate.
Qed.

Lemma plain_show z : plain (show z).
Proof.
  assert (U : forall u, plain (NilEmpty.string_of_uint u)).
  { induction u; cbn; auto; [split; reflexivity|..]; destruct IHu as [A B]; split; cbn; rewrite ?A, ?B; reflexivity. }
  assert (V : forall u, plain (NilZero.string_of_uint u)) by (intros u; destruct u; [split; reflexivity|..]; apply U).
  unfold show, NilZero.string_of_int. destruct (Z.to_int z); [apply V|]. destruct (V d) as [A B]. split; cbn; auto.
Qed.
Lemma plain_name k t n : plain (a_name (tune_args k t n)).
Proof.
  unfold tune_args, tune_triple. destruct (t_tested t); cbn [a_name]; unfold tune_name; repeat apply plain_app; try apply plain_show; destruct k; split; reflexivity.
Qed.

Lemma show_inj x y : show x = show y -> x = y.
Proof.
  unfold show. intros E.
  assert (N : forall z, Z.to_int z <> Decimal.Pos Decimal.Nil /\ Z.to_int z <> Decimal.Neg Decimal.Nil).
  { intros z. split; intros H; pose proof (of_to z) as O; rewrite H in O; cbn in O; subst z; discriminate. }
  pose proof (NilZero.isi (Z.to_int x) (proj1 (N x)) (proj2 (N x))) as A.
  pose proof (NilZero.isi (Z.to_int y) (proj1 (N y)) (proj2 (N y))) as B.
  rewrite E, B in A. injection A as A. symmetry. apply to_int_inj. auto.
Qed.

Lemma show_no c z : (forall d, In d (list_ascii_of_string "-0123456789") -> Ascii.eqb c d = false) -> has_char c (show z) = false.
Proof.
  intros C. assert (U : forall u, has_char c (NilEmpty.string_of_uint u) = false).
  { induction u; cbn [NilEmpty.string_of_uint has_char]; auto; rewrite IHu, orb_false_r; apply C; cbn; tauto. }
  assert (V : forall u, has_char c (NilZero.string_of_uint u) = false).
  { intros u. destruct u; [cbn; rewrite orb_false_r; apply C; cbn; tauto|..]; apply U. }
  unfold show, NilZero.string_of_int. destruct (Z.to_int z); [apply V|]. cbn [has_char]. rewrite V, orb_false_r. apply C; cbn; tauto.
Qed.
Lemma sep_inj c a b x y : has_char c a = false -> has_char c b = false -> a ++ String c x = b ++ String c y -> a = b /\ x = y.
Proof.
  revert b. induction a as [|d a IH]; intros [|e b] A B E; cbn in E.
  - injection E as ->. auto.
  - injection E as <- _. cbn in B. rewrite Ascii.eqb_refl in B. discriminate.
  - injection E as -> _. cbn in A. rewrite Ascii.eqb_refl in A. discriminate.
  - injection E as -> E. cbn in A, B. apply orb_false_iff in A as [_ A]. apply orb_false_iff in B as [_ B]. destruct (IH b A B E). subst. auto.
Qed.
(** the text given to LLsub tells the triple *)
Theorem triples_text_exact t1 t2 : triples_text t1 = triples_text t2 -> t1 = t2.
Proof.
  destruct t1 as [[a b] c], t2 as [[a' b'] c']. unfold triples_text. intros E. apply app_inj_s in E.
  assert (N : forall z, has_char "," (show z) = false) by (intros z; apply show_no; cbn; intuition (subst; reflexivity)).
  assert (M : forall z, has_char "]" (show z) = false) by (intros z; apply show_no; cbn; intuition (subst; reflexivity)).
  apply sep_inj in E as [E1 E]; auto. apply sep_inj in E as [E2 E]; auto. apply sep_inj in E as [E3 _]; auto.
  apply show_inj in E1. apply show_inj in E2. apply show_inj in E3. congruence.
Qed.
Print Assumptions triples_text_exact.

(** the calls of one run, one after the other *)
Lemma calls_ok k t clock st0 config : has_results st0 = true -> files st0 (t_config t) = Some (Json config) ->
  (forall i, plain (fst (clock i))) ->
  forall ns i st, NoDup ns -> (forall n, In n ns -> In n sizes) ->
  has_results st = true -> files st (t_config t) = Some (Json config) ->
  (forall n j, In n ns -> ~ taken (a_name (tune_args k t n)) (fst (clock j)) st) ->
  (forall n j f, In n sizes -> f = "/submit_job.sh" \/ f = "/config.json" -> t_config t <> "./results/" ++ a_name (tune_args k t n) ++ "_" ++ fst (clock j) ++ f) ->
  let '(rs, st') := calls clock i (map (tune_args k t) ns) st in
  List.length rs = List.length ns /\
  (forall j n, nth_error ns j = Some n -> exists stj, nth_error rs j = Some (Done, launch ("./results/" ++ a_name (tune_args k t n) ++ "_" ++ fst (clock (i + j)) ++ "/submit_job.sh") (tune_triple t n), stj)) /\
  (forall j n, nth_error ns j = Some n -> let dir := "./results/" ++ a_name (tune_args k t n) ++ "_" ++ fst (clock (i + j)) in
     runs st' (dir ++ "/submit_job.sh") k dir /\
     exists config', files st' (dir ++ "/config.json") = Some (Json config') /\ dget "triples" config' = Some (JInts (triple_list (tune_triple t n))) /\
       forall key, key <> "name" -> key <> "triples" -> dget key config' = dget key config) /\
  (forall p, (forall n j f, In n ns -> f = "/submit_job.sh" \/ f = "/config.json" -> p <> "./results/" ++ a_name (tune_args k t n) ++ "_" ++ fst (clock j) ++ f) -> files st' p = files st p).
Proof.
  intros _ _ CP. induction ns as [|n ns IH]; intros i st ND SZ R F T D.
  - cbn. split; auto. split; [intros [|j] n; discriminate|]. split; [intros [|j] n; discriminate|]. auto.
  - cbn [map calls].
    assert (A : tune_args k t n = Args k (a_name (tune_args k t n)) (t_config t) (tune_triple t n) false) by (unfold tune_args; destruct (tune_triple t n) as [[? ?] ?]; reflexivity).
    destruct (submit_runs k (a_name (tune_args k t n)) (t_config t) (tune_triple t n) (fst (clock i)) (snd (clock i)) st config (plain_name k t n) (CP i) R (T n i (or_introl eq_refl)) F) as (st1 & E & RN & (c' & C1 & _ & C3 & C4) & U & DD).
    rewrite <- A in E. cbn zeta in *. set (nm := a_name (tune_args k t n)) in *.
    assert (R1 : has_results st1 = true).
    { apply (f_equal snd) in E. cbn [snd] in E. rewrite <- E. unfold submit, submit_new. rewrite A. cbn [a_resume a_name a_config]. fold nm.
      destruct (existsb (fun d => String.eqb (fst d) (exp_dir nm (fst (clock i)))) (dirs st)); [exact R|]. rewrite R. cbn [negb files]. rewrite F. reflexivity. }
    assert (F1 : files st1 (t_config t) = Some (Json config)).
    { rewrite U; auto; rewrite !app_assoc_s; apply D; auto; apply SZ; left; reflexivity. }
    inversion ND as [|? ? NI ND']; subst.
    specialize (IH (S i) st1 ND' (fun m H => SZ m (or_intror H)) R1 F1).
    assert (T1 : forall m j, In m ns -> ~ taken (a_name (tune_args k t m)) (fst (clock j)) st1).
    { intros m j Hm H. unfold taken in H. rewrite DD, map_app, in_app_iff in H. destruct H as [H|[H|[]]]; [apply (T m j (or_intror Hm) H)|].
      cbn [fst] in H. apply tune_dirs_differ in H; [subst; contradiction|apply SZ; left; reflexivity|apply SZ; right; auto]. }
    specialize (IH T1 D). rewrite E. cbn [snd].
    destruct (calls clock (S i) (map (tune_args k t) ns) st1) as [rs st'] eqn:CE.
    destruct IH as (L & ER & RR & UU).
    split; [cbn; congruence|]. split; [|split].
    + intros [|j] m; cbn [nth_error]; intros H.
      * injection H as <-. rewrite Nat.add_0_r. eexists. unfold launch. fold nm. rewrite !app_assoc_s. reflexivity.
      * replace (i + S j) with (S i + j) by lia. apply ER. auto.
    + intros [|j] m; cbn [nth_error]; intros H.
      * injection H as <-. rewrite Nat.add_0_r. cbn zeta. fold nm.
        assert (K : forall f, f = "/submit_job.sh" \/ f = "/config.json" -> files st' (("./results/" ++ nm ++ "_" ++ fst (clock i)) ++ f) = files st1 (("./results/" ++ nm ++ "_" ++ fst (clock i)) ++ f)).
        { intros f Hf. apply UU. intros m j g Hm Hg Q. rewrite !app_assoc_s in Q. apply app_inj_s in Q. apply tune_dirs_differ in Q; [subst; contradiction|apply SZ; left; reflexivity|apply SZ; right; auto]. }
        split.
        -- destruct RN as (text & T0 & W). exists text. rewrite K by auto. auto.
        -- exists c'. rewrite K by auto. auto.
      * replace (i + S j) with (S i + j) by lia. apply RR. auto.
    + intros p Hp. rewrite UU by (intros; apply Hp; auto; right; auto). apply U; rewrite !app_assoc_s; apply Hp; auto; left; reflexivity.
Qed.

(** A tuning run with a type and an existing configuration submits, in order, exactly the triples of
    one node with the given value and a tested one whose product is at most 48, each in its own
    directory with its own configuration. *)
Theorem tune_exact t k clock st config : t_kind t = Some k -> has_results st = true -> files st (t_config t) = Some (Json config) ->
  (forall i, plain (fst (clock i))) ->
  (forall n j, In n sizes -> ~ taken (a_name (tune_args k t n)) (fst (clock j)) st) ->
  (forall n j f, In n sizes -> f = "/submit_job.sh" \/ f = "/config.json" -> t_config t <> "./results/" ++ a_name (tune_args k t n) ++ "_" ++ fst (clock j) ++ f) ->
  exists ns rs st', tune t clock st = (Done, rs, st') /\ NoDup ns /\ (forall n, In n ns <-> In n sizes /\ (cores (triple_of (t_tested t) (t_fill t) n) <= 48)%Z) /\
    List.length rs = List.length ns /\
    (exists dir, (forall i j n m, nth_error ns i = Some n -> nth_error ns j = Some m -> dir i = dir j -> i = j) /\
      forall j n, nth_error ns j = Some n ->
      (exists e evs stj, nth_error rs j = Some (e, evs, stj) /\ e = Done /\ submitted evs = [(dir j ++ "/submit_job.sh", triples_text (triple_of (t_tested t) (t_fill t) n))]) /\
      runs st' (dir j ++ "/submit_job.sh") k (dir j) /\
      exists config', files st' (dir j ++ "/config.json") = Some (Json config') /\ dget "triples" config' = Some (JInts (triple_list (triple_of (t_tested t) (t_fill t) n))) /\
       forall key, key <> "name" -> key <> "triples" -> dget key config' = dget key config).
Proof.
  intros K R F CP T D.
  pose proof (calls_ok k t clock st config R F CP (tune_values t) 0 st (tune_values_nodup t) (fun n H => proj1 (proj1 (tune_values_spec t n) H)) R F
    (fun n j H => T n j (proj1 (proj1 (tune_values_spec t n) H))) D) as C.
  destruct (calls clock 0 (map (tune_args k t) (tune_values t)) st) as [rs st'] eqn:CE. destruct C as (L & ER & RR & _).
  exists (tune_values t), rs, st'. split; [|split; [apply tune_values_nodup|split; [|split; auto]]].
  - unfold tune. rewrite K. destruct (tune_values t) as [|n ns] eqn:V; [cbn in CE; injection CE as <- <-; reflexivity|]. rewrite CE. reflexivity.
  - intros n. rewrite tune_values_spec. unfold triple_of, cores. destruct (t_tested t); split; intros [A B]; split; auto; lia.
  - exists (fun j => "./results/" ++ match nth_error (tune_values t) j with Some n => a_name (tune_args k t n) | None => "" end ++ "_" ++ fst (clock j)). split.
    + intros i j n m Hi Hj Q. rewrite Hi, Hj in Q. apply app_inj_s in Q.
      apply tune_dirs_differ in Q; try (apply (tune_values_spec t); eapply nth_error_In; eauto). subst m.
      apply (proj1 (NoDup_nth_error (tune_values t)) (tune_values_nodup t)); [apply nth_error_Some; congruence|congruence].
    + intros j n Hj. rewrite Hj. specialize (ER j n Hj). specialize (RR j n Hj). cbn [Nat.add] in ER, RR. cbn zeta in RR.
      assert (TT : tune_triple t n = triple_of (t_tested t) (t_fill t) n) by reflexivity. rewrite TT in ER, RR.
      destruct ER as (stj & ER). destruct RR as [RA RB]. split; [|split; auto].
      do 3 eexists. split; [exact ER|]. split; auto. unfold launch. cbn [submitted flat_map app]. rewrite !app_assoc_s. reflexivity.
Qed.
Print Assumptions tune_exact.

(** Without --type the first call raises, unless no triple fits. *)
Theorem tune_no_type t clock st : t_kind t = None ->
  tune t clock st = (if (t_fill t <=? 48)%Z then Raises TypeError else Done, [], st).
Proof.
  intros K. unfold tune. rewrite K. destruct (Z.leb_spec (t_fill t) 48) as [L|G].
  - assert (H : In 1%Z (tune_values t)) by (apply tune_values_spec; split; [left; reflexivity|lia]). destruct (tune_values t); [destruct H|reflexivity].
  - destruct (tune_values t) as [|n l] eqn:V; [reflexivity|]. exfalso. assert (H : In n (tune_values t)) by (rewrite V; left; reflexivity).
    apply tune_values_spec in H as [S H]. cbn [In sizes] in S. lia.
Qed.
Print Assumptions tune_no_type.

(** C158 refuted: a value that is not positive is accepted, and triples without a process or thread are
    submitted, ... *)
Theorem tune_positive_refuted : exists t k clock st rs st' e evs p x y z, t_kind t = Some k /\ tune t clock st = (Done, rs, st') /\
  In (e, evs, st') rs /\ submitted evs = [(p, triples_text (x, y, z))] /\ (y < 0)%Z.
Proof.
  exists (TArgs (Some Line) "c" Threads (-2)), Line, (fun _ => ("s", 0)), (Store true [] (fun p => if String.eqb p "c" then Some (Json []) else None)).
  do 5 eexists. exists 1%Z, (-2)%Z, 48%Z. split; [reflexivity|]. split; [reflexivity|]. split; [do 7 right; left; reflexivity|]. split; [reflexivity|lia].
Qed.
Print Assumptions tune_positive_refuted.

(** ... and after a run the first experiment cannot be resumed: its name begins that of a later one. *)
Theorem tune_resume_refuted : exists t k clock st rs st' evs p n, t_kind t = Some k /\ (forall i, plain (fst (clock i))) /\
  (forall i j, (i < j)%nat -> (snd (clock i) < snd (clock j))%nat) /\
  tune t clock st = (Done, rs, st') /\ In n (tune_values t) /\
  submit (Args k (a_name (tune_args k t n)) "" (0, 0, 0)%Z true) "" 0 st' = (Done, evs, st') /\
  exists m, m <> n /\ submitted evs = [(p, triples_text (tune_triple t m))].
Proof.
  exists (TArgs (Some Line) "c" Threads 1), Line, (fun i => ("s", i)), (Store true [] (fun p => if String.eqb p "c" then Some (Json []) else None)).
  do 4 eexists. exists 1%Z. split; [reflexivity|]. split; [split; reflexivity|]. split; [auto|]. split; [vm_compute; reflexivity|]. split; [left; reflexivity|]. split; [vm_compute; reflexivity|].
  exists 16%Z. split; [discriminate|reflexivity].
Qed.
Print Assumptions tune_resume_refuted.

(** ** Examples *)
Definition demo_store : store := Store true [("old_20230101-000000", 1)] (fun p => if String.eqb p "config/line.json" then Some (Json [("n_trials", JInt 48)]) else None).
Example submit_example : exists st', submit (Args Line "line" "config/line.json" (1, 4, 12)%Z false) "20240101-120000" 7 demo_store =
  (Done, [Chmod "./results/line_20240101-120000/submit_job.sh"; LLsub "./results/line_20240101-120000/submit_job.sh" "[1,4,12]"], st') /\
  dirs st' = [("old_20230101-000000", 1); ("line_20240101-120000", 7)].
Proof.
  destruct (submit_runs Line "line" "config/line.json" (1, 4, 12)%Z "20240101-120000" 7 demo_store [("n_trials", JInt 48)]) as (st' & E & _ & _ & _ & D);
    try (split; reflexivity); try reflexivity.
  - intros [H|[]]. discriminate.
  - exists st'. split; [exact E|exact D].
Qed.
Example tune_example : exists rs st', tune (TArgs (Some Line) "config/line.json" Nppn 12) (fun i => ("20240101-120000", i)) demo_store = (Done, rs, st') /\
  List.concat (map (fun r => map snd (submitted (snd (fst r)))) rs) = ["[1,1,12]"; "[1,2,12]"; "[1,4,12]"].
Proof. do 2 eexists. split; reflexivity. Qed.
