(** Property C160: what a deployed job runs. *)
From Coq Require Import List Bool Arith ZArith QArith String Ascii Lia Decimal DecimalString DecimalZ DecimalPos DecimalN.
From Verif Require Import Log_Model Log_Props Sched_Model Submit_Model Submit_Props Job_Model Job_Props Main_Model Main_Props Shell_Model.
Import ListNotations.
Close Scope Q_scope.
Open Scope string_scope.

(** ** Specification *)
(** the value every option has: the one listed for it, otherwise its default *)
Definition wanted (l : list (string * value)) (o : opt) : value :=
  match find (fun x => String.eqb (fst x) (flag o)) l with Some x => snd x | None => default o end.
Definition reads (opts : list opt) (argv : list string) (l : list (string * value)) : Prop :=
  exists ns, parse_args opts argv = Args ns /\ forall o, In o opts -> get_arg (flag o) ns = Some (wanted l o).
Fixpoint no_equals (s : string) : Prop := match s with "" => True | String c r => c <> "="%char /\ no_equals r end.

(** ** Options written --name=text *)
Definition joined (x : given) : string := match x with Give o s => flag o ++ "=" ++ s | Switch o => flag o end.
Definition jtoken (x : given) : token := match x with Give o s => TOpt o (Some s) | Switch o => TOpt o None end.
Definition joined_ok (opts : list opt) (x : given) : Prop := In (gopt x) opts /\ gvalue x <> None /\
  match x with Give o s => True | Switch o => okind o = KFlag end.

Lemma split_joined a s : no_equals a -> split_equals (a ++ "=" ++ s) = Some (a, s).
Proof.
  induction a as [|c a IH]; intros N; [reflexivity|]. destruct N as [C N]. cbn [append split_equals]. destruct (Ascii.eqb_spec c "="); [contradiction|].
  change (a ++ String "=" s) with (a ++ "=" ++ s). now rewrite IH.
Qed.
Lemma joined_differs a b s : no_equals b -> a ++ "=" ++ s <> b.
Proof.
  revert b. induction a as [|c a IH]; intros b N E.
  - cbn in E. subst b. destruct N as [C _]. congruence.
  - destruct b as [|d b]; [discriminate|]. cbn [append] in E. injection E as -> E. destruct N as [_ N]. exact (IH b N E).
Qed.
Lemma classify_joined opts x : opts_ok opts -> (forall o, In o opts -> no_equals (flag o)) -> joined_ok opts x -> classify opts (joined x) = Some (jtoken x).
Proof.
  intros O F (I & V & K). destruct x as [o s|o]; cbn [joined jtoken gopt] in *; [|now apply classify_flag].
  destruct O as [N P]. destruct (P o I) as [H D]. pose proof (F o I) as NE. destruct (prefix_dash _ D) as (r & E).
  assert (X : find (fun p => String.eqb (flag p) (flag o ++ "=" ++ s)) (help_opt :: opts) = None).
  { apply find_nothing. intros p Ip. apply String.eqb_neq. intro Q. symmetry in Q. revert Q. apply joined_differs. destruct Ip as [<-|Ip]; [cbn; repeat split; discriminate|auto]. }
  assert (Y : find (fun p => String.eqb (flag p) (flag o)) (help_opt :: opts) = Some o).
  { cbn [find]. change (flag help_opt) with "--help". destruct (String.eqb_spec "--help" (flag o)); [congruence|]. now apply find_flag. }
  pose proof (split_joined (flag o) s NE) as Z.
  unfold classify. cbv zeta. rewrite X, Z, Y. rewrite E at 1. cbn [append].
  change (Ascii.eqb "-" "-") with true. cbn [negb]. rewrite E at 1. cbn [append]. change (String.eqb (String "-" (r ++ String "=" s)) "") with false. cbn iota.
  destruct (String.eqb_spec (flag o ++ String "=" s) "-h") as [Q|]; [rewrite E in Q; discriminate|].
  unfold as_token. destruct (String.eqb_spec (flag o) "--help"); [contradiction|reflexivity].
Qed.
(** Options written with an equals sign: any order and number, any text after the sign. *)
Theorem options_joined opts l : opts_ok opts -> (forall o, In o opts -> no_equals (flag o)) -> Forall (joined_ok opts) l ->
  exists ns, parse_args opts (map joined l) = Args ns /\ forall o, In o opts -> get_arg (flag o) ns = final_value l o.
Proof.
  intros O N F. exists (fold_left store l (map (fun o => (flag o, default o)) opts)). split.
  - unfold parse_args.
    assert (C : classify_all opts (map joined l) = Some (map jtoken l)).
    { induction F as [|x l K F IH]; [reflexivity|]. cbn [map classify_all]. now rewrite classify_joined, IH. }
    rewrite C. generalize (map (fun o => (flag o, default o)) opts). clear C. induction F as [|x l (I & V & K) F IH]; intros ns; [reflexivity|].
    cbn [map fold_left]. destruct x as [o s|o]; cbn [jtoken scan].
    + unfold store at 2. cbn [gvalue gopt] in *. destruct (convert (okind o) s); [apply IH|congruence].
    + rewrite K. unfold store at 2. cbn [gvalue gopt]. apply IH.
  - intros o I. rewrite get_store; [|intros x Ix; rewrite Forall_forall in F; now apply F]. now rewrite get_default by (auto; apply O).
Qed.
Print Assumptions options_joined.

(** ** Numbers as text *)
Lemma show_neg p : show (Zneg p) = String "-" (show (Zpos p)).
Proof. reflexivity. Qed.
Lemma show_pos_uint p : exists d, show (Zpos p) = NilEmpty.string_of_uint d /\ d <> Decimal.Nil /\ Z.of_N (Pos.of_uint d) = Zpos p.
Proof. pose proof (show_digits (Pos.to_nat p)) as H. rewrite positive_nat_Z in H. exact H. Qed.
Lemma digits_show p : exists k, digits (show (Zpos p)) = Some (Zpos p, k, "").
Proof.
  destruct (show_pos_uint p) as (d & -> & N & V). exists (Decimal.nb_digits d). rewrite <- V. destruct d; [congruence|..]; cbn [NilEmpty.string_of_uint digits];
    (match goal with |- context [digit ?c] => let v := eval compute in (digit c) in change (digit c) with v end); cbn iota beta; rewrite ?more_show0, ?more_show; reflexivity.
Qed.
Lemma strip_dash d : d <> Decimal.Nil -> strip (String "-" (NilEmpty.string_of_uint d)) = String "-" (NilEmpty.string_of_uint d).
Proof.
  intros N. unfold strip. cbn [lstrip]. change (is_space "-") with false. cbn iota.
  assert (R : rstrip (NilEmpty.string_of_uint d) = NilEmpty.string_of_uint d).
  { clear N. induction d; cbn [NilEmpty.string_of_uint rstrip]; auto; rewrite IHd; destruct (NilEmpty.string_of_uint d); reflexivity. }
  cbn [rstrip]. rewrite R. destruct (NilEmpty.string_of_uint d) eqn:E; [destruct d; discriminate || congruence|reflexivity].
Qed.
Lemma sign_show z : sign (strip (show z)) = ((z <? 0)%Z, show (Z.abs z)).
Proof.
  destruct z as [|p|p]; [reflexivity|..].
  - destruct (show_pos_uint p) as (d & E & N & _). cbn [Z.abs]. rewrite E, strip_digits. destruct d; [congruence|reflexivity..].
  - rewrite show_neg. destruct (show_pos_uint p) as (d & E & N & _). cbn [Z.abs]. rewrite E, strip_dash by auto. reflexivity.
Qed.
Lemma digits_show_abs z : exists k, digits (show (Z.abs z)) = Some (Z.abs z, k, "").
Proof. destruct z; [exists 1%nat; reflexivity|apply digits_show..]. Qed.
(** a number that was printed is read back *)
Lemma int_shown z : py_int (show z) = Some z.
Proof.
  unfold py_int. rewrite sign_show. destruct (digits_show_abs z) as [k ->]. unfold neg. destruct (Z.ltb_spec z 0); f_equal; lia.
Qed.
(** the text given to LLsub (submit_and_run_experiment_job.py 110): three numerals between brackets, parted by
    commas, which are read as the three numbers in their order *)
Theorem triples_text_read a b c : exists s1 s2 s3, triples_text (a, b, c) = "[" ++ s1 ++ "," ++ s2 ++ "," ++ s3 ++ "]" /\
  py_int s1 = Some a /\ py_int s2 = Some b /\ py_int s3 = Some c /\
  forall s d, In s [s1; s2; s3] -> In d ["["; ","; "]"; " "]%char -> has_char d s = false.
Proof.
  exists (show a), (show b), (show c). repeat (split; [reflexivity || apply int_shown|]). intros s d S D.
  assert (N : forall z, has_char d (show z) = false).
  { intros z. apply show_no. cbn in D. destruct D as [<-|[<-|[<-|[<-|[]]]]]; cbn; intuition (subst; reflexivity). }
  cbn [In] in S. destruct S as [<-|[<-|[<-|[]]]]; apply N.
Qed.
Print Assumptions triples_text_read.
Example triples_text_case : triples_text (4, 12, -1)%Z = "[4,12,-1]". Proof. reflexivity. Qed.
Lemma show_all_digits n : (0 <= n)%Z -> all_digits (show n) = true /\ show n <> "".
Proof.
  intros H. destruct n as [|p|p]; [split; [reflexivity|discriminate]|..|lia].
  destruct (show_pos_uint p) as (d & -> & N & _). split; [|destruct d; discriminate || congruence]. clear N.
  induction d; cbn [NilEmpty.string_of_uint all_digits]; auto.
Qed.
Lemma natural_shown n : (0 <= n)%Z -> natural (show n) = Some n.
Proof.
  intros H. destruct (show_all_digits n H) as [A N]. unfold natural. rewrite A. destruct (String.eqb_spec (show n) ""); [contradiction|]. cbn [negb andb]. apply int_shown.
Qed.
Lemma eq_test_shown z v : (- 2 ^ 63 <= v < 2 ^ 63)%Z -> eq_test (show z) v = (z =? v)%Z.
Proof.
  intros H. unfold eq_test, test_number. rewrite sign_show, natural_shown by lia.
  assert (E : neg (z <? 0)%Z (Z.abs z) = z) by (unfold neg; destruct (Z.ltb_spec z 0); lia). cbv zeta. rewrite E.
  destruct (_ && _)%bool eqn:B; auto. symmetry. apply Z.eqb_neq. intros ->. apply andb_false_iff in B as [B|B]; [apply Z.leb_gt in B|apply Z.ltb_ge in B]; lia.
Qed.
Lemma show_no_blank z : has_char " " (show z) = false.
Proof. apply show_no. cbn. intuition (subst; reflexivity). Qed.
Lemma show_not_empty z : show z <> "".
Proof.
  destruct z as [|p|p]; [discriminate| |rewrite show_neg; discriminate]. apply show_all_digits. lia.
Qed.

(** ** The submission *)
Lemma split_word w : has_char " " w = false -> forall cur r, cur ++ w <> "" -> split_blanks cur (w ++ " " ++ r) = (cur ++ w) :: split_blanks "" r.
Proof.
  induction w as [|c w IH]; intros H cur r N.
  - rewrite app_nil_s in *. cbn [append split_blanks]. change (Ascii.eqb " " " ") with true. cbn iota. destruct (String.eqb_spec cur ""); [contradiction|reflexivity].
  - cbn [has_char] in H. apply orb_false_iff in H as [C H]. rewrite Ascii.eqb_sym in C. cbn [append split_blanks]. rewrite C.
    change (w ++ String " " r) with (w ++ " " ++ r). rewrite IH; auto; [|destruct cur; discriminate]. f_equal. rewrite app_assoc_s. reflexivity.
Qed.
Lemma split_last w : has_char " " w = false -> forall cur, cur ++ w <> "" -> split_blanks cur w = [cur ++ w].
Proof.
  induction w as [|c w IH]; intros H cur N.
  - rewrite app_nil_s in *. cbn [split_blanks]. destruct (String.eqb_spec cur ""); [contradiction|reflexivity].
  - cbn [has_char] in H. apply orb_false_iff in H as [C H]. rewrite Ascii.eqb_sym in C. cbn [split_blanks]. rewrite C.
    rewrite IH; auto; [|destruct cur; discriminate]. f_equal. rewrite app_assoc_s. reflexivity.
Qed.
(** a word for the shell *)
Definition word (s : string) : Prop := s <> "" /\ has_char " " s = false.
Lemma sbatch_line arr script ids a b c : word arr -> word script -> word a -> word b -> word c -> array_range arr = Some ids ->
  sbatch ("sbatch " ++ arr ++ " " ++ script ++ " " ++ a ++ " " ++ b ++ " " ++ c) = Some (ids, script, [a; b; c]).
Proof.
  intros [Na A] [Ns S] [N1 W1] [N2 W2] [N3 W3] E. unfold sbatch. change ("sbatch " ++ arr ++ " " ++ script ++ " " ++ a ++ " " ++ b ++ " " ++ c) with ("sbatch" ++ " " ++ arr ++ " " ++ script ++ " " ++ a ++ " " ++ b ++ " " ++ c).
  rewrite split_word by (reflexivity || discriminate). cbn [append].
  change (arr ++ String " " (script ++ String " " (a ++ String " " (b ++ String " " c)))) with (arr ++ " " ++ (script ++ " " ++ (a ++ " " ++ (b ++ " " ++ c)))).
  rewrite !split_word, split_last; auto. cbn [append]. change (String.eqb "sbatch" "sbatch") with true. cbn iota. now rewrite E.
Qed.
Lemma word_show z : word (show z).
Proof. split; [apply show_not_empty|apply show_no_blank]. Qed.
Lemma turtle_submission mi ma ad : sbatch (turtle_line (mi, ma, ad)) = Some (map Z.of_nat (seq 1 50), "deploy_experiments.sh", [show mi; show ma; show ad]).
Proof.
  unfold turtle_line. change ("sbatch --array=1-" ++ show 50 ++ " deploy_experiments.sh " ++ show mi ++ " " ++ show ma ++ " " ++ show ad)
    with ("sbatch " ++ "--array=1-50" ++ " " ++ "deploy_experiments.sh" ++ " " ++ show mi ++ " " ++ show ma ++ " " ++ show ad).
  apply sbatch_line; try apply word_show; try (split; [discriminate|reflexivity]). vm_compute. reflexivity.
Qed.
Lemma kuka_submission mi ma ad : sbatch (kuka_line (mi, ma, ad)) = Some ([1%Z], "deploy_experiments_kuka.sh", [show mi; show ma; show ad]).
Proof.
  unfold kuka_line. change ("sbatch --array=1-1 deploy_experiments_kuka.sh " ++ show mi ++ " " ++ show ma ++ " " ++ show ad)
    with ("sbatch " ++ "--array=1-1" ++ " " ++ "deploy_experiments_kuka.sh" ++ " " ++ show mi ++ " " ++ show ma ++ " " ++ show ad).
  apply sbatch_line; try apply word_show; try (split; [discriminate|reflexivity]). vm_compute. reflexivity.
Qed.
Lemma adaptive_submission d b t : word d -> word b -> word t -> sbatch (adaptive_line (d, b, t)) = Some ([1%Z], "deploy_experiments_kuka_adaptive.sh", [d; b; t]).
Proof.
  intros D B T. unfold adaptive_line. change ("sbatch --array=1-1 deploy_experiments_kuka_adaptive.sh " ++ d ++ " " ++ b ++ " " ++ t)
    with ("sbatch " ++ "--array=1-1" ++ " " ++ "deploy_experiments_kuka_adaptive.sh" ++ " " ++ d ++ " " ++ b ++ " " ++ t).
  apply sbatch_line; auto; try (split; [discriminate|reflexivity]).
Qed.

(** ** The loop of the job scripts *)
Lemma loop_from id run n : forall a, fst (for_in (fun seed => for_in (fun algorithm i => (if (i =? id + 0)%Z then run seed algorithm else [] : list command, (i + 1)%Z)) ["prm"]) (map Z.of_nat (seq a n)) (Z.of_nat a)) =
  if ((Z.of_nat a <=? id) && (id <? Z.of_nat (a + n)))%Z then run id "prm" else [].
Proof.
  induction n as [|n IH]; intros a.
  - cbn [seq map for_in fst]. rewrite Nat.add_0_r. destruct (Z.leb_spec (Z.of_nat a) id), (Z.ltb_spec id (Z.of_nat a)); auto; lia.
  - cbn [seq map for_in]. replace (Z.of_nat a + 1)%Z with (Z.of_nat (S a)) by lia. specialize (IH (S a)). cbn [for_in] in IH.
    match type of IH with fst ?x = _ => destruct x as [cs i2] end. cbn [fst] in *. rewrite !app_nil_r. subst cs.
    rewrite Z.add_0_r. destruct (Z.eqb_spec (Z.of_nat a) id) as [<-|Ne].
    + replace (Z.of_nat (S a) <=? Z.of_nat a)%Z with false by (symmetry; apply Z.leb_gt; lia). cbn [andb].
      replace (Z.of_nat a <=? Z.of_nat a)%Z with true by (symmetry; apply Z.leb_le; lia). replace (Z.of_nat a <? Z.of_nat (a + S n))%Z with true by (symmetry; apply Z.ltb_lt; lia).
      cbn [andb]. now rewrite app_nil_r.
    + cbn [app]. replace (a + S n)%nat with (S a + n)%nat by lia.
      replace (Z.of_nat (S a) <=? id)%Z with (Z.of_nat a <=? id)%Z; auto. destruct (Z.leb_spec (Z.of_nat a) id), (Z.leb_spec (Z.of_nat (S a)) id); auto; lia.
Qed.
(** a task runs the body with its own number as seed, if that is 1 .. 200, and nothing otherwise *)
Lemma job_loop_exact j run : job_loop j run = match task_id j with Some t => if ((1 <=? t) && (t <=? 200))%Z then run t "prm" else [] | None => [] end.
Proof.
  unfold job_loop. pose proof (loop_from (match task_id j with Some t => t | None => 0%Z end) run 200 1) as H. etransitivity; [exact H|]. clear H. change (Z.of_nat 1) with 1%Z.
  destruct (task_id j) as [t|]; [|reflexivity]. change (Z.of_nat (1 + 200)) with 201%Z.
  destruct (Z.leb_spec 1 t), (Z.ltb_spec t 201), (Z.leb_spec t 200); cbn [andb]; auto; lia.
Qed.

(** ** What a deployed job runs *)
Definition directory (n : option string) (seed : Z) (now : string) : string :=
  "/home/gridsan/acurtis/runs/prm-" ++ show seed ++ "-" ++ var n ++ "-" ++ now.
(** the options a job gives for the arg set (min, max, adaptive) *)
Definition sampled_options (a : Z * Z * Z) (n : option string) (seed : Z) (now : string) : list (string * value) :=
  let '(mi, ma, ad) := a in
  ([("--seed", VInt seed); ("--save-dir", VStr (directory n seed now))] ++
   (if (ad =? 0)%Z then [("--min-samples", VInt mi); ("--max-samples", VInt ma)] else [("--adaptive-n", VBool true)]))%list.
Definition float_options (d b th : pyfloat) (n : option string) (seed : Z) (now : string) : list (string * value) :=
  [("--seed", VInt seed); ("--save-dir", VStr (directory n seed now)); ("--delta", VFloat d); ("--collision-buffer", VFloat b); ("--theta-margin", VFloat th); ("--adaptive-n", VBool true)].

(** a list of given options read as a list of values *)
Lemma reads_given opts l v : opts_ok opts -> (forall o, In o opts -> no_equals (flag o)) -> Forall (joined_ok opts) l ->
  NoDup (map (fun x => flag (gopt x)) l) -> Forall2 (fun x y => flag (gopt x) = fst y /\ gvalue x = Some (snd y)) l v -> reads opts (map joined l) v.
Proof.
  intros O N F D E. destruct (options_joined opts l O N F) as (ns & P & G). exists ns. split; [exact P|]. intros o I. rewrite (G o I). unfold final_value, wanted.
  assert (A : forall acc, fold_left (fun acc x => if String.eqb (flag (gopt x)) (flag o) then gvalue x else acc) l acc =
    match find (fun x => String.eqb (fst x) (flag o)) v with Some x => Some (snd x) | None => acc end).
  { clear F P G. revert D. induction E as [|x y l v [E1 E2] E IH]; intros D acc; [reflexivity|]. cbn [map] in D. apply NoDup_cons_iff in D as [D1 D2].
    cbn [fold_left find]. rewrite IH by auto. rewrite <- E1. destruct (String.eqb_spec (flag (gopt x)) (flag o)) as [Q|]; [|reflexivity].
    rewrite E2. destruct (find _ v) as [z|] eqn:Z; [|reflexivity]. exfalso. apply find_some in Z as [Iz Z]. apply String.eqb_eq in Z. apply D1. rewrite Q, <- Z.
    clear - E Iz. induction E as [|x y l v [E1 _] E IH]; [destruct Iz|]. cbn [map]. destruct Iz as [<-|Iz]; [left; auto|right; auto]. }
  rewrite A. destruct (find _ v); reflexivity.
Qed.
Lemma turtle_no_equals extra : (forall o, In o extra -> no_equals (flag o)) -> forall o, In o (turtle_opts extra) -> no_equals (flag o).
Proof.
  intros E o I. apply in_app_or in I as [I|I]; auto. cbn [In] in I. decompose [or] I; try contradiction; subst; cbn; repeat split; discriminate.
Qed.
Lemma kuka_no_equals t o : In o (kuka_opts t) -> no_equals (flag o).
Proof. intros I. cbn [kuka_opts In] in I. decompose [or] I; try contradiction; subst; cbn; repeat split; discriminate. Qed.

(** the options both scripts have *)
Definition seed_opt := mkOpt "--seed" KInt (VInt (-1)).
Definition dir_opt := mkOpt "--save-dir" KStr (VStr "./logs/debug").
Definition adaptive_opt := mkOpt "--adaptive-n" KFlag (VBool false).
Lemma sampled_reads prog opts dmin dmax mi ma ad n t now :
  opts_ok opts -> (forall o, In o opts -> no_equals (flag o)) ->
  In seed_opt opts -> In dir_opt opts -> In adaptive_opt opts -> In (mkOpt "--min-samples" KInt dmin) opts -> In (mkOpt "--max-samples" KInt dmax) opts ->
  (ad = 0 \/ ad = 1)%Z ->
  exists argv, sampled_run prog (mkTask (Some t) [show mi; show ma; show ad] n now) t "prm" = [(prog, argv)] /\ reads opts argv (sampled_options (mi, ma, ad) n t now).
Proof.
  intros O N Is Id Ia Im IM A. unfold sampled_run. change (param (mkTask (Some t) [show mi; show ma; show ad] n now) 3) with (show ad).
  change (param (mkTask (Some t) [show mi; show ma; show ad] n now) 1) with (show mi). change (param (mkTask (Some t) [show mi; show ma; show ad] n now) 2) with (show ma).
  rewrite !eq_test_shown by lia. unfold sampled_options. destruct A as [-> | ->]; cbn [Z.eqb]; (eexists; split; [reflexivity|]).
  - apply (reads_given opts [Give seed_opt (show t); Give dir_opt (directory n t now); Give (mkOpt "--min-samples" KInt dmin) (show mi); Give (mkOpt "--max-samples" KInt dmax) (show ma)]); auto.
    + repeat constructor; auto; cbn [gopt gvalue seed_opt dir_opt okind convert option_map]; rewrite ?int_shown; try discriminate.
    + cbn. repeat constructor; cbn; intuition discriminate.
    + repeat constructor; cbn [gopt gvalue seed_opt dir_opt okind convert option_map fst snd]; rewrite ?int_shown; reflexivity.
  - apply (reads_given opts [Give seed_opt (show t); Give dir_opt (directory n t now); Switch adaptive_opt]); auto.
    + repeat constructor; auto; cbn [gopt gvalue seed_opt dir_opt okind convert option_map]; rewrite ?int_shown; try discriminate.
    + cbn. repeat constructor; cbn; intuition discriminate.
    + repeat constructor; cbn [gopt gvalue seed_opt dir_opt okind convert option_map fst snd]; rewrite ?int_shown; reflexivity.
Qed.

(** Turtlebot: an arg set is submitted as fifty tasks; each runs the planning script once, which reads the task's number
    as its seed and the arg set's sizes (or the adaptive switch), every other option keeping its default. *)
Theorem turtle_job extra mi ma ad : opts_ok (turtle_opts extra) -> (forall o, In o extra -> no_equals (flag o)) -> (ad = 0 \/ ad = 1)%Z ->
  exists ids script ps, sbatch (turtle_line (mi, ma, ad)) = Some (ids, script, ps) /\ NoDup ids /\ (forall t, In t ids <-> (1 <= t <= 50)%Z) /\
  forall t n now, In t ids -> exists argv, run_script script (mkTask (Some t) ps n now) = Some [("./turtlebot_move/run.py", argv)] /\
    reads (turtle_opts extra) argv (sampled_options (mi, ma, ad) n t now).
Proof.
  intros O N A. do 3 eexists. split; [apply turtle_submission|]. split; [|split].
  - apply FinFun.Injective_map_NoDup; [intros x y; lia|apply seq_NoDup].
  - intros t. rewrite in_map_iff. split; [intros (k & <- & I); apply in_seq in I; lia|]. intros H. exists (Z.to_nat t). split; [lia|]. apply in_seq. lia.
  - intros t n now I. assert (H : (1 <= t <= 50)%Z) by (apply in_map_iff in I as (k & <- & I); apply in_seq in I; lia).
    destruct (sampled_reads "./turtlebot_move/run.py" (turtle_opts extra) (VInt 10) (VInt 2000) mi ma ad n t now) as (argv & E & R); auto.
    1: now apply turtle_no_equals. 1-5: apply in_or_app; right; cbn; tauto.
    exists argv. split; [|exact R]. unfold run_script. change (String.eqb "deploy_experiments.sh" "deploy_experiments.sh") with true. cbn iota. rewrite job_loop_exact. cbn [task_id].
    replace ((1 <=? t) && (t <=? 200))%Z%bool with true; [now rewrite E|]. symmetry. apply andb_true_iff. split; apply Z.leb_le; lia.
Qed.
Print Assumptions turtle_job.
(** Kuka: one task, with seed 1. *)
Theorem kuka_job pi_12 mi ma ad : (ad = 0 \/ ad = 1)%Z ->
  exists script ps, sbatch (kuka_line (mi, ma, ad)) = Some ([1%Z], script, ps) /\
  forall n now, exists argv, run_script script (mkTask (Some 1%Z) ps n now) = Some [("./kuka_carry/run.py", argv)] /\
    reads (kuka_opts pi_12) argv (sampled_options (mi, ma, ad) n 1 now).
Proof.
  intros A. do 2 eexists. split; [apply kuka_submission|]. intros n now.
  destruct (sampled_reads "./kuka_carry/run.py" (kuka_opts pi_12) (VInt 500) (VInt 30000) mi ma ad n 1 now) as (argv & E & R); auto.
  1: apply kuka_opts_ok. 1: apply kuka_no_equals. 1-5: cbn; tauto.
  exists argv. split; [|exact R]. unfold run_script. change (String.eqb "deploy_experiments_kuka.sh" "deploy_experiments.sh") with false. change (String.eqb "deploy_experiments_kuka.sh" "deploy_experiments_kuka.sh") with true.
  cbn iota. rewrite job_loop_exact. cbn [task_id]. change ((1 <=? 1) && (1 <=? 200))%Z%bool with true. cbn iota. now rewrite E.
Qed.
Print Assumptions kuka_job.
(** Kuka with the computed number of samples: the three numbers of the arg set are read back. *)
Theorem adaptive_job pi_12 d b t x y z : word d -> word b -> word t -> py_float d = Some x -> py_float b = Some y -> py_float t = Some z ->
  exists script ps, sbatch (adaptive_line (d, b, t)) = Some ([1%Z], script, ps) /\
  forall n now, exists argv, run_script script (mkTask (Some 1%Z) ps n now) = Some [("./kuka_carry/run.py", argv)] /\
    reads (kuka_opts pi_12) argv (float_options x y z n 1 now).
Proof.
  intros D B T Ed Eb Et. do 2 eexists. split; [apply adaptive_submission; auto|]. intros n now. eexists. split.
  - unfold run_script. change (String.eqb "deploy_experiments_kuka_adaptive.sh" "deploy_experiments.sh") with false. change (String.eqb "deploy_experiments_kuka_adaptive.sh" "deploy_experiments_kuka.sh") with false.
    change (String.eqb "deploy_experiments_kuka_adaptive.sh" "deploy_experiments_kuka_adaptive.sh") with true. cbn iota. rewrite job_loop_exact. cbn [task_id]. change ((1 <=? 1) && (1 <=? 200))%Z%bool with true. cbn iota. reflexivity.
  - apply (reads_given (kuka_opts pi_12) [Give seed_opt (show 1); Give dir_opt (directory n 1 now); Give (mkOpt "--delta" KFloat (VFloat (Fin (4 # 100)))) d;
      Give (mkOpt "--collision-buffer" KFloat (VFloat (Fin (2 # 100)))) b; Give (mkOpt "--theta-margin" KFloat (VFloat pi_12)) t; Switch adaptive_opt]).
    + apply kuka_opts_ok.
    + apply kuka_no_equals.
    + repeat apply Forall_cons; try apply Forall_nil; (split; [cbn; tauto|]; split; [|exact Logic.I || reflexivity]);
        cbn [gopt gvalue seed_opt dir_opt okind convert]; rewrite ?int_shown, ?Ed, ?Eb, ?Et; discriminate.
    + cbn. repeat constructor; cbn; intuition discriminate.
    + repeat apply Forall2_cons; try apply Forall2_nil; (split; [reflexivity|]);
        cbn [gopt gvalue seed_opt dir_opt okind convert fst snd]; rewrite ?int_shown, ?Ed, ?Eb, ?Et; reflexivity.
Qed.
Print Assumptions adaptive_job.
Lemma script1 j : run_script "deploy_experiments.sh" j = Some (job_loop j (sampled_run "./turtlebot_move/run.py" j)).
Proof. unfold run_script. rewrite String.eqb_refl. reflexivity. Qed.
Lemma script2 j : run_script "deploy_experiments_kuka.sh" j = Some (job_loop j (sampled_run "./kuka_carry/run.py" j)).
Proof. unfold run_script. rewrite String.eqb_refl. reflexivity. Qed.
Lemma script3 j : run_script "deploy_experiments_kuka_adaptive.sh" j = Some (job_loop j (adaptive_run j)).
Proof. unfold run_script. rewrite String.eqb_refl. reflexivity. Qed.
(** Any other third argument, and a task without a number or with one beyond 200: nothing is run. *)
Theorem nothing_run name j : In name ["deploy_experiments.sh"; "deploy_experiments_kuka.sh"; "deploy_experiments_kuka_adaptive.sh"] ->
  (task_id j = None \/ (exists t, task_id j = Some t /\ ~ (1 <= t <= 200)%Z) -> run_script name j = Some []) /\
  (forall ad, param j 3 = show ad -> ad <> 0%Z -> ad <> 1%Z -> name <> "deploy_experiments_kuka_adaptive.sh" -> run_script name j = Some []).
Proof.
  intros I. split.
  - intros H. assert (L : forall run, job_loop j run = []).
    { intros run. rewrite job_loop_exact. destruct H as [->|(t & -> & H)]; auto. destruct (Z.leb_spec 1 t), (Z.leb_spec t 200); auto; lia. }
    cbn [In] in I. decompose [or] I; try contradiction; subst name; rewrite ?script1, ?script2, ?script3, L; reflexivity.
  - intros ad P N0 N1 Nn. assert (L : forall prog, job_loop j (sampled_run prog j) = []).
    { intros prog. rewrite job_loop_exact. destruct (task_id j) as [t|]; auto. destruct (_ && _)%bool; auto. unfold sampled_run. rewrite P, !eq_test_shown by lia.
      apply Z.eqb_neq in N0, N1. now rewrite N0, N1. }
    cbn [In] in I. decompose [or] I; try contradiction; try congruence; subst name; rewrite ?script1, ?script2, L; reflexivity.
Qed.
Print Assumptions nothing_run.

(** the stream arguments of a kuka job *)
Theorem kuka_job_settings pi_12 mi ma ad n now argv : (ad = 0 \/ ad = 1)%Z -> reads (kuka_opts pi_12) argv (sampled_options (mi, ma, ad) n 1 now) ->
  exists ns, parse_args (kuka_opts pi_12) argv = Args ns /\ settings_of ns = Some (
    if (ad =? 0)%Z then mkSettings (VInt mi) (VInt ma) (VFloat (Fin (11 # 10))) (VBool false) (VFloat (Fin (2 # 100))) (VFloat pi_12) (VBool false)
    else mkSettings (VInt 29999) (VInt 30000) (VFloat (Fin (11 # 10))) (VBool true) (VFloat (Fin (2 # 100))) (VFloat pi_12) (VBool false)).
Proof.
  intros A (ns & P & G). exists ns. split; [exact P|]. unfold settings_of.
  pose proof (G (mkOpt "--min-samples" KInt (VInt 500)) ltac:(cbn; tauto)) as G1. pose proof (G (mkOpt "--max-samples" KInt (VInt 30000)) ltac:(cbn; tauto)) as G2.
  pose proof (G (mkOpt "--factor" KInt (VFloat (Fin (11 # 10)))) ltac:(cbn; tauto)) as G3. pose proof (G adaptive_opt ltac:(cbn; tauto)) as G4.
  pose proof (G (mkOpt "--collision-buffer" KFloat (VFloat (Fin (2 # 100)))) ltac:(cbn; tauto)) as G5. pose proof (G (mkOpt "--theta-margin" KFloat (VFloat pi_12)) ltac:(cbn; tauto)) as G6.
  cbn [flag adaptive_opt] in *. rewrite G1, G2, G3, G4, G5, G6. destruct A as [-> | ->]; reflexivity.
Qed.
Print Assumptions kuka_job_settings.

(** The queue of the adaptive deployment passes its assertion and holds every combination five times. *)
Definition set_dec (x y : string * string * string) : {x = y} + {x <> y}.
Proof. decide equality; [apply string_dec|decide equality; apply string_dec]. Defined.
Lemma count_repeat n l x : count_occ set_dec (repeat_list n l) x = (n * count_occ set_dec l x)%nat.
Proof. induction n as [|n IH]; [reflexivity|]. cbn [repeat_list]. rewrite count_occ_app, IH. lia. Qed.
Theorem adaptive_queue_exact t1 t2 : t1 <> t2 -> exists q, adaptive_queue t1 t2 = Some q /\ List.length q = 90%nat /\
  forall d b t, count_occ set_dec q (d, b, t) = 5%nat /\ In d ["0.02"; "0.03"; "0.04"] /\ In b ["0.02"; "0.03"; "0.04"] /\ In t [t1; t2] \/
    count_occ set_dec q (d, b, t) = 0%nat /\ ~ (In d ["0.02"; "0.03"; "0.04"] /\ In b ["0.02"; "0.03"; "0.04"] /\ In t [t1; t2]).
Proof.
  intros N. unfold adaptive_queue. set (sets := flat_map _ _). exists (repeat_list 5 sets). split; [reflexivity|]. split; [reflexivity|].
  intros d b t. rewrite count_repeat.
  assert (D : NoDup sets).
  { unfold sets. simpl. repeat apply NoDup_cons; try apply NoDup_nil; cbn [In]; intros H; decompose [or] H; try contradiction; try discriminate; congruence. }
  assert (E : In (d, b, t) sets <-> In d ["0.02"; "0.03"; "0.04"] /\ In b ["0.02"; "0.03"; "0.04"] /\ In t [t1; t2]).
  { unfold sets. rewrite in_flat_map. split.
    - intros (x & I & H). apply in_flat_map in H as (y & J & H). apply in_map_iff in H as (z & E & K). injection E as <- <- <-. auto.
    - intros (I & J & K). exists d. split; [exact I|]. apply in_flat_map. exists b. split; [exact J|]. apply in_map_iff. exists t. auto. }
  clearbody sets. destruct (in_dec set_dec (d, b, t) sets) as [I|I].
  - left. rewrite (proj1 (NoDup_count_occ' set_dec sets) D _ I). split; [reflexivity|]. now apply E.
  - right. rewrite (proj1 (count_occ_not_In set_dec sets _) I). split; [reflexivity|]. now rewrite <- E.
Qed.
Print Assumptions adaptive_queue_exact.

(** ** Directories *)
Lemma digits_no_dash w : all_digits w = true -> has_char "-" w = false.
Proof.
  induction w as [|c w IH]; [reflexivity|]. cbn [all_digits has_char]. destruct (digit c) eqn:C; [|discriminate]. intros A. rewrite IH by auto.
  destruct (Ascii.eqb_spec "-" c) as [<-|]; [discriminate|reflexivity].
Qed.
(** Tasks with different numbers or different times have different directories. *)
Theorem directories_differ n s t now now' : (0 <= s)%Z -> (0 <= t)%Z -> directory n s now = directory n t now' -> s = t /\ now = now'.
Proof.
  intros Hs Ht E. unfold directory in E. apply app_inj_s in E.
  assert (D : forall z, (0 <= z)%Z -> has_char "-" (show z) = false).
  { intros z H. apply digits_no_dash. now apply show_all_digits. }
  change (show s ++ "-" ++ var n ++ "-" ++ now) with (show s ++ String "-" (var n ++ "-" ++ now)) in E.
  change (show t ++ "-" ++ var n ++ "-" ++ now') with (show t ++ String "-" (var n ++ "-" ++ now')) in E.
  apply sep_inj in E as [E1 E2]; auto. apply show_inj in E1. apply app_inj_s in E2. apply app_inj_s in E2. auto.
Qed.
Print Assumptions directories_differ.
(** Refuted: a deployed run has a directory of its own.  The name is meant to hold the number of samples, but the variable n
    is never set, and all kuka tasks have number 1: two arg sets whose tasks start in the same second share the directory. *)
Definition saved (pi_12 : pyfloat) (argv : list string) : option value :=
  match parse_args (kuka_opts pi_12) argv with Args ns => get_arg "--save-dir" ns | _ => None end.
Theorem own_directory_refuted : exists a a' script ps ps', a <> a' /\ In a (arg_sets 500 [1000%Z]) /\ In a' (arg_sets 500 [1000%Z]) /\
  sbatch (kuka_line a) = Some ([1%Z], script, ps) /\ sbatch (kuka_line a') = Some ([1%Z], script, ps') /\
  forall pi_12 now, exists prog argv argv', run_script script (mkTask (Some 1%Z) ps None now) = Some [(prog, argv)] /\
    run_script script (mkTask (Some 1%Z) ps' None now) = Some [(prog, argv')] /\ argv <> argv' /\
    exists dir, saved pi_12 argv = Some dir /\ saved pi_12 argv' = Some dir.
Proof.
  exists (0, 0, 1)%Z, (499, 1000, 0)%Z. do 3 eexists. split; [discriminate|]. split; [cbn; tauto|]. split; [cbn; tauto|].
  split; [apply kuka_submission|]. split; [apply kuka_submission|]. intros pi_12 now.
  destruct (kuka_job pi_12 0 0 1) as (s1 & p1 & S1 & J1); [auto|]. destruct (kuka_job pi_12 499 1000 0) as (s2 & p2 & S2 & J2); [auto|].
  rewrite kuka_submission in S1, S2. injection S1 as <- <-. injection S2 as <- <-.
  destruct (J1 None now) as (v1 & R1 & ns1 & P1 & G1). destruct (J2 None now) as (v2 & R2 & ns2 & P2 & G2).
  exists "./kuka_carry/run.py", v1, v2. split; [exact R1|]. split; [exact R2|]. split.
  - intros ->. rewrite P1 in P2. injection P2 as ->. pose proof (G1 adaptive_opt ltac:(cbn; tauto)) as X. pose proof (G2 adaptive_opt ltac:(cbn; tauto)) as Y. rewrite X in Y. discriminate.
  - exists (VStr (directory None 1 now)). unfold saved. rewrite P1, P2. split; [exact (G1 dir_opt ltac:(cbn; tauto))|exact (G2 dir_opt ltac:(cbn; tauto))].
Qed.
Print Assumptions own_directory_refuted.

Lemma append_length a b : String.length (a ++ b) = (String.length a + String.length b)%nat.
Proof. induction a; cbn; auto. Qed.
Lemma path_join_pddl dir : path_join dir "pddl" <> dir.
Proof.
  unfold path_join. change (String.prefix "/" "pddl") with false. cbn iota. intros E. apply (f_equal String.length) in E.
  destruct (_ || _)%bool; rewrite !append_length in E; cbn in E; lia.
Qed.
(** A run starts if its directory has no directory pddl yet, and then creates these two and nothing else. *)
Theorem run_starts_exact existing d name :
  match make_dirs existing d name with
  | Some (dir, after) => dir = path_join d name /\ ~ In (path_join dir "pddl") existing /\ forall p, In p after <-> In p existing \/ p = dir \/ p = path_join dir "pddl"
  | None => In (path_join (path_join d name) "pddl") existing
  end.
Proof.
  unfold make_dirs. cbv zeta. pose proof (path_join_pddl (path_join d name)) as N. set (dir := path_join d name) in *.
  destruct (in_dec string_dec dir existing) as [I|I]; destruct (in_dec string_dec (path_join dir "pddl") _) as [J|J]; auto.
  - split; [reflexivity|]. split; [exact J|]. intros p. cbn [In]. intuition (subst; auto).
  - destruct J as [J|J]; [congruence|exact J].
  - cbn [In] in J. split; [reflexivity|]. split; [tauto|]. intros p. cbn [In]. intuition (subst; auto).
Qed.
Print Assumptions run_starts_exact.
Lemma path_join_inj d a b : String.prefix "/" a = false -> String.prefix "/" b = false -> path_join d a = path_join d b -> a = b.
Proof. unfold path_join. intros -> ->. destruct (_ || _)%bool; intros E; [now apply app_inj_s in E|]. apply app_inj_s in E. now apply app_inj_s in E. Qed.
(** Two runs with the same directory: the second stops if the names are equal, and has a directory of its own otherwise. *)
Theorem second_run existing d name name' dir after : String.prefix "/" name = false -> String.prefix "/" name' = false ->
  make_dirs existing d name = Some (dir, after) ->
  (name = name' -> make_dirs after d name' = None) /\
  (forall dir' after', make_dirs after d name' = Some (dir', after') -> dir' <> dir).
Proof.
  intros P P' E. pose proof (run_starts_exact existing d name) as H. rewrite E in H. destruct H as (-> & N & A). split.
  - intros <-. pose proof (run_starts_exact after d name) as H. destruct (make_dirs after d name) as [[dir' after']|]; auto. destruct H as (-> & N' & _). exfalso. apply N'. apply A. auto.
  - intros dir' after' E' ->. pose proof (run_starts_exact after d name') as H. rewrite E' in H. destruct H as (Q & N' & _). apply N'. apply A. auto.
Qed.
Print Assumptions second_run.
(** The kuka script's names differ if the draws or the times do. *)
Theorem kuka_names_differ x y now now' : kuka_name x now = kuka_name y now' -> x = y /\ now = now'.
Proof.
  unfold kuka_name. intros E. change (show x ++ "_" ++ now) with (show x ++ String "_" now) in E. change (show y ++ "_" ++ now') with (show y ++ String "_" now') in E.
  apply sep_inj in E as [E1 E2]; [|apply show_no; cbn; intuition (subst; reflexivity)..]. apply show_inj in E1. auto.
Qed.
Print Assumptions kuka_names_differ.

(** ** Examples *)
Example turtle_job_ex : sbatch (turtle_line (99, 25000, 0)%Z) = Some (map Z.of_nat (seq 1 50), "deploy_experiments.sh", ["99"; "25000"; "0"]) /\
  run_script "deploy_experiments.sh" (mkTask (Some 7%Z) ["99"; "25000"; "0"] None "20240131-120000") =
    Some [("./turtlebot_move/run.py", ["--seed=7"; "--save-dir=/home/gridsan/acurtis/runs/prm-7--20240131-120000"; "--min-samples=99"; "--max-samples=25000"])].
Proof. split; vm_compute; reflexivity. Qed.
Example turtle_job_hyp : opts_ok (turtle_opts [mkOpt "--unit" KFlag (VBool false)]) /\ (forall o, In o [mkOpt "--unit" KFlag (VBool false)] -> no_equals (flag o)).
Proof.
  split.
  - split.
    + cbn. repeat (apply NoDup_cons; [cbn [In]; intuition discriminate|]). constructor.
    + intros o I. unfold turtle_opts in I. simpl in I. decompose [or] I; try contradiction; subst; (split; [cbn; discriminate|reflexivity]).
  - intros o [<-|[]]. cbn. repeat split; discriminate.
Qed.
Example kuka_job_ex : run_script "deploy_experiments_kuka.sh" (mkTask (Some 1%Z) ["0"; "0"; "1"] None "20240131-120000") =
    Some [("./kuka_carry/run.py", ["--seed=1"; "--save-dir=/home/gridsan/acurtis/runs/prm-1--20240131-120000"; "--adaptive-n"])].
Proof. vm_compute. reflexivity. Qed.
Example adaptive_job_ex : word "0.17453292519943295" /\ py_float "0.02" = Some (Fin (inject_Z 2 * (10 # 1) ^ (-2))%Q) /\
  (exists q, py_float "0.17453292519943295" = Some (Fin q)) /\
  exists q, adaptive_queue "0.17453292519943295" "0.09817477042468103" = Some q /\ nth_error q 3 = Some ("0.02", "0.03", "0.09817477042468103").
Proof. split; [split; [discriminate|reflexivity]|]. split; [reflexivity|]. split; [eexists; vm_compute; reflexivity|]. eexists. split; reflexivity. Qed.
Example nothing_run_ex : run_script "deploy_experiments.sh" (mkTask (Some 201%Z) ["99"; "25000"; "0"] None "") = Some [] /\
  run_script "deploy_experiments.sh" (mkTask (Some 7%Z) ["99"; "25000"; "2"] None "") = Some [] /\ run_script "deploy_experiments.sh" (mkTask (Some 7%Z) ["99"; "25000"] None "") = Some [].
Proof. repeat split; vm_compute; reflexivity. Qed.
Example options_joined_ex : parse_args (kuka_opts (Fin (1 # 4))) ["--seed=3"; "--save-dir=a=b c"; "--seed=4"] = parse_args (kuka_opts (Fin (1 # 4))) ["--save-dir"; "a=b c"; "--seed"; "4"].
Proof. vm_compute. reflexivity. Qed.
Example directories_ex : make_dirs [] "runs" "1700000000.5" = Some ("runs/1700000000.5", ["runs/1700000000.5/pddl"; "runs/1700000000.5"]) /\
  make_dirs ["runs/1700000000.5/pddl"; "runs/1700000000.5"] "runs" "1700000000.5" = None /\
  kuka_name 17 "1700000000.5" = "17_1700000000.5" /\ directory None 3 "x" <> directory None 4 "x".
Proof. repeat split; try (vm_compute; reflexivity). vm_compute. discriminate. Qed.
