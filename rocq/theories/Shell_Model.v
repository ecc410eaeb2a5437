(** Model of the way from the deployment scripts to the planning scripts:
    exps/tamp_environment/deploy_tamp_experiments.py        32-37 (deploy_with_args)
    exps/tamp_environment/deploy_tamp_experiments_kuka.py   32-36 (deploy_with_args)
    exps/tamp_environment/deploy_tamp_adaptive_kuka.py      32-36 (deploy_with_args), 40-59
    exps/tamp_environment/deploy_experiments.sh, deploy_experiments_kuka.sh, deploy_experiments_kuka_adaptive.sh
    exps/tamp_environment/turtlebot_move/run.py             168-195, kuka_carry/run.py 627-632

    The shell and sbatch are programs of the cluster; what they do with these lines is written down here: a line
    without quotes is cut at its blanks, an unset variable is empty, [ x -eq y ] fails unless both are numbers of
    64 bits, sbatch --array=a-b starts the script for the task numbers a .. b with the remaining words as $1, $2, ...
    Left out: the exported OMP_NUM_THREADS, waiting for the queue, a cluster that refuses a submission. *)
From Coq Require Import List Bool Arith ZArith QArith String Ascii.
From Verif Require Import Log_Model Sched_Model Submit_Model Main_Model.
Import ListNotations.
Close Scope Q_scope.
Open Scope string_scope.

(** ** The submitted line *)
(** deploy_tamp_experiments.py 33, with NUM_RUNS_PER of line 7 *)
Definition turtle_line (a : Z * Z * Z) : string :=
  let '(mi, ma, ad) := a in "sbatch --array=1-" ++ show 50 ++ " deploy_experiments.sh " ++ show mi ++ " " ++ show ma ++ " " ++ show ad.
(** deploy_tamp_experiments_kuka.py 33 *)
Definition kuka_line (a : Z * Z * Z) : string :=
  let '(mi, ma, ad) := a in "sbatch --array=1-1 deploy_experiments_kuka.sh " ++ show mi ++ " " ++ show ma ++ " " ++ show ad.
(** deploy_tamp_adaptive_kuka.py 33; the floats are given by what str prints of them *)
Definition adaptive_line (a : string * string * string) : string :=
  let '(delta, buffer, theta) := a in "sbatch --array=1-1 deploy_experiments_kuka_adaptive.sh " ++ delta ++ " " ++ buffer ++ " " ++ theta.
(** deploy_tamp_adaptive_kuka.py 47-57; [t1], [t2]: the texts of np.pi/18.0 and np.pi/32.0.  [None]: the assertion fails *)
Definition adaptive_queue (t1 t2 : string) : option (list (string * string * string)) :=
  let sets := flat_map (fun d => flat_map (fun cb => map (fun t => (d, cb, t)) [t1; t2]) ["0.02"; "0.03"; "0.04"]) ["0.02"; "0.03"; "0.04"] in
  let queue := repeat_list 5 sets in
  if (List.length queue <? 200)%nat then Some queue else None.

(** the words of an unquoted line *)
Fixpoint split_blanks (cur s : string) : list string :=
  match s with
  | "" => if String.eqb cur "" then [] else [cur]
  | String c r => if Ascii.eqb c " " then (if String.eqb cur "" then split_blanks "" r else cur :: split_blanks "" r) else split_blanks (cur ++ String c "") r
  end.
(** a decimal number, nothing else *)
Definition natural (s : string) : option Z :=
  if (negb (String.eqb s "") && all_digits s)%bool then py_int s else None.
Fixpoint split_dash (s : string) : option (string * string) :=
  match s with
  | "" => None
  | String c r => if Ascii.eqb c "-" then Some ("", r) else match split_dash r with Some (a, b) => Some (String c a, b) | None => None end
  end.
Definition strip_prefix (p s : string) : option string :=
  if String.prefix p s then Some (substring (String.length p) (String.length s - String.length p) s) else None.
(** --array=a-b *)
Definition array_range (w : string) : option (list Z) :=
  match strip_prefix "--array=" w with
  | None => None
  | Some r =>
    match split_dash r with
    | None => None
    | Some (a, b) =>
      match natural a, natural b with
      | Some x, Some y => Some (map (fun k => (x + Z.of_nat k)%Z) (seq 0 (Z.to_nat (y - x + 1))))
      | _, _ => None
      end
    end
  end.
(** sbatch --array=a-b script arguments: the task numbers, the script, its arguments *)
Definition sbatch (line : string) : option (list Z * string * list string) :=
  match split_blanks "" line with
  | cmd :: arr :: script :: params =>
    if String.eqb cmd "sbatch" then match array_range arr with Some ids => Some (ids, script, params) | None => None end else None
  | _ => None
  end.

(** ** The job scripts *)
(** what a task sees: its number (if set), $1 ..., the variable n of the environment (if set), the output of date *)
Record task := mkTask { task_id : option Z; params : list string; env_n : option string; stamp : string }.
Definition var (o : option string) : string := match o with Some s => s | None => "" end.
Definition param (j : task) (k : nat) : string := var (nth_error (params j) (k - 1)).
(** the number [ reads; [None]: the test fails with an error *)
Definition test_number (s : string) : option Z :=
  let (minus, digits) := sign (strip s) in
  match natural digits with
  | Some z => let v := neg minus z in if ((- 2 ^ 63 <=? v) && (v <? 2 ^ 63))%Z then Some v else None
  | None => None
  end.
Definition eq_test (s : string) (z : Z) : bool := match test_number s with Some v => (v =? z)%Z | None => false end.

(** the program that python runs, and its arguments *)
Definition command := (string * list string)%type.
(** deploy_experiments.sh 13 and the same line of the others *)
Definition save_path (j : task) (algorithm : string) (seed : Z) : string :=
  "/home/gridsan/acurtis/runs/" ++ algorithm ++ "-" ++ show seed ++ "-" ++ var (env_n j) ++ "-" ++ stamp j.
(** deploy_experiments.sh 13-20, deploy_experiments_kuka.sh 13-20 *)
Definition sampled_run (prog : string) (j : task) (seed : Z) (algorithm : string) : list command :=
  let path := save_path j algorithm seed in
  if eq_test (param j 3) 0 then
    [(prog, ["--seed=" ++ show seed; "--save-dir=" ++ path; "--min-samples=" ++ param j 1; "--max-samples=" ++ param j 2])]
  else if eq_test (param j 3) 1 then
    [(prog, ["--seed=" ++ show seed; "--save-dir=" ++ path; "--adaptive-n"])]
  else [].
(** deploy_experiments_kuka_adaptive.sh 13-15 *)
Definition adaptive_run (j : task) (seed : Z) (algorithm : string) : list command :=
  [("./kuka_carry/run.py", ["--seed=" ++ show seed; "--save-dir=" ++ save_path j algorithm seed; "--delta=" ++ param j 1; "--collision-buffer=" ++ param j 2; "--theta-margin=" ++ param j 3; "--adaptive-n"])].

(** for x in l; do ... done, with the counter i *)
Fixpoint for_in {A} (body : A -> Z -> list command * Z) (l : list A) (i : Z) : list command * Z :=
  match l with
  | [] => ([], i)
  | a :: r => let (c, i1) := body a i in let (cs, i2) := for_in body r i1 in ((c ++ cs)%list, i2)
  end.
(** deploy_experiments.sh 6-24 and the same lines of the others; $((SLURM_ARRAY_TASK_ID + 0)) is 0 if unset *)
Definition job_loop (j : task) (run : Z -> string -> list command) : list command :=
  let id := match task_id j with Some t => t | None => 0%Z end in
  fst (for_in (fun seed => for_in (fun algorithm i => (if (i =? id + 0)%Z then run seed algorithm else [], (i + 1)%Z)) ["prm"])
              (map Z.of_nat (seq 1 200)) 1%Z).
(** the script a submission names; [None]: no such file *)
Definition run_script (name : string) (j : task) : option (list command) :=
  if String.eqb name "deploy_experiments.sh" then Some (job_loop j (sampled_run "./turtlebot_move/run.py" j))
  else if String.eqb name "deploy_experiments_kuka.sh" then Some (job_loop j (sampled_run "./kuka_carry/run.py" j))
  else if String.eqb name "deploy_experiments_kuka_adaptive.sh" then Some (job_loop j (adaptive_run j))
  else None.

(** ** turtlebot_move/run.py 168-183; [extra]: the options of pddlstream's create_parser *)
Definition turtle_opts (extra : list opt) : list opt := (extra ++ [
  mkOpt "--cfree" KFlag (VBool false);
  mkOpt "--deterministic" KFlag (VBool false);
  mkOpt "--optimal" KFlag (VBool false);
  mkOpt "--min-samples" KInt (VInt 10);
  mkOpt "--max-samples" KInt (VInt 2000);
  mkOpt "--factor" KInt (VFloat (Fin (11 # 10)));
  mkOpt "--delta" KFloat (VFloat (Fin (5 # 100)));
  mkOpt "--seed" KInt (VInt (-1));
  mkOpt "--save-dir" KStr (VStr "./logs/debug");
  mkOpt "--vis" KFlag (VBool false);
  mkOpt "--ani" KFlag (VBool false);
  mkOpt "--teleport" KFlag (VBool false);
  mkOpt "--randomize-delta" KFlag (VBool false);
  mkOpt "--num-targets" KInt (VInt 1);
  mkOpt "--adaptive-n" KFlag (VBool false);
  mkOpt "--simulate" KFlag (VBool false) ])%list.

(** ** The directory of a run *)
(** os.path.join; a second part that starts with '/' replaces the first *)
Fixpoint ends_slash (s : string) : bool := match s with "" => false | String c "" => Ascii.eqb c "/" | String _ r => ends_slash r end.
Definition path_join (a b : string) : string :=
  if String.prefix "/" b then b else if (String.eqb a "" || ends_slash a)%bool then a ++ b else a ++ "/" ++ b.
(** turtlebot_move/run.py 188-193 with [name] = str(time.time()); kuka_carry/run.py 627-632 with the drawn number in front.
    [None]: os.makedirs raises FileExistsError.  [existing]: the directories that were asked for, without their parents *)
Definition make_dirs (existing : list string) (save_dir name : string) : option (string * list string) :=
  let dir := path_join save_dir name in
  let before := if in_dec string_dec dir existing then existing else dir :: existing in
  let pddl := path_join dir "pddl" in
  if in_dec string_dec pddl before then None else Some (dir, pddl :: before).
Definition kuka_name (drawn : Z) (now : string) : string := show drawn ++ "_" ++ now.
