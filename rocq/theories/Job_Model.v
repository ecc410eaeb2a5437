(** Model of the task scheduling code of the trial scripts as programs that read a configuration file:

    exps/run_knn_radius_trial.py                 lines 52-100
    exps/run_straight_line_optimality_trial.py   lines 149-199
    exps/run_narrow_passage_clearance_trial.py   lines 223-289

    The configuration is the JSON object of Submit_Model.  A trial is an argument: it returns or raises.
    What is read of an existing result file is the number of tasks that the script skips (rows, or
    different seeds; see Sched_Model). *)
From Coq Require Import List Bool Arith ZArith QArith String Ascii.
From Verif Require Import Log_Model Sched_Model Submit_Model.
Import ListNotations.
Open Scope string_scope.

Inductive error := IndexError | BadValue | BadType | NoKey | NoFile.
Inductive res (A : Type) := Ok (a : A) | Err (e : error).
Arguments Ok {A} a. Arguments Err {A} e.
Definition bind {A B} (x : res A) (f : A -> res B) : res B := match x with Ok a => f a | Err e => Err e end.
Notation "'do' x <- a ; b" := (bind a (fun x => b)) (at level 200, x name, a at level 100, b at level 200).

(** config[k] *)
Definition key (config : dict) (k : string) : res json := match dget k config with Some v => Ok v | None => Err NoKey end.
(** the elements product() takes from an argument *)
Fixpoint chars (s : string) : list json := match s with "" => [] | String c s' => JStr (String c "") :: chars s' end.
Definition iter (v : json) : res (list json) :=
  match v with
  | JList l => Ok l
  | JStr s => Ok (chars s)
  | JObj d => Ok (map (fun x => JStr (fst x)) d)
  | _ => Err BadType
  end.
(** range(v): how many numbers *)
Definition range (v : json) : res nat :=
  match v with
  | JInt z => Ok (Z.to_nat z)
  | JBool b => Ok (if b then 1 else 0)%nat
  | _ => Err BadType
  end.
(** '%f' % v raises or not *)
Definition percent_f (v : json) : res unit := match v with JInt _ | JFloat _ | JBool _ => Ok tt | _ => Err BadType end.

(** the calls of the trial functions, knn 84-90, straight-line 181-189, narrow 272-279 *)
Inductive call :=
| KnnTrial (delta_clear dim : json) (rng_seed : nat) (sample_schedule neighbor_schedule : json)
| LineTrial (delta_clear dim : json) (rng_seed : nat) (sample_schedule n_samples_per_ed_check_round ed_check_timeout area_tol max_k_connection_neighbors : json)
| NarrowTrial (clearance dim : json) (rng_seed : nat) (sample_schedule : json) (type : prm_type) (max_connections : json).

(** knn 63-66 and straight-line 160-163: the arguments of product() are evaluated before it iterates *)
Definition dim_combos (config : dict) : res (list (json * nat)) :=
  do d <- key config "dims_to_test"; do t <- key config "n_trials"; do n <- range t; do dims <- iter d;
  Ok (line_combos dims n).
(** narrow 233-248 *)
Definition narrow_product (config : dict) (dims_key : string) : res (list json * (list json * nat)) :=
  do dl <- key config "deltas"; do d <- key config dims_key; do t <- key config "n_trials"; do n <- range t;
  do deltas <- iter dl; do dims <- iter d; Ok (deltas, (dims, n)).
Definition type_combos (config : dict) : res (list (prm_type * (json * (json * nat)))) :=
  do r <- narrow_product config "radius_dims_to_test"; do k <- narrow_product config "knn_dims_to_test";
  Ok (narrow_combos (fst r) (fst (snd r)) (fst (snd k)) (snd (snd r))).

(** the body of the loop up to the call: knn 82-90 *)
Definition knn_body (config : dict) (e : json * nat) (seed : nat) : res (call * nat) :=
  let (dim, trial) := e in
  do _u <- percent_f dim; do delta <- key config "delta"; do ss <- key config "sample_schedule"; do ns <- key config "neighbor_schedule";
  Ok (KnnTrial delta dim seed ss ns, trial).
(** straight-line 179-189 *)
Definition line_body (config : dict) (e : json * nat) (seed : nat) : res (call * nat) :=
  let (dim, trial) := e in
  do _u <- percent_f dim; do delta <- key config "delta"; do ss <- key config "sample_schedule"; do nc <- key config "n_samples_per_check_round";
  do tm <- key config "ed_check_timeout"; do ar <- key config "area_tol"; do mk <- key config "prm_max_k_neighbors";
  Ok (LineTrial delta dim seed ss nc tm ar mk, trial).
(** narrow 268-279 *)
Definition narrow_body (config : dict) (e : prm_type * (json * (json * nat))) (seed : nat) : res (call * nat) :=
  let '(type, (clearance, (dim, trial))) := e in
  do _u <- percent_f dim;
  do ss <- key config (match type with Radius => "radius_sample_schedule" | Sched_Model.Knn => "knn_sample_schedule" end);
  do mc <- key config (match type with Radius => "radius_prm_max_radius" | Sched_Model.Knn => "knn_prm_max_neighbors" end);
  Ok (NarrowTrial clearance dim seed ss type mc, trial).

Inductive finish := Finished | Raised (e : error) | TrialRaised.

Section Job.
(** whether a call of a trial function returns *)
Variable trial : call -> bool.
(** rng.integers(0, 2 ** 32) of default_rng(seed=task_id): the k-th number *)
Variable draw : Z -> nat -> nat.
(** the result files that are there: how many tasks are skipped *)
Variable skip : string -> option nat.

(** the loop: knn 82-100, straight-line 179-199, narrow 268-289; [k] counts the draws *)
Fixpoint loop {E} (body : E -> nat -> res (call * nat)) (seeds : nat -> nat) (k : nat) (tasks : list E) : list (call * nat) * finish :=
  match tasks with
  | [] => ([], Finished)
  | e :: rest =>
      match body e (seeds k) with
      | Err x => ([], Raised x)
      | Ok c =>
          if trial (fst c) then let (cs, f) := loop body seeds (S k) rest in (c :: cs, f)
          else ([c], TrialRaised)
      end
  end.

(** os.path.join *)
Definition join (a b : string) : string :=
  if String.eqb a "" then b
  else if String.eqb (String.substring (String.length a - 1) 1 a) "/" then a ++ b else a ++ "/" ++ b.

(** knn 69-100, straight-line 166-199, narrow 251-289.  A step of 0 and a negative seed raise ValueError;
    with a negative step the slice is empty. *)
Definition work {E} (body : E -> nat -> res (call * nat)) (exp_combos : list E) (task_id num_tasks : Z) (save : string) : list (call * nat) * finish :=
  if (num_tasks =? 0)%Z then ([], Raised BadValue)
  else if (task_id <? 0)%Z then ([], Raised BadValue)
  else
    let tasks := if (num_tasks <? 0)%Z then [] else every (Z.to_nat num_tasks) (Z.to_nat task_id) exp_combos in
    let tasks := match skip (join save ("out" ++ show task_id ++ ".csv")) with Some n => skipn n tasks | None => tasks end in
    loop body (draw task_id) 0 tasks.

(** the three scripts on a configuration *)
Definition schedule (k : kind) (config : dict) (task_id num_tasks : Z) (save : string) : list (call * nat) * finish :=
  match k with
  | Knn => match dim_combos config with Err e => ([], Raised e) | Ok l => work (knn_body config) l task_id num_tasks save end
  | Line => match dim_combos config with Err e => ([], Raised e) | Ok l => work (line_body config) l task_id num_tasks save end
  | Narrow => match type_combos config with Err e => ([], Raised e) | Ok l => work (narrow_body config) l task_id num_tasks save end
  end.

(** knn 52-58, straight-line 149-155, narrow 223-229; [argv] holds the name of the script in front *)
Definition arg (argv : list string) (i : nat) : res string := match nth_error argv i with Some s => Ok s | None => Err IndexError end.
Definition int_arg (argv : list string) (i : nat) : res Z :=
  do s <- arg argv i; match py_int s with Some z => Ok z | None => Err BadValue end.
Definition arguments (argv : list string) : res (Z * Z * (string * string)) :=
  do t <- int_arg argv 1; do n <- int_arg argv 2; do c <- arg argv 3; do s <- arg argv 4; Ok ((t, n), (c, s)).
Definition run_job (k : kind) (files : string -> option content) (argv : list string) : list (call * nat) * finish :=
  match arguments argv with
  | Err e => ([], Raised e)
  | Ok ((task_id, num_tasks), (config_path, save)) =>
      match files config_path with
      | None => ([], Raised NoFile)
      | Some (Text _) => ([], Raised BadValue)
      | Some JsonOther => ([], Raised BadType)
      | Some (Json config) => schedule k config task_id num_tasks save
      end
  end.
End Job.
