(** Scheduling and resuming of the experiment scripts

    exps/run_narrow_passage_clearance_trial.py   lines 223-289
    exps/run_straight_line_optimality_trial.py   lines 149-199
    exps/run_knn_radius_trial.py                 lines 52-100

    An experiment is an entry of exp_combos; what a trial computes is not
    modelled here (see Trial_Model), only how many rows it writes and which seed
    each row carries.  A crash is taken to happen between two trials: the
    to_csv call that ends a loop body is atomic.  The random generator is a
    stream of numbers that depends on the task id only, and restarts with the
    script. *)

From Coq Require Import List Arith Lia Bool ZArith String.
Import ListNotations.
Local Open Scope list_scope.

Section Tasks.
Context {A : Type}.

(** Python's l[start:len(l):step] for start >= 0 and step >= 1, walking over
    the list: [wait] is the number of elements still to skip. *)
Fixpoint every (step wait : nat) (l : list A) : list A :=
  match l with
  | [] => []
  | x :: l' => match wait with
               | O => x :: every step (step - 1) l'
               | S w => every step w l'
               end
  end.

(** narrow 251, straight-line 166, knn 69:
    tasks = exp_combos[task_id:len(exp_combos):num_tasks].  Python raises
    ValueError for a step of 0. *)
Definition my_tasks (exp_combos : list A) (task_id num_tasks : nat) : option (list A) :=
  match num_tasks with
  | O => None
  | _ => Some (every num_tasks task_id exp_combos)
  end.

End Tasks.

(** straight-line 160-163, knn 63-66: itertools.product of two lists, the last
    one varying fastest. *)
Definition product2 {A B} (l : list A) (m : list B) : list (A * B) :=
  flat_map (fun a => map (fun b => (a, b)) m) l.

(** straight-line 160-163 and knn 63-66 *)
Definition line_combos {D} (dims : list D) (n_trials : nat) : list (D * nat) :=
  product2 dims (seq 0 n_trials).

Inductive prm_type := Radius | Knn.

(** narrow 233-248: the radius product chained with the knn product *)
Definition narrow_combos {C D} (deltas : list C) (radius_dims knn_dims : list D)
  (n_trials : nat) : list (prm_type * (C * (D * nat))) :=
  product2 [Radius] (product2 deltas (product2 radius_dims (seq 0 n_trials))) ++
  product2 [Knn] (product2 deltas (product2 knn_dims (seq 0 n_trials))).

(** A session is one start of the script.  It is killed after [limit] trials
    ([None]: it runs to the end). *)
Definition run_until {A} (limit : option nat) (tasks : list A) : list A :=
  match limit with
  | None => tasks
  | Some n => firstn n tasks
  end.

Section Rows.
Context {A : Type}.

(** How many rows a trial writes: len(sample_schedule) in the straight-line
    script (lines 116-129), the number of (s, nn) pairs recorded in the knn
    script (lines 30-45). *)
Variable rows : A -> nat.

Definition rows_of (l : list A) : nat := list_sum (map rows l).

(** straight-line 173-199 and knn 76-100: skip as many experiments as the file
    has rows ([None]: there is no file), run, append.  Returns the experiments
    run and the number of rows in the file afterwards. *)
Definition row_session (tasks : list A) (file : option nat) (limit : option nat) :
  list A * option nat :=
  let todo := match file with
              | Some n_rows => skipn n_rows tasks
              | None => tasks
              end in
  let done := run_until limit todo in
  (done, match done with
         | [] => file
         | _ => Some (match file with Some n => n | None => 0 end + rows_of done)
         end).

(** All sessions of one task id: the experiments run by each *)
Fixpoint row_sessions (tasks : list A) (file : option nat) (limits : list (option nat)) :
  list (list A) :=
  match limits with
  | [] => []
  | lim :: limits' =>
      let (done, file') := row_session tasks file lim in
      done :: row_sessions tasks file' limits'
  end.

End Rows.

Section Seeds.
Context {A : Type}.

(** narrow 254: rng = np.random.default_rng(seed=task_id); [draw i] is its
    i-th rng.integers(0, 2 ** 32) *)
Variable draw : nat -> nat.

(** The seed column of the rows a trial writes when it is given a seed
    (narrow 173-187, 70-82): [None] is the missing value that the ten-field
    record of line 71 leaves there (see Trial_Model.record_row). *)
Variable trial_rows : A -> nat -> list (option nat).

(** narrow 268-289: the k-th trial of a session gets the k-th draw *)
Fixpoint run_seeded (k : nat) (l : list A) : list (A * nat) :=
  match l with
  | [] => []
  | a :: l' => (a, draw k) :: run_seeded (S k) l'
  end.

Definition seed_eq_dec : forall x y : option nat, {x = y} + {x <> y}.
Proof. decide equality; apply Nat.eq_dec. Defined.

(** narrow 263: df['seed'].unique().shape[0], a missing value counting as one *)
Definition n_seeds (file : list (option nat)) : nat := List.length (nodup seed_eq_dec file).

(** narrow 257-289 *)
Definition seed_session (tasks : list A) (file : option (list (option nat)))
  (limit : option nat) : list (A * nat) * option (list (option nat)) :=
  let todo := match file with
              | Some f => skipn (n_seeds f) tasks
              | None => tasks
              end in
  let done := run_seeded 0 (run_until limit todo) in
  (done, match done with
         | [] => file
         | _ => Some (match file with Some f => f | None => [] end ++
                      flat_map (fun p => trial_rows (fst p) (snd p)) done)
         end).

Fixpoint seed_sessions (tasks : list A) (file : option (list (option nat)))
  (limits : list (option nat)) : list (list (A * nat)) :=
  match limits with
  | [] => []
  | lim :: limits' =>
      let (done, file') := seed_session tasks file lim in
      done :: seed_sessions tasks file' limits'
  end.

End Seeds.

(** ** Deploying the planning experiments *)

Section Deploy.
Context {A : Type}.

(** deploy_tamp_experiments_kuka.py 57-76: while the queue is not empty, submit
    its first fifty entries.  [fuel] bounds the iterations; [None] is running
    out of it.  Waiting for the cluster, and the assertion on the lock file, are
    not modelled. *)
Fixpoint deploy_batches (fuel : nat) (queue : list A) : option (list (list A)) :=
  match queue with
  | [] => Some []
  | _ => match fuel with
         | O => None
         | S fuel' =>
             match deploy_batches fuel' (skipn 50 queue) with
             | Some batches => Some (firstn 50 queue :: batches)
             | None => None
             end
         end
  end.

(** deploy_tamp_experiments_kuka.py 53, deploy_tamp_adaptive_kuka.py 56:
    list(arg_sets) * n *)
Fixpoint repeat_list (n : nat) (arg_sets : list A) : list A :=
  match n with
  | O => []
  | S n' => arg_sets ++ repeat_list n' arg_sets
  end.

End Deploy.

(** deploy_tamp_experiments_kuka.py 46-51 and deploy_tamp_experiments.py 46-51:
    the arg sets (min_samples, max_samples, adaptive) from the drawn integers
    int(n). *)
Definition arg_sets (min_min : Z) (ns : list Z) : list (Z * Z * Z) :=
  (0, 0, 1)%Z :: flat_map (fun n => [(min_min - 1, n, 0); (n - 1, n, 0)]%Z) ns.

(** deploy_experiments.sh 6-24 and deploy_experiments_kuka.sh: the seeds with
    which a job of the array runs; one algorithm, so [i] counts the seeds. *)
Definition array_job_seeds (task_id : nat) : list nat :=
  map snd (filter (fun p => Nat.eqb (fst p) task_id)
                  (combine (seq 1 200) (seq 1 200))).

(** deploy_tamp_experiments.py 33: --array=1-50 *)
Definition turtle_submission_seeds : list nat :=
  flat_map array_job_seeds (seq 1 50).

(** deploy_tamp_experiments_kuka.py 33: --array=1-1 *)
Definition kuka_submission_seeds : list nat :=
  flat_map array_job_seeds (seq 1 1).

(** ** Resuming an experiment directory *)

(** submit_and_run_experiment_job.py 48: the directory name; [stamp] is
    now.strftime(...) *)
Definition exp_dir (name stamp : string) : string := (name ++ "_" ++ stamp)%string.

(** A results directory: its name and modification time *)
Definition dir_entry := (string * nat)%type.

(** sort(key=os.path.getmtime): stable insertion by time *)
Fixpoint insert_by_mtime (d : dir_entry) (l : list dir_entry) : list dir_entry :=
  match l with
  | [] => [d]
  | e :: l' => if snd d <? snd e then d :: l else e :: insert_by_mtime d l'
  end.

Definition sort_by_mtime (l : list dir_entry) : list dir_entry :=
  fold_left (fun acc d => insert_by_mtime d acc) l [].

(** submit_and_run_experiment_job.py 92-100: glob './results/NAME*' sorted by
    time, last one; [None] is the handled IndexError.  The name is taken to hold
    no glob metacharacter, and the results directory to hold experiment
    directories only. *)
Definition resume_dir (name : string) (results : list dir_entry) : option dir_entry :=
  match rev (sort_by_mtime (filter (fun d => String.prefix name (fst d)) results)) with
  | [] => None
  | d :: _ => Some d
  end.

(** The runs (experiment, seed) that a list of submissions starts:
    deploy_tamp_experiments.py 53-65, deploy_tamp_experiments_kuka.py 71-72 *)
Definition submission_runs {A} (seeds : list nat) (submitted : list A) : list (A * nat) :=
  product2 submitted seeds.
