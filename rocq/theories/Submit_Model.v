(** Model of exps/submit_and_run_experiment_job.py (its __main__ block) and of
    exps/tune_experiment_triples.py, which calls it once for every triple.

    The command lines are records (argparse refuses anything else before these lines run).  The file
    system is the list of the directories of ./results with their modification times and the contents
    of the files by path.  Experiment names hold no '/' and no character that glob treats specially.
    JSON's NaN and Infinity are not modelled. *)
From Coq Require Import List Bool Arith ZArith QArith String Ascii DecimalString.
From Verif Require Import Sched_Model.
Import ListNotations.
Open Scope string_scope.

(** '%i' and str of an integer *)
Definition show (z : Z) : string := NilZero.string_of_int (Z.to_int z).

(** ** Files *)
Inductive json := JStr (s : string) | JInt (z : Z) | JFloat (q : Q) | JBool (b : bool) | JNull | JList (l : list json) | JObj (d : list (string * json)).
Definition JInts (l : list Z) : json := JList (map JInt l).
(** what '%i' prints of a value; [None] is a TypeError *)
Definition as_int (v : json) : option Z :=
  match v with
  | JInt z => Some z
  | JFloat q => Some (Z.quot (Qnum q) (Zpos (Qden q)))
  | JBool b => Some (if b then 1 else 0)%Z
  | _ => None
  end.
Definition dict := list (string * json).
Fixpoint dget (k : string) (d : dict) : option json :=
  match d with
  | [] => None
  | (k', v) :: d' => if String.eqb k k' then Some v else dget k d'
  end.
(** d[k] = v *)
Fixpoint dset (k : string) (v : json) (d : dict) : dict :=
  match d with
  | [] => [(k, v)]
  | (k', w) :: d' => if String.eqb k k' then (k', v) :: d' else (k', w) :: dset k v d'
  end.

Inductive content :=
| Json (d : dict)          (* a JSON object *)
| JsonOther                (* JSON that is not an object *)
| Text (s : string).       (* not JSON *)

Record store := Store { has_results : bool; dirs : list dir_entry; files : string -> option content }.
Definition put (p : string) (c : content) (st : store) : store :=
  Store (has_results st) (dirs st) (fun q => if String.eqb q p then Some c else files st q).

Inductive event := Print (s : string) | Chmod (path : string) | LLsub (path triples : string).
Inductive exc := ValueError | TypeError | KeyError | FileNotFoundError.
Inductive ending := Done | Exit (code : Z) | Raises (e : exc).
Definition result := (ending * list event * store)%type.

(** ** submit_and_run_experiment_job.py *)
Inductive kind := Narrow | Line | Knn.
Record args := Args { a_kind : kind; a_name : string; a_config : string; a_triples : Z * Z * Z; a_resume : bool }.

Definition LF : string := String "010" "".
(** lines 14-24; the fields are filled in at lines 82-83 *)
Definition script_head : string :=
  "#!/bin/bash" ++ LF ++ "source /etc/profile" ++ LF ++ LF ++ "# Load Anaconda Module" ++ LF ++ "module load anaconda/2022b" ++ LF ++ LF ++
  "echo ""My task ID: "" $LLSUB_RANK" ++ LF ++ "echo ""Number of Tasks: "" $LLSUB_SIZE" ++ LF ++
  "export PYTHONPATH=$PYTHONPATH:$PWD/../" ++ LF ++ LF.
Definition script_text (script_name arg0 arg1 : string) : string :=
  script_head ++ "python -u " ++ script_name ++ " $LLSUB_RANK $LLSUB_SIZE " ++ arg0 ++ " " ++ arg1.

(** lines 75-81 *)
Definition script_name (k : kind) : string :=
  match k with
  | Line => "run_straight_line_optimality_trial.py"
  | Knn => "run_knn_radius_trial.py"
  | Narrow => "run_narrow_passage_clearance_trial.py"
  end.

(** '[%i,%i,%i]' % tuple(triples_args), line 110 *)
Definition triples_text (t : Z * Z * Z) : string :=
  let '(a, b, c) := t in "[" ++ show a ++ "," ++ show b ++ "," ++ show c ++ "]".

(** lines 109-110: the exit codes of the two commands are not looked at *)
Definition launch (path : string) (t : Z * Z * Z) : list event := [Chmod path; LLsub path (triples_text t)].

Definition save_path (name stamp : string) : string := "./results/" ++ exp_dir name stamp.
Definition triple_list (t : Z * Z * Z) : list Z := let '(a, b, c) := t in [a; b; c].

(** lines 41-89 and 109-110; [stamp] is now_str, [time] the time the directory is changed last *)
Definition submit_new (a : args) (stamp : string) (time : nat) (st : store) : result :=
  let sp := save_path (a_name a) stamp in
  if existsb (fun d => String.eqb (fst d) (exp_dir (a_name a) stamp)) (dirs st)
  then (Exit 1, [Print ("Experiment " ++ a_name a ++ " already run. Try a new name?")], st)
  else if negb (has_results st)
  then (Exit 1, [Print "Couldn't set up the experiment directory. Did you run from 'nonasymptotic-mp/exps?'"], st)
  else
    let st1 := Store (has_results st) (dirs st ++ [(exp_dir (a_name a) stamp, time)]) (files st) in
    let config_path := sp ++ "/config.json" in
    (* lines 74-89 and 109-110 *)
    let finish evs st2 :=
      let script := sp ++ "/submit_job.sh" in
      (Done, (evs ++ launch script (a_triples a))%list, put script (Text (script_text (script_name (a_kind a)) config_path sp)) st2) in
    match files st1 (a_config a) with
    | None => finish [Print ("Could not find the config file '" ++ a_config a ++ "'.")] st1
    | Some (Text _) => (Raises ValueError, [], st1)
    | Some JsonOther => (Raises TypeError, [], st1)
    | Some (Json config) =>
        let config' := dset "triples" (JInts (triple_list (a_triples a))) (dset "name" (JStr (a_name a)) config) in
        finish [] (put config_path (Json config') st1)
    end.

(** lines 91-110 *)
Definition submit_resume (a : args) (st : store) : result :=
  match resume_dir (a_name a) (dirs st) with
  | None => (Exit 1, [Print ("Could not find experiment with name: " ++ a_name a)], st)
  | Some d =>
      let path := "./results/" ++ fst d in
      match files st (path ++ "/config.json") with
      | None => (Raises FileNotFoundError, [], st)
      | Some (Text _) => (Raises ValueError, [], st)
      | Some JsonOther => (Raises TypeError, [], st)
      | Some (Json config) =>
          match dget "triples" config with
          | None => (Raises KeyError, [], st)
          | Some (JList [a; b; c]) =>
              match as_int a, as_int b, as_int c with
              | Some x, Some y, Some z => (Done, launch (path ++ "/submit_job.sh") (x, y, z), st)
              | _, _, _ => (Raises TypeError, [Chmod (path ++ "/submit_job.sh")], st)
              end
          | Some _ => (Raises TypeError, [Chmod (path ++ "/submit_job.sh")], st)
          end
      end
  end.

Definition submit (a : args) (stamp : string) (time : nat) (st : store) : result :=
  if a_resume a then submit_resume a st else submit_new a stamp time st.

(** ** tune_experiment_triples.py *)
Definition nppns_to_test : list Z := [1; 2; 4; 8; 16; 24; 32; 48]%Z.
Definition n_threads_to_test : list Z := [1; 2; 4; 8; 16; 24; 32; 48]%Z.
Inductive tested := Threads | Nppn.
(** --type is optional (line 14) *)
Record targs := TArgs { t_kind : option kind; t_config : string; t_tested : tested; t_fill : Z }.

Definition kind_text (k : kind) : string := match k with Narrow => "narrow" | Line => "line" | Knn => "knn" end.
Definition tested_text (t : tested) : string := match t with Threads => "threads" | Nppn => "nppn" end.

(** lines 26 and 39 *)
Definition tune_name (k : kind) (t : tested) (nppn threads : Z) : string :=
  kind_text k ++ "-triples-tune-" ++ tested_text t ++ "_" ++ show 1 ++ "-" ++ show nppn ++ "-" ++ show threads.

(** lines 20-23 and 32-35: the values that are tried *)
Definition tune_values (t : targs) : list Z :=
  filter (fun n => negb (48 <? n * t_fill t)%Z) (match t_tested t with Threads => n_threads_to_test | Nppn => nppns_to_test end).
Definition tune_triple (t : targs) (n : Z) : Z * Z * Z :=
  match t_tested t with Threads => (1, t_fill t, n)%Z | Nppn => (1, n, t_fill t)%Z end.

(** lines 24-30 and 37-43: one call of the submission script; None among the arguments of
    subprocess.run raises TypeError *)
Definition tune_args (k : kind) (t : targs) (n : Z) : args :=
  let '(_, b, c) := tune_triple t n in Args k (tune_name k (t_tested t) b c) (t_config t) (tune_triple t n) false.

(** the calls one after the other; [clock i] is the time stamp and the time of the i-th one.  Their
    exit codes are not looked at. *)
Fixpoint calls (clock : nat -> string * nat) (i : nat) (l : list args) (st : store) : list result * store :=
  match l with
  | [] => ([], st)
  | a :: l' =>
      let r := submit a (fst (clock i)) (snd (clock i)) st in
      let (rs, st') := calls clock (S i) l' (snd r) in (r :: rs, st')
  end.

Definition tune (t : targs) (clock : nat -> string * nat) (st : store) : ending * list result * store :=
  match tune_values t, t_kind t with
  | [], _ => (Done, [], st)
  | _, None => (Raises TypeError, [], st)
  | ns, Some k => let (rs, st') := calls clock 0 (map (tune_args k t) ns) st in (Done, rs, st')
  end.
