(** Logs of the planning runs and the two scripts that plot them

    exps/tamp_environment/turtlebot_move/run.py                lines 23-34 (StreamToLogger), 36-56, 141-142, 195-248
    exps/tamp_environment/turtlebot_move/bound_plot.py         lines 8-36
    exps/tamp_environment/turtlebot_move/time_success_plot.py  lines 8-61

    kuka_carry/run.py uses the same logger.  Characters are codes below 256.  A number that is read
    is its exact decimal value, not the nearest double.  Left out: the drawing (the heights of the
    bars and the points are kept), the curve of bounds in bound_plot (C01), print statements of the
    plot scripts. *)
From Coq Require Import List Bool Arith ZArith QArith NArith String Ascii.
Import ListNotations.
Close Scope Q_scope.
Local Open Scope string_scope.

(** ** Python strings *)
Definition is_space (c : ascii) : bool :=
  let n := N_of_ascii c in
  ((9 <=? n) && (n <=? 13) || (28 <=? n) && (n <=? 32) || (n =? 133) || (n =? 160))%N.
(** the line boundaries of str.splitlines *)
Definition is_break (c : ascii) : bool :=
  let n := N_of_ascii c in
  ((10 <=? n) && (n <=? 13) || (28 <=? n) && (n <=? 30) || (n =? 133))%N.
Definition LF : ascii := ascii_of_N 10.
Definition CR : ascii := ascii_of_N 13.
Definition eol : string := String LF "".

Fixpoint lstrip (s : string) : string :=
  match s with
  | "" => ""
  | String c s' => if is_space c then lstrip s' else s
  end.
Fixpoint rstrip (s : string) : string :=
  match s with
  | "" => ""
  | String c s' =>
    match rstrip s' with
    | "" => if is_space c then "" else String c ""
    | t => String c t
    end
  end.
Definition strip (s : string) : string := rstrip (lstrip s).

Fixpoint splitlines (cur s : string) : list string :=
  match s with
  | "" => match cur with "" => [] | _ => [cur] end
  | String c s' =>
    if is_break c then
      match s' with
      | String c2 s'' => if Ascii.eqb c CR && Ascii.eqb c2 LF then cur :: splitlines "" s'' else cur :: splitlines "" s'
      | "" => [cur]
      end
    else splitlines (cur ++ String c "") s'
  end.

(** sub in s *)
Fixpoint contains (sub s : string) : bool :=
  prefix sub s || match s with "" => false | String _ s' => contains sub s' end.

(** s.replace(old, ""): [skip] characters are part of a match *)
Fixpoint remove_all (old : string) (skip : nat) (s : string) : string :=
  match s with
  | "" => ""
  | String c s' =>
    match skip with
    | S k => remove_all old k s'
    | O => if prefix old s then remove_all old (length old - 1) s' else String c (remove_all old 0 s')
    end
  end.

(** int(s) and float(s); [None] is a ValueError.  Digits may be separated by single underscores. *)
Definition digit (c : ascii) : option Z :=
  let n := N_of_ascii c in if ((48 <=? n) && (n <=? 57))%N then Some (Z.of_N n - 48)%Z else None.
(** reads digits after a digit: the number so far, how many digits it has, and the rest *)
Fixpoint more_digits (v : Z) (n : nat) (s : string) : Z * nat * string :=
  match s with
  | "" => (v, n, s)
  | String c s' =>
    match digit c with
    | Some d => more_digits (10 * v + d) (S n) s'
    | None =>
      match s' with
      | String c2 s'' =>
        if Ascii.eqb c "_" then match digit c2 with Some d => more_digits (10 * v + d) (S n) s'' | None => (v, n, s) end
        else (v, n, s)
      | "" => (v, n, s)
      end
    end
  end.
Definition digits (s : string) : option (Z * nat * string) :=
  match s with
  | String c s' => match digit c with Some d => Some (more_digits d 1 s') | None => None end
  | "" => None
  end.
Definition sign (s : string) : bool * string :=
  match s with
  | String c s' => if Ascii.eqb c "-" then (true, s') else if Ascii.eqb c "+" then (false, s') else (false, s)
  | "" => (false, s)
  end.
Definition neg (b : bool) (v : Z) : Z := if b then (- v)%Z else v.
Definition py_int (s : string) : option Z :=
  let (minus, s1) := sign (strip s) in
  match digits s1 with
  | Some (v, _, "") => Some (neg minus v)
  | _ => None
  end.

Inductive pyfloat := Fin (q : Q) | Inf (minus : bool) | NaN.
Definition lower (c : ascii) : ascii :=
  let n := N_of_ascii c in if ((65 <=? n) && (n <=? 90))%N then ascii_of_N (n + 32) else c.
Fixpoint lowercase (s : string) : string := match s with "" => "" | String c s' => String (lower c) (lowercase s') end.
Definition scaled (minus : bool) (v : Z) (e : Z) : pyfloat := Fin (inject_Z (neg minus v) * (10 # 1) ^ e)%Q.
(** the exponent: [v] has [f] digits after the point *)
Definition exponent (minus : bool) (v : Z) (f : nat) (s : string) : option pyfloat :=
  match s with
  | "" => Some (scaled minus v (- Z.of_nat f))
  | String c s' =>
    if Ascii.eqb (lower c) "e" then
      let (eminus, s2) := sign s' in
      match digits s2 with
      | Some (e, _, "") => Some (scaled minus v (neg eminus e - Z.of_nat f))
      | _ => None
      end
    else None
  end.
Definition py_float (s : string) : option pyfloat :=
  let (minus, s1) := sign (strip s) in
  let l := lowercase s1 in
  if String.eqb l "inf" || String.eqb l "infinity" then Some (Inf minus)
  else if String.eqb l "nan" then Some NaN
  else
    match digits s1 with
    | Some (v, _, String "." s2) =>
      match digits s2 with
      | Some _ => match s2 with String c s3 => match digit c with Some d => let '(w, f, s4) := more_digits (10 * v + d) 1 s3 in exponent minus w f s4 | None => None end | "" => None end
      | None => exponent minus v 0 s2
      end
    | Some (v, _, s2) => exponent minus v 0 s2
    | None =>
      match s1 with
      | String "." s2 => match digits s2 with Some (w, f, s4) => exponent minus w f s4 | None => None end
      | _ => None
      end
    end.

(** re.search(name + "([^ ,]+),", line).group(1); [None]: no match, and .group raises AttributeError *)
Fixpoint span_field (s : string) : string * string :=
  match s with
  | "" => ("", "")
  | String c s' => if Ascii.eqb c " " || Ascii.eqb c "," then ("", s) else let (v, t) := span_field s' in (String c v, t)
  end.
Fixpoint drop (n : nat) (s : string) : string :=
  match n, s with
  | S n', String _ s' => drop n' s'
  | _, _ => s
  end.
Definition field_at (name s : string) : option string :=
  if prefix name s then
    match span_field (drop (length name) s) with
    | (String c v, String "," _) => Some (String c v)
    | _ => None
    end
  else None.
Fixpoint search (name s : string) : option string :=
  match field_at name s with
  | Some v => Some v
  | None => match s with "" => None | String _ s' => search name s' end
  end.

(** ** Writing a log *)

(** StreamToLogger.write, run.py 29-31: the lines that are logged *)
Definition write (buf : string) : list string := map rstrip (splitlines "" (rstrip buf)).
(** print calls write for every argument, every separator and the end *)
Fixpoint print_args (args : list string) : list string :=
  match args with
  | [] => []
  | [a] => write a
  | a :: rest => (write a ++ write " " ++ print_args rest)%list
  end.
Definition py_print (args : list string) : list string := (print_args args ++ write eol)%list.
(** FileHandler: every record is a line of the file *)
Fixpoint log_file (lines : list string) : string :=
  match lines with
  | [] => ""
  | l :: rest => l ++ eol ++ log_file rest
  end.

(** str of a dictionary: line 196 prints vars(args); values are given by their repr *)
Fixpoint repr_items (kvs : list (string * string)) : string :=
  match kvs with
  | [] => ""
  | [(k, v)] => "'" ++ k ++ "': " ++ v
  | (k, v) :: rest => "'" ++ k ++ "': " ++ v ++ ", " ++ repr_items rest
  end.
Definition repr_dict (kvs : list (string * string)) : string := "{" ++ repr_items kvs ++ "}".

(** What a turtlebot run logs, run.py 195-248 in order.  [targets]: problems.py 285-286, two prints for
    every target.  [args]: what line 196 prints.  [solver]: lines logged while planning (streams.py, PDDLStream, print_solution, tracebacks).
    [time]: None if solve raised. *)
Record run := mkRun {
  r_args : string; r_targets : list (string * string); r_delta : string; r_min : string; r_max : string;
  r_init : string; r_goal : string; r_problem : string; r_solver : list string; r_time : option string }.
Definition run_log (r : run) : list string :=
  (py_print ["Experiment arguments:"] ++ py_print [r_args r] ++
   flat_map (fun t => py_print [fst t] ++ py_print [snd t]) (r_targets r) ++
   py_print [("Delta: " ++ r_delta r)%string] ++ py_print [("Min samples: " ++ r_min r)%string] ++ py_print [("Max samples: " ++ r_max r)%string] ++
   py_print [("Init: " ++ r_init r)%string] ++ py_print [("Goal: " ++ r_goal r)%string] ++ py_print [r_problem r] ++
   r_solver r ++
   match r_time r with Some t => py_print [("Time: " ++ t)%string] | None => [] end)%list.

(** ** Reading logs *)

(** open(path, 'r'): universal newlines *)
Fixpoint universal (s : string) : string :=
  match s with
  | "" => ""
  | String c s' =>
    if Ascii.eqb c CR then
      match s' with
      | String c2 s'' => if Ascii.eqb c2 LF then String LF (universal s'') else String LF (universal s')
      | "" => eol
      end
    else String c (universal s')
  end.
Fixpoint cut_lines (cur s : string) : list string :=
  match s with
  | "" => match cur with "" => [] | _ => [cur] end
  | String c s' => if Ascii.eqb c LF then (cur ++ eol) :: cut_lines "" s' else cut_lines (cur ++ String c "") s'
  end.
Definition readlines (content : string) : list string := cut_lines "" (universal content).

(** the directory tree in the order of os.walk: names (without their directories) and contents *)
Definition tree := list (string * string).
Definition ends_with (suffix s : string) : bool :=
  ((length suffix <=? length s) && String.eqb (substring (length s - length suffix) (length suffix) s) suffix)%nat.

(** dictionaries: assignment keeps the place of a key *)
Section Dict.
Context {K A : Type} (eqb : K -> K -> bool).
Fixpoint dset (k : K) (v : A) (d : list (K * A)) : list (K * A) :=
  match d with
  | [] => [(k, v)]
  | (k', v') :: d' => if eqb k' k then (k', v) :: d' else (k', v') :: dset k v d'
  end.
Definition dget (k : K) (d : list (K * A)) : option A := option_map snd (find (fun x => eqb (fst x) k) d).
End Dict.

Inductive pyexc := ValueError | KeyError | AttributeError | TypeError | IndexError.
Inductive outcome (A : Type) := Ok (a : A) | Raise (e : pyexc).
Arguments Ok {A} a. Arguments Raise {A} e.
Definition bind {A B} (x : outcome A) (f : A -> outcome B) : outcome B := match x with Ok a => f a | Raise e => Raise e end.
Definition need {A} (e : pyexc) (x : option A) : outcome A := match x with Some a => Ok a | None => Raise e end.

(** bound_plot.py 17-27: [numbers] and [samples] *)
Definition fdict := list (string * pyfloat).
Fixpoint bound_lines (file : string) (lines : list string) (st : fdict * fdict) : outcome (fdict * fdict) :=
  match lines with
  | line :: ((next :: _) as rest) =>
    bind (if contains "Delta:" line then bind (need ValueError (py_float (strip next))) (fun v => Ok (dset String.eqb file v (fst st), snd st)) else Ok st) (fun st1 =>
    bind (if contains "Found solution in" line then bind (need ValueError (py_float (strip next))) (fun v => Ok (fst st1, dset String.eqb file v (snd st1))) else Ok st1) (fun st2 =>
    bound_lines file rest st2))
  | _ => Ok st
  end.
Fixpoint bound_tree (t : tree) (st : fdict * fdict) : outcome (fdict * fdict) :=
  match t with
  | [] => Ok st
  | (file, content) :: t' =>
    bind (if ends_with ".log" file then bound_lines file (readlines content) st else Ok st) (fun st1 => bound_tree t' st1)
  end.
(** line 35: the points of the scatter plot; scatter() without arguments is a TypeError *)
Fixpoint bound_points (numbers samples : fdict) : outcome (list (pyfloat * pyfloat)) :=
  match samples with
  | [] => Ok []
  | (k, v) :: rest => bind (need KeyError (dget String.eqb k numbers)) (fun x => bind (bound_points numbers rest) (fun l => Ok ((x, v) :: l)))
  end.
Definition bound_plot (t : tree) : outcome (list (pyfloat * pyfloat)) :=
  bind (bound_tree t ([], [])) (fun st =>
  bind (bound_points (fst st) (snd st)) (fun l => match l with [] => Raise TypeError | _ => Ok l end)).

(** time_success_plot.py 11-15 *)
Record dicts := mkDicts {
  d_succ : list (string * bool); d_time : fdict; d_adapt : list (string * bool);
  d_min : list (string * Z); d_max : list (string * Z) }.
(** lines 28-38 *)
Definition time_line (file line : string) (d : dicts) : outcome dicts :=
  bind (if contains "Namespace" line then
    bind (need AttributeError (search "adaptive_n=" line)) (fun a =>
    bind (need AttributeError (search "min_samples=" line)) (fun mn =>
    bind (need ValueError (py_int mn)) (fun mn =>
    bind (need AttributeError (search "max_samples=" line)) (fun mx =>
    bind (need ValueError (py_int mx)) (fun mx =>
    Ok (mkDicts (d_succ d) (d_time d) (dset String.eqb file (String.eqb a "True") (d_adapt d)) (dset String.eqb file mn (d_min d)) (dset String.eqb file mx (d_max d))))))))
   else Ok d) (fun d1 =>
  let d2 := if prefix "Solved:" line
            then mkDicts (dset String.eqb file (contains "True" (strip line)) (d_succ d1)) (d_time d1) (d_adapt d1) (d_min d1) (d_max d1) else d1 in
  if prefix "Time:" line
  then bind (need ValueError (py_float (remove_all "Time: " 0 (strip line)))) (fun v =>
       Ok (mkDicts (d_succ d2) (dset String.eqb file v (d_time d2)) (d_adapt d2) (d_min d2) (d_max d2)))
  else Ok d2).
Fixpoint time_lines (file : string) (lines : list string) (d : dicts) : outcome dicts :=
  match lines with
  | [] => Ok d
  | line :: rest => bind (time_line file line d) (fun d1 => time_lines file rest d1)
  end.
Fixpoint time_tree (t : tree) (d : dicts) : outcome dicts :=
  match t with
  | [] => Ok d
  | (file, content) :: t' =>
    bind (if ends_with ".log" file then time_lines file (readlines content) d else Ok d) (fun d1 => time_tree t' d1)
  end.
(** lines 47-51: the lists of every group (min_samples, max_samples, adaptive_n) *)
Definition group := (Z * Z * bool)%type.
Definition group_eqb (g h : group) : bool := (Z.eqb (fst (fst g)) (fst (fst h)) && Z.eqb (snd (fst g)) (snd (fst h)) && Bool.eqb (snd g) (snd h))%bool.
Definition groups := list (group * (list bool * list pyfloat)).
Definition add_run (g : group) (s : bool) (t : pyfloat) (gs : groups) : groups :=
  match dget group_eqb g gs with
  | Some (ss, ts) => dset group_eqb g ((ss ++ [s])%list, (ts ++ [t])%list) gs
  | None => dset group_eqb g ([s], [t]) gs
  end.
Fixpoint group_runs (d : dicts) (times : fdict) (gs : groups) : outcome groups :=
  match times with
  | [] => Ok gs
  | (k, t) :: rest =>
    bind (need KeyError (dget String.eqb k (d_min d))) (fun mn =>
    bind (need KeyError (dget String.eqb k (d_max d))) (fun mx =>
    bind (need KeyError (dget String.eqb k (d_adapt d))) (fun a =>
    bind (need KeyError (dget String.eqb k (d_succ d))) (fun s =>
    group_runs d rest (add_run (mn, mx, a) s t gs)))))
  end.
Definition time_success (t : tree) : outcome groups :=
  bind (time_tree t (mkDicts [] [] [] [] [])) (fun d => group_runs d (d_time d) []).

(** line 57: the success rate of a group, np.mean of zeros and ones *)
Definition success_mean (ss : list bool) : Q := (inject_Z (Z.of_nat (List.length (filter (fun b => b) ss))) / inject_Z (Z.of_nat (List.length ss)))%Q.
