(** Model of the three notebooks that draw success rates over planning times:
    exps/tamp_environment/kuka_carry/time_success_scatter.ipynb           cells 1-3
    exps/tamp_environment/kuka_carry/time_success_scatter_adaptive.ipynb  cells 1-3
    exps/tamp_environment/turtlebot_move/time_success_scatter.ipynb       cells 1-3
    The three read and group alike; they differ in what they print and in the name of the figure.

    Left out: printing, the progress bar, the drawing itself (the points with their error bars are kept), the unused
    counter and list of sample counts.  Numbers that are read are exact decimals; means and deviations are reals. *)
From Coq Require Import List Bool Arith ZArith QArith Qreals Reals String Ascii.
From Verif Require Import Submit_Model Main_Model Shell_Model Log_Model.
Import ListNotations.
Close Scope Q_scope.
Close Scope R_scope.
Open Scope string_scope.

(** ** ast.literal_eval of the second line (cell 1)
    A dictionary of texts to texts, booleans and numbers, as vars(args) is printed.  Texts in single quotes without
    quotes and backslashes inside; None, tuples and nested values are not covered.  [None]: ValueError or SyntaxError *)
Definition number_start (s : string) : bool :=
  let s1 := match s with String c r => if Ascii.eqb c "-" then r else s | "" => s end in
  match s1 with String c _ => match digit c with Some _ => true | None => false end | "" => false end.
Definition literal (s : string) : option value :=
  let t := strip s in
  if String.eqb t "True" then Some (VBool true)
  else if String.eqb t "False" then Some (VBool false)
  else if number_start t then
    match py_int t with
    | Some z => Some (VInt z)
    | None => option_map VFloat (py_float t)
    end
  else None.
Inductive at_ := Start | WantKey | InKey (k : string) | AfterKey (k : string) | BeforeValue (k : string)
               | InText (k v : string) | InWord (k v : string) | AfterValue | Done.
Definition is_blank (c : ascii) : bool := (Ascii.eqb c " " || Ascii.eqb c "009" || Ascii.eqb c LF)%bool.
Definition set_value (k : string) (v : value) (d : namespace) : namespace := dset String.eqb k v d.
Fixpoint literal_dict (st : at_) (d : namespace) (s : string) : option namespace :=
  match s with
  | "" => match st with Done => Some d | _ => None end
  | String c r =>
    match st with
    | Start => if Ascii.eqb c "{" then literal_dict WantKey d r else if is_blank c then literal_dict Start d r else None
    | WantKey => if Ascii.eqb c "'" then literal_dict (InKey "") d r
                 else if Ascii.eqb c "}" then literal_dict Done d r
                 else if is_blank c then literal_dict WantKey d r else None
    | InKey k => if Ascii.eqb c "'" then literal_dict (AfterKey k) d r
                 else if Ascii.eqb c "\" then None else literal_dict (InKey (k ++ String c "")) d r
    | AfterKey k => if Ascii.eqb c ":" then literal_dict (BeforeValue k) d r
                    else if is_blank c then literal_dict (AfterKey k) d r else None
    | BeforeValue k => if Ascii.eqb c "'" then literal_dict (InText k "") d r
                       else if is_blank c then literal_dict (BeforeValue k) d r
                       else if (Ascii.eqb c "," || Ascii.eqb c "}")%bool then None
                       else literal_dict (InWord k (String c "")) d r
    | InText k v => if Ascii.eqb c "'" then literal_dict AfterValue (set_value k (VStr v) d) r
                    else if Ascii.eqb c "\" then None else literal_dict (InText k (v ++ String c "")) d r
    | InWord k v =>
      if (Ascii.eqb c "," || Ascii.eqb c "}")%bool then
        match literal v with
        | Some x => literal_dict (if Ascii.eqb c "," then WantKey else Done) (set_value k x d) r
        | None => None
        end
      else literal_dict (InWord k (v ++ String c "")) d r
    | AfterValue => if Ascii.eqb c "," then literal_dict WantKey d r
                    else if Ascii.eqb c "}" then literal_dict Done d r
                    else if is_blank c then literal_dict AfterValue d r else None
    | Done => if is_blank c then literal_dict Done d r else None
    end
  end.
Definition literal_eval (s : string) : option namespace := literal_dict Start [] s.

(** ** time = float(file_path.split("--")[1].split("/")[0].replace("-", ".")) (cell 1); the value is not used *)
Fixpoint after_first (sep s : string) : option string :=
  if prefix sep s then Some (drop (String.length sep) s)
  else match s with "" => None | String _ r => after_first sep r end.
Fixpoint before_first (sep s : string) : string :=
  if prefix sep s then "" else match s with "" => "" | String c r => String c (before_first sep r) end.
Fixpoint dots (s : string) : string := match s with "" => "" | String c r => String (if Ascii.eqb c "-" then "."%char else c) (dots r) end.
Definition file_date (path : string) : outcome pyfloat :=
  bind (need IndexError (after_first "--" path)) (fun r => need ValueError (py_float (dots (before_first "/" (before_first "--" r))))).

(** ** cell 1 *)
(** the tree in the order of os.walk: directory, name, content *)
Definition walk := list (string * string * string).
Record dicts := mkDicts { d_args : list (string * namespace); d_succ : list (string * bool); d_time : fdict }.
Definition scatter_line (file line : string) (d : dicts) : outcome dicts :=
  bind (if prefix "Solved:" line then
    bind (need KeyError (dget String.eqb file (d_args d))) (fun a =>
    bind (need KeyError (dget String.eqb "adaptive_n" a)) (fun _ =>
    Ok (mkDicts (d_args d) (dset String.eqb file (contains "True" (strip line)) (d_succ d)) (d_time d))))
   else Ok d) (fun d1 =>
  if prefix "Time:" line then
    bind (need ValueError (py_float (remove_all "Time: " 0 (strip line)))) (fun v =>
    Ok (mkDicts (d_args d1) (d_succ d1) (dset String.eqb file v (d_time d1))))
  else Ok d1).
Fixpoint scatter_lines (file : string) (lines : list string) (d : dicts) : outcome dicts :=
  match lines with
  | [] => Ok d
  | line :: rest => bind (scatter_line file line d) (fun d1 => scatter_lines file rest d1)
  end.
Definition scatter_file (root file content : string) (d : dicts) : outcome dicts :=
  let lines := readlines content in
  bind (need IndexError (nth_error lines 1)) (fun line =>
  bind (need ValueError (literal_eval line)) (fun a =>
  let d1 := mkDicts (dset String.eqb file a (d_args d)) (d_succ d) (d_time d) in
  bind (file_date (path_join root file)) (fun _ => scatter_lines file lines d1))).
Fixpoint scatter_walk (t : walk) (d : dicts) : outcome dicts :=
  match t with
  | [] => Ok d
  | (root, file, content) :: t' =>
    bind (if ends_with ".log" file then scatter_file root file content d else Ok d) (fun d1 => scatter_walk t' d1)
  end.

(** ** cell 2: the lists of every (min_samples, max_samples, adaptive_n).  Sample counts that are no integers and an adaptive_n
    that is no boolean, which run.py never prints, count as TypeError *)
Definition as_int (v : value) : option Z := match v with VInt z => Some z | _ => None end.
Definition as_bool (v : value) : option bool := match v with VBool b => Some b | _ => None end.
Definition lookup (key : string) (a : namespace) : outcome value := need KeyError (dget String.eqb key a).
Fixpoint scatter_groups (d : dicts) (times : fdict) (gs : groups) : outcome groups :=
  match times with
  | [] => Ok gs
  | (k, t) :: rest =>
    bind (need KeyError (dget String.eqb k (d_args d))) (fun a =>
    bind (lookup "adaptive_n" a) (fun ad => bind (need TypeError (as_bool ad)) (fun ad =>
    bind (lookup "min_samples" a) (fun mn => bind (need TypeError (as_int mn)) (fun mn =>
    bind (lookup "max_samples" a) (fun mx => bind (need TypeError (as_int mx)) (fun mx =>
    bind (need KeyError (dget String.eqb k (d_succ d))) (fun s =>
    scatter_groups d rest (add_run (mn, mx, ad) s t gs)))))))))
  end.
Definition scatter (t : walk) : outcome groups :=
  bind (scatter_walk t (mkDicts [] [] [])) (fun d => scatter_groups d (d_time d) []).

(** ** cell 3 *)
Definition condition_holds (condition : string) (k : group) : bool :=
  let '(min_samples, max_samples, adaptive_n) := k in
  ((String.eqb condition "iPRM" && (negb (min_samples =? max_samples - 1)%Z && negb adaptive_n)) ||
   (String.eqb condition "sPRM" && ((min_samples =? max_samples - 1)%Z && negb adaptive_n)) ||
   (String.eqb condition "aPRM" && adaptive_n))%bool.
(** np.mean and np.std (which divides by the number of values); the lists are not empty *)
Definition total (l : list R) : R := fold_right Rplus 0%R l.
Definition np_mean (l : list R) : R := (total l / INR (List.length l))%R.
Definition np_std (l : list R) : R := sqrt (np_mean (map (fun x => (x - np_mean l) * (x - np_mean l))%R l)).
Definition std_error (l : list R) : R := (np_std l / sqrt (INR (List.length l)))%R.
(** the times as reals; [None]: some is infinite or nan, and neither is the mean a number *)
Fixpoint reals (l : list pyfloat) : option (list R) :=
  match l with
  | [] => Some []
  | Fin q :: r => option_map (cons (Q2R q)) (reals r)
  | _ :: _ => None
  end.
Definition outcomes (ss : list bool) : list R := map (fun b : bool => if b then 1%R else 0%R) ss.
Record point := mkPoint { px : option R; py : R; pxerr : option R; pyerr : R }.
Definition point_of (ss : list bool) (ts : list pyfloat) : point :=
  mkPoint (option_map np_mean (reals ts)) (np_mean (outcomes ss)) (option_map std_error (reals ts)) (std_error (outcomes ss)).
Definition legend : list string := ["sPRM"; "iPRM"; "aPRM"].
Definition condition_points (gs : groups) (condition : string) : list point :=
  map (fun x => point_of (fst (snd x)) (snd (snd x))) (filter (fun x => condition_holds condition (fst x)) gs).
Definition figure (gs : groups) : list (string * list point) := map (fun c => (c, condition_points gs c)) legend.
