(** Model of exps/aggregate_runtimes_for_tuning.py, lines 11-40, with the columns of the tables and the statistics:
    which directory is read, what happens to a column with text in it, and when the script raises.

    pandas: read_csv gives a column that holds some text entirely as text; concat unites the columns and fills up with
    missing values; mean and std skip missing values, are nan without enough values, and raise on text.  The values are
    reals.  Columns that are not used by the script are kept as they are. *)
From Coq Require Import List Bool Arith Reals String.
From Verif Require Import Sched_Model Agg_Model.
Import ListNotations.
Open Scope string_scope.

Inductive cell := Num (x : R) | Text | Missing.
Record frame := mkFrame { cols : list string; rows : list (string -> cell) }.

(** pd.read_csv(p, index_col=0), 20 *)
Definition is_text (c : cell) : bool := match c with Text => true | _ => false end.
Definition read_csv (f : frame) : frame :=
  mkFrame (cols f) (map (fun r c => match r c with
    | Missing => Missing
    | v => if existsb (fun r' => is_text (r' c)) (rows f) then Text else v
    end) (rows f)).
(** pd.concat, 21 and 31 *)
Definition has_col (c : string) (f : frame) : bool := existsb (String.eqb c) (cols f).
Definition concat_frames (fs : list frame) : frame :=
  mkFrame (nodup string_dec (flat_map cols fs))
          (flat_map (fun f => map (fun r c => if has_col c f then r c else Missing) (rows f)) fs).
(** df.tail(df.shape[0] - 1), 30 *)
Definition cut_first (f : frame) : frame := mkFrame (cols f) (skipn (List.length (rows f) - (List.length (rows f) - 1)) (rows f)).

(** the numbers of a column; [None]: some cell is text *)
Fixpoint numbers (l : list cell) : option (list R) :=
  match l with
  | [] => Some []
  | Num x :: l' => option_map (cons x) (numbers l')
  | Missing :: l' => numbers l'
  | Text :: _ => None
  end.
Definition total (l : list R) : R := fold_right Rplus 0%R l.
(** Series.mean and Series.std; [None] is nan *)
Definition mean (l : list R) : option R := match l with [] => None | _ => Some (total l / INR (List.length l))%R end.
Definition std (l : list R) : option R :=
  match l, mean l with
  | _ :: _ :: _, Some m => Some (sqrt (total (map (fun x => (x - m) * (x - m))%R l) / INR (List.length l - 1)))
  | _, _ => None
  end.

Inductive outcome :=
| Report (build_mean build_std check_mean check_std : option R)
| NoDirectory                                    (* IndexError, 18 *)
| NoFiles                                        (* ValueError of concat, 21 *)
| NoColumn (c : string)                          (* KeyError *)
| NotNumbers (c : string).                       (* TypeError of mean *)
Definition folder := list (string * frame).

(** cut_big_out[c].mean() and .std(), 32-36 *)
Definition column_stat (c : string) (f : frame) : outcome + (option R * option R) :=
  if has_col c f then
    match numbers (map (fun r => r c) (rows f)) with
    | Some l => inr (mean l, std l)
    | None => inl (NotNumbers c)
    end
  else inl (NoColumn c).
(** 28-39 *)
Definition statistics (fs : list frame) : outcome :=
  let cut := concat_frames (map cut_first fs) in
  match column_stat "build_time" cut with
  | inl e => e
  | inr (bm, bs) => match column_stat "check_time" cut with inl e => e | inr (cm, cs) => Report bm bs cm cs end
  end.
(** 15-39; [dirs]: the directories below results with their times, [files]: what they hold.  The folders afterwards are returned too. *)
Fixpoint write_file (n : string) (f : frame) (d : folder) : folder :=
  match d with
  | [] => [(n, f)]
  | (m, g) :: d' => if String.eqb m n then (m, f) :: d' else (m, g) :: write_file n f d'
  end.
Definition aggregate_main (name_prefix : string) (df_out_name : option string) (dirs : list dir_entry) (files : string -> folder) : outcome * (string -> folder) :=
  match resume_dir name_prefix dirs with
  | None => (NoDirectory, files)
  | Some (dir, _) =>
    match map (fun x => read_csv (snd x)) (filter (fun x => is_out_csv (fst x)) (files dir)) with
    | [] => (NoFiles, files)
    | fs => (statistics fs, fun d => if String.eqb d dir then write_file (agg_name name_prefix df_out_name) (concat_frames fs) (files d) else files d)
    end
  end.

(** the columns the trial scripts write: run_narrow_passage_clearance_trial.py 202-215, run_straight_line_optimality_trial.py 129-141,
    run_knn_radius_trial.py 41-45 *)
Definition narrow_cols : list string :=
  ["prm_type"; "dim"; "delta_clearance"; "n_samples"; "conn_lb"; "conn_ub"; "thresh_path_dist"; "thresh_path_len"; "build_time"; "check_time"; "info"; "seed"].
Definition line_cols : list string := ["n_samples"; "rad_lbs"; "rad_ubs"; "info"; "build_time"; "check_time"; "dim"; "delta_clearance"; "seed"].
Definition knn_cols : list string := ["dim"; "n_samples"; "n_neighbors"; "eff_rad"; "build_time"; "delta_clearance"; "seed"].
