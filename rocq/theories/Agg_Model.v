(** Model of exps/aggregate_runtimes_for_tuning.py: the result files of one experiment directory
    are concatenated into one table, which is written next to them; the time statistics leave
    out the first row of every file. *)
From Coq Require Import List Bool Arith String.
Import ListNotations.
Open Scope string_scope.

Section Agg.
Variable row : Type.
(** a directory: file names and the rows of the tables, in the order glob lists them *)
Definition directory := list (string * list row).

(** glob.glob(dir + '/out*.csv'), line 20 *)
Definition ends_with (suffix s : string) : bool :=
  (length suffix <=? length s)%nat && String.eqb (substring (length s - length suffix) (length suffix) s) suffix.
Definition is_out_csv (name : string) : bool := prefix "out" name && ends_with ".csv" name.
Definition mini_out_dfs (d : directory) : list (list row) := map snd (filter (fun f => is_out_csv (fst f)) d).

(** to_csv: replaces or creates the file *)
Fixpoint write_csv (name : string) (rows : list row) (d : directory) : directory :=
  match d with
  | [] => [(name, rows)]
  | (n, r) :: d' => if String.eqb n name then (n, rows) :: d' else (n, r) :: write_csv name rows d'
  end.

(** lines 24-27 *)
Definition agg_name (name_prefix : string) (df_out_name : option string) : string :=
  match df_out_name with Some s => s | None => name_prefix end ++ "_agg_out.csv".

(** lines 20-27; [None]: pd.concat of an empty list raises *)
Definition aggregate (name_prefix : string) (df_out_name : option string) (d : directory) : option directory :=
  match mini_out_dfs d with
  | [] => None
  | dfs => Some (write_csv (agg_name name_prefix df_out_name) (List.concat dfs) d)
  end.

(** lines 30-31: df.tail(df.shape[0] - 1).  For an empty table, tail(-1) is empty. *)
Definition tail_rows (n : nat) (df : list row) : list row := skipn (List.length df - n) df.
Definition cut_big_out (d : directory) : list row :=
  List.concat (map (fun df => tail_rows (List.length df - 1) df) (mini_out_dfs d)).
End Agg.
