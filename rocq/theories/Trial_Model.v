(** Trials of the experiment scripts

    exps/run_narrow_passage_clearance_trial.py   lines 20-216
    exps/run_straight_line_optimality_trial.py   lines 67-146
    exps/run_knn_radius_trial.py                 lines 15-47

    The roadmap is abstract: after growing it, a query is a function of the
    connection setting ([None]: empty path; [Some]: distance and length).  Times
    and printing are left out. *)

From Coq Require Import List Bool ZArith QArith Lia.
Import ListNotations.
Local Open Scope Z_scope.

Inductive prm_kind := RadiusPrm | KnnPrm.

(** What the roadmap is set to before a query: an entry of nn_ks / nn_rads
    (narrow 144-149, 119) or max_connections itself (narrow 98, 102) *)
Inductive setting := At (i : Z) | MaxConn.

(** The info column (narrow 92, 109, 124, 129, 137) *)
Inductive info :=
| NoInfo
| NoPaths              (* 'no paths found for all connection settings' *)
| OneNoPath            (* 'only one connection; and no path found.' *)
| OnePath              (* 'only one connection; and path found!' *)
| WentWrong            (* 'something went wrong...' *)
| NoConnections.       (* 'no connections made' *)

Definition found := (Q * Z)%type.     (* dist, len(path) *)

(** State of the search when the loop is left; None is np.nan.  [asked] lists
    the settings queried. *)
Record outcome := {
  o_lb : option Z;
  o_ub : option Z;
  o_thresh : option found;
  o_info : info;
  o_asked : list setting
}.

Section Narrow.
Variable kind : prm_kind.
Variable size : Z.                          (* nn_ks.size / nn_rads.size *)
Variable query : setting -> option found.

(** narrow 93-163, the while loop; [None] is out of fuel *)
Fixpoint conn_search (fuel : nat) (lb ub : Z) (thresh : option found) (asked : list setting) :
  option outcome :=
  match fuel with
  | O => None
  | S fuel' =>
    if lb + 1 =? ub then
      (* 94-115: for both kinds the test is i_conn_ub >= size - 1 *)
      if size - 1 <=? ub then
        match query MaxConn with
        | None => Some {| o_lb := Some (size - 1); o_ub := None; o_thresh := thresh;
                          o_info := NoPaths; o_asked := asked ++ [MaxConn] |}
        | Some d => Some {| o_lb := Some lb; o_ub := Some ub; o_thresh := Some d;
                            o_info := NoInfo; o_asked := asked ++ [MaxConn] |}
        end
      else Some {| o_lb := Some lb; o_ub := Some ub; o_thresh := thresh;
                   o_info := NoInfo; o_asked := asked |}
    else if ub <=? lb then
      (* 117-139 *)
      match kind with
      | RadiusPrm =>
        if lb =? ub then
          match query (At (size - 1)) with
          | None => Some {| o_lb := Some (size - 1); o_ub := None; o_thresh := thresh;
                            o_info := OneNoPath; o_asked := asked ++ [At (size - 1)] |}
          | Some d => Some {| o_lb := None; o_ub := Some (size - 1); o_thresh := Some d;
                              o_info := OnePath; o_asked := asked ++ [At (size - 1)] |}
          end
        else Some {| o_lb := Some lb; o_ub := Some ub; o_thresh := thresh;
                     o_info := WentWrong; o_asked := asked |}
      | KnnPrm => Some {| o_lb := Some lb; o_ub := Some ub; o_thresh := thresh;
                          o_info := WentWrong; o_asked := asked |}
      end
    else
      (* 141-163 *)
      let test := (lb + ub) / 2 in
      match query (At test) with
      | Some d => conn_search fuel' lb test (Some d) (asked ++ [At test])
      | None => conn_search fuel' test ub thresh (asked ++ [At test])
      end
  end.

(** narrow 57-58 / 63-64, 89-91: the initial interval and thresholds.  A radius
    roadmap without connections does not get here (lines 69-82). *)
Definition narrow_search : option outcome :=
  conn_search (S (Z.to_nat size)) 0 (size - 1) None [].
End Narrow.

(** narrow 56: 2 ** np.arange(2, top + 1), top = round(math.log2(max_connections)) *)
Definition knn_conns (top : Z) : list Q :=
  map (fun j => inject_Z (2 ^ Z.of_nat j)) (seq 2 (Z.to_nat (top - 1))).

(** ** Records and the data frame *)

(** A cell of the result table.  Times are all [CTime]. *)
Inductive cell :=
| CKind (k : prm_kind) | CDim (d : Z) | CClear (q : Q) | CSamples (n : Z)
| CConn (q : Q) | CDist (q : Q) | CLen (n : Z) | CTime | CInfo (i : info) | CSeed (s : nat)
| CZero | CNan.

Inductive column :=
| ColKind | ColDim | ColClear | ColSamples | ColConnLb | ColConnUb | ColDist | ColLen
| ColBuild | ColCheck | ColInfo | ColSeed.

(** narrow 195-208 *)
Definition columns := [ColKind; ColDim; ColClear; ColSamples; ColConnLb; ColConnUb; ColDist; ColLen;
                       ColBuild; ColCheck; ColInfo; ColSeed].

(** Python indexing l[i]; [None] is IndexError *)
Definition py_index {A} (l : list A) (i : Z) : option A :=
  let n := Z.of_nat (length l) in
  if (0 <=? i) && (i <? n) then nth_error l (Z.to_nat i)
  else if (i <? 0) && (0 <=? n + i) then nth_error l (Z.to_nat (n + i))
  else None.

(** narrow 168-176: nan stays nan, an index is looked up *)
Definition conn_cell (conns : list Q) (i : option Z) : option cell :=
  match i with
  | None => Some CNan
  | Some j => match py_index conns j with Some q => Some (CConn q) | None => None end
  end.

(** narrow 70-81: the ten-field record *)
Definition short_record (kind : prm_kind) (dim : Z) (clear : Q) (n : Z) (seed : nat) : list cell :=
  [CKind kind; CDim dim; CClear clear; CSamples n; CNan; CNan; CTime; CZero;
   CInfo NoConnections; CSeed seed].

(** narrow 178-191: the twelve-field record *)
Definition full_record (kind : prm_kind) (dim : Z) (clear : Q) (n : Z) (seed : nat)
  (failed succeed : cell) (o : outcome) : list cell :=
  [CKind kind; CDim dim; CClear clear; CSamples n; failed; succeed;
   match o_thresh o with Some (d, _) => CDist d | None => CNan end;
   match o_thresh o with Some (_, l) => CLen l | None => CNan end;
   CTime; CTime; CInfo (o_info o); CSeed seed].

(** narrow 47-191, one pass of the for loop: [conns] is nn_ks, or
    np.unique(nn_rads) after growing to n samples. *)
Definition narrow_record (kind : prm_kind) (dim : Z) (clear : Q) (seed : nat)
  (conns : Z -> list Q) (query : Z -> setting -> option found) (n : Z) : option (list cell) :=
  match kind, conns n with
  | RadiusPrm, [] => Some (short_record kind dim clear n seed)
  | _, cs =>
    match narrow_search kind (Z.of_nat (length cs)) (query n) with
    | None => None
    | Some o =>
      match conn_cell cs (o_lb o), conn_cell cs (o_ub o) with
      | Some failed, Some succeed => Some (full_record kind dim clear n seed failed succeed o)
      | _, _ => None
      end
    end
  end.

Fixpoint all_some {A} (l : list (option A)) : option (list A) :=
  match l with
  | [] => Some []
  | None :: _ => None
  | Some x :: l' => match all_some l' with Some r => Some (x :: r) | None => None end
  end.

(** pd.DataFrame(list of tuples, columns=...): short rows are filled up with
    missing values to the longest row, whose length must be the number of
    columns (otherwise ValueError, [None]); no rows give an empty frame. *)
Definition pad (n : nat) (row : list cell) : list cell := row ++ repeat CNan (n - length row).

Definition data_frame (rows : list (list cell)) : option (list (list cell)) :=
  match rows with
  | [] => Some []
  | _ => let w := list_max (map (@length cell) rows) in
         if Nat.eqb w (length columns) then Some (map (pad w) rows) else None
  end.

(** narrow 20-216 *)
Definition narrow_trial (kind : prm_kind) (dim : Z) (clear : Q) (seed : nat)
  (conns : Z -> list Q) (query : Z -> setting -> option found) (schedule : list Z) :
  option (list (list cell)) :=
  match all_some (map (narrow_record kind dim clear seed conns query) schedule) with
  | None => None
  | Some rows => data_frame rows
  end.

(** df['seed']: the last column *)
Definition seed_of (row : list cell) : option nat :=
  match nth 11 row CNan with CSeed s => Some s | _ => None end.

(** ** The straight-line search, straight-line 73-118 *)

Section Line.
Variable check : Z -> bool.    (* is_ed_complete at nn_rads[i] *)

(** 89-113: the interval at the end, whether 'something went wrong', the indices checked *)
Fixpoint rad_search (fuel : nat) (lb ub : Z) (asked : list Z) : option (Z * Z * bool * list Z) :=
  match fuel with
  | O => None
  | S fuel' =>
    if lb + 1 =? ub then Some (lb, ub, false, asked)
    else if ub <=? lb then Some (lb, ub, true, asked)
    else let test := (lb + ub) / 2 in
         if check test then rad_search fuel' lb test (asked ++ [test])
         else rad_search fuel' test ub (asked ++ [test])
  end.

(** 78-79, 119-120: start at 1 and size - 1, look both ends up; [None] is an
    IndexError (or out of fuel) *)
Definition line_search (nn_rads : list Q) : option (Q * Q * bool * list Z) :=
  let size := Z.of_nat (length nn_rads) in
  match rad_search (S (Z.to_nat size)) 1 (size - 1) [] with
  | None => None
  | Some (lb, ub, wrong, asked) =>
    match py_index nn_rads lb, py_index nn_rads ub with
    | Some rlb, Some rub => Some (rlb, rub, wrong, asked)
    | _, _ => None
    end
  end.
End Line.

(** ** The knn-radius trial *)

Inductive knn_result {A} :=
| KnnRecords (l : list A)
| KnnNoNeighbors        (* np.max of an empty list *)
| KnnIndexError.        (* column outside dist_list *)
Arguments knn_result : clear implicits.

(** knn 34-40: the inner loop over the neighbor schedule with dist_list of
    [k] columns; [eff s k c] is np.min(dist_list[:, c]) *)
Fixpoint knn_columns (s k : Z) (eff : Z -> Q) (schedule : list Z) : option (list (Z * Z * Q)) :=
  match schedule with
  | [] => Some []
  | nn :: rest =>
    if s <? nn then Some []
    else
      let c := nn - 1 in
      if (c <? k) && (- k <=? c) then
        match knn_columns s k eff rest with
        | Some l => Some ((s, nn, eff (if c <? 0 then k + c else c)) :: l)
        | None => None
        end
      else None
  end.

(** knn 20-40 *)
Fixpoint knn_trial (eff : Z -> Z -> Z -> Q) (neighbors : list Z) (samples : list Z) :
  knn_result (Z * Z * Q) :=
  match samples with
  | [] => KnnRecords []
  | s :: rest =>
    match filter (fun nn => nn <? s) neighbors with
    | [] => KnnNoNeighbors
    | nn0 :: more =>
      let k := fold_left Z.max more nn0 in
      match knn_columns s k (eff s k) neighbors with
      | None => KnnIndexError
      | Some l => match knn_trial eff neighbors rest with
                  | KnnRecords r => KnnRecords (l ++ r)
                  | e => e
                  end
      end
    end
  end.

(** ** The environment of the knn trial *)

(** nonasymptotic/envs.py 61-73: StraightLine(dim, delta_clearance, length, seed) *)
Record line_env := { e_dim : Z; e_clear : Q; e_length : Q; e_seed : option nat }.

Definition straight_line_env (dim : Z) (clear : Q) (len : option Q) (seed : option nat) : option line_env :=
  if (2 <=? dim) && Qle_bool 0 clear then
    Some {| e_dim := dim; e_clear := clear;
            e_length := match len with Some l => l | None => 1 end; e_seed := seed |}
  else None.

(** knn 16: StraightLine(dim, delta_clear, rng_seed), positional *)
Definition knn_trial_env (dim : Z) (clear : Q) (rng_seed : nat) : option line_env :=
  straight_line_env dim clear (Some (inject_Z (Z.of_nat rng_seed))) None.

(** straight-line 54: keywords dim, delta_clearance, seed *)
Definition line_trial_env (dim : Z) (clear : Q) (rng_seed : nat) : option line_env :=
  straight_line_env dim clear None (Some rng_seed).
