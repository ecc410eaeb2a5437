(** The narrow-passage trial on the roadmaps of Prm_Model

    exps/run_narrow_passage_clearance_trial.py   lines 20-216

    Trial_Model takes the outcomes of the queries as a function of the connection setting.  Here
    the trial runs on the modelled roadmaps: growing, setting the connections and querying are
    the calls of Prm_Model, and the roadmap's state goes from one call to the next.  The query's
    end points (lines 84-88) are parameters.  Times and printing are left out. *)

From Coq Require Import List Bool ZArith QArith.
From Verif Require Import NkGraph_Model Prm_Model Trial_Model.
Import ListNotations.
Local Open Scope Z_scope.

(** np.unique (narrow 62): ascending, equal values once. *)
Fixpoint uinsert (x : Q) (l : list Q) : list Q :=
  match l with
  | [] => [x]
  | y :: l' => if Qeq_bool x y then l else if Qle_bool x y then x :: l else y :: uinsert x l'
  end.
Definition np_unique (l : list Q) : list Q := fold_right uinsert [] l.

(** ** The search with a roadmap as state *)
Section Search.
  Context {S : Type}.
  Variable kind : prm_kind.
  Variable size : Z.
  (** set the connections and query; [None] is an empty path *)
  Variable ask : S -> setting -> res (option found) * S.

  (** narrow 93-163, branch by branch as [conn_search]; an exception leaves the loop. *)
  Fixpoint conn_run (fuel : nat) (lb ub : Z) (thresh : option found) (asked : list setting) (st : S)
    : option (res outcome * S) :=
    match fuel with
    | O => None
    | Datatypes.S fuel' =>
      if lb + 1 =? ub then
        if size - 1 <=? ub then
          match ask st MaxConn with
          | (Err e, st1) => Some (Err e, st1)
          | (Ok None, st1) =>
              Some (Ok {| o_lb := Some (size - 1); o_ub := None; o_thresh := thresh;
                          o_info := NoPaths; o_asked := asked ++ [MaxConn] |}, st1)
          | (Ok (Some d), st1) =>
              Some (Ok {| o_lb := Some lb; o_ub := Some ub; o_thresh := Some d;
                          o_info := NoInfo; o_asked := asked ++ [MaxConn] |}, st1)
          end
        else Some (Ok {| o_lb := Some lb; o_ub := Some ub; o_thresh := thresh;
                         o_info := NoInfo; o_asked := asked |}, st)
      else if ub <=? lb then
        match kind with
        | RadiusPrm =>
          if lb =? ub then
            match ask st (At (size - 1)) with
            | (Err e, st1) => Some (Err e, st1)
            | (Ok None, st1) =>
                Some (Ok {| o_lb := Some (size - 1); o_ub := None; o_thresh := thresh;
                            o_info := OneNoPath; o_asked := asked ++ [At (size - 1)] |}, st1)
            | (Ok (Some d), st1) =>
                Some (Ok {| o_lb := None; o_ub := Some (size - 1); o_thresh := Some d;
                            o_info := OnePath; o_asked := asked ++ [At (size - 1)] |}, st1)
            end
          else Some (Ok {| o_lb := Some lb; o_ub := Some ub; o_thresh := thresh;
                           o_info := WentWrong; o_asked := asked |}, st)
        | KnnPrm => Some (Ok {| o_lb := Some lb; o_ub := Some ub; o_thresh := thresh;
                                o_info := WentWrong; o_asked := asked |}, st)
        end
      else
        let test := (lb + ub) / 2 in
        match ask st (At test) with
        | (Err e, st1) => Some (Err e, st1)
        | (Ok (Some d), st1) => conn_run fuel' lb test (Some d) (asked ++ [At test]) st1
        | (Ok None, st1) => conn_run fuel' test ub thresh (asked ++ [At test]) st1
        end
    end.

  (** narrow 57-58 / 63-64 and 89-163 *)
  Definition search_run (st : S) : option (res outcome * S) :=
    conn_run (Datatypes.S (Z.to_nat size)) 0 (size - 1) None [] st.
End Search.

(** narrow 165-191: the record of one pass, [IndexError] when an index is out of range *)
Definition record_of (kind : prm_kind) (dim : Z) (clear : Q) (n : Z) (seed : nat) (conns : list Q)
  (o : outcome) : res (list cell) :=
  match conn_cell conns (o_lb o), conn_cell conns (o_ub o) with
  | Some failed, Some succeed => Ok (full_record kind dim clear n seed failed succeed o)
  | _, _ => Err IndexError
  end.

(** One pass for every sample count (narrow 47), collecting the records. *)
Fixpoint all_passes {S} (pass : S -> nat -> option (res (list cell) * S)) (st : S) (schedule : list nat)
  : option (res (list (list cell)) * S) :=
  match schedule with
  | [] => Some (Ok [], st)
  | n :: schedule' =>
    match pass st n with
    | None => None
    | Some (Err e, st1) => Some (Err e, st1)
    | Some (Ok row, st1) =>
      match all_passes pass st1 schedule' with
      | Some (Ok rows, st2) => Some (Ok (row :: rows), st2)
      | other => other
      end
    end
  end.

Section Run.
  Context {P : Type}.
  Variable dist : P -> P -> Q.
  Variable check : P -> P -> bool.
  Variable smp : nat -> P.
  Variable sp : sp_oracle.
  Variables start goal : P.

  (** dist, path = prm.query_best_solution(...); path_len = len(path) (narrow 106-107 and
      alike).  A nonempty path of infinite length does not occur (an error value here). *)
  Definition answer (a : option Q * list P) : res (option found) :=
    match a with
    | (_, []) => Ok None
    | (Some d, path) => Ok (Some (d, Z.of_nat (length path)))
    | (None, _) => Err RuntimeError
    end.

  (** ** Radius roadmap *)

  (** The radius of a setting: max_connections (narrow 102) or an entry (narrow 120, 148-149). *)
  Definition setting_radius (max_r : Q) (rads : list Q) (s : setting) : option Q :=
    match s with MaxConn => Some max_r | At i => py_index rads i end.

  (** narrow 102-107, 120-122, 147-153 *)
  Definition ask_radius (max_r : Q) (rads : list Q) (st : fc_state (P := P)) (s : setting)
    : res (option found) * fc_state :=
    match setting_radius max_r rads s with
    | None => (Err IndexError, st)
    | Some r =>
      match fc_set_radius dist check smp st r with
      | (Err e, st1) => (Err e, st1)
      | (Ok _, st1) =>
        match fc_query dist check sp st1 start goal with
        | (Err e, st2) => (Err e, st2)
        | (Ok a, st2) => (answer a, st2)
        end
      end
    end.

  (** narrow 60-191 for prm_type 'radius', one sample count *)
  Definition radius_pass (max_r : Q) (dim : Z) (clear : Q) (seed : nat) (st : fc_state (P := P)) (n : nat)
    : option (res (list cell) * fc_state) :=
    let st0 := mkFc max_r (fc_samples st) (fc_graph st) (fc_next st) in   (* line 60 *)
    match fc_grow dist check smp st0 n with
    | (Err e, st1) => Some (Err e, st1)
    | (Ok ds, st1) =>
      let rads := np_unique ds in
      match rads with
      | [] => Some (Ok (short_record RadiusPrm dim clear (Z.of_nat n) seed), st1)
      | _ =>
        match search_run RadiusPrm (Z.of_nat (length rads)) (ask_radius max_r rads) st1 with
        | None => None
        | Some (Err e, st2) => Some (Err e, st2)
        | Some (Ok o, st2) => Some (record_of RadiusPrm dim clear (Z.of_nat n) seed rads o, st2)
        end
      end
    end.

  (** narrow 20-216 for prm_type 'radius': the rows of the data frame; [Ok None] is the
      ValueError of a frame whose rows are all too short. *)
  Definition radius_trial (max_r : Q) (dim : Z) (clear : Q) (seed : nat) (pos : nat) (schedule : list nat)
    : option (res (option (list (list cell)))) :=
    match all_passes (radius_pass max_r dim clear seed) (fc_new max_r pos) schedule with
    | None => None
    | Some (Err e, _) => Some (Err e)
    | Some (Ok rows, _) => Some (Ok (data_frame rows))
    end.

  (** ** Neighbour roadmap *)
  Variable ann : list P -> nat -> rows.

  (** The number of neighbours of a setting: max_connections (narrow 98) or an entry of nn_ks
      (narrow 144-145). *)
  Definition setting_k (max_k : nat) (ks : list Q) (s : setting) : option nat :=
    match s with
    | MaxConn => Some max_k
    | At i => match py_index ks i with Some q => Some (Z.to_nat (Qnum q)) | None => None end
    end.

  Definition ask_knn (max_k : nat) (ks : list Q) (st : nn_state (P := P)) (s : setting)
    : res (option found) * nn_state :=
    match setting_k max_k ks s with
    | None => (Err IndexError, st)
    | Some k =>
      match nn_set_k st k with
      | (Err e, st1) => (Err e, st1)
      | (Ok _, st1) =>
        match nn_query dist check sp st1 start goal with
        | (Err e, st2) => (Err e, st2)
        | (Ok a, st2) => (answer a, st2)
        end
      end
    end.

  (** narrow 52-191 for prm_type 'knn', one sample count; [top] is round(math.log2(max_connections)) *)
  Definition nearest_pass (max_k : nat) (top : Z) (dim : Z) (clear : Q) (seed : nat) (st : nn_state (P := P)) (n : nat)
    : option (res (list cell) * nn_state) :=
    let st0 := mkNn (nn_max_k st) (nn_max_k st) (nn_conn_r st) (nn_trunc st) (nn_cert st) (nn_samples st)
                    (nn_graph st) (nn_master st) (nn_cache st) (nn_next st) in   (* line 54 *)
    match nn_grow check smp ann st0 n with
    | (Err e, st1) => Some (Err e, st1)
    | (Ok _, st1) =>
      let ks := knn_conns top in
      match search_run KnnPrm (Z.of_nat (length ks)) (ask_knn max_k ks) st1 with
      | None => None
      | Some (Err e, st2) => Some (Err e, st2)
      | Some (Ok o, st2) => Some (record_of KnnPrm dim clear (Z.of_nat n) seed ks o, st2)
      end
    end.

  (** narrow 20-216 for prm_type 'knn'; the roadmap is not cut to the certified radius (line 35). *)
  Definition nearest_trial (max_k : nat) (top : Z) (dim : Z) (clear : Q) (seed : nat) (pos : nat) (schedule : list nat)
    : option (res (option (list (list cell)))) :=
    match all_passes (nearest_pass max_k top dim clear seed) (nn_new max_k false pos) schedule with
    | None => None
    | Some (Err e, _) => Some (Err e)
    | Some (Ok rows, _) => Some (Ok (data_frame rows))
    end.
End Run.
